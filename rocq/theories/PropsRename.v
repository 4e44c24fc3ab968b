(** * Property C61: the names of the variables do not matter *)
From Verif Require Import Py PyFloat Constraint Distribution DiceModel Expr Lexer Parser Interp Random SpecCalls SpecRandom SpecSeed SpecRename Instances SeedProofs RenameProofs.

(** ** C61 Take any session and replace the names in its lines by others, different names by different names and stdout by
    itself: all that is seen is the same, under the new names *)
Theorem C61_names : forall R1 R2 (G : Generator) rho acts acts' (g : gen G), (forall a b, rho a = rho b -> a = b) -> rho stdout = stdout ->
  Forall2 (renamed_action rho) acts acts' -> session R2 G acts' (start R2 G g) = map (rename_sight rho) (session R1 G acts (start R1 G g)).
Proof. exact session_renamed. Qed.
Print Assumptions C61_names.

Example C61_nonvacuous : let rho := swap $"a" $"a_" in
  (forall a b, rho a = rho b -> a = b) /\ rho stdout = stdout /\ Forall2 (renamed_action rho) session_before session_after /\
  forall R, match session R list_gen session_after (start R list_gen []) with
            | [SeenDistributions (Ok l); SeenConstants r; SeenCost c] =>
                map (fun nv => (fst nv, v_result_map (snd nv))) l = [($"a_", [(1, 1); (2, 1)]); ($"stdout", [(1, 1); (2, 1)]); ($"a", [(2, 1); (4, 1)])] /\
                r = Raise KeyError /\ c = Raise ValueError
            | _ => False
            end.
Proof.
  split; [apply swap_inj|]. split; [vm_compute; reflexivity|]. split.
  - unfold session_before, session_after.
    repeat match goal with
           | |- Forall2 _ (_ :: _) _ => apply Forall2_cons
           | |- Forall2 _ [] _ => apply Forall2_nil
           | |- renamed_action _ _ _ => split; [reflexivity|]; cbn [renamed_call]
           | |- renamed _ _ _ => left; eexists; split; vm_compute; reflexivity
           end.
  - intros R. rewrite (same_session R rt_fwd). vm_compute. repeat split.
Qed.
