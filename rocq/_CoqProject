-Q theories Verif
theories/Py.v
theories/PyFacts.v
theories/Regex.v
theories/Constraint.v
theories/PyFloat.v
theories/Distribution.v
theories/DiceModel.v
theories/Expr.v
theories/Lexer.v
theories/Parser.v
theories/Lalr.v
theories/Interp.v
theories/Instances.v
theories/ConstraintFacts.v
theories/DistFacts.v
theories/SpecConstraint.v
theories/ConstraintProofs.v
theories/PropsConstraint.v
theories/RegexFacts.v
theories/SpecDice.v
theories/DiceFacts.v
theories/DropKeepFacts.v
theories/SpecNotation.v
theories/NotationFacts.v
theories/SpecOps.v
theories/DiceProofs.v
theories/PropsDice.v
theories/TagFacts.v
theories/SpecProgram.v
theories/ExprFacts.v
theories/StateFacts.v
theories/ProgramFacts.v
theories/JointFacts.v
theories/RaiseFacts.v
theories/SpecGrammar.v
theories/ParserFacts.v
theories/SpecLexer.v
theories/LexFacts.v
theories/LexProofs.v
theories/MunchProofs.v
theories/SpaceProofs.v
theories/WfFacts.v
theories/SyntaxProofs.v
theories/SpecErrors.v
theories/ErrorProofs.v
theories/PropsSyntax.v
theories/LalrProofs.v
theories/PropsLalr.v
theories/SpecInterp.v
theories/InterpRun.v
theories/SpecAlgebra.v
theories/AlgebraFacts.v
theories/ProgramProofs.v
theories/SpecRoll.v
theories/RollFacts.v
theories/RollProofs.v
theories/ExtFacts.v
theories/ExtProofs.v
theories/SpecText.v
theories/TextProofs.v
theories/Checks.v
theories/PropsText.v
theories/PropsProgram.v
theories/PropsRoll.v
theories/PropsExt.v
theories/SpecCalls.v
theories/CallFacts.v
theories/CallProofs.v
theories/ReadProofs.v
theories/StateProofs.v
theories/SpecFrame.v
theories/FrameProofs.v
theories/CheckCalls.v
theories/PropsState.v
theories/PropsFrame.v
theories/FloatFacts.v
theories/SpecProb.v
theories/FloatProofs.v
theories/ProbProofs.v
theories/FigureProofs.v
theories/PlotProofs.v
theories/PropsProb.v
theories/SpecCost.v
theories/CostProofs.v
theories/PropsCost.v
theories/Random.v
theories/SpecRandom.v
theories/RandomFacts.v
theories/RandomProofs.v
theories/PropsRandom.v
theories/SpecNear.v
theories/NearFacts.v
theories/NearProofs.v
theories/PropsNear.v
theories/Show.v
theories/SpecSeed.v
theories/SeedFacts.v
theories/SeedProofs.v
theories/PropsSeed.v
theories/SpecExtreme.v
theories/ExtremeFacts.v
theories/SpecInline.v
theories/InlineFacts.v
theories/InlineProofs.v
theories/PropsInline.v
theories/SpecRename.v
theories/RenameProofs.v
theories/PropsRename.v
theories/Objects.v
theories/SpecObjects.v
theories/ObjectProofs.v
theories/PropsObjects.v
theories/PreparedProofs.v
theories/PropsPrepared.v
theories/SpecSame.v
theories/SameProofs.v
theories/PropsSame.v
theories/SpecExchange.v
theories/ExchangeProofs.v
theories/PropsExchange.v
theories/ShowProofs.v
theories/PropsShow.v
theories/SpecBuilt.v
theories/BuiltProofs.v
theories/PropsBuilt.v
theories/SpecBetter.v
theories/BetterProofs.v
theories/PropsBetter.v
theories/SpecFormula.v
theories/FormulaProofs.v
theories/PropsFormula.v
theories/SpecCases.v
theories/CaseProofs.v
theories/PropsCases.v
theories/SpecSum.v
theories/SumProofs.v
theories/PropsSum.v
theories/PartProofs.v
theories/PropsPart.v
theories/SpecRepeat.v
theories/RepeatProofs.v
theories/PropsRepeat.v
theories/SpecAfresh.v
theories/AfreshProofs.v
theories/PropsAfresh.v
theories/SpecSplit.v
theories/SplitProofs.v
theories/PropsSplit.v
theories/SpecPool.v
theories/PoolProofs.v
theories/PropsPool.v
theories/SpecRelation.v
theories/RelationProofs.v
theories/PropsRelation.v
theories/SpecCount.v
theories/CountProofs.v
theories/PropsCount.v
theories/MomentProofs.v
theories/PropsMoment.v
theories/TailProofs.v
theories/PropsTail.v
theories/SpecRollCount.v
theories/RollCountProofs.v
theories/PropsRollCount.v
theories/SpecRollRelation.v
theories/RollRelationProofs.v
theories/PropsRollRelation.v
theories/RepoTests.v
