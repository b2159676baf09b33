-Q theories Verif
theories/Model/Base.v
theories/Model/Order.v
theories/Model/HashSet.v
theories/Proofs/OrderFacts.v
theories/Proofs/HashSetFacts.v
theories/Model/Object.v
theories/Model/Proposition.v
theories/Model/State.v
theories/Proofs/StateFacts.v
theories/Spec/SetSpec.v
theories/Proofs/StateHistory.v
theories/Properties/StateProps.v
theories/Model/CombinationGenerator.v
theories/Spec/CartesianSpec.v
theories/Proofs/CombinationFacts.v
theories/Proofs/CombinationMoves.v
theories/Properties/CombinationProps.v
theories/Model/ParameterGenerator.v
theories/Spec/TypingSpec.v
theories/Proofs/ParameterFacts.v
theories/Properties/ParameterProps.v
theories/Model/Syntax.v
theories/Model/Formula.v
theories/Spec/FormulaSpec.v
theories/Proofs/FormulaFacts.v
theories/Properties/FormulaProps.v
theories/Model/Effects.v
theories/Spec/EffectSpec.v
theories/Proofs/EffectFacts.v
theories/Proofs/EffectLink.v
theories/Proofs/EffectTheorems.v
theories/Proofs/EffectExamples.v
theories/Model/Derived.v
theories/Spec/DerivedSpec.v
theories/Proofs/DerivedFacts.v
theories/Proofs/DerivedExamples.v
theories/Properties/EffectProps.v
theories/Properties/DerivedProps.v
theories/Model/NormalForm.v
theories/Spec/NormalFormSpec.v
theories/Proofs/NormalFormFacts.v
theories/Proofs/NormalFormGoal.v
theories/Proofs/NormalFormEffects.v
theories/Proofs/NormalFormTheorems.v
theories/Proofs/NormalFormExamples.v
theories/Properties/NormalFormProps.v
theories/Model/Consistency.v
theories/Model/Construct.v
theories/Proofs/ConstructFacts.v
theories/Spec/AxiomSpec.v
theories/Proofs/AxiomZero.v
theories/Proofs/AxiomLoops.v
theories/Proofs/AxiomMeaning.v
theories/Proofs/AxiomPartial.v
theories/Proofs/AxiomReject.v
theories/Proofs/AxiomExtend.v
theories/Proofs/AxiomTotal.v
theories/Proofs/AxiomSound.v
theories/Proofs/AxiomExamples.v
theories/Proofs/AxiomTerminates.v
theories/Proofs/AxiomLimit.v
theories/Properties/AxiomProps.v
theories/Properties/TerminationProps.v
theories/Model/Text.v
theories/Spec/TextSpec.v
theories/Proofs/TextFacts.v
theories/Properties/TextProps.v
theories/Model/Search.v
theories/Spec/SearchSpec.v
theories/Proofs/SearchFacts.v
theories/Proofs/SearchTrail.v
theories/Proofs/SearchRuns.v
theories/Proofs/SearchTheorems.v
theories/Properties/SearchProps.v
theories/Model/Pddl.v
theories/Spec/PddlSpec.v
theories/Proofs/PddlFacts.v
theories/Proofs/PddlTheorems.v
theories/Proofs/PddlListing.v
theories/Proofs/PddlHistory.v
theories/Proofs/PddlExamples.v
theories/Properties/PddlProps.v
theories/Model/Planner.v
theories/Spec/PlannerSpec.v
theories/Proofs/SearchInv.v
theories/Proofs/PlannerLoops.v
theories/Proofs/PlannerFacts.v
theories/Proofs/PlannerTheorems.v
theories/Proofs/PlannerExamples.v
theories/Properties/PlannerProps.v
theories/Model/PlannerSteps.v
theories/Spec/CursorSpec.v
theories/Proofs/PlannerCursor.v
theories/Proofs/CursorTheorems.v
theories/Proofs/CursorExamples.v
theories/Properties/CursorProps.v
theories/Model/StateIndex.v
theories/Spec/IndexSpec.v
theories/Proofs/IndexFacts.v
theories/Proofs/IndexTheorems.v
theories/Proofs/IndexRound.v
theories/Proofs/IndexExamples.v
theories/Properties/IndexProps.v
theories/Model/Objects.v
theories/Spec/ObjectsSpec.v
theories/Proofs/ObjectsFacts.v
theories/Proofs/ObjectsExamples.v
theories/Properties/ObjectsProps.v
theories/Proofs/NullaryFacts.v
theories/Properties/NullaryProps.v
theories/Model/Problem.v
theories/Spec/ProblemSpec.v
theories/Proofs/ProblemFacts.v
theories/Properties/ProblemProps.v
theories/Spec/SequentialSpec.v
theories/Proofs/SequentialFacts.v
theories/Properties/SequentialProps.v
theories/Model/Normalize.v
theories/Spec/NormalizeSpec.v
theories/Proofs/NormalizeFacts.v
theories/Proofs/NormalizeExamples.v
theories/Properties/NormalizeProps.v
theories/Model/Python.v
theories/Spec/PythonSpec.v
theories/Proofs/PythonFacts.v
theories/Proofs/PythonTheorems.v
theories/Properties/PythonProps.v
theories/Model/Print.v
theories/Spec/PrintSpec.v
theories/Proofs/PrintFormula.v
theories/Proofs/PrintState.v
theories/Proofs/PrintAxiom.v
theories/Spec/ConstructSpec.v
theories/Proofs/ConstructTheorems.v
theories/Model/Listing.v
theories/Spec/ListingSpec.v
theories/Proofs/ListingFacts.v
theories/Proofs/ListingTheorems.v
theories/Proofs/ListingExamples.v
theories/Properties/PrintProps.v
theories/Model/PySearch.v
theories/Spec/PySearchSpec.v
theories/Proofs/PySearchFacts.v
theories/Properties/PySearchProps.v
theories/Model/UniqueVector.v
theories/Spec/VectorSpec.v
theories/Proofs/VectorFacts.v
theories/Properties/VectorProps.v
theories/Model/Load.v
theories/Spec/LoadSpec.v
theories/Proofs/LoadFacts.v
theories/Properties/LoadProps.v
theories/Spec/DirectSpec.v
theories/Proofs/DirectFacts.v
theories/Properties/DirectProps.v
theories/Model/App.v
theories/Spec/AppSpec.v
theories/Proofs/AppFacts.v
theories/Proofs/AppListing.v
theories/Properties/AppProps.v
theories/Spec/PlainSpec.v
theories/Proofs/PlainFacts.v
theories/Proofs/PlainExamples.v
theories/Properties/PlainProps.v
theories/Model/Bundled.v
theories/Spec/BundledSpec.v
theories/Proofs/BundledFacts.v
theories/Proofs/BundledExamples.v
theories/Properties/BundledProps.v
theories/Properties/ConstructProps.v
theories/Properties/ListingProps.v
theories/Spec/ReadingSpec.v
theories/Proofs/ReadingFacts.v
theories/Proofs/ReadingTheorems.v
theories/Properties/ReadingProps.v
theories/Model/PyNode.v
theories/Spec/PyNodeSpec.v
theories/Proofs/PyNodeFacts.v
theories/Properties/PyNodeProps.v
theories/Model/PyArgs.v
theories/Spec/PyArgsSpec.v
theories/Proofs/PyArgsFacts.v
theories/Properties/PyArgsProps.v
theories/Model/IndexIter.v
theories/Spec/IndexIterSpec.v
theories/Proofs/IndexIterFacts.v
theories/Properties/IndexIterProps.v
theories/Model/PyObjects.v
theories/Spec/PyObjectsSpec.v
theories/Proofs/PyObjectsFacts.v
theories/Properties/PyObjectsProps.v
theories/Model/StateLoop.v
theories/Proofs/StateLoopFacts.v
theories/Properties/StateLoopProps.v
theories/Model/PartialAlias.v
theories/Proofs/PartialAliasFacts.v
theories/Properties/PartialAliasProps.v
