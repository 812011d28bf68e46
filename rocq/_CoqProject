-Q theories Verif

theories/Base.v
theories/Num.v
theories/NumXR.v
theories/NumB64.v
theories/Model/Signal.v
theories/Model/MonoWedge.v
theories/Model/MinMax.v
theories/Model/Ast.v
theories/Model/Robustness.v
theories/Spec/SignalSpec.v
theories/Spec/Subseq.v
theories/Spec/Pwl.v
theories/Proofs/NumFacts.v
theories/Proofs/SignalFacts.v
theories/Proofs/LowerBound.v
theories/Proofs/Reshape.v
theories/Proofs/Sync.v
theories/Proofs/PwlFacts.v
theories/Proofs/SyncExact.v
theories/Spec/History.v
theories/Proofs/HistoryFacts.v
theories/Proofs/ShapeExact.v
theories/Proofs/B64Facts.v
theories/Proofs/SyncProps.v
theories/Proofs/SimplifyDrop.v
theories/Proofs/SampleFacts.v
theories/Proofs/SignalProps.v
theories/Props/Signals.v
theories/Proofs/SyncCases.v
theories/Props/Synchronize.v
theories/Props/Samples.v
theories/Proofs/PairExact.v
theories/Proofs/MinMaxFacts.v
theories/Proofs/SeqFacts.v
theories/Proofs/SeqExact.v
theories/Spec/Wedge.v
theories/Proofs/WedgeFacts.v
theories/Proofs/WinFacts.v
theories/Proofs/MinMaxProps.v
theories/Spec/Crossing.v
theories/Proofs/MinMaxCases.v
theories/Proofs/MinMaxExamples.v
theories/Props/MinMax.v
theories/Spec/Formula.v
theories/Proofs/RobFacts.v
theories/Proofs/RobWf.v
theories/Proofs/Transport.v
theories/Proofs/RobTransport.v
theories/Proofs/Duality.v
theories/Spec/Semantics.v
theories/Proofs/RobExact.v
theories/Spec/UntilSpec.v
theories/Proofs/UntilFacts.v
theories/Proofs/RobExamples.v
theories/Props/Robustness.v
theories/Spec/AstSpec.v
theories/Proofs/AstFacts.v
theories/Props/Ast.v
theories/Model/Peg.v
theories/Model/Parser.v
theories/Proofs/PegFacts.v
theories/Proofs/ParserSafe.v
theories/Spec/Text.v
theories/Proofs/TokenSim.v
theories/Proofs/TokenParser.v
theories/Spec/Syntax.v
theories/Proofs/TokenEval.v
theories/Proofs/SpecFacts.v
theories/Proofs/ParserExamples.v
theories/Props/Parser.v
theories/Model/Fmt.v
theories/Spec/FmtSpec.v
theories/Proofs/FmtFacts.v
theories/Props/Fmt.v
theories/Model/PyBind.v
theories/Proofs/NegFacts.v
theories/Proofs/AccessFacts.v
theories/Props/PyBind.v
theories/Spec/Discrete.v
theories/Proofs/SafeFacts.v
theories/Proofs/DiscreteFacts.v
theories/Proofs/SafeExamples.v
theories/Props/Safety.v
theories/Spec/Bounds.v
theories/Spec/Quantitative.v
theories/Proofs/QuantFacts.v
theories/Proofs/QuantExamples.v
theories/Props/Quantitative.v
theories/Proofs/FmtInj.v
theories/Spec/Perturb.v
theories/Proofs/PerturbFacts.v
theories/Proofs/PerturbExamples.v
theories/Props/Perturb.v
theories/Spec/Grammar.v
theories/Proofs/Accept.v
theories/Proofs/WinExact.v
theories/Proofs/WedgeExact.v
theories/Proofs/UntilSign.v
theories/Proofs/BoundExamples.v
theories/Proofs/Units.v
theories/Proofs/UnitExamples.v
theories/Props/Units.v
theories/Spec/Laws.v
theories/Proofs/Causal.v
theories/Proofs/CausalExamples.v
theories/Proofs/BoolLaws.v
theories/Proofs/Resample.v
theories/Proofs/LawExamples.v
theories/Props/Structure.v
theories/Spec/Size.v
theories/Proofs/Size.v
theories/Props/Size.v
theories/Spec/Rounding.v
theories/Proofs/Rounding.v
theories/Props/Accuracy.v
theories/Spec/Accuracy.v
theories/Proofs/InterpError.v
theories/Proofs/SyncError.v
theories/Proofs/ChainFacts.v
theories/Proofs/AccuracyExamples.v
theories/Proofs/PyFacts.v
theories/Spec/Reading.v
theories/Proofs/ReadingFacts.v
theories/Proofs/DerivedFacts.v
theories/Proofs/InlineFacts.v
theories/Proofs/OrderFacts.v
theories/Proofs/SimplifyTwice.v
theories/Proofs/ResizeShift.v
theories/Proofs/EmptyFacts.v
theories/Spec/Messages.v
theories/Proofs/ErrorFacts.v
theories/Spec/TermErrors.v
theories/Proofs/TermErrorFacts.v
theories/Props/Errors.v
theories/Spec/Monitor.v
theories/Proofs/MonitorFacts.v
theories/Props/Monitor.v
theories/Proofs/RunFacts.v
theories/Props/Run.v
theories/Proofs/ConstFacts.v
theories/Proofs/AbsorbFacts.v
theories/Proofs/LayerFacts.v
theories/Proofs/WriteOut.v
theories/Proofs/LayerText.v
theories/Props/Layered.v
theories/Spec/Numerals.v
theories/Model/Stod.v
theories/Proofs/NumeralFacts.v
theories/Props/Numerals.v
theories/Spec/Printed.v
theories/Proofs/PrintedFacts.v
theories/Spec/Alike.v
theories/Proofs/DualB64.v
theories/Proofs/DualExamples.v
theories/Props/DualDouble.v
theories/Spec/Uniform.v
theories/Proofs/PairBound.v
theories/Proofs/UniformFacts.v
theories/Proofs/UniformExamples.v
theories/Props/Uniform.v
theories/Spec/Apart.v
theories/Proofs/CrossingError.v
theories/Proofs/ApartFacts.v
theories/Props/Apart.v
theories/Spec/Whole.v
theories/Proofs/WholeFacts.v
theories/Proofs/WholeFormula.v
theories/Proofs/WholeExamples.v
theories/Props/Whole.v
theories/Spec/Spaced.v
theories/Proofs/JoinFormula.v
theories/Proofs/PairError.v
theories/Proofs/SpacedFormula.v
theories/Proofs/SpacedExamples.v
theories/Props/Spaced.v
theories/Spec/Many.v
theories/Proofs/SlopeError.v
theories/Proofs/ManyError.v
theories/Proofs/ManyFormula.v
theories/Proofs/ManyExamples.v
theories/Props/Many.v
theories/Proofs/GeneralFacts.v
theories/Spec/General.v
theories/Proofs/GeneralFormula.v
theories/Proofs/GeneralExamples.v
theories/Props/General.v
theories/Spec/Tree.v
theories/Proofs/TreeError.v
theories/Proofs/TreeFormula.v
theories/Proofs/TreeExamples.v
theories/Props/Tree.v
theories/Proofs/TreeGeneral.v
theories/Proofs/TreePosition.v
theories/Proofs/TreePositionExamples.v
theories/Proofs/TreeTimes.v
theories/Props/Position.v
theories/Proofs/TreeText.v
theories/Proofs/TreeTextExamples.v
theories/Props/PositionText.v
theories/Proofs/TreePerturb.v
theories/Proofs/TreePerturbExamples.v
theories/Props/PositionPerturb.v
theories/Proofs/TreeTextPerturb.v
theories/Proofs/TreeTextPerturbExamples.v
theories/Props/PositionTextPerturb.v
theories/Spec/UntilSampled.v
theories/Proofs/UntilSampledFacts.v
theories/Proofs/UntilSampledExamples.v
theories/Props/UntilSampled.v
theories/Proofs/UntilGivenUp.v
theories/Proofs/UntilGivenUpExamples.v
theories/Props/UntilGivenUp.v
