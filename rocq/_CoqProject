-Q theories Verif
theories/Model/Num.v
theories/Model/Outcome.v
theories/Model/Rng.v
theories/Model/Xml.v
theories/Model/Std.v
theories/Model/Point.v
theories/Model/Surface.v
theories/Model/Types.v
theories/Model/Bins.v
theories/Model/Field.v
theories/Model/Tables.v
theories/Model/Particle.v
theories/Model/Multigroup.v
theories/Model/Thermal.v
theories/Model/Continuous.v
theories/Model/Material.v
theories/Model/World.v
theories/Model/Perturbation.v
theories/Model/Estimator.v
theories/Model/Transport.v
theories/Model/Driver.v
theories/Model/Schema.v
theories/Model/Program.v
theories/Model/Process.v
theories/Spec/Vec.v
theories/Proofs/RealLib.v
theories/Spec/BinsSpec.v
theories/Proofs/BinsProofs.v
theories/Spec/TextExt.v
theories/Props/BinsProps.v
theories/Spec/GeometrySpec.v
theories/Spec/CellSpec.v
theories/Spec/RngSpec.v
theories/Spec/DirectionSpec.v
theories/Proofs/OutcomeLib.v
theories/Proofs/GeometryProofs.v
theories/Proofs/CellProofs.v
theories/Proofs/RngProofs.v
theories/Proofs/DirectionProofs.v
theories/Proofs/StreamProofs.v
theories/Props/GeometryProps.v
theories/Spec/TablesSpec.v
theories/Proofs/TablesProofs.v
theories/Props/TablesProps.v
theories/Spec/SumSpec.v
theories/Spec/MultigroupSpec.v
theories/Proofs/MultigroupProofs.v
theories/Proofs/MultigroupReal.v
theories/Proofs/FissionProofs.v
theories/Props/MultigroupProps.v
theories/Proofs/StepLib.v
theories/Spec/MaterialSpec.v
theories/Proofs/MaterialProofs.v
theories/Props/MaterialProps.v
theories/Proofs/ErfProofs.v
theories/Spec/ContinuousSpec.v
theories/Proofs/ContinuousProofs.v
theories/Spec/FreeGasSpec.v
theories/Proofs/FreeGasProofs.v
theories/Props/ContinuousProps.v
theories/Spec/ThermalSpec.v
theories/Proofs/ThermalProofs.v
theories/Proofs/ThermalSampleProofs.v
theories/Proofs/PartitionProofs.v
theories/Props/ThermalProps.v
theories/Spec/TransportSpec.v
theories/Proofs/TransportProofs.v
theories/Proofs/WellPosed.v
theories/Proofs/CrossingProofs.v
theories/Proofs/SampleProblem.v
theories/Proofs/FlightProofs.v
theories/Proofs/SampleFlight.v
theories/Props/TransportProps.v
theories/Spec/HistorySpec.v
theories/Proofs/FuelProofs.v
theories/Proofs/HistoryProofs.v
theories/Spec/EstimatorSpec.v
theories/Spec/CountSpec.v
theories/Proofs/EstimatorProofs.v
theories/Proofs/SampleTally.v
theories/Proofs/TallyProofs.v
theories/Proofs/MergeProofs.v
theories/Proofs/SampleFission.v
theories/Props/EstimatorProps.v
theories/Props/HistoryProps.v
theories/Spec/PerturbSpec.v
theories/Proofs/PerturbProofs.v
theories/Props/PerturbProps.v
theories/Spec/SolverSpec.v
theories/Spec/KEigenSpec.v
theories/Spec/WorldSpec.v
theories/Proofs/SourceProofs.v
theories/Proofs/WorldProofs.v
theories/Proofs/SampleDocument.v
theories/Proofs/KEigenProofs.v
theories/Proofs/AlikeProofs.v
theories/Proofs/SolverProofs.v
theories/Proofs/ResultProofs.v
theories/Proofs/FloatLib.v
theories/Proofs/CountProofs.v
theories/Proofs/PeriodProofs.v
theories/Proofs/SampleSolve.v
theories/Spec/SchemaSpec.v
theories/Spec/ProgramSpec.v
theories/Proofs/SchemaLib.v
theories/Proofs/SchemaProofs.v
theories/Proofs/ProgramProofs.v
theories/Proofs/SampleProgram.v
theories/Proofs/CountProgram.v
theories/Proofs/SampleDouble.v
theories/Proofs/SampleCount.v
theories/Spec/DoubleSpec.v
theories/Proofs/FloatReal.v
theories/Proofs/DoubleBins.v
theories/Proofs/DoubleRandom.v
theories/Spec/SettingsSpec.v
theories/Proofs/SettingsProofs.v
theories/Spec/FrequencySpec.v
theories/Proofs/FrequencyProofs.v
theories/Spec/FreshSpec.v
theories/Proofs/FreshProofs.v
theories/Spec/BeamSpec.v
theories/Proofs/BeamProofs.v
theories/Proofs/SampleBeam.v
theories/Spec/SensSpec.v
theories/Proofs/BeamSensProofs.v
theories/Spec/TroubleSpec.v
theories/Proofs/SafeLib.v
theories/Proofs/TroubleProofs.v
theories/Proofs/SampleTrouble.v
theories/Spec/DoubleGroupSpec.v
theories/Proofs/DoubleGroups.v
theories/Proofs/SampleGroups.v
theories/Spec/DoubleChoiceSpec.v
theories/Proofs/DoubleChoice.v
theories/Proofs/SampleChoice.v
theories/Proofs/RepoDocuments.v
theories/Proofs/RepoTests.v
theories/Proofs/SampleDocuments.v
theories/Spec/DoublePlaneSpec.v
theories/Proofs/PlaneRuns.v
theories/Spec/ProcessSpec.v
theories/Proofs/ProcessProofs.v
theories/Proofs/IdealLibm.v
theories/Proofs/DoubleStats.v
theories/Proofs/DoubleRun.v
theories/Proofs/DoublePlanes.v
theories/Spec/DoubleTableSpec.v
theories/Spec/DoubleDirSpec.v
theories/Spec/DoubleDeltaSpec.v
theories/Proofs/DoubleTables.v
theories/Proofs/DoubleDirs.v
theories/Proofs/DoubleDelta.v
theories/Proofs/SampleDelta.v
theories/Proofs/DoubleSpheres.v
theories/Props/SolverProps.v
theories/Props/InputProps.v
theories/Props/ProgramProps.v
theories/Props/DoubleProps.v
theories/Props/RoundingProps.v
theories/Props/SettingsProps.v
theories/Props/FrequencyProps.v
theories/Props/BeamProps.v
theories/Props/SensProps.v
theories/Props/TroubleProps.v
theories/Props/DoubleGroupProps.v
theories/Props/DoubleChoiceProps.v
theories/Props/DoublePlaneProps.v
theories/Props/DoubleSphereProps.v
theories/Props/DoubleTableProps.v
theories/Props/DoubleDirProps.v
theories/Props/DoubleDeltaProps.v
theories/Props/ProcessProps.v
theories/Spec/AddressSpec.v
theories/Proofs/AddressProofs.v
theories/Props/AddressProps.v
theories/Spec/ChanceSpec.v
theories/Spec/FlightLawSpec.v
theories/Proofs/ChanceLib.v
theories/Proofs/FlightLaw.v
theories/Props/FlightLawProps.v
theories/Proofs/EndingProofs.v
theories/Props/EndingProps.v
theories/Spec/EndingSpec.v
theories/Proofs/HistoryEnds.v
theories/Proofs/LeakEnds.v
theories/Props/HistoryEndsProps.v
theories/Spec/AverageSpec.v
theories/Proofs/AverageProofs.v
theories/Props/AverageProps.v
theories/Spec/CollisionSpec.v
theories/Proofs/CollisionLaw.v
theories/Props/CollisionProps.v
theories/Spec/BirthSpec.v
theories/Proofs/BirthLaw.v
theories/Props/BirthProps.v
theories/Spec/IsotropySpec.v
theories/Proofs/IsotropyLaw.v
theories/Props/IsotropyProps.v
theories/Spec/StepSpec.v
theories/Proofs/StepLaw.v
theories/Props/StepProps.v
theories/Spec/AbsorbSpec.v
theories/Proofs/AbsorbLaw.v
theories/Props/AbsorbProps.v
theories/Spec/LayerSpec.v
theories/Proofs/LayerLaw.v
theories/Props/LayerProps.v
theories/Spec/BoxSpec.v
theories/Proofs/ChanceLaw.v
theories/Spec/BallSpec.v
theories/Spec/PlateSpec.v
theories/Proofs/BallLaw.v
theories/Proofs/PlateLaw.v
theories/Props/BallProps.v
theories/Props/PlateProps.v
theories/Spec/ShellSpec.v
theories/Proofs/ShellLaw.v
theories/Props/ShellProps.v
theories/Spec/DepthSpec.v
theories/Proofs/DepthLaw.v
theories/Props/DepthProps.v
theories/Spec/HitsSpec.v
theories/Proofs/HitsLaw.v
theories/Props/HitsProps.v
