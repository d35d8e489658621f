-Q theories Verif
theories/AdaptExamples.v
theories/AdaptFloat.v
theories/AdaptModel.v
theories/AdaptProofs.v
theories/AdaptProperties.v
theories/AdaptSpec.v
theories/AnalysisExamples.v
theories/AnalysisProofs.v
theories/AnalysisProofs2.v
theories/AnalysisProperties.v
theories/AnalysisSpec.v
theories/AssimilationExamples.v
theories/AssimilationModel.v
theories/AssimilationProofs.v
theories/AssimilationProofs2.v
theories/AssimilationProofs3.v
theories/AssimilationProofs4.v
theories/AssimilationProperties.v
theories/AssimilationSpec.v
theories/Base.v
theories/BaseFacts.v
theories/CellExamples.v
theories/CellModel.v
theories/CellProofs.v
theories/CellProofs2.v
theories/CellProofs3.v
theories/CellProofs4.v
theories/CellProofs5.v
theories/CellProofs6.v
theories/CellProofs7.v
theories/CellProperties.v
theories/CellSpec.v
theories/CholeskyExamples.v
theories/CholeskyModel.v
theories/CholeskyProofs.v
theories/CholeskyProofs2.v
theories/CholeskyProofs3.v
theories/CholeskyProperties.v
theories/CholeskySpec.v
theories/ComparisonExamples.v
theories/ComparisonProofs.v
theories/ComparisonProofs2.v
theories/ComparisonProofs3.v
theories/ComparisonProperties.v
theories/ComparisonSpec.v
theories/ConvergenceExamples.v
theories/ConvergenceProofs.v
theories/ConvergenceProofs2.v
theories/ConvergenceProofs3.v
theories/ConvergenceProofs4.v
theories/ConvergenceProperties.v
theories/ConvergenceSpec.v
theories/Decimal.v
theories/DepositionModel.v
theories/DepositionProofs.v
theories/DepositionProofs2.v
theories/DepositionProofs3.v
theories/DepositionProperties.v
theories/DepositionSpec.v
theories/ElasticExamples.v
theories/ElasticModel.v
theories/ElasticProofs.v
theories/ElasticProofs10.v
theories/ElasticProofs11.v
theories/ElasticProofs12.v
theories/ElasticProofs2.v
theories/ElasticProofs3.v
theories/ElasticProofs4.v
theories/ElasticProofs5.v
theories/ElasticProofs6.v
theories/ElasticProofs7.v
theories/ElasticProofs8.v
theories/ElasticProofs9.v
theories/ElasticProperties.v
theories/ElasticSpec.v
theories/ElementModel.v
theories/ElementProofs.v
theories/ElementProofs2.v
theories/ElementSpec.v
theories/EnergyExamples.v
theories/EnergyModel.v
theories/EnergyProofs.v
theories/EnergyProofs2.v
theories/EnergyProofs3.v
theories/EnergyProperties.v
theories/EnergySpec.v
theories/EnsembleExamples.v
theories/EnsembleModel.v
theories/EnsembleProofs.v
theories/EnsembleProofs2.v
theories/EnsembleProperties.v
theories/EnsembleSpec.v
theories/ExperimentExamples.v
theories/ExperimentModel.v
theories/ExperimentProofs.v
theories/ExperimentProofs2.v
theories/ExperimentProofs3.v
theories/ExperimentProperties.v
theories/ExperimentSpec.v
theories/GeometryExamples.v
theories/GeometryFloat.v
theories/GeometryModel.v
theories/GeometryProofs.v
theories/GeometryProofs2.v
theories/GeometryProperties.v
theories/GeometrySpec.v
theories/HeatExamples.v
theories/HeatModel.v
theories/HeatProofs.v
theories/HeatProofs2.v
theories/HeatProofs3.v
theories/HeatProofs4.v
theories/HeatProofs5.v
theories/HeatProofs6.v
theories/HeatProofs7.v
theories/HeatProperties.v
theories/HeatSourceModel.v
theories/HeatSourceProofs.v
theories/HeatSourceProofs2.v
theories/HeatSourceProperties.v
theories/HeatSourceSpec.v
theories/HeatSpec.v
theories/HeatedExamples.v
theories/HeatedProofs.v
theories/HeatedProperties.v
theories/HeatedSpec.v
theories/InputExamples.v
theories/InputModel.v
theories/InputProofs.v
theories/InputProofs2.v
theories/InputProofs3.v
theories/InputProperties.v
theories/InputSpec.v
theories/LayoutExamples.v
theories/LayoutModel.v
theories/LayoutProofs.v
theories/LayoutProofs2.v
theories/LayoutProofs3.v
theories/LayoutProperties.v
theories/LayoutSpec.v
theories/MainExamples.v
theories/MainModel.v
theories/MainProofs.v
theories/MainProofs2.v
theories/MainProofs3.v
theories/MainProperties.v
theories/MainSpec.v
theories/MalformedExamples.v
theories/MalformedProofs.v
theories/MalformedProperties.v
theories/MalformedSpec.v
theories/MaterialFloat.v
theories/MaterialModel.v
theories/MaterialProofs.v
theories/MaterialProofs2.v
theories/MaterialProperties.v
theories/MaterialSpec.v
theories/MaximumExamples.v
theories/MaximumProofs.v
theories/MaximumProofs2.v
theories/MaximumProperties.v
theories/MaximumSpec.v
theories/MechExamples.v
theories/MechModel.v
theories/MechProofs.v
theories/MechProofs2.v
theories/MechProofs3.v
theories/MechProofs4.v
theories/MechProperties.v
theories/MechSpec.v
theories/MeltedSpec.v
theories/MembersExamples.v
theories/MembersModel.v
theories/MembersProofs.v
theories/MembersProofs2.v
theories/MembersProperties.v
theories/MembersSpec.v
theories/MeshExamples.v
theories/MeshModel.v
theories/MeshProofs.v
theories/MeshProofs2.v
theories/MeshProperties.v
theories/MeshSpec.v
theories/MicrostructureExamples.v
theories/MicrostructureModel.v
theories/MicrostructureProofs.v
theories/MicrostructureProperties.v
theories/MicrostructureSpec.v
theories/OutputExamples.v
theories/OutputModel.v
theories/OutputProofs.v
theories/OutputProofs2.v
theories/OutputProofs3.v
theories/OutputProperties.v
theories/OutputSpec.v
theories/ParallelElasticExamples.v
theories/ParallelElasticModel.v
theories/ParallelElasticProofs.v
theories/ParallelElasticProofs2.v
theories/ParallelElasticProperties.v
theories/ParallelElasticSpec.v
theories/ParallelExamples.v
theories/ParallelModel.v
theories/ParallelProofs.v
theories/ParallelProofs2.v
theories/ParallelProperties.v
theories/ParallelSpec.v
theories/PlacementExamples.v
theories/PlacementProofs.v
theories/PlacementProperties.v
theories/PlacementSpec.v
theories/PowerExamples.v
theories/PowerProofs.v
theories/PowerProofs2.v
theories/PowerProperties.v
theories/PowerSpec.v
theories/QuaternionModel.v
theories/QuaternionProofs.v
theories/QuaternionProperties.v
theories/RadiationExamples.v
theories/RadiationProofs.v
theories/RadiationProofs2.v
theories/RadiationProofs3.v
theories/RadiationProperties.v
theories/RadiationSpec.v
theories/RayExamples.v
theories/RayModel.v
theories/RayProofs.v
theories/RayProofs2.v
theories/RayProofs3.v
theories/RayProperties.v
theories/RaySpec.v
theories/RefineModel.v
theories/RefineProofs.v
theories/RefineSpec.v
theories/RunExamples.v
theories/RunFloat.v
theories/RunModel.v
theories/RunProofs.v
theories/RunProofs2.v
theories/RunProofs3.v
theories/RunProperties.v
theories/RunSpec.v
theories/ScanPathModel.v
theories/ScanPathProofs.v
theories/ScanPathProofs2.v
theories/ScanPathProperties.v
theories/ScanPathSpec.v
theories/StabilityExamples.v
theories/StabilityProofs.v
theories/StabilityProofs2.v
theories/StabilityProofs3.v
theories/StabilityProofs4.v
theories/StabilityProofs5.v
theories/StabilityProperties.v
theories/StabilitySpec.v
theories/SteadyExamples.v
theories/SteadyProofs.v
theories/SteadyProofs2.v
theories/SteadyProperties.v
theories/SteadySpec.v
theories/StressModel.v
theories/StressProofs.v
theories/StressProofs2.v
theories/StressSpec.v
theories/SuperpositionExamples.v
theories/SuperpositionProofs.v
theories/SuperpositionProofs2.v
theories/SuperpositionProofs3.v
theories/SuperpositionProperties.v
theories/SuperpositionSpec.v
theories/SupportExamples.v
theories/SupportProofs.v
theories/SupportProofs2.v
theories/SupportProofs3.v
theories/SupportProofs4.v
theories/SupportProperties.v
theories/SupportSpec.v
theories/TimerModel.v
theories/TimerProofs.v
theories/TimerSpec.v
theories/UndefinedProofs.v
theories/UndefinedProperties.v
theories/UndefinedSpec.v
