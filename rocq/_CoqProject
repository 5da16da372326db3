-Q theories Verif
theories/Base.v
theories/BaseLemmas.v
theories/BitVector_Model.v
theories/BitVector_Spec.v
theories/GF2.v
theories/BitVector_Proofs.v
theories/Properties_BitVector.v
theories/Iterator_Model.v
theories/SortedLemmas.v
theories/Iterator_Proofs.v
theories/Properties_Iterator.v
theories/BitMatrix_Model.v
theories/BitMatrix_Spec.v
theories/BitMatrix_Pure.v
theories/BitMatrix_Proofs.v
theories/Properties_BitMatrix.v
theories/Transvection_Model.v
theories/Map_Model.v
theories/Map_Spec.v
theories/Transvection_Proofs.v
theories/Map_Proofs.v
theories/Properties_Map.v
theories/Theory_Model.v
theories/Function_Spec.v
theories/Theory_Proofs.v
theories/Hiff_Proofs.v
theories/Peaks_Proofs.v
theories/LongPath_Proofs.v
theories/Properties_Theory.v
theories/Sums.v
theories/Walsh_Model.v
theories/Walsh_Proofs.v
theories/Ising_Proofs.v
theories/Transform_Proofs.v
theories/Properties_Walsh.v
theories/Double.v
theories/Controller_Model.v
theories/Controller_Spec.v
theories/Controller_Proofs.v
theories/Properties_Controller.v
theories/Representation_Model.v
theories/Representation_Spec.v
theories/Representation_Proofs.v
theories/Adapter_Proofs.v
theories/Properties_Representation.v
theories/Neighborhood_Model.v
theories/Neighborhood_Spec.v
theories/Neighborhood_Proofs.v
theories/Properties_Neighborhood.v
theories/Algorithm_Model.v
theories/Algorithm_Spec.v
theories/Algorithm_Proofs.v
theories/HillClimbing_Proofs.v
theories/LocalSearch_Proofs.v
theories/Properties_Algorithm.v
theories/Population_Model.v
theories/Population_Spec.v
theories/Population_Proofs.v
theories/Tournament_Proofs.v
theories/Pareto_Model.v
theories/Pareto_Spec.v
theories/Pareto_Proofs.v
theories/Properties_Population.v
theories/PopAlgorithm_Model.v
theories/PopAlgorithm_Spec.v
theories/PopAlgorithm_Proofs.v
theories/ProbabilityVector_Model.v
theories/ProbabilityVector_Spec.v
theories/ProbabilityVector_Proofs.v
theories/Properties_ProbabilityVector.v
theories/EvolutionaryAlgorithm_Model.v
theories/EvolutionaryAlgorithm_Spec.v
theories/EvolutionaryAlgorithm_Proofs.v
theories/SelfAdjusting_Proofs.v
theories/LambdaLambda_Proofs.v
theories/Properties_EvolutionaryAlgorithm.v
theories/Text_Model.v
theories/Text_Proofs.v
theories/MaxSat_Model.v
theories/MaxSat_Spec.v
theories/MaxSat_Proofs.v
theories/MaxSatFile_Proofs.v
theories/Properties_MaxSat.v
theories/Sudoku_Model.v
theories/Sudoku_Spec.v
theories/Sudoku_Proofs.v
theories/SudokuFile_Proofs.v
theories/Properties_Sudoku.v
theories/Collection_Model.v
theories/Collection_Spec.v
theories/Labs_Proofs.v
theories/Collection_Proofs.v
theories/Factorization_Proofs.v
theories/Tsp_Proofs.v
theories/Nk_Proofs.v
theories/Qubo_Proofs.v
theories/Properties_Collection.v
theories/Nsga2_Model.v
theories/Nsga2_Spec.v
theories/Crowding_Proofs.v
theories/Nsga2_Proofs.v
theories/Nsga2Run_Proofs.v
theories/Properties_Nsga2.v
theories/Mimic_Model.v
theories/Mimic_Spec.v
theories/Generation_Proofs.v
theories/Mimic_Proofs.v
theories/Properties_Mimic.v
theories/RamUmda_Model.v
theories/RamUmda_Spec.v
theories/RamUmda_Proofs.v
theories/Properties_RamUmda.v
theories/ItEa_Model.v
theories/ItEa_Spec.v
theories/ItEa_Proofs.v
theories/Properties_ItEa.v
theories/WalshMoment_Model.v
theories/WalshMoment_Spec.v
theories/WalshMoment_Proofs.v
theories/Herding_Proofs.v
theories/Properties_WalshMoment.v
theories/Properties_Logistic.v
theories/Frame_Proofs.v
theories/WalshEda_Model.v
theories/WalshEda_Spec.v
theories/Hea_Proofs.v
theories/HeaKinds_Proofs.v
theories/BmPbil_Proofs.v
theories/BmPbilRuns_Proofs.v
theories/Properties_WalshEda.v
theories/Parser_Model.v
theories/Parser_Spec.v
theories/Parser_Proofs.v
theories/ParserReps_Proofs.v
theories/Properties_Parser.v
theories/Decorator_Model.v
theories/Decorator_Spec.v
theories/Decorator_Proofs.v
theories/ControllerStack_Spec.v
theories/ControllerStack_Proofs.v
theories/Properties_Decorator.v
theories/Application_Model.v
theories/Application_Spec.v
theories/Application_Proofs.v
theories/Properties_Application.v
theories/Sampling_Spec.v
theories/Sampling_Proofs.v
theories/SamplingNk_Proofs.v
theories/SamplingProducts_Proofs.v
theories/SamplingTransvection_Proofs.v
theories/SamplingNeighborhood_Proofs.v
theories/Properties_Sampling.v
theories/Search_Model.v
theories/Search_Spec.v
theories/Search_Proofs.v
theories/FunctionFactory_Model.v
theories/FunctionFactory_Spec.v
theories/FunctionFactory_Proofs.v
theories/Properties_Search.v
theories/Properties_FunctionFactory.v
theories/Rounding_Model.v
theories/Rounding_Spec.v
theories/Rounding_Proofs.v
theories/Properties_Rounding.v
theories/ParsedFunction_Model.v
theories/ParsedFunction_Spec.v
theories/ParsedFunction_Proofs.v
theories/Properties_ParsedFunction.v
theories/MultiApplication_Model.v
theories/MultiApplication_Spec.v
theories/MultiApplication_Proofs.v
theories/Properties_MultiApplication.v
theories/MapFile_Model.v
theories/MapFile_Spec.v
theories/MapFile_Proofs.v
theories/Properties_MapFile.v
theories/InstanceFile_Model.v
theories/InstanceFile_Spec.v
theories/InstanceFile_Proofs.v
theories/Properties_InstanceFile.v
theories/AlgorithmMachine_Model.v
theories/AlgorithmMachine_Spec.v
theories/AlgorithmMachine_Proofs.v
theories/AlgorithmRuns_Proofs.v
theories/AlgorithmPrograms_Proofs.v
theories/Properties_AlgorithmMachine.v
theories/PopulationMachine_Model.v
theories/PopulationMachine_Spec.v
theories/PopulationRuns_Proofs.v
theories/PopulationCosts_Proofs.v
theories/PopulationPrograms_Proofs.v
theories/Properties_PopulationMachine.v
theories/EstimationMachine_Model.v
theories/EstimationMachine_Spec.v
theories/EstimationRuns_Proofs.v
theories/EstimationCosts_Proofs.v
theories/EstimationPrograms_Proofs.v
theories/Properties_EstimationMachine.v
theories/LambdaMachine_Spec.v
theories/LambdaPrograms_Proofs.v
theories/Properties_LambdaMachine.v
theories/RestartMachine_Spec.v
theories/RestartMachine_Proofs.v
theories/RestartPrograms_Proofs.v
theories/Properties_RestartMachine.v
theories/FactoryAdapters_Model.v
theories/FactoryAdapters_Spec.v
theories/FactoryAdapters_Proofs.v
theories/CountingSearch_Proofs.v
theories/Properties_FactoryAdapters.v
theories/Properties_FactoryTsp.v
theories/WalshProgram_Model.v
theories/WalshProgram_Spec.v
theories/WalshProgram_Proofs.v
theories/Properties_WalshProgram.v
theories/Human_Model.v
theories/Human_Spec.v
theories/Human_Proofs.v
theories/Properties_Human.v
theories/Incremental_Model.v
theories/Incremental_Spec.v
theories/Incremental_Proofs.v
theories/Properties_Incremental.v
theories/Options_Model.v
theories/Options_Spec.v
theories/Options_Proofs.v
theories/Properties_Options.v
theories/CommandLine_Model.v
theories/CommandLine_Spec.v
theories/CommandLine_Proofs.v
theories/Properties_CommandLine.v
theories/CommandLineAlgorithms_Model.v
theories/CommandLineAlgorithms_Spec.v
theories/CommandLineAlgorithms_Proofs.v
theories/Properties_CommandLineAlgorithms.v
theories/ToolOptions_Model.v
theories/ToolOptions_Spec.v
theories/ToolOptions_Proofs.v
theories/Properties_ToolOptions.v
theories/ToolCommand_Model.v
theories/ToolCommand_Spec.v
theories/ToolCommand_Proofs.v
theories/Properties_ToolCommand.v
theories/ExpressionFunction_Model.v
theories/ExpressionFunction_Spec.v
theories/ExpressionFunction_Proofs.v
theories/Properties_ExpressionFunction.v
theories/MultiExpression_Model.v
theories/MultiExpression_Spec.v
theories/MultiExpression_Proofs.v
theories/Properties_MultiExpression.v
theories/SystemFunction_Model.v
theories/SystemFunction_Spec.v
theories/SystemFunction_Proofs.v
theories/Properties_SystemFunction.v
theories/ComplexFunction_Model.v
theories/ComplexFunction_Spec.v
theories/ComplexFunction_Proofs.v
theories/Properties_ComplexFunction.v
theories/Random_Model.v
theories/Random_Spec.v
theories/Properties_Random.v
theories/MatrixCheck_Model.v
theories/MatrixCheck_Spec.v
theories/Properties_MatrixCheck.v
theories/Wrapper_Model.v
theories/Wrapper_Spec.v
theories/Wrapper_Proofs.v
theories/Properties_Wrapper.v
theories/Pyramid_Model.v
theories/Pyramid_Spec.v
theories/Pyramid_Proofs.v
theories/Properties_Pyramid.v
theories/LTGA_Model.v
theories/LTGA_Spec.v
theories/LTGA_Proofs.v
theories/Properties_LTGA.v
theories/Forest_Model.v
theories/Forest_Spec.v
theories/Forest_Proofs.v
theories/Hboa_Model.v
theories/Hboa_Spec.v
theories/Hboa_Proofs.v
theories/Properties_Hboa.v
theories/Fraction_Model.v
theories/Fraction_Spec.v
theories/Fraction_Proofs.v
theories/Properties_Fraction.v
theories/MultiComplex_Model.v
theories/Properties_MultiComplex.v
