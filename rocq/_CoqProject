-Q theories Verif
theories/Base.v
theories/Examples_Attained.v
theories/Examples_Cache.v
theories/Examples_ComparisonPlot.v
theories/Examples_Convexity.v
theories/Examples_Covariates.v
theories/Examples_Criterion.v
theories/Examples_Data.v
theories/Examples_Dataset.v
theories/Examples_Exogenous.v
theories/Examples_Filters.v
theories/Examples_Histories.v
theories/Examples_Horizon.v
theories/Examples_InitialLags.v
theories/Examples_Interpolate.v
theories/Examples_Irrelevant.v
theories/Examples_KW97.v
theories/Examples_Likelihood.v
theories/Examples_LikelihoodDraws.v
theories/Examples_LikelihoodGiven.v
theories/Examples_LikelihoodTable.v
theories/Examples_LikelihoodUnits.v
theories/Examples_MSM.v
theories/Examples_ObservableLevels.v
theories/Examples_OutputColumns.v
theories/Examples_ParameterOrder.v
theories/Examples_Params.v
theories/Examples_Paths.v
theories/Examples_Processing.v
theories/Examples_Reprocessing.v
theories/Examples_Session.v
theories/Examples_Simulate.v
theories/Examples_SimulateExog.v
theories/Examples_SimulateTable.v
theories/Examples_SimulationInput.v
theories/Examples_Solve.v
theories/Examples_SolveTable.v
theories/Examples_SpecificationHelpers.v
theories/Examples_Structure.v
theories/Examples_TypeLabels.v
theories/Examples_Unavailable.v
theories/Examples_Units.v
theories/Examples_UnknownParameters.v
theories/Examples_Usable.v
theories/Examples_ZeroParameters.v
theories/Model_Cache.v
theories/Model_Calls.v
theories/Model_Choices.v
theories/Model_ComparisonPlot.v
theories/Model_ConditionalDraws.v
theories/Model_CoreStateSpace.v
theories/Model_Covariates.v
theories/Model_Criterion.v
theories/Model_Data.v
theories/Model_Dataset.v
theories/Model_Draws.v
theories/Model_Exogenous.v
theories/Model_Interface.v
theories/Model_Interpolate.v
theories/Model_InterpolationSeeds.v
theories/Model_KW97.v
theories/Model_Likelihood.v
theories/Model_LikelihoodDraws.v
theories/Model_LikelihoodTable.v
theories/Model_MSM.v
theories/Model_Options.v
theories/Model_OutputColumns.v
theories/Model_Parallel.v
theories/Model_Params.v
theories/Model_ParseParameters.v
theories/Model_Processing.v
theories/Model_ReadParams.v
theories/Model_Reprocessing.v
theories/Model_Session.v
theories/Model_Simulate.v
theories/Model_SimulateExog.v
theories/Model_SimulateTable.v
theories/Model_SimulationInput.v
theories/Model_Solve.v
theories/Model_SolveTable.v
theories/Model_SpecificationHelpers.v
theories/Model_StateSpace.v
theories/Model_Strings.v
theories/Model_UserData.v
theories/Proof_Attained.v
theories/Proof_Base.v
theories/Proof_Cache.v
theories/Proof_Calls.v
theories/Proof_Choices.v
theories/Proof_Columns.v
theories/Proof_ComparisonPlot.v
theories/Proof_ComparisonPlotMore.v
theories/Proof_Compute.v
theories/Proof_ConditionalDraws.v
theories/Proof_Convexity.v
theories/Proof_CoreStateSpace.v
theories/Proof_Covariates.v
theories/Proof_Criterion.v
theories/Proof_Data.v
theories/Proof_DataCheck.v
theories/Proof_DataColumns.v
theories/Proof_Dataset.v
theories/Proof_DatasetCheck.v
theories/Proof_DatasetEstimation.v
theories/Proof_DatasetMeaning.v
theories/Proof_Defaults.v
theories/Proof_Demand.v
theories/Proof_DenseGrid.v
theories/Proof_Draws.v
theories/Proof_Exogenous.v
theories/Proof_ExogenousInduction.v
theories/Proof_ExogenousProps.v
theories/Proof_ExogenousSolve.v
theories/Proof_Filters.v
theories/Proof_Groups.v
theories/Proof_Histories.v
theories/Proof_Horizon.v
theories/Proof_InitialLags.v
theories/Proof_Interface.v
theories/Proof_Interpolate.v
theories/Proof_InterpolatePredict.v
theories/Proof_InterpolateSolve.v
theories/Proof_InterpolationSeeds.v
theories/Proof_InterpolationSeedsMore.v
theories/Proof_Irrelevant.v
theories/Proof_KW97.v
theories/Proof_KW97Check.v
theories/Proof_KW97More.v
theories/Proof_KeyOrder.v
theories/Proof_Labels.v
theories/Proof_Likelihood.v
theories/Proof_LikelihoodChoice.v
theories/Proof_LikelihoodDraws.v
theories/Proof_LikelihoodGiven.v
theories/Proof_LikelihoodPanel.v
theories/Proof_LikelihoodProps.v
theories/Proof_LikelihoodRows.v
theories/Proof_LikelihoodTable.v
theories/Proof_LikelihoodUnits.v
theories/Proof_MSM.v
theories/Proof_MSMLabels.v
theories/Proof_MSMStructure.v
theories/Proof_Matrix.v
theories/Proof_Names.v
theories/Proof_Necessary.v
theories/Proof_ObservableLevels.v
theories/Proof_Options.v
theories/Proof_OutputColumns.v
theories/Proof_Panel.v
theories/Proof_PanelModel.v
theories/Proof_Parallel.v
theories/Proof_ParameterOrder.v
theories/Proof_Params.v
theories/Proof_ParamsMore.v
theories/Proof_Paths.v
theories/Proof_Processing.v
theories/Proof_ProcessingChecks.v
theories/Proof_ProcessingShocks.v
theories/Proof_ReadParams.v
theories/Proof_Regex.v
theories/Proof_Reprocessing.v
theories/Proof_Restrictions.v
theories/Proof_Separation.v
theories/Proof_Session.v
theories/Proof_SessionContents.v
theories/Proof_SessionRun.v
theories/Proof_SessionSteps.v
theories/Proof_Shocknames.v
theories/Proof_Shocks.v
theories/Proof_Simulate.v
theories/Proof_SimulateExog.v
theories/Proof_SimulateProps.v
theories/Proof_SimulateTable.v
theories/Proof_SimulationInput.v
theories/Proof_Smoothing.v
theories/Proof_Solve.v
theories/Proof_SolveProps.v
theories/Proof_SolveTable.v
theories/Proof_SpecificationHelpers.v
theories/Proof_StateCount.v
theories/Proof_StateSpace.v
theories/Proof_Strings.v
theories/Proof_Structure.v
theories/Proof_Templates.v
theories/Proof_TypeLabels.v
theories/Proof_TypeProbabilities.v
theories/Proof_Types.v
theories/Proof_Unavailable.v
theories/Proof_Units.v
theories/Proof_UnknownParameters.v
theories/Proof_Usable.v
theories/Proof_UserData.v
theories/Proof_Value.v
theories/Proof_ZeroError.v
theories/Proof_ZeroParameters.v
theories/Props_Attained.v
theories/Props_Cache.v
theories/Props_Choices.v
theories/Props_ComparisonPlot.v
theories/Props_Convexity.v
theories/Props_CoreStateSpace.v
theories/Props_Covariates.v
theories/Props_Criterion.v
theories/Props_Data.v
theories/Props_Dataset.v
theories/Props_Demand.v
theories/Props_Draws.v
theories/Props_Exogenous.v
theories/Props_Filters.v
theories/Props_Histories.v
theories/Props_Horizon.v
theories/Props_InitialLags.v
theories/Props_Interface.v
theories/Props_Interpolate.v
theories/Props_InterpolationSeeds.v
theories/Props_Irrelevant.v
theories/Props_KW97.v
theories/Props_KeyOrder.v
theories/Props_Likelihood.v
theories/Props_LikelihoodDraws.v
theories/Props_LikelihoodGiven.v
theories/Props_LikelihoodTable.v
theories/Props_LikelihoodUnits.v
theories/Props_MSM.v
theories/Props_ObservableLevels.v
theories/Props_Options.v
theories/Props_OutputColumns.v
theories/Props_Parallel.v
theories/Props_ParameterOrder.v
theories/Props_Params.v
theories/Props_Paths.v
theories/Props_Processing.v
theories/Props_ReadParams.v
theories/Props_Reprocessing.v
theories/Props_Restrictions.v
theories/Props_Session.v
theories/Props_Simulate.v
theories/Props_SimulateExog.v
theories/Props_SimulateTable.v
theories/Props_SimulationInput.v
theories/Props_Smoothing.v
theories/Props_Solve.v
theories/Props_SolveTable.v
theories/Props_SpecificationHelpers.v
theories/Props_StateCount.v
theories/Props_StateSpace.v
theories/Props_Structure.v
theories/Props_Templates.v
theories/Props_TypeLabels.v
theories/Props_TypeProbabilities.v
theories/Props_Unavailable.v
theories/Props_Units.v
theories/Props_UnknownParameters.v
theories/Props_Usable.v
theories/Props_UserData.v
theories/Props_ZeroError.v
theories/Props_ZeroParameters.v
theories/Spec_Attained.v
theories/Spec_Cache.v
theories/Spec_Choices.v
theories/Spec_ComparisonPlot.v
theories/Spec_ConditionalDraws.v
theories/Spec_Convexity.v
theories/Spec_CoreStateSpace.v
theories/Spec_Covariates.v
theories/Spec_Criterion.v
theories/Spec_Data.v
theories/Spec_Dataset.v
theories/Spec_Defaults.v
theories/Spec_Demand.v
theories/Spec_Draws.v
theories/Spec_Exogenous.v
theories/Spec_Filters.v
theories/Spec_Histories.v
theories/Spec_Horizon.v
theories/Spec_InitialLags.v
theories/Spec_Interface.v
theories/Spec_Interpolate.v
theories/Spec_InterpolationSeeds.v
theories/Spec_Irrelevant.v
theories/Spec_KW97.v
theories/Spec_KeyOrder.v
theories/Spec_Likelihood.v
theories/Spec_LikelihoodDraws.v
theories/Spec_LikelihoodGiven.v
theories/Spec_LikelihoodTable.v
theories/Spec_LikelihoodUnits.v
theories/Spec_MSM.v
theories/Spec_ObservableLevels.v
theories/Spec_Options.v
theories/Spec_OutputColumns.v
theories/Spec_Parallel.v
theories/Spec_ParameterOrder.v
theories/Spec_Params.v
theories/Spec_Paths.v
theories/Spec_Processing.v
theories/Spec_ReadParams.v
theories/Spec_Reprocessing.v
theories/Spec_Session.v
theories/Spec_Simulate.v
theories/Spec_SimulateExog.v
theories/Spec_SimulateTable.v
theories/Spec_SimulationInput.v
theories/Spec_Smoothing.v
theories/Spec_Solve.v
theories/Spec_SolveTable.v
theories/Spec_StateCount.v
theories/Spec_StateSpace.v
theories/Spec_Structure.v
theories/Spec_Templates.v
theories/Spec_TypeLabels.v
theories/Spec_TypeProbabilities.v
theories/Spec_Unavailable.v
theories/Spec_Units.v
theories/Spec_UnknownParameters.v
theories/Spec_Usable.v
theories/Spec_UserData.v
theories/Spec_ZeroParameters.v
