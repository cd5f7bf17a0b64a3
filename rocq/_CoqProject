-Q theories Verif
theories/Base.v
theories/PermuteModel.v
theories/PermuteProofs.v
theories/Spec_Permute.v
theories/PermuteOutcome.v
theories/Properties_Permute.v
theories/OptProblemModel.v
theories/Spec_OptProblem.v
theories/OptProblemProofs.v
theories/OptSpecProofs.v
theories/Properties_OptProblem.v
theories/IncProblemModel.v
theories/Spec_IncProblem.v
theories/IncProblemProofs.v
theories/IncHistoryProofs.v
theories/IncExtraProofs.v
theories/IncSpecProofs.v
theories/Spec_IncFailedAdd.v
theories/IncFailedAdd.v
theories/Properties_IncProblem.v
theories/EstimatorModel.v
theories/Spec_Estimator.v
theories/EstimatorProofs.v
theories/EstimatorSpecProofs.v
theories/Properties_Estimator.v
theories/GridModel.v
theories/Spec_Grid.v
theories/GridProofs.v
theories/GridCoordProofs.v
theories/GridDoubleProofs.v
theories/Properties_Grid.v
theories/HistogramModel.v
theories/Spec_Histogram.v
theories/HistogramProofs.v
theories/HistogramStatProofs.v
theories/Properties_Histogram.v
theories/VectorDVModel.v
theories/Spec_VectorDV.v
theories/Properties_VectorDV.v
theories/NormalModel.v
theories/Spec_Normal.v
theories/NormalProofs.v
theories/NormalErfProofs.v
theories/GaussIntegral.v
theories/Properties_Normal.v
theories/NormalMvModel.v
theories/Properties_NormalMv.v
theories/CoqDerive.v
theories/UniformModel.v
theories/UniformProofs.v
theories/Properties_Uniform.v
theories/FunctionsModel.v
theories/GammaModel.v
theories/Spec_Gamma.v
theories/GammaAnalysis.v
theories/GammaProofs.v
theories/Properties_Gamma.v
theories/RandomizerModel.v
theories/Spec_Randomizer.v
theories/RandomizerProofs.v
theories/RandomizerDoubleProofs.v
theories/Properties_Randomizer.v
theories/GeometryModel.v
theories/Spec_Geometry.v
theories/Properties_Geometry.v
theories/MatrixOpsModel.v
theories/Properties_MatrixOps.v
theories/TimestampModel.v
theories/TimestampProofs.v
theories/Properties_Timestamp.v
theories/CalibratorModel.v
theories/Spec_Calibrator.v
theories/CalibratorProofs.v
theories/Properties_Calibrator.v
theories/ErrorTermModel.v
theories/Spec_ErrorTerm.v
theories/ErrorTermProofs.v
theories/Properties_ErrorTerm.v
theories/GeodeticModel.v
theories/Spec_Geodetic.v
theories/Properties_Geodetic.v
theories/DesignVarsModel.v
theories/Properties_DesignVars.v
theories/CameraModel.v
theories/Spec_Camera.v
theories/CameraProofs.v
theories/Properties_Camera.v
theories/Properties_CameraValidator.v
theories/VisionModel.v
theories/Properties_Vision.v
theories/LrfSimModel.v
theories/Spec_LrfSim.v
theories/Properties_LrfSim.v
theories/LrfDriverModel.v
theories/Properties_LrfDriver.v
theories/SimEngineModel.v
theories/Spec_SimEngine.v
theories/Properties_SimEngine.v
theories/Properties_EgoSim.v
theories/Properties_EgoData.v
theories/CarDriverModel.v
theories/Spec_CarDriver.v
theories/Properties_CarDriver.v
theories/KinematicsModel.v
theories/Spec_Kinematics.v
theories/Properties_Kinematics.v
theories/EgoKinModel.v
theories/Spec_EgoKin.v
theories/Properties_EgoKin.v
theories/OptionsModel.v
theories/Spec_Options.v
theories/Properties_Options.v
theories/SolverModel.v
theories/Properties_Solver.v
theories/SimDriverModel.v
theories/Properties_SimDriver.v
theories/Properties_SimRun.v
theories/CameraDriverModel.v
theories/CameraOptionsModel.v
theories/Properties_CameraDriver.v
theories/Properties_CameraFile.v
theories/Properties_CameraOptions.v
theories/Properties_CoreExtra.v
theories/Properties_SolverHistory.v
theories/Spec_Text.v
theories/TextModel.v
theories/TextProofs.v
theories/Properties_Text.v
theories/ValidatorModel.v
theories/Properties_ValidatorProgram.v
theories/Properties_Tighten.v
theories/PoseJacobianModel.v
theories/Spec_PoseJacobian.v
theories/Properties_PoseJacobian.v
theories/Properties_Tighten2.v
theories/Spec_NormalMv.v
theories/NormalMvProofs.v
theories/Properties_NormalMv2.v
theories/Properties_Tighten3.v
theories/Properties_Tighten4.v
theories/Properties_Tighten5.v
theories/SingletonModel.v
theories/Properties_Singleton.v
theories/PythonModel.v
theories/Properties_Python.v
theories/Properties_Tighten6.v
theories/UniformTypesModel.v
theories/Properties_UniformTypes.v
theories/Properties_Tighten7.v
theories/Properties_Tighten8.v
theories/Properties_TdPredict.v
theories/Properties_NormalMoments.v
theories/Properties_GammaKL.v
theories/Properties_Exact.v
theories/Properties_Exact2.v
theories/Properties_Exact3.v
theories/RandomizerTypesModel.v
theories/Properties_RandomizerTypes.v
theories/Properties_EstDouble.v
theories/MargOrderProofs.v
theories/ReportModel.v
theories/Properties_Report.v
theories/Spec_Volume.v
theories/VolumeProofs.v
theories/Properties_SamplerLaw.v
theories/Properties_GammaLaw.v
theories/Properties_Tighten9.v
theories/NormalLawProofs.v
theories/NormalVolumeProofs.v
theories/Properties_NormalLaw.v
theories/Properties_Tighten10.v
theories/GammaLawProofs.v
theories/GammaVolumeProofs.v
theories/Spec_Euler.v
theories/Properties_GammaShapeLaw.v
theories/Spec_Document.v
theories/TextObjectsModel.v
theories/Properties_TextObjects.v
theories/DeviationsModel.v
theories/Properties_Deviations.v
theories/CarFilesModel.v
theories/Properties_CarFiles.v
theories/HistoryFilesModel.v
theories/Spec_HistoryFiles.v
theories/Properties_HistoryFiles.v
theories/FunctionObjModel.v
theories/Spec_FunctionObj.v
theories/Properties_FunctionObj.v
theories/Spec_NormalProgram.v
theories/Properties_Tighten12.v
theories/ValuesModel.v
theories/Spec_Values.v
theories/Properties_Values.v
theories/TemplatesModel.v
theories/Spec_Templates.v
theories/Properties_Templates.v
theories/Properties_Tighten13.v
theories/Properties_Tighten11.v
