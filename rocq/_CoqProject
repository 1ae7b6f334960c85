-Q theories Verif
theories/Base/Py.v
theories/Base/PyFacts.v
theories/Hdf5/Model.v
theories/Hdf5/Spec.v
theories/Hdf5/Proofs.v
theories/Hdf5/Proofs2.v
theories/Hdf5/Proofs3.v
theories/Hdf5/Proofs4.v
theories/Hdf5/Proofs5.v
theories/Hdf5/Props.v
theories/Base/Str.v
theories/Dl1/Model.v
theories/Dl1/Spec.v
theories/Dl1/Proofs.v
theories/Dl1/Proofs2.v
theories/Dl1/Proofs3.v
theories/Dl1/Props.v
theories/Base/Num.v
theories/Base/Lst.v
theories/Chain/Model.v
theories/Chain/Spec.v
theories/Chain/Proofs.v
theories/Chain/Proofs2.v
theories/Chain/Saturation.v
theories/Chain/SaturationProofs.v
theories/Chain/Props.v
theories/Reader/Model.v
theories/Reader/Proofs.v
theories/Reader/Proofs2.v
theories/Reader/Props.v
theories/Reader/ModelWave.v
theories/Reader/PropsWave.v
theories/Fitter/Model.v
theories/Fitter/Proofs.v
theories/Fitter/Props.v
theories/Matcher/Model.v
theories/Matcher/Spec.v
theories/Matcher/Proofs.v
theories/Matcher/Proofs2.v
theories/Matcher/Proofs3.v
theories/Matcher/Props.v
theories/WfUtils/Model.v
theories/WfUtils/Proofs.v
theories/WfUtils/Props.v
theories/Base/Lex.v
theories/Base/Fl.v
theories/Base/FlFacts.v
theories/Files/Model.v
theories/Files/Proofs.v
theories/Files/Proofs2.v
theories/Files/Proofs3.v
theories/Files/Props.v
theories/Files/ModelRuns.v
theories/Files/ProofsRuns.v
theories/Files/PropsRuns.v
theories/Calib/Model.v
theories/Calib/Proofs.v
theories/Calib/Proofs2.v
theories/Calib/Proofs3.v
theories/Calib/Props.v
theories/Calib/ModelFloat.v
theories/Calib/PropsFloat.v
theories/Reducers/Model.v
theories/Reducers/Proofs.v
theories/Reducers/Proofs2.v
theories/Reducers/Proofs3.v
theories/Reducers/Props.v
theories/Nnls/Model.v
theories/Nnls/Proofs.v
theories/Nnls/Proofs2.v
theories/Nnls/Proofs3.v
theories/Nnls/Props.v
theories/Resol/Model.v
theories/Resol/Proofs.v
theories/Resol/Proofs2.v
theories/Resol/Props.v
theories/Camera/Model.v
theories/Camera/Proofs.v
theories/Camera/Proofs2.v
theories/Camera/Proofs3.v
theories/Camera/Proofs4.v
theories/Camera/Props.v
theories/Camera/PropsGrid.v
theories/Camera/ModelLabels.v
theories/Camera/SpecLabels.v
theories/Camera/ProofsLabels.v
theories/Camera/ProofsLabels2.v
theories/Camera/PropsLabels.v
theories/Resol/ModelBins.v
theories/Resol/ProofsBins.v
theories/Resol/PropsBins.v
theories/Resol/ModelCurves.v
theories/Resol/PropsCurves.v
theories/Monitor/Model.v
theories/Monitor/Props.v
theories/Spe/Model.v
theories/Spe/Proofs.v
theories/Spe/Props.v
theories/Stats/ModelWelford.v
theories/Stats/PropsWelford.v
theories/Stats/Model.v
theories/Stats/Proofs.v
theories/Stats/Props.v
theories/Stats/Proofs2.v
theories/Stats/Props2.v
theories/Spectrum/Model.v
theories/Spectrum/Spec.v
theories/Spectrum/Proofs.v
theories/Spectrum/Proofs2.v
theories/Spectrum/Props.v
theories/Spectrum/ModelFloat.v
theories/Spectrum/SpecFloat.v
theories/Spectrum/ProofsFloat.v
theories/Spectrum/ProofsFloat2.v
theories/Spectrum/PropsFloat.v
theories/Pipeline/Model.v
theories/Pipeline/Proofs.v
theories/Pipeline/Proofs2.v
theories/Pipeline/Props.v
theories/Base/F64.v
theories/Base/F64Facts.v
theories/Pulse/Model.v
theories/Pulse/Proofs.v
theories/Pulse/Proofs2.v
theories/Pulse/Proofs3.v
theories/Pulse/Props.v
theories/Plots/Model.v
theories/Plots/Proofs.v
theories/Plots/Props.v
theories/Base/FlSum.v
theories/Base/FlSumFacts.v
theories/WfUtils/ModelFloat.v
theories/WfUtils/PropsFloat.v
theories/Reducers/ModelFloat.v
theories/Reducers/ProofsFloat.v
theories/Reducers/PropsFloat.v
theories/Resol/ModelFloat.v
theories/Resol/ProofsFloat.v
theories/Resol/ProofsFloat2.v
theories/Resol/PropsFloat.v
theories/Plots/ModelFigures.v
theories/Plots/SpecFigures.v
theories/Plots/ProofsFigures.v
theories/Plots/PropsFigures.v
theories/Dl1/ModelConvert.v
theories/Dl1/SpecConvert.v
theories/Dl1/ProofsConvert.v
theories/Dl1/PropsConvert.v
theories/Stats/ModelWelfordFloat.v
theories/Stats/SpecWelfordFloat.v
theories/Stats/ProofsWelfordFloat.v
theories/Stats/ProofsWelfordFloat2.v
theories/Stats/ProofsWelfordFloat3.v
theories/Stats/PropsWelfordFloat.v
theories/Pulse/ModelFile.v
theories/Pulse/ProofsFile.v
theories/Pulse/ProofsFile2.v
theories/Pulse/ProofsFile3.v
theories/Pulse/ProofsFile4.v
theories/Pulse/PropsFile.v
theories/Reducers/ModelTimingFloat.v
theories/Reducers/ProofsTimingFloat.v
theories/Reducers/ProofsTimingFloat2.v
theories/Reducers/ProofsTimingFloat3.v
theories/Reducers/PropsTimingFloat.v
theories/Resol/ModelRunning.v
theories/Resol/PropsRunning.v
theories/Reducers/ModelCrossFloat.v
theories/Reducers/PropsCrossFloat.v
theories/Hdf5/PropsVersion.v
theories/Reducers/ModelNeighbour.v
theories/Reducers/PropsNeighbour.v
theories/Reducers/PropsShort.v
theories/Hdf5/ModelChunks.v
theories/Hdf5/PropsMemory.v
theories/Hdf5/PropsChunks.v
theories/Calib/ModelGaps.v
theories/Calib/PropsGaps.v
theories/Calib/ModelShipped.v
theories/Calib/PropsShipped.v
theories/Calib/ModelAmpFloat.v
theories/Calib/PropsAmpFloat.v
theories/Reducers/ModelRms.v
theories/Reducers/PropsRms.v
theories/Pipeline/PropsPulse.v
