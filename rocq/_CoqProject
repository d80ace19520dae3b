-Q theories Verif
theories/M_Lens.v
theories/M_Layout.v
theories/S_Layout.v
theories/P_Layout.v
theories/P_TriDecode.v
theories/C_Layout.v
theories/M_SplineIdx.v
theories/M_Callback.v
theories/S_Callback.v
theories/P_Callback.v
theories/P_CallbackRows.v
theories/P_Outliers.v
theories/C_Callback.v
theories/M_Pack.v
theories/S_Pack.v
theories/P_Pack.v
theories/C_Pack.v
theories/M_Names.v
theories/S_Names.v
theories/P_Names.v
theories/C_Names.v
theories/M_Traverse.v
theories/S_Traverse.v
theories/P_Traverse.v
theories/C_Traverse.v
theories/M_Mark.v
theories/S_Mark.v
theories/P_Mark.v
theories/P_MarkR.v
theories/M_Double.v
theories/P_Double.v
theories/C_Mark.v
theories/M_Corr.v
theories/C_Corr.v
theories/S_Vec.v
theories/M_Dual.v
theories/P_Dual.v
theories/C_Dual.v
theories/M_Pose.v
theories/P_Trig.v
theories/P_Pose.v
theories/P_PoseJ.v
theories/C_Rodrigues.v
theories/C_Rt.v
theories/P_PoseGrad.v
theories/P_Compose.v
theories/C_PoseGrad.v
theories/P_Quat.v
theories/C_RtVec.v
theories/C_TinyGrad.v
theories/S_Deps.v
theories/P_Deps.v
theories/C_Deps.v
theories/C_Rows.v
theories/P_Euler.v
theories/P_RfromR.v
theories/C_RfromR.v
theories/M_Align.v
theories/C_Align.v
theories/M_PoseMem.v
theories/C_InPlace.v
theories/M_Spline.v
theories/P_Spline.v
theories/S_BSpline.v
theories/C_Spline.v
theories/M_Project.v
theories/P_Atan2.v
theories/C_Project.v
theories/S_Curve.v
theories/C_ProjectGrad.v
theories/M_Unproject.v
theories/C_Batch.v
theories/M_OpenCV.v
theories/S_LensGrad.v
theories/C_LensGrad.v
theories/M_Splined.v
theories/C_Splined.v
theories/M_Triangulate.v
theories/P_Triangulate.v
theories/C_Triangulate.v
theories/C_LeeCivera.v
theories/P_TriGrad.v
theories/C_TriError.v
theories/C_TriGrad.v
theories/C_Lindstrom.v
theories/M_Stereo.v
theories/C_Rectified.v
theories/C_RectMaps.v
theories/C_StereoRange.v
theories/C_PinholeFov.v
theories/M_CamFile.v
theories/S_CamFile.v
theories/P_CamFile.v
theories/P_CamComplete.v
theories/P_CamWrite.v
theories/C_CamFile.v
theories/M_Image.v
theories/C_Image.v
theories/C_WorstDir.v
theories/M_Connect.v
theories/C_Connect.v
theories/M_Tracks.v
theories/C_Tracks.v
theories/M_FrameNo.v
theories/C_FrameNo.v
theories/M_Corners.v
theories/C_Corners.v
theories/C_Cache.v
theories/M_Cahvor.v
theories/C_Cahvor.v
theories/C_CamPose.v
theories/M_OptInputs.v
theories/C_OptInputs.v
theories/M_CamObj.v
theories/C_CamObj.v
theories/M_Ingest.v
theories/C_Ingest.v
theories/M_Cross.v
theories/S_Cross.v
theories/P_Cross.v
theories/P_CrossRow.v
theories/C_Cross.v
theories/C_CrossGrad.v
theories/C_CrossRows.v
theories/M_Cahvore.v
theories/P_DualPath.v
theories/C_Cahvore.v
theories/C_CahvoreGrad.v
theories/C_Unproject.v
theories/P_PathGrad.v
theories/M_Residuals.v
theories/P_Jacobian.v
theories/P_TriPath.v
theories/C_Jacobian.v
theories/C_Residuals.v
theories/M_Uncert.v
theories/P_Uncert.v
theories/C_Uncert.v
theories/M_ProjUncert.v
theories/P_ProjUncert.v
theories/C_ProjUncert.v
theories/M_Perfect.v
theories/C_Perfect.v
theories/M_ImageMap.v
theories/C_ImageMap.v
theories/M_Quat.v
theories/C_Quat.v
theories/M_UnprojGrad.v
theories/C_UnprojGrad.v
theories/M_TriUncert.v
theories/P_TriUncert.v
theories/P_TriState.v
theories/C_TriUncert.v
theories/M_PinholeFit.v
theories/C_PinholeFit.v
theories/C_Resolution.v
theories/P_Fit.v
theories/M_Seed.v
theories/P_Seed.v
theories/P_Svd.v
theories/C_Seed.v
theories/M_Color.v
theories/C_Color.v
theories/M_Match.v
theories/C_Match.v
theories/M_Diff.v
theories/C_Diff.v
theories/M_ModelRes.v
theories/C_ModelRes.v
theories/M_PairDiff.v
theories/C_PairDiff.v
theories/M_Ply.v
theories/C_Ply.v
theories/M_Pnm.v
theories/C_Pnm.v
theories/M_Densify.v
theories/S_Densify.v
theories/C_Densify.v
theories/M_SynthBoard.v
theories/C_SynthBoard.v
theories/M_SplineDomain.v
theories/S_SplineDomain.v
theories/C_SplineDomain.v
theories/M_Ellipse.v
theories/C_Ellipse.v
theories/M_ImageLoad.v
theories/C_ImageLoad.v
theories/M_PolyDiff.v
theories/C_PolyDiff.v
theories/M_ValidRegion.v
theories/C_ValidRegion.v
theories/M_BoardPoints.v
theories/C_BoardPoints.v
theories/M_NoisyVectors.v
theories/C_NoisyVectors.v
theories/M_TriArgs.v
theories/C_TriArgs.v
