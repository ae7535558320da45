-Q theories Verif
theories/Py.v
theories/Text.v
theories/Arr.v
theories/M_Envi.v
theories/Spec_Envi.v
theories/P_EnviHeader.v
theories/P_EnviImage.v
theories/Prop_Envi.v
theories/M_Chipper.v
theories/Spec_Chipper.v
theories/P_Chipper.v
theories/Prop_Chipper.v
theories/RAux.v
theories/M_Image.v
theories/M_ImageR.v
theories/Spec_Image.v
theories/P_Image.v
theories/P_ImageR.v
theories/Prop_Image.v
theories/LinAlg.v
theories/M_Spectral.v
theories/Spec_Spectral.v
theories/P_Spectral.v
theories/Prop_Spectral.v
theories/M_Spectrum.v
theories/Spec_Spectrum.v
theories/P_Spectrum.v
theories/Prop_Spectrum.v
theories/Text2.v
theories/M_TextFiles.v
theories/Spec_TextFiles.v
theories/P_TextFiles.v
theories/Prop_TextFiles.v
theories/M_NavFiles.v
theories/Spec_NavFiles.v
theories/P_NavFiles.v
theories/Prop_NavFiles.v
theories/M_Nav.v
theories/Spec_Nav.v
theories/P_Nav.v
theories/Prop_Nav.v
theories/M_Time.v
theories/Spec_Time.v
theories/P_Time.v
theories/Prop_Time.v
theories/Geo3.v
theories/M_Photo.v
theories/Spec_Photo.v
theories/P_Photo.v
theories/Prop_Photo.v
theories/M_Cameras.v
theories/Spec_Cameras.v
theories/P_Cameras.v
theories/Prop_Cameras.v
theories/M_PointCalc.v
theories/Spec_PointCalc.v
theories/P_PointCalc.v
theories/Prop_PointCalc.v
theories/M_Dem.v
theories/Spec_Dem.v
theories/P_Dem.v
theories/Prop_Dem.v
theories/M_Ortho.v
theories/Spec_Ortho.v
theories/P_Ortho.v
theories/Prop_Ortho.v
theories/M_Objects.v
theories/Spec_Objects.v
theories/P_Objects.v
theories/Prop_Objects.v
theories/M_Sim.v
theories/Spec_Sim.v
theories/P_Sim.v
theories/Prop_Sim.v
theories/Spec_Perspective.v
theories/P_Perspective.v
theories/Prop_Perspective.v
theories/M_Scoring.v
theories/Spec_Scoring.v
theories/P_Scoring.v
theories/Prop_Scoring.v
theories/M_Mmi.v
theories/Spec_Mmi.v
theories/P_Mmi.v
theories/Prop_Mmi.v
theories/M_Loaders.v
theories/Spec_Loaders.v
theories/P_Loaders.v
theories/Prop_Loaders.v
theories/M_Warp.v
theories/Spec_Warp.v
theories/P_Warp.v
theories/Prop_Warp.v
theories/M_DemState.v
theories/Spec_DemState.v
theories/P_DemState.v
theories/Prop_DemState.v
theories/M_Float.v
theories/Spec_Float.v
theories/P_Float.v
theories/P_FloatSum.v
theories/Prop_Float.v
theories/Prop_Float2.v
theories/M_IntArr.v
theories/Prop_IntArr.v
theories/M_Dirs.v
theories/Spec_Dirs.v
theories/Prop_Dirs.v
theories/M_Memory.v
theories/Spec_Memory.v
theories/Prop_Memory.v
theories/M_FloatGeo.v
theories/Prop_FloatGeo.v
theories/M_FloatColor.v
theories/Spec_FloatColor.v
theories/P_FloatColor.v
theories/Prop_FloatColor.v
theories/M_EnviBytes.v
theories/Spec_EnviBytes.v
theories/P_EnviBytes.v
theories/Prop_EnviBytes.v
theories/Spec_Invariance.v
theories/P_Invariance.v
theories/Prop_Invariance.v
theories/M_Interrupted.v
theories/Prop_Interrupted.v
theories/M_Reortho.v
theories/Spec_Reortho.v
theories/Prop_Reortho.v
theories/Spec_Track.v
theories/Prop_Track.v
theories/Spec_ChipGrid.v
theories/Prop_ChipGrid.v
theories/Spec_Detect.v
theories/Prop_Detect.v
theories/Spec_Similar.v
theories/Prop_Similar.v
theories/Spec_SimOrtho.v
theories/Prop_SimOrtho.v
theories/Spec_Tiles.v
theories/Prop_Tiles.v
theories/M_FloatGrid.v
theories/Prop_FloatGrid.v
theories/Spec_TiledScores.v
theories/Prop_TiledScores.v
