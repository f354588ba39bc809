-Q theories Verif
theories/Base_DFT.v
theories/Base_Py.v
theories/Base_Sum.v
theories/L_Air.v
theories/L_Atmo.v
theories/L_Config.v
theories/L_Config2.v
theories/L_Config3.v
theories/L_Fit.v
theories/L_Float.v
theories/L_Flux.v
theories/L_Fourier.v
theories/L_Fourier2.v
theories/L_Fourier3.v
theories/L_Fourier4.v
theories/L_Freq.v
theories/L_Ginv.v
theories/L_Image.v
theories/L_Image2.v
theories/L_Map.v
theories/L_Metric.v
theories/L_Model.v
theories/L_Model2.v
theories/L_Model3.v
theories/L_Otf.v
theories/L_PosDef.v
theories/L_Psf.v
theories/L_Psf2.v
theories/L_Psf3.v
theories/L_Psf4.v
theories/L_Psf5.v
theories/L_Psfao.v
theories/L_Psfr.v
theories/L_Pupil.v
theories/L_Sensor.v
theories/L_Strehl.v
theories/L_Tomo.v
theories/L_Tomo2.v
theories/L_Tools.v
theories/L_Tools2.v
theories/L_Zernike.v
theories/L_Zernike2.v
theories/L_Zernike3.v
theories/M_Air.v
theories/M_Aniso.v
theories/M_AoWfe.v
theories/M_Atmo.v
theories/M_Bounds.v
theories/M_Calib.v
theories/M_Call.v
theories/M_Chain.v
theories/M_Chain2.v
theories/M_Cone.v
theories/M_Config.v
theories/M_Deep.v
theories/M_Detector.v
theories/M_Diag.v
theories/M_Diag2.v
theories/M_Driver.v
theories/M_Fit.v
theories/M_Float.v
theories/M_Fourier.v
theories/M_Freq.v
theories/M_Gen.v
theories/M_Grid.v
theories/M_Image.v
theories/M_Interp.v
theories/M_Keck.v
theories/M_KeckFit.v
theories/M_Map.v
theories/M_Mass.v
theories/M_Metric.v
theories/M_Metric2.v
theories/M_Metric3.v
theories/M_Model.v
theories/M_Model2.v
theories/M_Proc.v
theories/M_Psf.v
theories/M_Psf2.v
theories/M_Psfao.v
theories/M_Psfr.v
theories/M_PsfrRun.v
theories/M_Pupil.v
theories/M_Pupil2.v
theories/M_Sensor.v
theories/M_Source.v
theories/M_Sparta.v
theories/M_Sphere.v
theories/M_Spider.v
theories/M_Tel.v
theories/M_Telemetry.v
theories/M_Tomo.v
theories/M_Tools.v
theories/M_Zernike.v
theories/M_Zernike2.v
theories/M_Zonal.v
theories/P_Air.v
theories/P_Air2.v
theories/P_Aniso.v
theories/P_Aniso2.v
theories/P_AoWfe.v
theories/P_Atmo.v
theories/P_Atmo2.v
theories/P_Blur.v
theories/P_Blur2.v
theories/P_Blur3.v
theories/P_Blur4.v
theories/P_Bounds.v
theories/P_Breakdown.v
theories/P_Calib.v
theories/P_Calib2.v
theories/P_Call.v
theories/P_Chain.v
theories/P_Chain2.v
theories/P_Chain3.v
theories/P_Chain4.v
theories/P_Chain5.v
theories/P_Chain6.v
theories/P_Cone.v
theories/P_Config.v
theories/P_Config2.v
theories/P_Config3.v
theories/P_Config4.v
theories/P_Config5.v
theories/P_Config6.v
theories/P_Config7.v
theories/P_Config8.v
theories/P_Config9.v
theories/P_Deep.v
theories/P_Deep2.v
theories/P_Detector.v
theories/P_Diag.v
theories/P_Diag2.v
theories/P_Diag3.v
theories/P_Diag4.v
theories/P_Diag5.v
theories/P_Diag6.v
theories/P_Driver.v
theories/P_Driver2.v
theories/P_Driver3.v
theories/P_Driver4.v
theories/P_Fit.v
theories/P_Fit2.v
theories/P_Fit3.v
theories/P_Flux.v
theories/P_FocalAniso.v
theories/P_Fourier.v
theories/P_Freq.v
theories/P_Freq2.v
theories/P_Gen.v
theories/P_Gen2.v
theories/P_Grid.v
theories/P_Grid2.v
theories/P_Grid3.v
theories/P_Image.v
theories/P_Interp.v
theories/P_Keck.v
theories/P_KeckFit.v
theories/P_Map.v
theories/P_Map2.v
theories/P_Mass.v
theories/P_Memory.v
theories/P_Metric.v
theories/P_Metric10.v
theories/P_Metric11.v
theories/P_Metric2.v
theories/P_Metric3.v
theories/P_Metric4.v
theories/P_Metric5.v
theories/P_Metric6.v
theories/P_Metric7.v
theories/P_Metric8.v
theories/P_Metric9.v
theories/P_Model.v
theories/P_Model2.v
theories/P_Model3.v
theories/P_Model4.v
theories/P_Model5.v
theories/P_Model6.v
theories/P_Model7.v
theories/P_Model8.v
theories/P_Model9.v
theories/P_Proc.v
theories/P_Proc2.v
theories/P_Psf.v
theories/P_Psf2.v
theories/P_Psf3.v
theories/P_Psfao.v
theories/P_Psfao2.v
theories/P_Psfao3.v
theories/P_Psfao4.v
theories/P_Psfr.v
theories/P_Psfr2.v
theories/P_Psfr3.v
theories/P_Psfr4.v
theories/P_Psfr5.v
theories/P_Psfr6.v
theories/P_PsfrRun.v
theories/P_PsfrRun2.v
theories/P_Pupil.v
theories/P_Pupil2.v
theories/P_Pupil3.v
theories/P_Pupil4.v
theories/P_Pupil5.v
theories/P_Pupil6.v
theories/P_Pupil7.v
theories/P_Pupil8.v
theories/P_Sensor.v
theories/P_Source.v
theories/P_Sparta.v
theories/P_Sphere.v
theories/P_Sphere2.v
theories/P_Sphere3.v
theories/P_Sphere4.v
theories/P_Spider.v
theories/P_Spider2.v
theories/P_Tel.v
theories/P_Tel2.v
theories/P_Tel3.v
theories/P_Telemetry.v
theories/P_Telemetry2.v
theories/P_Tight.v
theories/P_Tight2.v
theories/P_Tight3.v
theories/P_Tight4.v
theories/P_Tight5.v
theories/P_Tomo.v
theories/P_Tomo2.v
theories/P_Tomo3.v
theories/P_Tools.v
theories/P_WindShake.v
theories/P_Zernike.v
theories/P_Zernike2.v
theories/P_Zernike3.v
theories/P_Zernike4.v
theories/P_Zonal.v
theories/P_Zonal2.v
theories/S_Atmo.v
theories/S_Config.v
theories/S_Fourier.v
theories/S_Image.v
theories/S_Map.v
theories/S_Metric.v
theories/S_Metric3.v
theories/S_Model.v
theories/S_Model2.v
theories/S_Psfr.v
theories/S_Pupil.v
theories/S_Scale.v
theories/S_Sensor.v
theories/S_Sym.v
theories/S_Tomo.v
theories/S_Tools.v
