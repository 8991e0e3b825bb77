-Q theories Verif
theories/Common.v
theories/MultiTau_Model.v
theories/MultiTau_Spec.v
theories/MultiTau_Labels.v
theories/MultiTau_Proofs.v
theories/MultiTau_Main.v
theories/MultiTau_Out.v
theories/MultiTau_Props.v
theories/TwoTime_Model.v
theories/TwoTime_Spec.v
theories/TwoTime_Proofs.v
theories/TwoTime_Main.v
theories/TwoTime_Props.v
theories/Sums.v
theories/CrossCorr_Model.v
theories/CrossCorr_Spec.v
theories/CrossCorr_Proofs.v
theories/CrossCorr_Main.v
theories/CrossCorr_Props.v
theories/QcArith.v
theories/Dict_Model.v
theories/Dict_Spec.v
theories/Dict_Proofs.v
theories/Dict_Main.v
theories/Dict_Props.v
theories/Utils_Model.v
theories/Utils_Spec.v
theories/Utils_Proofs.v
theories/Utils_Props.v
theories/QSpace_Model.v
theories/QSpace_Proofs.v
theories/QSpace_Props.v
theories/F64.v
theories/FloatIndex_Model.v
theories/FloatIndex_Proofs.v
theories/FloatIndex_Props.v
theories/Scatter.v
theories/Hist_Model.v
theories/Hist_Spec.v
theories/Hist_Proofs.v
theories/Hist_Props.v
theories/Grid_Model.v
theories/Grid_Spec.v
theories/Grid_Proofs.v
theories/GridRace_Model.v
theories/GridRace_Proofs.v
theories/Grid_Props.v
theories/Edges_Proofs.v
theories/Edges_Props.v
theories/Roi_Model.v
theories/Roi_Spec.v
theories/Roi_Proofs.v
theories/Roi_Stats.v
theories/Roi_Props.v
theories/RoiPolar_Model.v
theories/RoiPolar_Spec.v
theories/RoiPolar_Proofs.v
theories/RoiPolar_Props.v
theories/PixGrid_Props.v
theories/Mask_Model.v
theories/Mask_Spec.v
theories/Mask_Proofs.v
theories/Mask_Props.v
theories/BinStat_Model.v
theories/BinStat_Spec.v
theories/BinStat_Proofs.v
theories/BinStat_Main.v
theories/BinStat_More.v
theories/BinStat_Props.v
theories/Cdi_Model.v
theories/Cdi_Spec.v
theories/Cdi_Proofs.v
theories/Cdi_RealModel.v
theories/Cdi_RealProofs.v
theories/Cdi_Props.v
theories/Dpc_Model.v
theories/Dpc_Spec.v
theories/Dpc_Proofs.v
theories/Dpc_Recon.v
theories/Dpc_Props.v
theories/Recip_Model.v
theories/Recip_Spec.v
theories/Recip_Proofs.v
theories/Recip_Props.v
theories/Xsvs_Model.v
theories/Xsvs_Spec.v
theories/Xsvs_Proofs.v
theories/Xsvs_Props.v
theories/Snip_Model.v
theories/Snip_Proofs.v
theories/Snip_Passes.v
theories/Snip_Props.v
theories/Line_Model.v
theories/Gauss.v
theories/Line_Proofs.v
theories/Line_Tail.v
theories/Line_Compton.v
theories/Line_Props.v
theories/Xrf_Model.v
theories/Xrf_Proofs.v
theories/Xrf_More.v
theories/Xrf_Comps.v
theories/Xrf_Props.v
theories/XrfFit_Model.v
theories/XrfFit_Proofs.v
theories/XrfFit_Props.v
theories/Text_Model.v
theories/Text_Proofs.v
theories/Gsas_Model.v
theories/Gsas_Spec.v
theories/Gsas_Proofs.v
theories/Gsas_Files.v
theories/Gsas_Lines.v
theories/Gsas_Props.v
theories/IoBin_Model.v
theories/IoBin_Proofs.v
theories/IoBin_Props.v
theories/Logic_Model.v
theories/Logic_Proofs.v
theories/Logic_Props.v
theories/Peak_Model.v
theories/Peak_Spec.v
theories/Peak_Proofs.v
theories/Peak_Lsq.v
theories/Peak_Props.v
theories/Integ_Model.v
theories/Integ_Spec.v
theories/Integ_Proofs.v
theories/Integ_Props.v
theories/Elem_Data.v
theories/Elem_Model.v
theories/Elem_Proofs.v
theories/Elem_Props.v
theories/XrfLine_Model.v
theories/XrfLine_Proofs.v
theories/XrfLine_Props.v
theories/Powder_Model.v
theories/Powder_Proofs.v
theories/Powder_Props.v
theories/CircAvg_Model.v
theories/CircAvg_Spec.v
theories/CircAvg_Proofs.v
theories/CircAvg_Props.v
theories/Sgolay_Model.v
theories/Sgolay_Spec.v
theories/Sgolay_Proofs.v
theories/Sgolay_Core.v
theories/Sgolay_Top.v
theories/Sgolay_Props.v
theories/Calib_Model.v
theories/Calib_Spec.v
theories/Calib_Proofs.v
theories/Calib_Center.v
theories/Calib_Ex.v
theories/Calib_Props.v
theories/ImgCirc_Model.v
theories/ImgCirc_Spec.v
theories/ImgCirc_Proofs.v
theories/ImgCirc_Props.v
theories/RingCtr_Model.v
theories/RingCtr_Spec.v
theories/RingCtr_Proofs.v
theories/RingCtr_Props.v
theories/RPhi_Model.v
theories/RPhi_Spec.v
theories/RPhi_Proofs.v
theories/RPhi_Props.v
theories/BinWrap_Model.v
theories/BinWrap_Spec.v
theories/BinWrap_Proofs.v
theories/BinWrap_Props.v
theories/BinGrid_Model.v
theories/BinGrid_Spec.v
theories/BinGrid_Proofs.v
theories/BinGrid_Props.v
theories/Lines_Model.v
theories/Lines_Spec.v
theories/Lines_Proofs.v
theories/Lines_Props.v
theories/Amira_Model.v
theories/Amira_Spec.v
theories/Amira_Proofs.v
theories/Amira_Props.v
theories/XrfTie_Model.v
theories/XrfTie_Spec.v
theories/XrfTie_Proofs.v
theories/XrfTie_Props.v
theories/Phot_Model.v
theories/Phot_Spec.v
theories/Phot_Proofs.v
theories/Phot_More.v
theories/Phot_Props.v
theories/Fourier.v
theories/CdiFft_Model.v
theories/CdiFft_Props.v
theories/DpcFft.v
theories/DpcFft_Props.v
theories/RingAuto_Model.v
theories/RingAuto_Spec.v
theories/RingAuto_Proofs.v
theories/RingAuto_Props.v
theories/Voigt.v
theories/VoigtArea.v
theories/Voigt_Proofs.v
theories/Voigt_Props.v
theories/Pool_Model.v
theories/Pool_Spec.v
theories/Pool_Proofs.v
theories/Pool_Props.v
theories/Wrap_Model.v
theories/Wrap_Spec.v
theories/Wrap_Proofs.v
theories/Wrap_Props.v
theories/RunMean_Model.v
theories/RunMean_Spec.v
theories/RunMean_Proofs.v
theories/RunMean_Props.v
theories/IntType_Model.v
theories/IntType_Spec.v
theories/IntType_Proofs.v
theories/IntImg_Model.v
theories/IntImg_Spec.v
theories/IntImg_Proofs.v
theories/IntImg_Props.v
theories/IntXsvs_Props.v
theories/EdgesF_Model.v
theories/EdgesF_Spec.v
theories/EdgesF_Proofs.v
theories/EdgesF_Props.v
theories/GridF_Model.v
theories/GridF_Spec.v
theories/GridF_Proofs.v
theories/GridF_Props.v
theories/Alias_Model.v
theories/Alias_Spec.v
theories/Alias_Proofs.v
theories/Alias_Props.v
theories/HistF_Model.v
theories/HistF_Spec.v
theories/HistF_Proofs.v
theories/HistF_Main.v
theories/HistF_Props.v
theories/MTauF_Model.v
theories/MTauF_Spec.v
theories/MTauF_Proofs.v
theories/MTauF_Main.v
theories/MTauF_Acc.v
theories/MTauF_G2.v
theories/MTauF_Props.v
theories/Defaults_Model.v
theories/Defaults_Spec.v
theories/Defaults_Proofs.v
theories/Defaults_Props.v
theories/TTimeF_Model.v
theories/TTimeF_Spec.v
theories/TTimeF_Proofs.v
theories/TTimeF_Main.v
theories/TTimeF_Acc.v
theories/TTimeF_Same.v
theories/TTimeF_Props.v
theories/Columns_Spec.v
theories/Columns_Proofs.v
theories/Columns_Xsvs.v
theories/Columns_Rings.v
theories/Columns_Props.v
theories/OneErr_Model.v
theories/OneErr_Spec.v
theories/OneErr_Proofs.v
theories/OneErr_Two.v
theories/OneErr_Props.v
theories/RingsF_Model.v
theories/RingsF_Spec.v
theories/RingsF_Proofs.v
theories/RingsF_Acc.v
theories/RingsF_Exact.v
theories/RingsF_Props.v
theories/XsvsF_Model.v
theories/XsvsF_Spec.v
theories/XsvsF_Proofs.v
theories/XsvsF_Acc.v
theories/XsvsF_Props.v
theories/XsvsFull_Model.v
theories/XsvsFull_Proofs.v
theories/XsvsFull_Acc.v
theories/XsvsFull_Props.v
theories/RingEdgesF_Model.v
theories/RingEdgesF_Spec.v
theories/RingEdgesF_Proofs.v
theories/RingEdgesF_Props.v
