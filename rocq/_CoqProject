-Q theories Verif
theories/Base.v
theories/Num.v
theories/Sums.v
theories/FloatFacts.v
theories/FloatOrder.v
theories/StrUtil_Model.v
theories/StrUtil_Spec.v
theories/StrUtil_Proof.v
theories/Props_StrUtil.v
theories/Config_Model.v
theories/Config_Spec.v
theories/Config_Proof.v
theories/Props_Config.v
theories/ConfigL_Spec.v
theories/ConfigL_Proof.v
theories/Props_ConfigL.v
theories/CmdLine_Model.v
theories/CmdLine_Spec.v
theories/CmdLine_Proof.v
theories/Props_CmdLine.v
theories/Downsample_Model.v
theories/Downsample_Spec.v
theories/Downsample_Proof.v
theories/Props_Downsample.v
theories/Params_Model.v
theories/Params_Spec.v
theories/Params_Proof.v
theories/Props_Params.v
theories/MT_Model.v
theories/MT_Spec.v
theories/MT_Proof.v
theories/MT_FloatProof.v
theories/Props_MT.v
theories/Stats_Model.v
theories/Stats_Spec.v
theories/Stats_Proof.v
theories/Props_Stats.v
theories/Fit_Model.v
theories/Fit_Spec.v
theories/Fit_Proof.v
theories/Fit_FloatProof.v
theories/Fit_RealProof.v
theories/Fit_Multi.v
theories/Props_Fit.v
theories/DE_Model.v
theories/DE_Spec.v
theories/DE_Proof.v
theories/DE_RealProof.v
theories/DE_Safe.v
theories/DE_FloatProof.v
theories/Props_DE.v
theories/LM_Model.v
theories/LM_Spec.v
theories/LM_Proof.v
theories/LM_FloatProof.v
theories/LM_QR.v
theories/LM_QRReal.v
theories/LM_RealProof.v
theories/LM_Solve.v
theories/LM_SolveReal.v
theories/LM_Lmpar.v
theories/LM_LmparReal.v
theories/LM_Total.v
theories/LM_Safe.v
theories/LM_Cov.v
theories/LM_CovReal.v
theories/LM_StepSpec.v
theories/LM_StepMath.v
theories/LM_StepLimits.v
theories/LM_StepReal.v
theories/LM_StepErr.v
theories/LM_StepFinal.v
theories/LM_StepEnd.v
theories/Props_LMStep.v
theories/Props_LM.v
theories/Conv_Model.v
theories/Conv_Spec.v
theories/Dft.v
theories/Conv_Proof.v
theories/Props_Conv.v
theories/Image_Model.v
theories/Image_Spec.v
theories/Image_Proof.v
theories/Image_History.v
theories/Image_Region.v
theories/Image_Final.v
theories/Props_Image.v
theories/Func_Model.v
theories/Func_Spec.v
theories/Func_Proof.v
theories/Func_Sym.v
theories/Func_Profile.v
theories/Func_Flux.v
theories/Func_Image.v
theories/Props_Func.v
theories/Interp_Model.v
theories/Interp_Spec.v
theories/Interp_Proof.v
theories/Props_Interp.v
theories/Nlopt_Model.v
theories/Nlopt_Spec.v
theories/Nlopt_Proof.v
theories/Props_Nlopt.v
theories/Mem_Model.v
theories/Mem_Spec.v
theories/Mem_Proof.v
theories/Props_Mem.v
theories/Boot_Model.v
theories/Boot_Spec.v
theories/Boot_Proof.v
theories/Props_Boot.v
theories/ImgPar_Model.v
theories/ImgPar_Spec.v
theories/ImgPar_Proof.v
theories/Props_ImgPar.v
theories/Dream_Model.v
theories/Dream_Spec.v
theories/Dream_Proof.v
theories/Dream_RunProof.v
theories/Dream_PairProof.v
theories/Dream_GRProof.v
theories/Dream_TotalProof.v
theories/Dream_RestoreProof.v
theories/Dream_MoreProof.v
theories/Props_Dream.v
theories/Par_Model.v
theories/Par_Spec.v
theories/Par_Proof.v
theories/Par_Flux.v
theories/Par_Image.v
theories/Par_History.v
theories/Par_Total.v
theories/Props_Par.v
theories/Build_Model.v
theories/Save_Spec.v
theories/Build_Spec.v
theories/Build_Proof.v
theories/Props_Build.v
theories/Save_Model.v
theories/Save_Proof.v
theories/Save_Final.v
theories/Save_Printf.v
theories/Props_Save.v
theories/Table_Model.v
theories/Table_Spec.v
theories/Table_Proof.v
theories/Props_Table.v
theories/Opt_Model.v
theories/Opt_Spec.v
theories/Opt_Num.v
theories/Opt_Proof.v
theories/Opt_Final.v
theories/Opt_Config.v
theories/Props_Opt.v
theories/Start_Model.v
theories/Start_Spec.v
theories/Start_Text.v
theories/Start_Over.v
theories/Start_Proof.v
theories/Props_Start.v
theories/Finish_Model.v
theories/Finish_Spec.v
theories/Finish_Hand.v
theories/Finish_Proof.v
theories/Finish_Out.v
theories/Finish_Total.v
theories/Props_Finish.v
theories/Head_Spec.v
theories/Head_Proof.v
theories/Props_Head.v
theories/Make_Model.v
theories/Make_Spec.v
theories/Make_Image.v
theories/Make_Flux.v
theories/Make_Proof.v
theories/Props_Make.v
theories/Chain_Spec.v
theories/Chain_Proof.v
theories/Chain_Fit.v
theories/Chain_Read.v
theories/Props_Chain.v
theories/Los_Model.v
theories/Los_Spec.v
theories/Los_Proof.v
theories/Los_Value.v
theories/Los_Column.v
theories/Los_Image.v
theories/Los_Bar.v
theories/Los_Axis.v
theories/Los_Final.v
theories/Props_Los.v
theories/Multi_Model.v
theories/Multi_Spec.v
theories/Multi_Proof.v
theories/Multi_Draw.v
theories/Multi_Start.v
theories/Multi_Sect.v
theories/Props_Multi.v
theories/Multi_TextSpec.v
theories/Multi_Text.v
theories/Props_MultiText.v
theories/Multi_FilesSpec.v
theories/Multi_Files.v
theories/Props_MultiFiles.v
theories/Multi_RowsSpec.v
theories/Multi_Rows.v
theories/Props_MultiRows.v
theories/Spiral_Model.v
theories/Spiral_Spec.v
theories/Spiral_Proof.v
theories/Props_Spiral.v
theories/Arc_Model.v
theories/Arc_Spec.v
theories/Arc_Proof.v
theories/Props_Arc.v
theories/Board_Model.v
theories/Props_Board.v
theories/Compound_Model.v
theories/Props_Compound.v
theories/Extra_Model.v
theories/Props_Extra.v
theories/Bar3_Model.v
theories/Props_Bar3.v
theories/Profile_Model.v
theories/Props_Profile.v
theories/Psf1d_Model.v
theories/Props_Psf1d.v
theories/Conv1d_Model.v
theories/Props_Conv1d.v
theories/Dev1d_Model.v
theories/Props_Dev1d.v
