-Q theories Verif
theories/Base.v
theories/NumInt_Model.v
theories/NumInt_Spec.v
theories/NumInt_Proofs.v
theories/Properties_NumInt.v
theories/Disc_Model.v
theories/Disc_Spec.v
theories/Disc_Proofs.v
theories/Properties_Disc.v
theories/Fornberg_Model.v
theories/Fornberg_Spec.v
theories/Fornberg_Proofs.v
theories/NumDeriv_Model.v
theories/NumDeriv_Proofs.v
theories/Properties_Fornberg.v
theories/Pairing_Model.v
theories/Pairing_Proofs.v
theories/Properties_Pairing.v
theories/Combos_Model.v
theories/Combos_Spec.v
theories/Combos_Proofs.v
theories/Properties_Combos.v
theories/Stab_Model.v
theories/Stab_Spec.v
theories/Stab_Proofs.v
theories/Stab_Jac.v
theories/Stab_Pair.v
theories/Stab_Harm.v
theories/Stat_Model.v
theories/Stat_Proofs.v
theories/Properties_Stab.v
theories/Stat_Spec.v
theories/Stat_Thresh.v
theories/Properties_Stat.v
theories/Py.v
theories/PreCheck_Model.v
theories/PreCheck_Spec.v
theories/PreCheck_Proofs.v
theories/Properties_PreCheck.v
theories/Freq_Model.v
theories/Freq_Spec.v
theories/Freq_Proofs.v
theories/Properties_Freq.v
theories/Coupling_Model.v
theories/Coupling_Spec.v
theories/Coupling_Proofs.v
theories/Coupling_Cheby.v
theories/Properties_Coupling.v
theories/Hough_Model.v
theories/Hough_Spec.v
theories/Hough_Proofs.v
theories/Hough_Inverse.v
theories/Hough_Main.v
theories/Hough_Select.v
theories/Properties_Hough.v
theories/EigenNorm_Model.v
theories/EigenNorm_Spec.v
theories/EigenNorm_Proofs.v
theories/Properties_EigenNorm.v
theories/Hist_Model.v
theories/Hist_Spec.v
theories/Hist_Proofs.v
theories/Hist_Search.v
theories/Hist_API.v
theories/Hist_Phase.v
theories/Hist_Log.v
theories/Hist_LogSearch.v
theories/Hist_More.v
theories/Properties_Hist.v
theories/Mask_Model.v
theories/Mask_Spec.v
theories/Mask_Proofs.v
theories/Properties_Mask.v
theories/Ana_Model.v
theories/Ana_Spec.v
theories/Properties_Ana.v
theories/Inlist_Model.v
theories/Inlist_Spec.v
theories/Inlist_Proofs.v
theories/Properties_Inlist.v
theories/Parser_Model.v
theories/Parser_Spec.v
theories/Parser_Proofs.v
theories/Properties_Parser.v
theories/Saver_Model.v
theories/Saver_Spec.v
theories/Saver_Proofs.v
theories/Saver_Unpack.v
theories/Saver_Again.v
theories/Saver_Names.v
theories/Properties_Saver.v
theories/Solver_Model.v
theories/Solver_Spec.v
theories/Solver_Proofs.v
theories/Properties_Solver.v
theories/Tar_Model.v
theories/Tar_Spec.v
theories/Tar_Proofs.v
theories/Tar_Adjust.v
theories/Properties_Tar.v
theories/Energy_Spec.v
theories/Energy_Proofs.v
theories/Energy_Point.v
theories/Energy_Kappa.v
theories/Properties_Energy.v
theories/Kernel_Model.v
theories/Kernel_Spec.v
theories/Kernel_Proofs.v
theories/Properties_Kernel.v
theories/Poly_Model.v
theories/Poly_Spec.v
theories/Poly_Proofs.v
theories/Properties_Poly.v
theories/Load_Model.v
theories/Load_Spec.v
theories/Load_Proofs.v
theories/Load_UnitKeys.v
theories/Load_Units.v
theories/Load_Dim.v
theories/Properties_Load.v
theories/Properties_LoadPoly.v
theories/Grid_Model.v
theories/Grid_Spec.v
theories/Grid_Interp.v
theories/Grid_Proofs.v
theories/Grid_Build.v
theories/Grid_Mesa.v
theories/Grid_Final.v
theories/Grid_Poly.v
theories/Grid_Analytic.v
theories/Grid_Errors.v
theories/Properties_Grid.v
theories/Plot_Model.v
theories/Plot_Spec.v
theories/Properties_Plot.v
theories/Setup_Model.v
theories/Setup_Spec.v
theories/Setup_Dirs.v
theories/Properties_Setup.v
theories/Run_Model.v
theories/Run_Spec.v
theories/Run_Proofs.v
theories/Properties_Run.v
theories/Properties_RunFiles.v
theories/Properties_RunExamples.v
theories/Domain_Model.v
theories/Domain_Spec.v
theories/Domain_Proofs.v
theories/Properties_Domain.v
theories/Thresh_Model.v
theories/Thresh_Spec.v
theories/Thresh_Proofs.v
theories/Properties_Thresh.v
theories/Lambda_Model.v
theories/Lambda_Spec.v
theories/Properties_Lambda.v
theories/Sharp_Model.v
theories/Sharp_Spec.v
theories/Properties_Sharp.v
theories/Comparer_Model.v
theories/Comparer_Spec.v
theories/Properties_Comparer.v
theories/KFig_Model.v
theories/KFig_Spec.v
theories/KFig_Proofs.v
theories/Properties_KFig.v
theories/Info_Model.v
theories/Info_Spec.v
theories/Info_Proofs.v
theories/Properties_Info.v
theories/Debug_Model.v
theories/Debug_Spec.v
theories/Debug_Proofs.v
theories/Debug_Entries.v
theories/Debug_Build.v
theories/Debug_Modes.v
theories/Debug_Late.v
theories/Properties_Debug.v
theories/Legacy_Model.v
theories/Legacy_Spec.v
theories/Properties_Legacy.v
theories/Properties_LegacyExamples.v
theories/Cmp_Model.v
theories/Cmp_Spec.v
theories/Cmp_Proofs.v
theories/Properties_Cmp.v
theories/Round_Model.v
theories/Round_Spec.v
theories/Round_Proofs.v
theories/Properties_Round.v
theories/Count_Model.v
theories/Count_Spec.v
theories/Count_Proofs.v
theories/Properties_Count.v
theories/HistF_Model.v
theories/HistF_Spec.v
theories/HistF_Proofs.v
theories/Properties_HistF.v
theories/Pfig_Model.v
theories/Pfig_Spec.v
theories/Pfig_Proofs.v
theories/Properties_Pfig.v
theories/Obs_Model.v
theories/Obs_Spec.v
theories/Obs_Proofs.v
theories/Properties_Obs.v
theories/TarFreq_Model.v
theories/TarFreq_Spec.v
theories/Properties_TarFreq.v
theories/FreqGet_Model.v
theories/FreqGet_Spec.v
theories/Properties_FreqGet.v
theories/CoupState_Model.v
theories/Properties_CoupState.v
theories/HFOut_Model.v
theories/HFOut_Spec.v
theories/HFOut_Proofs.v
theories/Properties_HFOut.v
