-Q theories Verif
theories/Tasks_Model.v
theories/Tasks_Spec.v
theories/Tasks_Bits.v
theories/Tasks_Sched.v
theories/Tasks_Live.v
theories/Tasks_Closure.v
theories/Tasks_Proofs.v
theories/Tasks_Props.v
theories/RK_Model.v
theories/RK_Spec.v
theories/RK_Proofs.v
theories/RK_Proofs2.v
theories/RK_Props.v
theories/LB_Model.v
theories/LB_Spec.v
theories/LB_Proofs.v
theories/LB_Proofs2.v
theories/LB_Props.v
theories/Loc.v
theories/Tags_Model.v
theories/Tags_Spec.v
theories/Tags_Proofs.v
theories/Tags_Props.v
theories/AMR_Model.v
theories/AMR_Spec.v
theories/AMR_Proofs.v
theories/AMR_Proofs2.v
theories/AMR_Props.v
theories/Tree_Model.v
theories/Tree_Spec.v
theories/Tree_Proofs1.v
theories/Tree_Proofs2.v
theories/Tree_Proofs3.v
theories/Tree_Proofs4.v
theories/Tree_Proofs5.v
theories/Tree_Proofs6.v
theories/Tree_Proofs7.v
theories/Tree_Proofs8.v
theories/Tree_Restart.v
theories/Tree_Proofs9.v
theories/Tree_Proofs10.v
theories/Tree_Props.v
theories/Nbr_Model.v
theories/Nbr_Spec.v
theories/Nbr_Proofs.v
theories/Nbr_Proofs2.v
theories/Nbr_Proofs3.v
theories/Nbr_Props.v
theories/Arr_Model.v
theories/Arr_Spec.v
theories/Arr_Proofs.v
theories/Arr_Proofs2.v
theories/Arr_Props.v
theories/Buf_Model.v
theories/Buf_Spec.v
theories/Buf_Proofs.v
theories/Buf_Proofs2.v
theories/Buf_Proofs3.v
theories/Buf_Props.v
theories/Par_Model.v
theories/Par_Spec.v
theories/Par_Proofs.v
theories/Par_Proofs2.v
theories/Par_Proofs3.v
theories/Par_Proofs4.v
theories/Par_Proofs5.v
theories/Par_Props.v
theories/Rst_Model.v
theories/Rst_Spec.v
theories/Rst_Proofs.v
theories/Rst_Proofs2.v
theories/Rst_Props.v
theories/Time_Model.v
theories/Time_Spec.v
theories/Time_Proofs.v
theories/Time_Proofs2.v
theories/Time_Props.v
theories/Ran_Model.v
theories/Ran_Spec.v
theories/Ran_Proofs.v
theories/Ran_Props.v
theories/Interp_Model.v
theories/Interp_Spec.v
theories/Interp_Proofs.v
theories/Interp_Props.v
theories/Fv_Model.v
theories/Fv_Spec.v
theories/Fv_Proofs.v
theories/Fv_Proofs2.v
theories/Fv_Proofs3.v
theories/Fv_Props.v
theories/Ref_Model.v
theories/Ref_Spec.v
theories/Ref_Proofs.v
theories/Ref_Proofs2.v
theories/Ref_Proofs3.v
theories/Ref_Proofs4.v
theories/Ref_Props.v
theories/Rec_Model.v
theories/Rec_Spec.v
theories/Rec_Proofs.v
theories/Rec_Proofs2.v
theories/Rec_Proofs3.v
theories/Rec_Proofs4.v
theories/Rec_Props.v
theories/Eos_Model.v
theories/Eos_Spec.v
theories/Eos_Proofs.v
theories/Eos_Props.v
theories/Rie_Model.v
theories/Rie_Spec.v
theories/Rie_Proofs.v
theories/Rie_Proofs2.v
theories/Rie_Proofs3.v
theories/Rie_Proofs4.v
theories/Rie_Props.v
theories/Pos_Model.v
theories/Pos_Spec.v
theories/Pos_Proofs.v
theories/Pos_Proofs2.v
theories/Pos_Props.v
theories/Bnd_Model.v
theories/Bnd_Spec.v
theories/Bnd_Proofs.v
theories/Bnd_Proofs2.v
theories/Bnd_Proofs3.v
theories/Bnd_Proofs4.v
theories/Bnd_Proofs5.v
theories/Bnd_Props.v
theories/Sts_Model.v
theories/Sts_Spec.v
theories/Sts_Proofs.v
theories/Sts_Proofs2.v
theories/Sts_Proofs3.v
theories/Sts_Props.v
theories/Geo_Model.v
theories/Geo_Spec.v
theories/Geo_Proofs.v
theories/Geo_Props.v
theories/Met_Model.v
theories/Met_Spec.v
theories/Met_Proofs.v
theories/Met_Proofs2.v
theories/Met_Proofs3.v
theories/Met_Proofs4.v
theories/Met_Props.v
theories/Mg_Model.v
theories/Mg_Spec.v
theories/Mg_Proofs.v
theories/Mg_Proofs2.v
theories/Mg_Proofs3.v
theories/Mg_Proofs4.v
theories/Mg_Proofs5.v
theories/Mg_Props.v
theories/Orb_Model.v
theories/Orb_Spec.v
theories/Orb_Proofs.v
theories/Orb_Proofs2.v
theories/Orb_Proofs3.v
theories/Orb_Props.v
theories/Gho_Model.v
theories/Gho_Spec.v
theories/Gho_Proofs.v
theories/Gho_Proofs2.v
theories/Gho_Proofs3.v
theories/Gho_Proofs4.v
theories/Gho_Proofs5.v
theories/Gho_Proofs6.v
theories/Gho_Props.v
theories/Pro_Model.v
theories/Pro_Spec.v
theories/Pro_Proofs.v
theories/Pro_Proofs2.v
theories/Pro_Proofs3.v
theories/Pro_Proofs4.v
theories/Pro_Props.v
theories/Con_Model.v
theories/Con_Spec.v
theories/Con_Proofs.v
theories/Con_Proofs2.v
theories/Con_Proofs3.v
theories/Con_Proofs4.v
theories/Con_Proofs5.v
theories/Con_Proofs6.v
theories/Con_Props.v
theories/Emf_Model.v
theories/Emf_Spec.v
theories/Emf_Proofs.v
theories/Emf_Proofs2.v
theories/Emf_Proofs3.v
theories/Emf_Proofs4.v
theories/Emf_Proofs5.v
theories/Emf_Proofs6.v
theories/Emf_Proofs7.v
theories/Emf_Props.v
theories/Mag_Spec.v
theories/Mag_Proofs.v
theories/Mag_Proofs2.v
theories/Mag_Props.v
theories/Fgh_Model.v
theories/Fgh_Spec.v
theories/Fgh_Proofs.v
theories/Fgh_Proofs2.v
theories/Fgh_Proofs3.v
theories/Fgh_Proofs4.v
theories/Fgh_Proofs5.v
theories/Fgh_Model2.v
theories/Fgh_Spec2.v
theories/Fgh_Proofs6.v
theories/Fgh_Proofs7.v
theories/Fgh_Proofs8.v
theories/Fgh_Props.v
theories/Reg_Model.v
theories/Reg_Spec.v
theories/Reg_Proofs.v
theories/Reg_Proofs2.v
theories/Reg_Proofs3.v
theories/Reg_Proofs4.v
theories/Reg_Proofs5.v
theories/Reg_Proofs6.v
theories/Reg_Proofs7.v
theories/Reg_Spec2.v
theories/Reg_Proofs8.v
theories/Reg_Props.v
theories/Qrt_Model.v
theories/Qrt_Spec.v
theories/Qrt_Proofs.v
theories/Qrt_Props.v
theories/Lud_Model.v
theories/Lud_Spec.v
theories/Lud_Proofs.v
theories/Lud_Proofs2.v
theories/Lud_Props.v
theories/Ang_Model.v
theories/Ang_Spec.v
theories/Ang_Proofs.v
theories/Ang_Proofs2.v
theories/Ang_Proofs3.v
theories/Ang_Props.v
theories/Dif_Model.v
theories/Dif_Spec.v
theories/Dif_Proofs.v
theories/Dif_Props.v
theories/Tor_Spec.v
theories/Tor_Proofs.v
theories/Vis_Model.v
theories/Vis_Spec.v
theories/Vis_Proofs.v
theories/Vis_Props.v
theories/Res_Model.v
theories/Res_Spec.v
theories/Res_Proofs.v
theories/Res_Proofs2.v
theories/Res_Props.v
theories/Src_Model.v
theories/Src_Spec.v
theories/Src_Proofs.v
theories/Src_Proofs2.v
theories/Src_Proofs3.v
theories/Src_Props.v
theories/Out_Model.v
theories/Out_Spec.v
theories/Out_Proofs.v
theories/Out_Proofs2.v
theories/Out_Proofs3.v
theories/Out_Props.v
theories/Gr_Model.v
theories/Gr_Spec.v
theories/Gr_Proofs.v
theories/Gr_Proofs2.v
theories/Gr_Proofs3.v
theories/Gr_Proofs4.v
theories/Gr_Proofs5.v
theories/Gr_Props.v
theories/Chem_Model.v
theories/Chem_Spec.v
theories/Chem_Proofs.v
theories/Chem_Proofs2.v
theories/Chem_Proofs3.v
theories/Chem_Props.v
theories/Char_Model.v
theories/Char_Spec.v
theories/Char_Proofs.v
theories/Char_Proofs2.v
theories/Char_Proofs3.v
theories/Char_Proofs4.v
theories/Char_Props.v
theories/Cr_Model.v
theories/Cr_Spec.v
theories/Cr_Proofs.v
theories/Cr_Proofs2.v
theories/Cr_Proofs3.v
theories/Cr_Props.v
theories/Nr_Model.v
theories/Nr_Spec.v
theories/Nr_Proofs.v
theories/Nr_Proofs2.v
theories/Nr_Proofs3.v
theories/Nr_Props.v
theories/Sr_Model.v
theories/Sr_Spec.v
theories/Sr_Proofs.v
theories/Sr_Proofs2.v
theories/Sr_Proofs3.v
theories/Sr_Proofs4.v
theories/Sr_Props.v
theories/Mf_Model.v
theories/Mf_Spec.v
theories/Mf_Proofs.v
theories/Mf_Proofs2.v
theories/Mf_Proofs3.v
theories/Mf_Props.v
theories/Shb_Model.v
theories/Shb_Spec.v
theories/Shb_Proofs.v
theories/Shb_Proofs2.v
theories/Shb_Props.v
theories/Shf_Model.v
theories/Shf_Spec.v
theories/Shf_Proofs.v
theories/Shf_Props.v
theories/Hli_Model.v
theories/Hli_Spec.v
theories/Hli_Proofs.v
theories/Hli_Props.v
theories/Lhd_Model.v
theories/Lhd_Props.v
theories/Srr_Model.v
theories/Srr_Spec.v
theories/Srr_Proofs.v
theories/Srr_Props.v
theories/Srr_Gas.v
theories/Shc_Model.v
theories/Shc_Proofs.v
theories/Shc_Props.v
theories/Shc_Tiny.v
theories/Shc_Mirror.v
theories/Shc_Push.v
