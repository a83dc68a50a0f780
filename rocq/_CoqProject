-Q theories Verif

theories/Base.v
theories/BaseFacts.v
theories/RBase.v
theories/RBaseFacts.v
theories/Chop_Model.v
theories/Chop_Spec.v
theories/Chop_Proofs.v
theories/Chop_Props.v
theories/Color_Model.v
theories/Color_Spec.v
theories/Color_Proofs.v
theories/Color_Props.v
theories/Bound_Model.v
theories/Bound_Spec.v
theories/Bound_Proofs.v
theories/Bound_Proofs2.v
theories/Bound_Proofs3.v
theories/Bound_Props.v
theories/Upb_Model.v
theories/Upb_Spec.v
theories/Upb_Proofs.v
theories/Upb_Props.v
theories/Relp_Model.v
theories/Relp_Spec.v
theories/Relp_Proofs.v
theories/Relp_Proofs2.v
theories/Relp_Proofs3.v
theories/Relp_Proofs4.v
theories/Relp_Proofs5.v
theories/Relp_Props.v
theories/Mpi_Model.v
theories/Mpi_Spec.v
theories/Mpi_Proofs.v
theories/Mpi_Props.v
theories/Steady_Model.v
theories/Steady_Spec.v
theories/Steady_Proofs.v
theories/Steady_Proofs2.v
theories/Steady_Props.v
theories/Euler_Model.v
theories/Euler_Spec.v
theories/Euler_Proofs.v
theories/Euler_Proofs2.v
theories/Euler_Proofs3.v
theories/Euler_Props.v
theories/Newton_Model.v
theories/Newton_Proofs.v
theories/Newton_Props.v
theories/Impl_Model.v
theories/Impl_Spec.v
theories/Impl_Proofs.v
theories/Impl_Proofs2.v
theories/Impl_Proofs3.v
theories/Impl_Proofs4.v
theories/Impl_Proofs5.v
theories/Impl_Props.v
theories/Tsrc_Model.v
theories/Tsrc_Spec.v
theories/Tsrc_Proofs.v
theories/Tsrc_Props.v
theories/Lin_Spec.v
theories/Lin_Facts.v
theories/Matx_Model.v
theories/Matx_Spec.v
theories/Matx_Proofs.v
theories/Matx_Proofs2.v
theories/Matx_Proofs3.v
theories/Matx_Props.v
theories/Mim_Model.v
theories/Mim_Spec.v
theories/Mim_Proofs.v
theories/Mim_Proofs2.v
theories/Mim_Props.v
theories/Hnum_Model.v
theories/Hnum_Spec.v
theories/Hnum_Proofs.v
theories/Hnum_Proofs2.v
theories/Hnum_Props.v
theories/Hyb_Model.v
theories/Hyb_Spec.v
theories/Hyb_Proofs.v
theories/Hyb_Proofs2.v
theories/Hyb_Proofs3.v
theories/Hyb_Proofs4.v
theories/Hyb_Proofs5.v
theories/Hyb_Proofs6.v
theories/Hyb_Proofs7.v
theories/Hyb_Proofs8.v
theories/Hyb_Proofs9.v
theories/Hyb_Props.v
theories/Rprop_Model.v
theories/Rprop_Spec.v
theories/Rprop_Proofs.v
theories/Rprop_Proofs2.v
theories/Rprop_Proofs3.v
theories/Rprop_Props.v
theories/Fluid_Model.v
theories/Fluid_Spec.v
theories/Fluid_Proofs.v
theories/Fluid_Proofs2.v
theories/Fluid_Proofs3.v
theories/Fluid_Proofs4.v
theories/Fluid_Proofs5.v
theories/Fluid_Proofs6.v
theories/Fluid_Proofs7.v
theories/Fluid_Proofs8.v
theories/Fluid_Props.v
theories/Smat_Model.v
theories/Smat_Spec.v
theories/Smat_Proofs.v
theories/Smat_Proofs2.v
theories/Smat_Props.v
theories/Asm_Model.v
theories/Asm_Spec.v
theories/Asm_Proofs.v
theories/Asm_Proofs2.v
theories/Asm_Proofs3.v
theories/Asm_Proofs4.v
theories/Asm_Proofs5.v
theories/Asm_Proofs6.v
theories/Asm_Props.v
theories/Shape_Model.v
theories/Shape_Spec.v
theories/Shape_Proofs.v
theories/Shape_Proofs2.v
theories/Shape_Proofs3.v
theories/Shape_Props.v
theories/Elast_Model.v
theories/Elast_Spec.v
theories/Elast_Proofs.v
theories/Elast_Proofs2.v
theories/Elast_Proofs3.v
theories/Elast_Proofs4.v
theories/Elast_Proofs5.v
theories/Elast_Proofs6.v
theories/Elast_Proofs7.v
theories/Elast_Proofs8.v
theories/Elast_Proofs9.v
theories/Elast_Proofs10.v
theories/Elast_Props.v
theories/Mort_Model.v
theories/Mort_Spec.v
theories/Mort_Proofs.v
theories/Mort_Proofs2.v
theories/Mort_Proofs3.v
theories/Mort_Props.v
theories/Bgrid_Model.v
theories/Bgrid_Spec.v
theories/Bgrid_Proofs.v
theories/Bgrid_Proofs2.v
theories/Bgrid_Proofs3.v
theories/Bgrid_Proofs4.v
theories/Bgrid_Proofs5.v
theories/Bgrid_Proofs6.v
theories/Bgrid_Proofs7.v
theories/Bgrid_Proofs8.v
theories/Bgrid_Props.v
theories/Eups_Model.v
theories/Eups_Spec.v
theories/Eups_Proofs.v
theories/Eups_Proofs2.v
theories/Eups_Proofs3.v
theories/Eups_Proofs4.v
theories/Eups_Proofs5.v
theories/Eups_Proofs6.v
theories/Eups_Proofs7.v
theories/Eups_Props.v
theories/Mload_Model.v
theories/Mload_Spec.v
theories/Mload_Proofs.v
theories/Mload_Proofs2.v
theories/Mload_Proofs3.v
theories/Mload_Props.v
theories/Avg_Model.v
theories/Avg_Spec.v
theories/Avg_Proofs.v
theories/Avg_Proofs2.v
theories/Avg_Proofs3.v
theories/Avg_Proofs4.v
theories/Avg_Proofs5.v
theories/Avg_Props.v
theories/Drv_Model.v
theories/Drv_Spec.v
theories/Drv_Proofs.v
theories/Drv_Proofs2.v
theories/Drv_Proofs3.v
theories/Drv_Proofs4.v
theories/Drv_Proofs5.v
theories/Drv_Proofs6.v
theories/Drv_Proofs7.v
theories/Drv_Props.v
theories/Icap_Model.v
theories/Icap_Spec.v
theories/Icap_Proofs.v
theories/Icap_Proofs2.v
theories/Icap_Proofs3.v
theories/Icap_Proofs4.v
theories/Icap_Proofs5.v
theories/Icap_Props.v
theories/Cap_Model.v
theories/Cap_Spec.v
theories/Cap_Proofs.v
theories/Cap_Proofs2.v
theories/Cap_Proofs3.v
theories/Cap_Proofs4.v
theories/Cap_Proofs5.v
theories/Cap_Proofs6.v
theories/Cap_Proofs7.v
theories/Cap_Proofs8.v
theories/Cap_Proofs9.v
theories/Cap_Props.v
theories/Visc_Model.v
theories/Visc_Spec.v
theories/Visc_Proofs.v
theories/Visc_Proofs2.v
theories/Visc_Proofs3.v
theories/Visc_Proofs4.v
theories/Visc_Proofs5.v
theories/Visc_Proofs6.v
theories/Visc_Proofs7.v
theories/Visc_Proofs8.v
theories/Visc_Proofs9.v
theories/Visc_Props.v
theories/Ieul_Model.v
theories/Ieul_Spec.v
theories/Ieul_Proofs.v
theories/Ieul_Proofs2.v
theories/Ieul_Proofs3.v
theories/Ieul_Proofs4.v
theories/Ieul_Proofs5.v
theories/Ieul_Props.v
theories/Perm_Model.v
theories/Perm_Spec.v
theories/Perm_Proofs.v
theories/Perm_Props.v
theories/Ssd_Model.v
theories/Ssd_Spec.v
theories/Ssd_Proofs.v
theories/Ssd_Props.v
theories/Rpd_Model.v
theories/Rpd_Spec.v
theories/Rpd_Proofs.v
theories/Rpd_Proofs2.v
theories/Rpd_Props.v
theories/Sim_Model.v
theories/Sim_Spec.v
theories/Sim_Proofs.v
theories/Sim_Proofs2.v
theories/Sim_Props.v
theories/Eld_Model.v
theories/Eld_Spec.v
theories/Eld_Proofs.v
theories/Eld_Proofs2.v
theories/Eld_Props.v
theories/Lsv_Model.v
theories/Lsv_Spec.v
theories/Lsv_Proofs.v
theories/Lsv_Proofs2.v
theories/Lsv_Proofs3.v
theories/Lsv_Proofs4.v
theories/Lsv_Proofs5.v
theories/Lsv_Proofs6.v
theories/Lsv_Props.v
theories/Tens_Model.v
theories/Tens_Spec.v
theories/Tens_Proofs.v
theories/Tens_Proofs2.v
theories/Tens_Proofs3.v
theories/Tens_Proofs4.v
theories/Tens_Proofs5.v
theories/Tens_Proofs6.v
theories/Tens_Proofs7.v
theories/Tens_Proofs8.v
theories/Tens_Proofs9.v
theories/Tens_Proofs10.v
theories/Tens_Proofs11.v
theories/Tens_Proofs12.v
theories/Tens_Props.v
theories/Rpc_Model.v
theories/Rpc_Spec.v
theories/Rpc_Proofs.v
theories/Rpc_Proofs2.v
theories/Rpc_Proofs3.v
theories/Rpc_Proofs4.v
theories/Rpc_Proofs5.v
theories/Rpc_Props.v
theories/Ssk_Model.v
theories/Ssk_Spec.v
theories/Ssk_Proofs.v
theories/Ssk_Proofs2.v
theories/Ssk_Proofs3.v
theories/Ssk_Proofs4.v
theories/Ssk_Proofs5.v
theories/Ssk_Proofs6.v
theories/Ssk_Props.v
theories/Ska_Model.v
theories/Ska_Spec.v
theories/Ska_Proofs.v
theories/Ska_Proofs2.v
theories/Ska_Proofs3.v
theories/Ska_Proofs4.v
theories/Ska_Proofs5.v
theories/Ska_Props.v
theories/Elm_Spec.v
theories/Elm_Proofs.v
theories/Elm_Proofs2.v
theories/Elm_Props.v
theories/Dump_Model.v
theories/Dump_Spec.v
theories/Dump_Proofs.v
theories/Dump_Props.v
theories/Grd_Model.v
theories/Grd_Spec.v
theories/Grd_Proofs.v
theories/Grd_Proofs2.v
theories/Grd_Props.v
theories/Chr_Model.v
theories/Chr_Spec.v
theories/Chr_Proofs.v
theories/Chr_Props.v
theories/Bcp_Model.v
theories/Bcp_Spec.v
theories/Bcp_Proofs.v
theories/Bcp_Props.v
theories/Hdr_Model.v
theories/Hdr_Spec.v
theories/Hdr_Proofs.v
theories/Hdr_Props.v
theories/Tbl_Model.v
theories/Tbl_Spec.v
theories/Tbl_Proofs.v
theories/Tbl_Proofs2.v
theories/Tbl_Proofs3.v
theories/Tbl_Props.v
