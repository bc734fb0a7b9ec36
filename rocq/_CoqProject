-Q theories Verif
theories/Force_Model.v
theories/Force_Spec.v
theories/Force_Proofs.v
theories/Force_Proofs2.v
theories/Force_Props.v
theories/Scene_Model.v
theories/Scene_Spec.v
theories/Scene_Proofs.v
theories/Scene_Props.v
theories/Runner_Model.v
theories/Runner_Spec.v
theories/Runner_Proofs.v
theories/Runner_Props.v
theories/World_Model.v
theories/World_Spec.v
theories/World_Proofs1.v
theories/World_Proofs2.v
theories/World_Proofs3.v
theories/World_Proofs4.v
theories/World_Proofs5.v
theories/World_Proofs6.v
theories/World_Check.v
theories/World_Props.v
theories/Subd_Model.v
theories/Subd_Spec.v
theories/Subd_Proofs.v
theories/Subd_Props.v
theories/Comm_Model.v
theories/Comm_Spec.v
theories/Comm_Proofs.v
theories/Mpi_Model.v
theories/Mpi_Spec.v
theories/Mpi_Proofs1.v
theories/Mpi_Proofs2.v
theories/Mpi_Proofs3.v
theories/Mpi_Proofs4.v
theories/Mpi_Proofs5.v
theories/Mpi_Example.v
theories/Mpi_Props.v
theories/Tree_Model.v
theories/Tree_Spec.v
theories/Tree_Proofs1.v
theories/Tree_Proofs2.v
theories/Tree_Proofs3.v
theories/Tree_Example.v
theories/Tree_Props.v
theories/Coll_Model.v
theories/Coll_Spec.v
theories/Coll_Proofs1.v
theories/Coll_Proofs2.v
theories/Coll_Proofs3.v
theories/Coll_Proofs4.v
theories/Coll_Example.v
theories/Coll_Props.v
theories/Peri_Model.v
theories/Peri_Sort.v
theories/Peri_Refine.v
theories/Peri_Spec.v
theories/Peri_Proofs1.v
theories/Peri_Proofs2.v
theories/Peri_Proofs3.v
theories/Peri_Term.v
theories/Peri_Proofs4.v
theories/Peri_Proofs5.v
theories/Peri_Example.v
theories/Peri_Props.v
theories/Stride_Model.v
theories/Stride_Spec.v
theories/Stride_Proofs.v
theories/Stride_Example.v
theories/Stride_Props.v
theories/Disp_Model.v
theories/Disp_Spec.v
theories/Disp_Proofs.v
theories/Disp_Example.v
theories/Disp_Props.v
theories/Period_Model.v
theories/Period_Spec.v
theories/Period_Proofs.v
theories/Period_Props.v
theories/Attr_Model.v
theories/Attr_Spec.v
theories/Attr_Proofs.v
theories/Attr_Props.v
theories/Energy_Model.v
theories/Energy_Spec.v
theories/Energy_Proofs.v
theories/Energy_Example.v
theories/Energy_Props.v
theories/Vec_Model.v
theories/Vec_Proofs.v
theories/Rigid_Model.v
theories/Rigid_Spec.v
theories/Rigid_Proofs.v
theories/Rigid_Example.v
theories/Rigid_Props.v
theories/Newton_Model.v
theories/Newton_Spec.v
theories/Newton_Proofs.v
theories/Newton_Proofs2.v
theories/Newton_Proofs3.v
theories/Newton_Example.v
theories/Newton_Props.v
theories/Law_Model.v
theories/Law_Spec.v
theories/Law_Proofs.v
theories/Law_Proofs2.v
theories/Law_Example.v
theories/Law_Props.v
theories/Step_Spec.v
theories/Step_Proofs.v
theories/Step_Example.v
theories/Step_Props.v
theories/Cell_Model.v
theories/Cell_Spec.v
theories/Cell_Proofs.v
theories/Cell_Flow.v
theories/Cell_FlowSpec.v
theories/Cell_FlowProofs.v
theories/Cell_Example.v
theories/Cell_Props.v
theories/Dom_Model.v
theories/Dom_Spec.v
theories/Dom_Proofs.v
theories/Dom_Proofs2.v
theories/Dom_Example.v
theories/Dom_Props.v
theories/Loop_Model.v
theories/Loop_Spec.v
theories/Loop_Proofs.v
theories/Loop_Example.v
theories/Loop_Props.v
theories/Grid_Model.v
theories/Grid_Spec.v
theories/Grid_Proofs.v
theories/Grid_Example.v
theories/Grid_Props.v
theories/Quick_Model.v
theories/Quick_Spec.v
theories/Quick_Proofs.v
theories/Quick_Example.v
theories/Quick_Props.v
theories/Tstep_Model.v
theories/Tstep_Spec.v
theories/Tstep_Proofs.v
theories/Tstep_Proofs2.v
theories/Tstep_Proofs3.v
theories/Tstep_Proofs4.v
theories/Tstep_Example.v
theories/Tstep_Props.v
theories/Pred_Model.v
theories/Pred_Spec.v
theories/Pred_Proofs.v
theories/Pred_Proofs2.v
theories/Pred_Example.v
theories/Pred_Props.v
theories/Merge_Model.v
theories/Merge_Spec.v
theories/Merge_Proofs.v
theories/Merge_Example.v
theories/Merge_Props.v
theories/Interp_Model.v
theories/Interp_Spec.v
theories/Interp_Proofs.v
theories/Interp_Example.v
theories/Interp_Props.v
theories/Kine_Model.v
theories/Kine_Spec.v
theories/Kine_Proofs.v
theories/Kine_Proofs2.v
theories/Kine_Proofs3.v
theories/Kine_Proofs4.v
theories/Kine_Example.v
theories/Kine_Props.v
theories/Plot_Model.v
theories/Plot_Spec.v
theories/Plot_Proofs.v
theories/Plot_Proofs2.v
theories/Plot_Proofs3.v
theories/Plot_Proofs4.v
theories/Plot_Example.v
theories/Plot_Props.v
theories/Cloud_Model.v
theories/Cloud_Spec.v
theories/Cloud_Proofs.v
theories/Cloud_Proofs2.v
theories/Cloud_Proofs3.v
theories/Cloud_Proofs4.v
theories/Cloud_Proofs5.v
theories/Cloud_Props.v
theories/Spack_Model.v
theories/Spack_Spec.v
theories/Spack_Proofs.v
theories/Spack_Proofs2.v
theories/Spack_Proofs3.v
theories/Spack_Proofs4.v
theories/Spack_Props.v
theories/Ccloud_Model.v
theories/Ccloud_Spec.v
theories/Ccloud_Proofs.v
theories/Ccloud_Proofs2.v
theories/Ccloud_Props.v
theories/Ptext_Model.v
theories/Ptext_Spec.v
theories/Ptext_Proofs.v
theories/Ptext_Props.v
theories/Coh_Model.v
theories/Coh_Spec.v
theories/Coh_Proofs.v
theories/Coh_Proofs2.v
theories/Coh_Proofs3.v
theories/Coh_Proofs4.v
theories/Coh_Props.v
theories/Hull_Model.v
theories/Hull_Spec.v
theories/Hull_Proofs.v
theories/Hull_Proofs2.v
theories/Hull_Proofs3.v
theories/Hull_Props.v
theories/Field_Model.v
theories/Field_Spec.v
theories/Field_Proofs.v
theories/Field_Proofs2.v
theories/Field_Proofs3.v
theories/Field_Props.v
theories/Strain_Model.v
theories/Strain_Spec.v
theories/Strain_Proofs.v
theories/Strain_Proofs2.v
theories/Strain_Proofs3.v
theories/Strain_Proofs4.v
theories/Strain_Props.v
theories/Pcell_Model.v
theories/Pcell_Spec.v
theories/Pcell_Proofs.v
theories/Pcell_Proofs2.v
theories/Pcell_Proofs3.v
theories/Pcell_Proofs4.v
theories/Pcell_Props.v
theories/Shape_Model.v
theories/Shape_Spec.v
theories/Shape_Proofs.v
theories/Shape_Proofs2.v
theories/Shape_Proofs3.v
theories/Shape_Proofs4.v
theories/Shape_Proofs5.v
theories/Shape_Proofs6.v
theories/Shape_Props.v
theories/Triax_Model.v
theories/Triax_Spec.v
theories/Triax_Proofs.v
theories/Triax_Proofs2.v
theories/Triax_Proofs3.v
theories/Triax_Proofs4.v
theories/Triax_Proofs5.v
theories/Triax_Proofs6.v
theories/Triax_Props.v
theories/Fact_Model.v
theories/Fact_Spec.v
theories/Fact_Proofs.v
theories/Fact_Proofs2.v
theories/Fact_Proofs3.v
theories/Fact_Proofs4.v
theories/Fact_Proofs5.v
theories/Fact_Props.v
theories/Hertz_Model.v
theories/Hertz_Spec.v
theories/Hertz_Proofs.v
theories/Hertz_Proofs2.v
theories/Hertz_Proofs3.v
theories/Hertz_Proofs4.v
theories/Hertz_Proofs5.v
theories/Hertz_Proofs6.v
theories/Hertz_Props.v
theories/Fser_Model.v
theories/Fser_Spec.v
theories/Fser_Proofs.v
theories/Fser_Proofs2.v
theories/Fser_Props.v
theories/Pfac_Model.v
theories/Pfac_Spec.v
theories/Pfac_Proofs.v
theories/Pfac_Proofs2.v
theories/Pfac_Proofs3.v
theories/Pfac_Props.v
theories/Fvis_Model.v
theories/Fvis_Spec.v
theories/Fvis_Proofs.v
theories/Fvis_Props.v
theories/Lint_Model.v
theories/Lint_Spec.v
theories/Lint_Proofs.v
theories/Lint_Proofs2.v
theories/Lint_Props.v
theories/Flat_Model.v
theories/Flat_Spec.v
theories/Flat_Proofs.v
theories/Flat_Proofs2.v
theories/Flat_Proofs3.v
theories/Flat_Proofs4.v
theories/Flat_Props.v
theories/Mort_Model.v
theories/Mort_Spec.v
theories/Mort_Proofs.v
theories/Mort_Props.v
theories/Lud_Model.v
theories/Lud_Spec.v
theories/Lud_Proofs.v
theories/Lud_Proofs2.v
theories/Lud_Props.v
theories/Wire_Model.v
theories/Wire_Spec.v
theories/Wire_Proofs.v
theories/Wire_Proofs2.v
theories/Wire_Props.v
theories/Inel_Model.v
theories/Inel_Spec.v
theories/Inel_Proofs.v
theories/Inel_Proofs2.v
theories/Inel_Props.v
theories/Pare_Model.v
theories/Pare_Spec.v
theories/Pare_Proofs.v
theories/Pare_Props.v
theories/Regi_Model.v
theories/Regi_Spec.v
theories/Regi_Proofs.v
theories/Regi_Props.v
theories/Topo_Model.v
theories/Topo_Spec.v
theories/Topo_Proofs.v
theories/Topo_Props.v
theories/Reco_Model.v
theories/Reco_Spec.v
theories/Reco_Proofs.v
theories/Reco_Props.v
theories/Bubb_Model.v
theories/Bubb_Spec.v
theories/Bubb_Proofs.v
theories/Bubb_Props.v
theories/Wavg_Model.v
theories/Wavg_Spec.v
theories/Wavg_Proofs.v
theories/Wavg_Props.v
