-Q theories Verif

theories/Base.v
theories/Key_model.v
theories/Key_spec.v
theories/Key_proofs.v
theories/Key_props.v
theories/Morton_model.v
theories/Morton_proofs.v
theories/Morton_qproofs.v
theories/Morton_props.v
theories/Hilbert_model.v
theories/Hilbert_proofs.v
theories/Hilbert3_proofs.v
theories/Hilbert_props.v
theories/HCell_model.v
theories/HCell_props.v
theories/HashTable_model.v
theories/HashTable_props.v
theories/BuildTree_model.v
theories/BuildTree_spec.v
theories/BuildTree_lemmas.v
theories/BuildTree_inv.v
theories/BuildTree_turn.v
theories/BuildTree_proofs.v
theories/BuildTree_shape.v
theories/BuildTree_props.v
theories/Vec.v
theories/Geometry_model.v
theories/Geometry_props.v
theories/Cofm_model.v
theories/Cofm_spec.v
theories/Cofm_proofs.v
theories/Cofm_props.v
theories/Search_model.v
theories/Search_proofs.v
theories/Search_sph.v
theories/Search_props.v
theories/Tensor_model.v
theories/Tensor_props.v
theories/Kernel_model.v
theories/Kernel_proofs.v
theories/Kernel_props.v
theories/Sph_model.v
theories/Sph_props.v
theories/SphMore_props.v
theories/SphTree_props.v
theories/Timestep_model.v
theories/Timestep_props.v
theories/Leapfrog_model.v
theories/Leapfrog_props.v
theories/Gravity_model.v
theories/Gravity_props.v
theories/Fmm_model.v
theories/Fmm_spec.v
theories/Fmm_proofs.v
theories/Fmm_calls.v
theories/Fmm_exec.v
theories/Fmm_built.v
theories/Fmm_props.v
theories/FmmMomentum_props.v
theories/FmmError_props.v
theories/Eos_model.v
theories/Eos_props.v
theories/Profile_model.v
theories/Profile_props.v
theories/Interp_props.v
theories/EForce_model.v
theories/EForce_props.v
theories/Exchange_model.v
theories/Exchange_props.v
theories/PSort_model.v
theories/PSort_proofs.v
theories/PSort_props.v
theories/QSort_model.v
theories/QSort_props.v
theories/Range_model.v
theories/Range_props.v
theories/Boundary_model.v
theories/Boundary_props.v
theories/IO_model.v
theories/IO_props.v
theories/Snapshot_model.v
theories/Snapshot_props.v
theories/Lattice_model.v
theories/Lattice_props.v
theories/Icosa_props.v
theories/Wvt_model.v
theories/Wvt_props.v
theories/Analysis_model.v
theories/Analysis_props.v
theories/Params_model.v
theories/Params_props.v
theories/Hypercube_model.v
theories/Hypercube_props.v
theories/Comms_model.v
theories/Comms_lemmas.v
theories/Comms_inv.v
theories/Comms_steps.v
theories/Comms_props.v
theories/Share_model.v
theories/Share_lemmas.v
theories/Share_sums.v
theories/Share_table.v
theories/Share_steps.v
theories/Share_update.v
theories/Share_local.v
theories/Share_rounds.v
theories/Share_final.v
theories/Share_world.v
theories/Share_reach.v
theories/Share_props.v
theories/Dist_model.v
theories/Dist_lemmas.v
theories/Dist_near.v
theories/Dist_reach.v
theories/Dist_refuted.v
theories/Dist_props.v
theories/Comms_flags.v
theories/Share_flags.v
theories/Dist_walk.v
theories/Dist_cover.v
theories/Dist_target.v
theories/Dist_all_props.v
theories/Driver_model.v
theories/Driver_proofs.v
theories/Driver_run.v
theories/Driver_tree.v
theories/Driver_props.v
theories/ParamsDecl_model.v
theories/ParamsDecl_props.v
theories/LatticeBox_props.v
theories/Pass_model.v
theories/Pass_proofs.v
theories/Pass_run.v
theories/Pass_same.v
theories/Pass_props.v
theories/Relax_proofs.v
theories/Relax_props.v
theories/Dt_model.v
theories/Dt_props.v
theories/IdGen_model.v
theories/IdGen_lemmas.v
theories/IdSod_props.v
theories/IdGas_props.v
theories/IdFlow_model.v
theories/IdFlow_lemmas.v
theories/IdKh_props.v
theories/IdRt_props.v
theories/IdFluid_props.v
theories/IdBlast_model.v
theories/IdBlast_lemmas.v
theories/IdSedov_props.v
theories/IdNoh_props.v
theories/FCell_model.v
theories/FCell_lemmas.v
theories/FCell_props.v
theories/GSearch_model.v
theories/GSearch_proofs.v
theories/FSearch_model.v
theories/FSearch_spec.v
theories/FSearch_lemmas.v
theories/FSearch_proofs.v
theories/FSearch_props.v
theories/Diag_model.v
theories/Diag_spec.v
theories/Diag_proofs.v
theories/Diag_props.v
theories/Loop_model.v
theories/Loop_props.v
theories/FClock_model.v
theories/FClock_props.v
theories/Hlen_model.v
theories/Hlen_props.v
theories/SVec_model.v
theories/SVec_props.v
theories/Check_model.v
theories/Check_props.v
theories/FForce_model.v
theories/FForce_props.v
theories/DFmm_owner.v
theories/DFmm_model.v
theories/DFmm_cells.v
theories/DFmm_pairs.v
theories/DFmm_end.v
theories/DFmm_props.v
theories/DFmm_exec.v
theories/DFmm_more.v
theories/DField_props.v
theories/DSame_lemmas.v
theories/DSame_props.v
theories/Await_lemmas.v
theories/DFinish_props.v
theories/Bound_props.v
theories/DOne_lemmas.v
theories/DOne_props.v
theories/Continuity_props.v
theories/DProgram_props.v
theories/Numbers_lemmas.v
theories/KernelGauss_props.v
theories/Constants_props.v
theories/Energy_props.v
theories/KernelSinc_props.v
theories/CommsLoad_props.v
theories/TreeDriver_model.v
theories/TreeDriver_props.v
theories/FDens_model.v
theories/FDens_props.v
theories/FEos_model.v
theories/FEos_props.v
theories/FStep_model.v
theories/FStep_props.v
