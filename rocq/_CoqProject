-Q theories Verif
theories/Base.v
theories/Sched_model.v
theories/Sched_spec.v
theories/Sched_proofs.v
theories/Sched_proofs2.v
theories/Sched_proofs3.v
theories/Sched_float.v
theories/Bin64.v
theories/Plot_model.v
theories/Plot_proofs.v
theories/Sched_props.v
theories/Float_props.v
theories/Material_model.v
theories/Material_proofs.v
theories/Material_props.v
theories/OC_model.v
theories/OC_spec.v
theories/OC_proofs.v
theories/OC_props.v
theories/LogMOC_model.v
theories/LogMOC_proofs.v
theories/LogMOC_props.v
theories/Driver_model.v
theories/Driver_spec.v
theories/Driver_proofs.v
theories/Driver_proofs2.v
theories/Ckpt_model.v
theories/Ckpt_proofs.v
theories/Driver_props.v
theories/Session_spec.v
theories/Session_proofs.v
theories/Ckpt_props.v
theories/Config_model.v
theories/Config_props.v
theories/History_model.v
theories/History_proofs.v
theories/History_props.v
theories/Cmp_model.v
theories/Cmp_props.v
theories/Timer_model.v
theories/Timer_spec.v
theories/Timer_proofs.v
theories/Timer_proofs2.v
theories/Timer_props.v
theories/Charts_model.v
theories/Charts_props.v
theories/ChartsRun_props.v
theories/ChartsBar_props.v
theories/ChartsAvg_props.v
theories/ChartsStack_props.v
theories/Sums.v
theories/LinAlg.v
theories/Filter_model.v
theories/Filter_proofs.v
theories/Filter_props.v
theories/Helmholtz_model.v
theories/Helmholtz_props.v
theories/Mesh_model.v
theories/Mesh_spec.v
theories/Mesh_proofs.v
theories/Mesh_props.v
theories/Solver_model.v
theories/Solver_props.v
theories/Fea_model.v
theories/Fea_spec.v
theories/Fea_proofs.v
theories/Fea_props.v
theories/Stress_model.v
theories/Stress_props.v
theories/OCvol_props.v
theories/Cond_model.v
theories/Cond_props.v
theories/Iter_model.v
theories/Iter_spec.v
theories/Grad_proofs.v
theories/Iter_proofs.v
theories/Grad_props.v
theories/Iter_props.v
theories/Vol_props.v
theories/VolGrad_props.v
theories/Heat_model.v
theories/Heat_spec.v
theories/Heat_proofs.v
theories/Heat_props.v
theories/HeatGrad_props.v
theories/HeatSens_props.v
theories/HeatArgs_props.v
theories/LinDiff_proofs.v
theories/HeatDiff_proofs.v
theories/HeatDiff_props.v
theories/HistSess_model.v
theories/HistSess_proofs.v
theories/HistSess_props.v
theories/Tags_model.v
theories/Tags_props.v
theories/Adj_model.v
theories/Adj_props.v
theories/EHelm_model.v
theories/EHelm_props.v
theories/CG_model.v
theories/CG_proofs.v
theories/CG_props.v
theories/EFilt_model.v
theories/EFilt_props.v
theories/Petsc_model.v
theories/Petsc_props.v
theories/HeatAlt_model.v
theories/HeatAlt_props.v
theories/HeatAdj_model.v
theories/HeatAdj_props.v
theories/HeatIter_model.v
theories/HeatIter_spec.v
theories/HeatIter_props.v
theories/LMIter_model.v
theories/LMIter_spec.v
theories/LMIter_props.v
theories/Run_model.v
theories/Run_spec.v
theories/Run_proofs.v
theories/Run_props.v
theories/Load_model.v
theories/Load_spec.v
theories/Load_props.v
theories/Stats_model.v
theories/Stats_spec.v
theories/Stats_proofs.v
theories/Stats_props.v
theories/LRun_model.v
theories/LRun_spec.v
theories/LRun_proofs.v
theories/LRun_props.v
theories/HzRange_spec.v
theories/HzRange_props.v
theories/HzIter_model.v
theories/HzIter_spec.v
theories/HzIter_proofs.v
theories/HzIter_props.v
theories/HzRun_model.v
theories/HzRun_spec.v
theories/HzRun_props.v
theories/Scale_model.v
theories/Scale_spec.v
theories/Scale_proofs.v
theories/Scale_props.v
theories/HzSens_spec.v
theories/HzSens_props.v
theories/Par_model.v
theories/Par_spec.v
theories/Par_proofs.v
theories/Par_props.v
theories/Units_props.v
theories/Units_spec.v
theories/Units2_props.v
theories/Order_spec.v
theories/Order_proofs.v
theories/Order_props.v
theories/Order2_spec.v
theories/Order2_props.v
theories/Order3_spec.v
theories/Order3_props.v
theories/Turn_spec.v
theories/Turn_props.v
theories/Turn2_props.v
theories/Turn3_props.v
theories/HeatTurn_props.v
theories/Misc_props.v
theories/Box_model.v
theories/Box_props.v
theories/Toy_model.v
theories/Toy_props.v
theories/Toy2_props.v
theories/Wrap_model.v
theories/Wrap_props.v
theories/Out_model.v
theories/Out_props.v
theories/Upd64_model.v
theories/Upd64_props.v
