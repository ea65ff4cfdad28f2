(* What the theorems about whole iterations with the default (nodal Helmholtz) filter mean. *)
From Verif Require Import Base Sums LinAlg Material_model OC_model OC_spec LogMOC_model Filter_model Helmholtz_model Helmholtz_props HzRange_spec
  Mesh_model Mesh_spec Mesh_props Fea_model Fea_spec Iter_model Iter_spec Heat_model Heat_spec HeatAdj_model HeatIter_model HeatIter_spec LMIter_model LMIter_spec HzIter_model.
Open Scope R_scope.
Open Scope list_scope.

(* the filter works on a mesh of n elements with radius r: matrices assembled from shape
   functions, r large enough for the elements (C101), and a linear solver that solves *)
Definition filter_ready (f : hfilter) (n : nat) (r : R) : Prop :=
  let m := hz_mesh f in
  n_els m = n /\ Helmholtz_props.mesh_ok m /\ fem_matrices m /\ shape_functions m /\ coarse m r /\
  forall D bc b, Helmholtz_model.solves m r D bc b (hz_solve f r D bc b).
(* the conditions on the analysed task in Iter_spec and HeatIter_spec mention the spatial
   filter; only its number of elements matters here *)
Definition some_filter (n : nat) : sfilter := mkSF (repeat [] n) None 1 None.
Definition task_ready (t : anytask) (T : task_args) (c : icfg) (v : ivals) : Prop :=
  match t with
  | Elastic pb => well_posed pb c v (some_filter (List.length (ta_t T))) /\ (i_interp c = RAMP -> c_rho_max (i_oc c) <= 1)
  | HeatTask P => i_design_dirichlet c = false /\ c_rho_max (i_oc c) <= 1 /\
      exists s D A values, heat_problem T s A values c P /\ heat_ready s D values c v (some_filter (List.length (ta_t T)))
  end.
(* the task's element sets *)
Definition from_args (t : anytask) (T : task_args) (c : icfg) : Prop :=
  built_from T c (element_task t) /\ pins_known T c /\ (forall e, In e (ta_design T) -> (e < List.length (ta_t T))%nat).
(* the fraction of the design volume filled by densities rho after filter and projection *)
Definition hz_fraction (pb : problem) (c : icfg) (v : ivals) (f : hfilter) (rho : list R) : R :=
  let design := d_design (pb_dom pb) in
  let vols := map (fun e => nth e (pb_volumes pb) 0) design in
  material_fraction (hz_fwd f) (v_beta v) (c_beta_eta (i_oc c)) rho design vols (rsum vols).
