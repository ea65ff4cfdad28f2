(* What the theorems about whole iterations mean. *)
From Verif Require Import Base Material_model OC_model OC_spec Filter_model Mesh_model Mesh_spec Mesh_props Fea_model Fea_spec Fea_proofs Iter_model.
Open Scope R_scope.
Open Scope list_scope.

(* the straight line of designs through rho in direction d *)
Definition line (rho d : list R) (t : R) : list R := zipwith (fun r x => r + t * x) rho d.
(* the selected linear solvers do solve the supported systems of every material
   distribution of positive stiffness *)
Definition solver_ok (pb : problem) : Prop :=
  forall E, (forall e, (e < fb_ne (pb_basis pb))%nat -> 0 < E e) ->
    let A := enforceK (pb_D pb) (stiffness (pb_basis pb) (pb_nu pb) E) in
    (forall b, solves (fb_n (pb_basis pb)) A b (pb_slv pb A b)) /\
    (forall bs, Forall2 (solves (fb_n (pb_basis pb)) A) bs (pb_slvm pb A bs)).
(* a meaningful problem and configuration.  The spatial filter [f] has one centre per
   element; some element may be designed. *)
Record well_posed (pb : problem) (c : icfg) (v : ivals) (f : sfilter) : Prop := mkWP {
  wp_elements : List.length (sf_centers f) = fb_ne (pb_basis pb);
  wp_design : exists i, (i < List.length (sf_centers f))%nat /\ is_design (sf_mask f) i = true;
  wp_radius : 0 < v_radius v;
  wp_weights : forall e q, 0 <= fb_dx (pb_basis pb) e q;
  wp_nu : -1 < pb_nu pb < 1 / 2;
  wp_E0 : 0 < pb_E0 pb;
  wp_coeff : i_Emin_coeff c <= 1;
  wp_Emin : 1 / 1000000000000 <= pb_E0 pb * i_Emin_coeff c;
  wp_p : 0 < v_p v;
  wp_beta : 0 < v_beta v;
  wp_eta : 0 <= c_beta_eta (i_oc c) <= 1;
  wp_loads : pb_loads pb <> [];
  wp_solver : solver_ok pb }.
(* the objective the iteration would record for densities rho *)
Definition reported_compliance (pb : problem) (c : icfg) (v : ivals) (f : sfilter) (rho : list R) : R :=
  match evaluate pb c v f rho with Ok (_, ev) => ev_compliance ev | Err _ => 0 end.

(* the density the user's optimizer starts from and keeps: [designed] are the
   elements the update may change, in terms of the task's arguments *)
Record task_args := mkTA {
  ta_t : list elem; ta_ndofs : nat; ta_dofs : list nat -> list nat;
  ta_dirichlet : option nodes_arg; ta_neumann : option nodes_arg; ta_robin : option nodes_arg;
  ta_design_robin : option bool; ta_design : list nat }.
(* the task as the optimizer's constructor leaves it (common_density.py:546-547) *)
Definition built_from (T : task_args) (c : icfg) (pb : problem) : Prop :=
  exists d, from_nodes (ta_t T) (ta_ndofs T) (ta_dofs T) (ta_dirichlet T) (ta_neumann T) (ta_robin T)
              (ta_design_robin T) (ta_design T) = Ok d /\
    pb_dom pb = if i_design_dirichlet c then d else exclude_dirichlet d.
Definition designed (T : task_args) (c : icfg) (e : nat) : Prop :=
  In e (ta_design T) /\ ~ kept_out (ta_t T) (ta_neumann T) (ta_robin T) (ta_design_robin T) e /\
  (i_design_dirichlet c = false -> ~ touches (ta_t T) (opt_nodes (ta_dirichlet T)) e).
(* the elements to be kept at 1 are known: with design_dirichlet=True the code takes
   the Neumann elements, which do not exist without a Neumann boundary *)
Definition pins_known (T : task_args) (c : icfg) : Prop := ta_neumann T <> None \/ i_design_dirichlet c = false.
(* one density per element; bounds where designed, exactly 1 elsewhere *)
Definition densities_ok (T : task_args) (c : icfg) (rho : list R) : Prop :=
  List.length rho = List.length (ta_t T) /\
  forall e, (e < List.length (ta_t T))%nat ->
    (designed T c e -> c_rho_min (i_oc c) <= nth e rho 0 <= c_rho_max (i_oc c)) /\
    (~ designed T c e -> nth e rho 0 = 1).

(* interpolations whose sensitivities cannot become positive: SIMP, and RAMP with a
   penalisation of at most 1 *)
Definition sign_safe (c : icfg) (v : ivals) : Prop :=
  i_interp c = SIMP \/
  (i_interp c = RAMP /\ v_p v <= 1 /\ i_Emin_coeff c < 1 /\ c_rho_max (i_oc c) <= 1).

(* C63.  the share of the design volume that is material for densities rho *)
Definition fraction_of (pb : problem) (c : icfg) (v : ivals) (f : sfilter) (rho : list R) : R :=
  let design := d_design (pb_dom pb) in
  let vols := map (fun e => nth e (pb_volumes pb) 0) design in
  material_fraction (sf_map f) (v_beta v) (c_beta_eta (i_oc c)) rho design vols (rsum vols).
(* the densities [full] the OC rule gives from rho with volume multiplier lam and
   sensitivities dC: each design element follows the rule, the others are kept *)
Definition rule_gives (pb : problem) (c : icfg) (v : ivals) (rho dC : list R) (lam : R) (full : list R) : Prop :=
  List.length full = List.length rho /\
  (forall e, In e (d_design (pb_dom pb)) ->
     oc_candidate (c_rho_min (i_oc c)) (c_rho_max (i_oc c)) (v_move v) (v_eta v) tiny (c_smin (i_oc c)) (c_smax (i_oc c))
       lam (nth e dC 0) (nth e rho 0) = Some (nth e full 0)) /\
  (forall e, ~ In e (d_design (pb_dom pb)) -> nth e full 0 = nth e rho 0).
