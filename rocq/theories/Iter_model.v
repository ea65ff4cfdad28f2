(* Model of one whole iteration of the density method with the OC update on an
   elastic problem and the spatial filter: core/optimizers/common_density.py:711-745
   (initialize_density) and 1013-1157 (the loop body), composed of the models of the
   filter, the projection, the finite element analysis, the material law and the OC
   update.  Recording, logging, timing and exports are modelled elsewhere. *)
From Verif Require Import Base Sums Material_model OC_model Filter_model Mesh_model Fea_model.
Open Scope R_scope.
Open Scope list_scope.

(* cfg.interpolation, common_density.py:392-404 *)
Inductive interp := SIMP | RAMP.
Definition modulus (k : interp) (rho E0 Emin p : R) : option R :=
  match k with
  | SIMP => simp_interpolation rho E0 Emin p
  | RAMP => Some (ramp_interpolation rho E0 Emin p)
  end.
Definition dC_of (k : interp) (rho U E0 Emin p : R) : R :=
  match k with
  | SIMP => dC_drho_simp rho U E0 Emin p
  | RAMP => dC_drho_ramp rho U E0 Emin p
  end.

(* the task: element sets, basis, material, supports, load vectors, volumes, and
   the linear solvers the configuration selects *)
Record problem := mkProb {
  pb_dom : domain; pb_basis : fembasis; pb_nu : R; pb_E0 : R; pb_D : list nat;
  pb_loads : list vec; pb_volumes : list R;
  pb_slv : mat -> vec -> vec; pb_slvm : mat -> list vec -> list vec }.
(* configuration fields the iteration reads; [i_oc] has the density bounds,
   beta_eta and the OC settings *)
Record icfg := mkICfg {
  i_oc : oc_cfg; i_Emin_coeff : R; i_interp : interp; i_sens_filter : bool; i_design_dirichlet : bool }.
(* scheduled values of one iteration, 1018-1036 *)
Record ivals := mkVals {
  v_scale : R; v_p : R; v_vol_frac : R; v_beta : R; v_move : R; v_eta : R;
  v_percentile : option R; v_radius : R }.

(* what one analysis of densities rho produces *)
Record eval := mkEval {
  ev_filtered : list R; ev_projected : list R; ev_compliance : R;
  ev_energy : list (nat -> R); ev_dC : list R }.

Definition Emin_of (pb : problem) (c : icfg) : R := pb_E0 pb * i_Emin_coeff c.

(* composer.py:66-70: the element moduli; a NaN modulus is not modelled *)
Definition moduli (k : interp) (E0 Emin p : R) (rp : list R) : res (list R) :=
  match all_some (map (fun x => modulus k x E0 Emin p) rp) with
  | Some l => Ok l | None => Err NotModelled end.

(* 1075-1104: one load case's contribution, before filter.gradient *)
Definition grad_filtered (k : interp) (E0 Emin p beta eta : R) (rf rp : list R) (U : nat -> R) : list R :=
  map (fun e => dC_of k (nth e rp 0) (U e) E0 Emin p * heaviside_projection_derivative (nth e rf 0) beta eta)
      (seq 0 (List.length rp)).
(* a[:] += b *)
Definition vadd_list (a b : list R) : list R := zipwith Rplus a b.
(* 1074-1106: the loop over load cases; accumulates filter.gradient *)
Fixpoint sum_gradients (f : sfilter) (acc : list R) (gs : list (list R)) : res (list R) :=
  match gs with
  | [] => Ok acc
  | g :: r => let! d := sf_gradient f g in sum_gradients f (vadd_list acc d) r
  end.

(* 1039-1117: filter update, filter, projection, analysis, sensitivities.
   n_tasks is the number of load vectors. *)
Definition evaluate (pb : problem) (c : icfg) (v : ivals) (f : sfilter) (rho : list R) : res (sfilter * eval) :=
  let B := pb_basis pb in
  let f := if Reqb (v_radius v) (sf_radius f) then f else update_radius (v_radius v) f in      (* 1039-1041 *)
  let! (f, rf) := sf_forward f rho in                                                        (* 1046 *)
  let rp := map (fun x => heaviside_projection x (v_beta v) (c_beta_eta (i_oc c))) rf in      (* 1047-1049 *)
  let! El := moduli (i_interp c) (pb_E0 pb) (Emin_of pb c) (v_p v) rp in
  let E := fun e => nth e El 0 in
  let! (cs, us) := objectives (fb_n B) (pb_slv pb) (pb_slvm pb) (stiffness B (pb_nu pb) E)
                     (pb_D pb) (pb_loads pb) (v_scale v) in                                   (* 1058-1061 *)
  let avg := rsum cs / INR (List.length cs) in
  let energy := map (fun u => strain_energy B (pb_nu pb) E u) us in                           (* 1063-1065 *)
  let gs := map (grad_filtered (i_interp c) (pb_E0 pb) (Emin_of pb c) (v_p v) (v_beta v)
                   (c_beta_eta (i_oc c)) rf rp) energy in
  let! g := sum_gradients f (repeat 0 (List.length rho)) gs in                                (* 1074-1106 *)
  let g := map (fun x => x / INR (List.length (pb_loads pb))) g in                            (* 1109 *)
  if i_sens_filter c then
    let! (f, g) := sf_forward f g in Ok (f, mkEval rf rp avg energy g)                        (* 1110-1114 *)
  else Ok (f, mkEval rf rp avg energy g).

(* rho[idx] = 1.0; idx = None reaches every element (numpy) *)
Definition pin (rho : list R) (idx : option (list nat)) : list R :=
  match idx with
  | None => map (fun _ => 1) rho
  | Some l => scatter rho l (repeat 1 (List.length l))
  end.
(* 738-741 and 1139-1142 *)
Definition pins (pb : problem) (c : icfg) : option (list nat) :=
  if i_design_dirichlet c then d_neumann (pb_dom pb) else Some (d_dir_neu (pb_dom pb)).

(* the optimizer's state between iterations *)
Record istate := mkIS {
  s_rho : list R; s_filter : sfilter; s_running : R;
  s_change : R; s_kkt : option R; s_eval : option eval }.

(* 711-745; restart gives the design densities of the checkpoint.  The design
   densities fill the design elements in order; a wrong number raises. *)
Definition initialize_density (pb : problem) (c : icfg) (val_init : R) (restart : option (list R)) : res (list R) :=
  let n := d_nel (pb_dom pb) in
  let! rho := match restart with
    | Some data =>
      if Nat.eqb (List.length data) (List.length (d_design (pb_dom pb)))
      then Ok (scatter (repeat 0 n) (d_design (pb_dom pb)) data) else Err ValueError
    | None => Ok (repeat (clip (0 + val_init) (c_rho_min (i_oc c)) (c_rho_max (i_oc c))) n)
    end in
  Ok (pin (pin rho (pins pb c)) (Some (d_fixed (pb_dom pb)))).

(* 1116-1136: the arguments of rho_update *)
Definition oc_args_of (pb : problem) (v : ivals) (iter : Z) (rho : list R) (f : sfilter) (ev : eval) : oc_args :=
  let design := d_design (pb_dom pb) in
  let vols := gather (pb_volumes pb) design in
  mkArgs iter rho design (sf_map f) (gather (ev_dC ev) design) (v_move v) (v_eta v) (v_beta v)
    (v_percentile v) vols (rsum vols) (v_vol_frac v).
(* 1116-1157: the update from the sensitivities and the densities after it.  A NaN
   density is not modelled. *)
Definition advance (pb : problem) (c : icfg) (v : ivals) (iter : Z) (s : istate) (f : sfilter) (ev : eval) : res istate :=
  let design := d_design (pb_dom pb) in
  let rho := s_rho s in
  match rho_update (i_oc c) (s_running s) (oc_args_of pb v iter rho f ev) with
  | None => Err NotModelled
  | Some r =>
    match r_rho r with
    | None => Err NotModelled
    | Some new =>
      let rho' := pin (scatter rho design new) (pins pb c) in                                 (* 1138-1142 *)
      Ok (mkIS rho' f (r_running r)
            (np_max (map Rabs (zipwith Rminus (gather rho' design) (gather rho design))))     (* 1145-1149 *)
            (r_kkt r) (Some ev))
    end
  end.
(* 1013-1157 *)
Definition iterate (pb : problem) (c : icfg) (v : ivals) (iter : Z) (s : istate) : res istate :=
  let! (f, ev) := evaluate pb c v (s_filter s) (s_rho s) in
  advance pb c v iter s f ev.

(* a run: the loop 1013-1238 over scheduled values, without recording *)
Fixpoint run (pb : problem) (c : icfg) (sched : list (Z * ivals)) (s : istate) : res (list istate) :=
  match sched with
  | [] => Ok []
  | (i, v) :: r => let! s' := iterate pb c v i s in let! l := run pb c r s' in Ok (s' :: l)
  end.
