(* Model of the option scaling=True: DensityMethodBase.__init__ and scale
   (common_density.py:539-540, 626-641), FEMDomain.scale (mesh/task_common.py:403-422), the
   accessors it goes through (mesh/task_elastic.py:113-125), and the iteration
   (common_density.py:1013-1157) on the task it leaves behind.  Three-dimensional
   meshes and the spatial filter. *)
From Verif Require Import Base Material_model OC_model Filter_model Mesh_model Fea_model Iter_model.
Open Scope R_scope.
Open Scope list_scope.

(* task.neumann_linear: a list of load vectors, or an array, into which the setter of
   [force] turns the list of a single load (task_elastic.py:117-125) *)
Inductive neumann := Cases (fs : list vec) | Bare (f : vec).
(* len(neumann_linear), task_elastic.py:113-115; n is the number of dofs *)
Definition n_cases (n : nat) (L : neumann) : nat :=
  match L with Cases fs => List.length fs | Bare _ => n end.
(* solver_elastic.py:651-653 *)
Definition force_list (L : neumann) : list vec :=
  match L with Cases fs => fs | Bare f => [f] end.
Definition times (a : R) (f : vec) : vec := fun i => f i * a.
(* task_common.py:416-422 with [force] read and written as task_elastic.py:117-125: an
   array is multiplied and stored as it is.  The first entry of an array of length one is
   a number, which is refused. *)
Definition scale_force (n : nat) (F : R) (L : neumann) : res neumann :=
  match L with
  | Cases [f] => Ok (Bare (times F f))
  | Cases fs => Ok (Cases (map (times F) fs))
  | Bare f => if Nat.eqb n 1 then Err ValueError else Ok (Bare (times F f))
  end.

(* what scale changes of a task: the coordinates of its mesh and its loads; None for a
   LinearHeatConduction, which has no attribute force *)
Record stask := mkSTask { st_points : list point; st_loads : option neumann }.
Definition stretch (s : R) (p : list point) : list point := map (map (Rmult s)) p.
(* task_common.py:403-422: the mesh is replaced before the loads are looked at *)
Definition task_scale (n : nat) (s F : R) (t : stask) : stask * option exn :=
  let p := stretch s (st_points t) in
  match st_loads t with
  | None => (mkSTask p None, Some AttributeError)
  | Some L => match scale_force n F L with
              | Ok L' => (mkSTask p (Some L'), None)
              | Err e => (mkSTask p (Some L), Some e)
              end
  end.
(* np.max(np.ptp(mesh.p, axis=1)), common_density.py:627-628: mesh.p has one row per axis *)
Definition extent (p : list point) (k : nat) : R :=
  np_max (map (fun x => nth k x 0) p) + np_max (map (fun x => - nth k x 0) p).
Definition length_scale (p : list point) : R := np_max (map (extent p) (seq 0 3)).
(* common_density.py:626-636, called by the constructor when cfg.scaling is True *)
Definition optimizer_scale (n : nat) (t : stask) : stask * option exn :=
  task_scale n (1 / length_scale (st_points t)) (1 / 100000) t.

(* skfem.Basis(type(mesh)(p * s, t), elem), task_common.py:411-414: the quadrature weights
   are volumes, the gradients of the basis functions are per length.  (From the
   definition of isoparametric elements in space; scikit-fem's integration order is the
   default one, which the task's own basis is assumed to have.) *)
Definition basis_scaled (s : R) (B : fembasis) : fembasis :=
  mkBasis (fb_n B) (fb_ne B) (fb_nq B) (fun e q => s ^ 3 * fb_dx B e q)
          (fun e q k i j => fb_grad B e q k i j / s).
(* the filter parameterize() builds on the scaled mesh (common_density.py:681-703); the
   radius is set by the schedule *)
Definition filter_scaled (s : R) (f : sfilter) : sfilter :=
  mkSF (stretch s (sf_centers f)) (sf_mask f) (s * sf_radius f) (sf_W f).
(* the task after scale: element volumes stay (C54), E and nu as well *)
Definition problem_scaled (s : R) (pb : problem) : problem :=
  mkProb (pb_dom pb) (basis_scaled s (pb_basis pb)) (pb_nu pb) (pb_E0 pb) (pb_D pb) (pb_loads pb)
         (pb_volumes pb) (pb_slv pb) (pb_slvm pb).

(* u_dofs has n_tasks columns, all zero at first (common_density.py:817); the analysis
   writes one column per entry of the force list *)
Definition columns (m : nat) (us : list vec) : list vec := us ++ repeat (fun _ => 0) (m - List.length us).

(* Iter_model.evaluate for loads L: 1039-1117, with n_tasks in the loop over load cases
   and in the division *)
Definition evaluate_loads (pb : problem) (L : neumann) (c : icfg) (v : ivals) (f : sfilter) (rho : list R) : res (sfilter * eval) :=
  let B := pb_basis pb in
  let f := if Reqb (v_radius v) (sf_radius f) then f else update_radius (v_radius v) f in
  let! (f, rf) := sf_forward f rho in
  let rp := map (fun x => heaviside_projection x (v_beta v) (c_beta_eta (i_oc c))) rf in
  let! El := moduli (i_interp c) (pb_E0 pb) (Emin_of pb c) (v_p v) rp in
  let E := fun e => nth e El 0 in
  let! (cs, us) := objectives (fb_n B) (pb_slv pb) (pb_slvm pb) (stiffness B (pb_nu pb) E)
                     (pb_D pb) (force_list L) (v_scale v) in
  let avg := rsum cs / INR (List.length cs) in
  let energy := map (fun u => strain_energy B (pb_nu pb) E u) (columns (n_cases (fb_n B) L) us) in
  let gs := map (grad_filtered (i_interp c) (pb_E0 pb) (Emin_of pb c) (v_p v) (v_beta v)
                   (c_beta_eta (i_oc c)) rf rp) energy in
  let! g := sum_gradients f (repeat 0 (List.length rho)) gs in
  let g := map (fun x => x / INR (n_cases (fb_n B) L)) g in
  if i_sens_filter c then
    let! (f, g) := sf_forward f g in Ok (f, mkEval rf rp avg energy g)
  else Ok (f, mkEval rf rp avg energy g).
(* 1066: the element energies that are recorded *)
Definition mean_energy (ev : eval) (e : nat) : R :=
  rsum (map (fun U => U e) (ev_energy ev)) / INR (List.length (ev_energy ev)).

(* 1013-1157 and the loop over scheduled values, as Iter_model.iterate and run *)
Definition iterate_loads (pb : problem) (L : neumann) (c : icfg) (v : ivals) (iter : Z) (s : istate) : res istate :=
  let! (f, ev) := evaluate_loads pb L c v (s_filter s) (s_rho s) in
  advance pb c v iter s f ev.
Fixpoint run_loads (pb : problem) (L : neumann) (c : icfg) (sched : list (Z * ivals)) (s : istate) : res (list istate) :=
  match sched with
  | [] => Ok []
  | (i, v) :: r => let! s' := iterate_loads pb L c v i s in let! l := run_loads pb L c r s' in Ok (s' :: l)
  end.
