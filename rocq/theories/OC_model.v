(* Model of core/optimizers/oc.py: the bisection on the volume multiplier and
   OC_Optimizer.rho_update.  Exact reals; NaN and +inf, which np.power can
   produce, are explicit values. *)
From Coq Require Import Sorting.
From Verif Require Import Base Material_model.
Open Scope R_scope.
Open Scope list_scope.

(* values np.power can return *)
Inductive fval := Fin (x : R) | PInf | FNaN.

(* np.power(x, e), oc.py:53.  x = 0, e < 0 gives +inf (sign of zero ignored) *)
Definition np_power (x e : R) : fval :=
  if Rlt_dec 0 x then Fin (Rpower x e)
  else if Req_EM_T x 0 then
    (if Rlt_dec 0 e then Fin 0 else if Req_EM_T e 0 then Fin 1 else PInf)
  else if Req_EM_T e (IZR (Rfloor e)) then Fin (powerRZ x (Rfloor e))
  else FNaN.

(* np.clip on such a value: NaN stays NaN *)
Definition fclip (v : fval) (lo hi : R) : option R :=
  match v with Fin x => Some (clip x lo hi) | PInf => Some hi | FNaN => None end.

(* oc.py:51-65 for one design element.  None is NaN.
   [lmid + eps] is assumed non-zero by every theorem (it is positive for the
   positive brackets OC uses). *)
Definition oc_candidate (rho_min rho_max move eta eps smin smax lmid dC rho_e : R) : option R :=
  match fclip (np_power (- dC / (lmid + eps)) eta) smin smax with
  | None => None
  | Some s => Some (clip (rho_e * s) (Rmax (rho_e - move) rho_min) (Rmin (rho_e + move) rho_max))
  end.

(* l[i] = v *)
Fixpoint upd (l : list R) (i : nat) (v : R) : list R :=
  match l, i with
  | [], _ => []
  | _ :: t, O => v :: t
  | x :: t, S j => x :: upd t j v
  end.
(* rho_full_candidate[design_elements] = vals   (oc.py:68) *)
Fixpoint scatter (full : list R) (idx : list nat) (vals : list R) : list R :=
  match idx, vals with
  | i :: idx', v :: vals' => scatter (upd full i v) idx' vals'
  | _, _ => full
  end.
(* rho[design_elements] *)
Definition gather (full : list R) (idx : list nat) : list R := map (fun i => nth i full 0) idx.

Fixpoint all_some (l : list (option R)) : option (list R) :=
  match l with
  | [] => Some []
  | None :: _ => None
  | Some x :: t => match all_some t with Some r => Some (x :: r) | None => None end
  end.

Record oc_problem := mkOC {
  oc_dC : list R; oc_rho_e : list R; oc_rho_full : list R; oc_design : list nat;
  oc_filter : list R -> list R;             (* filter_obj.forward *)
  oc_rho_min : R; oc_rho_max : R; oc_move : R; oc_eta : R; oc_eps : R;
  oc_vol_frac : R; oc_beta : R; oc_beta_eta : R;
  oc_volumes : list R; oc_vol_sum : R; oc_smin : R; oc_smax : R }.

(* oc.py:51-65, all design elements; None if some entry is NaN *)
Definition candidate (P : oc_problem) (lmid : R) : option (list R) :=
  all_some (zipwith (oc_candidate (oc_rho_min P) (oc_rho_max P) (oc_move P) (oc_eta P)
                       (oc_eps P) (oc_smin P) (oc_smax P) lmid)
              (oc_dC P) (oc_rho_e P)).

(* oc.py:67-79: candidate -> filter -> projection -> relative volume error *)
Definition volume_error (P : oc_problem) (rho_design : list R) : R :=
  let full := scatter (oc_rho_full P) (oc_design P) rho_design in
  let filtered := oc_filter P full in
  let projected := map (fun x => heaviside_projection x (oc_beta P) (oc_beta_eta P)) filtered in
  rsum (zipwith Rmult (gather projected (oc_design P)) (oc_volumes P)) / oc_vol_sum P
  - oc_vol_frac P.

(* oc.py:79 for a possibly NaN candidate: NaN densities give a NaN volume
   (simplification: assumes the filter propagates a NaN to some design
   element, which it does when every element contributes to itself) *)
Definition vol_of (P : oc_problem) (lmid : R) : option R :=
  match candidate P lmid with Some c => Some (volume_error P c) | None => None end.

(* comparisons with NaN are False (oc.py:81,88) *)
Definition within (ve : option R) (tol : R) : bool :=
  match ve with Some v => Rltb (Rabs v) tol | None => false end.
Definition positive (ve : option R) : bool :=
  match ve with Some v => Rltb 0 v | None => false end.

(* what bisection_with_physical_volume leaves behind: returned lmid and
   vol_error, contents of rho_design_eles, number of volume evaluations *)
Record bis_out := mkBis {
  b_lmid : R; b_vol_error : option R; b_rho : option (list R); b_evals : nat }.

(* oc.py:50-93, the while loop; None = fuel exhausted *)
Fixpoint bisect (P : oc_problem) (max_iter : nat) (tolerance vol_tol : R)
    (fuel : nat) (l1 l2 lmid : R) (iter_num : nat) : option bis_out :=
  match fuel with
  | O => None
  | S fuel' =>
    let ve := vol_of P lmid in
    let out := mkBis lmid ve (candidate P lmid) (S iter_num) in
    if within ve vol_tol then Some out                              (* 81-82 *)
    else if Nat.leb max_iter iter_num then Some out                 (* 83-84 *)
    else if Rleb (Rabs (l2 - l1)) tolerance then Some out           (* 85-86 *)
    else
      let '(l1', l2') := if positive ve then (lmid, l2) else (l1, lmid) in  (* 88-91 *)
      bisect P max_iter tolerance vol_tol fuel' l1' l2'
             (1/2 * (l1' + l2')) (S iter_num)                       (* 92-93 *)
  end.

(* oc.py:16-49,95; at most max_iter+1 rounds are ever needed (C18) *)
Definition bisection_with_physical_volume (P : oc_problem) (max_iter : nat)
    (tolerance vol_tol l1 l2 : R) : option bis_out :=
  bisect P max_iter tolerance vol_tol (S max_iter) l1 l2 (1/2 * (l1 + l2)) 0.

(* ---- sensitivity scale ---- *)

(* ascending sort, as np.percentile does internally *)
Fixpoint insert_r (x : R) (l : list R) : list R :=
  match l with
  | [] => [x]
  | y :: t => if Rle_dec x y then x :: l else y :: insert_r x t
  end.
Definition sort_r (l : list R) : list R := fold_right insert_r [] l.

(* np.percentile(a, q), default method "linear": virtual index
   q/100*(n-1), linear interpolation between neighbours *)
Definition np_percentile (a : list R) (q : R) : R :=
  let s := sort_r a in
  let v := q / 100 * (INR (List.length a) - 1) in
  let k := Z.to_nat (Rfloor v) in
  let lo := nth k s 0 in
  let hi := nth (Nat.min (S k) (List.length a - 1)) s 0 in
  lo + (v - INR k) * (hi - lo).

(* np.max *)
Definition np_max (a : list R) : R :=
  match a with [] => 0 | x :: t => fold_left Rmax t x end.

(* oc.py:188-191; percentile None = not a float.  np.max of an empty array
   raises; the design set is never empty (C49). *)
Definition raw_scale (percentile : option R) (dC : list R) : R :=
  match percentile with
  | Some q => np_percentile (map Rabs dC) q
  | None => np_max (map Rabs dC)
  end.
(* oc.py:192 *)
Definition sens_scale (percentile : option R) (floor : R) (dC : list R) : R :=
  Rmax (raw_scale percentile dC) floor.

(* oc.py:193-194; Python's conditional expression covers the whole sum *)
Definition next_running_scale (iter_num : Z) (running scale : R) : R :=
  if (1 <? iter_num)%Z then 6/10 * running + (1 - 6/10) * scale else scale.

(* ---- KKT residual, oc.py:230-240 ---- *)
(* np.linalg.norm(v, inf) = max |v_i| *)
Definition norm_inf (v : list R) : R := np_max (map Rabs v).

Definition interior (rho_min rho_max rho : R) : bool :=
  Rltb (rho_min + floor6) rho && Rltb rho (rho_max - floor6).

Definition kkt_residual (rho_min rho_max lam_scale : R) (rho dC_raw dV : list R) : R :=
  let rows := combine rho (combine dC_raw dV) in
  let inside := filter (fun r => interior rho_min rho_max (fst r)) rows in
  match inside with
  | [] => 0
  | _ => norm_inf (map (fun r => fst (snd r) + lam_scale * snd (snd r)) inside)
  end.

(* ---- one OC update, oc.py:149-250 ---- *)
Record oc_cfg := mkOCCfg {
  c_rho_min : R; c_rho_max : R; c_beta_eta : R; c_smin : R; c_smax : R;
  c_floor : R; c_lambda_lower : R; c_lambda_upper : R }.

(* the arguments rho_update receives in one iteration *)
Record oc_args := mkArgs {
  a_iter : Z; a_rho_full : list R; a_design : list nat; a_filter : list R -> list R;
  a_dC : list R; a_move : R; a_eta : R; a_beta : R; a_percentile : option R;
  a_volumes : list R; a_vol_sum : R; a_vol_frac : R }.

Record oc_result := mkRes {
  r_rho : option (list R); r_running : R; r_lmid : R; r_vol_error : option R;
  r_kkt : option R; r_dC_scaled : list R }.

(* _dV_drho_design, common_density.py:583 *)
Definition dV_design (volumes : list R) (s : R) : list R := map (fun v => v / s) volumes.

Definition oc_problem_of (c : oc_cfg) (a : oc_args) (dC : list R) : oc_problem :=
  mkOC dC (gather (a_rho_full a) (a_design a)) (a_rho_full a) (a_design a) (a_filter a)
       (c_rho_min c) (c_rho_max c) (a_move a) (a_eta a) tiny (a_vol_frac a)
       (a_beta a) (c_beta_eta c) (a_volumes a) (a_vol_sum a) (c_smin c) (c_smax c).

(* oc.py:149-250 with max_iter = 1000, tolerance = 1e-5, vol_tol = 1e-4.
   None only if the bisection ran out of fuel (excluded by C18). *)
Definition rho_update (c : oc_cfg) (running : R) (a : oc_args) : option oc_result :=
  let scale := sens_scale (a_percentile a) (c_floor c) (a_dC a) in
  let running' := next_running_scale (a_iter a) running scale in
  let dC := map (fun x => x / running') (a_dC a) in
  match bisection_with_physical_volume (oc_problem_of c a dC)
          1000 (1/100000) (1/10000) (c_lambda_lower c) (c_lambda_upper c) with
  | None => None
  | Some b =>
    Some (mkRes (b_rho b) running' (b_lmid b) (b_vol_error b)
            (match b_rho b with
             | Some rho => Some (kkt_residual (c_rho_min c) (c_rho_max c) (b_lmid b * running')
                                   rho (a_dC a) (dV_design (a_volumes a) (a_vol_sum a)))
             | None => None          (* NaN densities: masks are all False for them; not modelled *)
             end) dC)
  end.

(* A history of OC updates, common_density.py:1113-1131 (the caller of
   rho_update): [sens i rho] is the sensitivity iteration i computes for
   densities rho, [rest i rho dC] the complete arguments of that update. *)
Fixpoint oc_run (cfg : oc_cfg) (sens : nat -> list R -> list R)
    (rest : nat -> list R -> list R -> oc_args) (n : nat) (rho : list R) (running : R)
    : option (list R * R) :=
  match n with
  | O => Some (rho, running)
  | S m =>
    match oc_run cfg sens rest m rho running with
    | None => None
    | Some (r, run) =>
      match rho_update cfg run (rest m r (sens m r)) with
      | None => None
      | Some o => match r_rho o with
                  | Some d => Some (scatter r (a_design (rest m r (sens m r))) d, r_running o)
                  | None => None
                  end
      end
    end
  end.

