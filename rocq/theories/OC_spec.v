(* Vocabulary for the OC properties. *)
From Verif Require Import Base OC_model.
Open Scope R_scope.
Open Scope list_scope.

(* what a user expects of one element's update from r to x *)
Definition oc_step_ok (rho_min rho_max move smin smax r x : R) : Prop :=
  rho_min <= x <= rho_max /\ Rabs (x - r) <= move /\
  (* relative change bounded by the configured scaling rates *)
  (0 <= r -> smin <= 1 <= smax -> smin * r <= x <= smax * r).

(* larger input densities never give smaller filtered ones *)
Definition monotone_filter (f : list R -> list R) : Prop :=
  forall u v, Forall2 Rle u v -> Forall2 Rle (f u) (f v).

(* the same update with every sensitivity multiplied by c *)
Definition scaled_args (c : R) (a : oc_args) : oc_args :=
  mkArgs (a_iter a) (a_rho_full a) (a_design a) (a_filter a) (map (Rmult c) (a_dC a))
    (a_move a) (a_eta a) (a_beta a) (a_percentile a) (a_volumes a) (a_vol_sum a) (a_vol_frac a).

(* the rows (rho_i, dC_i, dV_i) *)
Definition kkt_row (rho dC dV : list R) (i : nat) (r d v : R) : Prop :=
  nth_error rho i = Some r /\ nth_error dC i = Some d /\ nth_error dV i = Some v.


(* C19: densities [vals] put at positions [ids] of [old], the rest kept *)
Definition placed (old : list R) (ids : list nat) (vals full : list R) : Prop :=
  List.length full = List.length old /\
  (forall k, (k < List.length ids)%nat -> nth (nth k ids 0%nat) full 0 = nth k vals 0) /\
  (forall j, ~ In j ids -> nth j full 0 = nth j old 0).
(* share of the design volume that is material, after filtering with [filt] and projecting *)
Definition material_fraction (filt : list R -> list R) (beta eta : R) (full : list R)
    (ids : list nat) (vols : list R) (total : R) : R :=
  rsum (map (fun k => Material_model.heaviside_projection (nth (nth k ids 0%nat) (filt full) 0) beta eta * nth k vols 0)
            (seq 0 (List.length ids))) / total.
