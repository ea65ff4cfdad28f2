(* What "the order of the elements does not matter" means. *)
From Coq Require Import Permutation.
From Verif Require Import Base Sums Material_model OC_model Filter_model Mesh_model Fea_model Iter_model.
Open Scope R_scope.
Open Scope list_scope.

(* a new numbering of n elements: entry e is the old number of element e *)
Definition numbering (n : nat) (p : list nat) : Prop := Permutation p (seq 0 n).
Definition old (p : list nat) (e : nat) : nat := nth e p 0%nat.
(* a list of values per element in the new order *)
Definition reorder {A} (d : A) (p : list nat) (x : list A) : list A := map (fun e => nth e x d) p.
Definition same_set (n : nat) (p l l' : list nat) : Prop := forall e, (e < n)%nat -> (In e l' <-> In (old p e) l).

(* how the second task is obtained from the first: numbering of the elements and of the
   degrees of freedom, numbering of each element's quadrature points, a sign per degree of
   freedom, and per axis of the image the axis of the original it shows and a sign.  Signs 1
   and every axis itself: only numbers change.  An axis sign of -1 mirrors the task in that
   direction; the degrees of freedom in that direction change sign with it.  Exchanged axes
   mirror it in a diagonal plane, with a sign they turn it by a right angle; the degrees of
   freedom in these directions change places. *)
Record image := mkImage {
  m_elements : list nat; m_dofs : list nat; m_points : nat -> nat -> nat; m_sign : nat -> R; m_axis : nat -> R; m_turn : nat -> nat }.
Definition image_ok (n nd nq : nat) (m : image) : Prop :=
  numbering n (m_elements m) /\ numbering nd (m_dofs m) /\
  (forall e, (e < n)%nat -> Permutation (map (m_points m e) (seq 0 nq)) (seq 0 nq)) /\
  (forall k, m_sign m k = 1 \/ m_sign m k = -1) /\ (forall i, m_axis m i = 1 \/ m_axis m i = -1) /\
  Permutation (map (m_turn m) (seq 0 3)) (seq 0 3).
(* pb' is the image of pb: same material, the supports, loads, design elements and volumes
   of the images; no assumption on how its solver works *)
Record reordered (m : image) (c : icfg) (pb pb' : problem) : Prop := mkRe {
  re_ok : image_ok (fb_ne (pb_basis pb)) (fb_n (pb_basis pb)) (fb_nq (pb_basis pb)) m;
  re_n : fb_n (pb_basis pb') = fb_n (pb_basis pb);
  re_ne : fb_ne (pb_basis pb') = fb_ne (pb_basis pb);
  re_nq : fb_nq (pb_basis pb') = fb_nq (pb_basis pb);
  re_dx : forall e q, (e < fb_ne (pb_basis pb))%nat -> (q < fb_nq (pb_basis pb))%nat ->
    fb_dx (pb_basis pb') e q = fb_dx (pb_basis pb) (old (m_elements m) e) (m_points m e q);
  re_grad : forall e q k i j, (e < fb_ne (pb_basis pb))%nat -> (q < fb_nq (pb_basis pb))%nat -> (k < fb_n (pb_basis pb))%nat -> (i < 3)%nat -> (j < 3)%nat ->
    fb_grad (pb_basis pb') e q k i j =
    m_sign m k * (m_axis m i * m_axis m j) * fb_grad (pb_basis pb) (old (m_elements m) e) (m_points m e q) (old (m_dofs m) k) (m_turn m i) (m_turn m j);
  re_nu : pb_nu pb' = pb_nu pb; re_E0 : pb_E0 pb' = pb_E0 pb;
  re_D : same_set (fb_n (pb_basis pb)) (m_dofs m) (pb_D pb) (pb_D pb');
  re_loads : Forall2 (fun g g' => forall k, (k < fb_n (pb_basis pb))%nat -> g' k = m_sign m k * g (old (m_dofs m) k)) (pb_loads pb) (pb_loads pb');
  re_volumes : pb_volumes pb' = reorder 0 (m_elements m) (pb_volumes pb);
  re_design : same_set (fb_ne (pb_basis pb)) (m_elements m) (d_design (pb_dom pb)) (d_design (pb_dom pb'));
  re_nodup : NoDup (d_design (pb_dom pb)); re_nodup' : NoDup (d_design (pb_dom pb'));
  re_range : forall e, In e (d_design (pb_dom pb)) -> (e < fb_ne (pb_basis pb))%nat;
  re_range' : forall e, In e (d_design (pb_dom pb')) -> (e < fb_ne (pb_basis pb))%nat;
  re_pins : match pins pb c, pins pb' c with
            | None, None => True
            | Some l, Some l' => same_set (fb_ne (pb_basis pb)) (m_elements m) l l'
            | _, _ => False end }.
(* the filter of the image: as many centres, at the same distances *)
Record filter_reordered (p : list nat) (f f' : sfilter) : Prop := mkFR {
  fr_len : List.length (sf_centers f') = List.length (sf_centers f);
  fr_dist : forall i j, (i < List.length (sf_centers f))%nat -> (j < List.length (sf_centers f))%nat ->
    dist (nth i (sf_centers f') []) (nth j (sf_centers f') []) = dist (nth (old p i) (sf_centers f) []) (nth (old p j) (sf_centers f) []);
  fr_mask : sf_mask f' = option_map (reorder false p) (sf_mask f);
  fr_radius : sf_radius f' = sf_radius f }.
(* an analysis and the same analysis in the new order *)
Record eval_reordered (p : list nat) (a b : eval) : Prop := mkER {
  er_filtered : ev_filtered b = reorder 0 p (ev_filtered a);
  er_projected : ev_projected b = reorder 0 p (ev_projected a);
  er_compliance : ev_compliance b = ev_compliance a;
  er_energy : Forall2 (fun U V => forall e, (e < List.length p)%nat -> V e = U (old p e)) (ev_energy a) (ev_energy b);
  er_dC : ev_dC b = reorder 0 p (ev_dC a) }.
Record state_reordered (p : list nat) (a b : istate) : Prop := mkSR {
  sr_rho : s_rho b = reorder 0 p (s_rho a);
  sr_filter : filter_reordered p (s_filter a) (s_filter b);
  sr_running : s_running b = s_running a;
  sr_change : s_change b = s_change a;
  sr_kkt : s_kkt b = s_kkt a;
  sr_eval : match s_eval a, s_eval b with
            | Some x, Some y => eval_reordered p x y | None, None => True | _, _ => False end }.
