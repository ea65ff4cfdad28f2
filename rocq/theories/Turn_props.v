(* C108: rotations by any angle. *)
From Coq Require Import Permutation.
From Verif Require Import Base Sums Material_model OC_model Filter_model Mesh_model Fea_model Fea_spec Fea_proofs Fea_props Stress_model Stress_props
  Iter_model Iter_spec Iter_proofs Grad_proofs Grad_props Iter_props Scale_proofs Scale_props HeatIter_props Order_spec Order_proofs Order_props Turn_spec.
Open Scope R_scope.
Open Scope list_scope.

Lemma rotated_ddot Q s t : orthonormal Q -> ddot (rotated Q s) (rotated Q t) = ddot s t.
Proof.
  intros H. unfold ddot.
  transitivity (sum 3 (fun i => sum 3 (fun l => sum 3 (fun k => Q i k * s k l) * sum 3 (fun k => Q i k * t k l)))).
  { apply sum_ext. intros i _. rewrite <- (isometry Q (fun l => sum 3 (fun k => Q i k * s k l)) (fun l => sum 3 (fun k => Q i k * t k l)) H).
    apply sum_ext. intros j _. f_equal; unfold rotated, sum; cbn [seq map rsum fold_right]; ring. }
  rewrite sum_swap. transitivity (sum 3 (fun l => sum 3 (fun k => s k l * t k l))); [|apply sum_swap].
  apply sum_ext. intros l _. exact (isometry Q (fun k => s k l) (fun k => t k l) H).
Qed.
Lemma rotated_symgrad Q g i j : sym_grad (rotated Q g) i j = rotated Q (sym_grad g) i j.
Proof. unfold sym_grad, rotated, sum. cbn [seq map rsum fold_right]. ring. Qed.
Lemma rotated_form Q lam mu g h : orthonormal Q -> stiffness_form lam mu (rotated Q g) (rotated Q h) = stiffness_form lam mu g h.
Proof.
  intros H. unfold stiffness_form.
  assert (T : forall x, trace (sym_grad (rotated Q x)) = trace (sym_grad x)).
  { intros x. rewrite <- (rotated_trace Q (sym_grad x) H). unfold trace. now rewrite !rotated_symgrad. }
  rewrite !T. f_equal. f_equal. rewrite <- (rotated_ddot Q (sym_grad g) (sym_grad h) H). apply ddot_ext; intros i j _ _; apply rotated_symgrad.
Qed.
Lemma form_ext lam mu g h g' h' : eq3 g g' -> eq3 h h' -> stiffness_form lam mu g h = stiffness_form lam mu g' h'.
Proof. intros H K. rewrite !form_stress. apply ddot_ext; [exact H|now apply stress_ext]. Qed.

Section Turn.
Variables (Q : tensor) (M : mat) (pb pb' : problem) (c : icfg) (v : ivals) (f : sfilter).
Hypothesis T : turned Q M pb pb'.
Hypothesis WP : well_posed pb c v f.
Hypothesis WP' : well_posed pb' c v f.
Let B := pb_basis pb.
Let B' := pb_basis pb'.
Let n := fb_n B.
Let nu := pb_nu pb.
Lemma grad_turned u u' e q : (e < fb_ne B)%nat -> (q < fb_nq B)%nat -> (forall k, (k < n)%nat -> u' k = mv n M u k) ->
  eq3 (grad_of B' u' e q) (rotated Q (grad_of B u e q)).
Proof.
  intros He Hq Hu i j Hi Hj. unfold grad_of. unfold B'. rewrite (tn_n _ _ _ _ T). fold B n.
  transitivity (sum n (fun k => sum n (fun a => u a * (M k a * fb_grad (pb_basis pb') e q k i j)))).
  { apply sum_ext. intros k Hk. rewrite Hu by exact Hk. unfold mv. rewrite <- sum_scal_r. apply sum_ext. intros a _. ring. }
  rewrite sum_swap. transitivity (sum n (fun a => u a * rotated Q (fb_grad B e q a) i j)).
  { apply sum_ext. intros a Ha. rewrite sum_scal. f_equal. now apply (tn_grad _ _ _ _ T). }
  unfold rotated. symmetry.
  transitivity (sum 3 (fun k => sum n (fun a => sum 3 (fun l => u a * (Q i k * fb_grad B e q a k l * Q j l))))).
  { apply sum_ext. intros k _. rewrite sum_swap. apply sum_ext. intros l _. rewrite <- sum_scal, <- sum_scal_r. apply sum_ext. intros a _. ring. }
  rewrite sum_swap. apply sum_ext. intros a _. rewrite <- sum_scal. apply sum_ext. intros k _. apply sum_scal.
Qed.
Variable E : nat -> R.
Lemma energy_turned u u' e : (e < fb_ne B)%nat -> (forall k, (k < n)%nat -> u' k = mv n M u k) ->
  strain_energy B' (pb_nu pb') E u' e = strain_energy B nu E u e.
Proof.
  intros He Hu. unfold strain_energy. unfold B' at 1. rewrite (tn_nq _ _ _ _ T), (tn_nu _ _ _ _ T). fold B nu. apply sum_ext. intros q Hq.
  rewrite (tn_dx _ _ _ _ T) by assumption. fold B. f_equal. rewrite !energy_form. f_equal.
  rewrite <- (rotated_form Q _ _ (grad_of B u e q) (grad_of B u e q) (tn_Q _ _ _ _ T)). apply form_ext; now apply grad_turned.
Qed.
Lemma bilinear_turned u w u' w' : (forall k, (k < n)%nat -> u' k = mv n M u k) -> (forall k, (k < n)%nat -> w' k = mv n M w k) ->
  dot n w' (mv n (stiffness B' (pb_nu pb') E) u') = dot n w (mv n (stiffness B nu E) u).
Proof.
  intros Hu Hw. unfold n at 3 4. rewrite bilinear_stiffness. assert (N : n = fb_n B') by (unfold n, B'; now rewrite (tn_n _ _ _ _ T)). rewrite N, bilinear_stiffness.
  unfold B' at 1. rewrite (tn_ne _ _ _ _ T). fold B. apply sum_ext. intros e He. unfold B' at 1. rewrite (tn_nq _ _ _ _ T). fold B. apply sum_ext. intros q Hq.
  rewrite (tn_dx _ _ _ _ T) by assumption. fold B. f_equal. unfold stress_at. rewrite <- !form_stress, (tn_nu _ _ _ _ T). fold nu.
  rewrite <- (rotated_form Q _ _ (grad_of B w e q) (grad_of B u e q) (tn_Q _ _ _ _ T)). apply form_ext; now apply grad_turned.
Qed.
Lemma sum_pick m k (x : nat -> R) : (k < m)%nat -> sum m (fun l => delta k l * x l) = x k.
Proof.
  intros Hk. rewrite (sum_ext m _ (fun l => if Nat.eqb l k then x l else 0)).
  - exact (rs_single_nat m k x Hk).
  - intros l _. unfold delta. rewrite (Nat.eqb_sym k l). destruct (Nat.eqb l k); ring.
Qed.
Lemma equilibrium_turned g g' u : (forall k, (k < n)%nat -> g' k = mv n M g k) -> equilibrium n (stiffness B nu E) (pb_D pb) g u ->
  equilibrium n (stiffness B' (pb_nu pb') E) (pb_D pb') g' (mv n M u).
Proof.
  intros Hg (U1 & U2). split.
  - intros k Hk Hin. unfold mv. apply sum_zero. intros a Ha. destruct (Req_dec (M k a) 0) as [->|Z]; [ring|].
    rewrite (U1 a Ha); [ring|]. now apply (tn_D _ _ _ _ T k a Hk Ha Z).
  - intros k Hk Hout. set (w := fun a => M k a).
    assert (W : forall l, (l < n)%nat -> delta k l = mv n M w l).
    { intros l Hl. unfold mv, w. rewrite <- (proj2 (tn_M _ _ _ _ T) k l Hk Hl). apply sum_ext. intros a _. ring. }
    rewrite <- (sum_pick n k (mv n (stiffness B' (pb_nu pb') E) (mv n M u)) Hk). change (dot n (delta k) (mv n (stiffness B' (pb_nu pb') E) (mv n M u)) = g' k).
    rewrite (bilinear_turned u w (mv n M u) (delta k)); [|reflexivity|exact W]. rewrite Hg by exact Hk. unfold dot. unfold mv at 2. apply sum_ext. intros a Ha. unfold w.
    destruct (Req_dec (M k a) 0) as [->|Z]; [ring|]. rewrite U2; [reflexivity|exact Ha|]. intros I. apply Hout. now apply (tn_D _ _ _ _ T k a Hk Ha Z).
Qed.
Hypothesis HE : forall e, (e < fb_ne B)%nat -> 0 < E e.
Lemma usol_turned : Forall2 (fun u u' => forall k, (k < n)%nat -> u' k = mv n M u k) (usol pb v E) (usol pb' v E) /\
  zipwith (fun g u => work (fb_n (pb_basis pb')) (pb_D pb') g u) (loads_of pb' v) (usol pb' v E) = zipwith (fun g u => work n (pb_D pb) g u) (loads_of pb v) (usol pb v E).
Proof.
  assert (HL : Forall2 (fun g g' => forall k, (k < n)%nat -> g' k = mv n M g k) (loads_of pb v) (loads_of pb' v)).
  { unfold loads_of. pose proof (tn_loads _ _ _ _ T) as P. fold B n in P. induction P as [|g g' l l' P _ IH]; cbn [map]; constructor; [|exact IH].
    intros k Hk. rewrite P by exact Hk. unfold mv. rewrite <- sum_scal_r. apply sum_ext. intros a _. ring. }
  assert (HE' : forall e, (e < fb_ne (pb_basis pb'))%nat -> 0 < E e) by (intros e He; apply HE; unfold B; now rewrite <- (tn_ne _ _ _ _ T)).
  destruct (usol_spec pb c v f WP E HE) as (_ & P). destruct (usol_spec pb' c v f WP' E HE') as (_ & P').
  pose proof (pb_supported pb' c v f WP' E HE') as SU. rewrite (tn_n _ _ _ _ T) in *. fold B n nu in P, P', SU |- *. fold B' in P', SU.
  revert P P'. generalize (usol pb v E) as us. generalize (usol pb' v E) as us'. induction HL as [|g g' l l' Hg _ IH]; intros us' us P P'.
  { inversion_clear P. inversion_clear P'. split; [constructor|reflexivity]. }
  inversion_clear P as [|? u ? us1 R1 R2]. inversion_clear P' as [|? u' ? us1' R1' R2'].
  assert (HU : forall k, (k < n)%nat -> u' k = mv n M u k).
  { intros k Hk. refine (equilibrium_unique _ _ _ g' u' (mv n M u) SU R1' _ k Hk). now apply (equilibrium_turned g). }
  destruct (IH us1' us1 R2 R2') as (I1 & I2). split; [constructor; assumption|]. cbn [zipwith]. rewrite I2. f_equal.
  rewrite (work_quad _ _ _ _ _ R1'), (work_quad _ _ _ _ _ R1). unfold quad. now apply bilinear_turned.
Qed.
End Turn.

(* C108.  the analysis of a turned task: same densities, compliance, sensitivities; the same
   strain energy in every element *)
Theorem C108_any_rotation_analysis : forall Q M c pb pb' v f rho, turned Q M pb pb' -> well_posed pb c v f -> well_posed pb' c v f ->
  List.length rho = List.length (sf_centers f) -> (forall e, 0 <= nth e rho 0) -> (i_interp c = RAMP -> forall e, nth e rho 0 <= 1) ->
  exists g ev ev', evaluate pb c v f rho = Ok (g, ev) /\ evaluate pb' c v f rho = Ok (g, ev') /\ same_eval (fb_ne (pb_basis pb)) ev ev'.
Proof.
  intros Q M c pb pb' v f rho T WP WP' Hlen H0 H1. pose proof (wp_elements _ _ _ _ WP) as Hc.
  destruct (evaluate_total pb c v f rho WP Hlen (fun e _ => modulus_ok pb c v f rho WP H0 H1 e)) as (El & Hmo & HEp & Hev).
  destruct (evaluate_total pb' c v f rho WP' Hlen (fun e _ => modulus_ok pb' c v f rho WP' H0 H1 e)) as (El' & Hmo' & HEp' & Hev').
  assert (EM : Emin_of pb' c = Emin_of pb c) by (unfold Emin_of; now rewrite (tn_E0 _ _ _ _ T)).
  rewrite EM, (tn_E0 _ _ _ _ T), Hmo in Hmo'. injection Hmo' as <-. set (E := fun e => nth e El 0) in *.
  assert (HE : forall e, (e < fb_ne (pb_basis pb))%nat -> 0 < E e) by (intros e He; apply HEp; now rewrite Hc).
  destruct (usol_turned Q M pb pb' c v f T WP WP' E HE) as (HU & HW).
  assert (LL : loads_count pb' = loads_count pb).
  { unfold loads_count. f_equal. symmetry. exact (F2_len _ _ _ (tn_loads _ _ _ _ T)). }
  assert (HG : forall u u', (forall k, (k < fb_n (pb_basis pb))%nat -> u' k = mv (fb_n (pb_basis pb)) M u k) -> gfun pb' c v f rho E u' = gfun pb c v f rho E u).
  { intros u u' Hu. unfold gfun, grad_filtered. rewrite EM, (tn_E0 _ _ _ _ T). apply map_ext_in. intros e He. apply in_seq in He. rewrite projected_length, Hc in He.
    rewrite (energy_turned Q M pb pb' T E u u') by (try assumption; lia). reflexivity. }
  assert (HD : dCfull pb' c v f rho E = dCfull pb c v f rho E).
  { unfold dCfull. apply map_ext_in. intros e _. rewrite LL. f_equal. f_equal. clear - HU HG. induction HU as [|u u' l l' Hu _ IH]; cbn [map]; [reflexivity|]. rewrite IH. f_equal. now rewrite (HG u u' Hu). }
  do 3 eexists. split; [exact Hev|]. split; [exact Hev'|]. constructor; cbn [ev_filtered ev_projected ev_compliance ev_energy ev_dC]; [reflexivity|reflexivity| | |].
  - rewrite HW, LL. reflexivity.
  - now rewrite HD.
  - clear - HU T. induction HU as [|u u' l l' Hu _ IH]; cbn [map]; constructor; [|exact IH]. intros e He. now apply (energy_turned Q M pb pb' T E u u').
Qed.
Print Assumptions C108_any_rotation_analysis.

Lemma iteration_turned Q M c pb pb' v i a b a' : turned Q M pb pb' -> same_state (fb_ne (pb_basis pb)) a b ->
  well_posed pb c v (s_filter a) -> well_posed pb' c v (s_filter a) -> List.length (s_rho a) = List.length (sf_centers (s_filter a)) ->
  (forall e, 0 <= nth e (s_rho a) 0) -> (i_interp c = RAMP -> forall e, nth e (s_rho a) 0 <= 1) ->
  iterate pb c v i a = Ok a' -> exists b', iterate pb' c v i b = Ok b' /\ same_state (fb_ne (pb_basis pb)) a' b'.
Proof.
  intros T [R1 R2 R3 R4 R5 _] WP WP' Hlen H0 H1 H.
  destruct (C108_any_rotation_analysis Q M c pb pb' v (s_filter a) (s_rho a) T WP WP' Hlen H0 H1) as (g & ev & ev' & E1 & E2 & S).
  unfold iterate in *. rewrite E1 in H. rewrite R1, R2, E2. cbn [bind] in *. unfold advance in *.
  assert (A : oc_args_of pb' v i (s_rho b) g ev' = oc_args_of pb v i (s_rho a) g ev).
  { unfold oc_args_of. now rewrite R1, (tn_volumes _ _ _ _ T), (tn_dom _ _ _ _ T), (se_dC _ _ _ S). }
  unfold pins in *. rewrite A, R1, R3, (tn_dom _ _ _ _ T).
  destruct (rho_update _ _ _) as [r|]; [|discriminate]. destruct (r_rho r) as [new|]; [|discriminate]. injection H as <-.
  eexists. split; [reflexivity|]. constructor; cbn [s_rho s_filter s_running s_change s_kkt s_eval]; auto.
Qed.
(* C108.  a whole run of the turned task *)
Theorem C108_any_rotation_run : forall Q M T c pb pb' sched a b l, turned Q M pb pb' ->
  built_from T c pb -> pins_known T c -> (forall e, In e (ta_design T) -> (e < List.length (ta_t T))%nat) ->
  0 <= c_rho_min (i_oc c) <= c_rho_max (i_oc c) -> c_rho_max (i_oc c) <= 1 -> c_smin (i_oc c) <= c_smax (i_oc c) ->
  c_lambda_lower (i_oc c) <= c_lambda_upper (i_oc c) ->
  List.length (sf_centers (s_filter a)) = List.length (ta_t T) ->
  (forall i v, In (i, v) sched -> 0 <= v_move v /\ well_posed pb c v (s_filter a) /\ well_posed pb' c v (s_filter a)) -> densities_ok T c (s_rho a) ->
  same_state (fb_ne (pb_basis pb)) a b -> run pb c sched a = Ok l ->
  exists l', run pb' c sched b = Ok l' /\ Forall2 (same_state (fb_ne (pb_basis pb))) l l'.
Proof.
  intros Q M T c pb pb' sched. induction sched as [|[i v] sched IH]; intros a b l Hr HT Hne Hdes Hb Hb1 Hsm Hl Hc Hv Hok Hs H; cbn [run] in *.
  - injection H as <-. exists []. split; [reflexivity|constructor].
  - destruct (iterate pb c v i a) as [a1|] eqn:E1; [|discriminate]. cbn [bind] in H.
    destruct (run pb c sched a1) as [l1|] eqn:E2; [|discriminate]. cbn [bind] in H. injection H as <-.
    destruct (Hv i v) as (Hm & WP & WP'); [now left|].
    assert (Hlen : List.length (s_rho a) = List.length (sf_centers (s_filter a))) by (rewrite Hc; apply Hok).
    pose proof (unit_densities T c pb (s_rho a) HT Hne ltac:(lra) Hb1 Hok) as Hu.
    destruct (iteration_turned Q M c pb pb' v i a b a1 Hr Hs WP WP' Hlen (fun e => proj1 (Hu e)) (fun _ e => proj2 (Hu e)) E1) as (b1 & I1 & I2).
    destruct (C26_iteration_keeps_bounds T c pb v i a a1) as (Hok1 & _); auto; try lra.
    pose proof (iterate_filter pb c v i a a1 WP Hlen Hu E1) as Hf.
    destruct (IH a1 b1 l1) as (l' & I4 & I5); auto.
    + rewrite Hf. exact Hc.
    + intros j w P. destruct (Hv j w) as (Hm' & W1 & W2); [now right|]. split; [exact Hm'|]. rewrite Hf. split;
        (apply (wp_same _ c w (s_filter a) (f2 v (s_filter a))); [reflexivity|reflexivity|assumption]).
    + exists (b1 :: l'). rewrite I1. cbn [bind]. rewrite I4. cbn [bind]. split; [reflexivity|now constructor].
Qed.
Print Assumptions C108_any_rotation_run.

Lemma same_refl n a : same_state n a a.
Proof.
  constructor; try reflexivity. destruct (s_eval a) as [x|]; [|exact I]. constructor; try reflexivity. induction (ev_energy x); constructor; auto.
Qed.
(* turned by any angle and then anything C108_run allows: elements, degrees of freedom and
   quadrature points renumbered, the filter built from the turned element centres (only their
   distances count), mirrored *)
Theorem C108_any_rotation : forall Q M m T c pb pb1 pb' sched a b l, turned Q M pb pb1 -> reordered m c pb1 pb' ->
  built_from T c pb -> pins_known T c -> (forall e, In e (ta_design T) -> (e < List.length (ta_t T))%nat) ->
  0 <= c_rho_min (i_oc c) <= c_rho_max (i_oc c) -> c_rho_max (i_oc c) <= 1 -> c_smin (i_oc c) <= c_smax (i_oc c) ->
  c_lambda_lower (i_oc c) <= c_lambda_upper (i_oc c) ->
  List.length (sf_centers (s_filter a)) = List.length (ta_t T) ->
  (forall i v, In (i, v) sched -> 0 <= v_move v /\ well_posed pb c v (s_filter a) /\ well_posed pb1 c v (s_filter a) /\ well_posed pb' c v (s_filter b)) ->
  densities_ok T c (s_rho a) -> state_reordered (m_elements m) a b -> run pb c sched a = Ok l ->
  exists l', run pb' c sched b = Ok l' /\ Forall2 (state_reordered (m_elements m)) l l'.
Proof.
  intros Q M m T c pb pb1 pb' sched a b l Ht Hr HT Hne Hdes Hb Hb1 Hsm Hl Hc Hv Hok Hs H.
  destruct (C108_any_rotation_run Q M T c pb pb1 sched a a l Ht HT Hne Hdes Hb Hb1 Hsm Hl Hc) as (l1 & E1 & S1); auto using same_refl.
  { intros i v P. destruct (Hv i v P) as (V1 & V2 & V3 & _). auto. }
  assert (HT1 : built_from T c pb1) by (unfold built_from in *; now rewrite (tn_dom _ _ _ _ Ht)).
  destruct (C108_run m T c pb1 pb' sched a b l1 Hr HT1 Hne Hdes Hb Hb1 Hsm Hl Hc) as (l' & E' & S'); auto.
  { intros i v P. destruct (Hv i v P) as (V1 & V2 & V3 & V4). auto. }
  exists l'. split; [exact E'|].
  assert (NL : List.length (m_elements m) = fb_ne (pb_basis pb)).
  { rewrite (Permutation_length (proj1 (re_ok _ _ _ _ Hr))), seq_length. apply (tn_ne _ _ _ _ Ht). }
  assert (OL : forall e, (e < List.length (m_elements m))%nat -> (old (m_elements m) e < fb_ne (pb_basis pb))%nat).
  { intros e He. apply (old_range _ _ (eq_ind _ (fun k => numbering k (m_elements m)) (proj1 (re_ok _ _ _ _ Hr)) _ (tn_ne _ _ _ _ Ht))). now rewrite <- NL. }
  clear - S1 S' OL. revert l' S'. induction S1 as [|x y l l1 Sx _ IH]; intros l' S'; inversion_clear S' as [|? z ? l2 Sy SS]; constructor; [|now apply IH].
  destruct Sx as [X1 X2 X3 X4 X5 X6]. destruct Sy as [Y1 Y2 Y3 Y4 Y5 Y6]. constructor; try congruence.
  destruct (s_eval x) as [ex|], (s_eval y) as [ey|], (s_eval z) as [ez|]; try easy. destruct X6 as [A1 A2 A3 A4 A5]. destruct Y6 as [B1 B2 B3 B4 B5]. constructor; try congruence.
  clear - A5 B4 OL. revert B4. generalize (ev_energy ez) as es. induction A5 as [|U V lu lv H _ IH]; intros es B; inversion_clear B as [|? W ? lw HW HH]; constructor; [|now apply IH].
  intros e He. rewrite HW by exact He. apply H. now apply OL.
Qed.
Print Assumptions C108_any_rotation.

(* ---- an instance: the task dg_pb (one node moving along x, y and z, each element stretched
   along one axis) turned about the z axis by the angle with cosine 3/5 and sine 4/5 ---- *)
Definition tq (i j : nat) : R :=
  match i, j with
  | O, O => 3/5 | O, 1%nat => -(4/5) | 1%nat, O => 4/5 | 1%nat, 1%nat => 3/5 | 2%nat, 2%nat => 1 | _, _ => 0 end.
Definition tq_B : fembasis := mkBasis 3 3 1 (fun _ _ => 1) (fun e _ k i j => tq k e * (tq i e * tq j e)).
(* the moduli are the eigenvalues of the stiffness matrix, the turned axes its eigenvectors *)
Definition tq_slv (A : mat) (b : vec) : vec := fun k =>
  sum 3 (fun e => tq k e * (sum 3 (fun l => tq l e * b l) / sum 3 (fun r => sum 3 (fun s => tq r e * A r s * tq s e)))).
Definition tq_pb := mkProb sy_dom tq_B 0 1 [] [fun k => sum 3 (fun a => tq k a * 1)] [1; 1; 1] tq_slv (fun A => map (tq_slv A)).
Ltac small k := destruct k as [|[|[|k]]]; try lia.
Lemma tq_turned : turned tq tq dg_pb tq_pb.
Proof.
  constructor; cbn [tq_pb dg_pb tq_B dg_B pb_basis pb_dom pb_D pb_loads pb_volumes fb_n fb_ne fb_nq fb_dx fb_grad]; try reflexivity.
  - intros k l Hk Hl. small k; small l; unfold sum; cbn; field.
  - split; intros k l Hk Hl; small k; small l; unfold sum; cbn; field.
  - intros e q a i j He _ Ha Hi Hj. unfold rotated, sum. small e; small a; small i; small j; cbn; field.
  - constructor; [|constructor]. intros k Hk. reflexivity.
Qed.
Lemma tq_stiffness E k l : (k < 3)%nat -> (l < 3)%nat -> stiffness tq_B 0 E k l = sum 3 (fun e => E e * (tq k e * tq l e)).
Proof.
  intros Hk Hl. unfold stiffness, lam_of, mu_of, lam_mu, stiffness_form, trace, ddot, sym_grad, sum, tq_B. small k; small l; cbn; field.
Qed.
Lemma tq_solver : solver_ok tq_pb.
Proof.
  intros E HE A. cbn [tq_pb pb_basis] in HE.
  assert (E0 : 0 < E 0%nat) by (apply HE; cbn; lia). assert (E1 : 0 < E 1%nat) by (apply HE; cbn; lia). assert (E2 : 0 < E 2%nat) by (apply HE; cbn; lia).
  assert (S : forall b, solves (fb_n (pb_basis tq_pb)) A b (pb_slv tq_pb A b)).
  { intros b i Hi. change (fb_n (pb_basis tq_pb)) with 3%nat in *.
    assert (HA : forall k l, (k < 3)%nat -> (l < 3)%nat -> A k l = sum 3 (fun e => E e * (tq k e * tq l e))) by (intros k l Hk Hl; exact (tq_stiffness E k l Hk Hl)).
    assert (HV : forall e, (e < 3)%nat -> sum 3 (fun r => sum 3 (fun s => tq r e * A r s * tq s e)) = E e).
    { intros e He. unfold sum at 1 2. cbn [seq map rsum fold_right]. rewrite !HA by lia. unfold sum. small e; cbn; field. }
    cbn [pb_slv tq_pb]. unfold tq_slv, mv. unfold sum at 1 2. cbn [seq map]. unfold rsum. cbn [fold_right]. rewrite !HV, !HA by lia.
    unfold sum. cbn [seq map]. unfold rsum. cbn [fold_right]. small i; cbn [tq]; field; lra. }
  split; [exact S|]. intros bs. cbn [pb_slvm tq_pb]. induction bs as [|b bs IH]; cbn [map]; constructor; [apply S|exact IH].
Qed.
Lemma tq_wp : well_posed tq_pb ex_c ex_v sy_filter.
Proof.
  constructor; cbn; try lra.
  - reflexivity. - exists 0%nat. split; [lia|reflexivity]. - intros; lra. - discriminate. - apply tq_solver.
Qed.
Theorem C108_any_rotation_instance : let sched := [(1%Z, ex_v); (2%Z, ex_v); (3%Z, ex_v)] in let s0 := mkIS [1/2; 1/2; 1] sy_filter 0 0 None None in
  exists l l', run dg_pb ex_c sched s0 = Ok l /\ run tq_pb ex_c sched s0 = Ok l' /\ List.length l = 3%nat /\ map s_rho l' = map s_rho l /\
    map (fun s => option_map ev_compliance (s_eval s)) l' = map (fun s => option_map ev_compliance (s_eval s)) l.
Proof.
  intros sched s0.
  assert (N : pins_known sy_T ex_c) by (left; discriminate).
  assert (Hd : forall e, In e (ta_design sy_T) -> (e < List.length (ta_t sy_T))%nat) by (intros e [<-|[<-|[<-|[]]]]; cbn; lia).
  assert (HW : forall i v, In (i, v) sched -> v = ex_v) by (intros i v [P|[P|[P|[]]]]; congruence).
  assert (HD : densities_ok sy_T ex_c (s_rho s0)).
  { destruct (sets_of sy_T ex_c dg_pb dg_built N) as (_ & HD & _). cbn [dg_pb pb_dom sy_dom d_design] in HD. split; [reflexivity|]. intros e He. rewrite <- HD. cbn in He.
    destruct e as [|[|[|]]]; [| | |lia]; cbn; (split; [intros P; try lra; exfalso; intuition discriminate|intros P; try reflexivity; exfalso; intuition]). }
  destruct (C26_run_succeeds sy_T ex_c dg_pb sched s0) as (l & El); try exact dg_built; auto; try (cbn; lra).
  { intros i v P. rewrite (HW i v P). split; [cbn; lra|]. split; [now left|exact dg_wp]. }
  destruct (C108_any_rotation_run tq tq sy_T ex_c dg_pb tq_pb sched s0 s0 l tq_turned dg_built N Hd) as (l' & El' & S); auto using same_refl; try (cbn; lra).
  { intros i v P. rewrite (HW i v P). split; [cbn; lra|]. split; [exact dg_wp|exact tq_wp]. }
  exists l, l'. split; [exact El|]. split; [exact El'|]. split.
  { clear - El. unfold sched in El. cbn [run] in El.
    destruct (iterate dg_pb ex_c ex_v 1 s0) as [s1|]; [|discriminate]. cbn [bind] in El. destruct (iterate dg_pb ex_c ex_v 2 s1) as [s2|]; [|discriminate]. cbn [bind] in El.
    destruct (iterate dg_pb ex_c ex_v 3 s2) as [s3|]; [|discriminate]. cbn [bind] in El. injection El as <-. reflexivity. }
  clear - S. induction S as [|x y l l' [X1 _ _ _ _ X6] _ (I1 & I2)]; cbn [map]; [auto|]. rewrite I1, I2, X1. split; [reflexivity|]. f_equal.
  destruct (s_eval x), (s_eval y); try easy. cbn. f_equal. apply X6.
Qed.
Print Assumptions C108_any_rotation_instance.
