From Verif Require Import Base Sums Material_model Material_proofs OC_model Mesh_model Fea_model Fea_spec Fea_proofs Iter_model Heat_model Heat_spec.
Open Scope R_scope.
Open Scope list_scope.

(* ---- linearity ---- *)
Lemma vdot3_eq g h : vdot3 g h = g 0%nat 0%nat * h 0%nat 0%nat + g 0%nat 1%nat * h 0%nat 1%nat + g 0%nat 2%nat * h 0%nat 2%nat.
Proof. unfold vdot3, sum. cbn [seq map rsum fold_right]. ring. Qed.
Lemma vdot3_sym g h : vdot3 g h = vdot3 h g.
Proof. rewrite !vdot3_eq. ring. Qed.
Lemma vdot3_nonneg g : 0 <= vdot3 g g.
Proof. rewrite vdot3_eq. nra. Qed.
Lemma value_lin H a u b v e q : value_of H (fun i => a * u i + b * v i) e q = a * value_of H u e q + b * value_of H v e q.
Proof. unfold value_of. rewrite <- !sum_scal, <- sum_plus. apply sum_ext. intros. ring. Qed.
Lemma sval_lin n S a u b v q : sval_of n S (fun i => a * u i + b * v i) q = a * sval_of n S u q + b * sval_of n S v q.
Proof. unfold sval_of. rewrite <- !sum_scal, <- sum_plus. apply sum_ext. intros. ring. Qed.
Lemma gradv_lin H a u b v e q i j : gradv H (fun i => a * u i + b * v i) e q i j = a * gradv H u e q i j + b * gradv H v e q i j.
Proof. unfold gradv, grad_of. rewrite <- !sum_scal, <- sum_plus. apply sum_ext. intros. ring. Qed.
Lemma integral_ext H F G : (forall e q, (e < ne H)%nat -> (q < nq H)%nat -> F e q = G e q) -> integral H F = integral H G.
Proof. intros E. apply sum_ext. intros e He. apply sum_ext. intros q Hq. rewrite E; auto. Qed.
Lemma integral_lin H a F b G : integral H (fun e q => a * F e q + b * G e q) = a * integral H F + b * integral H G.
Proof.
  unfold integral. rewrite <- !sum_scal, <- sum_plus. apply sum_ext. intros e He.
  rewrite <- !sum_scal, <- sum_plus. apply sum_ext. intros. ring.
Qed.
Lemma integral_scal H a F : integral H (fun e q => a * F e q) = a * integral H F.
Proof. pose proof (integral_lin H a F 0 F) as E. rewrite Rmult_0_l, Rplus_0_r in E. rewrite <- E. apply integral_ext. intros. ring. Qed.
Lemma integral_nonneg H F : shapes H -> (forall e q, (e < ne H)%nat -> (q < nq H)%nat -> 0 <= F e q) -> 0 <= integral H F.
Proof.
  intros Sh P. apply sum_nonneg. intros e He. apply sum_nonneg. intros q Hq.
  destruct (Sh e q He Hq) as (_ & _ & _ & Hd). apply Rmult_le_pos; [auto|lra].
Qed.
Lemma integral_zero_inv H F : shapes H -> (forall e q, (e < ne H)%nat -> (q < nq H)%nat -> 0 <= F e q) -> integral H F = 0 ->
  forall e q, (e < ne H)%nat -> (q < nq H)%nat -> F e q = 0.
Proof.
  intros Sh P Z e q He Hq.
  assert (P1 : forall e, (e < ne H)%nat -> forall q, (q < nq H)%nat -> 0 <= F e q * fb_dx (hb_B H) e q).
  { intros e0 He0 q0 Hq0. destruct (Sh e0 q0 He0 Hq0) as (_ & _ & _ & Hd). apply Rmult_le_pos; [auto|lra]. }
  assert (Z1 := sum_zero_inv _ _ (fun e0 He0 => sum_nonneg _ _ (P1 e0 He0)) Z e He).
  assert (Z2 := sum_zero_inv _ _ (P1 e He) Z1 q Hq). cbn beta in Z2.
  destruct (Sh e q He Hq) as (_ & _ & _ & Hd). apply Rmult_integral in Z2. destruct Z2; [auto|lra].
Qed.
Lemma surf_lin S a F b G : surf_integral S (fun q => a * F q + b * G q) = a * surf_integral S F + b * surf_integral S G.
Proof. unfold surf_integral. rewrite <- !sum_scal, <- sum_plus. apply sum_ext. intros. ring. Qed.
Lemma surf_ext S F G : (forall q, (q < sf_np S)%nat -> F q = G q) -> surf_integral S F = surf_integral S G.
Proof. intros E. apply sum_ext. intros q Hq. rewrite E; auto. Qed.
Lemma surf_nonneg n S F : surf_shapes n S -> (forall q, (q < sf_np S)%nat -> 0 <= F q) -> 0 <= surf_integral S F.
Proof. intros Sh P. apply sum_nonneg. intros q Hq. destruct (Sh q Hq) as (_ & Hd & _). apply Rmult_le_pos; auto. Qed.

Definition one : vec := fun _ => 1.
Lemma value_one H e q : shapes H -> (e < ne H)%nat -> (q < nq H)%nat -> value_of H one e q = 1.
Proof. intros Sh He Hq. destruct (Sh e q He Hq) as (_ & U & _). rewrite <- U. apply sum_ext. intros. unfold one. ring. Qed.
Lemma grad_one H e q i : shapes H -> (e < ne H)%nat -> (q < nq H)%nat -> (i < 3)%nat -> gradv H one e q 0%nat i = 0.
Proof. intros Sh He Hq Hi. destruct (Sh e q He Hq) as (_ & _ & U & _). rewrite <- (U i Hi). apply sum_ext. intros. unfold one. ring. Qed.
Lemma sval_one n S q : surf_shapes n S -> (q < sf_np S)%nat -> sval_of n S one q = 1.
Proof. intros Sh Hq. destruct (Sh q Hq) as (U & _). rewrite <- U. apply sum_ext. intros. unfold one. ring. Qed.

(* ---- the bilinear form ---- *)
(* exchange with ambient 0 *)
Definition exch0 (H : hbasis) (Ss : list surface) (h : R) (lay : nat -> nat -> R) (u v : vec) : R :=
  rsum (map (fun S => surf_integral S (fun q => h * sval_of (hn H) S u q * sval_of (hn H) S v q)) Ss) +
  integral H (fun e q => h * lay e q * value_of H u e q * value_of H v e q).
Definition aform H k Ss h lay u v : R := conducted H k u v + exch0 H Ss h lay u v.
Lemma cond_sym H k u v : conducted H k u v = conducted H k v u.
Proof. apply integral_ext. intros. rewrite vdot3_sym. reflexivity. Qed.
Lemma exch0_sym H Ss h lay u v : exch0 H Ss h lay u v = exch0 H Ss h lay v u.
Proof.
  unfold exch0. f_equal.
  - f_equal. apply map_ext. intros S. apply surf_ext. intros. ring.
  - apply integral_ext. intros. ring.
Qed.
Lemma aform_sym H k Ss h lay u v : aform H k Ss h lay u v = aform H k Ss h lay v u.
Proof. unfold aform. rewrite cond_sym, exch0_sym. reflexivity. Qed.
Lemma cond_lin H k a u b w v : conducted H k (fun i => a * u i + b * w i) v = a * conducted H k u v + b * conducted H k w v.
Proof. unfold conducted. rewrite <- integral_lin. apply integral_ext. intros. rewrite !vdot3_eq, !gradv_lin. ring. Qed.
Lemma rsum_map_lin {A} a (F : A -> R) b G l : rsum (map (fun x => a * F x + b * G x) l) = a * rsum (map F l) + b * rsum (map G l).
Proof. induction l; cbn [map rsum fold_right] in *; [ring|]. unfold rsum in IHl. rewrite IHl. ring. Qed.
Lemma exch0_lin H Ss h lay a u b w v : exch0 H Ss h lay (fun i => a * u i + b * w i) v = a * exch0 H Ss h lay u v + b * exch0 H Ss h lay w v.
Proof.
  unfold exch0.
  rewrite (integral_ext H _ (fun e q => a * (h * lay e q * value_of H u e q * value_of H v e q) + b * (h * lay e q * value_of H w e q * value_of H v e q))).
  2: { intros. rewrite value_lin. ring. }
  rewrite integral_lin.
  rewrite (map_ext _ (fun S => a * surf_integral S (fun q => h * sval_of (hn H) S u q * sval_of (hn H) S v q) + b * surf_integral S (fun q => h * sval_of (hn H) S w q * sval_of (hn H) S v q))).
  2: { intros S. rewrite <- surf_lin. apply surf_ext. intros. rewrite sval_lin. ring. }
  rewrite rsum_map_lin. ring.
Qed.
Lemma aform_lin H k Ss h lay a u b w v : aform H k Ss h lay (fun i => a * u i + b * w i) v = a * aform H k Ss h lay u v + b * aform H k Ss h lay w v.
Proof. unfold aform. rewrite cond_lin, exch0_lin. ring. Qed.
Lemma aform_lin_r H k Ss h lay a u b w v : aform H k Ss h lay v (fun i => a * u i + b * w i) = a * aform H k Ss h lay v u + b * aform H k Ss h lay v w.
Proof. rewrite aform_sym, aform_lin, !(aform_sym _ _ _ _ _ _ v). reflexivity. Qed.
(* fields are read below n only *)
Lemma value_ext H u v e q : (forall i, (i < hn H)%nat -> u i = v i) -> value_of H u e q = value_of H v e q.
Proof. intros E. apply sum_ext. intros. rewrite E; auto. Qed.
Lemma grad_ext H u v e q i j : (forall i, (i < hn H)%nat -> u i = v i) -> gradv H u e q i j = gradv H v e q i j.
Proof. intros E. apply sum_ext. intros. rewrite E; auto. Qed.
Lemma sval_ext n S u v q : (forall i, (i < n)%nat -> u i = v i) -> sval_of n S u q = sval_of n S v q.
Proof. intros E. apply sum_ext. intros. rewrite E; auto. Qed.
Lemma cond_ext H k u u' v v' : (forall i, (i < hn H)%nat -> u i = u' i) -> (forall i, (i < hn H)%nat -> v i = v' i) ->
  conducted H k u v = conducted H k u' v'.
Proof. intros E1 E2. apply integral_ext. intros. rewrite !vdot3_eq, !(grad_ext H u u'), !(grad_ext H v v') by auto. reflexivity. Qed.
Lemma exch0_ext H Ss h lay u u' v v' : (forall i, (i < hn H)%nat -> u i = u' i) -> (forall i, (i < hn H)%nat -> v i = v' i) ->
  exch0 H Ss h lay u v = exch0 H Ss h lay u' v'.
Proof.
  intros E1 E2. unfold exch0. f_equal.
  - f_equal. apply map_ext. intros S. apply surf_ext. intros. rewrite (sval_ext _ S u u'), (sval_ext _ S v v') by auto. reflexivity.
  - apply integral_ext. intros. rewrite (value_ext H u u'), (value_ext H v v') by auto. reflexivity.
Qed.
Lemma aform_ext H k Ss h lay u u' v v' : (forall i, (i < hn H)%nat -> u i = u' i) -> (forall i, (i < hn H)%nat -> v i = v' i) ->
  aform H k Ss h lay u v = aform H k Ss h lay u' v'.
Proof. intros. unfold aform. rewrite (cond_ext H k u u' v v'), (exch0_ext H Ss h lay u u' v v') by auto. reflexivity. Qed.

(* constants conduct nothing; exchange with ambient A is exchange of T - A *)
Lemma cond_one H k v : shapes H -> conducted H k one v = 0.
Proof.
  intros Sh. unfold conducted. rewrite (integral_ext H _ (fun e q => 0 * 0)).
  - rewrite integral_scal. ring.
  - intros e q He Hq. rewrite vdot3_eq, !grad_one by (auto; lia). ring.
Qed.
Lemma exchanged_eq H Ss h A lay T v : shapes H -> (forall S, In S Ss -> surf_shapes (hn H) S) ->
  exchanged H Ss h A lay T v = exch0 H Ss h lay T v - A * exch0 H Ss h lay one v.
Proof.
  intros Sh SS. transitivity (exch0 H Ss h lay (fun i => 1 * T i + (- A) * one i) v); [|rewrite exch0_lin; ring].
  unfold exchanged, exch0. f_equal.
  - f_equal. apply map_ext_in. intros S HS. apply surf_ext. intros q Hq. rewrite sval_lin, (sval_one _ _ _ (SS S HS) Hq). ring.
  - apply integral_ext. intros e q He Hq. rewrite value_lin, value_one by auto. ring.
Qed.
Section coercive.
  Variables (H : hbasis) (k : nat -> R) (Ss : list surface) (h : R) (lay : nat -> nat -> R).
  Hypothesis (Sh : shapes H) (SS : forall S, In S Ss -> surf_shapes (hn H) S).
  Hypothesis (Hk : forall e, (e < ne H)%nat -> 0 < k e) (Hh : 0 <= h).
  Hypothesis (Hl : forall e q, (e < ne H)%nat -> (q < nq H)%nat -> 0 <= lay e q).
  Lemma cond_nonneg u : 0 <= conducted H k u u.
  Proof.
    apply integral_nonneg; auto. intros. apply Rmult_le_pos; [apply Rlt_le; auto|apply vdot3_nonneg].
  Qed.
  Lemma exch0_nonneg u : 0 <= exch0 H Ss h lay u u.
  Proof.
    apply Rplus_le_le_0_compat.
    - apply rs_nonneg. intros x Hx. apply (surf_nonneg (hn H)); auto. intros. rewrite Rmult_assoc.
      apply Rmult_le_pos; auto. apply Rle_0_sqr.
    - apply integral_nonneg; auto. intros. rewrite Rmult_assoc. apply Rmult_le_pos; [apply Rmult_le_pos; auto|apply Rle_0_sqr].
  Qed.
  Lemma aform_nonneg u : 0 <= aform H k Ss h lay u u.
  Proof. apply Rplus_le_le_0_compat; [apply cond_nonneg|apply exch0_nonneg]. Qed.
  Lemma cond_zero u : conducted H k u u = 0 ->
    forall e q i, (e < ne H)%nat -> (q < nq H)%nat -> (i < 3)%nat -> gradv H u e q 0%nat i = 0.
  Proof.
    intros Z e q i He Hq Hi.
    assert (Z1 : k e * vdot3 (gradv H u e q) (gradv H u e q) = 0).
    { apply (integral_zero_inv H (fun e q => k e * vdot3 (gradv H u e q) (gradv H u e q)) Sh); auto.
      intros. apply Rmult_le_pos; [apply Rlt_le; auto|apply vdot3_nonneg]. }
    apply Rmult_integral in Z1. destruct Z1 as [Z1|Z1]; [pose proof (Hk e He); lra|].
    rewrite vdot3_eq in Z1. destruct i as [|[|[|]]]; [nra|nra|nra|lia].
  Qed.
  Lemma aform_zero D u : anchored H D -> (forall i, (i < hn H)%nat -> In i D -> u i = 0) -> aform H k Ss h lay u u <= 0 ->
    forall i, (i < hn H)%nat -> u i = 0.
  Proof.
    intros An U0 Z. apply (An u U0). apply cond_zero.
    pose proof (cond_nonneg u). pose proof (exch0_nonneg u). unfold aform in Z. lra.
  Qed.
End coercive.

Lemma temperature_form H k D g Ss h A lay T : shapes H -> (forall S, In S Ss -> surf_shapes (hn H) S) ->
  (temperature H k D g Ss h A lay T <->
   (forall i, (i < hn H)%nat -> In i D -> T i = g) /\
   (forall v, (forall i, (i < hn H)%nat -> In i D -> v i = 0) -> aform H k Ss h lay T v = A * exch0 H Ss h lay one v)).
Proof.
  intros Sh SS. unfold temperature, aform. split; intros (E & W); split; auto; intros v Hv; specialize (W v Hv);
    rewrite exchanged_eq in * by auto; lra.
Qed.

(* ---- matrices and forms ---- *)
Lemma mv_sum n m (M : nat -> mat) T i : mv n (fun a b => sum m (fun e => M e a b)) T i = sum m (fun e => mv n (M e) T i).
Proof. unfold mv. rewrite sum_swap. apply sum_ext. intros j Hj. rewrite sum_scal_r. reflexivity. Qed.
Lemma dot_sum n m (f : nat -> vec) v : dot n v (fun i => sum m (fun e => f e i)) = sum m (fun e => dot n v (f e)).
Proof. unfold dot. rewrite sum_swap. apply sum_ext. intros j Hj. rewrite sum_scal. reflexivity. Qed.
Lemma dot_ext n v f g : (forall i, (i < n)%nat -> f i = g i) -> dot n v f = dot n v g.
Proof. intros E. apply sum_ext. intros. rewrite E; auto. Qed.
Lemma dot_mv_sum n m (M : nat -> mat) T v :
  dot n v (mv n (fun a b => sum m (fun e => M e a b)) T) = sum m (fun e => dot n v (mv n (M e) T)).
Proof. rewrite <- dot_sum. apply dot_ext. intros. apply mv_sum. Qed.
Lemma dot_rank n w (X Y T v : vec) :
  dot n v (mv n (fun a b => w * X b * Y a) T) = w * sum n (fun b => T b * X b) * sum n (fun a => v a * Y a).
Proof.
  unfold dot, mv. rewrite <- sum_scal. apply sum_ext. intros a Ha.
  rewrite (sum_ext n _ (fun j => w * Y a * (T j * X j))) by (intros; ring). rewrite sum_scal. ring.
Qed.
Lemma dot_mv_add n A B T v : dot n v (mv n (madd A B) T) = dot n v (mv n A T) + dot n v (mv n B T).
Proof.
  unfold dot, mv, madd. rewrite <- sum_plus. apply sum_ext. intros i Hi. rewrite <- Rmult_plus_distr_l, <- sum_plus.
  f_equal. apply sum_ext. intros. ring.
Qed.
Lemma dot_vadd n v a b : dot n v (vadd a b) = dot n v a + dot n v b.
Proof. unfold dot, vadd. rewrite <- sum_plus. apply sum_ext. intros. ring. Qed.
Lemma dot_mv_ext n A B T v : (forall i j, (i < n)%nat -> (j < n)%nat -> A i j = B i j) -> dot n v (mv n A T) = dot n v (mv n B T).
Proof. intros E. apply dot_ext. intros i Hi. apply sum_ext. intros. rewrite E; auto. Qed.

Lemma dot_conduction H k T v : dot (hn H) v (mv (hn H) (conduction (hb_B H) k) T) = conducted H k T v.
Proof.
  unfold conduction, conducted, integral. rewrite dot_mv_sum. apply sum_ext. intros e He.
  rewrite dot_mv_sum. apply sum_ext. intros q Hq.
  rewrite (dot_mv_ext _ _ (madd (madd (fun a b => k e * fb_dx (hb_B H) e q * fb_grad (hb_B H) e q b 0%nat 0%nat * fb_grad (hb_B H) e q a 0%nat 0%nat)
     (fun a b => k e * fb_dx (hb_B H) e q * fb_grad (hb_B H) e q b 0%nat 1%nat * fb_grad (hb_B H) e q a 0%nat 1%nat))
     (fun a b => k e * fb_dx (hb_B H) e q * fb_grad (hb_B H) e q b 0%nat 2%nat * fb_grad (hb_B H) e q a 0%nat 2%nat))).
  2: { intros. unfold madd. rewrite vdot3_eq. ring. }
  rewrite !dot_mv_add, !(dot_rank (hn H) (k e * fb_dx (hb_B H) e q)).
  rewrite vdot3_eq. unfold gradv, grad_of, hn. ring.
Qed.
Lemma dot_robin_mat n S h T v : dot n v (mv n (robin_mat S h) T) =
  surf_integral S (fun q => h * sval_of n S T q * sval_of n S v q).
Proof.
  unfold robin_mat, surf_integral. rewrite dot_mv_sum. apply sum_ext. intros q Hq.
  rewrite (dot_mv_ext _ _ (fun a b => h * sf_dx S q * sf_val S q b * sf_val S q a)) by (intros; ring).
  rewrite dot_rank. unfold sval_of. ring.
Qed.
Lemma dot_robin_vec n S h A v : dot n v (robin_vec S h A) = surf_integral S (fun q => h * A * sval_of n S v q).
Proof.
  unfold robin_vec, surf_integral. rewrite dot_sum. apply sum_ext. intros q Hq. unfold dot, sval_of.
  rewrite <- sum_scal, <- sum_scal_r. apply sum_ext. intros. ring.
Qed.
Lemma dot_virtual_mat H lay hq T v : dot (hn H) v (mv (hn H) (virtual_mat H lay hq) T) =
  integral H (fun e q => hq q * lay e q * value_of H T e q * value_of H v e q).
Proof.
  unfold virtual_mat, integral. rewrite dot_mv_sum. apply sum_ext. intros e He. rewrite dot_mv_sum. apply sum_ext. intros q Hq.
  rewrite (dot_mv_ext _ _ (fun a b => hq q * lay e q * fb_dx (hb_B H) e q * hb_val H e q b * hb_val H e q a)) by (intros; ring).
  rewrite (dot_rank (hn H) (hq q * lay e q * fb_dx (hb_B H) e q)). unfold value_of. ring.
Qed.
Lemma dot_virtual_vec H lay hTq v : dot (hn H) v (virtual_vec H lay hTq) =
  integral H (fun e q => hTq q * lay e q * value_of H v e q).
Proof.
  unfold virtual_vec, integral. rewrite dot_sum. apply sum_ext. intros e He. rewrite dot_sum. apply sum_ext. intros q Hq.
  unfold dot, value_of. rewrite <- sum_scal, <- sum_scal_r. apply sum_ext. intros. ring.
Qed.
Lemma dot_madds n T v l A : dot n v (mv n (fold_left madd l A) T) = dot n v (mv n A T) + rsum (map (fun M => dot n v (mv n M T)) l).
Proof.
  revert A. induction l as [|M l IH]; intros A; cbn [fold_left map].
  - cbn [rsum fold_right]. ring.
  - rewrite IH, dot_mv_add. cbn [rsum fold_right]. unfold rsum. ring.
Qed.
Lemma dot_vadds n v l a : dot n v (fold_left vadd l a) = dot n v a + rsum (map (fun f => dot n v f) l).
Proof.
  revert a. induction l as [|M l IH]; intros A; cbn [fold_left map].
  - cbn [rsum fold_right]. ring.
  - rewrite IH, dot_vadd. cbn [rsum fold_right]. unfold rsum. ring.
Qed.

(* ---- the task and its matrices ---- *)
(* a task with Robin surfaces Ss, all with coefficient h and ambient A; or none *)
Definition uniform_robin (tk : htask) (Ss : list surface) (h A : R) : Prop :=
  (ht_coef tk = Some (Flt h) /\ ht_env tk = Some (Flt A) /\
   ht_bil tk = map (fun S => robin_mat S h) Ss /\ ht_lin tk = map (fun S => robin_vec S h A) Ss) \/
  (Ss = [] /\ h = 0 /\ ht_coef tk = None /\ ht_bil tk = [] /\ ht_lin tk = []).
Lemma combine_repeat {A B} (l : list A) (x : B) : combine l (repeat x (List.length l)) = map (fun a => (a, x)) l.
Proof. induction l; cbn; congruence. Qed.
Lemma combine_repeats {A B} (x : A) (y : B) n : combine (repeat x n) (repeat y n) = repeat (x, y) n.
Proof. induction n; cbn; congruence. Qed.
Lemma surface_robin_floats Ss h A r : assemble_surface_robin Ss (Some (Flt h)) (Some (Flt A)) r =
  Ok (map (fun S => robin_mat S h) Ss, map (fun S => robin_vec S h A) Ss).
Proof.
  unfold assemble_surface_robin, per_facet. cbn [bind]. rewrite repeat_length, Nat.eqb_refl. cbn [negb bind].
  rewrite !repeat_length, Nat.eqb_refl. cbn [negb].
  rewrite combine_repeats, combine_repeat, !map_map. reflexivity.
Qed.
Lemma from_facets_robin H ns values Ss h A dr k obj w tk :
  from_facets H (Lst ns) values (Some Ss) (Some (Flt h)) (Some (Flt A)) dr k obj w = Ok tk ->
  uniform_robin tk Ss h A /\ ht_H tk = H /\ ht_nodes tk = ns /\ ht_values tk = values /\ ht_k tk = k /\ ht_obj tk = obj /\ ht_weight tk = w /\
  match values with FLst l => List.length l = List.length ns | _ => True end.
Proof.
  unfold from_facets. destruct values as [x|x|l]; try discriminate; [|destruct (Nat.eqb_spec (List.length ns) (List.length l)) as [E|]; [|discriminate]];
    cbn [bind]; (destruct Ss as [|S Ss]; [discriminate|]); rewrite surface_robin_floats; cbn [bind]; intros [= <-];
    cbn; repeat split; auto; left; auto.
Qed.
Lemma from_facets_plain H ns values coef env dr k obj w tk :
  from_facets H (Lst ns) values None coef env dr k obj w = Ok tk ->
  uniform_robin tk [] 0 0 /\ ht_H tk = H /\ ht_nodes tk = ns /\ ht_values tk = values /\ ht_k tk = k /\ ht_obj tk = obj /\ ht_weight tk = w /\
  match values with FLst l => List.length l = List.length ns | _ => True end.
Proof.
  unfold from_facets. destruct values as [x|x|l]; try discriminate; [|destruct (Nat.eqb_spec (List.length ns) (List.length l)) as [E|]; [|discriminate]];
    cbn [bind]; intros [= <-]; cbn; repeat split; auto; right; auto.
Qed.
Lemma uniform_any_ambient tk Ss h A A' : Ss = [] -> h = 0 -> ht_coef tk = None -> uniform_robin tk Ss h A -> uniform_robin tk Ss h A'.
Proof. intros -> -> Hc [(Hc' & _)|(_ & _ & _ & B & L)]; [congruence|right; auto]. Qed.

(* the conductivities *)
Lemma moduli_spec ip k0 km p rho ks : moduli ip k0 km p rho = Ok ks ->
  List.length ks = List.length rho /\ forall e, (e < List.length rho)%nat -> modulus ip (nth e rho 0) k0 km p = Some (nth e ks 0).
Proof.
  unfold moduli. destruct (all_some _) as [l|] eqn:E; [|discriminate]. intros [= ->]. revert ks E.
  induction rho as [|x rho IH]; intros ks E; cbn [map all_some] in E.
  - injection E as <-. split; [reflexivity|]. cbn. lia.
  - destruct (modulus ip x k0 km p) as [y|] eqn:Ey; [|discriminate].
    destruct (all_some _) as [l|] eqn:El; [|discriminate]. injection E as <-.
    destruct (IH l eq_refl) as (L & N). split; [cbn; congruence|]. intros [|e] He; cbn in *; [auto|apply N; lia].
Qed.

Lemma exch0_none H lay T v : exch0 H [] 0 lay T v = 0.
Proof.
  unfold exch0. cbn [map rsum fold_right]. rewrite (integral_ext H _ (fun e q => 0 * 0)) by (intros; ring).
  rewrite (integral_scal H 0 (fun _ _ => 0)). ring.
Qed.
Lemma exchanged_none H A lay T v : exchanged H [] 0 A lay T v = 0.
Proof.
  unfold exchanged. cbn [map rsum fold_right]. rewrite (integral_ext H _ (fun e q => 0 * 0)) by (intros; ring).
  rewrite (integral_scal H 0 (fun _ _ => 0)). ring.
Qed.
(* the system that is solved, tested with v *)
Lemma heat_system_form F p rho sys Ss h A : uniform_robin (hf_task F) Ss h A -> heat_system F p rho = Ok sys ->
  exists ks lay, moduli (hf_interp F) (ht_k (hf_task F)) (kmin F) p rho = Ok ks /\
    (lay = layer (ht_H (hf_task F)) (nodal_average (hb_t (ht_H (hf_task F))) rho) p (hf_q F)) /\
    (h <> 0 -> layer_ok (ht_H (hf_task F)) (nodal_average (hb_t (ht_H (hf_task F))) rho) p = true) /\
    (forall T v, dot (hn (ht_H (hf_task F))) v (mv (hn (ht_H (hf_task F))) (sy_K sys) T) =
       aform (ht_H (hf_task F)) (fun e => nth e ks 0) Ss h lay T v) /\
    (forall T v, dot (hn (ht_H (hf_task F))) v (mv (hn (ht_H (hf_task F))) (sy_K sys) T) - dot (hn (ht_H (hf_task F))) v (sy_emit sys) =
       conducted (ht_H (hf_task F)) (fun e => nth e ks 0) T v + exchanged (ht_H (hf_task F)) Ss h A lay T v) /\
    sy_nodal sys = match ht_coef (hf_task F) with None => None | Some _ => Some (nodal_average (hb_t (ht_H (hf_task F))) rho) end.
Proof.
  intros [(Hc & He & HB & HL)|(-> & -> & Hc & HB & HL)]; unfold heat_system; rewrite Hc, HB, HL.
  - rewrite He. unfold virtual_factors, bcast. cbn [bind].
    destruct (layer_ok _ _ p) eqn:Lo; [|discriminate]. cbn [bind].
    destruct (moduli _ _ _ p rho) as [ks|] eqn:Ek; [|discriminate]. cbn [bind]. intros [= <-]. cbn [sy_K sy_emit sy_nodal].
    set (H := ht_H (hf_task F)) in *. set (lay := layer H (nodal_average (hb_t H) rho) p (hf_q F)).
    assert (EK : forall T v, dot (hn H) v (mv (hn H) (fold_left madd (map (fun S => robin_mat S h) Ss ++ [virtual_mat H lay (fun _ => rsum [h])])
       (conduction (hb_B H) (fun e => nth e ks 0))) T) = aform H (fun e => nth e ks 0) Ss h lay T v).
    { intros T v. rewrite dot_madds, dot_conduction, map_app, map_map. cbn [map]. rewrite Base.rsum_app. cbn [rsum fold_right].
      unfold aform, exch0. rewrite dot_virtual_mat. f_equal. f_equal.
      - f_equal. apply map_ext. intros. apply dot_robin_mat.
      - rewrite Rplus_0_r. apply integral_ext. intros. ring. }
    exists ks, lay. split; [reflexivity|]. split; [reflexivity|]. split; [auto|]. split; [exact EK|]. split; [|reflexivity].
    intros T v. rewrite EK, dot_vadds, map_app, map_map. cbn [map]. rewrite Base.rsum_app. cbn [rsum fold_right].
    rewrite dot_virtual_vec. unfold aform, exch0, exchanged.
    assert (Z : dot (hn H) v (fun _ => 0) = 0) by (apply sum_zero; intros; ring). rewrite Z.
    rewrite (integral_ext H (fun e q => h * lay e q * (value_of H T e q - A) * value_of H v e q)
      (fun e q => 1 * (h * lay e q * value_of H T e q * value_of H v e q) + (-1) * (rsum (bprod [h] [A]) * lay e q * value_of H v e q))).
    2: { intros. unfold bprod, rsum. cbn [map fold_right]. ring. }
    rewrite integral_lin.
    rewrite (map_ext (fun S => surf_integral S (fun q => h * (sval_of (hn H) S T q - A) * sval_of (hn H) S v q))
      (fun S => 1 * surf_integral S (fun q => h * sval_of (hn H) S T q * sval_of (hn H) S v q) + (-1) * surf_integral S (fun q => h * A * sval_of (hn H) S v q))).
    2: { intros S. rewrite <- surf_lin. apply surf_ext. intros. ring. }
    rewrite rsum_map_lin.
    rewrite (map_ext (fun S => dot (hn H) v (robin_vec S h A)) (fun S => surf_integral S (fun q => h * A * sval_of (hn H) S v q))) by (intros; apply dot_robin_vec).
    cbn [bprod map rsum fold_right]. ring.
  - cbn [bind]. destruct (moduli _ _ _ p rho) as [ks|] eqn:Ek; [|discriminate]. cbn [bind]. intros [= <-]. cbn [sy_K sy_emit sy_nodal fold_left].
    exists ks, (layer (ht_H (hf_task F)) (nodal_average (hb_t (ht_H (hf_task F))) rho) p (hf_q F)).
    split; [reflexivity|]. split; [reflexivity|]. split; [lra|].
    assert (EK : forall T v, dot (hn (ht_H (hf_task F))) v (mv (hn (ht_H (hf_task F))) (conduction (hb_B (ht_H (hf_task F))) (fun e => nth e ks 0)) T) =
      aform (ht_H (hf_task F)) (fun e => nth e ks 0) [] 0 (layer (ht_H (hf_task F)) (nodal_average (hb_t (ht_H (hf_task F))) rho) p (hf_q F)) T v).
    { intros. rewrite dot_conduction. unfold aform. rewrite exch0_none. ring. }
    split; [exact EK|]. split; [|reflexivity]. intros. rewrite EK.
    assert (Z : dot (hn (ht_H (hf_task F))) v (fun _ => 0) = 0) by (apply sum_zero; intros; ring). rewrite Z.
    unfold aform. rewrite exch0_none, exchanged_none. ring.
Qed.

(* one enforced solve *)
Lemma enforced_solve n K f D val u : solves n (enforceK D K) (enforceV D val f) u ->
  (forall i, (i < n)%nat -> In i D -> u i = val) /\
  (forall v, (forall i, (i < n)%nat -> In i D -> v i = 0) -> dot n v (mv n K u) - dot n v f = 0).
Proof.
  intros S. split.
  - intros i Hi HD. specialize (S i Hi). unfold mv, enforceK, enforceV in S.
    assert (M : mem i D = true) by (apply existsb_exists; exists i; split; auto; apply Nat.eqb_refl). rewrite M in S. rewrite <- S.
    rewrite (sum_ext n _ (fun j => if Nat.eqb j i then u j else 0)); [symmetry; apply (sum_single n i (fun j => u j)); auto|].
    intros j Hj. rewrite (Nat.eqb_sym i j). destruct (Nat.eqb j i); ring.
  - intros v Hv. unfold dot. rewrite <- sum_minus. apply sum_zero. intros i Hi.
    destruct (mem i D) eqn:M.
    + apply existsb_exists in M. destruct M as (j & Hj & E). apply Nat.eqb_eq in E. subst j. rewrite Hv; auto. ring.
    + specialize (S i Hi). unfold mv, enforceK, enforceV in S. rewrite M in S. unfold mv. rewrite S. ring.
Qed.

(* ---- nodal densities ---- *)
Lemma zipwith_bounds idx vals v a b : (forall x, In x vals -> a <= x <= b) -> (List.length idx = List.length vals) ->
  a * add_at idx (map (fun _ => 1) idx) v <= add_at idx vals v <= b * add_at idx (map (fun _ => 1) idx) v.
Proof.
  unfold add_at. revert vals. induction idx as [|i idx IH]; intros vals Hv L; destruct vals as [|x vals]; try discriminate.
  - unfold rsum; cbn [map zipwith fold_right]; lra.
  - cbn [map zipwith]. cbn [rsum fold_right]. injection L as L.
    specialize (IH vals (fun y Hy => Hv y (or_intror Hy)) L). pose proof (Hv x (or_introl eq_refl)).
    unfold rsum in IH. destruct (Nat.eqb i v); lra.
Qed.
Lemma np_repeat_in rho k x : In x (np_repeat rho k) -> In x rho.
Proof.
  unfold np_repeat. intros Hx. apply in_concat in Hx. destruct Hx as (l & Hl & Hx). apply in_map_iff in Hl.
  destruct Hl as (y & <- & Hy). apply repeat_spec in Hx. now subst.
Qed.
Lemma np_repeat_len rho k : List.length (np_repeat rho k) = (List.length rho * k)%nat.
Proof. unfold np_repeat. induction rho; cbn [map List.concat]; [reflexivity|]. rewrite app_length, repeat_length, IHrho. cbn. lia. Qed.
Lemma np_repeat_nth rho k m d : (m < List.length rho * k)%nat -> nth m (np_repeat rho k) d = nth (m / k) rho d.
Proof.
  revert m. induction rho as [|x rho IH]; intros m Hm; [cbn in Hm; lia|]. unfold np_repeat. cbn [map List.concat].
  fold (np_repeat rho k). assert (Hk : k <> 0%nat) by (cbn in Hm; lia). destruct (Nat.lt_ge_cases m k) as [L|L].
  - rewrite app_nth1 by (rewrite repeat_length; lia). rewrite Nat.div_small by lia. cbn [nth].
    rewrite nth_indep with (d' := x) by (rewrite repeat_length; lia). apply nth_repeat.
  - rewrite app_nth2; rewrite repeat_length; [|lia]. rewrite IH by (cbn in Hm; lia).
    replace m with ((m - k) + 1 * k)%nat at 2 by lia. rewrite Nat.div_add by auto. rewrite Nat.add_1_r. reflexivity.
Qed.
Lemma concat_len {A} (t : list (list A)) n : (forall row, In row t -> List.length row = n) -> List.length (List.concat t) = (List.length t * n)%nat.
Proof.
  induction t; intros E; cbn [List.concat]; [reflexivity|].
  rewrite app_length, IHt by (intros; apply E; now right). rewrite (E a) by now left. reflexivity.
Qed.
Lemma node_count_nonneg t v : 0 <= node_count t v.
Proof.
  unfold node_count, add_at. induction (List.concat t) as [|i l IH]; cbn [map zipwith rsum fold_right]; [unfold rsum; cbn; lra|].
  unfold rsum in IH. destruct (Nat.eqb i v); lra.
Qed.
Lemma node_count_ge1 t v : In v (List.concat t) -> 1 <= node_count t v.
Proof.
  unfold node_count, add_at. induction (List.concat t) as [|i l IH]; intros Hv; [destruct Hv|].
  cbn [map zipwith rsum fold_right]. pose proof (node_count_nonneg [l] v) as N. unfold node_count, add_at in N. cbn [List.concat] in N.
  rewrite app_nil_r in N. unfold rsum in *. destruct (Nat.eqb_spec i v); [lra|]. destruct Hv; [congruence|]. specialize (IH H). lra.
Qed.
(* truncation to the shorter list is harmless for upper and lower bounds 0 and 1 *)
Lemma add_at_01 idx vals v : (forall x, In x vals -> 0 <= x <= 1) ->
  0 <= add_at idx vals v <= add_at idx (map (fun _ => 1) idx) v.
Proof.
  unfold add_at. revert vals. induction idx as [|i idx IH]; intros vals Hv; destruct vals as [|x vals].
  - unfold rsum; cbn [map zipwith fold_right]; lra.
  - unfold rsum; cbn [map zipwith fold_right]; lra.
  - pose proof (node_count_nonneg [i :: idx] v) as N. unfold node_count, add_at in N. cbn [List.concat] in N. rewrite app_nil_r in N.
    split; [|exact N]. unfold rsum; cbn [zipwith fold_right]; lra.
  - cbn [map zipwith]. cbn [rsum fold_right]. specialize (IH vals (fun y Hy => Hv y (or_intror Hy))).
    pose proof (Hv x (or_introl eq_refl)). unfold rsum in IH. destruct (Nat.eqb i v); lra.
Qed.
Lemma nodal_01 t rho v : (forall x, In x rho -> 0 <= x <= 1) -> 0 <= nodal_average t rho v <= 1.
Proof.
  intros Hr. unfold nodal_average.
  pose proof (add_at_01 (List.concat t) (np_repeat rho (List.length t)) v (fun x Hx => Hr x (np_repeat_in _ _ _ Hx))) as (B1 & B2).
  fold (node_count t v) in B2. pose proof (Rmax_l (node_count t v) 1). pose proof (Rmax_r (node_count t v) 1).
  assert (P : 0 < Rmax (node_count t v) 1) by lra. split.
  - apply Rmult_le_pos; [auto|]. left. now apply Rinv_0_lt_compat.
  - apply (Rmult_le_reg_r (Rmax (node_count t v) 1)); [auto|]. unfold Rdiv. rewrite Rmult_assoc, Rinv_l by lra. lra.
Qed.
Lemma value_range H r e q a b : shapes H -> (e < ne H)%nat -> (q < nq H)%nat -> (forall v, (v < hn H)%nat -> a <= r v <= b) ->
  a <= value_of H r e q <= b.
Proof.
  intros Sh He Hq Hr. destruct (Sh e q He Hq) as (P & U & _). unfold value_of.
  assert (Ea : a = sum (hn H) (fun k => a * hb_val H e q k)) by (rewrite (sum_scal (hn H) a (fun k => hb_val H e q k)), U; ring).
  assert (Eb : b = sum (hn H) (fun k => b * hb_val H e q k)) by (rewrite (sum_scal (hn H) b (fun k => hb_val H e q k)), U; ring).
  split; [rewrite Ea at 1|rewrite Eb]; apply sum_le; intros i Hi; apply Rmult_le_compat_r; auto; apply Hr; auto.
Qed.
Lemma pw_nonneg x p : 0 <= x -> 0 <= pw x p.
Proof.
  intros Hx. unfold pw, npow. destruct (Rlt_dec 0 x); [apply Rlt_le, exp_pos|].
  destruct (Req_EM_T x 0); [|lra]. destruct (Rlt_dec 0 p); [lra|]. destruct (Req_EM_T p 0); lra.
Qed.
Lemma gnorm_nonneg g : 0 <= gnorm g.
Proof. apply sqrt_pos. Qed.
Lemma layer_nonneg H rho p q' e q : shapes H -> (forall x, In x rho -> 0 <= x <= 1) -> (e < ne H)%nat -> (q < nq H)%nat ->
  0 <= layer H (nodal_average (hb_t H) rho) p q' e q.
Proof.
  intros Sh Hr He Hq. unfold layer.
  destruct (value_range H (nodal_average (hb_t H) rho) e q 0 1 Sh He Hq (fun v _ => nodal_01 _ _ v Hr)) as (V0 & V1).
  apply Rmult_le_pos; [apply Rmult_le_pos|apply gnorm_nonneg]; [now apply pw_nonneg|apply pow_le; lra].
Qed.

(* ---- conductivities ---- *)
Lemma modulus_conductivity ip k c p x : 0 < p -> 0 <= x -> modulus ip x k (k * c) p = Some (conductivity ip k c p x).
Proof.
  intros Hp Hx. destruct ip; cbn [modulus conductivity].
  - unfold simp_interpolation, npow. destruct (Rlt_dec 0 x); [f_equal; ring|]. destruct (Req_EM_T x 0); [|lra].
    destruct (Rlt_dec 0 p); [f_equal; ring|lra].
  - unfold ramp_interpolation. f_equal. ring.
Qed.
Lemma conductivity_pos ip k c p x : 0 < k -> 0 < c <= 1 -> 0 < p -> 0 <= x <= 1 -> 0 < conductivity ip k c p x.
Proof.
  intros Hk Hc Hp Hx. assert (0 <= k - c * k) by nra. assert (0 < c * k) by nra. destruct ip; cbn [conductivity].
  - destruct (Rlt_dec 0 x) as [L|L]; [|nra]. assert (0 < Rpower x p) by apply exp_pos. nra.
  - assert (0 < 1 + p * (1 - x)) by nra. assert (0 <= x / (1 + p * (1 - x))) by (apply Rmult_le_pos; [lra|left; now apply Rinv_0_lt_compat]).
    nra.
Qed.
Lemma moduli_conductivity ip k c p rho ks : 0 < p -> (forall x, In x rho -> 0 <= x <= 1) -> moduli ip k (k * c) p rho = Ok ks ->
  List.length ks = List.length rho /\ forall e, (e < List.length rho)%nat -> nth e ks 0 = conductivity ip k c p (nth e rho 0).
Proof.
  intros Hp Hr E. apply moduli_spec in E. destruct E as (L & N). split; [auto|]. intros e He. specialize (N e He).
  rewrite modulus_conductivity in N; [congruence|auto|]. apply Hr. now apply nth_In.
Qed.
Lemma moduli_ok ip k c p rho : 0 < p -> (forall x, In x rho -> 0 <= x <= 1) ->
  moduli ip k (k * c) p rho = Ok (map (conductivity ip k c p) rho).
Proof.
  intros Hp Hr. unfold moduli. assert (E : all_some (map (fun x => modulus ip x k (k * c) p) rho) = Some (map (conductivity ip k c p) rho)).
  { induction rho as [|x rho IH]; [reflexivity|]. cbn [map all_some]. rewrite modulus_conductivity; [|auto|apply Hr; left; auto].
    rewrite IH; [reflexivity|]. intros y Hy. apply Hr. now right. }
  rewrite E. reflexivity.
Qed.
Lemma cond_k_ext H k k' u v : (forall e, (e < ne H)%nat -> k e = k' e) -> conducted H k u v = conducted H k' u v.
Proof. intros E. apply integral_ext. intros. rewrite E; auto. Qed.

(* ---- the solve of a sound problem ---- *)
Lemma enforceK_same D D' K i j : same_set D D' -> enforceK D K i j = enforceK D' K i j.
Proof.
  intros E. unfold enforceK. assert (M : mem i D = mem i D').
  { apply eq_true_iff_eq. unfold mem. rewrite !existsb_exists. split; intros (x & Hx & Ex); exists x; split; auto; apply E; auto. }
  rewrite M. reflexivity.
Qed.
Lemma solves_same n D D' K b u : same_set D D' -> solves n (enforceK D K) b u -> solves n (enforceK D' K) b u.
Proof. intros E S i Hi. rewrite <- (S i Hi). apply sum_ext. intros. rewrite (enforceK_same D D') by auto. reflexivity. Qed.
Lemma regular H k D Ss h lay K : shapes H -> (forall S, In S Ss -> surf_shapes (hn H) S) -> anchored H D ->
  (forall e, (e < ne H)%nat -> 0 < k e) -> 0 <= h -> (forall e q, (e < ne H)%nat -> (q < nq H)%nat -> 0 <= lay e q) ->
  (forall T v, dot (hn H) v (mv (hn H) K T) = aform H k Ss h lay T v) ->
  forall u, (forall i, (i < hn H)%nat -> mv (hn H) (enforceK D K) u i = 0) -> forall i, (i < hn H)%nat -> u i = 0.
Proof.
  intros Sh SS An Hk Hh Hl EK u Hu.
  assert (S : solves (hn H) (enforceK D K) (enforceV D 0 (fun _ => 0)) u).
  { intros i Hi. rewrite Hu by auto. unfold enforceV. destruct (mem i D); reflexivity. }
  apply enforced_solve in S. destruct S as (S0 & SF). apply (aform_zero H k Ss h lay Sh SS Hk Hh Hl D u An); [auto|].
  specialize (SF u S0). rewrite EK in SF.
  assert (Z : dot (hn H) u (fun _ => 0) = 0) by (apply sum_zero; intros; ring). lra.
Qed.
