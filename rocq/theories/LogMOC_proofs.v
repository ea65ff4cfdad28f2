From Verif Require Import Base Material_model Material_proofs OC_model OC_spec OC_proofs LogMOC_model.
Open Scope R_scope.
Open Scope list_scope.

Lemma clip_pos x lo hi : 0 < lo -> lo <= hi -> 0 < clip x lo hi.
Proof. intros; pose proof (clip_ge_lo x lo hi H0). lra. Qed.

Lemma exp_clip x lo hi : exp (clip x lo hi) = clip (exp x) (exp lo) (exp hi).
Proof.
  assert (M : forall a b, a <= b -> exp a <= exp b).
  { intros a b [H| ->]; [left; apply exp_increasing; auto|lra]. }
  unfold clip, Rmin, Rmax.
  destruct (Rle_dec x lo).
  - pose proof (M _ _ r). destruct (Rle_dec (exp x) (exp lo)); [|lra].
    destruct (Rle_dec lo hi); destruct (Rle_dec (exp lo) (exp hi)); auto.
    + exfalso; apply n; auto.
    + exfalso; apply n. apply Rnot_lt_le; intros C. apply exp_increasing in C. lra.
  - pose proof (exp_increasing lo x ltac:(lra)). destruct (Rle_dec (exp x) (exp lo)); [lra|].
    destruct (Rle_dec x hi); destruct (Rle_dec (exp x) (exp hi)); auto.
    + exfalso; apply n1; auto.
    + exfalso; apply n1. apply Rnot_lt_le; intros C. apply exp_increasing in C. lra.
Qed.

(* closed form *)
Lemma log_update_closed rho dL eta move rho_min rho_max lclip :
  0 < rho_min <= rho_max -> 0 <= move ->
  let r := clip rho rho_min rho_max in
  lagrangian_log_update rho dL eta move rho_min rho_max lclip =
  clip (clip (r * exp (- (eta * clip dL (- lclip) lclip))) (r * (r / (r + move))) (r + move)) rho_min rho_max.
Proof.
  intros Hm Hv r. unfold lagrangian_log_update. fold r.
  assert (Hr : 0 < r) by (apply clip_pos; lra).
  rewrite !exp_ln by auto. rewrite exp_clip.
  assert (Hu : 0 < move / r + 1).
  { assert (0 <= move / r); [|lra]. apply Rmult_le_pos; auto. left; apply Rinv_0_lt_compat; auto. }
  f_equal. f_equal.
  - unfold Rminus. rewrite exp_plus, exp_ln by auto. reflexivity.
  - unfold Rminus. rewrite exp_plus, exp_Ropp, !exp_ln by auto. field. lra.
  - replace (ln r - ln (move / r + 1) + 2 * ln (move / r + 1)) with (ln r + ln (move / r + 1)) by ring.
    rewrite exp_plus, !exp_ln by auto. field. lra.
Qed.

Lemma lower_bound r move : 0 < r -> 0 <= move -> r - move <= r * (r / (r + move)) <= r.
Proof.
  intros Hr Hm.
  assert (E : r * (r / (r + move)) = r - move * (r / (r + move))) by (field; lra).
  assert (0 <= r / (r + move) <= 1).
  { split; [apply Rmult_le_pos; [lra|left; apply Rinv_0_lt_compat; lra]|].
    apply Rmult_le_reg_r with (r + move); [lra|]. unfold Rdiv; rewrite Rmult_assoc, Rinv_l; lra. }
  split; [rewrite E|]; nra.
Qed.

Lemma log_update_bounds rho dL eta move rho_min rho_max lclip :
  0 < rho_min <= rho_max -> 0 <= move ->
  let x := lagrangian_log_update rho dL eta move rho_min rho_max lclip in
  rho_min <= x <= rho_max /\ Rabs (x - clip rho rho_min rho_max) <= move.
Proof.
  intros Hm Hv x. unfold x. rewrite log_update_closed by auto. cbv zeta.
  set (r := clip rho rho_min rho_max).
  assert (Hr : rho_min <= r <= rho_max) by (split; [apply clip_ge_lo|apply clip_le_hi]; lra).
  destruct (lower_bound r move ltac:(lra) Hv) as [L1 L2].
  split; [split; [apply clip_ge_lo; lra|apply clip_le_hi]|].
  apply Rabs_le.
  set (y := r * exp _) in *. set (lo := r * (r / (r + move))) in *. clearbody y lo.
  unfold clip, Rmin, Rmax. case_Rle; lra.
Qed.

Lemma log_update_direction rho dL eta move rho_min rho_max lclip :
  0 < rho_min <= rho_max -> 0 <= move -> 0 <= eta -> 0 <= lclip ->
  let r := clip rho rho_min rho_max in
  let x := lagrangian_log_update rho dL eta move rho_min rho_max lclip in
  (0 <= dL -> x <= r) /\ (dL <= 0 -> r <= x) /\ (dL = 0 -> x = r) /\
  (0 < dL -> 0 < eta -> 0 < lclip -> 0 < move -> rho_min < r -> x < r) /\
  (dL < 0 -> 0 < eta -> 0 < lclip -> 0 < move -> r < rho_max -> r < x).
Proof.
  intros Hm Hv He Hc r x. unfold x. rewrite log_update_closed by auto. cbv zeta. fold r.
  assert (Hr : rho_min <= r <= rho_max) by (split; [apply clip_ge_lo|apply clip_le_hi]; lra).
  destruct (lower_bound r move ltac:(lra) Hv) as [L1 L2].
  assert (E0 : exp 0 = 1) by apply exp_0.
  set (g := clip dL (- lclip) lclip).
  assert (A : 0 <= dL -> r * exp (- (eta * g)) <= r).
  { intros H. assert (0 <= g) by (unfold g; rminmax). assert (0 <= eta * g) by (apply Rmult_le_pos; auto).
    assert (exp (- (eta * g)) <= 1).
    { rewrite <- E0. destruct (Req_dec (eta * g) 0) as [->|]; [rewrite Ropp_0; lra|].
      left; apply exp_increasing; lra. } nra. }
  assert (B : dL <= 0 -> r <= r * exp (- (eta * g))).
  { intros H. assert (g <= 0) by (unfold g; rminmax). assert (0 <= eta * - g) by (apply Rmult_le_pos; lra).
    assert (1 <= exp (- (eta * g))).
    { rewrite <- E0 at 1. destruct (Req_dec (eta * g) 0) as [->|]; [rewrite Ropp_0; lra|].
      left; apply exp_increasing; lra. } nra. }
  assert (A' : 0 < dL -> 0 < eta -> 0 < lclip -> r * exp (- (eta * g)) < r).
  { intros H H1 H2. assert (0 < g) by (unfold g; rminmax). assert (0 < eta * g) by (apply Rmult_lt_0_compat; auto).
    assert (exp (- (eta * g)) < 1) by (rewrite <- E0; apply exp_increasing; lra). nra. }
  assert (B' : dL < 0 -> 0 < eta -> 0 < lclip -> r < r * exp (- (eta * g))).
  { intros H H1 H2. assert (g < 0) by (unfold g; rminmax). assert (0 < eta * - g) by (apply Rmult_lt_0_compat; lra).
    assert (1 < exp (- (eta * g))) by (rewrite <- E0 at 1; apply exp_increasing; lra). nra. }
  assert (L3 : 0 < move -> r * (r / (r + move)) < r).
  { intros H. replace (r * (r / (r + move))) with (r - r * (move / (r + move))) by (field; lra).
    assert (0 < move / (r + move)) by (apply Rdiv_lt_0_compat; lra). nra. }
  set (y := r * exp _) in *. set (lo := r * (r / (r + move))) in *. clearbody y lo g r.
  repeat split; intros.
  - specialize (A H). rminmax.
  - specialize (B H). rminmax.
  - specialize (A ltac:(lra)). specialize (B ltac:(lra)). rminmax.
  - specialize (A' H H0 H1). specialize (L3 H2). rminmax.
  - specialize (B' H H0 H1). rminmax.
Qed.

(* ---- whole update ---- *)
Lemma lm_running_pos c a run dL rs : 0 < m_lfloor c ->
  (forall r, run = Some r -> 0 < r) -> lm_running c a run dL = Ok rs -> 0 < rs.
Proof.
  intros Hf Hr. unfold lm_running.
  set (s := Rmax _ (m_lfloor c)). assert (0 < s) by (pose proof (Rmax_r (np_percentile (map Rabs dL)
     match la_percentile a with Some q => q | None => m_lpercentile c end) (m_lfloor c)); unfold s; lra).
  destruct (1 <? la_iter a)%Z; [destruct run as [r|]; [|discriminate]|]; intros [= <-]; auto.
  specialize (Hr r eq_refl). lra.
Qed.


Lemma zip_F2 {A B C} (f : A -> B -> C) (P : A -> C -> Prop) l m :
  List.length m = List.length l -> (forall a b, P a (f a b)) -> Forall2 P l (zipwith f l m).
Proof.
  intros HL H; revert m HL; induction l; intros [|b m] HL; simpl in *; try discriminate; constructor; auto.
Qed.

Lemma zip_F3 (f : R -> R -> R) (P : R -> R -> R -> Prop) l m :
  List.length m = List.length l -> (forall a b, P a b (f a b)) ->
  forall i a b, nth_error l i = Some a -> nth_error m i = Some b ->
  exists x, nth_error (zipwith f l m) i = Some x /\ P a b x.
Proof.
  intros HL H i a b. revert m HL i; induction l; intros [|b0 m] HL [|i]; simpl in *; try discriminate.
  - intros [= ->] [= ->]. eexists; split; eauto.
  - intros; apply IHl; auto.
Qed.

Lemma dL_length c a lam : List.length (la_dC a) = List.length (la_design a) ->
  List.length (lagrangian_gradient c a lam) = List.length (la_design a).
Proof.
  intros HL. unfold lagrangian_gradient.
  assert (HC : forall v, List.length (center a v) = List.length v) by (intros; apply map_length).
  assert (HD : List.length (if m_center_objective c then center a (la_dC a) else la_dC a) = List.length (la_design a)).
  { destruct (m_center_objective c); rewrite ?HC; auto. }
  set (dC := if m_center_objective c then center a (la_dC a) else la_dC a) in *.
  assert (HV : List.length (volume_chain c a) = List.length (la_design a)).
  { unfold volume_chain. apply gather_length. }
  destruct (m_center_lagrangian c); rewrite ?HC; destruct (m_filter_lagrangian c);
    rewrite ?gather_length; auto; rewrite zipwith_length; auto; rewrite map_length; lia.
Qed.

Lemma lm_update_bounds c s a o : 0 < m_rho_min c <= m_rho_max c -> 0 <= la_move a ->
  List.length (la_dC a) = List.length (la_design a) ->
  List.length (la_rho a) = List.length (la_design a) ->
  lm_rho_update c s a = Ok o ->
  Forall2 (fun r x => m_rho_min c <= x <= m_rho_max c /\
                      Rabs (x - clip r (m_rho_min c) (m_rho_max c)) <= la_move a)
          (la_rho a) (lo_rho o).
Proof.
  intros Hm Hv HD HR. unfold lm_rho_update.
  destruct (lm_running _ _ _ _) as [rs|e]; simpl; [|discriminate]. intros [= <-]; simpl in *.
  apply zip_F2; [rewrite map_length, dL_length; lia|]. intros. apply log_update_bounds; auto.
Qed.

Lemma lm_update_descends c s a o : 0 < m_rho_min c <= m_rho_max c -> 0 <= la_move a ->
  0 <= la_eta a -> 0 <= m_lclip c ->
  List.length (la_dC a) = List.length (la_design a) ->
  List.length (la_rho a) = List.length (la_design a) ->
  lm_rho_update c s a = Ok o ->
  forall i r, nth_error (la_rho a) i = Some r ->
  exists d x, nth_error (lo_dL o) i = Some d /\ nth_error (lo_rho o) i = Some x /\
    let r' := clip r (m_rho_min c) (m_rho_max c) in
    (0 <= d -> x <= r') /\ (d <= 0 -> r' <= x) /\ (d = 0 -> x = r').
Proof.
  intros Hm Hv He Hc HDL HRL. unfold lm_rho_update.
  destruct (lm_running _ _ _ _) as [rs|e]; simpl; [|discriminate]. intros [= <-]; simpl in *.
  intros i r Hi.
  set (dL := map (fun x => x / rs) _).
  assert (HL : List.length dL = List.length (la_rho a)).
  { unfold dL. rewrite map_length, dL_length; lia. }
  destruct (nth_error dL i) as [d|] eqn:Hd.
  2:{ apply nth_error_None in Hd. assert (nth_error (la_rho a) i <> None) by congruence.
      apply nth_error_Some in H. lia. }
  exists d.
  destruct (zip_F3 (fun r0 d0 => lagrangian_log_update r0 d0 (la_eta a) (la_move a)
                         (m_rho_min c) (m_rho_max c) (m_lclip c))
     (fun r d x => let r' := clip r (m_rho_min c) (m_rho_max c) in
       (0 <= d -> x <= r') /\ (d <= 0 -> r' <= x) /\ (d = 0 -> x = r'))
     (la_rho a) _ HL) with (i := i) (a := r) (b := d) as (x & E & Hx); auto.
  { intros r0 d0. destruct (log_update_direction r0 d0 (la_eta a) (la_move a) (m_rho_min c) (m_rho_max c)
        (m_lclip c)) as (A & B & C & _); auto. }
  exists x; auto.
Qed.

Lemma dual_step_bounds c i lam v : m_lambda_lower c <= m_lambda_upper c ->
  m_lambda_lower c <= dual_step c i lam v <= m_lambda_upper c.
Proof. intros; unfold dual_step. split; [apply clip_ge_lo; auto|apply clip_le_hi]. Qed.

Lemma dual_run_bounds c lam l : m_lambda_lower c <= m_lambda_upper c -> l <> [] ->
  m_lambda_lower c <= dual_run c lam l <= m_lambda_upper c.
Proof.
  intros Hb. revert lam; induction l as [|[i v] l IH]; intros lam H; [congruence|]. simpl.
  destruct l as [|q l]; [simpl; apply dual_step_bounds; auto|]. apply IH; congruence.
Qed.

(* the multiplier in rho_update is dual_run of the volume errors *)
Lemma lm_run_dual c l : forall s s', lm_run c s l = Ok s' ->
  lambda_v s' = dual_run c (lambda_v s) (map (fun a => (la_iter a, lm_vol_error a)) l).
Proof.
  induction l as [|a l IH]; intros s s'; cbn [lm_run map dual_run].
  - intros [= <-]; auto.
  - unfold lm_rho_update.
    destruct (lm_running _ _ _ _) as [rs|e]; cbn [bind]; [|discriminate].
    intros H. rewrite (IH _ _ H). reflexivity.
Qed.

Lemma dual_ema_convex c lam l B : m_augmented c = false -> 0 <= m_decay c <= 1 -> 0 <= B ->
  m_lambda_lower c <= 0 <= m_lambda_upper c ->
  Forall (fun iv => Rabs (m_mu_p c * snd iv) <= B) l -> Rabs lam <= B ->
  Rabs (dual_run c lam l) <= B.
Proof.
  intros Ha Hd HB Hl F. revert lam; induction F as [|[i v] l Hv F IH]; intros lam H; simpl; auto.
  apply IH. unfold dual_step. rewrite Ha.
  assert (C : forall x, Rabs x <= B -> Rabs (clip x (m_lambda_lower c) (m_lambda_upper c)) <= B).
  { intros x Hx. apply Rabs_le. assert (- B <= x <= B).
    { revert Hx. unfold Rabs. destruct (Rcase_abs x); lra. }
    rminmax. }
  apply C. destruct (1 <? i)%Z; auto. simpl in Hv.
  eapply Rle_trans; [apply Rabs_triang|]. rewrite !Rabs_mult in *.
  rewrite (Rabs_right (m_decay c)), (Rabs_right (1 - m_decay c)) by lra. nra.
Qed.

Lemma dual_augmented_dir c i lam v : m_augmented c = true -> 0 < m_mu_p c -> (1 < i)%Z ->
  m_lambda_lower c <= lam <= m_lambda_upper c ->
  (0 < v -> (lam < dual_step c i lam v \/ dual_step c i lam v = m_lambda_upper c) /\ lam <= dual_step c i lam v) /\
  (v < 0 -> (dual_step c i lam v < lam \/ dual_step c i lam v = m_lambda_lower c) /\ dual_step c i lam v <= lam) /\
  (v = 0 -> dual_step c i lam v = lam).
Proof.
  intros Ha Hm Hi Hl. unfold dual_step. rewrite Ha. rewrite (proj2 (Z.ltb_lt 1 i) Hi).
  set (p := m_mu_p c * v).
  assert (0 < v -> 0 < p) by (intros; apply Rmult_lt_0_compat; auto).
  assert (v < 0 -> p < 0) by (intros; unfold p; nra).
  assert (v = 0 -> p = 0) by (intros ->; unfold p; ring).
  repeat split; intros.
  - specialize (H H2). unfold clip, Rmin, Rmax. case_Rle; lra.
  - specialize (H H2). rminmax.
  - specialize (H0 H2). unfold clip, Rmin, Rmax. case_Rle; lra.
  - specialize (H0 H2). rminmax.
  - rewrite (H1 H2). rewrite Rplus_0_r. apply clip_id; auto.
Qed.

(* ---- restart ---- *)
Lemma lm_fresh_run_ok c l s : (exists a l', l = a :: l' /\ (la_iter a <= 1)%Z) \/ running_scale s <> None ->
  exists s', lm_run c s l = Ok s'.
Proof.
  revert s; induction l as [|a l IH]; intros s H; simpl; [eauto|].
  unfold lm_rho_update, lm_running.
  destruct (Z.ltb_spec 1 (la_iter a)).
  - destruct (running_scale s) as [r|] eqn:E.
    + simpl. apply IH. right; simpl; congruence.
    + destruct H as [(a0 & l' & [= <- <-] & H)|H]; [lia|congruence].
  - simpl. apply IH. right; simpl; congruence.
Qed.

Lemma lm_restart_fails c a l lam : (1 < la_iter a)%Z ->
  lm_run c (mkLMS lam None) (a :: l) = Err AttributeError.
Proof.
  intros H. simpl. unfold lm_rho_update, lm_running. rewrite (proj2 (Z.ltb_lt 1 _) H). reflexivity.
Qed.

(* ---- OC restart: running_scale is reset to 0 (oc.py:122) ---- *)
Lemma bisection_narrow P n tol vt l1 l2 : Rabs (l2 - l1) <= tol ->
  exists ve k, bisection_with_physical_volume P n tol vt l1 l2 =
    Some (mkBis (1/2 * (l1 + l2)) ve (candidate P (1/2 * (l1 + l2))) k).
Proof.
  intros H. unfold bisection_with_physical_volume. cbn [bisect].
  destruct (within _ _); [eauto|]. destruct (Nat.leb n 0); [eauto|].
  rewrite (proj2 (Rleb_true _ _) H). eauto.
Qed.

Definition rs_cfg := mkOCCfg (1/100) 1 (1/2) (7/10) (13/10) (1/1000000000000) 1 (1 + 1/1000000).
Definition rs_args := mkArgs 2 [1/2] [0%nat] (fun x => x) [-1] (2/10) 1 2 None [1] 1 (4/10).

Lemma rs_eval running rs : rs = next_running_scale 2 running 1 ->
  exists r, rho_update rs_cfg running rs_args = Some r /\
    r_rho r = match oc_candidate (1/100) 1 (2/10) 1 tiny (7/10) (13/10) (1/2 * (1 + (1 + 1/1000000)))
                      (-1 / rs) (1/2) with Some x => Some [x] | None => None end.
Proof.
  intros Hrs. unfold rho_update.
  assert (E : next_running_scale (a_iter rs_args) running
     (sens_scale (a_percentile rs_args) (c_floor rs_cfg) (a_dC rs_args)) = rs).
  { subst rs. f_equal. unfold sens_scale, raw_scale; simpl. rewrite (Rabs_left (-1)) by lra.
    rewrite Rmax_left; lra. }
  rewrite E.
  destruct (bisection_narrow (oc_problem_of rs_cfg rs_args (map (fun x => x / rs) (a_dC rs_args))) 1000
     (1/100000) (1/10000) (c_lambda_lower rs_cfg) (c_lambda_upper rs_cfg)) as (ve & k & B).
  { simpl. rewrite Rabs_right; lra. }
  rewrite B. eexists; split; [reflexivity|]. reflexivity.
Qed.

Lemma oc_restart_differs : exists x y r1 r2,
  rho_update rs_cfg 1 rs_args = Some r1 /\ rho_update rs_cfg 0 rs_args = Some r2 /\
  r_rho r1 = Some [x] /\ r_rho r2 = Some [y] /\ x <= 1/2 /\ y = 65/100.
Proof.
  destruct (rs_eval 1 1) as (r1 & E1 & F1). { unfold next_running_scale; simpl; lra. }
  destruct (rs_eval 0 (4/10)) as (r2 & E2 & F2). { unfold next_running_scale; simpl; lra. }
  set (m := 1/2 * (1 + (1 + 1/1000000)) + tiny).
  assert (Hm : 1 < m < 11/10) by (unfold m, tiny; lra).
  pose proof (Rinv_0_lt_compat m ltac:(lra)) as Hi.
  assert (I : m * / m = 1) by (apply Rinv_r; lra).
  assert (J : / m < 1) by nra. assert (K : 9/10 < / m) by nra.
  unfold oc_candidate in F1, F2. fold m in F1, F2.
  assert (P : forall z, 0 < z -> np_power z 1 = Fin z).
  { intros z Hz. unfold np_power. destruct (Rlt_dec 0 z); [|lra]. rewrite Rpower_1 by auto. reflexivity. }
  replace (- (-1 / 1) / m) with (/ m) in F1 by (field; lra).
  replace (- (-1 / (4 / 10)) / m) with (25/10 * / m) in F2 by (field; lra).
  rewrite P in F1 by lra. rewrite P in F2 by lra. simpl in F1, F2.
  do 4 eexists. split; [exact E1|]. split; [exact E2|]. split; [exact F1|]. split; [exact F2|].
  rewrite (clip_id (/ m)) by lra.
  replace (clip (25/10 * / m) (7/10) (13/10)) with (13/10)
    by (unfold clip; rewrite Rmax_left by lra; rewrite Rmin_right by lra; reflexivity).
  rewrite (Rmax_left (1/2 - 2/10) (1/100)) by lra. rewrite (Rmin_left (1/2 + 2/10) 1) by lra.
  rewrite !clip_id by lra. split; lra.
Qed.
