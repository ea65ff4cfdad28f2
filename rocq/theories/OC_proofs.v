From Verif Require Import Base Material_model Material_proofs OC_model OC_spec.
Open Scope R_scope.
Open Scope list_scope.

Lemma Forall2_impl' {A B} (P Q : A -> B -> Prop) l m :
  (forall a b, P a b -> Q a b) -> Forall2 P l m -> Forall2 Q l m.
Proof. intros H F; induction F; constructor; auto. Qed.
Lemma Forall2_refl' {A} (P : A -> A -> Prop) l : (forall a, P a a) -> Forall2 P l l.
Proof. intros H; induction l; constructor; auto. Qed.

(* ---- one element ---- *)
Lemma np_power_nonneg x e : 0 <= x ->
  (exists y, np_power x e = Fin y /\ 0 <= y) \/ np_power x e = PInf.
Proof.
  intros H. unfold np_power. destruct (Rlt_dec 0 x).
  - left. exists (Rpower x e). split; auto. left; apply Rpower_pos.
  - assert (x = 0) by lra. subst. destruct (Req_EM_T 0 0); [|lra].
    destruct (Rlt_dec 0 e); [left; exists 0; split; auto; lra|].
    destruct (Req_EM_T e 0); [left; exists 1; split; auto; lra|right; auto].
Qed.

Lemma ratio_nonneg dC l eps : dC <= 0 -> 0 < l + eps -> 0 <= - dC / (l + eps).
Proof. intros; apply Rmult_le_pos; [lra|left; apply Rinv_0_lt_compat; auto]. Qed.

Lemma scaling_ok dC l eps eta smin smax : dC <= 0 -> 0 < l + eps -> smin <= smax ->
  exists s, fclip (np_power (- dC / (l + eps)) eta) smin smax = Some s /\ smin <= s <= smax.
Proof.
  intros H1 H2 H3. destruct (np_power_nonneg (- dC / (l + eps)) eta (ratio_nonneg _ _ _ H1 H2))
    as [(y & E & _)|E]; rewrite E; simpl; eexists; split; eauto.
  - split; [apply clip_ge_lo; auto|apply clip_le_hi].
  - lra.
Qed.

Lemma oc_candidate_ok rho_min rho_max move eta eps smin smax l dC r :
  dC <= 0 -> 0 < l + eps -> rho_min <= r <= rho_max -> 0 <= move -> smin <= smax ->
  exists x, oc_candidate rho_min rho_max move eta eps smin smax l dC r = Some x /\
    oc_step_ok rho_min rho_max move smin smax r x.
Proof.
  intros H1 H2 H3 H4 H5. unfold oc_candidate.
  destruct (scaling_ok dC l eps eta smin smax H1 H2 H5) as (s & E & Hs). rewrite E.
  eexists; split; [reflexivity|]. unfold oc_step_ok. repeat split.
  - rminmax.
  - rminmax.
  - apply Rabs_le. rminmax.
  - assert (smin * r <= r * s) by nra. assert (smin * r <= r) by nra. rminmax.
  - assert (r * s <= smax * r) by nra. assert (r <= smax * r) by nra. rminmax.
Qed.

Lemma oc_candidate_nan rho_min rho_max move eta eps smin smax l dC r :
  0 < dC -> 0 < l + eps -> (forall z, eta <> IZR z) ->
  oc_candidate rho_min rho_max move eta eps smin smax l dC r = None.
Proof.
  intros H1 H2 H3. unfold oc_candidate, np_power.
  assert (- dC / (l + eps) < 0).
  { unfold Rdiv. pose proof (Rinv_0_lt_compat _ H2). nra. }
  destruct (Rlt_dec 0 (- dC / (l + eps))); [lra|].
  destruct (Req_EM_T (- dC / (l + eps)) 0); [lra|].
  destruct (Req_EM_T eta (IZR (Rfloor eta))); [exfalso; eapply H3; eauto|]. reflexivity.
Qed.

(* ---- all elements ---- *)
Lemma all_some_F2 (f : R -> R -> option R) (Q : R -> R -> Prop) dC rho :
  List.length dC = List.length rho ->
  Forall2 (fun d r => exists x, f d r = Some x /\ Q r x) dC rho ->
  exists l, all_some (zipwith f dC rho) = Some l /\ Forall2 Q rho l.
Proof.
  intros HL F. induction F as [|d r dC rho (x & E & Hx) F IH]; simpl.
  - exists []; split; auto.
  - destruct IH as (l & El & Fl); [simpl in HL; lia|]. rewrite E, El.
    exists (x :: l); split; auto.
Qed.

Lemma Forall_F2_and {A B} (P : A -> Prop) (Q : B -> Prop) l m :
  List.length l = List.length m -> Forall P l -> Forall Q m -> Forall2 (fun a b => P a /\ Q b) l m.
Proof.
  revert m; induction l; intros [|b m] HL Hl Hm; simpl in *; try discriminate; constructor.
  - inversion Hl; inversion Hm; auto.
  - apply IHl; try lia; [inversion Hl|inversion Hm]; auto.
Qed.

Lemma candidate_ok P l :
  List.length (oc_dC P) = List.length (oc_rho_e P) ->
  Forall (fun d => d <= 0) (oc_dC P) ->
  Forall (fun r => oc_rho_min P <= r <= oc_rho_max P) (oc_rho_e P) ->
  0 <= oc_move P -> oc_smin P <= oc_smax P -> 0 < l + oc_eps P ->
  exists c, candidate P l = Some c /\
    Forall2 (oc_step_ok (oc_rho_min P) (oc_rho_max P) (oc_move P) (oc_smin P) (oc_smax P)) (oc_rho_e P) c.
Proof.
  intros HL Hd Hr Hm Hs Hl. unfold candidate. apply all_some_F2; auto.
  eapply Forall2_impl'; [|apply (Forall_F2_and _ _ _ _ HL Hd Hr)].
  intros a b [Ha Hb]. apply oc_candidate_ok; auto.
Qed.

Lemma candidate_nan P l i d r :
  nth_error (oc_dC P) i = Some d -> nth_error (oc_rho_e P) i = Some r ->
  0 < d -> 0 < l + oc_eps P -> (forall z, oc_eta P <> IZR z) ->
  candidate P l = None.
Proof.
  intros Ed Er Hd Hl He. unfold candidate.
  revert i Ed Er. generalize (oc_rho_e P) as rho. induction (oc_dC P) as [|d0 dC IH]; intros rho i Ed Er.
  - destruct i; discriminate.
  - destruct rho as [|r0 rho]; [destruct i; discriminate|]. simpl. destruct i as [|i].
    + simpl in Ed, Er. injection Ed as ->. injection Er as ->.
      rewrite oc_candidate_nan by auto. reflexivity.
    + simpl in Ed, Er. destruct (oc_candidate _ _ _ _ _ _ _ _ d0 r0); auto.
      rewrite (IH rho i) by auto. reflexivity.
Qed.

(* ---- bisection ---- *)
Section Bis.
Variables (P : oc_problem) (max_iter : nat) (tol vol_tol : R).

Definition high (l : R) : Prop := exists v, vol_of P l = Some v /\ 0 < v /\ vol_tol <= v.
Definition not_high (l : R) : Prop :=
  match vol_of P l with Some v => v <= 0 /\ v <= - vol_tol | None => True end.

Lemma step_high l : within (vol_of P l) vol_tol = false -> positive (vol_of P l) = true -> high l.
Proof.
  unfold within, positive, high. destruct (vol_of P l) as [v|]; try discriminate.
  rewrite Rltb_true, Rltb_false. intros H1 H2. exists v; repeat split; auto.
  rewrite Rabs_right in H1; lra.
Qed.
Lemma step_low l : within (vol_of P l) vol_tol = false -> positive (vol_of P l) = false -> not_high l.
Proof.
  unfold within, positive, not_high. destruct (vol_of P l) as [v|]; auto.
  rewrite !Rltb_false. intros H1 H2. rewrite Rabs_left1 in H1 by auto. lra.
Qed.

Definition exit_state (l1 l2 : R) (n : nat) (o : bis_out) : Prop :=
  l1 <= b_lmid o <= l2 /\
  b_rho o = candidate P (b_lmid o) /\ b_vol_error o = vol_of P (b_lmid o) /\
  (n < b_evals o <= S max_iter)%nat /\
  (within (b_vol_error o) vol_tol = true \/
   exists a b, l1 <= a <= b /\ b <= l2 /\ b_lmid o = 1/2 * (a + b) /\
     (a = l1 \/ high a) /\ (b = l2 \/ not_high b) /\
     b - a = (l2 - l1) / 2 ^ (b_evals o - S n) /\
     (b - a <= tol \/ b_evals o = S max_iter)).

Lemma bisect_exit fuel : forall l1 l2 n,
  l1 <= l2 -> (n <= max_iter)%nat -> (max_iter < fuel + n)%nat ->
  exists o, bisect P max_iter tol vol_tol fuel l1 l2 (1/2 * (l1 + l2)) n = Some o /\
            exit_state l1 l2 n o.
Proof.
  induction fuel as [|fuel IH]; intros l1 l2 n Hl Hn Hf; [lia|].
  cbn [bisect]. set (mid := 1/2 * (l1 + l2)).
  assert (Hmid : l1 <= mid <= l2) by (unfold mid; lra).
  destruct (within (vol_of P mid) vol_tol) eqn:W.
  { eexists; split; [reflexivity|]. unfold exit_state; cbn. repeat split; auto; try lra; try lia.  }
  assert (Base : forall o, o = mkBis mid (vol_of P mid) (candidate P mid) (S n) ->
     (l2 - l1 <= tol \/ S n = S max_iter) -> exit_state l1 l2 n o).
  { intros o -> C. unfold exit_state; cbn [b_lmid b_rho b_vol_error b_evals].
    split; [lra|]. split; [auto|]. split; [auto|]. split; [lia|]. right. exists l1, l2.
    repeat split; auto; try lra. rewrite Nat.sub_diag; simpl; lra. }
  destruct (Nat.leb_spec max_iter n).
  { eexists; split; [reflexivity|]. apply Base; auto. right; lia. }
  destruct (Rleb (Rabs (l2 - l1)) tol) eqn:T.
  { eexists; split; [reflexivity|]. apply Base; auto. left. apply Rleb_true in T.
    rewrite Rabs_right in T; lra. }
  destruct (positive (vol_of P mid)) eqn:Q.
  - destruct (IH mid l2 (S n) ltac:(lra) ltac:(lia) ltac:(lia)) as (o & E & X).
    exists o; split; auto. destruct X as (X1 & X2 & X3 & X4 & X5).
    split; [lra|]. split; [auto|]. split; [auto|]. split; [lia|].
    destruct X5 as [X5|(a & b & A1 & A2 & A3 & A4 & A5 & A6 & A7)]; [left; auto|right].
    exists a, b. repeat split; auto; try lra.
    + right. destruct A4 as [->|A4]; auto. apply step_high; auto.
    + rewrite A6. replace (b_evals o - S n)%nat with (S (b_evals o - S (S n))) by lia.
      simpl. assert (0 < 2 ^ (b_evals o - S (S n))) by (apply pow_lt; lra).
      unfold mid. field. lra.
  - destruct (IH l1 mid (S n) ltac:(lra) ltac:(lia) ltac:(lia)) as (o & E & X).
    exists o; split; auto. destruct X as (X1 & X2 & X3 & X4 & X5).
    split; [lra|]. split; [auto|]. split; [auto|]. split; [lia|].
    destruct X5 as [X5|(a & b & A1 & A2 & A3 & A4 & A5 & A6 & A7)]; [left; auto|right].
    exists a, b. repeat split; auto; try lra.
    + right. destruct A5 as [->|A5]; auto. apply step_low; auto.
    + rewrite A6. replace (b_evals o - S n)%nat with (S (b_evals o - S (S n))) by lia.
      simpl. assert (0 < 2 ^ (b_evals o - S (S n))) by (apply pow_lt; lra).
      unfold mid. field. lra.
Qed.
End Bis.

Lemma bisection_consistent P max_iter tol vol_tol l1 l2 : l1 <= l2 ->
  exists o, bisection_with_physical_volume P max_iter tol vol_tol l1 l2 = Some o /\
    (1 <= b_evals o <= S max_iter)%nat /\ l1 <= b_lmid o <= l2 /\
    b_rho o = candidate P (b_lmid o) /\
    b_vol_error o = match b_rho o with Some rho => Some (volume_error P rho) | None => None end.
Proof.
  intros Hl. destruct (bisect_exit P max_iter tol vol_tol (S max_iter) l1 l2 0 Hl ltac:(lia) ltac:(lia))
    as (o & E & X1 & X2 & X3 & X4 & _).
  exists o; split; auto. repeat split; auto; try lia; try lra. rewrite X3, X2. reflexivity.
Qed.

Lemma bisection_exit P max_iter tol vol_tol l1 l2 o : l1 <= l2 ->
  l2 - l1 <= tol * 2 ^ max_iter ->
  bisection_with_physical_volume P max_iter tol vol_tol l1 l2 = Some o ->
  (exists v, b_vol_error o = Some v /\ Rabs v < vol_tol) \/
  (exists a b, l1 <= a <= b_lmid o /\ b_lmid o <= b <= l2 /\ b - a <= tol /\
     (a = l1 \/ exists v, vol_of P a = Some v /\ 0 < v /\ vol_tol <= v) /\
     (b = l2 \/ match vol_of P b with Some v => v <= 0 /\ v <= - vol_tol | None => True end)).
Proof.
  intros Hl Hw E.
  destruct (bisect_exit P max_iter tol vol_tol (S max_iter) l1 l2 0 Hl ltac:(lia) ltac:(lia))
    as (o' & E' & X1 & X2 & X3 & X4 & X5).
  unfold bisection_with_physical_volume in E. rewrite E in E'. injection E' as <-.
  destruct X5 as [W|(a & b & A1 & A2 & A3 & A4 & A5 & A6 & A7)].
  - left. unfold within in W. destruct (b_vol_error o) as [v|]; [|discriminate].
    exists v; split; auto. apply Rltb_true; auto.
  - right. exists a, b. repeat split; auto; try lra.
    destruct A7 as [A7|A7]; auto. rewrite A6, A7. simpl. rewrite Nat.sub_0_r.
    assert (0 < 2 ^ max_iter) by (apply pow_lt; lra).
    apply Rmult_le_reg_r with (2 ^ max_iter); auto. unfold Rdiv. rewrite Rmult_assoc, Rinv_l by lra. lra.
Qed.

(* ---- monotonicity ---- *)
Lemma np_power_mono x y e : 0 <= x <= y -> 0 <= e ->
  exists a b, np_power x e = Fin a /\ np_power y e = Fin b /\ a <= b.
Proof.
  intros [Hx Hy] He. unfold np_power.
  destruct (Rlt_dec 0 x), (Rlt_dec 0 y); try lra.
  - do 2 eexists; repeat split. apply Rpower_base_mono; lra.
  - destruct (Req_EM_T x 0); [|lra].
    destruct (Rlt_dec 0 e).
    + do 2 eexists; repeat split. left; apply Rpower_pos.
    + destruct (Req_EM_T e 0); [|lra]. subst e. do 2 eexists; repeat split.
      rewrite Rpower_O by auto. lra.
  - assert (x = 0) by lra. assert (y = 0) by lra. subst. destruct (Req_EM_T 0 0); [|lra].
    destruct (Rlt_dec 0 e); [do 2 eexists; repeat split; lra|].
    destruct (Req_EM_T e 0); [do 2 eexists; repeat split; lra|lra].
Qed.

Lemma oc_candidate_mono rho_min rho_max move eta eps smin smax l1 l2 d1 d2 r :
  d1 <= 0 -> d2 <= d1 -> 0 < l2 + eps -> l2 <= l1 -> 0 <= r -> 0 <= eta ->
  exists x1 x2,
    oc_candidate rho_min rho_max move eta eps smin smax l1 d1 r = Some x1 /\
    oc_candidate rho_min rho_max move eta eps smin smax l2 d2 r = Some x2 /\ x1 <= x2.
Proof.
  intros H1 H2 H3 H4 H5 H6.
  assert (Q : 0 <= - d1 / (l1 + eps) <= - d2 / (l2 + eps)).
  { split; [apply ratio_nonneg; lra|].
    unfold Rdiv. apply Rmult_le_compat; try lra.
    - left; apply Rinv_0_lt_compat; lra.
    - apply Rinv_le_contravar; lra. }
  destruct (np_power_mono _ _ eta Q H6) as (a & b & Ea & Eb & Hab).
  unfold oc_candidate. rewrite Ea, Eb. simpl. do 2 eexists; repeat split.
  apply clip_mono. apply Rmult_le_compat_l; auto. apply clip_mono; auto.
Qed.

Lemma candidate_mono_gen rho_min rho_max move eta eps smin smax l1 l2 dC1 dC2 rho :
  Forall2 (fun d1 d2 => d1 <= 0 /\ d2 <= d1) dC1 dC2 ->
  List.length dC1 = List.length rho ->
  0 < l2 + eps -> l2 <= l1 -> Forall (fun r => 0 <= r) rho -> 0 <= eta ->
  exists c1 c2,
    all_some (zipwith (oc_candidate rho_min rho_max move eta eps smin smax l1) dC1 rho) = Some c1 /\
    all_some (zipwith (oc_candidate rho_min rho_max move eta eps smin smax l2) dC2 rho) = Some c2 /\
    Forall2 Rle c1 c2.
Proof.
  intros F HL H1 H2 Hr He. revert rho HL Hr. induction F as [|d1 d2 dC1 dC2 [Ha Hb] F IH]; intros [|r rho] HL Hr;
    simpl in *; try discriminate.
  - exists [], []; auto.
  - inversion Hr; subst.
    destruct (oc_candidate_mono rho_min rho_max move eta eps smin smax l1 l2 d1 d2 r) as (x1 & x2 & E1 & E2 & Hx); auto.
    destruct (IH rho) as (c1 & c2 & C1 & C2 & Hc); auto.
    rewrite E1, E2, C1, C2. exists (x1 :: c1), (x2 :: c2); auto.
Qed.

Lemma upd_mono l m i a b : Forall2 Rle l m -> a <= b -> Forall2 Rle (upd l i a) (upd m i b).
Proof.
  intros F; revert i; induction F; intros [|i] H'; simpl; constructor; auto.
Qed.
Lemma scatter_mono full full' idx c1 c2 :
  Forall2 Rle full full' -> Forall2 Rle c1 c2 ->
  Forall2 Rle (scatter full idx c1) (scatter full' idx c2).
Proof.
  intros F G; revert full full' idx F; induction G; intros full full' [|i idx] F; simpl; auto.
  apply IHG. apply upd_mono; auto.
Qed.
Lemma nth_mono l m i : Forall2 Rle l m -> nth i l 0 <= nth i m 0.
Proof. intros F; revert i; induction F; intros [|i]; simpl; auto; lra. Qed.
Lemma gather_mono l m idx : Forall2 Rle l m -> Forall2 Rle (gather l idx) (gather m idx).
Proof. intros F; induction idx; simpl; constructor; auto. apply nth_mono; auto. Qed.
Lemma wsum_mono l m w : Forall2 Rle l m -> Forall (fun x => 0 <= x) w ->
  rsum (zipwith Rmult l w) <= rsum (zipwith Rmult m w).
Proof.
  intros F; revert w; induction F; intros [|a w] Hw; simpl; try lra.
  inversion Hw; subst. specialize (IHF w H3). nra.
Qed.
Lemma map_mono (f : R -> R) l m : (forall x y, x <= y -> f x <= f y) -> Forall2 Rle l m ->
  Forall2 Rle (map f l) (map f m).
Proof. intros Hf F; induction F; simpl; constructor; auto. Qed.

Lemma projection_mono beta eta x y : 0 < beta -> 0 <= eta <= 1 -> x <= y ->
  heaviside_projection x beta eta <= heaviside_projection y beta eta.
Proof. intros Hb He [H| ->]; [left; apply H_increasing; auto|lra]. Qed.

Lemma volume_error_mono P c1 c2 :
  monotone_filter (oc_filter P) -> 0 < oc_beta P -> 0 <= oc_beta_eta P <= 1 ->
  Forall (fun v => 0 <= v) (oc_volumes P) -> 0 < oc_vol_sum P ->
  Forall2 Rle c1 c2 -> volume_error P c1 <= volume_error P c2.
Proof.
  intros Hf Hb He Hv Hs F. unfold volume_error.
  apply Rplus_le_compat_r. unfold Rdiv. apply Rmult_le_compat_r.
  { left; apply Rinv_0_lt_compat; auto. }
  apply wsum_mono; auto. apply gather_mono, map_mono.
  { intros; apply projection_mono; auto. }
  apply Hf, scatter_mono; auto. apply Forall2_refl'; intros; lra.
Qed.

Lemma vol_of_mono P l1 l2 :
  List.length (oc_dC P) = List.length (oc_rho_e P) ->
  Forall (fun d => d <= 0) (oc_dC P) -> Forall (fun r => 0 <= r) (oc_rho_e P) ->
  0 <= oc_eta P -> 0 < l1 + oc_eps P -> l1 <= l2 ->
  monotone_filter (oc_filter P) -> 0 < oc_beta P -> 0 <= oc_beta_eta P <= 1 ->
  Forall (fun v => 0 <= v) (oc_volumes P) -> 0 < oc_vol_sum P ->
  exists v1 v2, vol_of P l1 = Some v1 /\ vol_of P l2 = Some v2 /\ v2 <= v1.
Proof.
  intros HL Hd Hr He Hp Hl Hf Hb Hbe Hv Hs.
  destruct (candidate_mono_gen (oc_rho_min P) (oc_rho_max P) (oc_move P) (oc_eta P) (oc_eps P)
             (oc_smin P) (oc_smax P) l2 l1 (oc_dC P) (oc_dC P) (oc_rho_e P)) as (c1 & c2 & E1 & E2 & F); auto.
  { clear - Hd. induction Hd; constructor; auto. split; auto; lra. }
  unfold vol_of, candidate. rewrite E1, E2. do 2 eexists; repeat split.
  apply volume_error_mono; auto.
Qed.

(* if the volume is met exactly by some multiplier of the bracket, the returned
   multiplier meets the volume tolerance or is within [tol] of it *)
Lemma bisection_finds P max_iter tol vol_tol l1 l2 lstar o :
  List.length (oc_dC P) = List.length (oc_rho_e P) ->
  Forall (fun d => d <= 0) (oc_dC P) -> Forall (fun r => 0 <= r) (oc_rho_e P) ->
  0 <= oc_eta P -> 0 < l1 + oc_eps P ->
  monotone_filter (oc_filter P) -> 0 < oc_beta P -> 0 <= oc_beta_eta P <= 1 ->
  Forall (fun v => 0 <= v) (oc_volumes P) -> 0 < oc_vol_sum P -> 0 < vol_tol ->
  l1 <= lstar <= l2 -> vol_of P lstar = Some 0 ->
  l2 - l1 <= tol * 2 ^ max_iter ->
  bisection_with_physical_volume P max_iter tol vol_tol l1 l2 = Some o ->
  (exists v, b_vol_error o = Some v /\ Rabs v < vol_tol) \/ Rabs (b_lmid o - lstar) <= tol.
Proof.
  intros HL Hd Hr He Hp Hf Hb Hbe Hv Hs Ht Hls Hz Hw E.
  destruct (bisection_exit P max_iter tol vol_tol l1 l2 o ltac:(lra) Hw E) as [X|X]; auto.
  right. destruct X as (a & b & A1 & A2 & A3 & A4 & A5).
  assert (a <= lstar).
  { destruct A4 as [->|(v & Ev & V1 & V2)]; [lra|].
    apply Rnot_lt_le; intros C.
    destruct (vol_of_mono P lstar a HL Hd Hr He ltac:(lra) ltac:(lra) Hf Hb Hbe Hv Hs)
      as (v1 & v2 & E1 & E2 & F). rewrite Hz in E1; rewrite Ev in E2.
    injection E1 as <-; injection E2 as <-. lra. }
  assert (lstar <= b).
  { destruct A5 as [->|A5]; [lra|].
    apply Rnot_lt_le; intros C.
    destruct (vol_of_mono P b lstar HL Hd Hr He ltac:(lra) ltac:(lra) Hf Hb Hbe Hv Hs)
      as (v1 & v2 & E1 & E2 & F). rewrite E1 in A5. rewrite Hz in E2. injection E2 as <-. lra. }
  apply Rabs_le. lra.
Qed.

(* ---- homogeneity ---- *)
Lemma insert_scale c x l : 0 < c -> insert_r (c * x) (map (Rmult c) l) = map (Rmult c) (insert_r x l).
Proof.
  intros Hc; induction l as [|y l IH]; simpl; auto.
  destruct (Rle_dec (c * x) (c * y)), (Rle_dec x y); simpl; auto.
  - exfalso; apply n. apply Rmult_le_reg_l with c; auto.
  - exfalso; apply n. apply Rmult_le_compat_l; lra.
  - rewrite IH; auto.
Qed.
Lemma sort_scale c l : 0 < c -> sort_r (map (Rmult c) l) = map (Rmult c) (sort_r l).
Proof. intros Hc; induction l; simpl; auto. rewrite IHl, insert_scale; auto. Qed.
Lemma nth_scale c l i : nth i (map (Rmult c) l) 0 = c * nth i l 0.
Proof. rewrite <- (Rmult_0_r c) at 1. apply map_nth. Qed.
Lemma percentile_scale c a q : 0 < c -> np_percentile (map (Rmult c) a) q = c * np_percentile a q.
Proof. intros Hc. unfold np_percentile. rewrite map_length, sort_scale, !nth_scale by auto. ring. Qed.
Lemma fold_max_scale c l x : 0 <= c -> fold_left Rmax (map (Rmult c) l) (c * x) = c * fold_left Rmax l x.
Proof.
  intros Hc; revert x; induction l; intros; simpl; auto.
  rewrite RmaxRmult by auto. apply IHl.
Qed.
Lemma max_scale c a : 0 <= c -> np_max (map (Rmult c) a) = c * np_max a.
Proof. intros Hc; destruct a; simpl; [lra|]. apply fold_max_scale; auto. Qed.
Lemma abs_scale c a : 0 <= c -> map Rabs (map (Rmult c) a) = map (Rmult c) (map Rabs a).
Proof.
  intros Hc. rewrite !map_map. apply map_ext; intros. rewrite Rabs_mult, (Rabs_right c); lra.
Qed.

Lemma raw_scale_hom q dC c : 0 < c -> raw_scale q (map (Rmult c) dC) = c * raw_scale q dC.
Proof.
  intros Hc; unfold raw_scale; destruct q; rewrite abs_scale by lra;
    [apply percentile_scale|apply max_scale]; lra.
Qed.

Lemma kkt_scale rho_min rho_max s c rho dC dV : 0 < c ->
  kkt_residual rho_min rho_max (s * c) rho (map (Rmult c) dC) dV =
  c * kkt_residual rho_min rho_max s rho dC dV.
Proof.
  intros Hc. unfold kkt_residual.
  set (f := fun r : R * (R * R) => interior rho_min rho_max (fst r)).
  assert (E : filter f (combine rho (combine (map (Rmult c) dC) dV)) =
              map (fun r => (fst r, (c * fst (snd r), snd (snd r)))) (filter f (combine rho (combine dC dV)))).
  { revert dC dV; induction rho as [|r rho IH]; intros [|d dC] [|v dV]; simpl; auto.
    rewrite IH. change (f (r, (c * d, v))) with (f (r, (d, v))). destruct (f (r, (d, v))); reflexivity. }
  rewrite E.
  assert (G : forall L : list (R * (R * R)),
    norm_inf (map (fun r => fst (snd r) + s * c * snd (snd r))
                  (map (fun r => (fst r, (c * fst (snd r), snd (snd r)))) L)) =
    c * norm_inf (map (fun r => fst (snd r) + s * snd (snd r)) L)).
  { intros L. unfold norm_inf. rewrite <- max_scale by lra. f_equal. rewrite !map_map.
    apply map_ext; intros [r [d v]]; cbn [fst snd].
    replace (c * d + s * c * v) with (c * (d + s * v)) by ring.
    rewrite Rabs_mult, (Rabs_right c) by lra. reflexivity. }
  destruct (filter f (combine rho (combine dC dV))) as [|r0 l]; [simpl; lra|].
  exact (G (r0 :: l)).
Qed.

Lemma rho_update_hom cfg running a c : 0 < c ->
  c_floor cfg <= raw_scale (a_percentile a) (a_dC a) ->
  c_floor cfg <= c * raw_scale (a_percentile a) (a_dC a) ->
  0 < c_floor cfg -> 0 <= running ->
  match rho_update cfg running a, rho_update cfg (c * running) (scaled_args c a) with
  | Some r, Some r' => r_rho r' = r_rho r /\ r_lmid r' = r_lmid r /\ r_vol_error r' = r_vol_error r /\
                       r_dC_scaled r' = r_dC_scaled r /\ r_running r' = c * r_running r /\
                       r_kkt r' = match r_kkt r with Some k => Some (c * k) | None => None end /\ 0 < r_running r
  | None, None => True
  | _, _ => False
  end.
Proof.
  intros Hc F1 F2 Hf Hrun.
  unfold rho_update, sens_scale. cbn [a_percentile a_dC a_iter scaled_args].
  rewrite raw_scale_hom by auto. rewrite !Rmax_left by auto.
  set (s := raw_scale (a_percentile a) (a_dC a)) in *.
  set (rs := next_running_scale (a_iter a) running s).
  assert (ER : next_running_scale (a_iter a) (c * running) (c * s) = c * rs).
  { unfold rs, next_running_scale. destruct (1 <? a_iter a)%Z; ring. }
  rewrite ER.
  assert (Hrs : 0 < rs). { unfold rs, next_running_scale. destruct (1 <? a_iter a)%Z; lra. }
  assert (ED : map (fun x => x / (c * rs)) (map (Rmult c) (a_dC a)) = map (fun x => x / rs) (a_dC a)).
  { rewrite map_map. apply map_ext; intros. field. lra. }
  rewrite ED.
  change (oc_problem_of cfg (scaled_args c a) (map (fun x => x / rs) (a_dC a)))
    with (oc_problem_of cfg a (map (fun x => x / rs) (a_dC a))).
  destruct (bisection_with_physical_volume _ _ _ _ _ _) as [b|]; [|exact I].
  cbn [r_rho r_lmid r_vol_error r_dC_scaled r_running r_kkt a_volumes a_vol_sum scaled_args].
  repeat split; auto. destruct (b_rho b); auto.
  f_equal. replace (b_lmid b * (c * rs)) with ((b_lmid b * rs) * c) by ring. apply kkt_scale; auto.
Qed.

Lemma oc_run_hom cfg sens rest c n rho : 0 < c -> 0 < c_floor cfg ->
  (forall i r dC, a_dC (rest i r dC) = dC) ->
  (forall i r dC, rest i r (map (Rmult c) dC) = scaled_args c (rest i r dC)) ->
  (forall i r s, (i < n)%nat -> oc_run cfg sens rest i rho 0 = Some (r, s) ->
     c_floor cfg <= raw_scale (a_percentile (rest i r (sens i r))) (sens i r) /\
     c_floor cfg <= c * raw_scale (a_percentile (rest i r (sens i r))) (sens i r)) ->
  match oc_run cfg sens rest n rho 0, oc_run cfg (fun i r => map (Rmult c) (sens i r)) rest n rho 0 with
  | Some (r, s), Some (r', s') => r' = r /\ s' = c * s /\ 0 <= s
  | None, None => True
  | _, _ => False
  end.
Proof.
  intros Hc Hf R1 R2 F. induction n as [|n IH]; cbn [oc_run].
  - repeat split; lra.
  - specialize (IH (fun i r s Hi => F i r s (Nat.lt_lt_succ_r _ _ Hi))).
    specialize (fun r s => F n r s (Nat.lt_succ_diag_r n)).
    destruct (oc_run cfg sens rest n rho 0) as [[r s]|],
      (oc_run cfg (fun i r0 => map (Rmult c) (sens i r0)) rest n rho 0) as [[r' s']|]; try contradiction; auto.
    destruct IH as (-> & -> & Hs). rewrite R2.
    pose proof (rho_update_hom cfg s (rest n r (sens n r)) c Hc) as U.
    rewrite R1 in U. destruct (F r s eq_refl) as [F1 F2]. specialize (U F1 F2 Hf Hs).
    destruct (rho_update cfg s (rest n r (sens n r))) as [o|],
      (rho_update cfg (c * s) (scaled_args c (rest n r (sens n r)))) as [o'|]; try contradiction; auto.
    destruct U as (U1 & _ & _ & _ & U5 & _ & U7). rewrite U1.
    destruct (r_rho o); auto. repeat split; auto. lra.
Qed.

(* ---- KKT ---- *)
Lemma fold_max_init l x : x <= fold_left Rmax l x.
Proof.
  revert x; induction l as [|a l IH]; intros x; simpl; [lra|].
  eapply Rle_trans; [apply (Rmax_l x a)|apply IH].
Qed.
Lemma fold_max_ge l x y : In y (x :: l) -> y <= fold_left Rmax l x.
Proof.
  intros [->|H]; [apply fold_max_init|].
  revert x H; induction l as [|a l IH]; intros x H; simpl in *; [contradiction|].
  destruct H as [->|H]; [|auto]. eapply Rle_trans; [apply (Rmax_r x y)|apply fold_max_init].
Qed.
Lemma fold_max_in l x : In (fold_left Rmax l x) (x :: l).
Proof.
  revert x; induction l as [|a l IH]; intros x; simpl; auto.
  destruct (IH (Rmax x a)) as [E|H]; [|right; right; auto].
  rewrite <- E. unfold Rmax; destruct (Rle_dec x a); auto.
Qed.
Lemma np_max_spec a : a <> [] -> In (np_max a) a /\ forall y, In y a -> y <= np_max a.
Proof.
  destruct a as [|x l]; [congruence|]. intros _. split; [apply fold_max_in|].
  intros; apply fold_max_ge; auto.
Qed.

Lemma combine_in_row rho dC dV r d v :
  In (r, (d, v)) (combine rho (combine dC dV)) <-> exists i, kkt_row rho dC dV i r d v.
Proof.
  unfold kkt_row. split.
  - revert dC dV; induction rho as [|r0 rho IH]; intros [|d0 dC] [|v0 dV]; simpl; try tauto.
    intros [E|H]; [injection E as -> -> ->; exists 0%nat; auto|].
    destruct (IH _ _ H) as (i & Hi). exists (S i); auto.
  - intros (i & H1 & H2 & H3). revert rho dC dV H1 H2 H3.
    induction i; intros [|r0 rho] [|d0 dC] [|v0 dV]; simpl; intros; try discriminate.
    + left; congruence.
    + right; eauto.
Qed.

Lemma interior_true rho_min rho_max r :
  interior rho_min rho_max r = true <-> rho_min + 1/1000000 < r < rho_max - 1/1000000.
Proof. unfold interior. rewrite andb_true_iff, !Rltb_true. unfold floor6; tauto. Qed.

Lemma kkt_upper rho_min rho_max s rho dC dV i r d v :
  kkt_row rho dC dV i r d v -> rho_min + 1/1000000 < r < rho_max - 1/1000000 ->
  Rabs (d + s * v) <= kkt_residual rho_min rho_max s rho dC dV.
Proof.
  intros K I. unfold kkt_residual.
  assert (H : In (r, (d, v)) (filter (fun q => interior rho_min rho_max (fst q)) (combine rho (combine dC dV)))).
  { apply filter_In; split; [apply combine_in_row; eauto|apply interior_true; auto]. }
  destruct (filter _ _) as [|q l] eqn:E; [destruct H|]. rewrite <- E in *. clear E.
  unfold norm_inf. apply (np_max_spec (map Rabs (map _ _))).
  { intros C. apply map_eq_nil, map_eq_nil in C. rewrite C in H; destruct H. }
  apply in_map_iff. exists (d + s * v). split; auto.
  apply in_map_iff. exists (r, (d, v)); auto.
Qed.

Lemma kkt_attained rho_min rho_max s rho dC dV :
  (exists i r d v, kkt_row rho dC dV i r d v /\ rho_min + 1/1000000 < r < rho_max - 1/1000000 /\
     kkt_residual rho_min rho_max s rho dC dV = Rabs (d + s * v)) \/
  ((forall i r d v, kkt_row rho dC dV i r d v -> ~ rho_min + 1/1000000 < r < rho_max - 1/1000000) /\
   kkt_residual rho_min rho_max s rho dC dV = 0).
Proof.
  unfold kkt_residual.
  destruct (filter (fun q => interior rho_min rho_max (fst q)) (combine rho (combine dC dV))) as [|q l] eqn:E.
  - right; split; auto. intros i r d v K I.
    assert (H : In (r, (d, v)) (filter (fun q => interior rho_min rho_max (fst q)) (combine rho (combine dC dV)))).
    { apply filter_In; split; [apply combine_in_row; eauto|apply interior_true; auto]. }
    rewrite E in H; destruct H.
  - left. rewrite <- E. unfold norm_inf.
    destruct (np_max_spec (map Rabs (map (fun r : R * (R * R) => fst (snd r) + s * snd (snd r))
       (filter (fun q => interior rho_min rho_max (fst q)) (combine rho (combine dC dV)))))) as [H _].
    { rewrite E; discriminate. }
    apply in_map_iff in H. destruct H as (x & Ex & H). apply in_map_iff in H.
    destruct H as ([r [d v]] & <- & H). apply filter_In in H. destruct H as [H1 H2].
    apply combine_in_row in H1. destruct H1 as (i & K). exists i, r, d, v.
    split; auto. split; [apply interior_true; auto|]. symmetry; exact Ex.
Qed.

Lemma kkt_below rho_min rho_max s rho dC dV tol : 0 < tol ->
  (kkt_residual rho_min rho_max s rho dC dV < tol <->
   forall i r d v, kkt_row rho dC dV i r d v -> rho_min + 1/1000000 < r < rho_max - 1/1000000 ->
                   Rabs (d + s * v) < tol).
Proof.
  intros Ht; split.
  - intros H i r d v K I. eapply Rle_lt_trans; [eapply kkt_upper; eauto|auto].
  - intros H. destruct (kkt_attained rho_min rho_max s rho dC dV) as [(i & r & d & v & K & I & E)|[_ E]];
      rewrite E; eauto.
Qed.

(* An interior element at rest under the OC update (scaling factor exactly 1)
   does not have a vanishing residual contribution. *)
Lemma oc_rest_residual running lmid dC v V :
  0 < running -> 0 < lmid -> - (dC / running) / (lmid + tiny) = 1 ->
  Rabs (dC + lmid * running * (v / V)) =
  running * Rabs (lmid * (1 - v / V) + tiny).
Proof.
  intros Hr Hl E.
  assert (F : dC = - (lmid + tiny) * running).
  { assert (0 < lmid + tiny) by (unfold tiny; lra).
    apply Rmult_eq_reg_r with (/ running * / (lmid + tiny)).
    2:{ apply Rmult_integral_contrapositive_currified; apply Rinv_neq_0_compat; lra. }
    transitivity (-1). { unfold Rdiv in E. lra. } field. split; lra. }
  rewrite F. rewrite <- (Rabs_right running) at 3 by lra. rewrite <- Rabs_mult, <- Rabs_Ropp. f_equal. ring.
Qed.

(* ---- the whole update ---- *)
Lemma running_pos cfg running a : 0 < c_floor cfg -> 0 <= running ->
  0 < next_running_scale (a_iter a) running (sens_scale (a_percentile a) (c_floor cfg) (a_dC a)).
Proof.
  intros Hf Hr. unfold next_running_scale, sens_scale.
  pose proof (Rmax_r (raw_scale (a_percentile a) (a_dC a)) (c_floor cfg)).
  destruct (1 <? a_iter a)%Z; lra.
Qed.

Lemma gather_length l idx : List.length (gather l idx) = List.length idx.
Proof. apply map_length. Qed.

Lemma rho_update_ok cfg running a :
  0 < c_floor cfg -> 0 <= running -> 0 < c_lambda_lower cfg <= c_lambda_upper cfg ->
  c_smin cfg <= c_smax cfg -> 0 <= a_move a ->
  List.length (a_dC a) = List.length (a_design a) ->
  Forall (fun d => d <= 0) (a_dC a) ->
  Forall (fun r => c_rho_min cfg <= r <= c_rho_max cfg) (gather (a_rho_full a) (a_design a)) ->
  exists r new, rho_update cfg running a = Some r /\ r_rho r = Some new /\
    Forall2 (oc_step_ok (c_rho_min cfg) (c_rho_max cfg) (a_move a) (c_smin cfg) (c_smax cfg))
            (gather (a_rho_full a) (a_design a)) new /\
    c_lambda_lower cfg <= r_lmid r <= c_lambda_upper cfg /\
    0 < r_running r /\ (exists v, r_vol_error r = Some v) /\ (exists k, r_kkt r = Some k).
Proof.
  intros Hf Hr Hl Hs Hm HL Hd Hb.
  pose proof (running_pos cfg running a Hf Hr) as Hrun.
  unfold rho_update.
  set (rs := next_running_scale (a_iter a) running _) in *.
  set (dC := map (fun x => x / rs) (a_dC a)).
  destruct (bisection_consistent (oc_problem_of cfg a dC) 1000 (1/100000) (1/10000)
              (c_lambda_lower cfg) (c_lambda_upper cfg) ltac:(lra)) as (o & E & B1 & B2 & B3 & B4).
  rewrite E.
  destruct (candidate_ok (oc_problem_of cfg a dC) (b_lmid o)) as (c & Ec & Fc); cbn; auto.
  - unfold dC. rewrite map_length, gather_length. auto.
  - unfold dC. apply Forall_map. eapply Forall_impl; [|exact Hd]. intros x Hx. unfold Rdiv.
    pose proof (Rinv_0_lt_compat _ Hrun). nra.
  - unfold tiny; lra.
  - rewrite Ec in B3. exists (mkRes (b_rho o) rs (b_lmid o) (b_vol_error o)
      (Some (kkt_residual (c_rho_min cfg) (c_rho_max cfg) (b_lmid o * rs) c (a_dC a)
               (dV_design (a_volumes a) (a_vol_sum a)))) dC), c.
    rewrite B3 in *. repeat split; auto; cbn; try lra; eauto.
Qed.
