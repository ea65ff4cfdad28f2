From Verif Require Import Base Material_model.
Open Scope R_scope.

(* ---- tanh ---- *)
Lemma cosh_pos x : 0 < cosh x.
Proof. unfold cosh. pose proof (exp_pos x); pose proof (exp_pos (-x)); lra. Qed.
Lemma cosh2_sinh2 x : cosh x * cosh x - sinh x * sinh x = 1.
Proof.
  unfold cosh, sinh. assert (E : exp x * exp (-x) = 1).
  { rewrite <- exp_plus. replace (x + - x) with 0 by lra. apply exp_0. }
  nra.
Qed.
Lemma tanh_0' : tanh 0 = 0.
Proof. unfold tanh, sinh. rewrite Ropp_0. unfold Rdiv; lra. Qed.
Lemma tanh_opp x : tanh (- x) = - tanh x.
Proof.
  unfold tanh, sinh, cosh. rewrite Ropp_involutive.
  pose proof (exp_pos x); pose proof (exp_pos (-x)). field. lra.
Qed.
Lemma tanh_lt_1 x : -1 < tanh x < 1.
Proof.
  unfold tanh. pose proof (cosh_pos x). pose proof (exp_pos x); pose proof (exp_pos (-x)).
  split.
  - apply Rmult_lt_reg_r with (cosh x); auto. unfold Rdiv; rewrite Rmult_assoc, Rinv_l by lra.
    unfold sinh, cosh in *; lra.
  - apply Rmult_lt_reg_r with (cosh x); auto. unfold Rdiv; rewrite Rmult_assoc, Rinv_l by lra.
    unfold sinh, cosh in *; lra.
Qed.
Lemma tanh_diff x y :
  tanh y - tanh x = sinh (y - x) / (cosh x * cosh y).
Proof.
  pose proof (cosh_pos x); pose proof (cosh_pos y).
  unfold tanh. field_simplify_eq; [|lra].
  assert (E : sinh (y - x) = sinh y * cosh x - sinh x * cosh y).
  { unfold sinh, cosh. replace (-(y-x)) with (-y + x) by lra. unfold Rminus. rewrite !exp_plus.
    field. }
  rewrite E; ring.
Qed.
Lemma sinh_pos x : 0 < x -> 0 < sinh x.
Proof. intros; unfold sinh. pose proof (exp_increasing (-x) x ltac:(lra)). lra. Qed.
Lemma tanh_increasing' x y : x < y -> tanh x < tanh y.
Proof.
  intros H. pose proof (tanh_diff x y) as E. pose proof (sinh_pos (y-x) ltac:(lra)).
  pose proof (Rmult_lt_0_compat _ _ (cosh_pos x) (cosh_pos y)).
  assert (0 < sinh (y - x) / (cosh x * cosh y)) by (apply Rdiv_lt_0_compat; auto). lra.
Qed.
Lemma tanh_mono x y : x <= y -> tanh x <= tanh y.
Proof. intros [H| ->]; [left; apply tanh_increasing'; auto|lra]. Qed.
Lemma tanh_nonneg x : 0 <= x -> 0 <= tanh x.
Proof. intros H; apply tanh_mono in H. rewrite tanh_0' in H; auto. Qed.
Lemma tanh_pos x : 0 < x -> 0 < tanh x.
Proof. intros H; apply tanh_increasing' in H. rewrite tanh_0' in H; auto. Qed.

(* tanh is subadditive on non-negative arguments *)
Lemma tanh_subadd x y : 0 <= x -> 0 <= y -> tanh (x + y) <= tanh x + tanh y.
Proof.
  intros Hx Hy. pose proof (cosh_pos x); pose proof (cosh_pos y); pose proof (cosh_pos (x+y)).
  assert (E : tanh x + tanh y = sinh (x + y) / (cosh x * cosh y)).
  { replace (tanh x) with (- tanh (- x)) by (rewrite tanh_opp; lra).
    replace (- tanh (-x) + tanh y) with (tanh y - tanh (-x)) by lra.
    rewrite tanh_diff. replace (y - - x) with (x + y) by lra. f_equal.
    unfold cosh. rewrite Ropp_involutive. lra. }
  rewrite E. unfold tanh at 1.
  assert (C : cosh x * cosh y <= cosh (x + y)).
  { assert (F : cosh (x + y) = cosh x * cosh y + sinh x * sinh y).
    { unfold cosh, sinh. rewrite Ropp_plus_distr, !exp_plus. field. }
    assert (0 <= sinh x). { destruct Hx as [Hx| <-]; [left; apply sinh_pos; auto|unfold sinh; rewrite Ropp_0; lra]. }
    assert (0 <= sinh y). { destruct Hy as [Hy| <-]; [left; apply sinh_pos; auto|unfold sinh; rewrite Ropp_0; lra]. }
    nra. }
  assert (0 <= sinh (x + y)).
  { destruct (Req_dec (x+y) 0) as [->|]; [unfold sinh; rewrite Ropp_0; lra|left; apply sinh_pos; lra]. }
  unfold Rdiv. apply Rmult_le_compat_l; auto.
  apply Rinv_le_contravar; auto. apply Rmult_lt_0_compat; auto.
Qed.

Lemma tanh_derive x : derivable_pt_lim tanh x (1 - tanh x ^ 2).
Proof.
  pose proof (cosh_pos x).
  replace (1 - tanh x ^ 2) with ((cosh x * cosh x - sinh x * sinh x) / (cosh x)²).
  2:{ unfold tanh, Rsqr. field. lra. }
  apply (derivable_pt_lim_div sinh cosh x (cosh x) (sinh x)).
  - apply derivable_pt_lim_sinh.
  - apply derivable_pt_lim_cosh.
  - lra.
Qed.

(* ---- projection ---- *)
Definition normaliser (beta eta : R) := tanh (beta * eta) + tanh (beta * (1 - eta)).

Lemma normaliser_pos beta eta : 0 < beta -> 0 <= eta <= 1 -> tanh beta <= normaliser beta eta.
Proof.
  intros Hb He. unfold normaliser.
  replace beta with (beta * eta + beta * (1 - eta)) at 1 by ring.
  apply tanh_subadd; apply Rmult_le_pos; lra.
Qed.

Lemma den_pos beta eta : 0 <= beta -> 0 <= eta <= 1 ->
  0 < tanh (beta * eta) + tanh (beta * (1 - eta)) + tiny.
Proof.
  intros. pose proof (tanh_nonneg (beta * eta) ltac:(apply Rmult_le_pos; lra)).
  pose proof (tanh_nonneg (beta * (1-eta)) ltac:(apply Rmult_le_pos; lra)). unfold tiny; lra.
Qed.

Lemma H_at_0 beta eta : heaviside_projection 0 beta eta = 0.
Proof.
  unfold heaviside_projection. replace (beta * (0 - eta)) with (- (beta * eta)) by ring.
  rewrite tanh_opp. unfold Rdiv; ring.
Qed.

Lemma H_increasing beta eta x y : 0 < beta -> 0 <= eta <= 1 -> x < y ->
  heaviside_projection x beta eta < heaviside_projection y beta eta.
Proof.
  intros Hb He Hxy. unfold heaviside_projection, Rdiv.
  apply Rmult_lt_compat_r. { apply Rinv_0_lt_compat, den_pos; lra. }
  apply Rplus_lt_compat_l, tanh_increasing', Rmult_lt_compat_l; lra.
Qed.

Lemma H_at_1 beta eta : 0 < beta -> 0 <= eta <= 1 ->
  1 - heaviside_projection 1 beta eta =
  tiny / (tanh (beta * eta) + tanh (beta * (1 - eta)) + tiny).
Proof.
  intros Hb He. pose proof (den_pos beta eta ltac:(lra) He). unfold heaviside_projection.
  field. lra.
Qed.

Lemma H1_close beta eta : 0 < beta -> 0 <= eta <= 1 ->
  0 < 1 - heaviside_projection 1 beta eta < 1 / 1000000000000 / tanh beta.
Proof.
  intros Hb He. rewrite H_at_1 by auto. pose proof (den_pos beta eta ltac:(lra) He).
  pose proof (normaliser_pos beta eta Hb He). unfold normaliser in *.
  pose proof (tanh_pos beta Hb).
  assert (0 < tiny) by (unfold tiny; lra). fold tiny. split.
  - apply Rdiv_lt_0_compat; auto.
  - unfold Rdiv. apply Rmult_lt_compat_l; auto. apply Rinv_lt_contravar; [|lra].
    apply Rmult_lt_0_compat; lra.
Qed.

Lemma H_range beta eta x : 0 < beta -> 0 <= eta <= 1 -> 0 <= x <= 1 ->
  0 <= heaviside_projection x beta eta < 1.
Proof.
  intros Hb He [Hx1 Hx2]. split.
  - rewrite <- (H_at_0 beta eta). destruct Hx1 as [Hx1| <-]; [|lra].
    left; apply H_increasing; auto.
  - pose proof (H1_close beta eta Hb He).
    destruct Hx2 as [Hx2| ->]; [|lra].
    pose proof (H_increasing beta eta x 1 Hb He Hx2). lra.
Qed.

Lemma H_symmetric beta x : 0 < beta ->
  heaviside_projection (1/2 + x) beta (1/2) + heaviside_projection (1/2 - x) beta (1/2) =
  heaviside_projection 1 beta (1/2).
Proof.
  intros Hb. pose proof (den_pos beta (1/2) ltac:(lra) ltac:(lra)). unfold heaviside_projection.
  replace (1/2 + x - 1/2) with x by lra. replace (1/2 - x - 1/2) with (- x) by lra.
  replace (beta * - x) with (- (beta * x)) by ring. rewrite tanh_opp.
  replace (1 - 1/2) with (1/2) in * by lra. field. lra.
Qed.

Lemma H_beta_zero x eta : heaviside_projection x 0 eta = 0.
Proof. unfold heaviside_projection. rewrite !Rmult_0_l, tanh_0'. unfold Rdiv; ring. Qed.

Lemma H_derive beta eta x : derivable_pt_lim (fun r => heaviside_projection r beta eta) x
     (heaviside_projection_derivative x beta eta).
Proof.
  unfold heaviside_projection, heaviside_projection_derivative.
  set (D := tanh (beta * eta) + tanh (beta * (1 - eta)) + tiny).
  set (g := fun r : R => beta * (r - eta)).
  assert (Hg : derivable_pt_lim g x beta).
  { replace (derivable_pt_lim g x beta) with (derivable_pt_lim g x (beta * (1 - 0))) by (f_equal; ring).
    apply (derivable_pt_lim_scal (fun r => r - eta) beta x (1 - 0)).
    apply (derivable_pt_lim_minus id (fct_cte eta) x 1 0).
    - apply derivable_pt_lim_id. - apply derivable_pt_lim_const. }
  assert (Ht : derivable_pt_lim (comp tanh g) x ((1 - tanh (g x) ^ 2) * beta)).
  { apply derivable_pt_lim_comp; auto. apply tanh_derive. }
  assert (Hs : derivable_pt_lim (plus_fct (fct_cte (tanh (beta * eta))) (comp tanh g)) x
                 (0 + (1 - tanh (g x) ^ 2) * beta)).
  { apply derivable_pt_lim_plus; auto. apply derivable_pt_lim_const. }
  apply (derivable_pt_lim_scal _ (/ D)) in Hs.
  replace (beta * (1 - tanh (beta * (x - eta)) ^ 2) / D)
    with (/ D * (0 + (1 - tanh (g x) ^ 2) * beta)) by (unfold g, Rdiv; ring).
  eapply derivable_pt_lim_ext; [|exact Hs].
  intros z. unfold mult_real_fct, plus_fct, fct_cte, comp, g, Rdiv. ring.
Qed.

Lemma dH_pos beta eta x : 0 < beta -> 0 <= eta <= 1 ->
  0 < heaviside_projection_derivative x beta eta.
Proof.
  intros Hb He. unfold heaviside_projection_derivative. apply Rdiv_lt_0_compat.
  2: apply den_pos; lra.
  apply Rmult_lt_0_compat; auto. pose proof (tanh_lt_1 (beta * (x - eta))). nra.
Qed.

(* ---- in-place variants ---- *)
Lemma get_write_same h l v : h_get (write h l v) l = v.
Proof. simpl. rewrite Nat.eqb_refl. reflexivity. Qed.
Lemma get_write_other h l k v : k <> l -> h_get (write h l v) k = h_get h k.
Proof. intros H; simpl. apply Nat.eqb_neq in H. rewrite H. reflexivity. Qed.

Definition valid (h : heap) (l : nat) := (l < h_next h)%nat.

Ltac eqbs := repeat (cbn [h_get h_next write alloc out_buffer fst snd];
  match goal with |- context [Nat.eqb ?a ?b] =>
    let H := fresh in destruct (Nat.eqb_spec a b) as [H|H]; try (exfalso; lia) end).

Lemma inplace_projection h rho beta eta out :
  valid h rho -> (forall o, out = Some o -> valid h o) ->
  exists o h', heaviside_projection_inplace h rho beta eta out = (o, h') /\
    h_get h' o = map (fun x => heaviside_projection x beta eta) (h_get h rho) /\
    (forall k, valid h k -> Some k <> out -> h_get h' k = h_get h k) /\
    (match out with Some o' => o = o' | None => ~ valid h o end).
Proof.
  intros Hr Ho. unfold valid in *.
  assert (P : forall x, (tanh (beta * eta) + tanh ((x - eta) * beta)) /
                (tanh (beta * eta) + tanh (beta * (1 - eta)) + tiny) =
                heaviside_projection x beta eta).
  { intros. unfold heaviside_projection.
    replace ((x - eta) * beta) with (beta * (x - eta)) by ring. reflexivity. }
  destruct out as [o|].
  - specialize (Ho o eq_refl). do 2 eexists; split; [reflexivity|].
    split; [|split; [|reflexivity]].
    + eqbs; rewrite !map_map; apply map_ext; intros; apply P.
    + intros k Hk Hne. assert (k <> o) by congruence. eqbs; reflexivity.
  - do 2 eexists; split; [reflexivity|]. split; [|split; [|cbn; lia]].
    + eqbs; rewrite !map_map; apply map_ext; intros; apply P.
    + intros k Hk Hne. eqbs; reflexivity.
Qed.

Lemma sech2 x : 1 / (cosh x * cosh x) = 1 - tanh x ^ 2.
Proof.
  pose proof (cosh_pos x). pose proof (cosh2_sinh2 x). unfold tanh.
  field_simplify_eq; [|lra]. lra.
Qed.

Lemma inplace_derivative h rho beta eta out :
  valid h rho -> (forall o, out = Some o -> valid h o) ->
  exists o h', heaviside_projection_derivative_inplace h rho beta eta out = (o, h') /\
    h_get h' o = map (fun x => heaviside_projection_derivative x beta eta) (h_get h rho) /\
    (forall k, valid h k -> Some k <> out -> h_get h' k = h_get h k) /\
    (match out with Some o' => o = o' | None => ~ valid h o end).
Proof.
  intros Hr Ho. unfold valid in *.
  assert (P : forall x, 1 / (cosh ((x - eta) * beta) * cosh ((x - eta) * beta)) * beta /
                (tanh (beta * eta) + tanh (beta * (1 - eta)) + tiny) =
                heaviside_projection_derivative x beta eta).
  { intros. unfold heaviside_projection_derivative. rewrite sech2.
    replace ((x - eta) * beta) with (beta * (x - eta)) by ring. f_equal. ring. }
  destruct out as [o|].
  - do 2 eexists; split; [reflexivity|]. split; [|split; [|reflexivity]].
    + eqbs; rewrite !map_map; apply map_ext; intros; apply P.
    + intros k Hk Hne. assert (k <> o) by congruence. eqbs; reflexivity.
  - do 2 eexists; split; [reflexivity|]. split; [|split; [|cbn; lia]].
    + eqbs; rewrite !map_map; apply map_ext; intros; apply P.
    + intros k Hk Hne. eqbs; reflexivity.
Qed.

(* ---- SIMP ---- *)
Lemma Rpower_pos x p : 0 < Rpower x p.
Proof. apply exp_pos. Qed.
Lemma Rpower_base_mono x y p : 0 < x <= y -> 0 <= p -> Rpower x p <= Rpower y p.
Proof.
  intros [Hx Hy] Hp. unfold Rpower. 
  assert (ln x <= ln y). { destruct Hy as [Hy| ->]; [left; apply ln_increasing; auto|lra]. }
  assert (Q : p * ln x <= p * ln y) by (apply Rmult_le_compat_l; auto).
  destruct Q as [|E]; [left; apply exp_increasing; auto|rewrite E; lra].
Qed.
Lemma Rpower_base_smono x y p : 0 < x < y -> 0 < p -> Rpower x p < Rpower y p.
Proof.
  intros [Hx Hy] Hp. unfold Rpower. apply exp_increasing, Rmult_lt_compat_l; auto.
  apply ln_increasing; auto.
Qed.
Lemma Rpower_1_base p : Rpower 1 p = 1.
Proof. unfold Rpower. rewrite ln_1, Rmult_0_r. apply exp_0. Qed.

Lemma clamp_pos rho : 0 < Rmax rho floor6.
Proof. pose proof (Rmax_r rho floor6). unfold floor6 in *. lra. Qed.

Lemma npow_pos x p : 0 < x -> npow x p = Some (Rpower x p).
Proof. intros; unfold npow. destruct (Rlt_dec 0 x); [auto|lra]. Qed.

Lemma simp_analysis_same rho E0 Emin p : floor6 <= rho ->
  simp_interpolation rho E0 Emin p = Some (E_simp rho E0 Emin p).
Proof.
  intros H. assert (0 < rho) by (unfold floor6 in H; lra).
  unfold simp_interpolation, E_simp. rewrite npow_pos by auto.
  rewrite Rmax_left by auto. reflexivity.
Qed.

Lemma E_simp_range rho E0 Emin p : Emin <= E0 -> 0 <= p -> rho <= 1 ->
  Emin <= E_simp rho E0 Emin p <= E0.
Proof.
  intros HE Hp Hr. unfold E_simp. pose proof (Rpower_pos (Rmax rho floor6) p).
  assert (Rpower (Rmax rho floor6) p <= 1).
  { rewrite <- (Rpower_1_base p). apply Rpower_base_mono; auto. split; [apply clamp_pos|].
    apply Rmax_lub; auto. unfold floor6; lra. }
  nra.
Qed.

Lemma E_simp_mono r1 r2 E0 Emin p : Emin < E0 -> 0 < p -> floor6 <= r1 < r2 ->
  E_simp r1 E0 Emin p < E_simp r2 E0 Emin p.
Proof.
  intros HE Hp [H1 H2]. unfold E_simp. rewrite !Rmax_left by lra.
  assert (Rpower r1 p < Rpower r2 p) by (apply Rpower_base_smono; unfold floor6 in *; lra). nra.
Qed.

Lemma E_simp_derive rho E0 Emin p : floor6 < rho ->
  derivable_pt_lim (fun r => E_simp r E0 Emin p) rho (dE_drho_simp rho E0 Emin p).
Proof.
  intros H. assert (0 < rho) by (unfold floor6 in H; lra).
  assert (D : derivable_pt_lim (fun r => Emin + (E0 - Emin) * Rpower r p) rho
                (0 + (E0 - Emin) * (p * Rpower rho (p - 1)))).
  { apply (derivable_pt_lim_plus (fct_cte Emin)).
    - apply derivable_pt_lim_const.
    - apply (derivable_pt_lim_scal (fun r => Rpower r p)). apply derivable_pt_lim_power; auto. }
  unfold dE_drho_simp. rewrite Rmax_left by lra.
  replace (p * (E0 - Emin) * Rpower rho (p - 1)) with (0 + (E0 - Emin) * (p * Rpower rho (p - 1))) by ring.
  intros eps He. destruct (D eps He) as [d Hd].
  assert (Hm : 0 < Rmin d (rho - floor6)) by (apply Rmin_pos; [apply cond_pos|lra]).
  exists (mkposreal _ Hm). intros k Hk Hk2. simpl in Hk2.
  assert (B1 : Rabs k < d) by (eapply Rlt_le_trans; [exact Hk2|apply Rmin_l]).
  assert (B2 : Rabs k < rho - floor6) by (eapply Rlt_le_trans; [exact Hk2|apply Rmin_r]).
  specialize (Hd k Hk B1). apply Rabs_def2 in B2. unfold E_simp. rewrite !Rmax_left; auto; lra.
Qed.

Lemma dE_simp_nonneg rho E0 Emin p : Emin <= E0 -> 0 <= p -> 0 <= dE_drho_simp rho E0 Emin p.
Proof.
  intros. unfold dE_drho_simp. pose proof (Rpower_pos (Rmax rho floor6) (p-1)).
  apply Rmult_le_pos; [apply Rmult_le_pos|]; lra.
Qed.

Lemma dC_simp_nonpos rho U E0 Emin p : Emin <= E0 -> 0 <= p -> 0 <= U ->
  dC_drho_simp rho U E0 Emin p <= 0.
Proof.
  intros HE Hp HU. unfold dC_drho_simp. pose proof (dE_simp_nonneg rho E0 Emin p HE Hp) as HD.
  assert (HM : 0 < Rmax (E_simp rho E0 Emin p) tiny).
  { pose proof (Rmax_r (E_simp rho E0 Emin p) tiny). unfold tiny in *; lra. }
  unfold Rdiv. pose proof (Rinv_0_lt_compat _ HM).
  assert (0 <= U * dE_drho_simp rho E0 Emin p) by (apply Rmult_le_pos; auto).
  nra.
Qed.

(* the adjoint identity: exact, before taking the limit *)
Lemma compliance_difference {V : Type} (k : V -> V -> R) (rest : V -> V -> R) (f : V -> R)
    (E : R -> R) (u : R -> V) :
  (forall v w, k v w = k w v) -> (forall v w, rest v w = rest w v) ->
  (forall t w, E t * k (u t) w + rest (u t) w = f w) ->
  forall t t0, f (u t) - f (u t0) = - (E t - E t0) * k (u t) (u t0).
Proof.
  intros Sk Sr Heq t t0.
  pose proof (Heq t0 (u t)) as A. pose proof (Heq t (u t0)) as B.
  rewrite (Sk (u t0) (u t)), (Sr (u t0) (u t)) in A. lra.
Qed.

Lemma derive_pt_lim_continuous f x l : derivable_pt_lim f x l -> continuity_pt f x.
Proof. intros H. apply derivable_continuous_pt. exists l. exact H. Qed.

Lemma compliance_derivative {V : Type} (k : V -> V -> R) (rest : V -> V -> R) (f : V -> R)
    (E : R -> R) (u : R -> V) (t0 dE : R) :
  (forall v w, k v w = k w v) -> (forall v w, rest v w = rest w v) ->
  (forall t w, E t * k (u t) w + rest (u t) w = f w) ->
  derivable_pt_lim E t0 dE ->
  continuity_pt (fun t => k (u t) (u t0)) t0 ->
  derivable_pt_lim (fun t => f (u t)) t0 (- dE * k (u t0) (u t0)).
Proof.
  intros Sk Sr Heq HE Hc eps He.
  set (K := k (u t0) (u t0)) in *.
  pose proof (compliance_difference k rest f E u Sk Sr Heq) as Id.
  (* |q| <= |dE| + 1 eventually, and |k - K| small *)
  set (M := Rabs K + Rabs dE + 2).
  assert (HM : 0 < M) by (unfold M; pose proof (Rabs_pos K); pose proof (Rabs_pos dE); lra).
  set (e1 := Rmin 1 (eps / (2 * M))).
  assert (He1 : 0 < e1).
  { unfold e1. apply Rmin_pos; [lra|]. apply Rdiv_lt_0_compat; lra. }
  destruct (HE e1 He1) as [d1 Hd1].
  destruct (Hc e1 He1) as [d2 [Hd2 Hc2]].
  assert (Hm : 0 < Rmin d1 d2) by (apply Rmin_pos; [apply cond_pos|auto]).
  exists (mkposreal _ Hm). intros h Hh Hh2. simpl in Hh2.
  assert (A1 : Rabs h < d1) by (eapply Rlt_le_trans; [exact Hh2|apply Rmin_l]).
  assert (A2 : Rabs h < d2) by (eapply Rlt_le_trans; [exact Hh2|apply Rmin_r]).
  specialize (Hd1 h Hh A1).
  assert (B : Rabs (k (u (t0 + h)) (u t0) - K) < e1).
  { unfold K. apply (Hc2 (t0 + h)). split.
    - split; [exact I|]. lra.
    - simpl. unfold R_dist. replace (t0 + h - t0) with h by ring. exact A2. }
  rewrite (Id (t0 + h) t0).
  set (q := (E (t0 + h) - E t0) / h) in *. set (kk := k (u (t0 + h)) (u t0)) in *.
  replace (- (E (t0 + h) - E t0) * kk / h - - dE * K) with (- (q * (kk - K)) - (q - dE) * K)
    by (unfold q; field; auto).
  assert (C : e1 <= 1) by apply Rmin_l.
  assert (D : e1 * (2 * M) <= eps).
  { unfold e1. pose proof (Rmin_r 1 (eps / (2 * M))) as Z.
    apply Rmult_le_compat_r with (r := 2 * M) in Z; [|lra].
    replace (eps / (2 * M) * (2 * M)) with eps in Z by (field; lra). exact Z. }
  assert (Q : Rabs q <= Rabs dE + 1).
  { replace q with ((q - dE) + dE) by ring. eapply Rle_trans; [apply Rabs_triang|]. lra. }
  apply Rle_lt_trans with (Rabs q * Rabs (kk - K) + Rabs (q - dE) * Rabs K).
  { rewrite <- !Rabs_mult. eapply Rle_trans; [apply Rabs_triang|]. rewrite !Rabs_Ropp. lra. }
  pose proof (Rabs_pos q); pose proof (Rabs_pos (kk - K)); pose proof (Rabs_pos (q - dE)); pose proof (Rabs_pos K).
  assert (Rabs q * Rabs (kk - K) <= (Rabs dE + 1) * e1) by (apply Rmult_le_compat; lra).
  assert (Rabs (q - dE) * Rabs K <= e1 * Rabs K) by (apply Rmult_le_compat_r; lra).
  unfold M in *. nra.
Qed.

Lemma dC_simp_is_compliance_derivative {V : Type} (k rest : V -> V -> R) (f : V -> R)
    (u : R -> V) (rho E0 Emin p : R) :
  (forall v w, k v w = k w v) -> (forall v w, rest v w = rest w v) ->
  floor6 < rho -> tiny <= E_simp rho E0 Emin p ->
  (forall t w, E_simp t E0 Emin p * k (u t) w + rest (u t) w = f w) ->
  continuity_pt (fun t => k (u t) (u rho)) rho ->
  let U := 1 / 2 * (E_simp rho E0 Emin p * k (u rho) (u rho)) in
  derivable_pt_lim (fun t => f (u t)) rho (dC_drho_simp rho U E0 Emin p).
Proof.
  intros Sk Sr Hr HE Heq Hc U.
  pose proof (compliance_derivative k rest f _ u rho _ Sk Sr Heq
                (E_simp_derive rho E0 Emin p Hr) Hc) as D.
  replace (dC_drho_simp rho U E0 Emin p) with (- dE_drho_simp rho E0 Emin p * k (u rho) (u rho)); auto.
  unfold dC_drho_simp, U. rewrite Rmax_left by auto. field.
  unfold tiny in HE; lra.
Qed.

(* ---- RAMP ---- *)
Lemma ramp_same rho E0 Emin p : ramp_interpolation rho E0 Emin p = E_ramp rho E0 Emin p.
Proof. reflexivity. Qed.

Lemma ramp_den_pos rho p : 0 <= p -> rho <= 1 -> 1 <= 1 + p * (1 - rho).
Proof. intros. assert (0 <= p * (1 - rho)) by (apply Rmult_le_pos; lra). lra. Qed.

Lemma E_ramp_derive rho E0 Emin p : 0 <= p -> rho <= 1 ->
  derivable_pt_lim (fun r => E_ramp r E0 Emin p) rho
    ((E0 - Emin) * (1 + p) / (1 + p * (1 - rho)) ^ 2).
Proof.
  intros Hp Hr. pose proof (ramp_den_pos rho p Hp Hr).
  set (d := fun r : R => 1 + p * (1 - r)).
  assert (Hd : derivable_pt_lim d rho (0 + p * (0 - 1))).
  { unfold d. apply (derivable_pt_lim_plus (fct_cte 1)). apply derivable_pt_lim_const.
    apply (derivable_pt_lim_scal (fun r => 1 - r)).
    apply (derivable_pt_lim_minus (fct_cte 1) id). apply derivable_pt_lim_const. apply derivable_pt_lim_id. }
  assert (Hq : derivable_pt_lim (div_fct id d) rho ((1 * d rho - (0 + p * (0 - 1)) * id rho) / (d rho)²)).
  { apply derivable_pt_lim_div; auto. apply derivable_pt_lim_id. unfold d; lra. }
  assert (D : derivable_pt_lim (fun r => Emin + (E0 - Emin) * (r / d r)) rho
      (0 + (E0 - Emin) * ((1 * d rho - (0 + p * (0 - 1)) * id rho) / (d rho)²))).
  { apply (derivable_pt_lim_plus (fct_cte Emin)). apply derivable_pt_lim_const.
    apply (derivable_pt_lim_scal (fun r => r / d r)). exact Hq. }
  replace ((E0 - Emin) * (1 + p) / (1 + p * (1 - rho)) ^ 2) with
      (0 + (E0 - Emin) * ((1 * d rho - (0 + p * (0 - 1)) * id rho) / (d rho)²)); [exact D|].
  unfold d, id, Rsqr. field. lra.
Qed.

Lemma dE_ramp_defect rho E0 Emin p : 0 <= p -> rho <= 1 ->
  dE_drho_ramp rho E0 Emin p =
  (E0 - Emin) * (1 + p) / (1 + p * (1 - rho)) ^ 2
  - (E0 - Emin) * (2 * p * rho) / (1 + p * (1 - rho)) ^ 2.
Proof.
  intros Hp Hr. pose proof (ramp_den_pos rho p Hp Hr). unfold dE_drho_ramp. field. lra.
Qed.

Lemma dE_ramp_wrong rho E0 Emin p : Emin < E0 -> 0 < p -> 0 < rho <= 1 ->
  ~ derivable_pt_lim (fun r => E_ramp r E0 Emin p) rho (dE_drho_ramp rho E0 Emin p).
Proof.
  intros HE Hp Hr Hd.
  pose proof (uniqueness_limite _ _ _ _ Hd (E_ramp_derive rho E0 Emin p ltac:(lra) ltac:(lra))) as E.
  rewrite dE_ramp_defect in E by lra.
  pose proof (ramp_den_pos rho p ltac:(lra) ltac:(lra)).
  assert (0 < (E0 - Emin) * (2 * p * rho) / (1 + p * (1 - rho)) ^ 2).
  { apply Rdiv_lt_0_compat; [|apply pow_lt; lra].
    apply Rmult_lt_0_compat; [lra|]. apply Rmult_lt_0_compat; lra. }
  lra.
Qed.

(* sign: negative exactly when 2 p rho > 1 + p *)
Lemma dE_ramp_sign rho E0 Emin p : Emin < E0 -> 0 <= p -> 0 <= rho <= 1 ->
  (dE_drho_ramp rho E0 Emin p < 0 <-> 1 + p < 2 * p * rho).
Proof.
  intros HE Hp Hr. pose proof (ramp_den_pos rho p Hp ltac:(lra)).
  unfold dE_drho_ramp.
  assert (P : 0 < / (1 + p * (1 - rho)) ^ 2) by (apply Rinv_0_lt_compat, pow_lt; lra).
  unfold Rdiv. split; intros H3.
  - apply Rnot_le_lt; intros C.
    assert (0 <= (E0 - Emin) * (1 + p * (1 - rho) - p * rho) * / (1 + p * (1 - rho)) ^ 2); [|lra].
    apply Rmult_le_pos; [|lra]. apply Rmult_le_pos; lra.
  - assert (0 < (E0 - Emin) * - (1 + p * (1 - rho) - p * rho) * / (1 + p * (1 - rho)) ^ 2); [|lra].
    apply Rmult_lt_0_compat; auto. apply Rmult_lt_0_compat; lra.
Qed.

Lemma dC_ramp_sign_wrong rho U E0 Emin p :
  0 <= Emin < E0 -> 0 <= p -> 0 <= rho <= 1 -> 0 < U -> 1 + p < 2 * p * rho ->
  0 < dC_drho_ramp rho U E0 Emin p.
Proof.
  intros HE Hp Hr HU Hw. apply (proj2 (dE_ramp_sign rho E0 Emin p ltac:(lra) Hp Hr)) in Hw.
  unfold dC_drho_ramp. apply Rdiv_lt_0_compat.
  - assert (0 < U * - dE_drho_ramp rho E0 Emin p) by (apply Rmult_lt_0_compat; lra). lra.
  - pose proof (Rmax_r (E_ramp rho E0 Emin p) tiny). unfold tiny in *; lra.
Qed.

Lemma dC_ramp_ok rho U E0 Emin p :
  Emin < E0 -> 0 <= p -> 0 <= rho <= 1 -> 0 <= U -> 2 * p * rho <= 1 + p ->
  dC_drho_ramp rho U E0 Emin p <= 0.
Proof.
  intros HE Hp Hr HU Hw.
  assert (0 <= dE_drho_ramp rho E0 Emin p).
  { apply Rnot_lt_le; intros C. apply (dE_ramp_sign rho E0 Emin p HE Hp Hr) in C. lra. }
  unfold dC_drho_ramp, Rdiv.
  assert (0 < / Rmax (E_ramp rho E0 Emin p) tiny).
  { apply Rinv_0_lt_compat. pose proof (Rmax_r (E_ramp rho E0 Emin p) tiny). unfold tiny in *; lra. }
  assert (0 <= U * dE_drho_ramp rho E0 Emin p) by (apply Rmult_le_pos; auto). nra.
Qed.

Lemma E_ramp_range rho E0 Emin p : Emin <= E0 -> 0 <= p -> 0 <= rho <= 1 ->
  Emin <= E_ramp rho E0 Emin p <= E0.
Proof.
  intros HE Hp Hr. pose proof (ramp_den_pos rho p Hp ltac:(lra)). unfold E_ramp.
  assert (0 <= rho / (1 + p * (1 - rho)) <= 1).
  { split.
    - apply Rmult_le_pos; [lra|]. left; apply Rinv_0_lt_compat; lra.
    - apply Rmult_le_reg_r with (1 + p * (1 - rho)); [lra|].
      unfold Rdiv; rewrite Rmult_assoc, Rinv_l by lra.
      assert (0 <= p * (1 - rho)) by (apply Rmult_le_pos; lra). lra. }
  nra.
Qed.

Lemma ramp_inplace_same h rho energy out E0 Emin p :
  out <> rho -> out <> energy ->
  List.length (h_get h energy) = List.length (h_get h rho) ->
  h_get (dE_drho_ramp_inplace h rho out E0 Emin p) out =
    map (fun x => dE_drho_ramp x E0 Emin p) (h_get h rho) /\
  h_get (dC_drho_ramp_inplace h rho energy out E0 Emin p) out =
    zipwith (fun x w => dC_drho_ramp x w E0 Emin p) (h_get h rho) (h_get h energy) /\
  (forall k, k <> out -> h_get (dC_drho_ramp_inplace h rho energy out E0 Emin p) k = h_get h k).
Proof.
  intros H1' H2' HL. unfold dC_drho_ramp_inplace, dE_drho_ramp_inplace. simpl.
  rewrite !Nat.eqb_refl.
  rewrite ?(proj2 (Nat.eqb_neq rho out)) by auto.
  rewrite ?(proj2 (Nat.eqb_neq energy out)) by auto.
  split; [reflexivity|]. split.
  - revert HL. generalize (h_get h energy) as w. induction (h_get h rho) as [|x l IH]; intros [|y w] HL;
      simpl in *; try discriminate; auto.
    f_equal; [|apply IH; lia].
    unfold dC_drho_ramp, dE_drho_ramp, Rdiv. cbn [pow]. ring.
  - intros k Hk. rewrite ?(proj2 (Nat.eqb_neq k out)) by auto. reflexivity.
Qed.

(* ---- Lame parameters ---- *)
Lemma lam_mu_recover E nu lam mu : -1 < nu < 1 / 2 -> lam_mu E nu = (lam, mu) ->
  (mu <> 0 -> lam + mu <> 0 ->
   mu * (3 * lam + 2 * mu) / (lam + mu) = E /\ lam / (2 * (lam + mu)) = nu) /\
  (0 < E -> 0 < mu /\ 0 < 3 * lam + 2 * mu) /\
  (0 < E -> 0 <= nu -> 0 <= lam).
Proof.
  intros Hn EQ. unfold lam_mu in EQ. injection EQ as El Em.
  assert (A : 0 < 1 + nu) by lra. assert (B : 0 < 1 - 2 * nu) by lra.
  assert (S1 : lam + mu = E / (2 * (1 + nu) * (1 - 2 * nu))) by (subst; field; lra).
  assert (S2 : 3 * lam + 2 * mu = E / (1 - 2 * nu)) by (subst; field; lra).
  split; [|split].
  - intros Hm Hl. assert (E <> 0). { intros ->. apply Hm. subst. unfold Rdiv; ring. }
    rewrite S2, S1, <- Em, <- El. split; field; lra.
  - intros HE. rewrite S2. split; [subst mu|]; apply Rdiv_lt_0_compat; lra.
  - intros HE Hnu. subst lam. apply Rmult_le_pos; [apply Rmult_le_pos; lra|].
    left; apply Rinv_0_lt_compat, Rmult_lt_0_compat; lra.
Qed.

Lemma lam_mu_linear E nu s : lam_mu (s * E) nu = (s * fst (lam_mu E nu), s * snd (lam_mu E nu)).
Proof. unfold lam_mu; cbn [fst snd]. apply f_equal2; unfold Rdiv; ring. Qed.
