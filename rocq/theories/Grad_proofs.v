(* Compliance as a function of the element moduli: first-order expansion. *)
From Verif Require Import Base Sums Material_model Material_proofs Mesh_model Mesh_proofs Fea_model Fea_spec Fea_proofs.
Open Scope R_scope.
Open Scope list_scope.

(* ---- the stiffness matrix is linear in the moduli ---- *)
Definition elem_stiff (B : fembasis) (nu : R) (e : nat) : mat := stiffness B nu (fun e' => if Nat.eqb e' e then 1 else 0).
Lemma elem_stiff_eq B nu e k l : (e < fb_ne B)%nat -> elem_stiff B nu e k l =
  sum (fb_nq B) (fun q => stiffness_form (fst (lam_mu 1 nu)) (snd (lam_mu 1 nu)) (fb_grad B e q l) (fb_grad B e q k) * fb_dx B e q).
Proof.
  intros He. unfold elem_stiff, stiffness.
  rewrite <- (sum_single (fb_ne B) e (fun e => sum (fb_nq B) (fun q => stiffness_form (fst (lam_mu 1 nu)) (snd (lam_mu 1 nu)) (fb_grad B e q l) (fb_grad B e q k) * fb_dx B e q)) He).
  apply sum_ext; intros e' _. destruct (Nat.eqb e' e) eqn:E.
  - apply sum_ext; intros q _. rewrite lam_lin, mu_lin, form_lin, E. ring.
  - apply sum_zero; intros q _. rewrite lam_lin, mu_lin, form_lin, E. ring.
Qed.
Lemma stiffness_decomp B nu E k l : stiffness B nu E k l = sum (fb_ne B) (fun e => E e * elem_stiff B nu e k l).
Proof.
  unfold stiffness at 1. apply sum_ext; intros e He. rewrite elem_stiff_eq by exact He. rewrite <- sum_scal.
  apply sum_ext; intros q _. rewrite lam_lin, mu_lin, form_lin. ring.
Qed.
Definition bil (B : fembasis) (nu : R) (e : nat) (u v : vec) : R := dot (fb_n B) u (mv (fb_n B) (elem_stiff B nu e) v).
Lemma bil_sym B nu e u v : bil B nu e u v = bil B nu e v u.
Proof. apply dot_mv_sym, stiffness_sym. Qed.
Lemma bil_total B nu E u v : dot (fb_n B) u (mv (fb_n B) (stiffness B nu E) v) = sum (fb_ne B) (fun e => E e * bil B nu e u v).
Proof.
  unfold bil, dot, mv.
  transitivity (sum (fb_n B) (fun i => sum (fb_n B) (fun j => sum (fb_ne B) (fun e => E e * (u i * (elem_stiff B nu e i j * v j)))))).
  { apply sum_ext; intros i _. rewrite <- sum_scal. apply sum_ext; intros j _. rewrite stiffness_decomp.
    rewrite <- sum_scal_r, <- sum_scal. apply sum_ext; intros e _. ring. }
  transitivity (sum (fb_n B) (fun i => sum (fb_ne B) (fun e => sum (fb_n B) (fun j => E e * (u i * (elem_stiff B nu e i j * v j)))))).
  { apply sum_ext; intros i _. apply sum_swap. }
  rewrite sum_swap. apply sum_ext; intros e _. rewrite <- sum_scal. apply sum_ext; intros i _.
  rewrite <- sum_scal, <- sum_scal. apply sum_ext; intros j _. ring.
Qed.
Lemma bil_lin_r B nu e u v w a b : bil B nu e u (fun i => a * v i + b * w i) = a * bil B nu e u v + b * bil B nu e u w.
Proof.
  unfold bil, dot, mv. rewrite <- !sum_scal, <- sum_plus. apply sum_ext; intros i _.
  transitivity (u i * (a * sum (fb_n B) (fun j => elem_stiff B nu e i j * v j) + b * sum (fb_n B) (fun j => elem_stiff B nu e i j * w j))); [|ring].
  f_equal. rewrite <- !sum_scal, <- sum_plus. apply sum_ext; intros; ring.
Qed.
Lemma bil_lin_l B nu e u v w a b : bil B nu e (fun i => a * v i + b * w i) u = a * bil B nu e v u + b * bil B nu e w u.
Proof. rewrite bil_sym, bil_lin_r. now rewrite !(bil_sym B nu e u). Qed.
Lemma bil_energy B nu E u e : (e < fb_ne B)%nat -> 2 * strain_energy B nu E u e = E e * bil B nu e u u.
Proof.
  intros He. unfold bil. change (dot (fb_n B) u (mv (fb_n B) (elem_stiff B nu e) u)) with (quad (fb_n B) (elem_stiff B nu e) u).
  unfold elem_stiff. rewrite quad_energy.
  rewrite (sum_ext (fb_ne B) _ (fun e' => if Nat.eqb e' e then strain_energy B nu (fun _ => 1) u e' else 0)).
  - rewrite (sum_single (fb_ne B) e (strain_energy B nu (fun _ => 1) u) He). rewrite !energy_eq. ring.
  - intros e' _. rewrite !energy_eq. destruct (Nat.eqb e' e); ring.
Qed.
Lemma bil_nonneg B nu e u : -1 < nu < 1 / 2 -> weights_ok B -> (e < fb_ne B)%nat -> 0 <= bil B nu e u u.
Proof.
  intros Hn Hw He. pose proof (energy_nonneg B nu (fun _ => 1) u e Hn Hw ltac:(cbn; lra)).
  pose proof (bil_energy B nu (fun _ => 1) u e He). lra.
Qed.

(* ---- second-order expansion between two equilibria ---- *)
Lemma compliance_expansion B nu E E' D f u u' : -1 < nu < 1 / 2 -> weights_ok B ->
  (forall e, (e < fb_ne B)%nat -> 0 < E' e) ->
  equilibrium (fb_n B) (stiffness B nu E) D f u -> equilibrium (fb_n B) (stiffness B nu E') D f u' ->
  let rest := work (fb_n B) D f u' - work (fb_n B) D f u + sum (fb_ne B) (fun e => (E' e - E e) * bil B nu e u u) in
  0 <= rest <= sum (fb_ne B) (fun e => (E' e - E e) ^ 2 / E' e * bil B nu e u u).
Proof.
  intros Hn Hw HE U U' rest.
  set (w := fun i => 1 * u' i + (-1) * u i).
  assert (Hadm : forall i, (i < fb_n B)%nat -> In i D -> w i = 0).
  { intros i Hi Hd. unfold w. destruct U as [U _], U' as [U' _]. rewrite U, U' by assumption. ring. }
  (* work of f on u', u, w *)
  assert (W1 : work (fb_n B) D f u' = sum (fb_ne B) (fun e => E e * bil B nu e u' u)).
  { rewrite <- (work_test _ _ D f u u' U) by apply U'. apply bil_total. }
  assert (W2 : work (fb_n B) D f u = sum (fb_ne B) (fun e => E' e * bil B nu e u u')).
  { rewrite <- (work_test _ _ D f u' u U') by apply U. apply bil_total. }
  assert (W3 : sum (fb_ne B) (fun e => E e * bil B nu e w u) = sum (fb_ne B) (fun e => E' e * bil B nu e w u')).
  { rewrite <- !bil_total. rewrite (work_test _ _ D f u w U Hadm), (work_test _ _ D f u' w U' Hadm). reflexivity. }
  assert (R : rest = sum (fb_ne B) (fun e => E' e * bil B nu e w w)).
  { assert (Q : sum (fb_ne B) (fun e => E' e * bil B nu e w w) =
       sum (fb_ne B) (fun e => E' e * bil B nu e w u') - sum (fb_ne B) (fun e => E' e * bil B nu e w u)).
    { rewrite <- sum_minus. apply sum_ext; intros e _. unfold w at 2. rewrite bil_lin_r. ring. }
    rewrite Q, <- W3. unfold rest. rewrite W1, W2. rewrite <- sum_minus, <- sum_minus, <- sum_plus.
    apply sum_ext; intros e _. unfold w. rewrite !bil_lin_l. rewrite (bil_sym B nu e u u'). ring. }
  assert (R2 : rest = sum (fb_ne B) (fun e => - (E' e - E e) * bil B nu e w u)).
  { rewrite R. assert (Q : sum (fb_ne B) (fun e => E' e * bil B nu e w w) =
       sum (fb_ne B) (fun e => E' e * bil B nu e w u') - sum (fb_ne B) (fun e => E' e * bil B nu e w u)).
    { rewrite <- sum_minus. apply sum_ext; intros e _. unfold w at 2. rewrite bil_lin_r. ring. }
    rewrite Q, <- W3, <- sum_minus. apply sum_ext; intros e _. ring. }
  split.
  - rewrite R. apply sum_nonneg; intros e He. apply Rmult_le_pos; [left; auto|now apply bil_nonneg].
  - assert (Y : rest <= sum (fb_ne B) (fun e => / 2 * (E' e * bil B nu e w w) + / 2 * ((E' e - E e) ^ 2 / E' e * bil B nu e u u))).
    { rewrite R2. apply sum_le; intros e He. pose proof (HE e He) as He'.
      pose proof (bil_nonneg B nu e (fun i => E' e * w i + (E' e - E e) * u i) Hn Hw He) as P.
      rewrite bil_lin_r, !bil_lin_l in P. rewrite (bil_sym B nu e u w) in P.
      apply Rmult_le_reg_l with (2 * E' e); [lra|].
      replace (2 * E' e * (/ 2 * (E' e * bil B nu e w w) + / 2 * ((E' e - E e) ^ 2 / E' e * bil B nu e u u)))
        with (E' e * E' e * bil B nu e w w + (E' e - E e) ^ 2 * bil B nu e u u) by (field; lra).
      nra. }
    rewrite sum_plus, sum_scal, <- R, sum_scal in Y. lra.
Qed.

(* ---- derivatives ---- *)
Lemma derive_sum n (F : nat -> R -> R) (L : nat -> R) x : (forall i, (i < n)%nat -> derivable_pt_lim (F i) x (L i)) ->
  derivable_pt_lim (fun t => sum n (fun i => F i t)) x (sum n L).
Proof.
  intros H. unfold sum. assert (G : forall l, (forall i, In i l -> derivable_pt_lim (F i) x (L i)) ->
    derivable_pt_lim (fun t => rsum (map (fun i => F i t) l)) x (rsum (map L l))).
  { clear. induction l as [|a l IH]; intros H; cbn [map rsum fold_right].
    - apply (derivable_pt_lim_const 0).
    - apply (derivable_pt_lim_plus (F a) (fun t => rsum (map (fun i => F i t) l))); [apply H; now left|].
      apply IH. intros; apply H; now right. }
  apply G. intros i Hi. apply in_seq in Hi. apply H. lia.
Qed.
Lemma derive_locally f g x L : (exists d, 0 < d /\ forall t, Rabs (t - x) < d -> f t = g t) ->
  derivable_pt_lim f x L -> derivable_pt_lim g x L.
Proof.
  intros (d & Hd & He) H eps Heps. destruct (H eps Heps) as (d' & Hd').
  assert (Hm : 0 < Rmin d d') by (apply Rmin_glb_lt; [exact Hd|apply cond_pos]).
  exists (mkposreal _ Hm). intros h Hh0 Hh. cbn in Hh.
  rewrite <- !He.
  - apply Hd'; [exact Hh0|]. eapply Rlt_le_trans; [exact Hh|apply Rmin_r].
  - replace (x - x) with 0 by ring. rewrite Rabs_R0. exact Hd.
  - replace (x + h - x) with h by ring. eapply Rlt_le_trans; [exact Hh|apply Rmin_l].
Qed.
Lemma squeeze_derive g l r x L : (exists d, 0 < d /\ forall t, Rabs (t - x) < d -> Rabs (g t - l t) <= r t) ->
  derivable_pt_lim l x L -> derivable_pt_lim r x 0 -> r x = 0 -> derivable_pt_lim g x L.
Proof.
  intros (d & Hd & Hs) Hl Hr Hr0 eps Heps.
  destruct (Hl (eps / 2) ltac:(lra)) as (d1 & H1). destruct (Hr (eps / 2) ltac:(lra)) as (d2 & H2).
  assert (Hm : 0 < Rmin d (Rmin d1 d2)) by (repeat apply Rmin_glb_lt; [exact Hd|apply cond_pos|apply cond_pos]).
  exists (mkposreal _ Hm). intros h Hh0 Hh. cbn in Hh.
  assert (Hhd : Rabs h < d) by (eapply Rlt_le_trans; [exact Hh|apply Rmin_l]).
  assert (Hh1 : Rabs h < d1) by (eapply Rlt_le_trans; [exact Hh|]; eapply Rle_trans; [apply Rmin_r|apply Rmin_l]).
  assert (Hh2 : Rabs h < d2) by (eapply Rlt_le_trans; [exact Hh|]; eapply Rle_trans; [apply Rmin_r|apply Rmin_r]).
  specialize (H1 h Hh0 Hh1). specialize (H2 h Hh0 Hh2).
  assert (G0 : g x = l x).
  { assert (Q : Rabs (g x - l x) <= r x) by (apply Hs; replace (x - x) with 0 by ring; now rewrite Rabs_R0).
    rewrite Hr0 in Q. pose proof (Rabs_pos (g x - l x)).
    destruct (Req_dec (g x - l x) 0) as [E|E]; [lra|]. pose proof (Rabs_pos_lt _ E). lra. }
  assert (Gh : Rabs (g (x + h) - l (x + h)) <= r (x + h)) by (apply Hs; replace (x + h - x) with h by ring; exact Hhd).
  rewrite Hr0 in H2.
  replace ((g (x + h) - g x) / h - L) with (((l (x + h) - l x) / h - L) + (g (x + h) - l (x + h)) / h) by (rewrite G0; field; exact Hh0).
  eapply Rle_lt_trans; [apply Rabs_triang|].
  assert (Q : Rabs ((g (x + h) - l (x + h)) / h) <= Rabs ((r (x + h) - 0) / h - 0)).
  { replace ((r (x + h) - 0) / h - 0) with (r (x + h) / h) by (field; exact Hh0).
    unfold Rdiv. rewrite !Rabs_mult. apply Rmult_le_compat_r; [apply Rabs_pos|].
    eapply Rle_trans; [exact Gh|apply Rle_abs]. }
  lra.
Qed.
Lemma derive_continuous_eps f x L eps : derivable_pt_lim f x L -> 0 < eps ->
  exists d, 0 < d /\ forall t, Rabs (t - x) < d -> Rabs (f t - f x) < eps.
Proof.
  intros H Heps. assert (C : continuity_pt f x) by (apply derivable_continuous_pt; exists L; exact H).
  destruct (C eps Heps) as (d & Hd & Hc). exists d. split; [exact Hd|]. intros t Ht.
  destruct (Req_dec t x) as [->|Hne].
  - replace (f x - f x) with 0 by ring. now rewrite Rabs_R0.
  - apply (Hc t). split; [split; [exact I|congruence]|exact Ht].
Qed.
Lemma near_all n (P : nat -> R -> Prop) x : (forall i, (i < n)%nat -> exists d, 0 < d /\ forall t, Rabs (t - x) < d -> P i t) ->
  exists d, 0 < d /\ forall t, Rabs (t - x) < d -> forall i, (i < n)%nat -> P i t.
Proof.
  induction n as [|n IH]; intros H.
  - exists 1. split; [lra|]. intros; lia.
  - destruct IH as (d1 & Hd1 & H1). { intros i Hi. apply H. lia. }
    destruct (H n ltac:(lia)) as (d2 & Hd2 & H2). exists (Rmin d1 d2). split; [now apply Rmin_glb_lt|].
    intros t Ht i Hi. assert (Rabs (t - x) < d1) by (eapply Rlt_le_trans; [exact Ht|apply Rmin_l]).
    assert (Rabs (t - x) < d2) by (eapply Rlt_le_trans; [exact Ht|apply Rmin_r]).
    destruct (Nat.eq_dec i n) as [->|]; [auto|]. apply H1; [auto|lia].
Qed.

(* the compliances of several load cases along a path of moduli *)
Lemma path_derivative B nu D (Et : R -> nat -> R) (dE : nat -> R) (fs : list vec) (us : R -> list vec) (x : R) :
  -1 < nu < 1 / 2 -> weights_ok B -> 
  (forall e, (e < fb_ne B)%nat -> 0 < Et x e) ->
  (forall e, (e < fb_ne B)%nat -> derivable_pt_lim (fun t => Et t e) x (dE e)) ->
  (exists d, 0 < d /\ forall t, Rabs (t - x) < d -> Forall2 (equilibrium (fb_n B) (stiffness B nu (Et t)) D) fs (us t)) ->
  derivable_pt_lim (fun t => rsum (zipwith (fun f u => work (fb_n B) D f u) fs (us t))) x
    (- sum (fb_ne B) (fun e => dE e * rsum (map (fun u => bil B nu e u u) (us x)))).
Proof.
  intros Hn Hw HE HdE (d0 & Hd0 & Heq).
  set (A := fun e => rsum (map (fun u => bil B nu e u u) (us x))).
  set (c := fun t => rsum (zipwith (fun f u => work (fb_n B) D f u) fs (us t))).
  set (l := fun t => c x + sum (fb_ne B) (fun e => - ((Et t e - Et x e) * A e))).
  set (r := fun t => sum (fb_ne B) (fun e => (Et t e - Et x e) * (Et t e - Et x e) * (2 / Et x e * A e))).
  assert (HA : forall e, (e < fb_ne B)%nat -> 0 <= A e).
  { intros e He. apply rs_nonneg. intros u _. now apply bil_nonneg. }
  assert (Hx : Rabs (x - x) < d0) by (replace (x - x) with 0 by ring; now rewrite Rabs_R0).
  apply (squeeze_derive c l r x).
  - destruct (near_all (fb_ne B) (fun e t => Et x e / 2 < Et t e) x) as (d1 & Hd1 & H1).
    { intros e He. destruct (derive_continuous_eps _ _ _ (Et x e / 2) (HdE e He)) as (d & Hd & Hc); [pose proof (HE e He); lra|].
      exists d. split; [exact Hd|]. intros t Ht. specialize (Hc t Ht). cbn beta in Hc. apply Rabs_def2 in Hc. lra. }
    exists (Rmin d0 d1). split; [now apply Rmin_glb_lt|]. intros t Ht.
    assert (Ht0 : Rabs (t - x) < d0) by (eapply Rlt_le_trans; [exact Ht|apply Rmin_l]).
    assert (Ht1 : Rabs (t - x) < d1) by (eapply Rlt_le_trans; [exact Ht|apply Rmin_r]).
    specialize (H1 t Ht1).
    assert (HEt : forall e, (e < fb_ne B)%nat -> 0 < Et t e).
    { intros e He. pose proof (H1 e He). pose proof (HE e He). lra. }
    assert (G : forall fs us0 us1, Forall2 (equilibrium (fb_n B) (stiffness B nu (Et x)) D) fs us0 ->
       Forall2 (equilibrium (fb_n B) (stiffness B nu (Et t)) D) fs us1 ->
       0 <= rsum (zipwith (fun f u => work (fb_n B) D f u) fs us1) - rsum (zipwith (fun f u => work (fb_n B) D f u) fs us0)
            + sum (fb_ne B) (fun e => (Et t e - Et x e) * rsum (map (fun u => bil B nu e u u) us0))
         <= sum (fb_ne B) (fun e => (Et t e - Et x e) ^ 2 / Et t e * rsum (map (fun u => bil B nu e u u) us0))).
    { intros fs'. induction fs' as [|f fs' IH]; intros us0 us1 F0 F1.
      - inversion F0; inversion F1; subst. cbn [zipwith map rsum fold_right]. rewrite !sum_zero by (intros; ring). lra.
      - inversion F0 as [|? y ? l0 E0 T0]; subst. inversion F1 as [|? y' ? l1 E1 T1]; subst.
        pose proof (IH l0 l1 T0 T1) as I1.
        pose proof (compliance_expansion B nu (Et x) (Et t) D f y y' Hn Hw HEt E0 E1) as I2. cbn zeta in I2.
        rewrite (sum_ext (fb_ne B) (fun e => (Et t e - Et x e) * rsum (map (fun u => bil B nu e u u) (y :: l0)))
          (fun e => (Et t e - Et x e) * bil B nu e y y + (Et t e - Et x e) * rsum (map (fun u => bil B nu e u u) l0)))
          by (intros; cbn [map rsum fold_right]; unfold rsum; ring).
        rewrite (sum_ext (fb_ne B) (fun e => (Et t e - Et x e) ^ 2 / Et t e * rsum (map (fun u => bil B nu e u u) (y :: l0)))
          (fun e => (Et t e - Et x e) ^ 2 / Et t e * bil B nu e y y + (Et t e - Et x e) ^ 2 / Et t e * rsum (map (fun u => bil B nu e u u) l0)))
          by (intros; cbn [map rsum fold_right]; unfold rsum; ring).
        rewrite !sum_plus. cbn [zipwith].
        assert (Hc : forall a l, rsum (a :: l) = a + rsum l) by reflexivity. rewrite !Hc. lra. }
    pose proof (G fs (us x) (us t) (Heq x Hx) (Heq t Ht0)) as (G1 & G2). fold (c t) (c x) in G1, G2.
    assert (Hl : c t - l t = c t - c x + sum (fb_ne B) (fun e => (Et t e - Et x e) * A e)).
    { unfold l. rewrite (sum_ext _ (fun e => - ((Et t e - Et x e) * A e)) (fun e => (-1) * ((Et t e - Et x e) * A e))) by (intros; ring).
      rewrite sum_scal. ring. }
    rewrite Hl. unfold A. rewrite Rabs_right by lra. eapply Rle_trans; [exact G2|].
    unfold r. apply sum_le. intros e He. pose proof (H1 e He) as K1. pose proof (HE e He) as K2. pose proof (HEt e He) as K3.
    assert (I : / Et t e <= 2 / Et x e).
    { replace (2 / Et x e) with (/ (Et x e / 2)) by (field; lra). apply Rinv_le_contravar; lra. }
    replace ((Et t e - Et x e) ^ 2 / Et t e * rsum (map (fun u => bil B nu e u u) (us x)))
      with ((Et t e - Et x e) * (Et t e - Et x e) * (/ Et t e * A e)) by (unfold A; field; lra).
    apply Rmult_le_compat_l; [apply Rle_0_sqr|]. apply Rmult_le_compat_r; [now apply HA|exact I].
  - unfold l. replace (- sum (fb_ne B) (fun e => dE e * rsum (map (fun u => bil B nu e u u) (us x))))
      with (0 + sum (fb_ne B) (fun e => (- (dE e * A e)))).
    2:{ fold A. rewrite (sum_ext _ (fun e => - (dE e * A e)) (fun e => (-1) * (dE e * A e))) by (intros; ring).
        rewrite sum_scal. unfold A. ring. }
    apply derivable_pt_lim_plus; [apply derivable_pt_lim_const|].
    apply (derive_sum (fb_ne B) (fun e t => - ((Et t e - Et x e) * A e))). intros e He.
    apply derivable_pt_lim_opp with (f := fun t => (Et t e - Et x e) * A e).
    replace (dE e * A e) with ((dE e - 0) * A e + (Et x e - Et x e) * 0) by ring.
    apply (derivable_pt_lim_mult (fun t => Et t e - Et x e) (fun _ => A e)); [|apply derivable_pt_lim_const].
    apply (derivable_pt_lim_minus (fun t => Et t e) (fun _ => Et x e)); [auto|apply derivable_pt_lim_const].
  - assert (Z : 0 = sum (fb_ne B) (fun e => ((dE e - 0) * (Et x e - Et x e) + (Et x e - Et x e) * (dE e - 0)) * (2 / Et x e * A e) + (Et x e - Et x e) * (Et x e - Et x e) * 0)).
    { symmetry. apply sum_zero. intros e _. ring. }
    rewrite Z. unfold r.
    apply (derive_sum (fb_ne B) (fun e t => (Et t e - Et x e) * (Et t e - Et x e) * (2 / Et x e * A e))). intros e He.
    assert (D1 : derivable_pt_lim (fun t => Et t e - Et x e) x (dE e - 0)).
    { apply (derivable_pt_lim_minus (fun t => Et t e) (fun _ => Et x e)); [auto|apply derivable_pt_lim_const]. }
    apply (derivable_pt_lim_mult (fun t => (Et t e - Et x e) * (Et t e - Et x e)) (fun _ => 2 / Et x e * A e)); [|apply derivable_pt_lim_const].
    exact (derivable_pt_lim_mult _ _ x _ _ D1 D1).
  - unfold r. apply sum_zero. intros; ring.
Qed.
