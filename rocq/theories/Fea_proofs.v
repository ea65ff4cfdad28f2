(* Linear algebra and bilinear forms for Fea_props. *)
From Verif Require Import Base Sums Material_model Material_proofs Mesh_model Mesh_spec Mesh_proofs Fea_model Fea_spec.
Open Scope R_scope.
Open Scope list_scope.

Lemma sum_ext n f g : (forall i, (i < n)%nat -> f i = g i) -> sum n f = sum n g.
Proof. intros H. apply rs_ext. intros i Hi. apply in_seq in Hi. apply H. lia. Qed.
Lemma sum_plus n f g : sum n (fun i => f i + g i) = sum n f + sum n g.
Proof. apply rs_plus. Qed.
Lemma sum_minus n f g : sum n (fun i => f i - g i) = sum n f - sum n g.
Proof. apply rs_minus. Qed.
Lemma sum_scal n c f : sum n (fun i => c * f i) = c * sum n f.
Proof. apply rs_scal. Qed.
Lemma sum_scal_r n c f : sum n (fun i => f i * c) = sum n f * c.
Proof. apply rs_scal_r. Qed.
Lemma sum_swap n m f : sum n (fun i => sum m (fun j => f i j)) = sum m (fun j => sum n (fun i => f i j)).
Proof. apply rs_swap. Qed.
Lemma sum_nonneg n f : (forall i, (i < n)%nat -> 0 <= f i) -> 0 <= sum n f.
Proof. intros H. apply rs_nonneg. intros i Hi. apply in_seq in Hi. apply H. lia. Qed.
Lemma sum_le n f g : (forall i, (i < n)%nat -> f i <= g i) -> sum n f <= sum n g.
Proof. intros H. apply rs_le. intros i Hi. apply in_seq in Hi. apply H. lia. Qed.
Lemma sum_zero n f : (forall i, (i < n)%nat -> f i = 0) -> sum n f = 0.
Proof. intros H. apply rs_zero. intros i Hi. apply in_seq in Hi. apply H. lia. Qed.
Lemma sum_zero_inv n f : (forall i, (i < n)%nat -> 0 <= f i) -> sum n f = 0 -> forall i, (i < n)%nat -> f i = 0.
Proof.
  intros H Hs i Hi. apply (rs_zero_inv f (seq 0 n)); auto.
  - intros y Hy. apply in_seq in Hy. apply H. lia.
  - apply in_seq. lia.
Qed.
Lemma sum_single n k g : (k < n)%nat -> sum n (fun i => if Nat.eqb i k then g i else 0) = g k.
Proof. apply rs_single_nat. Qed.

(* ---- matrices ---- *)
Lemma mv_scal n K c u i : mv n K (fun j => c * u j) i = c * mv n K u i.
Proof. unfold mv. rewrite <- sum_scal. apply sum_ext. intros; ring. Qed.
Lemma mv_minus n K u v i : mv n K (fun j => u j - v j) i = mv n K u i - mv n K v i.
Proof. unfold mv. rewrite <- sum_minus. apply sum_ext. intros; ring. Qed.
Lemma mv_ext n K u v i : (forall j, (j < n)%nat -> u j = v j) -> mv n K u i = mv n K v i.
Proof. intros H. apply sum_ext. intros j Hj. now rewrite H. Qed.
Lemma dot_sym n u v : dot n u v = dot n v u.
Proof. apply sum_ext. intros; ring. Qed.
Lemma dot_mv_sym n K u v : symmetric n K -> dot n u (mv n K v) = dot n v (mv n K u).
Proof.
  intros S. unfold dot, mv.
  transitivity (sum n (fun i => sum n (fun j => u i * (K i j * v j)))).
  { apply sum_ext. intros i _. now rewrite sum_scal. }
  rewrite sum_swap. apply sum_ext. intros j Hj. rewrite <- sum_scal. apply sum_ext. intros i Hi.
  rewrite (S i j Hi Hj). ring.
Qed.
Lemma quad_minus n K u v : symmetric n K ->
  quad n K (fun i => u i - v i) = quad n K u - 2 * dot n v (mv n K u) + quad n K v.
Proof.
  intros S. unfold quad.
  transitivity (dot n u (mv n K u) - dot n u (mv n K v) - dot n v (mv n K u) + dot n v (mv n K v)).
  - unfold dot. rewrite <- sum_minus, <- sum_minus, <- sum_plus. apply sum_ext. intros i _.
    rewrite mv_minus. ring.
  - rewrite (dot_mv_sym n K u v S). ring.
Qed.

Lemma enforce_equilibrium n K D f u :
  solves n (enforceK D K) (enforceF D f) u <-> equilibrium n K D f u.
Proof.
  unfold solves, equilibrium, enforceK, enforceF.
  assert (R1 : forall i, (i < n)%nat -> mem i D = true ->
     mv n (fun i j => if mem i D then if Nat.eqb i j then 1 else 0 else K i j) u i = u i).
  { intros i Hi Hm. unfold mv. rewrite <- (sum_single n i u Hi). apply sum_ext. intros j _.
    rewrite Hm, (Nat.eqb_sym i j). destruct (Nat.eqb j i); ring. }
  assert (R2 : forall i, mem i D = false ->
     mv n (fun i j => if mem i D then if Nat.eqb i j then 1 else 0 else K i j) u i = mv n K u i).
  { intros i Hm. unfold mv. apply sum_ext. intros j _. now rewrite Hm. }
  split.
  - intros H. split; intros i Hi Hd; specialize (H i Hi).
    + apply mem_in in Hd. rewrite R1, Hd in H by assumption. exact H.
    + apply mem_false in Hd. rewrite R2, Hd in H by assumption. exact H.
  - intros [H1 H2] i Hi. destruct (mem i D) eqn:E.
    + rewrite R1 by assumption. apply H1; [assumption|]. now apply mem_in.
    + rewrite R2 by assumption. apply H2; [assumption|]. now apply mem_false.
Qed.
Lemma work_dot n D f u : dot n (enforceF D f) u = work n D f u.
Proof. apply sum_ext. intros i _. unfold enforceF. destruct (mem i D); ring. Qed.
Lemma work_free n D f u : rsum (map (fun i => enforceF D f i * u i) (setdiff1d (seq 0 n) D)) = work n D f u.
Proof.
  unfold setdiff1d. rewrite rs_filter. apply rs_ext. intros i _. unfold enforceF. destruct (mem i D); cbn; reflexivity.
Qed.
Lemma work_test n K D f u v : equilibrium n K D f u -> (forall i, (i < n)%nat -> In i D -> v i = 0) ->
  dot n v (mv n K u) = work n D f v.
Proof.
  intros [H1 H2] Hv. apply sum_ext. intros i Hi. destruct (mem i D) eqn:E.
  - apply mem_in in E. rewrite (Hv i Hi E). ring.
  - apply mem_false in E. rewrite (H2 i Hi E). ring.
Qed.
Lemma work_quad n K D f u : equilibrium n K D f u -> work n D f u = quad n K u.
Proof. intros H. symmetry. apply work_test; [exact H|apply H]. Qed.
Lemma equilibrium_unique n K D f u v : supported n K D ->
  equilibrium n K D f u -> equilibrium n K D f v -> forall i, (i < n)%nat -> u i = v i.
Proof.
  intros S [U1 U2] [V1 V2] i Hi.
  destruct (Req_dec (u i) (v i)) as [E|E]; [exact E|exfalso].
  assert (P : 0 < quad n K (fun j => u j - v j)).
  { apply S.
    - intros j Hj Hd. rewrite U1, V1 by assumption. ring.
    - exists i. split; [exact Hi|]. lra. }
  assert (Z : quad n K (fun j => u j - v j) = 0).
  { apply sum_zero. intros j Hj. rewrite mv_minus. destruct (in_dec Nat.eq_dec j D) as [Hd|Hd].
    - rewrite U1, V1 by assumption. ring.
    - rewrite U2, V2 by assumption. ring. }
  lra.
Qed.
Lemma equilibrium_scale n K D f u s : equilibrium n K D f u ->
  equilibrium n K D (fun i => f i * s) (fun i => s * u i).
Proof.
  intros [H1 H2]. split; intros i Hi Hd.
  - rewrite H1 by assumption. ring.
  - rewrite mv_scal, H2 by assumption. ring.
Qed.
Lemma work_ext n D f u v : (forall i, (i < n)%nat -> u i = v i) -> work n D f u = work n D f v.
Proof. intros H. apply sum_ext. intros i Hi. now rewrite H. Qed.
Lemma work_scale n D f u s : work n D (fun i => f i * s) (fun i => s * u i) = s * s * work n D f u.
Proof. unfold work. rewrite <- sum_scal. apply sum_ext. intros i _. destruct (mem i D); ring. Qed.

(* ---- tensors ---- *)
Ltac tens := unfold stiffness_form, energy_density, ddot, stress, trace, sym_grad, delta, sum;
  cbn [seq map rsum fold_right Nat.eqb].
Lemma form_sym lam mu g h : stiffness_form lam mu g h = stiffness_form lam mu h g.
Proof. tens. ring. Qed.
Lemma form_stress lam mu g h : stiffness_form lam mu g h = ddot g (stress lam mu h).
Proof. tens. lra. Qed.
Lemma energy_form lam mu g : energy_density lam mu g = / 2 * stiffness_form lam mu g g.
Proof. tens. field. Qed.
Lemma form_grad lam mu B u e q h :
  stiffness_form lam mu (grad_of B u e q) h = sum (fb_n B) (fun k => u k * stiffness_form lam mu (fb_grad B e q k) h).
Proof.
  rewrite form_stress. unfold ddot, grad_of.
  transitivity (sum 3 (fun i => sum 3 (fun j => sum (fb_n B) (fun k => u k * fb_grad B e q k i j * stress lam mu h i j)))).
  { apply sum_ext. intros i _. apply sum_ext. intros j _. now rewrite sum_scal_r. }
  transitivity (sum 3 (fun i => sum (fb_n B) (fun k => sum 3 (fun j => u k * fb_grad B e q k i j * stress lam mu h i j)))).
  { apply sum_ext. intros i _. apply sum_swap. }
  rewrite sum_swap. apply sum_ext. intros k _. rewrite form_stress. unfold ddot.
  rewrite <- sum_scal. apply sum_ext. intros i _. rewrite <- sum_scal. apply sum_ext. intros j _. ring.
Qed.
(* deviatoric splitting: why the energy is non-negative *)
Lemma form_split lam mu g : stiffness_form lam mu g g =
  (lam + 2 / 3 * mu) * (trace (sym_grad g)) ^ 2 +
  2 * mu * sum 3 (fun i => sum 3 (fun j => (sym_grad g i j - trace (sym_grad g) / 3 * delta i j) ^ 2)).
Proof. tens. field. Qed.
Lemma sum3_sq_nonneg (f : nat -> nat -> R) : 0 <= sum 3 (fun i => sum 3 (fun j => f i j ^ 2)).
Proof. apply sum_nonneg; intros i _. apply sum_nonneg; intros j _. apply pow2_ge_0. Qed.

(* ---- assembled matrices ---- *)
Lemma stiffness_sym B nu E : symmetric (fb_n B) (stiffness B nu E).
Proof.
  intros i j _ _. unfold stiffness. apply sum_ext; intros e _. apply sum_ext; intros q _. now rewrite form_sym.
Qed.
Lemma quad_assembled n ne nq (F : nat -> nat -> nat -> nat -> R) (u : vec) :
  quad n (fun k l => sum ne (fun e => sum nq (fun q => F e q l k))) u =
  sum ne (fun e => sum nq (fun q => sum n (fun k => sum n (fun l => u k * u l * F e q l k)))).
Proof.
  unfold quad, dot, mv.
  transitivity (sum n (fun k => sum n (fun l => sum ne (fun e => sum nq (fun q => u k * u l * F e q l k))))).
  { apply sum_ext; intros k _. rewrite <- sum_scal. apply sum_ext; intros l _.
    rewrite <- sum_scal_r, <- sum_scal. apply sum_ext; intros e _.
    rewrite <- sum_scal_r, <- sum_scal. apply sum_ext; intros q _. ring. }
  transitivity (sum n (fun k => sum ne (fun e => sum n (fun l => sum nq (fun q => u k * u l * F e q l k))))).
  { apply sum_ext; intros k _. apply sum_swap. }
  rewrite sum_swap. apply sum_ext; intros e _.
  transitivity (sum n (fun k => sum nq (fun q => sum n (fun l => u k * u l * F e q l k)))).
  { apply sum_ext; intros k _. apply sum_swap. }
  apply sum_swap.
Qed.
Lemma quad_stiffness B nu E u : quad (fb_n B) (stiffness B nu E) u =
  sum (fb_ne B) (fun e => sum (fb_nq B) (fun q =>
    stiffness_form (lam_of E nu e) (mu_of E nu e) (grad_of B u e q) (grad_of B u e q) * fb_dx B e q)).
Proof.
  unfold stiffness.
  rewrite (quad_assembled (fb_n B) (fb_ne B) (fb_nq B)
    (fun e q l k => stiffness_form (lam_of E nu e) (mu_of E nu e) (fb_grad B e q l) (fb_grad B e q k) * fb_dx B e q)).
  apply sum_ext; intros e _. apply sum_ext; intros q _.
  rewrite form_grad. rewrite <- sum_scal_r. apply sum_ext; intros k _.
  rewrite (form_sym _ _ (fb_grad B e q k)), form_grad.
  rewrite <- sum_scal, <- sum_scal_r. apply sum_ext; intros l _. ring.
Qed.
Lemma quad_energy B nu E u : quad (fb_n B) (stiffness B nu E) u = 2 * sum (fb_ne B) (strain_energy B nu E u).
Proof.
  rewrite quad_stiffness, <- sum_scal. apply sum_ext; intros e _. unfold strain_energy. rewrite <- sum_scal.
  apply sum_ext; intros q _. rewrite energy_form. lra.
Qed.
(* unit-modulus form: everything is linear in E *)
Lemma lam_lin E nu e : lam_of E nu e = E e * fst (lam_mu 1 nu).
Proof. unfold lam_of. pose proof (lam_mu_linear 1 nu (E e)) as H. rewrite Rmult_1_r in H. now rewrite H. Qed.
Lemma mu_lin E nu e : mu_of E nu e = E e * snd (lam_mu 1 nu).
Proof. unfold mu_of. pose proof (lam_mu_linear 1 nu (E e)) as H. rewrite Rmult_1_r in H. now rewrite H. Qed.
Lemma form_lin lam mu s g h : stiffness_form (s * lam) (s * mu) g h = s * stiffness_form lam mu g h.
Proof. unfold stiffness_form. ring. Qed.
Lemma unit_form_nonneg nu g : -1 < nu < 1 / 2 ->
  0 <= stiffness_form (fst (lam_mu 1 nu)) (snd (lam_mu 1 nu)) g g.
Proof.
  intros Hn. destruct (lam_mu_recover 1 nu _ _ Hn (surjective_pairing _)) as (_ & P & _).
  destruct (P Rlt_0_1) as [P1 P2]. set (lam := fst (lam_mu 1 nu)) in *. set (mu := snd (lam_mu 1 nu)) in *.
  rewrite form_split. pose proof (pow2_ge_0 (trace (sym_grad g))).
  pose proof (sum3_sq_nonneg (fun i j => sym_grad g i j - trace (sym_grad g) / 3 * delta i j)).
  assert (0 <= lam + 2 / 3 * mu) by lra.
  apply Rplus_le_le_0_compat; apply Rmult_le_pos; lra.
Qed.
Lemma energy_eq B nu E u e : strain_energy B nu E u e =
  E e * sum (fb_nq B) (fun q => / 2 * stiffness_form (fst (lam_mu 1 nu)) (snd (lam_mu 1 nu))
                                        (grad_of B u e q) (grad_of B u e q) * fb_dx B e q).
Proof.
  unfold strain_energy. rewrite <- sum_scal. apply sum_ext; intros q _.
  rewrite energy_form, lam_lin, mu_lin, form_lin. ring.
Qed.
Definition weights_ok (B : fembasis) : Prop := forall e q, 0 <= fb_dx B e q.
Lemma unit_energy_nonneg B nu u e : -1 < nu < 1 / 2 -> weights_ok B ->
  0 <= sum (fb_nq B) (fun q => / 2 * stiffness_form (fst (lam_mu 1 nu)) (snd (lam_mu 1 nu))
                                        (grad_of B u e q) (grad_of B u e q) * fb_dx B e q).
Proof.
  intros Hn Hw. apply sum_nonneg; intros q _. pose proof (unit_form_nonneg nu (grad_of B u e q) Hn).
  apply Rmult_le_pos; [lra|apply Hw].
Qed.
Lemma energy_nonneg B nu E u e : -1 < nu < 1 / 2 -> weights_ok B -> 0 <= E e -> 0 <= strain_energy B nu E u e.
Proof. intros Hn Hw HE. rewrite energy_eq. apply Rmult_le_pos; [exact HE|now apply unit_energy_nonneg]. Qed.
Lemma energy_mono B nu E E' u e : -1 < nu < 1 / 2 -> weights_ok B -> E e <= E' e ->
  strain_energy B nu E u e <= strain_energy B nu E' u e.
Proof.
  intros Hn Hw HE. rewrite !energy_eq. apply Rmult_le_compat_r; [now apply unit_energy_nonneg|exact HE].
Qed.
(* compliance decreases with the stiffness *)
Lemma compliance_mono n K K' D f u u' : symmetric n K -> semidefinite n K ->
  (forall v, quad n K v <= quad n K' v) ->
  equilibrium n K D f u -> equilibrium n K' D f u' -> work n D f u' <= work n D f u.
Proof.
  intros S P M U U'.
  pose proof (P (fun i => u i - u' i)) as Q. rewrite quad_minus in Q by exact S.
  rewrite (work_test n K D f u u' U) in Q by (apply U').
  pose proof (work_quad n K D f u U). pose proof (work_quad n K' D f u' U'). pose proof (M u'). lra.
Qed.
