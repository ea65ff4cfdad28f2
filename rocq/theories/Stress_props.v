(* C85: what stress_tensor_skfem and von_mises_from_stress_tensor report. *)
From Verif Require Import Base Sums Fea_model Fea_spec Fea_proofs Fea_props Stress_model.
Open Scope R_scope.

(* ---------- specification ---------- *)
Definition volume (B : fembasis) (e : nat) : R := sum (fb_nq B) (fun q => fb_dx B e q).
(* the displacement has gradient g everywhere in element e (always so for linear
   tetrahedra, and for uniformly strained bodies) *)
Definition uniform_gradient (B : fembasis) (u : vec) (e : nat) (g : tensor) : Prop :=
  forall q i j, (q < fb_nq B)%nat -> (i < 3)%nat -> (j < 3)%nat -> grad_of B u e q i j = g i j.
(* the stress at quadrature point q *)
Definition stress_at (B : fembasis) (nu : R) (E : nat -> R) (u : vec) (e q : nat) : tensor :=
  stress (lam_of E nu e) (mu_of E nu e) (grad_of B u e q).
Definition eq3 (s t : tensor) : Prop := forall i j, (i < 3)%nat -> (j < 3)%nat -> s i j = t i j.
(* columns of Q orthonormal; the stress in the rotated (or reflected) frame *)
Definition orthonormal (Q : tensor) : Prop :=
  forall k l, (k < 3)%nat -> (l < 3)%nat -> sum 3 (fun i => Q i k * Q i l) = delta k l.
Definition rotated (Q s : tensor) : tensor := fun i j => sum 3 (fun k => sum 3 (fun l => Q i k * s k l * Q j l)).

(* ---------- lemmas ---------- *)
Lemma von_mises_ext s t : eq3 s t -> von_mises s = von_mises t.
Proof. intros H. unfold von_mises. rewrite !H by lia. reflexivity. Qed.
Lemma stress_ext lam mu g h : eq3 g h -> eq3 (stress lam mu g) (stress lam mu h).
Proof. intros H i j Hi Hj. unfold stress, sym_grad, trace. rewrite !H by lia. reflexivity. Qed.
Lemma ddot_ext s t s' t' : eq3 s s' -> eq3 t t' -> ddot s t = ddot s' t'.
Proof. intros H K. unfold ddot. apply sum_ext; intros i Hi. apply sum_ext; intros j Hj. now rewrite H, K. Qed.
Lemma stress_sym lam mu g : forall i j, stress lam mu g i j = stress lam mu g j i.
Proof. intros i j. unfold stress, sym_grad, delta. rewrite (Nat.eqb_sym j i). ring. Qed.

Definition vm_form (s t : tensor) : R :=
  / 2 * ((s 0%nat 0%nat - s 1%nat 1%nat) * (t 0%nat 0%nat - t 1%nat 1%nat) + (s 1%nat 1%nat - s 2%nat 2%nat) * (t 1%nat 1%nat - t 2%nat 2%nat) +
    (s 2%nat 2%nat - s 0%nat 0%nat) * (t 2%nat 2%nat - t 0%nat 0%nat) +
    6 * (s 0%nat 1%nat * t 0%nat 1%nat + s 1%nat 2%nat * t 1%nat 2%nat + s 2%nat 0%nat * t 2%nat 0%nat)).
Lemma vm_form_nonneg s : 0 <= vm_form s s.
Proof.
  unfold vm_form. pose proof (Rle_0_sqr (s 0%nat 0%nat - s 1%nat 1%nat)). pose proof (Rle_0_sqr (s 1%nat 1%nat - s 2%nat 2%nat)).
  pose proof (Rle_0_sqr (s 2%nat 2%nat - s 0%nat 0%nat)). pose proof (Rle_0_sqr (s 0%nat 1%nat)). pose proof (Rle_0_sqr (s 1%nat 2%nat)). pose proof (Rle_0_sqr (s 2%nat 0%nat)).
  unfold Rsqr in *. lra.
Qed.
Lemma von_mises_form s : von_mises s = sqrt (vm_form s s).
Proof. unfold von_mises, vm_form. f_equal. ring. Qed.
Lemma cauchy6 a1 a2 a3 a4 a5 a6 b1 b2 b3 b4 b5 b6 :
  (a1*b1 + a2*b2 + a3*b3 + 6*(a4*b4 + a5*b5 + a6*b6)) ^ 2 <=
  (a1*a1 + a2*a2 + a3*a3 + 6*(a4*a4 + a5*a5 + a6*a6)) * (b1*b1 + b2*b2 + b3*b3 + 6*(b4*b4 + b5*b5 + b6*b6)).
Proof.
  apply Rminus_le. match goal with |- ?x <= 0 =>
    replace x with (- ((a1*b2-a2*b1)^2 + (a1*b3-a3*b1)^2 + (a2*b3-a3*b2)^2 +
      6 * ((a1*b4-a4*b1)^2 + (a1*b5-a5*b1)^2 + (a1*b6-a6*b1)^2 + (a2*b4-a4*b2)^2 + (a2*b5-a5*b2)^2 + (a2*b6-a6*b2)^2 +
           (a3*b4-a4*b3)^2 + (a3*b5-a5*b3)^2 + (a3*b6-a6*b3)^2) +
      36 * ((a4*b5-a5*b4)^2 + (a4*b6-a6*b4)^2 + (a5*b6-a6*b5)^2))) by ring end.
  repeat match goal with |- context[(?y) ^ 2] => generalize (pow2_ge_0 y); generalize (y ^ 2); intros ? ? end. lra.
Qed.
Lemma vm_cauchy s t : (vm_form s t) ^ 2 <= vm_form s s * vm_form t t.
Proof.
  unfold vm_form.
  pose proof (cauchy6 (s 0%nat 0%nat - s 1%nat 1%nat) (s 1%nat 1%nat - s 2%nat 2%nat) (s 2%nat 2%nat - s 0%nat 0%nat) (s 0%nat 1%nat) (s 1%nat 2%nat) (s 2%nat 0%nat)
    (t 0%nat 0%nat - t 1%nat 1%nat) (t 1%nat 1%nat - t 2%nat 2%nat) (t 2%nat 2%nat - t 0%nat 0%nat) (t 0%nat 1%nat) (t 1%nat 2%nat) (t 2%nat 0%nat)) as C.
  match type of C with ?a ^ 2 <= ?b * ?c => replace ((/ 2 * a) ^ 2) with (/ 4 * a ^ 2) by field; replace (/ 2 * b * (/ 2 * c)) with (/ 4 * (b * c)) by field end. lra.
Qed.
Lemma von_mises_triangle s t : von_mises (tadd s t) <= von_mises s + von_mises t.
Proof.
  rewrite !von_mises_form. pose proof (vm_form_nonneg s) as Ps. pose proof (vm_form_nonneg t) as Pt. pose proof (vm_cauchy s t) as C.
  pose proof (sqrt_pos (vm_form s s)). pose proof (sqrt_pos (vm_form t t)).
  replace (vm_form (tadd s t) (tadd s t)) with (vm_form s s + 2 * vm_form s t + vm_form t t) by (unfold vm_form, tadd; field).
  rewrite <- (sqrt_Rsqr (sqrt (vm_form s s) + sqrt (vm_form t t))) by lra. apply sqrt_le_1_alt. unfold Rsqr.
  assert (M : vm_form s t <= sqrt (vm_form s s) * sqrt (vm_form t t)).
  { rewrite <- sqrt_mult by assumption. apply Rle_trans with (Rabs (vm_form s t)); [apply Rle_abs|]. rewrite <- sqrt_Rsqr_abs. apply sqrt_le_1_alt. unfold Rsqr. lra. }
  pose proof (sqrt_sqrt _ Ps). pose proof (sqrt_sqrt _ Pt). lra.
Qed.
Lemma sum_S n f : sum (S n) f = sum n f + f n.
Proof. unfold sum. rewrite seq_S, map_app, rsum_app. cbn [map rsum fold_right Nat.add]. ring. Qed.
Lemma von_mises_sum n (w : nat -> R) (s : nat -> tensor) : (forall q, (q < n)%nat -> 0 <= w q) ->
  von_mises (fun i j => sum n (fun q => s q i j * w q)) <= sum n (fun q => von_mises (s q) * w q).
Proof.
  induction n as [|n IH]; intros Hw.
  - unfold sum; cbn [seq map rsum fold_right]. right. change (von_mises (fun _ _ => 0) = 0). unfold von_mises. transitivity (sqrt 0); [f_equal; ring|apply sqrt_0].
  - rewrite sum_S. rewrite (von_mises_ext _ (tadd (fun i j => sum n (fun q => s q i j * w q)) (fun i j => w n * s n i j))).
    2:{ intros i j _ _. unfold tadd. rewrite sum_S. ring. }
    eapply Rle_trans; [apply von_mises_triangle|]. rewrite C57_von_mises_scales, (Rabs_right (w n)) by (apply Rle_ge, Hw; lia).
    assert (I := IH (fun q Hq => Hw q ltac:(lia))). lra.
Qed.

(* ---------- what is reported ---------- *)
(* Uniformly strained element: the reported value is the volume of the element
   times the von Mises stress. *)
Theorem C85_volume_times_stress : forall B nu E u e g, weights_ok B -> uniform_gradient B u e g ->
  von_mises_field B nu E u e = volume B e * von_mises (stress (lam_of E nu e) (mu_of E nu e) g).
Proof.
  intros B nu E u e g Hw Hg. unfold von_mises_field.
  assert (V : 0 <= volume B e) by (apply sum_nonneg; intros; apply Hw).
  rewrite <- (Rabs_right (volume B e)) by lra. rewrite <- C57_von_mises_scales. apply von_mises_ext. intros i j Hi Hj.
  unfold stress_field, volume. rewrite <- sum_scal_r. apply sum_ext. intros q Hq.
  rewrite (stress_ext _ _ (grad_of B u e q) g); [ring|intros a b Ha Hb; now apply Hg|exact Hi|exact Hj].
Qed.
Print Assumptions C85_volume_times_stress.
(* so it is the stress exactly in elements of volume 1 or free of von Mises stress *)
Theorem C85_is_the_stress_iff_refuted : forall B nu E u e g, weights_ok B -> uniform_gradient B u e g ->
  let vm := von_mises (stress (lam_of E nu e) (mu_of E nu e) g) in
  (von_mises_field B nu E u e = vm <-> volume B e = 1 \/ vm = 0).
Proof.
  intros B nu E u e g Hw Hg vm. rewrite (C85_volume_times_stress B nu E u e g Hw Hg). fold vm. split.
  - intros H. assert ((volume B e - 1) * vm = 0) as K by lra. apply Rmult_integral in K as [K|K]; [left; lra|now right].
  - intros [-> | ->]; ring.
Qed.
Print Assumptions C85_is_the_stress_iff_refuted.
(* refinement: the same material in the same state of strain, in an element k times smaller, is reported with 1/k of the stress *)
Theorem C85_refinement_dilutes_stress : forall B B' nu E E' u u' e e' g k, weights_ok B -> weights_ok B' ->
  uniform_gradient B u e g -> uniform_gradient B' u' e' g -> E e = E' e' -> 0 < k -> volume B' e' = volume B e / k ->
  von_mises_field B' nu E' u' e' = von_mises_field B nu E u e / k.
Proof.
  intros B B' nu E E' u u' e e' g k Hw Hw' Hg Hg' HE Hk HV.
  rewrite (C85_volume_times_stress B nu E u e g Hw Hg), (C85_volume_times_stress B' nu E' u' e' g Hw' Hg').
  unfold lam_of, mu_of. rewrite HE, HV. field. lra.
Qed.
Print Assumptions C85_refinement_dilutes_stress.
(* Any element: the reported value divided by the volume is at most the largest
   von Mises stress in the element: peaks are averaged out, never exceeded. *)
Theorem C85_mean_below_peak : forall B nu E u e M, weights_ok B ->
  (forall q, (q < fb_nq B)%nat -> von_mises (stress_at B nu E u e q) <= M) ->
  von_mises_field B nu E u e <= volume B e * M.
Proof.
  intros B nu E u e M Hw HM. unfold von_mises_field, stress_field. eapply Rle_trans; [apply (von_mises_sum (fb_nq B) (fun q => fb_dx B e q) (stress_at B nu E u e)); intros; apply Hw|].
  unfold volume. rewrite <- sum_scal_r. apply sum_le. intros q Hq. rewrite Rmult_comm. apply Rmult_le_compat_l; [apply Hw|now apply HM].
Qed.
Print Assumptions C85_mean_below_peak.
(* ---------- frame independence ---------- *)
Lemma isometry Q a b : orthonormal Q -> sum 3 (fun i => sum 3 (fun k => Q i k * a k) * sum 3 (fun k => Q i k * b k)) = sum 3 (fun k => a k * b k).
Proof.
  intros H. transitivity (sum 3 (fun k => sum 3 (fun l => a k * b l * sum 3 (fun i => Q i k * Q i l)))).
  - unfold sum. cbn [seq map rsum fold_right]. ring.
  - transitivity (sum 3 (fun k => sum 3 (fun l => a k * b l * delta k l))).
    { apply sum_ext. intros k Hk. apply sum_ext. intros l Hl. now rewrite H. }
    unfold delta, sum. cbn [seq map rsum fold_right Nat.eqb]. ring.
Qed.
Lemma rotated_trace Q s : orthonormal Q -> trace (rotated Q s) = trace s.
Proof.
  intros H. transitivity (sum 3 (fun k => sum 3 (fun l => s k l * sum 3 (fun i => Q i k * Q i l)))).
  - unfold trace, rotated, sum. cbn [seq map rsum fold_right]. ring.
  - transitivity (sum 3 (fun k => sum 3 (fun l => s k l * delta k l))).
    { apply sum_ext. intros k Hk. apply sum_ext. intros l Hl. now rewrite H. }
    unfold delta, trace, sum. cbn [seq map rsum fold_right Nat.eqb]. ring.
Qed.
Lemma rotated_square Q s : orthonormal Q -> ddot (rotated Q s) (rotated Q s) = ddot s s.
Proof.
  intros H. unfold ddot.
  transitivity (sum 3 (fun i => sum 3 (fun l => sum 3 (fun k => Q i k * s k l) * sum 3 (fun k => Q i k * s k l)))).
  { apply sum_ext. intros i _. rewrite <- (isometry Q (fun l => sum 3 (fun k => Q i k * s k l)) (fun l => sum 3 (fun k => Q i k * s k l)) H).
    apply sum_ext. intros j _. f_equal; unfold rotated, sum; cbn [seq map rsum fold_right]; ring. }
  rewrite sum_swap. transitivity (sum 3 (fun l => sum 3 (fun k => s k l * s k l))); [|apply sum_swap].
  apply sum_ext. intros l _. exact (isometry Q (fun k => s k l) (fun k => s k l) H).
Qed.
Lemma dev_square s : ddot (deviator s) (deviator s) = ddot s s - trace s * trace s / 3.
Proof. unfold deviator, ddot, trace, delta, sum. cbn [seq map rsum fold_right Nat.eqb]. field. Qed.
Lemma rotated_sym Q s : sym3 s -> sym3 (rotated Q s).
Proof. intros (a & b & c). unfold sym3, rotated, sum. cbn [seq map rsum fold_right]. rewrite a, b, c. repeat split; ring. Qed.
Theorem C85_frame_independent : forall Q s, orthonormal Q -> sym3 s -> von_mises (rotated Q s) = von_mises s.
Proof.
  intros Q s HQ Hs. rewrite (C57_von_mises_textbook s Hs), (C57_von_mises_textbook _ (rotated_sym Q s Hs)).
  f_equal. f_equal. rewrite !dev_square, rotated_trace, rotated_square by exact HQ. reflexivity.
Qed.
Print Assumptions C85_frame_independent.

(* ---------- the integrated stresses are those of the loads ---------- *)
(* symmetric; zero for rigid motions *)
Theorem C85_symmetric_and_rigid : forall B nu E u e,
  (forall i j, stress_field B nu E u e i j = stress_field B nu E u e j i) /\
  ((forall q i j, (q < fb_nq B)%nat -> grad_of B u e q i j = - grad_of B u e q j i) -> eq3 (stress_field B nu E u e) (fun _ _ => 0)).
Proof.
  intros B nu E u e. split.
  - intros i j. unfold stress_field. apply sum_ext. intros q _. now rewrite stress_sym.
  - intros H i j Hi Hj. unfold stress_field. apply sum_zero. intros q Hq. unfold stress, trace, sym_grad.
    rewrite (H q i j Hq). pose proof (H q 0 0 Hq)%nat. pose proof (H q 1 1 Hq)%nat. pose proof (H q 2 2 Hq)%nat.
    replace (grad_of B u e q 0%nat 0%nat) with 0 by lra. replace (grad_of B u e q 1%nat 1%nat) with 0 by lra. replace (grad_of B u e q 2%nat 2%nat) with 0 by lra. ring.
Qed.
Print Assumptions C85_symmetric_and_rigid.
(* half of stress times strain is the element energy the optimiser uses *)
Theorem C85_energy : forall B nu E u e g, uniform_gradient B u e g ->
  strain_energy B nu E u e = / 2 * ddot (stress_field B nu E u e) (sym_grad g).
Proof.
  intros B nu E u e g Hg. unfold strain_energy, ddot, stress_field.
  transitivity (sum (fb_nq B) (fun q => / 2 * sum 3 (fun i => sum 3 (fun j => stress (lam_of E nu e) (mu_of E nu e) (grad_of B u e q) i j * fb_dx B e q * sym_grad g i j)))).
  - apply sum_ext. intros q Hq. unfold energy_density, ddot. rewrite Rmult_assoc, <- sum_scal_r. f_equal. apply sum_ext. intros i Hi. rewrite <- sum_scal_r. apply sum_ext. intros j Hj.
    assert (sym_grad (grad_of B u e q) i j = sym_grad g i j) as -> by (unfold sym_grad; now rewrite !Hg). ring.
  - rewrite sum_scal. f_equal. rewrite sum_swap. apply sum_ext. intros i _. rewrite sum_swap. apply sum_ext. intros j _. now rewrite <- sum_scal_r.
Qed.
Print Assumptions C85_energy.
Lemma bilinear_stiffness B nu E u v : dot (fb_n B) v (mv (fb_n B) (stiffness B nu E) u) =
  sum (fb_ne B) (fun e => sum (fb_nq B) (fun q => ddot (grad_of B v e q) (stress_at B nu E u e q) * fb_dx B e q)).
Proof.
  set (n := fb_n B). unfold dot, mv, stiffness.
  set (F := fun e q l k => stiffness_form (lam_of E nu e) (mu_of E nu e) (fb_grad B e q l) (fb_grad B e q k) * fb_dx B e q).
  transitivity (sum n (fun k => sum n (fun l => sum (fb_ne B) (fun e => sum (fb_nq B) (fun q => v k * u l * F e q l k))))).
  { apply sum_ext; intros k _. rewrite <- sum_scal. apply sum_ext; intros l _.
    rewrite <- sum_scal_r, <- sum_scal. apply sum_ext; intros e _.
    rewrite <- sum_scal_r, <- sum_scal. apply sum_ext; intros q _. unfold F. ring. }
  transitivity (sum n (fun k => sum (fb_ne B) (fun e => sum n (fun l => sum (fb_nq B) (fun q => v k * u l * F e q l k))))).
  { apply sum_ext; intros k _. apply sum_swap. }
  rewrite sum_swap. apply sum_ext; intros e _.
  transitivity (sum n (fun k => sum (fb_nq B) (fun q => sum n (fun l => v k * u l * F e q l k)))).
  { apply sum_ext; intros k _. apply sum_swap. }
  rewrite sum_swap. apply sum_ext; intros q _.
  unfold stress_at. rewrite <- form_stress, form_grad. rewrite <- sum_scal_r. apply sum_ext; intros k _.
  rewrite (form_sym _ _ (fb_grad B e q k)), form_grad. rewrite <- sum_scal, <- sum_scal_r. apply sum_ext; intros l _. unfold F. ring.
Qed.
(* Mean stress theorem.  v displaces the whole body with constant gradient H (for
   example x -> (x,0,0): H = 1 in the 0,0 entry).  The sum of the reported stress
   tensors, contracted with H, is the work of all nodal forces (loads and
   reactions, K u) in v.  So the sum over the elements is the total of stress times
   volume; no division by a volume is needed or made. *)
Theorem C85_mean_stress : forall B nu E u v H, (forall e, (e < fb_ne B)%nat -> uniform_gradient B v e H) ->
  ddot H (fun i j => sum (fb_ne B) (fun e => stress_field B nu E u e i j)) = dot (fb_n B) v (mv (fb_n B) (stiffness B nu E) u).
Proof.
  intros B nu E u v H HH. rewrite bilinear_stiffness.
  transitivity (sum (fb_ne B) (fun e => ddot H (stress_field B nu E u e))).
  - symmetry. unfold ddot. rewrite sum_swap. apply sum_ext. intros i _. rewrite sum_swap. apply sum_ext. intros j _. now rewrite sum_scal.
  - apply sum_ext. intros e He. unfold stress_field, ddot.
    transitivity (sum 3 (fun i => sum 3 (fun j => sum (fb_nq B) (fun q => H i j * (stress_at B nu E u e q i j * fb_dx B e q))))).
    { apply sum_ext. intros i _. apply sum_ext. intros j _. now rewrite <- sum_scal. }
    transitivity (sum 3 (fun i => sum (fb_nq B) (fun q => sum 3 (fun j => H i j * (stress_at B nu E u e q i j * fb_dx B e q))))).
    { apply sum_ext. intros i _. apply sum_swap. }
    rewrite sum_swap. apply sum_ext. intros q Hq. rewrite <- sum_scal_r. apply sum_ext. intros i Hi. rewrite <- sum_scal_r. apply sum_ext. intros j Hj.
    rewrite (HH e He q i j Hq Hi Hj). ring.
Qed.
Print Assumptions C85_mean_stress.

(* ---------- a concrete case: a bar of 8 equal cubes of edge 1/2 stretched by 1 ---------- *)
Definition bar8 : fembasis := mkBasis 1 8 1 (fun _ _ => / 8) (fun _ _ _ i j => if Nat.eqb i 0 && Nat.eqb j 0 then 1 else 0).
Definition stretch : tensor := fun i j => if Nat.eqb i 0 && Nat.eqb j 0 then 1 else 0.
Example C85_instance : weights_ok bar8 /\ uniform_gradient bar8 (fun _ => 1) 0 stretch /\ volume bar8 0 = / 8 /\
  von_mises (stress (lam_of (fun _ => 210) 0 0) (mu_of (fun _ => 210) 0 0) stretch) = 210 /\
  von_mises_field bar8 0 (fun _ => 210) (fun _ => 1) 0 = 210 / 8 /\ orthonormal (fun i j => if Nat.eqb (i + j) 2 then -1 else 0).
Proof.
  assert (W : weights_ok bar8) by (intros e q; cbn; lra).
  assert (U : uniform_gradient bar8 (fun _ => 1) 0 stretch).
  { intros q i j _ _ _. unfold grad_of, sum, bar8. cbn [fb_n fb_grad seq map rsum fold_right]. unfold stretch. destruct (Nat.eqb i 0 && Nat.eqb j 0); ring. }
  assert (V : volume bar8 0 = / 8) by (unfold volume, sum, bar8; cbn; lra).
  assert (M : von_mises (stress (lam_of (fun _ => 210) 0 0) (mu_of (fun _ => 210) 0 0) stretch) = 210).
  { rewrite (von_mises_ext _ (fun i j => if Nat.eqb i 0 && Nat.eqb j 0 then 210 else 0)).
    - rewrite C57_uniaxial. apply Rabs_right. lra.
    - intros i j Hi Hj. unfold stress, sym_grad, trace, stretch, delta, lam_of, mu_of, Material_model.lam_mu. cbn [fst snd].
      destruct i as [|[|[|]]]; [| | |lia]; destruct j as [|[|[|]]]; try lia; cbn [Nat.eqb andb]; field. }
  split; [exact W|]. split; [exact U|]. split; [exact V|]. split; [exact M|]. split.
  - rewrite (C85_volume_times_stress bar8 0 (fun _ => 210) (fun _ => 1) 0 stretch W U), V, M. field.
  - intros k l Hk Hl. unfold sum, delta. cbn [seq map rsum fold_right].
    destruct k as [|[|[|]]]; [| | |lia]; destruct l as [|[|[|]]]; try lia; cbn [Nat.eqb Nat.add]; ring.
Qed.
