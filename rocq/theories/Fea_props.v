(* C56-C60: compliance of one and several loads, stress measures, energies. *)
From Verif Require Import Base Sums Material_model Material_proofs Mesh_model Mesh_proofs Fea_model Fea_spec Fea_proofs.
Open Scope R_scope.
Open Scope list_scope.

(* ------------------------------------------------------------------ C56 *)
(* the linear solvers are only required to solve *)
Definition exact (n : nat) (slv : mat -> vec -> vec) (A : mat) (bs : list vec) : Prop :=
  forall b, In b bs -> solves n A b (slv A b).
Definition exact_multi (n : nat) (slvm : mat -> list vec -> list vec) (A : mat) (bs : list vec) : Prop :=
  Forall2 (solves n A) bs (slvm A bs).

Lemma single_value n slv K D f : solves n (enforceK D K) (enforceF D f) (slv (enforceK D K) (enforceF D f)) ->
  equilibrium n K D f (snd (compliance_single n slv K D f)) /\
  fst (compliance_single n slv K D f) = work n D f (snd (compliance_single n slv K D f)).
Proof.
  intros H. unfold compliance_single. cbn [fst snd]. split; [now apply enforce_equilibrium|apply work_free].
Qed.
Lemma Forall2_map_l {A B C} (P : B -> C -> Prop) (f : A -> B) l m :
  Forall2 P (map f l) m <-> Forall2 (fun a c => P (f a) c) l m.
Proof.
  revert m; induction l as [|a l IH]; intros m; split; intros H; inversion H; subst; cbn [map]; try constructor; auto;
    now apply IH.
Qed.
Lemma multi_value n slv slvm K D fs cs us :
  exact n slv (enforceK D K) (map (enforceF D) fs) -> exact_multi n slvm (enforceK D K) (map (enforceF D) fs) ->
  compliance_multi n slv slvm K D fs = Ok (cs, us) ->
  Forall2 (equilibrium n K D) fs us /\ cs = zipwith (fun f u => work n D f u) fs us.
Proof.
  intros He Hm. unfold compliance_multi. destruct fs as [|f [|g fs]]; [discriminate| |].
  - destruct (compliance_single n slv K D f) as [c u] eqn:E. intros H. injection H as <- <-.
    destruct (single_value n slv K D f) as [P Q]; [apply He; now left|]. rewrite E in P, Q. cbn [fst snd] in P, Q.
    split; [now constructor|cbn; now rewrite Q].
  - assert (G : forall l us, Forall2 (solves n (enforceK D K)) (map (enforceF D) l) us ->
      Forall2 (equilibrium n K D) l us /\
      zipwith (dot n) (map (enforceF D) l) us = zipwith (fun f u => work n D f u) l us).
    { intros l ws Hl. rewrite Forall2_map_l in Hl. split.
      + induction Hl; constructor; auto. now apply enforce_equilibrium.
      + induction Hl as [|x y xs ys Hxy Hl IH]; [reflexivity|]. cbn [map zipwith].
        rewrite IH. f_equal. apply work_dot. }
    intros H. injection H as <- <-. exact (G (f :: g :: fs) _ Hm).
Qed.
Lemma zipwith_nth2 {A B} (f : A -> B -> R) (l : list A) (m : list B) P k a b : Forall2 P l m -> (k < List.length l)%nat ->
  nth k (zipwith f l m) 0 = f (nth k l a) (nth k m b).
Proof.
  intros H; revert k; induction H; intros k Hk; cbn [List.length] in Hk; [lia|].
  destruct k; [reflexivity|]. cbn [zipwith nth]. apply IHForall2. lia.
Qed.
Lemma Forall2_nth2 {A B} (P : A -> B -> Prop) l m k a b : Forall2 P l m -> (k < List.length l)%nat ->
  P (nth k l a) (nth k m b).
Proof.
  intros H; revert k; induction H; intros k Hk; cbn [List.length] in Hk; [lia|].
  destruct k; [assumption|]. cbn [nth]. apply IHForall2. lia.
Qed.

Lemma Forall2_len {A B} (P : A -> B -> Prop) l m : Forall2 P l m -> List.length l = List.length m.
Proof. induction 1; cbn; congruence. Qed.

(* Every load case gets the value and the displacement of a single-load analysis of
   it, whatever solvers the two analyses use. *)
Theorem C56_multi_is_single n slv slvm slv' K D fs cs us :
  supported n K D ->
  exact n slv (enforceK D K) (map (enforceF D) fs) ->
  exact_multi n slvm (enforceK D K) (map (enforceF D) fs) ->
  exact n slv' (enforceK D K) (map (enforceF D) fs) ->
  compliance_multi n slv slvm K D fs = Ok (cs, us) ->
  List.length cs = List.length fs /\ List.length us = List.length fs /\
  forall k f, nth_error fs k = Some f ->
    let single := compliance_single n slv' K D f in
    nth_error cs k = Some (fst single) /\
    forall i, (i < n)%nat -> nth k us (fun _ => 0) i = snd single i.
Proof.
  intros S He Hm He' H. destruct (multi_value n slv slvm K D fs cs us He Hm H) as [P Q].
  pose proof (Forall2_len _ _ _ P) as L.
  assert (Lc : List.length cs = List.length fs).
  { rewrite Q. now apply zipwith_length. }
  split; [exact Lc|split; [now symmetry|]].
  intros k f Hf single. assert (Hk : (k < List.length fs)%nat) by (apply nth_error_Some; congruence).
  assert (Nf : nth k fs f = f) by (now apply nth_error_nth).
  assert (Hx : In (enforceF D f) (map (enforceF D) fs)) by (apply in_map; eapply nth_error_In; eauto).
  destruct (single_value n slv' K D f (He' _ Hx)) as [P1 Q1]. fold single in P1, Q1.
  assert (P2 : equilibrium n K D f (nth k us (fun _ => 0))).
  { pose proof (Forall2_nth2 _ fs us k f (fun _ => 0) P Hk) as Z. now rewrite Nf in Z. }
  assert (U : forall i, (i < n)%nat -> nth k us (fun _ => 0) i = snd single i).
  { intros i Hi. exact (equilibrium_unique n K D f _ _ S P2 P1 i Hi). }
  split; [|exact U].
  rewrite (nth_error_nth' cs 0) by lia. f_equal. rewrite Q, Q1.
  rewrite (zipwith_nth2 _ fs us _ k f (fun _ => 0) P Hk), Nf. now apply work_ext.
Qed.
Print Assumptions C56_multi_is_single.
(* scaling every force by s multiplies every compliance by s^2 and every displacement by s *)
Theorem C56_scales_quadratically n slv slvm K D fs s cs us cs' us' :
  supported n K D ->
  (forall bs, exact n slv (enforceK D K) bs) -> (forall bs, exact_multi n slvm (enforceK D K) bs) ->
  objectives n slv slvm K D fs 1 = Ok (cs, us) -> objectives n slv slvm K D fs s = Ok (cs', us') ->
  cs' = map (fun c => s ^ 2 * c) cs /\
  forall k i, (i < n)%nat -> (k < List.length fs)%nat -> nth k us' (fun _ => 0) i = s * nth k us (fun _ => 0) i.
Proof.
  intros S He Hm H1 H2. unfold objectives in *.
  destruct (multi_value n slv slvm K D _ cs us (He _) (Hm _) H1) as [P Q].
  destruct (multi_value n slv slvm K D _ cs' us' (He _) (Hm _) H2) as [P' Q'].
  apply Forall2_map_l in P. apply Forall2_map_l in P'. clear H1 H2.
  revert us us' cs cs' P P' Q Q'. induction fs as [|f fs IH]; intros us us' cs cs' P P' Q Q';
    inversion P; inversion P'; subst; [split; [reflexivity|intros; cbn in *; lia]|].
  rename y into u, y0 into u'.
  destruct (IH l' l'0 _ _ H3 H8 eq_refl eq_refl) as [IHc IHu].
  assert (U : forall i, (i < n)%nat -> u' i = s * u i).
  { apply (equilibrium_unique n K D (fun i => f i * s)); auto.
    pose proof (equilibrium_scale n K D _ u s H1) as Z. cbn in Z.
    destruct Z as [Z1 Z2]. split; [exact Z1|]. intros i Hi Hd. rewrite (Z2 i Hi Hd). ring. }
  split.
  - cbn [map zipwith]. rewrite IHc. f_equal.
    rewrite (work_ext n D _ u' (fun i => s * u i) U).
    transitivity (s * s * work n D (fun i => f i * 1) u); [|ring]. rewrite <- work_scale.
    apply sum_ext. intros i _. destruct (mem i D); ring.
  - intros [|k] i Hi Hk; cbn [nth]; [now apply U|]. apply IHu; [exact Hi|cbn in Hk; lia].
Qed.
Print Assumptions C56_scales_quadratically.
(* supports do not move; compliance = u.K u >= 0 *)
Theorem C56_supports_and_sign n slv slvm K D fs s cs us :
  (forall bs, exact n slv (enforceK D K) bs) -> (forall bs, exact_multi n slvm (enforceK D K) bs) ->
  objectives n slv slvm K D fs s = Ok (cs, us) ->
  (forall u i, In u us -> (i < n)%nat -> In i D -> u i = 0) /\
  cs = map (quad n K) us /\
  (semidefinite n K -> forall c, In c cs -> 0 <= c).
Proof.
  intros He Hm H1. unfold objectives in *.
  destruct (multi_value n slv slvm K D _ cs us (He _) (Hm _) H1) as [P Q].
  assert (Q2 : cs = map (quad n K) us).
  { rewrite Q. clear -P. revert P; generalize (map (fun (f : nat -> R) (i : nat) => f i * s) fs); clear fs; intros gs P. induction P as [|f u fs us Hu P IH]; [reflexivity|]. cbn [map zipwith].
    rewrite IH. f_equal. now apply work_quad. }
  split; [|split; [exact Q2|]].
  - intros u i Hu Hi Hd. clear -P Hu Hi Hd. revert P; generalize (map (fun (f : nat -> R) (i : nat) => f i * s) fs); clear fs; intros gs P. induction P as [|f v fs us E P IH]; [easy|].
    destruct Hu as [->|Hu]; [now apply E|auto].
  - intros SD c Hc. rewrite Q2 in Hc. apply in_map_iff in Hc as (u & <- & _). apply SD.
Qed.
Print Assumptions C56_supports_and_sign.
Theorem C56_no_load n slv slvm K D s : objectives n slv slvm K D [] s = Err IndexError.
Proof. reflexivity. Qed.
Print Assumptions C56_no_load.
(* adding the case does not disturb the other cases, and order does not matter *)
Theorem C56_cases_independent n slv slvm K D fs gs cs us cs' us' i j f :
  supported n K D ->
  (forall bs, exact n slv (enforceK D K) bs) -> (forall bs, exact_multi n slvm (enforceK D K) bs) ->
  compliance_multi n slv slvm K D fs = Ok (cs, us) -> compliance_multi n slv slvm K D gs = Ok (cs', us') ->
  nth_error fs i = Some f -> nth_error gs j = Some f -> nth_error cs i = nth_error cs' j.
Proof.
  intros S He Hm H1 H2 Hi Hj.
  destruct (C56_multi_is_single n slv slvm slv K D fs cs us S (He _) (Hm _) (He _) H1) as (_ & _ & A).
  destruct (C56_multi_is_single n slv slvm slv K D gs cs' us' S (He _) (Hm _) (He _) H2) as (_ & _ & B).
  destruct (A i f Hi) as [A1 _]. destruct (B j f Hj) as [B1 _]. cbn zeta in *. congruence.
Qed.
Print Assumptions C56_cases_independent.
(* K = [[2,-1],[-1,2]] with dof 0 held: loads (0,1) and (5,2) *)
Definition ex_K : mat := fun i j => if Nat.eqb i j then 2 else -1.
Definition ex_slv (A : mat) (b : vec) : vec := fun i => if Nat.eqb i 0 then b 0%nat else (b 1%nat + b 0%nat) / 2.
Example C56_instance : supported 2 ex_K [0%nat] /\
  (forall b, solves 2 (enforceK [0%nat] ex_K) b (ex_slv (enforceK [0%nat] ex_K) b)) /\
  exists us, compliance_multi 2 ex_slv (fun A => map (ex_slv A)) ex_K [0%nat]
    [(fun i => if Nat.eqb i 0 then 0 else 1); (fun i => if Nat.eqb i 0 then 5 else 2)] = Ok ([1 / 2; 2], us).
Proof.
  split; [|split].
  - intros u Hd (i & Hi & Hu). assert (u0 : u 0%nat = 0) by (apply Hd; [lia|now left]).
    assert (u1 : u 1%nat <> 0). { destruct i as [|[|i]]; [congruence|exact Hu|lia]. }
    unfold quad, dot, mv, sum, ex_K. cbn. rewrite u0. pose proof (Rsqr_pos_lt _ u1). unfold Rsqr in *. lra.
  - intros b i Hi. destruct i as [|[|i]]; [| |lia]; unfold mv, sum, enforceK, ex_slv, ex_K; cbn; lra.
  - unfold compliance_multi. cbn [map]. eexists. f_equal. f_equal.
    unfold dot, sum, enforceF, ex_slv. cbn [map zipwith seq rsum fold_right mem Nat.eqb existsb orb].
    f_equal; [field|]. f_equal. field.
Qed.

(* ------------------------------------------------------------------ C57 *)
Definition hydrostatic (a : R) : tensor := fun i j => if Nat.eqb i j then a else 0.
Definition tadd (s t : tensor) : tensor := fun i j => s i j + t i j.
Definition deviator (s : tensor) : tensor := fun i j => s i j - trace s / 3 * delta i j.
Definition sym3 (s : tensor) : Prop := s 0%nat 1%nat = s 1%nat 0%nat /\ s 1%nat 2%nat = s 2%nat 1%nat /\ s 2%nat 0%nat = s 0%nat 2%nat.

Theorem C57_von_mises_nonnegative s : 0 <= von_mises s.
Proof. apply sqrt_pos. Qed.
Print Assumptions C57_von_mises_nonnegative.
Theorem C57_hydrostatic_shift s a : von_mises (tadd s (hydrostatic a)) = von_mises s.
Proof. unfold von_mises, tadd, hydrostatic. cbn [Nat.eqb]. f_equal. ring. Qed.
Print Assumptions C57_hydrostatic_shift.
Theorem C57_hydrostatic_zero a : von_mises (hydrostatic a) = 0.
Proof. unfold von_mises, hydrostatic. cbn [Nat.eqb]. transitivity (sqrt 0); [f_equal; ring|apply sqrt_0]. Qed.
Print Assumptions C57_hydrostatic_zero.
(* the textbook definition sqrt(3/2 s':s') *)
Theorem C57_von_mises_textbook s : sym3 s -> von_mises s = sqrt (3 / 2 * ddot (deviator s) (deviator s)).
Proof.
  intros (a & b & c). unfold von_mises, ddot, deviator, trace, delta, sum. cbn [seq map rsum fold_right Nat.eqb].
  f_equal. rewrite a, b, c. field.
Qed.
Print Assumptions C57_von_mises_textbook.
Theorem C57_von_mises_zero_iff s : sym3 s -> (von_mises s = 0 <->
  forall i j, (i < 3)%nat -> (j < 3)%nat -> s i j = hydrostatic (s 0%nat 0%nat) i j).
Proof.
  intros (a & b & c). split.
  - intros H. unfold von_mises in H. apply sqrt_eq_0 in H.
    2:{ pose proof (pow2_ge_0 (s 0%nat 0%nat - s 1%nat 1%nat)). pose proof (pow2_ge_0 (s 1%nat 1%nat - s 2%nat 2%nat)).
        pose proof (pow2_ge_0 (s 2%nat 2%nat - s 0%nat 0%nat)). pose proof (pow2_ge_0 (s 0%nat 1%nat)).
        pose proof (pow2_ge_0 (s 1%nat 2%nat)). pose proof (pow2_ge_0 (s 2%nat 0%nat)). lra. }
    pose proof (pow2_ge_0 (s 0%nat 0%nat - s 1%nat 1%nat)) as h1. pose proof (pow2_ge_0 (s 1%nat 1%nat - s 2%nat 2%nat)) as h2.
    pose proof (pow2_ge_0 (s 2%nat 2%nat - s 0%nat 0%nat)) as h3. pose proof (pow2_ge_0 (s 0%nat 1%nat)) as h4.
    pose proof (pow2_ge_0 (s 1%nat 2%nat)) as h5. pose proof (pow2_ge_0 (s 2%nat 0%nat)) as h6.
    assert (Z : forall x, x ^ 2 = 0 -> x = 0). { intros x Hx. apply Rsqr_0_uniq. unfold Rsqr. rewrite <- Hx. ring. }
    assert (E1 : s 0%nat 0%nat - s 1%nat 1%nat = 0) by (apply Z; lra).
    assert (E2 : s 1%nat 1%nat - s 2%nat 2%nat = 0) by (apply Z; lra).
    assert (E4 : s 0%nat 1%nat = 0) by (apply Z; lra). assert (E5 : s 1%nat 2%nat = 0) by (apply Z; lra).
    assert (E6 : s 2%nat 0%nat = 0) by (apply Z; lra).
    intros i j Hi Hj. unfold hydrostatic.
    destruct i as [|[|[|]]]; [| | |lia]; destruct j as [|[|[|]]]; try lia; cbn [Nat.eqb]; lra.
  - intros H. unfold von_mises. rewrite <- sqrt_0. f_equal.
    rewrite (H 1 1)%nat, (H 2 2)%nat, (H 0 1)%nat, (H 1 2)%nat, (H 2 0)%nat by lia. unfold hydrostatic. cbn [Nat.eqb]. ring.
Qed.
Print Assumptions C57_von_mises_zero_iff.
Theorem C57_von_mises_scales s c : von_mises (fun i j => c * s i j) = Rabs c * von_mises s.
Proof.
  unfold von_mises. rewrite <- (sqrt_Rsqr_abs c), <- sqrt_mult_alt by apply Rle_0_sqr. f_equal. unfold Rsqr. ring.
Qed.
Print Assumptions C57_von_mises_scales.
Theorem C57_uniaxial a : von_mises (fun i j => if Nat.eqb i 0 && Nat.eqb j 0 then a else 0) = Rabs a.
Proof. unfold von_mises. cbn [Nat.eqb andb]. rewrite <- sqrt_Rsqr_abs. f_equal. unfold Rsqr. field. Qed.
Print Assumptions C57_uniaxial.
(* strain energy density *)
Theorem C57_energy_nonnegative lam mu g : 0 < mu -> 0 < 3 * lam + 2 * mu -> 0 <= energy_density lam mu g.
Proof.
  intros Hm Hk. rewrite energy_form, form_split. pose proof (pow2_ge_0 (trace (sym_grad g))).
  pose proof (sum3_sq_nonneg (fun i j => sym_grad g i j - trace (sym_grad g) / 3 * delta i j)).
  apply Rmult_le_pos; [lra|]. apply Rplus_le_le_0_compat; apply Rmult_le_pos; lra.
Qed.
Print Assumptions C57_energy_nonnegative.
Theorem C57_energy_zero_iff_strain_zero lam mu g : 0 < mu -> 0 < 3 * lam + 2 * mu ->
  (energy_density lam mu g = 0 <-> forall i j, (i < 3)%nat -> (j < 3)%nat -> sym_grad g i j = 0).
Proof.
  intros Hm Hk. split.
  - rewrite energy_form, form_split. intros H. pose proof (pow2_ge_0 (trace (sym_grad g))) as h1.
    pose proof (sum3_sq_nonneg (fun i j => sym_grad g i j - trace (sym_grad g) / 3 * delta i j)) as h2.
    set (S := sum 3 (fun i => sum 3 (fun j => (sym_grad g i j - trace (sym_grad g) / 3 * delta i j) ^ 2))) in *.
    assert (A : 0 <= (lam + 2 / 3 * mu) * trace (sym_grad g) ^ 2) by (apply Rmult_le_pos; lra).
    assert (B : 0 <= 2 * mu * S) by (apply Rmult_le_pos; lra).
    assert (A0 : (lam + 2 / 3 * mu) * trace (sym_grad g) ^ 2 = 0) by lra.
    assert (B0 : 2 * mu * S = 0) by lra.
    apply Rmult_integral in A0 as [A0|A0]; [lra|]. apply Rmult_integral in B0 as [B0|B0]; [lra|].
    assert (Z : forall x, x ^ 2 = 0 -> x = 0). { intros x Hx. apply Rsqr_0_uniq. unfold Rsqr. rewrite <- Hx. ring. }
    apply Z in A0. intros i j Hi Hj. unfold S in B0.
    pose proof (sum_zero_inv 3 _ (fun i _ => sum_nonneg 3 _ (fun j _ => pow2_ge_0 (sym_grad g i j - trace (sym_grad g) / 3 * delta i j))) B0 i Hi) as C0.
    cbn beta in C0.
    pose proof (sum_zero_inv 3 _ (fun j _ => pow2_ge_0 (sym_grad g i j - trace (sym_grad g) / 3 * delta i j)) C0 j Hj) as D0.
    apply Z in D0. rewrite A0 in D0. lra.
  - intros H. rewrite energy_form. unfold stiffness_form, trace, ddot, sum. cbn [seq map rsum fold_right].
    rewrite !H by lia. ring.
Qed.
Print Assumptions C57_energy_zero_iff_strain_zero.
(* infinitesimal rotations cost nothing, whatever the material *)
Theorem C57_rotation_free lam mu g : (forall i j, g i j = - g j i) -> energy_density lam mu g = 0.
Proof.
  intros H. rewrite energy_form. unfold stiffness_form, trace, ddot, sum, sym_grad. cbn [seq map rsum fold_right].
  rewrite (H 0 0)%nat, (H 1 1)%nat, (H 2 2)%nat, (H 1 0)%nat, (H 2 0)%nat, (H 2 1)%nat.
  pose proof (H 0 0)%nat. pose proof (H 1 1)%nat. pose proof (H 2 2)%nat.
  replace (g 0%nat 0%nat) with 0 by lra. replace (g 1%nat 1%nat) with 0 by lra. replace (g 2%nat 2%nat) with 0 by lra. field.
Qed.
Print Assumptions C57_rotation_free.
Theorem C57_stress_symmetric lam mu g i j : stress lam mu g i j = stress lam mu g j i.
Proof.
  unfold stress, sym_grad, delta. rewrite (Nat.eqb_sym j i). destruct (Nat.eqb i j); ring.
Qed.
Print Assumptions C57_stress_symmetric.
(* shear stress t: von Mises sqrt 3 t; unit shear strain *)
Example C57_instance : von_mises (fun i j => if Nat.eqb (i + j) 1 then 2 else 0) = sqrt 12 /\
  sym3 (fun i j => if Nat.eqb (i + j) 1 then 2 else 0) /\
  energy_density 1 1 (fun i j => if Nat.eqb i 0 && Nat.eqb j 1 then 2 else 0) = 2.
Proof.
  split; [|split].
  - unfold von_mises. cbn. f_equal. field.
  - unfold sym3. cbn. auto.
  - unfold energy_density, stress, ddot, sym_grad, trace, delta, sum. cbn. field.
Qed.

(* ------------------------------------------------------------------ C58 *)
Theorem C58_lame_recovers_young_poisson E nu lam mu : 0 < E -> -1 < nu < 1 / 2 -> lam_mu E nu = (lam, mu) ->
  mu * (3 * lam + 2 * mu) / (lam + mu) = E /\ lam / (2 * (lam + mu)) = nu.
Proof.
  intros HE Hn H. destruct (lam_mu_recover E nu lam mu Hn H) as (A & B & _). destruct (B HE) as [B1 B2].
  apply A; lra.
Qed.
Print Assumptions C58_lame_recovers_young_poisson.
Theorem C58_lame_positive E nu lam mu : 0 < E -> -1 < nu < 1 / 2 -> lam_mu E nu = (lam, mu) ->
  0 < mu /\ 0 < 3 * lam + 2 * mu /\ (0 <= nu -> 0 <= lam) /\ (nu < 0 -> lam < 0).
Proof.
  intros HE Hn H. destruct (lam_mu_recover E nu lam mu Hn H) as (A & B & C). destruct (B HE) as [B1 B2].
  split; [exact B1|split; [exact B2|split; [now apply C|]]].
  intros Hneg. unfold lam_mu in H. injection H as <- _. apply Rmult_lt_reg_r with ((1 + nu) * (1 - 2 * nu)).
  { apply Rmult_lt_0_compat; lra. }
  unfold Rdiv. rewrite Rmult_assoc, Rinv_l, Rmult_1_r, Rmult_0_l; [nra|]. apply Rmult_integral_contrapositive; split; lra.
Qed.
Print Assumptions C58_lame_positive.
Theorem C58_lame_linear E nu s : lam_mu (s * E) nu = (s * fst (lam_mu E nu), s * snd (lam_mu E nu)).
Proof. apply lam_mu_linear. Qed.
Print Assumptions C58_lame_linear.
(* uniaxial stretch with free sides: the stress is Young's modulus times the stretch
   and the sides stay stress free *)
Theorem C58_uniaxial_test E nu lam mu eps : 0 < E -> -1 < nu < 1 / 2 -> lam_mu E nu = (lam, mu) ->
  let g : tensor := fun i j => if Nat.eqb i j then (if Nat.eqb i 0 then eps else - nu * eps) else 0 in
  forall i j, (i < 3)%nat -> (j < 3)%nat ->
  stress lam mu g i j = if Nat.eqb i 0 && Nat.eqb j 0 then E * eps else 0.
Proof.
  intros HE Hn H g i j Hi Hj. unfold lam_mu in H. injection H as <- <-. unfold g, stress, sym_grad, trace, delta.
  destruct i as [|[|[|]]]; [| | |lia]; destruct j as [|[|[|]]]; try lia; cbn [Nat.eqb andb]; field; lra.
Qed.
Print Assumptions C58_uniaxial_test.
Example C58_instance : exists lam mu, lam_mu 210 (3 / 10) = (lam, mu) /\ 0 < 210 /\ -1 < 3 / 10 < 1 / 2 /\ mu = 1050 / 13.
Proof. unfold lam_mu. do 2 eexists. split; [reflexivity|]. split; [lra|split; [lra|]]. field. Qed.

(* ------------------------------------------------------------------ C59 *)
Section Energy.
Variables (B : fembasis) (nu : R).
Hypothesis Hnu : -1 < nu < 1 / 2.
Hypothesis Hw : weights_ok B.
Let n := fb_n B.

Theorem C59_stiffness_symmetric E : symmetric n (stiffness B nu E).
Proof. apply stiffness_sym. Qed.
Theorem C59_stiffness_semidefinite E : (forall e, (e < fb_ne B)%nat -> 0 <= E e) -> semidefinite n (stiffness B nu E).
Proof.
  intros HE u. unfold n. rewrite quad_energy. apply Rmult_le_pos; [lra|]. apply sum_nonneg. intros e He.
  apply energy_nonneg; auto.
Qed.
Theorem C59_element_energy_nonnegative E u e : 0 <= E e -> 0 <= strain_energy B nu E u e.
Proof. apply energy_nonneg; auto. Qed.
(* Clapeyron: the compliance is twice the sum of the element energies *)
Theorem C59_energies_sum_to_compliance E D f u :
  equilibrium n (stiffness B nu E) D f u ->
  work n D f u = 2 * sum (fb_ne B) (strain_energy B nu E u).
Proof. intros H. rewrite (work_quad n _ D f u H). apply quad_energy. Qed.
(* void elements of positive stiffness do not spoil solvability *)
Theorem C59_solvable_for_every_density E D :
  supported n (stiffness B nu (fun _ => 1)) D -> (forall e, (e < fb_ne B)%nat -> 0 < E e) ->
  supported n (stiffness B nu E) D.
Proof.
  intros S HE u Hd Hu.
  pose proof (C59_stiffness_semidefinite E (fun e He => Rlt_le _ _ (HE e He)) u) as P.
  destruct (Rle_lt_or_eq_dec _ _ P) as [P1|P1]; [exact P1|exfalso].
  pose proof (S u Hd Hu) as Q. unfold n in *. rewrite quad_energy in P1, Q.
  assert (Z : sum (fb_ne B) (strain_energy B nu E u) = 0) by lra.
  assert (Z1 : sum (fb_ne B) (strain_energy B nu (fun _ => 1) u) = 0).
  { apply sum_zero. intros e He.
    pose proof (sum_zero_inv (fb_ne B) _ (fun e He => energy_nonneg B nu E u e Hnu Hw (Rlt_le _ _ (HE e He))) Z e He) as Ze.
    rewrite energy_eq in Ze. rewrite energy_eq. apply Rmult_integral in Ze as [Ze|Ze]; [pose proof (HE e He); lra|]. now rewrite Ze, Rmult_0_r. }
  lra.
Qed.
(* rigid translations and rotations cost nothing: a displacement whose gradient is
   skew at every quadrature point has no energy and no internal force *)
Theorem C59_rigid_motion_free E u :
  (forall e q, (e < fb_ne B)%nat -> (q < fb_nq B)%nat -> forall i j, grad_of B u e q i j = - grad_of B u e q j i) ->
  (forall e, (e < fb_ne B)%nat -> strain_energy B nu E u e = 0) /\
  forall k, (k < n)%nat -> mv n (stiffness B nu E) u k = 0.
Proof.
  intros H. split.
  - intros e He. apply sum_zero. intros q Hq. rewrite C57_rotation_free by (now apply H). ring.
  - intros k Hk. unfold mv, stiffness.
    transitivity (sum (fb_ne B) (fun e => sum (fb_nq B) (fun q =>
      stiffness_form (lam_of E nu e) (mu_of E nu e) (grad_of B u e q) (fb_grad B e q k) * fb_dx B e q))).
    + transitivity (sum n (fun j => sum (fb_ne B) (fun e => sum (fb_nq B) (fun q =>
        u j * stiffness_form (lam_of E nu e) (mu_of E nu e) (fb_grad B e q j) (fb_grad B e q k) * fb_dx B e q)))).
      { apply sum_ext; intros j _. rewrite <- sum_scal_r. apply sum_ext; intros e _. rewrite <- sum_scal_r.
        apply sum_ext; intros q _. ring. }
      rewrite sum_swap. apply sum_ext; intros e _. rewrite sum_swap. apply sum_ext; intros q _.
      rewrite sum_scal_r. f_equal. now rewrite form_grad.
    + apply sum_zero; intros e He. apply sum_zero; intros q Hq.
      assert (Z : forall i j, sym_grad (grad_of B u e q) i j = 0).
      { intros i j. unfold sym_grad. rewrite (H e q He Hq i j). ring. }
      unfold stiffness_form, trace, ddot, sum. cbn [seq map rsum fold_right]. rewrite !Z. ring.
Qed.

(* ------------------------------------------------------------------ C60 *)
(* stiffer elements never make the structure softer *)
Theorem C60_stiffer_is_never_worse E E' D f u u' :
  (forall e, (e < fb_ne B)%nat -> 0 <= E e <= E' e) ->
  equilibrium n (stiffness B nu E) D f u -> equilibrium n (stiffness B nu E') D f u' ->
  work n D f u' <= work n D f u.
Proof.
  intros HE U U'. apply (compliance_mono n (stiffness B nu E) (stiffness B nu E')); auto.
  - apply stiffness_sym.
  - apply C59_stiffness_semidefinite. intros e He. apply HE; auto.
  - intros v. unfold n. rewrite !quad_energy. apply Rmult_le_compat_l; [lra|]. apply sum_le. intros e He.
    apply energy_mono; auto. apply HE; auto.
Qed.
(* more material never increases the compliance *)
Theorem C60_more_material_is_never_worse E0 Emin p (rho rho' : nat -> R) D f u u' :
  0 <= Emin -> Emin < E0 -> 0 < p ->
  (forall e, (e < fb_ne B)%nat -> 0 <= rho e <= rho' e) ->
  equilibrium n (stiffness B nu (fun e => E_simp (rho e) E0 Emin p)) D f u ->
  equilibrium n (stiffness B nu (fun e => E_simp (rho' e) E0 Emin p)) D f u' ->
  work n D f u' <= work n D f u.
Proof.
  intros He HE Hp Hr. apply C60_stiffer_is_never_worse. intros e Hee. destruct (Hr e Hee) as [R1 R2].
  assert (P : forall r, 0 < Rpower (Rmax r floor6) p) by (intros; apply Rpower_pos).
  split.
  - unfold E_simp. pose proof (P (rho e)). apply Rplus_le_le_0_compat; [lra|]. apply Rmult_le_pos; lra.
  - unfold E_simp. apply Rplus_le_compat_l, Rmult_le_compat_l; [lra|].
    apply Rpower_base_mono; [|lra]. split; [apply clamp_pos|]. apply Rmax_lub; [eapply Rle_trans; [exact R2|apply Rmax_l]|apply Rmax_r].
Qed.
(* scaling all moduli by s divides the displacement and the compliance by s *)
Theorem C60_modulus_scaling E D f u s : s <> 0 ->
  equilibrium n (stiffness B nu E) D f u ->
  equilibrium n (stiffness B nu (fun e => s * E e)) D f (fun i => u i / s) /\
  work n D f (fun i => u i / s) = work n D f u / s.
Proof.
  intros Hs [U1 U2].
  assert (L : forall k l, stiffness B nu (fun e => s * E e) k l = s * stiffness B nu E k l).
  { intros k l. unfold stiffness. rewrite <- sum_scal. apply sum_ext; intros e _. rewrite <- sum_scal. apply sum_ext; intros q _.
    rewrite !lam_lin, !mu_lin, !form_lin. ring. }
  split; [split|].
  - intros i Hi Hd. rewrite U1 by assumption. field. exact Hs.
  - intros i Hi Hd. rewrite <- (U2 i Hi Hd). apply sum_ext. intros j _. rewrite L. field. exact Hs.
  - unfold work. unfold Rdiv at 2. rewrite <- sum_scal_r. apply sum_ext. intros i _. destruct (mem i D); field; exact Hs.
Qed.
End Energy.
Print Assumptions C59_stiffness_symmetric.
Print Assumptions C59_stiffness_semidefinite.
Print Assumptions C59_element_energy_nonnegative.
Print Assumptions C59_energies_sum_to_compliance.
Print Assumptions C59_solvable_for_every_density.
Print Assumptions C59_rigid_motion_free.
Print Assumptions C60_stiffer_is_never_worse.
Print Assumptions C60_more_material_is_never_worse.
Print Assumptions C60_modulus_scaling.
(* two elements sharing two stretching dofs, nu = 0, dof 1 held, load 3 on dof 0;
   stiffening one element from 1 to 2 lowers the compliance from 9/2 to 3 *)
Definition ex_B : fembasis := mkBasis 2 2 1 (fun _ _ => 1)
  (fun _ _ k i j => if Nat.eqb i k && Nat.eqb j k then 1 else 0).
Definition ex_f : vec := fun i => if Nat.eqb i 0 then 3 else 7.
Lemma ex_stiffness E k l : (k < 2)%nat -> (l < 2)%nat ->
  stiffness ex_B 0 E k l = if Nat.eqb k l then E 0%nat + E 1%nat else 0.
Proof.
  intros Hk Hl. unfold stiffness, lam_of, mu_of, lam_mu, stiffness_form, trace, ddot, sym_grad, sum, ex_B.
  destruct k as [|[|]]; [| |lia]; destruct l as [|[|]]; try lia; cbn; field.
Qed.
Example C59_C60_instance : -1 < 0 < 1 / 2 /\ weights_ok ex_B /\
  supported (fb_n ex_B) (stiffness ex_B 0 (fun _ => 1)) [1%nat] /\
  exists u u', equilibrium (fb_n ex_B) (stiffness ex_B 0 (fun _ => 1)) [1%nat] ex_f u /\
    equilibrium (fb_n ex_B) (stiffness ex_B 0 (fun e => if Nat.eqb e 0 then 2 else 1)) [1%nat] ex_f u' /\
    work (fb_n ex_B) [1%nat] ex_f u = 9 / 2 /\ work (fb_n ex_B) [1%nat] ex_f u' = 3.
Proof.
  split; [lra|split; [intros e q; cbn; lra|split]].
  - intros u Hd (i & Hi & Hu). change (fb_n ex_B) with 2%nat in *.
    assert (u1 : u 1%nat = 0) by (apply Hd; [lia|now left]).
    assert (u0 : u 0%nat <> 0). { destruct i as [|[|i]]; [exact Hu|congruence|lia]. }
    unfold quad, dot, mv, sum. cbn [seq map rsum fold_right]. rewrite !ex_stiffness by lia. cbn [Nat.eqb].
    rewrite u1. pose proof (Rsqr_pos_lt _ u0). unfold Rsqr in *. lra.
  - change (fb_n ex_B) with 2%nat.
    exists (fun i => if Nat.eqb i 0 then 3 / 2 else 0), (fun i => if Nat.eqb i 0 then 1 else 0).
    split; [|split; [|split]].
    + split; intros i Hi Hd; [destruct Hd as [<-|[]]; reflexivity|].
      destruct i as [|[|i]]; [| |lia]; [|exfalso; apply Hd; now left].
      unfold mv, sum. cbn [seq map rsum fold_right]. rewrite !ex_stiffness by lia. cbn. unfold ex_f; cbn. lra.
    + split; intros i Hi Hd; [destruct Hd as [<-|[]]; reflexivity|].
      destruct i as [|[|i]]; [| |lia]; [|exfalso; apply Hd; now left].
      unfold mv, sum. cbn [seq map rsum fold_right]. rewrite !ex_stiffness by lia. cbn. unfold ex_f; cbn. lra.
    + unfold work, sum, ex_f. cbn. lra.
    + unfold work, sum, ex_f. cbn. lra.
Qed.
