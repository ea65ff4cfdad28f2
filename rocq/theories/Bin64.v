(* IEEE binary64 as used by CPython and numpy: the standard library's SpecFloat
   operations (the ones computed with in Sched_float) are Flocq's, hence the
   correctly rounded real operations.  Flocq supplies theorems, no axioms. *)
From Coq Require Import ZArith Reals Lia Lra Psatz Floats.SpecFloat.
From Flocq Require Import Core Relative BinarySingleNaN.
From Verif Require Import Sched_float.
Open Scope R_scope.

#[export] Instance Hprec : Prec_gt_0 53 := eq_refl.
#[export] Instance Hmax : Prec_lt_emax 53 1024 := eq_refl.
Notation b64 := (binary_float 53 1024).
Notation fexp64 := (SpecFloat.fexp 53 1024).
Definition rnd (x : R) : R := round radix2 fexp64 ZnearestE x.
Definition u64 : R := / 2 ^ 53.
(* the real number a finite float stands for *)
Definition val (x : spec_float) : R := SF2R radix2 x.

(* ---------- SpecFloat = Flocq ---------- *)
Lemma nearest_even_eq s m l : round_nearest_even m l = choice_mode mode_NE s m l.
Proof. destruct l as [|[]]; try reflexivity. cbn. unfold Round.cond_incr. now destruct (Z.even m). Qed.
Lemma round_aux_eq sx mx ex lx : SpecFloat.binary_round_aux 53 1024 sx mx ex lx = binary_round_aux 53 1024 mode_NE sx mx ex lx.
Proof.
  unfold SpecFloat.binary_round_aux, binary_round_aux. set (z := shr_fexp _ _ _ _ _). destruct z as [mrs' e']; cbn zeta.
  now rewrite (nearest_even_eq sx).
Qed.
Lemma round_eq s m e : SpecFloat.binary_round 53 1024 s m e = binary_round 53 1024 mode_NE s m e.
Proof. unfold SpecFloat.binary_round, binary_round, shl_align_fexp. set (z := shl_align _ _ _). destruct z as [mz ez]. apply round_aux_eq. Qed.
Definition bnorm (m e : Z) : b64 := binary_normalize 53 1024 Hprec Hmax mode_NE m e false.
Lemma bnorm_eq m e : SpecFloat.binary_normalize 53 1024 m e false = B2SF (bnorm m e).
Proof. unfold bnorm. destruct m; cbn; [reflexivity| |]; rewrite B2SF_SF2B; apply round_eq. Qed.
Lemma fint_eq z : fint z = B2SF (bnorm z 0). Proof. apply bnorm_eq. Qed.
Definition bdiv : b64 -> b64 -> b64 := Bdiv mode_NE.
Definition bsub : b64 -> b64 -> b64 := Bminus mode_NE.
Definition badd : b64 -> b64 -> b64 := Bplus mode_NE.
Definition bmul : b64 -> b64 -> b64 := Bmult mode_NE.
Lemma fadd_eq x y : fadd (B2SF x) (B2SF y) = B2SF (badd x y).
Proof.
  unfold fadd, badd. destruct x as [sx|sx| |sx mx ex Bx], y as [sy|sy| |sy my ey By]; try reflexivity; try (cbn; now destruct (Bool.eqb _ _)).
  apply bnorm_eq.
Qed.
Lemma fsub_eq x y : fsub (B2SF x) (B2SF y) = B2SF (bsub x y).
Proof.
  unfold fsub, bsub. destruct x as [sx|sx| |sx mx ex Bx], y as [sy|sy| |sy my ey By]; try reflexivity; try (cbn; now destruct (Bool.eqb _ _)).
  cbn [SFsub B2SF Bminus]. unfold Zminus. rewrite <- cond_Zopp_negb. apply bnorm_eq.
Qed.
Lemma fmul_eq x y : fmul (B2SF x) (B2SF y) = B2SF (bmul x y).
Proof.
  unfold fmul, bmul. destruct x as [sx|sx| |sx mx ex Bx], y as [sy|sy| |sy my ey By]; try reflexivity.
  cbn [SFmul B2SF Bmult]. rewrite B2SF_SF2B. apply round_aux_eq.
Qed.
Lemma fdiv_eq x y : fdiv (B2SF x) (B2SF y) = B2SF (bdiv x y).
Proof.
  unfold fdiv, bdiv. destruct x as [sx|sx| |sx mx ex Bx], y as [sy|sy| |sy my ey By]; try reflexivity.
  cbn [SFdiv B2SF Bdiv]. rewrite B2SF_SF2B. change prec with 53%Z. change emax with 1024%Z. set (z := SFdiv_core_binary _ _ _ _ _ _). destruct z as [[mz ez] lz]. apply round_aux_eq.
Qed.

(* ---------- rounding ---------- *)
Lemma rnd_le x y : x <= y -> rnd x <= rnd y.
Proof. intros H. apply round_le; [apply fexp_correct; reflexivity|apply valid_rnd_N|exact H]. Qed.
Lemma rnd_id x : generic_format radix2 fexp64 x -> rnd x = x.
Proof. intros H. apply round_generic; [apply valid_rnd_N|exact H]. Qed.
Lemma format_int z e : (Z.abs z < 2 ^ 53)%Z -> (-1074 <= e)%Z -> generic_format radix2 fexp64 (IZR z * bpow radix2 e).
Proof.
  intros Hz He. change fexp64 with (FLT_exp (-1074) 53). apply generic_format_FLT.
  exists (Float radix2 z e); [reflexivity|exact Hz|exact He].
Qed.
Lemma rnd_IZR z : (Z.abs z < 2 ^ 53)%Z -> rnd (IZR z) = IZR z.
Proof. intros H. apply rnd_id. replace (IZR z) with (IZR z * bpow radix2 0) by (cbn; ring). apply format_int; [exact H|lia]. Qed.
Lemma rnd_0 : rnd 0 = 0. Proof. exact (rnd_IZR 0 eq_refl). Qed.
Lemma rnd_nonneg x : 0 <= x -> 0 <= rnd x.
Proof. intros H. rewrite <- rnd_0. now apply rnd_le. Qed.
(* small numbers: no underflow, no overflow *)
Lemma u64_bpow : / 2 * bpow radix2 (- 53 + 1) = u64.
Proof. unfold u64. change (bpow radix2 (-53 + 1)) with (/ IZR (2 ^ 52)). change (IZR (2 ^ 52)) with (IZR 4503599627370496). replace (2 ^ 53) with 9007199254740992 by (simpl; ring). lra. Qed.
Lemma tiny_bound : bpow radix2 (-1074 + 53 - 1) <= / IZR (2 ^ 200).
Proof. change (/ IZR (2 ^ 200)) with (bpow radix2 (-200)). apply bpow_le. lia. Qed.
Lemma rnd_rel x : / IZR (2 ^ 200) <= Rabs x -> Rabs (rnd x - x) <= u64 * Rabs x.
Proof.
  intros H. rewrite <- u64_bpow. apply (relative_error_N_FLT radix2 (-1074) 53 eq_refl (fun z => negb (Z.even z))).
  eapply Rle_trans; [apply tiny_bound|exact H].
Qed.
Lemma rnd_rel0 x : x = 0 \/ / IZR (2 ^ 200) <= Rabs x -> Rabs (rnd x - x) <= u64 * Rabs x.
Proof. intros [-> |H]; [rewrite rnd_0, Rminus_0_r, Rabs_R0; lra|now apply rnd_rel]. Qed.

(* ---------- the operations on reals ---------- *)
Definition fin (x : b64) : Prop := is_finite x = true.
Lemma small_finite x : Rabs x <= IZR (2 ^ 200) -> Rlt_bool (Rabs (rnd x)) (bpow radix2 1024) = true.
Proof.
  intros H. apply Rlt_bool_true. apply Rle_lt_trans with (IZR (2 ^ 200)).
  - replace (IZR (2 ^ 200)) with (rnd (IZR (2 ^ 200))).
    + apply Rabs_le. apply Rabs_le_inv in H. split; [|now apply rnd_le].
      rewrite <- (Ropp_involutive (rnd x)). apply Ropp_le_contravar.
      unfold rnd at 1. rewrite <- round_NE_opp. apply rnd_le. lra.
    + apply rnd_id. change (IZR (2 ^ 200)) with (bpow radix2 200). apply generic_format_bpow. cbn. lia.
  - change (IZR (2 ^ 200)) with (bpow radix2 200). apply bpow_lt. lia.
Qed.
Lemma badd_val x y : fin x -> fin y -> Rabs (B2R x + B2R y) <= IZR (2 ^ 200) -> B2R (badd x y) = rnd (B2R x + B2R y) /\ fin (badd x y).
Proof.
  intros Hx Hy H. pose proof (Bplus_correct 53 1024 Hprec Hmax mode_NE x y Hx Hy) as C.
  change (round radix2 fexp64 (round_mode mode_NE) (B2R x + B2R y)) with (rnd (B2R x + B2R y)) in C. rewrite (small_finite _ H) in C. tauto.
Qed.
Lemma bsub_val x y : fin x -> fin y -> Rabs (B2R x - B2R y) <= IZR (2 ^ 200) -> B2R (bsub x y) = rnd (B2R x - B2R y) /\ fin (bsub x y).
Proof.
  intros Hx Hy H. pose proof (Bminus_correct 53 1024 Hprec Hmax mode_NE x y Hx Hy) as C.
  change (round radix2 fexp64 (round_mode mode_NE) (B2R x - B2R y)) with (rnd (B2R x - B2R y)) in C. rewrite (small_finite _ H) in C. tauto.
Qed.
Lemma bmul_val x y : fin x -> fin y -> Rabs (B2R x * B2R y) <= IZR (2 ^ 200) -> B2R (bmul x y) = rnd (B2R x * B2R y) /\ fin (bmul x y).
Proof.
  intros Hx Hy H. pose proof (Bmult_correct 53 1024 Hprec Hmax mode_NE x y) as C.
  change (round radix2 fexp64 (round_mode mode_NE) (B2R x * B2R y)) with (rnd (B2R x * B2R y)) in C. rewrite (small_finite _ H) in C.
  unfold fin in *. rewrite Hx, Hy in C. tauto.
Qed.
Lemma bdiv_val x y : fin x -> B2R y <> 0 -> Rabs (B2R x / B2R y) <= IZR (2 ^ 200) -> B2R (bdiv x y) = rnd (B2R x / B2R y) /\ fin (bdiv x y).
Proof.
  intros Hx Hy H. pose proof (Bdiv_correct 53 1024 Hprec Hmax mode_NE x y Hy) as C.
  change (round radix2 fexp64 (round_mode mode_NE) (B2R x / B2R y)) with (rnd (B2R x / B2R y)) in C. rewrite (small_finite _ H) in C.
  unfold fin in *. rewrite Hx in C. tauto.
Qed.
Lemma bnorm_val m e : Rabs (IZR m * bpow radix2 e) <= IZR (2 ^ 200) -> B2R (bnorm m e) = rnd (IZR m * bpow radix2 e) /\ fin (bnorm m e).
Proof.
  intros H. pose proof (binary_normalize_correct 53 1024 Hprec Hmax mode_NE m e false) as C. cbv zeta in C.
  change (round radix2 fexp64 (round_mode mode_NE) (F2R {| Fnum := m; Fexp := e |})) with (rnd (IZR m * bpow radix2 e)) in C. rewrite (small_finite _ H) in C.
  unfold bnorm, fin. tauto.
Qed.
Lemma big_200 z : (Z.abs z <= 2 ^ 53)%Z -> Rabs (IZR z) <= IZR (2 ^ 200).
Proof. intros H. rewrite <- abs_IZR. apply IZR_le. eapply Z.le_trans; [exact H|]. now apply Z.leb_le. Qed.
Definition bint (z : Z) : b64 := bnorm z 0.
Lemma bint_val z : (Z.abs z < 2 ^ 53)%Z -> B2R (bint z) = IZR z /\ fin (bint z).
Proof.
  intros H. unfold bint. destruct (bnorm_val z 0) as (E & F).
  - cbn [bpow]. rewrite Rmult_1_r. apply big_200. lia.
  - split; [|exact F]. rewrite E. cbn [bpow]. rewrite Rmult_1_r. now apply rnd_IZR.
Qed.
Lemma val_B2SF (x : b64) : val (B2SF x) = B2R x.
Proof. apply SF2R_B2SF. Qed.

(* ---------- fmod, floor, floor division ---------- *)
Lemma bounded_facts m e : SpecFloat.bounded 53 1024 m e = true -> (Zpos m < 2 ^ 53)%Z /\ (-1074 <= e)%Z.
Proof.
  intros H. unfold SpecFloat.bounded in H. apply andb_prop in H. destruct H as (H & _). unfold canonical_mantissa in H.
  apply Zeq_bool_eq in H. unfold SpecFloat.fexp, SpecFloat.emin in H. rewrite Digits.Zpos_digits2_pos in H.
  split; [|lia]. apply (Digits.Zpower_gt_Zdigits radix2 53 (Zpos m)). lia.
Qed.
Definition Rfl (x : R) : Z := Zfloor x.
Lemma ffmod_val (x y : b64) : 0 < B2R x <= IZR (2 ^ 100) -> 0 < B2R y -> exists r : b64, ffmod (B2SF x) (B2SF y) = B2SF r /\ fin r /\
  B2R r = B2R x - IZR (Zfloor (B2R x / B2R y)) * B2R y.
Proof.
  intros (Hx & Hx2) Hy. destruct x as [sx|sx| |sx m1 e1 B1]; try (cbn in Hx; lra). destruct y as [sy|sy| |sy m2 e2 B2]; try (cbn in Hy; lra).
  assert (sx = false) as ->. { destruct sx; [|reflexivity]. exfalso. revert Hx. cbn [B2R]. apply Rle_not_lt, F2R_le_0. cbn. lia. }
  assert (sy = false) as ->. { destruct sy; [|reflexivity]. exfalso. revert Hy. cbn [B2R]. apply Rle_not_lt, F2R_le_0. cbn. lia. }
  destruct (bounded_facts _ _ B1) as (M1 & E1). destruct (bounded_facts _ _ B2) as (M2 & E2).
  cbn [ffmod B2SF]. set (e := Z.min e1 e2). set (k1 := (Zpos m1 * 2 ^ (e1 - e))%Z). set (k2 := (Zpos m2 * 2 ^ (e2 - e))%Z).
  assert (P1 : (0 < 2 ^ (e1 - e))%Z) by (apply Z.pow_pos_nonneg; lia). assert (P2 : (0 < 2 ^ (e2 - e))%Z) by (apply Z.pow_pos_nonneg; lia).
  assert (K1 : (0 < k1)%Z) by (unfold k1; lia). assert (K2 : (0 < k2)%Z) by (unfold k2; lia).
  assert (SH : forall m ee, (e <= ee)%Z -> F2R (Float radix2 m ee) = IZR (m * 2 ^ (ee - e)) * bpow radix2 e).
  { intros m ee H. unfold F2R. cbn [Fnum Fexp]. rewrite mult_IZR. change 2%Z with (radix_val radix2) at 1. rewrite IZR_Zpower by lia.
    rewrite Rmult_assoc, <- bpow_plus. do 2 f_equal. lia. }
  assert (X : B2R (B754_finite false m1 e1 B1 : b64) = IZR k1 * bpow radix2 e) by (apply SH; lia).
  assert (Y : B2R (B754_finite false m2 e2 B2 : b64) = IZR k2 * bpow radix2 e) by (apply SH; lia).
  assert (Q : B2R (B754_finite false m1 e1 B1 : b64) / B2R (B754_finite false m2 e2 B2 : b64) = IZR k1 / IZR k2).
  { rewrite X, Y. field. split; [apply not_0_IZR; lia|]. apply Rgt_not_eq, bpow_gt_0. }
  rewrite Q, (Zfloor_div k1 k2) by lia. pose proof (Z.mod_pos_bound k1 k2 K2) as MB.
  pose proof (Z.mod_le k1 k2 ltac:(lia) K2) as ML.
  assert (S : (Z.abs (k1 mod k2) < 2 ^ 53)%Z).
  { rewrite Z.abs_eq by lia. destruct (Z.min_spec e1 e2) as [(? & Em)|(? & Em)].
    - assert (k1 = Zpos m1) by (unfold k1, e; rewrite Em, Z.sub_diag; lia). lia.
    - assert (k2 = Zpos m2) by (unfold k2, e; rewrite Em, Z.sub_diag; lia). lia. }
  exists (bnorm (k1 mod k2) e). split; [apply bnorm_eq|]. destruct (bnorm_val (k1 mod k2) e) as (V & F).
  - rewrite Rabs_mult, (Rabs_right (bpow radix2 e)) by (apply Rle_ge, bpow_ge_0). rewrite <- abs_IZR, Z.abs_eq by lia.
    apply Rle_trans with (IZR k1 * bpow radix2 e); [apply Rmult_le_compat_r; [apply bpow_ge_0|apply IZR_le; lia]|].
    rewrite <- X. eapply Rle_trans; [exact Hx2|]. apply IZR_le. now apply Z.leb_le.
  - split; [exact F|]. rewrite V. rewrite rnd_id by (apply format_int; [exact S|unfold e; lia]).
    rewrite X, Y, Zmod_eq_full by lia. rewrite minus_IZR, mult_IZR. ring.
Qed.
Lemma ffloor_val (x : b64) : fin x -> 0 <= B2R x -> ffloor (B2SF x) = Zfloor (B2R x).
Proof.
  intros F H. destruct x as [s|s| |s m e B]; try discriminate F; [cbn; now rewrite Zfloor_IZR|].
  destruct s. { exfalso. revert H. cbn [B2R]. apply Rlt_not_le, F2R_lt_0. cbn. lia. }
  cbn [B2SF ffloor B2R cond_Zopp]. unfold F2R. cbn [Fnum Fexp]. destruct (Z.ltb_spec e 0) as [L|L].
  - replace (IZR (Zpos m) * bpow radix2 e) with (IZR (Zpos m) / IZR (2 ^ (- e))).
    + rewrite Zfloor_div; [reflexivity|]. apply Z.pow_nonzero; lia.
    + change 2%Z with (radix_val radix2). rewrite IZR_Zpower by lia. unfold Rdiv. now rewrite <- bpow_opp, Z.opp_involutive.
  - change 2%Z with (radix_val radix2). rewrite <- IZR_Zpower by exact L. now rewrite <- mult_IZR, Zfloor_IZR.
Qed.
Lemma ltb_val (x y : b64) : fin x -> fin y -> SFltb (B2SF x) (B2SF y) = Rlt_bool (B2R x) (B2R y).
Proof. intros Hx Hy. exact (Bltb_correct 53 1024 x y Hx Hy). Qed.

(* CPython's x // y is the floor of the real quotient of the two floats *)
Lemma ffloordiv_val (x y : b64) : fin x -> fin y -> 0 <= B2R x <= 2 ^ 53 -> / 2 ^ 53 <= B2R y <= 2 ^ 53 -> B2R x / B2R y <= 2 ^ 50 ->
  ffloordiv (B2SF x) (B2SF y) = Zfloor (B2R x / B2R y).
Proof.
  intros Fx Fy (Hx & Hx2) (Hy1 & Hy2) Hq. assert (U : u64 = / 9007199254740992) by (unfold u64; f_equal; simpl; ring).
  assert (T53 : 2 ^ 53 = 9007199254740992) by (simpl; ring). assert (T50 : 2 ^ 50 = 1125899906842624) by (simpl; ring).
  assert (Hy : 0 < B2R y) by (rewrite T53 in Hy1; lra).
  set (q := Zfloor (B2R x / B2R y)). assert (Q0 : 0 <= B2R x / B2R y) by (apply Rmult_le_pos; [exact Hx|]; apply Rlt_le, Rinv_0_lt_compat, Hy).
  assert (Qf : IZR q <= B2R x / B2R y < IZR q + 1) by (unfold q; split; [apply Zfloor_lb|apply Zfloor_ub]).
  assert (Qn : (0 <= q)%Z) by (apply le_IZR; apply (Zfloor_le 0) in Q0; rewrite Zfloor_IZR in Q0; apply IZR_le; exact Q0).
  assert (Qb : IZR q <= 1125899906842624) by lra. assert (Qr : 0 <= IZR q) by now apply IZR_le.
  (* the remainder *)
  assert (M : exists r : b64, ffmod (B2SF x) (B2SF y) = B2SF r /\ fin r /\ B2R r = B2R x - IZR q * B2R y).
  { destruct (Rle_lt_or_eq_dec 0 (B2R x) Hx) as [P|Z].
    - apply ffmod_val; [|exact Hy]. split; [exact P|]. eapply Rle_trans; [exact Hx2|]. change (IZR (2 ^ 100)) with (bpow radix2 100). change (2 ^ 53) with (bpow radix2 53) || replace (2 ^ 53) with (bpow radix2 53) by (rewrite T53; cbn; ring). apply bpow_le; lia.
    - assert (q = 0)%Z as -> by (unfold q; rewrite <- Z; unfold Rdiv; rewrite Rmult_0_l; apply Zfloor_IZR).
      exists x. split; [|split; [exact Fx|ring]]. destruct x as [s|s| |s m e B]; try discriminate Fx; [reflexivity|].
      exfalso. cbn [B2R] in Z. symmetry in Z. apply eq_0_F2R in Z. cbn [Fnum] in Z. destruct s; discriminate Z. }
  destruct M as (r & Er & Fr & Vr).
  assert (YM : 0 <= B2R x - IZR q * B2R y < B2R y).
  { destruct Qf as (A & B). apply (Rmult_le_compat_r (B2R y)) in A; [|lra]. apply (Rmult_lt_compat_r (B2R y)) in B; [|lra].
    replace (B2R x / B2R y * B2R y) with (B2R x) in A, B by (field; lra). lra. }
  set (P := IZR q * B2R y). assert (HP : 0 <= P <= B2R x) by (split; [apply Rmult_le_pos; lra|unfold P in *; lra]).
  destruct (bsub_val x r Fx Fr) as (Vs & Fs).
  { rewrite Vr. replace (B2R x - (B2R x - IZR q * B2R y)) with P by (unfold P; ring). rewrite Rabs_right by lra.
    apply Rle_trans with (2 ^ 53); [lra|]. rewrite T53. apply IZR_le. now apply Z.leb_le. }
  rewrite Vr in Vs. replace (B2R x - (B2R x - IZR q * B2R y)) with P in Vs by (unfold P; ring).
  assert (PZ : P = 0 \/ / IZR (2 ^ 200) <= Rabs P).
  { destruct (Z.eq_dec q 0) as [E|E]; [left; unfold P; rewrite E; ring|right]. rewrite Rabs_right by lra. unfold P.
    assert (1 <= IZR q) by (apply IZR_le; lia). apply Rle_trans with (1 * B2R y); [|apply Rmult_le_compat_r; lra]. rewrite Rmult_1_l.
    eapply Rle_trans; [|exact Hy1]. rewrite T53. apply Rinv_le; [lra|]. apply IZR_le. now apply Z.leb_le. }
  pose proof (rnd_rel0 P PZ) as Rs. rewrite <- Vs, U in Rs. rewrite (Rabs_right P) in Rs by lra. apply Rabs_le_inv in Rs.
  set (s := B2R (bsub x r)) in *.
  assert (S0 : 0 <= s) by (rewrite Vs; now apply rnd_nonneg).
  assert (D1 : 0 <= s / B2R y) by (apply Rmult_le_pos; [exact S0|]; apply Rlt_le, Rinv_0_lt_compat, Hy).
  assert (D2 : IZR q - / 8 <= s / B2R y <= IZR q + / 8).
  { assert (s / B2R y * B2R y = s) by (field; lra). unfold P in Rs.
    assert (IZR q * B2R y / 9007199254740992 <= B2R y / 8) by (apply Rle_trans with (1125899906842624 * B2R y / 9007199254740992); [|lra];
      unfold Rdiv; apply Rmult_le_compat_r; [lra|]; apply Rmult_le_compat_r; lra).
    split; apply (Rmult_le_reg_r (B2R y)); try exact Hy; lra. }
  destruct (bdiv_val (bsub x r) y Fs ltac:(lra)) as (Vd & Fd).
  { fold s. rewrite Rabs_right by lra. apply Rle_trans with (2 ^ 53); [rewrite T53; lra|]. rewrite T53. apply IZR_le. now apply Z.leb_le. }
  fold s in Vd. set (d := B2R (bdiv (bsub x r) y)) in *.
  assert (D0 : 0 <= d) by (rewrite Vd; now apply rnd_nonneg).
  assert (D3 : IZR q - / 4 <= d <= IZR q + / 4).
  { assert (G : forall z, (0 <= z <= 4503599627370497)%Z -> rnd (IZR z / 4) = IZR z / 4).
    { intros z Hz. apply rnd_id. replace (IZR z / 4) with (IZR z * bpow radix2 (-2)) by (cbn; lra). apply format_int; lia. }
    rewrite Vd. split.
    - destruct (Z.eq_dec q 0) as [E|E]; [rewrite E; apply Rle_trans with 0; [lra|now apply rnd_nonneg]|].
      replace (IZR q - / 4) with (IZR (4 * q - 1) / 4) by (rewrite minus_IZR, mult_IZR; lra).
      rewrite <- (G (4 * q - 1)%Z). + apply rnd_le. rewrite minus_IZR, mult_IZR. lra.
      + assert ((q <= 1125899906842624)%Z) by (apply le_IZR; lra). lia.
    - replace (IZR q + / 4) with (IZR (4 * q + 1) / 4) by (rewrite plus_IZR, mult_IZR; lra).
      rewrite <- (G (4 * q + 1)%Z). + apply rnd_le. rewrite plus_IZR, mult_IZR. lra.
      + assert ((q <= 1125899906842624)%Z) by (apply le_IZR; lra). lia. }
  (* the correction by one half *)
  unfold ffloordiv. rewrite Er, fsub_eq, fdiv_eq, (ffloor_val _ Fd D0). fold d.
  rewrite (fint_eq 1), (fint_eq 2). fold (bint 1) (bint 2). rewrite fdiv_eq, fint_eq. fold (bint (Zfloor d)). rewrite fsub_eq.
  destruct (bint_val 1 eq_refl) as (V1 & F1). destruct (bint_val 2 eq_refl) as (V2 & F2).
  destruct (bdiv_val (bint 1) (bint 2) F1) as (Vh & Fh); [rewrite V2; lra|rewrite V1, V2, Rabs_right by lra; apply Rle_trans with 1; [lra|]; apply IZR_le; now apply Z.leb_le|].
  assert (H12 : rnd (1 / 2) = 1 / 2). { apply rnd_id. replace (1 / 2) with (IZR 1 * bpow radix2 (-1)) by (cbn; lra). apply format_int; lia. }
  rewrite V1, V2, H12 in Vh.
  assert (FL : Zfloor d = q \/ Zfloor d = (q - 1)%Z).
  { destruct (Rle_or_lt (IZR q) d) as [A|A]; [left; apply Zfloor_imp; rewrite plus_IZR; lra|right; apply Zfloor_imp; rewrite Z.sub_add, minus_IZR; lra]. }
  assert (Fb : (0 <= Zfloor d)%Z) by (apply (Zfloor_le 0) in D0; rewrite Zfloor_IZR in D0; exact D0).
  assert (Qz : (q <= 1125899906842624)%Z) by (apply le_IZR; lra).
  destruct (bint_val (Zfloor d)) as (Vf & Ff); [lia|].
  destruct (bsub_val (bdiv (bsub x r) y) (bint (Zfloor d)) Fd Ff) as (Vx & Fxx).
  { fold d. rewrite Vf. apply Rle_trans with 2; [|apply IZR_le; now apply Z.leb_le]. apply Rabs_le. destruct FL as [-> | -> ]; [|rewrite minus_IZR]; lra. }
  fold d in Vx. rewrite Vf in Vx.
  assert (QT : forall z, (0 <= z <= 4503599627370497)%Z -> rnd (IZR z / 4) = IZR z / 4).
  { intros z Hz. apply rnd_id. replace (IZR z / 4) with (IZR z * bpow radix2 (-2)) by (cbn; lra). apply format_int; lia. }
  rewrite (ltb_val _ _ Fh Fxx), Vh, Vx. destruct FL as [E|E]; rewrite E.
  - rewrite Rlt_bool_false; [reflexivity|]. apply Rle_trans with (rnd (1 / 4)); [|rewrite (QT 1%Z) by lia; lra]. apply rnd_le. lra.
  - rewrite Rlt_bool_true; [lia|]. apply Rlt_le_trans with (rnd (3 / 4)); [rewrite (QT 3%Z) by lia; lra|]. apply rnd_le. rewrite minus_IZR. lra.
Qed.
