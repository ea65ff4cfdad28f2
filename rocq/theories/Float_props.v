(* C04 and C06 in IEEE binary64: exactly which iterations are affected by rounding,
   and how far the values are off. *)
From Coq Require Import ZArith Reals Lia Lra Psatz Floats.SpecFloat.
From Flocq Require Import Core Relative BinarySingleNaN.
From Verif Require Import Base Sched_float Bin64 Sched_spec.
Open Scope R_scope.

(* tools/scheduler.py:105-114 in binary64: int/int true division, then the mix of
   the two values *)
Definition mix64 (alpha init target : spec_float) : spec_float :=
  fadd (fmul (fsub (fint 1) alpha) init) (fmul alpha target).
Definition step64 (it total num_steps : Z) (init target : spec_float) : spec_float :=
  mix64 (fdiv (fint (step_index64 it total num_steps)) (fint (num_steps - 1))) init target.

(* the length of a plateau (cycle) as the program computes it *)
Definition length64 (T n : Z) : spec_float := fdiv (fint T) (fint n).
(* the first iteration of a plateau (cycle) k > 0, and the computed length is
   rounded up *)
Definition late (T n k it : Z) : Prop := (it * n = k * T)%Z /\ (0 < k)%Z /\ IZR T / IZR n < val (length64 T n).

Lemma two49 : (2 ^ 49 = 562949953421312)%Z. Proof. reflexivity. Qed.
Section length.
  Variables T n : Z.
  Hypothesis (HT : (1 <= T)%Z) (Hn : (1 <= n)%Z) (Hnt : (n * T <= 2 ^ 49)%Z).
  Lemma Tsmall : (T <= 2 ^ 49)%Z. Proof. nia. Qed.
  Lemma nsmall : (n <= 2 ^ 49)%Z. Proof. nia. Qed.
  Definition slen : b64 := bdiv (bint T) (bint n).
  Lemma length_facts : length64 T n = B2SF slen /\ fin slen /\ B2R slen = rnd (IZR T / IZR n) /\
    Rabs (B2R slen - IZR T / IZR n) <= u64 * (IZR T / IZR n) /\ / 2 ^ 50 <= B2R slen <= 2 ^ 50.
  Proof.
    pose proof Tsmall as TS. pose proof nsmall as NS. rewrite two49 in *.
    destruct (bint_val T) as (VT & FT); [lia|]. destruct (bint_val n) as (Vn & Fn); [lia|].
    assert (RT : 1 <= IZR T <= 562949953421312) by (split; apply IZR_le; lia). assert (Rn : 1 <= IZR n <= 562949953421312) by (split; apply IZR_le; lia).
    assert (Q1 : / 562949953421312 <= IZR T / IZR n).
    { apply Rle_trans with (1 / IZR n); [unfold Rdiv; rewrite Rmult_1_l; apply Rinv_le; lra|]. unfold Rdiv. apply Rmult_le_compat_r; [apply Rlt_le, Rinv_0_lt_compat; lra|lra]. }
    assert (Q2 : IZR T / IZR n <= 562949953421312).
    { apply Rle_trans with (IZR T / 1); [|lra]. apply Rmult_le_compat_l; [lra|]. apply Rinv_le; lra. }
    assert (Qp : 0 < IZR T / IZR n) by lra.
    split; [unfold length64; rewrite !fint_eq; apply fdiv_eq|].
    destruct (bdiv_val (bint T) (bint n) FT) as (V & F); [rewrite Vn; lra|rewrite VT, Vn, Rabs_right by lra; apply Rle_trans with 562949953421312; [lra|]; apply IZR_le; now apply Z.leb_le|].
    fold slen in V, F. rewrite VT, Vn in V. split; [exact F|]. split; [exact V|].
    pose proof (rnd_rel (IZR T / IZR n)) as E. rewrite (Rabs_right (IZR T / IZR n)) in E by lra.
    assert (E' : Rabs (B2R slen - IZR T / IZR n) <= u64 * (IZR T / IZR n)).
    { rewrite V. apply E. apply Rle_trans with (/ 562949953421312); [|exact Q1]. apply Rinv_le; [lra|]. apply IZR_le. now apply Z.leb_le. }
    split; [exact E'|]. apply Rabs_le_inv in E'. assert (U : u64 = / 9007199254740992) by (unfold u64; f_equal; simpl; ring). rewrite U in E'.
    replace (2 ^ 50) with 1125899906842624 by (simpl; ring). lra.
  Qed.
  (* the computed position: floor division of the iteration number *)
  Lemma index_facts it : (0 <= it < T)%Z -> forall k, in_part T n k it -> (0 <= k < n)%Z /\
    (late T n k it -> ffloordiv (fint it) (length64 T n) = (k - 1)%Z) /\
    (~ late T n k it -> ffloordiv (fint it) (length64 T n) = k).
  Proof.
    intros Hit k Hk. unfold in_part in Hk. pose proof Tsmall as TS. pose proof nsmall as NS. rewrite two49 in *.
    assert (K0 : (0 <= k)%Z) by nia. assert (K1 : (k < n)%Z) by nia. split; [lia|].
    destruct length_facts as (EL & FL & VL & RL & BL). destruct (bint_val it) as (Vi & Fi); [lia|].
    set (s := B2R slen) in *. assert (U : u64 = / 9007199254740992) by (unfold u64; f_equal; simpl; ring).
    assert (RT : 1 <= IZR T) by (apply IZR_le; lia). assert (Rn : 1 <= IZR n) by (apply IZR_le; lia).
    assert (Rit : 0 <= IZR it <= IZR T - 1) by (split; [apply IZR_le; lia|rewrite <- minus_IZR; apply IZR_le; lia]).
    set (l := IZR T / IZR n) in *. assert (Lp : 0 < l) by (apply Rdiv_lt_0_compat; lra).
    assert (LT : l * IZR n = IZR T) by (unfold l; field; lra).
    apply Rabs_le_inv in RL. rewrite U in RL. replace (2 ^ 50) with 1125899906842624 in BL by (simpl; ring).
    assert (Sp : 0 < s) by lra.
    assert (NT : IZR n * IZR T <= 562949953421312) by (rewrite <- mult_IZR; apply IZR_le; lia).
    (* n * l = T and l n T bounds: multiples of l against rounding *)
    assert (KL : forall j, (0 <= j <= n)%Z -> Rabs (IZR j * s - IZR j * l) <= / 16 / IZR n).
    { intros j Hj. rewrite <- Rmult_minus_distr_l, Rabs_mult, Rabs_right by (apply Rle_ge, IZR_le; lia).
      apply Rle_trans with (IZR n * (/ 9007199254740992 * l)).
      - apply Rmult_le_compat; [apply IZR_le; lia|apply Rabs_pos|apply IZR_le; lia|]. apply Rabs_le. lra.
      - replace (IZR n * (/ 9007199254740992 * l)) with (/ 9007199254740992 * IZR T) by (rewrite <- LT; ring).
        apply (Rmult_le_reg_r (IZR n)); [lra|]. replace (/ 16 / IZR n * IZR n) with (/ 16) by (field; lra).
        replace (/ 9007199254740992 * IZR T * IZR n) with ((IZR n * IZR T) / 9007199254740992) by (unfold Rdiv; ring). lra. }
    assert (FD : ffloordiv (fint it) (length64 T n) = Zfloor (IZR it / s)).
    { rewrite EL, fint_eq. fold (bint it). rewrite (ffloordiv_val (bint it) slen Fi FL).
      - now rewrite Vi.
      - rewrite Vi. replace (2 ^ 53) with 9007199254740992 by (simpl; ring). assert (IZR it <= 562949953421312) by (apply IZR_le; lia). lra.
      - fold s. replace (2 ^ 53) with 9007199254740992 by (simpl; ring). lra.
      - rewrite Vi. fold s. replace (2 ^ 50) with 1125899906842624 by (simpl; ring).
        apply (Rmult_le_reg_r s); [exact Sp|]. replace (IZR it / s * s) with (IZR it) by (field; lra).
        assert (l / 2 <= s) by lra. assert (IZR n <= 562949953421312) by (apply IZR_le; lia).
        apply Rle_trans with (IZR T); [lra|]. rewrite <- LT. nra. }
    rewrite FD.
    (* positions in units of 1/n *)
    assert (PIT : IZR it = (IZR k * IZR T + IZR (it * n - k * T)) / IZR n).
    { rewrite minus_IZR, !mult_IZR. field. lra. }
    assert (KT : IZR k * IZR T / IZR n = IZR k * l) by (unfold l; field; lra).
    assert (PIT' : IZR it = IZR k * l + IZR (it * n - k * T) / IZR n) by (rewrite PIT, <- KT; field; lra). clear PIT.
    assert (T1 : 0 < / IZR n) by (apply Rinv_0_lt_compat; lra).
    assert (UP : IZR it / s < IZR (k + 1)).
    { apply (Rmult_lt_reg_r s); [exact Sp|]. replace (IZR it / s * s) with (IZR it) by (field; lra).
      pose proof (KL (k + 1)%Z ltac:(lia)) as E. apply Rabs_le_inv in E.
      assert (IZR (it * n - k * T) / IZR n <= (IZR T - 1) / IZR n).
      { apply Rmult_le_compat_r; [lra|]. rewrite <- minus_IZR. apply IZR_le. lia. }
      assert ((IZR T - 1) / IZR n = l - / IZR n) by (unfold l; field; lra).
      rewrite plus_IZR in *. replace (/ 16 / IZR n) with (/ 16 * / IZR n) in E by reflexivity. lra. }
    split.
    - intros (L1 & L2 & L3). rewrite EL, val_B2SF in L3. fold s l in L3.
      apply Zfloor_imp. replace (k - 1 + 1)%Z with k by lia.
      assert (E0 : IZR it = IZR k * l) by (rewrite PIT'; replace (it * n - k * T)%Z with 0%Z by lia; unfold Rdiv; ring).
      assert (Rk : 1 <= IZR k) by (apply IZR_le; lia). split.
      + apply (Rmult_le_reg_r s); [exact Sp|]. replace (IZR it / s * s) with (IZR it) by (field; lra).
        rewrite minus_IZR, E0. pose proof (KL k ltac:(lia)) as E. apply Rabs_le_inv in E.
        assert (/ 16 / IZR n <= s). { apply Rle_trans with (l / 2); [|lra]. unfold l. replace (IZR T / IZR n / 2) with (IZR T / 2 * / IZR n) by (field; lra). replace (/ 16 / IZR n) with (/ 16 * / IZR n) by reflexivity. apply Rmult_le_compat_r; lra. }
        lra.
      + apply (Rmult_lt_reg_r s); [exact Sp|]. replace (IZR it / s * s) with (IZR it) by (field; lra). rewrite E0. apply Rmult_lt_compat_l; lra.
    - intros NL. apply Zfloor_imp. split; [|exact UP].
      apply (Rmult_le_reg_r s); [exact Sp|]. replace (IZR it / s * s) with (IZR it) by (field; lra).
      destruct (Z.eq_dec k 0) as [Z0|Z0]; [rewrite Z0, Rmult_0_l; lra|].
      destruct (Z.eq_dec (it * n) (k * T)) as [E|E].
      + assert (E0 : IZR it = IZR k * l) by (rewrite PIT'; replace (it * n - k * T)%Z with 0%Z by lia; unfold Rdiv; ring).
        rewrite E0. apply Rmult_le_compat_l; [apply IZR_le; lia|].
        apply Rnot_lt_le. intros Hlt. apply NL. split; [exact E|]. split; [lia|]. rewrite EL, val_B2SF. exact Hlt.
      + pose proof (KL k ltac:(lia)) as EK. apply Rabs_le_inv in EK.
        assert (1 * / IZR n <= IZR (it * n - k * T) / IZR n) by (apply Rmult_le_compat_r; [lra|apply IZR_le; lia]).
        replace (/ 16 / IZR n) with (/ 16 * / IZR n) in EK by reflexivity. lra.
  Qed.
End length.

(* ---------- the mix of the two values ---------- *)
Definition eta : R := / 2 ^ 1000.
Lemma eta_bound : / 2 * bpow radix2 (-1074) <= eta.
Proof.
  unfold eta. replace (/ 2 ^ 1000) with (bpow radix2 (-1000)).
  - apply Rle_trans with (1 * bpow radix2 (-1074)); [apply Rmult_le_compat_r; [apply bpow_ge_0|lra]|]. rewrite Rmult_1_l. apply bpow_le. lia.
  - rewrite bpow_powerRZ. change (IZR radix2) with 2. unfold powerRZ. replace (Pos.to_nat 1000) with 1000%nat by reflexivity. reflexivity.
Qed.
Lemma rnd_abs x : Rabs (rnd x - x) <= u64 * Rabs x + eta.
Proof.
  destruct (error_N_FLT radix2 (-1074) 53 eq_refl (fun z => negb (Z.even z)) x) as (e & h & He & Hh & _ & E).
  change (round radix2 (FLT_exp (-1074) 53) (Znearest (fun z => negb (Z.even z))) x) with (rnd x) in E. rewrite E.
  replace (x * (1 + e) + h - x) with (x * e + h) by ring. eapply Rle_trans; [apply Rabs_triang|]. rewrite Rabs_mult. apply Rplus_le_compat.
  - rewrite Rmult_comm. apply Rmult_le_compat_r; [apply Rabs_pos|]. rewrite <- u64_bpow. exact He.
  - eapply Rle_trans; [exact Hh|]. exact eta_bound.
Qed.

Lemma eta_small : 0 < eta <= / 2 ^ 60.
Proof.
  unfold eta. split; [apply Rinv_0_lt_compat, pow_lt; lra|]. apply Rinv_le; [apply pow_lt; lra|]. apply Rle_pow; [lra|]. lia.
Qed.
Lemma abs_mul_le a b A B : Rabs a <= A -> Rabs b <= B -> Rabs (a * b) <= A * B.
Proof. intros H1 H2. rewrite Rabs_mult. apply Rmult_le_compat; auto; apply Rabs_pos. Qed.
Lemma mix_val (al i t : b64) a d : fin al -> fin i -> fin t -> Rabs (B2R i) <= IZR (2 ^ 100) -> Rabs (B2R t) <= IZR (2 ^ 100) ->
  0 <= a <= 1 -> 0 <= d <= / 8 -> Rabs (B2R al - a) <= d ->
  Rabs (val (mix64 (B2SF al) (B2SF i) (B2SF t)) - ((1 - a) * B2R i + a * B2R t)) <= (d + 8 * u64) * (Rabs (B2R i) + Rabs (B2R t)) + 4 * eta.
Proof.
  intros Fa Fi Ft Bi Bt Ha Hd HA. pose proof eta_small as (N1 & N2). assert (U : u64 = / 9007199254740992) by (unfold u64; f_equal; simpl; ring).
  replace (2 ^ 60) with 1152921504606846976 in N2 by (simpl; ring).
  unfold mix64. rewrite (fint_eq 1). fold (bint 1). destruct (bint_val 1 eq_refl) as (V1 & F1).
  assert (G200 : IZR (2 ^ 100) * 8 <= IZR (2 ^ 200)) by (rewrite <- mult_IZR; apply IZR_le; now apply Z.leb_le).
  assert (G100 : 1 <= IZR (2 ^ 100)) by (apply IZR_le; now apply Z.leb_le).
  set (x := B2R i) in *. set (y := B2R t) in *. set (A := Rabs x) in *. set (B := Rabs y) in *.
  assert (A0 : 0 <= A) by apply Rabs_pos. assert (B0 : 0 <= B) by apply Rabs_pos.
  assert (AL : Rabs (B2R al) <= 9 / 8) by (apply Rabs_le_inv in HA; apply Rabs_le; lra).
  rewrite fsub_eq. destruct (bsub_val (bint 1) al F1 Fa) as (V2 & F2).
  { rewrite V1. apply Rle_trans with 3; [|lra]. apply Rabs_le_inv in AL. apply Rabs_le. lra. }
  rewrite V1 in V2. pose proof (rnd_abs (1 - B2R al)) as E2. rewrite <- V2 in E2. set (b := B2R (bsub (bint 1) al)) in *.
  assert (C2 : Rabs (b - (1 - a)) <= d + 3 / 2 * u64).
  { assert (Rabs (1 - B2R al) <= 9 / 8) by (apply Rabs_le_inv in HA; apply Rabs_le; lra).
    assert (u64 * Rabs (1 - B2R al) <= u64 * (9 / 8)) by (apply Rmult_le_compat_l; [rewrite U|]; lra).
    replace (b - (1 - a)) with ((b - (1 - B2R al)) + (a - B2R al)) by ring. eapply Rle_trans; [apply Rabs_triang|]. rewrite (Rabs_minus_sym a). rewrite U in *. lra. }
  assert (B2' : Rabs b <= 5 / 4) by (apply Rabs_le_inv in C2; rewrite U in C2; apply Rabs_le; lra).
  rewrite fmul_eq. destruct (bmul_val (bsub (bint 1) al) i F2 Fi) as (V3 & F3).
  { fold b x. apply Rle_trans with (5 / 4 * IZR (2 ^ 100)); [apply abs_mul_le; [exact B2'|exact Bi]|lra]. }
  fold b x in V3. pose proof (rnd_abs (b * x)) as E3. rewrite <- V3 in E3. set (p := B2R (bmul (bsub (bint 1) al) i)) in *.
  assert (BX : Rabs (b * x) <= 5 / 4 * A) by (apply abs_mul_le; [exact B2'|unfold A; lra]).
  rewrite fmul_eq. destruct (bmul_val al t Fa Ft) as (V4 & F4).
  { fold y. apply Rle_trans with (9 / 8 * IZR (2 ^ 100)); [apply abs_mul_le; [exact AL|exact Bt]|lra]. }
  fold y in V4. pose proof (rnd_abs (B2R al * y)) as E4. rewrite <- V4 in E4. set (q := B2R (bmul al t)) in *.
  assert (AY : Rabs (B2R al * y) <= 9 / 8 * B) by (apply abs_mul_le; [exact AL|unfold B; lra]).
  assert (P1 : Rabs (p - (1 - a) * x) <= (d + 3 * u64) * A + eta).
  { replace (p - (1 - a) * x) with ((p - b * x) + (b - (1 - a)) * x) by ring. eapply Rle_trans; [apply Rabs_triang|].
    assert (Rabs ((b - (1 - a)) * x) <= (d + 3 / 2 * u64) * A) by (apply abs_mul_le; [exact C2|unfold A; lra]).
    assert (u64 * Rabs (b * x) <= u64 * (5 / 4 * A)) by (apply Rmult_le_compat_l; [rewrite U|]; lra). rewrite U in *. lra. }
  assert (Q1 : Rabs (q - a * y) <= (d + 2 * u64) * B + eta).
  { replace (q - a * y) with ((q - B2R al * y) + (B2R al - a) * y) by ring. eapply Rle_trans; [apply Rabs_triang|].
    assert (Rabs ((B2R al - a) * y) <= d * B) by (apply abs_mul_le; [exact HA|unfold B; lra]).
    assert (u64 * Rabs (B2R al * y) <= u64 * (9 / 8 * B)) by (apply Rmult_le_compat_l; [rewrite U|]; lra). rewrite U in *. lra. }
  assert (PB : Rabs p <= 2 * A + eta).
  { replace p with ((p - b * x) + b * x) by ring. eapply Rle_trans; [apply Rabs_triang|].
    assert (u64 * Rabs (b * x) <= u64 * (5 / 4 * A)) by (apply Rmult_le_compat_l; [rewrite U|]; lra). rewrite U in *. lra. }
  assert (QB : Rabs q <= 2 * B + eta).
  { replace q with ((q - B2R al * y) + B2R al * y) by ring. eapply Rle_trans; [apply Rabs_triang|].
    assert (u64 * Rabs (B2R al * y) <= u64 * (9 / 8 * B)) by (apply Rmult_le_compat_l; [rewrite U|]; lra). rewrite U in *. lra. }
  rewrite fadd_eq, val_B2SF. destruct (badd_val (bmul (bsub (bint 1) al) i) (bmul al t) F3 F4) as (V5 & F5).
  { fold p q. eapply Rle_trans; [apply Rabs_triang|]. lra. }
  fold p q in V5. pose proof (rnd_abs (p + q)) as E5. rewrite <- V5 in E5.
  assert (PQ : Rabs (p + q) <= 2 * A + 2 * B + 2 * eta) by (eapply Rle_trans; [apply Rabs_triang|]; lra).
  assert (u64 * Rabs (p + q) <= u64 * (2 * A + 2 * B + 2 * eta)) by (apply Rmult_le_compat_l; [rewrite U|]; lra).
  set (v := B2R (badd (bmul (bsub (bint 1) al) i) (bmul al t))) in *.
  replace (v - ((1 - a) * x + a * y)) with ((v - (p + q)) + (p - (1 - a) * x) + (q - a * y)) by ring.
  eapply Rle_trans; [apply Rabs_triang|]. eapply Rle_trans; [apply Rplus_le_compat_r, Rabs_triang|].
  assert (u64 * (2 * A + 2 * B + 2 * eta) <= 2 * u64 * A + 2 * u64 * B + eta) by (rewrite U; lra).
  assert (0 <= u64 * A) by (apply Rmult_le_pos; [rewrite U|]; lra). assert (0 <= u64 * B) by (apply Rmult_le_pos; [rewrite U|]; lra). lra.
Qed.

Lemma mix_ends (al i t : b64) : fin al -> fin i -> fin t -> Rabs (B2R i) <= IZR (2 ^ 100) -> Rabs (B2R t) <= IZR (2 ^ 100) ->
  (B2R al = 0 -> val (mix64 (B2SF al) (B2SF i) (B2SF t)) = B2R i) /\ (B2R al = 1 -> val (mix64 (B2SF al) (B2SF i) (B2SF t)) = B2R t).
Proof.
  intros Fa Fi Ft Bi Bt. destruct (bint_val 1 eq_refl) as (V1 & F1).
  assert (G200 : IZR (2 ^ 100) * 8 <= IZR (2 ^ 200)) by (rewrite <- mult_IZR; apply IZR_le; now apply Z.leb_le).
  assert (G100 : 1 <= IZR (2 ^ 100)) by (apply IZR_le; now apply Z.leb_le).
  assert (RI : forall w : b64, rnd (B2R w) = B2R w) by (intros w; apply rnd_id, generic_format_B2R).
  unfold mix64. rewrite (fint_eq 1). fold (bint 1). rewrite fsub_eq, !fmul_eq, fadd_eq, val_B2SF.
  split; intros E.
  - destruct (bsub_val (bint 1) al F1 Fa) as (V2 & F2); [rewrite V1, E, Rabs_right by lra; lra|]. rewrite V1, E, Rminus_0_r in V2.
    rewrite (rnd_IZR 1) in V2 by reflexivity.
    destruct (bmul_val (bsub (bint 1) al) i F2 Fi) as (V3 & F3); [rewrite V2, Rmult_1_l; lra|]. rewrite V2, Rmult_1_l, RI in V3.
    destruct (bmul_val al t Fa Ft) as (V4 & F4); [rewrite E, Rmult_0_l, Rabs_R0; lra|]. rewrite E, Rmult_0_l, rnd_0 in V4.
    destruct (badd_val (bmul (bsub (bint 1) al) i) (bmul al t) F3 F4) as (V5 & _); [rewrite V3, V4, Rplus_0_r; lra|]. rewrite V3, V4, Rplus_0_r, RI in V5. exact V5.
  - destruct (bsub_val (bint 1) al F1 Fa) as (V2 & F2); [rewrite V1, E, Rminus_diag_eq, Rabs_R0 by reflexivity; lra|]. rewrite V1, E, Rminus_diag_eq in V2 by reflexivity.
    rewrite rnd_0 in V2.
    destruct (bmul_val (bsub (bint 1) al) i F2 Fi) as (V3 & F3); [rewrite V2, Rmult_0_l, Rabs_R0; lra|]. rewrite V2, Rmult_0_l, rnd_0 in V3.
    destruct (bmul_val al t Fa Ft) as (V4 & F4); [rewrite E, Rmult_1_l; lra|]. rewrite E, Rmult_1_l, RI in V4.
    destruct (badd_val (bmul (bsub (bint 1) al) i) (bmul al t) F3 F4) as (V5 & _); [rewrite V3, V4, Rplus_0_l; lra|]. rewrite V3, V4, Rplus_0_l, RI in V5. exact V5.
Qed.

Lemma in_part_of T n it : (0 < T)%Z -> (0 < n)%Z -> (0 <= it < T)%Z -> exists k, in_part T n k it.
Proof. intros HT Hn Hit. exists (it * n / T)%Z. unfold in_part. pose proof (Z.div_mod (it * n) T ltac:(lia)). pose proof (Z.mod_pos_bound (it * n) T HT). lia. Qed.

(* ================= C04 ================= *)
(* Which plateau an iteration is on, computed in binary64: the right one, except
   that the first iteration of a plateau still gets the previous value if the
   computed plateau length is rounded up. *)
Theorem C04_binary64_plateau : forall T n it k, (2 <= n)%Z -> (0 <= it < T)%Z -> (n * T <= 2 ^ 49)%Z -> in_part T n k it ->
  (late T n k it -> step_index64 it T n = (k - 1)%Z) /\ (~ late T n k it -> step_index64 it T n = k).
Proof.
  intros T n it k Hn Hit Hb Hk. destruct (index_facts T n ltac:(lia) ltac:(lia) Hb it Hit k Hk) as (K & L1 & L2). unfold step_index64. fold (length64 T n).
  split; intros H; [rewrite (L1 H)|rewrite (L2 H)]; lia.
Qed.
Print Assumptions C04_binary64_plateau.

(* The values: exactly init on plateau 0, exactly target on the last one, and
   within rounding error of the documented value on the others. *)
Theorem C04_binary64_value : forall T n it (init target : b64), (2 <= n)%Z -> (0 <= it < T)%Z -> (n * T <= 2 ^ 49)%Z ->
  is_finite init = true -> is_finite target = true -> Rabs (B2R init) <= IZR (2 ^ 100) -> Rabs (B2R target) <= IZR (2 ^ 100) ->
  let k := step_index64 it T n in
  let v := val (step64 it T n (B2SF init) (B2SF target)) in
  (0 <= k <= n - 1)%Z /\ (k = 0%Z -> v = B2R init) /\ (k = (n - 1)%Z -> v = B2R target) /\
  Rabs (v - (B2R init + IZR k / IZR (n - 1) * (B2R target - B2R init))) <= / 2 ^ 49 * (Rabs (B2R init) + Rabs (B2R target)) + / 2 ^ 990.
Proof.
  intros T n it init target Hn Hit Hb Fi Ft Bi Bt k v.
  destruct (in_part_of T n it ltac:(lia) ltac:(lia) ltac:(lia)) as (j & Hj).
  destruct (index_facts T n ltac:(lia) ltac:(lia) Hb it Hit j Hj) as (J & _).
  assert (K : (0 <= k <= n - 1)%Z).
  { destruct (C04_binary64_plateau T n it j Hn Hit Hb Hj) as (P1 & P2). unfold k.
    assert (D : late T n j it \/ ~ late T n j it).
    { unfold late. destruct (Z.eq_dec (it * n) (j * T)); [|tauto]. destruct (Z_lt_dec 0 j); [|tauto]. destruct (Rlt_dec (IZR T / IZR n) (val (length64 T n))); tauto. }
    destruct D as [D|D]; [rewrite (P1 D); destruct D as (_ & D & _); lia|rewrite (P2 D); lia]. }
  split; [exact K|]. assert (NS : (n <= 2 ^ 49)%Z) by (apply (nsmall T n); lia). rewrite two49 in NS.
  destruct (bint_val k) as (Vk & Fk); [lia|]. destruct (bint_val (n - 1)) as (Vn & Fn); [lia|].
  assert (R1 : 1 <= IZR (n - 1)) by (apply IZR_le; lia). assert (R2 : 0 <= IZR k <= IZR (n - 1)) by (split; apply IZR_le; lia).
  set (a := IZR k / IZR (n - 1)). assert (A : 0 <= a <= 1).
  { split; [apply Rmult_le_pos; [lra|apply Rlt_le, Rinv_0_lt_compat; lra]|]. apply (Rmult_le_reg_r (IZR (n - 1))); [lra|]. unfold a. replace (IZR k / IZR (n - 1) * IZR (n - 1)) with (IZR k) by (field; lra). lra. }
  destruct (bdiv_val (bint k) (bint (n - 1)) Fk) as (Va & Fa); [rewrite Vn; lra|rewrite Vk, Vn; fold a; rewrite Rabs_right by lra; apply Rle_trans with 1; [lra|]; apply IZR_le; now apply Z.leb_le|].
  rewrite Vk, Vn in Va. fold a in Va.
  assert (Ev : v = val (mix64 (B2SF (bdiv (bint k) (bint (n - 1)))) (B2SF init) (B2SF target))).
  { unfold v, step64. fold k. rewrite (fint_eq k), (fint_eq (n - 1)). fold (bint k) (bint (n - 1)). now rewrite fdiv_eq. }
  destruct (mix_ends _ init target Fa Fi Ft Bi Bt) as (M0 & M1). split; [|split].
  - intros E. rewrite Ev. apply M0. rewrite Va. unfold a. rewrite E. unfold Rdiv. rewrite Rmult_0_l. apply rnd_0.
  - intros E. rewrite Ev. apply M1. rewrite Va. unfold a. rewrite E. replace (IZR (n - 1) / IZR (n - 1)) with 1 by (field; lra). now apply (rnd_IZR 1).
  - assert (U : u64 = / 9007199254740992) by (unfold u64; f_equal; simpl; ring).
    assert (E : Rabs (rnd a - a) <= u64).
    { apply Rle_trans with (u64 * Rabs a).
      - apply rnd_rel0. destruct (Z.eq_dec k 0) as [E|E]; [left; unfold a; rewrite E; unfold Rdiv; ring|right].
        rewrite Rabs_right by lra. apply Rle_trans with (/ IZR (n - 1)).
        + apply Rinv_le; [lra|]. apply IZR_le. apply Z.le_trans with 562949953421312%Z; [lia|]. now apply Z.leb_le.
        + unfold a. assert (1 <= IZR k) by (apply IZR_le; lia). rewrite <- (Rmult_1_l (/ IZR (n - 1))). apply Rmult_le_compat_r; [apply Rlt_le, Rinv_0_lt_compat; lra|lra].
      - rewrite <- (Rmult_1_r u64) at 2. apply Rmult_le_compat_l; [rewrite U; lra|]. rewrite Rabs_right; lra. }
    rewrite <- Va in E. pose proof (mix_val _ init target a u64 Fa Fi Ft Bi Bt A ltac:(rewrite U; lra) E) as M. rewrite <- Ev in M.
    replace (B2R init + a * (B2R target - B2R init)) with ((1 - a) * B2R init + a * B2R target) by ring. eapply Rle_trans; [exact M|].
    apply Rplus_le_compat.
    + apply Rmult_le_compat_r; [pose proof (Rabs_pos (B2R init)); pose proof (Rabs_pos (B2R target)); lra|]. rewrite U. replace (2 ^ 49) with 562949953421312 by (simpl; ring). lra.
    + unfold eta. replace (/ 2 ^ 990) with (1024 * / 2 ^ 1000).
      * assert (0 < / 2 ^ 1000) by (apply Rinv_0_lt_compat, pow_lt; lra). lra.
      * change 1000%nat with (990 + 10)%nat. rewrite pow_add. replace (2 ^ 10) with 1024 by (simpl; ring). field.
Qed.
Print Assumptions C04_binary64_value.

(* the default run: 200 iterations in 6 steps; the length 200/6 is rounded up, so
   every plateau that starts on an iteration starts one iteration late *)
Example C04_binary64_instance : late 200 6 3 100 /\ ~ late 200 5 2 80.
Proof.
  assert (E : forall T n m e, (0 < m)%Z -> length64 T n = S754_finite false (Z.to_pos m) e -> val (length64 T n) = IZR m * bpow radix2 e).
  { intros T n m e Hm ->. unfold val, SF2R, F2R. cbn [Fnum Fexp cond_Zopp]. now rewrite Z2Pos.id. }
  split.
  - split; [lia|]. split; [lia|]. rewrite (E _ _ 4691249611844267%Z (-47)%Z); [|lia|vm_compute; reflexivity].
    change (bpow radix2 (-47)) with (/ IZR 140737488355328). lra.
  - intros (_ & _ & H). revert H. rewrite (E _ _ 5629499534213120%Z (-47)%Z); [|lia|vm_compute; reflexivity].
    change (bpow radix2 (-47)) with (/ IZR 140737488355328). lra.
Qed.

(* ================= C06 ================= *)
(* The sawtooth in binary64: within rounding error of the linear decay, except that
   at the first iteration of a cycle the value is the target instead of init if
   the computed cycle length is rounded up. *)
Theorem C06_binary64 : forall T n it j (init target : b64), (1 <= n)%Z -> (1 <= it <= T)%Z -> (n * T <= 2 ^ 46)%Z -> in_part T n j (it - 1) ->
  is_finite init = true -> is_finite target = true -> Rabs (B2R init) <= IZR (2 ^ 100) -> Rabs (B2R target) <= IZR (2 ^ 100) ->
  let v := val (saw64 it T n (B2SF init) (B2SF target)) in
  let err := IZR n * / 2 ^ 48 * (Rabs (B2R init) + Rabs (B2R target)) + / 2 ^ 990 in
  (~ late T n j (it - 1) -> Rabs (v - (B2R init + (IZR (it - 1) - IZR j * (IZR T / IZR n)) / (IZR T / IZR n) * (B2R target - B2R init))) <= err) /\
  (late T n j (it - 1) -> Rabs (v - B2R target) <= err).
Proof.
  intros T n it j init target Hn Hit Hb Hj Fi Ft Bi Bt v err.
  assert (Hb' : (n * T <= 2 ^ 49)%Z) by (eapply Z.le_trans; [exact Hb|now apply Z.leb_le]).
  assert (Hb46 : (n * T <= 70368744177664)%Z) by exact Hb.
  destruct (index_facts T n ltac:(lia) ltac:(lia) Hb' (it - 1) ltac:(lia) j Hj) as (J & L1 & L2).
  destruct (length_facts T n ltac:(lia) ltac:(lia) Hb') as (EL & FL & VL & RL & BL).
  set (S := slen T n) in *. set (s := B2R S) in *. set (l := IZR T / IZR n) in *. set (it0 := (it - 1)%Z) in *.
  assert (NS : (n <= 70368744177664)%Z) by nia. assert (TS : (T <= 70368744177664)%Z) by nia.
  assert (Rn : 1 <= IZR n <= 70368744177664) by (split; apply IZR_le; lia). assert (RT : 1 <= IZR T) by (apply IZR_le; lia).
  assert (Ri : 0 <= IZR it0 <= IZR T - 1) by (split; [apply IZR_le; unfold it0; lia|rewrite <- minus_IZR; apply IZR_le; unfold it0; lia]).
  assert (U : u64 = / 9007199254740992) by (unfold u64; f_equal; simpl; ring).
  pose proof eta_small as (N1 & N2). replace (2 ^ 60) with 1152921504606846976 in N2 by (simpl; ring).
  replace (2 ^ 50) with 1125899906842624 in BL by (simpl; ring).
  assert (Lp : 0 < l) by (apply Rdiv_lt_0_compat; lra). assert (LT : l * IZR n = IZR T) by (unfold l; field; lra).
  apply Rabs_le_inv in RL. rewrite U in RL. assert (Sp : 0 < s) by lra.
  assert (NI : 0 < / s) by now apply Rinv_0_lt_compat. assert (NI' : / s <= 1125899906842624).
  { rewrite <- (Rinv_inv 1125899906842624). apply Rinv_le; [apply Rinv_0_lt_compat; lra|lra]. }
  (* the index used *)
  set (idx := ffloordiv (fint it0) (length64 T n)). assert (FD : idx = Zfloor (IZR it0 / s)).
  { unfold idx. destruct (bint_val it0) as (Vi & Fi0); [unfold it0; lia|]. rewrite EL, fint_eq. fold (bint it0). rewrite (ffloordiv_val (bint it0) S Fi0 FL); [now rewrite Vi|..].
    - rewrite Vi. replace (2 ^ 53) with 9007199254740992 by (simpl; ring). assert (IZR T <= 70368744177664) by (apply IZR_le; lia). lra.
    - fold s. replace (2 ^ 53) with 9007199254740992 by (simpl; ring). lra.
    - rewrite Vi. fold s. replace (2 ^ 50) with 1125899906842624 by (simpl; ring).
      apply (Rmult_le_reg_r s); [exact Sp|]. replace (IZR it0 / s * s) with (IZR it0) by (field; lra).
      assert (l / 2 <= s) by lra. apply Rle_trans with (IZR T); [lra|]. rewrite <- LT. nra. }
  set (f := IZR it0 / s - IZR idx). assert (Hf : 0 <= f < 1).
  { unfold f. rewrite FD. pose proof (Zfloor_lb (IZR it0 / s)). pose proof (Zfloor_ub (IZR it0 / s)). lra. }
  assert (Is : IZR it0 / s <= 2 * IZR n).
  { apply (Rmult_le_reg_r s); [exact Sp|]. replace (IZR it0 / s * s) with (IZR it0) by (field; lra). assert (l / 2 <= s) by lra. apply Rle_trans with (IZR T); [lra|]. rewrite <- LT. nra. }
  assert (I0 : (0 <= idx)%Z). { rewrite FD. assert (0 <= IZR it0 / s) by (apply Rmult_le_pos; lra). apply (Zfloor_le 0) in H. rewrite Zfloor_IZR in H. exact H. }
  assert (I1 : (idx <= 140737488355328)%Z) by (apply le_IZR; unfold f in Hf; lra).
  assert (R0 : 0 <= IZR idx) by now apply IZR_le.
  assert (Is2 : IZR idx * s = IZR it0 - f * s) by (unfold f; field; lra).
  (* the operations *)
  destruct (bint_val it0) as (Vi & Fi0); [unfold it0; lia|]. destruct (bint_val idx) as (Vx & Fx); [lia|].
  assert (BIG : 281474976710656 <= IZR (2 ^ 200)) by (apply IZR_le; now apply Z.leb_le).
  assert (TT : IZR T <= 70368744177664) by (apply IZR_le; lia).
  assert (FS : 0 <= f * s) by (apply Rmult_le_pos; lra). assert (IS0 : 0 <= IZR idx * s) by (apply Rmult_le_pos; lra).
  destruct (bmul_val (bint idx) S Fx FL) as (Vm & Fm); [rewrite Vx; fold s; rewrite Rabs_right by lra; lra|].
  rewrite Vx in Vm. fold s in Vm. pose proof (rnd_abs (IZR idx * s)) as Em. rewrite <- Vm, (Rabs_right (IZR idx * s)), U in Em by lra.
  assert (M0 : 0 <= B2R (bmul (bint idx) S)) by (rewrite Vm; apply rnd_nonneg; lra). set (m := B2R (bmul (bint idx) S)) in *.
  apply Rabs_le_inv in Em.
  destruct (bsub_val (bint it0) (bmul (bint idx) S) Fi0 Fm) as (Vl & Fl); [rewrite Vi; fold m; apply Rle_trans with 140737488355328; [apply Rabs_le; lra|lra]|].
  rewrite Vi in Vl. fold m in Vl. pose proof (rnd_abs (IZR it0 - m)) as Elo. rewrite <- Vl, U in Elo. set (loc := B2R (bsub (bint it0) (bmul (bint idx) S))) in *.
  assert (D1 : Rabs (IZR it0 - m) <= IZR it0 + eta) by (apply Rabs_le; lra).
  assert (D2 : Rabs (loc - f * s) <= 2 / 9007199254740992 * IZR it0 + 3 * eta).
  { apply Rabs_le_inv in Elo. apply Rabs_le. lra. }
  apply Rabs_le_inv in D2.
  assert (D3 : Rabs (loc / s - f) <= 5 * IZR n / 9007199254740992).
  { replace (loc / s - f) with ((loc - f * s) * / s) by (field; lra). rewrite Rabs_mult, (Rabs_right (/ s)) by lra.
    apply Rle_trans with ((2 / 9007199254740992 * IZR it0 + 3 * eta) * / s); [apply Rmult_le_compat_r; [lra|apply Rabs_le; lra]|].
    rewrite Rmult_plus_distr_r. replace (2 / 9007199254740992 * IZR it0 * / s) with (2 / 9007199254740992 * (IZR it0 / s)) by (unfold Rdiv; ring).
    assert (3 * eta * / s <= / 9007199254740992).
    { apply Rle_trans with (3 * / 2 ^ 1000 * 1125899906842624); [unfold eta; apply Rmult_le_compat_l; [unfold eta in N1; lra|exact NI']|].
      assert (E : / 2 ^ 1000 <= / 2 ^ 110) by (apply Rinv_le; [apply pow_lt; lra|]; apply Rle_pow; [lra|lia]).
      replace (2 ^ 110) with 1298074214633706907132624082305024 in E by (simpl; ring). lra. }
    lra. }
  apply Rabs_le_inv in D3.
  destruct (bdiv_val (bsub (bint it0) (bmul (bint idx) S)) S Fl) as (Vq & Fq); [fold s; lra|fold loc s; apply Rle_trans with 4; [apply Rabs_le; lra|lra]|].
  fold loc s in Vq. pose proof (rnd_abs (loc / s)) as Eq. rewrite <- Vq, U in Eq. set (q := B2R (bdiv (bsub (bint it0) (bmul (bint idx) S)) S)) in *.
  assert (D4 : Rabs (loc / s) <= 2) by (apply Rabs_le; lra).
  assert (D5 : - (8 * IZR n / 9007199254740992) <= q - f <= 8 * IZR n / 9007199254740992) by (apply Rabs_le_inv in Eq; lra).
  (* the capped fraction *)
  destruct (bint_val 1 eq_refl) as (V1 & F1).
  set (al := if Rlt_bool 1 q then bint 1 else bdiv (bsub (bint it0) (bmul (bint idx) S)) S).
  assert (Fal : fin al) by (unfold al; destruct (Rlt_bool 1 q); assumption).
  assert (Val : Rabs (B2R al - f) <= 8 * IZR n / 9007199254740992).
  { unfold al. destruct (Rlt_bool_spec 1 q) as [H|H]; [rewrite V1; apply Rabs_le; lra|fold q; apply Rabs_le; lra]. }
  assert (Ev : v = val (mix64 (B2SF al) (B2SF init) (B2SF target))).
  { unfold v, saw64. fold it0. fold (length64 T n). cbv zeta. fold idx. rewrite EL, !fint_eq. fold (bint it0) (bint idx) (bint 1).
    rewrite fmul_eq, fsub_eq, fdiv_eq, (ltb_val _ _ F1 Fq), V1. fold q. unfold mix64. rewrite fint_eq. fold (bint 1). unfold al. destruct (Rlt_bool 1 q); reflexivity. }
  assert (ERR : forall a, 0 <= a <= 1 -> Rabs (f - a) <= 3 * IZR n / 9007199254740992 -> Rabs (v - ((1 - a) * B2R init + a * B2R target)) <= err).
  { intros a Ha Hfa. apply Rabs_le_inv in Hfa, Val. rewrite Ev.
    eapply Rle_trans; [apply (mix_val al init target a (11 * IZR n / 9007199254740992)); auto; [lra|apply Rabs_le; lra]|].
    unfold err. pose proof (Rabs_pos (B2R init)). pose proof (Rabs_pos (B2R target)). apply Rplus_le_compat.
    - apply Rmult_le_compat_r; [lra|]. rewrite U. replace (2 ^ 48) with 281474976710656 by (simpl; ring). lra.
    - unfold eta. replace (/ 2 ^ 990) with (1024 * / 2 ^ 1000).
      + assert (0 < / 2 ^ 1000) by (apply Rinv_0_lt_compat, pow_lt; lra). lra.
      + change 1000%nat with (990 + 10)%nat. rewrite pow_add. replace (2 ^ 10) with 1024 by (simpl; ring). field. }
  (* position against the exact cycle *)
  assert (PD : Rabs (IZR it0 / s - IZR it0 / l) <= 2 * IZR n / 9007199254740992).
  { replace (IZR it0 / s - IZR it0 / l) with (IZR it0 / s * ((l - s) * / l)) by (field; lra).
    replace (2 * IZR n / 9007199254740992) with (2 * IZR n * / 9007199254740992) by reflexivity.
    apply abs_mul_le; [rewrite Rabs_right; [exact Is|apply Rle_ge, Rmult_le_pos; lra]|].
    assert (0 < / l) by (apply Rinv_0_lt_compat; lra). apply Rabs_le.
    split; apply (Rmult_le_reg_r l); try lra; replace ((l - s) * / l * l) with (l - s) by (field; lra); lra. }
  apply Rabs_le_inv in PD.
  assert (PJ : IZR it0 / l = IZR j + IZR (it0 * n - j * T) / IZR T) by (unfold l; rewrite minus_IZR, !mult_IZR; field; lra).
  split; intros HL.
  - assert (Ei : idx = j) by exact (L2 HL).
    replace (B2R init + (IZR it0 - IZR j * l) / l * (B2R target - B2R init)) with ((1 - (IZR it0 / l - IZR j)) * B2R init + (IZR it0 / l - IZR j) * B2R target) by (field; lra).
    apply ERR.
    + unfold in_part in Hj. fold it0 in Hj. assert (0 <= IZR (it0 * n - j * T) <= IZR T) by (split; apply IZR_le; lia). rewrite PJ.
      assert (0 < / IZR T) by (apply Rinv_0_lt_compat; lra). split; [assert (0 <= IZR (it0 * n - j * T) / IZR T) by (apply Rmult_le_pos; lra); lra|].
      assert (IZR (it0 * n - j * T) / IZR T <= 1); [|lra]. apply (Rmult_le_reg_r (IZR T)); [lra|]. replace (IZR (it0 * n - j * T) / IZR T * IZR T) with (IZR (it0 * n - j * T)) by (field; lra). lra.
    + unfold f. rewrite Ei. apply Rabs_le. lra.
  - assert (Ei : idx = (j - 1)%Z) by exact (L1 HL).
    replace (B2R target) with ((1 - 1) * B2R init + 1 * B2R target) at 1 by ring. apply ERR; [lra|].
    destruct HL as (HL & _). fold it0 in HL. replace (it0 * n - j * T)%Z with 0%Z in PJ by lia. unfold Rdiv in PJ at 2. rewrite Rmult_0_l in PJ.
    unfold f. rewrite Ei, minus_IZR. apply Rabs_le. lra.
Qed.
Print Assumptions C06_binary64.
