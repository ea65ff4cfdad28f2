(* C84: bounds of densities, multiplier and projection in binary64. *)
From Coq Require Import ZArith Reals List Lia Lra Floats.SpecFloat.
From Flocq Require Import Core BinarySingleNaN.
From Verif Require Import Sched_float Bin64 Float_props Upd64_model.
Import ListNotations.
Open Scope R_scope.

(* ---------- specification ---------- *)
(* a float between two others *)
Definition within (lo hi v : b64) : Prop := is_finite v = true /\ B2R lo <= B2R v <= B2R hi.
(* a usable parameter: finite, not astronomically large *)
Definition usable (v : b64) : Prop := is_finite v = true /\ Rabs (B2R v) <= IZR (2 ^ 100).
(* what is required of np.power: no NaN for a base that is zero or not negative *)
Definition pow_ok (pw : b64 -> b64 -> b64) (eta : b64) : Prop :=
  forall x, is_nan x = false -> (B2R x = 0 /\ is_finite x = true) \/ Bsign x = false -> is_nan (pw x eta) = false.
(* what is required of np.tanh: non-decreasing, odd, between -1 and 1 *)
Definition tanh_ok (th : b64 -> b64) : Prop :=
  (forall x, is_finite x = true -> is_finite (th x) = true /\ -1 <= B2R (th x) <= 1) /\
  (forall x y, is_finite x = true -> is_finite y = true -> B2R x <= B2R y -> B2R (th x) <= B2R (th y)) /\
  (forall x y, is_finite x = true -> is_finite y = true -> B2R x = - B2R y -> B2R (th x) = - B2R (th y)).

Lemma fin_not_nan (x : b64) : fin x -> is_nan x = false. Proof. now destruct x. Qed.
Lemma bltb_val (x y : b64) : fin x -> fin y -> Bltb x y = Rlt_bool (B2R x) (B2R y). Proof. exact (ltb_val x y). Qed.
Lemma bmaximum_val x y : fin x -> fin y -> fin (bmaximum x y) /\ B2R (bmaximum x y) = Rmax (B2R x) (B2R y).
Proof.
  intros Fx Fy. unfold bmaximum. rewrite (fin_not_nan x Fx), (fin_not_nan y Fy), (bltb_val x y Fx Fy).
  destruct (Rlt_bool_spec (B2R x) (B2R y)); (split; [assumption|]); [rewrite Rmax_right|rewrite Rmax_left]; lra.
Qed.
Lemma bminimum_val x y : fin x -> fin y -> fin (bminimum x y) /\ B2R (bminimum x y) = Rmin (B2R x) (B2R y).
Proof.
  intros Fx Fy. unfold bminimum. rewrite (fin_not_nan x Fx), (fin_not_nan y Fy), (bltb_val y x Fy Fx).
  destruct (Rlt_bool_spec (B2R y) (B2R x)); (split; [assumption|]); [rewrite Rmin_right|rewrite Rmin_left]; lra.
Qed.
Lemma bclip_within x lo hi : is_nan x = false -> fin lo -> fin hi -> B2R lo <= B2R hi -> within lo hi (bclip x lo hi).
Proof.
  intros Nx Fl Fh H. unfold bclip. destruct (is_finite x) eqn:Fx.
  - destruct (bmaximum_val x lo Fx Fl) as (F1 & V1). destruct (bminimum_val _ hi F1 Fh) as (F2 & V2). split; [exact F2|]. rewrite V2, V1.
    pose proof (Rmax_r (B2R x) (B2R lo)). split; [apply Rmin_glb; lra|apply Rmin_r].
  - destruct x as [|s| |]; try discriminate. unfold bmaximum. cbn [is_nan]. rewrite (fin_not_nan lo Fl).
    destruct s.
    + assert (Bltb (B754_infinity true : b64) lo = true) as -> by (destruct lo as [| | |]; try discriminate Fl; reflexivity).
      destruct (bminimum_val lo hi Fl Fh) as (F2 & V2). split; [exact F2|]. rewrite V2. rewrite Rmin_left by exact H. lra.
    + assert (Bltb (B754_infinity false : b64) lo = false) as -> by (destruct lo as [| | |]; try discriminate Fl; reflexivity).
      unfold bminimum. cbn [is_nan]. rewrite (fin_not_nan hi Fh).
      assert (Bltb hi (B754_infinity false : b64) = true) as -> by (destruct hi as [| | |]; try discriminate Fh; reflexivity).
      split; [exact Fh|lra].
Qed.
Lemma bclip_nan x lo hi : is_nan x = true -> is_nan (bclip x lo hi) = true.
Proof. intros H. unfold bclip, bmaximum, bminimum. rewrite H, H. exact H. Qed.
Lemma mul_not_nan (x y : b64) : fin x -> fin y -> is_nan (bmul x y) = false.
Proof.
  intros Fx Fy. unfold bmul. pose proof (Bmult_correct 53 1024 Hprec Hmax mode_NE x y) as C.
  destruct (Rlt_bool _ _).
  - destruct C as (_ & F & _). unfold fin in Fx, Fy. rewrite Fx, Fy in F. now apply fin_not_nan.
  - destruct (Bmult mode_NE x y); try reflexivity. cbn [B2SF] in C. unfold binary_overflow in C. destruct (overflow_to_inf _ _); discriminate C.
Qed.
Lemma rnd_fin x : fin x -> rnd (B2R x) = B2R x.
Proof. intros _. apply rnd_id, generic_format_B2R. Qed.
Lemma sum_small x y : usable x -> usable y -> Rabs (B2R x + B2R y) <= IZR (2 ^ 200) /\ Rabs (B2R x - B2R y) <= IZR (2 ^ 200).
Proof.
  intros (_ & A) (_ & B). assert (G : IZR (2 ^ 100) * 2 <= IZR (2 ^ 200)) by (rewrite <- mult_IZR; apply IZR_le; now apply Z.leb_le).
  apply Rabs_le_inv in A, B. split; apply Rabs_le; lra.
Qed.

(* ---------- one element ---------- *)
(* Whatever is multiplied to a density: after the clipping it is a finite number
   within the bounds and within the move limits (up to the rounding of rho - move
   and rho + move), exactly. *)
Lemma clipped_within x rho rho_min rho_max move :
  is_nan x = false -> usable rho -> usable rho_min -> usable rho_max -> usable move -> 0 <= B2R move -> within rho_min rho_max rho ->
  let v := bclip x (bmaximum (bsub rho move) rho_min) (bminimum (badd rho move) rho_max) in
  within rho_min rho_max v /\ rnd (B2R rho - B2R move) <= B2R v <= rnd (B2R rho + B2R move).
Proof.
  intros Nx Ur Ul Uh Um Hm (Fr & Hr) v. destruct (sum_small rho move Ur Um) as (S1 & S2).
  destruct (bsub_val rho move (proj1 Ur) (proj1 Um) S2) as (Vs & Fs). destruct (badd_val rho move (proj1 Ur) (proj1 Um) S1) as (Va & Fa).
  destruct (bmaximum_val (bsub rho move) rho_min Fs (proj1 Ul)) as (F1 & V1). destruct (bminimum_val (badd rho move) rho_max Fa (proj1 Uh)) as (F2 & V2).
  assert (L1 : rnd (B2R rho - B2R move) <= B2R rho) by (rewrite <- (rnd_fin rho Fr) at 2; apply rnd_le; lra).
  assert (L2 : B2R rho <= rnd (B2R rho + B2R move)) by (rewrite <- (rnd_fin rho Fr) at 1; apply rnd_le; lra).
  rewrite Vs in V1. rewrite Va in V2.
  assert (LO : B2R (bmaximum (bsub rho move) rho_min) <= B2R rho) by (rewrite V1; apply Rmax_lub; lra).
  assert (HI : B2R rho <= B2R (bminimum (badd rho move) rho_max)) by (rewrite V2; apply Rmin_glb; lra).
  destruct (bclip_within x _ _ Nx F1 F2 ltac:(lra)) as (Fv & Hv). fold v in Fv, Hv. rewrite V1, V2 in Hv.
  pose proof (Rmax_l (rnd (B2R rho - B2R move)) (B2R rho_min)). pose proof (Rmax_r (rnd (B2R rho - B2R move)) (B2R rho_min)).
  pose proof (Rmin_l (rnd (B2R rho + B2R move)) (B2R rho_max)). pose proof (Rmin_r (rnd (B2R rho + B2R move)) (B2R rho_max)).
  unfold within. repeat split; try assumption; lra.
Qed.

Theorem C84_oc_element : forall pw rho_min rho_max move eta eps smin smax rho dC lmid,
  usable rho -> usable rho_min -> usable rho_max -> usable move -> 0 <= B2R move -> within rho_min rho_max rho ->
  is_finite smin = true -> is_finite smax = true -> B2R smin <= B2R smax ->
  let pv := pw (bdiv (Bopp dC) (badd lmid eps)) eta in
  let v := candidate64 pw rho_min rho_max move eta eps smin smax rho dC lmid in
  (is_nan pv = false -> within rho_min rho_max v /\
     B2R rho - B2R move - / 2 ^ 52 * (Rabs (B2R rho) + B2R move) - / 2 ^ 1000 <= B2R v <=
     B2R rho + B2R move + / 2 ^ 52 * (Rabs (B2R rho) + B2R move) + / 2 ^ 1000) /\
  (is_nan pv = true -> is_nan v = true).
Proof.
  intros pw rho_min rho_max move eta eps smin smax rho dC lmid Ur Ul Uh Um Hm Hr Fs1 Fs2 Hs pv v. split; intros Hp.
  - pose proof (bclip_within pv smin smax Hp Fs1 Fs2 Hs) as (Fsc & _).
    pose proof (mul_not_nan rho (bclip pv smin smax) (proj1 Ur) Fsc) as Nx.
    destruct (clipped_within _ rho rho_min rho_max move Nx Ur Ul Uh Um Hm Hr) as (W & H).
    split; [exact W|]. change (rnd (B2R rho - B2R move) <= B2R v <= rnd (B2R rho + B2R move)) in H.
    pose proof (rnd_abs (B2R rho - B2R move)) as E1. pose proof (rnd_abs (B2R rho + B2R move)) as E2. change (/ 2 ^ 1000) with Float_props.eta.
    assert (U : u64 = / 2 ^ 53) by reflexivity. assert (D : / 2 ^ 52 = 2 * / 2 ^ 53) by (replace (2 ^ 53) with (2 * 2 ^ 52) by (simpl; ring); field; apply pow_nonzero; lra).
    assert (P53 : 0 < / 2 ^ 53) by (apply Rinv_0_lt_compat, pow_lt; lra).
    assert (A1 : Rabs (B2R rho - B2R move) <= Rabs (B2R rho) + B2R move).
    { unfold Rminus. eapply Rle_trans; [apply Rabs_triang|]. rewrite Rabs_Ropp, (Rabs_right (B2R move)) by lra. lra. }
    assert (A2 : Rabs (B2R rho + B2R move) <= Rabs (B2R rho) + B2R move).
    { eapply Rle_trans; [apply Rabs_triang|]. rewrite (Rabs_right (B2R move)) by lra. lra. }
    apply (Rmult_le_compat_l u64) in A1; [|rewrite U; lra]. apply (Rmult_le_compat_l u64) in A2; [|rewrite U; lra].
    apply Rabs_le_inv in E1, E2. rewrite D. rewrite U in *. pose proof (Rabs_pos (B2R rho)).
    assert (0 <= / 2 ^ 53 * (Rabs (B2R rho) + B2R move)) by (apply Rmult_le_pos; lra). lra.
  - unfold v, candidate64. apply bclip_nan. unfold scaling64. fold pv.
    pose proof (bclip_nan pv smin smax Hp) as N. destruct (bclip pv smin smax); try discriminate N. now destruct rho.
Qed.
Print Assumptions C84_oc_element.

(* ---------- the multiplier ---------- *)
Lemma double_format x : generic_format radix2 fexp64 x -> rnd (2 * x) = 2 * x.
Proof.
  intros H. apply rnd_id. change fexp64 with (FLT_exp (-1074) 53) in *. apply FLT_format_generic in H; [|reflexivity].
  destruct H as [[m e] H1 H2 H3]. apply generic_format_FLT. exists (Float radix2 m (e + 1)); [|exact H2|cbn in *; lia].
  rewrite H1. unfold F2R. cbn [Fnum Fexp]. rewrite bpow_plus. change (bpow radix2 1) with 2. ring.
Qed.
Lemma half_val : B2R (bdiv (bint 1) (bint 2)) = / 2 /\ fin (bdiv (bint 1) (bint 2)).
Proof.
  destruct (bint_val 1 eq_refl) as (V1 & F1). destruct (bint_val 2 eq_refl) as (V2 & F2).
  destruct (bdiv_val (bint 1) (bint 2) F1) as (Vh & Fh); [rewrite V2; lra|rewrite V1, V2, Rabs_right by lra; apply Rle_trans with 1; [lra|]; apply IZR_le; now apply Z.leb_le|].
  split; [|exact Fh]. rewrite Vh, V1, V2. replace (1 / 2) with (IZR 1 * bpow radix2 (-1)) by (cbn; lra). rewrite rnd_id by (apply format_int; lia). cbn. lra.
Qed.
Lemma midpoint_within l1 l2 : usable l1 -> usable l2 -> B2R l1 <= B2R l2 -> within l1 l2 (midpoint64 l1 l2) /\ usable (midpoint64 l1 l2).
Proof.
  intros U1 U2 H. destruct half_val as (Vh & Fh). destruct (sum_small l1 l2 U1 U2) as (S1 & _).
  destruct (badd_val l1 l2 (proj1 U1) (proj1 U2) S1) as (Va & Fa).
  assert (A1 : 2 * B2R l1 <= B2R (badd l1 l2)) by (rewrite Va, <- double_format by apply generic_format_B2R; apply rnd_le; lra).
  assert (A2 : B2R (badd l1 l2) <= 2 * B2R l2) by (rewrite Va, <- (double_format (B2R l2)) by apply generic_format_B2R; apply rnd_le; lra).
  assert (G : IZR (2 ^ 100) * 2 <= IZR (2 ^ 200)) by (rewrite <- mult_IZR; apply IZR_le; now apply Z.leb_le).
  destruct U1 as (F1 & B1), U2 as (F2 & B2). apply Rabs_le_inv in B1, B2.
  destruct (bmul_val _ (badd l1 l2) Fh Fa) as (Vm & Fm); [rewrite Vh; apply Rabs_le; lra|].
  assert (W : B2R l1 <= B2R (midpoint64 l1 l2) <= B2R l2).
  { unfold midpoint64. rewrite Vm, Vh. split.
    - rewrite <- (rnd_fin l1 F1) at 1. apply rnd_le. lra.
    - apply Rle_trans with (rnd (B2R l2)); [apply rnd_le; lra|rewrite (rnd_fin l2 F2); lra]. }
  split; [split; [exact Fm|exact W]|]. split; [exact Fm|]. apply Rabs_le. lra.
Qed.

Section bis.
  Variables (pw : b64 -> b64 -> b64) (rho_min rho_max move eta eps smin smax : b64) (vol : list b64 -> b64) (tolerance vol_tol : b64).
  Notation bisect := (bisection64 pw rho_min rho_max move eta eps smin smax vol tolerance vol_tol).
  (* Every multiplier tried lies in the given interval, whatever the volumes are
     (also NaN); at most max_iter + 1 are tried; at least one is. *)
  Lemma bisection_within k : forall rho dC l1 l2, usable l1 -> usable l2 -> B2R l1 <= B2R l2 ->
    Forall (fun l => within l1 l2 l /\ usable l) (bisect k rho dC l1 l2) /\ (1 <= length (bisect k rho dC l1 l2) <= k + 1)%nat.
  Proof.
    induction k as [|k IH]; intros rho dC l1 l2 U1 U2 H; destruct (midpoint_within l1 l2 U1 U2 H) as (W & U); cbn [bisection64]; cbv zeta;
      set (e := vol _); destruct (Bltb (Babs e) vol_tol); try (split; [constructor; [split; assumption|constructor]|cbn [length]; lia]).
    destruct (Bleb _ tolerance); [split; [constructor; [split; assumption|constructor]|cbn [length]; lia]|].
    destruct W as (FW & W1 & W2). destruct (Bltb (bint 0) e).
    - destruct (IH rho dC (midpoint64 l1 l2) l2 U U2 W2) as (I1 & I2). split; [|cbn [length]; lia].
      constructor; [repeat split; auto; apply U|]. eapply Forall_impl; [|exact I1]. intros l ((Fl & A & B) & C). repeat split; auto; try lra; apply C.
    - destruct (IH rho dC l1 (midpoint64 l1 l2) U1 U W1) as (I1 & I2). split; [|cbn [length]; lia].
      constructor; [repeat split; auto; apply U|]. eapply Forall_impl; [|exact I1]. intros l ((Fl & A & B) & C). repeat split; auto; try lra; apply C.
  Qed.
End bis.
Theorem C84_multiplier : forall pw rho_min rho_max move eta eps smin smax vol tolerance vol_tol max_iter rho dC l1 l2,
  usable l1 -> usable l2 -> B2R l1 <= B2R l2 ->
  let tried := bisection64 pw rho_min rho_max move eta eps smin smax vol tolerance vol_tol max_iter rho dC l1 l2 in
  Forall (within l1 l2) tried /\ (1 <= length tried <= max_iter + 1)%nat.
Proof.
  intros. destruct (bisection_within pw rho_min rho_max move eta eps smin smax vol tolerance vol_tol max_iter rho dC l1 l2) as (A & B); auto.
  split; [|exact B]. eapply Forall_impl; [|exact A]. cbv beta. tauto.
Qed.
Print Assumptions C84_multiplier.

(* ---------- updates and runs ---------- *)
Lemma base_ok dC lmid eps : is_finite dC = true -> B2R dC <= 0 -> usable lmid -> 0 <= B2R lmid -> usable eps -> 0 < B2R eps ->
  let x := bdiv (Bopp dC) (badd lmid eps) in is_nan x = false /\ ((B2R x = 0 /\ is_finite x = true) \/ Bsign x = false).
Proof.
  intros Fd Hd Ul Hl Ue He x. destruct (sum_small lmid eps Ul Ue) as (S1 & _).
  destruct (badd_val lmid eps (proj1 Ul) (proj1 Ue) S1) as (Va & Fa).
  assert (Pa : 0 < B2R (badd lmid eps)).
  { rewrite Va. apply Rlt_le_trans with (rnd (B2R eps)); [rewrite (rnd_fin eps (proj1 Ue)); exact He|]. apply rnd_le. lra. }
  assert (SD : (B2R dC = 0) \/ Bsign (Bopp dC) = false).
  { destruct dC as [|[]| |[] m e B]; try discriminate Fd; try (now left); [now right|]. exfalso. revert Hd. cbn [B2R]. apply Rlt_not_le, F2R_gt_0. cbn. lia. }
  assert (SA : Bsign (badd lmid eps) = false).
  { destruct (badd lmid eps) as [s|s| |[] m e B]; try (cbn in Pa; lra); [|reflexivity]. exfalso. revert Pa. cbn [B2R]. apply Rle_not_lt, F2R_le_0. cbn. lia. }
  pose proof (Bdiv_correct 53 1024 Hprec Hmax mode_NE (Bopp dC) (badd lmid eps) ltac:(lra)) as C. fold bdiv in C. fold x in C.
  destruct (Rlt_bool _ _) eqn:E.
  - destruct C as (V & F & S). rewrite is_finite_Bopp, Fd in F. split; [now apply fin_not_nan|].
    destruct SD as [Z|Z].
    + left. split; [|exact F]. rewrite V, B2R_Bopp, Z. unfold Rdiv. rewrite Ropp_0, Rmult_0_l. apply rnd_0.
    + right. rewrite (S (fin_not_nan _ F)), Z, SA. reflexivity.
  - destruct SD as [Z|Z].
    + exfalso. rewrite B2R_Bopp, Z in E. unfold Rdiv in E. rewrite Ropp_0, Rmult_0_l in E. change (round radix2 fexp64 (round_mode mode_NE) 0) with (rnd 0) in E.
      rewrite rnd_0, Rabs_R0, Rlt_bool_true in E by apply bpow_gt_0. discriminate E.
    + rewrite Z, SA in C. unfold binary_overflow in C. cbn in C. destruct x; try discriminate C. injection C as ->. split; [reflexivity|now right].
Qed.

(* an OC configuration in binary64 *)
Record oc64 := mkOC64 { o_pw : b64 -> b64 -> b64; o_min : b64; o_max : b64; o_move : b64; o_eta : b64; o_eps : b64;
  o_smin : b64; o_smax : b64; o_vol : list b64 -> b64; o_tol : b64; o_vtol : b64; o_iter : nat; o_l1 : b64; o_l2 : b64 }.
Definition oc64_ok (lo hi : b64) (c : oc64) : Prop :=
  o_min c = lo /\ o_max c = hi /\ pow_ok (o_pw c) (o_eta c) /\ usable (o_move c) /\ 0 <= B2R (o_move c) /\ usable (o_eps c) /\ 0 < B2R (o_eps c) /\
  is_finite (o_smin c) = true /\ is_finite (o_smax c) = true /\ B2R (o_smin c) <= B2R (o_smax c) /\
  usable (o_l1 c) /\ usable (o_l2 c) /\ 0 <= B2R (o_l1 c) <= B2R (o_l2 c).
Definition oc64_step (rho : list b64) (s : oc64 * list b64) : list b64 :=
  let (c, dC) := s in oc_update64 (o_pw c) (o_min c) (o_max c) (o_move c) (o_eta c) (o_eps c) (o_smin c) (o_smax c) (o_vol c) (o_tol c) (o_vtol c)
    (o_iter c) rho dC (o_l1 c) (o_l2 c).

(* However many OC updates are made, with whatever sensitivities (finite, not
   positive), volumes, move limits, exponents and multiplier intervals: all
   densities are finite numbers in [rho_min, rho_max], exactly. *)
Theorem C84_oc_run : forall lo hi steps rho, usable lo -> usable hi -> Forall (within lo hi) rho ->
  Forall (fun s => oc64_ok lo hi (fst s) /\ Forall (fun d => is_finite d = true /\ B2R d <= 0) (snd s) /\ length (snd s) = length rho) steps ->
  Forall (within lo hi) (fold_left oc64_step steps rho) /\ length (fold_left oc64_step steps rho) = length rho.
Proof.
  intros lo hi steps. induction steps as [|[c dC] steps IH]; intros rho Ul Uh Hr Hs; [split; [exact Hr|reflexivity]|].
  inversion Hs as [|? ? (Hc & Hd & Hlen) Hs']; subst. cbn [fst snd] in *. cbn [fold_left].
  assert (L : length (oc64_step rho (c, dC)) = length rho) by (unfold oc64_step, oc_update64; rewrite map_length, combine_length, Hlen; apply Nat.min_id).
  assert (W : Forall (within lo hi) (oc64_step rho (c, dC))).
  { destruct Hc as (<- & <- & Hp & Um & Hm & Ue & He & Fs1 & Fs2 & Hss & U1 & U2 & H1 & H2).
    unfold oc64_step, oc_update64. set (lmid := last _ _).
    assert (LM : usable lmid /\ 0 <= B2R lmid).
    { destruct (bisection_within (o_pw c) (o_min c) (o_max c) (o_move c) (o_eta c) (o_eps c) (o_smin c) (o_smax c) (o_vol c) (o_tol c) (o_vtol c) (o_iter c) rho dC (o_l1 c) (o_l2 c) U1 U2 H2) as (A & B).
      unfold lmid. set (l := bisection64 _ _ _ _ _ _ _ _ _ _ _ _ _ _ _ _) in *. rewrite Forall_forall in A.
      assert (I : In (last l (o_l1 c)) l). { destruct l as [|x l]; [cbn in B; lia|]. clear. revert x. induction l as [|y l IH]; intros x; [now left|]. right. exact (IH y). }
      destruct (A _ I) as ((_ & W1 & _) & U). split; [exact U|lra]. }
    rewrite Forall_map. apply Forall_forall. intros [r d] Hin. cbn [fst snd].
    assert (Hr' : within (o_min c) (o_max c) r) by (apply in_combine_l in Hin; rewrite Forall_forall in Hr; auto).
    assert (Hd' : is_finite d = true /\ B2R d <= 0) by (apply in_combine_r in Hin; rewrite Forall_forall in Hd; auto).
    assert (Ur : usable r). { destruct Hr' as (Fr & A & B). split; [exact Fr|]. destruct Ul as (_ & X), Uh as (_ & Y). apply Rabs_le_inv in X, Y. apply Rabs_le. lra. }
    destruct LM as (LM1 & LM2). pose proof (base_ok d lmid (o_eps c) (proj1 Hd') (proj2 Hd') LM1 LM2 Ue He) as HB. cbv zeta in HB. destruct HB as (NB & SB).
    destruct (C84_oc_element (o_pw c) (o_min c) (o_max c) (o_move c) (o_eta c) (o_eps c) (o_smin c) (o_smax c) r d lmid Ur Ul Uh Um Hm Hr' Fs1 Fs2 Hss) as (C & _).
    apply C. now apply Hp. }
  destruct (IH (oc64_step rho (c, dC)) Ul Uh W) as (I1 & I2).
  - eapply Forall_impl; [|exact Hs']. cbv beta. intros s (A & B & C). split; [exact A|split; [exact B|now rewrite L]].
  - split; [exact I1|]. now rewrite I2, L.
Qed.
Print Assumptions C84_oc_run.

(* LogMOC: the same bounds unless the log-space step is NaN; and it is NaN for every
   density at a lower bound rho_min = 0 (with IEEE log and exp). *)
Theorem C84_logmoc_element : forall lg ex rho_min rho_max move eta lclip rho dL,
  is_finite rho_min = true -> is_finite rho_max = true -> B2R rho_min <= B2R rho_max ->
  let v := log_update64 lg ex rho_min rho_max move eta lclip rho dL in
  within rho_min rho_max v \/ is_nan v = true.
Proof.
  intros lg ex rho_min rho_max move eta lclip rho dL F1 F2 H v. unfold v, log_update64. cbv zeta. set (x := ex _).
  destruct (is_nan x) eqn:N; [right; now apply bclip_nan|left; now apply bclip_within].
Qed.
Print Assumptions C84_logmoc_element.
(* what is required of np.log and np.exp: finite logarithms of positive numbers, no NaN
   from exp, and exp(log x) not below half the lower bound (both functions are
   accurate to one unit in the last place) *)
Definition logexp_ok (lg ex : b64 -> b64) (rho_min rho_max : b64) : Prop :=
  (forall x, is_finite x = true -> 0 < B2R x -> is_finite (lg x) = true /\ Rabs (B2R (lg x)) <= IZR (2 ^ 20)) /\
  (forall y, is_finite y = true -> is_nan (ex y) = false) /\
  (forall x, within rho_min rho_max x -> usable (ex (lg x)) /\ B2R rho_min / 2 <= B2R (ex (lg x))).
(* With a positive lower bound (the shipped default is 1e-2) the LogMOC update never produces NaN: *)
(* the new density is a finite number in [rho_min, rho_max], whatever the multiplied sensitivity is. *)
Theorem C84_logmoc_positive_lower_bound : forall lg ex rho_min rho_max move eta lclip rho dL,
  usable rho_min -> usable rho_max -> / IZR (2 ^ 50) <= B2R rho_min <= B2R rho_max -> is_nan rho = false ->
  usable move -> 0 <= B2R move -> usable eta -> usable lclip -> 0 <= B2R lclip -> B2R lclip <= IZR (2 ^ 50) -> Rabs (B2R eta) <= IZR (2 ^ 50) ->
  is_nan dL = false -> logexp_ok lg ex rho_min rho_max ->
  within rho_min rho_max (log_update64 lg ex rho_min rho_max move eta lclip rho dL).
Proof.
  intros lg ex rho_min rho_max move eta lclip rho dL Ul Uh Hb Nr Um Hm Ue Uc Hc Hc2 He Nd (LG & EX & LE).
  assert (P : 0 < / IZR (2 ^ 50)) by (apply Rinv_0_lt_compat, IZR_lt; reflexivity).
  unfold log_update64. cbv zeta.
  pose proof (bclip_within rho rho_min rho_max Nr (proj1 Ul) (proj1 Uh) ltac:(lra)) as W. set (r := bclip rho rho_min rho_max) in *.
  destruct (LG r (proj1 W)) as (F1 & B1); [destruct W as (_ & W); lra|]. set (l := lg r) in *.
  destruct (LE r W) as (U2 & B2). fold l in U2, B2. set (e := ex l) in *.
  destruct (bint_val 1 eq_refl) as (V1 & Fi1). destruct (bint_val 2 eq_refl) as (V2 & Fi2).
  assert (G : IZR (2 ^ 100) * IZR (2 ^ 51) * 4 <= IZR (2 ^ 200)) by (rewrite <- !mult_IZR; apply IZR_le; now apply Z.leb_le).
  assert (G51 : 2 * IZR (2 ^ 50) = IZR (2 ^ 51)) by (rewrite <- mult_IZR; reflexivity).
  assert (G1 : 1 <= IZR (2 ^ 100)) by (apply IZR_le; now apply Z.leb_le). assert (G2 : 1 <= IZR (2 ^ 51)) by (apply IZR_le; now apply Z.leb_le).
  assert (G3 : IZR (2 ^ 20) <= IZR (2 ^ 100)) by (apply IZR_le; now apply Z.leb_le). assert (G4 : 0 <= IZR (2 ^ 20)) by (apply IZR_le; now apply Z.leb_le).
  assert (G5 : IZR (2 ^ 100) * 4 <= IZR (2 ^ 200)) by (rewrite <- mult_IZR; apply IZR_le; now apply Z.leb_le).
  assert (G6 : IZR (2 ^ 50) * IZR (2 ^ 50) = IZR (2 ^ 100)) by (rewrite <- mult_IZR; reflexivity).
  destruct Um as (Fm & Bm). apply Rabs_le_inv in Bm.
  assert (PE : 0 < B2R e) by lra.
  assert (Q : 0 <= B2R move / B2R e <= IZR (2 ^ 100) * IZR (2 ^ 51)).
  { split; [apply Rmult_le_pos; [lra|apply Rlt_le, Rinv_0_lt_compat; lra]|]. unfold Rdiv. apply Rmult_le_compat; [lra|apply Rlt_le, Rinv_0_lt_compat; lra|lra|].
    rewrite <- (Rinv_inv (IZR (2 ^ 51))). apply Rinv_le; [apply Rinv_0_lt_compat; lra|]. apply Rle_trans with (B2R rho_min / 2); [|lra].
    rewrite <- G51, Rinv_mult. lra. }
  destruct (bdiv_val move e Fm) as (Vq & Fq); [lra|rewrite Rabs_right by lra; nra|]. set (q := bdiv move e) in *.
  assert (GR : rnd (IZR (2 ^ 100) * IZR (2 ^ 51)) = IZR (2 ^ 100) * IZR (2 ^ 51)).
  { rewrite <- mult_IZR. change (IZR (2 ^ 100 * 2 ^ 51)) with (bpow radix2 151). apply rnd_id, generic_format_bpow. cbn. lia. }
  assert (Bq : 0 <= B2R q <= IZR (2 ^ 100) * IZR (2 ^ 51)). { rewrite Vq. split; [apply rnd_nonneg; lra|]. rewrite <- GR. apply rnd_le. lra. }
  destruct (badd_val q (bint 1) Fq Fi1) as (Vs & Fs); [rewrite V1, Rabs_right by lra; nra|]. set (s := badd q (bint 1)) in *.
  assert (PS : 0 < B2R s). { rewrite Vs, V1. apply Rlt_le_trans with (rnd 1); [rewrite (rnd_IZR 1) by reflexivity; lra|apply rnd_le; lra]. }
  destruct (LG s Fs PS) as (F3 & B3). set (t := lg s) in *. apply Rabs_le_inv in B1, B3.
  destruct (bsub_val l t F1 F3) as (Vlo & Flo); [apply Rabs_le; lra|]. set (lo := bsub l t) in *.
  assert (Glo : rnd (2 * IZR (2 ^ 20)) = 2 * IZR (2 ^ 20)) by (rewrite <- mult_IZR; apply rnd_IZR; reflexivity).
  assert (Gn : rnd (- (2 * IZR (2 ^ 20))) = - (2 * IZR (2 ^ 20))) by (rewrite <- mult_IZR, <- opp_IZR; apply rnd_IZR; reflexivity).
  assert (Blo : - (2 * IZR (2 ^ 20)) <= B2R lo <= 2 * IZR (2 ^ 20)) by (rewrite Vlo; split; [rewrite <- Gn at 1|rewrite <- Glo]; apply rnd_le; lra).
  assert (G7 : IZR (2 ^ 100) >= 4 * IZR (2 ^ 20)) by (rewrite <- mult_IZR; apply Rle_ge, IZR_le; now apply Z.leb_le).
  destruct (bmul_val (bint 2) t Fi2 F3) as (Vt & Ftt); [rewrite V2; apply Rabs_le; lra|]. set (tt2 := bmul (bint 2) t) in *.
  assert (Bt : - (2 * IZR (2 ^ 20)) <= B2R tt2 <= 2 * IZR (2 ^ 20)) by (rewrite Vt, V2; split; [rewrite <- Gn at 1|rewrite <- Glo]; apply rnd_le; lra).
  destruct (badd_val lo tt2 Flo Ftt) as (_ & Fup); [apply Rabs_le; lra|]. set (up := badd lo tt2) in *.
  (* the step *)
  pose proof (bclip_within dL (Bopp lclip) lclip Nd) as WS. destruct WS as (FS & BS); [unfold fin; rewrite is_finite_Bopp; exact (proj1 Uc)|exact (proj1 Uc)|rewrite B2R_Bopp; lra|].
  rewrite B2R_Bopp in BS. set (sc := bclip dL (Bopp lclip) lclip) in *.
  destruct (bmul_val eta sc (proj1 Ue) FS) as (Vp & Fp); [apply Rle_trans with (IZR (2 ^ 50) * IZR (2 ^ 50)); [apply abs_mul_le; [exact He|apply Rabs_le; lra]|lra]|].
  set (st := bmul eta sc) in *.
  assert (Bst : Rabs (B2R st) <= IZR (2 ^ 100)).
  { rewrite Vp, <- G6. assert (A : Rabs (B2R eta * B2R sc) <= IZR (2 ^ 50) * IZR (2 ^ 50)) by (apply abs_mul_le; [exact He|apply Rabs_le; lra]).
    rewrite G6 in *. assert (GG : rnd (IZR (2 ^ 100)) = IZR (2 ^ 100)) by (change (IZR (2 ^ 100)) with (bpow radix2 100); apply rnd_id, generic_format_bpow; cbn; lia).
    assert (GM : rnd (- IZR (2 ^ 100)) = - IZR (2 ^ 100)) by (unfold rnd; rewrite round_NE_opp; fold (rnd (IZR (2 ^ 100))); now rewrite GG).
    apply Rabs_le_inv in A. apply Rabs_le. split; [rewrite <- GM|rewrite <- GG]; apply rnd_le; lra. }
  apply Rabs_le_inv in Bst.
  destruct (bsub_val l st F1 Fp) as (_ & Fx); [apply Rabs_le; lra|]. set (x := bsub l st) in *.
  assert (FC : fin (bclip x lo up)). { unfold bclip. destruct (bmaximum_val x lo Fx Flo) as (A & _). now destruct (bminimum_val _ up A Fup) as (C & _). }
  apply bclip_within; [apply EX, FC|exact (proj1 Ul)|exact (proj1 Uh)|lra].
Qed.
Print Assumptions C84_logmoc_positive_lower_bound.
Theorem C84_logmoc_zero_lower_bound_refuted : forall lg ex rho_max move eta lclip rho dL,
  is_finite rho_max = true -> 0 < B2R rho_max -> is_finite rho = true -> B2R rho <= 0 ->
  is_finite move = true -> 0 < B2R move -> is_finite eta = true -> is_finite lclip = true -> 0 <= B2R lclip -> is_nan dL = false ->
  (forall x, B2R x = 0 -> is_finite x = true -> lg x = B754_infinity true) -> lg (B754_infinity false) = B754_infinity false ->
  ex (B754_infinity true) = B754_zero false -> (forall x, is_nan x = true -> is_nan (ex x) = true) ->
  is_nan (log_update64 lg ex (bint 0) rho_max move eta lclip rho dL) = true.
Proof.
  intros lg ex rho_max move eta lclip rho dL Fm Pm Fr Hr Fmo Pmo Fe Fl Hl Nd LG0 LGI EX0 EXN.
  destruct (bint_val 0 eq_refl) as (V0 & F0). destruct (bint_val 1 eq_refl) as (V1 & F1).
  unfold log_update64. cbv zeta. apply bclip_nan. apply EXN.
  assert (R0 : B2R (bclip rho (bint 0) rho_max) = 0 /\ fin (bclip rho (bint 0) rho_max)).
  { unfold bclip. destruct (bmaximum_val rho (bint 0) Fr F0) as (G1 & W1). destruct (bminimum_val _ rho_max G1 Fm) as (G2 & W2). split; [|exact G2].
    rewrite W2, W1, V0, Rmax_right, Rmin_left by lra. reflexivity. }
  rewrite (LG0 _ (proj1 R0) (proj2 R0)), EX0.
  assert (D : bdiv move (B754_zero false) = B754_infinity false).
  { destruct move as [s|s| |s m e B]; try discriminate Fmo; [cbn in Pmo; lra|]. destruct s; [|reflexivity].
    exfalso. revert Pmo. cbn [B2R]. apply Rle_not_lt, F2R_le_0. cbn. lia. }
  rewrite D. assert (A : badd (B754_infinity false) (bint 1) = B754_infinity false) by reflexivity. rewrite A, LGI.
  assert (S : bsub (B754_infinity true) (B754_infinity false) = (B754_infinity true : b64)) by reflexivity. rewrite S.
  assert (M : bmul (bint 2) (B754_infinity false) = B754_infinity false) by reflexivity. rewrite M.
  assert (P : badd (B754_infinity true) (B754_infinity false) = (B754_nan : b64)) by reflexivity. rewrite P.
  unfold bclip, bminimum. set (z := bmaximum _ _). destruct (is_nan z) eqn:N; [exact N|reflexivity].
Qed.
Print Assumptions C84_logmoc_zero_lower_bound_refuted.

(* ---------- projection ---------- *)
Lemma rnd_le_1 x : x <= 1 -> rnd x <= 1.
Proof. intros H. apply Rle_trans with (rnd 1); [now apply rnd_le|rewrite (rnd_IZR 1) by reflexivity; lra]. Qed.
Lemma rnd_le_2 x : x <= 2 -> rnd x <= 2.
Proof. intros H. apply Rle_trans with (rnd 2); [now apply rnd_le|rewrite (rnd_IZR 2) by reflexivity; lra]. Qed.
Lemma tiny64_pos : fin tiny64 /\ 0 < B2R tiny64 <= 1.
Proof.
  destruct (bint_val 1 eq_refl) as (V1 & F1). destruct (bint_val 1000000000000 eq_refl) as (V2 & F2).
  destruct (bdiv_val (bint 1) (bint 1000000000000) F1) as (V & F); [rewrite V2; lra|rewrite V1, V2, Rabs_right by lra; apply Rle_trans with 1; [lra|]; apply IZR_le; now apply Z.leb_le|].
  fold tiny64 in V, F. rewrite V1, V2 in V. split; [exact F|]. rewrite V. split.
  - apply Rlt_le_trans with (rnd (bpow radix2 (-40))); [|apply rnd_le; cbn; lra].
    rewrite rnd_id by (apply generic_format_bpow; cbn; lia). apply bpow_gt_0.
  - apply Rle_trans with (rnd 1); [apply rnd_le; lra|rewrite (rnd_IZR 1) by reflexivity; lra].
Qed.
(* Projected densities are in [0,1] and non-decreasing in the density, in
   binary64, for every tanh that is non-decreasing, odd and bounded by 1. *)
Theorem C84_projection : forall th beta eta, tanh_ok th -> is_finite beta = true -> 0 <= B2R beta <= IZR (2 ^ 60) -> is_finite eta = true -> 0 <= B2R eta <= 1 ->
  (forall rho, is_finite rho = true -> 0 <= B2R rho <= 1 -> is_finite (projection64 th beta eta rho) = true /\ 0 <= B2R (projection64 th beta eta rho) <= 1) /\
  (forall r1 r2, is_finite r1 = true -> is_finite r2 = true -> 0 <= B2R r1 <= B2R r2 -> B2R r2 <= 1 ->
     B2R (projection64 th beta eta r1) <= B2R (projection64 th beta eta r2)).
Proof.
  intros th beta eta (TB & TM & TO) Fb Hb Fe He. destruct tiny64_pos as (Ft & Ht). destruct (bint_val 1 eq_refl) as (V1 & F1).
  assert (G60 : 1 <= IZR (2 ^ 60)) by (apply IZR_le; now apply Z.leb_le). assert (G200 : 8 * IZR (2 ^ 60) <= IZR (2 ^ 200)) by (rewrite <- mult_IZR; apply IZR_le; now apply Z.leb_le).
  (* beta * eta *)
  destruct (bmul_val beta eta Fb Fe) as (Vbe & Fbe); [rewrite Rabs_right by (apply Rle_ge, Rmult_le_pos; lra); apply Rle_trans with (IZR (2 ^ 60) * 1); [apply Rmult_le_compat; lra|lra]|].
  set (a := th (bmul beta eta)). destruct (TB _ Fbe) as (Fa & Ba). fold a in Fa, Ba.
  (* beta * (1 - eta) *)
  destruct (bsub_val (bint 1) eta F1 Fe) as (Vs & Fs); [rewrite V1; apply Rabs_le; lra|]. rewrite V1 in Vs.
  assert (Hs : 0 <= B2R (bsub (bint 1) eta) <= 1) by (rewrite Vs; split; [apply rnd_nonneg; lra|]; apply rnd_le_1; lra).
  destruct (bmul_val beta (bsub (bint 1) eta) Fb Fs) as (Vbs & Fbs); [rewrite Rabs_right by (apply Rle_ge, Rmult_le_pos; lra); apply Rle_trans with (IZR (2 ^ 60) * 1); [apply Rmult_le_compat; lra|lra]|].
  set (b := th (bmul beta (bsub (bint 1) eta))). destruct (TB _ Fbs) as (Fbb & Bb). fold b in Fbb, Bb.
  (* the argument for a density *)
  assert (ARG : forall rho, is_finite rho = true -> 0 <= B2R rho <= 1 -> fin (bmul (bsub rho eta) beta) /\
    B2R (bmul (bsub rho eta) beta) = rnd (rnd (B2R rho - B2R eta) * B2R beta) /\ - B2R a <= B2R (th (bmul (bsub rho eta) beta)) <= B2R b).
  { intros rho Fr Hr. destruct (bsub_val rho eta Fr Fe) as (V & F); [apply Rabs_le; lra|].
    assert (HL : - B2R eta <= B2R (bsub rho eta)).
    { rewrite V. replace (- B2R eta) with (rnd (- B2R eta)); [apply rnd_le; lra|]. unfold rnd. rewrite round_NE_opp. fold (rnd (B2R eta)). now rewrite rnd_fin. }
    assert (HU : B2R (bsub rho eta) <= B2R (bsub (bint 1) eta)) by (rewrite V, Vs; apply rnd_le; lra).
    destruct (bmul_val (bsub rho eta) beta F Fb) as (Vm & Fm).
    { apply Rle_trans with (1 * IZR (2 ^ 60)); [apply abs_mul_le; apply Rabs_le; lra|lra]. }
    split; [exact Fm|]. split; [rewrite Vm, V; reflexivity|].
    assert (Lo : - B2R (bmul beta eta) <= B2R (bmul (bsub rho eta) beta)).
    { rewrite Vm, Vbe. replace (- rnd (B2R beta * B2R eta)) with (rnd (- (B2R beta * B2R eta))) by (unfold rnd; apply round_NE_opp).
      apply rnd_le. replace (- (B2R beta * B2R eta)) with (- B2R eta * B2R beta) by ring. apply Rmult_le_compat_r; lra. }
    assert (Up : B2R (bmul (bsub rho eta) beta) <= B2R (bmul beta (bsub (bint 1) eta))).
    { rewrite Vm, Vbs. apply rnd_le. rewrite Rmult_comm. apply Rmult_le_compat_l; lra. }
    split; [|apply TM; auto].
    replace (- B2R a) with (B2R (th (Bopp (bmul beta eta)))).
    - apply TM; auto; [now rewrite is_finite_Bopp|]. rewrite B2R_Bopp. exact Lo.
    - unfold a. apply TO; auto; [now rewrite is_finite_Bopp|apply B2R_Bopp]. }
  (* numerator and denominator *)
  assert (NUM : forall rho, is_finite rho = true -> 0 <= B2R rho <= 1 -> let num := badd a (th (bmul (bsub rho eta) beta)) in
    fin num /\ B2R num = rnd (B2R a + B2R (th (bmul (bsub rho eta) beta))) /\ 0 <= B2R num <= rnd (B2R a + B2R b)).
  { intros rho Fr Hr num. destruct (ARG rho Fr Hr) as (Fm & _ & Lo & Up). destruct (TB _ Fm) as (Fth & Bth).
    destruct (badd_val a _ Fa Fth) as (V & F); [apply Rabs_le; lra|]. fold num in V, F. split; [exact F|]. split; [exact V|]. rewrite V.
    split; [apply rnd_nonneg; lra|apply rnd_le; lra]. }
  destruct (badd_val a b Fa Fbb) as (Vd0 & Fd0); [apply Rabs_le; lra|].
  assert (AB : 0 <= B2R a + B2R b).
  { destruct (NUM (bint 0)) as (_ & _ & N); [reflexivity| |]. - destruct (bint_val 0 eq_refl) as (-> & _). lra.
    - destruct (ARG (bint 0)) as (_ & _ & L & Up); [reflexivity| |]. + destruct (bint_val 0 eq_refl) as (-> & _). lra. + lra. }
  assert (D0 : 0 <= rnd (B2R a + B2R b) <= 2) by (split; [now apply rnd_nonneg|]; apply rnd_le_2; lra).
  destruct (badd_val (badd a b) tiny64 Fd0 Ft) as (Vd & Fd); [rewrite Vd0; apply Rabs_le; lra|].
  set (den := badd (badd a b) tiny64) in *. rewrite Vd0 in Vd.
  assert (DP : 0 < B2R den). { rewrite Vd. apply Rlt_le_trans with (rnd (B2R tiny64)); [rewrite rnd_fin by exact Ft; lra|]. apply rnd_le. lra. }
  assert (DU : rnd (B2R a + B2R b) <= B2R den).
  { rewrite Vd. rewrite <- Vd0 at 1. rewrite <- (rnd_fin (badd a b) Fd0). rewrite Vd0. apply rnd_le. lra. }
  assert (RES : forall rho, is_finite rho = true -> 0 <= B2R rho <= 1 -> fin (projection64 th beta eta rho) /\
    B2R (projection64 th beta eta rho) = rnd (B2R (badd a (th (bmul (bsub rho eta) beta))) / B2R den) /\ 0 <= B2R (badd a (th (bmul (bsub rho eta) beta))) / B2R den <= 1).
  { intros rho Fr Hr. destruct (NUM rho Fr Hr) as (Fn & _ & N1 & N2). set (num := badd a (th (bmul (bsub rho eta) beta))) in *.
    assert (Q : 0 <= B2R num / B2R den <= 1).
    { split; [apply Rmult_le_pos; [exact N1|apply Rlt_le, Rinv_0_lt_compat, DP]|]. apply (Rmult_le_reg_r (B2R den)); [exact DP|].
      replace (B2R num / B2R den * B2R den) with (B2R num) by (field; lra). lra. }
    destruct (bdiv_val num den Fn) as (V & F); [lra|rewrite Rabs_right by lra; lra|]. split; [exact F|]. split; [exact V|exact Q]. }
  split.
  - intros rho Fr Hr. destruct (RES rho Fr Hr) as (F & V & Q). split; [exact F|]. rewrite V. split; [apply rnd_nonneg; lra|]. apply rnd_le_1; lra.
  - intros r1 r2 Fr1 Fr2 H12 H2. destruct (RES r1 Fr1 ltac:(lra)) as (_ & -> & _). destruct (RES r2 Fr2 ltac:(lra)) as (_ & -> & _).
    apply rnd_le. apply Rmult_le_compat_r; [apply Rlt_le, Rinv_0_lt_compat, DP|].
    destruct (NUM r1 Fr1 ltac:(lra)) as (_ & -> & _). destruct (NUM r2 Fr2 ltac:(lra)) as (_ & -> & _). apply rnd_le. apply Rplus_le_compat_l.
    destruct (ARG r1 Fr1 ltac:(lra)) as (Fm1 & W1 & _). destruct (ARG r2 Fr2 ltac:(lra)) as (Fm2 & W2 & _). apply TM; auto. rewrite W1, W2.
    apply rnd_le. apply Rmult_le_compat_r; [lra|]. apply rnd_le. lra.
Qed.
Print Assumptions C84_projection.

(* ---------- stiffness ---------- *)
(* SIMP in binary64: never below Emin, non-decreasing in the power rho^p, and above
   E0 by at most three rounding errors. *)
Theorem C84_stiffness : forall pw E0 Emin p, usable E0 -> usable Emin -> 0 < B2R Emin <= B2R E0 ->
  (forall rho, is_finite (pw rho p) = true -> 0 <= B2R (pw rho p) <= 1 ->
     is_finite (simp64 pw E0 Emin p rho) = true /\
     B2R Emin <= B2R (simp64 pw E0 Emin p rho) <= B2R E0 * (1 + 4 * / 2 ^ 53) + 3 * / 2 ^ 1000) /\
  (forall r1 r2, is_finite (pw r1 p) = true -> is_finite (pw r2 p) = true -> 0 <= B2R (pw r1 p) <= B2R (pw r2 p) -> B2R (pw r2 p) <= 1 ->
     B2R (simp64 pw E0 Emin p r1) <= B2R (simp64 pw E0 Emin p r2)).
Proof.
  intros pw E0 Emin p U0 U1 H. destruct (sum_small E0 Emin U0 U1) as (_ & S).
  destruct (bsub_val E0 Emin (proj1 U0) (proj1 U1) S) as (Vd & Fd). set (d := bsub E0 Emin) in *.
  assert (G : IZR (2 ^ 100) * 4 <= IZR (2 ^ 200)) by (rewrite <- mult_IZR; apply IZR_le; now apply Z.leb_le).
  destruct U0 as (F0 & B0), U1 as (F1 & B1). apply Rabs_le_inv in B0, B1.
  assert (Hd : 0 <= B2R d <= B2R E0).
  { rewrite Vd. split; [apply rnd_nonneg; lra|]. rewrite <- (rnd_fin E0 F0) at 2. apply rnd_le. lra. }
  assert (MUL : forall q, fin q -> 0 <= B2R q <= 1 -> B2R (bmul d q) = rnd (B2R d * B2R q) /\ fin (bmul d q) /\ 0 <= B2R (bmul d q) <= B2R d).
  { intros q Fq Hq. assert (Q : 0 <= B2R d * B2R q <= B2R d) by (split; [apply Rmult_le_pos; lra|]; rewrite <- (Rmult_1_r (B2R d)) at 2; apply Rmult_le_compat_l; lra).
    destruct (bmul_val d q Fd Fq) as (V & F); [apply Rabs_le; lra|]. split; [exact V|]. split; [exact F|]. rewrite V. split; [apply rnd_nonneg; lra|].
    rewrite <- (rnd_fin d Fd) at 2. apply rnd_le. lra. }
  assert (ADD : forall q, fin q -> 0 <= B2R q <= 1 -> B2R (badd Emin (bmul d q)) = rnd (B2R Emin + B2R (bmul d q)) /\ fin (badd Emin (bmul d q))).
  { intros q Fq Hq. destruct (MUL q Fq Hq) as (_ & F & B). apply badd_val; auto. apply Rabs_le. lra. }
  split.
  - intros rho Fq Hq. unfold simp64. fold d. destruct (MUL _ Fq Hq) as (Vm & Fm & Bm). destruct (ADD _ Fq Hq) as (Va & Fa). split; [exact Fa|]. rewrite Va. split.
    + rewrite <- (rnd_fin Emin F1) at 1. apply rnd_le. lra.
    + apply Rle_trans with (rnd (B2R Emin + B2R d)); [apply rnd_le; lra|].
      pose proof (rnd_abs (B2R Emin + B2R d)) as E1. pose proof (rnd_abs (B2R E0 - B2R Emin)) as E2. rewrite <- Vd in E2.
      rewrite (Rabs_right (B2R Emin + B2R d)) in E1 by lra. rewrite (Rabs_right (B2R E0 - B2R Emin)) in E2 by lra.
      apply Rabs_le_inv in E1, E2. change (/ 2 ^ 1000) with Float_props.eta. change (/ 2 ^ 53) with u64.
      assert (Hu : 0 < u64 <= / 8). { unfold u64. split; [apply Rinv_0_lt_compat, pow_lt; lra|]. replace (2 ^ 53) with 9007199254740992 by (simpl; ring). lra. }
      assert (He : 0 < Float_props.eta) by (unfold Float_props.eta; apply Rinv_0_lt_compat, pow_lt; lra).
      assert (X1 : u64 * (B2R E0 - B2R Emin) <= u64 * B2R E0) by (apply Rmult_le_compat_l; lra).
      assert (X2 : u64 * (B2R Emin + B2R d) <= u64 * (2 * B2R E0)) by (apply Rmult_le_compat_l; lra).
      assert (0 <= u64 * B2R E0) by (apply Rmult_le_pos; lra). lra.
  - intros r1 r2 Fq1 Fq2 Hq Hq2. unfold simp64. fold d.
    destruct (MUL _ Fq1 ltac:(lra)) as (Vm1 & _). destruct (MUL _ Fq2 ltac:(lra)) as (Vm2 & _).
    destruct (ADD _ Fq1 ltac:(lra)) as (-> & _). destruct (ADD _ Fq2 ltac:(lra)) as (-> & _). rewrite Vm1, Vm2.
    apply rnd_le, Rplus_le_compat_l, rnd_le, Rmult_le_compat_l; lra.
Qed.
Print Assumptions C84_stiffness.
(* The exact bound E <= E0 fails: E0 = 0.3, Emin = 0.03, full density. *)
Theorem C84_stiffness_upper_bound_refuted :
  let E0 := bdiv (bint 3) (bint 10) in let Emin := bdiv (bint 3) (bint 100) in
  usable E0 /\ usable Emin /\ 0 < B2R Emin <= B2R E0 /\
  (forall pw p, pw (bint 1) p = bint 1 -> B2R E0 < B2R (simp64 pw E0 Emin p (bint 1))).
Proof.
  intros E0 Emin.
  assert (V : forall m e s (x : b64), B2SF x = S754_finite s m e -> B2R x = IZR (cond_Zopp s (Zpos m)) * bpow radix2 e /\ is_finite x = true).
  { intros m e s x Hx. rewrite <- SF2R_B2SF, Hx. split; [reflexivity|]. destruct x; try discriminate Hx; reflexivity. }
  destruct (V 5404319552844595%positive (-54)%Z false E0 ltac:(vm_compute; reflexivity)) as (V0 & F0).
  destruct (V 8646911284551352%positive (-58)%Z false Emin ltac:(vm_compute; reflexivity)) as (V1 & F1).
  change (bpow radix2 (-54)) with (/ IZR 18014398509481984) in V0. change (bpow radix2 (-58)) with (/ IZR 288230376151711744) in V1. cbn [cond_Zopp] in *.
  assert (G : 1 <= IZR (2 ^ 100)) by (apply IZR_le; now apply Z.leb_le).
  split; [split; [exact F0|rewrite V0; apply Rabs_le; lra]|]. split; [split; [exact F1|rewrite V1; apply Rabs_le; lra]|].
  split; [rewrite V0, V1; lra|]. intros pw p Hp. unfold simp64. rewrite Hp.
  destruct (V 5404319552844596%positive (-54)%Z false (badd Emin (bmul (bsub E0 Emin) (bint 1))) ltac:(vm_compute; reflexivity)) as (V2 & F2).
  change (bpow radix2 (-54)) with (/ IZR 18014398509481984) in V2. cbn [cond_Zopp] in *. rewrite V0, V2. lra.
Qed.
Print Assumptions C84_stiffness_upper_bound_refuted.

(* ---------- the hypotheses can be met ---------- *)
(* np.tanh replaced by clipping to [-1,1], np.power by the constant 1; the bounds are the
   shipped rho_min = 1e-2 and rho_max = 1; the first multiplier interval is [1e-3, 1000]. *)
Definition one64 : b64 := bint 1.
Definition hundredth64 : b64 := bdiv (bint 1) (bint 100).
Definition sample_oc64 : oc64 := mkOC64 (fun _ _ => one64) hundredth64 one64 (bdiv (bint 1) (bint 5)) (bdiv (bint 1) (bint 2)) tiny64
  (bdiv (bint 1) (bint 2)) (bint 2) (fun l => bint (Z.of_nat (length l))) tiny64 tiny64 100 (bdiv (bint 1) (bint 1000)) (bint 1000).
Lemma ratio_val n d : (0 <= n <= 1000)%Z -> (0 < d < 2 ^ 53)%Z -> usable (bdiv (bint n) (bint d)) /\ B2R (bdiv (bint n) (bint d)) = rnd (IZR n / IZR d).
Proof.
  intros Hn Hd. destruct (bint_val n ltac:(lia)) as (V1 & F1). destruct (bint_val d ltac:(lia)) as (V2 & F2).
  assert (D : 1 <= IZR d) by (apply IZR_le; lia). assert (N : 0 <= IZR n <= 1000) by (split; apply IZR_le; lia).
  assert (G : 1000 <= IZR (2 ^ 100)) by (apply IZR_le; now apply Z.leb_le). assert (G2 : 1000 <= IZR (2 ^ 200)) by (apply IZR_le; now apply Z.leb_le).
  assert (Q : 0 <= IZR n / IZR d <= 1000).
  { split; [apply Rmult_le_pos; [lra|apply Rlt_le, Rinv_0_lt_compat; lra]|]. apply (Rmult_le_reg_r (IZR d)); [lra|].
    replace (IZR n / IZR d * IZR d) with (IZR n) by (field; lra). apply Rle_trans with (1000 * 1); [lra|]. apply Rmult_le_compat_l; lra. }
  destruct (bdiv_val (bint n) (bint d) F1) as (V & F); [lra|rewrite V1, V2, Rabs_right; lra|]. rewrite V1, V2 in V. split; [|exact V].
  split; [exact F|]. rewrite V, Rabs_right by (apply Rle_ge, rnd_nonneg; lra).
  apply Rle_trans with (rnd 1000); [apply rnd_le; lra|]. rewrite (rnd_IZR 1000) by reflexivity. exact G.
Qed.
Lemma int_usable n : (0 <= n <= 1000)%Z -> usable (bint n) /\ B2R (bint n) = IZR n.
Proof.
  intros H. destruct (bint_val n ltac:(lia)) as (V & F). split; [|exact V]. split; [exact F|]. rewrite V.
  rewrite <- abs_IZR. apply IZR_le. apply Z.le_trans with 1000%Z; [lia|now apply Z.leb_le].
Qed.
Example C84_instance :
  oc64_ok hundredth64 one64 sample_oc64 /\ usable hundredth64 /\ usable one64 /\ within hundredth64 one64 (bdiv (bint 1) (bint 2)) /\
  tanh_ok (fun x => bclip x (bint (-1)) (bint 1)) /\ logexp_ok (fun _ => bint 0) (fun _ => one64) hundredth64 one64 /\ 0 <= B2R one64 <= IZR (2 ^ 60) /\
  oc64_step [bdiv (bint 1) (bint 2); one64] (sample_oc64, [bint (-1); bint 0]) <> [].
Proof.
  destruct (int_usable 1) as (U1 & V1); [lia|]. destruct (int_usable 1000) as (Uk & Vk); [lia|]. destruct (int_usable 2) as (U2 & V2); [lia|].
  destruct (ratio_val 1 100) as (Uh & Vh); [lia|lia|]. destruct (ratio_val 1 5) as (U5 & V5); [lia|lia|]. destruct (ratio_val 1 2) as (Uf & Vf); [lia|lia|].
  destruct (ratio_val 1 1000) as (Um & Vm); [lia|lia|]. destruct half_val as (Vhalf & _). destruct tiny64_pos as (Ft & Ht).
  assert (G : 1 <= IZR (2 ^ 100)) by (apply IZR_le; now apply Z.leb_le).
  assert (H1 : B2R hundredth64 <= / 2). { unfold hundredth64. rewrite Vh, <- Vhalf, Vf. apply rnd_le. lra. }
  split.
  { unfold oc64_ok, sample_oc64; cbn [o_pw o_min o_max o_move o_eta o_eps o_smin o_smax o_vol o_tol o_vtol o_iter o_l1 o_l2].
    split; [reflexivity|]. split; [reflexivity|]. split; [intros x _ _; reflexivity|]. split; [exact U5|]. split; [rewrite V5; apply rnd_nonneg; lra|].
    split; [split; [exact Ft|apply Rabs_le; lra]|]. split; [lra|]. split; [exact (proj1 Uf)|]. split; [exact (proj1 U2)|]. split; [lra|].
    split; [exact Um|]. split; [exact Uk|]. rewrite Vm, Vk. split; [apply rnd_nonneg; lra|]. apply Rle_trans with 1; [apply rnd_le_1; lra|lra]. }
  split; [exact Uh|]. split; [exact U1|]. split; [split; [exact (proj1 Uf)|unfold one64; rewrite V1, Vhalf; lra]|].
  split.
  { destruct (bint_val (-1) eq_refl) as (Vn & Fn). destruct (bint_val 1 eq_refl) as (Vp & Fp).
    assert (C : forall x, fin x -> fin (bclip x (bint (-1)) (bint 1)) /\ B2R (bclip x (bint (-1)) (bint 1)) = Rmin (Rmax (B2R x) (-1)) 1).
    { intros x Fx. unfold bclip. destruct (bmaximum_val x _ Fx Fn) as (G1 & W1). destruct (bminimum_val _ _ G1 Fp) as (G2 & W2). split; [exact G2|]. now rewrite W2, W1, Vn, Vp. }
    split; [|split].
    - intros x Fx. destruct (C x Fx) as (F & V). split; [exact F|]. rewrite V. unfold Rmin, Rmax. destruct (Rle_dec (B2R x) (-1)); destruct (Rle_dec _ 1); lra.
    - intros x y Fx Fy H. destruct (C x Fx) as (_ & ->), (C y Fy) as (_ & ->). unfold Rmin, Rmax. repeat (destruct (Rle_dec _ _)); lra.
    - intros x y Fx Fy H. destruct (C x Fx) as (_ & ->), (C y Fy) as (_ & ->). unfold Rmin, Rmax. repeat (destruct (Rle_dec _ _)); lra. }
  split.
  { split; [|split].
    - intros x _ _. destruct (bint_val 0 eq_refl) as (V0 & F0). split; [exact F0|]. rewrite V0, Rabs_R0. apply IZR_le. now apply Z.leb_le.
    - reflexivity.
    - intros x _. split; [exact U1|]. unfold one64. lra. }
  split; [unfold one64; rewrite V1; split; [lra|]; apply IZR_le; now apply Z.leb_le|].
  unfold oc64_step, oc_update64. cbn [combine map]. discriminate.
Qed.
