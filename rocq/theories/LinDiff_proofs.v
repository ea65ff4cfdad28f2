(* Differentiability of the solution of a linear system with fixed entries. *)
From Verif Require Import Base Sums Mesh_model Fea_model Fea_spec Fea_proofs Grad_proofs.
Open Scope R_scope.

Lemma derive_lipschitz f x L : derivable_pt_lim f x L -> exists M d, 0 <= M /\ 0 < d /\ forall t, Rabs (t - x) < d -> Rabs (f t - f x) <= M * Rabs (t - x).
Proof.
  intros Hf. destruct (Hf 1 ltac:(lra)) as (d & Hd). exists (Rabs L + 1), d. split; [pose proof (Rabs_pos L); lra|]. split; [apply cond_pos|].
  intros t Ht. destruct (Req_dec t x) as [->|N]; [rewrite !Rminus_diag_eq, Rabs_R0 by auto; lra|].
  specialize (Hd (t - x) ltac:(lra) Ht). replace (x + (t - x)) with t in Hd by ring.
  set (y := t - x) in *. assert (Hy : 0 < Rabs y) by (apply Rabs_pos_lt; unfold y; lra).
  replace (f t - f x) with (((f t - f x) / y - L + L) * y) by (field; unfold y; lra).
  rewrite Rabs_mult. apply Rmult_le_compat_r; [lra|]. eapply Rle_trans; [apply Rabs_triang|]. lra.
Qed.
Lemma lipschitz_all n (F : nat -> R -> R) (L : nat -> R) x : (forall i, (i < n)%nat -> derivable_pt_lim (F i) x (L i)) ->
  exists M d, 0 <= M /\ 0 < d /\ forall t, Rabs (t - x) < d -> forall i, (i < n)%nat -> Rabs (F i t - F i x) <= M * Rabs (t - x).
Proof.
  induction n as [|n IH]; intros Hd.
  - exists 0, 1. split; [lra|]. split; [lra|]. intros. lia.
  - destruct IH as (M & d & HM & Hdp & E); [intros; apply Hd; lia|]. destruct (derive_lipschitz _ _ _ (Hd n ltac:(lia))) as (M' & d' & HM' & Hd' & E').
    exists (M + M'), (Rmin d d'). split; [lra|]. split; [now apply Rmin_glb_lt|]. intros t Ht i Hi.
    pose proof (Rmin_l d d'). pose proof (Rmin_r d d'). pose proof (Rabs_pos (t - x)).
    destruct (Nat.eq_dec i n) as [->|N].
    + eapply Rle_trans; [apply E'; lra|]. nra.
    + eapply Rle_trans; [apply E; [lra|lia]|]. nra.
Qed.
Lemma sum_abs n f : Rabs (sum n f) <= sum n (fun i => Rabs (f i)).
Proof.
  unfold sum. generalize (seq 0 n). intros l. induction l as [|a l IH]; unfold rsum in *; cbn [map fold_right]; [rewrite Rabs_R0; lra|].
  eapply Rle_trans; [apply Rabs_triang|]. lra.
Qed.
Lemma sum_elem n f i : (forall j, (j < n)%nat -> 0 <= f j) -> (i < n)%nat -> f i <= sum n f.
Proof. intros P Hi. apply rs_ge_elem; [intros y Hy; apply in_seq in Hy; apply P; lia|apply in_seq; lia]. Qed.

Section lin.
  Variables (n : nat) (fx : nat -> bool) (g x0 : R) (Kt : R -> mat) (Ft Tt : R -> vec) (K' : mat) (F' : vec) (G : mat).
  Hypothesis HK : forall i j, (i < n)%nat -> (j < n)%nat -> derivable_pt_lim (fun t => Kt t i j) x0 (K' i j).
  Hypothesis HF : forall i, (i < n)%nat -> derivable_pt_lim (fun t => Ft t i) x0 (F' i).
  (* G inverts the system with the entries fx fixed *)
  Hypothesis HG : forall u : vec, (forall i, (i < n)%nat -> fx i = true -> u i = 0) -> forall i, (i < n)%nat ->
    u i = sum n (fun j => G i j * (if fx j then 0 else mv n (Kt x0) u j)).
  Definition solution_at (t : R) : Prop := (forall i, (i < n)%nat -> fx i = true -> Tt t i = g) /\
    (forall i, (i < n)%nat -> fx i = false -> mv n (Kt t) (Tt t) i = Ft t i).
  Hypothesis HT : exists d, 0 < d /\ forall t, Rabs (t - x0) < d -> solution_at t.
  Definition dsol (i : nat) : R := sum n (fun j => G i j * (if fx j then 0 else F' j - mv n K' (Tt x0) j)).

  Lemma sol0 : solution_at x0.
  Proof. destruct HT as (d & Hd & S). apply S. rewrite Rminus_diag_eq, Rabs_R0 by auto. exact Hd. Qed.
  Lemma sol_diff t : solution_at t -> forall i, (i < n)%nat -> Tt t i - Tt x0 i =
    sum n (fun j => G i j * (if fx j then 0 else (Ft t j - Ft x0 j) - sum n (fun k => (Kt t j k - Kt x0 j k) * Tt t k))).
  Proof.
    intros (B & E) i Hi. destruct sol0 as (B0 & E0). rewrite (HG (fun k => Tt t k - Tt x0 k)); [|intros k Hk Fk; rewrite B, B0 by auto; ring|auto].
    apply sum_ext. intros j Hj. destruct (fx j) eqn:Fj; [ring|]. f_equal. rewrite <- (E j Hj Fj), <- (E0 j Hj Fj). unfold mv.
    rewrite <- !sum_minus. apply sum_ext. intros k Hk. ring.
  Qed.
  Lemma all_lipschitz : exists M d, 0 <= M /\ 0 < d /\ forall t, Rabs (t - x0) < d ->
    (forall i j, (i < n)%nat -> (j < n)%nat -> Rabs (Kt t i j - Kt x0 i j) <= M * Rabs (t - x0)) /\
    (forall i, (i < n)%nat -> Rabs (Ft t i - Ft x0 i) <= M * Rabs (t - x0)).
  Proof.
    destruct (lipschitz_all n (fun i t => Ft t i) F' x0 HF) as (M1 & d1 & HM1 & Hd1 & E1).
    destruct (lipschitz_all (n * n) (fun m t => Kt t (m / n)%nat (m mod n)%nat) (fun m => K' (m / n)%nat (m mod n)%nat) x0) as (M2 & d2 & HM2 & Hd2 & E2).
    { intros m Hm. assert (n <> 0)%nat by lia. apply HK; [apply Nat.div_lt_upper_bound; auto|now apply Nat.mod_upper_bound]. }
    exists (M1 + M2), (Rmin d1 d2). split; [lra|]. split; [now apply Rmin_glb_lt|]. intros t Ht.
    pose proof (Rmin_l d1 d2). pose proof (Rmin_r d1 d2). pose proof (Rabs_pos (t - x0)). split.
    - intros i j Hi Hj. assert (n <> 0)%nat by lia. specialize (E2 t ltac:(lra) (i * n + j)%nat ltac:(nia)). cbv beta in E2.
      replace ((i * n + j) / n)%nat with i in E2 by (rewrite Nat.div_add_l, Nat.div_small by auto; lia).
      replace ((i * n + j) mod n)%nat with j in E2 by (rewrite Nat.add_comm, Nat.mod_add, Nat.mod_small by auto; lia).
      eapply Rle_trans; [exact E2|]. nra.
    - intros i Hi. eapply Rle_trans; [apply E1; [lra|auto]|]. nra.
  Qed.
  Definition size (u : vec) : R := sum n (fun i => Rabs (u i)).
  Lemma size_nonneg u : 0 <= size u.
  Proof. apply sum_nonneg. intros. apply Rabs_pos. Qed.
  Definition gsize : R := sum n (fun i => sum n (fun j => Rabs (G i j))).
  Lemma gsize_nonneg : 0 <= gsize.
  Proof. apply sum_nonneg. intros. apply sum_nonneg. intros. apply Rabs_pos. Qed.
  Lemma apply_bound (w : vec) c : 0 <= c -> (forall j, (j < n)%nat -> Rabs (w j) <= c) ->
    (forall i, (i < n)%nat -> Rabs (sum n (fun j => G i j * w j)) <= gsize * c) /\
    sum n (fun i => Rabs (sum n (fun j => G i j * w j))) <= gsize * c.
  Proof.
    intros Hc Hw. assert (P : forall i, (i < n)%nat -> Rabs (sum n (fun j => G i j * w j)) <= sum n (fun j => Rabs (G i j)) * c).
    { intros i Hi. eapply Rle_trans; [apply sum_abs|]. rewrite <- sum_scal_r. apply sum_le. intros j Hj. rewrite Rabs_mult.
      apply Rmult_le_compat_l; [apply Rabs_pos|auto]. }
    split.
    - intros i Hi. eapply Rle_trans; [now apply P|]. apply Rmult_le_compat_r; [auto|].
      apply (sum_elem n (fun i => sum n (fun j => Rabs (G i j)))); auto. intros. apply sum_nonneg. intros. apply Rabs_pos.
    - unfold gsize. rewrite <- sum_scal_r. apply sum_le. auto.
  Qed.
  (* the solution moves at most linearly *)
  Lemma sol_lipschitz : exists C d, 0 <= C /\ 0 < d /\ forall t, Rabs (t - x0) < d -> solution_at t /\ size (fun k => Tt t k - Tt x0 k) <= C * Rabs (t - x0).
  Proof.
    destruct HT as (d1 & Hd1 & S). destruct all_lipschitz as (M & d2 & HM & Hd2 & L). pose proof gsize_nonneg as G0. pose proof (size_nonneg (Tt x0)) as S0.
    assert (P : 0 < / (2 * (M * gsize + 1))) by (apply Rinv_0_lt_compat; nra).
    exists (2 * (gsize * M * (1 + size (Tt x0)))), (Rmin (Rmin d1 d2) (/ (2 * (M * gsize + 1)))). split.
    { apply Rmult_le_pos; [lra|]. apply Rmult_le_pos; [nra|lra]. }
    split; [repeat apply Rmin_glb_lt; auto|].
    intros t Ht. pose proof (Rmin_l (Rmin d1 d2) (/ (2 * (M * gsize + 1)))). pose proof (Rmin_r (Rmin d1 d2) (/ (2 * (M * gsize + 1)))).
    pose proof (Rmin_l d1 d2). pose proof (Rmin_r d1 d2). assert (St : solution_at t) by (apply S; lra). split; [exact St|].
    destruct (L t ltac:(lra)) as (LK & LF). set (tau := Rabs (t - x0)) in *. assert (T0 : 0 <= tau) by apply Rabs_pos.
    set (dT := fun k => Tt t k - Tt x0 k). set (s := size dT). pose proof (size_nonneg dT) as Sn. fold s in Sn.
    assert (St2 : size (Tt t) <= size (Tt x0) + s).
    { unfold s, size. rewrite <- sum_plus. apply sum_le. intros k Hk. unfold dT. replace (Tt t k) with (Tt x0 k + (Tt t k - Tt x0 k)) at 1 by ring. apply Rabs_triang. }
    assert (B : s <= gsize * (M * tau * (1 + size (Tt x0) + s))).
    { unfold s at 1, size. rewrite (sum_ext n _ (fun i => Rabs (sum n (fun j => G i j * (if fx j then 0 else (Ft t j - Ft x0 j) - sum n (fun k => (Kt t j k - Kt x0 j k) * Tt t k)))))).
      2: { intros i Hi. unfold dT. rewrite (sol_diff t St i Hi). reflexivity. }
      assert (Pc : 0 <= M * tau * (1 + size (Tt x0) + s)) by (apply Rmult_le_pos; [nra|lra]).
      refine (proj2 (apply_bound (fun j => if fx j then 0 else (Ft t j - Ft x0 j) - sum n (fun k => (Kt t j k - Kt x0 j k) * Tt t k)) _ Pc _)).
      intros j Hj. destruct (fx j); [rewrite Rabs_R0; auto|]. eapply Rle_trans; [apply Rabs_triang|]. rewrite Rabs_Ropp.
      assert (B1 : Rabs (sum n (fun k => (Kt t j k - Kt x0 j k) * Tt t k)) <= M * tau * size (Tt t)).
      { eapply Rle_trans; [apply sum_abs|]. unfold size. rewrite <- sum_scal. apply sum_le. intros k Hk. rewrite Rabs_mult. apply Rmult_le_compat_r; [apply Rabs_pos|auto]. }
      pose proof (LF j Hj). assert (0 <= M * tau) by nra. nra. }
    assert (Q : gsize * M * tau <= / 2).
    { assert (tau * (2 * (M * gsize + 1)) <= 1); [|nra]. apply (Rmult_le_reg_r (/ (2 * (M * gsize + 1)))); [auto|].
      rewrite Rmult_assoc, Rinv_r by nra. lra. }
    nra.
  Qed.
  Theorem sol_derive i : (i < n)%nat -> derivable_pt_lim (fun t => Tt t i) x0 (dsol i).
  Proof.
    intros Hi. destruct sol_lipschitz as (C & d1 & HC & Hd1 & LS). destruct all_lipschitz as (M & d2 & HM & Hd2 & L). pose proof gsize_nonneg as G0.
    apply (squeeze_derive _ (fun t => Tt x0 i + sum n (fun j => G i j * (if fx j then 0 else (Ft t j - Ft x0 j) - sum n (fun k => (Kt t j k - Kt x0 j k) * Tt x0 k))))
      (fun t => gsize * (M * C) * ((t - x0) * (t - x0)))).
    - exists (Rmin d1 d2). split; [now apply Rmin_glb_lt|]. intros t Ht. pose proof (Rmin_l d1 d2). pose proof (Rmin_r d1 d2).
      destruct (LS t ltac:(lra)) as (St & Ls). destruct (L t ltac:(lra)) as (LK & LF). set (tau := Rabs (t - x0)) in *. assert (T0 : 0 <= tau) by apply Rabs_pos.
      set (dT := fun k => Tt t k - Tt x0 k) in *.
      assert (E : Tt t i - (Tt x0 i + sum n (fun j => G i j * (if fx j then 0 else (Ft t j - Ft x0 j) - sum n (fun k => (Kt t j k - Kt x0 j k) * Tt x0 k)))) =
        sum n (fun j => G i j * (if fx j then 0 else - sum n (fun k => (Kt t j k - Kt x0 j k) * dT k)))).
      { replace (Tt t i) with (Tt x0 i + (Tt t i - Tt x0 i)) by ring. rewrite (sol_diff t St i Hi).
        match goal with |- ?a + ?b - (?a + ?c) = ?e => replace (a + b - (a + c)) with (b - c) by ring end. rewrite <- sum_minus. apply sum_ext. intros j Hj.
        destruct (fx j); [ring|]. unfold dT. rewrite (sum_ext n (fun k => (Kt t j k - Kt x0 j k) * (Tt t k - Tt x0 k)) (fun k => (Kt t j k - Kt x0 j k) * Tt t k - (Kt t j k - Kt x0 j k) * Tt x0 k)) by (intros; ring).
        rewrite sum_minus. ring. }
      rewrite E. replace ((t - x0) * (t - x0)) with (tau * tau) by (unfold tau; rewrite <- Rabs_mult; apply Rabs_pos_eq, Rle_0_sqr).
      replace (gsize * (M * C) * (tau * tau)) with (gsize * (M * tau * (C * tau))) by ring.
      assert (Pc : 0 <= M * tau * (C * tau)) by (apply Rmult_le_pos; nra).
      refine (proj1 (apply_bound (fun j => if fx j then 0 else - sum n (fun k => (Kt t j k - Kt x0 j k) * dT k)) _ Pc _) i Hi).
      intros j Hj. destruct (fx j); [rewrite Rabs_R0; auto|]. rewrite Rabs_Ropp. eapply Rle_trans; [apply sum_abs|].
      apply Rle_trans with (M * tau * size dT).
      + unfold size. rewrite <- sum_scal. apply sum_le. intros k Hk. rewrite Rabs_mult. apply Rmult_le_compat_r; [apply Rabs_pos|auto].
      + apply Rmult_le_compat_l; [nra|exact Ls].
    - unfold dsol. set (L' := sum n _). replace L' with (0 + L') by ring. unfold L'. apply (derivable_pt_lim_plus (fun _ => Tt x0 i)); [apply derivable_pt_lim_const|].
      apply (derive_sum n (fun j t => G i j * (if fx j then 0 else (Ft t j - Ft x0 j) - sum n (fun k => (Kt t j k - Kt x0 j k) * Tt x0 k)))).
      intros j Hj. apply (derivable_pt_lim_scal (fun t => if fx j then 0 else (Ft t j - Ft x0 j) - sum n (fun k => (Kt t j k - Kt x0 j k) * Tt x0 k))).
      destruct (fx j); [apply derivable_pt_lim_const|].
      apply (derivable_pt_lim_minus (fun t => Ft t j - Ft x0 j)).
      + replace (F' j) with (F' j - 0) by ring. apply (derivable_pt_lim_minus (fun t => Ft t j) (fun _ => Ft x0 j)); [now apply HF|apply derivable_pt_lim_const].
      + unfold mv. apply (derive_sum n (fun k t => (Kt t j k - Kt x0 j k) * Tt x0 k)). intros k Hk.
        replace (K' j k * Tt x0 k) with ((K' j k - 0) * Tt x0 k + (Kt x0 j k - Kt x0 j k) * 0) by ring.
        apply (derivable_pt_lim_mult (fun t => Kt t j k - Kt x0 j k) (fun _ => Tt x0 k)); [|apply derivable_pt_lim_const].
        apply (derivable_pt_lim_minus (fun t => Kt t j k) (fun _ => Kt x0 j k)); [now apply HK|apply derivable_pt_lim_const].
    - set (c := gsize * (M * C)). replace 0 with (c * ((1 - 0) * (x0 - x0) + (x0 - x0) * (1 - 0))) at 1 by ring.
      apply (derivable_pt_lim_scal (fun t => (t - x0) * (t - x0))).
      apply (derivable_pt_lim_mult (fun t => t - x0) (fun t => t - x0)); apply (derivable_pt_lim_minus (fun t => t) (fun _ => x0));
        try apply derivable_pt_lim_id; apply derivable_pt_lim_const.
    - ring.
  Qed.
  (* derivative of T.KT by the adjoint p: fixed at 0, K p = F elsewhere *)
  Hypothesis Sym : forall i j, (i < n)%nat -> (j < n)%nat -> Kt x0 i j = Kt x0 j i.
  Variable p : vec.
  Hypothesis Hp : (forall i, (i < n)%nat -> fx i = true -> p i = 0) /\ (forall i, (i < n)%nat -> fx i = false -> mv n (Kt x0) p i = Ft x0 i).
  Lemma mv_derive i : (i < n)%nat -> derivable_pt_lim (fun t => mv n (Kt t) (Tt t) i) x0 (mv n K' (Tt x0) i + mv n (Kt x0) dsol i).
  Proof.
    intros Hi. unfold mv. rewrite <- sum_plus. apply (derive_sum n (fun j t => Kt t i j * Tt t j)). intros j Hj.
    apply (derivable_pt_lim_mult (fun t => Kt t i j) (fun t => Tt t j)); [now apply HK|now apply sol_derive].
  Qed.
  Lemma dsol_eq i : (i < n)%nat -> (fx i = true -> dsol i = 0) /\ (fx i = false -> mv n K' (Tt x0) i + mv n (Kt x0) dsol i = F' i).
  Proof.
    intros Hi. destruct HT as (d & Hd & S). split; intros Fi.
    - apply (uniqueness_limite (fun t => Tt t i) x0); [now apply sol_derive|]. apply (derive_locally (fun _ => g)); [|apply derivable_pt_lim_const].
      exists d. split; [auto|]. intros t Ht. destruct (S t Ht) as (B & _). symmetry. now apply B.
    - apply (uniqueness_limite (fun t => mv n (Kt t) (Tt t) i) x0); [now apply mv_derive|]. apply (derive_locally (fun t => Ft t i)); [|now apply HF].
      exists d. split; [auto|]. intros t Ht. destruct (S t Ht) as (_ & E). symmetry. now apply E.
  Qed.
  Theorem quad_derive : derivable_pt_lim (fun t => dot n (Tt t) (mv n (Kt t) (Tt t))) x0
    (2 * (dot n p F' - dot n p (mv n K' (Tt x0))) + dot n (Tt x0) (mv n K' (Tt x0))).
  Proof.
    set (T := Tt x0). replace (2 * (dot n p F' - dot n p (mv n K' T)) + dot n T (mv n K' T))
      with (sum n (fun i => dsol i * mv n (Kt x0) T i + T i * (mv n K' T i + mv n (Kt x0) dsol i))).
    - unfold dot. apply (derive_sum n (fun i t => Tt t i * mv n (Kt t) (Tt t) i)). intros i Hi.
      apply (derivable_pt_lim_mult (fun t => Tt t i) (fun t => mv n (Kt t) (Tt t) i)); [now apply sol_derive|now apply mv_derive].
    - rewrite sum_plus. fold (dot n dsol (mv n (Kt x0) T)).
      rewrite (sum_ext n (fun i => T i * (mv n K' T i + mv n (Kt x0) dsol i)) (fun i => T i * mv n K' T i + T i * mv n (Kt x0) dsol i)) by (intros; ring).
      rewrite sum_plus. fold (dot n T (mv n K' T)). fold (dot n T (mv n (Kt x0) dsol)). rewrite (dot_mv_sym n (Kt x0) T dsol) by exact Sym.
      assert (E : dot n dsol (mv n (Kt x0) T) = dot n p F' - dot n p (mv n K' T)); [|lra].
      destruct sol0 as (B0 & E0). destruct Hp as (P0 & PE).
      assert (E1 : dot n dsol (mv n (Kt x0) T) = dot n dsol (mv n (Kt x0) p)).
      { apply sum_ext. intros i Hi. destruct (dsol_eq i Hi) as (Z & _). destruct (fx i) eqn:Fi; [rewrite (Z eq_refl); ring|].
        rewrite (PE i Hi Fi). unfold T. rewrite (E0 i Hi Fi). reflexivity. }
      rewrite E1, (dot_mv_sym n (Kt x0)) by exact Sym. unfold dot. rewrite <- sum_minus. apply sum_ext. intros i Hi.
      destruct (dsol_eq i Hi) as (_ & Q). destruct (fx i) eqn:Fi; [rewrite (P0 i Hi Fi); ring|]. rewrite <- (Q eq_refl). fold T. ring.
  Qed.
End lin.

(* the inverse of a regular system, from an exact solver *)
Lemma inverse_exists n (D : list nat) (K : mat) (slvm : mat -> list vec -> list vec) :
  (forall A bs, (forall u, (forall i, (i < n)%nat -> mv n A u i = 0) -> forall i, (i < n)%nat -> u i = 0) -> Forall2 (solves n A) bs (slvm A bs)) ->
  (forall u, (forall i, (i < n)%nat -> mv n (enforceK D K) u i = 0) -> forall i, (i < n)%nat -> u i = 0) ->
  exists G : mat, forall u : vec, (forall i, (i < n)%nat -> mem i D = true -> u i = 0) -> forall i, (i < n)%nat ->
    u i = sum n (fun j => G i j * (if mem j D then 0 else mv n K u j)).
Proof.
  intros Ex Reg. set (E := enforceK D K) in *. set (e := fun j : nat => (fun i : nat => if Nat.eqb i j then 1 else 0) : vec).
  pose proof (Ex E (map e (seq 0 n)) Reg) as F. set (gs := slvm E (map e (seq 0 n))) in *.
  assert (Sj : forall j, (j < n)%nat -> solves n E (e j) (nth j gs (fun _ => 0))).
  { intros j Hj. assert (N : nth j (map e (seq 0 n)) (e 0%nat) = e j) by (rewrite (map_nth e), seq_nth by auto; reflexivity).
    rewrite <- N. clear N. assert (Lj : (j < List.length (map e (seq 0 n)))%nat) by (rewrite map_length, seq_length; auto).
    generalize (e 0%nat) (fun _ : nat => 0). revert j Hj Lj. induction F as [|b u bs us Sb F IH]; intros j Hj Lj d d'; [cbn in Lj; lia|].
    destruct j as [|j]; cbn [nth]; [exact Sb|]. apply IH; [lia|]. cbn [List.length] in Lj. lia. }
  exists (fun i j => nth j gs (fun _ => 0) i). intros u Hu i Hi.
  assert (EU : forall j, (j < n)%nat -> mv n E u j = if mem j D then 0 else mv n K u j).
  { intros j Hj. unfold E, mv, enforceK. destruct (mem j D) eqn:Mj; [|reflexivity].
    rewrite (sum_ext n _ (fun k => if Nat.eqb k j then u k else 0)) by (intros k Hk; rewrite (Nat.eqb_sym j k); destruct (Nat.eqb k j); ring).
    rewrite (sum_single n j (fun k => u k)) by auto. now apply Hu. }
  set (v := fun i => sum n (fun j => nth j gs (fun _ => 0) i * (if mem j D then 0 else mv n K u j))).
  assert (Z : u i - v i = 0); [|unfold v in Z; lra].
  apply (Reg (fun i => u i - v i)); [|auto]. intros k Hk.
  assert (Lin : mv n E (fun i => u i - v i) k = mv n E u k - mv n E v k).
  { unfold mv. rewrite <- sum_minus. apply sum_ext. intros. ring. }
  rewrite Lin, EU by auto.
  assert (V : mv n E v k = sum n (fun j => (if mem j D then 0 else mv n K u j) * e j k)).
  { unfold mv at 1, v. rewrite (sum_ext n _ (fun m => sum n (fun j => (if mem j D then 0 else mv n K u j) * (E k m * nth j gs (fun _ => 0) m))))
      by (intros m Hm; rewrite <- sum_scal; apply sum_ext; intros; ring).
    rewrite sum_swap. apply sum_ext. intros j Hj. rewrite sum_scal. f_equal. exact (Sj j Hj k Hk). }
  rewrite V. rewrite (sum_ext n _ (fun j => if Nat.eqb j k then (if mem j D then 0 else mv n K u j) else 0)).
  - rewrite (sum_single n k (fun j => if mem j D then 0 else mv n K u j)) by auto. ring.
  - intros j Hj. unfold e. rewrite (Nat.eqb_sym k j). destruct (Nat.eqb j k); ring.
Qed.
