(* C89: analyses with solver='cg_jacobi'. *)
From Coq Require Import Lia String.
From Verif Require Import Base Sums LinAlg Mesh_model Mesh_proofs Fea_model Fea_spec Fea_proofs Solver_model CG_model CG_proofs.
Open Scope R_scope.
Open Scope list_scope.

(* ---------- specification ---------- *)
(* Euclidean norm over the dofs that are not held *)
Definition free_norm (n : nat) (D : list nat) (v : vec) : R := sqrt (sum n (fun i => if mem i D then 0 else v i * v i)).
(* out-of-balance force *)
Definition imbalance (n : nat) (K : mat) (f u : vec) : vec := fun i => f i - mv n K u i.
(* the iteration limit compute_compliance_basis passes on *)
Definition steps (n : nat) (maxiter : option nat) : nat :=
  match maxiter with Some m => m | None => Nat.min 1000 (Nat.max 300 (n / 5)) end.

(* ---------- the enforced matrix on motions that respect the supports ---------- *)
Section Held.
Variables (n : nat) (K : mat) (D : list nat) (f : vec).
Hypothesis Sym : symmetric n K.
Hypothesis Sup : supported n K D.
Definition held (u : vec) : Prop := forall i, (i < n)%nat -> In i D -> u i = 0.
Let Ke := enforceK D K.
Let Fe := enforceF D f.
Lemma Ke_held u i : (i < n)%nat -> In i D -> mv n Ke u i = u i.
Proof.
  intros Hi Hd. apply mem_in in Hd. unfold mv, Ke, enforceK. rewrite <- (sum_single n i u Hi). apply sum_ext. intros j _.
  rewrite Hd, (Nat.eqb_sym i j). destruct (Nat.eqb j i); ring.
Qed.
Lemma Ke_free u i : ~ In i D -> mv n Ke u i = mv n K u i.
Proof. intros Hd. apply mem_false in Hd. unfold mv, Ke, enforceK. apply sum_ext. intros j _. now rewrite Hd. Qed.
Lemma dot_Ke u v : held u -> dot n u (mv n Ke v) = dot n u (mv n K v).
Proof.
  intros Hu. apply sum_ext. intros i Hi. destruct (in_dec Nat.eq_dec i D) as [Hd|Hd].
  - rewrite Hu by assumption. ring.
  - now rewrite Ke_free.
Qed.
Lemma held_lin u v c : held u -> held v -> held (fun i => u i + c * v i).
Proof. intros Hu Hv i Hi Hd. rewrite Hu, Hv by assumption. ring. Qed.
Lemma held_ext u v : (forall i, (i < n)%nat -> u i = v i) -> held u -> held v.
Proof. intros H Hu i Hi Hd. rewrite <- H by exact Hi. now apply Hu. Qed.
Lemma held_Fe : held Fe.
Proof. intros i _ Hd. unfold Fe, enforceF. apply mem_in in Hd. now rewrite Hd. Qed.
Lemma held_A u : held u -> held (mv n Ke u).
Proof. intros Hu i Hi Hd. rewrite Ke_held by assumption. now apply Hu. Qed.
Lemma held_M u : held u -> held (jacobi 0 Ke u).
Proof. intros Hu i Hi Hd. unfold jacobi. rewrite Hu by assumption. ring. Qed.
Lemma held_symA u v : held u -> held v -> dot n u (mv n Ke v) = dot n v (mv n Ke u).
Proof. intros Hu Hv. rewrite !dot_Ke by assumption. now apply dot_mv_sym. Qed.
Lemma held_posA u : held u -> nonzero n u -> 0 < dot n u (mv n Ke u).
Proof. intros Hu Hn. rewrite dot_Ke by exact Hu. now apply Sup. Qed.
Lemma held_symM u v : held u -> held v -> dot n u (jacobi 0 Ke v) = dot n v (jacobi 0 Ke u).
Proof. intros _ _. apply sum_ext. intros i _. unfold jacobi. ring. Qed.
Lemma diag_pos i : (i < n)%nat -> 0 < Ke i i.
Proof.
  intros Hi. unfold Ke, enforceK. destruct (mem i D) eqn:E.
  - rewrite Nat.eqb_refl. lra.
  - apply mem_false in E. set (e := fun j => if Nat.eqb j i then 1 else 0).
    assert (Q : quad n K e = K i i).
    { unfold quad, dot, e. rewrite (sum_ext n _ (fun j => if Nat.eqb j i then mv n K e j else 0)).
      - rewrite sum_single by exact Hi. unfold mv. rewrite <- (sum_single n i (fun j => K i j) Hi). apply sum_ext. intros j _.
        unfold e. destruct (Nat.eqb j i); ring.
      - intros j _. destruct (Nat.eqb j i); unfold e; ring. }
    rewrite <- Q. apply Sup.
    + intros j _ Hd. unfold e. destruct (Nat.eqb_spec j i) as [->|]; [contradiction|reflexivity].
    + exists i. split; [exact Hi|]. unfold e. rewrite Nat.eqb_refl. lra.
Qed.
Lemma held_posM u : held u -> nonzero n u -> 0 < dot n u (jacobi 0 Ke u).
Proof.
  intros _ (i & Hi & Hn). apply (rs_pos _ _ i).
  - intros j Hj. apply in_seq in Hj. unfold jacobi. rewrite Rplus_0_r. pose proof (Rinv_0_lt_compat _ (diag_pos j ltac:(lia))).
    replace (u j * (/ Ke j j * u j)) with (/ Ke j j * (u j * u j)) by ring. apply Rmult_le_pos; [lra|apply Rle_0_sqr].
  - apply in_seq. lia.
  - unfold jacobi. rewrite Rplus_0_r. pose proof (Rinv_0_lt_compat _ (diag_pos i Hi)).
    replace (u i * (/ Ke i i * u i)) with (/ Ke i i * (u i * u i)) by ring. apply Rmult_lt_0_compat; [lra|now apply Rlt_0_sqr].
Qed.
Lemma Fe_norm : norm n Fe = free_norm n D f.
Proof. unfold norm, free_norm, dot, Fe, enforceF. f_equal. apply sum_ext. intros i _. destruct (mem i D); ring. Qed.
Lemma residual_norm u : held u -> norm n (fun i => Fe i - mv n Ke u i) = free_norm n D (imbalance n K f u).
Proof.
  intros Hu. unfold norm, free_norm, dot, imbalance. f_equal. apply sum_ext. intros i Hi.
  destruct (mem i D) eqn:E.
  - pose proof E as E'. apply mem_in in E'. rewrite Ke_held, Hu by assumption. unfold Fe, enforceF. rewrite E. ring.
  - pose proof E as E'. apply mem_false in E'. rewrite Ke_free by assumption. unfold Fe, enforceF. rewrite E. ring.
Qed.
End Held.

(* the run as the sequence of iterates *)
Lemma cg_run n K D f rtol maxiter other c u : symmetric n K -> supported n K D ->
  cg_compliance n K D f rtol maxiter other = Ok (c, u) ->
  let Ke := enforceK D K in let Fe := enforceF D f in
  c = work n D f u /\
  ((free_norm n D f = 0 /\ u = Fe) \/
   (0 < free_norm n D f /\ exists j, (j <= steps n maxiter)%nat /\ u = xk n Ke (jacobi 0 Ke) Fe j /\
     (forall i, (i < j)%nat -> rtol * free_norm n D f <= norm n (rk n Ke (jacobi 0 Ke) Fe i)) /\
     ((j < steps n maxiter)%nat -> norm n (rk n Ke (jacobi 0 Ke) Fe j) < rtol * free_norm n D f))).
Proof.
  intros Sym Sup H Ke Fe. unfold cg_compliance in H. cbv zeta in H. fold Ke Fe in H. unfold single_load_solve, single_load_cfg, solve_u, attempt in H.
  cbn [l_solver l_rtol l_maxiter l_petsc l_fallback String.eqb Ascii.eqb Bool.eqb cg_backend] in H.
  unfold cg in H. rewrite (Fe_norm n D f : norm n Fe = _) in H. fold (default_maxiter n) in *.
  change (match maxiter with None => default_maxiter n | Some m => m end) with (steps n maxiter) in H.
  destruct (Reqb (free_norm n D f) 0) eqn:E.
  - apply Reqb_true in E. cbn [snd bind] in H. injection H as <- <-. split; [apply work_free|]. left. now split.
  - apply Reqb_false in E. cbv zeta in H.
    destruct (loop_stops n Ke (jacobi 0 Ke) Fe (rtol * free_norm n D f) (steps n maxiter)) as (j & Hj & Hx & Ht & Hf & Hge).
    destruct (cg_loop _ _ _ _ _ _ _ _) as [x ok]. cbn [fst snd] in *. cbn [snd bind] in H. injection H as <- <-.
    split; [apply work_free|]. right. split.
    + pose proof (sqrt_pos (sum n (fun i => if mem i D then 0 else f i * f i))). unfold free_norm in *. lra.
    + exists j. split; [exact Hj|split; [exact Hx|split; [exact Hge|]]]. intros Hlt. destruct ok.
      * now apply Ht.
      * specialize (Hf eq_refl). lia.
Qed.

(* ---------- C89 ---------- *)
(* an answer in every case; the supports are exactly at rest, the compliance is the work
   of the load on the returned motion and never negative *)
Theorem C89_always_answers n K D f rtol maxiter other : symmetric n K -> supported n K D ->
  exists c u, cg_compliance n K D f rtol maxiter other = Ok (c, u) /\ c = work n D f u /\
    forall i, (i < n)%nat -> In i D -> u i = 0.
Proof.
  intros Sym Sup.
  assert (E : exists c u, cg_compliance n K D f rtol maxiter other = Ok (c, u)).
  { unfold cg_compliance. cbv zeta. unfold single_load_solve, single_load_cfg, solve_u, attempt.
    cbn [l_solver l_rtol l_maxiter l_petsc l_fallback String.eqb Ascii.eqb Bool.eqb cg_backend].
    destruct (cg _ _ _ _ _ _) as [x info]. cbn [snd bind]. now eexists _, _. }
  destruct E as (c & u & E). exists c, u. split; [exact E|].
  destruct (cg_run _ _ _ _ _ _ _ _ _ Sym Sup E) as (Hc & [(_ & ->)|(_ & j & _ & -> & _)]).
  - split; [exact Hc|]. apply held_Fe.
  - split; [exact Hc|]. apply (W_xk n _ _ (held n D)).
    + apply held_lin.
    + apply held_ext.
    + apply held_Fe.
    + apply held_A.
    + apply held_M.
Qed.
Print Assumptions C89_always_answers.

Ltac heldtac Sym Sup := first [apply held_lin | apply held_ext | apply held_Fe | apply held_A | apply held_M |
  apply (held_symA _ _ _ Sym) | apply (held_posA _ _ _ Sup) | apply held_symM | apply (held_posM _ _ _ Sup)].

(* more steps allowed than there are dofs: the forces are balanced to the requested
   tolerance *)
Theorem C89_balanced n K D f rtol maxiter other c u : symmetric n K -> supported n K D -> 0 < rtol ->
  (n < steps n maxiter)%nat -> cg_compliance n K D f rtol maxiter other = Ok (c, u) ->
  free_norm n D (imbalance n K f u) <= rtol * free_norm n D f.
Proof.
  intros Sym Sup Hr Hn H.
  destruct (cg_run _ _ _ _ _ _ _ _ _ Sym Sup H) as (Hc & [(Hz & ->)|(Hp & j & Hj & Hu & Hge & Hlt)]).
  - rewrite Hz, Rmult_0_r. rewrite <- (residual_norm n K D f) by apply held_Fe. right. apply norm_zero_iff. intros i Hi.
    assert (Z : forall i, (i < n)%nat -> enforceF D f i = 0) by (apply norm_zero_iff; now rewrite Fe_norm).
    rewrite Z by exact Hi. rewrite (mv_ext n _ _ (fun _ => 0)) by exact Z. rewrite mv_zero. ring.
  - assert (Hw : held n D u).
    { rewrite Hu. apply (W_xk n _ _ (held n D)); heldtac Sym Sup. }
    assert (Hat : 0 < rtol * free_norm n D f) by now apply Rmult_lt_0_compat.
    destruct (finite_termination n (enforceK D K) (jacobi 0 (enforceK D K)) (held n D) (enforceF D f)) as (k & Hk & Hz); try heldtac Sym Sup.
    assert (Hj' : (j < steps n maxiter)%nat).
    { destruct (Nat.lt_ge_cases j (steps n maxiter)) as [?|?]; [assumption|exfalso]. specialize (Hge k ltac:(lia)).
      rewrite (not_nonzero_norm n _ Hz) in Hge. lra. }
    specialize (Hlt Hj'). rewrite <- (residual_norm n K D f) by exact Hw. rewrite Hu. left.
    replace (norm n (fun i => enforceF D f i - mv n (enforceK D K) (xk n (enforceK D K) (jacobi 0 (enforceK D K)) (enforceF D f) j) i))
      with (norm n (rk n (enforceK D K) (jacobi 0 (enforceK D K)) (enforceF D f) j)); [exact Hlt|].
    unfold norm. f_equal. apply dot_ext; intros i Hi; now apply rk_residual.
Qed.
Print Assumptions C89_balanced.

(* by default this covers every problem below 300 dofs *)
Theorem C89_balanced_by_default n K D f rtol other c u : symmetric n K -> supported n K D -> 0 < rtol ->
  (n < 300)%nat -> cg_compliance n K D f rtol None other = Ok (c, u) ->
  free_norm n D (imbalance n K f u) <= rtol * free_norm n D f.
Proof. intros Sym Sup Hr Hn. apply C89_balanced; try assumption. unfold steps. lia. Qed.
Print Assumptions C89_balanced_by_default.

(* stopped anywhere: the reported compliance is at most the exact one; the gap is the
   energy of the missing motion *)
Theorem C89_never_above_exact n K D f rtol maxiter other c u ue : symmetric n K -> supported n K D -> 0 < rtol ->
  cg_compliance n K D f rtol maxiter other = Ok (c, u) -> equilibrium n K D f ue ->
  0 <= c /\ work n D f ue - c = quad n K (fun i => ue i - u i) /\ c <= work n D f ue /\
  (c = work n D f ue <-> forall i, (i < n)%nat -> u i = ue i).
Proof.
  intros Sym Sup Hr H He.
  assert (Semi : forall v, held n D v -> 0 <= quad n K v).
  { intros v Hv. destruct (Classical_Prop.classic (nonzero n v)) as [Y|N]; [left; now apply Sup|right].
    symmetry. apply sum_zero. intros i Hi. replace (v i) with 0; [ring|]. destruct (Req_dec (v i) 0) as [E|E]; [now rewrite E|].
    exfalso. apply N. now exists i. }
  assert (Hue : held n D ue) by exact (proj1 He).
  assert (Fin : forall g, work n D f ue - c = g -> g = quad n K (fun i => ue i - u i) -> held n D u -> 0 <= c ->
    0 <= c /\ work n D f ue - c = quad n K (fun i => ue i - u i) /\ c <= work n D f ue /\
    (c = work n D f ue <-> forall i, (i < n)%nat -> u i = ue i)).
  { intros g Hg Hq Hw H0c. rewrite Hq in Hg. split; [exact H0c|split; [exact Hg|]].
    assert (Hd : held n D (fun i => ue i - u i)) by (intros i Hi Hd; rewrite Hue, Hw by assumption; ring).
    pose proof (Semi _ Hd). split; [lra|]. split.
    - intros E i Hi. destruct (Req_dec (u i) (ue i)) as [Y|N]; [exact Y|exfalso].
      assert (0 < quad n K (fun i => ue i - u i)); [|lra]. apply Sup; [exact Hd|]. exists i. split; [exact Hi|lra].
    - intros E. assert (quad n K (fun i => ue i - u i) = 0); [|lra]. apply sum_zero. intros i Hi. rewrite E by exact Hi. ring. }
  destruct (cg_run _ _ _ _ _ _ _ _ _ Sym Sup H) as (Hc & [(Hz & Hu)|(Hp & j & Hj & Hu & Hge & Hlt)]).
  - assert (Z : forall i, (i < n)%nat -> enforceF D f i = 0) by (apply norm_zero_iff; now rewrite Fe_norm).
    assert (Hw : held n D u) by (rewrite Hu; apply held_Fe).
    assert (W0 : forall v, work n D f v = 0).
    { intros v. rewrite <- work_dot. apply sum_zero. intros i Hi. rewrite Z by exact Hi. ring. }
    apply (Fin 0); [rewrite Hc, !W0; ring| |exact Hw|rewrite Hc, W0; lra].
    assert (E : forall i, (i < n)%nat -> ue i = u i).
    { intros i Hi. rewrite Hu. rewrite Z by exact Hi. revert i Hi.
      apply (equilibrium_unique n K D f ue (fun _ => 0) Sup He). split; [reflexivity|]. intros i Hi Hd. rewrite mv_zero.
      specialize (Z i Hi). unfold enforceF in Z. apply mem_false in Hd. rewrite Hd in Z. now symmetry. }
    symmetry. apply sum_zero. intros i Hi. rewrite E by exact Hi. ring.
  - assert (Hw : held n D u).
    { rewrite Hu. apply (W_xk n _ _ (held n D)); heldtac Sym Sup. }
    assert (Hat : 0 < rtol * free_norm n D f) by now apply Rmult_lt_0_compat.
    assert (Hnz : forall i, (i < j)%nat -> nonzero n (rk n (enforceK D K) (jacobi 0 (enforceK D K)) (enforceF D f) i)).
    { intros i Hi. apply nonzero_norm. specialize (Hge i Hi). lra. }
    apply (Fin (dot n (fun i => ue i - u i) (mv n (enforceK D K) (fun i => ue i - u i)))).
    + rewrite Hc, <- !work_dot, Hu. apply (work_gap n _ _ (held n D)); try heldtac Sym Sup; try assumption.
      intros i Hi. apply (proj2 (enforce_equilibrium n K D f ue) He i Hi).
    + apply dot_Ke. intros i Hi Hd. rewrite Hue, Hw by assumption. ring.
    + exact Hw.
    + rewrite Hc, <- work_dot, Hu. apply Rle_trans with (dot n (enforceF D f) (xk n (enforceK D K) (jacobi 0 (enforceK D K)) (enforceF D f) 0)).
      * right. symmetry. apply sum_zero. intros i _. unfold xk. cbn. ring.
      * apply (work_mono n _ _ (held n D)); try heldtac Sym Sup; [lia|exact Hnz].
Qed.
Print Assumptions C89_never_above_exact.

(* more steps or a smaller tolerance never lower the reported compliance *)
Theorem C89_more_effort_tighter n K D f rtol rtol' maxiter maxiter' other other' c u c' u' :
  symmetric n K -> supported n K D -> 0 < rtol' <= rtol -> (steps n maxiter <= steps n maxiter')%nat ->
  cg_compliance n K D f rtol maxiter other = Ok (c, u) ->
  cg_compliance n K D f rtol' maxiter' other' = Ok (c', u') -> c <= c'.
Proof.
  intros Sym Sup (Hr & Hrr) Hst H H'.
  destruct (cg_run _ _ _ _ _ _ _ _ _ Sym Sup H) as (Hc & [(Hz & Hu)|(Hp & j & Hj & Hu & Hge & Hlt)]);
  destruct (cg_run _ _ _ _ _ _ _ _ _ Sym Sup H') as (Hc' & [(Hz' & Hu')|(Hp' & j' & Hj' & Hu' & Hge' & Hlt')]); try lra.
  - rewrite Hc, Hc', Hu, Hu'. lra.
  - assert (Hat : 0 < rtol' * free_norm n D f) by now apply Rmult_lt_0_compat.
    assert (Hle : rtol' * free_norm n D f <= rtol * free_norm n D f) by (apply Rmult_le_compat_r; lra).
    assert (Hjj : (j <= j')%nat).
    { destruct (Nat.le_gt_cases j j') as [?|Hgt]; [assumption|exfalso]. specialize (Hge j' Hgt).
      specialize (Hlt' ltac:(lia)). lra. }
    rewrite Hc, Hc', <- !work_dot, Hu, Hu'. apply (work_mono n _ _ (held n D)); try heldtac Sym Sup; [exact Hjj|].
    intros i Hi. apply nonzero_norm. specialize (Hge' i Hi). lra.
Qed.
Print Assumptions C89_more_effort_tighter.

(* with any preconditioner (pyamg's included): a zero flag means a small residual, unless
   no step was allowed *)
Theorem C89_zero_flag n K M b rtol maxiter x : maxiter <> Some 0%nat -> 0 <= rtol ->
  cg n (mv n K) M b rtol maxiter = (x, 0%nat) ->
  norm n (fun i => b i - mv n K x i) <= rtol * norm n b.
Proof.
  intros Hm Hr H. destruct (cg_residual _ _ _ _ _ _ _ H) as [Z|[L|(E & _)]]; [|now left|contradiction].
  assert (N : norm n b = 0) by (apply norm_zero_iff; intros; now apply Z). rewrite N, Rmult_0_r. right. apply norm_zero_iff.
  intros i Hi. rewrite (mv_ext n _ _ (fun _ => 0)) by (intros; now apply Z). rewrite mv_zero. destruct (Z i Hi) as (-> & _). ring.
Qed.
Print Assumptions C89_zero_flag.

(* ---------- a concrete case ---------- *)
(* two equal springs in a row, both ends held: dofs 0..3, dofs 0 and 3 held *)
Definition chain : mat := fun i j => if Nat.eqb i j then 2 else if Nat.eqb (S i) j || Nat.eqb i (S j) then -1 else 0.
Definition chain_load : vec := fun i => if Nat.eqb i 1 then 1 else 0.
Lemma chain_symmetric n : symmetric n chain.
Proof.
  intros i j _ _. unfold chain. rewrite (Nat.eqb_sym j i), (Nat.eqb_sym (S j) i), (Nat.eqb_sym j (S i)).
  destruct (Nat.eqb i j), (Nat.eqb (S i) j), (Nat.eqb i (S j)); reflexivity.
Qed.
Lemma chain_supported : supported 4 chain [0; 3]%nat.
Proof.
  intros u Hu (i & Hi & Hn). pose proof (Hu 0%nat ltac:(lia) ltac:(cbn; tauto)) as U0. pose proof (Hu 3%nat ltac:(lia) ltac:(cbn; tauto)) as U3.
  unfold quad, dot, mv, sum, chain. cbn [seq map rsum fold_right Nat.eqb orb]. rewrite U0, U3.
  assert (u 1%nat <> 0 \/ u 2%nat <> 0).
  { destruct i as [|[|[|[|i]]]]; [contradiction|now left|now right|contradiction|lia]. }
  assert (E : u 1%nat ^ 2 + u 2%nat ^ 2 + (u 1%nat - u 2%nat) ^ 2 > 0).
  { pose proof (pow2_ge_0 (u 1%nat)). pose proof (pow2_ge_0 (u 2%nat)). pose proof (pow2_ge_0 (u 1%nat - u 2%nat)).
    destruct H as [H|H]; pose proof (Rsqr_pos_lt _ H) as P; rewrite Rsqr_pow2 in P; lra. }
  lra.
Qed.
Lemma chain_equilibrium : equilibrium 4 chain [0; 3]%nat chain_load (fun i => if Nat.eqb i 1 then 2 / 3 else if Nat.eqb i 2 then 1 / 3 else 0).
Proof.
  split; intros i Hi Hd.
  - destruct Hd as [<-|[<-|[]]]; reflexivity.
  - destruct i as [|[|[|[|i]]]]; try (exfalso; apply Hd; cbn; tauto); try lia;
    unfold mv, sum, chain, chain_load; cbn [seq map rsum fold_right Nat.eqb orb]; lra.
Qed.
Example C89_hypotheses_met : exists c u, symmetric 4 chain /\ supported 4 chain [0; 3]%nat /\ (4 < steps 4 None)%nat /\
  cg_compliance 4 chain [0; 3]%nat chain_load (1 / 100000) None (fun _ _ _ => Err ValueError) = Ok (c, u).
Proof.
  destruct (C89_always_answers 4 chain [0; 3]%nat chain_load (1 / 100000) None (fun _ _ _ => Err ValueError) (chain_symmetric 4) chain_supported) as (c & u & E & _).
  exists c, u. split; [apply chain_symmetric|split; [apply chain_supported|split; [cbn; lia|exact E]]].
Qed.
(* FINDING: with a step limit that is too small the unconverged value is returned like a
   converged one: here 1/2 instead of 2/3, three quarters of the compliance *)
Theorem C89_unconverged_refuted : forall other, exists c u ue,
  cg_compliance 4 chain [0; 3]%nat chain_load (1 / 100000) (Some 1%nat) other = Ok (c, u) /\
  equilibrium 4 chain [0; 3]%nat chain_load ue /\ c = 1 / 2 /\ work 4 [0; 3]%nat chain_load ue = 2 / 3.
Proof.
  intros other. destruct (C89_always_answers 4 chain [0; 3]%nat chain_load (1 / 100000) (Some 1%nat) other (chain_symmetric 4) chain_supported) as (c & u & E & _).
  exists c, u, (fun i => if Nat.eqb i 1 then 2 / 3 else if Nat.eqb i 2 then 1 / 3 else 0). split; [exact E|split; [apply chain_equilibrium|]].
  assert (N : free_norm 4 [0; 3]%nat chain_load = 1).
  { unfold free_norm, sum, chain_load. cbn [seq map rsum fold_right Nat.eqb mem existsb orb].
    transitivity (sqrt 1); [f_equal; ring|apply sqrt_1]. }
  split.
  - destruct (cg_run _ _ _ _ _ _ _ _ _ (chain_symmetric 4) chain_supported E) as (Hc & [(Hz & _)|(_ & j & Hj & Hu & _ & Hlt)]); [lra|].
    cbn [steps] in *. destruct j as [|[|j]]; [|clear Hlt|lia].
    + exfalso. specialize (Hlt ltac:(lia)). change (rk 4 (enforceK [0; 3]%nat chain) (jacobi 0 (enforceK [0; 3]%nat chain)) (enforceF [0; 3]%nat chain_load) 0)
        with (enforceF [0; 3]%nat chain_load) in Hlt. rewrite Fe_norm, N in Hlt. lra.
    + rewrite Hc, <- work_dot, Hu. rewrite (dot_ext _ _ _ (enforceF [0; 3]%nat chain_load) (fun i => if Nat.eqb i 1 then 1 / 2 else 0)); [|reflexivity|].
      * unfold dot, sum, enforceF, chain_load. cbn [seq map rsum fold_right Nat.eqb mem existsb orb]. lra.
      * intros i Hi. unfold xk. cbn [it fst snd]. unfold dot, mv, jacobi, sum, enforceK, enforceF, chain, chain_load.
        destruct i as [|[|[|[|i]]]]; [| | | |lia]; cbn [seq map rsum fold_right Nat.eqb mem existsb orb]; field; lra.
  - unfold work, sum, chain_load. cbn [seq map rsum fold_right Nat.eqb mem existsb orb]. lra.
Qed.
Print Assumptions C89_unconverged_refuted.
