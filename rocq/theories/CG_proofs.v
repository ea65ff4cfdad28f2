(* The conjugate gradient iteration: residuals, conjugacy, finite termination. *)
From Coq Require Import Lia.
From Verif Require Import Base Sums LinAlg Mesh_model Fea_model Fea_spec Fea_proofs CG_model.
Open Scope R_scope.
Open Scope list_scope.

Lemma dot_plus_r n u v w : dot n u (fun i => v i + w i) = dot n u v + dot n u w.
Proof. unfold dot. rewrite <- sum_plus. apply sum_ext. intros; ring. Qed.
Lemma dot_minus_r n u v w : dot n u (fun i => v i - w i) = dot n u v - dot n u w.
Proof. unfold dot. rewrite <- sum_minus. apply sum_ext. intros; ring. Qed.
Lemma dot_scal_r n u c v : dot n u (fun i => c * v i) = c * dot n u v.
Proof. unfold dot. rewrite <- sum_scal. apply sum_ext. intros; ring. Qed.
Lemma dot_ext n u v u' v' : (forall i, (i < n)%nat -> u i = u' i) -> (forall i, (i < n)%nat -> v i = v' i) ->
  dot n u v = dot n u' v'.
Proof. intros H H'. apply sum_ext. intros i Hi. now rewrite H, H'. Qed.
Lemma dot_nonneg n v : 0 <= dot n v v.
Proof. apply sum_nonneg. intros i _. apply Rle_0_sqr. Qed.
Lemma dot_zero_inv n v : dot n v v = 0 -> forall i, (i < n)%nat -> v i = 0.
Proof.
  intros H i Hi. pose proof (sum_zero_inv n (fun i => v i * v i) ltac:(intros; apply Rle_0_sqr) H i Hi) as E. cbv beta in E.
  now apply Rsqr_0_uniq.
Qed.
Lemma norm_zero_iff n v : norm n v = 0 <-> forall i, (i < n)%nat -> v i = 0.
Proof.
  unfold norm. split.
  - intros H. apply dot_zero_inv. apply sqrt_eq_0 in H; [exact H|apply dot_nonneg].
  - intros H. unfold dot. rewrite sum_zero; [apply sqrt_0|]. intros i Hi. rewrite H by exact Hi. ring.
Qed.
Lemma norm_nonneg n v : 0 <= norm n v.
Proof. apply sqrt_pos. Qed.
Lemma mv_plus_scal n K x a p i : mv n K (fun j => x j + a * p j) i = mv n K x i + a * mv n K p i.
Proof. unfold mv. rewrite <- sum_scal, <- sum_plus. apply sum_ext. intros; ring. Qed.
Lemma mv_zero n K i : mv n K (fun _ => 0) i = 0.
Proof. apply sum_zero. intros; ring. Qed.

(* whatever the preconditioner: the third register is the residual, so a reported
   convergence is a small residual *)
Lemma cg_loop_residual n K M atol b k : forall prev x r,
  (forall i, (i < n)%nat -> r i = b i - mv n K x i) ->
  snd (cg_loop n (mv n K) M atol k prev x r) = true ->
  norm n (fun i => b i - mv n K (fst (cg_loop n (mv n K) M atol k prev x r)) i) < atol.
Proof.
  induction k as [|k IH]; intros prev x r Hr; cbn [cg_loop]; [discriminate|].
  destruct (Rltb (norm n r) atol) eqn:E.
  - intros _. cbn [fst]. apply Rltb_true in E. replace (norm n (fun i => b i - mv n K x i)) with (norm n r); [exact E|].
    unfold norm. f_equal. apply dot_ext; exact Hr.
  - cbv zeta. set (p := match prev with None => _ | Some _ => _ end). set (a := _ / _). apply IH.
    intros i Hi. rewrite mv_plus_scal, Hr by exact Hi. ring.
Qed.
Theorem cg_residual n K M b rtol maxiter x : cg n (mv n K) M b rtol maxiter = (x, O) ->
  (forall i, (i < n)%nat -> b i = 0 /\ x i = 0) \/
  norm n (fun i => b i - mv n K x i) < rtol * norm n b \/
  (maxiter = Some O /\ forall i, x i = 0).
Proof.
  unfold cg. destruct (Reqb (norm n b) 0) eqn:E.
  - apply Reqb_true in E. intros H. injection H as <-. left. intros i Hi. split; apply (proj1 (norm_zero_iff n b) E i Hi).
  - intros H. right. cbv zeta in H. set (m := match maxiter with None => _ | Some m => m end) in H.
    pose proof (cg_loop_residual n K M (rtol * norm n b) b m None (fun _ => 0) b) as L.
    specialize (L ltac:(intros i Hi; rewrite mv_zero; ring)).
    destruct (cg_loop _ _ _ _ _ _ _ _) as [y ok] eqn:Eq. cbn [fst snd] in L. destruct ok.
    + injection H as ->. left. now apply L.
    + right. injection H as -> Hm. unfold m in *. destruct maxiter as [m'|].
      * subst m'. split; [reflexivity|]. cbn [cg_loop] in Eq. injection Eq as <-. reflexivity.
      * assert (n = O) by lia. subst n. apply Reqb_false in E. exfalso. apply E. apply norm_zero_iff. lia.
Qed.

(* ---------- exact arithmetic: conjugacy and finite termination ---------- *)
Section Conjugate.
Variable n : nat.
Variables (K : mat) (M : vec -> vec) (W : vec -> Prop) (b : vec).
Let A := mv n K.
Definition nonzero (v : vec) : Prop := exists i, (i < n)%nat /\ v i <> 0.
(* a subspace in which the iteration stays and where both operators are symmetric and positive *)
Hypothesis Wlin : forall u v c, W u -> W v -> W (fun i => u i + c * v i).
Hypothesis Wext : forall u v, (forall i, (i < n)%nat -> u i = v i) -> W u -> W v.
Hypothesis Wb : W b.
Hypothesis WA : forall u, W u -> W (A u).
Hypothesis WM : forall u, W u -> W (M u).
Hypothesis symA : forall u v, W u -> W v -> dot n u (A v) = dot n v (A u).
Hypothesis posA : forall u, W u -> nonzero u -> 0 < dot n u (A u).
Hypothesis symM : forall u v, W u -> W v -> dot n u (M v) = dot n v (M u).
Hypothesis posM : forall u, W u -> nonzero u -> 0 < dot n u (M u).

(* x, r and the direction of step k *)
Fixpoint it (k : nat) : vec * vec * vec :=
  match k with
  | O => (fun _ => 0, b, M b)
  | S k' => let '(x, r, p) := it k' in
            let a := dot n r (M r) / dot n p (A p) in
            let r' := fun i => r i - a * A p i in
            (fun i => x i + a * p i, r', fun i => p i * (dot n r' (M r') / dot n r (M r)) + M r' i)
  end.
Definition xk k : vec := fst (fst (it k)).
Definition rk k : vec := snd (fst (it k)).
Definition pk k : vec := snd (it k).
Definition rhok k : R := dot n (rk k) (M (rk k)).
Definition alk k : R := rhok k / dot n (pk k) (A (pk k)).
Lemma xk_S k i : xk (S k) i = xk k i + alk k * pk k i.
Proof. unfold alk, rhok, xk, rk, pk. cbn [it]. destruct (it k) as [[x r] p]. reflexivity. Qed.
Lemma rk_S k i : rk (S k) i = rk k i - alk k * A (pk k) i.
Proof. unfold alk, rhok, xk, rk, pk. cbn [it]. destruct (it k) as [[x r] p]. reflexivity. Qed.
Lemma pk_S k i : pk (S k) i = pk k i * (rhok (S k) / rhok k) + M (rk (S k)) i.
Proof. unfold rhok, xk, rk, pk. cbn [it]. destruct (it k) as [[x r] p]. reflexivity. Qed.
(* the loop computes this sequence *)
Lemma loop_it atol m : forall k, cg_loop n A M atol m (Some (pk k, rhok k)) (xk (S k)) (rk (S k)) =
  match m with O => (xk (S k), false) | S m' =>
    if Rltb (norm n (rk (S k))) atol then (xk (S k), true)
    else cg_loop n A M atol m' (Some (pk (S k), rhok (S k))) (xk (S (S k))) (rk (S (S k))) end.
Proof.
  intros k. destruct m as [|m]; [reflexivity|]. cbn [cg_loop]. destruct (Rltb _ _); [reflexivity|]. cbv zeta.
  unfold xk, rk, pk, rhok, xk, rk, pk. cbn [it]. destruct (it k) as [[x r] p]. reflexivity.
Qed.
Lemma loop_start atol m : cg_loop n A M atol m None (fun _ => 0) b =
  match m with O => (xk 0, false) | S m' =>
    if Rltb (norm n (rk 0)) atol then (xk 0, true) else cg_loop n A M atol m' (Some (pk 0, rhok 0)) (xk 1) (rk 1) end.
Proof. destruct m as [|m]; [reflexivity|]. cbn [cg_loop]. reflexivity. Qed.
(* where it stops *)
Lemma loop_stops atol m : exists j, (j <= m)%nat /\ fst (cg_loop n A M atol m None (fun _ => 0) b) = xk j /\
  (snd (cg_loop n A M atol m None (fun _ => 0) b) = true -> (j < m)%nat /\ norm n (rk j) < atol) /\
  (snd (cg_loop n A M atol m None (fun _ => 0) b) = false -> j = m) /\
  (forall i, (i < j)%nat -> atol <= norm n (rk i)).
Proof.
  rewrite loop_start. destruct m as [|m].
  { exists O. cbn [fst snd]. split; [lia|split; [reflexivity|split; [discriminate|split; [reflexivity|intros; lia]]]]. }
  destruct (Rltb (norm n (rk 0)) atol) eqn:E0.
  { apply Rltb_true in E0. exists O. cbn [fst snd]. split; [lia|split; [reflexivity|split; [intros _; split; [lia|exact E0]|split; [discriminate|intros; lia]]]]. }
  apply Rltb_false in E0.
  assert (G : forall m k, (forall i, (i <= k)%nat -> atol <= norm n (rk i)) ->
    exists j, (k < j <= S k + m)%nat /\ fst (cg_loop n A M atol m (Some (pk k, rhok k)) (xk (S k)) (rk (S k))) = xk j /\
      (snd (cg_loop n A M atol m (Some (pk k, rhok k)) (xk (S k)) (rk (S k))) = true -> (j < S k + m)%nat /\ norm n (rk j) < atol) /\
      (snd (cg_loop n A M atol m (Some (pk k, rhok k)) (xk (S k)) (rk (S k))) = false -> j = S k + m)%nat /\
      (forall i, (i < j)%nat -> atol <= norm n (rk i))).
  { clear m. induction m as [|m IH]; intros k Hk; rewrite loop_it.
    - exists (S k). cbn [fst snd]. split; [lia|split; [reflexivity|split; [discriminate|split; [lia|intros i Hi; apply Hk; lia]]]].
    - destruct (Rltb (norm n (rk (S k))) atol) eqn:E.
      + apply Rltb_true in E. exists (S k). cbn [fst snd]. split; [lia|split; [reflexivity|split; [intros _; split; [lia|exact E]|split; [discriminate|]]]].
        intros i Hi. apply Hk. lia.
      + apply Rltb_false in E. destruct (IH (S k)) as (j & Hj & H1 & H2 & H3 & H4).
        { intros i Hi. destruct (Nat.eq_dec i (S k)) as [->|]; [lra|apply Hk; lia]. }
        exists j. split; [lia|split; [exact H1|split; [|split; [|exact H4]]]].
        * intros Hs. destruct (H2 Hs). split; [lia|assumption].
        * intros Hs. rewrite (H3 Hs). lia. }
  destruct (G m 0%nat) as (j & Hj & H1 & H2 & H3 & H4).
  { intros i Hi. replace i with 0%nat by lia. lra. }
  exists j. split; [lia|split; [exact H1|split; [|split; [|exact H4]]]].
  - intros Hs. destruct (H2 Hs). split; [lia|assumption].
  - intros Hs. rewrite (H3 Hs). lia.
Qed.

Lemma W_it k : W (rk k) /\ W (pk k).
Proof.
  induction k as [|k [IHr IHp]].
  - split; [exact Wb|]. apply WM. exact Wb.
  - assert (Wr : W (rk (S k))).
    { apply (Wext (fun i => rk k i + - alk k * A (pk k) i)); [intros i _; rewrite rk_S; ring|]. apply Wlin; [exact IHr|now apply WA]. }
    split; [exact Wr|]. apply (Wext (fun i => M (rk (S k)) i + (rhok (S k) / rhok k) * pk k i)); [intros i _; rewrite pk_S; ring|].
    apply Wlin; [now apply WM|exact IHp].
Qed.
Lemma dot_rS k v : dot n v (rk (S k)) = dot n v (rk k) - alk k * dot n v (A (pk k)).
Proof. rewrite <- dot_scal_r, <- dot_minus_r. apply dot_ext; [reflexivity|]. intros i _. apply rk_S. Qed.
Lemma dot_pS k v : dot n v (pk (S k)) = rhok (S k) / rhok k * dot n v (pk k) + dot n v (M (rk (S k))).
Proof.
  rewrite <- dot_scal_r, <- dot_plus_r. apply dot_ext; [reflexivity|]. intros i _. rewrite pk_S. ring.
Qed.
(* the residual register is the residual *)
Lemma rk_residual k i : (i < n)%nat -> rk k i = b i - A (xk k) i.
Proof.
  intros Hi. induction k as [|k IH].
  - change (rk 0 i) with (b i). unfold A. change (xk 0) with (fun _ : nat => 0). rewrite mv_zero. ring.
  - rewrite rk_S, IH. unfold A. rewrite (mv_ext n K (xk (S k)) (fun j => xk k j + alk k * pk k j)) by (intros; apply xk_S).
    rewrite mv_plus_scal. ring.
Qed.

Definition conj k : Prop := (forall i, (i < k)%nat -> dot n (rk k) (pk i) = 0) /\
  (forall i, (i < k)%nat -> dot n (rk k) (M (rk i)) = 0) /\
  (forall i, (i < k)%nat -> dot n (pk k) (A (pk i)) = 0).
Lemma rp_rho k : conj k -> dot n (rk k) (pk k) = rhok k.
Proof.
  intros (H1 & _). destruct k as [|k]; [reflexivity|]. rewrite dot_pS, (H1 k) by lia. unfold rhok. ring.
Qed.
Lemma nonzero_dot v w : dot n v w <> 0 -> nonzero w.
Proof.
  intros H. destruct (Classical_Prop.classic (nonzero w)) as [Hn|Hn]; [exact Hn|exfalso]. apply H. apply sum_zero. intros i Hi.
  destruct (Req_dec (w i) 0) as [->|E]; [ring|exfalso; apply Hn; now exists i].
Qed.
Lemma rho_pos k : nonzero (rk k) -> 0 < rhok k.
Proof. intros H. apply posM; [apply W_it|exact H]. Qed.
Lemma pAp_pos k : conj k -> nonzero (rk k) -> 0 < dot n (pk k) (A (pk k)).
Proof.
  intros Hc Hn. apply posA; [apply W_it|]. apply (nonzero_dot (rk k)). rewrite rp_rho by exact Hc. apply Rgt_not_eq. now apply rho_pos.
Qed.
Lemma alk_pos k : conj k -> nonzero (rk k) -> 0 < alk k.
Proof. intros Hc Hn. apply Rdiv_lt_0_compat; [now apply rho_pos|now apply pAp_pos]. Qed.
Lemma conjugacy k : (forall i, (i < k)%nat -> nonzero (rk i)) -> conj k.
Proof.
  assert (G : forall k, (forall i, (i < k)%nat -> nonzero (rk i)) -> forall j, (j <= k)%nat -> conj j).
  { clear k. induction k as [|k IH]; intros Hn j Hj.
    - replace j with 0%nat by lia. split; [|split]; intros; lia.
    - assert (IHk : forall j, (j <= k)%nat -> conj j) by (apply IH; intros; apply Hn; lia).
      destruct (Nat.eq_dec j (S k)) as [->|]; [|apply IHk; lia].
      pose proof (IHk k (le_n k)) as Ck. pose proof Ck as (C1 & C2 & C3).
      pose proof (pAp_pos k Ck (Hn k ltac:(lia))) as Hp. pose proof (rho_pos k (Hn k ltac:(lia))) as Hr.
      assert (D1 : forall i, (i < S k)%nat -> dot n (rk (S k)) (pk i) = 0).
      { intros i Hi. rewrite dot_sym, dot_rS, (dot_sym n (pk i) (rk k)). destruct (Nat.eq_dec i k) as [->|].
        - rewrite rp_rho by exact Ck. unfold alk. field. lra.
        - rewrite C1 by lia. rewrite (symA (pk i) (pk k)) by apply W_it. rewrite C3 by lia. ring. }
      assert (D2 : forall i, (i < S k)%nat -> dot n (rk (S k)) (M (rk i)) = 0).
      { intros i Hi. destruct i as [|i].
        - change (M (rk 0)) with (pk 0). apply D1. lia.
        - pose proof (dot_pS i (rk (S k))) as E. rewrite !D1 in E by lia. lra. }
      split; [exact D1|split; [exact D2|]].
      intros i Hi. rewrite dot_sym, dot_pS.
      assert (Ai : alk i <> 0).
      { apply Rgt_not_eq. apply alk_pos; [apply IHk; lia|apply Hn; lia]. }
      assert (E : dot n (M (rk (S k))) (A (pk i)) = (dot n (rk (S k)) (M (rk i)) - dot n (rk (S k)) (M (rk (S i)))) / alk i).
      { pose proof (dot_rS i (M (rk (S k)))) as E. rewrite !(dot_sym n (M (rk (S k))) (rk _)) in E.
        rewrite (symM (rk i) (rk (S k))) in E by apply W_it. rewrite (symM (rk (S i)) (rk (S k))) in E by apply W_it.
        rewrite E. field. exact Ai. }
      rewrite (dot_sym n (A (pk i)) (M _)), E, D2 by lia. rewrite (dot_sym n (A (pk i)) (pk k)).
      destruct (Nat.eq_dec i k) as [->|].
      + fold (rhok (S k)). unfold alk. field. split; lra.
      + rewrite D2 by lia. rewrite C3 by lia. field. split; [exact Ai|lra]. }
  intros Hn. now apply (G k).
Qed.
(* after at most n steps the residual is 0 *)
Lemma finite_termination : exists j, (j <= n)%nat /\ ~ nonzero (rk j).
Proof.
  destruct (Classical_Prop.classic (exists j, (j <= n)%nat /\ ~ nonzero (rk j))) as [H|H]; [exact H|exfalso].
  assert (Hn : forall j, (j <= n)%nat -> nonzero (rk j)).
  { intros j Hj. destruct (Classical_Prop.classic (nonzero (rk j))) as [Hz|Hz]; [exact Hz|exfalso; apply H; now exists j]. }
  assert (Hc : forall j, (j <= n)%nat -> conj j) by (intros; apply conjugacy; intros; apply Hn; lia).
  set (Q := fun j i => pk i j).
  assert (Inj : injective_mat n Q).
  { intros c Hz k Hk. pose proof (pAp_pos k (Hc k ltac:(lia)) (Hn k ltac:(lia))) as Hp.
    assert (E : dot n (A (pk k)) (fun j => lmv n Q c j) = c k * dot n (pk k) (A (pk k))).
    { unfold dot, lmv, Q. rewrite (sum_ext n _ (fun j => sum n (fun i => c i * (A (pk k) j * pk i j)))).
      2:{ intros j _. unfold sum at 1. rewrite <- rs_scal. apply rs_ext. intros; ring. }
      rewrite sum_swap. rewrite (sum_ext n _ (fun i => if Nat.eqb i k then c i * dot n (pk k) (A (pk k)) else 0)).
      - rewrite sum_single by exact Hk. reflexivity.
      - intros i Hi. rewrite sum_scal. fold (dot n (A (pk k)) (pk i)). rewrite dot_sym. destruct (Nat.eqb_spec i k) as [->|Hne]; [reflexivity|].
        replace (dot n (pk i) (A (pk k))) with 0; [ring|]. destruct (Nat.lt_ge_cases i k).
        + rewrite (symA (pk i) (pk k)) by apply W_it. symmetry. apply Hc; lia.
        + symmetry. apply (proj2 (proj2 (Hc i ltac:(lia)))). lia. }
    assert (Z : dot n (A (pk k)) (fun j => lmv n Q c j) = 0).
    { apply sum_zero. intros j Hj. rewrite Hz by exact Hj. ring. }
    rewrite Z in E. destruct (Rmult_integral _ _ (eq_sym E)); [assumption|lra]. }
  destruct (injective_surjective n Q Inj (rk n)) as (c & Hcn).
  assert (Z : dot n (rk n) (rk n) = 0).
  { transitivity (dot n (rk n) (fun j => lmv n Q c j)).
    - apply dot_ext; [reflexivity|]. intros i Hi. symmetry. now apply Hcn.
    - unfold dot, lmv, Q. rewrite (sum_ext n _ (fun j => sum n (fun i => c i * (rk n j * pk i j)))).
      2:{ intros j _. unfold sum at 1. rewrite <- rs_scal. apply rs_ext. intros; ring. }
      rewrite sum_swap. apply sum_zero. intros i Hi. rewrite sum_scal. fold (dot n (rk n) (pk i)).
      rewrite (proj1 (Hc n (le_n n)) i Hi). ring. }
  destruct (Hn n (le_n n)) as (i & Hi & Hne). apply Hne. now apply (dot_zero_inv n (rk n)).
Qed.
(* a first zero residual *)
Lemma first_zero : exists j, (j <= n)%nat /\ ~ nonzero (rk j) /\ forall i, (i < j)%nat -> nonzero (rk i).
Proof.
  destruct finite_termination as (j0 & Hj0 & Hz0).
  assert (G : forall m j, (j <= m)%nat -> ~ nonzero (rk j) -> exists j, (j <= m)%nat /\ ~ nonzero (rk j) /\ forall i, (i < j)%nat -> nonzero (rk i)).
  { induction m as [|m IH]; intros j Hj Hz.
    - exists j. split; [exact Hj|split; [exact Hz|intros; lia]].
    - destruct (Classical_Prop.classic (exists i, (i <= m)%nat /\ ~ nonzero (rk i))) as [(i & Hi & Hzi)|Hno].
      + destruct (IH i Hi Hzi) as (j' & A1 & A2 & A3). exists j'. split; [lia|split; assumption].
      + exists j. split; [exact Hj|split; [exact Hz|]]. intros i Hi.
        destruct (Classical_Prop.classic (nonzero (rk i))) as [Y|N]; [exact Y|exfalso; apply Hno; exists i; split; [lia|exact N]]. }
  destruct (G n j0 Hj0 Hz0) as (j & ?). now exists j.
Qed.
Lemma not_nonzero_norm v : ~ nonzero v -> norm n v = 0.
Proof.
  intros H. apply norm_zero_iff. intros i Hi. destruct (Req_dec (v i) 0) as [E|E]; [exact E|exfalso; apply H; now exists i].
Qed.
Lemma nonzero_norm v : 0 < norm n v -> nonzero v.
Proof.
  intros H. destruct (Classical_Prop.classic (nonzero v)) as [Y|N]; [exact Y|]. apply not_nonzero_norm in N. lra.
Qed.
(* enough steps: convergence is reported *)
Lemma converges atol m : 0 < atol -> (n < m)%nat -> snd (cg_loop n A M atol m None (fun _ => 0) b) = true.
Proof.
  intros Ha Hm. destruct (loop_stops atol m) as (j & Hj & _ & _ & Hf & Hge).
  destruct (snd (cg_loop n A M atol m None (fun _ => 0) b)) eqn:E; [reflexivity|exfalso].
  rewrite (Hf eq_refl) in *. destruct finite_termination as (i & Hi & Hz). specialize (Hge i ltac:(lia)).
  rewrite (not_nonzero_norm _ Hz) in Hge. lra.
Qed.
(* the iterate is orthogonal to the residual; the work of b grows *)
Lemma xk_orth j k : (j <= k)%nat -> conj k -> dot n (rk k) (xk j) = 0.
Proof.
  intros Hj (C1 & _). induction j as [|j IH].
  - apply sum_zero. intros i _. change (xk 0 i) with 0. ring.
  - rewrite (dot_ext n (rk k) (xk (S j)) (rk k) (fun i => xk j i + alk j * pk j i)) by (intros; try reflexivity; apply xk_S).
    rewrite dot_plus_r, dot_scal_r, IH, C1 by lia. ring.
Qed.
Lemma b_pk k : (forall i, (i < k)%nat -> nonzero (rk i)) -> dot n b (pk k) = rhok k.
Proof.
  intros Hn. pose proof (conjugacy k Hn) as Ck. rewrite <- (rp_rho k Ck).
  assert (G : forall j, (j <= k)%nat -> dot n (pk k) (rk j) = dot n (pk k) b).
  { induction j as [|j IH]; intros Hj; [reflexivity|]. rewrite dot_rS, IH by lia. rewrite (proj2 (proj2 Ck) j) by lia. ring. }
  rewrite dot_sym, <- (G k (le_n k)). apply dot_sym.
Qed.
Lemma work_step k : (forall i, (i <= k)%nat -> nonzero (rk i)) -> dot n b (xk k) < dot n b (xk (S k)).
Proof.
  intros Hn. rewrite (dot_ext n b (xk (S k)) b (fun i => xk k i + alk k * pk k i)) by (intros; try reflexivity; apply xk_S).
  rewrite dot_plus_r, dot_scal_r, b_pk by (intros; apply Hn; lia).
  pose proof (alk_pos k ltac:(apply conjugacy; intros; apply Hn; lia) (Hn k (le_n k))).
  pose proof (rho_pos k (Hn k (le_n k))). pose proof (Rmult_lt_0_compat _ _ H H0). lra.
Qed.
Lemma work_mono j k : (j <= k)%nat -> (forall i, (i < k)%nat -> nonzero (rk i)) -> dot n b (xk j) <= dot n b (xk k).
Proof.
  induction k as [|k IH]; intros Hj Hn; [replace j with 0%nat by lia; lra|].
  destruct (Nat.eq_dec j (S k)) as [->|]; [lra|]. pose proof (IH ltac:(lia) ltac:(intros; apply Hn; lia)).
  pose proof (work_step k ltac:(intros; apply Hn; lia)). lra.
Qed.
Lemma W_xk k : W (xk k).
Proof.
  induction k as [|k IH].
  - apply (Wext (fun i => b i + -1 * b i)); [intros i _; change (xk 0 i) with 0; ring|]. apply Wlin; exact Wb.
  - apply (Wext (fun i => xk k i + alk k * pk k i)); [intros; symmetry; apply xk_S|]. apply Wlin; [exact IH|apply W_it].
Qed.
(* distance to the exact value, in the energy *)
Lemma work_gap k u : W u -> (forall i, (i < n)%nat -> A u i = b i) -> (forall i, (i < k)%nat -> nonzero (rk i)) ->
  dot n b u - dot n b (xk k) = dot n (fun i => u i - xk k i) (A (fun i => u i - xk k i)).
Proof.
  intros Wu Hu Hn. pose proof (conjugacy k Hn) as Ck.
  assert (Rk : forall i, (i < n)%nat -> A (fun i => u i - xk k i) i = rk k i).
  { intros i Hi. unfold A. rewrite mv_minus. fold A. rewrite Hu, rk_residual by exact Hi. reflexivity. }
  rewrite (dot_ext n (fun i => u i - xk k i) (A _) (fun i => u i - xk k i) (rk k)) by (try reflexivity; exact Rk).
  rewrite (dot_sym n (fun i => u i - xk k i)), dot_minus_r, (xk_orth k k (le_n k) Ck), Rminus_0_r.
  rewrite (dot_sym n (rk k) u). rewrite (dot_ext n u (rk k) u (fun i => b i - A (xk k) i)) by (intros; try reflexivity; now apply rk_residual).
  rewrite dot_minus_r, (symA u (xk k)) by (try exact Wu; apply W_xk).
  rewrite (dot_ext n (xk k) (A u) (xk k) b) by (intros; try reflexivity; now apply Hu). rewrite (dot_sym n u b), (dot_sym n (xk k) b). ring.
Qed.
End Conjugate.
