(* C90: the element based Helmholtz filter as an object. *)
From Coq Require Import Lia String.
From Verif Require Import Base Sums LinAlg Mesh_model Fea_model Fea_spec Fea_proofs CG_model CG_proofs
  Filter_model Adj_model Adj_props EHelm_model EHelm_props EFilt_model.
Open Scope R_scope.
Open Scope list_scope.

(* ---------- specification ---------- *)
Definition known_option (s : string) : Prop := s = "spsolve"%string \/ s = "cg_jacobi"%string \/ s = "cg_pyamg"%string.
(* the radius asked for last, the accepted option asked for last *)
Definition last_radius (r0 : R) (ops : list fop) : R :=
  fold_left (fun r o => match o with UpdateRadius r' => r' | _ => r end) ops r0.
Definition last_option (s0 : string) (ops : list fop) : string :=
  fold_left (fun s o => match o with
    | Preprocess (Some s') => if existsb (String.eqb s') ["cg_jacobi"; "cg_pyamg"; "spsolve"]%string then s' else s
    | _ => s end) ops s0.
(* a direct solver is exact where the system has one solution *)
Definition lu_exact (n : nat) (lu_solve : nat -> mat -> vec -> vec) : Prop := forall A b, injective_mat n A ->
  forall i, (i < n)%nat -> mv n A (lu_solve n A b) i = b i.
(* how far x is from satisfying the filter equation for density rho *)
Definition filter_residual (m : emesh) (r : R) (rho x : vec) : R :=
  norm (nel m) (fun i => vnorm m i * rho i - apply m r x i).
Definition weighted (m : emesh) (rho : vec) : vec := fun i => vnorm m i * rho i.

(* ---------- lemmas ---------- *)
Lemma known_in s : existsb (String.eqb s) ["cg_jacobi"; "cg_pyamg"; "spsolve"]%string = true <-> known_option s.
Proof.
  cbn [existsb]. rewrite !Bool.orb_true_iff, !String.eqb_eq. unfold known_option. intuition discriminate.
Qed.
Lemma unknown_in s : existsb (String.eqb s) ["cg_jacobi"; "cg_pyamg"; "spsolve"]%string = false <-> ~ known_option s.
Proof. rewrite <- Bool.not_true_iff_false, known_in. tauto. Qed.

(* the solver of the option in force was built from the current matrix *)
Definition fresh (f : fobj) : Prop :=
  known_option (o_opt f) /\ o_A f = Amat (o_mesh f) (o_radius f) /\ o_V f = vnorm (o_mesh f) /\
  (o_opt f = "spsolve"%string -> o_lu f = Some (o_A f)) /\
  (o_opt f = "cg_pyamg"%string -> o_ml f = Some (o_A f)) /\
  (o_opt f = "cg_jacobi"%string -> o_M f = Some (fun i => / (o_A f i i + / 100000000)) /\ o_maxiter f <> None).
Lemma build_fresh f : known_option (o_opt f) -> o_A f = Amat (o_mesh f) (o_radius f) -> o_V f = vnorm (o_mesh f) -> fresh (build f).
Proof.
  intros Hk HA HV. destruct f as [m r A V s lu M ml rt mi]. cbn [o_opt o_A o_V o_mesh o_radius] in *.
  unfold build. cbn [o_opt]. destruct Hk as [-> |[-> | -> ]]; cbn [String.eqb Ascii.eqb Bool.eqb];
  (split; [cbn; unfold known_option; tauto|split; [exact HA|split; [exact HV|]]]);
  cbn [create_solver create_linear_operator create_amgsolver o_opt o_lu o_ml o_M o_A o_maxiter o_mesh];
  repeat split; intros; try discriminate.
Qed.
Lemma preprocess_fresh s f : fresh f -> fresh (fst (preprocess s f)).
Proof.
  intros Hf. pose proof Hf as (Hk & HA & HV & _). destruct s as [s|]; cbn [preprocess].
  - destruct (existsb _ _) eqn:E; cbn [fst]; [|exact Hf]. apply known_in in E. now apply build_fresh.
  - cbn [fst]. now apply build_fresh.
Qed.
Lemma build_kept f : o_mesh (build f) = o_mesh f /\ o_radius (build f) = o_radius f /\ o_opt (build f) = o_opt f.
Proof. unfold build. repeat (destruct (String.eqb (o_opt f) _); [split; [reflexivity|split; reflexivity]|]). split; [reflexivity|split; reflexivity]. Qed.
Lemma preprocess_kept s f : o_mesh (fst (preprocess s f)) = o_mesh f /\ o_radius (fst (preprocess s f)) = o_radius f /\
  o_opt (fst (preprocess s f)) = match s with Some s' => if existsb (String.eqb s') ["cg_jacobi"; "cg_pyamg"; "spsolve"]%string then s' else o_opt f | None => o_opt f end.
Proof.
  destruct s as [s|]; cbn [preprocess].
  - destruct (existsb _ _); cbn [fst]; [|repeat split]. destruct (build_kept (set_option s f)) as (A & B & C). rewrite A, B, C. repeat split.
  - cbn [fst]. apply build_kept.
Qed.
Lemma fstep_fresh mask f o : fresh f -> fresh (fstep mask f o).
Proof.
  intros Hf. pose proof Hf as (Hk & HA & HV & H1 & H2 & H3). destruct o as [r|s| | |rt k|v|v]; cbn [fstep]; try exact Hf.
  - unfold update_radius, update_matrices. apply known_in in Hk as Hk'. cbn [preprocess]. rewrite Hk'. cbn [fst]. now apply build_fresh.
  - now apply preprocess_fresh.
  - split; [exact Hk|split; [exact HA|split; [exact HV|]]]. cbn. split; [reflexivity|split; assumption].
  - split; [exact Hk|split; [exact HA|split; [exact HV|]]]. cbn. split; [assumption|split; [reflexivity|assumption]].
  - split; [exact Hk|split; [exact HA|split; [exact HV|]]]. cbn [create_linear_operator o_opt o_lu o_ml o_M o_A o_maxiter].
    split; [assumption|split; [assumption|]]. intros _. split; [reflexivity|discriminate].
Qed.
Lemma fstep_kept mask f o : known_option (o_opt f) -> o_mesh (fstep mask f o) = o_mesh f /\
  o_radius (fstep mask f o) = last_radius (o_radius f) [o] /\ o_opt (fstep mask f o) = last_option (o_opt f) [o].
Proof.
  intros Hk. destruct o as [r|s| | |rt k|v|v]; cbn [fstep last_radius last_option fold_left]; try (split; [reflexivity|split; reflexivity]).
  - unfold update_radius, update_matrices. destruct (preprocess_kept (Some (o_opt f)) (mkF (o_mesh f) r (Amat (o_mesh f) r) (vnorm (o_mesh f)) (o_opt f) (o_lu f) (o_M f) (o_ml f) (o_rtol f) (o_maxiter f))) as (A & B & C).
    split; [exact A|split; [exact B|]]. rewrite C. apply known_in in Hk. now rewrite Hk.
  - apply preprocess_kept.
Qed.
Lemma run_fresh mask ops : forall f, fresh f -> let f' := fold_left (fstep mask) ops f in
  fresh f' /\ o_mesh f' = o_mesh f /\ o_radius f' = last_radius (o_radius f) ops /\ o_opt f' = last_option (o_opt f) ops.
Proof.
  induction ops as [|o ops IH]; intros f Hf; cbv zeta; [split; [exact Hf|split; [reflexivity|split; reflexivity]]|].
  cbn [fold_left]. destruct (IH (fstep mask f o) (fstep_fresh mask f o Hf)) as (A & B & C & D).
  destruct (fstep_kept mask f o (proj1 Hf)) as (A' & B' & C'). rewrite A', B', C' in *. split; [exact A|split; [exact B|split; [exact C|exact D]]].
Qed.
Lemma from_defaults_fresh m r mask s f : from_defaults m r mask s = Ok f ->
  fresh f /\ o_mesh f = m /\ o_radius f = r /\ o_opt f = s.
Proof.
  unfold from_defaults, update_matrices. cbn [preprocess]. destruct (existsb _ _) eqn:E; [|discriminate].
  intros H. injection H as <-. apply known_in in E. split; [now apply build_fresh|].
  destruct (build_kept (set_option s (construct m r (Amat m r) (vnorm m) s))) as (A & B & C). rewrite A, B, C. repeat split.
Qed.

Lemma injective_A m r : sound m -> injective_mat (nel m) (Amat m r).
Proof.
  intros Hs u Hu i Hi. assert (H : eh_forward m r (fun _ => 0) u) by (intros k Hk; rewrite Rmult_0_r; exact (Hu k Hk)).
  pose proof (C79_maximum_principle m r _ _ 0 0 Hs H) as Hm. specialize (Hm ltac:(intros; lra) i Hi). lra.
Qed.
Lemma A_symmetric m r : forall u v, dot (nel m) u (mv (nel m) (Amat m r) v) = dot (nel m) v (mv (nel m) (Amat m r) u).
Proof.
  assert (E : forall u v, dot (nel m) u (mv (nel m) (Amat m r) v) = rsum (map (fun i => vnorm m i * (u i * v i)) (seq 0 (nel m))) +
     r ^ 2 * rsum (map (fun i => u i * rsum (map (fun j => coef m r i j * (v i - v j)) (seq 0 (nel m)))) (seq 0 (nel m)))).
  { intros u v. rewrite <- rs_scal, <- rs_plus. apply rs_ext. intros i Hi. apply in_seq in Hi.
    change (mv (nel m) (Amat m r) v i) with (apply m r v i). rewrite apply_row, exchange_coef by lia. ring. }
  intros u v. rewrite !E. rewrite (pair_antisym (nel m) (coef m r) v u (coef_sym m r)). f_equal. apply rs_ext. intros; ring.
Qed.
Lemma coef_nonneg m r i j : 0 <= coef m r i j.
Proof. unfold coef. apply Rmult_le_pos; [apply pos_INR|apply weight_nonneg]. Qed.
Lemma A_positive m r u : sound m -> nonzero (nel m) u -> 0 < dot (nel m) u (mv (nel m) (Amat m r) u).
Proof.
  intros Hs (k & Hk & Hn).
  assert (E : dot (nel m) u (mv (nel m) (Amat m r) u) = rsum (map (fun i => vnorm m i * (u i * u i)) (seq 0 (nel m))) +
     r ^ 2 * rsum (map (fun i => u i * rsum (map (fun j => coef m r i j * (u i - u j)) (seq 0 (nel m)))) (seq 0 (nel m)))).
  { rewrite <- rs_scal, <- rs_plus. apply rs_ext. intros i Hi. apply in_seq in Hi.
    change (mv (nel m) (Amat m r) u i) with (apply m r u i). rewrite apply_row, exchange_coef by lia. ring. }
  rewrite E. apply Rplus_lt_le_0_compat.
  - apply (rs_pos _ _ k); [|apply in_seq; lia|].
    + intros i Hi. apply in_seq in Hi. apply Rmult_le_pos; [left; apply vnorm_pos; [exact Hs|lia]|apply Rle_0_sqr].
    + apply Rmult_lt_0_compat; [now apply vnorm_pos|now apply Rlt_0_sqr].
  - apply Rmult_le_pos; [apply pow2_ge_0|].
    set (n := nel m). set (c := coef m r).
    set (S1 := rsum (map (fun i => rsum (map (fun j => c i j * u i * (u i - u j)) (seq 0 n))) (seq 0 n))).
    set (S2 := rsum (map (fun i => rsum (map (fun j => c i j * u j * (u j - u i)) (seq 0 n))) (seq 0 n))).
    assert (ES : S1 = S2).
    { unfold S1, S2. rewrite rs_swap. apply rs_ext. intros i _. apply rs_ext. intros j _. unfold c. rewrite coef_sym. ring. }
    assert (ED : S1 + S2 = rsum (map (fun i => rsum (map (fun j => c i j * (u i - u j) ^ 2) (seq 0 n))) (seq 0 n))).
    { unfold S1, S2. rewrite <- rs_plus. apply rs_ext. intros i _. rewrite <- rs_plus. apply rs_ext. intros j _. ring. }
    assert (0 <= S1 + S2).
    { rewrite ED. apply rs_nonneg. intros i _. apply rs_nonneg. intros j _. apply Rmult_le_pos; [apply coef_nonneg|apply pow2_ge_0]. }
    replace (rsum (map (fun i => u i * rsum (map (fun j => c i j * (u i - u j)) (seq 0 n))) (seq 0 n))) with S1; [lra|].
    unfold S1. apply rs_ext. intros i _. rewrite <- rs_scal. apply rs_ext. intros; ring.
Qed.

Lemma Rabs_le_inv x a : Rabs x <= a -> - a <= x <= a.
Proof. intros H. pose proof (Rle_abs x). pose proof (Rle_abs (- x)). rewrite Rabs_Ropp in *. lra. Qed.

(* ---------- C90 ---------- *)
(* Whatever was called before, the result belongs to the radius and the option that were
   asked for last. *)
Theorem C90_current_radius lu amg m r mask s ops rho f0 : lu_exact (nel m) lu -> sound m ->
  from_defaults m r mask s = Ok f0 ->
  let f := fold_left (fstep mask) ops f0 in
  let r' := last_radius r ops in
  o_opt f = last_option s ops /\
  (last_option s ops = "spsolve"%string -> exists x, forward lu amg f rho = Ok (Some x) /\ eh_forward m r' rho x) /\
  (last_option s ops = "cg_jacobi"%string ->
     (forall x, forward lu amg f rho = Ok (Some x) -> 0 <= o_rtol f ->
        filter_residual m r' rho x <= o_rtol f * norm (nel m) (weighted m rho) \/ (o_maxiter f = Some 0%nat /\ forall i, x i = 0)) /\
     (forall e, forward lu amg f rho = Err e -> e = RuntimeError) /\ forward lu amg f rho <> Ok None) /\
  (last_option s ops = "cg_pyamg"%string -> forward lu amg f rho = Ok (Some (amg (nel m) (Amat m r') (weighted m rho) (o_rtol f)))).
Proof.
  intros Hlu Hs H0f f r'. destruct (from_defaults_fresh _ _ _ _ _ H0f) as (Hf0 & Em & Er & Es).
  destruct (run_fresh mask ops f0 Hf0) as (Hf & Fm & Fr & Fo). fold f in Hf, Fm, Fr, Fo. rewrite Em in Fm. rewrite Er in Fr. rewrite Es in Fo.
  fold r' in Fr. clearbody f. destruct Hf as (Hk & HA & HV & H1 & H2 & H3). rewrite Fm, Fr in *. rewrite <- Fo.
  assert (Rh : rhs f rho = weighted m rho) by (unfold rhs, weighted; now rewrite HV).
  split; [reflexivity|]. unfold forward. split; [|split]; intros E; rewrite E; cbn [String.eqb Ascii.eqb Bool.eqb].
  - unfold apply_lu. rewrite (H1 E), HA, Rh, Fm. eexists. split; [reflexivity|]. intros i Hi.
    apply (Hlu (Amat m r')); [now apply injective_A|exact Hi].
  - destruct (H3 E) as (HM & Hmi). unfold apply_cg. rewrite HM, Fm, HA, Rh. destruct (o_maxiter f) as [k|]; [|now destruct Hmi].
    destruct (cg _ _ _ _ _ _) as [y info] eqn:Ecg. destruct (Nat.ltb_spec 0 info) as [Hlt|Hge].
    + split; [discriminate|split; [|discriminate]]. intros e He. now injection He.
    + split; [|split; discriminate]. intros x Hx Hrt. injection Hx as <-. assert (info = 0%nat) by lia. subst info.
      destruct (cg_residual _ _ _ _ _ _ _ Ecg) as [Z|[L|(Ek & Z)]].
      * left. replace (norm (nel m) (weighted m rho)) with 0 by (symmetry; apply norm_zero_iff; intros; now apply Z).
        rewrite Rmult_0_r. right. apply norm_zero_iff. intros i Hi. destruct (Z i Hi) as (Zb & _). unfold weighted in Zb. rewrite Zb.
        change (apply m r' y i) with (mv (nel m) (Amat m r') y i). rewrite (mv_ext _ _ _ (fun _ => 0)) by (intros; now apply Z). rewrite mv_zero. ring.
      * left. left. exact L.
      * right. split; [exact Ek|exact Z].
  - unfold apply_amg. now rewrite (H2 E), HA, Rh, Fm.
Qed.
Print Assumptions C90_current_radius.

(* update_radius leaves the object as if it had been created with that radius *)
Theorem C90_update_is_creation lu amg m r mask s ops r' f0 f1 rho : from_defaults m r mask s = Ok f0 ->
  from_defaults m r' mask (last_option s ops) = Ok f1 ->
  let f := fold_left (fstep mask) (ops ++ [UpdateRadius r']) f0 in
  (last_option s ops = "cg_pyamg"%string -> o_rtol f = 1 / 100000) ->
  forward lu amg f rho = forward lu amg f1 rho /\ gradient lu amg f rho = gradient lu amg f1 rho.
Proof.
  intros H0f H1f f. destruct (from_defaults_fresh _ _ _ _ _ H0f) as (Hf0 & Em & Er & Es).
  destruct (run_fresh mask ops f0 Hf0) as (Hf & Fm & Fr & Fo). unfold f. rewrite fold_left_app. cbn [fold_left]. clear f.
  set (g := fold_left (fstep mask) ops f0) in *. rewrite Em in Fm. rewrite Es in Fo. clearbody g.
  destruct g as [gm gr gA gV gs glu gM gml grt gmi]. cbn [o_mesh o_opt] in Fm, Fo. subst gm gs.
  unfold from_defaults, update_matrices, construct in H1f. cbn [preprocess] in H1f.
  destruct (existsb _ _) eqn:Ek in H1f; [|discriminate]. injection H1f as <-. cbn [fstep update_radius update_matrices o_mesh o_opt o_lu o_M o_ml o_rtol o_maxiter].
  unfold update_radius, update_matrices. cbn [o_mesh o_opt o_lu o_M o_ml o_rtol o_maxiter preprocess]. rewrite Ek. cbn [fst].
  apply known_in in Ek. unfold set_option. cbn [o_mesh o_radius o_A o_V o_opt o_lu o_M o_ml o_rtol o_maxiter].
  intros Hrt. unfold build in *. cbn [o_opt] in *.
  destruct Ek as [E|[E|E]]; rewrite E in *; cbn [String.eqb Ascii.eqb Bool.eqb] in *; unfold forward, gradient;
  cbn [create_solver create_linear_operator create_amgsolver o_mesh o_radius o_A o_V o_opt o_lu o_M o_ml o_rtol o_maxiter String.eqb Ascii.eqb Bool.eqb] in *.
  - split; reflexivity.
  - split; reflexivity.
  - specialize (Hrt eq_refl). subst grt. split; reflexivity.
Qed.
Print Assumptions C90_update_is_creation.

(* A small residual is a small error in every element; densities leave their range by at
   most that much. *)
Theorem C90_accuracy m r rho x y v0 : sound m -> eh_forward m r rho y -> 0 < v0 -> (forall i, (i < nel m)%nat -> v0 <= vnorm m i) ->
  (forall i, (i < nel m)%nat -> Rabs (x i - y i) <= filter_residual m r rho x / v0) /\
  (forall lo hi, (forall i, (i < nel m)%nat -> lo <= rho i <= hi) -> forall i, (i < nel m)%nat ->
     lo - filter_residual m r rho x / v0 <= x i <= hi + filter_residual m r rho x / v0).
Proof.
  intros Hs Hy Hv Hmin.
  assert (B : forall i, (i < nel m)%nat -> Rabs (x i - y i) <= filter_residual m r rho x / v0).
  { set (res := fun i => vnorm m i * rho i - apply m r x i).
    assert (F : eh_forward m r (fun i => - res i / vnorm m i) (fun i => x i - y i)).
    { intros i Hi. unfold apply. rewrite (rs_ext _ (fun j => Amat m r i j * x j - Amat m r i j * y j)) by (intros; ring).
      rewrite rs_minus. change (apply m r x i - apply m r y i = vnorm m i * (- res i / vnorm m i)). rewrite (Hy i Hi). unfold res. field.
      pose proof (vnorm_pos m i Hs Hi). lra. }
    assert (N : forall i, (i < nel m)%nat -> Rabs (res i) <= filter_residual m r rho x).
    { intros i Hi. unfold filter_residual, norm. rewrite <- sqrt_Rsqr_abs. apply sqrt_le_1_alt.
      apply (rs_ge_elem (fun i => res i * res i) (seq 0 (nel m)) i); [intros; apply Rle_0_sqr|apply in_seq; lia]. }
    intros i Hi. apply Rabs_le. set (d := filter_residual m r rho x / v0).
    assert (Hd : 0 <= filter_residual m r rho x) by apply norm_nonneg.
    apply (C79_maximum_principle m r _ _ (- d) d Hs F); [|exact Hi]. intros k Hk.
    pose proof (vnorm_pos m k Hs Hk) as Hvk. specialize (Hmin k Hk). specialize (N k Hk).
    assert (Q : Rabs (- res k / vnorm m k) <= d).
    { unfold Rdiv. rewrite Rabs_mult, Rabs_Ropp, (Rabs_right (/ vnorm m k)) by (left; now apply Rinv_0_lt_compat).
      apply Rmult_le_compat; [apply Rabs_pos|left; now apply Rinv_0_lt_compat|exact N|now apply Rinv_le_contravar]. }
    apply Rabs_le_inv in Q. exact Q. }
  split; [exact B|]. intros lo hi Hr i Hi. specialize (B i Hi). apply Rabs_le_inv in B.
  pose proof (C79_maximum_principle m r rho y lo hi Hs Hy Hr i Hi). lra.
Qed.
Print Assumptions C90_accuracy.

(* More steps allowed than elements: the conjugate gradients never fail. *)
Theorem C90_converges lu amg m r mask s ops rho f0 k : sound m -> from_defaults m r mask s = Ok f0 ->
  let f := fold_left (fstep mask) ops f0 in
  last_option s ops = "cg_jacobi"%string -> 0 < o_rtol f -> o_maxiter f = Some k -> (nel m < k)%nat ->
  exists x, forward lu amg f rho = Ok (Some x) /\
    filter_residual m (last_radius r ops) rho x <= o_rtol f * norm (nel m) (weighted m rho).
Proof.
  intros Hs H0f f Ho Hrt Hk Hn. destruct (from_defaults_fresh _ _ _ _ _ H0f) as (Hf0 & Em & Er & Es).
  destruct (run_fresh mask ops f0 Hf0) as (Hf & Fm & Fr & Fo). fold f in Hf, Fm, Fr, Fo. rewrite Em in Fm. rewrite Er in Fr. rewrite Es, Ho in Fo.
  clearbody f. destruct Hf as (_ & HA & HV & _ & _ & H3). destruct (H3 Fo) as (HM & _). rewrite Fm, Fr in *.
  assert (Rh : rhs f rho = weighted m rho) by (unfold rhs, weighted; now rewrite HV).
  unfold forward. rewrite Fo. cbn [String.eqb Ascii.eqb Bool.eqb]. unfold apply_cg. rewrite Hk, HM, Fm, HA, Rh.
  set (r' := last_radius r ops) in *. set (n := nel m) in *. set (Mv := fun (w : vec) (i : nat) => _).
  assert (T : forall i, (i < n)%nat -> 0 < / (Amat m r' i i + / 100000000)).
  { intros i Hi. apply Rinv_0_lt_compat.
    assert (0 < Amat m r' i i); [|pose proof (Rinv_0_lt_compat 100000000 ltac:(lra)); lra].
    set (e := fun j => if Nat.eqb j i then 1 else 0).
    assert (Q : dot n e (mv n (Amat m r') e) = Amat m r' i i).
    { unfold dot, e. rewrite (sum_ext n _ (fun j => if Nat.eqb j i then mv n (Amat m r') e j else 0)).
      - rewrite sum_single by exact Hi. unfold mv. rewrite <- (sum_single n i (fun j => Amat m r' i j) Hi). apply sum_ext. intros j _.
        unfold e. destruct (Nat.eqb j i); ring.
      - intros j _. destruct (Nat.eqb j i); unfold e; ring. }
    rewrite <- Q. apply A_positive; [exact Hs|]. exists i. split; [exact Hi|]. unfold e. rewrite Nat.eqb_refl. lra. }
  destruct (cg n (mv n (Amat m r')) Mv (weighted m rho) (o_rtol f) (Some k)) as [x info] eqn:E.
  assert (info = 0%nat).
  { unfold cg in E. destruct (Reqb _ _) eqn:Eb in E; [now injection E|]. apply Reqb_false in Eb. cbv zeta in E.
    pose proof (norm_nonneg n (weighted m rho)).
    pose proof (converges n (Amat m r') Mv (fun _ => True) (weighted m rho)) as C.
    specialize (C ltac:(auto) ltac:(auto) I ltac:(auto) ltac:(auto)).
    specialize (C ltac:(intros; apply A_symmetric)). specialize (C ltac:(intros; now apply A_positive)).
    specialize (C ltac:(intros; apply sum_ext; intros; unfold Mv; ring)).
    assert (PM : forall u, True -> nonzero n u -> 0 < dot n u (Mv u)).
    { intros u _ (i & Hi & Hne). apply (rs_pos _ _ i); [|apply in_seq; lia|].
      - intros j Hj. apply in_seq in Hj. unfold Mv. pose proof (T j ltac:(lia)).
        replace (u j * (/ (Amat m r' j j + / 100000000) * u j)) with (/ (Amat m r' j j + / 100000000) * (u j * u j)) by ring.
        apply Rmult_le_pos; [lra|apply Rle_0_sqr].
      - unfold Mv. replace (u i * (/ (Amat m r' i i + / 100000000) * u i)) with (/ (Amat m r' i i + / 100000000) * (u i * u i)) by ring.
        apply Rmult_lt_0_compat; [now apply T|now apply Rlt_0_sqr]. }
    specialize (C PM (o_rtol f * norm n (weighted m rho)) k ltac:(apply Rmult_lt_0_compat; lra) Hn).
    destruct (cg_loop _ _ _ _ _ _ _ _) as [y ok]. cbn [snd] in C. subst ok. now injection E. }
  subst info. cbn [Nat.ltb Nat.leb]. exists x. split; [reflexivity|].
  destruct (cg_residual _ _ _ _ _ _ _ E) as [Z|[L|(Ek & Z)]].
  - replace (norm n (weighted m rho)) with 0 by (symmetry; apply norm_zero_iff; intros; now apply Z).
    rewrite Rmult_0_r. right. apply norm_zero_iff. intros i Hi. destruct (Z i Hi) as (Zb & _). unfold weighted in Zb. rewrite Zb.
    change (apply m r' x i) with (mv n (Amat m r') x i). rewrite (mv_ext _ _ _ (fun _ => 0)) by (intros; now apply Z). rewrite mv_zero. ring.
  - left. exact L.
  - injection Ek as ->. lia.
Qed.
Print Assumptions C90_converges.

(* forward and gradient are the same map *)
Theorem C90_gradient_is_forward lu amg f v : known_option (o_opt f) -> gradient lu amg f v = forward lu amg f v.
Proof. intros [E|[E|E]]; unfold gradient, forward; rewrite E; reflexivity. Qed.
Print Assumptions C90_gradient_is_forward.

(* an option that is not one of the three is refused by every call that takes one, and the
   object stays as it was *)
Theorem C90_options_checked m r mask s f : ~ known_option s ->
  from_defaults m r mask s = Err ValueError /\ preprocess (Some s) f = (f, Some ValueError).
Proof.
  intros H. apply unknown_in in H. unfold from_defaults, update_matrices. cbn [preprocess]. rewrite H. split; reflexivity.
Qed.
Print Assumptions C90_options_checked.
Theorem C90_options_accepted m r mask s : known_option s -> exists f, from_defaults m r mask s = Ok f.
Proof. intros H. apply known_in in H. unfold from_defaults, update_matrices. cbn [preprocess]. rewrite H. now eexists. Qed.
Print Assumptions C90_options_accepted.

(* FINDING: the constructor (and assignment) accept anything: forward then returns None
   where gradient raises *)
Theorem C90_unchecked_option_refuted lu amg m r A V s v : ~ known_option s ->
  forward lu amg (construct m r A V s) v = Ok None /\ gradient lu amg (construct m r A V s) v = Err ValueError.
Proof.
  intros H. unfold forward, gradient, construct. cbn [o_opt].
  destruct (String.eqb_spec s "spsolve") as [->|_]; [exfalso; apply H; now left|].
  destruct (String.eqb_spec s "cg_jacobi") as [->|_]; [exfalso; apply H; now (right; left)|].
  destruct (String.eqb_spec s "cg_pyamg") as [->|_]; [exfalso; apply H; now (right; right)|]. split; reflexivity.
Qed.
Print Assumptions C90_unchecked_option_refuted.

(* FINDING: assigning solver_option switches to the solver left from an earlier radius *)
Theorem C90_stale_solver_refuted lu amg m r1 r2 mask f0 rho : lu_exact (nel m) lu -> sound m ->
  from_defaults m r1 mask "spsolve" = Ok f0 ->
  let f := set_option "spsolve" (fold_left (fstep mask) [Preprocess (Some "cg_jacobi"%string); UpdateRadius r2] f0) in
  o_radius f = r2 /\ exists x, forward lu amg f rho = Ok (Some x) /\ eh_forward m r1 rho x.
Proof.
  intros Hlu Hs H0f. unfold from_defaults, update_matrices, construct in H0f. cbn in H0f. injection H0f as <-.
  cbv zeta. split; [reflexivity|]. unfold forward. cbn [set_option o_opt String.eqb Ascii.eqb Bool.eqb].
  unfold apply_lu. cbn. eexists. split; [reflexivity|]. intros i Hi.
  apply (Hlu (Amat m r1)); [now apply injective_A|exact Hi].
Qed.
Print Assumptions C90_stale_solver_refuted.

(* FINDING: the step limit is a quarter of the number of elements.  With fewer than 4
   elements it is 0 and every density is filtered to 0, without any error; with 4 to 7
   it is 1 and every non-zero density raises. *)
Theorem C90_small_mesh_refuted lu amg m r mask f rho : from_defaults m r mask "cg_jacobi" = Ok f ->
  norm (nel m) (weighted m rho) <> 0 ->
  ((nel m < 4)%nat -> exists x, forward lu amg f rho = Ok (Some x) /\ forall i, x i = 0) /\
  ((4 <= nel m < 8)%nat -> forward lu amg f rho = Err RuntimeError).
Proof.
  intros H Hn. set (X := mkF m r (Amat m r) (vnorm m) "cg_jacobi" None (Some (fun i => / (Amat m r i i + / 100000000))) None (1 / 100000) (Some (Nat.div (nel m) 4))).
  assert (E : from_defaults m r mask "cg_jacobi" = Ok X) by reflexivity. rewrite E in H.
  assert (Ef : f = X) by (apply (f_equal (fun z => match z with Ok a => a | Err _ => X end)) in H; symmetry; exact H). rewrite Ef. clear E H Ef f.
  unfold forward, X. cbn [o_opt String.eqb Ascii.eqb Bool.eqb]. unfold apply_cg.
  cbn [o_maxiter o_mesh o_A o_M o_rtol].
  change (rhs _ rho) with (weighted m rho). apply Reqb_false in Hn as Hb.
  pose proof (norm_nonneg (nel m) (weighted m rho)). unfold cg. rewrite Hb. cbv zeta. split; intros Hm.
  - rewrite (Nat.div_small (nel m) 4) by lia. cbn [cg_loop Nat.ltb Nat.leb]. eexists. split; [reflexivity|reflexivity].
  - replace (Nat.div (nel m) 4) with 1%nat by (apply (Nat.div_unique (nel m) 4 1 (nel m - 4)); lia).
    cbn [cg_loop]. destruct (Rltb _ _) eqn:E; [apply Rltb_true in E; lra|]. reflexivity.
Qed.
Print Assumptions C90_small_mesh_refuted.

(* FINDING: tolerance and step limit given to the object are replaced whenever
   preprocess or update_radius builds the cg_jacobi preconditioner *)
Theorem C90_tolerance_forgotten_refuted mask f r : o_opt f = "cg_jacobi"%string ->
  let f' := fstep mask f (UpdateRadius r) in o_rtol f' = 1 / 100000 /\ o_maxiter f' = Some (nel (o_mesh f) / 4)%nat.
Proof.
  intros E. cbv zeta. unfold fstep, update_radius, update_matrices. cbn [preprocess]. rewrite E.
  cbn [existsb String.eqb Ascii.eqb Bool.eqb orb fst]. unfold build, set_option. cbn [o_opt String.eqb Ascii.eqb Bool.eqb create_linear_operator o_rtol o_maxiter o_mesh Z.ltb Z.compare]. split; reflexivity.
Qed.
Print Assumptions C90_tolerance_forgotten_refuted.

(* the matrix of compute_filter_gradient_matrix is the matrix of the filter *)
Theorem C90_jacobian lu m r rho x : lu_exact (nel m) lu -> sound m -> eh_forward m r rho x ->
  (forall i, (i < nel m)%nat -> filter_grad_vec lu m r rho i = x i) /\
  (forall i, (i < nel m)%nat -> rsum (map (fun j => filter_jacobian lu m r i j * rho j) (seq 0 (nel m))) = x i).
Proof.
  intros Hlu Hs Hx.
  assert (G : forall v, eh_forward m r v (filter_grad_vec lu m r v)).
  { intros v i Hi. apply (Hlu (Amat m r)); [now apply injective_A|exact Hi]. }
  split.
  - intros i Hi. now apply (C79_well_defined m r rho _ _ Hs (G rho) Hx).
  - intros i Hi. refine (C79_well_defined m r rho (fun i => rsum (map (fun j => filter_jacobian lu m r i j * rho j) (seq 0 (nel m)))) x Hs _ Hx i Hi).
    intros k Hk. unfold apply.
    rewrite (rs_ext _ (fun i => rsum (map (fun j => rho j * (Amat m r k i * filter_jacobian lu m r i j)) (seq 0 (nel m))))).
    2:{ intros l _. rewrite <- rs_scal. apply rs_ext. intros; ring. }
    rewrite rs_swap. rewrite (rs_ext _ (fun j => if Nat.eqb j k then vnorm m k * rho j else 0)).
    + now rewrite rs_single_nat.
    + intros j _. rewrite rs_scal. pose proof (G (fun k => if Nat.eqb k j then 1 else 0) k Hk) as E. unfold apply in E.
      unfold filter_jacobian. rewrite E, (Nat.eqb_sym k j). destruct (Nat.eqb j k); ring.
Qed.
Print Assumptions C90_jacobian.

(* an instance: the graded mesh of C79 with every option, and a session on it *)
Definition cramer (n : nat) (A : mat) (b : vec) : vec := fun i =>
  let d := A 0%nat 0%nat * A 1%nat 1%nat - A 0%nat 1%nat * A 1%nat 0%nat in
  match i with 0%nat => (b 0%nat * A 1%nat 1%nat - A 0%nat 1%nat * b 1%nat) / d
             | 1%nat => (A 0%nat 0%nat * b 1%nat - b 0%nat * A 1%nat 0%nat) / d | _ => 0 end.
Lemma cramer_exact : lu_exact 2 cramer.
Proof.
  intros A b Hi.
  assert (Hd : A 0%nat 0%nat * A 1%nat 1%nat - A 0%nat 1%nat * A 1%nat 0%nat <> 0).
  { intros Z.
    assert (Z0 : forall j, (j < 2)%nat -> (fun j => match j with 0%nat => A 1%nat 1%nat | _ => - A 1%nat 0%nat end) j = 0).
    { apply Hi. intros i Hl. unfold lmv. cbn [seq map rsum fold_right]. destruct i as [|[|i]]; [lra|lra|lia]. }
    assert (Z1 : forall j, (j < 2)%nat -> (fun j => match j with 0%nat => - A 0%nat 1%nat | _ => A 0%nat 0%nat end) j = 0).
    { apply Hi. intros i Hl. unfold lmv. cbn [seq map rsum fold_right]. destruct i as [|[|i]]; [lra|lra|lia]. }
    pose proof (Z0 0%nat ltac:(lia)). pose proof (Z0 1%nat ltac:(lia)). pose proof (Z1 0%nat ltac:(lia)). pose proof (Z1 1%nat ltac:(lia)). cbv beta iota in *.
    assert (E : (fun _ : nat => 1) 0%nat = 0); [|lra]. apply (Hi (fun _ => 1)) with (i := 0%nat); [|lia].
    intros i Hl. unfold lmv. cbn [seq map rsum fold_right]. destruct i as [|[|i]]; [lra|lra|lia]. }
  intros i Hl. unfold mv, sum, cramer. cbn [seq map rsum fold_right]. destruct i as [|[|i]]; [field; exact Hd|field; exact Hd|lia].
Qed.
Example C90_instance : sound ex_graded /\ lu_exact (nel ex_graded) cramer /\
  norm (nel ex_graded) (weighted ex_graded (fun _ => 1)) <> 0 /\ (nel ex_graded < 4)%nat /\
  (exists f, from_defaults ex_graded 1 None "spsolve" = Ok f) /\
  exists f, from_defaults ex_graded 1 None "cg_jacobi" = Ok f /\
    let f' := fold_left (fstep None) [UpdateRadius 2; CreateLinearOperator (1 / 10) 3] f in
    last_option "cg_jacobi" [UpdateRadius 2; CreateLinearOperator (1 / 10) 3] = "cg_jacobi"%string /\
    0 < o_rtol f' /\ o_maxiter f' = Some 3%nat /\ (nel ex_graded < 3)%nat.
Proof.
  destruct C79_instance as (Hs & _). split; [exact Hs|split; [exact cramer_exact|]].
  split.
  - intros Z. pose proof (proj1 (norm_zero_iff _ _) Z 0%nat ltac:(cbn; lia)) as E. unfold weighted in E.
    pose proof (vnorm_pos ex_graded 0 Hs ltac:(cbn; lia)). lra.
  - split; [cbn; lia|]. split; [apply C90_options_accepted; now left|].
    destruct (C90_options_accepted ex_graded 1 None "cg_jacobi" ltac:(unfold known_option; tauto)) as (f & E). exists f. split; [exact E|].
    cbv zeta. split; [reflexivity|]. cbn [fold_left fstep create_linear_operator o_rtol o_maxiter Z.ltb Z.compare].
    split; [lra|split; [reflexivity|cbn; lia]].
Qed.

(* a solver selected without the factorisation or hierarchy it uses *)
Theorem C90_missing_factorisation : forall lu amg f v,
  (o_opt f = "spsolve"%string -> o_lu f = None -> forward lu amg f v = Err AttributeError /\ gradient lu amg f v = Err AttributeError) /\
  (o_opt f = "cg_pyamg"%string -> o_ml f = None -> forward lu amg f v = Err AttributeError /\ gradient lu amg f v = Err AttributeError).
Proof. intros lu amg f v. split; intros E H; unfold forward, gradient, apply_lu, apply_amg; rewrite E, H; split; reflexivity. Qed.
Print Assumptions C90_missing_factorisation.
