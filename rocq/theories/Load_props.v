(* C97: the stiffness matrix of a mesh file. *)
From Coq Require Import Lia Lra.
From Verif Require Import Base Fea_model Fea_spec Fea_proofs Material_model Load_model Load_spec.
From Verif Require Toy_model Tags_model.
Open Scope R_scope.

Lemma trace_sym_grad g : trace (sym_grad g) = trace g.
Proof. unfold trace, sym_grad. field. Qed.
Lemma le_form Lambda Mu g h : linear_elasticity Lambda Mu g h = stiffness_form Lambda Mu g h.
Proof. unfold linear_elasticity, linear_stress. tens. field. Qed.
Lemma sym_asm B Lambda Mu : symmetric (fb_n B) (asm_form B (linear_elasticity Lambda Mu)).
Proof.
  intros i j _ _. unfold asm_form. apply sum_ext; intros e _. apply sum_ext; intros q _.
  now rewrite !le_form, form_sym.
Qed.
(* the matrix assembled is the composer's for the material with Lame parameters (E, nu) *)
Lemma asm_stiffness B E nu E' nu' : lam_mu E' nu' = (E, nu) ->
  forall k l, asm_form B (linear_elasticity E nu) k l = stiffness B nu' (fun _ => E') k l.
Proof.
  intros EQ k l. unfold asm_form, stiffness. apply sum_ext; intros e _. apply sum_ext; intros q _.
  unfold lam_of, mu_of. rewrite EQ. cbn [fst snd]. now rewrite le_form.
Qed.
Lemma lame_inverse E nu : E + nu <> 0 -> nu <> 0 -> 3 * E + 2 * nu <> 0 ->
  lam_mu (nu * (3 * E + 2 * nu) / (E + nu)) (E / (2 * (E + nu))) = (E, nu).
Proof.
  intros H1' H2' H3'. unfold lam_mu.
  assert (A : 1 + E / (2 * (E + nu)) = (3 * E + 2 * nu) / (2 * (E + nu))) by (field; auto).
  assert (C : 1 - 2 * (E / (2 * (E + nu))) = nu / (E + nu)) by (field; auto).
  rewrite A, C. apply f_equal2; field; repeat split; auto.
Qed.
Lemma material_stiffness B E nu K : material_matrix B E nu K <-> forall k l, K k l = stiffness B nu (fun _ => E) k l.
Proof.
  unfold material_matrix, stiffness. assert (Q : forall k l,
    sum (fb_ne B) (fun e => sum (fb_nq B) (fun q =>
    (nu * E / ((1 + nu) * (1 - 2 * nu)) * (trace (fb_grad B e q l) * trace (fb_grad B e q k)) +
     2 * (E / (2 * (1 + nu))) * ddot (sym_grad (fb_grad B e q l)) (sym_grad (fb_grad B e q k))) * fb_dx B e q)) =
    sum (fb_ne B) (fun e => sum (fb_nq B) (fun q =>
      stiffness_form (lam_of (fun _ => E) nu e) (mu_of (fun _ => E) nu e) (fb_grad B e q l) (fb_grad B e q k) * fb_dx B e q))).
  { intros k l. apply sum_ext; intros e _. apply sum_ext; intros q _. unfold lam_of, mu_of, lam_mu, stiffness_form. cbn [fst snd].
    rewrite !trace_sym_grad. ring. }
  split; intros H k l; [rewrite H; apply Q | rewrite Q; apply H].
Qed.

(* C97, partial.  What is returned, for every readable file and every pair of
   arguments: the matrix of a body whose Lame parameters are (E, nu), which is the
   body with Young's modulus nu(3E+2nu)/(E+nu) and Poisson's ratio E/(2(E+nu)).
   Missing: the body with modulus E and ratio nu - see the refutation. *)
Theorem C97_stiffness_from_file_partial types read E nu K c :
  Toy_model.basis_from_file types = Ok c -> load_stiffness_matrix types read E nu = Ok K ->
  symmetric (fb_n (read c)) K /\
  (0 < E -> 0 < nu ->
   0 < nu * (3 * E + 2 * nu) / (E + nu) /\ 0 < E / (2 * (E + nu)) < 1 / 2 /\
   material_matrix (read c) (nu * (3 * E + 2 * nu) / (E + nu)) (E / (2 * (E + nu))) K).
Proof.
  intros Hc H. unfold load_stiffness_matrix in H. rewrite Hc in H. cbn [bind] in H. injection H as <-.
  split; [apply sym_asm|]. intros HE Hn. split; [|split].
  - apply Rdiv_lt_0_compat; [apply Rmult_lt_0_compat; lra|lra].
  - split; [apply Rdiv_lt_0_compat; lra|]. apply (Rmult_lt_reg_r (2 * (E + nu))); [lra|].
    replace (E / (2 * (E + nu)) * (2 * (E + nu))) with E by (field; lra). lra.
  - apply material_stiffness. apply asm_stiffness. apply lame_inverse; lra.
Qed.
(* which mesh is read: hexahedra if the file has any *)
Theorem C97_which_mesh types c : Toy_model.basis_from_file types = Ok c <->
  (Toy_model.has_type (Tags_model.lit "hexahedron") types = true /\ c = Toy_model.MeshHex) \/
  (Toy_model.has_type (Tags_model.lit "hexahedron") types = false /\
   Toy_model.has_type (Tags_model.lit "tetra") types = true /\ c = Toy_model.MeshTet).
Proof.
  unfold Toy_model.basis_from_file.
  destruct (Toy_model.has_type (Tags_model.lit "hexahedron") types); [|destruct (Toy_model.has_type (Tags_model.lit "tetra") types)].
  - split; [intros H; injection H as <-; auto|intros [[_ ->]|(H & _)]; [reflexivity|discriminate]].
  - split; [intros H; injection H as <-; auto|intros [[H _]|(_ & _ & ->)]; [discriminate|reflexivity]].
  - split; [discriminate|intros [[H _]|(_ & H & _)]; discriminate].
Qed.
(* files without hexahedra or tetrahedra are refused, all others are read *)
Theorem C97_which_files types read E nu :
  (exists K, load_stiffness_matrix types read E nu = Ok K) <->
  Toy_model.has_type (Tags_model.lit "hexahedron") types = true \/ Toy_model.has_type (Tags_model.lit "tetra") types = true.
Proof.
  unfold load_stiffness_matrix, Toy_model.basis_from_file.
  destruct (Toy_model.has_type (Tags_model.lit "hexahedron") types); cbn [bind]; [split; [auto|intros _; eexists; reflexivity]|].
  destruct (Toy_model.has_type (Tags_model.lit "tetra") types); cbn [bind]; [split; [auto|intros _; eexists; reflexivity]|].
  split; [intros [K H]; discriminate|intros [H|H]; discriminate].
Qed.
Theorem C97_refused_files types read E nu :
  Toy_model.has_type (Tags_model.lit "hexahedron") types = false -> Toy_model.has_type (Tags_model.lit "tetra") types = false ->
  load_stiffness_matrix types read E nu = Err ValueError.
Proof. intros H1' H2'. unfold load_stiffness_matrix, Toy_model.basis_from_file. now rewrite H1', H2'. Qed.

(* two test functions at one point: a pure dilation and a pure shear *)
Definition g_dil : tensor := fun i j => if Nat.eqb i j then 1 else 0.
Definition g_shear : tensor := fun i j => match i, j with O, S O => 1 | _, _ => 0 end.
Definition ex_basis : fembasis :=
  mkBasis 2 1 1 (fun _ _ => 1) (fun _ _ k => match k with O => g_dil | _ => g_shear end).
Lemma ex_entry00 lam mu : stiffness_form lam mu g_dil g_dil = 9 * lam + 6 * mu.
Proof. tens. unfold g_dil. cbn [Nat.eqb]. field. Qed.
Lemma ex_entry11 lam mu : stiffness_form lam mu g_shear g_shear = mu.
Proof. tens. unfold g_shear. field. Qed.

(* C97, refuted and delimited: over admissible materials the returned matrix is the
   one asked for, on every mesh, for exactly one material: E = 1, nu = (sqrt 3 - 1)/2.
   For every other material the file's matrix is wrong on some mesh. *)
Theorem C97_right_for_one_material_only E nu : 0 < E -> -1 < nu < 1 / 2 ->
  ((forall types read K c, Toy_model.basis_from_file types = Ok c -> load_stiffness_matrix types read E nu = Ok K ->
      material_matrix (read c) E nu K) <->
   E = 1 /\ nu = (sqrt 3 - 1) / 2).
Proof.
  intros HE Hn.
  assert (S3 : sqrt 3 * sqrt 3 = 3) by (apply sqrt_sqrt; lra).
  assert (S0 : 0 <= sqrt 3) by apply sqrt_pos.
  split.
  - intros H. pose proof (H (cons (Tags_model.lit "tetra") nil) (fun _ => ex_basis) (asm_form ex_basis (linear_elasticity E nu))
      Toy_model.MeshTet eq_refl eq_refl) as M. cbn beta in M.
    pose proof (M 0%nat 0%nat) as A. pose proof (M 1%nat 1%nat) as C.
    assert (F : forall k, asm_form ex_basis (linear_elasticity E nu) k k =
      stiffness_form E nu (fb_grad ex_basis 0 0 k) (fb_grad ex_basis 0 0 k)).
    { intros k. unfold asm_form, sum, ex_basis; cbn [fb_ne fb_nq fb_dx fb_grad seq map rsum fold_right]. rewrite le_form. lra. }
    rewrite F in A, C. destruct (material_stiffness ex_basis E nu (asm_form ex_basis (linear_elasticity E nu))) as [T _].
    pose proof (T M 0%nat 0%nat) as A'. pose proof (T M 1%nat 1%nat) as C'. rewrite F in A', C'.
    assert (G : forall k, stiffness ex_basis nu (fun _ => E) k k =
      stiffness_form (lam_of (fun _ => E) nu 0) (mu_of (fun _ => E) nu 0) (fb_grad ex_basis 0 0 k) (fb_grad ex_basis 0 0 k)).
    { intros k. unfold stiffness, sum, ex_basis; cbn [fb_ne fb_nq fb_dx fb_grad seq map rsum fold_right]. lra. }
    rewrite G in A', C'. unfold ex_basis in A', C'. cbn [fb_grad] in A', C'. rewrite !ex_entry00 in A'. rewrite !ex_entry11 in C'.
    unfold lam_of, mu_of, lam_mu in A', C'. cbn [fst snd] in A', C'.
    assert (L : E = nu * E / ((1 + nu) * (1 - 2 * nu))) by lra.
    assert (P1 : 0 < 1 + nu) by lra. assert (P2 : 0 < 1 - 2 * nu) by lra.
    assert (Q : E * ((1 + nu) * (1 - 2 * nu)) = E * nu).
    { rewrite L at 1. field. lra. }
    apply Rmult_eq_reg_l in Q; [|lra].
    assert (Q2 : nu * (2 * (1 + nu)) = E). { rewrite C' at 1. field. lra. }
    assert (R1 : (2 * nu + 1) * (2 * nu + 1) = 3) by nra.
    assert (Npos : 0 < nu) by nra.
    assert (R2 : (2 * nu + 1 - sqrt 3) * (2 * nu + 1 + sqrt 3) = 0) by nra.
    apply Rmult_integral in R2. destruct R2 as [R2|R2]; [|lra]. split; [nra|lra].
  - intros [-> ->] types read K c Hc H. destruct (C97_stiffness_from_file_partial types read 1 ((sqrt 3 - 1) / 2) K c Hc H) as (_ & M).
    assert (P : 1 < sqrt 3) by nra.
    destruct (M Rlt_0_1 ltac:(lra)) as (_ & _ & M').
    assert (T1 : (sqrt 3 - 1) / 2 * (3 * 1 + 2 * ((sqrt 3 - 1) / 2)) / (1 + (sqrt 3 - 1) / 2) = 1).
    { apply (Rmult_eq_reg_r (1 + (sqrt 3 - 1) / 2)); [|lra]. unfold Rdiv at 1.
      rewrite Rmult_assoc, Rinv_l, Rmult_1_r by lra. nra. }
    assert (T2 : 1 / (2 * (1 + (sqrt 3 - 1) / 2)) = (sqrt 3 - 1) / 2).
    { apply (Rmult_eq_reg_r (2 * (1 + (sqrt 3 - 1) / 2))); [|lra]. unfold Rdiv at 1.
      rewrite Rmult_assoc, Rinv_l, Rmult_1_r by lra. nra. }
    now rewrite T1, T2 in M'.
Qed.
(* in particular the defaults E = 1, nu = 0.3 are wrong *)
Theorem C97_default_material_refuted :
  ~ forall types read K c, Toy_model.basis_from_file types = Ok c ->
      load_stiffness_matrix types read default_E default_nu = Ok K -> material_matrix (read c) default_E default_nu K.
Proof.
  intros H. apply C97_right_for_one_material_only in H; [|unfold default_E; lra|unfold default_nu; lra].
  destruct H as [_ H]. unfold default_nu in H. assert (sqrt 3 = 8 / 5) by lra.
  assert (sqrt 3 * sqrt 3 = 3) by (apply sqrt_sqrt; lra). nra.
Qed.
(* the default matrix is that of E = 54/65, nu = 5/13 *)
Theorem C97_default_material types read K c : Toy_model.basis_from_file types = Ok c ->
  load_stiffness_matrix types read default_E default_nu = Ok K -> material_matrix (read c) (54 / 65) (5 / 13) K.
Proof.
  intros Hc H. destruct (C97_stiffness_from_file_partial _ _ _ _ _ _ Hc H) as (_ & M). unfold default_E, default_nu in M.
  destruct (M ltac:(lra) ltac:(lra)) as (_ & _ & M').
  replace (3 / 10 * (3 * 1 + 2 * (3 / 10)) / (1 + 3 / 10)) with (54 / 65) in M' by field.
  replace (1 / (2 * (1 + 3 / 10))) with (5 / 13) in M' by field. exact M'.
Qed.

Lemma quad_asm B Lambda Mu u : quad (fb_n B) (asm_form B (linear_elasticity Lambda Mu)) u =
  sum (fb_ne B) (fun e => sum (fb_nq B) (fun q =>
    stiffness_form Lambda Mu (grad_of B u e q) (grad_of B u e q) * fb_dx B e q)).
Proof.
  unfold asm_form.
  rewrite (quad_assembled (fb_n B) (fb_ne B) (fb_nq B)
    (fun e q l k => linear_elasticity Lambda Mu (fb_grad B e q l) (fb_grad B e q k) * fb_dx B e q)).
  apply sum_ext; intros e _. apply sum_ext; intros q _.
  rewrite form_grad. rewrite <- sum_scal_r. apply sum_ext; intros k _.
  rewrite (form_sym _ _ (fb_grad B e q k)), form_grad.
  rewrite <- sum_scal, <- sum_scal_r. apply sum_ext; intros l _. rewrite le_form. ring.
Qed.
Lemma iso_quad B E nu u : isochoric B u -> quad (fb_n B) (asm_form B (linear_elasticity E nu)) u =
  2 * nu * sum (fb_ne B) (fun e => sum (fb_nq B) (fun q => ddot (sym_grad (grad_of B u e q)) (sym_grad (grad_of B u e q)) * fb_dx B e q)).
Proof.
  intros I. rewrite quad_asm, <- sum_scal. apply sum_ext; intros e He. rewrite <- sum_scal. apply sum_ext; intros q Hq.
  unfold stiffness_form. rewrite trace_sym_grad, (I e q He Hq). ring.
Qed.
Lemma ddot_sq t : ddot t t = sum 3 (fun i => sum 3 (fun j => t i j ^ 2)).
Proof. unfold ddot. apply sum_ext; intros i _. apply sum_ext; intros j _. ring. Qed.
Lemma sum_pos n f k : (k < n)%nat -> (forall i, (i < n)%nat -> 0 <= f i) -> 0 < f k -> 0 < sum n f.
Proof.
  intros Hk H P. destruct (Rle_lt_or_eq_dec 0 (sum n f) (sum_nonneg n f H)) as [L|L]; [exact L|].
  exfalso. pose proof (sum_zero_inv n f H (eq_sym L) k Hk). lra.
Qed.
Lemma sheared_pos B u : sheared B u ->
  0 < sum (fb_ne B) (fun e => sum (fb_nq B) (fun q => ddot (sym_grad (grad_of B u e q)) (sym_grad (grad_of B u e q)) * fb_dx B e q)).
Proof.
  intros (W & e & q & i & j & He & Hq & Hi & Hj & Hd & Hs).
  assert (NN : forall t, 0 <= ddot t t). { intros t. rewrite ddot_sq. apply sum3_sq_nonneg. }
  apply (sum_pos _ _ e He).
  { intros e' He'. apply sum_nonneg. intros q' Hq'. apply Rmult_le_pos; [apply NN|now apply W]. }
  apply (sum_pos _ _ q Hq).
  { intros q' Hq'. apply Rmult_le_pos; [apply NN|now apply W]. }
  apply Rmult_lt_0_compat; [|exact Hd]. rewrite ddot_sq.
  apply (sum_pos _ _ i Hi); [intros; apply sum_nonneg; intros; apply pow2_ge_0|].
  apply (sum_pos _ _ j Hj); [intros; apply pow2_ge_0|].
  destruct (Rle_lt_or_eq_dec 0 _ (pow2_ge_0 (sym_grad (grad_of B u e q) i j))) as [L|L]; [exact L|].
  exfalso. apply Hs. nra.
Qed.
(* materials with nu = 0 (cork) get no resistance to shear, auxetic ones (nu < 0) get a
   matrix with negative energy, on every mesh that can be sheared *)
Theorem C97_degenerate_materials types read E nu K u c :
  Toy_model.basis_from_file types = Ok c -> load_stiffness_matrix types read E nu = Ok K -> isochoric (read c) u -> sheared (read c) u ->
  (nu = 0 -> quad (fb_n (read c)) K u = 0) /\ (nu < 0 -> quad (fb_n (read c)) K u < 0) /\ (0 < nu -> 0 < quad (fb_n (read c)) K u).
Proof.
  intros Hc H I S.
  assert (HK : K = asm_form (read c) (linear_elasticity E nu)).
  { unfold load_stiffness_matrix in H. rewrite Hc in H. cbn [bind] in H. now injection H as <-. }
  subst K. rewrite (iso_quad _ _ _ _ I). pose proof (sheared_pos _ _ S) as P. repeat split; intros; nra.
Qed.
(* a correct matrix would have positive energy there for every admissible material *)
Theorem C97_degenerate_materials_reference B E nu K u : 0 < E -> -1 < nu < 1 / 2 ->
  material_matrix B E nu K -> isochoric B u -> sheared B u -> 0 < quad (fb_n B) K u.
Proof.
  intros HE Hn M I S. pose proof (proj1 (material_stiffness _ _ _ _) M) as M2. clear M. rename M2 into M.
  assert (Q : quad (fb_n B) K u = quad (fb_n B) (stiffness B nu (fun _ => E)) u).
  { unfold quad, dot. apply sum_ext; intros i _. f_equal. unfold mv. apply sum_ext; intros j _. now rewrite M. }
  rewrite Q. clear Q.
  assert (A : forall k l, asm_form B (linear_elasticity (nu * E / ((1 + nu) * (1 - 2 * nu))) (E / (2 * (1 + nu)))) k l =
     stiffness B nu (fun _ => E) k l) by (apply asm_stiffness; reflexivity).
  assert (Q : quad (fb_n B) (stiffness B nu (fun _ => E)) u =
    quad (fb_n B) (asm_form B (linear_elasticity (nu * E / ((1 + nu) * (1 - 2 * nu))) (E / (2 * (1 + nu))))) u).
  { unfold quad, dot. apply sum_ext; intros i _. f_equal. unfold mv. apply sum_ext; intros j _. now rewrite A. }
  rewrite Q, (iso_quad _ _ _ _ I). apply Rmult_lt_0_compat; [|now apply sheared_pos].
  apply Rmult_lt_0_compat; [lra|]. apply Rdiv_lt_0_compat; lra.
Qed.
(* the hypotheses are met: one element that can dilate and shear *)
Theorem C97_degenerate_instance :
  isochoric ex_basis (fun k => match k with O => 0 | _ => 1 end) /\ sheared ex_basis (fun k => match k with O => 0 | _ => 1 end) /\
  exists K, load_stiffness_matrix (cons (Tags_model.lit "hexahedron") nil) (fun _ => ex_basis) 1 0 = Ok K.
Proof.
  split; [|split].
  - intros e q _ _. unfold trace, grad_of, sum, ex_basis. cbn [fb_n fb_grad seq map rsum fold_right]. unfold g_dil, g_shear. cbn [Nat.eqb]. ring.
  - split; [intros; unfold ex_basis; cbn [fb_dx]; lra|]. exists 0%nat, 0%nat, 0%nat, 1%nat. unfold ex_basis at 1 2 3. cbn [fb_ne fb_nq fb_dx].
    repeat split; try lia; try lra. unfold sym_grad, grad_of, sum, ex_basis. cbn [fb_n fb_grad seq map rsum fold_right].
    unfold g_dil, g_shear. cbn [Nat.eqb]. lra.
  - eexists. reflexivity.
Qed.
