From Verif Require Import Base Sums Material_model OC_model OC_spec OC_proofs OC_props Filter_model Filter_proofs Mesh_model Mesh_proofs Fea_model Fea_spec Fea_proofs Fea_props
  Iter_model Iter_spec Iter_proofs Grad_proofs Grad_props Iter_props Scale_model Scale_spec.
Open Scope R_scope.
Open Scope list_scope.

Lemma rs_cons1 x l : rsum (x :: l) = x + rsum l.
Proof. reflexivity. Qed.
Lemma rs_app1 l m : rsum (l ++ m) = rsum l + rsum m.
Proof. induction l as [|x l IH]; cbn [app]; [unfold rsum at 2; cbn; ring|]. rewrite !rs_cons1, IH. ring. Qed.
Lemma rs_mult k l : rsum (map (Rmult k) l) = k * rsum l.
Proof. induction l as [|x l IH]; cbn [map]; [unfold rsum; cbn; ring|]. rewrite !rs_cons1, IH. ring. Qed.
Section Filters.
Variable s : R.
Hypothesis Hs : 0 < s.

Lemma dist_stretched a b : dist (map (Rmult s) a) (map (Rmult s) b) = s * dist a b.
Proof.
  unfold dist. assert (E : forall a b, rsum (zipwith (fun x y => (x - y) * (x - y)) (map (Rmult s) a) (map (Rmult s) b)) = s * s * rsum (zipwith (fun x y => (x - y) * (x - y)) a b)).
  { induction a0 as [|x a0 IH]; intros [|y b0]; cbn [map zipwith rsum fold_right]; try ring. fold (rsum (zipwith (fun x y => (x - y) * (x - y)) (map (Rmult s) a0) (map (Rmult s) b0))).
    rewrite IH. fold (rsum (zipwith (fun x y => (x - y) * (x - y)) a0 b0)). ring. }
  rewrite E. rewrite sqrt_mult_alt by nra. rewrite sqrt_square by lra. reflexivity.
Qed.
Lemma nth_stretch c j : nth j (stretch s c) [] = map (Rmult s) (nth j c []).
Proof. unfold stretch. change (@nil R) with (map (Rmult s) []) at 1. apply map_nth. Qed.
Lemma dist_nth c i j : dist (nth j (stretch s c) []) (nth i (stretch s c) []) = s * dist (nth j c []) (nth i c []).
Proof. rewrite !nth_stretch. apply dist_stretched. Qed.
Lemma Rleb_scaled a b : Rleb (s * a) (s * b) = Rleb a b.
Proof. destruct (Rleb a b) eqn:E; [apply Rleb_true in E; apply Rleb_true|apply Rleb_false in E; apply Rleb_false]; nra. Qed.
Lemma Reqb_scaled a b : Reqb (s * a) (s * b) = Reqb a b.
Proof. destruct (Reqb a b) eqn:E; [apply Reqb_true in E; apply Reqb_true; now subst|apply Reqb_false in E; apply Reqb_false; intros Q; apply E; nra]. Qed.
Lemma kernel_scaled r d : kernel KGaussian (s * r) (s * d) = kernel KGaussian r d.
Proof.
  unfold kernel. f_equal. destruct (Req_dec r 0) as [->|Hr].
  - rewrite Rmult_0_r. unfold Rdiv. rewrite !Rmult_0_l. assert (/ 0 = 0) as -> by apply Rinv_0. ring.
  - field. lra.
Qed.
Lemma support_scaled r : support KGaussian (s * r) = s * support KGaussian r.
Proof. unfold support. field. Qed.
Lemma matrix_scaled r c mask :
  build_filter_matrix (kernel KGaussian (s * r)) (support KGaussian (s * r)) (stretch s c) mask =
  build_filter_matrix (kernel KGaussian r) (support KGaussian r) c mask.
Proof.
  unfold build_filter_matrix. replace (List.length (stretch s c)) with (List.length c) by (unfold stretch; now rewrite map_length).
  set (ids := design_ids mask (List.length c)).
  assert (H1 : forall i, has_neighbour (support KGaussian (s * r)) (stretch s c) ids i = has_neighbour (support KGaussian r) c ids i).
  { intros i. unfold has_neighbour. rewrite support_scaled. induction ids as [|j l IH]; [reflexivity|]. cbn [existsb]. now rewrite dist_nth, Rleb_scaled, IH. }
  assert (H2 : forall i, raw_row (kernel KGaussian (s * r)) (support KGaussian (s * r)) (stretch s c) ids i = raw_row (kernel KGaussian r) (support KGaussian r) c ids i).
  { intros i. unfold raw_row. apply map_ext. intros j. rewrite dist_nth, support_scaled, Rleb_scaled, kernel_scaled. reflexivity. }
  assert (H3 : existsb (has_neighbour (support KGaussian (s * r)) (stretch s c) ids) ids = existsb (has_neighbour (support KGaussian r) c ids) ids).
  { clearbody ids. clear H2. generalize ids at 2 4. intros l. induction l as [|i l IH]; [reflexivity|]. cbn [existsb]. now rewrite H1, IH. }
  rewrite H3. clear H3. destruct (existsb (has_neighbour (support KGaussian r) c ids) ids); [|reflexivity]. f_equal. apply map_ext. intros i. now rewrite H2.
Qed.
Lemma forward_scaled f rho : sf_forward (filter_scaled s f) rho =
  match sf_forward f rho with Ok (g, x) => Ok (filter_scaled s g, x) | Err e => Err e end.
Proof.
  unfold sf_forward. cbn [filter_scaled sf_radius sf_centers sf_mask].
  replace (Reqb (s * sf_radius f) 0) with (Reqb (sf_radius f) 0) by (rewrite <- (Reqb_scaled (sf_radius f) 0); now rewrite Rmult_0_r).
  destruct (Reqb (sf_radius f) 0); [reflexivity|]. rewrite matrix_scaled. destruct (build_filter_matrix _ _ _ _) as [W|e]; [|reflexivity]. cbn [bind].
  replace (List.length (stretch s (sf_centers f))) with (List.length (sf_centers f)) by (unfold stretch; now rewrite map_length).
  destruct (negb _); reflexivity.
Qed.
Lemma gradient_scaled f g : sf_gradient (filter_scaled s f) g = sf_gradient f g.
Proof.
  unfold sf_gradient. cbn [filter_scaled sf_centers sf_mask sf_W].
  replace (List.length (stretch s (sf_centers f))) with (List.length (sf_centers f)) by (unfold stretch; now rewrite map_length). reflexivity.
Qed.
Lemma map_scaled f : sf_map (filter_scaled s f) = sf_map f.
Proof. apply FunctionalExtensionality.functional_extensionality. intros rho. unfold sf_map. rewrite forward_scaled. now destruct (sf_forward f rho) as [[g x]|]. Qed.
Lemma sum_gradients_scaled f gs : forall acc, sum_gradients (filter_scaled s f) acc gs = sum_gradients f acc gs.
Proof. induction gs as [|g gs IH]; intros acc; cbn [sum_gradients]; [reflexivity|]. rewrite gradient_scaled. destruct (sf_gradient f g); [|reflexivity]. cbn [bind]. apply IH. Qed.
Lemma radius_step f r : (if Reqb (s * r) (sf_radius (filter_scaled s f)) then filter_scaled s f else update_radius (s * r) (filter_scaled s f)) =
  filter_scaled s (if Reqb r (sf_radius f) then f else update_radius r f).
Proof. cbn [filter_scaled sf_radius]. rewrite Reqb_scaled. destruct (Reqb r (sf_radius f)); reflexivity. Qed.

(* the analysis *)
Lemma stiffness_scaled B nu E k l : stiffness (basis_scaled s B) nu E k l = s * stiffness B nu E k l.
Proof.
  unfold stiffness. cbn [basis_scaled fb_ne fb_nq fb_dx fb_grad]. rewrite <- sum_scal. apply sum_ext. intros e _. rewrite <- sum_scal. apply sum_ext. intros q _.
  unfold stiffness_form, ddot, trace, sym_grad, sum. cbn [seq map rsum fold_right]. unfold rsum. cbn [fold_right]. field. lra.
Qed.
Lemma energy_scaled B nu E u a e : strain_energy (basis_scaled s B) nu E (fun i => a * u i) e = s * a ^ 2 * strain_energy B nu E u e.
Proof.
  unfold strain_energy. cbn [basis_scaled fb_nq fb_dx]. rewrite <- sum_scal. apply sum_ext. intros q _.
  assert (G : forall i j, grad_of (basis_scaled s B) (fun i => a * u i) e q i j = a / s * grad_of B u e q i j).
  { intros i j. unfold grad_of. cbn [basis_scaled fb_n fb_grad]. rewrite <- sum_scal. apply sum_ext. intros k _. field. lra. }
  unfold energy_density, ddot, stress, trace, sym_grad, delta, sum. cbn [seq map]. unfold rsum. cbn [fold_right]. rewrite !G. cbn [Nat.eqb]. field. lra.
Qed.
End Filters.
Lemma energy_ext B nu E u w e : (forall i, (i < fb_n B)%nat -> u i = w i) -> strain_energy B nu E u e = strain_energy B nu E w e.
Proof.
  intros H. unfold strain_energy. apply sum_ext. intros q _. f_equal.
  assert (G : forall i j, grad_of B u e q i j = grad_of B w e q i j).
  { intros i j. unfold grad_of. apply sum_ext. intros k Hk. now rewrite H. }
  unfold energy_density, ddot, stress, trace, sym_grad, sum. cbn [seq map]. unfold rsum. cbn [fold_right]. now rewrite !G.
Qed.
Lemma energy_zero B nu E e : strain_energy B nu E (fun _ => 0) e = 0.
Proof.
  assert (H : strain_energy (basis_scaled 1 B) nu E (fun i => 0 * (fun _ => 0) i) e = 1 * 0 ^ 2 * strain_energy B nu E (fun _ => 0) e) by (apply energy_scaled; lra).
  assert (E1 : strain_energy (basis_scaled 1 B) nu E (fun i => 1 * (fun _ => 0) i) e = 1 * 1 ^ 2 * strain_energy B nu E (fun _ => 0) e) by (apply energy_scaled; lra).
  assert (E2 : strain_energy (basis_scaled 1 B) nu E (fun i => 1 * (fun _ => 0) i) e = strain_energy (basis_scaled 1 B) nu E (fun i => 0 * (fun _ => 0) i) e).
  { apply energy_ext. intros; cbn; ring. }
  lra.
Qed.

(* a symmetric semidefinite matrix whose supported systems can all be solved lets no
   supported motion go without energy *)
Lemma onto_supported n K D : symmetric n K -> semidefinite n K ->
  (forall b, exists x, solves n (enforceK D K) b x) -> supported n K D.
Proof.
  intros Hsym Hsd Hon u HD (i0 & Hi0 & Hne). destruct (Rle_lt_or_eq_dec 0 _ (Hsd u)) as [H|H]; [exact H|exfalso].
  assert (Q : forall w, dot n w (mv n K u) = 0).
  { intros w. destruct (Req_dec (dot n w (mv n K u)) 0) as [E|E]; [exact E|exfalso].
    set (d := dot n w (mv n K u)) in *.
    assert (P : forall t, 0 <= quad n K w - 2 * t * d).
    { intros t. pose proof (Hsd (fun j => w j - t * u j)) as P. rewrite (quad_minus n K w (fun j => t * u j) Hsym) in P.
      assert (E1 : quad n K (fun j => t * u j) = 0).
      { unfold quad, dot. rewrite (sum_ext n _ (fun i => t * t * (u i * mv n K u i))) by (intros i Hi; rewrite mv_scal; ring). rewrite sum_scal. change (sum n (fun i => u i * mv n K u i)) with (quad n K u). rewrite <- H. ring. }
      assert (E2 : dot n w (mv n K (fun j => t * u j)) = t * d).
      { unfold d, dot. rewrite <- sum_scal. apply sum_ext. intros i Hi. rewrite mv_scal. ring. }
      rewrite E1 in P. try rewrite E2 in P. try (rewrite (dot_mv_sym n K _ w Hsym) in P; rewrite E2 in P). lra. }
    pose proof (P ((quad n K w + 1) / (2 * d))) as P1. replace (2 * ((quad n K w + 1) / (2 * d)) * d) with (quad n K w + 1) in P1 by (field; exact E). lra. }
  destruct (Hon (fun i => u i)) as (x & Hx). pose proof (Q x) as Q1. rewrite (dot_mv_sym n K x u Hsym) in Q1.
  assert (E : dot n u (mv n K x) = dot n u u).
  { apply sum_ext. intros i Hi. destruct (in_dec Nat.eq_dec i D) as [Hd|Hd].
    - rewrite (HD i Hi Hd). ring.
    - f_equal. rewrite <- (Hx i Hi). unfold mv. apply sum_ext. intros j _. unfold enforceK. apply mem_false in Hd. now rewrite Hd. }
  rewrite E in Q1. assert (u i0 * u i0 = 0) as Z by (exact (sum_zero_inv n (fun i => u i * u i) (fun i _ => Rle_0_sqr (u i)) Q1 i0 Hi0)).
  apply Hne. nra.
Qed.

(* loads after scale: the same cases, each multiplied *)
Lemma force_list_scaled n F fs L : scale_force n F (Cases fs) = Ok L -> force_list L = map (times F) fs.
Proof. destruct fs as [|f [|g fs]]; cbn [scale_force]; intros [= <-]; reflexivity. Qed.
Lemma n_cases_scaled n F fs L : scale_force n F (Cases fs) = Ok L ->
  n_cases n L = if Nat.eqb (List.length fs) 1 then n else List.length fs.
Proof. destruct fs as [|f [|g fs]]; cbn [scale_force]; intros [= <-]; cbn; rewrite ?map_length; reflexivity. Qed.

Section Problem.
Variables (s F : R) (pb : problem) (c : icfg) (v : ivals) (f : sfilter) (L : neumann).
Hypothesis Hs : 0 < s.
Hypothesis HF : 0 < F.
Hypothesis WP : well_posed pb c v f.
Hypothesis SO : solver_ok (problem_scaled s pb).
Hypothesis HL : scale_force (fb_n (pb_basis pb)) F (Cases (pb_loads pb)) = Ok L.
Let B := pb_basis pb.
Let pb' := problem_scaled s pb.

Lemma pb_supported E : (forall e, (e < fb_ne B)%nat -> 0 < E e) -> supported (fb_n B) (stiffness B (pb_nu pb) E) (pb_D pb).
Proof.
  intros HE. apply onto_supported.
  - apply stiffness_sym.
  - intros u. rewrite quad_energy. apply Rmult_le_pos; [lra|]. apply sum_nonneg. intros e He.
    apply energy_nonneg; [apply (wp_nu _ _ _ _ WP)|exact (wp_weights _ _ _ _ WP)|left; now apply HE].
  - intros b. destruct (wp_solver _ _ _ _ WP E HE) as (S1 & _). exists (pb_slv pb (enforceK (pb_D pb) (stiffness B (pb_nu pb) E)) b). apply S1.
Qed.
(* the displacements of the scaled task *)
Lemma usol_scaled E : (forall e, (e < fb_ne B)%nat -> 0 < E e) ->
  exists cs us, objectives (fb_n B) (pb_slv pb) (pb_slvm pb) (stiffness (basis_scaled s B) (pb_nu pb) E) (pb_D pb) (force_list L) (v_scale v) = Ok (cs, us) /\
    cs = map (Rmult (energy_factor s F)) (zipwith (fun g u => work (fb_n B) (pb_D pb) g u) (loads_of pb v) (usol pb v E)) /\
    Forall2 (fun u u' => forall i, (i < fb_n B)%nat -> u' i = F / s * u i) (usol pb v E) us.
Proof.
  intros HE. rewrite (force_list_scaled _ _ _ _ HL). unfold objectives.
  assert (Hld : map (fun f0 i => f0 i * v_scale v) (map (times F) (pb_loads pb)) = map (times F) (loads_of pb v)).
  { unfold loads_of. rewrite !map_map. apply map_ext. intros g. apply FunctionalExtensionality.functional_extensionality. intros i. unfold times. ring. }
  rewrite Hld. clear Hld.
  destruct (compliance_multi_total (fb_n B) (pb_slv pb) (pb_slvm pb) (stiffness (basis_scaled s B) (pb_nu pb) E) (pb_D pb) (map (times F) (loads_of pb v))) as (cs & us & Eq).
  { unfold loads_of. pose proof (wp_loads _ _ _ _ WP). destruct (pb_loads pb); [easy|discriminate]. }
  exists cs, us. split; [exact Eq|]. destruct (SO E HE) as (S1 & S2). cbn [problem_scaled pb_basis pb_D pb_nu pb_slv pb_slvm fb_n basis_scaled] in S1, S2.
  fold B in S1, S2.
  destruct (multi_value _ _ _ _ _ _ cs us (fun b _ => S1 b) (S2 _) Eq) as (Q1 & ->).
  destruct (usol_spec pb c v f WP E HE) as (_ & Q0). fold B in Q0. clear Eq. apply Forall2_map_l in Q1. revert us Q1 Q0. generalize (usol pb v E). generalize (loads_of pb v).
  induction l as [|g l IH]; intros us0 us Q1 Q0; inversion Q1 as [|? u' ? us' R1 R2]; inversion Q0 as [|? u ? us0' R3 R4]; subst.
  { split; [reflexivity|constructor]. }
  destruct (IH us0' us' R2 R4) as (I1 & I2).
  assert (U : forall i, (i < fb_n B)%nat -> u' i = F / s * u i).
  { apply (equilibrium_unique (fb_n B) (stiffness B (pb_nu pb) E) (pb_D pb) (fun i => g i * (F / s)) _ _ (pb_supported E HE)).
    - destruct R1 as (A1 & A2). split; [exact A1|]. intros i Hi Hd. pose proof (A2 i Hi Hd) as A3.
      assert (M : mv (fb_n B) (stiffness (basis_scaled s B) (pb_nu pb) E) u' i = s * mv (fb_n B) (stiffness B (pb_nu pb) E) u' i).
      { unfold mv. rewrite <- sum_scal. apply sum_ext. intros j _. rewrite stiffness_scaled by exact Hs. ring. }
      rewrite M in A3. unfold times in A3. apply (Rmult_eq_reg_l s); [|lra]. rewrite A3. field. lra.
    - apply equilibrium_scale. exact R3. }
  split; [|now constructor]. cbn [map zipwith]. rewrite I1. f_equal.
  rewrite (work_ext _ _ _ u' (fun i => F / s * u i) U). unfold energy_factor.
  assert (Wk : forall a b w, work (fb_n B) (pb_D pb) (times a g) (fun i => b * w i) = a * b * work (fb_n B) (pb_D pb) g w).
  { intros a b w. unfold work. rewrite <- sum_scal. apply sum_ext. intros i _. unfold times. destruct (mem i (pb_D pb)); ring. }
  rewrite Wk. field. lra.
Qed.

Lemma cv_lin k x i : cv v f (map (Rmult k) x) i = k * cv v f x i.
Proof. unfold cv, conv. rewrite <- rs_scal. f_equal. apply map_ext. intros j. rewrite nth_scale. ring. Qed.
Lemma cvT_lin k x i : cvT v f (map (Rmult k) x) i = k * cvT v f x i.
Proof. unfold cvT, conv_T. rewrite <- rs_scal. f_equal. apply map_ext. intros j. rewrite nth_scale. ring. Qed.
Lemma filtered_lin k x : filtered v f (map (Rmult k) x) = map (Rmult k) (filtered v f x).
Proof.
  unfold filtered. rewrite map_map. apply map_ext. intros i. destruct (is_design (sf_mask f) i); [apply cv_lin|]. apply nth_scale.
Qed.
Lemma gfiltered_lin k E0 Emin p beta eta rf rp a U U' : (forall e, U' e = a * U e) ->
  grad_filtered k E0 Emin p beta eta rf rp U' = map (Rmult a) (grad_filtered k E0 Emin p beta eta rf rp U).
Proof.
  intros H. unfold grad_filtered. rewrite map_map. apply map_ext. intros e. rewrite H. destruct k; cbn [dC_of]; unfold dC_drho_simp, dC_drho_ramp, Rdiv; ring.
Qed.

Lemma evaluate_scaled rho : List.length rho = List.length (sf_centers f) -> (forall e, 0 <= nth e rho 0 <= 1) -> (0 < fb_n B)%nat ->
  exists ev ev', evaluate pb c v f rho = Ok (f2 v f, ev) /\
    evaluate_loads pb' L c (values_scaled s v) (filter_scaled s f) rho = Ok (filter_scaled s (f2 v f), ev') /\
    analysis_scaled (energy_factor s F) (sens_factor s F pb) ev ev' /\ List.length (ev_dC ev) = List.length rho /\
    List.length (ev_energy ev) = List.length (pb_loads pb) /\ List.length (ev_energy ev') = n_cases (fb_n B) L.
Proof.
  intros Hlen Hrho Hn.
  destruct (evaluate_total pb c v f rho WP Hlen (fun e _ => modulus_ok pb c v f rho WP (fun e => proj1 (Hrho e)) (fun _ e => proj2 (Hrho e)) e)) as (El & Hmod & HE & Hev).
  set (E := fun e => nth e El 0) in *. set (n := List.length (sf_centers f)) in *.
  assert (HE' : forall e, (e < fb_ne B)%nat -> 0 < E e) by (intros e He; apply HE; unfold n; rewrite (wp_elements _ _ _ _ WP); exact He).
  unfold pb', evaluate_loads. cbn [problem_scaled pb_basis pb_nu pb_E0 pb_D pb_slv pb_slvm values_scaled v_radius v_beta v_p v_scale basis_scaled fb_n]. fold B.
  rewrite radius_step by exact Hs. fold (f1 v f). rewrite forward_scaled by exact Hs. rewrite (forward1 pb c v f WP rho Hlen). cbn [bind].
  fold (projected c v f rho). change (Emin_of (problem_scaled s pb) c) with (Emin_of pb c). rewrite Hmod. cbn [bind]. fold E.
  destruct (usol_scaled E HE') as (cs & us & Hobj & Hcs & Hus). cbn [basis_scaled] in Hobj. fold B in Hobj. rewrite Hobj. cbn [bind].
  set (m := n_cases (fb_n B) L). set (cols := columns m us).
  set (energy := map (fun u => strain_energy (basis_scaled s B) (pb_nu pb) E u) cols).
  fold energy.
  set (gs := map _ energy). rewrite sum_gradients_scaled by exact Hs. rewrite (sum_gradients_eq v f).
  2: now rewrite repeat_length.
  2:{ intros g Hg. unfold gs in Hg. apply in_map_iff in Hg. destruct Hg as (U & <- & _). unfold grad_filtered. rewrite map_length, seq_length. apply projected_length. }
  cbn [bind]. fold n. set (g' := map _ (map _ (seq 0 n))).
  pose proof (Forall2_len _ _ _ Hus) as Hul. pose proof (usol_length pb c v f WP E HE') as Hul0.
  assert (Hul1 : List.length us = List.length (pb_loads pb)) by (transitivity (List.length (usol pb v E)); [symmetry; exact Hul|exact Hul0]).
  assert (Hul2 : List.length us = List.length (usol pb v E)) by (symmetry; exact Hul).
  set (ke := energy_factor s F) in *. set (k := sens_factor s F pb).
  assert (Hm : m = if Nat.eqb (List.length (pb_loads pb)) 1 then fb_n B else List.length (pb_loads pb)) by exact (n_cases_scaled _ _ _ _ HL).
  assert (Hml : (List.length us <= m)%nat).
  { rewrite Hm. destruct (Nat.eqb_spec (List.length (pb_loads pb)) 1); lia. }
  assert (HeU : forall u u', (forall i, (i < fb_n B)%nat -> u' i = F / s * u i) -> forall e, strain_energy (basis_scaled s B) (pb_nu pb) E u' e = ke * strain_energy B (pb_nu pb) E u e).
  { intros u u' HU e. rewrite (energy_ext (basis_scaled s B) _ _ u' (fun i => F / s * u i) e HU). rewrite energy_scaled by exact Hs. unfold ke, energy_factor. field. lra. }
  assert (Hsum : forall j, rsum (map (fun g => if is_design (sf_mask f) j then cvT v f g j else 0) gs) =
      ke * rsum (map (fun u => if is_design (sf_mask f) j then cvT v f (gfun pb c v f rho E u) j else 0) (usol pb v E))).
  { intros j. unfold gs, energy, cols, columns. rewrite !map_app, rs_app1. rewrite !map_map.
    assert (Z : rsum (map (fun x => if is_design (sf_mask f) j then cvT v f (grad_filtered (i_interp c) (pb_E0 pb) (Emin_of pb c) (v_p v) (v_beta v) (c_beta_eta (i_oc c)) (filtered v f rho) (projected c v f rho) (strain_energy (basis_scaled s B) (pb_nu pb) E x)) j else 0) (repeat (fun _ : nat => 0) (m - List.length us))) = 0).
    { apply rs_zero. intros u Hu. apply repeat_spec in Hu. subst u.
      destruct (is_design (sf_mask f) j); [|reflexivity].
      rewrite (gfiltered_lin _ _ _ _ _ _ _ _ 0 (fun _ => 0) (strain_energy (basis_scaled s B) (pb_nu pb) E (fun _ => 0))) by (intros e; rewrite energy_zero; ring).
      rewrite cvT_lin. ring. }
    rewrite Z, Rplus_0_r. clear Z. clear - Hus HeU Hs. induction Hus as [|u u' l l' HU _ IH]; cbn [map]; [unfold rsum; cbn; ring|].
    rewrite !rs_cons1. rewrite IH. rewrite Rmult_plus_distr_l. f_equal. destruct (is_design (sf_mask f) j); [|ring].
    unfold gfun. rewrite (gfiltered_lin _ _ _ _ _ _ _ _ ke (strain_energy B (pb_nu pb) E u) _ (HeU u u' HU)). apply cvT_lin. }
  assert (Hg' : g' = map (Rmult k) (dCfull pb c v f rho E)).
  { unfold g', dCfull. fold n. rewrite !map_map. apply map_ext. intros j. rewrite nth_repeat, Rplus_0_l, Hsum. unfold k, sens_factor, loads_count. fold ke. fold B. rewrite Hm.
    destruct (Nat.eqb_spec (List.length (pb_loads pb)) 1) as [E1|E1]; [rewrite E1|]; unfold Rdiv; [change (INR 1) with 1|]; rewrite ?Rinv_1; ring. }
  assert (HAS : forall d d', d' = map (Rmult k) d -> analysis_scaled ke k
     (mkEval (filtered v f rho) (projected c v f rho) (rsum (zipwith (fun g u => work (fb_n (pb_basis pb)) (pb_D pb) g u) (loads_of pb v) (usol pb v E)) / loads_count pb)
        (map (fun u => strain_energy (pb_basis pb) (pb_nu pb) E u) (usol pb v E)) d)
     (mkEval (filtered v f rho) (projected c v f rho) (rsum cs / INR (List.length cs)) energy d')).
  { intros d d' Hd. constructor; cbn [ev_filtered ev_projected ev_compliance ev_energy ev_dC]; auto.
    - rewrite Hcs, map_length. destruct (usol_spec pb c v f WP E HE') as (_ & Q0). rewrite (zipwith_len_F2 _ _ _ _ Q0). unfold loads_of at 2. rewrite map_length.
      unfold loads_count. rewrite rs_mult. fold B. unfold Rdiv. rewrite Rmult_assoc. reflexivity.
    - intros j Hj e. rewrite map_length in Hj. unfold energy, cols, columns. rewrite map_app, app_nth1 by (rewrite map_length; lia).
      clear - Hus HeU Hj. revert j Hj. induction Hus as [|u u' l l' HU _ IH]; intros j Hj; [cbn in Hj; lia|]. destruct j as [|j]; cbn [map nth]; [now apply HeU|]. apply IH. cbn in Hj. lia.
    - intros j Hj e. rewrite map_length in Hj. unfold energy, cols, columns. rewrite map_app, app_nth2 by (rewrite map_length; lia). rewrite map_length.
      set (q := (j - List.length us)%nat). generalize (m - List.length us)%nat as r. clearbody q. clear. intros r. revert q. induction r as [|r IH]; intros q; cbn [repeat map]; [destruct q; reflexivity|].
      destruct q as [|q]; cbn [nth]; [apply energy_zero|apply IH]. }
  assert (HNC : List.length (map (fun u => strain_energy (pb_basis pb) (pb_nu pb) E u) (usol pb v E)) = List.length (pb_loads pb) /\ List.length energy = n_cases (fb_n B) L).
  { split; [rewrite map_length; exact Hul0|]. unfold energy, cols, columns. rewrite map_length, app_length, repeat_length. fold m. lia. }
  destruct (i_sens_filter c) eqn:Esf.
  - rewrite Hg'. rewrite forward_scaled by exact Hs.
    assert (Hf : forall x, List.length x = n -> sf_forward (f2 v f) x = Ok (f2 v f, filtered v f x)).
    { intros x Hx. destruct (f1_eq v f) as (E1 & E2 & E3). rewrite (forward_eq (f2 v f)).
      - unfold f2 at 1. cbn [sf_centers sf_mask sf_radius]. unfold f2. f_equal. f_equal. f_equal. f_equal.
        unfold Wof. cbn [sf_centers sf_mask sf_radius]. now rewrite E1, E2, E3.
      - cbn. apply (wp_radius _ _ _ _ WP).
      - cbn. apply (ids_nonempty pb c v f WP).
      - cbn. exact Hx. }
    rewrite Hf by (rewrite map_length; unfold dCfull; rewrite map_length, seq_length; reflexivity). cbn [bind].
    do 2 eexists. split; [exact Hev|]. split; [reflexivity|]. split; [apply HAS, filtered_lin|]. cbn [ev_dC]. split; [unfold filtered; rewrite map_length, seq_length; symmetry; exact Hlen|exact HNC].
  - do 2 eexists. split; [exact Hev|]. split; [reflexivity|]. split; [apply HAS; exact Hg'|]. cbn [ev_dC]. split; [unfold dCfull; rewrite map_length, seq_length; symmetry; exact Hlen|exact HNC].
Qed.
End Problem.
