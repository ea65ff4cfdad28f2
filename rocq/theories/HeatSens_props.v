(* C70: thermal compliance and its reported sensitivity; C71: other objectives and
   the other interpolation law. *)
From Verif Require Import Base Sums Material_model Material_proofs OC_model Mesh_model Fea_model Fea_spec Fea_proofs Fea_props Iter_model Grad_proofs
  Heat_model Heat_spec Heat_proofs Heat_props HeatGrad_props.
Open Scope R_scope.
Open Scope list_scope.

Lemma explicit_uniform H x T A h p q' v : shapes H -> mesh_ok H -> explicit_nodal H (nodal_average (hb_t H) (repeat x (ne H))) T A h p q' v = 0.
Proof.
  intros Sh M. unfold explicit_nodal. rewrite (integral_ext H _ (fun e q => 0 * 0)); [rewrite (integral_scal H 0 (fun _ _ => 0)); ring|].
  intros e q He Hq. set (r := nodal_average _ _). assert (Gz : forall i, (i < 3)%nat -> gradv H r e q 0%nat i = 0) by (intros; now apply grad_nodal_uniform).
  assert (N : gnorm (gradv H r e q) = 0).
  { unfold gnorm. rewrite vdot3_eq, !Gz by lia. replace (0 * 0 + 0 * 0 + 0 * 0) with 0 by ring. apply sqrt_0. }
  rewrite N, (vdot3_eq (gradv H r e q)), !Gz by lia. unfold Rdiv. ring.
Qed.
Lemma rsum_map_scal {A} c (f : A -> R) l : rsum (map (fun x => c * f x) l) = c * rsum (map f l).
Proof. induction l; unfold rsum in *; cbn [map fold_right]; [ring|rewrite IHl; ring]. Qed.
Lemma energies_sum H k T x : (forall e, (e < ne H)%nat -> k e = x) ->
  rsum (map (heat_energy H k T) (seq 0 (ne H))) = / 2 * x * unit_cond H T T.
Proof.
  intros E. unfold unit_cond, conducted. rewrite <- (integral_scal H (/ 2 * x)). unfold integral. unfold sum at 1. f_equal. apply map_ext_in.
  intros e He. apply in_seq in He. unfold heat_energy. apply sum_ext. intros q Hq. rewrite E by (unfold ne in *; lia). ring.
Qed.
Lemma zipwith_map {A B C D} (f : A -> B -> C) (g : D -> A) (h : D -> B) l : zipwith f (map g l) (map h l) = map (fun x => f (g x) (h x)) l.
Proof. induction l; cbn [map zipwith]; congruence. Qed.
(* what is reported for a uniform design x: the SIMP slope over the SIMP value times
   the heat conducted *)
Lemma uniform_reported s A g x T G : shapes (hs_H s) -> mesh_ok (hs_H s) -> 0 < hs_p s -> 0 < hs_k s -> 0 < hs_c s <= 1 ->
  tiny <= hs_c s * hs_k s -> floor6 <= x <= 1 -> reported s A (Flt g) (repeat x (ne (hs_H s))) [T] G ->
  exists gr, G = [gr] /\ List.length gr = ne (hs_H s) /\
    rsum gr = - (dconductivity SIMP (hs_k s) (hs_c s) (hs_p s) x / conductivity SIMP (hs_k s) (hs_c s) (hs_p s) x *
      (conductivity (hs_ip s) (hs_k s) (hs_c s) (hs_p s) x * unit_cond (hs_H s) T T)).
Proof.
  intros Sh M Hp Hk Hc Ht Hx (dr & tk & B & E). assert (F6 : 0 < floor6) by (unfold floor6; lra).
  pose proof (from_facets_robin _ _ _ _ _ _ _ _ _ _ _ B) as (UR & EH & En & Ev & Ek & Eo & _ & _).
  destruct UR as [(Ec & Ee & _)|(ES & _)].
  2: { exfalso. rewrite ES in B. unfold from_facets in B. cbn [bind] in B. discriminate. }
  set (H := hs_H s) in *.
  unfold heat_sensitivity in E. cbn [hf_task hf_interp hf_q] in E. unfold kmin in E. cbn [hf_task hf_coeff] in E. rewrite EH, Ek in E.
  rewrite moduli_ok in E by (auto; intros y Hy; apply repeat_spec in Hy; subst; lra). cbn [bind] in E.
  set (ks := map (conductivity (hs_ip s) (hs_k s) (hs_c s) (hs_p s)) (repeat x (ne H))) in E.
  assert (Nk : forall e, (e < ne H)%nat -> nth e ks 0 = conductivity (hs_ip s) (hs_k s) (hs_c s) (hs_p s) x).
  { intros e He. unfold ks. rewrite (nth_indep _ 0 (conductivity (hs_ip s) (hs_k s) (hs_c s) (hs_p s) 0)) by (rewrite map_length, repeat_length; auto).
    rewrite map_nth. f_equal. rewrite nth_indep with (d' := x) by (rewrite repeat_length; auto). apply nth_repeat. }
  rewrite repeat_length in E.
  cbn [map] in E. set (base := fun e => dC_drho_simp (nth e (repeat x (ne H)) 0) (heat_energy H (fun e' => nth e' ks 0) T e) (hs_k s) (hs_k s * hs_c s) (hs_p s)).
  change (fun e => dC_drho_simp (nth e (repeat x (ne H)) 0) (heat_energy H (fun e' => nth e' ks 0) T e) (hs_k s) (hs_k s * hs_c s) (hs_p s)) with base in E.
  exists (map (fun e => - (dconductivity SIMP (hs_k s) (hs_c s) (hs_p s) x / conductivity SIMP (hs_k s) (hs_c s) (hs_p s) x * 2) * heat_energy H (fun e' => nth e' ks 0) T e) (seq 0 (ne H))).
  assert (EB : forall e, In e (seq 0 (ne H)) -> base e = - (dconductivity SIMP (hs_k s) (hs_c s) (hs_p s) x / conductivity SIMP (hs_k s) (hs_c s) (hs_p s) x * 2) * heat_energy H (fun e' => nth e' ks 0) T e).
  { intros e He. apply in_seq in He. unfold base. rewrite nth_indep with (d' := x) by (rewrite repeat_length; lia). rewrite nth_repeat.
    unfold dC_drho_simp, dE_drho_simp, E_simp. rewrite Rmax_left by lra. unfold conductivity, dconductivity.
    destruct (Rlt_dec 0 x); [|lra]. pose proof (Rpower_pos x (hs_p s)). 
    assert (P1 : 0 <= (hs_k s - hs_k s * hs_c s) * Rpower x (hs_p s)) by (apply Rmult_le_pos; nra).
    assert (P2 : 0 < hs_k s * hs_c s) by (apply Rmult_lt_0_compat; lra).
    rewrite (Rmax_left _ tiny) by lra. field. replace (hs_c s * hs_k s + (hs_k s - hs_c s * hs_k s) * Rpower x (hs_p s)) with (hs_k s * hs_c s + (hs_k s - hs_k s * hs_c s) * Rpower x (hs_p s)) by ring. lra. }
  split; [|split; [rewrite map_length, seq_length; reflexivity|]].
  - rewrite Ec, Ee in E. rewrite Eo in E. destruct (hs_obj s); cbn [values_list zipwith] in E; injection E as <-; f_equal.
    + rewrite zipwith_map. apply map_ext_in. intros e He. rewrite EB by auto.
      assert (Z : to_elements (hb_t H) (explicit_nodal H (nodal_average (hb_t H) (repeat x (ne H))) T A (hs_h s) (hs_p s) (hs_q s)) e = 0).
      { unfold to_elements. rewrite (map_ext _ (fun _ => 0 * 0)); [rewrite (rsum_map_scal 0 (fun _ => 0)); ring|].
        intros row. rewrite explicit_uniform by auto. unfold Rdiv. ring. }
      rewrite Z. cbn [rsum fold_right]. unfold rsum. cbn [fold_right]. ring.
    + apply map_ext_in. exact EB.
    + apply map_ext_in. exact EB.
  - rewrite rsum_map_scal, (energies_sum H _ T (conductivity (hs_ip s) (hs_k s) (hs_c s) (hs_p s) x)) by exact Nk. field.
    pose proof (conductivity_pos SIMP (hs_k s) (hs_c s) (hs_p s) x Hk Hc Hp ltac:(lra)). lra.
Qed.
Lemma uniform_analysed s D A g t : uniform_problem s D -> 0 <= t <= 1 ->
  analysis s A (Flt g) (uniform s t) [objective_value s A g (uniform s t)] [temperature_field s A g (uniform s t)].
Proof.
  intros (W & _ & HS & Hsol & _) Ht. pose proof (well_uniform s D 1 t W Ht) as Wt.
  destruct (analysed_ok s D A (Flt g) _ Wt HS Hsol I) as (Js & Ts & E & LJ & LT). cbn [values_list List.length] in LJ, LT.
  pose proof (analysed_analysis _ _ _ _ _ _ E) as An. fold (uniform s t) in E, An. unfold objective_value, temperature_field. rewrite E.
  destruct Js as [|J [|? ?]]; try discriminate. destruct Ts as [|T [|? ?]]; try discriminate. exact An.
Qed.
Lemma up_tiny s D : uniform_problem s D -> tiny <= hs_c s * hs_k s.
Proof. intros (_ & _ & _ & _ & Ht). unfold tiny. lra. Qed.
Lemma up_reported s D A g x T G : uniform_problem s D -> floor6 <= x <= 1 -> reported s A (Flt g) (uniform s x) [T] G ->
  exists gr, G = [gr] /\ rsum gr = - (dconductivity SIMP (hs_k s) (hs_c s) (hs_p s) x / conductivity SIMP (hs_k s) (hs_c s) (hs_p s) x *
      (conductivity (hs_ip s) (hs_k s) (hs_c s) (hs_p s) x * unit_cond (hs_H s) T T)).
Proof.
  intros UP Hx Rp. pose proof UP as ((_ & _ & [Sh SS An Hh Hk Hc Hp Lr Hr] & _) & M & _).
  destruct (uniform_reported s A g x T G Sh M Hp Hk Hc (up_tiny _ _ UP) Hx Rp) as (gr & E & _ & Es). eauto.
Qed.
(* ---- C70: the derivative of the compliance under a uniform change of the density is
   -(g+A)/(g-A) times the sum of the reported sensitivities ---- *)
Theorem C70_compliance_derivative s D A g x gr : uniform_problem s D -> hs_obj s = Compliance -> hs_ip s = SIMP ->
  floor6 <= x < 1 -> g <> A -> reported s A (Flt g) (uniform s x) [temperature_field s A g (uniform s x)] [gr] ->
  derivable_pt_lim (fun t => objective_value s A g (uniform s t)) x (- ((g + A) / (g - A)) * rsum gr).
Proof.
  intros UP Eo Ei Hx Hg Rp. assert (F6 : 0 < floor6) by (unfold floor6; lra).
  destruct (up_reported s D A g x _ _ UP ltac:(lra) Rp) as (gr' & [= <-] & Es). rewrite Es, Ei.
  pose proof UP as (W & M & _). pose proof W as (_ & _ & [Sh SS An Hh Hk Hc Hp Lr Hr] & _).
  pose proof (conductivity_pos SIMP (hs_k s) (hs_c s) (hs_p s) x Hk Hc Hp ltac:(lra)) as Kp.
  pose proof (u_derive s D A g (fun t => objective_value s A g (uniform s t)) (fun t => temperature_field s A g (uniform s t))
    (fun t Ht => well_uniform s D 1 t W Ht) M Eo (fun t Ht => uniform_analysed s D A g t UP ltac:(lra)) x ltac:(lra) Hg) as Dv.
  rewrite Ei in Dv. cbv beta in Dv.
  match type of Dv with derivable_pt_lim _ _ ?L => match goal with |- derivable_pt_lim _ _ ?L' => replace L' with L; [exact Dv|] end end.
  field. split; lra.
Qed.
(* held at temperature 0: correct *)
Theorem C70_correct_when_held_at_zero s D A x gr : uniform_problem s D -> hs_obj s = Compliance -> hs_ip s = SIMP ->
  floor6 <= x < 1 -> A <> 0 -> reported s A (Flt 0) (uniform s x) [temperature_field s A 0 (uniform s x)] [gr] ->
  derivable_pt_lim (fun t => objective_value s A 0 (uniform s t)) x (rsum gr).
Proof.
  intros UP Eo Ei Hx HA Rp. pose proof (C70_compliance_derivative s D A 0 x gr UP Eo Ei Hx ltac:(lra) Rp) as Dv.
  replace (rsum gr) with (- ((0 + A) / (0 - A)) * rsum gr) by (field; lra). exact Dv.
Qed.
(* refuted otherwise: ambient 0 gives exactly the negative of the gradient, and whenever
   the prescribed temperature exceeds the ambient in absolute value the true derivative
   and the reported one have opposite signs *)
Theorem C70_sign_refuted s D A g x gr : uniform_problem s D -> hs_obj s = Compliance -> hs_ip s = SIMP ->
  floor6 <= x < 1 -> Rabs A < Rabs g -> reported s A (Flt g) (uniform s x) [temperature_field s A g (uniform s x)] [gr] ->
  rsum gr <= 0 /\
  (A = 0 -> derivable_pt_lim (fun t => objective_value s A g (uniform s t)) x (- rsum gr)) /\
  (rsum gr <> 0 -> exists L, derivable_pt_lim (fun t => objective_value s A g (uniform s t)) x L /\ L > 0).
Proof.
  intros UP Eo Ei Hx HA Rp. assert (F6 : 0 < floor6) by (unfold floor6; lra). assert (Hg : g <> A) by (intros ->; lra).
  pose proof (C70_compliance_derivative s D A g x gr UP Eo Ei Hx Hg Rp) as Dv.
  destruct (up_reported s D A g x _ _ UP ltac:(lra) Rp) as (gr' & [= <-] & Es).
  pose proof UP as (W & M & _). pose proof W as (_ & _ & [Sh SS An Hh Hk Hc Hp Lr Hr] & _).
  assert (N : rsum gr <= 0).
  { rewrite Es. pose proof (conductivity_pos SIMP (hs_k s) (hs_c s) (hs_p s) x Hk Hc Hp ltac:(lra)) as K1.
    pose proof (conductivity_pos (hs_ip s) (hs_k s) (hs_c s) (hs_p s) x Hk Hc Hp ltac:(lra)) as K2.
    assert (0 <= dconductivity SIMP (hs_k s) (hs_c s) (hs_p s) x).
    { cbn [dconductivity]. apply Rmult_le_pos; [nra|]. apply Rmult_le_pos; [lra|]. left. apply Rpower_pos. }
    assert (0 <= unit_cond (hs_H s) (temperature_field s A g (uniform s x)) (temperature_field s A g (uniform s x))) by (apply (cond_nonneg (hs_H s) (fun _ => 1)); [auto|intros; lra]).
    assert (P : 0 <= dconductivity SIMP (hs_k s) (hs_c s) (hs_p s) x / conductivity SIMP (hs_k s) (hs_c s) (hs_p s) x *
      (conductivity (hs_ip s) (hs_k s) (hs_c s) (hs_p s) x * unit_cond (hs_H s) (temperature_field s A g (uniform s x)) (temperature_field s A g (uniform s x)))).
    { apply Rmult_le_pos; apply Rmult_le_pos; auto; [left; now apply Rinv_0_lt_compat|lra]. }
    lra. }
  split; [exact N|]. split.
  - intros ->. replace (- rsum gr) with (- ((g + 0) / (g - 0)) * rsum gr) by (field; lra). exact Dv.
  - intros NZ. exists (- ((g + A) / (g - A)) * rsum gr). split; [exact Dv|].
    assert (0 < (g + A) / (g - A)).
    { assert (0 < (g + A) * (g - A)). { apply Rsqr_lt_abs_1 in HA. unfold Rsqr in HA. nra. }
      assert (0 < (g - A) * (g - A)) by (assert (g - A <> 0) by lra; pose proof (Rsqr_pos_lt _ H0); exact H1).
      replace ((g + A) / (g - A)) with ((g + A) * (g - A) / ((g - A) * (g - A))) by (field; lra). now apply Rdiv_lt_0_compat. }
    assert (rsum gr < 0) by lra. nra.
Qed.
(* held at the ambient temperature: nothing to optimise, and 0 is reported *)
Theorem C70_held_at_ambient s D A x gr : uniform_problem s D -> hs_obj s = Compliance ->
  floor6 <= x < 1 -> reported s A (Flt A) (uniform s x) [temperature_field s A A (uniform s x)] [gr] ->
  derivable_pt_lim (fun t => objective_value s A A (uniform s t)) x (rsum gr) /\ rsum gr = 0.
Proof.
  intros UP Eo Hx Rp. assert (F6 : 0 < floor6) by (unfold floor6; lra).
  destruct (up_reported s D A A x _ _ UP ltac:(lra) Rp) as (gr' & [= <-] & Es).
  pose proof UP as (W & M & _). pose proof W as (_ & _ & [Sh SS An Hh Hk Hc Hp Lr Hr] & _).
  assert (Con : forall t, 0 <= t <= 1 -> forall i, (i < hn (hs_H s))%nat -> temperature_field s A A (uniform s t) i = A).
  { intros t Ht. pose proof (well_uniform s D 1 t W Ht) as Wt.
    destruct (analysis_temperature s D A (Flt A) _ _ _ Wt (uniform_analysed s D A A t UP Ht)) as (_ & T1).
    specialize (T1 0%nat ltac:(cbn; lia)). cbn [values_list nth] in T1.
    apply (well_unique s D _ A A _ (fun _ => A) Wt T1). split; [reflexivity|]. intros v Hv. rewrite const_cond by auto.
    rewrite exchanged_eq by auto. rewrite (exch0_ext _ _ _ _ (fun _ => A) (fun i => A * one i + 0 * one i) v v) by (auto; intros; unfold one; ring).
    rewrite exch0_lin. ring. }
  assert (Z : rsum gr = 0).
  { rewrite Es. unfold unit_cond. rewrite (cond_ext _ _ _ (fun _ => A) _ (temperature_field s A A (uniform s x))) by (auto; apply Con; lra).
    rewrite const_cond by auto. ring. }
  split; [|exact Z]. rewrite Z.
  apply (derive_locally (fun _ => A * A * surf0 s one one)); [|apply derivable_pt_lim_const].
  exists (Rmin x (1 - x)). split; [apply Rmin_glb_lt; lra|]. intros t Ht.
  pose proof (Rmin_l x (1 - x)). pose proof (Rmin_r x (1 - x)). apply Rabs_def2 in Ht.
  pose proof (compliance_value s D A (Flt A) _ _ _ Eo (well_uniform s D 1 t W ltac:(lra)) (uniform_analysed s D A A t UP ltac:(lra)) 0%nat ltac:(cbn; lia)) as J.
  cbn [nth] in J. fold (uniform s t) in J. cbv beta. rewrite J. clear J.
  rewrite (aform_ext _ _ _ _ _ _ (fun i => A * one i + 0 * one i) _ (fun i => A * one i + 0 * one i)) by (intros; unfold one; rewrite Con by (auto; lra); ring).
  rewrite aform_lin, aform_lin_r. unfold aform. rewrite cond_one by auto. unfold surf0.
  rewrite (exch0_lay (hs_H s) _ _ (lay_of s (uniform s t)) (fun _ _ => 0)) by (intros; unfold lay_of, uniform; apply layer_uniform; auto). ring.
Qed.
(* the sensitivity routine answers on every sound problem *)
Lemma reported_ok s D A g x T : uniform_problem s D -> 0 <= x <= 1 -> exists gr, reported s A (Flt g) (uniform s x) [T] [gr].
Proof.
  intros UP Hx. pose proof UP as ((_ & _ & [Sh SS An Hh Hk Hc Hp Lr Hr] & _) & M & HS & _).
  assert (B : exists tk, from_facets (hs_H s) (Lst (hs_ns s)) (Flt g) (Some (hs_Ss s)) (Some (Flt (hs_h s))) (Some (Flt A)) None (hs_k s) (hs_obj s) (hs_w s) = Ok tk).
  { unfold from_facets. cbn [bind]. destruct (hs_Ss s) as [|S0 Ss0]; [congruence|]. rewrite surface_robin_floats. cbn [bind]. eexists. reflexivity. }
  destruct B as (tk & B). pose proof (from_facets_robin _ _ _ _ _ _ _ _ _ _ _ B) as (UR & EH & En & Ev & Ek & Eo & _ & _).
  destruct UR as [(Ec & Ee & _)|(ES & _)]; [|congruence].
  assert (R : exists gr, heat_sensitivity (mkHFem tk (hs_c s) (hs_ip s) (hs_q s) (hs_sol s) (hs_slvm s)) (hs_p s) (uniform s x) [T] = Ok [gr]).
  { unfold heat_sensitivity. cbn [hf_task hf_interp]. unfold kmin. cbn [hf_task hf_coeff]. rewrite Ek, Ec, Ee.
    rewrite moduli_ok by (auto; intros y Hy; apply repeat_spec in Hy; subst; lra). cbn [bind map zipwith]. destruct (ht_obj tk); eexists; reflexivity. }
  destruct R as (gr & R). exists gr, None, tk. split; [exact B|exact R].
Qed.

(* ---- C70, C71: the bar ---- *)
(* one bar, solid conductivity 10, held at vertex 0, exchange 4 at vertex 1 *)
Definition bar (obj : hobjective) (ip : interp) : hsettings :=
  mkHS (bars 1) [[0]]%nat [tip] 4 10 (1 / 100) 3 obj 0 ip 4 HAuto (fun A bs => map (cramer A) bs).
Lemma bars_mesh : mesh_ok (bars 1).
Proof.
  split; [intros row [<-|[<-|[]]]; reflexivity|]. intros [|[|v]] Hv; cbn; auto. cbn in Hv. lia.
Qed.
Lemma bar_problem obj ip : uniform_problem (bar obj ip) [0%nat].
Proof.
  split; [|split; [apply bars_mesh|split; [discriminate|split; [discriminate|cbn; lra]]]].
  split; [reflexivity|]. split; [|split; [|apply cramer_exact]].
  - intros D' [<-|[]] i; reflexivity.
  - constructor; cbn [bar hs_H hs_Ss hs_h hs_k hs_c hs_p]; try lra.
    + apply bars_shapes.
    + intros S [<-|[]]. apply tip_shapes.
    + apply bars_anchored. lia.
    + reflexivity.
    + intros x [<-|[]]; lra.
Qed.
Lemma sum1 f : sum 1 f = f 0%nat.
Proof. unfold sum. cbn [seq map rsum fold_right]. ring. Qed.
Lemma bar_uform obj ip t u v : uform (bar obj ip) t u v = conductivity ip 10 (1 / 100) 3 t * ((u 1%nat - u 0%nat) * (v 1%nat - v 0%nat)) + 4 * u 1%nat * v 1%nat.
Proof.
  unfold uform, unit_cond, surf0, conducted, exch0, integral, surf_integral, value_of, sval_of. cbn [bar hs_H hs_ip hs_k hs_c hs_p hs_Ss hs_h bars hb_B fb_ne fb_nq fb_dx map rsum fold_right tip sf_np sf_val sf_dx].
  rewrite !sum1, vdot3_eq. unfold gradv, grad_of. cbn [bars hb_B fb_n fb_grad]. unfold hn. cbn [bars hb_B fb_n]. rewrite !sum2. cbn [Nat.eqb]. ring.
Qed.
Lemma bar_temperature obj ip A g t : 0 < t <= 1 ->
  temperature_field (bar obj ip) A g (uniform (bar obj ip) t) 0%nat = g /\
  temperature_field (bar obj ip) A g (uniform (bar obj ip) t) 1%nat =
    (conductivity ip 10 (1 / 100) 3 t * g + 4 * A) / (conductivity ip 10 (1 / 100) 3 t + 4).
Proof.
  intros Ht. set (s := bar obj ip). pose proof (bar_problem obj ip) as UP. fold s in UP. pose proof UP as (W & M & _).
  pose proof (conductivity_pos ip 10 (1 / 100) 3 t ltac:(lra) ltac:(lra) ltac:(lra) ltac:(lra)) as Kp.
  destruct (analysis_temperature s [0%nat] A (Flt g) _ _ _ (well_uniform s _ 1 t W ltac:(lra)) (uniform_analysed s _ A g t UP ltac:(lra))) as (_ & T1).
  specialize (T1 0%nat ltac:(cbn; lia)). cbn [values_list nth] in T1.
  set (T := temperature_field s A g (uniform s t)) in *.
  apply temperature_form in T1; [|apply bars_shapes|intros S [<-|[]]; apply tip_shapes]. destruct T1 as (B & Wf).
  assert (B0 : T 0%nat = g) by (apply B; [cbn; lia|now left]). split; [exact B0|].
  specialize (Wf (unit 1) ltac:(intros i Hi [<-|[]]; reflexivity)).
  fold (kap_of s (uniform s t)) in Wf. unfold uniform in Wf.
  rewrite (u_aform s [0%nat] (fun t Ht => well_uniform s _ 1 t W Ht) M) in Wf.
  rewrite (exch0_lay (hs_H s) _ _ (lay_of s (repeat t (ne (hs_H s)))) (fun _ _ => 0)) in Wf by (intros; unfold lay_of; apply layer_uniform; auto; apply bars_shapes).
  fold (surf0 s one (unit 1)) in Wf.
  replace (surf0 s one (unit 1)) with (uform s t one (unit 1)) in Wf
    by (unfold uform, unit_cond; rewrite cond_one by apply bars_shapes; ring).
  unfold s in Wf. rewrite !bar_uform in Wf. unfold unit, one in Wf. cbn [Nat.eqb] in Wf. rewrite B0 in Wf.
  apply (Rmult_eq_reg_r (conductivity ip 10 (1 / 100) 3 t + 4)); [|lra]. unfold Rdiv. rewrite Rmult_assoc, Rinv_l by lra. lra.
Qed.
Lemma bar_cond T : unit_cond (bars 1) T T = (T 1%nat - T 0%nat) * (T 1%nat - T 0%nat).
Proof.
  unfold unit_cond, conducted, integral. cbn [bars hb_B fb_ne fb_nq fb_dx]. rewrite !sum1, vdot3_eq. unfold gradv, grad_of. cbn [bars hb_B fb_n fb_grad].
  rewrite !sum2. cbn [Nat.eqb]. ring.
Qed.
Lemma dcond_pos ip k c p x : 0 < k -> 0 < c < 1 -> 0 < p -> 0 < x <= 1 -> 0 < dconductivity ip k c p x.
Proof.
  intros Hk Hc Hp Hx. assert (0 < k - c * k) by nra. destruct ip; cbn [dconductivity].
  - pose proof (Rpower_pos x (p - 1)). apply Rmult_lt_0_compat; [auto|]. now apply Rmult_lt_0_compat.
  - assert (0 < 1 + p * (1 - x)) by nra. apply Rmult_lt_0_compat; [auto|]. apply Rdiv_lt_0_compat; [lra|]. now apply pow_lt.
Qed.
Lemma bar_reported obj ip A g x gr : g <> A -> floor6 <= x <= 1 ->
  reported (bar obj ip) A (Flt g) (uniform (bar obj ip) x) [temperature_field (bar obj ip) A g (uniform (bar obj ip) x)] [gr] -> rsum gr < 0.
Proof.
  intros Hg Hx Rp. assert (F6 : 0 < floor6) by (unfold floor6; lra).
  destruct (up_reported _ _ A g x _ _ (bar_problem obj ip) Hx Rp) as (gr' & [= <-] & Es). rewrite Es. cbn [bar hs_k hs_c hs_p hs_ip hs_H]. fold (bar obj ip).
  destruct (bar_temperature obj ip A g x ltac:(lra)) as (T0 & T1). rewrite bar_cond, T0, T1.
  pose proof (conductivity_pos ip 10 (1 / 100) 3 x ltac:(lra) ltac:(lra) ltac:(lra) ltac:(lra)) as K1.
  pose proof (conductivity_pos SIMP 10 (1 / 100) 3 x ltac:(lra) ltac:(lra) ltac:(lra) ltac:(lra)) as K2.
  pose proof (dcond_pos SIMP 10 (1 / 100) 3 x ltac:(lra) ltac:(lra) ltac:(lra) ltac:(lra)) as K3.
  set (k1 := conductivity ip _ _ _ _) in *. set (k2 := conductivity SIMP _ _ _ _) in *. set (k3 := dconductivity SIMP _ _ _ _) in *.
  replace ((k1 * g + 4 * A) / (k1 + 4) - g) with (4 * (A - g) / (k1 + 4)) by (field; lra).
  assert (Q : 4 * (A - g) / (k1 + 4) <> 0).
  { unfold Rdiv. apply Rmult_integral_contrapositive_currified; [lra|]. apply Rinv_neq_0_compat. lra. }
  pose proof (Rsqr_pos_lt _ Q) as Q2. unfold Rsqr in Q2.
  assert (0 < k3 / k2 * (k1 * (4 * (A - g) / (k1 + 4) * (4 * (A - g) / (k1 + 4))))); [|lra].
  apply Rmult_lt_0_compat; [now apply Rdiv_lt_0_compat|]. now apply Rmult_lt_0_compat.
Qed.
(* held at 600 in ambient 300: more material raises the compliance, and the reported
   sensitivity says it lowers it *)
Theorem C70_instance x : floor6 <= x < 1 -> exists gr L,
  reported (bar Compliance SIMP) 300 (Flt 600) [x] [temperature_field (bar Compliance SIMP) 300 600 [x]] [gr] /\ rsum gr < 0 /\
  derivable_pt_lim (fun t => objective_value (bar Compliance SIMP) 300 600 [t]) x L /\ L = -3 * rsum gr /\ L > 0.
Proof.
  intros Hx. assert (F6 : 0 < floor6) by (unfold floor6; lra). set (s := bar Compliance SIMP).
  destruct (reported_ok s _ 300 600 x (temperature_field s 300 600 (uniform s x)) (bar_problem Compliance SIMP) ltac:(lra)) as (gr & Rp).
  exists gr, (-3 * rsum gr). split; [exact Rp|]. pose proof (bar_reported Compliance SIMP 300 600 x gr ltac:(lra) ltac:(lra) Rp) as N.
  split; [exact N|]. split; [|split; [reflexivity|lra]].
  pose proof (C70_compliance_derivative s _ 300 600 x gr (bar_problem Compliance SIMP) eq_refl eq_refl Hx ltac:(lra) Rp) as Dv.
  replace (-3 * rsum gr) with (- ((600 + 300) / (600 - 300)) * rsum gr) by field. exact Dv.
Qed.
(* ---- C71 ---- *)
(* same problem with another objective and weight *)
Definition with_objective (s : hsettings) (o : hobjective) (w : R) : hsettings :=
  mkHS (hs_H s) (hs_ns s) (hs_Ss s) (hs_h s) (hs_k s) (hs_c s) (hs_p s) o w (hs_ip s) (hs_q s) (hs_sol s) (hs_slvm s).
(* the two other objectives, and any weight, get the same sensitivities *)
Theorem C71_objective_ignored s A values rho Ts G o w o' w' : o <> Compliance -> o' <> Compliance ->
  reported (with_objective s o w) A values rho Ts G -> reported (with_objective s o' w') A values rho Ts G.
Proof.
  intros Ho Ho' (dr & tk & B & R). unfold reported in *. cbn [with_objective hs_H hs_ns hs_Ss hs_h hs_k hs_c hs_p hs_obj hs_w hs_ip hs_q hs_sol hs_slvm] in *.
  unfold from_facets in B. destruct values as [v|v|l]; [| |];
    (match type of B with bind ?y _ = _ => destruct y as [u|] eqn:EV; [|discriminate] end; cbn [bind] in B;
    destruct (hs_Ss s) as [|S0 Ss0] eqn:ES; [discriminate|];
    rewrite surface_robin_floats in B; cbn [bind] in B; injection B as <-;
    exists dr; eexists; split; [unfold from_facets; rewrite EV; cbn [bind]; rewrite surface_robin_floats; cbn [bind]; reflexivity|];
    rewrite <- R; unfold heat_sensitivity; cbn [hf_task ht_H ht_obj ht_coef ht_env ht_k hf_interp]; unfold kmin; cbn [hf_task ht_k hf_coeff];
    destruct o, o'; congruence).
Qed.
Lemma average_value s D A values rho Js Ts : hs_obj s = AveragedTemp -> well_set s D rho -> analysis s A values rho Js Ts ->
  Js = map (fun T => sum (hn (hs_H s)) T) Ts.
Proof.
  intros Eo (HD & Same & Sd & Hex) (dr & tk & B & Hrun).
  pose proof (from_facets_robin _ _ _ _ _ _ _ _ _ _ _ B) as (UR & EH & En & Ev & Ek & Eob & _ & HV).
  unfold objectives_multi_load in Hrun. cbn [hf_task] in Hrun. rewrite EH in Hrun.
  destruct (n_tasks tk) as [nc|]; [|discriminate]. cbn [bind] in Hrun.
  match type of Hrun with bind ?x _ = _ => destruct x; [|discriminate] end. cbn [bind] in Hrun.
  destruct (heat_system _ _ _) as [sys|]; [|discriminate]. cbn [bind] in Hrun.
  destruct (solve_heat _ _ _ _ _ _ _) as [us|]; [|discriminate]. cbn [bind] in Hrun.
  rewrite Eob, Eo in Hrun. injection Hrun as EJ EU; subst us Js. reflexivity.
Qed.
(* refuted for the averaged temperature: held hotter than the ambient, more material
   makes the bar hotter, and the reported sensitivity says cooler *)
Theorem C71_average_refuted A g x : A < g -> floor6 <= x < 1 -> exists gr L,
  reported (bar AveragedTemp SIMP) A (Flt g) [x] [temperature_field (bar AveragedTemp SIMP) A g [x]] [gr] /\ rsum gr < 0 /\
  derivable_pt_lim (fun t => objective_value (bar AveragedTemp SIMP) A g [t]) x L /\ L > 0.
Proof.
  intros Hg Hx. assert (F6 : 0 < floor6) by (unfold floor6; lra). set (s := bar AveragedTemp SIMP). pose proof (bar_problem AveragedTemp SIMP) as UP. fold s in UP.
  pose proof UP as (W & _).
  destruct (reported_ok s _ A g x (temperature_field s A g (uniform s x)) UP ltac:(lra)) as (gr & Rp).
  set (kf := conductivity SIMP 10 (1 / 100) 3). set (dk := dconductivity SIMP 10 (1 / 100) 3 x).
  pose proof (dcond_pos SIMP 10 (1 / 100) 3 x ltac:(lra) ltac:(lra) ltac:(lra) ltac:(lra)) as Dp. fold dk in Dp.
  assert (Kp : forall t, 0 <= t <= 1 -> 0 < kf t) by (intros; apply conductivity_pos; lra).
  assert (Dk : derivable_pt_lim kf x dk) by (apply (kf_derive s); cbn; lra).
  exists gr, (((dk * g + 0) * (kf x + 4) - (dk + 0) * (kf x * g + 4 * A)) / Rsqr (kf x + 4)).
  split; [exact Rp|]. split; [exact (bar_reported AveragedTemp SIMP A g x gr ltac:(lra) ltac:(lra) Rp)|]. pose proof (Kp x ltac:(lra)). split.
  - apply (derive_locally (fun t => g + (kf t * g + 4 * A) / (kf t + 4))).
    + exists (Rmin x (1 - x)). split; [apply Rmin_glb_lt; lra|]. intros t Ht.
      pose proof (Rmin_l x (1 - x)). pose proof (Rmin_r x (1 - x)). apply Rabs_def2 in Ht.
      pose proof (average_value s _ A (Flt g) _ _ _ eq_refl (well_uniform s _ 1 t W ltac:(lra)) (uniform_analysed s _ A g t UP ltac:(lra))) as J.
      cbn [map] in J. injection J as J. change [t] with (uniform s t). unfold uniform in J |- *. rewrite J. unfold hn. cbn [s bar hs_H bars hb_B fb_n]. rewrite sum2.
      destruct (bar_temperature AveragedTemp SIMP A g t ltac:(lra)) as (T0 & T1). unfold uniform in T0, T1.
      change (bar AveragedTemp SIMP) with s in T0, T1. rewrite <- T0 at 1. unfold kf. rewrite <- T1. reflexivity.
    + set (L := _ / _). replace L with (0 + L) by ring. apply (derivable_pt_lim_plus (fun _ => g)); [apply derivable_pt_lim_const|].
      apply (derivable_pt_lim_div (fun t => kf t * g + 4 * A) (fun t => kf t + 4)); [| |lra].
      * apply (derivable_pt_lim_plus (fun t => kf t * g) (fun _ => 4 * A)); [|apply derivable_pt_lim_const].
        replace (dk * g) with (dk * g + kf x * 0) by ring. apply (derivable_pt_lim_mult kf (fun _ => g)); [exact Dk|apply derivable_pt_lim_const].
      * apply (derivable_pt_lim_plus kf (fun _ => 4)); [exact Dk|apply derivable_pt_lim_const].
  - apply Rdiv_lt_0_compat; [|apply Rlt_0_sqr; lra]. replace ((dk * g + 0) * (kf x + 4) - (dk + 0) * (kf x * g + 4 * A)) with (dk * 4 * (g - A)) by ring.
    apply Rmult_lt_0_compat; lra.
Qed.
(* with the RAMP law the SIMP slope is still used: an extra factor *)
Theorem C71_ramp_factor s D A g x gr : uniform_problem s D -> hs_obj s = Compliance -> hs_ip s = RAMP -> hs_c s < 1 ->
  floor6 <= x < 1 -> g <> A -> reported s A (Flt g) (uniform s x) [temperature_field s A g (uniform s x)] [gr] ->
  let slope ip := dconductivity ip (hs_k s) (hs_c s) (hs_p s) x / conductivity ip (hs_k s) (hs_c s) (hs_p s) x in
  derivable_pt_lim (fun t => objective_value s A g (uniform s t)) x (slope RAMP / slope SIMP * (- ((g + A) / (g - A)) * rsum gr)).
Proof.
  intros UP Eo Ei Hc1 Hx Hg Rp slope. assert (F6 : 0 < floor6) by (unfold floor6; lra).
  destruct (up_reported s D A g x _ _ UP ltac:(lra) Rp) as (gr' & [= <-] & Es). rewrite Es, Ei.
  pose proof UP as (W & M & _). pose proof W as (_ & _ & [Sh SS An Hh Hk Hc Hp Lr Hr] & _).
  pose proof (conductivity_pos SIMP (hs_k s) (hs_c s) (hs_p s) x Hk Hc Hp ltac:(lra)) as K1.
  pose proof (conductivity_pos RAMP (hs_k s) (hs_c s) (hs_p s) x Hk Hc Hp ltac:(lra)) as K2.
  pose proof (dcond_pos SIMP (hs_k s) (hs_c s) (hs_p s) x Hk ltac:(lra) Hp ltac:(lra)) as K3.
  pose proof (u_derive s D A g (fun t => objective_value s A g (uniform s t)) (fun t => temperature_field s A g (uniform s t))
    (fun t Ht => well_uniform s D 1 t W Ht) M Eo (fun t Ht => uniform_analysed s D A g t UP ltac:(lra)) x ltac:(lra) Hg) as Dv.
  rewrite Ei in Dv. cbv beta in Dv. unfold slope.
  match type of Dv with derivable_pt_lim _ _ ?L => match goal with |- derivable_pt_lim _ _ ?L' => replace L' with L; [exact Dv|] end end.
  set (k1 := conductivity SIMP _ _ _ _) in *. set (k2 := conductivity RAMP _ _ _ _) in *. set (k3 := dconductivity SIMP _ _ _ _) in *. set (k4 := dconductivity RAMP _ _ _ _) in *.
  field. repeat split; lra.
Qed.
(* even at temperature 0 the gradient is then too large: solid 10, void 1/10, p = 3,
   half density: the reported value is 1.8 times the derivative (exactly 2970/535 over 3168/1040) *)
Theorem C71_ramp_refuted : exists gr L,
  reported (bar Compliance RAMP) 300 (Flt 0) [/ 2] [temperature_field (bar Compliance RAMP) 300 0 [/ 2]] [gr] /\ rsum gr < 0 /\
  derivable_pt_lim (fun t => objective_value (bar Compliance RAMP) 300 0 [t]) (/ 2) L /\ L = (3168 / 1040) / (2970 / 535) * rsum gr.
Proof.
  set (s := bar Compliance RAMP).
  destruct (reported_ok s _ 300 0 (/ 2) (temperature_field s 300 0 (uniform s (/ 2))) (bar_problem Compliance RAMP) ltac:(lra)) as (gr & Rp).
  assert (Hx : floor6 <= / 2 < 1) by (unfold floor6; lra).
  exists gr. eexists. split; [exact Rp|]. split; [exact (bar_reported Compliance RAMP 300 0 (/ 2) gr ltac:(lra) (conj (proj1 Hx) (Rlt_le _ _ (proj2 Hx))) Rp)|]. split.
  - exact (C71_ramp_factor s _ 300 0 (/ 2) gr (bar_problem Compliance RAMP) eq_refl eq_refl ltac:(cbn; lra) Hx ltac:(lra) Rp).
  - cbn [s bar hs_k hs_c hs_p dconductivity conductivity]. destruct (Rlt_dec 0 (/ 2)); [|lra].
    assert (E2 : Rpower (/ 2) (3 - 1) = / 4).
    { replace (3 - 1) with (INR 2) by (cbn; ring). rewrite Rpower_pow by lra. cbn [pow]. field. }
    assert (E3 : Rpower (/ 2) 3 = / 8).
    { replace 3 with (INR 3) by (cbn; ring). rewrite Rpower_pow by lra. cbn [pow]. field. }
    rewrite E2, E3. field.
Qed.
