(* C69 (no Robin surface), C70 (thermal compliance and its sensitivity), C71 (other
   objectives), C72 (arguments), C73 (heat exchange). *)
From Verif Require Import Base Sums Material_model Material_proofs OC_model Mesh_model Fea_model Fea_spec Fea_proofs Fea_props Iter_model Grad_proofs
  Heat_model Heat_spec Heat_proofs Heat_props.
Open Scope R_scope.
Open Scope list_scope.

(* ---- C69 ---- *)
Lemma const_cond H k c v : shapes H -> conducted H k (fun _ => c) v = 0.
Proof.
  intros Sh. rewrite (cond_ext H k _ (fun i => c * one i + 0 * one i) v v) by (auto; intros; unfold one; ring).
  rewrite cond_lin, cond_one by auto. ring.
Qed.
Lemma const_grad H c e q i : shapes H -> (e < ne H)%nat -> (q < nq H)%nat -> (i < 3)%nat -> gradv H (fun _ => c) e q 0%nat i = 0.
Proof.
  intros Sh He Hq Hi. rewrite (grad_ext H _ (fun i => c * one i + 0 * one i)) by (intros; unfold one; ring).
  rewrite gradv_lin, grad_one by auto. ring.
Qed.
Lemma energy_const H k T c e : shapes H -> (e < ne H)%nat -> (forall i, (i < hn H)%nat -> T i = c) -> heat_energy H k T e = 0.
Proof.
  intros Sh He E. unfold heat_energy. apply sum_zero. intros q Hq.
  assert (G : forall i, (i < 3)%nat -> gradv H T e q 0%nat i = 0).
  { intros i Hi. rewrite (grad_ext H T (fun _ => c)) by auto. now apply const_grad. }
  rewrite vdot3_eq, !G by lia. ring.
Qed.
(* without a Robin surface every design is at the prescribed temperature everywhere:
   objective 0 (or vertices times temperature) and no sensitivity *)
Theorem C69_without_robin_nothing_to_optimise H ns values coef env dr k obj w tk cf ip q sol slvm p rho Js Ts G D :
  from_facets H (Lst ns) values None coef env dr k obj w = Ok tk ->
  objectives_multi_load (mkHFem tk cf ip q sol slvm) p rho = Ok (Js, Ts) ->
  heat_sensitivity (mkHFem tk cf ip q sol slvm) p rho Ts = Ok G ->
  nth_error ns 0 = Some D -> (forall D', In D' ns -> same_set D' D) -> sound H D [] 0 k cf p rho -> exact_solver (hn H) slvm ->
  List.length Ts = List.length (values_list values) /\
  (forall i, (i < List.length (values_list values))%nat ->
    (forall j, (j < hn H)%nat -> nth i Ts zv j = nth i (values_list values) 0) /\
    (obj = Compliance -> nth i Js 0 = 0) /\
    (obj = AveragedTemp -> nth i Js 0 = INR (hn H) * nth i (values_list values) 0)) /\
  (forall g, In g G -> forall x, In x g -> x = 0).
Proof.
  intros B Hrun HG HD Same Sd Hex.
  destruct (C66_temperatures_without_robin H ns values k cf p obj w ip q sol slvm rho tk Js Ts D HD Hex Hrun coef env dr B Sd Same) as (L & T1).
  pose proof (from_facets_plain _ _ _ _ _ _ _ _ _ _ B) as (UR & EH & En & Ev & Ek & Eo & _ & HV).
  assert (HV' : match values with FLst l => List.length l = List.length ns | Flt _ => True | Int _ => False end).
  { destruct values; auto. unfold objectives_multi_load in Hrun. cbn [hf_task] in Hrun. unfold n_tasks in Hrun. rewrite Ev in Hrun. discriminate. }
  destruct (heat_columns (mkHFem tk cf ip q sol slvm) p rho Js Ts [] 0 0 H ns values k cf D UR EH En Ev Ek eq_refl HV' HD Sd Hex Hrun)
    as (sys & ks & lay & Es & Nk & _ & Elay & Hl & Pk & EK & _ & _ & _). cbn [hf_interp hf_q] in *.
  pose proof Sd as [Sh SS An Hh Hk Hc Hp Lr Hr].
  assert (Con : forall i, (i < List.length (values_list values))%nat -> forall j, (j < hn H)%nat -> nth i Ts zv j = nth i (values_list values) 0).
  { intros i Hi. specialize (T1 i Hi).
    refine (temperature_unique H _ D _ [] 0 0 _ _ (fun _ => nth i (values_list values) 0) Sh SS An _ Hh _ T1 _).
    - intros e He. apply conductivity_pos; auto. apply Hr, nth_In. lia.
    - intros. now apply layer_nonneg.
    - split; [reflexivity|]. intros v Hv. rewrite const_cond by auto. rewrite exchanged_none. ring. }
  split; [exact L|]. split.
  - intros i Hi. split; [now apply Con|].
    unfold objectives_multi_load in Hrun. cbn [hf_task] in Hrun. rewrite EH in Hrun.
    destruct (n_tasks tk) as [nc|]; [|discriminate]. cbn [bind] in Hrun.
    match type of Hrun with bind ?x _ = _ => destruct x; [|discriminate] end. cbn [bind] in Hrun.
    rewrite Es in Hrun. cbn [bind] in Hrun. destruct (solve_heat _ _ _ _ _ _ _) as [us|]; [|discriminate]. cbn [bind] in Hrun.
    split; intros Eo'; rewrite Eo, Eo' in Hrun; injection Hrun as EJ EU; subst us Js.
    + rewrite (nth_indep _ 0 (dot (hn H) zv (mv (hn H) (sy_K sys) zv))) by (rewrite map_length; lia).
      rewrite (map_nth (fun T => dot (hn H) T (mv (hn H) (sy_K sys) T))). rewrite EK. unfold aform. rewrite exch0_none.
      rewrite (cond_ext H _ _ (fun _ => nth i (values_list values) 0) _ (nth i Ts zv)) by (auto; now apply Con).
      rewrite const_cond by auto. ring.
    + rewrite (nth_indep (map (fun T : vec => sum (hn H) T) Ts) 0 (sum (hn H) zv)) by (rewrite map_length; lia). rewrite (map_nth (fun T => sum (hn H) T)).
      rewrite (sum_ext _ _ (fun _ => nth i (values_list values) 0)) by now apply Con. unfold sum. rewrite rs_const, seq_length. reflexivity.
  - unfold heat_sensitivity in HG. cbn [hf_task] in HG. rewrite EH in HG. destruct (moduli _ _ _ p rho) as [ks'|]; [|discriminate]. cbn [bind] in HG.
    destruct UR as [(Hc' & _)|(_ & _ & Hc' & _)].
    { exfalso. unfold from_facets in B. destruct values; [|discriminate|]; [cbn [bind] in B|destruct (Nat.eqb _ _); [cbn [bind] in B|discriminate]]; injection B as <-; discriminate. }
    rewrite Hc' in HG. assert (EG : G = map (fun T => map (fun e => dC_drho_simp (nth e rho 0) (heat_energy H (fun e' => nth e' ks' 0) T e)
      (ht_k tk) (kmin (mkHFem tk cf ip q sol slvm)) p) (seq 0 (List.length rho))) Ts) by (destruct (ht_obj tk); congruence).
    intros g Hg x Hx. subst G. apply in_map_iff in Hg. destruct Hg as (T & <- & HT). apply in_map_iff in Hx. destruct Hx as (e & <- & He).
    apply in_seq in He. apply (In_nth _ _ zv) in HT. destruct HT as (i & Hi & <-).
    rewrite (energy_const H _ _ (nth i (values_list values) 0)); [unfold dC_drho_simp, Rdiv; ring|auto|lia|apply Con; lia].
Qed.

(* ---- C70 ---- *)
(* the compliance of a load case *)
Lemma compliance_value s D A values rho Js Ts : hs_obj s = Compliance -> well_set s D rho -> analysis s A values rho Js Ts ->
  forall i, (i < List.length (values_list values))%nat ->
  nth i Js 0 = aform (hs_H s) (kap_of s rho) (hs_Ss s) (hs_h s) (lay_of s rho) (nth i Ts zv) (nth i Ts zv).
Proof.
  intros Eo (HD & Same & Sd & Hex) (dr & tk & B & Hrun) i Hi.
  pose proof (from_facets_robin _ _ _ _ _ _ _ _ _ _ _ B) as (UR & EH & En & Ev & Ek & Eob & _ & HV).
  assert (HV' : match values with FLst l => List.length l = List.length (hs_ns s) | Flt _ => True | Int _ => False end).
  { destruct values; auto. unfold objectives_multi_load in Hrun. cbn [hf_task] in Hrun. unfold n_tasks in Hrun. rewrite Ev in Hrun. discriminate. }
  destruct (heat_columns (mkHFem tk (hs_c s) (hs_ip s) (hs_q s) (hs_sol s) (hs_slvm s)) (hs_p s) rho Js Ts (hs_Ss s) (hs_h s) A (hs_H s) (hs_ns s) values (hs_k s) (hs_c s) D
    UR EH En Ev Ek eq_refl HV' HD Sd Hex Hrun) as (sys & ks & lay & Es & Nk & _ & -> & Hl & Pk & EK & _ & LT & _).
  cbn [hf_interp hf_q] in *.
  unfold objectives_multi_load in Hrun. cbn [hf_task] in Hrun. rewrite EH in Hrun.
  destruct (n_tasks tk) as [nc|]; [|discriminate]. cbn [bind] in Hrun.
  match type of Hrun with bind ?x _ = _ => destruct x; [|discriminate] end. cbn [bind] in Hrun.
  rewrite Es in Hrun. cbn [bind] in Hrun. destruct (solve_heat _ _ _ _ _ _ _) as [us|]; [|discriminate]. cbn [bind] in Hrun.
  rewrite Eob, Eo in Hrun. injection Hrun as EJ EU; subst us Js.
  rewrite (nth_indep _ 0 (dot (hn (hs_H s)) zv (mv (hn (hs_H s)) (sy_K sys) zv))) by (rewrite map_length; lia).
  rewrite (map_nth (fun T => dot (hn (hs_H s)) T (mv (hn (hs_H s)) (sy_K sys) T))). rewrite EK. unfold aform.
  rewrite (conducted_cond _ ks (kap_of s rho)) by exact Nk. reflexivity.
Qed.
(* exchange without interface layer *)
Definition surf0 (s : hsettings) (u v : vec) : R := exch0 (hs_H s) (hs_Ss s) (hs_h s) (fun _ _ => 0) u v.
Lemma exch0_lay H Ss h lay lay' u v : (forall e q, (e < ne H)%nat -> (q < nq H)%nat -> lay e q = lay' e q) ->
  exch0 H Ss h lay u v = exch0 H Ss h lay' u v.
Proof. intros E. unfold exch0. f_equal. apply integral_ext. intros. rewrite E by auto. reflexivity. Qed.
Lemma nodal_uniform H x v : mesh_ok H -> (v < hn H)%nat -> nodal_average (hb_t H) (repeat x (ne H)) v = x.
Proof. intros (M1 & M2) Hv. apply C67_uniform; auto. Qed.
Lemma grad_nodal_uniform H x e q i : shapes H -> mesh_ok H -> (e < ne H)%nat -> (q < nq H)%nat -> (i < 3)%nat ->
  gradv H (nodal_average (hb_t H) (repeat x (ne H))) e q 0%nat i = 0.
Proof.
  intros Sh M He Hq Hi. rewrite (grad_ext H _ (fun _ => x)) by (intros; now apply nodal_uniform). now apply const_grad.
Qed.
Lemma layer_uniform H x p q' e q : shapes H -> mesh_ok H -> (e < ne H)%nat -> (q < nq H)%nat ->
  layer H (nodal_average (hb_t H) (repeat x (ne H))) p q' e q = 0.
Proof.
  intros Sh M He Hq. unfold layer, gnorm. rewrite vdot3_eq, !grad_nodal_uniform by (auto; lia).
  replace (0 * 0 + 0 * 0 + 0 * 0) with 0 by ring. rewrite sqrt_0. ring.
Qed.
Definition unit_cond (H : hbasis) (u v : vec) : R := conducted H (fun _ => 1) u v.
Lemma cond_scaled H k c u v : (forall e, (e < ne H)%nat -> k e = c) -> conducted H k u v = c * unit_cond H u v.
Proof. intros E. unfold unit_cond, conducted. rewrite <- integral_scal. apply integral_ext. intros. rewrite E by auto. ring. Qed.
Lemma well_uniform s D x t : well_set s D (repeat x (ne (hs_H s))) -> 0 <= t <= 1 -> well_set s D (repeat t (ne (hs_H s))).
Proof.
  intros (HD & Same & [Sh SS An Hh Hk Hc Hp Lr Hr] & Hex) Ht. split; [auto|]. split; [auto|]. split; [|auto].
  constructor; auto; [apply repeat_length|]. intros y Hy. apply repeat_spec in Hy. now subst.
Qed.
(* the state of a uniform design: u vanishing on D, bilinear form kap c + s *)
Lemma cauchy_cond H u v : shapes H -> unit_cond H u v * unit_cond H u v <= unit_cond H u u * unit_cond H v v.
Proof.
  intros Sh. assert (P : forall w, 0 <= unit_cond H w w).
  { intros w. apply integral_nonneg; auto. intros. pose proof (vdot3_nonneg (gradv H w e q)). lra. }
  assert (Q : forall a b, 0 <= a * a * unit_cond H u u + 2 * a * b * unit_cond H u v + b * b * unit_cond H v v).
  { intros a b. pose proof (P (fun i => a * u i + b * v i)) as P1. unfold unit_cond in *. rewrite cond_lin in P1.
    rewrite (cond_sym H _ u (fun i => a * u i + b * v i)), (cond_sym H _ v (fun i => a * u i + b * v i)), !cond_lin in P1.
    rewrite (cond_sym H _ v u) in P1. lra. }
  pose proof (P u). pose proof (P v). destruct (Req_dec (unit_cond H v v) 0) as [Z|Z].
  - rewrite Z. assert (unit_cond H u v = 0); [|nra].
    destruct (Req_dec (unit_cond H u v) 0) as [|N]; [auto|exfalso].
    pose proof (Q (unit_cond H u v) (- (unit_cond H u u + 1))) as Q1. rewrite Z in Q1. pose proof (Rsqr_pos_lt _ N) as S. unfold Rsqr in S. nra.
  - pose proof (Q (unit_cond H v v) (- unit_cond H u v)) as Q1. nra.
Qed.
Section uniform.
  Variables (s : hsettings) (D : list nat) (A g : R) (Jf : R -> R) (Tf : R -> vec).
  Let H := hs_H s.
  Let kf := conductivity (hs_ip s) (hs_k s) (hs_c s) (hs_p s).
  Hypothesis (W : forall t, 0 <= t <= 1 -> well_set s D (repeat t (ne H))) (M : mesh_ok H) (Eo : hs_obj s = Compliance).
  Hypothesis An : forall t, 0 < t <= 1 -> analysis s A (Flt g) (repeat t (ne H)) [Jf t] [Tf t].
  Lemma u_shapes : shapes H.
  Proof. destruct (W 1 ltac:(lra)) as (_ & _ & Sd & _). exact (sd_shapes _ _ _ _ _ _ _ _ Sd). Qed.
  Lemma u_surf S : In S (hs_Ss s) -> surf_shapes (hn H) S.
  Proof. destruct (W 1 ltac:(lra)) as (_ & _ & Sd & _). apply (sd_surf _ _ _ _ _ _ _ _ Sd). Qed.
  Lemma u_h : 0 <= hs_h s.
  Proof. destruct (W 1 ltac:(lra)) as (_ & _ & Sd & _). exact (sd_h _ _ _ _ _ _ _ _ Sd). Qed.
  Lemma u_kpos t : 0 < t <= 1 -> 0 < kf t.
  Proof. intros Ht. destruct (W 1 ltac:(lra)) as (_ & _ & [_ _ _ _ Hk Hc Hp _ _] & _). apply conductivity_pos; auto. lra. Qed.
  Definition uform (t : R) (u v : vec) : R := kf t * unit_cond H u v + surf0 s u v.
  Lemma u_aform t u v : aform H (kap_of s (repeat t (ne H))) (hs_Ss s) (hs_h s) (lay_of s (repeat t (ne H))) u v = uform t u v.
  Proof.
    unfold aform, uform, surf0. f_equal.
    - apply cond_scaled. intros e He. unfold kap_of. rewrite nth_indep with (d' := t) by (rewrite repeat_length; auto). now rewrite nth_repeat.
    - apply exch0_lay. intros. unfold lay_of. apply layer_uniform; auto. apply u_shapes.
  Qed.
  Lemma uform_sym t u v : uform t u v = uform t v u.
  Proof. unfold uform, surf0, unit_cond. rewrite cond_sym, exch0_sym. reflexivity. Qed.
  Lemma uform_lin t a u b w v : uform t (fun i => a * u i + b * w i) v = a * uform t u v + b * uform t w v.
  Proof. unfold uform, surf0, unit_cond. rewrite cond_lin, exch0_lin. ring. Qed.
  Lemma uform_nonneg t u : 0 < t <= 1 -> 0 <= uform t u u.
  Proof.
    intros Ht. unfold uform. pose proof (u_kpos t Ht). apply Rplus_le_le_0_compat.
    - apply Rmult_le_pos; [lra|]. apply (cond_nonneg H (fun _ => 1)); [apply u_shapes|intros; lra].
    - apply exch0_nonneg; [apply u_shapes|apply u_surf|apply u_h|intros; lra].
  Qed.
  (* excess temperature over the ambient *)
  Definition exc (t : R) : vec := fun i => 1 * Tf t i + (- A) * one i.
  Lemma u_temp t : 0 < t <= 1 -> (forall i, (i < hn H)%nat -> In i D -> exc t i = g - A) /\
    (forall v, (forall i, (i < hn H)%nat -> In i D -> v i = 0) -> uform t (exc t) v = 0) /\
    Jf t = uform t (Tf t) (Tf t).
  Proof.
    intros Ht. destruct (analysis_temperature s D A (Flt g) _ _ _ (W t ltac:(lra)) (An t Ht)) as (_ & T1).
    specialize (T1 0%nat ltac:(cbn; lia)). cbn [values_list nth] in T1.
    pose proof (compliance_value s D A (Flt g) _ _ _ Eo (W t ltac:(lra)) (An t Ht) 0%nat ltac:(cbn; lia)) as J. cbn [nth] in J.
    fold H in J, T1. rewrite u_aform in J.
    apply temperature_form in T1; [|apply u_shapes|apply u_surf]. destruct T1 as (B & Wf). fold H in B, Wf.
    split; [intros i Hi HD; unfold exc, one; rewrite B by auto; ring|]. split; [|exact J].
    intros v Hv. unfold exc. rewrite uform_lin. rewrite <- u_aform, (Wf v Hv).
    unfold uform, unit_cond. rewrite cond_one by apply u_shapes. unfold surf0.
    rewrite (exch0_lay H _ _ (lay_of s (repeat t (ne H))) (fun _ _ => 0)); [fold H; ring|]. intros. unfold lay_of. apply layer_uniform; auto. apply u_shapes.
  Qed.
  (* closed form of the reported compliance *)
  Lemma u_closed t : 0 < t <= 1 -> (g - A) * Jf t = (g - A) * (A * A * surf0 s one one) + (g + A) * uform t (exc t) (exc t).
  Proof.
    intros Ht. destruct (u_temp t Ht) as (B & Wf & J). rewrite J.
    assert (E1 : uform t (Tf t) (Tf t) = uform t (fun i => 1 * exc t i + A * one i) (fun i => 1 * exc t i + A * one i)).
    { unfold uform, unit_cond, surf0. rewrite (cond_ext H _ (Tf t) (fun i => 1 * exc t i + A * one i) (Tf t) (fun i => 1 * exc t i + A * one i)) by (intros; unfold exc, one; ring).
      rewrite (exch0_ext H _ _ _ (Tf t) (fun i => 1 * exc t i + A * one i) (Tf t) (fun i => 1 * exc t i + A * one i)) by (intros; unfold exc, one; ring). reflexivity. }
    rewrite E1, uform_lin, (uform_sym t (exc t)), (uform_sym t one), !uform_lin, (uform_sym t (exc t) one).
    assert (E2 : uform t one one = surf0 s one one) by (unfold uform, unit_cond; rewrite cond_one by apply u_shapes; ring).
    assert (E3 : (g - A) * uform t one (exc t) = uform t (exc t) (exc t)).
    { pose proof (Wf (fun i => (g - A) * one i + (-1) * exc t i)) as Z.
      assert (Z0 : forall i, (i < hn H)%nat -> In i D -> (g - A) * one i + (-1) * exc t i = 0) by (intros i Hi HD; rewrite (B i Hi HD); unfold one; ring). specialize (Z Z0). rewrite uform_sym, uform_lin in Z. lra. }
    rewrite E2. nra.
  Qed.
  (* energy of the excess temperature: second-order expansion *)
  Lemma u_expand x t : 0 < x <= 1 -> 0 < t <= 1 ->
    Rabs (uform t (exc t) (exc t) - (uform x (exc x) (exc x) + (kf t - kf x) * unit_cond H (exc x) (exc x)))
      <= (kf t - kf x) * (kf t - kf x) * unit_cond H (exc x) (exc x) / kf t.
  Proof.
    intros Hx Ht. destruct (u_temp x Hx) as (Bx & Wx & _). destruct (u_temp t Ht) as (Bt & Wt & _).
    set (d := exc x) in *. set (d' := exc t) in *. set (de := fun i => 1 * d i + (-1) * d' i).
    assert (D0 : forall i, (i < hn H)%nat -> In i D -> de i = 0) by (intros; unfold de; rewrite Bx, Bt by auto; ring).
    pose proof (Wt de D0) as Zt. pose proof (Wx de D0) as Zx.
    assert (E1 : uform t d d = uform t d' d' + uform t de de).
    { assert (Q : uform t de de = uform t d d - 2 * uform t d d' + uform t d' d').
      { unfold de at 1. rewrite uform_lin, (uform_sym t d), (uform_sym t d'). unfold de. rewrite !uform_lin, (uform_sym t d' d). ring. }
      rewrite uform_sym in Zt. unfold de in Zt. rewrite uform_lin in Zt. lra. }
    assert (E2 : uform t d d = uform x d d + (kf t - kf x) * unit_cond H d d) by (unfold uform; ring).
    assert (E3 : uform t de de = (kf t - kf x) * unit_cond H d de).
    { unfold de at 1. rewrite uform_lin, Zt. replace (uform t d de) with (uform x d de + (kf t - kf x) * unit_cond H d de) by (unfold uform; ring). rewrite Zx. ring. }
    pose proof (u_kpos t Ht) as Kt. pose proof (uform_nonneg t de Ht) as N.
    assert (C1 := cauchy_cond H d de u_shapes).
    assert (Nd : 0 <= unit_cond H d d) by (apply (cond_nonneg H (fun _ => 1)); [apply u_shapes|intros; lra]).
    assert (C2 : kf t * unit_cond H de de <= uform t de de).
    { unfold uform. pose proof (exch0_nonneg H (hs_Ss s) (hs_h s) (fun _ _ => 0) u_shapes u_surf u_h ltac:(intros; lra) de). unfold surf0. fold H. lra. }
    assert (Bd : uform t de de <= (kf t - kf x) * (kf t - kf x) * unit_cond H d d / kf t).
    { set (y := uform t de de) in *. set (de2 := unit_cond H de de) in *. set (m := unit_cond H d de) in *. set (c := unit_cond H d d) in *. set (dk := kf t - kf x) in *.
      apply (Rmult_le_reg_r (kf t)); [auto|]. unfold Rdiv. rewrite Rmult_assoc, Rinv_l, Rmult_1_r by lra.
      destruct (Req_dec y 0) as [Z|Z]; [rewrite Z; rewrite Rmult_0_l; apply Rmult_le_pos; [apply Rle_0_sqr|auto]|].
      apply (Rmult_le_reg_r y); [lra|]. apply Rle_trans with (dk * dk * c * (kf t * de2)).
      - replace (y * kf t * y) with (kf t * (dk * dk) * (m * m)) by (rewrite E3; ring).
        replace (dk * dk * c * (kf t * de2)) with (kf t * (dk * dk) * (c * de2)) by ring.
        apply Rmult_le_compat_l; [|exact C1]. apply Rmult_le_pos; [lra|apply Rle_0_sqr].
      - apply Rmult_le_compat_l; [apply Rmult_le_pos; [apply Rle_0_sqr|auto]|exact C2]. }
    replace (uform t d' d' - (uform x d d + (kf t - kf x) * unit_cond H d d)) with (- uform t de de) by lra.
    rewrite Rabs_Ropp, Rabs_pos_eq by auto. exact Bd.
  Qed.
  Lemma kf_derive x : 0 < x -> 0 < hs_p s -> x < 1 -> derivable_pt_lim kf x (dconductivity (hs_ip s) (hs_k s) (hs_c s) (hs_p s) x).
  Proof.
    intros Hx Hp Hx1. unfold kf. destruct (hs_ip s); cbn [conductivity dconductivity].
    - apply (derive_locally (fun t => hs_c s * hs_k s + (hs_k s - hs_c s * hs_k s) * Rpower t (hs_p s))).
      + exists x. split; [auto|]. intros t Ht. apply Rabs_def2 in Ht. unfold conductivity. destruct (Rlt_dec 0 t); [reflexivity|lra].
      + replace ((hs_k s - hs_c s * hs_k s) * (hs_p s * Rpower x (hs_p s - 1))) with (0 + (hs_k s - hs_c s * hs_k s) * (hs_p s * Rpower x (hs_p s - 1))) by ring.
        apply (derivable_pt_lim_plus (fun _ => hs_c s * hs_k s)); [apply derivable_pt_lim_const|].
        apply (derivable_pt_lim_scal (fun t => Rpower t (hs_p s))). now apply derivable_pt_lim_power.
    - set (p := hs_p s) in *. assert (0 < 1 + p * (1 - x)) by nra.
      replace ((hs_k s - hs_c s * hs_k s) * ((1 + p) / (1 + p * (1 - x)) ^ 2)) with (0 + (hs_k s - hs_c s * hs_k s) * ((1 + p) / (1 + p * (1 - x)) ^ 2)) by ring.
      apply (derivable_pt_lim_plus (fun _ => hs_c s * hs_k s)); [apply derivable_pt_lim_const|].
      apply (derivable_pt_lim_scal (fun t => t / (1 + p * (1 - t)))).
      replace ((1 + p) / (1 + p * (1 - x)) ^ 2) with ((1 * (1 + p * (1 - x)) - (0 + p * (0 - 1)) * x) / Rsqr (1 + p * (1 - x))) by (unfold Rsqr; field; lra).
      apply (derivable_pt_lim_div (fun t => t) (fun t => 1 + p * (1 - t))).
      + apply derivable_pt_lim_id.
      + apply (derivable_pt_lim_plus (fun _ => 1)); [apply derivable_pt_lim_const|]. apply (derivable_pt_lim_scal (fun t => 1 - t)).
        apply (derivable_pt_lim_minus (fun _ => 1) (fun t => t)); [apply derivable_pt_lim_const|apply derivable_pt_lim_id].
      + lra.
  Qed.
  Lemma kf_min t : 0 < t <= 1 -> hs_c s * hs_k s <= kf t.
  Proof.
    intros Ht. destruct (W 1 ltac:(lra)) as (_ & _ & [_ _ _ _ Hk Hc Hp _ _] & _). unfold kf. assert (0 <= hs_k s - hs_c s * hs_k s) by nra.
    destruct (hs_ip s); cbn [conductivity].
    - destruct (Rlt_dec 0 t); [|lra]. pose proof (Rpower_pos t (hs_p s)). nra.
    - assert (0 < 1 + hs_p s * (1 - t)) by nra. assert (0 <= t / (1 + hs_p s * (1 - t))) by (apply Rmult_le_pos; [lra|left; now apply Rinv_0_lt_compat]). nra.
  Qed.
  Lemma u_energy_derive x : 0 < x < 1 ->
    derivable_pt_lim (fun t => uform t (exc t) (exc t)) x (dconductivity (hs_ip s) (hs_k s) (hs_c s) (hs_p s) x * unit_cond H (exc x) (exc x)).
  Proof.
    intros Hx. set (c := unit_cond H (exc x) (exc x)). set (L := dconductivity _ _ _ _ x).
    destruct (W 1 ltac:(lra)) as (_ & _ & [_ _ _ _ Hk Hc Hp _ _] & _).
    assert (Dk : derivable_pt_lim kf x L) by (apply kf_derive; lra).
    assert (Nc : 0 <= c) by (apply (cond_nonneg H (fun _ => 1)); [apply u_shapes|intros; lra]).
    apply (squeeze_derive _ (fun t => uform x (exc x) (exc x) + (kf t - kf x) * c) (fun t => (kf t - kf x) * (kf t - kf x) * (c / (hs_c s * hs_k s)))).
    - exists (Rmin x (1 - x)). split; [apply Rmin_glb_lt; lra|]. intros t Ht.
      pose proof (Rmin_l x (1 - x)). pose proof (Rmin_r x (1 - x)). apply Rabs_def2 in Ht.
      eapply Rle_trans; [apply (u_expand x t); lra|]. fold c. unfold Rdiv. rewrite Rmult_assoc. apply Rmult_le_compat_l; [apply Rle_0_sqr|].
      apply Rmult_le_compat_l; [auto|]. apply Rinv_le_contravar; [nra|apply kf_min; lra].
    - replace (L * c) with (0 + (L - 0) * c) by ring.
      apply (derivable_pt_lim_plus (fun _ => uform x (exc x) (exc x))); [apply derivable_pt_lim_const|].
      replace ((L - 0) * c) with ((L - 0) * c + (kf x - kf x) * 0) by ring.
      apply (derivable_pt_lim_mult (fun t => kf t - kf x) (fun _ => c)); [|apply derivable_pt_lim_const].
      apply (derivable_pt_lim_minus kf (fun _ => kf x)); [auto|apply derivable_pt_lim_const].
    - replace 0 with (((L - 0) * (kf x - kf x) + (kf x - kf x) * (L - 0)) * (c / (hs_c s * hs_k s)) + ((kf x - kf x) * (kf x - kf x)) * 0) at 1 by ring.
      apply (derivable_pt_lim_mult (fun t => (kf t - kf x) * (kf t - kf x)) (fun _ => c / (hs_c s * hs_k s))); [|apply derivable_pt_lim_const].
      apply (derivable_pt_lim_mult (fun t => kf t - kf x) (fun t => kf t - kf x));
        apply (derivable_pt_lim_minus kf (fun _ => kf x)); auto; apply derivable_pt_lim_const.
    - ring.
  Qed.
  Lemma u_unit_exc x : unit_cond H (exc x) (exc x) = unit_cond H (Tf x) (Tf x).
  Proof.
    unfold unit_cond, exc. rewrite cond_lin, cond_one by apply u_shapes. rewrite cond_sym, cond_lin, cond_one by apply u_shapes. ring.
  Qed.
  Lemma u_derive x : 0 < x < 1 -> g <> A ->
    derivable_pt_lim Jf x ((g + A) / (g - A) * (dconductivity (hs_ip s) (hs_k s) (hs_c s) (hs_p s) x * unit_cond H (Tf x) (Tf x))).
  Proof.
    intros Hx Hg. rewrite <- u_unit_exc.
    apply (derive_locally (fun t => A * A * surf0 s one one + (g + A) / (g - A) * uform t (exc t) (exc t))).
    - exists (Rmin x (1 - x)). split; [apply Rmin_glb_lt; lra|]. intros t Ht.
      pose proof (Rmin_l x (1 - x)). pose proof (Rmin_r x (1 - x)). apply Rabs_def2 in Ht.
      pose proof (u_closed t ltac:(lra)) as C. apply (Rmult_eq_reg_l (g - A)); [|lra]. rewrite C. field. lra.
    - set (L := _ * unit_cond H (exc x) (exc x)). replace ((g + A) / (g - A) * L) with (0 + (g + A) / (g - A) * L) by ring.
      apply (derivable_pt_lim_plus (fun _ => A * A * surf0 s one one)); [apply derivable_pt_lim_const|].
      apply (derivable_pt_lim_scal (fun t => uform t (exc t) (exc t))). now apply u_energy_derive.
  Qed.
End uniform.
