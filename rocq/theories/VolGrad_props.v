(* C65: the derivative of the constrained volume fraction. *)
From Coq Require Import Permutation.
From Verif Require Import Base Sums Material_model Material_proofs OC_model OC_spec OC_proofs OC_props OCvol_props Filter_model Filter_proofs Filter_props
  Mesh_model Mesh_spec Mesh_proofs Mesh_props Fea_model Fea_spec Fea_proofs Fea_props Iter_model Iter_spec Grad_proofs Iter_proofs Grad_props Iter_props Vol_props.
Open Scope R_scope.
Open Scope list_scope.

(* the filter's mask marks exactly the design elements (common_density.py:684-695
   builds it from task.design_mask) *)
Definition mask_of_design (pb : problem) (f : sfilter) : Prop :=
  NoDup (d_design (pb_dom pb)) /\
  forall e, In e (d_design (pb_dom pb)) <-> (e < List.length (sf_centers f))%nat /\ is_design (sf_mask f) e = true.

Lemma rs_perm (g : nat -> R) l m : Permutation l m -> rsum (map g l) = rsum (map g m).
Proof. induction 1; cbn [map rsum fold_right] in *; unfold rsum in *; cbn [fold_right] in *; lra. Qed.
Lemma design_perm pb f : mask_of_design pb f -> Permutation (d_design (pb_dom pb)) (filter (is_design (sf_mask f)) (seq 0 (n_el f))).
Proof.
  intros (Hn & Hi). apply NoDup_Permutation; [exact Hn|apply NoDup_filter, seq_NoDup|].
  intros e. rewrite Hi, filter_In, in_seq. unfold n_el. intuition lia.
Qed.
Lemma fraction_sum pb c v f rho : let design := d_design (pb_dom pb) in
  fraction_of pb c v f rho =
  rsum (map (fun e => heaviside_projection (nth e (sf_map f rho) 0) (v_beta v) (c_beta_eta (i_oc c)) * (nth e (pb_volumes pb) 0 /
     rsum (map (fun e => nth e (pb_volumes pb) 0) design))) design).
Proof.
  intros design. unfold fraction_of, material_fraction. fold design. set (V := rsum (map (fun e => nth e (pb_volumes pb) 0) design)).
  assert (G : forall (h : R -> R) ids, rsum (map (fun k => h (nth (nth k ids 0%nat) (sf_map f rho) 0) * nth k (map (fun e => nth e (pb_volumes pb) 0) ids) 0)
     (seq 0 (List.length ids))) = rsum (map (fun e => h (nth e (sf_map f rho) 0) * nth e (pb_volumes pb) 0) ids)).
  { intros h ids. rewrite <- (map_over_nth (fun e => h (nth e (sf_map f rho) 0) * nth e (pb_volumes pb) 0) ids 0%nat).
    apply rs_ext. intros k Hk. apply in_seq in Hk. f_equal. apply nth_map0. lia. }
  rewrite (G (fun x => heaviside_projection x (v_beta v) (c_beta_eta (i_oc c)))). unfold Rdiv.
  rewrite <- rs_scal_r. apply rs_ext. intros e _. ring.
Qed.
Lemma sf_map_line f rho d t e : usable f -> List.length rho = n_el f -> List.length d = n_el f -> designs f e ->
  nth e (sf_map f (line rho d t)) 0 = nth e (sf_map f rho) 0 + t * nth e (sf_map f d) 0.
Proof.
  intros Hu Hr Hd (He & Hde). destruct (usable_ids f Hu) as (Hrad & Hne).
  assert (Hl : List.length (line rho d t) = n_el f) by (unfold line; rewrite zipwith_length; congruence).
  unfold sf_map. rewrite (forward_eq f Hrad Hne (line rho d t) Hl), (forward_eq f Hrad Hne rho Hr), (forward_eq f Hrad Hne d Hd).
  rewrite !nth_map_seq' by exact He. rewrite Hde. unfold conv. rewrite <- rs_scal, <- rs_plus. apply rs_ext. intros j _.
  rewrite line_nth by congruence. ring.
Qed.
Lemma derive_rs {A} (F : A -> R -> R) (L : A -> R) x l : (forall a, In a l -> derivable_pt_lim (F a) x (L a)) ->
  derivable_pt_lim (fun t => rsum (map (fun a => F a t) l)) x (rsum (map L l)).
Proof.
  induction l as [|a l IH]; intros H.
  - cbn. apply derivable_pt_lim_const.
  - change (derivable_pt_lim (fun t => F a t + rsum (map (fun a => F a t) l)) x (L a + rsum (map L l))).
    apply (derivable_pt_lim_plus (F a) (fun t => rsum (map (fun a => F a t) l))); [apply H; now left|]. apply IH. intros; apply H; now right.
Qed.

(* The gradient of the constrained fraction: pull the volume shares, weighted with the
   slope of the projection, back through the filter's gradient. *)
Theorem C65_volume_gradient : forall pb c v f rho d f' out y g,
  usable f -> mask_of_design pb f -> List.length rho = n_el f -> List.length d = n_el f ->
  (forall e, ~ In e (d_design (pb_dom pb)) -> nth e d 0 = 0) ->
  sf_forward f rho = Ok (f', out) -> List.length y = n_el f ->
  (forall e, In e (d_design (pb_dom pb)) -> nth e y 0 =
     nth e (pb_volumes pb) 0 / rsum (map (fun e => nth e (pb_volumes pb) 0) (d_design (pb_dom pb))) *
     heaviside_projection_derivative (nth e out 0) (v_beta v) (c_beta_eta (i_oc c))) ->
  sf_gradient f' y = Ok g ->
  derivable_pt_lim (fun t => fraction_of pb c v f (line rho d t)) 0
    (rsum (map (fun e => nth e d 0 * nth e g 0) (d_design (pb_dom pb)))).
Proof.
  intros pb c v f rho d f' out y g Hu Hm Hr Hd Hz Hf Hly Hy Hg.
  set (D := d_design (pb_dom pb)) in *. set (V := rsum (map (fun e => nth e (pb_volumes pb) 0) D)) in Hy.
  destruct (usable_ids f Hu) as (Hrad & Hne).
  assert (Hfd : exists fd outd, sf_forward f d = Ok (fd, outd)) by (rewrite (forward_eq f Hrad Hne d Hd); eauto).
  destruct Hfd as (fd & outd & Hfd).
  destruct (C46_adjoint f d y fd outd Hu Hd Hly Hfd 1) as (g' & _ & Hg' & _ & Had & _).
  assert (g' = g).
  { assert (f' = fd); [|congruence]. rewrite (forward_eq f Hrad Hne rho Hr) in Hf. rewrite (forward_eq f Hrad Hne d Hd) in Hfd.
    injection Hf as <- _. injection Hfd as <- _. reflexivity. }
  subst g'.
  rewrite (rs_perm _ _ _ (design_perm pb f Hm)). fold D. rewrite <- Had. rewrite <- (rs_perm _ _ _ (design_perm pb f Hm)). fold D.
  assert (Hout : sf_map f rho = out) by (unfold sf_map; now rewrite Hf).
  assert (Houtd : sf_map f d = outd) by (unfold sf_map; now rewrite Hfd).
  assert (Hcurve : forall t, fraction_of pb c v f (line rho d t) =
    rsum (map (fun e => heaviside_projection (nth e out 0 + t * nth e outd 0) (v_beta v) (c_beta_eta (i_oc c)) * (nth e (pb_volumes pb) 0 / V)) D)).
  { intros t. rewrite fraction_sum. fold D. fold V. apply rs_ext. intros e He. f_equal. f_equal.
    rewrite sf_map_line; auto; [now rewrite Hout, Houtd|]. destruct Hm as (_ & Hm). now apply Hm. }
  eapply derivable_pt_lim_ext; [intros t; symmetry; apply Hcurve|].
  apply derive_rs. intros e He. rewrite Hy by exact He.
  pose proof (H_derive (v_beta v) (c_beta_eta (i_oc c)) (nth e out 0)) as HH.
  set (sh := nth e (pb_volumes pb) 0 / V). set (a := nth e out 0) in *. set (b := nth e outd 0).
  assert (Hlin : derivable_pt_lim (fun t => a + t * b) 0 b).
  { replace (derivable_pt_lim (fun t => a + t * b) 0 b) with (derivable_pt_lim (fun t => a + t * b) 0 (0 + 1 * b)) by (f_equal; ring).
    apply (derivable_pt_lim_plus (fct_cte a) (fun t => t * b) 0 0 (1 * b)); [apply derivable_pt_lim_const|].
    replace (1 * b) with (1 * fct_cte b 0 + id 0 * 0) by (unfold fct_cte, id; ring).
    apply (derivable_pt_lim_mult id (fct_cte b)); [apply derivable_pt_lim_id|apply derivable_pt_lim_const]. }
  assert (Hc : derivable_pt_lim (fun t => heaviside_projection (a + t * b) (v_beta v) (c_beta_eta (i_oc c))) 0
     (heaviside_projection_derivative a (v_beta v) (c_beta_eta (i_oc c)) * b)).
  { apply (derivable_pt_lim_comp (fun t => a + t * b) (fun r => heaviside_projection r (v_beta v) (c_beta_eta (i_oc c)))); [exact Hlin|].
    replace (a + 0 * b) with a by ring. exact HH. }
  replace (b * (sh * heaviside_projection_derivative a (v_beta v) (c_beta_eta (i_oc c))))
    with ((heaviside_projection_derivative a (v_beta v) (c_beta_eta (i_oc c)) * b) * fct_cte sh 0 +
          heaviside_projection (a + 0 * b) (v_beta v) (c_beta_eta (i_oc c)) * 0) by (unfold fct_cte; ring).
  apply (derivable_pt_lim_mult (fun t => heaviside_projection (a + t * b) (v_beta v) (c_beta_eta (i_oc c))) (fct_cte sh)); [exact Hc|apply derivable_pt_lim_const].
Qed.
Print Assumptions C65_volume_gradient.

(* Growing every design element of a uniform design by the same amount changes the
   constrained fraction at the rate of the projection's slope; the volume gradient the
   KKT residual uses predicts the rate 1. *)
Theorem C65_uniform_growth_rate : forall pb c v f rho x,
  usable f -> mask_of_design pb f -> List.length rho = n_el f ->
  0 < rsum (map (fun e => nth e (pb_volumes pb) 0) (d_design (pb_dom pb))) ->
  (forall e, In e (d_design (pb_dom pb)) -> nth e rho 0 = x) ->
  let design := d_design (pb_dom pb) in
  let vols := map (fun e => nth e (pb_volumes pb) 0) design in
  let d := map (fun e => if is_design (sf_mask f) e then 1 else 0) (seq 0 (n_el f)) in
  derivable_pt_lim (fun t => fraction_of pb c v f (line rho d t)) 0 (heaviside_projection_derivative x (v_beta v) (c_beta_eta (i_oc c))) /\
  rsum (dV_design vols (rsum vols)) = 1.
Proof.
  intros pb c v f rho x Hu Hm Hr HV Hx design vols d. fold design in HV, Hx. fold vols in HV.
  assert (Hsum : forall l : list R, rsum (map (fun v => v / rsum vols) l) = rsum l / rsum vols).
  { intros l. unfold Rdiv. rewrite rs_scal_r. now rewrite map_id. }
  split; [|unfold dV_design; rewrite Hsum; apply Rinv_r; lra].
  assert (Hdn : forall e, (e < n_el f)%nat -> nth e d 0 = if is_design (sf_mask f) e then 1 else 0) by (intros e He; unfold d; now rewrite nth_map_seq').
  assert (Hdl : List.length d = n_el f) by (unfold d; now rewrite map_length, seq_length).
  pose proof (proj2 Hm) as Hmm. fold design in Hmm.
  assert (Hdes : forall e, In e design -> designs f e) by (intros e He; now apply Hmm).
  assert (Hconst : forall z rr, List.length rr = n_el f -> (forall e, In e design -> nth e rr 0 = z) -> forall e, In e design -> nth e (sf_map f rr) 0 = z).
  { intros z rr Hl Hz e He. destruct (C45_bounds_and_constants f rr z z Hu Hl) as (f' & out & Hf & Hb & _).
    - intros j Hj. rewrite Hz by (now apply Hmm). lra.
    - unfold sf_map. rewrite Hf. pose proof (Hb e (Hdes e He)). lra. }
  assert (Hd1 : forall e, In e design -> nth e d 0 = 1).
  { intros e He. apply Hmm in He. rewrite Hdn by apply He. now rewrite (proj2 He). }
  assert (Hcurve : forall t, fraction_of pb c v f (line rho d t) = heaviside_projection (x + t) (v_beta v) (c_beta_eta (i_oc c))).
  { intros t. rewrite fraction_sum. fold design. fold vols.
    rewrite (rs_ext _ (fun e => heaviside_projection (x + t) (v_beta v) (c_beta_eta (i_oc c)) * (nth e (pb_volumes pb) 0 / rsum vols))).
    - rewrite rs_scal. unfold Rdiv. rewrite rs_scal_r. fold vols. rewrite Rinv_r by lra. ring.
    - intros e He. f_equal. f_equal. rewrite sf_map_line; auto. rewrite (Hconst x rho Hr Hx e He), (Hconst 1 d Hdl Hd1 e He). ring. }
  eapply derivable_pt_lim_ext; [intros t; symmetry; apply Hcurve|].
  replace (heaviside_projection_derivative x (v_beta v) (c_beta_eta (i_oc c))) with (heaviside_projection_derivative x (v_beta v) (c_beta_eta (i_oc c)) * (0 + 1)) by ring.
  apply (derivable_pt_lim_comp (fun t => x + t) (fun r => heaviside_projection r (v_beta v) (c_beta_eta (i_oc c)))).
  - apply (derivable_pt_lim_plus (fct_cte x) id); [apply derivable_pt_lim_const|apply derivable_pt_lim_id].
  - rewrite Rplus_0_r. apply H_derive.
Qed.
Print Assumptions C65_uniform_growth_rate.
(* REFUTED: with projection sharpness beta >= 3 and a uniform design at the threshold
   the true rate exceeds the predicted one *)
Theorem C65_kkt_volume_gradient_refuted : forall pb c v f rho,
  usable f -> mask_of_design pb f -> List.length rho = n_el f ->
  0 < rsum (map (fun e => nth e (pb_volumes pb) 0) (d_design (pb_dom pb))) ->
  3 <= v_beta v -> 0 <= c_beta_eta (i_oc c) <= 1 ->
  (forall e, In e (d_design (pb_dom pb)) -> nth e rho 0 = c_beta_eta (i_oc c)) ->
  let vols := map (fun e => nth e (pb_volumes pb) 0) (d_design (pb_dom pb)) in
  let d := map (fun e => if is_design (sf_mask f) e then 1 else 0) (seq 0 (n_el f)) in
  exists rate, derivable_pt_lim (fun t => fraction_of pb c v f (line rho d t)) 0 rate /\
    rsum (dV_design vols (rsum vols)) + 1 / 4 < rate.
Proof.
  intros pb c v f rho Hu Hm Hr HV Hb He Hx vols d.
  destruct (C65_uniform_growth_rate pb c v f rho (c_beta_eta (i_oc c)) Hu Hm Hr HV Hx) as (A & B).
  eexists. split; [exact A|]. fold vols in B. rewrite B.
  set (beta := v_beta v) in *. set (eta := c_beta_eta (i_oc c)) in *. unfold heaviside_projection_derivative.
  replace (beta * (eta - eta)) with 0 by ring. rewrite tanh_0'.
  set (D := tanh (beta * eta) + tanh (beta * (1 - eta)) + tiny).
  assert (HD : D < 2 + 1/100).
  { unfold D, tiny. pose proof (tanh_lt_1 (beta * eta)). pose proof (tanh_lt_1 (beta * (1 - eta))). lra. }
  assert (HD0 : 0 < D) by (apply den_pos; lra).
  apply (Rmult_lt_reg_r D); [exact HD0|]. unfold Rdiv at 2. rewrite Rmult_assoc, Rinv_l by lra. replace (beta * (1 - 0 ^ 2) * 1) with beta by ring. lra.
Qed.
Print Assumptions C65_kkt_volume_gradient_refuted.

(* the bar of C26 with sharpness 4 *)
Example C65_instance :
  let v := mkVals 1 3 (4/10) 4 (1/10) (1/2) None 1 in
  usable ex_filter /\ mask_of_design ex_pb ex_filter /\
  exists rate, derivable_pt_lim (fun t => fraction_of ex_pb ex_c v ex_filter (line [1/2; 1] [1; 0] t)) 0 rate /\ 1 + 1/4 < rate.
Proof.
  intros v.
  assert (U : usable ex_filter). { split; [cbn; lra|]. exists 0%nat. split; [cbn; lia|reflexivity]. }
  assert (M : mask_of_design ex_pb ex_filter).
  { unfold mask_of_design. change (pb_dom ex_pb) with ex_dom. rewrite ex_dom_eq. cbn [d_design]. split; [repeat constructor; easy|].
    intros e. split; [intros [<-|[]]; split; [cbn; lia|reflexivity]|]. intros (He & Hd). destruct e as [|[|e]]; [now left|discriminate|cbn in He; lia]. }
  split; [exact U|]. split; [exact M|].
  destruct (C65_kkt_volume_gradient_refuted ex_pb ex_c v ex_filter [1/2; 1] U M eq_refl) as (rate & A & B); try (cbn; lra).
  - change (pb_dom ex_pb) with ex_dom. rewrite ex_dom_eq. intros e [<-|[]]. cbn. lra.
  - exists rate. split; [exact A|]. eapply Rle_lt_trans; [|exact B].
    change (pb_dom ex_pb) with ex_dom. rewrite ex_dom_eq. cbn. lra.
Qed.
