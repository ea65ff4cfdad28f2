(* C102: whole iterations of the density method with the default (nodal Helmholtz) filter. *)
From Verif Require Import Base Sums LinAlg Material_model Material_proofs OC_model OC_spec OC_proofs OC_props OCvol_props LogMOC_model LogMOC_proofs LogMOC_props Filter_model Filter_proofs Filter_props
  Helmholtz_model Helmholtz_props HzRange_spec HzRange_props
  Mesh_model Mesh_spec Mesh_proofs Mesh_props Fea_model Fea_spec Fea_proofs Fea_props Iter_model Iter_spec Grad_proofs Iter_proofs Grad_props Iter_props Vol_props VolGrad_props
  Heat_model Heat_spec Heat_proofs Heat_props HeatGrad_props HeatSens_props HeatArgs_props HeatAdj_model HeatAdj_props HeatIter_model HeatIter_spec HeatIter_props LMIter_model LMIter_spec LMIter_props
  HzIter_model HzIter_spec HzIter_proofs.
Open Scope R_scope.
Open Scope list_scope.

Lemma hz_iterate_inv t c v i s s' : hz_iterate t c v i s = Ok s' -> exists ev,
  hz_analyse t c v (h_filter s) (h_rho s) = Ok (hz_at v (h_filter s), ev) /\ hz_advance (element_task t) c v i s (hz_at v (h_filter s)) ev = Ok s' /\
  h_filter s' = hz_at v (h_filter s) /\ h_eval s' = Some ev.
Proof.
  intros H. unfold hz_iterate in H. destruct (hz_analyse t c v (h_filter s) (h_rho s)) as [[f ev]|] eqn:E; [|discriminate]. cbn [bind] in H.
  assert (Q : f = hz_at v (h_filter s)).
  { unfold hz_analyse in E. destruct (match t with Elastic pb => _ | HeatTask P => _ end) as [ev'|]; [|discriminate]. cbn [bind] in E. congruence. }
  subst f. exists ev. split; [reflexivity|]. split; [exact H|]. unfold hz_advance in H.
  destruct (rho_update _ _ _) as [r|]; [|discriminate]. destruct (r_rho r) as [new|]; [|discriminate].
  match type of H with Ok ?x = _ => assert (Q : s' = x) by congruence end. rewrite Q. auto.
Qed.

(* ---- bounds, move limit, pinned elements: with any mesh, radius and linear solver ---- *)
Theorem C102_iteration_keeps_bounds t T c v i s s' : from_args t T c ->
  c_rho_min (i_oc c) <= c_rho_max (i_oc c) -> c_smin (i_oc c) <= c_smax (i_oc c) ->
  c_lambda_lower (i_oc c) <= c_lambda_upper (i_oc c) -> 0 <= v_move v ->
  densities_ok T c (h_rho s) -> hz_iterate t c v i s = Ok s' ->
  densities_ok T c (h_rho s') /\ (forall e, designed T c e -> oc_step_ok (c_rho_min (i_oc c)) (c_rho_max (i_oc c)) (v_move v) (c_smin (i_oc c)) (c_smax (i_oc c))
                                 (nth e (h_rho s) 0) (nth e (h_rho s') 0)) /\
  h_change s' <= v_move v /\
  (forall e, designed T c e -> Rabs (nth e (h_rho s') 0 - nth e (h_rho s) 0) <= h_change s') /\
  ((exists e, designed T c e) -> exists e, designed T c e /\ h_change s' = Rabs (nth e (h_rho s') 0 - nth e (h_rho s) 0)).
Proof.
  intros (HT & Hpk & Hdes) Hb Hs Hl Hm Hok H. destruct (hz_iterate_inv _ _ _ _ _ _ H) as (ev & _ & Ha & _).
  exact (hz_advance_keeps_bounds T c _ v i s _ ev s' HT Hpk Hdes Hb Hs Hl Hm Hok Ha).
Qed.
Print Assumptions C102_iteration_keeps_bounds.

(* ---- the sensitivities are never positive, whatever the objective, the material
   interpolation, the mesh, the radius and the linear solver ---- *)
Theorem C102_sensitivities_nonpositive t c v i s s' ev : i_sens_filter c = false ->
  n_els (hz_mesh (h_filter s)) = List.length (h_rho s) ->
  hz_iterate t c v i s = Ok s' -> h_eval s' = Some ev -> forall e, nth e (ev_dC ev) 0 <= 0.
Proof.
  intros Hsf Hn H Hev e. destruct (hz_iterate_inv _ _ _ _ _ _ H) as (ev' & Ha & _ & _ & E). assert (ev' = ev) by congruence. subst ev'.
  destruct (hz_at_eq v (h_filter s)) as (Em & _).
  assert (Q : exists nt gs, ev_dC ev = hz_sensitivity (hz_at v (h_filter s)) c (List.length (h_rho s)) nt gs).
  { unfold hz_analyse in Ha. destruct t as [pb|P].
    - unfold hz_evaluate in Ha. destruct (moduli _ _ _ _ _) as [El|]; [|discriminate]. cbn [bind] in Ha. destruct (objectives _ _ _ _ _ _ _) as [[cs us]|]; [|discriminate].
      cbn [bind] in Ha. eexists _, _. assert (Q : forall a b : eval, @Ok (hfilter * eval) (hz_at v (h_filter s), a) = Ok (hz_at v (h_filter s), b) -> b = a) by congruence.
      rewrite (Q _ _ Ha). reflexivity.
    - unfold hz_heat_evaluate in Ha. destruct (n_tasks _) as [nt|]; [|discriminate]. cbn [bind] in Ha. destruct (Nat.eqb nt 0); [discriminate|].
      destruct (objective_call _ _ _) as [[[Js Ts] Ls]|]; [|discriminate]. cbn [bind] in Ha. destruct (energy_multi_load _ _ _ _ _) as [E0|]; [|discriminate]. cbn [bind] in Ha.
      destruct (heat_sensitivity _ _ _ _) as [G|]; [|discriminate]. cbn [bind] in Ha.
      eexists _, _. assert (Q : forall a b : eval, @Ok (hfilter * eval) (hz_at v (h_filter s), a) = Ok (hz_at v (h_filter s), b) -> b = a) by congruence.
      rewrite (Q _ _ Ha). reflexivity. }
  destruct Q as (nt & gs & ->). apply hz_sensitivity_nonpos; [now rewrite Em|exact Hsf].
Qed.
Print Assumptions C102_sensitivities_nonpositive.

(* ---- success: any objective, the thermal compliance included ---- *)
Theorem C102_iteration_succeeds t T c v i s : from_args t T c -> task_ready t T c v -> filter_ready (h_filter s) (List.length (ta_t T)) (v_radius v) ->
  i_sens_filter c = false ->
  0 <= c_rho_min (i_oc c) <= c_rho_max (i_oc c) -> c_smin (i_oc c) <= c_smax (i_oc c) -> 0 < c_floor (i_oc c) ->
  0 < c_lambda_lower (i_oc c) <= c_lambda_upper (i_oc c) -> 0 <= v_move v -> 0 <= h_running s ->
  densities_ok T c (h_rho s) ->
  exists s' ev, hz_iterate t c v i s = Ok s' /\ h_eval s' = Some ev /\ 0 < h_running s' /\ (exists k, h_kkt s' = Some k) /\
    hz_mesh (h_filter s') = hz_mesh (h_filter s) /\ hz_mask (h_filter s') = hz_mask (h_filter s) /\ hz_solve (h_filter s') = hz_solve (h_filter s) /\
    hz_radius (h_filter s') = v_radius v /\
    (forall e, (e < List.length (ta_t T))%nat -> 0 <= nth e (ev_filtered ev) 0 <= Rmax 1 (c_rho_max (i_oc c))).
Proof.
  intros HA HR HF Hsf Hb Hs Hfl Hl Hm Hrn Hok. destruct (hz_analyse_ok t T c v (h_filter s) (h_rho s) HA HR HF (proj1 Hb) Hok) as (ev & nt & gs & E & Ef & _ & EdC & _).
  pose proof HA as (HT & Hpk & Hdes). destruct (hz_at_eq v (h_filter s)) as (Em & Ek & Es & Er).
  assert (Hn : n_els (hz_mesh (hz_at v (h_filter s))) = List.length (ta_t T)) by (rewrite Em; apply HF).
  destruct (hz_advance_succeeds T c (element_task t) v i s (hz_at v (h_filter s)) ev HT Hpk Hdes Hs Hfl Hl Hm Hrn Hok) as (s' & Ha & Hr' & Hk' & Hf' & Hv').
  { intros e _. rewrite EdC. now apply hz_sensitivity_nonpos. }
  exists s', ev. unfold hz_iterate. rewrite E. cbn [bind]. split; [exact Ha|]. split; [exact Hv'|]. split; [exact Hr'|]. split; [exact Hk'|]. rewrite Hf'.
  split; [exact Em|]. split; [exact Ek|]. split; [exact Es|]. split; [exact Er|]. intros e He. rewrite Ef.
  destruct (hz_densities t T c _ HA (proj1 Hb) Hok) as (_ & H0 & _). destruct Hok as (Hlen & Hok). destruct (sets_of T c _ HT Hpk) as (_ & HD & _).
  apply (hz_fwd_range _ _ _ 0 (Rmax 1 (c_rho_max (i_oc c))) (filter_ready_at v _ _ HF)); [pose proof (Rmax_l 1 (c_rho_max (i_oc c))); lra| |exact He].
  intros e' He'. split; [apply H0|].
  destruct (in_dec Nat.eq_dec e' (d_design (pb_dom (element_task t)))) as [Q|Q]; rewrite HD in Q.
  - pose proof (proj1 (Hok e' He') Q). pose proof (Rmax_r 1 (c_rho_max (i_oc c))). lra.
  - rewrite (proj2 (Hok e' He') Q). apply Rmax_l.
Qed.
Print Assumptions C102_iteration_succeeds.

(* ---- the volume constraint, as C63 ---- *)
Theorem C102_volume t T c v i s s' ev : from_args t T c -> NoDup (ta_design T) ->
  c_lambda_lower (i_oc c) <= c_lambda_upper (i_oc c) -> c_lambda_upper (i_oc c) - c_lambda_lower (i_oc c) <= 1/100000 * 2 ^ 1000 ->
  densities_ok T c (h_rho s) -> hz_iterate t c v i s = Ok s' -> h_eval s' = Some ev ->
  let pb := element_task t in
  let dC := map (fun x => x / h_running s') (ev_dC ev) in
  let rule := rule_gives pb c v (h_rho s) dC in
  let frac := hz_fraction pb c v (h_filter s') in
  exists lam, c_lambda_lower (i_oc c) <= lam <= c_lambda_upper (i_oc c) /\ rule lam (h_rho s') /\
    (Rabs (frac (h_rho s') - v_vol_frac v) < 1 / 10000 \/
     exists a b, c_lambda_lower (i_oc c) <= a <= lam /\ lam <= b <= c_lambda_upper (i_oc c) /\ b - a <= 1 / 100000 /\
       (a = c_lambda_lower (i_oc c) \/ exists full, rule a full /\ v_vol_frac v + 1 / 10000 <= frac full) /\
       (b = c_lambda_upper (i_oc c) \/ forall full, rule b full -> frac full <= v_vol_frac v - 1 / 10000)).
Proof.
  intros (HT & Hpk & Hdes) Hnd Hl Hw Hok H Hev. destruct (hz_iterate_inv _ _ _ _ _ _ H) as (ev' & _ & Ha & Hf & He). assert (ev' = ev) by congruence. subst ev'.
  rewrite <- Hf in Ha. exact (hz_advance_meets_the_volume T c (element_task t) v i s s' ev HT Hpk Hnd Hdes Hl Hw Hok Ha).
Qed.
Print Assumptions C102_volume.

(* ---- REFUTED: that the update follows the sensitivities.  The filter replaces every
   positive sensitivity field by zero, so when no element gains from material in any load
   case, the OC update sees zero sensitivities and removes material from every element as
   fast as the limits allow, whatever volume fraction is asked for. ---- *)
Lemma zero_bwd f n g : filter_ready f n (hz_radius f) -> (forall e, (e < n)%nat -> is_design (hz_mask f) e = true -> 0 <= nth e g 0) ->
  forall e, nth e (hz_bwd f g) 0 = 0.
Proof.
  intros HF Hg e. destruct HF as (Hn & Hm & Hf & Hs & Hc & S).
  destruct (Nat.lt_ge_cases e n) as [He|He]; [|apply nth_overflow; rewrite hz_bwd_len; lia].
  refine (proj2 (proj2 (C101_gradient_range (hz_mesh f) (hz_mask f) (hz_radius f) _ _ (hz_bwd_spec f n g _)) Hm Hf Hs Hc) _ e _); [now split| |lia].
  intros e' He' Hd. apply Hg; [lia|exact Hd].
Qed.
Lemma zero_sensitivity f c n nt gs : filter_ready f n (hz_radius f) -> i_sens_filter c = false ->
  (forall g, In g gs -> forall e, (e < n)%nat -> is_design (hz_mask f) e = true -> 0 <= nth e g 0) ->
  forall e, nth e (hz_sensitivity f c n nt gs) 0 = 0.
Proof.
  intros HF Hs Hg e. assert (Hn : n_els (hz_mesh f) = n) by apply HF. destruct (hz_sensitivity_spec f c n nt gs Hn) as (H1 & H2).
  destruct (Nat.lt_ge_cases e n) as [He|He]; [|apply nth_overflow; lia]. rewrite (H2 Hs e He).
  rewrite (rs_zero _ gs); [unfold Rdiv; ring|]. intros g Hin. apply (zero_bwd f n g HF). intros e' He' Hd. now apply (Hg g Hin).
Qed.
(* what the rule does with zero sensitivities *)
Definition fastest_removal (c : icfg) (v : ivals) (x : R) : R :=
  Rmax (c_smin (i_oc c) * x) (Rmax (x - v_move v) (c_rho_min (i_oc c))).
Lemma zero_step c v lam x : 0 < v_eta v -> 0 <= c_smin (i_oc c) <= 1 -> 1 <= c_smax (i_oc c) -> 0 <= c_rho_min (i_oc c) -> 0 <= v_move v ->
  c_rho_min (i_oc c) <= x <= c_rho_max (i_oc c) ->
  oc_candidate (c_rho_min (i_oc c)) (c_rho_max (i_oc c)) (v_move v) (v_eta v) tiny (c_smin (i_oc c)) (c_smax (i_oc c)) lam 0 x = Some (fastest_removal c v x).
Proof.
  intros He Hs Hx Hm Hmv Hr. unfold oc_candidate. replace (- 0 / (lam + tiny)) with 0 by (unfold Rdiv; ring).
  unfold np_power. destruct (Rlt_dec 0 0) as [A|_]; [lra|]. destruct (Req_EM_T 0 0) as [_|A]; [|now contradict A]. destruct (Rlt_dec 0 (v_eta v)) as [_|A]; [|easy].
  cbn [fclip]. assert (E : clip 0 (c_smin (i_oc c)) (c_smax (i_oc c)) = c_smin (i_oc c)) by (unfold clip; rewrite Rmax_right, Rmin_left; lra).
  rewrite E. f_equal. unfold clip, fastest_removal. rewrite (Rmult_comm x).
  apply Rmin_left. apply Rmax_lub; [|apply Rmax_lub].
  - apply Rmin_glb; nra.
  - apply Rmin_glb; lra.
  - apply Rmin_glb; lra.
Qed.
Lemma erased_step t T c v i s s' ev : from_args t T c -> NoDup (ta_design T) ->
  0 <= c_rho_min (i_oc c) -> 0 <= c_smin (i_oc c) <= 1 -> 1 <= c_smax (i_oc c) -> c_lambda_lower (i_oc c) <= c_lambda_upper (i_oc c) -> 0 <= v_move v -> 0 < v_eta v ->
  densities_ok T c (h_rho s) -> hz_iterate t c v i s = Ok s' -> h_eval s' = Some ev -> (forall e, nth e (ev_dC ev) 0 = 0) ->
  forall e, designed T c e -> nth e (h_rho s') 0 = fastest_removal c v (nth e (h_rho s) 0).
Proof.
  intros (HT & Hpk & Hdes) Hnd Hm Hs Hx Hl Hmv He Hok H Hev Hz e Hde. destruct (hz_iterate_inv _ _ _ _ _ _ H) as (ev' & _ & Ha & Hf & E'). assert (ev' = ev) by congruence. subst ev'.
  rewrite <- Hf in Ha. destruct (hz_iteration_bisection T c _ v i s s' ev HT Hpk Hnd Hdes Hl Hok Ha) as (_ & _ & _ & o & _ & _ & _ & (_ & R & _)).
  destruct (sets_of T c _ HT Hpk) as (_ & HD & _). specialize (R e (proj2 (HD e) Hde)).
  assert (Z : nth e (map (fun x => x / h_running s') (ev_dC ev)) 0 = 0).
  { destruct (Nat.lt_ge_cases e (List.length (ev_dC ev))) as [L|L]; [|apply nth_overflow; now rewrite map_length].
    rewrite (nth_mapR (fun x => x / h_running s')) by exact L. rewrite Hz. unfold Rdiv. ring. }
  rewrite Z in R. rewrite zero_step in R; auto; [congruence|]. apply Hok; [|exact Hde]. apply Hdes. apply Hde.
Qed.

(* RAMP with p > 1 and projected densities above (1+p)/(2p) in all design elements *)
Theorem C102_ramp_gains_erased pb T c v i s s' ev : from_args (Elastic pb) T c -> task_ready (Elastic pb) T c v ->
  filter_ready (h_filter s) (List.length (ta_t T)) (v_radius v) -> NoDup (ta_design T) -> i_sens_filter c = false ->
  i_interp c = RAMP -> i_Emin_coeff c < 1 ->
  0 <= c_rho_min (i_oc c) <= c_rho_max (i_oc c) -> 0 <= c_smin (i_oc c) <= 1 -> 1 <= c_smax (i_oc c) ->
  c_lambda_lower (i_oc c) <= c_lambda_upper (i_oc c) -> 0 <= v_move v -> 0 < v_eta v ->
  densities_ok T c (h_rho s) -> hz_iterate (Elastic pb) c v i s = Ok s' -> h_eval s' = Some ev ->
  (forall e, (e < List.length (ta_t T))%nat -> is_design (hz_mask (h_filter s)) e = true -> 1 + v_p v < 2 * v_p v * nth e (ev_projected ev) 0) ->
  (forall e, nth e (ev_dC ev) 0 = 0) /\ forall e, designed T c e -> nth e (h_rho s') 0 = fastest_removal c v (nth e (h_rho s) 0).
Proof.
  intros HA HR HF Hnd Hsf Hi Hco Hb Hs Hx Hl Hmv He Hok H Hev Hw.
  destruct (hz_iterate_inv _ _ _ _ _ _ H) as (ev' & Ha & _ & _ & E'). assert (ev' = ev) by congruence. subst ev'.
  assert (Z : forall e, nth e (ev_dC ev) 0 = 0).
  { pose proof HR as (WP & Hr). destruct (hz_densities _ T c _ HA (proj1 Hb) Hok) as (Hlen & H0 & H1). specialize (Hr Hi). specialize (H1 Hr).
    pose proof (filter_ready_at v _ _ HF) as HF'. set (f := hz_at v (h_filter s)) in *. set (n := List.length (ta_t T)) in *.
    destruct (hz_evaluate_eq pb c v f n (h_rho s) WP HF' Hlen (fun e _ => H0 e) (fun _ e _ => H1 e)) as (El & us & _ & HEm & _ & Q). cbn zeta in Q.
    unfold hz_analyse in Ha. fold f in Ha. rewrite Q in Ha. cbn [bind] in Ha.
    match type of Ha with Ok (_, ?x) = _ => assert (Q2 : ev = x) by congruence end. rewrite Q2 in Hw |- *. cbn [ev_projected ev_dC] in *. clear Q2.
    apply (zero_sensitivity f c n); [exact HF'|exact Hsf|]. intros g Hg e He' Hde.
    apply in_map_iff in Hg. destruct Hg as (U & <- & HU). apply in_map_iff in HU. destruct HU as (u & <- & _).
    destruct (hz_projected_range c v f n (h_rho s) HF' (wp_beta _ _ _ _ WP) (wp_eta _ _ _ _ WP) (fun e _ => H0 e)) as (PL & P0 & P1). specialize (P1 (fun e _ => H1 e)).
    unfold grad_filtered. rewrite PL, nth_map_seq' by exact He'. rewrite Hi. cbn [dC_of]. apply Rmult_le_pos; [|left; apply dH_pos; [apply (wp_beta _ _ _ _ WP)|apply (wp_eta _ _ _ _ WP)]].
    destruct (Emin_pos pb c v _ WP) as (HE1 & HE2). pose proof (wp_p _ _ _ _ WP) as Hp.
    assert (HEs : 0 <= Emin_of pb c < pb_E0 pb). { unfold Emin_of in *. pose proof (wp_E0 _ _ _ _ WP). split; [lra|nra]. }
    set (W := strain_energy (pb_basis pb) (pb_nu pb) (fun e => nth e El 0) u e).
    assert (HW : 0 <= W) by (apply energy_nonneg; [apply (wp_nu _ _ _ _ WP)|exact (wp_weights _ _ _ _ WP)|specialize (HEm e He'); lra]).
    destruct HW as [HW|<-].
    - left. assert (Hd' : is_design (hz_mask (h_filter s)) e = true) by (destruct (hz_at_eq v (h_filter s)) as (_ & Ek & _); unfold f in Hde; now rewrite Ek in Hde).
      specialize (Hw e He' Hd'). apply dC_ramp_sign_wrong; auto; lra.
    - unfold dC_drho_ramp. rewrite Rmult_0_r. unfold Rdiv. rewrite !Rmult_0_l. lra. }
  split; [exact Z|]. exact (erased_step (Elastic pb) T c v i s s' ev HA Hnd (proj1 Hb) Hs Hx Hl Hmv He Hok H Hev Z).
Qed.
Print Assumptions C102_ramp_gains_erased.

(* heat tasks: reported sensitivities nowhere negative on the design elements *)
Theorem C102_heat_gains_erased T st D A values c P v i s s' ev : from_args (HeatTask P) T c ->
  heat_problem T st A values c P -> heat_ready st D values c v (some_filter (ne (hs_H st))) -> i_design_dirichlet c = false ->
  filter_ready (h_filter s) (ne (hs_H st)) (v_radius v) -> NoDup (ta_design T) -> i_sens_filter c = false ->
  0 <= c_rho_min (i_oc c) <= c_rho_max (i_oc c) -> c_rho_max (i_oc c) <= 1 -> 0 <= c_smin (i_oc c) <= 1 -> 1 <= c_smax (i_oc c) ->
  c_lambda_lower (i_oc c) <= c_lambda_upper (i_oc c) -> 0 <= v_move v -> 0 < v_eta v ->
  densities_ok T c (h_rho s) -> hz_iterate (HeatTask P) c v i s = Ok s' -> h_eval s' = Some ev ->
  (forall Js Ts Ls E G, evaluated (with_p st (v_p v)) A values (ev_projected ev) Js Ts Ls E -> reported (with_p st (v_p v)) A values (ev_projected ev) Ts G ->
     forall g, In g G -> forall e, (e < ne (hs_H st))%nat -> is_design (hz_mask (h_filter s)) e = true -> 0 <= nth e g 0) ->
  (forall e, nth e (ev_dC ev) 0 = 0) /\ forall e, designed T c e -> nth e (h_rho s') 0 = fastest_removal c v (nth e (h_rho s) 0).
Proof.
  intros HA HP HR Hdd HF Hnd Hsf Hb H1' Hs Hx Hl Hmv He Hok H Hev Hw.
  destruct (hz_iterate_inv _ _ _ _ _ _ H) as (ev' & Ha & _ & _ & E'). assert (ev' = ev) by congruence. subst ev'.
  assert (Z : forall e, nth e (ev_dC ev) 0 = 0).
  { destruct (hz_densities _ T c _ HA (proj1 Hb) Hok) as (Hlen & H0 & H1). specialize (H1 H1').
    pose proof HP as (_ & _ & _ & Hn & _). assert (En : List.length (ta_t T) = ne (hs_H st)) by congruence. rewrite En in Hlen.
    pose proof (filter_ready_at v _ _ HF) as HF'. set (f := hz_at v (h_filter s)) in *.
    destruct (hz_heat_evaluate_eq T st D A values c P v f (h_rho s) HP HR HF' Hlen (fun e => conj (H0 e) (H1 e))) as (Js & Ts & Ls & E & G & HE & HG & _ & _ & _ & Lg & Q).
    unfold hz_analyse in Ha. fold f in Ha. rewrite Q in Ha. cbn [bind] in Ha.
    match type of Ha with Ok (_, ?x) = _ => assert (Q2 : ev = x) by congruence end. rewrite Q2 in Hw |- *. cbn [ev_projected ev_dC] in *. clear Q2. rewrite Hlen.
    apply (zero_sensitivity f c); [exact HF'|exact Hsf|]. intros g Hg e He' Hde. apply in_map_iff in Hg. destruct Hg as (g0 & <- & Hg0).
    assert (Lf : List.length (hz_fwd f (h_rho s)) = ne (hs_H st)) by (rewrite hz_fwd_len; apply HF').
    unfold slopes. rewrite (zip_nth _ _ _ e 0 0) by (rewrite ?Lf, ?(Lg g0 Hg0); exact He').
    apply Rmult_le_pos; [|left; apply dH_pos; [apply (hr_beta _ _ _ _ _ _ HR)|apply (hr_eta _ _ _ _ _ _ HR)]].
    apply (Hw Js Ts Ls E G HE HG g0 Hg0 e He'). destruct (hz_at_eq v (h_filter s)) as (_ & Ek & _). unfold f in Hde. now rewrite Ek in Hde. }
  split; [exact Z|]. exact (erased_step (HeatTask P) T c v i s s' ev HA Hnd (proj1 Hb) Hs Hx Hl Hmv He Hok H Hev Z).
Qed.
Print Assumptions C102_heat_gains_erased.

(* ---- LogMOC ---- *)
Theorem C102_logmoc_keeps_bounds t T L v i s s' :
  from_args t T (loop_cfg L) -> 0 < m_rho_min (l_m L) <= m_rho_max (l_m L) -> m_lambda_lower (l_m L) <= m_lambda_upper (l_m L) -> 0 <= v_move v ->
  densities_ok T (loop_cfg L) (hl_rho s) -> hz_lm_iterate t L v i s = Ok s' ->
  densities_ok T (loop_cfg L) (hl_rho s') /\
  (forall e, designed T (loop_cfg L) e -> Rabs (nth e (hl_rho s') 0 - nth e (hl_rho s) 0) <= v_move v) /\
  hl_change s' <= v_move v /\
  (forall e, designed T (loop_cfg L) e -> Rabs (nth e (hl_rho s') 0 - nth e (hl_rho s) 0) <= hl_change s') /\
  ((exists e, designed T (loop_cfg L) e) -> exists e, designed T (loop_cfg L) e /\ hl_change s' = Rabs (nth e (hl_rho s') 0 - nth e (hl_rho s) 0)) /\
  m_lambda_lower (l_m L) <= lambda_v (hl_opt s') <= m_lambda_upper (l_m L).
Proof.
  intros (HT & Hpk & Hdes) Hb Hl Hm Hok H. unfold hz_lm_iterate in H.
  destruct (hz_analyse t (loop_cfg L) v (hl_filter s) (hl_rho s)) as [[f ev]|]; [|discriminate]. cbn [bind] in H.
  set (pb := element_task t) in *. unfold hz_lm_advance in H. destruct (lm_rho_update _ _ _) as [o|] eqn:Ho; [|discriminate]. cbn [bind] in H.
  match type of H with Ok ?x = _ => assert (Q : s' = x) by congruence end. rewrite Q. cbn [hl_rho hl_change hl_opt]. clear Q H.
  assert (F : Forall2 (fun r x => c_rho_min (i_oc (loop_cfg L)) <= x <= c_rho_max (i_oc (loop_cfg L)) /\ Rabs (x - r) <= v_move v) (gather (hl_rho s) (d_design (pb_dom pb))) (lo_rho o)).
  { pose proof (C23_whole_update_bounds_and_move_limit (l_m L) (hl_opt s) (hz_lm_args pb v i (hl_rho s) f ev) o Hb Hm) as C. cbn [hz_lm_args la_dC la_design la_rho la_move] in C.
    specialize (C ltac:(now rewrite gather_len) ltac:(now rewrite gather_len) Ho).
    assert (G : forall l, Forall (fun r => m_rho_min (l_m L) <= r <= m_rho_max (l_m L)) l -> forall m,
      Forall2 (fun r x => m_rho_min (l_m L) <= x <= m_rho_max (l_m L) /\ Rabs (x - clip r (m_rho_min (l_m L)) (m_rho_max (l_m L))) <= v_move v) l m ->
      Forall2 (fun r x => m_rho_min (l_m L) <= x <= m_rho_max (l_m L) /\ Rabs (x - r) <= v_move v) l m).
    { clear. induction 1 as [|r l Hr _ IH]; intros m Hf; inversion Hf as [|? x ? m' (H1 & H2) H3]; subst; constructor; auto. rewrite clip_id in H2 by lra. auto. }
    apply G; [|exact C]. apply Forall_forall. intros x Hx. unfold gather in Hx. apply in_map_iff in Hx. destruct Hx as (e & <- & He).
    destruct (sets_of T _ pb HT Hpk) as (_ & HD & _). apply HD in He. pose proof He as (Hin & _). exact (proj1 (proj2 Hok e (Hdes e Hin)) He). }
  destruct (placed_keeps_bounds T (loop_cfg L) pb (hl_rho s) (lo_rho o) (v_move v) HT Hpk Hdes Hm Hok F) as (A1 & A2 & A3 & A4 & A5).
  repeat (split; [assumption|]). rewrite (C24_update_applies_dual_step _ _ _ _ Ho). now apply dual_step_bounds.
Qed.
Print Assumptions C102_logmoc_keeps_bounds.

Theorem C102_logmoc_succeeds t T L v i s : from_args t T (loop_cfg L) -> task_ready t T (loop_cfg L) v ->
  filter_ready (hl_filter s) (List.length (ta_t T)) (v_radius v) -> 0 < m_rho_min (l_m L) <= m_rho_max (l_m L) ->
  densities_ok T (loop_cfg L) (hl_rho s) -> ((i <= 1)%Z \/ running_scale (hl_opt s) <> None) ->
  exists s', hz_lm_iterate t L v i s = Ok s' /\ running_scale (hl_opt s') <> None /\
    hz_mesh (hl_filter s') = hz_mesh (hl_filter s) /\ hz_mask (hl_filter s') = hz_mask (hl_filter s) /\ hz_solve (hl_filter s') = hz_solve (hl_filter s) /\
    hz_radius (hl_filter s') = v_radius v.
Proof.
  intros HA HR HF Hb Hok Hi.
  destruct (hz_analyse_ok t T (loop_cfg L) v (hl_filter s) (hl_rho s) HA HR HF (Rlt_le _ _ (proj1 Hb)) Hok) as (ev & nt & gs & E & _).
  unfold hz_lm_iterate. rewrite E. cbn [bind]. unfold hz_lm_advance.
  destruct (lm_update_total (l_m L) (hl_opt s) (hz_lm_args (element_task t) v i (hl_rho s) (hz_at v (hl_filter s)) ev) Hi) as (o & Ho & Hrs).
  rewrite Ho. cbn [bind]. eexists. split; [reflexivity|]. cbn [hl_opt hl_filter]. split; [exact Hrs|]. apply hz_at_eq.
Qed.
Print Assumptions C102_logmoc_succeeds.

(* The volume slope LogMOC uses.  The filter's sensitivity map returns zero for the
   positive volume field, so LogMOC applies the density filter instead, which holds the
   nodes of fixed elements at 1: an element with k of its N nodes on fixed elements gets a
   slope of at least k/N, however small its share of the volume. *)
Lemma shared_nodes_bound f n y e : filter_ready f n (hz_radius f) -> (forall e, (e < n)%nat -> 0 <= nth e y 0) -> (e < n)%nat ->
  let nodes := nth e (m_els (hz_mesh f)) [] in
  INR (List.length (filter (fixed_node (hz_mesh f) (hz_mask f)) nodes)) / INR (List.length nodes) <= nth e (hz_fwd f y) 0.
Proof.
  intros (Hn & Hm & Hf & Hs & Hc & Sv) Hy He nodes. set (m := hz_mesh f) in *.
  unfold hz_fwd. fold m. set (node := element_to_node m (hz_mask f) 1 (fun e => nth e y 0)). set (x := hz_solve f _ _ _ _). rewrite nth_map_seq' by lia.
  assert (Hx : Helmholtz_model.solves m (hz_radius f) (fixed_node m (hz_mask f)) 1 (Helmholtz_model.mv m (m_M m) node) x) by apply Sv.
  destruct Hm as (Hm1 & Hm2). destruct (Hm1 e ltac:(lia)) as (_ & Hne & Hin). fold nodes in Hne, Hin.
  set (U := fold_right Rmax 1 (map (fun e => nth e y 0) (seq 0 n))).
  assert (HU : 1 <= U /\ forall e, (e < n)%nat -> nth e y 0 <= U).
  { unfold U. assert (G : forall l, 1 <= fold_right Rmax 1 l /\ forall z, In z l -> z <= fold_right Rmax 1 l).
    { induction l as [|a l (I1 & I2)]; cbn [fold_right]; [split; [lra|easy]|]. pose proof (Rmax_l a (fold_right Rmax 1 l)). pose proof (Rmax_r a (fold_right Rmax 1 l)).
      split; [lra|]. intros z [<-|Hz]; [lra|]. specialize (I2 z Hz). lra. }
    split; [exact (proj1 (G _))|]. intros e' He'. apply (proj2 (G _)). apply (in_map (fun e => nth e y 0)), in_seq. lia. }
  assert (P : forall i, (i < m_nn m)%nat -> 0 <= x i).
  { refine (solves_above m _ _ 1 _ x 0 Hf Hs Hc _ _ Hx); [intros; lra|]. intros i Hi.
    refine (proj1 (C47_averaging_in_range m (hz_mask f) 1 _ 0 U i (conj Hm1 Hm2) Hi _ _)); [|intros; lra]. intros e' He' _ _. split; [apply Hy; lia|apply HU; lia]. }
  unfold node_to_element. fold nodes. assert (HN : 0 < INR (List.length nodes)) by (apply lt_0_INR; destruct nodes; [easy|cbn; lia]).
  unfold Rdiv. apply Rmult_le_compat_r; [left; now apply Rinv_0_lt_compat|]. clearbody nodes. clear Hne HN.
  induction nodes as [|i nodes IH]; [cbn; lra|]. inversion Hin as [|? ? Hi Hr]; subst. specialize (IH Hr). cbn [filter map].
  change (rsum (x i :: map x nodes)) with (x i + rsum (map x nodes)). pose proof (Hx i Hi) as Ex. specialize (P i Hi).
  destruct (fixed_node m (hz_mask f) i); [rewrite Ex; cbn [List.length]; rewrite S_INR; lra|lra].
Qed.
Theorem C102_logmoc_volume_slope t T L v i s s' ev : from_args t T (loop_cfg L) -> task_ready t T (loop_cfg L) v ->
  filter_ready (hl_filter s) (List.length (ta_t T)) (v_radius v) -> NoDup (ta_design T) ->
  0 < m_rho_min (l_m L) <= m_rho_max (l_m L) -> 0 < v_beta v -> 0 <= m_beta_eta (l_m L) <= 1 ->
  m_filter_lagrangian (l_m L) = false -> m_center_lagrangian (l_m L) = false -> m_center_objective (l_m L) = false ->
  0 <= v_move v -> 0 <= v_eta v -> 0 <= m_lclip (l_m L) -> 0 < m_lfloor (l_m L) ->
  (forall r, running_scale (hl_opt s) = Some r -> 0 < r) ->
  (forall e, 0 <= nth e (pb_volumes (element_task t)) 0) -> (exists e, designed T (loop_cfg L) e /\ 0 < nth e (pb_volumes (element_task t)) 0) ->
  densities_ok T (loop_cfg L) (hl_rho s) -> hz_lm_iterate t L v i s = Ok s' -> hl_eval s' = Some ev ->
  let m := hz_mesh (hl_filter s) in
  let frac := hz_fraction (element_task t) (loop_cfg L) v (hl_filter s') in
  exists weight (slope : nat -> R), (m_normalize (l_m L) = false -> weight = 1) /\
    let coeff := lambda_v (hl_opt s') + m_aug_mu (l_m L) * (frac (hl_rho s) - v_vol_frac v) in
    forall e, designed T (loop_cfg L) e ->
      (* k/N of the element's nodes belong to fixed elements *)
      (let nodes := nth e (m_els m) [] in
       INR (List.length (filter (fixed_node m (hz_mask (hl_filter s))) nodes)) / INR (List.length nodes) <= slope e) /\
      (l_sens_filter L = false -> nth e (ev_dC ev) 0 <= 0) /\
      let old := nth e (hl_rho s) 0 in let new := nth e (hl_rho s') 0 in
      (0 <= nth e (ev_dC ev) 0 + coeff * weight * slope e -> new <= old) /\ (nth e (ev_dC ev) 0 + coeff * weight * slope e <= 0 -> old <= new).
Proof.
  intros HA HR HF Hnd Hb Hbeta Heta0 F1 F2 F3 Hmv Heta Hcl Hfl Hrs Hvn Hve Hok H Hev m frac.
  set (c := loop_cfg L) in *. pose proof HA as (HT & Hpk & Hdes). set (pb := element_task t) in *.
  destruct (hz_analyse_ok t T c v (hl_filter s) (hl_rho s) HA HR HF (Rlt_le _ _ (proj1 Hb)) Hok) as (ev0 & nt & gs & E & E1 & E2 & E3 & _).
  unfold hz_lm_iterate in H. fold c in H. rewrite E in H. cbn [bind] in H. fold pb in H. unfold hz_lm_advance in H.
  destruct (lm_rho_update (l_m L) (hl_opt s) _) as [o|] eqn:Ho; [|discriminate]. cbn [bind] in H.
  match type of H with Ok ?z = _ => assert (Es : s' = z) by congruence end. rewrite Es in Hev. cbn [hl_eval] in Hev. injection Hev as ->. clear H.
  destruct (sets_of T c pb HT Hpk) as (_ & HD & l & Hp & HL1 & _). set (D := d_design (pb_dom pb)) in *. pose proof (proj1 Hok) as Hlen. set (rho := hl_rho s) in *.
  pose proof (filter_ready_at v _ _ HF) as HF'. destruct (hz_at_eq v (hl_filter s)) as (Em & Ek & _). set (f := hz_at v (hl_filter s)) in *.
  set (n := List.length (ta_t T)) in *. assert (HDn : forall e, In e D -> (e < n)%nat) by (intros e He; apply HD in He; destruct He as (He & _); auto).
  pose proof (design_nodup T c pb HT Hnd) as HnD. fold D in HnD.
  set (rf := hz_fwd f rho) in *. assert (Lrf : List.length rf = n) by (unfold rf; rewrite hz_fwd_len; apply HF').
  set (y := dVf_of pb L v rf). set (V := rsum (map (fun e => nth e (pb_volumes pb) 0) D)).
  assert (HV : 0 < V).
  { destruct Hve as (e & He & Hp0). apply (rs_pos _ _ e); [intros; apply Hvn|now apply HD|exact Hp0]. }
  assert (Hyd : forall e, In e D -> nth e y 0 = nth e (pb_volumes pb) 0 / V * heaviside_projection_derivative (nth e rf 0) (v_beta v) (c_beta_eta (i_oc c))).
  { intros e He. unfold y. apply dVf_nth; auto. intros. rewrite Lrf. auto. }
  assert (HdH : forall z, 0 < heaviside_projection_derivative z (v_beta v) (c_beta_eta (i_oc c))) by (intros z; apply dH_pos; auto).
  assert (Hy : forall e, 0 <= nth e y 0).
  { intros e. destruct (in_dec Nat.eq_dec e D) as [Q|Q].
    - rewrite Hyd by exact Q. apply Rmult_le_pos; [|left; apply HdH]. apply Rmult_le_pos; [apply Hvn|left; now apply Rinv_0_lt_compat].
    - destruct (Nat.lt_ge_cases e n) as [He|He].
      + unfold y, dVf_of. fold D. rewrite (zip_nth _ _ _ e 0 0) by (rewrite ?scatter_len, ?map_length; lia).
        rewrite scatter_notin by exact Q. rewrite (nth_mapR (fun _ => 0)) by lia. lra.
      + rewrite nth_overflow; [lra|]. unfold y, dVf_of. rewrite zipwith_length; rewrite ?scatter_len, ?map_length; lia. }
  assert (Hz : forall e, nth e (hz_bwd f y) 0 = 0) by (intros e; apply (zero_bwd f n y HF'); intros; apply Hy).
  assert (Hback : (if allclose0 (hz_bwd f y) && existsb (fun x => Rltb 0 x) y then hz_fwd f y else hz_bwd f y) = hz_fwd f y).
  { assert (A1 : allclose0 (hz_bwd f y) = true).
    { unfold allclose0. apply forallb_forall. intros z Hz'. destruct (In_nth _ _ 0 Hz') as (k & _ & <-). rewrite Hz, Rabs_R0. apply Rleb_true. lra. }
    assert (A2 : existsb (fun x => Rltb 0 x) y = true).
    { apply existsb_exists. destruct Hve as (e & He & Hp0). apply HD in He. exists (nth e y 0). split.
      - apply nth_In. unfold y, dVf_of. rewrite zipwith_length; rewrite ?scatter_len, ?map_length; [rewrite Lrf; auto|reflexivity].
      - apply Rltb_true. rewrite Hyd by exact He. apply Rmult_lt_0_compat; [now apply Rdiv_lt_0_compat|apply HdH]. }
    now rewrite A1, A2. }
  set (g := hz_fwd f y) in *. set (a := hz_lm_args pb v i rho f ev) in *.
  assert (Echain : volume_chain (l_m L) a = gather g D).
  { unfold volume_chain, a. cbn [hz_lm_args la_rho_filtered la_design la_volumes la_vol_sum la_beta la_gradient la_forward]. rewrite E1. fold rf.
    change (gather (if allclose0 (hz_bwd f y) && existsb (fun x => Rltb 0 x) y then g else hz_bwd f y) D = gather g D). now rewrite Hback. }
  assert (Eerr : lm_vol_error a = frac rho - v_vol_frac v).
  { unfold lm_vol_error, a. cbn [hz_lm_args la_rho_projected la_design la_volumes la_vol_sum la_vol_frac]. unfold frac. rewrite Es. cbn [hl_filter].
    unfold hz_fraction, material_fraction. fold pb D. unfold gather. f_equal. f_equal. rewrite E2. unfold hz_projected. fold rf.
    rewrite zipwith_map. rewrite <- (map_over_nth (fun e => nth e (map (fun x => heaviside_projection x (v_beta v) (c_beta_eta (i_oc c))) rf) 0 * nth e (pb_volumes pb) 0) D 0%nat).
    apply rs_ext. intros k Hk. apply in_seq in Hk. rewrite (nth_map0 (fun e => nth e (pb_volumes pb) 0)) by lia.
    rewrite (nth_mapR (fun x => heaviside_projection x (v_beta v) (c_beta_eta (i_oc c)))) by (rewrite Lrf; apply HDn, nth_In; lia). reflexivity. }
  unfold lm_rho_update in Ho. set (lam := dual_step _ _ _ _) in Ho. set (dL := lagrangian_gradient (l_m L) a lam) in Ho.
  destruct (lm_running (l_m L) a (running_scale (hl_opt s)) dL) as [rs|] eqn:Ers; [|discriminate]. cbn [bind] in Ho.
  pose proof (lm_running_pos _ _ _ _ _ Hfl Hrs Ers) as Hrp.
  assert (Elam : lambda_v (hl_opt s') = lam) by (rewrite Es; cbn [hl_opt]; injection Ho as <-; reflexivity).
  assert (Erho : lo_rho o = zipwith (fun r d => lagrangian_log_update r d (v_eta v) (v_move v) (m_rho_min (l_m L)) (m_rho_max (l_m L)) (m_lclip (l_m L))) (gather rho D) (map (fun x => x / rs) dL)) by (injection Ho as <-; reflexivity).
  clear Ho. set (coeff := lam + m_aug_mu (l_m L) * (frac rho - v_vol_frac v)).
  set (weight := chain_scale (l_m L) (la_dC a) (gather g D) (frac rho - v_vol_frac v)).
  assert (EdL : dL = map (fun e => nth e (ev_dC ev) 0 + coeff * weight * nth e g 0) D).
  { unfold dL, lagrangian_gradient. rewrite F1, F2, F3, Echain, Eerr. fold coeff. fold weight. unfold a. cbn [hz_lm_args la_dC]. fold D. unfold gather.
    clearbody weight coeff g D. clear. induction D as [|e D IH]; [reflexivity|]. cbn [map zipwith]. rewrite IH. f_equal. ring. }
  exists weight, (fun e => nth e g 0). split; [intros Q; unfold weight, chain_scale; now rewrite Q|].
  intros coeff' e He. assert (Ec : coeff' = coeff) by (unfold coeff', coeff; now rewrite Elam). rewrite Ec. clear coeff' Ec.
  pose proof (proj2 (HD e) He) as HeD. split; [|split].
  - pose proof (shared_nodes_bound f n y e HF' (fun e _ => Hy e) (HDn e HeD)) as B. cbn zeta in B. rewrite Em, Ek in B. exact B.
  - intros Hsf. rewrite E3. apply hz_sensitivity_nonpos; [apply HF'|exact Hsf].
  - assert (Enew : nth e (hl_rho s') 0 = lagrangian_log_update (nth e rho 0) ((nth e (ev_dC ev) 0 + coeff * weight * nth e g 0) / rs) (v_eta v) (v_move v) (m_rho_min (l_m L)) (m_rho_max (l_m L)) (m_lclip (l_m L))).
    { rewrite Es. cbn [hl_rho]. fold c. rewrite Hp, Erho, EdL, map_map. set (new := zipwith _ _ _).
      assert (Ln : List.length new = List.length D) by (unfold new; rewrite zipwith_length; rewrite ?gather_len, ?map_length; reflexivity).
      assert (R0 : forall x, In x D -> (x < List.length rho)%nat) by (intros x Hx; rewrite Hlen; now apply HDn).
      rewrite pin_nth by (intros x Hx; rewrite scatter_len, Hlen; now apply HL1).
      destruct (in_dec Nat.eq_dec e l) as [Q|Q]; [apply HL1 in Q; tauto|].
      destruct (scatter_in D rho new e HeD R0 Ln) as (k & Hk & Ek' & ->).
      unfold new. rewrite (zip_nth _ _ _ k 0 0) by (rewrite ?gather_len, ?map_length; auto). rewrite gather_nth by exact Hk. rewrite Ek'. f_equal.
      rewrite (nth_indep _ 0 ((fun x => (nth x (ev_dC ev) 0 + coeff * weight * nth x g 0) / rs) 0%nat)) by (rewrite map_length; exact Hk).
      rewrite (map_nth (fun x => (nth x (ev_dC ev) 0 + coeff * weight * nth x g 0) / rs)). now rewrite Ek'. }
    cbn zeta. rewrite Enew. set (sl := nth e (ev_dC ev) 0 + coeff * weight * nth e g 0).
    assert (Hold : m_rho_min (l_m L) <= nth e rho 0 <= m_rho_max (l_m L)) by (apply HDn in HeD; destruct Hok as (_ & Hok); exact (proj1 (Hok e HeD) He)).
    destruct (C23_element_update_direction (nth e rho 0) (sl / rs) (v_eta v) (v_move v) (m_rho_min (l_m L)) (m_rho_max (l_m L)) (m_lclip (l_m L)) Hb Hmv Heta Hcl) as (D1 & D2 & _).
    rewrite (clip_id (nth e rho 0)) in D1, D2 by lra. assert (Hi : 0 < / rs) by now apply Rinv_0_lt_compat. unfold Rdiv in D1, D2 |- *.
    split; [intros Q; apply D1; nra|intros Q; apply D2; nra].
Qed.
Print Assumptions C102_logmoc_volume_slope.

(* ---- instances ---- *)
Definition direct (m : Helmholtz_model.mesh) (mask : option (list bool)) (r : R) : hfilter :=
  mkHZ m mask r (fun r D bc b => gauss (m_nn m) (held m r D) (fun i => if D i then bc else b i)).
Definition rod2_M (k l : nat) : R := nth l (nth k [[1/3; 1/6; 0]; [1/6; 2/3; 1/6]; [0; 1/6; 1/3]] []) 0.
Definition rod2_K (k l : nat) : R := nth l (nth k [[1; -1; 0]; [-1; 2; -1]; [0; -1; 1]] []) 0.
Definition rod2 : Helmholtz_model.mesh := Helmholtz_model.mkMesh 3 [[0;1];[1;2]]%nat (fun _ => 1) rod2_M rod2_K.
Definition rod3 : Helmholtz_model.mesh := Helmholtz_model.mkMesh 4 [[0;1];[1;2];[2;3]]%nat (fun _ => 1) rod_M rod_K.
Lemma sq0 (x : R) : 0 <= x * x.
Proof. pose proof (Rle_0_sqr x). now unfold Rsqr in *. Qed.
Lemma rod2_ready_from mask r : 1/6 <= r * r -> filter_ready (direct rod2 mask r) 2 r.
Proof.
  intros Hr. unfold filter_ready. cbn [direct hz_mesh hz_solve]. assert (F : fem_matrices rod2).
  { split; [|split].
    - intros x (i & Hi & Hx). assert (E : Helmholtz_props.quad rod2 (m_M rod2) x = 1/6 * (x 0%nat * x 0%nat + x 1%nat * x 1%nat + (x 0%nat + x 1%nat) * (x 0%nat + x 1%nat)) +
        1/6 * (x 1%nat * x 1%nat + x 2%nat * x 2%nat + (x 1%nat + x 2%nat) * (x 1%nat + x 2%nat))).
      { unfold Helmholtz_props.quad, Helmholtz_model.mv, rsum. cbn -[Rmult Rplus Rminus Rdiv IZR]. unfold rod2_M. cbn -[Rmult Rplus Rminus Rdiv IZR]. field. }
      rewrite E. pose proof (sq0 (x 0%nat)). pose proof (sq0 (x 1%nat)). pose proof (sq0 (x 2%nat)). pose proof (sq0 (x 0%nat + x 1%nat)). pose proof (sq0 (x 1%nat + x 2%nat)).
      assert (Hs : 0 < x i * x i) by (pose proof (Rlt_0_sqr (x i) Hx); now unfold Rsqr in *). cbn in Hi. destruct i as [|[|[|i]]]; try lia; lra.
    - intros x. assert (E : Helmholtz_props.quad rod2 (m_K rod2) x = (x 0%nat - x 1%nat) * (x 0%nat - x 1%nat) + (x 1%nat - x 2%nat) * (x 1%nat - x 2%nat)).
      { unfold Helmholtz_props.quad, Helmholtz_model.mv, rsum. cbn -[Rmult Rplus Rminus Rdiv IZR]. unfold rod2_K. cbn -[Rmult Rplus Rminus Rdiv IZR]. ring. }
      rewrite E. pose proof (sq0 (x 0%nat - x 1%nat)). pose proof (sq0 (x 1%nat - x 2%nat)). lra.
    - intros i Hi. cbn in Hi. unfold Helmholtz_model.mv, rsum. destruct i as [|[|[|i]]]; try lia; cbn -[Rmult Rplus Rminus Rdiv IZR]; unfold rod2_K; cbn -[Rmult Rplus Rminus Rdiv IZR]; ring. }
  split; [reflexivity|]. split; [|split; [exact F|split; [|split; [|intros; now apply solvable]]]].
  - split.
    + intros e He. unfold n_els in He. cbn in He. cbn [m_vol rod2]. destruct e as [|[|e]]; [| |lia]; (split; [lra|split; [discriminate|repeat constructor; cbn; lia]]).
    + intros i Hi. cbn in Hi. destruct i as [|[|[|i]]]; try lia; [exists 0%nat|exists 0%nat|exists 1%nat]; (split; [unfold n_els; cbn; lia|reflexivity]).
  - split; [intros i j; cbn [m_M rod2]; unfold rod2_M; destruct i as [|[|[|[|i]]]], j as [|[|[|[|j]]]]; cbn; lra|].
    intros i Hi. cbn in Hi. destruct i as [|[|[|i]]]; try lia; cbn; lra.
  - intros i j Hi Hj Hn. cbn in Hi, Hj. destruct i as [|[|[|i]]]; try lia; destruct j as [|[|[|j]]]; try lia; cbn -[Rmult Rplus Rminus Rdiv IZR]; lra.
Qed.
Lemma rod2_ready mask : filter_ready (direct rod2 mask 1) 2 1.
Proof. apply rod2_ready_from. lra. Qed.
Lemma rod3_ready_from mask r : 1/6 <= r * r -> filter_ready (direct rod3 mask r) 3 r.
Proof.
  intros Hr. unfold filter_ready. cbn [direct hz_mesh hz_solve]. assert (F : fem_matrices rod3).
  { split; [|split].
    - intros x (i & Hi & Hx). assert (E : Helmholtz_props.quad rod3 (m_M rod3) x = 1/6 * rodq x).
      { unfold Helmholtz_props.quad, Helmholtz_model.mv, rsum, rodq. cbn -[Rmult Rplus Rminus Rdiv IZR]. unfold rod_M. cbn -[Rmult Rplus Rminus Rdiv IZR]. field. }
      rewrite E. unfold rodq. pose proof (sq0 (x 0%nat)). pose proof (sq0 (x 1%nat)). pose proof (sq0 (x 2%nat)). pose proof (sq0 (x 3%nat)).
      pose proof (sq0 (x 0%nat + x 1%nat)). pose proof (sq0 (x 1%nat + x 2%nat)). pose proof (sq0 (x 2%nat + x 3%nat)).
      assert (Hs : 0 < x i * x i) by (pose proof (Rlt_0_sqr (x i) Hx); now unfold Rsqr in *). cbn in Hi. destruct i as [|[|[|[|i]]]]; try lia; lra.
    - intros x. assert (E : Helmholtz_props.quad rod3 (m_K rod3) x = rodk x).
      { unfold Helmholtz_props.quad, Helmholtz_model.mv, rsum, rodk. cbn -[Rmult Rplus Rminus Rdiv IZR]. unfold rod_K. cbn -[Rmult Rplus Rminus Rdiv IZR]. ring. }
      rewrite E. unfold rodk. pose proof (sq0 (x 0%nat - x 1%nat)). pose proof (sq0 (x 1%nat - x 2%nat)). pose proof (sq0 (x 2%nat - x 3%nat)). lra.
    - intros i Hi. cbn in Hi. unfold Helmholtz_model.mv, rsum. destruct i as [|[|[|[|i]]]]; try lia; cbn -[Rmult Rplus Rminus Rdiv IZR]; unfold rod_K; cbn -[Rmult Rplus Rminus Rdiv IZR]; ring. }
  split; [reflexivity|]. split; [|split; [exact F|split; [|split; [|intros; now apply solvable]]]].
  - split.
    + intros e He. unfold n_els in He. cbn in He. cbn [m_vol rod3]. destruct e as [|[|[|e]]]; [| | |lia]; (split; [lra|split; [discriminate|repeat constructor; cbn; lia]]).
    + intros i Hi. cbn in Hi. destruct i as [|[|[|[|i]]]]; try lia; [exists 0%nat|exists 0%nat|exists 1%nat|exists 2%nat]; (split; [unfold n_els; cbn; lia|reflexivity]).
  - split; [intros i j; cbn [m_M rod3]; apply rod_M_nonneg|].
    intros i Hi. cbn in Hi. destruct i as [|[|[|[|i]]]]; try lia; cbn; lra.
  - intros i j Hi Hj Hn. cbn in Hi, Hj. destruct i as [|[|[|[|i]]]]; try lia; destruct j as [|[|[|[|j]]]]; try lia; cbn -[Rmult Rplus Rminus Rdiv IZR]; lra.
Qed.
Lemma rod3_ready mask : filter_ready (direct rod3 mask 1) 3 1.
Proof. apply rod3_ready_from. lra. Qed.
Definition ex_mask : option (list bool) := Some [true; false].
Definition ex_hs : hstate := mkHSt [1/2; 1] (direct rod2 ex_mask 1) 0 0 None None.
Lemma ex_from c : i_design_dirichlet c = i_design_dirichlet ex_c -> from_args (Elastic ex_pb) ex_T c.
Proof.
  intros E. split; [|split; [left; discriminate|intros e [<-|[<-|[]]]; cbn; lia]].
  exists ex_dom. split; [vm_compute; reflexivity|]. rewrite E. reflexivity.
Qed.
Lemma ex_task_ready c : i_oc c = ex_cfg -> i_Emin_coeff c = 1/1000 -> task_ready (Elastic ex_pb) ex_T c ex_v.
Proof.
  intros E1 E2. split; [|intros _; rewrite E1; cbn; lra].
  constructor; cbn -[c_beta_eta c_rho_max]; rewrite ?E1, ?E2; cbn; try lra.
  - reflexivity.
  - exists 0%nat. split; [lia|reflexivity].
  - intros; lra.
  - discriminate.
  - apply ex_solver.
Qed.
Example C102_instance :
  (exists s' ev, hz_iterate (Elastic ex_pb) ex_c ex_v 1 ex_hs = Ok s' /\ h_eval s' = Some ev /\ densities_ok ex_T ex_c (h_rho s') /\
     2/5 <= nth 0 (h_rho s') 0 <= 3/5 /\ nth 0 (ev_dC ev) 0 <= 0 /\ 1/2 <= nth 0 (ev_filtered ev) 0 <= 1) /\
  (forall obj, exists s', hz_iterate (HeatTask (row_P obj 600 300)) row_c row_v 1
     (mkHSt [1; 1; 1/2] (direct rod3 (Some [false; false; true]) 1) 0 0 None None) = Ok s' /\ densities_ok row_T row_c (h_rho s')).
Proof.
  split.
  - destruct (C102_iteration_succeeds (Elastic ex_pb) ex_T ex_c ex_v 1 ex_hs (ex_from ex_c eq_refl) (ex_task_ready ex_c eq_refl eq_refl)) as (s' & ev & H & Hev & _ & _ & _ & _ & _ & _ & _);
      try (cbn; lra); try exact ex_densities; try exact (rod2_ready ex_mask); try reflexivity.
    exists s', ev. split; [exact H|]. split; [exact Hev|].
    destruct (C102_iteration_keeps_bounds (Elastic ex_pb) ex_T ex_c ex_v 1 ex_hs s' (ex_from ex_c eq_refl)) as (B1 & B2 & _); try (cbn; lra); [exact ex_densities|exact H|].
    split; [exact B1|].
    assert (D0 : designed ex_T ex_c 0%nat).
    { assert (N : pins_known ex_T ex_c) by (left; discriminate). destruct (sets_of ex_T ex_c ex_pb ex_built N) as (_ & HD & _). apply HD. change (pb_dom ex_pb) with ex_dom. rewrite ex_dom_eq. cbn. now left. }
    destruct (B2 0%nat D0) as (_ & B & _). cbn in B. split; [revert B; unfold Rabs; destruct (Rcase_abs _); lra|].
    split; [exact (C102_sensitivities_nonpositive (Elastic ex_pb) ex_c ex_v 1 ex_hs s' ev eq_refl eq_refl H Hev 0%nat)|].
    destruct (hz_iterate_inv _ _ _ _ _ _ H) as (ev' & Ha & _ & _ & E'). assert (ev' = ev) by congruence. subst ev'.
    destruct (hz_analyse_ok (Elastic ex_pb) ex_T ex_c ex_v (h_filter ex_hs) (h_rho ex_hs) (ex_from ex_c eq_refl) (ex_task_ready ex_c eq_refl eq_refl) (rod2_ready ex_mask)) as (ev0 & nt & gs & E & Ef & _);
      [cbn; lra|exact ex_densities|]. assert (ev0 = ev) by congruence. subst ev0. rewrite Ef.
    apply (hz_fwd_range _ 2 _ (1/2) 1); [exact (filter_ready_at ex_v _ _ (rod2_ready ex_mask))|lra| |lia].
    intros [|[|e]] He; cbn; try lra. lia.
  - intros obj. set (st := mkHSt _ _ _ _ _ _).
    assert (FA : from_args (HeatTask (row_P obj 600 300)) row_T row_c).
    { split; [exact (proj1 (row_problem obj 600 300))|]. split; [now right|]. intros e He. cbn in He. cbn. intuition lia. }
    destruct (C102_iteration_succeeds (HeatTask (row_P obj 600 300)) row_T row_c row_v 1 st FA) as (s' & ev & H & _);
      try (cbn; lra); try exact (rod3_ready _); try reflexivity; try (apply row_densities; lra).
    + split; [reflexivity|]. split; [cbn; lra|]. exists (row_hs obj), [0%nat], 300, (Flt 600). split; [apply row_problem|].
      destruct (row_ready obj 600). constructor; auto; try reflexivity. exists 0%nat. split; [cbn; lia|reflexivity].
    + exists s'. split; [exact H|].
      refine (proj1 (C102_iteration_keeps_bounds (HeatTask (row_P obj 600 300)) row_T row_c row_v 1 st s' FA _ _ _ _ _ H)); try (cbn; lra). apply row_densities; lra.
Qed.
(* RAMP, all material present, the whole volume allowed: the density of the only design
   element still falls to 9/10 *)
Definition ex_ramp : icfg := mkICfg ex_cfg (1/1000) RAMP false true.
Definition ex_full : ivals := mkVals 1 3 1 2 (1/10) (1/2) None 1.
Example C102_erased_instance : exists s' ev,
  hz_iterate (Elastic ex_pb) ex_ramp ex_full 1 (mkHSt [1; 1] (direct rod2 ex_mask 1) 0 0 None None) = Ok s' /\ h_eval s' = Some ev /\
  (forall e, nth e (ev_dC ev) 0 = 0) /\ h_rho s' = [9/10; 1].
Proof.
  set (s := mkHSt _ _ _ _ _ _). pose proof (ex_from ex_ramp eq_refl) as FA.
  assert (TR : task_ready (Elastic ex_pb) ex_T ex_ramp ex_full).
  { destruct (ex_task_ready ex_ramp eq_refl eq_refl) as (W & R). split; [|exact R]. destruct W. constructor; auto. }
  assert (D0 : forall e, designed ex_T ex_ramp e <-> e = 0%nat).
  { intros e. assert (N : pins_known ex_T ex_ramp) by (left; discriminate). destruct (sets_of ex_T ex_ramp ex_pb (proj1 FA) N) as (_ & HD & _). rewrite <- HD.
    change (pb_dom ex_pb) with ex_dom. rewrite ex_dom_eq. cbn. intuition. }
  assert (DK : densities_ok ex_T ex_ramp [1; 1]).
  { split; [reflexivity|]. intros e He. rewrite D0. cbn in He. destruct e as [|[|]]; [| |lia]; cbn; (split; [intros; lra|intros; lra || now contradict H]). }
  destruct (C102_iteration_succeeds (Elastic ex_pb) ex_T ex_ramp ex_full 1 s FA TR) as (s' & ev & H & Hev & _);
    try (cbn; lra); try exact DK; try exact (rod2_ready ex_mask); try reflexivity.
  exists s', ev. split; [exact H|]. split; [exact Hev|].
  destruct (C102_iteration_keeps_bounds (Elastic ex_pb) ex_T ex_ramp ex_full 1 s s' FA) as (B1 & _); try (cbn; lra); [exact DK|exact H|].
  assert (W : forall e, (e < 2)%nat -> 1 + 3 < 2 * 3 * nth e (ev_projected ev) 0).
  { destruct (hz_iterate_inv _ _ _ _ _ _ H) as (ev' & Ha & _ & _ & E'). assert (ev' = ev) by congruence. subst ev'.
    destruct (hz_analyse_ok (Elastic ex_pb) ex_T ex_ramp ex_full (h_filter s) (h_rho s) FA TR (rod2_ready ex_mask)) as (ev0 & nt & gs & E & _ & Ep & _);
      [cbn; lra|exact DK|]. assert (ev0 = ev) by congruence. subst ev0. rewrite Ep. intros e He.
    pose proof (hz_fwd_range _ 2 [1; 1] 1 1 (filter_ready_at ex_full _ _ (rod2_ready ex_mask)) ltac:(lra)) as F.
    specialize (F ltac:(intros [|[|k]] Hk; cbn; try lra; lia) e He). unfold hz_projected. cbn [s h_filter h_rho].
    rewrite nth_mapR by (rewrite hz_fwd_len; destruct (hz_at_eq ex_full (direct rod2 ex_mask 1)) as (-> & _); exact He). replace (nth e _ 0) with 1 by lra. change (v_beta ex_full) with 2. change (c_beta_eta (i_oc ex_ramp)) with (1/2).
    pose proof (H1_close 2 (1/2) ltac:(lra) ltac:(lra)) as (_ & C). pose proof tanh2_big as T.
    assert (1 / 1000000000000 / tanh 2 < 1 / 1000); [|lra]. apply (Rmult_lt_reg_r (tanh 2)); [lra|]. unfold Rdiv. rewrite Rmult_assoc, Rinv_l by lra. lra. }
  destruct (C102_ramp_gains_erased ex_pb ex_T ex_ramp ex_full 1 s s' ev FA TR (rod2_ready ex_mask)) as (Z & R); try (cbn; lra); try reflexivity;
    [repeat constructor; cbn; lia|exact DK|exact H|exact Hev|intros e He _; exact (W e He)|].
  split; [exact Z|]. destruct B1 as (L & B). specialize (R 0%nat (proj2 (D0 0%nat) eq_refl)). cbn [s h_rho nth] in R.
  pose proof (proj2 (B 1%nat ltac:(cbn; lia)) ltac:(rewrite D0; discriminate)) as B1.
  assert (F : fastest_removal ex_ramp ex_full 1 = 9/10).
  { unfold fastest_removal. cbn. unfold Rmax. repeat destruct (Rle_dec _ _); lra. }
  rewrite F in R. cbn in L. destruct (h_rho s') as [|a [|b [|? ?]]]; try discriminate. cbn [nth] in R, B1. now rewrite R, B1.
Qed.
(* LogMOC: the slope of the volume for the only design element, which shares one of its two
   nodes with the fixed element, is at least 1/2 *)
Example C102_logmoc_instance : exists s', hz_lm_iterate (Elastic ex_pb) ex_L ex_v 1 (mkHLS [1/2; 1] (direct rod2 ex_mask 1) (lm_init ex_lm) 0 0 None) = Ok s' /\
  densities_ok ex_T (loop_cfg ex_L) (hl_rho s') /\ exists ev, hl_eval s' = Some ev /\ exists weight (slope : nat -> R), 1/2 <= slope 0%nat /\
    let coeff := lambda_v (hl_opt s') + m_aug_mu (l_m ex_L) * (hz_fraction ex_pb (loop_cfg ex_L) ex_v (hl_filter s') [1/2; 1] - v_vol_frac ex_v) in
    (0 <= nth 0 (ev_dC ev) 0 + coeff * weight * slope 0%nat -> nth 0 (hl_rho s') 0 <= 1/2).
Proof.
  set (s := mkHLS _ _ _ _ _ _). pose proof (ex_from (loop_cfg ex_L) eq_refl) as FA.
  assert (TR : task_ready (Elastic ex_pb) ex_T (loop_cfg ex_L) ex_v).
  { split; [|discriminate]. constructor; cbn; try lra; [reflexivity|exists 0%nat; split; [lia|reflexivity]|intros; lra|discriminate|apply ex_solver]. }
  destruct (C102_logmoc_succeeds (Elastic ex_pb) ex_T ex_L ex_v 1 s FA TR (rod2_ready ex_mask)) as (s' & H & _); try (cbn; lra); [exact ex_dens|left; lia|].
  exists s'. split; [exact H|].
  split; [refine (proj1 (C102_logmoc_keeps_bounds (Elastic ex_pb) ex_T ex_L ex_v 1 s s' FA _ _ _ _ H)); try (cbn; lra); try exact ex_dens|].
  assert (Hev : exists ev, hl_eval s' = Some ev).
  { unfold hz_lm_iterate in H. destruct (hz_analyse _ _ _ _ _) as [[f ev]|]; [|discriminate]. cbn [bind] in H. unfold hz_lm_advance in H.
    destruct (lm_rho_update _ _ _) as [o|]; [|discriminate]. cbn [bind] in H. exists ev. match type of H with Ok ?x = _ => assert (Q : s' = x) by congruence end. now rewrite Q. }
  destruct Hev as (ev & Hev). exists ev.
  destruct (C102_logmoc_volume_slope (Elastic ex_pb) ex_T ex_L ex_v 1 s s' ev FA TR (rod2_ready ex_mask)) as (w & sl & _ & B); try (cbn; lra); try reflexivity; try exact ex_dens; try exact H; try exact Hev.
  - repeat constructor; cbn; lia.
  - discriminate.
  - intros [|[|e]]; cbn; try lra. destruct e; lra.
  - exists 0%nat. split; [now apply ex_designs|cbn; lra].
  - split; [exact Hev|]. exists w, sl. specialize (B 0%nat (proj2 (ex_designs 0%nat) eq_refl)). cbn zeta in B |- *. destruct B as (B1 & _ & B2 & _).
    split; [revert B1; cbn; lra|]. exact B2.
Qed.
(* heat: held at the ambient temperature, the field is uniform, nothing is gained from
   material, and the density falls from 1/2 to 2/5 (the move limit) *)
Example C102_heat_erased_instance obj : obj <> Compliance -> exists s',
  hz_iterate (HeatTask (row_P obj 300 300)) row_c row_v 1 (mkHSt [1; 1; 1/2] (direct rod3 (Some [false; false; true]) 1) 0 0 None None) = Ok s' /\
  h_rho s' = [1; 1; 2/5].
Proof.
  intros Ho. set (s := mkHSt _ _ _ _ _ _). pose proof (row_problem obj 300 300) as HP.
  assert (HR : heat_ready (row_hs obj) [0%nat] (Flt 300) row_c row_v (some_filter 3)).
  { destruct (row_ready obj 300). constructor; auto; try reflexivity. exists 0%nat. split; [cbn; lia|reflexivity]. }
  assert (FA : from_args (HeatTask (row_P obj 300 300)) row_T row_c).
  { split; [exact (proj1 HP)|]. split; [now right|]. intros e He. cbn in He. cbn. intuition lia. }
  assert (DK : densities_ok row_T row_c [1; 1; 1/2]) by (apply row_densities; lra).
  destruct (C102_iteration_succeeds (HeatTask (row_P obj 300 300)) row_T row_c row_v 1 s FA) as (s' & ev & H & Hev & _);
    try (cbn; lra); try exact (rod3_ready _); try reflexivity; try exact DK.
  { split; [reflexivity|]. split; [cbn; lra|]. exists (row_hs obj), [0%nat], 300, (Flt 300). split; [exact HP|exact HR]. }
  exists s'. split; [exact H|].
  destruct (C102_heat_gains_erased row_T (row_hs obj) [0%nat] 300 (Flt 300) row_c (row_P obj 300 300) row_v 1 s s' ev FA HP HR) as (_ & R);
    try (cbn; lra); try exact (rod3_ready _); try reflexivity; try exact DK; try exact H; try exact Hev.
  - repeat constructor; cbn; lia.
  - intros Js Ts Ls E G HE HG g Hg e He _.
    set (s2 := with_p (row_hs obj) (v_p row_v)) in *. set (rp := ev_projected ev) in *.
    assert (Rp : List.length rp = 3%nat /\ forall x, In x rp -> 0 <= x <= 1).
    { destruct (hz_iterate_inv _ _ _ _ _ _ H) as (ev' & Ha & _ & _ & E'). assert (ev' = ev) by congruence. subst ev'.
      destruct (hz_analyse_ok (HeatTask (row_P obj 300 300)) row_T row_c row_v (h_filter s) (h_rho s) FA) as (ev0 & nt & gs & E0 & _ & Ep & _); try exact (rod3_ready _); try exact DK; try (cbn; lra).
      { split; [reflexivity|]. split; [cbn; lra|]. exists (row_hs obj), [0%nat], 300, (Flt 300). split; [exact HP|exact HR]. }
      assert (ev0 = ev) by congruence. subst ev0. unfold rp. rewrite Ep.
      destruct (hz_projected_range row_c row_v _ 3 [1; 1; 1/2] (filter_ready_at row_v _ _ (rod3_ready (Some [false; false; true]))) ltac:(cbn; lra) ltac:(cbn; lra)) as (PL & P0 & P1).
      { intros [|[|[|k]]] Hk; cbn; try lra; lia. }
      split; [exact PL|]. intros x Hx. destruct (In_nth _ _ 0 Hx) as (k & _ & <-). split; [apply P0|apply P1]. intros [|[|[|j]]] Hj; cbn; try lra; lia. }
    assert (W' : well_set s2 [0%nat] rp).
    { apply (well_set_other s2 [0%nat] (uniform (row_hs obj) 1)); [exact (hr_set _ _ _ _ _ _ HR)|rewrite (proj1 Rp); reflexivity|apply Rp]. }
    destruct HE as (dr & tk & B & Hobj & _).
    assert (An : analysis s2 300 (Flt 300) rp Js Ts).
    { exists dr, tk. split; [exact B|]. unfold objective_call in Hobj. destruct (objectives_multi_load _ _ _) as [[Js' Ts']|]; [|discriminate].
      cbn [bind] in Hobj. destruct (heat_system _ _ _); [|discriminate]. cbn [bind] in Hobj. destruct (n_tasks _); [|discriminate]. cbn [bind] in Hobj.
      destruct (adjoint_fields _ _ _ _ _); [|discriminate]. cbn [bind] in Hobj. injection Hobj as -> -> _. reflexivity. }
    pose proof (constant_at_ambient s2 [0%nat] 300 300 rp Js Ts W' An eq_refl) as HT. change (hn (hs_H s2)) with 4%nat in HT.
    assert (LT : List.length Ts = 1%nat) by (destruct (analysis_temperature s2 [0%nat] 300 (Flt 300) _ _ _ W' An) as (LT & _); exact LT).
    destruct Ts as [|T0 [|? ?]]; try discriminate LT. cbn [nth] in HT. clear dr tk B Hobj.
    destruct HG as (dr & tk & B & HG). destruct (from_facets_robin _ _ _ _ _ _ _ _ _ _ _ B) as (_ & EH & En & Ev & Ek & Eo & _ & _).
    unfold heat_sensitivity in HG. cbn [hf_task hf_interp] in HG. unfold kmin in HG. cbn [hf_task hf_coeff] in HG. rewrite Ek, EH, Eo in HG.
    destruct (moduli _ _ _ _ _) as [ks|] eqn:Em; [|discriminate]. cbn [bind] in HG. change (hs_obj s2) with obj in HG.
    assert (EU : forall e, (e < 3)%nat -> heat_energy (hs_H s2) (fun e' => nth e' ks 0) T0 e = 0).
    { intros k Hk. unfold heat_energy. change (hs_H s2) with row3. change (fb_nq (hb_B row3)) with 1%nat. rewrite sum1, vdot3_eq, !row_grad by exact Hk. cbn [Nat.eqb]. rewrite !HT by lia. ring. }
    change (ne (hs_H (row_hs obj))) with 3%nat in He. rewrite (proj1 Rp) in HG.
    destruct obj; try (now contradict Ho); injection HG as <-; cbn [map] in Hg; destruct Hg as [<-|[]]; pose proof (EU 0%nat ltac:(lia)) as U0; pose proof (EU 1%nat ltac:(lia)) as U1; pose proof (EU 2%nat ltac:(lia)) as U2;
      change (hs_H s2) with row3 in U0, U1, U2; destruct e as [|[|[|e]]]; try lia; cbn [nth]; rewrite ?U0, ?U1, ?U2; unfold dC_drho_simp;
      match goal with |- 0 <= ?x => replace x with 0; [lra|unfold Rdiv; ring] end.
  - specialize (R 2%nat (proj2 (row_designed 2%nat) eq_refl)). cbn [s h_rho nth] in R.
    assert (F : fastest_removal row_c row_v (1/2) = 2/5).
    { unfold fastest_removal. cbn. unfold Rmax. repeat destruct (Rle_dec _ _); lra. }
    rewrite F in R. destruct (C102_iteration_keeps_bounds (HeatTask (row_P obj 300 300)) row_T row_c row_v 1 s s' FA) as ((L & B1) & _); try (cbn; lra); try exact DK; try exact H.
    pose proof (proj2 (B1 0%nat ltac:(cbn; lia)) ltac:(rewrite row_designed; discriminate)) as Q0.
    pose proof (proj2 (B1 1%nat ltac:(cbn; lia)) ltac:(rewrite row_designed; discriminate)) as Q1.
    cbn in L. destruct (h_rho s') as [|a [|b [|d [|? ?]]]]; try discriminate. cbn [nth] in R, Q0, Q1. now rewrite R, Q0, Q1.
Qed.
