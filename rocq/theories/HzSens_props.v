(* C105: sensitivity_filter=True with the default (nodal Helmholtz) filter.  The density
   filter is applied to the sensitivities; it takes every fixed element to have the value
   1, which is a density. *)
From Verif Require Import Base Sums Material_model Material_proofs OC_model OC_spec OC_proofs OC_props LogMOC_model Filter_model Filter_proofs Helmholtz_model Helmholtz_props HzRange_spec HzRange_props
  Mesh_model Mesh_spec Mesh_proofs Mesh_props Fea_model Fea_spec Fea_proofs Fea_props Iter_model Iter_spec Iter_proofs Grad_proofs Grad_props Iter_props
  Heat_model HeatAdj_model HeatIter_model LMIter_model LMIter_props HzIter_model HzIter_spec HzIter_proofs HzIter_props Config_model Scale_model Scale_proofs HzSens_spec.
Open Scope R_scope.
Open Scope list_scope.

(* the filtered sensitivity of an element with a share q of its nodes on fixed elements,
   when no sensitivity is below -d and none is positive *)
Theorem C105_fixed_elements_count_as_one : forall f n y d, filter_ready f n (hz_radius f) -> 0 <= d ->
  (forall e, (e < n)%nat -> is_design (hz_mask f) e = true -> - d <= nth e y 0 <= 0) ->
  forall e, (e < n)%nat -> shared f e - d * (1 - shared f e) <= nth e (hz_fwd f y) 0 <= 1.
Proof.
  intros f n y d HF Hd Hy e He. split.
  2:{ pose proof (hz_fwd_spec f n y HF) as HS. destruct HF as (Hn & Hm & Hf & Hs & Hc & _).
      refine (proj2 (C101_in_range (hz_mesh f) (hz_mask f) (hz_radius f) _ _ (- d) 1 Hm Hf Hs Hc _ _ HS e _)); [|intros; lra|lia].
      intros e' He' Hd'. pose proof (Hy e' ltac:(lia) Hd'). lra. }
  destruct HF as (Hn & Hm & Hf & Hs & Hc & Sv). set (m := hz_mesh f) in *. unfold shared. fold m. set (nodes := nth e (m_els m) []).
  fold (fixed_node m (hz_mask f)).
  unfold hz_fwd. fold m. set (node := element_to_node m (hz_mask f) 1 (fun e => nth e y 0)). set (x := hz_solve f _ _ _ _). rewrite nth_map_seq' by lia.
  assert (Hx : Helmholtz_model.solves m (hz_radius f) (fixed_node m (hz_mask f)) 1 (Helmholtz_model.mv m (m_M m) node) x) by apply Sv.
  destruct Hm as (Hm1 & Hm2). destruct (Hm1 e ltac:(lia)) as (_ & Hne & Hin). fold nodes in Hne, Hin.
  assert (P : forall i, (i < m_nn m)%nat -> - d <= x i).
  { refine (solves_above m _ _ 1 _ x (- d) Hf Hs Hc _ _ Hx); [intros; lra|]. intros i Hi.
    refine (proj1 (C47_averaging_in_range m (hz_mask f) 1 _ (- d) 1 i (conj Hm1 Hm2) Hi _ _)); [|intros; lra]. intros e' He' _ Hd'. pose proof (Hy e' ltac:(lia) Hd'). lra. }
  assert (HN : 0 < INR (List.length nodes)) by (apply lt_0_INR; destruct nodes; [easy|cbn; lia]).
  assert (Hx1 : forall i, (i < m_nn m)%nat -> fixed_node m (hz_mask f) i = true -> x i = 1) by (intros i Hi Hd'; pose proof (Hx i Hi) as Q; now rewrite Hd' in Q).
  assert (G : INR (List.length (filter (fixed_node m (hz_mask f)) nodes)) - d * (INR (List.length nodes) - INR (List.length (filter (fixed_node m (hz_mask f)) nodes))) <= rsum (map x nodes)).
  { clear - P Hin Hx1 Hd. induction nodes as [|i nodes IH]; [unfold rsum; cbn; lra|]. inversion Hin as [|? ? Hi Hr]; subst. specialize (IH Hr). cbn [filter map].
    change (rsum (x i :: map x nodes)) with (x i + rsum (map x nodes)). specialize (P i Hi). specialize (Hx1 i Hi).
    destruct (fixed_node m (hz_mask f) i); cbn [List.length]; rewrite ?S_INR; [rewrite (Hx1 eq_refl); lra|lra]. }
  unfold node_to_element. fold nodes. set (k := INR (List.length (filter _ nodes))) in *. set (N := INR (List.length nodes)) in *.
  apply (Rmult_le_reg_r N); [exact HN|]. replace ((k / N - d * (1 - k / N)) * N) with (k - d * (N - k)) by (field; lra).
  replace (rsum (map x nodes) / N * N) with (rsum (map x nodes)) by (field; lra). exact G.
Qed.
Print Assumptions C105_fixed_elements_count_as_one.

(* with and without the option *)
Lemma analyse_options t c v f rho : match hz_analyse t (unfiltered c) v f rho, hz_analyse t (sens_filtered c) v f rho with
  | Ok (g, a), Ok (g', b) => g' = g /\ g = hz_at v f /\ ev_filtered b = ev_filtered a /\ ev_projected b = ev_projected a /\ ev_compliance b = ev_compliance a /\
      ev_dC b = hz_fwd (hz_at v f) (ev_dC a)
  | Err e, Err e' => e = e'
  | _, _ => False end.
Proof.
  unfold hz_analyse. destruct t as [pb|P].
  - unfold hz_evaluate. cbn [unfiltered sens_filtered i_oc i_interp i_Emin_coeff]. change (Emin_of pb (unfiltered c)) with (Emin_of pb c). change (Emin_of pb (sens_filtered c)) with (Emin_of pb c).
    destruct (moduli _ _ _ _ _) as [El|]; cbn [bind]; [|reflexivity]. destruct (objectives _ _ _ _ _ _ _) as [[cs us]|]; cbn [bind]; [|reflexivity].
    repeat split.
  - unfold hz_heat_evaluate. cbn [unfiltered sens_filtered i_oc i_interp i_Emin_coeff].
    destruct (n_tasks _) as [nt|]; cbn [bind]; [|reflexivity]. destruct (Nat.eqb nt 0); cbn [bind]; [reflexivity|].
    destruct (objective_call _ _ _) as [[[Js Ts] Ls]|]; cbn [bind]; [|reflexivity]. destruct (energy_multi_load _ _ _ _ _) as [E0|]; cbn [bind]; [|reflexivity].
    destruct (heat_sensitivity _ _ _ _) as [G|]; cbn [bind]; [|reflexivity]. repeat split.
Qed.
(* what the option changes of an analysis: the sensitivities are passed through the
   density filter of the iteration, everything else stays *)
Theorem C105_option : forall t c v f rho g a, hz_analyse t (unfiltered c) v f rho = Ok (g, a) ->
  exists b, hz_analyse t (sens_filtered c) v f rho = Ok (g, b) /\ ev_filtered b = ev_filtered a /\ ev_projected b = ev_projected a /\ ev_compliance b = ev_compliance a /\
    (n_els (hz_mesh f) = List.length rho -> forall e, (e < n_els (hz_mesh f))%nat -> nth e (ev_dC a) 0 <= 0) /\
    (forall n, filter_ready f n (v_radius v) -> hz_forward (hz_mesh f) (hz_mask f) (v_radius v) (fun e => nth e (ev_dC a) 0) (fun e => nth e (ev_dC b) 0)).
Proof.
  intros t c v f rho g a H. pose proof (analyse_options t c v f rho) as Q. rewrite H in Q. destruct (hz_analyse t (sens_filtered c) v f rho) as [[g' b]|]; [|easy].
  destruct Q as (-> & Q0 & Q1 & Q2 & Q3 & Q4). exists b. split; [reflexivity|]. split; [exact Q1|]. split; [exact Q2|]. split; [exact Q3|]. split.
  - intros Hn e He. assert (S : exists nt gs, ev_dC a = hz_sensitivity (hz_at v f) (unfiltered c) (List.length rho) nt gs).
    { unfold hz_analyse in H. destruct t as [pb|P].
      - unfold hz_evaluate in H. destruct (moduli _ _ _ _ _) as [El|]; [|discriminate]. cbn [bind] in H. destruct (objectives _ _ _ _ _ _ _) as [[cs us]|]; [|discriminate].
        cbn [bind] in H. eexists _, _. assert (Q : forall a b : eval, @Ok (hfilter * eval) (hz_at v f, a) = Ok (g, b) -> b = a) by congruence. rewrite (Q _ _ H). reflexivity.
      - unfold hz_heat_evaluate in H. destruct (n_tasks _) as [nt|]; [|discriminate]. cbn [bind] in H. destruct (Nat.eqb nt 0); [discriminate|].
        destruct (objective_call _ _ _) as [[[Js Ts] Ls]|]; [|discriminate]. cbn [bind] in H. destruct (energy_multi_load _ _ _ _ _) as [E0|]; [|discriminate]. cbn [bind] in H.
        destruct (heat_sensitivity _ _ _ _) as [G|]; [|discriminate]. cbn [bind] in H.
        eexists _, _. assert (Q : forall a b : eval, @Ok (hfilter * eval) (hz_at v f, a) = Ok (g, b) -> b = a) by congruence. rewrite (Q _ _ H). reflexivity. }
    destruct S as (nt & gs & ->). destruct (hz_at_eq v f) as (Em & _). apply hz_sensitivity_nonpos; [now rewrite Em|reflexivity].
  - intros n HF. rewrite Q4. destruct (hz_at_eq v f) as (Em & Ek & _ & Er). pose proof (hz_fwd_spec (hz_at v f) n (ev_dC a) (filter_ready_at v f n HF)) as S. now rewrite Em, Ek, Er in S.
Qed.
Print Assumptions C105_option.

(* REFUTED for tasks with fixed elements: an element touching a fixed one has a positive
   filtered sensitivity as soon as the sensitivities are small numbers, and OC's new
   density is not a number then *)
Theorem C105_small_sensitivities_fatal_refuted : forall t T c v i s g a d e, from_args t T c -> filter_ready (h_filter s) (List.length (ta_t T)) (v_radius v) ->
  0 < c_floor (i_oc c) -> 0 < c_lambda_lower (i_oc c) <= c_lambda_upper (i_oc c) -> 0 <= h_running s -> (forall z, v_eta v <> IZR z) ->
  List.length (h_rho s) = List.length (ta_t T) ->
  hz_analyse t (unfiltered c) v (h_filter s) (h_rho s) = Ok (g, a) ->
  0 <= d -> (forall e', (e' < List.length (ta_t T))%nat -> - d <= nth e' (ev_dC a) 0) ->
  designed T c e -> d * (1 - shared (h_filter s) e) < shared (h_filter s) e ->
  (exists b, hz_analyse t (sens_filtered c) v (h_filter s) (h_rho s) = Ok (g, b) /\ 0 < nth e (ev_dC b) 0) /\
  hz_iterate t (sens_filtered c) v i s = Err NotModelled.
Proof.
  intros t T c v i s g a d e (HT & Hpk & Hdes) HF Hfl Hl Hrn Heta Hlen Ha Hd Hlo De Hk.
  assert (Hn : n_els (hz_mesh (h_filter s)) = List.length (ta_t T)) by apply HF.
  destruct (C105_option _ _ _ _ _ _ _ Ha) as (b & Hb & _ & _ & _ & Hnp & _).
  pose proof (analyse_options t c v (h_filter s) (h_rho s)) as Q. rewrite Ha, Hb in Q. destruct Q as (_ & Eg & _ & _ & _ & EdC).
  assert (He : (e < List.length (ta_t T))%nat) by (apply Hdes; apply De).
  assert (Hp : 0 < nth e (ev_dC b) 0).
  { rewrite EdC. destruct (hz_at_eq v (h_filter s)) as (Em & Ek & _ & Er).
    pose proof (C105_fixed_elements_count_as_one (hz_at v (h_filter s)) _ (ev_dC a) d (filter_ready_at v _ _ HF) Hd) as B.
    specialize (B ltac:(intros e' He' _; split; [now apply Hlo|apply Hnp; [congruence|lia]]) e He).
    unfold shared in B, Hk. rewrite Em, Ek in B. lra. }
  split; [exists b; split; [exact Hb|exact Hp]|]. unfold hz_iterate. rewrite Hb. cbn [bind].
  exact (hz_advance_fatal T (sens_filtered c) (element_task t) v i s g b e HT Hpk De Hp Heta Hfl Hrn Hl).
Qed.
Print Assumptions C105_small_sensitivities_fatal_refuted.

(* an element enclosed by fixed elements: whatever the loads *)
Theorem C105_enclosed_element_fatal_refuted : forall t T c v i s g a e, from_args t T c -> filter_ready (h_filter s) (List.length (ta_t T)) (v_radius v) ->
  0 < c_floor (i_oc c) -> 0 < c_lambda_lower (i_oc c) <= c_lambda_upper (i_oc c) -> 0 <= h_running s -> (forall z, v_eta v <> IZR z) ->
  List.length (h_rho s) = List.length (ta_t T) ->
  hz_analyse t (unfiltered c) v (h_filter s) (h_rho s) = Ok (g, a) ->
  designed T c e -> shared (h_filter s) e = 1 ->
  hz_iterate t (sens_filtered c) v i s = Err NotModelled.
Proof.
  intros t T c v i s g a e HA HF Hfl Hl Hrn Heta Hlen Ha De Hk.
  set (d := fold_right Rmax 0 (map Ropp (ev_dC a))).
  assert (G : forall l, 0 <= fold_right Rmax 0 (map Ropp l) /\ forall z, In z l -> - fold_right Rmax 0 (map Ropp l) <= z).
  { induction l as [|x l (I1 & I2)]; cbn [map fold_right]; [split; [lra|easy]|]. pose proof (Rmax_l (- x) (fold_right Rmax 0 (map Ropp l))). pose proof (Rmax_r (- x) (fold_right Rmax 0 (map Ropp l))).
    split; [lra|]. intros z [<-|Hz]; [lra|]. specialize (I2 z Hz). lra. }
  refine (proj2 (C105_small_sensitivities_fatal_refuted t T c v i s g a d e HA HF Hfl Hl Hrn Heta Hlen Ha (proj1 (G _)) _ De _)); [|rewrite Hk; lra].
  intros e' _. destruct (Nat.lt_ge_cases e' (List.length (ev_dC a))) as [Q|Q]; [apply (proj2 (G _)), nth_In; exact Q|]. rewrite nth_overflow by exact Q. pose proof (proj1 (G (ev_dC a))). unfold d. lra.
Qed.
Print Assumptions C105_enclosed_element_fatal_refuted.

(* any task, loads small enough *)
Lemma unit_energy_scale B nu E u a e : strain_energy B nu E (fun i => a * u i) e = a ^ 2 * strain_energy B nu E u e.
Proof.
  unfold strain_energy. rewrite <- sum_scal. apply sum_ext. intros q _.
  assert (G : forall i j, grad_of B (fun i => a * u i) e q i j = a * grad_of B u e q i j).
  { intros i j. unfold grad_of. rewrite <- sum_scal. apply sum_ext. intros k _. ring. }
  unfold energy_density, ddot, stress, trace, sym_grad, delta, sum. cbn [seq map]. unfold rsum. cbn [fold_right]. rewrite !G. cbn [Nat.eqb]. ring.
Qed.
Lemma lower_bound (l : list R) : exists d, 0 <= d /\ forall e, - d <= nth e l 0.
Proof.
  induction l as [|x l (d & I1 & I2)]; [exists 0; split; [lra|intros [|e]; cbn; lra]|].
  exists (Rmax d (- x)). pose proof (Rmax_l d (- x)). pose proof (Rmax_r d (- x)). split; [lra|]. intros [|e]; cbn [nth]; [lra|]. specialize (I2 e). lra.
Qed.
Lemma mean_lower nt (l : list R) d : List.length l = nt -> (0 < nt)%nat -> (forall x, In x l -> - d <= x) -> - d <= rsum l / INR nt.
Proof.
  intros Hl Hn H. assert (G : - d * INR (List.length l) <= rsum l).
  { clear Hl. induction l as [|x l IH]; [unfold rsum; cbn; lra|]. cbn [List.length]. rewrite S_INR, rs_cons1. specialize (IH (fun z Hz => H z (or_intror Hz))). specialize (H x (or_introl eq_refl)). lra. }
  rewrite Hl in G. apply lt_0_INR in Hn. apply (Rmult_le_reg_r (INR nt)); [exact Hn|]. unfold Rdiv. rewrite Rmult_assoc, Rinv_l, Rmult_1_r by lra. exact G.
Qed.
Lemma loaded_wp F pb c v f : well_posed pb c v f -> well_posed pb c (loaded F v) f.
Proof. intros [W1 W2 W3 W4 W5 W6 W7 W8 W9 W10 W11 W12 W13]. constructor; assumption. Qed.
(* with the loads multiplied by F the sensitivities are bounded by a constant times F^2 *)
Lemma sensitivities_vanish pb c v f n rho : i_sens_filter c = false -> well_posed pb c v (some_filter n) -> filter_ready f n (hz_radius f) -> List.length rho = n ->
  (forall e, (e < n)%nat -> 0 <= nth e rho 0) -> (i_interp c = RAMP -> forall e, (e < n)%nat -> nth e rho 0 <= 1) ->
  exists K, 0 <= K /\ forall F, exists ev, hz_evaluate pb c (loaded F v) f rho = Ok ev /\ forall e, (e < n)%nat -> - (F ^ 2 * K) <= nth e (ev_dC ev) 0.
Proof.
  intros Hsf WP HF Hl H0 H1. destruct (hz_evaluate_eq pb c (loaded 1 v) f n rho (loaded_wp 1 _ _ _ _ WP) HF Hl H0 H1) as (El & us & Hmod & HE & Heq & _).
  destruct (Emin_pos pb c v _ WP) as (HEm & HEE).
  assert (HE' : forall e, (e < fb_ne (pb_basis pb))%nat -> 0 < nth e El 0).
  { intros e He. pose proof (wp_elements _ _ _ _ WP) as Q. unfold some_filter in Q. cbn [sf_centers] in Q. rewrite repeat_length in Q. specialize (HE e ltac:(lia)). lra. }
  set (E := fun e => nth e El 0) in *.
  set (G := fun u => grad_filtered (i_interp c) (pb_E0 pb) (Emin_of pb c) (v_p v) (v_beta v) (c_beta_eta (i_oc c)) (hz_fwd f rho) (hz_projected c v f rho) (strain_energy (pb_basis pb) (pb_nu pb) E u)).
  assert (HK : exists K, 0 <= K /\ forall u, In u us -> forall e, - K <= nth e (G u) 0).
  { clear - G. induction us as [|u us (K & I1 & I2)]; [exists 0; split; [lra|easy]|]. destruct (lower_bound (G u)) as (d & D1 & D2).
    exists (Rmax d K). pose proof (Rmax_l d K). pose proof (Rmax_r d K). split; [lra|]. intros u' [<-|Hu] e; [specialize (D2 e); lra|specialize (I2 u' Hu e); lra]. }
  destruct HK as (K & HK0 & HK). exists K. split; [exact HK0|]. intros F.
  destruct (hz_evaluate_eq pb c (loaded F v) f n rho (loaded_wp F _ _ _ _ WP) HF Hl H0 H1) as (El' & us' & Hmod' & _ & Heq' & Hev).
  change (hz_projected c (loaded F v) f rho) with (hz_projected c v f rho) in *. change (hz_projected c (loaded 1 v) f rho) with (hz_projected c v f rho) in *.
  cbn [loaded v_p v_beta] in *. assert (El' = El) by congruence. subst El'. fold E in Heq', Hev. cbn zeta in Hev. eexists. split; [exact Hev|]. cbn [ev_dC].
  assert (HU : Forall2 (fun u u' => forall i, (i < fb_n (pb_basis pb))%nat -> u' i = F * u i) us us').
  { assert (E1 : loads_of pb (loaded F v) = map (fun g i => g i * F) (pb_loads pb)) by reflexivity. assert (E2 : loads_of pb (loaded 1 v) = map (fun g i => g i * 1) (pb_loads pb)) by reflexivity.
    rewrite E1 in Heq'. rewrite E2 in Heq. apply Forall2_map_l in Heq', Heq. clear - Heq Heq' HE' WP. revert us us' Heq Heq'. generalize (pb_loads pb). induction l as [|g l IH]; intros us us' A B; inversion A as [|? u ? us0 A1 A2]; inversion B as [|? u' ? us0' B1 B2]; subst; constructor; [|now apply IH].
    apply (equilibrium_unique (fb_n (pb_basis pb)) (stiffness (pb_basis pb) (pb_nu pb) E) (pb_D pb) (fun i => g i * 1 * F) _ _ (pb_supported pb c v _ WP E HE')).
    - replace (fun i => g i * 1 * F) with (fun i => g i * F); [exact B1|]. apply FunctionalExtensionality.functional_extensionality. intros i. ring.
    - apply (equilibrium_scale _ _ _ (fun i => g i * 1) u F). exact A1. }
  pose proof (wp_loads _ _ _ _ WP) as Hne. set (nt := List.length (pb_loads pb)). assert (Hnt : (0 < nt)%nat) by (unfold nt; destruct (pb_loads pb); [easy|cbn; lia]).
  set (gs := map _ (map _ us')).
  assert (Hgs : forall g, In g gs -> forall e, (e < n)%nat -> - (F ^ 2 * K) <= nth e (hz_bwd f g) 0).
  { intros g Hg e He. unfold gs in Hg. rewrite map_map in Hg. apply in_map_iff in Hg. destruct Hg as (u' & <- & Hu').
    assert (S : exists u, In u us /\ forall i, (i < fb_n (pb_basis pb))%nat -> u' i = F * u i).
    { clear - HU Hu'. induction HU as [|u w us us' A B IH]; [easy|]. destruct Hu' as [<-|Hu']; [exists u; split; [now left|exact A]|]. destruct (IH Hu') as (u0 & I1 & I2). exists u0. split; [now right|exact I2]. }
    destruct S as (u & Hu & Su).
    assert (Eg : forall e, nth e (grad_filtered (i_interp c) (pb_E0 pb) (Emin_of pb c) (v_p v) (v_beta v) (c_beta_eta (i_oc c)) (hz_fwd f rho) (hz_projected c v f rho) (strain_energy (pb_basis pb) (pb_nu pb) E u')) 0 = F ^ 2 * nth e (G u) 0).
    { intros e'. rewrite (gfiltered_lin (i_interp c) (pb_E0 pb) (Emin_of pb c) (v_p v) (v_beta v) (c_beta_eta (i_oc c)) (hz_fwd f rho) (hz_projected c v f rho) (F ^ 2) (strain_energy (pb_basis pb) (pb_nu pb) E u)).
      - apply nth_scale.
      - intros e''. rewrite (energy_ext _ _ _ u' (fun i => F * u i) e'' Su). apply unit_energy_scale. }
    pose proof (hz_bwd_spec f n (grad_filtered (i_interp c) (pb_E0 pb) (Emin_of pb c) (v_p v) (v_beta v) (c_beta_eta (i_oc c)) (hz_fwd f rho) (hz_projected c v f rho) (strain_energy (pb_basis pb) (pb_nu pb) E u')) HF) as HB.
    destruct HF as (Hn & Hm & Hf & Hs & Hc & _).
    refine (proj1 (proj2 (C101_gradient_range _ _ _ _ _ HB) Hm Hf Hs Hc) (F ^ 2 * K) _ _ e _); [apply Rmult_le_pos; [apply pow2_ge_0|exact HK0]| |lia].
    intros e' _ _. rewrite Eg. pose proof (HK u Hu e'). pose proof (pow2_ge_0 F). nra. }
  intros e He. rewrite (proj2 (hz_sensitivity_spec f c n nt gs (proj1 HF)) Hsf e He). apply mean_lower; [|exact Hnt|].
  - rewrite map_length. unfold gs. rewrite !map_length. pose proof (Forall2_len _ _ _ Heq') as Q. unfold loads_of in Q. rewrite map_length in Q. symmetry. exact Q.
  - intros x Hx. apply in_map_iff in Hx. destruct Hx as (g & <- & Hg). now apply Hgs.
Qed.
Theorem C105_small_loads_fatal_refuted : forall pb T c v i s e, from_args (Elastic pb) T c -> task_ready (Elastic pb) T (unfiltered c) v ->
  filter_ready (h_filter s) (List.length (ta_t T)) (v_radius v) ->
  0 <= c_rho_min (i_oc c) -> 0 < c_floor (i_oc c) -> 0 < c_lambda_lower (i_oc c) <= c_lambda_upper (i_oc c) -> 0 <= h_running s -> (forall z, v_eta v <> IZR z) ->
  densities_ok T c (h_rho s) -> designed T c e -> 0 < shared (h_filter s) e ->
  exists F0, 0 < F0 /\ forall F, Rabs F < F0 -> hz_iterate (Elastic pb) (sens_filtered c) (loaded F v) i s = Err NotModelled.
Proof.
  intros pb T c v i s e HA (WP & Hr) HF Hlo Hfl Hl Hrn Heta Hok De Hk.
  destruct (hz_densities (Elastic pb) T c (h_rho s) HA Hlo Hok) as (Hlen & D0 & D1).
  destruct (sensitivities_vanish pb (unfiltered c) v (hz_at v (h_filter s)) (List.length (ta_t T)) (h_rho s) eq_refl WP (filter_ready_at v _ _ HF) Hlen (fun e _ => D0 e) (fun Q e _ => D1 (Hr Q) e)) as (K & HK & HS).
  set (q := shared (h_filter s) e) in *.
  assert (HKp : 0 < K + 1) by lra. exists (Rmin 1 (q / (K + 1))). split; [apply Rmin_pos; [lra|now apply Rdiv_lt_0_compat]|]. intros F HF0.
  assert (A1 : Rabs F < 1) by (eapply Rlt_le_trans; [exact HF0|apply Rmin_l]). assert (A2 : Rabs F < q / (K + 1)) by (eapply Rlt_le_trans; [exact HF0|apply Rmin_r]).
  destruct (HS F) as (ev & Hev & Hb).
  refine (proj2 (C105_small_sensitivities_fatal_refuted (Elastic pb) T c (loaded F v) i s (hz_at v (h_filter s)) ev (F ^ 2 * K) e HA HF Hfl Hl Hrn Heta Hlen _ _ Hb De _)).
  - unfold hz_analyse. change (hz_at (loaded F v) (h_filter s)) with (hz_at v (h_filter s)). rewrite Hev. reflexivity.
  - apply Rmult_le_pos; [apply pow2_ge_0|exact HK].
  - fold q. assert (F ^ 2 <= Rabs F) by (rewrite <- pow2_abs; pose proof (Rabs_pos F); nra). pose proof (Rabs_pos F). pose proof (pow2_ge_0 F) as P2.
    assert (F ^ 2 * K < q).
    { apply Rle_lt_trans with (Rabs F * K); [now apply Rmult_le_compat_r|]. apply Rle_lt_trans with (Rabs F * (K + 1)); [nra|].
      apply (Rmult_lt_compat_r (K + 1)) in A2; [|exact HKp]. unfold Rdiv in A2. rewrite Rmult_assoc, Rinv_l, Rmult_1_r in A2 by lra. exact A2. }
    assert (0 <= F ^ 2 * K) by (apply Rmult_le_pos; assumption). nra.
Qed.
Print Assumptions C105_small_loads_fatal_refuted.

(* without fixed elements the option does what it says *)
Theorem C105_without_fixed_elements : forall t T c v i s, from_args t T c -> task_ready t T (unfiltered c) v -> filter_ready (h_filter s) (List.length (ta_t T)) (v_radius v) ->
  (forall e, (e < List.length (ta_t T))%nat -> is_design (hz_mask (h_filter s)) e = true) ->
  0 <= c_rho_min (i_oc c) <= c_rho_max (i_oc c) -> c_smin (i_oc c) <= c_smax (i_oc c) -> 0 < c_floor (i_oc c) ->
  0 < c_lambda_lower (i_oc c) <= c_lambda_upper (i_oc c) -> 0 <= v_move v -> 0 <= h_running s ->
  densities_ok T c (h_rho s) ->
  exists s' ev, hz_iterate t (sens_filtered c) v i s = Ok s' /\ h_eval s' = Some ev /\ (forall e, nth e (ev_dC ev) 0 <= 0).
Proof.
  intros t T c v i s HA HR HF Hall Hb Hs Hfl Hl Hm Hrn Hok.
  assert (HA' : from_args t T (unfiltered c)) by exact HA.
  destruct (hz_analyse_ok t T (unfiltered c) v (h_filter s) (h_rho s) HA' HR HF (proj1 Hb) Hok) as (a & nt & gs & E & _ & _ & EdC & _).
  destruct (C105_option _ _ _ _ _ _ _ E) as (b & Eb & _ & _ & _ & _ & _).
  pose proof (analyse_options t c v (h_filter s) (h_rho s)) as Q. rewrite E, Eb in Q. destruct Q as (_ & _ & _ & _ & _ & Q).
  destruct (hz_at_eq v (h_filter s)) as (Em & Ek & Es & Er). pose proof (filter_ready_at v _ _ HF) as HF'.
  assert (Hn : n_els (hz_mesh (hz_at v (h_filter s))) = List.length (ta_t T)) by (rewrite Em; apply HF).
  assert (Hnp : forall e, nth e (ev_dC b) 0 <= 0).
  { intros e. rewrite Q. destruct (Nat.lt_ge_cases e (List.length (ta_t T))) as [He|He]; [|rewrite nth_overflow; [lra|rewrite hz_fwd_len; lia]].
    destruct (lower_bound (ev_dC a)) as (d & D1 & D2). pose proof (hz_fwd_spec _ _ (ev_dC a) HF') as HS. destruct HF' as (_ & Hm' & Hf' & Hs' & Hc' & _).
    refine (proj2 (C101_in_range _ _ _ _ _ (- d) 0 Hm' Hf' Hs' Hc' _ _ HS e _)); [| |lia].
    - intros e' He' _. split; [apply D2|]. rewrite EdC. now apply hz_sensitivity_nonpos.
    - intros e' (He' & Hd'). rewrite Ek, Hall in Hd'; [discriminate|lia]. }
  pose proof HA as (HT & Hpk & Hdes).
  destruct (hz_advance_succeeds T (sens_filtered c) (element_task t) v i s (hz_at v (h_filter s)) b HT Hpk Hdes Hs Hfl Hl Hm Hrn Hok) as (s' & Ha & _ & _ & _ & Hv'); [intros e _; apply Hnp|].
  exists s', b. unfold hz_iterate. rewrite Eb. cbn [bind]. auto.
Qed.
Print Assumptions C105_without_fixed_elements.

(* LogMOC goes on, and removes material from an element that touches a fixed one, however
   much the element contributes to the stiffness *)
Theorem C105_logmoc_removes_refuted : forall t T L v i s s' g a d e, from_args t T (loop_cfg L) -> task_ready t T (loop_cfg L) v ->
  filter_ready (hl_filter s) (List.length (ta_t T)) (v_radius v) -> NoDup (ta_design T) ->
  0 < m_rho_min (l_m L) <= m_rho_max (l_m L) -> 0 < v_beta v -> 0 <= m_beta_eta (l_m L) <= 1 ->
  m_filter_lagrangian (l_m L) = false -> m_center_lagrangian (l_m L) = false -> m_center_objective (l_m L) = false -> m_normalize (l_m L) = false ->
  0 <= v_move v -> 0 <= v_eta v -> 0 <= m_lclip (l_m L) -> 0 < m_lfloor (l_m L) ->
  (forall r, running_scale (hl_opt s) = Some r -> 0 < r) ->
  (forall e, 0 <= nth e (pb_volumes (element_task t)) 0) -> (exists e, designed T (loop_cfg L) e /\ 0 < nth e (pb_volumes (element_task t)) 0) ->
  densities_ok T (loop_cfg L) (hl_rho s) -> l_sens_filter L = true -> hz_lm_iterate t L v i s = Ok s' ->
  hz_analyse t (unfiltered (loop_cfg L)) v (hl_filter s) (hl_rho s) = Ok (g, a) ->
  0 <= d -> (forall e', (e' < List.length (ta_t T))%nat -> - d <= nth e' (ev_dC a) 0) ->
  designed T (loop_cfg L) e -> d * (1 - shared (hl_filter s) e) <= shared (hl_filter s) e ->
  0 <= lambda_v (hl_opt s') + m_aug_mu (l_m L) * (hz_fraction (element_task t) (loop_cfg L) v (hl_filter s') (hl_rho s) - v_vol_frac v) ->
  nth e (hl_rho s') 0 <= nth e (hl_rho s) 0.
Proof.
  intros t T L v i s s' g a d e HA HR HF Hnd Hb Hbeta Heta0 F1 F2 F3 F4 Hmv Heta Hcl Hfl Hrs Hvn Hve Hok Hsf H Ha Hd Hlo De Hk Hco.
  pose proof (analyse_options t (loop_cfg L) v (hl_filter s) (hl_rho s)) as Q. rewrite Ha in Q.
  assert (Ec : sens_filtered (loop_cfg L) = loop_cfg L) by (unfold sens_filtered, loop_cfg; cbn; now rewrite Hsf).
  rewrite Ec in Q. destruct (hz_analyse t (loop_cfg L) v (hl_filter s) (hl_rho s)) as [[g' b]|] eqn:Eb; [|easy]. destruct Q as (_ & _ & _ & _ & _ & EdC).
  assert (Hev : hl_eval s' = Some b).
  { pose proof H as H'. unfold hz_lm_iterate in H'. rewrite Eb in H'. cbn [bind] in H'. unfold hz_lm_advance in H'.
    destruct (lm_rho_update (l_m L) (hl_opt s) _) as [o|]; [|discriminate]. cbn [bind] in H'.
    match type of H' with Ok ?z = _ => assert (Es : s' = z) by congruence end. now rewrite Es. }
  destruct (C102_logmoc_volume_slope t T L v i s s' b HA HR HF Hnd Hb Hbeta Heta0 F1 F2 F3 Hmv Heta Hcl Hfl Hrs Hvn Hve Hok H Hev) as (w & sl & Hw & B).
  specialize (Hw F4). subst w. cbn zeta in B. destruct (B e De) as (B1 & _ & B2 & _). apply B2. clear B B2.
  destruct (C105_option _ _ _ _ _ _ _ Ha) as (_ & _ & _ & _ & _ & Hnp & _).
  assert (He : (e < List.length (ta_t T))%nat) by (apply HA; apply De).
  assert (Hn : n_els (hz_mesh (hl_filter s)) = List.length (ta_t T)) by apply HF. pose proof (proj1 Hok) as Hlen.
  assert (Hp : 0 <= nth e (ev_dC b) 0).
  { rewrite EdC. destruct (hz_at_eq v (hl_filter s)) as (Em & Ek & _ & Er).
    pose proof (C105_fixed_elements_count_as_one (hz_at v (hl_filter s)) _ (ev_dC a) d (filter_ready_at v _ _ HF) Hd) as X.
    specialize (X ltac:(intros e' He' _; split; [now apply Hlo|apply Hnp; [congruence|lia]]) e He).
    unfold shared in X, Hk. rewrite Em, Ek in X. lra. }
  assert (Hsl : 0 <= sl e).
  { eapply Rle_trans; [|exact B1]. unfold Rdiv. apply Rmult_le_pos; [apply pos_INR|]. apply Rlt_le, Rinv_0_lt_compat, lt_0_INR.
    destruct HF as (_ & (Hm1 & _) & _). destruct (Hm1 e ltac:(lia)) as (_ & Hne & _). destruct (nth e (m_els _) []); [easy|cbn; lia]. }
  rewrite Rmult_1_r. set (k := lambda_v _ + _) in *. assert (0 <= k * sl e) by (apply Rmult_le_pos; [exact Hco|exact Hsl]). lra.
Qed.
Print Assumptions C105_logmoc_removes_refuted.

(* ---- instances: the two-element rod of C102 ---- *)
Lemma rod2_shared : shared (h_filter ex_hs) 0%nat = 1/2.
Proof. unfold shared. cbn. lra. Qed.
Lemma half_no_int : forall z, v_eta ex_v <> IZR z.
Proof. intros z E. cbn in E. assert (1 = 2 * IZR z) by lra. rewrite <- (mult_IZR 2) in H. apply eq_IZR in H. lia. Qed.
(* element 1 is fixed: for all loads close enough to 0 the iteration fails *)
Example C105_fatal_instance : exists F0, 0 < F0 /\
  forall F, Rabs F < F0 -> hz_iterate (Elastic ex_pb) (sens_filtered ex_c) (loaded F ex_v) 1 ex_hs = Err NotModelled.
Proof.
  refine (C105_small_loads_fatal_refuted ex_pb ex_T ex_c ex_v 1 ex_hs 0 (ex_from ex_c eq_refl) (ex_task_ready (unfiltered ex_c) eq_refl eq_refl) (rod2_ready ex_mask) _ _ _ _ half_no_int ex_densities _ _);
    try (cbn; lra); [|rewrite rod2_shared; lra].
  destruct (sets_of ex_T ex_c ex_pb (proj1 (ex_from ex_c eq_refl)) (proj1 (proj2 (ex_from ex_c eq_refl)))) as (_ & HD & _). apply HD. cbn. auto.
Qed.
(* the same rod, filter without fixed elements *)
Example C105_free_instance : exists s' ev, hz_iterate (Elastic ex_pb) (sens_filtered ex_c) ex_v 1 (mkHSt [1/2; 1] (direct rod2 None 1) 0 0 None None) = Ok s' /\
  h_eval s' = Some ev /\ nth 0 (ev_dC ev) 0 <= 0.
Proof.
  set (s := mkHSt _ _ _ _ _ _).
  destruct (C105_without_fixed_elements (Elastic ex_pb) ex_T ex_c ex_v 1 s (ex_from ex_c eq_refl) (ex_task_ready (unfiltered ex_c) eq_refl eq_refl) (rod2_ready None)) as (s' & ev & A & B & C);
    try (cbn; lra); try reflexivity; try exact ex_densities. exists s', ev. auto.
Qed.
(* LogMOC with multipliers from 0 to 1: for some load the density of element 0, the only one
   designed, does not grow *)
Definition sf_lm := mkLM (1/100) 1 (1/2) 5 0 (1/10) (9/10) 0 1 1 95 (1/100000000) false 95 (1/100000000) 1 None true false false false.
Definition sf_L := mkLC sf_lm (1/1000) SIMP true true.
Example C105_logmoc_instance : exists F s', 0 < F /\
  hz_lm_iterate (Elastic ex_pb) sf_L (loaded F ex_v) 1 (mkHLS [1/2; 1] (direct rod2 ex_mask 1) (lm_init sf_lm) 0 0 None) = Ok s' /\ nth 0 (hl_rho s') 0 <= 1/2.
Proof.
  set (s := mkHLS _ _ _ _ _ _). pose proof (ex_from (loop_cfg sf_L) eq_refl) as FA.
  assert (TR : forall F, task_ready (Elastic ex_pb) ex_T (loop_cfg sf_L) (loaded F ex_v)).
  { intros F. split; [|discriminate]. constructor; cbn; try lra; [reflexivity|exists 0%nat; split; [lia|reflexivity]|intros; lra|discriminate|apply ex_solver]. }
  assert (OK : densities_ok ex_T (loop_cfg sf_L) (hl_rho s)) by exact ex_dens.
  destruct (hz_densities (Elastic ex_pb) ex_T (loop_cfg sf_L) (hl_rho s) FA ltac:(cbn; lra) OK) as (Hlen & D0 & D1).
  assert (WP : well_posed ex_pb (unfiltered (loop_cfg sf_L)) ex_v (some_filter 2)).
  { constructor; cbn; try lra; [reflexivity|exists 0%nat; split; [lia|reflexivity]|intros; lra|discriminate|apply ex_solver]. }
  destruct (sensitivities_vanish ex_pb (unfiltered (loop_cfg sf_L)) ex_v (hz_at ex_v (hl_filter s)) 2 (hl_rho s) eq_refl WP (filter_ready_at ex_v _ _ (rod2_ready ex_mask)) Hlen (fun e _ => D0 e)) as (K & HK & HS);
    [discriminate|].
  set (F := / (K + 1)). assert (HF : 0 < F) by (apply Rinv_0_lt_compat; lra). assert (HFK : F * (K + 1) = 1) by (apply Rinv_l; lra).
  assert (HF1 : F <= 1) by nra. assert (HB : F ^ 2 * K <= 1) by nra.
  destruct (HS F) as (a & Ha & Hb). exists F.
  destruct (C102_logmoc_succeeds (Elastic ex_pb) ex_T sf_L (loaded F ex_v) 1 s FA (TR F) (rod2_ready ex_mask)) as (s' & H & _); try (cbn; lra); [exact OK|left; lia|].
  exists s'. split; [exact HF|]. split; [exact H|].
  assert (Hlam : 0 <= lambda_v (hl_opt s')).
  { unfold hz_lm_iterate in H. destruct (hz_analyse _ _ _ _ _) as [[f ev]|]; [|discriminate]. cbn [bind] in H. unfold hz_lm_advance in H.
    destruct (lm_rho_update _ _ _) as [o|] eqn:Eo; [|discriminate]. cbn [bind] in H. match type of H with Ok ?x = _ => assert (Q : s' = x) by congruence end. rewrite Q. cbn [hl_opt].
    unfold lm_rho_update in Eo. destruct (lm_running _ _ _ _) as [r|]; [|discriminate]. cbn [bind] in Eo. injection Eo as <-. cbn [lo_state lambda_v]. unfold dual_step. apply (clip_ge_lo _ 0 1). lra. }
  refine (C105_logmoc_removes_refuted (Elastic ex_pb) ex_T sf_L (loaded F ex_v) 1 s s' (hz_at ex_v (hl_filter s)) a (F ^ 2 * K) 0 FA (TR F) (rod2_ready ex_mask) _ _ _ _ eq_refl eq_refl eq_refl eq_refl _ _ _ _ _ _ _ OK eq_refl H _ _ Hb _ _ _);
    try (cbn; lra).
  - repeat constructor; cbn; lia.
  - discriminate.
  - intros [|[|e]]; cbn; try lra. destruct e; lra.
  - exists 0%nat. split; [now apply ex_designs|cbn; lra].
  - unfold hz_analyse. change (hz_at (loaded F ex_v) (hl_filter s)) with (hz_at ex_v (hl_filter s)). rewrite Ha. reflexivity.
  - apply Rmult_le_pos; [apply pow2_ge_0|exact HK].
  - now apply ex_designs.
  - change (shared (hl_filter s) 0) with (shared (h_filter ex_hs) 0). rewrite rod2_shared. lra.
Qed.
