(* C104: what scaling=True changes in a run, and what it does not. *)
From Verif Require Import Base Sums Material_model Material_proofs OC_model OC_spec OC_proofs OC_props Filter_model Filter_proofs Mesh_model Mesh_proofs Fea_model Fea_spec Fea_proofs Fea_props
  Iter_model Iter_spec Iter_proofs Grad_proofs Grad_props Iter_props Scale_model Scale_spec Scale_proofs.
Open Scope R_scope.
Open Scope list_scope.

Lemma ke_pos s F : 0 < s -> 0 < F -> 0 < energy_factor s F.
Proof. intros Hs HF. unfold energy_factor. apply Rdiv_lt_0_compat; [nra|exact Hs]. Qed.
Lemma k_pos s F pb : 0 < s -> 0 < F -> (0 < fb_n (pb_basis pb))%nat -> 0 < sens_factor s F pb.
Proof.
  intros Hs HF Hn. unfold sens_factor. apply Rdiv_lt_0_compat; [now apply ke_pos|]. destruct (Nat.eqb _ _); [now apply lt_0_INR|lra].
Qed.

(* one analysis: filtered and physical densities are the same; the compliance and the
   energies are multiplied by F^2/s, the sensitivities by the same, divided by the number
   of degrees of freedom when there is one load *)
Theorem C104_analysis : forall s F pb c v f L rho, 0 < s -> well_posed pb c v f -> solver_ok (problem_scaled s pb) ->
  (0 < fb_n (pb_basis pb))%nat -> scale_force (fb_n (pb_basis pb)) F (Cases (pb_loads pb)) = Ok L ->
  List.length rho = List.length (sf_centers f) -> (forall e, 0 <= nth e rho 0 <= 1) ->
  exists g ev ev', evaluate pb c v f rho = Ok (g, ev) /\
    evaluate_loads (problem_scaled s pb) L c (values_scaled s v) (filter_scaled s f) rho = Ok (filter_scaled s g, ev') /\
    analysis_scaled (energy_factor s F) (sens_factor s F pb) ev ev'.
Proof.
  intros s F pb c v f L rho Hs WP SO Hn HL Hlen Hrho.
  destruct (evaluate_scaled s F pb c v f L Hs WP SO HL rho Hlen Hrho Hn) as (ev & ev' & H1 & H2 & H3 & _). eauto 7.
Qed.
Print Assumptions C104_analysis.

Lemma rsum_padded ke (e : nat) : forall (a b : list (nat -> R)), (List.length a <= List.length b)%nat ->
  (forall j, (j < List.length a)%nat -> nth j b (fun _ => 0) e = ke * nth j a (fun _ => 0) e) ->
  (forall j, (List.length a <= j)%nat -> nth j b (fun _ => 0) e = 0) ->
  rsum (map (fun U => U e) b) = ke * rsum (map (fun U => U e) a).
Proof.
  induction a as [|U a IH]; intros b Hl H1 H2.
  - replace (rsum (map (fun U => U e) [])) with 0 by reflexivity. rewrite Rmult_0_r. clear Hl H1. revert H2. induction b as [|V b IHb]; intros H2; [reflexivity|].
    cbn [map]. rewrite rs_cons1, IHb; [|intros j _; exact (H2 (S j) (Nat.le_0_l _))]. pose proof (H2 0%nat (Nat.le_0_l _)) as Q. cbn [nth] in Q. rewrite Q. ring.
  - destruct b as [|V b]; [cbn in Hl; lia|]. cbn [map]. rewrite !rs_cons1. rewrite (IH b).
    + pose proof (H1 0%nat ltac:(cbn; lia)) as Q. cbn [nth] in Q. rewrite Q. ring.
    + cbn in Hl. lia.
    + intros j Hj. exact (H1 (S j) ltac:(cbn; lia)).
    + intros j Hj. exact (H2 (S j) ltac:(cbn; lia)).
Qed.
(* the element energies that are recorded are averages over n_tasks: with a single load
   they are divided by the number of degrees of freedom, the recorded compliance is not *)
Theorem C104_recorded_energy : forall s F pb c v f L rho g ev g' ev', 0 < s -> well_posed pb c v f -> solver_ok (problem_scaled s pb) ->
  (0 < fb_n (pb_basis pb))%nat -> scale_force (fb_n (pb_basis pb)) F (Cases (pb_loads pb)) = Ok L ->
  List.length rho = List.length (sf_centers f) -> (forall e, 0 <= nth e rho 0 <= 1) ->
  evaluate pb c v f rho = Ok (g, ev) ->
  evaluate_loads (problem_scaled s pb) L c (values_scaled s v) (filter_scaled s f) rho = Ok (g', ev') ->
  ev_compliance ev' = energy_factor s F * ev_compliance ev /\
  forall e, mean_energy ev' e = sens_factor s F pb * mean_energy ev e.
Proof.
  intros s F pb c v f L rho g ev g' ev' Hs WP SO Hn HL Hlen Hrho H1 H2.
  destruct (evaluate_scaled s F pb c v f L Hs WP SO HL rho Hlen Hrho Hn) as (ev1 & ev1' & E1 & E2 & A & _ & N1 & N2).
  rewrite E1 in H1. injection H1 as _ <-. rewrite E2 in H2. injection H2 as _ <-. split; [apply A|]. intros e.
  unfold mean_energy. rewrite (n_cases_scaled _ _ _ _ HL) in N2. pose proof (wp_loads _ _ _ _ WP) as Hne.
  assert (Hpos : (0 < List.length (pb_loads pb))%nat) by (destruct (pb_loads pb); [easy|cbn; lia]).
  rewrite (rsum_padded (energy_factor s F) e (ev_energy ev1) (ev_energy ev1')).
  - replace (INR (List.length (ev_energy ev1'))) with (INR (if Nat.eqb (List.length (pb_loads pb)) 1 then fb_n (pb_basis pb) else List.length (pb_loads pb))) by (f_equal; symmetry; exact N2).
    replace (INR (List.length (ev_energy ev1))) with (INR (List.length (pb_loads pb))) by (f_equal; symmetry; exact N1). unfold sens_factor.
    pose proof (lt_0_INR _ Hpos). pose proof (lt_0_INR _ Hn). destruct (Nat.eqb_spec (List.length (pb_loads pb)) 1) as [E|E]; [rewrite E; cbn [INR]|]; field; lra.
  - assert (Q : (List.length (pb_loads pb) <= if Nat.eqb (List.length (pb_loads pb)) 1 then fb_n (pb_basis pb) else List.length (pb_loads pb))%nat) by (destruct (Nat.eqb_spec (List.length (pb_loads pb)) 1); lia).
    eapply Nat.le_trans; [apply Nat.eq_le_incl; exact N1|]. eapply Nat.le_trans; [exact Q|]. apply Nat.eq_le_incl. symmetry. exact N2.
  - intros j Hj. exact (as_energy _ _ _ _ A j Hj e).
  - intros j Hj. exact (as_idle _ _ _ _ A j Hj e).
Qed.
Print Assumptions C104_recorded_energy.

Lemma gather_scaled k l idx : gather (map (Rmult k) l) idx = map (Rmult k) (gather l idx).
Proof. unfold gather. rewrite map_map. apply map_ext. intros i. apply nth_scale. Qed.

Theorem C104_iteration : forall s F pb c v i L a b a', 0 < s -> 0 < F -> well_posed pb c v (s_filter a) -> solver_ok (problem_scaled s pb) ->
  (0 < fb_n (pb_basis pb))%nat -> scale_force (fb_n (pb_basis pb)) F (Cases (pb_loads pb)) = Ok L ->
  List.length (s_rho a) = List.length (sf_centers (s_filter a)) -> (forall e, 0 <= nth e (s_rho a) 0 <= 1) ->
  0 < c_floor (i_oc c) -> 0 <= s_running a ->
  state_related s (energy_factor s F) (sens_factor s F pb) a b ->
  iterate pb c v i a = Ok a' ->
  (forall ev, s_eval a' = Some ev -> above_floor pb c (sens_factor s F pb) v ev) ->
  exists b', iterate_loads (problem_scaled s pb) L c (values_scaled s v) i b = Ok b' /\
    state_related s (energy_factor s F) (sens_factor s F pb) a' b' /\ 0 < s_running a'.
Proof.
  intros s F pb c v i L a b a' Hs HF WP SO Hn HL Hlen Hrho Hfl Hrun [R1 R2 R3 R4 R5 R6] Hit Hab.
  destruct (evaluate_scaled s F pb c v (s_filter a) L Hs WP SO HL (s_rho a) Hlen Hrho Hn) as (ev & ev' & H1 & H2 & H3 & _).
  unfold iterate in Hit. rewrite H1 in Hit. cbn [bind] in Hit. unfold iterate_loads. rewrite R5, R1, H2. cbn [bind].
  set (k := sens_factor s F pb) in *. assert (Hk : 0 < k) by now apply k_pos.
  unfold advance in *. rewrite R4, R1. cbn [problem_scaled pb_dom] in *.
  set (g := f2 v (s_filter a)) in *. set (args := oc_args_of pb v i (s_rho a) g ev) in *.
  assert (Ea : oc_args_of (problem_scaled s pb) (values_scaled s v) i (s_rho a) (filter_scaled s g) ev' = scaled_args k args).
  { unfold oc_args_of, args, scaled_args. cbn [problem_scaled pb_dom pb_volumes values_scaled v_move v_eta v_beta v_percentile v_vol_frac oc_args_of a_iter a_rho_full a_design a_filter a_dC a_move a_eta a_beta a_percentile a_volumes a_vol_sum a_vol_frac].
    rewrite (map_scaled s Hs), (as_dC _ _ _ _ H3), gather_scaled. reflexivity. }
  rewrite Ea.
  assert (Hev : s_eval a' = Some ev).
  { destruct (rho_update _ _ _) as [r|]; [|discriminate]. destruct (r_rho r); [|discriminate]. injection Hit as <-. reflexivity. }
  destruct (Hab ev Hev) as (F1 & F2).
  pose proof (C21_one_update_scale_invariant (i_oc c) (s_running a) args k Hk F1 F2 Hfl Hrun) as Q.
  destruct (rho_update (i_oc c) (s_running a) args) as [r|]; [|discriminate].
  destruct (rho_update (i_oc c) (k * s_running a) (scaled_args k args)) as [r'|]; [|easy].
  destruct Q as (Q1 & _ & _ & _ & Q2 & Q3 & Q4). rewrite Q1. destruct (r_rho r) as [new|]; [|discriminate].
  injection Hit as <-. eexists. split; [reflexivity|]. cbn [s_running]. split; [|exact Q4].
  constructor; cbn [s_rho s_change s_kkt s_running s_filter s_eval]; auto.
Qed.
Print Assumptions C104_iteration.

Lemma unit_densities T c pb rho : built_from T c pb -> pins_known T c -> 0 <= c_rho_min (i_oc c) -> c_rho_max (i_oc c) <= 1 ->
  densities_ok T c rho -> forall e, 0 <= nth e rho 0 <= 1.
Proof.
  intros HT Hne Hlo Hhi (Hlen & Hok) e. destruct (sets_of T c pb HT Hne) as (_ & HD & _).
  destruct (Nat.lt_ge_cases e (List.length (ta_t T))) as [He|He].
  - destruct (in_dec Nat.eq_dec e (d_design (pb_dom pb))) as [Q|Q]; rewrite HD in Q.
    + pose proof (proj1 (Hok e He) Q). lra.
    + rewrite (proj2 (Hok e He) Q). lra.
  - rewrite nth_overflow; lra || lia.
Qed.
Lemma iterate_filter pb c v i s s' : well_posed pb c v (s_filter s) -> List.length (s_rho s) = List.length (sf_centers (s_filter s)) ->
  (forall e, 0 <= nth e (s_rho s) 0 <= 1) -> iterate pb c v i s = Ok s' -> s_filter s' = f2 v (s_filter s).
Proof.
  intros WP Hlen Hrho H.
  destruct (evaluate_total pb c v (s_filter s) (s_rho s) WP Hlen (fun e _ => modulus_ok pb c v (s_filter s) (s_rho s) WP (fun e => proj1 (Hrho e)) (fun _ e => proj2 (Hrho e)) e)) as (El & _ & _ & Hev).
  unfold iterate in H. rewrite Hev in H. cbn [bind] in H. unfold advance in H.
  destruct (rho_update _ _ _) as [r|]; [|discriminate]. destruct (r_rho r); [|discriminate]. injection H as <-. reflexivity.
Qed.

(* a whole run: a task whose lengths are multiplied by s and loads by F is designed in
   the same way if the filter radii are multiplied by s, as long as no normalisation
   reaches the floor *)
Theorem C104_run : forall s F T c pb L sched a b l, 0 < s -> 0 < F ->
  built_from T c pb -> pins_known T c -> (forall e, In e (ta_design T) -> (e < List.length (ta_t T))%nat) ->
  0 <= c_rho_min (i_oc c) <= c_rho_max (i_oc c) -> c_rho_max (i_oc c) <= 1 -> c_smin (i_oc c) <= c_smax (i_oc c) ->
  c_lambda_lower (i_oc c) <= c_lambda_upper (i_oc c) -> 0 < c_floor (i_oc c) -> 0 <= s_running a ->
  List.length (sf_centers (s_filter a)) = List.length (ta_t T) ->
  (forall i v, In (i, v) sched -> 0 <= v_move v /\ well_posed pb c v (s_filter a)) -> densities_ok T c (s_rho a) ->
  solver_ok (problem_scaled s pb) -> (0 < fb_n (pb_basis pb))%nat ->
  scale_force (fb_n (pb_basis pb)) F (Cases (pb_loads pb)) = Ok L ->
  run pb c sched a = Ok l ->
  Forall2 (fun iv a' => forall ev, s_eval a' = Some ev -> above_floor pb c (sens_factor s F pb) (snd iv) ev) sched l ->
  state_related s (energy_factor s F) (sens_factor s F pb) a b ->
  exists l', run_loads (problem_scaled s pb) L c (schedule_scaled s sched) b = Ok l' /\
    Forall2 (state_related s (energy_factor s F) (sens_factor s F pb)) l l'.
Proof.
  intros s F T c pb L sched. induction sched as [|[i v] sched IH]; intros a b l Hs HF HT Hne Hdes Hb Hb1 Hsm Hl Hfl Hrun Hc Hv Hok SO Hn HL H Hab Hrel; cbn [run] in H.
  - injection H as <-. exists []. split; [reflexivity|constructor].
  - destruct (iterate pb c v i a) as [a1|] eqn:E1; [|discriminate]. cbn [bind] in H.
    destruct (run pb c sched a1) as [l1|] eqn:E2; [|discriminate]. cbn [bind] in H. injection H as <-.
    inversion Hab as [|? ? ? ? A1 A2]; subst. cbn [snd] in A1.
    destruct (Hv i v) as (Hm & WP); [now left|].
    assert (Hlen : List.length (s_rho a) = List.length (sf_centers (s_filter a))) by (rewrite Hc; apply Hok).
    pose proof (unit_densities T c pb (s_rho a) HT Hne ltac:(lra) Hb1 Hok) as Hu.
    destruct (C104_iteration s F pb c v i L a b a1) as (b1 & I1 & I2 & I3); auto.
    destruct (C26_iteration_keeps_bounds T c pb v i a a1) as (Hok1 & _); auto; try lra.
    pose proof (iterate_filter pb c v i a a1 WP Hlen Hu E1) as Hf.
    destruct (IH a1 b1 l1) as (l' & I4 & I5); auto; try lra.
    + rewrite Hf. exact Hc.
    + intros i' v' Hi. destruct (Hv i' v') as (Hm' & WP'); [now right|]. split; [exact Hm'|]. rewrite Hf. apply (wp_same pb c v' (s_filter a) (f2 v (s_filter a))); [reflexivity|reflexivity|exact WP'].
    + exists (b1 :: l'). split; [|now constructor]. cbn [schedule_scaled map run_loads fst snd]. rewrite I1. cbn [bind]. fold (schedule_scaled s sched). rewrite I4. reflexivity.
Qed.
Print Assumptions C104_run.

(* ---- the scales the optimizer chooses ---- *)
Lemma extent_scaled s p k : 0 <= s -> extent (stretch s p) k = s * extent p k.
Proof.
  intros Hs. unfold extent, stretch. rewrite !map_map.
  rewrite (map_ext (fun x => nth k (map (Rmult s) x) 0) (fun x => s * nth k x 0)) by (intros; apply nth_scale).
  rewrite (map_ext (fun x => - nth k (map (Rmult s) x) 0) (fun x => s * - nth k x 0)) by (intros; rewrite nth_scale; ring).
  rewrite <- (map_map (fun x => nth k x 0) (Rmult s)), <- (map_map (fun x => - nth k x 0) (Rmult s)).
  rewrite !max_scale by exact Hs. ring.
Qed.
Lemma length_scale_scaled s p : 0 <= s -> length_scale (stretch s p) = s * length_scale p.
Proof.
  intros Hs. unfold length_scale. rewrite <- max_scale by exact Hs. rewrite map_map. f_equal. apply map_ext. intros k. now apply extent_scaled.
Qed.
Lemma extent_spec p k : p <> [] -> (exists x y, In x p /\ In y p /\ extent p k = nth k x 0 - nth k y 0) /\
  forall x y, In x p -> In y p -> nth k x 0 - nth k y 0 <= extent p k.
Proof.
  intros Hp. unfold extent.
  assert (H1 : map (fun x => nth k x 0) p <> []) by (destruct p; easy).
  assert (H2 : map (fun x => - nth k x 0) p <> []) by (destruct p; easy).
  destruct (np_max_spec _ H1) as (A1 & A2). destruct (np_max_spec _ H2) as (B1 & B2). split.
  - apply in_map_iff in A1. destruct A1 as (x & Ex & Hx). apply in_map_iff in B1. destruct B1 as (y & Ey & Hy).
    exists x, y. split; [exact Hx|]. split; [exact Hy|]. rewrite <- Ex, <- Ey. ring.
  - intros x y Hx Hy. pose proof (A2 _ (in_map (fun x => nth k x 0) p x Hx)). pose proof (B2 _ (in_map (fun x => - nth k x 0) p y Hy)). lra.
Qed.
Lemma length_scale_spec p : p <> [] -> (exists k x y, (k < 3)%nat /\ In x p /\ In y p /\ length_scale p = nth k x 0 - nth k y 0) /\
  forall k x y, (k < 3)%nat -> In x p -> In y p -> nth k x 0 - nth k y 0 <= length_scale p.
Proof.
  intros Hp. unfold length_scale. assert (Hn : map (extent p) (seq 0 3) <> []) by discriminate.
  destruct (np_max_spec _ Hn) as (A1 & A2). split.
  - apply in_map_iff in A1. destruct A1 as (k & Ek & Hk). apply in_seq in Hk. destruct (extent_spec p k Hp) as ((x & y & Hx & Hy & E) & _).
    exists k, x, y. split; [lia|]. split; [exact Hx|]. split; [exact Hy|]. etransitivity; [symmetry; exact Ek|exact E].
  - intros k x y Hk Hx Hy. eapply Rle_trans; [apply (proj2 (extent_spec p k Hp) x y Hx Hy)|]. apply A2. apply in_map, in_seq. lia.
Qed.

(* the optimizer shrinks or stretches the task so that the longest side of its bounding
   box is 1, and divides the loads by 10^5; volumes, E, nu and radii stay *)
Theorem C104_unit_box : forall n t L, st_loads t = Some (Cases L) -> (exists k x y, (k < 3)%nat /\ In x (st_points t) /\ In y (st_points t) /\ nth k x 0 <> nth k y 0) ->
  exists p L', optimizer_scale n t = (mkSTask p (Some L'), None) /\
    (forall k x y, (k < 3)%nat -> In x p -> In y p -> nth k x 0 - nth k y 0 <= 1) /\
    (exists k x y, (k < 3)%nat /\ In x p /\ In y p /\ nth k x 0 - nth k y 0 = 1) /\
    force_list L' = map (fun f i => f i / 100000) L.
Proof.
  intros n [p Lo] L HLo (k0 & x0 & y0 & Hk0 & Hx0 & Hy0 & Hne). cbn [st_points st_loads] in *. subst Lo.
  assert (Hp : p <> []) by (destruct p; [easy|discriminate]).
  assert (Hpos : 0 < length_scale p).
  { destruct (length_scale_spec p Hp) as (_ & U). pose proof (U k0 x0 y0 Hk0 Hx0 Hy0). pose proof (U k0 y0 x0 Hk0 Hy0 Hx0). lra. }
  set (s := 1 / length_scale p). assert (Hs : 0 < s) by (unfold s; apply Rdiv_lt_0_compat; lra).
  unfold optimizer_scale, task_scale. cbn [st_points st_loads]. fold s.
  destruct (scale_force n (1 / 100000) (Cases L)) as [L'|e] eqn:EL; [|destruct L as [|? [|? ?]]; discriminate].
  exists (stretch s p), L'. split; [reflexivity|].
  assert (Hl1 : length_scale (stretch s p) = 1) by (rewrite length_scale_scaled by lra; unfold s; field; lra).
  assert (Hp' : stretch s p <> []) by (destruct p; easy).
  destruct (length_scale_spec _ Hp') as ((k & x & y & Hk & Hx & Hy & E) & U). rewrite Hl1 in *.
  split; [exact U|]. split; [exists k, x, y; auto|].
  rewrite (force_list_scaled _ _ _ _ EL). apply map_ext. intros f. apply FunctionalExtensionality.functional_extensionality. intros i. unfold times. field.
Qed.
Print Assumptions C104_unit_box.

(* LinearHeatConduction has no force: the constructor fails, and by then the task the
   caller keeps has the scaled mesh *)
Theorem C104_heat_task_refused_after_change : forall n p, optimizer_scale n (mkSTask p None) = (mkSTask (stretch (1 / length_scale p) p) None, Some AttributeError) /\
  (length_scale p <> 0 -> length_scale p <> 1 -> st_points (fst (optimizer_scale n (mkSTask p None))) <> p).
Proof.
  intros n p. split; [reflexivity|]. intros H0 H1 E. cbn [optimizer_scale task_scale st_points st_loads fst] in E.
  assert (D : exists k x, In x p /\ nth k x 0 <> 0).
  { apply Classical_Prop.NNPP. intros Hno. apply H0. destruct p as [|q p]; [unfold length_scale, extent; cbn; unfold Rmax; repeat destruct (Rle_dec _ _); lra|].
    destruct (length_scale_spec (q :: p) ltac:(discriminate)) as ((k & x & y & _ & Hx & Hy & El) & _).
    assert (Z : forall x, In x (q :: p) -> nth k x 0 = 0) by (intros z Hz; apply Classical_Prop.NNPP; intros Hz0; apply Hno; eauto).
    rewrite El, (Z x Hx), (Z y Hy). ring. }
  destruct D as (k & x & Hx & Hk). apply In_nth with (d := []) in Hx. destruct Hx as (j & Hj & Ej).
  assert (Q : nth k (nth j (stretch (1 / length_scale p) p) []) 0 = nth k (nth j p []) 0) by now rewrite E.
  rewrite nth_stretch, nth_scale, Ej in Q. apply H1. apply (Rmult_eq_reg_r (/ length_scale p * nth k x 0)).
  - rewrite <- Rmult_assoc, Rinv_r by exact H0. rewrite Rmult_1_l in *. unfold Rdiv in Q. rewrite Rmult_1_l in Q. now rewrite <- Q at 1; rewrite ?Rmult_1_l.
  - apply Rmult_integral_contrapositive_currified; [now apply Rinv_neq_0_compat|exact Hk].
Qed.
Print Assumptions C104_heat_task_refused_after_change.

(* the radius of the schedule is not scaled: on the scaled mesh the filter of radius r is
   the filter of radius r/s of the original mesh *)
Theorem C104_radius_is_not_scaled : forall s c mask r W rho g x, 0 < s ->
  sf_forward (mkSF (stretch s c) mask r W) rho = Ok (g, x) ->
  exists g', sf_forward (mkSF c mask (r / s) W) rho = Ok (g', x).
Proof.
  intros s c mask r W rho g x Hs H.
  assert (E : mkSF (stretch s c) mask r W = filter_scaled s (mkSF c mask (r / s) W)).
  { unfold filter_scaled. cbn [sf_centers sf_mask sf_radius sf_W]. f_equal. field. lra. }
  rewrite E, (forward_scaled s Hs) in H. destruct (sf_forward (mkSF c mask (r / s) W) rho) as [[g' y]|]; [|discriminate].
  injection H as _ <-. eauto.
Qed.
Print Assumptions C104_radius_is_not_scaled.

Definition two : list point := [[0]; [10]].
Lemma two_dist a b : dist [a] [b] = Rabs (a - b).
Proof. unfold dist. cbn [zipwith rsum fold_right]. rewrite Rplus_0_r. apply sqrt_Rsqr_abs. Qed.
(* elements further apart than the radius do not see each other; after scaling by their
   distance, with the same radius, they do *)
Theorem C104_same_radius_refuted : exists g x g' y, sf_forward (mkSF two None 1 None) [0; 1] = Ok (g, x) /\
  sf_forward (mkSF (stretch (1 / 10) two) None 1 None) [0; 1] = Ok (g', y) /\ nth 0 x 0 = 0 /\ 0 < nth 0 y 0.
Proof.
  assert (D : forall a b, Rabs (a - b) = if Rle_dec b a then a - b else b - a).
  { intros a b. unfold Rabs. destruct (Rcase_abs _), (Rle_dec _ _); lra. }
  assert (P : forall d, 0 < kernel KGaussian 1 d) by (intros; apply exp_pos).
  rewrite (forward_eq (mkSF two None 1 None)); [|cbn; lra|discriminate|reflexivity].
  rewrite (forward_eq (mkSF (stretch (1/10) two) None 1 None)); [|cbn; lra|discriminate|reflexivity].
  do 4 eexists. split; [reflexivity|]. split; [reflexivity|].
  cbn [sf_centers sf_mask sf_radius is_design stretch two map List.length seq design_ids filter nth].
  unfold conv, entry, rowsum, wraw, two. cbn [map rsum fold_right nth]. rewrite !two_dist, !D.
  repeat match goal with |- context [Rle_dec ?a ?b] => destruct (Rle_dec a b); try lra end.
  repeat match goal with |- context [Rleb ?a ?b] => let E := fresh in destruct (Rleb a b) eqn:E; [apply Rleb_true in E|apply Rleb_false in E]; try lra end.
  split; [unfold Rdiv; ring|].
  match goal with |- 0 < ?x / ?z * 0 + (?y / ?z' * 1 + 0) => assert (0 < y / z'); [|lra] end.
  apply Rdiv_lt_0_compat; [apply P|]. match goal with |- 0 < kernel _ _ ?d1 + (kernel _ _ ?d2 + _) => pose proof (P d1); pose proof (P d2); lra end.
Qed.
Print Assumptions C104_same_radius_refuted.

(* the residual the stopping test compares with its tolerance: with the scales of the
   optimizer and one load, a residual is accepted that is 10^10 N / L larger *)
Theorem C104_kkt_tolerance : forall pb f Lmax tol x, pb_loads pb = [f] -> 0 < Lmax -> (0 < fb_n (pb_basis pb))%nat ->
  (sens_factor (1 / Lmax) (1 / 100000) pb * x <= tol <-> x <= tol * (10000000000 * INR (fb_n (pb_basis pb)) / Lmax)).
Proof.
  intros pb f Lmax tol x Hl HL Hn. unfold sens_factor, energy_factor. rewrite Hl. cbn [List.length Nat.eqb]. apply lt_0_INR in Hn. set (N := INR _) in *.
  replace ((1 / 100000) ^ 2 / (1 / Lmax) / N * x) with (x / (10000000000 * N / Lmax)) by (field; lra).
  assert (P : 0 < 10000000000 * N / Lmax) by (apply Rdiv_lt_0_compat; lra). set (q := 10000000000 * N / Lmax) in *.
  split; intros H.
  - apply (Rmult_le_compat_r q) in H; [|lra]. unfold Rdiv in H. rewrite Rmult_assoc, Rinv_l, Rmult_1_r in H by lra. exact H.
  - apply (Rmult_le_reg_r q); [exact P|]. unfold Rdiv. rewrite Rmult_assoc, Rinv_l, Rmult_1_r by lra. exact H.
Qed.
Print Assumptions C104_kkt_tolerance.

(* ---- the concrete problem of C26, lengths halved and loads doubled ---- *)
Lemma exs_solver : solver_ok (problem_scaled (1 / 2) ex_pb).
Proof.
  intros E HE A. cbn [problem_scaled ex_pb pb_basis basis_scaled fb_ne] in HE.
  assert (E0 : 0 < E 0%nat) by (apply HE; cbn; lia). assert (E1 : 0 < E 1%nat) by (apply HE; cbn; lia).
  assert (S : forall b, solves 2 A b (ex_slv A b)).
  { intros b i Hi. unfold mv, sum. cbn [seq map rsum fold_right].
    assert (HA : forall k l, (k < 2)%nat -> (l < 2)%nat -> A k l = if Nat.eqb k l then (if Nat.eqb k 1 then 1 else (E 0%nat + E 1%nat) / 2) else 0).
    { intros k l Hk Hl. unfold A, enforceK. cbn [problem_scaled pb_D ex_pb mem existsb pb_basis pb_nu]. rewrite (Nat.eqb_sym k 1).
      destruct k as [|[|]]; [| |lia]; cbn [Nat.eqb orb]; [|destruct l as [|[|]]; [| |lia]; reflexivity].
      rewrite stiffness_scaled by lra. rewrite ex_stiffness by lia. destruct l as [|[|]]; [| |lia]; cbn [Nat.eqb]; field. }
    unfold ex_slv. rewrite (HA i 0%nat), (HA i 1%nat), (HA 0%nat 0%nat), (HA 1%nat 1%nat) by lia.
    destruct i as [|[|]]; [| |lia]; cbn [Nat.eqb]; field; lra. }
  split; [exact S|]. intros bs. cbn [pb_slvm ex_pb problem_scaled]. induction bs as [|b bs IH]; cbn [map]; constructor; [apply S|exact IH].
Qed.
Lemma Forall2_inv_head {A B} (P : A -> B -> Prop) x y l m : Forall2 P (x :: l) (y :: m) -> P x y.
Proof. now inversion 1. Qed.
Lemma ex_energy E u : strain_energy ex_B 0 E u 0%nat = E 0%nat / 2 * (u 0%nat * u 0%nat + u 1%nat * u 1%nat).
Proof.
  unfold strain_energy, energy_density, stress, delta, lam_of, mu_of, lam_mu, trace, ddot, sym_grad, grad_of, sum, ex_B. cbn. field.
Qed.
(* the sensitivity of its only design element is not zero *)
Lemma ex_sensitivity : exists ev, evaluate ex_pb ex_c ex_v ex_filter [1/2; 1] = Ok (f2 ex_v ex_filter, ev) /\ 0 < Rabs (nth 0 (ev_dC ev) 0).
Proof.
  assert (Hrho : forall e, 0 <= nth e [1/2; 1] 0 <= 1) by (intros [|[|[|e]]]; cbn; lra).
  destruct (evaluate_total ex_pb ex_c ex_v ex_filter [1/2; 1] ex_wp eq_refl (fun e _ => modulus_ok ex_pb ex_c ex_v ex_filter [1/2; 1] ex_wp (fun e => proj1 (Hrho e)) (fun _ e => proj2 (Hrho e)) e)) as (El & Hmod & HE & Hev).
  set (E := fun e => nth e El 0) in *. eexists. split; [exact Hev|]. cbn [ev_dC]. change (i_sens_filter ex_c) with false. cbn iota.
  assert (HE' : forall e, (e < fb_ne (pb_basis ex_pb))%nat -> 0 < E e) by exact HE.
  destruct (usol_spec ex_pb ex_c ex_v ex_filter ex_wp E HE') as (_ & Q).
  change (loads_of ex_pb ex_v) with [fun i => ex_f i * 1] in Q. destruct (usol ex_pb ex_v E) as [|u [|u2 l]] eqn:EU; [inversion Q| |inversion Q as [|? ? ? ? _ Z]; inversion Z].
  assert (Q1 := Forall2_inv_head _ _ _ _ _ Q).
  apply Rabs_pos_lt. unfold dCfull. rewrite nth_map_seq' by (cbn; lia). rewrite EU. cbn [map rsum fold_right]. change (is_design (sf_mask ex_filter) 0) with true. cbn iota.
  assert (Hc : forall x, cvT ex_v ex_filter x 0 = nth 0 x 0).
  { intros x. unfold cvT, conv_T. cbn [ex_filter sf_mask sf_centers].
    change (design_ids (Some [true; false]) (List.length [[0];[1]])) with [0%nat].
    pose proof (entry_sum (kernel KGaussian (v_radius ex_v)) (v_radius ex_v) [[0];[1]] [0%nat] ltac:(intros; apply exp_pos) ltac:(cbn; lra) 0%nat ltac:(now left)) as Z.
    cbn [map rsum fold_right] in *. rewrite Rplus_0_r in Z. rewrite Z. ring. }
  rewrite Hc. unfold gfun, grad_filtered. rewrite nth_map_seq' by (rewrite projected_length; cbn; lia).
  change (i_interp ex_c) with SIMP. cbn [dC_of]. unfold loads_count. change (INR (List.length (pb_loads ex_pb))) with 1.
  assert (Hu : u 0%nat * (E 0%nat + E 1%nat) = 3).
  { destruct Q1 as (_ & A2). pose proof (A2 0%nat ltac:(cbn; lia) ltac:(cbn; intuition discriminate)) as A3. unfold mv, sum in A3. change (fb_n (pb_basis ex_pb)) with 2%nat in A3.
    change (pb_basis ex_pb) with ex_B in A3. change (pb_nu ex_pb) with 0 in A3. cbn [seq map rsum fold_right] in A3. rewrite !ex_stiffness in A3 by lia. cbn in A3. lra. }
  pose proof (HE' 0%nat ltac:(cbn; lia)) as P0. pose proof (HE' 1%nat ltac:(cbn; lia)) as P1.
  assert (Hu0 : u 0%nat <> 0) by (intros Z; rewrite Z in Hu; lra).
  change (pb_basis ex_pb) with ex_B. change (pb_nu ex_pb) with 0. rewrite ex_energy.
  assert (PU : 0 < E 0%nat / 2 * (u 0%nat * u 0%nat + u 1%nat * u 1%nat)) by (pose proof (Rsqr_pos_lt _ Hu0); pose proof (Rle_0_sqr (u 1%nat)); unfold Rsqr in *; nra).
  set (U := E 0%nat / 2 * _) in *.
  assert (PH : 0 < heaviside_projection_derivative (nth 0 (filtered ex_v ex_filter [1/2; 1]) 0) (v_beta ex_v) (c_beta_eta (i_oc ex_c))).
  { apply dH_pos; cbn; lra. }
  assert (PP : 1/1000000 < nth 0 (projected ex_c ex_v ex_filter [1/2; 1]) 0).
  { rewrite projected_eq, nth_map_seq' by (cbn; lia). rewrite ex_filtered. apply ex_H. }
  set (H' := heaviside_projection_derivative _ _ _) in *. set (rp := nth 0 (projected _ _ _ _) 0) in *.
  assert (PD : dC_drho_simp rp U (pb_E0 ex_pb) (Emin_of ex_pb ex_c) (v_p ex_v) < 0).
  { unfold dC_drho_simp, dE_drho_simp. cbn [ex_pb pb_E0 ex_v v_p]. unfold Emin_of. cbn [ex_pb pb_E0 ex_c i_Emin_coeff].
    assert (PE : 0 < Rmax (E_simp rp 1 (1 * (1 / 1000)) 3) tiny) by (eapply Rlt_le_trans; [|apply Rmax_r]; unfold tiny; lra).
    pose proof (exp_pos ((3 - 1) * ln (Rmax rp floor6))) as PW. fold (Rpower (Rmax rp floor6) (3 - 1)) in PW. set (w := Rpower _ _) in *. set (m := Rmax _ tiny) in *.
    apply (Rmult_lt_reg_r m); [exact PE|]. unfold Rdiv. rewrite Rmult_assoc, Rinv_l, Rmult_1_r, Rmult_0_l by lra. pose proof (Rmult_lt_0_compat _ _ PU PW). lra. }
  intros Z. assert (Z' : dC_drho_simp rp U (pb_E0 ex_pb) (Emin_of ex_pb ex_c) (v_p ex_v) * H' = 0) by lra. nra.
Qed.

Definition low_floor (x : R) : icfg := mkICfg (mkOCCfg (1/100) 1 (1/2) (7/10) (13/10) x (1/10000000) 10000000) (1/1000) SIMP false true.
Lemma low_wp x : well_posed ex_pb (low_floor x) ex_v ex_filter.
Proof. destruct ex_wp as [W1 W2 W3 W4 W5 W6 W7 W8 W9 W10 W11 W12 W13]. constructor; assumption. Qed.
Definition exs_s0 := mkIS [1/2; 1] (filter_scaled (1/2) ex_filter) 0 0 None None.
(* the hypotheses of C104_run are met; the sensitivities are multiplied by 4 *)
Example C104_instance : exists x L l l', 0 < x /\ scale_force 2 2 (Cases (pb_loads ex_pb)) = Ok L /\
  run ex_pb (low_floor x) [(1%Z, ex_v)] ex_s0 = Ok l /\
  run_loads (problem_scaled (1/2) ex_pb) L (low_floor x) (schedule_scaled (1/2) [(1%Z, ex_v)]) exs_s0 = Ok l' /\
  map s_rho l' = map s_rho l /\ List.length l = 1%nat /\ sens_factor (1/2) 2 ex_pb = 4.
Proof.
  destruct ex_sensitivity as (ev0 & Hev0 & Hpos). set (x := Rabs (nth 0 (ev_dC ev0) 0)) in *.
  destruct (scale_force 2 2 (Cases (pb_loads ex_pb))) as [L|] eqn:EL; [|discriminate].
  assert (Hk : sens_factor (1/2) 2 ex_pb = 4) by (unfold sens_factor, energy_factor; cbn; field).
  assert (N : pins_known ex_T (low_floor x)) by (left; discriminate).
  assert (HB : built_from ex_T (low_floor x) ex_pb) by exact ex_built.
  assert (HD : forall e, In e (ta_design ex_T) -> (e < List.length (ta_t ex_T))%nat) by (cbn; intros e [<-|[<-|[]]]; lia).
  assert (HO : densities_ok ex_T (low_floor x) (s_rho ex_s0)) by exact ex_densities.
  destruct (C26_run_succeeds ex_T (low_floor x) ex_pb [(1%Z, ex_v)] ex_s0) as (l & El); auto; try (cbn; lra).
  { intros i v [[= <- <-]|[]]. split; [cbn; lra|]. split; [now left|apply low_wp]. }
  assert (Hrel : state_related (1/2) (energy_factor (1/2) 2) (sens_factor (1/2) 2 ex_pb) ex_s0 exs_s0) by (constructor; cbn [ex_s0 exs_s0 s_rho s_change s_kkt s_running s_filter s_eval]; auto; ring).
  assert (Hl : exists s1, l = [s1] /\ s_eval s1 = Some ev0).
  { cbn [run] in El. destruct (iterate ex_pb (low_floor x) ex_v 1 ex_s0) as [s1|] eqn:E1; [|discriminate]. cbn [bind] in El. injection El as <-. exists s1. split; [reflexivity|].
    unfold iterate in E1. change (evaluate ex_pb (low_floor x) ex_v (s_filter ex_s0) (s_rho ex_s0)) with (evaluate ex_pb ex_c ex_v ex_filter [1/2; 1]) in E1. rewrite Hev0 in E1. cbn [bind] in E1. unfold advance in E1.
    destruct (rho_update _ _ _) as [r|]; [|discriminate]. destruct (r_rho r); [|discriminate]. injection E1 as <-. reflexivity. }
  destruct (C104_run (1/2) 2 ex_T (low_floor x) ex_pb L [(1%Z, ex_v)] ex_s0 exs_s0 l) as (l' & El' & HF); auto; try (cbn; lra).
  - intros i v [[= <- <-]|[]]. split; [cbn; lra|apply low_wp].
  - exact exs_solver.
  - cbn; lia.
  - destruct Hl as (s1 & -> & He). constructor; [|constructor]. intros ev Hev. rewrite He in Hev. injection Hev as <-. rewrite Hk.
    unfold above_floor. change (d_design (pb_dom ex_pb)) with [0%nat]. cbn [snd ex_v v_percentile raw_scale gather map np_max fold_left low_floor i_oc c_floor]. fold x. lra.
  - exists x, L, l, l'. split; [exact Hpos|]. split; [reflexivity|]. split; [exact El|]. split; [exact El'|].
    destruct Hl as (s1 & -> & _). inversion HF as [|? s2 ? l2 H1 H2]; subst. inversion H2; subst. cbn [map]. split; [now rewrite (sr_rho _ _ _ _ _ H1)|]. split; [reflexivity|exact Hk].
Qed.
