(* Theorems added after automatic mutation of Run_model, LRun_model, HzRun_model and
   Scale_model: exported schedules, refused settings, scaling a task twice. *)
From Verif Require Sched_model Config_model Driver_model Driver_proofs.
From Verif Require Import Base Material_model OC_model Filter_model Mesh_model Fea_model Iter_model Iter_spec Run_model Run_spec LRun_model HzRun_model Scale_model Scale_proofs Scale_props.
Import Config_model.
Open Scope string_scope.
Open Scope R_scope.
Open Scope list_scope.

(* ---- C96, C99, C103: nothing is iterated unless every schedule has a value in every
   iteration from 1 to max_iters ---- *)
Lemma export_inv l its : export_all l its = Ok tt -> forall s i, In s l -> In i its -> exists x, Sched_model.value s i = Ok x.
Proof.
  assert (G : forall s its, export_one s its = Ok tt -> forall i, In i its -> exists x, Sched_model.value s i = Ok x).
  { clear. intros s. induction its as [|j its IH]; intros H i; [easy|]. cbn [export_one] in H.
    destruct (Sched_model.value s j) as [x|] eqn:E; [|discriminate]. cbn [bind] in H. intros [<-|Hi]; [eauto|now apply IH]. }
  induction l as [|t l IH]; intros H s i; [easy|]. cbn [export_all] in H.
  destruct (export_one t its) as [[]|] eqn:E; [|discriminate]. cbn [bind] in H. intros [<-|Hs] Hi; [now apply (G t its)|now apply IH].
Qed.
Theorem C96_start_needs_all_values : forall c ic pb f restart s n m, oc_initialize c ic pb f restart = Ok (s, n) -> field_int c "max_iters" = Ok m ->
  forall sch i, In sch (rs_sched s) -> (1 <= i <= m)%Z -> exists x, Sched_model.value sch i = Ok x.
Proof.
  intros c ic pb f restart s n m H Hm sch i Hs Hi. unfold oc_initialize in H.
  destruct (init_schedulers c []) as [l|]; [|discriminate]. cbn [bind] in H. rewrite Hm in H. cbn [bind] in H.
  destruct (export_all l _) as [[]|] eqn:E; [|discriminate]. cbn [bind] in H.
  destruct (initial_fraction c) as [v0|]; [|discriminate]. cbn [bind] in H. destruct (initialize_density _ _ _ _) as [rho|]; [|discriminate]. cbn [bind] in H.
  destruct (initial_radius c) as [r|]; [|discriminate]. cbn [bind] in H. injection H as <- _. cbn [rs_sched] in Hs.
  apply (export_inv _ _ E sch i Hs). apply Driver_proofs.in_zrange. lia.
Qed.
Print Assumptions C96_start_needs_all_values.
Theorem C99_start_needs_all_values : forall (S : Type) (start : list R -> sfilter -> S) c ic pb f restart s n m,
  cfg_initialize start c ic pb f restart = Ok (s, n) -> field_int c "max_iters" = Ok m ->
  forall sch i, In sch (cs_sched s) -> (1 <= i <= m)%Z -> exists x, Sched_model.value sch i = Ok x.
Proof.
  intros S start c ic pb f restart s n m H Hm sch i Hs Hi. unfold cfg_initialize in H.
  destruct (init_schedulers c []) as [l|]; [|discriminate]. cbn [bind] in H. rewrite Hm in H. cbn [bind] in H.
  destruct (export_all l _) as [[]|] eqn:E; [|discriminate]. cbn [bind] in H.
  destruct (initial_fraction c) as [v0|]; [|discriminate]. cbn [bind] in H. destruct (initialize_density _ _ _ _) as [rho|]; [|discriminate]. cbn [bind] in H.
  destruct (initial_radius c) as [r|]; [|discriminate]. cbn [bind] in H. injection H as <- _. cbn [cs_sched] in Hs.
  apply (export_inv _ _ E sch i Hs). apply Driver_proofs.in_zrange. lia.
Qed.
Print Assumptions C99_start_needs_all_values.

(* ---- C96: an interpolation that is neither SIMP nor RAMP ---- *)
Theorem C96_unknown_interpolation_refused : forall c pb f restart cs ll lu s, field_real c "lambda_lower" = Ok ll -> field_real c "lambda_upper" = Ok lu -> ll < lu ->
  field_bool c "scaling" = Ok false -> fget c "interpolation" = Some (FPlain (PStr s)) -> s <> "SIMP"%string -> s <> "RAMP"%string ->
  oc_run c pb f restart cs = Err ValueError.
Proof.
  intros c pb f restart cs ll lu s H1 H2 Hl H3 H4 N1 N2. unfold oc_run, oc_new. rewrite H1. cbn [bind]. rewrite H2. cbn [bind].
  replace (Rltb ll lu) with true by (symmetry; now apply Rltb_true). cbn [negb]. rewrite H3. cbn [bind]. unfold field_interp. rewrite H4.
  apply String.eqb_neq in N1, N2. now rewrite N1, N2.
Qed.
Print Assumptions C96_unknown_interpolation_refused.

(* ---- C103: a filter type that is not a string at all ---- *)
Theorem C103_filter_type_no_string_refused : forall c t f restart cs dc ic x, oc_new c = Ok (dc, ic) ->
  fget c "filter_type" = Some x -> (forall s, x <> FPlain (PStr s)) -> hz_oc_run c t f restart cs = Err ValueError.
Proof.
  intros c t f restart cs dc ic x Hn Hx Hs. unfold hz_oc_run. rewrite Hn. cbn [bind]. unfold parameterize. rewrite Hx.
  destruct x as [[]| |]; try reflexivity. now destruct (Hs s).
Qed.
Print Assumptions C103_filter_type_no_string_refused.

(* ---- C104: scaling the same task again ---- *)
Lemma stretch_twice s s' p : stretch s' (stretch s p) = stretch (s * s') p.
Proof. unfold stretch. rewrite map_map. apply map_ext. intros x. rewrite map_map. apply map_ext. intros y. ring. Qed.
Lemma times_twice F F' f : times F' (times F f) = times (F * F') f.
Proof. apply FunctionalExtensionality.functional_extensionality. intros i. unfold times. ring. Qed.
(* a second scaling multiplies the factors, whether the task has one load or several; only
   tasks with one degree of freedom are refused the second time *)
Theorem C104_scaled_again : forall n s F s' F' t L, st_loads t = Some L -> n <> 1%nat ->
  exists L1 L2, task_scale n s F t = (mkSTask (stretch s (st_points t)) (Some L1), None) /\
    task_scale n s' F' (mkSTask (stretch s (st_points t)) (Some L1)) = (mkSTask (stretch (s * s') (st_points t)) (Some L2), None) /\
    force_list L1 = map (times F) (force_list L) /\ force_list L2 = map (times (F * F')) (force_list L).
Proof.
  intros n s F s' F' [p Lo] L HL Hn. cbn [st_loads st_points] in *. subst Lo. apply Nat.eqb_neq in Hn.
  unfold task_scale. cbn [st_loads st_points]. rewrite stretch_twice.
  destruct L as [fs|f]; [destruct fs as [|f [|g fs]]|]; cbn [scale_force]; rewrite ?Hn.
  - exists (Cases []), (Cases []). repeat split.
  - eexists (Bare (times F f)), (Bare (times (F * F') f)). cbn [scale_force]. rewrite Hn, times_twice. repeat split.
  - eexists (Cases (map (times F) (f :: g :: fs))), (Cases (map (times (F * F')) (f :: g :: fs))). cbn [map scale_force force_list].
    rewrite !times_twice. split; [reflexivity|]. split; [|split; reflexivity].
    rewrite map_map, (map_ext (fun x => times F' (times F x)) (times (F * F'))) by (intros h; apply times_twice). reflexivity.
  - eexists (Bare (times F f)), (Bare (times (F * F') f)). cbn [scale_force]. rewrite Hn, times_twice. repeat split.
Qed.
Print Assumptions C104_scaled_again.
(* with one degree of freedom the array of the single load has a number as first entry *)
Theorem C104_one_dof_refused_again : forall s F s' F' p f, 
  snd (task_scale 1 s' F' (fst (task_scale 1 s F (mkSTask p (Some (Cases [f])))))) = Some ValueError.
Proof. reflexivity. Qed.
(* unscale() undoes scale(): same points, same loads *)
Theorem C104_unscale_restores : forall n t L, st_loads t = Some L -> n <> 1%nat -> length_scale (st_points t) <> 0 ->
  exists L1 L2, optimizer_scale n t = (mkSTask (stretch (1 / length_scale (st_points t)) (st_points t)) (Some L1), None) /\
    task_scale n (length_scale (st_points t)) 100000 (fst (optimizer_scale n t)) = (mkSTask (st_points t) (Some L2), None) /\ force_list L2 = force_list L.
Proof.
  intros n t L HL Hn H0. destruct (C104_scaled_again n (1 / length_scale (st_points t)) (1 / 100000) (length_scale (st_points t)) 100000 t L HL Hn) as (L1 & L2 & E1 & E2 & _ & E4).
  exists L1, L2. unfold optimizer_scale. rewrite E1. cbn [fst]. split; [reflexivity|].
  replace (1 / length_scale (st_points t) * length_scale (st_points t)) with 1 in E2 by (field; exact H0).
  replace (stretch 1 (st_points t)) with (st_points t) in E2.
  2:{ unfold stretch. rewrite <- (map_id (st_points t)) at 1. apply map_ext. intros x. rewrite <- (map_id x) at 1. apply map_ext. intros y. ring. }
  split; [exact E2|]. rewrite E4. rewrite <- (map_id (force_list L)) at 2. apply map_ext. intros f. apply FunctionalExtensionality.functional_extensionality. intros i. unfold times. field.
Qed.
Print Assumptions C104_unscale_restores.
(* refuted: a second optimizer with scaling=True on the same task, created before the
   first one has finished (its last iteration unscales), has the loads divided by 10^5
   twice, while its mesh stays as the first one left it *)
Theorem C104_second_optimizer_refuted : forall n t L, st_loads t = Some L -> n <> 1%nat -> 0 < length_scale (st_points t) ->
  let t1 := fst (optimizer_scale n t) in
  exists L2, optimizer_scale n t1 = (mkSTask (st_points t1) (Some L2), None) /\ force_list L2 = map (fun f i => f i / 10000000000) (force_list L).
Proof.
  intros n t L HL Hn Hpos t1. set (p := st_points t) in *.
  destruct (C104_scaled_again n (1 / length_scale p) (1 / 100000) 1 (1 / 100000) t L HL Hn) as (L1 & L2 & E1 & E2 & _ & E4). fold p in E1, E2.
  assert (Et : t1 = mkSTask (stretch (1 / length_scale p) p) (Some L1)) by (unfold t1, optimizer_scale; fold p; now rewrite E1).
  exists L2. rewrite Et. cbn [st_points]. unfold optimizer_scale. cbn [st_points].
  rewrite length_scale_scaled by (left; apply Rdiv_lt_0_compat; lra).
  replace (1 / (1 / length_scale p * length_scale p)) with 1 by (field; lra). rewrite E2. rewrite Rmult_1_r. split; [reflexivity|].
  rewrite E4. apply map_ext. intros f. apply FunctionalExtensionality.functional_extensionality. intros i. unfold times. field.
Qed.
Print Assumptions C104_second_optimizer_refuted.

(* ---- an instance: two points, one load ---- *)
Theorem C104_scaled_twice_instance : let t := mkSTask [[0; 0; 0]; [2; 0; 0]] (Some (Cases [fun _ => 3])) in
  0 < length_scale (st_points t) /\ exists L2, snd (optimizer_scale 2 (fst (optimizer_scale 2 t))) = None /\
    st_loads (fst (optimizer_scale 2 (fst (optimizer_scale 2 t)))) = Some L2 /\ force_list L2 = [fun _ => 3 / 10000000000].
Proof.
  intros t. assert (Hpos : 0 < length_scale (st_points t)).
  { destruct (length_scale_spec (st_points t)) as (_ & U); [discriminate|]. pose proof (U 0%nat [2; 0; 0] [0; 0; 0] ltac:(lia) ltac:(cbn; tauto) ltac:(cbn; tauto)) as Q. cbn [nth] in Q. lra. }
  split; [exact Hpos|]. destruct (C104_second_optimizer_refuted 2 t _ eq_refl ltac:(lia) Hpos) as (L2 & E & Q). exists L2. rewrite E. repeat split. exact Q.
Qed.
Print Assumptions C104_scaled_twice_instance.

(* ---- instances of the refused settings: the default configuration with one field changed ---- *)
Theorem C96_refused_settings_instance : forall pb f restart cs,
  oc_run (with_field oc_defaults "interpolation" (FPlain (PStr "LINEAR"))) pb f restart cs = Err ValueError.
Proof.
  intros. apply C96_unknown_interpolation_refused with (ll := 1 / 10000000) (lu := 10000000) (s := "LINEAR"); try reflexivity; try discriminate; lra.
Qed.
Theorem C103_refused_settings_instance : forall t f restart cs,
  hz_oc_run (with_field oc_defaults "filter_type" (FPlain (PInt 1))) t f restart cs = Err ValueError.
Proof.
  intros. assert (H : exists x, oc_new (with_field oc_defaults "filter_type" (FPlain (PInt 1))) = Ok x).
  { unfold oc_new, field_real, field_bool, field_int, field_interp, oc_defaults. cbn -[fsched Rltb].
    match goal with |- context [Rltb ?a ?b] => replace (Rltb a b) with true by (symmetry; apply Rltb_true; lra) end. cbn -[fsched]. eexists. reflexivity. }
  destruct H as ([dc ic] & H). eapply C103_filter_type_no_string_refused; [exact H|reflexivity|discriminate].
Qed.
