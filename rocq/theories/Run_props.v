(* C96: whole runs from a configuration object. *)
From Verif Require Import Base Sched_spec OC_model OC_spec Filter_model Mesh_model Fea_model Iter_model Iter_spec Iter_proofs Iter_props Vol_props Run_model Run_spec Run_proofs.
From Verif Require Sched_model Sched_proofs Sched_proofs2 Sched_proofs3 Sched_props Config_model Driver_model Driver_spec Driver_proofs Driver_proofs2 Driver_props.
Import Config_model.
Open Scope string_scope.
Open Scope R_scope.
Open Scope list_scope.

Lemma ok_inj {A} (x y : A) : Ok x = Ok y -> x = y.
Proof. congruence. Qed.
Lemma oc_new_max c dc ic : oc_new c = Ok (dc, ic) -> field_int c "max_iters" = Ok (Driver_model.max_iters dc).
Proof.
  unfold oc_new. intros H.
  repeat match type of H with
  | bind ?x _ = _ => let E := fresh "E" in destruct x eqn:E; [|discriminate H]; cbn [bind] in H
  | (if ?b then _ else _) = _ => destruct b; [discriminate H|] end.
  injection H as <- <-. reflexivity.
Qed.

Lemma oc_new_lambda c dc ic : oc_new c = Ok (dc, ic) -> c_lambda_lower (i_oc ic) < c_lambda_upper (i_oc ic).
Proof.
  intros Hn. unfold oc_new in Hn.
    destruct (field_real c "lambda_lower") as [ll|]; [|discriminate]. destruct (field_real c "lambda_upper") as [lu|]; [|discriminate].
    cbn [bind] in Hn. destruct (Rltb ll lu) eqn:E; [|discriminate]. cbn [negb] in Hn. apply Rltb_true in E.
    repeat match type of Hn with
    | bind ?x _ = _ => destruct x; [|discriminate Hn]; cbn [bind] in Hn
    | (if ?b then _ else _) = _ => destruct b; [discriminate Hn|] end.
    injection Hn as _ <-. exact E.
Qed.
(* A configuration whose multiplier bounds are not in order makes no optimizer. *)
Theorem C96_bracket_order_checked : forall c pb f restart cs ll lu,
  field_real c "lambda_lower" = Ok ll -> field_real c "lambda_upper" = Ok lu -> lu <= ll ->
  oc_run c pb f restart cs = Err AssertionError.
Proof.
  intros c pb f restart cs ll lu E1 E2 H. unfold oc_run, oc_new. rewrite E1, E2. cbn [bind].
  destruct (Rltb ll lu) eqn:E; [apply Rltb_true in E; lra|]. reflexivity.
Qed.
Print Assumptions C96_bracket_order_checked.
Lemma exists_last' {A} (l : list A) : l = [] \/ exists l' x, l = l' ++ [x].
Proof. induction l as [|x l IH] using rev_ind; eauto. Qed.
Lemma last_last' {A} (l : list A) x d : last (l ++ [x]) d = x.
Proof. induction l as [|y l IH]; [reflexivity|]. cbn [app last]. destruct (l ++ [x]) eqn:E; [destruct l; discriminate|]. exact IH. Qed.

(* Whatever sequence of optimize() and optimize_steps(n) calls is made and wherever
   the run started, the iterations are numbered consecutively and each one used
   exactly the values its schedules prescribe for its number -- the filter radius
   included. *)
Theorem C96_values_as_configured : forall c pb f restart cs o rs dc ic,
  oc_new c = Ok (dc, ic) -> oc_run c pb f restart cs = Ok (o, rs) -> Forall (eq None) rs ->
  let begin := match restart with Some (j, _) => (j + 1)%Z | None => 1%Z end in
  forall pre i s post, Driver_model.o_trace o = pre ++ (i, s) :: post ->
  i = (begin + Z.of_nat (List.length pre))%Z /\ (i <= Driver_model.max_iters dc)%Z /\
  exists s0 v, oc_initialize c ic pb f restart = Ok (s0, begin) /\
    in_force c (Driver_model.max_iters dc) i v /\
    iterate pb ic v i (rs_it (Driver_spec.final_state s0 pre)) = Ok (rs_it s) /\
    sf_radius (s_filter (rs_it s)) = v_radius v.
Proof.
  intros c pb f restart cs o rs dc ic Hn Hrun Hok begin pre i s post Htr.
  unfold oc_run in Hrun. rewrite Hn in Hrun. cbn [bind] in Hrun. injection Hrun as Hrun.
  destruct (oc_initialize c ic pb f restart) as [[s0 b]|e] eqn:Ei.
  2:{ exfalso. assert (Ht : Driver_model.o_trace o = []).
      { assert (G : forall cs (o o' : @Driver_model.opt rstate) rs, Driver_model.o_state o = None -> Driver_model.o_trace o = [] ->
          Driver_model.exec_all (oc_body pb ic) (fun s => s_change (rs_it s)) oc_kkt (Err e) dc cs o = (o', rs) ->
          Driver_model.o_trace o' = []).
        { clear. induction cs as [|k cs IH]; intros o o' rs Hs Ht H; cbn [Driver_model.exec_all] in H; [injection H as <- <-; exact Ht|].
          destruct (Driver_model.exec _ _ _ _ _ k o) as [o1 r1] eqn:E1.
          destruct (Driver_model.exec_all _ _ _ _ _ cs o1) as [o2 rs2] eqn:E2. injection H as <- <-.
          assert (Ho : o1 = o).
          { assert (Q : forall n, fst (Driver_model.optimize_impl (oc_body pb ic) (fun s => s_change (rs_it s)) oc_kkt (Err e) dc n o) = o).
            { intros n. unfold Driver_model.optimize_impl, Driver_model.ensure_initialized.
              destruct (Driver_model.o_completed o); [reflexivity|]. rewrite Hs. reflexivity. }
            destruct k as [n|]; unfold Driver_model.exec, Driver_model.optimize_steps, Driver_model.optimize in E1.
            - destruct (n <=? 0)%Z; [now injection E1 as <- <-|]. specialize (Q (Some n)). now rewrite E1 in Q.
            - specialize (Q None). now rewrite E1 in Q. }
          subst o1. eapply IH; eauto. }
        eapply G; [| |exact Hrun]; reflexivity. }
      rewrite Ht in Htr. destruct pre; discriminate. }
  assert (Hb : b = begin).
  { unfold oc_initialize in Ei.
    repeat match type of Ei with bind ?x _ = _ => destruct x; [|discriminate Ei]; cbn [bind] in Ei end.
    injection Ei as _ <-. reflexivity. }
  assert (Hs0 : exists l, init_schedulers c [] = Ok l /\ rs_sched s0 = l).
  { unfold oc_initialize in Ei. destruct (init_schedulers c []) as [l|]; [|discriminate]. cbn [bind] in Ei.
    repeat match type of Ei with bind ?x _ = _ => destruct x; [|discriminate Ei]; cbn [bind] in Ei end.
    injection Ei as <- _. exists l. split; reflexivity. }
  destruct (Driver_props.C28_iterations_once_in_order _ _ _ _ _ _ _ _ _ _ _ Hrun Hok) as (Hch & _ & Hmax & _).
  rewrite Htr in Hch, Hmax. destruct (chain_app _ pre s0 b i s post Hch) as (Hi & Hbody).
  rewrite Forall_forall in Hmax.
  split; [now rewrite <- Hb|]. split; [apply Hmax; rewrite map_app; apply in_or_app; right; now left|].
  apply body_inv in Hbody. destruct Hbody as (_ & v & Hv & Hit).
  assert (Hcp : Driver_spec.chain (oc_body pb ic) s0 b pre).
  { apply (Driver_proofs.chain_app _ pre ((i, s) :: post)) in Hch. exact (proj1 Hch). }
  rewrite (final_sched pb ic pre s0 b Hcp) in Hv. destruct Hs0 as (l & Hl & Hsl). rewrite Hsl in Hv.
  exists s0, v. split; [now rewrite <- Hb|]. split; [|split; [exact Hit|now apply iterate_radius in Hit]].
  eapply values_in_force; eauto. now apply oc_new_max in Hn.
Qed.
Print Assumptions C96_values_as_configured.

(* The last of max_iters iterations runs with every schedule at its target: the
   result belongs to the parameters asked for. *)
Theorem C96_last_iteration_at_targets : forall c T i v, in_force c T i v -> (T <= i)%Z ->
  target_is c "p" (Some (v_p v)) /\ target_is c "vol_frac" (Some (v_vol_frac v)) /\
  target_is c "beta" (Some (v_beta v)) /\ target_is c "move_limit" (Some (v_move v)) /\
  target_is c "percentile" (v_percentile v) /\ target_is c "filter_radius" (Some (v_radius v)) /\
  target_is c "neumann_scale" (Some (v_scale v)) /\
  (target_is c "eta" (Some (v_eta v)) \/ fget c "eta" = Some (FPlain (PFloat (v_eta v)))).
Proof.
  intros c T i v (H1 & H2 & H3 & H4 & H5 & H6 & H7 & H8) Hi.
  assert (G : forall k x, prescribed c k T i x -> target_is c k x).
  { intros k x (cf & cf' & s & Hf & Hs & Hv). exists cf. split; [exact Hf|].
    assert (Ev : Sched_model.value (Sched_model.set_iters T s) i = Ok (Sched_model.s_target s)).
    { unfold Sched_model.value, Sched_model.set_iters. cbn [Sched_model.s_target Sched_model.s_num Sched_model.s_iters].
      destruct (Sched_model.s_target s); [|reflexivity]. destruct (Sched_model.s_num s) as [n|]; [|reflexivity].
      destruct (n <? 0)%Z; [reflexivity|]. destruct (Z.leb_spec T i); [reflexivity|lia]. }
    assert (Et : Sched_model.s_target s = x) by congruence. rewrite <- Et. clear - Hs.
    destruct cf as [nm a b n m cv ty]. unfold Sched_model.from_config in Hs. cbn [Sched_model.c_type Sched_model.c_target] in *.
    unfold effective_target, one_of, to_one_types. cbn [existsb].
    destruct (String.eqb ty "Constant") eqn:E0; [apply String.eqb_eq in E0; subst ty; injection Hs as <- <-; reflexivity|].
    destruct (String.eqb ty "ConstantOne") eqn:E1; [injection Hs as <- <-; reflexivity|].
    destruct (String.eqb ty "Step") eqn:E2; [apply String.eqb_eq in E2; subst ty; injection Hs as <- <-; reflexivity|].
    destruct (String.eqb ty "StepToOne") eqn:E3; [injection Hs as <- <-; reflexivity|].
    destruct (String.eqb ty "StepAcceleratingToOne") eqn:E4; [injection Hs as <- <-; reflexivity|].
    destruct (String.eqb ty "StepAccelerating") eqn:E5; [apply String.eqb_eq in E5; subst ty; injection Hs as <- <-; reflexivity|].
    destruct (String.eqb ty "StepDecelerating") eqn:E6; [apply String.eqb_eq in E6; subst ty; injection Hs as <- <-; reflexivity|].
    destruct (String.eqb ty "StepDeceleratingToOne") eqn:E7; [injection Hs as <- <-; reflexivity|].
    cbn [orb]. destruct (String.eqb ty "SawtoothDecay"); [injection Hs as <- <-; reflexivity|].
    destruct (String.eqb ty "None"); [injection Hs as <- <-; reflexivity|discriminate]. }
  repeat (split; [solve [apply G; assumption]|]). destruct H6 as [H6|H6]; [left; now apply G|now right].
Qed.
Print Assumptions C96_last_iteration_at_targets.

(* Every setting of the optimizer is read from the field of its own name. *)
Theorem C96_settings_from_fields : forall c dc ic, oc_new c = Ok (dc, ic) ->
  field_int c "max_iters" = Ok (Driver_model.max_iters dc) /\ field_int c "record_times" = Ok (Driver_model.record_times dc) /\
  field_bool c "check_convergence" = Ok (Driver_model.check_convergence dc) /\
  field_real c "tol_rho_change" = Ok (Driver_model.tol_rho_change dc) /\ field_real c "tol_kkt_residual" = Ok (Driver_model.tol_kkt_residual dc) /\
  field_interp c = Ok (i_interp ic) /\ field_real c "E_min_coeff" = Ok (i_Emin_coeff ic) /\
  field_bool c "sensitivity_filter" = Ok (i_sens_filter ic) /\ field_bool c "design_dirichlet" = Ok (i_design_dirichlet ic) /\
  let u := i_oc ic in
  field_real c "rho_min" = Ok (c_rho_min u) /\ field_real c "rho_max" = Ok (c_rho_max u) /\ field_real c "beta_eta" = Ok (c_beta_eta u) /\
  field_real c "scaling_rate_min" = Ok (c_smin u) /\ field_real c "scaling_rate_max" = Ok (c_smax u) /\
  field_real c "sensitivity_scale_floor" = Ok (c_floor u) /\
  field_real c "lambda_lower" = Ok (c_lambda_lower u) /\ field_real c "lambda_upper" = Ok (c_lambda_upper u).
Proof.
  unfold oc_new. intros c dc ic H.
  repeat match type of H with
  | bind ?x _ = _ => let E := fresh "E" in destruct x eqn:E; [|discriminate H]; cbn [bind] in H
  | (if ?b then _ else _) = _ => destruct b; [discriminate H|] end.
  injection H as <- <-. cbn. repeat (split; [reflexivity|]). reflexivity.
Qed.
Print Assumptions C96_settings_from_fields.

(* With optimize() last, a run that raised nothing ended at its first iteration meeting
   both criteria, which is also on disk, or met them nowhere and went to max_iters. *)
Theorem C96_stops_when_converged : forall c pb f restart cs o rs cc tr tk m,
  oc_run c pb f restart (cs ++ [Driver_model.COptimize]) = Ok (o, rs) -> Forall (eq None) rs ->
  field_bool c "check_convergence" = Ok cc -> field_real c "tol_rho_change" = Ok tr -> field_real c "tol_kkt_residual" = Ok tk ->
  field_int c "max_iters" = Ok m ->
  let meets s := cc = true /\ s_change (rs_it s) < tr /\ forall k, s_kkt (rs_it s) = Some k -> Rabs k < tk in
  (exists pre i s, Driver_model.o_trace o = pre ++ [(i, s)] /\ meets s /\ Forall (fun e => ~ meets (snd e)) pre /\ In (i, s) (Driver_model.o_disk o)) \/
  (Forall (fun e => ~ meets (snd e)) (Driver_model.o_trace o) /\
   map fst (Driver_model.o_trace o) = Driver_model.zrange (match restart with Some (j, _) => (j + 1)%Z | None => 1%Z end) (m + 1)).
Proof.
  intros c pb f restart cs o rs cc tr tk m Hrun Hok Hcc Htr Htk Hm meets.
  unfold oc_run in Hrun. destruct (oc_new c) as [[dc ic]|] eqn:Hn; [|discriminate]. cbn [bind] in Hrun. apply ok_inj in Hrun.
  destruct (C96_settings_from_fields c dc ic Hn) as (F1 & _ & F2 & F3 & F4 & _). rewrite Hm in F1. rewrite Hcc in F2. rewrite Htr in F3. rewrite Htk in F4.
  injection F1 as ->. injection F2 as ->. injection F3 as ->. injection F4 as ->.
  destruct (oc_initialize c ic pb f restart) as [[s0 b]|e] eqn:Ei.
  2:{ exfalso. eapply failed_init_raises; [| |exact Hrun|exact Hok]; reflexivity. }
  assert (Hb : b = match restart with Some (j, _) => (j + 1)%Z | None => 1%Z end).
  { unfold oc_initialize in Ei. repeat match type of Ei with bind ?x _ = _ => destruct x; [|discriminate Ei]; cbn [bind] in Ei end. now injection Ei as _ <-. }
  assert (Eq : forall s, Driver_spec.meets_criteria (fun s => s_change (rs_it s)) oc_kkt dc s <-> meets s).
  { intros s. unfold Driver_spec.meets_criteria, meets, oc_kkt. destruct (s_kkt (rs_it s)) as [k|]; [|intuition discriminate].
    split; intros (H1 & H2 & H3); (split; [exact H1|]; split; [exact H2|]); [intros k' [= <-]; exact H3|exact (H3 k eq_refl)]. }
  assert (Fa : forall l : list (Z * rstate), Forall (fun e => ~ Driver_spec.meets_criteria (fun s => s_change (rs_it s)) oc_kkt dc (snd e)) l -> Forall (fun e => ~ meets (snd e)) l).
  { intros l. apply Forall_impl. intros e. rewrite Eq. tauto. }
  destruct (Driver_props.C29_stops_at_first_converged_iteration _ _ _ _ _ _ _ _ _ _ _ Hrun Hok) as [(pre & i & s & T1 & _ & T2 & T3 & T4)|(T1 & T2)].
  - left. exists pre, i, s. split; [exact T1|]. split; [now apply Eq|]. split; [now apply Fa|exact T4].
  - right. split; [now apply Fa|]. now rewrite <- Hb.
Qed.
Print Assumptions C96_stops_when_converged.

(* ---------- runs that cannot fail ---------- *)
Lemma goes_value a b cf : goes a b cf -> exists cf' s, Sched_model.from_config cf = Ok (cf', s) /\
  (forall T i, (0 < T)%Z -> (0 <= i)%Z ->
     exists v, Sched_model.value (Sched_model.set_iters T s) i = Ok (Some v) /\ between a b v) /\
  exists x, (match Sched_model.c_num cf' with Some _ => Sched_model.c_init cf' | None => Sched_model.c_target cf' end) = Some x /\
  x = a /\
  exists y, (match Sched_model.c_init cf' with Some r => Some r | None => Sched_model.c_target cf' end) = Some y /\ y = a.
Proof.
  assert (B1 : forall x, between x x x) by (intros; unfold between; rewrite Rmin_left, Rmax_left by lra; lra).
  intros H. destruct H as [nm i n m cv E|nm i m cv E Hi|nm i t n m cv E1 E2|nm n m cv|nm n m cv Hn|nm n m cv ty Hty Hc|nm i t n m cv ty Hty Hn E1 E2 Hc].
  - subst a. do 2 eexists. split; [reflexivity|]. split; [intros; exists b; split; [reflexivity|apply B1]|].
    exists b. split; [reflexivity|]. split; [reflexivity|]. exists b. split; reflexivity.
  - subst a. do 2 eexists. split; [reflexivity|]. split; [intros; exists b; split; [reflexivity|apply B1]|].
    exists b. split; [reflexivity|]. split; [reflexivity|]. exists b. split; [destruct Hi as [-> | ->]; reflexivity|reflexivity].
  - subst a b. do 2 eexists. split; [reflexivity|]. split; [intros; exists 1; split; [reflexivity|apply B1]|].
    exists 1. split; [reflexivity|]. split; [reflexivity|]. exists 1. split; reflexivity.
  - do 2 eexists. split; [reflexivity|]. split; [|exists a; split; [reflexivity|]; split; [reflexivity|]; exists a; split; reflexivity].
    intros T i HT Hi. exact (Sched_proofs2.step_value_between Sched_model.FStep nm i T a b n 1 cv (or_introl eq_refl) Hi Rlt_0_1 (or_introl eq_refl)).
  - do 2 eexists. split; [reflexivity|]. split; [|exists a; split; [reflexivity|]; split; [reflexivity|]; exists a; split; reflexivity].
    intros T i HT Hi. destruct (Sched_proofs2.saw_value_between nm i T a b n Hn HT) as (v & V1 & V2). exists v. split; [exact V1|exact V2].
  - assert (Hf : exists fn, Sched_model.from_config (Sched_model.mkConfig nm (Some a) (Some b) (Some n) m (Some cv) ty) =
        Ok (Sched_model.mkConfig nm (Some a) (Some b) (Some n) m (Some cv) ty,
            Sched_model.mkScheduler nm (Some a) (Some b) (Some n) m (Some cv) (Some fn)) /\ (fn = Sched_model.FAccel \/ fn = Sched_model.FDecel)).
    { destruct Hty as [<-|[<-|[]]]; eexists; (split; [reflexivity|]); auto. }
    destruct Hf as (fn & Hf & Hfn). do 2 eexists. split; [exact Hf|]. split; [|exists a; split; [reflexivity|]; split; [reflexivity|]; exists a; split; reflexivity].
    intros T i HT Hi. refine (Sched_proofs2.step_value_between fn nm i T a b n cv (Some cv) _ Hi Hc (or_intror eq_refl)).
    destruct Hfn as [-> | ->]; unfold Sched_proofs.is_step; auto.
  - subst a b. assert (Hnz : (n =? 0)%Z = false) by (apply Z.eqb_neq; lia).
    assert (Hf : exists fn, Sched_model.from_config (Sched_model.mkConfig nm i t (Some n) m cv ty) =
        Ok (Sched_model.mkConfig nm (Some (1 / IZR n)) (Some 1) (Some n) m cv ty,
            Sched_model.mkScheduler nm (Some (1 / IZR n)) (Some 1) (Some n) m cv (Some fn)) /\
        Sched_proofs.is_step fn /\ (fn = Sched_model.FStep \/ exists x, cv = Some x /\ 0 < x)).
    { destruct Hty as [<-|[<-|[<-|[]]]]; unfold Sched_model.from_config; cbn [Sched_model.c_type String.eqb Ascii.eqb Bool.eqb];
        unfold Sched_model.to_one_cfg, Sched_model.with_values; cbn [Sched_model.c_num Sched_model.c_name Sched_model.c_iters Sched_model.c_curv Sched_model.c_type Sched_model.c_init Sched_model.c_target];
        rewrite Hnz; eexists; (split; [reflexivity|]); unfold Sched_proofs.is_step; (split; [auto|]); auto; right; apply Hc; discriminate. }
    destruct Hf as (fn & Hf & Hst & Hcv). do 2 eexists. split; [exact Hf|].
    split; [|exists (1 / IZR n); split; [reflexivity|]; split; [reflexivity|]; exists (1 / IZR n); split; reflexivity].
    intros T j HT Hj. destruct Hcv as [-> | (x & -> & Hx)].
    + exact (Sched_proofs2.step_value_between Sched_model.FStep nm j T (1 / IZR n) 1 n 1 cv (or_introl eq_refl) Hj Rlt_0_1 (or_introl eq_refl)).
    + exact (Sched_proofs2.step_value_between fn nm j T (1 / IZR n) 1 n x (Some x) Hst Hj Hx (or_intror eq_refl)).
Qed.

(* between two values with a lower bound *)
Lemma between_lt a b x l : between a b x -> l < a -> l < b -> l < x.
Proof. unfold between. intros (H & _) Ha Hb. pose proof (Rmin_glb_lt a b l Ha Hb). lra. Qed.
Lemma between_le a b x l : between a b x -> l <= a -> l <= b -> l <= x.
Proof. unfold between. intros (H & _) Ha Hb. pose proof (Rmin_glb a b l Ha Hb). lra. Qed.

(* what the eight schedules of a sane configuration give at every iteration *)
Definition good_values (v : ivals) : Prop := 0 < v_p v /\ 0 < v_beta v /\ 0 <= v_move v /\ 0 < v_radius v.

Lemma good_schedulers c m : field_int c "max_iters" = Ok m -> (0 < m)%Z -> schedules_ok c ->
  exists l, init_schedulers c [] = Ok l /\
    (forall i, (0 <= i)%Z -> exists v, values_at l i = Ok v /\ good_values v) /\
    (forall s i, In s l -> (0 <= i)%Z -> exists x, Sched_model.value s i = Ok x) /\
    (exists v0, initial_fraction c = Ok v0) /\ (exists r, initial_radius c = Ok r /\ 0 < r).
Proof.
  intros Hm Hm1 S.
  assert (Hmo : max_iters_of c = Ok m).
  { unfold field_int in Hm. unfold max_iters_of. destruct (fget c "max_iters") as [[[| | | | |]| |]|]; congruence. }
  (* each field: scheduler and its values *)
  assert (G : forall k (P : R -> Prop), (forall x y z, P x -> P y -> between x y z -> P z) -> ranges c k P ->
    exists cf cf' s, fget c k = Some (FSched cf) /\ Sched_model.from_config cf = Ok (cf', s) /\
      (forall i, (0 <= i)%Z -> exists x, Sched_model.value (Sched_model.set_iters m s) i = Ok (Some x) /\ P x) /\
      (exists x, (match Sched_model.c_num cf' with Some _ => Sched_model.c_init cf' | None => Sched_model.c_target cf' end) = Some x /\ P x) /\
      exists y, (match Sched_model.c_init cf' with Some r => Some r | None => Sched_model.c_target cf' end) = Some y /\ P y).
  { intros k P HP (cf & a & b & Hf & Hg & Pa & Pb). destruct (goes_value a b cf Hg) as (cf' & s & Hs & Hv & x & Hx & Hxx & y & Hy).
    exists cf, cf', s. split; [exact Hf|]. split; [exact Hs|]. split; [|split; [exists x; split; [exact Hx|subst x; assumption]|destruct Hy as (Hy & ->); exists a; split; [exact Hy|assumption]]].
    intros i Hi. destruct (Hv m i Hm1 Hi) as (z & Hz & Hb). exists z. split; [exact Hz|]. now apply (HP a b). }
  assert (Pos : forall x y z : R, 0 < x -> 0 < y -> between x y z -> 0 < z) by (intros; eapply between_lt; eauto).
  assert (Nn : forall x y z : R, 0 <= x -> 0 <= y -> between x y z -> 0 <= z) by (intros; eapply between_le; eauto).
  assert (Tr : forall x y z : R, True -> True -> between x y z -> True) by auto.
  destruct (G _ _ Pos (sn_p _ S)) as (cp & cp' & sp & Fp & Sp & Vp & _).
  destruct (G _ _ Tr (sn_vol _ S)) as (cv & cv' & sv & Fv & Sv & Vv & _ & yv & Yv).
  destruct (G _ _ Pos (sn_beta _ S)) as (cb & cb' & sb & Fb & Sb & Vb & _).
  destruct (G _ _ Nn (sn_move _ S)) as (cm & cm' & sm & Fm & Sm & Vm & _).
  destruct (G _ _ Pos (sn_radius _ S)) as (cr & cr' & sr & Fr & Sr & Vr & (xr & Xr & Pr) & _).
  destruct (sn_scale _ S) as (Rn & cn0 & Fn0 & Tn).
  destruct (G _ _ Tr Rn) as (cn & cn' & sn & Fn & Sn & Vn & _).
  assert (cn0 = cn) by congruence. subst cn0.
  assert (Hpc : exists cc cc' sc, fget c "percentile" = Some (FSched cc) /\ Sched_model.from_config cc = Ok (cc', sc) /\
     forall i, (0 <= i)%Z -> exists x, Sched_model.value (Sched_model.set_iters m sc) i = Ok x).
  { destruct (sn_percentile _ S) as [R|(cc & Fc & Ty & Tg)].
    - destruct (G _ _ Tr R) as (cc & cc' & sc & Fc & Sc & Vc & _). exists cc, cc', sc. split; [exact Fc|]. split; [exact Sc|].
      intros i Hi. destruct (Vc i Hi) as (x & Hx & _). eauto.
    - destruct cc as [nm ci ct cn1 cm1 cv1 ty]. cbn in Ty, Tg. subst ty ct.
      do 3 eexists. split; [exact Fc|]. split; [reflexivity|]. intros i _. now exists None. }
  destruct Hpc as (cc & cc' & sc & Fc & Sc & Vc).
  assert (Hnsc : existsb (String.eqb (Sched_model.c_type cn)) allowed_neumann = true).
  { apply existsb_exists. exists (Sched_model.c_type cn). split; [|apply String.eqb_refl].
    unfold allowed_neumann. cbn [In to_one_types] in *. tauto. }
  (* eta *)
  assert (Heta : exists se, (forall i, (0 <= i)%Z -> exists x, Sched_model.value (Sched_model.set_iters m se) i = Ok (Some x)) /\
     init_schedulers c [] = Ok (eight m sp sv sm sb sc sr sn se)).
  { unfold init_schedulers.
    rewrite (add_field_ok c "p" [] cp cp' sp Fp Sp). cbn [bind].
    rewrite (add_field_ok c "vol_frac" _ cv cv' sv Fv Sv). cbn [bind].
    rewrite (add_field_ok c "move_limit" _ cm cm' sm Fm Sm). cbn [bind].
    rewrite (add_field_ok c "beta" _ cb cb' sb Fb Sb). cbn [bind].
    rewrite (add_field_ok c "percentile" _ cc cc' sc Fc Sc). cbn [bind].
    rewrite (add_field_ok c "filter_radius" _ cr cr' sr Fr Sr). cbn [bind].
    pose proof (fun l => add_field_ok c "neumann_scale" l cn cn' sn Fn Sn) as An. rewrite Fn in An. rewrite Fn.
    rewrite Hnsc, An. cbn [bind].
    destruct (sn_eta _ S) as [R|(e & Fe)].
    - destruct (G _ _ Tr R) as (ce & ce' & se & Fe & Se & Ve & _). exists se. split.
      + intros i Hi. destruct (Ve i Hi) as (x & Hx & _). eauto.
      + pose proof (fun l => add_field_ok c "eta" l ce ce' se Fe Se) as Ae. rewrite Fe in Ae. rewrite Fe, Ae. cbn [bind]. rewrite Hmo. reflexivity.
    - exists (eta_sched e m). split; [intros i Hi; exists e; reflexivity|]. rewrite Fe, Hmo. reflexivity. }
  destruct Heta as (se & Ve & Hl). exists (eight m sp sv sm sb sc sr sn se). split; [exact Hl|]. split; [|split; [|split]].
  - intros i Hi. destruct (Vp i Hi) as (xp & Ep & Pp). destruct (Vv i Hi) as (xv & Ev & _). destruct (Vb i Hi) as (xb & Eb & Pb).
    destruct (Vm i Hi) as (xm & Em & Pm). destruct (Vr i Hi) as (x2 & Er & P2). destruct (Vn i Hi) as (xn & En & _).
    destruct (Vc i Hi) as (xc & Ec). destruct (Ve i Hi) as (xe & Ee).
    unfold values_at. rewrite (values_eight_ok m sp sv sm sb sc sr sn se i _ _ _ _ _ _ _ _ Ep Ev Em Eb Ec Er En Ee). cbn [bind].
    eexists. split; [reflexivity|]. unfold good_values. cbn. auto.
  - intros s i Hs Hi. unfold eight in Hs. cbn [map In] in Hs.
    destruct Hs as [<-|[<-|[<-|[<-|[<-|[<-|[<-|[<-|[]]]]]]]]]; rewrite value_named;
      [destruct (Vp i Hi) as (? & ? & _)|destruct (Vv i Hi) as (? & ? & _)|destruct (Vm i Hi) as (? & ? & _)|destruct (Vb i Hi) as (? & ? & _)
      |destruct (Vc i Hi) as (? & ?)|destruct (Vr i Hi) as (? & ? & _)|destruct (Vn i Hi) as (? & ? & _)|destruct (Ve i Hi) as (? & ?)]; eauto.
  - unfold initial_fraction, field_sched. rewrite Fv, Sv. cbn [bind]. destruct Yv as (Yv & _). destruct (Sched_model.c_init cv'); [eauto|]. rewrite Yv. eauto.
  - unfold initial_radius, field_sched. rewrite Fr, Sr. cbn [bind]. rewrite Xr. eauto.
Qed.

Lemma sane_schedulers c dc ic : oc_new c = Ok (dc, ic) -> sane c dc ic ->
  exists l, init_schedulers c [] = Ok l /\
    (forall i, (0 <= i)%Z -> exists v, values_at l i = Ok v /\ good_values v) /\
    (forall s i, In s l -> (0 <= i)%Z -> exists x, Sched_model.value s i = Ok x) /\
    (exists v0, initial_fraction c = Ok v0) /\ (exists r, initial_radius c = Ok r /\ 0 < r).
Proof.
  intros Hn S. apply (good_schedulers c (Driver_model.max_iters dc)); [now apply oc_new_max in Hn| |exact (sn_schedules _ _ _ S)].
  pose proof (sn_records _ _ _ S). lia.
Qed.

Lemma export_ok l its : (forall s i, In s l -> In i its -> exists x, Sched_model.value s i = Ok x) -> export_all l its = Ok tt.
Proof.
  induction l as [|s l IH]; intros H; [reflexivity|]. cbn [export_all].
  assert (E : export_one s its = Ok tt).
  { assert (Hs : forall i, In i its -> exists x, Sched_model.value s i = Ok x) by (intros i Hi; apply H; [now left|exact Hi]).
    clear - Hs. induction its as [|i its IH]; [reflexivity|]. cbn [export_one]. destruct (Hs i (or_introl eq_refl)) as (x & ->). cbn [bind].
    apply IH. intros j Hj. apply Hs. now right. }
  rewrite E. cbn [bind]. apply IH. intros s' i Hs Hi. apply H; [now right|exact Hi].
Qed.

(* a driver whose iterations all succeed from states with the invariant *)
Section Smooth.
Context {S : Type}.
Variable body : Z -> S -> S * option exn.
Variable rc : S -> R.
Variable kkt : S -> Driver_model.kktval.
Variable dc : Driver_model.dcfg.
Variable Inv : S -> Prop.
Hypothesis Hbody : forall i s, (1 <= i)%Z -> Inv s -> exists s', body i s = (s', None) /\ Inv s' /\ kkt s' <> Driver_model.KNone.
Hypothesis Hrec : (1 <= Driver_model.record_times dc <= Driver_model.max_iters dc)%Z.

Lemma due_ok i limit conv : exists d, Driver_model.save_due dc i limit conv = Ok d.
Proof.
  unfold Driver_model.save_due. destruct (Z.eqb_spec (Driver_model.record_times dc) 0); [lia|].
  destruct (Z.eqb_spec (Driver_model.max_iters dc / Driver_model.record_times dc) 0) as [E|E]; [|eauto].
  assert (1 <= Driver_model.max_iters dc / Driver_model.record_times dc)%Z by (apply Z.div_le_lower_bound; lia). lia.
Qed.
Lemma conv_ok s : kkt s <> Driver_model.KNone -> exists d, Driver_model.converged_at rc kkt dc s = Ok d.
Proof. unfold Driver_model.converged_at. destruct (Driver_model.check_convergence dc); [|eauto]. destruct (kkt s); [congruence|eauto|eauto]. Qed.

Lemma loop_smooth its : forall limit last s disk trace, Forall (fun i => (1 <= i)%Z) its -> (0 <= last)%Z -> Inv s ->
  (forall e, In e trace -> Inv (snd e)) ->
  exists s' disk' trace' last' conv,
    Driver_model.loop body rc kkt dc its limit last s disk trace = (s', disk', trace', last', Driver_model.Finished conv) /\
    Inv s' /\ (0 <= last')%Z /\ (forall e, In e trace' -> Inv (snd e)).
Proof.
  induction its as [|i its IH]; intros limit last s disk trace Hits Hlast Hs Htr; cbn [Driver_model.loop].
  - exists s, disk, trace, last, false. auto.
  - inversion Hits as [|? ? Hi Hits']; subst. destruct (Hbody i s Hi Hs) as (s' & -> & Hs' & Hk). destruct (conv_ok s' Hk) as (cv & ->).
    destruct (due_ok i limit cv) as (d & ->).
    assert (Htr' : forall e, In e (trace ++ [(i, s')]) -> Inv (snd e)).
    { intros e He. apply in_app_or in He. destruct He as [He|[<-|[]]]; [auto|exact Hs']. }
    destruct (d && cv)%bool.
    + exists s'. do 4 eexists. split; [reflexivity|]. repeat split; auto. lia.
    + apply IH; auto. lia.
Qed.

Definition fine (b : Z) (o : @Driver_model.opt S) : Prop :=
  match Driver_model.o_state o with
  | None => Driver_model.o_completed o = false /\ Driver_model.o_trace o = []
  | Some s => Inv s /\ (1 <= Driver_model.o_next o)%Z
  end /\ (forall e, In e (Driver_model.o_trace o) -> Inv (snd e)).
Variable s0 : S.
Variable b : Z.
Hypothesis Hs0 : Inv s0.
Hypothesis Hb : (1 <= b)%Z.

Lemma impl_smooth n o : fine b o -> exists o', Driver_model.optimize_impl body rc kkt (Ok (s0, b)) dc n o = (o', None) /\ fine b o'.
Proof.
  intros (Ho & Htr). unfold Driver_model.optimize_impl, Driver_model.ensure_initialized.
  destruct (Driver_model.o_completed o) eqn:Ec; [exists o; split; [reflexivity|split; [rewrite Ec; exact Ho|exact Htr]]|].
  assert (Hcont : forall (o1 : @Driver_model.opt S) s, Driver_model.o_state o1 = Some s -> Inv s -> (1 <= Driver_model.o_next o1)%Z ->
     (forall e, In e (Driver_model.o_trace o1) -> Inv (snd e)) ->
     exists o', (let start := Driver_model.o_next o1 in
       if (Driver_model.o_end o1 <=? start)%Z then (Driver_model.finalize o1, None)
       else let limit := match n with None => Driver_model.o_end o1 | Some k => Z.min (start + k) (Driver_model.o_end o1) end in
         match Driver_model.loop body rc kkt dc (Driver_model.zrange start limit) limit start s (Driver_model.o_disk o1) (Driver_model.o_trace o1) with
         | (s', disk, trace, last, Driver_model.Raised e) => (Driver_model.mkOpt (Some s') start (Driver_model.o_end o1) false disk trace, Some e)
         | (s', disk, trace, last, Driver_model.Finished conv) =>
           let o' := Driver_model.mkOpt (Some s') (last + 1) (Driver_model.o_end o1) false disk trace in
           (if (conv || (Driver_model.o_end o' <=? Driver_model.o_next o')%Z)%bool then Driver_model.finalize o' else o', None)
         end) = (o', None) /\ fine b o').
  { intros o1 s Es Is Hn Ht. cbv zeta. destruct (Driver_model.o_end o1 <=? Driver_model.o_next o1)%Z.
    - exists (Driver_model.finalize o1). split; [reflexivity|]. unfold Driver_model.finalize. rewrite Es. unfold fine. cbn [Driver_model.o_state Driver_model.o_trace Driver_model.o_next]. auto.
    - match goal with |- context [Driver_model.loop _ _ _ _ ?its ?lim ?st ?s ?d ?t] =>
        destruct (loop_smooth its lim st s d t) as (s' & disk' & tr' & last' & cv & -> & Is' & Hl & Ht') end; auto.
      + apply Forall_forall. intros i Hi. apply Driver_proofs.in_zrange in Hi. lia.
      + lia.
      + eexists. split; [reflexivity|]. destruct (_ || _)%bool; unfold fine, Driver_model.finalize; cbn; (split; [split; [exact Is'|lia]|exact Ht']). }
  destruct (Driver_model.o_state o) as [s|] eqn:Es.
  - destruct Ho as (Is & Hn). exact (Hcont o s Es Is Hn Htr).
  - refine (Hcont (Driver_model.mkOpt (Some s0) b (Driver_model.max_iters dc + 1) false (Driver_model.o_disk o) (Driver_model.o_trace o)) s0 eq_refl Hs0 _ _); cbn; auto.
Qed.
Lemma exec_all_smooth cs : forall o, fine b o -> exists o' rs,
  Driver_model.exec_all body rc kkt (Ok (s0, b)) dc cs o = (o', rs) /\ Forall (eq None) rs /\ fine b o'.
Proof.
  induction cs as [|k cs IH]; intros o Ho; cbn [Driver_model.exec_all]; [exists o, []; auto|].
  assert (H1 : exists o1, Driver_model.exec body rc kkt (Ok (s0, b)) dc k o = (o1, None) /\ fine b o1).
  { destruct k as [n|]; unfold Driver_model.exec, Driver_model.optimize_steps, Driver_model.optimize.
    - destruct (n <=? 0)%Z; [exists o; auto|]. now apply impl_smooth.
    - now apply impl_smooth. }
  destruct H1 as (o1 & -> & F1). destruct (IH o1 F1) as (o2 & rs & -> & Hrs & F2).
  exists o2, (None :: rs). split; [reflexivity|]. split; [constructor; auto|exact F2].
Qed.
End Smooth.

(* A sane configuration on a sound task runs: no call raises, the run is completed by
   optimize(), every iteration keeps the densities within bounds and the fixed elements
   solid, and without early stopping every iteration up to max_iters takes place. *)
Theorem C96_sane_run_succeeds : forall T c dc ic pb f restart cs,
  oc_new c = Ok (dc, ic) -> sane c dc ic ->
  built_from T ic pb -> pins_known T ic -> (forall e, In e (ta_design T) -> (e < List.length (ta_t T))%nat) ->
  sound_task pb ic f -> List.length (sf_centers f) = List.length (ta_t T) -> fits pb ic restart ->
  exists o rs, oc_run c pb f restart (cs ++ [Driver_model.COptimize]) = Ok (o, rs) /\
    Forall (eq None) rs /\ Driver_model.o_completed o = true /\
    (forall i s, In (i, s) (Driver_model.o_trace o) -> densities_ok T ic (s_rho (rs_it s))) /\
    (Driver_model.check_convergence dc = false ->
     map fst (Driver_model.o_trace o) =
       Driver_model.zrange (match restart with Some (j, _) => (j + 1)%Z | None => 1%Z end) (Driver_model.max_iters dc + 1)).
Proof.
  intros T c dc ic pb f restart cs Hn S HT Hp Hdes Hsound Hlen Hfit.
  destruct (sane_schedulers c dc ic Hn S) as (l & Hl & Hval & Hexp & (v0 & Hv0) & (r & Hr & Hr0)).
  pose proof (oc_new_max c dc ic Hn) as Hm.
  set (b := match restart with Some (j, _) => (j + 1)%Z | None => 1%Z end).
  assert (Hb : (1 <= b)%Z).
  { unfold b. destruct restart as [[j data]|]; [|lia]. destruct (Hfit j data eq_refl) as (Hj & _). lia. }
  pose proof (oc_new_lambda c dc ic Hn) as Hlam.
  pose proof (sn_rho _ _ _ S) as Hrho. pose proof (sn_rate _ _ _ S) as Hrate. pose proof (sn_floor _ _ _ S) as Hfl. pose proof (sn_lambda _ _ _ S) as Hl0.
  assert (Hinit : exists rho, initialize_density pb ic v0 (option_map snd restart) = Ok rho /\ densities_ok T ic rho).
  { destruct (initialize_density pb ic v0 (option_map snd restart)) as [rho|e] eqn:E.
    - exists rho. split; [reflexivity|]. refine (proj1 (C26_initial_densities T ic pb v0 (option_map snd restart) rho HT Hp Hdes (proj2 Hrho) _ E)).
      destruct restart as [[j data]|]; cbn [option_map snd]; [|discriminate]. intros d [= <-]. destruct (Hfit j data eq_refl) as (_ & _ & Hx). exact Hx.
    - exfalso. unfold initialize_density in E. destruct restart as [[j data]|]; cbn [option_map snd] in E; [|discriminate].
      destruct (Hfit j data eq_refl) as (_ & Hlen' & _). rewrite Hlen', Nat.eqb_refl in E. discriminate. }
  destruct Hinit as (rho & Hrho0 & Hok0).
  set (s0 := mkRS l (mkIS rho (update_radius r f) 0 0 None None)).
  assert (Hi : oc_initialize c ic pb f restart = Ok (s0, b)).
  { unfold oc_initialize. rewrite Hl. cbn [bind]. rewrite Hm. cbn [bind]. rewrite export_ok; [|intros s i Hs Hi; apply Hexp; [exact Hs|apply Driver_proofs.in_zrange in Hi; lia]].
    cbn [bind]. rewrite Hv0. cbn [bind]. rewrite Hrho0. cbn [bind]. rewrite Hr. reflexivity. }
  set (Inv := fun s : rstate => rs_sched s = l /\ densities_ok T ic (s_rho (rs_it s)) /\ 0 <= s_running (rs_it s) /\
     sf_centers (s_filter (rs_it s)) = sf_centers f /\ sf_mask (s_filter (rs_it s)) = sf_mask f).
  assert (Hbody : forall i s, (1 <= i)%Z -> Inv s -> exists s', oc_body pb ic i s = (s', None) /\ Inv s' /\ oc_kkt s' <> Driver_model.KNone).
  { intros i s Hi' (I1 & I2 & I3 & I4 & I5). unfold oc_body. rewrite I1. destruct (Hval i ltac:(lia)) as (v & -> & Gp & Gb & Gm & Gr).
    assert (WP : well_posed pb ic v (s_filter (rs_it s))) by (apply (wp_same pb ic v f); auto).
    destruct (C26_iteration_succeeds T ic pb v i (rs_it s)) as (s' & Es & R1 & (k & Hk) & R2 & R3); auto.
    - split; [exact Hl0|lra].
    - left. exact (sn_simp _ _ _ S).
    - now rewrite I4.
    - rewrite Es. eexists. split; [reflexivity|]. cbn [rs_sched rs_it]. split.
      + unfold Inv. cbn [rs_sched rs_it]. split; [reflexivity|]. split; [|split; [lra|split; congruence]].
        refine (proj1 (C26_iteration_keeps_bounds T ic pb v i (rs_it s) s' HT Hp Hdes (proj2 Hrho) Hrate _ Gm I2 Es)). lra.
      + unfold oc_kkt. cbn [rs_it]. rewrite Hk. discriminate. }
  assert (Inv0 : Inv s0).
  { unfold Inv, s0. cbn [rs_sched rs_it s_rho s_running s_filter]. split; [reflexivity|]. split; [exact Hok0|]. split; [lra|]. split; reflexivity. }
  destruct (exec_all_smooth (oc_body pb ic) (fun s => s_change (rs_it s)) oc_kkt dc Inv Hbody (sn_records _ _ _ S) s0 b Inv0 Hb
    (cs ++ [Driver_model.COptimize]) (Driver_model.opt_new [])) as (o & rs & Hex & Hrs & Ho).
  { unfold fine. cbn. split; [auto|easy]. }
  exists o, rs. unfold oc_run. rewrite Hn. cbn [bind]. rewrite Hi, Hex. split; [reflexivity|]. split; [exact Hrs|].
  destruct (Driver_props.C28_iterations_once_in_order _ _ _ _ _ _ _ _ _ _ _ Hex Hrs) as (_ & _ & _ & _ & Hdone & _).
  split; [apply Hdone, in_or_app; right; now left|]. split.
  - intros i s Hs. destruct Ho as (_ & Ho). apply (Ho (i, s)) in Hs. exact (proj1 (proj2 Hs)).
  - intros Hoff. exact (Driver_props.C29_no_early_stop_when_unchecked _ _ _ _ _ _ _ _ _ _ _ Hoff Hex Hrs).
Qed.
Print Assumptions C96_sane_run_succeeds.

(* A fresh run starts with every design element at the first value of the volume
   schedule, clipped to the bounds, and with the filter at the first value of the
   radius schedule. *)
Theorem C96_start : forall T c dc ic pb f s0 b a1 b1 a2 b2 cf1 cf2,
  oc_new c = Ok (dc, ic) -> sane c dc ic ->
  built_from T ic pb -> pins_known T ic -> (forall e, In e (ta_design T) -> (e < List.length (ta_t T))%nat) ->
  fget c "vol_frac" = Some (FSched cf1) -> goes a1 b1 cf1 -> fget c "filter_radius" = Some (FSched cf2) -> goes a2 b2 cf2 ->
  oc_initialize c ic pb f None = Ok (s0, b) ->
  b = 1%Z /\ sf_radius (s_filter (rs_it s0)) = a2 /\ densities_ok T ic (s_rho (rs_it s0)) /\
  forall e, designed T ic e -> nth e (s_rho (rs_it s0)) 0 = Rmin (Rmax a1 (c_rho_min (i_oc ic))) (c_rho_max (i_oc ic)).
Proof.
  intros T c dc ic pb f s0 b a1 b1 a2 b2 cf1 cf2 Hn S HT Hp Hdes F1 G1 F2 G2 Hi.
  destruct (goes_value _ _ _ G1) as (c1 & s1 & E1 & _ & _ & _ & _ & y & Y & ->).
  destruct (goes_value _ _ _ G2) as (c2 & s2 & E2 & _ & x & X & -> & _).
  unfold oc_initialize in Hi. destruct (init_schedulers c []) as [l|]; [|discriminate]. cbn [bind] in Hi.
  destruct (field_int c "max_iters"); [|discriminate]. cbn [bind] in Hi. destruct (export_all _ _); [|discriminate]. cbn [bind] in Hi.
  assert (I1 : initial_fraction c = Ok a1).
  { unfold initial_fraction, field_sched. rewrite F1, E1. cbn [bind]. destruct (Sched_model.c_init c1); [congruence|]. now rewrite Y. }
  assert (I2 : initial_radius c = Ok a2) by (unfold initial_radius, field_sched; rewrite F2, E2; cbn [bind]; now rewrite X).
  rewrite I1 in Hi. cbn [bind] in Hi. destruct (initialize_density pb ic a1 (option_map snd None)) as [rho|] eqn:Er; [|discriminate]. cbn [bind] in Hi.
  rewrite I2 in Hi. cbn [bind] in Hi. injection Hi as <- <-. cbn [rs_it s_filter s_rho update_radius sf_radius].
  destruct (C26_initial_densities T ic pb a1 None rho HT Hp Hdes (proj2 (sn_rho _ _ _ S)) ltac:(discriminate) Er) as (D1 & D2 & _).
  split; [reflexivity|]. split; [reflexivity|]. split; [exact D1|]. exact (D2 eq_refl).
Qed.
Print Assumptions C96_start.

(* What each iteration of such a run did. *)
Theorem C96_every_iteration : forall T c dc ic pb f restart cs o rs,
  oc_new c = Ok (dc, ic) -> sane c dc ic ->
  built_from T ic pb -> pins_known T ic -> (forall e, In e (ta_design T) -> (e < List.length (ta_t T))%nat) ->
  sound_task pb ic f -> List.length (sf_centers f) = List.length (ta_t T) -> fits pb ic restart ->
  oc_run c pb f restart (cs ++ [Driver_model.COptimize]) = Ok (o, rs) ->
  forall i s, In (i, s) (Driver_model.o_trace o) -> exists v prev,
    in_force c (Driver_model.max_iters dc) i v /\ densities_ok T ic (s_rho prev) /\
    iterate pb ic v i prev = Ok (rs_it s) /\ s_change (rs_it s) <= v_move v.
Proof.
  intros T c dc ic pb f restart cs o rs Hn S HT Hp Hdes Hsound Hlen Hfit Hrun i s Hin.
  destruct (C96_sane_run_succeeds T c dc ic pb f restart cs Hn S HT Hp Hdes Hsound Hlen Hfit) as (o' & rs' & Hrun' & Hok & _ & Hdens & _).
  rewrite Hrun in Hrun'. injection Hrun' as <- <-.
  destruct (in_split _ _ Hin) as (pre & post & Htr).
  destruct (C96_values_as_configured c pb f restart _ o rs dc ic Hn Hrun Hok pre i s post Htr) as (_ & _ & s0 & v & Hi & Hv & Hit & _).
  assert (Hprev : densities_ok T ic (s_rho (rs_it (Driver_spec.final_state s0 pre)))).
  { unfold Driver_spec.final_state. destruct (exists_last' pre) as [->|(pre' & [j sj] & ->)].
    - cbn [map last]. unfold oc_initialize in Hi.
      repeat match type of Hi with bind ?x _ = _ => let E := fresh "E" in destruct x eqn:E; [|discriminate Hi]; cbn [bind] in Hi end.
      injection Hi as <-. cbn [rs_it s_rho].
      refine (proj1 (C26_initial_densities T ic pb _ (option_map snd restart) _ HT Hp Hdes (proj2 (sn_rho _ _ _ S)) _ E3)).
      destruct restart as [[j data]|]; cbn [option_map snd]; [|discriminate]. intros d [= <-]. destruct (Hfit j data eq_refl) as (_ & _ & Hx). exact Hx.
    - rewrite map_app. cbn [map snd]. rewrite last_last'. apply (Hdens j). rewrite Htr. apply in_or_app. left. apply in_or_app. right. now left. }
  exists v, (rs_it (Driver_spec.final_state s0 pre)). split; [exact Hv|]. split; [exact Hprev|]. split; [exact Hit|].
  pose proof (sn_rho _ _ _ S) as Hrho. pose proof (sn_rate _ _ _ S) as Hrate.
  assert (Hm : 0 <= v_move v).
  { destruct Hv as (_ & _ & _ & _ & (cf & cf' & sd & Ef & Es & Ev) & _). destruct (sn_move _ (sn_schedules _ _ _ S)) as (cf2 & a & b & Ef2 & G & Pa & Pb).
    rewrite Ef in Ef2. injection Ef2 as <-. destruct (goes_value a b cf G) as (cf'' & sd' & Es' & Hval & _). rewrite Es in Es'. injection Es' as <- <-.
    assert (Hi1 : (1 <= i)%Z).
    { assert (Hb : (1 <= match restart with Some (j, _) => j + 1 | None => 1 end)%Z)
        by (destruct restart as [[j data]|]; [destruct (Hfit j data eq_refl) as (Hj & _)|]; lia).
      destruct (C96_values_as_configured c pb f restart _ o rs dc ic Hn Hrun Hok pre i s post Htr) as (Hi' & _). lia. }
    pose proof (sn_records _ _ _ S). destruct (Hval (Driver_model.max_iters dc) i ltac:(lia) ltac:(lia)) as (x & Ex & Bx).
    rewrite Ev in Ex. injection Ex as <-. unfold between in Bx. destruct Bx as (Bx & _).
    apply Rle_trans with (2 := Bx). now apply Rmin_glb. }
  assert (Hlam : c_lambda_lower (i_oc ic) <= c_lambda_upper (i_oc ic)) by (apply Rlt_le, (oc_new_lambda c dc ic Hn)).
  exact (proj1 (proj2 (proj2 (C26_iteration_keeps_bounds T ic pb v i _ (rs_it s) HT Hp Hdes (proj2 Hrho) Hrate Hlam Hm Hprev Hit)))).
Qed.
Print Assumptions C96_every_iteration.

(* The density-change criterion is void while the move limit is below its tolerance:
   whether the run stops then depends on the KKT residual alone.  With the default
   configuration (tolerance 0.2, move limit between 0.3 and 0.1) that is the second
   half of every sawtooth cycle, and always the last iteration. *)
Theorem C96_density_criterion_void : forall T c dc ic pb f restart cs o rs,
  oc_new c = Ok (dc, ic) -> sane c dc ic -> Driver_model.check_convergence dc = true ->
  built_from T ic pb -> pins_known T ic -> (forall e, In e (ta_design T) -> (e < List.length (ta_t T))%nat) ->
  sound_task pb ic f -> List.length (sf_centers f) = List.length (ta_t T) -> fits pb ic restart ->
  oc_run c pb f restart (cs ++ [Driver_model.COptimize]) = Ok (o, rs) ->
  forall i s x, In (i, s) (Driver_model.o_trace o) ->
  prescribed c "move_limit" (Driver_model.max_iters dc) i (Some x) -> x < Driver_model.tol_rho_change dc ->
  s_change (rs_it s) < Driver_model.tol_rho_change dc /\
  (Driver_spec.meets_criteria (fun s => s_change (rs_it s)) oc_kkt dc s <->
   match s_kkt (rs_it s) with Some k => Rabs k < Driver_model.tol_kkt_residual dc | None => True end).
Proof.
  intros T c dc ic pb f restart cs o rs Hn S Hcc HT Hp Hdes Hsound Hlen Hfit Hrun i s x Hin Hx Hlt.
  destruct (C96_every_iteration T c dc ic pb f restart cs o rs Hn S HT Hp Hdes Hsound Hlen Hfit Hrun i s Hin) as (v & prev & Hv & _ & _ & Hch).
  assert (Hmv : v_move v = x).
  { destruct Hv as (_ & _ & _ & _ & (a & a' & sa & E1 & E2 & E3) & _). destruct Hx as (b & b' & sb & F1 & F2 & F3). congruence. }
  assert (Hc : s_change (rs_it s) < Driver_model.tol_rho_change dc) by lra.
  split; [exact Hc|]. unfold Driver_spec.meets_criteria, oc_kkt. destruct (s_kkt (rs_it s)) as [k|]; tauto.
Qed.
Print Assumptions C96_density_criterion_void.

(* The number the configuration's documentation gives as the fourth argument of
   sawtooth_decay has no effect: it is iters_max, which a run replaces by its own. *)
Theorem C96_sawtooth_fourth_argument_ignored : forall c nm a b m m' n T i x,
  fget c "move_limit" <> None ->
  prescribed (with_field c "move_limit" (fsched (Sched_model.cfg_sawtooth_decay nm a b m n))) "move_limit" T i x ->
  prescribed (with_field c "move_limit" (fsched (Sched_model.cfg_sawtooth_decay nm a b m' n))) "move_limit" T i x.
Proof.
  intros c nm a b m m' n T i x Hex (cf & cf' & s & E1 & E2 & E3).
  assert (G : forall v, fget (with_field c "move_limit" v) "move_limit" = Some v).
  { intros v. clear - Hex. induction c as [|[k w] c IH]; [now cbn in Hex|]. cbn [with_field fget] in *. cbn [find fst] in *.
    destruct (String.eqb "move_limit" k) eqn:E; cbn [fget find fst]; rewrite ?E; [reflexivity|]. now apply IH. }
  rewrite G in E1. injection E1 as <-. injection E2 as <- <-.
  exists (Sched_model.mkConfig nm (Some a) (Some b) (Some n) (Some m') None "SawtoothDecay"). do 2 eexists.
  rewrite G. split; [reflexivity|]. split; [reflexivity|]. exact E3.
Qed.
Print Assumptions C96_sawtooth_fourth_argument_ignored.

(* The final design: the material fraction of the last of max_iters iterations is
   within 1e-4 of the configured target, or the bisection bracket was exhausted around
   the multiplier used, its ends missing the target on either side (or being the
   configured bounds). *)
Theorem C96_final_volume : forall T c dc ic pb f restart cs o rs,
  oc_new c = Ok (dc, ic) -> sane c dc ic ->
  built_from T ic pb -> pins_known T ic -> NoDup (ta_design T) -> (forall e, In e (ta_design T) -> (e < List.length (ta_t T))%nat) ->
  sound_task pb ic f -> List.length (sf_centers f) = List.length (ta_t T) -> fits pb ic restart ->
  c_lambda_upper (i_oc ic) - c_lambda_lower (i_oc ic) <= 1/100000 * 2 ^ 1000 ->
  oc_run c pb f restart (cs ++ [Driver_model.COptimize]) = Ok (o, rs) ->
  forall s ev, In (Driver_model.max_iters dc, s) (Driver_model.o_trace o) -> s_eval (rs_it s) = Some ev ->
  exists v prev, in_force c (Driver_model.max_iters dc) (Driver_model.max_iters dc) v /\
    target_is c "vol_frac" (Some (v_vol_frac v)) /\ target_is c "beta" (Some (v_beta v)) /\ target_is c "filter_radius" (Some (v_radius v)) /\
    densities_ok T ic (s_rho prev) /\
    let dC := map (fun x => x / s_running (rs_it s)) (ev_dC ev) in
    let rule := rule_gives pb ic v (s_rho prev) dC in
    let frac := fraction_of pb ic v (s_filter (rs_it s)) in
    exists lam, c_lambda_lower (i_oc ic) <= lam <= c_lambda_upper (i_oc ic) /\ rule lam (s_rho (rs_it s)) /\
      (Rabs (frac (s_rho (rs_it s)) - v_vol_frac v) < 1 / 10000 \/
       exists a b, c_lambda_lower (i_oc ic) <= a <= lam /\ lam <= b <= c_lambda_upper (i_oc ic) /\ b - a <= 1 / 100000 /\
         (a = c_lambda_lower (i_oc ic) \/ exists full, rule a full /\ v_vol_frac v + 1 / 10000 <= frac full) /\
         (b = c_lambda_upper (i_oc ic) \/ forall full, rule b full -> frac full <= v_vol_frac v - 1 / 10000)).
Proof.
  intros T c dc ic pb f restart cs o rs Hn S HT Hp Hnd Hdes Hsound Hlen Hfit Hw Hrun s ev Hin Hev.
  destruct (C96_every_iteration T c dc ic pb f restart cs o rs Hn S HT Hp Hdes Hsound Hlen Hfit Hrun _ s Hin) as (v & prev & Hv & Hprev & Hit & _).
  destruct (C96_last_iteration_at_targets c _ _ v Hv (Z.le_refl _)) as (_ & T1 & T2 & _ & _ & T3 & _).
  exists v, prev. split; [exact Hv|]. split; [exact T1|]. split; [exact T2|]. split; [exact T3|]. split; [exact Hprev|].
  exact (C63_iteration_meets_the_volume T ic pb v _ prev (rs_it s) ev HT Hp Hnd Hdes (Rlt_le _ _ (oc_new_lambda c dc ic Hn)) Hw Hprev Hit Hev).
Qed.
Print Assumptions C96_final_volume.

(* The default configuration, with the spatial filter: it makes an optimizer and is sane,
   so every sound task runs its 200 iterations. *)
Definition default_spatial := with_field oc_defaults "filter_type" (FPlain (PStr "spacial")).
Definition default_oc := mkOCCfg (1/100) 1 (1/2) (7/10) (13/10) (1/1000000000000) (1/10000000) 10000000.
Definition default_ic (dd : bool) := mkICfg default_oc (1/1000) SIMP false dd.
Definition default_with (dd : bool) := with_field default_spatial "design_dirichlet" (FPlain (PBool dd)).
Lemma default_new dd : oc_new (default_with dd) = Ok (Driver_model.mkDC 200 20 false (2/10) (5/1000), default_ic dd).
Proof.
  unfold oc_new, field_real, field_bool, field_int, field_interp, default_with, default_spatial, oc_defaults.
  cbn -[Rltb fsched]. replace (Rltb (1/10000000) 10000000) with true; [reflexivity|]. symmetry. apply Rltb_true. lra.
Qed.
Theorem C96_default_config_is_sane : forall dd, exists dc ic, oc_new (default_with dd) = Ok (dc, ic) /\ sane (default_with dd) dc ic /\
  Driver_model.max_iters dc = 200%Z /\ Driver_model.check_convergence dc = false /\ i_design_dirichlet ic = dd.
Proof.
  intros dd. do 2 eexists. split; [apply default_new|]. split; [|auto]. constructor.
  - constructor.
    + eexists. exists 1, 3. split; [reflexivity|]. split; [apply g_step|]. lra.
    + eexists. exists (8/10), (8/10). split; [reflexivity|]. split; [now apply g_constant|]. auto.
    + eexists. exists 1, 2. split; [reflexivity|]. split; [apply g_curved; [now left|lra]|]. lra.
    + eexists. exists (3/10), (1/10). split; [reflexivity|]. split; [now apply g_saw|]. lra.
    + eexists. exists (1/100), (1/100). split; [reflexivity|]. split; [now apply g_constant|]. lra.
    + split; [eexists; exists 1, 1; split; [reflexivity|]; split; [now apply g_one|auto]|]. eexists. split; [reflexivity|]. now left.
    + left. eexists. exists (1/2), (1/2). split; [reflexivity|]. split; [now apply g_constant|]. auto.
    + right. eexists. split; [reflexivity|]. split; reflexivity.
  - cbn. lia.
  - reflexivity.
  - cbn. lra.
  - cbn. lra.
  - cbn. lra.
  - cbn. lra.
Qed.
Print Assumptions C96_default_config_is_sane.

(* a concrete task and the default configuration: seven steps, then the rest *)
Lemma ex_sound : sound_task ex_pb ex_c ex_filter.
Proof.
  intros v Hp Hb Hr. constructor; cbn; try lra.
  - reflexivity.
  - exists 0%nat. split; [lia|reflexivity].
  - intros; lra.
  - discriminate.
  - exact ex_solver.
Qed.
Example C96_instance : exists o rs, oc_run (default_with true) ex_pb ex_filter None [Driver_model.CSteps 7; Driver_model.COptimize] = Ok (o, rs) /\
  Forall (eq None) rs /\ Driver_model.o_completed o = true /\ map fst (Driver_model.o_trace o) = Driver_model.zrange 1 201 /\
  (forall i s, In (i, s) (Driver_model.o_trace o) -> densities_ok ex_T ex_c (s_rho (rs_it s))).
Proof.
  destruct (C96_default_config_is_sane true) as (dc & ic & Hn & S & Hm & Hc & Hd). pose proof Hn as Hn'. rewrite default_new in Hn'. injection Hn' as <- <-.
  change (default_ic true) with ex_c in *.
  destruct (C96_sane_run_succeeds ex_T _ _ ex_c ex_pb ex_filter None [Driver_model.CSteps 7] Hn S ex_built) as (o & rs & R & Hrs & Hdone & Hdens & Hall).
  - left. discriminate.
  - intros e He. cbn in *. lia.
  - exact ex_sound.
  - reflexivity.
  - intros j data [=].
  - exists o, rs. split; [exact R|]. split; [exact Hrs|]. split; [exact Hdone|]. split; [exact (Hall eq_refl)|exact Hdens].
Qed.
Print Assumptions C96_instance.

(* The default move limit has six cycles: iteration 20 of 200 is already below the
   density-change tolerance 0.2, iteration 35 starts the second cycle near 0.3. *)
Theorem C96_default_move_limit : forall dd i x, (1 <= i < 200)%Z ->
  prescribed (default_with dd) "move_limit" 200 i (Some x) <->
  exists j, (0 <= j < 6)%Z /\ (200 * j <= 6 * (i - 1) < 200 * (j + 1))%Z /\ x = 3/10 - 2/10 * (IZR (6 * (i - 1) - 200 * j) / 200).
Proof.
  intros dd i x Hi.
  assert (V : forall j, (0 <= j)%Z -> (200 * j <= 6 * (i - 1) < 200 * (j + 1))%Z ->
     Sched_model.value (Sched_model.SchedulerSawtoothDecay "move_limit" (3/10) (1/10) 6 (Some 200%Z)) i =
     Ok (Some (3/10 - 2/10 * (IZR (6 * (i - 1) - 200 * j) / 200)))).
  { intros j Hj H. rewrite (Sched_props.C06_sawtooth_linear_in_cycle "move_limit" (3/10) (1/10) 6 200 i j); try lia.
    - do 2 f_equal. rewrite (minus_IZR (6 * (i - 1))), !mult_IZR. field.
    - destruct H as (H & H'). apply IZR_le in H. apply IZR_lt in H'. rewrite !mult_IZR in H, H'. rewrite plus_IZR in H'. lra. }
  split.
  - intros (cf & cf' & s & E1 & E2 & E3). injection E1 as <-. injection E2 as <- <-.
    destruct (Z.div_mod (6 * (i - 1)) 200 ltac:(lia)). pose proof (Z.mod_pos_bound (6 * (i - 1)) 200 ltac:(lia)).
    exists ((6 * (i - 1)) / 200)%Z.
    assert (Hj : (0 <= (6 * (i - 1)) / 200 < 6)%Z) by (split; [apply Z.div_pos; lia|apply Z.div_lt_upper_bound; lia]).
    assert (Hr : (200 * ((6 * (i - 1)) / 200) <= 6 * (i - 1) < 200 * ((6 * (i - 1)) / 200 + 1))%Z).
    { pose proof (Z.div_mod (6 * (i - 1)) 200 ltac:(lia)). lia. }
    split; [exact Hj|]. split; [exact Hr|]. specialize (V _ (proj1 Hj) Hr).
    match type of E3 with Sched_model.value ?a _ = _ => match type of V with Sched_model.value ?b _ = _ => change a with b in E3 end end.
    rewrite V in E3. now injection E3 as <-.
  - intros (j & Hj & Hr & ->). do 3 eexists. split; [reflexivity|]. split; [reflexivity|]. exact (V j (proj1 Hj) Hr).
Qed.
Print Assumptions C96_default_move_limit.

(* Convergence does not wait for the schedules: a run can report convergence at its
   first iteration, with the penalisation still at 1 although 3 was asked for. *)
Definition checked (K : R) : cfgobj :=
  with_field (with_field (with_field (default_with true) "check_convergence" (FPlain (PBool true)))
    "tol_rho_change" (FPlain (PFloat (1/2)))) "tol_kkt_residual" (FPlain (PFloat K)).
Lemma checked_new K : oc_new (checked K) = Ok (Driver_model.mkDC 200 20 true (1/2) K, default_ic true).
Proof.
  unfold oc_new, field_real, field_bool, field_int, field_interp, checked, default_with, default_spatial, oc_defaults.
  cbn -[Rltb fsched]. replace (Rltb (1/10000000) 10000000) with true; [reflexivity|]. symmetry. apply Rltb_true. lra.
Qed.
Lemma checked_sane K : sane (checked K) (Driver_model.mkDC 200 20 true (1/2) K) (default_ic true).
Proof.
  constructor.
  - constructor.
    + eexists. exists 1, 3. split; [reflexivity|]. split; [apply g_step|]. lra.
    + eexists. exists (8/10), (8/10). split; [reflexivity|]. split; [now apply g_constant|]. auto.
    + eexists. exists 1, 2. split; [reflexivity|]. split; [apply g_curved; [now left|lra]|]. lra.
    + eexists. exists (3/10), (1/10). split; [reflexivity|]. split; [now apply g_saw|]. lra.
    + eexists. exists (1/100), (1/100). split; [reflexivity|]. split; [now apply g_constant|]. lra.
    + split; [eexists; exists 1, 1; split; [reflexivity|]; split; [now apply g_one|auto]|]. eexists. split; [reflexivity|]. now left.
    + left. eexists. exists (1/2), (1/2). split; [reflexivity|]. split; [now apply g_constant|]. auto.
    + right. eexists. split; [reflexivity|]. split; reflexivity.
  - cbn. lia.
  - reflexivity.
  - cbn. lra.
  - cbn. lra.
  - cbn. lra.
  - cbn. lra.
Qed.
Lemma same_init c c' ic pb f restart :
  Forall (fun k => fget c k = fget c' k) ["p"; "vol_frac"; "move_limit"; "beta"; "percentile"; "filter_radius"; "neumann_scale"; "eta"; "max_iters"] ->
  oc_initialize c ic pb f restart = oc_initialize c' ic pb f restart.
Proof.
  intros H. repeat match goal with H : Forall _ (_ :: _) |- _ => inversion H; clear H; subst end.
  unfold oc_initialize, init_schedulers, max_iters_of, field_int, initial_fraction, initial_radius, field_sched.
  repeat match goal with H : fget c ?k = fget c' ?k |- _ => rewrite H; clear H end. reflexivity.
Qed.
Lemma fget_other c k k' v : String.eqb k k' = false -> fget (with_field c k v) k' = fget c k'.
Proof.
  intros H. induction c as [|[a w] c IH]; [reflexivity|]. cbn [with_field]. destruct (String.eqb k a) eqn:E; cbn [fget].
  - apply String.eqb_eq in E. subst a. rewrite String.eqb_sym, H. reflexivity.
  - destruct (String.eqb k' a); auto.
Qed.
Lemma checked_same K k : existsb (String.eqb k) ["check_convergence"; "tol_rho_change"; "tol_kkt_residual"] = false -> fget (checked K) k = fget (default_with true) k.
Proof.
  cbn [existsb]. intros H. apply orb_false_elim in H. destruct H as (H1 & H). apply orb_false_elim in H. destruct H as (H2 & H). apply orb_false_elim in H. destruct H as (H3 & _).
  unfold checked. rewrite !fget_other; auto; now rewrite String.eqb_sym.
Qed.
Lemma checked_init K : oc_initialize (checked K) ex_c ex_pb ex_filter None = oc_initialize (default_with true) ex_c ex_pb ex_filter None.
Proof. apply same_init. repeat (constructor; [apply checked_same; reflexivity|]). constructor. Qed.
Theorem C96_convergence_before_targets_refuted : exists K o rs s,
  oc_run (checked K) ex_pb ex_filter None [Driver_model.COptimize] = Ok (o, rs) /\ Forall (eq None) rs /\
  Driver_model.o_completed o = true /\ Driver_model.o_trace o = [(1%Z, s)] /\
  prescribed (checked K) "p" 200 1 (Some 1) /\ target_is (checked K) "p" (Some 3) /\ prescribed (checked K) "p" 200 200 (Some 3).
Proof.
  assert (Run : forall K, exists o rs, oc_run (checked K) ex_pb ex_filter None [Driver_model.COptimize] = Ok (o, rs) /\ Forall (eq None) rs /\
     Driver_model.o_completed o = true).
  { intros K. destruct (C96_sane_run_succeeds ex_T _ _ ex_c ex_pb ex_filter None [] (checked_new K) (checked_sane K) ex_built) as (o & rs & R & Hrs & Hdone & _).
    - left. discriminate.
    - intros e He. cbn in *. lia.
    - exact ex_sound.
    - reflexivity.
    - intros j data [=].
    - exists o, rs. auto. }
  destruct (oc_initialize (default_with true) ex_c ex_pb ex_filter None) as [[s0 b]|e] eqn:E0.
  2:{ exfalso. destruct (Run 1) as (o & rs & R & Hrs & Hdone). unfold oc_run in R. rewrite checked_new in R. cbn [bind] in R.
      change (default_ic true) with ex_c in R. rewrite checked_init, E0 in R. cbn in R. injection R as <- <-. inversion Hrs; discriminate. }
  assert (Hb : b = 1%Z).
  { unfold oc_initialize in E0.
    repeat match type of E0 with bind ?x _ = _ => destruct x; [|discriminate E0]; cbn [bind] in E0 end. now injection E0 as _ <-. }
  subst b.
  assert (It : exists s k, oc_body ex_pb ex_c 1 s0 = (s, None) /\ s_kkt (rs_it s) = k /\ s_change (rs_it s) < 1/2).
  { destruct (Run 1) as (o & rs & R & Hrs & Hdone).
    pose proof (C96_every_iteration ex_T _ _ ex_c ex_pb ex_filter None [] o rs (checked_new 1) (checked_sane 1) ex_built ltac:(left; discriminate)
      ltac:(intros e He; cbn in *; lia) ex_sound eq_refl ltac:(intros j data [=]) R) as Hev.
    pose proof R as R'. unfold oc_run in R'. rewrite checked_new in R'. cbn [bind] in R'. change (default_ic true) with ex_c in R'.
    rewrite checked_init, E0 in R'. apply ok_inj in R'.
    destruct (Driver_props.C28_iterations_once_in_order _ _ _ _ _ _ _ _ _ _ _ R' Hrs) as (Hch & _ & _ & _).
    destruct (Driver_props.C29_stops_at_first_converged_iteration _ _ _ _ _ _ _ _ [] _ _ R' Hrs) as [(pre & i & s & Ht & _)|(_ & Ht)];
      destruct (Driver_model.o_trace o) as [|[i1 s1] tr] eqn:Etr; try (destruct pre; discriminate); try discriminate Ht.
    all: destruct Hch as (-> & Hbody & _); exists s1, (s_kkt (rs_it s1)); split; [exact Hbody|]; split; [reflexivity|];
      destruct (Hev 1%Z s1 (or_introl eq_refl)) as (v & prev & Hv & _ & _ & Hc);
      destruct Hv as (_ & _ & _ & _ & (a & a' & sa & E1 & E2 & E3) & _);
      destruct (goes_value (3/10) (1/10) a) as (a'' & sa' & E2' & Hval & _);
      [rewrite checked_same in E1 by reflexivity; injection E1 as <-; now apply g_saw|];
      rewrite E2 in E2'; injection E2' as <- <-; destruct (Hval 200%Z 1%Z ltac:(lia) ltac:(lia)) as (x & Ex & _ & Bx);
      cbn [Driver_model.max_iters] in E3; rewrite E3 in Ex; injection Ex as <-; rewrite Rmax_left in Bx by lra; lra. }
  destruct It as (s & k & Hbody & Hk & Hc).
  pose (K := match k with Some x => Rabs x + 1 | None => 1 end).
  destruct (Run K) as (o & rs & R & Hrs & Hdone). exists K, o, rs, s. split; [exact R|]. split; [exact Hrs|]. split; [exact Hdone|]. split.
  - unfold oc_run in R. rewrite checked_new in R. cbn [bind] in R. change (default_ic true) with ex_c in R. rewrite checked_init, E0 in R. apply ok_inj in R.
    destruct (Driver_props.C28_iterations_once_in_order _ _ _ _ _ _ _ _ _ _ _ R Hrs) as (Hch & _ & _ & _).
    assert (Hm : Driver_spec.meets_criteria (fun s => s_change (rs_it s)) oc_kkt (Driver_model.mkDC 200 20 true (1/2) K) s).
    { unfold Driver_spec.meets_criteria, oc_kkt. cbn [Driver_model.check_convergence Driver_model.tol_rho_change Driver_model.tol_kkt_residual].
      rewrite Hk. split; [reflexivity|]. split; [exact Hc|]. unfold K. destruct k; [lra|exact I]. }
    destruct (Driver_props.C29_stops_at_first_converged_iteration _ _ _ _ _ _ _ _ [] _ _ R Hrs) as [(pre & i & s' & Ht & _ & _ & Hpre & _)|(Hno & Ht)].
    + rewrite Ht in *. destruct pre as [|[i1 s1] pre].
      * cbn [app Driver_spec.chain] in Hch. destruct Hch as (-> & Hb' & _). rewrite Hbody in Hb'. injection Hb' as <-. reflexivity.
      * exfalso. cbn [app Driver_spec.chain] in Hch. destruct Hch as (-> & Hb' & _). rewrite Hbody in Hb'. injection Hb' as <-.
        inversion Hpre as [|? ? Q _]. exact (Q Hm).
    + exfalso. destruct (Driver_model.o_trace o) as [|[i1 s1] tr]; [discriminate Ht|].
      cbn [Driver_spec.chain] in Hch. destruct Hch as (-> & Hb' & _). rewrite Hbody in Hb'. injection Hb' as <-.
      inversion Hno as [|? ? Q _]. exact (Q Hm).
  - assert (Fp : fget (checked K) "p" = Some (fsched (Sched_model.cfg_step None (Some 1) (Some 3) (Some 3%Z) None))).
    { rewrite checked_same by reflexivity. reflexivity. }
    split; [|split].
    + do 3 eexists. split; [exact Fp|]. split; [reflexivity|]. 
      unfold Sched_model.value, Sched_model.set_iters. cbn -[Sched_model.step_index]. unfold Sched_model.schedule_step. cbn -[Sched_model.step_index].
      assert (E : Sched_model.step_index 1 200 3 = 0%Z) by (unfold Sched_model.step_index; rewrite (Rfloor_unique _ 0) by lra; reflexivity).
      rewrite E. do 2 f_equal. lra.
    + eexists. split; [exact Fp|]. reflexivity.
    + do 3 eexists. split; [exact Fp|]. split; reflexivity.
Qed.
Print Assumptions C96_convergence_before_targets_refuted.
