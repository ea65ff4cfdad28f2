(* Property theorems C35-C37. *)
From Coq Require Import Ascii.
From Verif Require Import Base Sched_model Config_model.
Open Scope string_scope.
Open Scope list_scope.

(* ---------------- C35 ---------------- *)
Theorem C35_variable_restored_on_every_exit : forall (A : Type) (body : env -> env * res A) e e' r,
  with_scaled_mode body e = (e', r) ->
  e' MODE = e MODE /\
  (exists e1, e1 MODE = Some "current" /\ (forall k, k <> MODE -> e1 k = e k) /\
     r = snd (body e1) /\ forall k, k <> MODE -> e' k = fst (body e1) k).
Proof.
  intros A body e e' r H. unfold with_scaled_mode in H.
  destruct (body (env_set MODE (Some "current") e)) as [e2 r'] eqn:Eb. injection H as <- <-.
  split; [reflexivity|]. exists (env_set MODE (Some "current") e).
  split; [reflexivity|]. split.
  - intros k Hk. unfold env_set. apply String.eqb_neq in Hk. now rewrite Hk.
  - rewrite Eb. split; [reflexivity|]. intros k Hk. unfold env_set. apply String.eqb_neq in Hk. now rewrite Hk.
Qed.
Print Assumptions C35_variable_restored_on_every_exit.

(* a run that changes no variable of its own leaves the whole environment *)
Theorem C35_environment_unchanged : forall (A : Type) (body : env -> env * res A) e,
  (forall e1 k, fst (body e1) k = e1 k) -> forall k, fst (with_scaled_mode body e) k = e k.
Proof.
  intros A body e Hb k. unfold with_scaled_mode.
  destruct (body _) as [e2 r] eqn:Eb. simpl. unfold env_set at 1.
  destruct (String.eqb_spec k MODE) as [->|Hne]; [reflexivity|].
  change e2 with (fst (e2, r)). rewrite <- Eb, Hb. unfold env_set. apply String.eqb_neq in Hne. now rewrite Hne.
Qed.
Print Assumptions C35_environment_unchanged.

(* inside the guard the mode is valid whatever the user had set *)
Theorem C35_mode_valid_inside : forall (e : env) (A : Type) (k : string -> env -> env * res A),
  with_scaled_mode (fun e1 => match sensitivity_mode e1 with Ok m => k m e1 | Err x => (e1, Err x) end) e
  = with_scaled_mode (fun e1 => k "current" e1) e.
Proof. intros. unfold with_scaled_mode. reflexivity. Qed.
Print Assumptions C35_mode_valid_inside.
(* outside it, exactly the four documented names (any case, surrounding blanks)
   are accepted, and unset means current *)
Theorem C35_mode_validation : forall e m, sensitivity_mode e = Ok m ->
  m = "current" /\
  (e MODE = None \/ exists v, e MODE = Some v /\
     In (strip_lower v) ["current"; "default"; "physical"; "scaled"]).
Proof.
  intros e m H. unfold sensitivity_mode in H. destruct (existsb _ _) eqn:E; [|discriminate].
  injection H as <-. split; [reflexivity|]. destruct (e MODE) as [v|]; [right|now left].
  exists v. split; [reflexivity|]. apply existsb_exists in E. destruct E as (x & Hx & He).
  apply String.eqb_eq in He. now rewrite He.
Qed.
Print Assumptions C35_mode_validation.
Example C35_instance :
  let body := fun e : env => (env_set "OMP" (Some "4") e, Err RuntimeError : res unit) in
  let e0 : env := env_set MODE (Some "Physical ") (fun _ => None) in
  fst (with_scaled_mode body e0) MODE = Some "Physical " /\
  fst (with_scaled_mode body (fun _ => None)) MODE = None /\
  fst (with_scaled_mode body e0) "OMP" = Some "4" /\
  sensitivity_mode e0 = Ok "current" /\
  sensitivity_mode (env_set MODE (Some "raw") e0) = Err ValueError.
Proof. vm_compute. repeat split. Qed.

(* ---------------- C36 ---------------- *)
Lemma pget_pset d k v k' : pget (pset d k v) k' = if String.eqb k' k then Some v else pget d k'.
Proof.
  induction d as [|[q w] d IH]; simpl.
  - destruct (String.eqb k' k); reflexivity.
  - destruct (String.eqb_spec k q) as [->|Hkq]; simpl.
    + destruct (String.eqb k' q); reflexivity.
    + rewrite IH. destruct (String.eqb_spec k' q) as [->|]; [|reflexivity].
      destruct (String.eqb_spec q k); [congruence|reflexivity].
Qed.
Lemma first_loop_get args kws : forall ret ret', NoDup kws -> first_loop args kws ret = Ok ret' ->
  (forall kw, In kw kws -> exists c, sched_of_args args kw = Ok c /\ pget ret' kw = Some (PSched c)) /\
  (forall k, ~ In k kws -> pget ret' k = pget ret k).
Proof.
  induction kws as [|kw kws IH]; intros ret ret' Hnd H; simpl in H.
  - injection H as <-. split; [easy|auto].
  - inversion Hnd as [|? ? Hnin Hnd']; subst.
    destruct (sched_of_args args kw) as [c|] eqn:Ec; [|discriminate]. simpl in H.
    destruct (IH _ _ Hnd' H) as (H1 & H2). split.
    + intros k [<-|Hin]; [|auto]. exists c. split; auto. rewrite H2 by auto.
      rewrite pget_pset, String.eqb_refl. reflexivity.
    + intros k Hk. rewrite H2 by (intros Hin; apply Hk; now right). rewrite pget_pset.
      destruct (String.eqb_spec k kw); [|reflexivity]. subst. exfalso. apply Hk. now left.
Qed.
Lemma second_loop_get args : forall ret k, NoDup (map fst args) ->
  pget (fold_left second_step args ret) k =
  if (String.eqb k "beta_eta" || negb (is_sched_key k))%bool
  then match pget args k with Some v => Some v | None => pget ret k end
  else pget ret k.
Proof.
  induction args as [|[q w] args IH]; intros ret k Hnd.
  - simpl. destruct (_ || _)%bool; reflexivity.
  - inversion Hnd as [|? ? Hnin Hnd']; subst. cbn [fold_left]. rewrite IH by assumption.
    assert (Hnone : pget args q = None).
    { clear - Hnin. induction args as [|[a b] args IH]; [reflexivity|]. simpl in *.
      destruct (String.eqb_spec q a) as [->|]; [exfalso; auto|]. apply IH. auto. }
    cbn [pget]. unfold second_step.
    destruct (String.eqb_spec k q) as [->|Hkq].
    + rewrite Hnone. destruct (String.eqb_spec q "beta_eta") as [->|Hb].
      * change (is_sched_key "beta_eta") with true. simpl. now rewrite pget_pset.
      * destruct (is_sched_key q); simpl; [reflexivity|]. now rewrite pget_pset, String.eqb_refl.
    + apply String.eqb_neq in Hkq.
      assert (Hsame : pget (if is_sched_key q then (if (q =? "beta_eta")%string then pset ret q w else ret)
                            else pset (if (q =? "beta_eta")%string then pset ret q w else ret) q w) k = pget ret k).
      { destruct (is_sched_key q), (q =? "beta_eta")%string; repeat (rewrite pget_pset, Hkq); reflexivity. }
      cbv zeta. rewrite Hsame. reflexivity.
Qed.
Lemma keyw_nodup : NoDup keyw_schedulers.
Proof. unfold keyw_schedulers. repeat (constructor; [simpl; intuition discriminate|]). constructor. Qed.

(* [given args kw]: the numbers the user passed for one schedule *)
Definition given (args : pydict) (kw : string) (i t : option R) (n : option Z) : Prop :=
  exists vi vt vs, pget args (kw ++ "_init") = Some vi /\ pget args kw = Some vt /\
    pget args (kw ++ "_step") = Some vs /\ as_real vi = Ok i /\ as_real vt = Ok t /\ as_int vs = Ok n.

Lemma from_defaults_fields nm i t n it cv ty c :
  from_defaults nm i t n it cv ty = Ok c ->
  In ty ["SawtoothDecay"; "StepAccelerating"; "Step"; "None"] ->
  c = mkConfig nm i t n it cv ty.
Proof.
  intros H Hin. simpl in Hin. decompose [or] Hin; subst; try easy; unfold from_defaults in H; simpl in H;
  destruct i, t, n, cv; simpl in H; congruence.
Qed.

Theorem C36_schedules_as_given_partial : forall args ret, NoDup (map fst args) ->
  args2OC_Config_dict args = Ok ret ->
  forall kw, In kw keyw_schedulers ->
  exists c i t n, pget ret kw = Some (PSched c) /\ given args kw i t n /\
    c_name c = Some kw /\ c_init c = i /\ c_target c = t /\ c_num c = n /\ c_iters c = None /\
    (kw = "move_limit" -> c_type c = "SawtoothDecay") /\
    (kw = "beta" -> c_type c = "StepAccelerating" /\
        exists v, pget args "beta_curvature" = Some v /\ as_real v = Ok (c_curv c)) /\
    (kw <> "beta" -> c_curv c = None) /\
    (In kw ["filter_radius"; "vol_frac"; "p"] -> c_type c = "Step") /\
    (kw = "percentile" -> c_type c = if match t with None => true | _ => false end then "None" else "Step").
Proof.
  intros args ret Hnd H kw Hkw. unfold args2OC_Config_dict in H.
  destruct (first_loop args keyw_schedulers []) as [r1|] eqn:E1; [|discriminate]. simpl in H.
  injection H as <-. destruct (first_loop_get _ _ _ _ keyw_nodup E1) as (Hf & _).
  destruct (Hf kw Hkw) as (c & Hc & Hg). unfold sched_of_args in Hc.
  destruct (if (kw =? "beta")%string then _ else _) as [cv|] eqn:Ecv; [|discriminate]. simpl in Hc.
  unfold pindex in *.
  destruct (pget args kw) as [vt|] eqn:Et; [|discriminate]. simpl in Hc.
  destruct (pget args (kw ++ "_init")) as [vi|] eqn:Ei; [|discriminate]. simpl in Hc.
  destruct (pget args (kw ++ "_step")) as [vs|] eqn:Es; [|discriminate]. simpl in Hc.
  destruct (as_real vi) as [i|] eqn:Ei'; [|discriminate]. simpl in Hc.
  destruct (as_real vt) as [t|] eqn:Et'; [|discriminate]. simpl in Hc.
  destruct (as_int vs) as [n|] eqn:Es'; [|discriminate]. simpl in Hc.
  assert (Hty : In (stype_of kw vt) ["SawtoothDecay"; "StepAccelerating"; "Step"; "None"]).
  { unfold stype_of. destruct (kw =? "move_limit")%string; [simpl; tauto|].
    destruct (kw =? "beta")%string; [simpl; tauto|].
    destruct (kw =? "percentile")%string; [|simpl; tauto]. destruct vt; simpl; tauto. }
  apply from_defaults_fields in Hc; [|exact Hty]. subst c.
  exists (mkConfig (Some kw) i t n None cv (stype_of kw vt)), i, t, n.
  split.
  { rewrite second_loop_get by assumption. rewrite Hg.
    assert (Hk : is_sched_key kw = true /\ (kw =? "beta_eta")%string = false).
    { unfold keyw_schedulers in Hkw. simpl in Hkw. decompose [or] Hkw; subst; try easy; split; reflexivity. }
    destruct Hk as (-> & ->). reflexivity. }
  split; [exists vi, vt, vs; auto 10|]. simpl.
  repeat (split; [reflexivity|]).
  split; [intros ->; reflexivity|].
  split; [intros ->; split; [reflexivity|]|].
  { simpl in Ecv. destruct (pget args "beta_curvature") as [v|]; [|discriminate]. simpl in Ecv. eauto. }
  split; [intros Hne; apply String.eqb_neq in Hne; rewrite Hne in Ecv; congruence|].
  split; [intros Hin; decompose [or] Hin; subst; try easy; reflexivity|].
  intros ->. unfold stype_of. simpl. destruct vt; simpl in Et'; try discriminate; injection Et' as <-; reflexivity.
Qed.
Print Assumptions C36_schedules_as_given_partial.

Theorem C36_other_options_copied : forall args ret, NoDup (map fst args) ->
  args2OC_Config_dict args = Ok ret ->
  forall k, ~ In k keyw_schedulers ->
  pget ret k = if (String.eqb k "beta_eta" || negb (is_sched_key k))%bool then pget args k else None.
Proof.
  intros args ret Hnd H k Hk. unfold args2OC_Config_dict in H.
  destruct (first_loop args keyw_schedulers []) as [r1|] eqn:E1; [|discriminate]. simpl in H.
  injection H as <-. destruct (first_loop_get _ _ _ _ keyw_nodup E1) as (_ & Hf).
  rewrite second_loop_get by assumption. rewrite (Hf k Hk). simpl.
  destruct (_ || _)%bool; [|reflexivity]. destruct (pget args k); reflexivity.
Qed.
Print Assumptions C36_other_options_copied.

(* What is false: the conversion fails on the parser's own defaults ... *)
Theorem C36_parser_defaults_rejected_refuted :
  args2OC_Config_dict parser_defaults = Err ValueError.
Proof. reflexivity. Qed.
Print Assumptions C36_parser_defaults_rejected_refuted.
(* ... more generally whenever any of the step counts of vol_frac, p, beta is
   left at its default None *)
Theorem C36_missing_step_count_rejected_refuted : forall args kw,
  In kw ["filter_radius"; "move_limit"; "vol_frac"; "p"; "beta"] ->
  pget args (kw ++ "_step") = Some PNone -> forall ret, args2OC_Config_dict args <> Ok ret.
Proof.
  intros args kw Hkw Hs ret H. unfold args2OC_Config_dict in H.
  destruct (first_loop args keyw_schedulers []) as [r1|] eqn:E1; [|discriminate].
  destruct (first_loop_get _ _ _ _ keyw_nodup E1) as (Hf & _).
  assert (Hin : In kw keyw_schedulers) by (simpl in *; intuition).
  destruct (Hf kw Hin) as (c & Hc & _). unfold sched_of_args, pindex in Hc. rewrite Hs in Hc.
  destruct (if (kw =? "beta")%string then _ else _) as [cv|]; [|discriminate]. simpl in Hc.
  destruct (pget args kw) as [vt|]; [|discriminate]. simpl in Hc.
  destruct (pget args (kw ++ "_init")) as [vi|]; [|discriminate]. simpl in Hc.
  destruct (as_real vi) as [i|]; [|discriminate]. destruct (as_real vt) as [t|]; [|discriminate]. simpl in Hc.
  simpl in Hkw. decompose [or] Hkw; subst; try easy; unfold from_defaults in Hc; simpl in Hc;
    destruct i, t; simpl in Hc; discriminate.
Qed.
Print Assumptions C36_missing_step_count_rejected_refuted.
(* ... and an unrelated option whose name merely starts with "p" is lost *)
Theorem C36_option_starting_with_p_lost_refuted : forall args ret, NoDup (map fst args) ->
  args2OC_Config_dict args = Ok ret -> pget ret "petsc_options" = None.
Proof.
  intros args ret Hnd H. rewrite (C36_other_options_copied args ret Hnd H); [reflexivity|].
  simpl. intuition discriminate.
Qed.
Print Assumptions C36_option_starting_with_p_lost_refuted.


(* a missing option is reported, by name lookup (KeyError), and never replaced by
   a default: with no value, start value or step count for a schedule there is no
   result; the error is the dictionary's KeyError when it is met first *)
Theorem C36_missing_option_rejected : forall args kw, In kw keyw_schedulers ->
  (pget args kw = None \/ pget args (kw ++ "_init") = None \/ pget args (kw ++ "_step") = None \/
   (kw = "beta" /\ pget args "beta_curvature" = None)) ->
  (forall ret, args2OC_Config_dict args <> Ok ret) /\
  (kw = "filter_radius" -> args2OC_Config_dict args = Err KeyError).
Proof.
  intros args kw Hkw Hm.
  assert (He : exists e, sched_of_args args kw = Err e /\ (kw <> "beta" -> e = KeyError)).
  { unfold sched_of_args. destruct (String.eqb kw "beta") eqn:Eb.
    - apply String.eqb_eq in Eb. subst kw. unfold pindex.
      destruct (pget args "beta_curvature") as [v|] eqn:Ev; cbn [bind];
        [|exists KeyError; split; [reflexivity|congruence]].
      destruct (as_real v) as [c|e]; cbn [bind]; [|exists e; split; [reflexivity|congruence]].
      destruct Hm as [Hm|[Hm|[Hm|(_ & Hm)]]]; [| | |discriminate].
      + rewrite Hm. cbn [bind]. exists KeyError. now split.
      + destruct (pget args "beta"); cbn [bind]; [rewrite Hm; cbn [bind]|]; exists KeyError; now split.
      + destruct (pget args "beta"); cbn [bind]; [|exists KeyError; now split].
        destruct (pget args ("beta" ++ "_init")); cbn [bind]; [rewrite Hm; cbn [bind]|]; exists KeyError; now split.
    - apply String.eqb_neq in Eb. cbn [bind]. unfold pindex.
      destruct Hm as [Hm|[Hm|[Hm|(Hm & _)]]]; [| | |now apply Eb in Hm].
      + rewrite Hm. cbn [bind]. exists KeyError. now split.
      + destruct (pget args kw); cbn [bind]; [rewrite Hm; cbn [bind]|]; exists KeyError; now split.
      + destruct (pget args kw); cbn [bind]; [|exists KeyError; now split].
        destruct (pget args (kw ++ "_init")); cbn [bind]; [rewrite Hm; cbn [bind]|]; exists KeyError; now split. }
  destruct He as (e & He & Hk). split.
  - intros ret H. unfold args2OC_Config_dict in H.
    destruct (first_loop args keyw_schedulers []) as [r1|] eqn:E1; [|discriminate].
    destruct (first_loop_get _ _ _ _ keyw_nodup E1) as (Hf & _).
    destruct (Hf kw Hkw) as (c & Hc & _). congruence.
  - intros ->. unfold args2OC_Config_dict, keyw_schedulers. cbn [first_loop]. rewrite He. cbn [bind].
    now rewrite Hk by discriminate.
Qed.
Print Assumptions C36_missing_option_rejected.
Example C36_missing_instance : args2OC_Config_dict [("filter_radius", PFloat 1)] = Err KeyError.
Proof. apply (C36_missing_option_rejected _ "filter_radius"); [now left| |reflexivity]. right. left. reflexivity. Qed.


(* the command line with nothing but the three step counts that have no default
   gives these schedules (start, target, steps) *)
Theorem C36_default_schedules : forall nv np nb : Z, exists ret,
  args2OC_Config_dict (pset (pset (pset parser_defaults "vol_frac_step" (PInt nv)) "p_step" (PInt np)) "beta_step" (PInt nb)) = Ok ret /\
  let sched kw i t n cv ty := pget ret kw = Some (PSched (mkConfig (Some kw) i t n None cv ty)) in
  sched "filter_radius" (Some (1/100)) (Some (1/100)) (Some 3%Z) None "Step" /\
  sched "move_limit" (Some (8/10)) (Some (2/10)) (Some 5%Z) None "SawtoothDecay" /\
  sched "vol_frac" (Some (8/10)) (Some (4/10)) (Some nv) None "Step" /\
  sched "p" (Some 1) (Some 3) (Some np) None "Step" /\
  sched "beta" (Some (1/10)) (Some 5) (Some nb) (Some 5) "StepAccelerating" /\
  sched "percentile" None None None None "None" /\
  pget ret "max_iters" = Some (PInt 200) /\ pget ret "rho_min" = Some (PFloat (1/10)) /\
  pget ret "E_min_coeff" = Some (PFloat (1/1000)) /\ pget ret "eta" = Some (PFloat (3/10)) /\
  pget ret "beta_eta" = Some (PFloat (1/2)) /\ pget ret "lambda_lower" = Some (PFloat (1/10000)) /\
  pget ret "lambda_upper" = Some (PFloat 100) /\ pget ret "record_times" = Some (PInt 20).
Proof.
  intros nv np nb. eexists. split; [reflexivity|]. cbv zeta. repeat (split; [reflexivity|]). reflexivity.
Qed.
Print Assumptions C36_default_schedules.

(* giving the step counts explicitly works *)
Definition good_args : pydict :=
  pset (pset (pset parser_defaults "vol_frac_step" (PInt 4)) "p_step" (PInt 3)) "beta_step" (PInt 5).
Lemma nodupb_sound l : (fix nd (l : list string) := match l with [] => true | x :: r => (negb (existsb (String.eqb x) r) && nd r)%bool end) l = true -> NoDup l.
Proof.
  induction l as [|x l IH]; intros H; [constructor|].
  apply andb_true_iff in H. destruct H as (H1 & H2). constructor; [|now apply IH].
  intros Hin. apply negb_true_iff in H1.
  assert (existsb (String.eqb x) l = true).
  { apply existsb_exists. exists x. split; auto. apply String.eqb_refl. }
  congruence.
Qed.
Example C36_instance : NoDup (map fst good_args) /\
  exists ret, args2OC_Config_dict good_args = Ok ret /\
    pget ret "beta" = Some (PSched (mkConfig (Some "beta") (Some (1/10)) (Some 5) (Some 5%Z) None (Some 5) "StepAccelerating"))%R /\
    pget ret "rho_min" = Some (PFloat (1/10)) /\ pget ret "beta_eta" = Some (PFloat (1/2)) /\
    pget ret "beta_init" = None.
Proof.
  split; [apply nodupb_sound; reflexivity|].
  eexists. split; [reflexivity|]. repeat split; reflexivity.
Qed.

Theorem C36_str2bool : forall v b, str2bool v = Ok b ->
  v = PBool b \/ exists s, v = PStr s /\
    In (string_of_list_ascii (map lower_char (list_ascii_of_string s)))
       (if b then ["true"; "t"] else ["false"; "f"]).
Proof.
  intros v b H. destruct v; simpl in H; try discriminate; [right|left; congruence].
  exists s. split; [reflexivity|].
  destruct (_ || _)%bool eqn:E1.
  - injection H as <-. apply orb_true_iff in E1. rewrite !String.eqb_eq in E1. simpl. intuition.
  - destruct (_ || _)%bool eqn:E2 in H; [|discriminate]. injection H as <-.
    apply orb_true_iff in E2. rewrite !String.eqb_eq in E2. simpl. intuition.
Qed.
Print Assumptions C36_str2bool.

(* ---------------- C37 ---------------- *)
Lemma fget_import c k : k <> "record_timing" -> fget (import_cfg c) k = fget c k.
Proof.
  intros Hk. induction c as [|[q v] c IH]; [reflexivity|]. simpl.
  destruct (String.eqb_spec q "record_timing") as [->|Hq]; simpl.
  - rewrite IH. apply String.eqb_neq in Hk. now rewrite Hk.
  - now rewrite IH.
Qed.
Lemma fget_export c k : fget (export_cfg c) k =
  match fget c k with Some (FSched s) => Some (FDict (sched_dict s)) | r => r end.
Proof.
  induction c as [|[q v] c IH]; [reflexivity|]. simpl.
  destruct (String.eqb k q); [destruct v; reflexivity|exact IH].
Qed.
(* what holds: every plain field survives *)
Theorem C37_plain_fields_survive_partial : forall c k v, k <> "record_timing" ->
  fget c k = Some (FPlain v) -> fget (import_cfg (export_cfg c)) k = Some (FPlain v).
Proof. intros c k v Hk H. rewrite fget_import by exact Hk. rewrite fget_export, H. reflexivity. Qed.
Print Assumptions C37_plain_fields_survive_partial.
(* all numbers of a schedule are still in the file: it could be rebuilt *)
Theorem C37_schedule_data_survives : forall c k s, k <> "record_timing" -> fget c k = Some (FSched s) ->
  exists d, fget (import_cfg (export_cfg c)) k = Some (FDict d) /\
    pget d "init_value" = Some (opt_real (c_init s)) /\ pget d "target_value" = Some (opt_real (c_target s)) /\
    pget d "num_steps" = Some (opt_int (c_num s)) /\ pget d "iters_max" = Some (opt_int (c_iters s)) /\
    pget d "curvature" = Some (opt_real (c_curv s)) /\ pget d "scheduler_type" = Some (PStr (c_type s)).
Proof.
  intros c k s Hk H. exists (sched_dict s). rewrite fget_import by exact Hk. rewrite fget_export, H.
  repeat split; reflexivity.
Qed.
Print Assumptions C37_schedule_data_survives.
(* what fails: for every configuration, the loaded object cannot initialise an
   optimizer's schedulers, because p, vol_frac, ... come back as dicts *)
Theorem C37_loaded_config_unusable_refuted : forall c l,
  init_schedulers (import_cfg (export_cfg c)) l = Err AttributeError.
Proof.
  intros c l. unfold init_schedulers.
  assert (H : forall k, k <> "record_timing" -> add_field (fget (import_cfg (export_cfg c)) k) "p" l = Err AttributeError).
  { intros k Hk. rewrite fget_import by exact Hk. rewrite fget_export.
    destruct (fget c k) as [[v|s|d]|]; reflexivity. }
  rewrite H by discriminate. reflexivity.
Qed.
Print Assumptions C37_loaded_config_unusable_refuted.
(* while the original initialises: *)
Definition sample_cfg : cfgobj :=
  let sch ty := FSched (mkConfig None (Some 1%R) (Some 1%R) (Some 2%Z) None (Some 2%R) ty) in
  [("max_iters", FPlain (PInt 10)); ("eta", FPlain (PFloat (6/10))); ("p", sch "Step"); ("vol_frac", sch "Constant");
   ("move_limit", sch "SawtoothDecay"); ("beta", sch "StepAccelerating"); ("percentile", sch "None");
   ("filter_radius", sch "Constant"); ("neumann_scale", sch "ConstantOne")].
Example C37_instance : exists l, init_schedulers sample_cfg [] = Ok l /\
  map s_name l = [Some "p"; Some "vol_frac"; Some "move_limit"; Some "beta"; Some "percentile";
                  Some "filter_radius"; Some "neumann_scale"; Some "eta"] /\
  map s_iters l = repeat (Some 10%Z) 8.
Proof. eexists. split; [reflexivity|]. split; reflexivity. Qed.

(* init_schedulers accepts exactly load scales that end at one *)
Theorem C37_neumann_scale_must_end_at_one : forall c l l' n,
  fget c "neumann_scale" = Some (FSched n) -> init_schedulers c l = Ok l' ->
  In (c_type n) ["ConstantOne"; "StepToOne"; "StepAcceleratingToOne"; "StepDeceleratingToOne"].
Proof.
  intros c l l' n Hn H. unfold init_schedulers in H.
  repeat match type of H with
  | bind (add_field ?a ?b ?x) _ = _ => destruct (add_field a b x) as [?|] eqn:?; [cbn [bind] in H|discriminate]
  end.
  rewrite Hn in H. destruct (existsb _ _) eqn:E; [|discriminate].
  apply existsb_exists in E. destruct E as (x & Hx & He). apply String.eqb_eq in He. now rewrite He.
Qed.
Print Assumptions C37_neumann_scale_must_end_at_one.
