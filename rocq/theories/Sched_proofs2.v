From Verif Require Import Base Sched_model Sched_spec Sched_proofs.
Open Scope R_scope.
Open Scope string_scope.
Open Scope list_scope.

(* ---- C07 -------------------------------------------------------------- *)

Lemma isclose_one_iff x : isclose_one x = true <-> close_to_one x.
Proof. unfold isclose_one, close_to_one. rewrite Rleb_true, Rabs_R1. tauto. Qed.

Lemma check_to_one_ok t n c b m :
  check_to_one t n c b = Ok m <->
  (n = Some m /\ (0 < m)%Z /\ (forall x, t = Some x -> close_to_one x) /\
   (b = true -> c <> None)).
Proof.
  unfold check_to_one; destruct n as [n|]; [|split; [discriminate|intros [? _]; discriminate]].
  destruct (Z.leb_spec n 0).
  - split; [discriminate|]. intros (E & ? & _); inversion E; subst; lia.
  - destruct b; [destruct c as [c|]|]; cbn [req bind].
    1,3: destruct t as [t|]; [destruct (isclose_one t) eqn:E|];
      (split; [try discriminate; intros E0; inversion E0; subst; repeat split; auto; try discriminate;
               intros x Ex; inversion Ex; subst; apply isclose_one_iff; auto
              | intros (E0 & ? & H1 & H2); inversion E0; subst; auto]).
    1,2: exfalso; specialize (H1 t eq_refl); apply isclose_one_iff in H1; congruence.
    split; [discriminate|]. intros (_ & _ & _ & H1); exfalso; apply H1; auto.
Qed.

Definition expected_config name init target num iters curv ty :=
  mkConfig name (effective_init ty init target num) (effective_target ty target)
           num iters curv ty.

Ltac split_types ty :=
  repeat match goal with
  | |- context [String.eqb ty ?s] =>
      destruct (String.eqb_spec ty s); [subst ty; cbn [String.eqb Ascii.eqb Bool.eqb]|]
  end.

Lemma from_defaults_sound name init target num iters curv ty cfg :
  from_defaults name init target num iters curv ty = Ok cfg ->
  acceptable ty init target num curv /\
  cfg = expected_config name init target num iters curv ty.
Proof.
  unfold from_defaults.
  destruct (String.eqb_spec ty "Constant").
  { subst; destruct target; [|discriminate]; intros E; inversion E; subst; split.
    constructor. destruct init; reflexivity. }
  destruct (String.eqb_spec ty "ConstantOne").
  { subst; intros E; inversion E; subst; split; [constructor|reflexivity]. }
  destruct (String.eqb_spec ty "Step").
  { subst; destruct init, target, num; try discriminate; intros E; inversion E; subst; split;
      [apply acc_step; simpl; auto|reflexivity]. }
  destruct (String.eqb_spec ty "StepToOne").
  { subst. destruct (check_to_one target num curv false) eqn:E; [|discriminate].
    apply check_to_one_ok in E; destruct E as (-> & ? & ? & ?).
    cbn [bind]; intros E; inversion E; subst; split; [|reflexivity].
    apply acc_to_one; simpl; auto. }
  destruct (String.eqb_spec ty "StepAcceleratingToOne").
  { subst. destruct (check_to_one target num curv true) eqn:E; [|discriminate].
    apply check_to_one_ok in E; destruct E as (-> & ? & ? & ?).
    cbn [bind]; intros E; inversion E; subst; split; [|reflexivity].
    apply acc_to_one; simpl; auto. }
  destruct (String.eqb_spec ty "StepDeceleratingToOne").
  { subst. destruct (check_to_one target num curv true) eqn:E; [|discriminate].
    apply check_to_one_ok in E; destruct E as (-> & ? & ? & ?).
    cbn [bind]; intros E; inversion E; subst; split; [|reflexivity].
    apply acc_to_one; simpl; auto. }
  destruct (String.eqb_spec ty "StepAccelerating").
  { subst; destruct init, target, num, curv; try discriminate; intros E; inversion E; subst; split;
      [apply acc_curved; simpl; auto|reflexivity]. }
  destruct (String.eqb_spec ty "StepDecelerating").
  { subst; destruct init, target, num, curv; try discriminate; intros E; inversion E; subst; split;
      [apply acc_curved; simpl; auto|reflexivity]. }
  destruct (String.eqb_spec ty "SawtoothDecay").
  { subst; destruct init, target, num; try discriminate; intros E; inversion E; subst; split;
      [apply acc_step; simpl; auto|reflexivity]. }
  destruct (String.eqb_spec ty "None").
  { subst; intros E; inversion E; subst; split; [constructor|reflexivity]. }
  discriminate.
Qed.

Lemma from_defaults_complete name init target num iters curv ty :
  acceptable ty init target num curv ->
  from_defaults name init target num iters curv ty =
  Ok (expected_config name init target num iters curv ty).
Proof.
  intros H; inversion H; subst.
  - destruct init; reflexivity.
  - reflexivity.
  - reflexivity.
  - destruct H0 as [<-|[<-|[]]]; reflexivity.
  - destruct H0 as [<-|[<-|[]]]; reflexivity.
  - assert (E : forall b, (b = true -> curv <> None) -> check_to_one target (Some n) curv b = Ok n)
      by (intros; apply check_to_one_ok; auto).
    destruct H0 as [<-|[<-|[<-|[]]]]; unfold from_defaults; cbn [String.eqb Ascii.eqb Bool.eqb];
      rewrite E by (auto; try discriminate; intros; apply H3; discriminate); reflexivity.
Qed.

Lemma from_defaults_iff name init target num iters curv ty cfg :
  from_defaults name init target num iters curv ty = Ok cfg <->
  acceptable ty init target num curv /\
  cfg = expected_config name init target num iters curv ty.
Proof.
  split; [apply from_defaults_sound|].
  intros [H ->]; apply from_defaults_complete; auto.
Qed.

Lemma from_defaults_err name init target num iters curv ty e :
  from_defaults name init target num iters curv ty = Err e -> e = ValueError.
Proof.
  assert (C : forall b e, check_to_one target num curv b = Err e -> e = ValueError).
  { unfold check_to_one; intros b e'; destruct num as [n|]; [|congruence].
    destruct (n <=? 0)%Z; [congruence|]. destruct b, curv, target as [t|]; cbn [req bind]; try congruence;
    destruct (isclose_one t); congruence. }
  unfold from_defaults; intros H.
  destruct (String.eqb ty "Constant"); [destruct target, init; cbn in H; congruence|].
  destruct (String.eqb ty "ConstantOne"); [congruence|].
  destruct (String.eqb ty "Step"); [destruct init, target, num; cbn in H; congruence|].
  destruct (String.eqb ty "StepToOne").
  { destruct (check_to_one target num curv false) eqn:E; cbn in H; [discriminate|]. inversion H; subst; eauto. }
  destruct (String.eqb ty "StepAcceleratingToOne").
  { destruct (check_to_one target num curv true) eqn:E; cbn in H; [discriminate|]. inversion H; subst; eauto. }
  destruct (String.eqb ty "StepDeceleratingToOne").
  { destruct (check_to_one target num curv true) eqn:E; cbn in H; [discriminate|]. inversion H; subst; eauto. }
  destruct (String.eqb ty "StepAccelerating"); [destruct init, target, num, curv; cbn in H; congruence|].
  destruct (String.eqb ty "StepDecelerating"); [destruct init, target, num, curv; cbn in H; congruence|].
  destruct (String.eqb ty "SawtoothDecay"); [destruct init, target, num; cbn in H; congruence|].
  destruct (String.eqb ty "None"); congruence.
Qed.

(* ---- C01 -------------------------------------------------------------- *)

(* what from_config makes of an accepted config *)
Lemma accepted_builds name init target num iters curv ty cfg :
  from_defaults name init target num iters curv ty = Ok cfg ->
  exists cfg' s, from_config cfg = Ok (cfg', s) /\ s_target s = effective_target ty target.
Proof.
  intros H; apply from_defaults_sound in H; destruct H as [H ->].
  inversion H; subst; [| | |destruct H0 as [<-|[<-|[]]]|destruct H0 as [<-|[<-|[]]]
    |destruct H0 as [<-|[<-|[<-|[]]]]];
    do 2 eexists; (split; [reflexivity|reflexivity]).
Qed.

Definition curved_types := ["StepAccelerating"; "StepDecelerating";
                            "StepAcceleratingToOne"; "StepDeceleratingToOne"].

Lemma py_pow_cases b e :
  0 <= b -> (exists v, py_pow b e = Ok v) \/ (py_pow b e = Err ZeroDivisionError /\ e < 0).
Proof.
  intros; unfold py_pow. destruct (Rltb b 0) eqn:E; [apply Rltb_true in E; lra|].
  destruct (Reqb b 0); [|eauto]. destruct (Rltb e 0) eqn:E1; [apply Rltb_true in E1; auto|].
  destruct (Reqb e 0); eauto.
Qed.

Lemma call_curved_cases f it T i t n c :
  f = FAccel \/ f = FDecel -> (0 < T)%Z -> (0 <= it)%Z ->
  (exists v, call_func f it T (Some i) t n (Some c) = Ok v) \/
  (call_func f it T (Some i) t n (Some c) = Err ZeroDivisionError /\ c < 0).
Proof.
  intros Hf HT Hi. destruct (Z.leb_spec n 1).
  - left; destruct Hf; subst; cbn [call_func];
      unfold schedule_step_accelerating, schedule_step_decelerating; zb; eauto.
  - pose proof (alpha_range it T n HT ltac:(lia) Hi) as A.
    destruct Hf; subst; cbn [call_func];
      unfold schedule_step_accelerating, schedule_step_decelerating; zb; cbn [need bind];
      fold (alpha_of it T n).
    + destruct (py_pow_cases (alpha_of it T n) c ltac:(lra)) as [[v ->]|[-> ?]]; simpl; eauto.
    + destruct (py_pow_cases (1 - alpha_of it T n) c ltac:(lra)) as [[v ->]|[-> ?]]; simpl; eauto.
Qed.

(* the complete classification of what value() can do *)
Definition value_outcome (ty : string) (target : option R) (num : option Z)
   (curv : option R) (T it : Z) (r : res (option R)) : Prop :=
  match r with
  | Ok None => ty = "None" /\ target = None
  | Ok (Some _) => ty <> "None" \/ target <> None
  | Err ValueError => ty = "SawtoothDecay" /\ num = Some 0%Z /\ (it < T)%Z
  | Err ZeroDivisionError =>
      In ty curved_types /\ (exists c, curv = Some c /\ c < 0) /\ (it < T)%Z
  | Err TypeError =>
      ty = "None" /\ target <> None /\ (exists n, num = Some n /\ (0 <= n)%Z) /\ (it < T)%Z
  | Err _ => False
  end.

Lemma value_outcome_curved f nm i t n T c ty target it :
  f = FAccel \/ f = FDecel -> In ty curved_types ->
  (0 < T)%Z -> (0 <= it)%Z -> ty <> "None" ->
  value_outcome ty target (Some n) (Some c) T it
    (value (mkScheduler nm (Some i) (Some t) (Some n) (Some T) (Some c) (Some f)) it).
Proof.
  intros Hf Hty HT Hi Hne; unfold value; cbn [s_target s_num s_iters s_func s_init s_curv].
  destruct (Z.ltb_spec n 0); [simpl; auto|].
  destruct (Z.leb_spec T it); [simpl; auto|].
  destruct (call_curved_cases f it T i t n c Hf HT Hi) as [[v ->]|[-> ?]]; cbn [bind value_outcome].
  - auto.
  - split; auto. split; [eexists; split; eauto|lia].
Qed.

Lemma value_outcome_step nm i t n T cv ty target num curv it :
  (0 < T)%Z -> (0 <= it)%Z -> ty <> "None" ->
  value_outcome ty target num curv T it
    (value (mkScheduler nm (Some i) (Some t) (Some n) (Some T) cv (Some FStep)) it).
Proof.
  intros. pose proof (value_step FStep nm it T i t n 1 cv) as V.
  unfold step_sched in V; rewrite V; auto. simpl; auto. left; auto.
Qed.

Lemma value_classified name init target num iters curv ty cfg cfg' s T it :
  from_defaults name init target num iters curv ty = Ok cfg ->
  from_config cfg = Ok (cfg', s) -> (0 < T)%Z -> (0 <= it)%Z ->
  value_outcome ty target num curv T it (value (set_iters T s) it).
Proof.
  intros H B HT Hi; apply from_defaults_sound in H; destruct H as [H ->].
  inversion H; subst.
  - (* Constant *) cbn in B; inversion B; subst; simpl; left; discriminate.
  - cbn in B; inversion B; subst; simpl; left; discriminate.
  - (* None *) cbn in B; inversion B; subst; unfold value; simpl.
    destruct target as [t|]; simpl; [|auto]. destruct num as [n|]; simpl; [|right; discriminate].
    destruct (Z.ltb_spec n 0); simpl; [right; discriminate|].
    destruct (Z.leb_spec T it); simpl; [right; discriminate|].
    split; [auto|]. split; [discriminate|]. split; [exists n; split; auto|lia].
  - destruct H0 as [<-|[<-|[]]]; cbn in B; inversion B; subst.
    + apply value_outcome_step; auto; discriminate.
    + unfold value, set_iters; simpl.
      destruct (Z.ltb_spec n 0); simpl; [left; discriminate|].
      destruct (Z.leb_spec T it); simpl; [left; discriminate|].
      destruct (Z.eqb_spec n 0).
      * subst; unfold schedule_sawtooth_decay. zb; simpl. repeat split; auto.
      * rewrite call_saw by lia; simpl; left; discriminate.
  - destruct H0 as [<-|[<-|[]]]; cbn in B; inversion B; subst; unfold set_iters; simpl;
      apply value_outcome_curved; auto; try discriminate; simpl; auto.
  - destruct H0 as [<-|[<-|[<-|[]]]]; cbn in B.
    + unfold to_one_cfg in B; cbn in B. destruct (Z.eqb_spec n 0); [lia|].
      inversion B; subst; unfold set_iters; cbn [s_name s_init s_target s_num s_curv s_func].
      apply value_outcome_step; auto; discriminate.
    + unfold to_one_cfg in B; cbn in B. destruct (Z.eqb_spec n 0); [lia|].
      destruct curv as [c|]; [|exfalso; apply H3; [discriminate|reflexivity]].
      inversion B; subst; unfold set_iters; cbn [s_name s_init s_target s_num s_curv s_func].
      apply value_outcome_curved; auto; try discriminate; simpl; auto.
    + unfold to_one_cfg in B; cbn in B. destruct (Z.eqb_spec n 0); [lia|].
      destruct curv as [c|]; [|exfalso; apply H3; [discriminate|reflexivity]].
      inversion B; subst; unfold set_iters; cbn [s_name s_init s_target s_num s_curv s_func].
      apply value_outcome_curved; auto; try discriminate; simpl; auto.
Qed.

Lemma value_holds_target s T it :
  (T <= it)%Z -> value (set_iters T s) it = Ok (s_target s).
Proof.
  intros; unfold value, set_iters; cbn [s_target s_num s_iters].
  destruct (s_target s); auto. destruct (s_num s); auto.
  destruct (z <? 0)%Z; auto. destruct (Z.leb_spec T it); auto; lia.
Qed.

Lemma accepted_holds_target name init target num iters curv ty cfg cfg' s T it :
  from_defaults name init target num iters curv ty = Ok cfg ->
  from_config cfg = Ok (cfg', s) -> (T <= it)%Z ->
  value (set_iters T s) it = Ok (effective_target ty target).
Proof.
  intros H B Hle. rewrite value_holds_target by auto.
  destruct (accepted_builds _ _ _ _ _ _ _ _ H) as (c2 & s2 & E & F).
  rewrite B in E; inversion E; subst; rewrite F; reflexivity.
Qed.

(* ---- C02 / C03 -------------------------------------------------------- *)

Lemma step_value_between f nm it T i t n c cv :
  is_step f -> (0 <= it)%Z -> 0 < c -> (f = FStep \/ cv = Some c) ->
  exists v, value (step_sched f nm i t n T cv) it = Ok (Some v) /\ between i t v.
Proof.
  intros Hf Hi Hc Hcv. eexists; split.
  - apply value_step with (c := c); auto.
  - apply mix_between, vweight_range; auto.
Qed.

Lemma step_value_toward f nm it1 it2 T i t n c cv v1 v2 :
  is_step f -> (0 <= it1)%Z -> (it1 <= it2)%Z -> 0 < c -> (f = FStep \/ cv = Some c) ->
  value (step_sched f nm i t n T cv) it1 = Ok (Some v1) ->
  value (step_sched f nm i t n T cv) it2 = Ok (Some v2) ->
  between v1 t v2.
Proof.
  intros Hf H0 H1 Hc Hcv E1 E2.
  rewrite (value_step f nm it1 T i t n c cv) in E1 by auto.
  rewrite (value_step f nm it2 T i t n c cv) in E2 by (auto; lia).
  inversion E1; inversion E2; subst.
  pose proof (vweight_range f it1 T n c Hf H0 Hc).
  pose proof (vweight_range f it2 T n c Hf ltac:(lia) Hc).
  apply mix_toward; try lra. apply vweight_mono; auto.
Qed.

Lemma saw_value_between nm it T i t n :
  (n <> 0)%Z -> (0 < T)%Z ->
  exists v, value (step_sched FSaw nm i t n T None) it = Ok (Some v) /\ between i t v.
Proof.
  intros Hn HT. unfold value, step_sched; simpl.
  assert (between i t t) by (unfold between; rminmax).
  destruct (Z.ltb_spec n 0); [eauto|]. destruct (Z.leb_spec T it); [eauto|].
  rewrite call_saw by lia. eexists; split; [reflexivity|].
  apply mix_between. pose proof (saw_alpha_range it T n); lra.
Qed.

(* ---- C04 -------------------------------------------------------------- *)

Lemma step_value_in_part nm i t n T k it :
  (2 <= n)%Z -> (0 <= it < T)%Z -> (k < n)%Z -> in_part T n k it ->
  value (SchedulerStep nm i t n T) it = Ok (Some (i + IZR k / IZR (n - 1) * (t - i))).
Proof.
  intros Hn Hi Hk Hp.
  change (SchedulerStep nm i t n T) with (step_sched FStep (Some nm) i t n T None).
  rewrite (value_step FStep (Some nm) it T i t n 1 None) by (unfold is_step; auto; lia).
  unfold vweight; zb. cbn [weight]; zb. unfold alpha_of.
  rewrite (step_index_part it T n k) by (auto; lia). do 2 f_equal. unfold mix; ring.
Qed.

Lemma in_part_exists T n it :
  (0 < T)%Z -> (0 < n)%Z -> (0 <= it < T)%Z -> exists k, (0 <= k < n)%Z /\ in_part T n k it.
Proof.
  intros HT Hn Hi; exists (it * n / T)%Z. unfold in_part.
  pose proof (Z.div_mod (it * n) T ltac:(lia)).
  pose proof (Z.mod_pos_bound (it * n) T HT).
  split; [split; [apply Z.div_pos; nia|apply Z.div_lt_upper_bound; nia]|nia].
Qed.

Definition ceil_div (a b : Z) : Z := ((a + b - 1) / b)%Z.
Lemma ceil_div_le a b x : (0 < b)%Z -> (ceil_div a b <= x <-> a <= x * b)%Z.
Proof.
  intros Hb; unfold ceil_div.
  pose proof (Z.div_mod (a + b - 1) b ltac:(lia)).
  pose proof (Z.mod_pos_bound (a + b - 1) b Hb).
  split; intros; nia.
Qed.

Lemma step_plateaus nm i t n T k :
  (2 <= n)%Z -> (0 < T)%Z -> (0 <= k < n)%Z -> i <> t ->
  exists lo hi,
    (0 <= lo)%Z /\ (hi <= T)%Z /\
    ((hi - lo = T / n)%Z \/ (hi - lo = T / n + 1)%Z) /\
    forall it, (0 <= it < T)%Z ->
      (value (SchedulerStep nm i t n T) it = Ok (Some (i + IZR k / IZR (n - 1) * (t - i)))
       <-> (lo <= it < hi)%Z).
Proof.
  intros Hn HT Hk Hne.
  exists (ceil_div (k * T) n), (ceil_div ((k + 1) * T) n).
  assert (Q : forall it, (ceil_div (k * T) n <= it < ceil_div ((k + 1) * T) n)%Z <-> in_part T n k it).
  { intros it; unfold in_part. rewrite ceil_div_le by lia.
    pose proof (ceil_div_le ((k+1)*T) n it ltac:(lia)). lia. }
  split; [|split; [|split]].
  - unfold ceil_div; apply Z.div_pos; nia.
  - apply ceil_div_le; nia.
  - unfold ceil_div.
    pose proof (Z.div_mod T n ltac:(lia)). pose proof (Z.mod_pos_bound T n ltac:(lia)).
    pose proof (Z.div_mod (k * T + n - 1) n ltac:(lia)). pose proof (Z.mod_pos_bound (k*T+n-1) n ltac:(lia)).
    pose proof (Z.div_mod ((k+1) * T + n - 1) n ltac:(lia)). pose proof (Z.mod_pos_bound ((k+1)*T+n-1) n ltac:(lia)).
    set (q := (T / n)%Z) in *. set (a := ((k * T + n - 1) / n)%Z) in *.
    set (b := (((k + 1) * T + n - 1) / n)%Z) in *.
    assert (n * (b - a) < n * (q + 2))%Z by nia.
    assert (n * (q - 1) < n * (b - a))%Z by nia.
    assert (b - a < q + 2)%Z by nia. assert (q - 1 < b - a)%Z by nia. lia.
  - intros it Hi. rewrite Q. split; intros H.
    + destruct (in_part_exists T n it HT ltac:(lia) Hi) as (k' & Hk' & P).
      rewrite (step_value_in_part nm i t n T k' it) in H by (auto; lia).
      inversion H as [E].
      assert (0 < IZR (n - 1)) by (apply IZR_lt; lia).
      assert (IZR k' = IZR k).
      { assert (E' : IZR k' / IZR (n - 1) * (t - i) = IZR k / IZR (n - 1) * (t - i)) by lra.
        apply Rmult_eq_reg_r in E'; [|lra]. unfold Rdiv in E'.
        apply Rmult_eq_reg_r in E'; auto. apply Rinv_neq_0_compat; lra. }
      apply eq_IZR in H1; subst; auto.
    + apply step_value_in_part; auto; lia.
Qed.
