From Verif Require Import Base Sched_model Sched_spec Sched_proofs Sched_proofs2.
Open Scope R_scope.
Open Scope string_scope.
Open Scope list_scope.

(* ---- C05 -------------------------------------------------------------- *)

Lemma vweight_accel_le it T n c1 c2 :
  (0 <= it)%Z -> 0 < c1 -> c1 <= c2 ->
  vweight FAccel it T n c2 <= vweight FAccel it T n c1.
Proof.
  intros Hi H1 H2; unfold vweight; destruct (Z.ltb_spec n 0); [lra|].
  destruct (Z.leb_spec T it); [lra|]. cbn [weight]; destruct (Z.leb_spec n 1); [lra|].
  apply pw_exponent; auto. apply alpha_range; lia.
Qed.

Lemma vweight_decel_le it T n c1 c2 :
  (0 <= it)%Z -> 0 < c1 -> c1 <= c2 ->
  vweight FDecel it T n c1 <= vweight FDecel it T n c2.
Proof.
  intros Hi H1 H2; unfold vweight; destruct (Z.ltb_spec n 0); [lra|].
  destruct (Z.leb_spec T it); [lra|]. cbn [weight]; destruct (Z.leb_spec n 1); [lra|].
  pose proof (alpha_range it T n ltac:(lia) ltac:(lia) Hi).
  pose proof (pw_exponent (1 - alpha_of it T n) c1 c2 ltac:(lra) H2). lra.
Qed.

Lemma vweight_one f it T n c :
  is_step f -> (0 <= it)%Z -> vweight f it T n 1 = vweight FStep it T n c.
Proof.
  intros Hf Hi; unfold vweight; destruct (Z.ltb_spec n 0); [lra|].
  destruct (Z.leb_spec T it); [lra|]. destruct Hf as [|[|]]; subst; cbn [weight];
  destruct (Z.leb_spec n 1); try lra.
  - apply pw_one. apply alpha_range; lia.
  - rewrite pw_one; [ring|]. pose proof (alpha_range it T n ltac:(lia) ltac:(lia) Hi); lra.
Qed.

Lemma curvature_one nm i t n T it :
  (0 <= it)%Z ->
  value (SchedulerStepAccelerating nm i t n (Some T) (Some 1)) it = value (SchedulerStep nm i t n T) it /\
  value (SchedulerStepDecelerating nm i t n (Some T) (Some 1)) it = value (SchedulerStep nm i t n T) it.
Proof.
  intros Hi.
  change (SchedulerStep nm i t n T) with (step_sched FStep (Some nm) i t n T None).
  change (SchedulerStepAccelerating nm i t n (Some T) (Some 1)) with (step_sched FAccel (Some nm) i t n T (Some 1)).
  change (SchedulerStepDecelerating nm i t n (Some T) (Some 1)) with (step_sched FDecel (Some nm) i t n T (Some 1)).
  rewrite (value_step FStep (Some nm) it T i t n 1 None) by (unfold is_step; auto).
  rewrite (value_step FAccel (Some nm) it T i t n 1) by (unfold is_step; auto; right; lra).
  rewrite (value_step FDecel (Some nm) it T i t n 1) by (unfold is_step; auto; right; lra).
  rewrite (vweight_one FAccel it T n 1), (vweight_one FDecel it T n 1) by (unfold is_step; auto). auto.
Qed.

Lemma curvature_order nm i t n T it c1 c2 a1 a2 l d1 d2 :
  (0 <= it)%Z -> 1 <= c1 -> c1 <= c2 ->
  value (SchedulerStepAccelerating nm i t n (Some T) (Some c1)) it = Ok (Some a1) ->
  value (SchedulerStepAccelerating nm i t n (Some T) (Some c2)) it = Ok (Some a2) ->
  value (SchedulerStep nm i t n T) it = Ok (Some l) ->
  value (SchedulerStepDecelerating nm i t n (Some T) (Some c1)) it = Ok (Some d1) ->
  value (SchedulerStepDecelerating nm i t n (Some T) (Some c2)) it = Ok (Some d2) ->
  between i l a1 /\ between i a1 a2 /\ between l t d1 /\ between d1 t d2.
Proof.
  intros Hi H1 H2.
  change (SchedulerStep nm i t n T) with (step_sched FStep (Some nm) i t n T None).
  change (SchedulerStepAccelerating nm i t n (Some T) (Some c1)) with (step_sched FAccel (Some nm) i t n T (Some c1)).
  change (SchedulerStepDecelerating nm i t n (Some T) (Some c1)) with (step_sched FDecel (Some nm) i t n T (Some c1)).
  change (SchedulerStepAccelerating nm i t n (Some T) (Some c2)) with (step_sched FAccel (Some nm) i t n T (Some c2)).
  change (SchedulerStepDecelerating nm i t n (Some T) (Some c2)) with (step_sched FDecel (Some nm) i t n T (Some c2)).
  rewrite (value_step FStep (Some nm) it T i t n 1 None) by (unfold is_step; auto).
  rewrite (value_step FAccel (Some nm) it T i t n c1) by (unfold is_step; auto; right; lra).
  rewrite (value_step FDecel (Some nm) it T i t n c1) by (unfold is_step; auto; right; lra).
  rewrite (value_step FAccel (Some nm) it T i t n c2) by (unfold is_step; auto; right; lra).
  rewrite (value_step FDecel (Some nm) it T i t n c2) by (unfold is_step; auto; right; lra).
  intros E1 E2 E3 E4 E5; inversion E1; inversion E2; inversion E3; inversion E4; inversion E5; subst.
  pose proof (vweight_accel_le it T n 1 c1 Hi ltac:(lra) ltac:(lra)) as A1.
  pose proof (vweight_accel_le it T n c1 c2 Hi ltac:(lra) ltac:(lra)) as A2.
  pose proof (vweight_decel_le it T n 1 c1 Hi ltac:(lra) ltac:(lra)) as D1.
  pose proof (vweight_decel_le it T n c1 c2 Hi ltac:(lra) ltac:(lra)) as D2.
  rewrite (vweight_one FAccel it T n 1) in A1 by (unfold is_step; auto).
  rewrite (vweight_one FDecel it T n 1) in D1 by (unfold is_step; auto).
  pose proof (vweight_range FStep it T n 1 ltac:(unfold is_step; auto) Hi ltac:(lra)).
  pose proof (vweight_range FAccel it T n c1 ltac:(unfold is_step; auto) Hi ltac:(lra)).
  pose proof (vweight_range FAccel it T n c2 ltac:(unfold is_step; auto) Hi ltac:(lra)).
  pose proof (vweight_range FDecel it T n c1 ltac:(unfold is_step; auto) Hi ltac:(lra)).
  pose proof (vweight_range FDecel it T n c2 ltac:(unfold is_step; auto) Hi ltac:(lra)).
  split; [apply mix_back; lra|]. split; [apply mix_back; lra|].
  split; apply mix_toward; lra.
Qed.

(* decelerating from i to t at part k mirrors accelerating from t to i at part n-1-k *)
Lemma decel_mirrors_accel nm i t n T c it it' k :
  (2 <= n)%Z -> 0 < c -> (0 <= it < T)%Z -> (0 <= it' < T)%Z -> (0 <= k < n)%Z ->
  in_part T n k it -> in_part T n (n - 1 - k) it' ->
  value (SchedulerStepDecelerating nm i t n (Some T) (Some c)) it =
  value (SchedulerStepAccelerating nm t i n (Some T) (Some c)) it'.
Proof.
  intros Hn Hc Hi Hi' Hk P P'.
  change (SchedulerStepAccelerating nm t i n (Some T) (Some c)) with (step_sched FAccel (Some nm) t i n T (Some c)).
  change (SchedulerStepDecelerating nm i t n (Some T) (Some c)) with (step_sched FDecel (Some nm) i t n T (Some c)).
  rewrite (value_step FDecel (Some nm) it T i t n c) by (unfold is_step; auto; lia).
  rewrite (value_step FAccel (Some nm) it' T t i n c) by (unfold is_step; auto; lia).
  unfold vweight; zb. cbn [weight]; zb. unfold alpha_of.
  rewrite (step_index_part it T n k), (step_index_part it' T n (n-1-k)) by (auto; lia).
  assert (IZR (n - 1) <> 0) by (apply not_0_IZR; lia).
  replace (1 - IZR k / IZR (n - 1)) with (IZR (n - 1 - k) / IZR (n - 1)).
  - do 2 f_equal; unfold mix; ring.
  - rewrite minus_IZR. field; auto.
Qed.

(* ---- C06 -------------------------------------------------------------- *)

Lemma saw_linear nm i t n T it j :
  (0 < n)%Z -> (1 <= it < T)%Z -> (0 <= j)%Z ->
  IZR j * (IZR T / IZR n) <= IZR (it - 1) < (IZR j + 1) * (IZR T / IZR n) ->
  value (SchedulerSawtoothDecay nm i t n (Some T)) it =
  Ok (Some (i + (IZR (it - 1) - IZR j * (IZR T / IZR n)) / (IZR T / IZR n) * (t - i))).
Proof.
  intros Hn Hi Hj [H1 H2].
  change (SchedulerSawtoothDecay nm i t n (Some T)) with (step_sched FSaw (Some nm) i t n T None).
  rewrite value_saw by lia. do 2 f_equal.
  assert (0 < IZR n) by (apply IZR_lt; lia). assert (0 < IZR T) by (apply IZR_lt; lia).
  set (L := IZR T / IZR n) in *.
  assert (HL : 0 < L) by (unfold L; apply Rmult_lt_0_compat; auto; apply Rinv_0_lt_compat; auto).
  unfold saw_alpha; fold L.
  rewrite (Rfloor_unique (IZR (it - 1) / L) j).
  - unfold mix; field; lra.
  - split.
    + apply Rmult_le_reg_r with L; auto. unfold Rdiv; rewrite Rmult_assoc, Rinv_l; lra.
    + apply Rmult_lt_reg_r with L; auto. unfold Rdiv; rewrite Rmult_assoc, Rinv_l; lra.
Qed.

Lemma saw_cycle_exists n T it :
  (0 < n)%Z -> (1 <= it < T)%Z ->
  exists j, (0 <= j < n)%Z /\
    IZR j * (IZR T / IZR n) <= IZR (it - 1) < (IZR j + 1) * (IZR T / IZR n).
Proof.
  intros Hn Hi. destruct (in_part_exists T n (it - 1) ltac:(lia) Hn ltac:(lia)) as (j & Hj & [P1 P2]).
  exists j; split; auto.
  assert (0 < IZR n) by (apply IZR_lt; lia).
  apply IZR_le in P1. apply IZR_lt in P2. rewrite !mult_IZR in *. rewrite plus_IZR in P2.
  unfold Rdiv; rewrite <- !Rmult_assoc.
  split.
  - apply Rmult_le_reg_r with (IZR n); auto. rewrite Rmult_assoc, Rinv_l; lra.
  - apply Rmult_lt_reg_r with (IZR n); auto. rewrite Rmult_assoc, Rinv_l; lra.
Qed.

Lemma saw_never_target nm i t n T it v :
  (0 < n)%Z -> (1 <= it < T)%Z -> i <> t ->
  value (SchedulerSawtoothDecay nm i t n (Some T)) it = Ok (Some v) -> v <> t.
Proof.
  intros Hn Hi Hne E.
  change (SchedulerSawtoothDecay nm i t n (Some T)) with (step_sched FSaw (Some nm) i t n T None) in E.
  rewrite value_saw in E by lia. inversion E; subst. unfold mix.
  pose proof (saw_alpha_range it T n). intro F.
  assert ((1 - saw_alpha it T n) * (i - t) = 0) by lra.
  apply Rmult_integral in H0; lra.
Qed.

Lemma saw_periodic nm i t n L it :
  (0 < n)%Z -> (0 < L)%Z -> (1 <= it)%Z -> (it + L < n * L)%Z ->
  value (SchedulerSawtoothDecay nm i t n (Some (n * L)%Z)) (it + L) =
  value (SchedulerSawtoothDecay nm i t n (Some (n * L)%Z)) it.
Proof.
  intros Hn HL Hi Hlt.
  destruct (saw_cycle_exists n (n * L) it Hn ltac:(lia)) as (j & Hj & P).
  assert (EL : IZR (n * L) / IZR n = IZR L).
  { rewrite mult_IZR; field; apply not_0_IZR; lia. }
  rewrite (saw_linear nm i t n (n*L) it j) by (auto; lia).
  rewrite (saw_linear nm i t n (n*L) (it + L) (j + 1)); [| lia | lia | lia |].
  - rewrite EL. do 2 f_equal.
    replace (it + L - 1)%Z with ((it - 1) + L)%Z by lia. rewrite !plus_IZR. 
    field; apply not_0_IZR; lia.
  - rewrite EL in *. replace (it + L - 1)%Z with ((it - 1) + L)%Z by lia. rewrite !plus_IZR. lra.
Qed.

(* ---- C08 -------------------------------------------------------------- *)

Lemma to_one_scheduler name init target num iters curv ty cfg cfg' s T :
  In ty to_one_types ->
  from_defaults name init target num iters curv ty = Ok cfg ->
  from_config cfg = Ok (cfg', s) ->
  exists n f, num = Some n /\ (0 < n)%Z /\ is_step f /\ (f <> FStep -> curv <> None) /\
    set_iters T s = step_sched f name (1 / IZR n) 1 n T curv.
Proof.
  intros Hty H B; apply from_defaults_sound in H; destruct H as [H ->].
  assert (exists n, num = Some n /\ (0 < n)%Z /\ (ty <> "StepToOne" -> curv <> None)) as (n & -> & Hn & Hc).
  { inversion H; subst; simpl in Hty; try (exfalso; intuition congruence).
    - exfalso; simpl in H0; intuition congruence.
    - exfalso; simpl in H0; intuition congruence.
    - eauto. }
  exists n.
  destruct Hty as [<-|[<-|[<-|[]]]]; cbn in B; unfold to_one_cfg in B; cbn in B;
    destruct (Z.eqb_spec n 0); try lia; inversion B; subst.
  - exists FStep; unfold is_step; repeat split; auto; congruence.
  - exists FAccel; unfold is_step; repeat split; auto. intros _; apply Hc; discriminate.
  - exists FDecel; unfold is_step; repeat split; auto. intros _; apply Hc; discriminate.
Qed.

Lemma to_one_climbs name init target num iters curv ty cfg cfg' s T it1 it2 :
  In ty to_one_types ->
  from_defaults name init target num iters curv ty = Ok cfg ->
  from_config cfg = Ok (cfg', s) ->
  (forall c, curv = Some c -> 0 < c) ->
  (0 <= it1 <= it2)%Z ->
  exists n v1 v2, num = Some n /\
    value (set_iters T s) it1 = Ok (Some v1) /\
    value (set_iters T s) it2 = Ok (Some v2) /\
    1 / IZR n <= v1 /\ v1 <= v2 /\ v2 <= 1 /\ ((T <= it2)%Z -> v2 = 1).
Proof.
  intros Hty H B Hc Hi.
  destruct (to_one_scheduler _ _ _ _ _ _ _ _ _ _ T Hty H B) as (n & f & -> & Hn & Hf & Hcv & ->).
  set (c := match curv with Some c => c | None => 1 end).
  assert (Hc' : 0 < c) by (unfold c; destruct curv; auto; lra).
  assert (Hcc : f = FStep \/ curv = Some c).
  { unfold c; destruct curv as [c0|]; auto. left.
    destruct Hf as [|[|]]; auto; subst; exfalso; apply Hcv; auto; discriminate. }
  exists n, (mix (vweight f it1 T n c) (1 / IZR n) 1), (mix (vweight f it2 T n c) (1 / IZR n) 1).
  split; [auto|]. split; [apply value_step; auto; lia|]. split; [apply value_step; auto; lia|].
  pose proof (vweight_range f it1 T n c Hf ltac:(lia) Hc').
  pose proof (vweight_range f it2 T n c Hf ltac:(lia) Hc').
  pose proof (vweight_mono f it1 it2 T n c Hf ltac:(lia) ltac:(lia) Hc').
  assert (Hn1 : 1 / IZR n <= 1).
  { assert (1 <= IZR n) by (apply IZR_le; lia). unfold Rdiv. rewrite Rmult_1_l.
    rewrite <- Rinv_1. apply Rinv_le_contravar; lra. }
  unfold mix. repeat split; try nra.
  intros HT; unfold vweight. destruct (Z.ltb_spec n 0); [lra|]. destruct (Z.leb_spec T it2); [lra|lia].
Qed.

(* ---- C09 -------------------------------------------------------------- *)

Lemma from_config_idem c c' s :
  from_config c = Ok (c', s) -> from_config c' = Ok (c', s).
Proof.
  destruct c as [nm i t num m cv ty]; unfold from_config; cbn [c_type].
  assert (Q : forall ty, to_one_cfg (to_one_cfg (mkConfig nm i t num m cv ty)) =
                    to_one_cfg (mkConfig nm i t num m cv ty)).
  { intros ty'; unfold to_one_cfg; cbn; destruct num as [k|]; [|reflexivity].
    destruct (Z.eqb_spec k 0); reflexivity. }
  destruct (String.eqb_spec ty "Constant") as [->|]; [intros E; inversion E; reflexivity|].
  destruct (String.eqb_spec ty "ConstantOne") as [->|]; [intros E; inversion E; reflexivity|].
  destruct (String.eqb_spec ty "Step") as [->|]; [intros E; inversion E; reflexivity|].
  destruct (String.eqb_spec ty "StepToOne") as [->|].
  { intros E; inversion E; subst. cbv beta. 
    match goal with |- context [c_type ?x] => change (c_type x) with "StepToOne" end.
    cbn [String.eqb Ascii.eqb Bool.eqb]. rewrite Q. reflexivity. }
  destruct (String.eqb_spec ty "StepAcceleratingToOne") as [->|].
  { intros E; inversion E; subst. cbv beta. 
    match goal with |- context [c_type ?x] => change (c_type x) with "StepAcceleratingToOne" end.
    cbn [String.eqb Ascii.eqb Bool.eqb]. rewrite Q. reflexivity. }
  destruct (String.eqb_spec ty "StepAccelerating") as [->|]; [intros E; inversion E; reflexivity|].
  destruct (String.eqb_spec ty "StepDecelerating") as [->|]; [intros E; inversion E; reflexivity|].
  destruct (String.eqb_spec ty "StepDeceleratingToOne") as [->|].
  { intros E; inversion E; subst. cbv beta. 
    match goal with |- context [c_type ?x] => change (c_type x) with "StepDeceleratingToOne" end.
    cbn [String.eqb Ascii.eqb Bool.eqb]. rewrite Q. reflexivity. }
  destruct (String.eqb_spec ty "SawtoothDecay") as [->|]; [intros E; inversion E; reflexivity|].
  destruct (String.eqb_spec ty "None") as [->|]; [intros E; inversion E; reflexivity|].
  discriminate.
Qed.

(* the dedicated classes agree with factory + from_config *)
Definition built (r : res config) : res scheduler :=
  let! c := r in let! (_, s) := from_config c in Ok s.

Lemma classes_agree nm i t n T c :
  built (cfg_step (Some nm) (Some i) (Some t) (Some n) (Some T)) = Ok (SchedulerStep nm i t n T) /\
  built (cfg_step_accelerating (Some nm) (Some i) (Some t) (Some n) (Some T) (Some c))
    = Ok (SchedulerStepAccelerating nm i t n (Some T) (Some c)) /\
  built (cfg_step_decelerating (Some nm) (Some i) (Some t) (Some n) (Some T) (Some c))
    = Ok (SchedulerStepDecelerating nm i t n (Some T) (Some c)) /\
  built (cfg_sawtooth_decay (Some nm) i t T n) = Ok (SchedulerSawtoothDecay nm i t n (Some T)).
Proof. repeat split. Qed.

Lemma isclose_one_one : isclose_one 1 = true.
Proof.
  apply isclose_one_iff; unfold close_to_one.
  replace (1 - 1) with 0 by ring; rewrite Rabs_R0, Rabs_R1, Rmax_left; lra.
Qed.

Lemma to_one_classes_agree nm num T c :
  built (cfg_step_to_one (Some nm) num (Some T)) = SchedulerStepToOne nm num T /\
  built (cfg_step_accelerating_to_one (Some nm) num (Some T) c)
    = SchedulerStepAcceleratingToOne nm num (Some T) c /\
  built (cfg_step_decelerating_to_one (Some nm) num (Some T) c)
    = SchedulerStepDeceleratingToOne nm num (Some T) c.
Proof.
  unfold built, cfg_step_to_one, cfg_step_accelerating_to_one, cfg_step_decelerating_to_one,
   SchedulerStepToOne, SchedulerStepAcceleratingToOne, SchedulerStepDeceleratingToOne, mkToOneCurv,
   from_defaults, check_to_one; cbn [String.eqb Ascii.eqb Bool.eqb].
  rewrite isclose_one_one.
  destruct num as [n|]; [|repeat split].
  destruct (Z.leb_spec n 0); [repeat split|].
  destruct c; cbn; unfold to_one_cfg; cbn; destruct (Z.eqb_spec n 0); try lia; repeat split.
Qed.

(* ---- C10 -------------------------------------------------------------- *)

Lemma name_eqb_spec a b : name_eqb a b = true <-> a = b.
Proof.
  destruct a, b; simpl; split; intros; try discriminate; auto.
  - apply String.eqb_eq in H; congruence.
  - inversion H; apply String.eqb_eq; auto.
Qed.
Lemma name_eqb_refl a : name_eqb a a = true.
Proof. apply name_eqb_spec; auto. Qed.

Lemma dict_get_set {V} (d : list (option string * V)) k v k' :
  dict_get (dict_set d k v) k' = if name_eqb k' k then Some v else dict_get d k'.
Proof.
  induction d as [|[k0 v0] d IH]; cbn [dict_set dict_get].
  - reflexivity.
  - destruct (name_eqb k k0) eqn:E.
    + apply name_eqb_spec in E; subst. cbn [dict_get]. destruct (name_eqb k' k0); reflexivity.
    + cbn [dict_get]. destruct (name_eqb k' k0) eqn:E1.
      * apply name_eqb_spec in E1; subst. destruct (name_eqb k0 k) eqn:E2; auto.
        apply name_eqb_spec in E2; subst. rewrite name_eqb_refl in E; discriminate.
      * apply IH.
Qed.

Definition apply_op (l : collection) (o : cop scheduler) : collection :=
  match o with Register s => add_object s l | SetHorizon T => set_iters_max T l end.
Definition run_ops (ops : list (cop scheduler)) : collection := fold_left apply_op ops [].

(* last scheduler of that name in the list *)
Fixpoint last_named (l : collection) (k : option string) : option scheduler :=
  match l with
  | [] => None
  | s :: r => match last_named r k with
              | Some x => Some x
              | None => if name_eqb k (s_name s) then Some s else None
              end
  end.

Lemma last_named_app l s k :
  last_named (l ++ [s]) k = if name_eqb k (s_name s) then Some s else last_named l k.
Proof.
  induction l as [|a l IH]; simpl; [reflexivity|]. rewrite IH.
  destruct (name_eqb k (s_name s)); auto.
Qed.

Lemma last_named_set T l k :
  last_named (set_iters_max T l) k = option_map (set_iters T) (last_named l k).
Proof.
  induction l as [|a l IH]; simpl; [reflexivity|]. rewrite IH.
  destruct (last_named l k); simpl; auto. destruct (name_eqb k (s_name a)); auto.
Qed.

Lemma values_loop_spec l it d d' :
  values_loop l it d = Ok d' ->
  forall k, match last_named l k with
            | Some s => exists v, value s it = Ok v /\ dict_get d' k = Some v
            | None => dict_get d' k = dict_get d k
            end.
Proof.
  revert d; induction l as [|s l IH]; simpl; intros d H k.
  - inversion H; auto.
  - destruct (value s it) as [v|] eqn:E; [|discriminate]. cbn [bind] in H.
    specialize (IH _ H k). destruct (last_named l k) as [s'|]; auto.
    rewrite IH, dict_get_set. destruct (name_eqb k (s_name s)); eauto.
Qed.

Lemma values_loop_ok l it d :
  (forall s, In s l -> exists v, value s it = Ok v) -> exists d', values_loop l it d = Ok d'.
Proof.
  revert d; induction l as [|s l IH]; simpl; intros d H; [eauto|].
  destruct (H s (or_introl eq_refl)) as [v ->]; cbn [bind]. apply IH; auto.
Qed.

Lemma gather_spec d order vs :
  gather d order = Ok vs <-> Forall2 (fun k v => dict_get d (Some k) = Some v) order vs.
Proof.
  revert vs; induction order as [|k r IH]; simpl; intros vs.
  - split; [intros E; inversion E; constructor|intros F; inversion F; auto].
  - destruct (dict_get d (Some k)) as [v|] eqn:E.
    + destruct (gather d r) as [ws|] eqn:G; cbn [bind]; split; intros H.
      * inversion H; subst; constructor; auto. apply IH; auto.
      * inversion H; subst. apply IH in H4. inversion H4; subst. congruence.
      * discriminate.
      * inversion H; subst. apply IH in H4; discriminate.
    + split; [discriminate|]. intros F; inversion F; congruence.
Qed.

Lemma gather_err d order e :
  gather d order = Err e -> e = KeyError /\ exists k, In k order /\ dict_get d (Some k) = None.
Proof.
  induction order as [|k r IH]; simpl; [discriminate|].
  destruct (dict_get d (Some k)) eqn:E.
  - destruct (gather d r); cbn [bind]; [discriminate|]. intros H.
    destruct (IH H) as (? & k' & ? & ?); eauto.
  - intros H; inversion H; eauto.
Qed.

Lemma set_iters_twice T T' s : set_iters T (set_iters T' s) = set_iters T s.
Proof. reflexivity. Qed.

Lemma run_ops_snoc ops o : run_ops (ops ++ [o]) = apply_op (run_ops ops) o.
Proof. unfold run_ops; rewrite fold_left_app; reflexivity. Qed.

Lemma effective_spec ops p k :
  effective scheduler s_name set_iters (rev ops) p k =
  option_map (fun s => match p with Some T => set_iters T s | None => s end)
             (last_named (run_ops ops) (Some k)).
Proof.
  revert p; induction ops as [|o ops IH] using rev_ind; intros p; [reflexivity|].
  rewrite rev_app_distr, run_ops_snoc; cbn [rev app effective].
  destruct o as [s|T]; cbn [apply_op].
  - unfold add_object; rewrite last_named_app.
    destruct s as [[nm|] i t n m cv f]; cbn [s_name name_eqb andb].
    + rewrite (String.eqb_sym nm k). destruct (String.eqb k nm); [reflexivity|apply IH].
    + apply IH.
  - rewrite IH, last_named_set. destruct (last_named (run_ops ops) (Some k)); simpl; auto.
    destruct p; auto.
Qed.

Lemma collection_answers ops it order :
  (forall s, In s (run_ops ops) -> exists v, value s it = Ok v) ->
  forall r, values_as_list (run_ops ops) it order = r ->
  match r with
  | Ok vs => Forall2 (fun k v => exists s,
        effective scheduler s_name set_iters (rev ops) None k = Some s /\ value s it = Ok v) order vs
  | Err e => e = KeyError /\
        exists k, In k order /\ effective scheduler s_name set_iters (rev ops) None k = None
  end.
Proof.
  intros Hv r <-. unfold values_as_list, values_as_dict.
  destruct (values_loop_ok (run_ops ops) it [] Hv) as [d Hd]. rewrite Hd; cbn [bind].
  pose proof (values_loop_spec _ _ _ _ Hd) as S.
  destruct (gather d order) as [vs|e] eqn:G.
  - apply gather_spec in G. induction G; constructor; auto.
    specialize (S (Some x)). rewrite effective_spec. destruct (last_named (run_ops ops) (Some x)).
    + destruct S as (v & E1 & E2). exists s; split; [reflexivity|]. congruence.
    + simpl in S; congruence.
  - apply gather_err in G. destruct G as (-> & k & Hk & G). split; auto. exists k; split; auto.
    specialize (S (Some k)). rewrite effective_spec. destruct (last_named (run_ops ops) (Some k)); auto.
    destruct S as (v & _ & E2); congruence.
Qed.

Lemma key_error_iff ops it order :
  (forall s, In s (run_ops ops) -> exists v, value s it = Ok v) ->
  (values_as_list (run_ops ops) it order = Err KeyError <->
   exists k, In k order /\ effective scheduler s_name set_iters (rev ops) None k = None).
Proof.
  intros Hv. pose proof (collection_answers ops it order Hv _ eq_refl) as H.
  destruct (values_as_list (run_ops ops) it order) as [vs|e].
  - split; [discriminate|]. intros (k & Hk & E). exfalso.
    revert Hk; induction H; simpl; [tauto|]. intros [->|]; auto.
    destruct H as (s & E' & _); congruence.
  - destruct H as [-> H]. tauto.
Qed.

(* ---- C11 -------------------------------------------------------------- *)

Lemma exp_slow_form it total i t rate :
  (0 < total)%Z ->
  schedule_exp_slowdown it total i t rate =
  Ok (t + (i - t) * ((exp (- rate * (IZR it / IZR total)) - exp (- rate)) / (1 - exp (- rate)))).
Proof.
  intros; unfold schedule_exp_slowdown; zb. destruct (Rltb t i); f_equal; unfold Rdiv; ring.
Qed.

Lemma exp_accel_form it total i t rate :
  (0 < total)%Z ->
  schedule_exp_accelerate it total i t rate =
  Ok (t + (i - t) * (1 - exp (rate * (IZR it / IZR total - 1)))).
Proof.
  intros; unfold schedule_exp_accelerate; zb. destruct (Rltb t i); f_equal; ring.
Qed.

Lemma exp_le x y : x <= y -> exp x <= exp y.
Proof. intros [H|H]; [left; apply exp_increasing; auto|subst; lra]. Qed.

Lemma frac_range it total : (0 < total)%Z -> (0 <= it <= total)%Z -> 0 <= IZR it / IZR total <= 1.
Proof.
  intros H [H1 H2]. apply IZR_le in H1, H2. apply IZR_lt in H. split.
  - apply Rmult_le_pos; [lra|]. left; apply Rinv_0_lt_compat; lra.
  - apply Rmult_le_reg_r with (IZR total); auto. unfold Rdiv; rewrite Rmult_assoc, Rinv_l; lra.
Qed.

Lemma frac_mono a b total : (0 < total)%Z -> (a <= b)%Z -> IZR a / IZR total <= IZR b / IZR total.
Proof.
  intros H Hab. unfold Rdiv; apply Rmult_le_compat_r. left; apply Rinv_0_lt_compat, IZR_lt; auto.
  apply IZR_le; auto.
Qed.

Lemma affine_toward w1 w2 i t : 0 <= w2 -> w2 <= w1 -> w1 <= 1 ->
  between i t (t + (i - t) * w1) /\ between (t + (i - t) * w1) t (t + (i - t) * w2).
Proof.
  intros. replace (t + (i - t) * w1) with (mix (1 - w1) i t) by (unfold mix; ring).
  replace (t + (i - t) * w2) with (mix (1 - w2) i t) by (unfold mix; ring).
  split; [apply mix_between; lra|apply mix_toward; lra].
Qed.

Lemma exp_slow_ok total i t rate :
  (0 < total)%Z -> 0 < rate ->
  schedule_exp_slowdown 0 total i t rate = Ok i /\
  schedule_exp_slowdown total total i t rate = Ok t /\
  forall it1 it2, (0 <= it1 <= it2)%Z -> (it2 <= total)%Z ->
   exists v1 v2, schedule_exp_slowdown it1 total i t rate = Ok v1 /\
     schedule_exp_slowdown it2 total i t rate = Ok v2 /\ between i t v1 /\ between v1 t v2.
Proof.
  intros HT Hr.
  assert (E1 : exp (- rate) < 1) by (rewrite <- exp_0; apply exp_increasing; lra).
  assert (T' : IZR total <> 0) by (apply not_0_IZR; lia).
  split; [|split].
  - rewrite exp_slow_form by auto. f_equal.
    replace (- rate * (0 / IZR total)) with 0 by (field; auto). rewrite exp_0. field; lra.
  - rewrite exp_slow_form by auto. f_equal.
    replace (- rate * (IZR total / IZR total)) with (- rate) by (field; auto).
    unfold Rdiv; ring.
  - intros it1 it2 H1 H2. do 2 eexists.
    split; [apply exp_slow_form; auto|]. split; [apply exp_slow_form; auto|].
    pose proof (frac_range it1 total HT ltac:(lia)). pose proof (frac_range it2 total HT ltac:(lia)).
    pose proof (frac_mono it1 it2 total HT ltac:(lia)).
    assert (Hinv : 0 < / (1 - exp (- rate))) by (apply Rinv_0_lt_compat; lra).
    apply affine_toward.
    + apply Rmult_le_pos; [|lra]. pose proof (exp_le (- rate) (- rate * (IZR it2 / IZR total))); nra.
    + apply Rmult_le_compat_r; [lra|].
      pose proof (exp_le (- rate * (IZR it2 / IZR total)) (- rate * (IZR it1 / IZR total))); nra.
    + apply Rmult_le_reg_r with (1 - exp (- rate)); [lra|].
      unfold Rdiv; rewrite Rmult_assoc, Rinv_l by lra.
      pose proof (exp_le (- rate * (IZR it1 / IZR total)) 0). rewrite exp_0 in H4. nra.
Qed.

Lemma exp_accel_ok total i t rate :
  (0 < total)%Z -> 0 < rate ->
  schedule_exp_accelerate total total i t rate = Ok t /\
  forall it1 it2, (0 <= it1 <= it2)%Z -> (it2 <= total)%Z ->
   exists v1 v2, schedule_exp_accelerate it1 total i t rate = Ok v1 /\
     schedule_exp_accelerate it2 total i t rate = Ok v2 /\ between i t v1 /\ between v1 t v2.
Proof.
  intros HT Hr.
  assert (T' : IZR total <> 0) by (apply not_0_IZR; lia).
  split.
  - rewrite exp_accel_form by auto. f_equal.
    replace (rate * (IZR total / IZR total - 1)) with 0 by (field; auto). rewrite exp_0; ring.
  - intros it1 it2 H1 H2. do 2 eexists.
    split; [apply exp_accel_form; auto|]. split; [apply exp_accel_form; auto|].
    pose proof (frac_range it1 total HT ltac:(lia)). pose proof (frac_range it2 total HT ltac:(lia)).
    pose proof (frac_mono it1 it2 total HT ltac:(lia)).
    apply affine_toward.
    + pose proof (exp_le (rate * (IZR it2 / IZR total - 1)) 0). rewrite exp_0 in H4. nra.
    + pose proof (exp_le (rate * (IZR it1 / IZR total - 1)) (rate * (IZR it2 / IZR total - 1))). nra.
    + pose proof (exp_pos (rate * (IZR it1 / IZR total - 1))). lra.
Qed.

Lemma exp_accel_start_wrong total i t rate v :
  (0 < total)%Z -> 0 < rate -> i <> t ->
  schedule_exp_accelerate 0 total i t rate = Ok v -> v <> i.
Proof.
  intros HT Hr Hne. rewrite exp_accel_form by auto. intros E; inversion E; subst.
  replace (rate * (0 / IZR total - 1)) with (- rate) by (field; apply not_0_IZR; lia).
  intro F. pose proof (exp_pos (- rate)).
  assert ((i - t) * exp (- rate) = 0) by lra. apply Rmult_integral in H0; lra.
Qed.
