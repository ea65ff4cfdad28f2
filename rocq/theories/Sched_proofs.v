From Verif Require Import Base Sched_model Sched_spec.
Open Scope R_scope.
Open Scope string_scope.
Open Scope list_scope.

(* ---- arithmetic of the step index ------------------------------------ *)

Lemma step_index_eq it T n :
  (0 < T)%Z -> (0 < n)%Z -> step_index it T n = Z.min (it * n / T) (n - 1).
Proof.
  intros HT Hn; unfold step_index; f_equal.
  rewrite <- Rfloor_div by auto; f_equal.
  rewrite mult_IZR; field; split; apply not_0_IZR; lia.
Qed.

Lemma step_index_part it T n k :
  (0 < T)%Z -> (0 < n)%Z -> (k < n)%Z -> in_part T n k it ->
  step_index it T n = k.
Proof.
  intros HT Hn Hk [H1 H2]; rewrite step_index_eq by auto.
  assert (it * n / T = k)%Z.
  { symmetry; apply Z.div_unique with (it * n - k * T)%Z; lia. }
  lia.
Qed.

Lemma step_index_range it T n :
  (0 < T)%Z -> (1 < n)%Z -> (0 <= it)%Z -> (0 <= step_index it T n <= n - 1)%Z.
Proof.
  intros; rewrite step_index_eq by lia.
  assert (0 <= it * n / T)%Z by (apply Z.div_pos; nia). lia.
Qed.

Lemma step_index_mono it1 it2 T n :
  (0 < T)%Z -> (1 < n)%Z -> (it1 <= it2)%Z ->
  (step_index it1 T n <= step_index it2 T n)%Z.
Proof.
  intros; rewrite !step_index_eq by lia.
  assert (it1 * n / T <= it2 * n / T)%Z by (apply Z.div_le_mono; nia). lia.
Qed.

Definition alpha_of (it T n : Z) : R := IZR (step_index it T n) / IZR (n - 1).

Lemma alpha_range it T n :
  (0 < T)%Z -> (1 < n)%Z -> (0 <= it)%Z -> 0 <= alpha_of it T n <= 1.
Proof.
  intros HT Hn Hi; destruct (step_index_range it T n HT Hn Hi) as [A B].
  apply IZR_le in A; apply IZR_le in B. unfold alpha_of.
  assert (0 < IZR (n - 1)) by (apply IZR_lt; lia).
  split.
  - apply Rmult_le_pos; [lra|]. left; apply Rinv_0_lt_compat; lra.
  - apply Rmult_le_reg_r with (IZR (n - 1)); [lra|].
    unfold Rdiv; rewrite Rmult_assoc, Rinv_l; lra.
Qed.

Lemma alpha_mono it1 it2 T n :
  (0 < T)%Z -> (1 < n)%Z -> (it1 <= it2)%Z -> alpha_of it1 T n <= alpha_of it2 T n.
Proof.
  intros; unfold alpha_of, Rdiv. apply Rmult_le_compat_r.
  - left; apply Rinv_0_lt_compat; apply IZR_lt; lia.
  - apply IZR_le, step_index_mono; auto.
Qed.

(* ---- powers ---------------------------------------------------------- *)

(* x^c for x >= 0, c > 0, with 0^c = 0 *)
Definition pw (x c : R) : R := if Req_EM_T x 0 then 0 else Rpower x c.

Lemma py_pow_pos x c : 0 <= x -> 0 < c -> py_pow x c = Ok (pw x c).
Proof.
  intros Hx Hc; unfold py_pow, pw.
  destruct (Rltb x 0) eqn:E; [apply Rltb_true in E; lra|].
  unfold Reqb at 1; destruct (Req_EM_T x 0); [|reflexivity].
  destruct (Rltb c 0) eqn:E1; [apply Rltb_true in E1; lra|].
  destruct (Reqb c 0) eqn:E2; [apply Reqb_true in E2; lra|]. reflexivity.
Qed.

Lemma pw_0 c : pw 0 c = 0.
Proof. unfold pw; destruct (Req_EM_T 0 0); auto; lra. Qed.
Lemma pw_1 c : pw 1 c = 1.
Proof.
  unfold pw; destruct (Req_EM_T 1 0); [lra|].
  unfold Rpower; rewrite ln_1, Rmult_0_r; apply exp_0.
Qed.
Lemma pw_one x : 0 <= x -> pw x 1 = x.
Proof.
  intros; unfold pw; destruct (Req_EM_T x 0); [auto|]. apply Rpower_1; lra.
Qed.

Lemma ln_le_0 x : 0 < x <= 1 -> ln x <= 0.
Proof.
  intros [H1 H2]. destruct (Req_EM_T x 1).
  - subst; rewrite ln_1; lra.
  - rewrite <- ln_1; left; apply ln_increasing; lra.
Qed.

Lemma pw_mono x y c : 0 <= x -> x <= y -> 0 < c -> pw x c <= pw y c.
Proof.
  intros Hx Hxy Hc; unfold pw.
  destruct (Req_EM_T x 0), (Req_EM_T y 0); try lra.
  - left; apply exp_pos.
  - unfold Rpower. destruct (Req_EM_T x y); [subst; lra|].
    left; apply exp_increasing; apply Rmult_lt_compat_l; auto.
    apply ln_increasing; lra.
Qed.

Lemma pw_range x c : 0 <= x <= 1 -> 0 < c -> 0 <= pw x c <= 1.
Proof.
  intros [H1 H2] Hc; split.
  - rewrite <- (pw_0 c); apply pw_mono; lra.
  - rewrite <- (pw_1 c); apply pw_mono; lra.
Qed.

Lemma pw_exponent x c1 c2 : 0 <= x <= 1 -> c1 <= c2 -> pw x c2 <= pw x c1.
Proof.
  intros [H1 H2] Hc; unfold pw; destruct (Req_EM_T x 0); [lra|].
  unfold Rpower. assert (ln x <= 0) by (apply ln_le_0; lra).
  destruct (Req_EM_T (c2 * ln x) (c1 * ln x)) as [E|E]; [rewrite E; lra|].
  left; apply exp_increasing; nra.
Qed.

(* ---- closed forms ---------------------------------------------------- *)

Definition mix (a i t : R) : R := (1 - a) * i + a * t.

Ltac mixprod a b i t :=
  assert (forall d, 0 <= d -> 0 <= (1 - b) * d) by (intros; apply Rmult_le_pos; lra);
  assert (forall d, 0 <= d -> 0 <= (b - a) * d) by (intros; apply Rmult_le_pos; lra);
  assert (forall d, 0 <= d -> 0 <= a * d) by (intros; apply Rmult_le_pos; lra);
  let Hd := fresh in
  destruct (Rle_dec i t);
  [ assert (Hd : 0 <= t - i) by lra | assert (Hd : 0 <= i - t) by lra ];
  repeat match goal with H : forall d, 0 <= d -> _ |- _ => specialize (H _ Hd) end.

Lemma mix_between a i t : 0 <= a <= 1 -> between i t (mix a i t).
Proof.
  intros [H1 H2]; unfold between, mix.
  mixprod a 1 i t; rminmax.
Qed.

Lemma mix_toward a b i t : 0 <= a -> a <= b -> b <= 1 -> between (mix a i t) t (mix b i t).
Proof.
  intros; unfold between, mix. mixprod a b i t; rminmax.
Qed.

Lemma mix_back a b i t : 0 <= a -> a <= b -> b <= 1 -> between i (mix b i t) (mix a i t).
Proof.
  intros; unfold between, mix. mixprod a b i t; rminmax.
Qed.

Ltac zb := repeat match goal with
  | |- context [(?a <=? ?b)%Z] => destruct (Z.leb_spec a b); try (exfalso; lia)
  | |- context [(?a <? ?b)%Z] => destruct (Z.ltb_spec a b); try (exfalso; lia)
  | |- context [(?a =? ?b)%Z] => destruct (Z.eqb_spec a b); try (exfalso; lia)
  end.

(* weight of the target in each schedule at iteration it *)
Definition weight (f : schedfn) (it T n : Z) (c : R) : R :=
  match f with
  | FStep => if (n <=? 1)%Z then 1 else alpha_of it T n
  | FAccel => if (n <=? 1)%Z then 1 else pw (alpha_of it T n) c
  | FDecel => if (n <=? 1)%Z then 1 else 1 - pw (1 - alpha_of it T n) c
  | FConstant => 1
  | FSaw => 0
  end.

Definition is_step (f : schedfn) := f = FStep \/ f = FAccel \/ f = FDecel.

Lemma weight_range f it T n c :
  is_step f -> (0 < T)%Z -> (0 <= it)%Z -> 0 < c -> 0 <= weight f it T n c <= 1.
Proof.
  intros Hf HT Hi Hc. destruct (Z.leb_spec n 1).
  - destruct Hf as [|[|]]; subst; cbn [weight]; zb; lra.
  - pose proof (alpha_range it T n HT ltac:(lia) Hi) as A.
    destruct Hf as [|[|]]; subst; cbn [weight]; zb.
    + exact A.
    + pose proof (pw_range _ c A Hc); lra.
    + pose proof (pw_range (1 - alpha_of it T n) c ltac:(lra) Hc); lra.
Qed.

Lemma weight_mono f it1 it2 T n c :
  is_step f -> (0 < T)%Z -> (0 <= it1)%Z -> (it1 <= it2)%Z -> 0 < c ->
  weight f it1 T n c <= weight f it2 T n c.
Proof.
  intros Hf HT Hi Hle Hc. destruct (Z.leb_spec n 1).
  - destruct Hf as [|[|]]; subst; cbn [weight]; zb; lra.
  - pose proof (alpha_range it1 T n HT ltac:(lia) ltac:(lia)) as A.
    pose proof (alpha_range it2 T n HT ltac:(lia) ltac:(lia)) as B.
    pose proof (alpha_mono it1 it2 T n HT ltac:(lia) Hle).
    destruct Hf as [|[|]]; subst; cbn [weight]; zb.
    + assumption.
    + apply pw_mono; lra.
    + pose proof (pw_mono (1 - alpha_of it2 T n) (1 - alpha_of it1 T n) c); lra.
Qed.

Lemma call_step f it T i t n c :
  is_step f -> (0 < T)%Z -> (0 <= it)%Z -> (f = FStep \/ 0 < c) ->
  forall cv, (f = FStep \/ cv = Some c) ->
  call_func f it T (Some i) t n cv = Ok (mix (weight f it T n c) i t).
Proof.
  intros Hf HT Hi Hc cv Hcv; unfold mix.
  destruct (Z.leb_spec n 1).
  - destruct Hf as [|[|]]; subst; cbn [weight call_func];
      unfold schedule_step, schedule_step_accelerating, schedule_step_decelerating;
      zb; f_equal; ring.
  - pose proof (alpha_range it T n HT ltac:(lia) Hi) as A.
    destruct Hf as [|[|]]; subst; cbn [weight call_func];
      unfold schedule_step, schedule_step_accelerating, schedule_step_decelerating; zb.
    + reflexivity.
    + destruct Hcv as [|]; [discriminate|]; destruct Hc; [discriminate|]; subst; simpl.
      fold (alpha_of it T n). rewrite py_pow_pos by lra. reflexivity.
    + destruct Hcv as [|]; [discriminate|]; destruct Hc; [discriminate|]; subst; simpl.
      fold (alpha_of it T n). rewrite py_pow_pos by lra. reflexivity.
Qed.

(* any scheduler record holding a step function *)
Definition step_sched (f : schedfn) nm i t n T c :=
  mkScheduler nm (Some i) (Some t) (Some n) (Some T) c (Some f).

(* total weight including the "hold at target" branches of Scheduler.value *)
Definition vweight (f : schedfn) (it T n : Z) (c : R) : R :=
  if (n <? 0)%Z then 1 else if (T <=? it)%Z then 1 else weight f it T n c.

Lemma value_step f nm it T i t n c cv :
  is_step f -> (0 <= it)%Z -> (f = FStep \/ 0 < c) -> (f = FStep \/ cv = Some c) ->
  value (step_sched f nm i t n T cv) it = Ok (Some (mix (vweight f it T n c) i t)).
Proof.
  intros Hf Hi Hc Hcv. unfold value, step_sched, vweight; simpl.
  destruct (Z.ltb_spec n 0); [do 2 f_equal; unfold mix; ring|].
  destruct (Z.leb_spec T it); [do 2 f_equal; unfold mix; ring|].
  rewrite (call_step f it T i t n c) by (auto; lia). reflexivity.
Qed.

Lemma vweight_range f it T n c :
  is_step f -> (0 <= it)%Z -> 0 < c -> 0 <= vweight f it T n c <= 1.
Proof.
  intros; unfold vweight.
  destruct (Z.ltb_spec n 0); [lra|]. destruct (Z.leb_spec T it); [lra|].
  apply weight_range; auto; lia.
Qed.

Lemma vweight_mono f it1 it2 T n c :
  is_step f -> (0 <= it1)%Z -> (it1 <= it2)%Z -> 0 < c ->
  vweight f it1 T n c <= vweight f it2 T n c.
Proof.
  intros Hf H0 H1 Hc.
  destruct (vweight_range f it1 T n c Hf H0 Hc) as [_ U].
  unfold vweight in *.
  destruct (Z.ltb_spec n 0); [lra|].
  destruct (Z.leb_spec T it2); [lra|].
  destruct (Z.leb_spec T it1); [lia|].
  apply weight_mono; auto; lia.
Qed.

(* ---- sawtooth -------------------------------------------------------- *)

(* elapsed fraction of the current cycle *)
Definition saw_alpha (it T n : Z) : R :=
  IZR (it - 1) / (IZR T / IZR n) - IZR (Rfloor (IZR (it - 1) / (IZR T / IZR n))).

Lemma saw_alpha_range it T n : 0 <= saw_alpha it T n < 1.
Proof. unfold saw_alpha; destruct (Rfloor_spec (IZR (it - 1) / (IZR T / IZR n))); lra. Qed.

Lemma call_saw it T i t n :
  (0 < T)%Z -> (0 < n)%Z ->
  schedule_sawtooth_decay it T (Some i) t n = Ok (mix (saw_alpha it T n) i t).
Proof.
  intros HT Hn; unfold schedule_sawtooth_decay; zb; cbn [orb bind need].
  assert (Hn' : IZR n <> 0) by (apply not_0_IZR; lia).
  assert (HT' : IZR T <> 0) by (apply not_0_IZR; lia).
  set (L := IZR T / IZR n).
  assert (HL : L <> 0). { unfold L; apply Rmult_integral_contrapositive; split; auto. apply Rinv_neq_0_compat; auto. }
  assert (E : (IZR (it - 1) - IZR (Rfloor (IZR (it - 1) / L)) * L) / L = saw_alpha it T n).
  { unfold saw_alpha; fold L. field; auto. }
  rewrite E. pose proof (saw_alpha_range it T n).
  rewrite Rmin_left by lra. reflexivity.
Qed.

Lemma value_saw nm it T i t n :
  (0 < T)%Z -> (0 < n)%Z -> (it < T)%Z ->
  value (step_sched FSaw nm i t n T None) it = Ok (Some (mix (saw_alpha it T n) i t)).
Proof.
  intros; unfold value, step_sched; simpl; zb. rewrite call_saw by auto; reflexivity.
Qed.
