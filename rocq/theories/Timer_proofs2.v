From Verif Require Import Base History_model History_proofs Timer_model Timer_spec Timer_proofs.
From Coq Require Import Ascii Permutation Sorted.
Open Scope R_scope.
Open Scope string_scope.
Open Scope list_scope.

Lemma prefix_closed p : sections_only p -> forall n q a b, In (Visit q a b) (events p n) ->
  (1 < List.length q)%nat -> exists a' b', In (Visit (removelast q) a' b') (events p n).
Proof.
  unfold events. induction p as [|e|p IHp p2 IHq|p IHp|name p IHp|k d|o]; simpl; intros Hp n q a b Hin Hl; try easy.
  - destruct Hp as (Hp & Hq). specialize (IHp Hp n q a b). destruct (trace p n) as [[e1 n1] o]; simpl in *. destruct o; auto.
    specialize (IHq Hq n1 q a b). destruct (trace p2 n1) as [[e2 n2] o2]; simpl in *.
    apply in_app_or in Hin. destruct Hin as [Hin|Hin].
    + destruct (IHp Hin Hl) as (a' & b' & H). exists a', b'. apply in_or_app. auto.
    + destruct (IHq Hin Hl) as (a' & b' & H). exists a', b'. apply in_or_app. auto.
  - specialize (IHp Hp n q a b). destruct (trace p n) as [[e1 n1] o]; auto.
  - pose proof (trace_ne p (S n)) as Hne. unfold events in Hne.
    specialize (IHp Hp (S n)). destruct (trace p (S n)) as [[e1 n1] o]; simpl in *.
    apply in_app_or in Hin. destruct Hin as [Hin|[Hin|[]]].
    + apply in_map_iff in Hin. destruct Hin as ([q' a' b'|k d|ok] & He & Hin); simpl in He; try discriminate.
      injection He as <- <- <-. rewrite Forall_forall in Hne. pose proof (Hne _ Hin) as Hq'. simpl in Hq'.
      destruct q' as [|z q']; [easy|]. destruct q' as [|w q'].
      * simpl. exists n, n1. apply in_or_app. right. now left.
      * destruct (IHp _ _ _ Hin ltac:(simpl; lia)) as (a2 & b2 & H2). exists a2, b2.
        apply in_or_app. left. apply in_map_iff. exists (Visit (removelast (z :: w :: q')) a2 b2). split; auto.
    + injection Hin as <- _ _. simpl in Hl. lia.
Qed.

(* ---------- records of a run ---------- *)
Definition good_rec (r : list (string * list R)) : Prop :=
  NoDup (map fst r) /\ Forall (fun kv => snd kv <> []) r.
Lemma hset_vals {V} (P : V -> Prop) d k v : Forall (fun kv : string * V => P (snd kv)) d -> P v ->
  Forall (fun kv => P (snd kv)) (hset d k v).
Proof.
  induction d as [|[q w] d IH]; simpl; intros HF Hv; [now repeat constructor|].
  inversion HF; subst. destruct (String.eqb k q); constructor; auto.
Qed.
Lemma nodup_app_one {A} (l : list A) x : NoDup l -> ~ In x l -> NoDup (l ++ [x]).
Proof.
  intros Hn Hx. apply (Permutation_NoDup (l := x :: l)).
  - rewrite <- Permutation_middle, app_nil_r. reflexivity.
  - now constructor.
Qed.
Lemma rec_append_good r k d : good_rec r -> good_rec (rec_append r k d).
Proof.
  intros (Hn & HF). unfold rec_append. destruct (hget r k) as [vs|] eqn:E.
  - split; [rewrite keys_hset; [exact Hn|congruence]|]. apply (hset_vals (fun v => v <> [])); [exact HF|]. now destruct vs.
  - split.
    + rewrite map_app. simpl. apply nodup_app_one; [exact Hn|]. now apply hget_none.
    + apply Forall_app. split; [exact HF|]. now repeat constructor.
Qed.
Lemma dpop_good r k : good_rec r -> good_rec (dpop r k).
Proof.
  intros (Hn & HF). split.
  - clear HF. induction r as [|[q v] r IH]; simpl; [constructor|]. inversion Hn as [|? ? Hnin Hnd]; subst.
    destruct (negb (q =? k)); simpl; auto. constructor; auto. intros Hin. apply Hnin.
    apply in_map_iff in Hin. destruct Hin as (x & Hx & Hin). apply filter_In in Hin. apply in_map_iff. exists x. tauto.
  - apply Forall_forall. intros x Hx. apply filter_In in Hx. rewrite Forall_forall in HF. now apply HF.
Qed.
Lemma fold_good hier sep clk stack evs : forall r, good_rec r -> good_rec (fold_left (rec_event hier sep clk stack) evs r).
Proof.
  induction evs as [|e evs IH]; intros r Hr; simpl; [exact Hr|]. apply IH.
  destruct e as [p a b|k d|[k|]]; simpl; auto using rec_append_good, dpop_good. split; constructor.
Qed.

Lemma stats_names r t : good_rec r -> t_rec t = r -> map s_name (stats t) = map fst r.
Proof.
  intros (_ & HF) <-. unfold stats. induction HF as [|[k v] r Hv HF IH]; simpl; [reflexivity|].
  unfold stat_of at 1. simpl in *. destruct v; [easy|]. simpl. now rewrite IH.
Qed.
Lemma stats_total r t n : good_rec r -> t_rec t = r -> total_of (stats t) n = rsum (rget r n).
Proof.
  intros (_ & HF) <-. unfold stats, total_of, rget. induction HF as [|[k v] r Hv HF IH]; simpl; [reflexivity|].
  unfold stat_of at 1. simpl in *. destruct v as [|x v]; [easy|]. simpl.
  destruct (String.eqb n k); [reflexivity|exact IH].
Qed.
Lemma stats_in_total r t s : good_rec r -> t_rec t = r -> In s (stats t) -> s_total s = rsum (rget r (s_name s)).
Proof.
  intros (Hn & HF) <- Hin. unfold stats in Hin. apply in_flat_map in Hin. destruct Hin as ([k v] & Hkv & Hs).
  assert (Hg : hget (t_rec t) k = Some v) by now apply hget_in.
  unfold stat_of in Hs. simpl in Hs. destruct v as [|x v]; [easy|]. destruct Hs as [<-|[]]. simpl s_name.
  unfold rget. rewrite Hg. reflexivity.
Qed.

(* ---------- sums ---------- *)
Lemma rsum_filter {A} (T : A -> R) f l : rsum (map T (filter f l)) = rsum (map (fun x => if f x then T x else 0) l).
Proof. induction l as [|x l IH]; simpl; [reflexivity|]. destruct (f x); simpl; lra. Qed.
Lemma rsum_map_plus {A} (f g : A -> R) l : rsum (map (fun x => f x + g x) l) = rsum (map f l) + rsum (map g l).
Proof. induction l as [|x l IH]; simpl; lra. Qed.
Lemma rsum_map_zero {A} (f : A -> R) l : (forall x, In x l -> f x = 0) -> rsum (map f l) = 0.
Proof. induction l as [|x l IH]; simpl; intros H; [reflexivity|]. rewrite H, IH by auto. lra. Qed.
Lemma rsum_map_minus {A} (f g : A -> R) l : rsum (map (fun x => f x - g x) l) = rsum (map f l) - rsum (map g l).
Proof. induction l as [|x l IH]; simpl; lra. Qed.
Lemma rsum_map_ext {A} (f g : A -> R) l : (forall x, In x l -> f x = g x) -> rsum (map f l) = rsum (map g l).
Proof. induction l as [|x l IH]; simpl; intros H; [reflexivity|]. rewrite H, IH by auto. reflexivity. Qed.
Lemma rsum_single (L : list string) (k : string) (d : R) : NoDup L ->
  rsum (map (fun m => if String.eqb m k then d else 0) L) = if in_dec string_dec k L then d else 0.
Proof.
  induction L as [|x L IH]; intros Hn; simpl; [reflexivity|]. inversion Hn as [|? ? Hx Hn']; subst.
  rewrite IH by exact Hn'. destruct (String.eqb_spec x k) as [->|Hne].
  - destruct (in_dec string_dec k L); [easy|]. destruct (string_dec k k); [lra|easy].
  - destruct (string_dec x k); [easy|]. destruct (in_dec string_dec k L); lra.
Qed.

Lemma swap_durs clk key P evs L : NoDup L ->
  (forall p a b, In (Visit p a b) evs -> In (key p) L) ->
  rsum (map (fun m => rsum (durs clk (fun p => String.eqb m (key p)) evs)) (filter P L)) =
  rsum (durs clk (fun p => P (key p)) evs).
Proof.
  intros Hn. rewrite rsum_filter.
  induction evs as [|[p a b|k d|o] evs IH]; intros Hin; simpl.
  - apply rsum_map_zero. intros x _. now destruct (P x).
  - rewrite rsum_app. rewrite <- IH by (intros; eapply Hin; right; eauto).
    rewrite (rsum_map_ext _ (fun m => (if String.eqb m (key p) then (if P (key p) then clk b - clk a else 0) else 0) +
       (if P m then rsum (durs clk (fun q => String.eqb m (key q)) evs) else 0))).
    + rewrite rsum_map_plus, rsum_single by exact Hn.
      destruct (in_dec string_dec (key p) L) as [_|Hx]; [|exfalso; apply Hx; eapply Hin; left; eauto].
      destruct (P (key p)); simpl; lra.
    + intros m _. rewrite rsum_app. destruct (String.eqb_spec m (key p)) as [->|]; destruct (P _); simpl; lra.
  - apply IH. intros; eapply Hin; right; eauto.
  - apply IH. intros; eapply Hin; right; eauto.
Qed.
Lemma swap_parent (par : string -> option string) (T : string -> R) L : NoDup L -> forall M,
  (forall m n, In m M -> par m = Some n -> In n L) ->
  rsum (map (fun n => rsum (map T (filter (fun m => match par m with Some q => String.eqb q n | None => false end) M))) L) =
  rsum (map T (filter (fun m => match par m with Some _ => true | None => false end) M)).
Proof.
  intros Hn. induction M as [|m M IH]; intros HM; simpl.
  - apply rsum_map_zero. reflexivity.
  - assert (HM' : forall m0 n, In m0 M -> par m0 = Some n -> In n L) by (intros; eapply HM; [right|]; eauto).
    specialize (IH HM'). destruct (par m) as [q|] eqn:E; [|exact IH].
    simpl. rewrite <- IH. rewrite (rsum_map_ext _ (fun n => (if String.eqb n q then T m else 0) +
      rsum (map T (filter (fun m => match par m with Some q => String.eqb q n | None => false end) M)))).
    + rewrite rsum_map_plus, rsum_single by exact Hn.
      destruct (in_dec string_dec q L) as [_|Hx]; [lra|]. exfalso. apply Hx. apply (HM m q); [now left|exact E].
    + intros n _. rewrite (String.eqb_sym n q). destruct (String.eqb q n); simpl; lra.
Qed.
Lemma rsum_partition {A} (T : A -> R) f l :
  rsum (map T l) = rsum (map T (filter f l)) + rsum (map T (filter (fun x => negb (f x)) l)).
Proof. induction l as [|x l IH]; simpl; [lra|]. destruct (f x); simpl; lra. Qed.

Section SelfTimes.
Variable c : ascii.
Variable clk : nat -> R.
Hypothesis Hclk : forall n, clk n <= clk (S n).
Variable p : prog.
Hypothesis Hso : sections_only p.
Hypothesis Hfree : names_free c p.
Variable n0 : nat.
Let t := fst (run true (sep_of c) clk p (timer_new n0)).
Let evs := events p n0.
Let r := t_rec t.
Let key := join (sep_of c).

Lemma t_rec_eq : r = fold_left (rec_event true (sep_of c) clk []) evs [].
Proof.
  unfold r, t, evs, events. pose proof (run_trace true (sep_of c) clk p (timer_new n0)) as H.
  destruct (run true (sep_of c) clk p (timer_new n0)) as [t' o]. simpl in H.
  destruct (trace p n0) as [[e n'] o']. simpl in *. tauto.
Qed.
Lemma r_good : good_rec r.
Proof. rewrite t_rec_eq. apply fold_good. split; constructor. Qed.
Lemma evs_visits : Forall (fun e => exists q a b, e = Visit q a b) evs.
Proof. now apply trace_sections. Qed.
Lemma rget_r k : rget r k = durs clk (fun q => String.eqb k (key q)) evs.
Proof. rewrite t_rec_eq, rget_fold by apply evs_visits. reflexivity. Qed.
Lemma durs_ne f es : durs clk f es <> [] -> exists q a b, In (Visit q a b) es /\ f q = true.
Proof.
  induction es as [|[q a b|k d|o] es IH]; simpl; intros H; try easy.
  - destruct (f q) eqn:E; [exists q, a, b; auto|]. destruct (IH H) as (q' & a' & b' & Hin & Hf). exists q', a', b'. auto.
  - destruct (IH H) as (q' & a' & b' & Hin & Hf). exists q', a', b'. auto.
  - destruct (IH H) as (q' & a' & b' & Hin & Hf). exists q', a', b'. auto.
Qed.
Lemma in_durs f es q a b : In (Visit q a b) es -> f q = true -> durs clk f es <> [].
Proof.
  induction es as [|e es IH]; intros Hin Hf; [easy|]. destruct Hin as [->|Hin]; simpl; [rewrite Hf; easy|].
  specialize (IH Hin Hf). unfold durs in IH. intros H. apply app_eq_nil in H. now apply IH.
Qed.
Lemma names_iff k : In k (map fst r) <-> exists q a b, In (Visit q a b) evs /\ key q = k.
Proof.
  split.
  - intros Hin. destruct (in_map_iff fst r k) as [H _]. destruct (H Hin) as ([k' v] & Hk & Hkv). simpl in Hk. subst k'.
    destruct r_good as (Hn & HF). rewrite Forall_forall in HF. pose proof (HF _ Hkv) as Hv. simpl in Hv.
    assert (Hg : rget r k = v) by (unfold rget; now rewrite (hget_in r k v Hn Hkv)).
    rewrite <- Hg, rget_r in Hv. apply durs_ne in Hv. destruct Hv as (q & a & b & Hq & He).
    apply String.eqb_eq in He. eauto 6.
  - intros (q & a & b & Hin & <-). destruct (hget r (key q)) as [v|] eqn:E.
    + destruct (in_dec string_dec (key q) (map fst r)) as [H|H]; [exact H|]. apply hget_none in H. congruence.
    + exfalso. assert (Hv : rget r (key q) = []) by (unfold rget; now rewrite E). rewrite rget_r in Hv.
      revert Hv. apply (in_durs _ _ q a b Hin). apply String.eqb_refl.
Qed.
Lemma visit_path q a b : In (Visit q a b) evs -> q <> [] /\ Forall (fun x => has_char c x = false) q.
Proof.
  intros Hin. split.
  - pose proof (trace_ne p n0) as H. rewrite Forall_forall in H. apply (H _ Hin).
  - pose proof (trace_free c p Hfree n0) as H. rewrite Forall_forall in H. apply (H _ Hin).
Qed.
Lemma parent_in m n : In m (map fst r) -> parent c m = Some n -> In n (map fst r).
Proof.
  intros Hin Hp. apply names_iff in Hin. destruct Hin as (q & a & b & Hq & <-).
  destruct (visit_path _ _ _ Hq) as (Hne & HF). unfold key in Hp. rewrite parent_join in Hp by auto.
  destruct (Nat.ltb_spec 1 (List.length q)) as [Hl|]; [|discriminate]. injection Hp as <-.
  destruct (prefix_closed p Hso n0 q a b Hq Hl) as (a' & b' & H). apply names_iff. eauto.
Qed.
Lemma no_clip n : In n (map fst r) ->
  rsum (map (fun m => rsum (rget r m)) (children_of c (map fst r) n)) <= rsum (rget r n).
Proof.
  intros Hin. unfold children_of.
  rewrite (rsum_map_ext _ (fun m => rsum (durs clk (fun q => String.eqb m (key q)) evs))) by (intros; now rewrite rget_r).
  rewrite swap_durs.
  2: apply r_good.
  2:{ intros q a b Hq. apply names_iff. eauto. }
  rewrite rget_r. apply names_iff in Hin. destruct Hin as (pi & a & b & Hpi & <-).
  destruct (visit_path _ _ _ Hpi) as (Hne & HF).
  rewrite (durs_ext clk _ (child_of pi)), (durs_ext clk (fun q => String.eqb (key pi) (key q)) (is_path pi)).
  - now apply children_bound.
  - intros q a' b' Hq. destruct (visit_path _ _ _ Hq) as (Hne' & HF'). unfold is_path.
    destruct (list_eq_dec string_dec q pi) as [->|Hd]; [apply String.eqb_refl|].
    apply String.eqb_neq. intros E. apply Hd. symmetry. now apply (join_inj c) in E.
  - intros q a' b' Hq. destruct (visit_path _ _ _ Hq) as (Hne' & HF'). unfold key. rewrite parent_join by auto.
    unfold child_of. destruct (Nat.ltb_spec 1 (List.length q)) as [Hl|]; [|reflexivity].
    assert (Hrl : removelast q <> [] /\ Forall (fun x => has_char c x = false) (removelast q)).
    { split; [destruct q as [|x [|y q]]; simpl in *; try lia; easy|].
      rewrite (app_removelast_last "" Hne') in HF'. apply Forall_app in HF'. tauto. }
    cbn [andb]. destruct (list_eq_dec string_dec (removelast q) pi) as [->|Hd]; [apply String.eqb_refl|].
    apply String.eqb_neq. intros E. apply Hd. now apply (join_inj c) in E.
Qed.

Lemma self_total_eq s : In s (self_time_stats c (stats t)) ->
  exists s0, In s0 (stats t) /\ s_name s = s_name s0 /\ s_count s = s_count s0 /\
    s_total s = s_total s0 - rsum (map (fun m => rsum (rget r m)) (children_of c (map fst r) (s_name s0))) /\
    0 <= s_total s.
Proof.
  unfold self_time_stats. intros Hin. apply in_map_iff in Hin. destruct Hin as (s0 & <- & H0). exists s0.
  split; [exact H0|]. cbn [s_name s_count s_total]. split; [reflexivity|]. split; [reflexivity|].
  rewrite (stats_names r t r_good eq_refl).
  rewrite (rsum_map_ext (total_of (stats t)) (fun m => rsum (rget r m))) by (intros; apply (stats_total r t); [apply r_good|reflexivity]).
  assert (Hc : rsum (map (fun m => rsum (rget r m)) (children_of c (map fst r) (s_name s0))) <= s_total s0).
  { rewrite (stats_in_total r t s0 r_good eq_refl H0). apply no_clip.
    rewrite <- (stats_names r t r_good eq_refl). now apply in_map. }
  rewrite Rmax_left by lra. lra.
Qed.
Lemma self_sum : rsum (map s_total (self_time_stats c (stats t))) = rsum (durs clk top_level evs).
Proof.
  assert (E : rsum (map s_total (self_time_stats c (stats t))) =
     rsum (map (fun n => rsum (rget r n) - rsum (map (fun m => rsum (rget r m)) (children_of c (map fst r) n))) (map s_name (stats t)))).
  { unfold self_time_stats. rewrite !map_map. apply rsum_map_ext. intros s0 H0. cbn [s_total].
    rewrite (stats_names r t r_good eq_refl).
    rewrite (rsum_map_ext (total_of (stats t)) (fun m => rsum (rget r m))) by (intros; apply (stats_total r t); [apply r_good|reflexivity]).
    rewrite (stats_in_total r t s0 r_good eq_refl H0). rewrite Rmax_left; [reflexivity|].
    assert (Hn : In (s_name s0) (map fst r)) by (rewrite <- (stats_names r t r_good eq_refl); now apply in_map).
    pose proof (no_clip _ Hn). lra. }
  rewrite E, (stats_names r t r_good eq_refl), rsum_map_minus. unfold children_of.
  rewrite (swap_parent (parent c)); [|apply r_good|apply parent_in].
  rewrite (rsum_partition (fun n => rsum (rget r n)) (fun m => match parent c m with Some _ => true | None => false end)).
  match goal with |- ?x + ?y - ?x = _ => replace (x + y - x) with y by lra end.
  rewrite (rsum_map_ext _ (fun m => rsum (durs clk (fun q => String.eqb m (key q)) evs))) by (intros; now rewrite rget_r).
  rewrite (swap_durs clk key (fun x => negb match parent c x with Some _ => true | None => false end)).
  2: apply r_good.
  2:{ intros q a b Hq. apply names_iff. eauto. }
  f_equal. apply durs_ext. intros q a b Hq. destruct (visit_path _ _ _ Hq) as (Hne & HF).
  unfold key. rewrite parent_join by auto. unfold top_level.
  destruct q as [|x [|y q]]; [easy|reflexivity|reflexivity].
Qed.
End SelfTimes.

(* ---------- sorting ---------- *)
Section Sorting.
Variable le : stat -> stat -> bool.
Hypothesis le_total : forall a b, le a b = true \/ le b a = true.
Hypothesis le_trans : forall a b d, le a b = true -> le b d = true -> le a d = true.
Lemma insert_perm x l : Permutation (x :: l) (insert_by le x l).
Proof.
  induction l as [|y l IH]; simpl; [reflexivity|]. destruct (le x y); [reflexivity|].
  rewrite perm_swap. now constructor.
Qed.
Lemma sort_perm l : Permutation l (sort_by le l).
Proof. induction l as [|x l IH]; simpl; [reflexivity|]. rewrite <- insert_perm. now constructor. Qed.
Lemma insert_sorted x l : StronglySorted (fun a b => le a b = true) l ->
  StronglySorted (fun a b => le a b = true) (insert_by le x l).
Proof.
  induction 1 as [|y l Hs IH HF]; simpl; [repeat constructor|]. destruct (le x y) eqn:E.
  - constructor; [now constructor|]. constructor; [exact E|]. eapply Forall_impl; [|exact HF]. intros; eauto.
  - constructor; [exact IH|]. eapply Permutation_Forall; [apply insert_perm|]. constructor; [|exact HF].
    destruct (le_total x y); congruence.
Qed.
Lemma sort_sorted l : StronglySorted (fun a b => le a b = true) (sort_by le l).
Proof. induction l as [|x l IH]; simpl; [constructor|]. now apply insert_sorted. Qed.
(* ties keep their order *)
Lemma insert_stable f x l : (forall a b, f a = true -> f b = true -> le a b = true) ->
  filter f (insert_by le x l) = filter f (x :: l).
Proof.
  intros Hf. induction l as [|y l IH]; [reflexivity|]. cbn [insert_by]. destruct (le x y) eqn:E; [reflexivity|].
  cbn [filter] in *. rewrite IH. destruct (f x) eqn:Ex; destruct (f y) eqn:Ey; try reflexivity.
  rewrite (Hf x y Ex Ey) in E. discriminate.
Qed.
Lemma sort_stable f l : (forall a b, f a = true -> f b = true -> le a b = true) ->
  filter f (sort_by le l) = filter f l.
Proof.
  intros Hf. induction l as [|x l IH]; [reflexivity|]. cbn [sort_by]. rewrite insert_stable by exact Hf.
  cbn [filter]. now rewrite IH.
Qed.
End Sorting.

Lemma string_leb_total a b : String.leb a b = true \/ String.leb b a = true.
Proof.
  unfold String.leb. rewrite (String.compare_antisym b a). destruct (String.compare a b); simpl; auto.
Qed.
Lemma ascii_cmp_trans a b d : Ascii.compare a b = Lt -> Ascii.compare b d = Lt -> Ascii.compare a d = Lt.
Proof. unfold Ascii.compare. rewrite !N.compare_lt_iff. lia. Qed.
Lemma ascii_cmp_refl a : Ascii.compare a a = Eq.
Proof. unfold Ascii.compare. apply N.compare_refl. Qed.
Lemma ascii_cmp_eq a b : Ascii.compare a b = Eq -> a = b.
Proof. apply Ascii.compare_eq_iff. Qed.
Lemma string_leb_trans a : forall b d, String.leb a b = true -> String.leb b d = true -> String.leb a d = true.
Proof.
  unfold String.leb. induction a as [|x a IH]; intros [|y b] [|z d]; simpl; try easy.
  destruct (Ascii.compare x y) eqn:E1; try discriminate; destruct (Ascii.compare y z) eqn:E2; try discriminate.
  - apply ascii_cmp_eq in E1, E2. subst. rewrite ascii_cmp_refl. apply IH.
  - apply ascii_cmp_eq in E1. subst. now rewrite E2.
  - apply ascii_cmp_eq in E2. subst. now rewrite E1.
  - now rewrite (ascii_cmp_trans _ _ _ E1 E2).
Qed.
Lemma key_le_order k le : key_le k = Some le ->
  (forall a b, le a b = true \/ le b a = true) /\
  (forall a b d, le a b = true -> le b d = true -> le a d = true).
Proof.
  unfold key_le. repeat match goal with |- context [if ?b then _ else _] => destruct b end; intros [= <-];
  (split; [intros a b|intros a b d]).
  all: try rewrite !Rleb_true. all: try lra. all: try rewrite !Z.leb_le; try lia.
  - apply string_leb_total.
  - apply string_leb_trans.
Qed.

(* ---------- running averages ---------- *)
Definition mean_of (l : list R) : R := rsum l / INR (List.length l).
Lemma mean_step l v : l <> [] ->
  mean_of l + (v - mean_of l) / IZR (Z.of_nat (List.length l) + 1) = mean_of (l ++ [v]).
Proof.
  intros Hl. unfold mean_of. rewrite rsum_app, app_length, plus_IZR, <- INR_IZR_INZ, plus_INR. simpl.
  assert (0 < INR (List.length l)) by (apply lt_0_INR; destruct l; [easy|simpl; lia]). field. lra.
Qed.
Definition avg_inv (t : timer) (h : string -> list R) : Prop := forall k,
  match h k with
  | [] => hget (t_means t) k = None /\ hget (t_counts t) k = None
  | l => hget (t_means t) k = Some (mean_of l) /\ hget (t_counts t) k = Some (Z.of_nat (List.length l))
  end.
Definition feed_hist (h : string -> list R) (kv : string * R) : string -> list R :=
  fun k => h k ++ (if String.eqb k (fst kv) then [snd kv] else []).
Lemma update_running_ok l : forall t h, avg_inv t h ->
  avg_inv (fst (update_running l t)) (fold_left feed_hist l h).
Proof.
  induction l as [|[k v] l IH]; intros t h Hi; [exact Hi|]. cbn [update_running fold_left].
  match goal with |- context [update_running l ?u] => specialize (IH u (feed_hist h (k, v))); destruct (update_running l u) end.
  apply IH. intros q. cbn [t_means t_counts]. rewrite !hget_hset. unfold feed_hist. cbn [fst snd].
  destruct (String.eqb_spec q k) as [->|Hq].
  - specialize (Hi k). destruct (h k) as [|x hk] eqn:E.
    + destruct Hi as (-> & ->). cbn [app]. change (0 + 1)%Z with 1%Z. split; [|reflexivity].
      unfold mean_of. simpl. f_equal. field.
    + destruct Hi as (-> & ->). rewrite mean_step by easy.
      cbn [app]. split; [reflexivity|]. rewrite app_comm_cons, app_length. f_equal. simpl List.length. lia.
  - rewrite app_nil_r. apply Hi.
Qed.
Lemma hget_dpop {V} (d : list (string * V)) k q : hget (dpop d k) q = if String.eqb q k then None else hget d q.
Proof.
  induction d as [|[a v] d IH]; simpl; [now destruct (q =? k)|].
  destruct (String.eqb_spec a k) as [->|Ha]; simpl.
  - rewrite IH. destruct (q =? k); reflexivity.
  - rewrite IH. destruct (String.eqb_spec q a) as [->|]; [|reflexivity].
    apply String.eqb_neq in Ha. now rewrite Ha.
Qed.
