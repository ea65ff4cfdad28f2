(* C86, continued: moving averages and stacked bars. *)
From Verif Require Import Base History_model History_proofs Timer_model Timer_spec Timer_proofs Timer_proofs2 Timer_props Charts_model Charts_props ChartsRun_props ChartsBar_props.
From Coq Require Import Ascii Permutation Sorted.
Open Scope R_scope.
Open Scope string_scope.
Open Scope list_scope.

(* ---------- moving averages ---------- *)
Lemma update_nth l : forall i u h, (i < List.length l)%nat -> avg_inv u h ->
  nth i (snd (update_running l u)) 0 =
  mean_of (h (fst (nth i l ("", 0))) ++ map snd (filter (fun kv => String.eqb (fst (nth i l ("", 0))) (fst kv)) (firstn (S i) l))).
Proof.
  induction l as [|[k v] l IH]; intros i u h Hi Hinv; [cbn in Hi; lia|].
  pose proof (update_running_ok [(k, v)] u h Hinv) as H1.
  cbn [update_running] in H1 |- *.
  set (u' := mkTimer _ _ _ _ _) in *. cbn [fst fold_left] in H1.
  destruct (update_running l u') as [t' out] eqn:E. cbn [snd].
  destruct i as [|i].
  - cbn [nth fst firstn filter map app]. rewrite String.eqb_refl. cbn [map snd].
    assert (Hm : hget (t_means u') k = Some (mean_of (h k ++ [v]))).
    { specialize (H1 k). unfold feed_hist in H1. cbn [fst snd] in H1. rewrite String.eqb_refl in H1.
      destruct (h k ++ [v]) eqn:Eh; [now destruct (h k)|]. apply H1. }
    unfold u' in Hm. cbn [t_means] in Hm. rewrite hget_hset, String.eqb_refl in Hm. injection Hm as Hm. exact Hm.
  - cbn [nth]. cbn [List.length] in Hi. pose proof (IH i u' _ ltac:(lia) H1) as HA. rewrite E in HA. cbn [snd] in HA.
    rewrite HA. unfold feed_hist. cbn [fst snd]. rewrite <- app_assoc. cbn [firstn filter fst]. destruct (String.eqb _ k); reflexivity.
Qed.
Lemma fresh_inv t : t_means t = [] -> t_counts t = [] -> avg_inv t (fun _ => []).
Proof. intros -> -> || intros A B k. cbn. rewrite A, B. easy. Qed.
Lemma distinct_filter (l : list (string * R)) : forall i, NoDup (map fst l) -> (i < List.length l)%nat ->
  filter (fun kv => String.eqb (fst (nth i l ("", 0))) (fst kv)) (firstn (S i) l) = [nth i l ("", 0)].
Proof.
  induction l as [|[k v] l IH]; intros i Hn Hi; [cbn in Hi; lia|]. cbn [map fst] in Hn. inversion Hn as [|? ? Hnin Hnd]; subst.
  destruct i as [|i].
  - cbn [nth firstn filter fst]. rewrite String.eqb_refl. reflexivity.
  - cbn [nth List.length] in *. change (firstn (S (S i)) ((k, v) :: l)) with ((k, v) :: firstn (S i) l). cbn [filter fst].
    destruct (String.eqb_spec (fst (nth i l ("", 0))) k) as [E|E].
    + exfalso. apply Hnin. rewrite <- E. apply in_map. apply nth_In. lia.
    + apply IH; [exact Hnd|lia].
Qed.
Lemma fresh_distinct l u h : avg_inv u h -> NoDup (map fst l) ->
  snd (update_running l u) = map (fun kv => mean_of (h (fst kv) ++ [snd kv])) l.
Proof.
  intros Hinv Hn. apply (nth_ext _ _ 0 0); [now rewrite update_length, map_length|].
  intros i Hi. rewrite update_length in Hi. rewrite (update_nth l i u h Hi Hinv), distinct_filter by assumption. cbn [map].
  rewrite (nth_indep _ 0 ((fun kv => mean_of (h (fst kv) ++ [snd kv])) ("", 0))) by (now rewrite map_length). rewrite (map_nth (fun kv => mean_of (h (fst kv) ++ [snd kv]))). reflexivity.
Qed.
Lemma distinct_after l u h : avg_inv u h -> avg_inv (fst (update_running l u)) (fun k => h k ++ map snd (filter (fun kv => String.eqb k (fst kv)) l)).
Proof. intros H. eapply avg_inv_ext; [|apply update_running_ok; exact H]. intros k. apply feed_hist_all. Qed.

(* Pie charts with moving averages on one timer: the j-th chart shows, for every section,
   the mean of the values of the first j charts -- whatever these values were: totals,
   counts and times per visit are averaged with each other. *)
Theorem C86_pie_moving_average : forall c A B th mp t t1 t2 l1 l2, reached c t ->
  t_means t = [] -> t_counts t = [] -> a_avg A = true -> a_avg B = true ->
  pie c A th mp t = (t1, Ok l1) -> pie c B th mp t1 = (t2, Ok l2) ->
  (forall w, In w l1 -> exists s, In s (subject c A t) /\ w_name w = s_name s /\ shows (a_value A) s (w_value w)) /\
  (forall w, In w l2 -> exists s s' x y, In s (subject c A t) /\ In s' (subject c B t) /\ w_name w = s_name s /\ w_name w = s_name s' /\
     shows (a_value A) s x /\ shows (a_value B) s' y /\ w_value w = (x + y) / 2).
Proof.
  intros c A B th mp t t1 t2 l1 l2 Hr Hm0 Hc0 HA HB H1 H2.
  assert (Hst : stats t1 = stats t). { unfold stats. pose proof (pie_rec c A th mp t) as E. rewrite H1 in E. cbn [fst] in E. now rewrite E. }
  assert (HsB : subject c B t1 = subject c B t) by (unfold subject; now rewrite Hst).
  pose proof (fresh_inv t Hm0 Hc0) as Hinv.
  assert (E1 : exists st f, chosen c A t = Ok (st, f)). { unfold pie in H1. destruct (chosen c A t) as [[st f]|e]; [now exists st, f|discriminate]. }
  destruct E1 as (st & f & E1). destruct (chosen_ok c A t st f E1) as (HP & _ & Hm).
  assert (Ht1 : t1 = fst (update_running (combine (map s_name st) (map f st)) t)).
  { unfold pie, smoothed in H1. rewrite E1, HA in H1. destruct (update_running _ t) as [tt dd]. destruct (forallb _ dd); [discriminate|]. destruct (existsb _ dd); [discriminate|]. now injection H1. }
  assert (N1 : NoDup (map s_name st)). { eapply Permutation_NoDup; [|apply (stats_nodup c t Hr)]. rewrite <- (subject_names c A t). now apply Permutation_map. }
  rewrite combine_map in Ht1.
  assert (NN : forall f', NoDup (map fst (map (fun x => (s_name x, f' x : R)) st))) by (intros f'; rewrite map_map; exact N1).
  split.
  - apply pie_ok in H1 as (st' & f' & data & HP' & Hm' & Hd & HL & _ & _ & ->).
    assert (N1' : NoDup (map fst (combine (map s_name st') (map f' st')))).
    { rewrite combine_map, map_map. cbn [fst]. change (fun x => s_name x) with s_name. eapply Permutation_NoDup; [|exact N1]. apply Permutation_map. etransitivity; [apply Permutation_sym; exact HP|exact HP']. }
    unfold smoothed in Hd. rewrite HA in Hd. rewrite (fresh_distinct _ _ _ Hinv N1'), combine_map, map_map in Hd. cbn [fst snd app] in Hd.
    assert (D : data = map f' st') by (rewrite Hd; apply map_ext; intros s; unfold mean_of; cbn; field).
    intros w Hw. apply in_map_iff in Hw as ((nm & v) & <- & Hin). cbn [w_name w_value fst snd]. rewrite D, combine_map in Hin. apply in_map_iff in Hin as (s & Es & Hs). injection Es as <- <-.
    exists s. split; [eapply Permutation_in; [apply Permutation_sym; exact HP'|exact Hs]|]. split; [reflexivity|now apply metric_shows].
  - apply pie_ok in H2 as (st' & f' & data & HP' & Hm' & Hd & HL & _ & _ & ->). rewrite HsB in HP'.
    assert (N2 : NoDup (map fst (combine (map s_name st') (map f' st')))).
    { rewrite combine_map, map_map. cbn [fst]. change (fun x => s_name x) with s_name. eapply Permutation_NoDup; [|apply (stats_nodup c t Hr)]. rewrite <- (subject_names c B t). now apply Permutation_map. }
    pose proof (distinct_after (map (fun x => (s_name x, f x)) st) t _ Hinv) as Hinv1. rewrite <- Ht1 in Hinv1.
    unfold smoothed in Hd. rewrite HB in Hd. rewrite (fresh_distinct _ _ _ Hinv1 N2), combine_map, map_map in Hd. cbn [fst snd app] in Hd.
    intros w Hw. apply in_map_iff in Hw as ((nm & v) & <- & Hin). cbn [w_name w_value fst snd]. rewrite Hd, combine_map in Hin. apply in_map_iff in Hin as (s' & Es & Hs'). injection Es as <- <-.
    assert (Hin' : In s' (subject c B t)) by (eapply Permutation_in; [apply Permutation_sym; exact HP'|exact Hs']).
    assert (Hn : In (s_name s') (map s_name (subject c A t))) by (rewrite subject_names, <- (subject_names c B t); now apply in_map).
    apply in_map_iff in Hn as (s & Hsn & Hs). exists s, s', (f s), (f' s'). split; [exact Hs|]. split; [exact Hin'|]. split; [easy|]. split; [reflexivity|].
    split; [now apply metric_shows|]. split; [now apply metric_shows|].
    assert (F : filter (fun kv => String.eqb (s_name s') (fst kv)) (map (fun x => (s_name x, f x)) st) = [(s_name s, f s)]).
    { assert (Hi : In (s_name s, f s) (map (fun x => (s_name x, f x)) st)) by (apply (in_map (fun x => (s_name x, f x))); eapply Permutation_in; eassumption).
      rewrite <- Hsn. clear - Hi NN. specialize (NN f). induction (map (fun x => (s_name x, f x)) st) as [|[k v] r IH]; [easy|].
      cbn [map fst] in NN. inversion NN as [|? ? Hnin Hnd]; subst. cbn [filter fst]. destruct (String.eqb_spec (s_name s) k) as [<-|Hk].
      - destruct Hi as [Hi|Hi]; [|exfalso; apply Hnin; apply in_map_iff; now exists (s_name s, f s)]. rewrite Hi. f_equal. clear - Hnin.
        induction r as [|[k v'] r IH]; [reflexivity|]. cbn [map fst In filter] in *. destruct (String.eqb_spec (s_name s) k) as [E|]; [exfalso; apply Hnin; left; congruence|]. apply IH. tauto.
      - destruct Hi as [Hi|Hi]; [injection Hi as -> _; easy|]. now apply IH. }
    rewrite F. cbn [map snd app]. unfold mean_of. cbn. field.
Qed.
Print Assumptions C86_pie_moving_average.
(* Bar charts with moving averages are keyed by the drawn label: already the first chart
   shows, for a section, the mean over all sections drawn so far with the same label. *)
Theorem C86_bar_moving_average : forall c A hier fn t t' b, t_means t = [] -> t_counts t = [] -> a_avg A = true ->
  bar c A hier fn t = (t', Ok b) ->
  exists st, Permutation (subject c A t) st /\ List.length b = List.length st /\
  exists vals, Forall2 (shows (a_value A)) st vals /\
  forall i, (i < List.length b)%nat ->
    let same := map snd (filter (fun kv => String.eqb (fst (nth i b ("", 0))) (fst kv)) (firstn (S i) (combine (map fst b) vals))) in
    snd (nth i b ("", 0)) = rsum same / INR (List.length same) /\
    (* and the mean over all of them is what the next chart continues with *)
    let all := map snd (filter (fun kv => String.eqb (fst (nth i b ("", 0))) (fst kv)) (combine (map fst b) vals)) in
    hget (t_means t') (fst (nth i b ("", 0))) = Some (rsum all / INR (List.length all)) /\
    hget (t_counts t') (fst (nth i b ("", 0))) = Some (Z.of_nat (List.length all)).
Proof.
  intros c A hier fn t t' b Hm0 Hc0 HA H. apply bar_ok in H as (st & f & HP & Hm & H). cbn zeta in H. destruct H as (Hb & Ht').
  exists st. set (lab := fun s => if match fn with None => hier | Some x => x end then nested_label c (s_name s) else s_name s) in *.
  unfold smoothed in Hb, Ht'. rewrite HA in Hb, Ht'.
  assert (HL : List.length (snd (update_running (combine (map lab st) (map f st)) t)) = List.length st) by (rewrite update_length, combine_length, !map_length; lia).
  assert (HLb : List.length b = List.length st) by (rewrite Hb, combine_length, map_length, HL; lia).
  split; [exact HP|]. split; [exact HLb|]. exists (map f st). split.
  { clear - Hm. induction st as [|s st IH]; cbn [map]; constructor; [now apply metric_shows|exact IH]. }
  intros i Hi. cbn zeta.
  assert (Hf : map fst b = map lab st) by (rewrite Hb; apply combine_fst; now rewrite HL, map_length).
  assert (Hs : map snd b = snd (update_running (combine (map lab st) (map f st)) t)) by (rewrite Hb; apply combine_snd; now rewrite HL, map_length).
  assert (Hlen : (i < List.length (combine (map lab st) (map f st)))%nat) by (rewrite combine_length, !map_length; lia).
  pose proof (update_nth (combine (map lab st) (map f st)) i t _ Hlen (fresh_inv t Hm0 Hc0)) as HU. cbn [app] in HU.
  assert (Hk : fst (nth i (combine (map lab st) (map f st)) ("", 0)) = fst (nth i b ("", 0))).
  { rewrite <- (map_nth fst), combine_fst by (now rewrite !map_length). rewrite <- Hf. change "" with (fst ("", 0)) at 1. now rewrite map_nth. }
  rewrite Hk in HU. rewrite Hf. split; [rewrite <- (map_nth snd), Hs; cbn [snd]; exact HU|].
  pose proof (distinct_after (combine (map lab st) (map f st)) t _ (fresh_inv t Hm0 Hc0) (fst (nth i b ("", 0)))) as HI. rewrite <- Ht' in HI. cbn [app] in HI.
  assert (Hin : In (nth i (combine (map lab st) (map f st)) ("", 0)) (filter (fun kv => String.eqb (fst (nth i b ("", 0))) (fst kv)) (combine (map lab st) (map f st)))).
  { apply filter_In. split; [now apply nth_In|]. rewrite Hk. apply String.eqb_refl. }
  destruct (filter (fun kv => String.eqb (fst (nth i b ("", 0))) (fst kv)) (combine (map lab st) (map f st))) as [|q0 q]; [easy|]. exact HI.
Qed.
Print Assumptions C86_bar_moving_average.
