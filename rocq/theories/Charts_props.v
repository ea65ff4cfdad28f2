(* C86: the charts of the section timer. *)
From Verif Require Import Base History_model History_proofs Timer_model Timer_spec Timer_proofs Timer_proofs2 Timer_props Charts_model.
From Coq Require Import Ascii Permutation Sorted.
Open Scope R_scope.
Open Scope string_scope.
Open Scope list_scope.

(* ---------- specification ---------- *)
(* timers a program can obtain: fresh ones, after running code with sections, manual
   additions and resets, and after drawing charts *)
Inductive reached (c : ascii) : timer -> Prop :=
| reached_new n : reached c (timer_new n)
| reached_run hier clk p t : reached c t -> reached c (fst (run hier (String c "") clk p t))
| reached_pie A th mp t : reached c t -> reached c (fst (pie c A th mp t))
| reached_bar A hier fn t : reached c t -> reached c (fst (bar c A hier fn t)).
(* the statistics a chart is about *)
Definition subject (c : ascii) (A : chart_args) (t : timer) : list stat :=
  if a_self A then self_time_stats c (stats t) else stats t.
(* the documented values *)
Definition shows (value : string) (s : stat) (x : R) : Prop :=
  (value = "total" /\ x = s_total s) \/ (value = "avg" /\ x = s_avg s) \/
  (value = "max" /\ x = s_max s) \/ (value = "count" /\ x = IZR (s_count s)).
Definition sort_keys := ["total"; "avg"; "max"; "count"; "name"].
Definition value_names := ["total"; "avg"; "max"; "count"].

(* ---------- lemmas ---------- *)
Lemma update_rec l : forall t, t_rec (fst (update_running l t)) = t_rec t.
Proof.
  induction l as [|[k v] l IH]; intros t; [reflexivity|]. cbn [update_running].
  match goal with |- context [update_running l ?u] => specialize (IH u); destruct (update_running l u) end. exact IH.
Qed.
Lemma update_length l : forall t, List.length (snd (update_running l t)) = List.length l.
Proof.
  induction l as [|[a b] l IH]; intros u; [reflexivity|]. cbn [update_running].
  match goal with |- context [update_running l ?w] => specialize (IH w); destruct (update_running l w) end.
  cbn [snd List.length] in *. now rewrite IH.
Qed.
Lemma smoothed_rec A t ns ds : t_rec (fst (smoothed A t ns ds)) = t_rec t.
Proof. unfold smoothed. destruct (a_avg A); [apply update_rec|reflexivity]. Qed.
Lemma smoothed_length A t ns ds : List.length ns = List.length ds -> List.length (snd (smoothed A t ns ds)) = List.length ds.
Proof. intros H. unfold smoothed. destruct (a_avg A); [|reflexivity]. rewrite update_length, combine_length. lia. Qed.
Lemma pie_rec c A th mp t : t_rec (fst (pie c A th mp t)) = t_rec t.
Proof.
  unfold pie. destruct (chosen c A t) as [[l f]|e]; [|reflexivity].
  pose proof (smoothed_rec A t (map s_name l) (map f l)) as H. destruct (smoothed A t (map s_name l) (map f l)) as [t' d].
  destruct (forallb _ d); [exact H|]. destruct (existsb _ d); exact H.
Qed.
Lemma bar_rec c A hier fn t : t_rec (fst (bar c A hier fn t)) = t_rec t.
Proof.
  unfold bar. destruct (chosen c A t) as [[l f]|e]; [|reflexivity].
  match goal with |- context [smoothed A t ?n ?d] => pose proof (smoothed_rec A t n d) as H; destruct (smoothed A t n d) as [t' d'] end. exact H.
Qed.
Lemma reached_good c t : reached c t -> good_rec (t_rec t).
Proof.
  induction 1 as [n|hier clk p t _ IH|A th mp t _ IH|A hier fn t _ IH].
  - split; constructor.
  - pose proof (run_trace hier (String c "") clk p t) as H. destruct (run hier (String c "") clk p t) as [t' o]. destruct (trace p (t_tick t)) as [[e n'] o'].
    destruct H as (Hr & _). cbn [fst]. rewrite Hr. now apply fold_good.
  - now rewrite pie_rec.
  - now rewrite bar_rec.
Qed.
Lemma subject_names c A t : map s_name (subject c A t) = map s_name (stats t).
Proof. unfold subject. destruct (a_self A); [|reflexivity]. unfold self_time_stats. rewrite map_map. reflexivity. Qed.
Lemma stats_nodup c t : reached c t -> NoDup (map s_name (stats t)).
Proof. intros H. rewrite (stats_names (t_rec t) t (reached_good c t H) eq_refl). apply (reached_good c t H). Qed.
Lemma metric_shows v f : metric_of v = Some f -> forall s, shows v s (f s).
Proof.
  unfold metric_of, shows. intros H s.
  destruct (String.eqb_spec v "total"); [injection H as <-; tauto|].
  destruct (String.eqb_spec v "avg"); [injection H as <-; tauto|].
  destruct (String.eqb_spec v "max"); [injection H as <-; tauto|].
  destruct (String.eqb_spec v "count"); [injection H as <-; tauto|discriminate].
Qed.
Lemma shows_fun v s x y : shows v s x -> shows v s y -> x = y.
Proof. unfold shows. intuition (subst; try discriminate; congruence). Qed.
Lemma metric_none v : metric_of v = None <-> ~ In v value_names.
Proof.
  unfold metric_of, value_names. cbn [In].
  destruct (String.eqb_spec v "total") as [->|]; [split; [discriminate|tauto]|].
  destruct (String.eqb_spec v "avg") as [->|]; [split; [discriminate|tauto]|].
  destruct (String.eqb_spec v "max") as [->|]; [split; [discriminate|tauto]|].
  destruct (String.eqb_spec v "count") as [->|]; [split; [discriminate|tauto]|].
  split; [|reflexivity]. intros _ [E|[E|[E|[E|[]]]]]; symmetry in E; contradiction.
Qed.
Lemma key_le_none k : key_le k = None <-> ~ In k sort_keys.
Proof.
  unfold key_le, sort_keys. cbn [In].
  destruct (String.eqb_spec k "total") as [->|]; [split; [discriminate|tauto]|].
  destruct (String.eqb_spec k "avg") as [->|]; [split; [discriminate|tauto]|].
  destruct (String.eqb_spec k "max") as [->|]; [split; [discriminate|tauto]|].
  destruct (String.eqb_spec k "count") as [->|]; [split; [discriminate|tauto]|].
  destruct (String.eqb_spec k "name") as [->|]; [split; [discriminate|tauto]|].
  split; [|reflexivity]. intros _ [E|[E|[E|[E|[E|[]]]]]]; symmetry in E; contradiction.
Qed.
Lemma chosen_sorted c A t : (if a_self A then summary_self_time c t (a_sort A) (a_desc A) else summary t (a_sort A) (a_desc A)) =
  sorted_stats (subject c A t) (a_sort A) (a_desc A).
Proof. unfold subject. destruct (a_self A); reflexivity. Qed.
Lemma chosen_ok c A t l f : chosen c A t = Ok (l, f) ->
  Permutation (subject c A t) l /\ l <> [] /\ metric_of (a_value A) = Some f.
Proof.
  unfold chosen. rewrite chosen_sorted. unfold sorted_stats. destruct (key_le (a_sort A)) as [le|]; [|discriminate]. cbn [bind].
  match goal with |- context [sort_by ?g ?s] => pose proof (sort_perm g s) as HP; destruct (sort_by g s) as [|x r] eqn:E end; [discriminate|].
  destruct (metric_of (a_value A)) as [g|]; [|discriminate]. injection 1 as <- <-. split; [exact HP|]. split; [easy|reflexivity].
Qed.
Lemma chosen_err c A t e : chosen c A t = Err e ->
  e = ValueError /\ (~ In (a_sort A) sort_keys \/ subject c A t = [] \/ ~ In (a_value A) value_names).
Proof.
  unfold chosen. rewrite chosen_sorted. unfold sorted_stats. destruct (key_le (a_sort A)) as [le|] eqn:K; [|cbn [bind]; injection 1 as <-; split; [reflexivity|left; now apply key_le_none]]. cbn [bind].
  match goal with |- context [sort_by ?g ?s] => pose proof (sort_perm g s) as HP; destruct (sort_by g s) as [|x r] eqn:E end.
  - injection 1 as <-. split; [reflexivity|]. right; left. apply Permutation_nil. now apply Permutation_sym.
  - destruct (metric_of (a_value A)) as [g|] eqn:M; [discriminate|]. injection 1 as <-. split; [reflexivity|]. right; right. now apply metric_none.
Qed.
Lemma chosen_ok_iff c A t : (exists l f, chosen c A t = Ok (l, f)) <->
  In (a_sort A) sort_keys /\ subject c A t <> [] /\ In (a_value A) value_names.
Proof.
  split.
  - intros (l & f & H). destruct (chosen_ok c A t l f H) as (HP & Hl & Hm). split; [|split].
    + destruct (in_dec string_dec (a_sort A) sort_keys) as [i|ni]; [exact i|]. apply key_le_none in ni. unfold chosen in H. rewrite chosen_sorted in H. unfold sorted_stats in H. rewrite ni in H. discriminate.
    + intros E. rewrite E in HP. apply Permutation_nil in HP. contradiction.
    + destruct (in_dec string_dec (a_value A) value_names) as [i|ni]; [exact i|]. apply metric_none in ni. congruence.
  - intros (H1 & H2 & H3). destruct (chosen c A t) as [[l f]|e] eqn:E; [now exists l, f|]. apply chosen_err in E. intuition.
Qed.
Lemma rsum_perm l l' : Permutation l l' -> rsum l = rsum l'.
Proof. unfold rsum. induction 1; cbn [fold_right] in *; lra. Qed.
Lemma combine_fst {X Y} (a : list X) (b : list Y) : List.length a = List.length b -> map fst (combine a b) = a.
Proof. revert b. induction a as [|x a IH]; intros [|y b] H; try discriminate; [reflexivity|]. cbn [combine map fst]. f_equal. apply IH. now injection H. Qed.
Lemma combine_snd {X Y} (a : list X) (b : list Y) : List.length a = List.length b -> map snd (combine a b) = b.
Proof. revert b. induction a as [|x a IH]; intros [|y b] H; try discriminate; [reflexivity|]. cbn [combine map snd]. f_equal. apply IH. now injection H. Qed.
Lemma combine_map {X Y Z} (g : X -> Y) (f : X -> Z) l : combine (map g l) (map f l) = map (fun x => (g x, f x)) l.
Proof. induction l as [|x l IH]; [reflexivity|]. cbn [map combine]. now rewrite IH. Qed.
Lemma rsum_div l T : rsum (map (fun x => x / T) l) = rsum l / T.
Proof. induction l as [|x l IH]; cbn [map rsum fold_right]; [unfold Rdiv; ring|]. unfold rsum in IH. rewrite IH. unfold rsum, Rdiv. ring. Qed.
Lemma rsum_le_each l x : (forall y, In y l -> 0 <= y) -> In x l -> 0 <= x <= rsum l.
Proof.
  induction l as [|y l IH]; intros Hp Hin; [easy|]. cbn [rsum fold_right]. change (fold_right Rplus 0 l) with (rsum l).
  assert (0 <= rsum l). { clear IH Hin. assert (forall z, In z l -> 0 <= z) as Hl by (intros; apply Hp; now right). clear Hp. induction l as [|z l IH]; [cbn; lra|]. cbn [rsum fold_right]. change (fold_right Rplus 0 l) with (rsum l). assert (0 <= z) by (apply Hl; now left). assert (0 <= rsum l) by (apply IH; intros; apply Hl; now right). lra. }
  assert (0 <= y) by (apply Hp; now left). destruct Hin as [<-|Hin]; [lra|].
  assert (0 <= x <= rsum l) by (apply IH; [intros; apply Hp; now right|exact Hin]). lra.
Qed.
Lemma forallb_zero l : forallb (fun v => Reqb v 0) l = true <-> (forall v, In v l -> v = 0).
Proof.
  rewrite forallb_forall. split; intros H v Hv; specialize (H v Hv); [now apply Reqb_true in H|now apply Reqb_true].
Qed.
Lemma existsb_neg l : existsb (fun v => Rltb v 0) l = true <-> exists v, In v l /\ v < 0.
Proof. rewrite existsb_exists. split; intros (v & Hv & H); exists v; (split; [exact Hv|]); now apply Rltb_true. Qed.
Lemma not_true_false (b : bool) (P : Prop) : (b = true <-> P) -> b = false -> ~ P.
Proof. intros H E HP. apply H in HP. congruence. Qed.

Lemma pie_ok c A th mp t t' l : pie c A th mp t = (t', Ok l) -> exists st f data,
  Permutation (subject c A t) st /\ metric_of (a_value A) = Some f /\
  data = snd (smoothed A t (map s_name st) (map f st)) /\ List.length data = List.length st /\
  (forall v, In v data -> 0 <= v) /\ ~ (forall v, In v data -> v = 0) /\
  l = map (fun nv =>
       let share := snd nv / rsum data in
       mkWedge (fst nv) (snd nv) share
         (match th with None => fst nv | Some b => if Rleb b share then fst nv else "" end)
         (match mp with
          | None => Some (100 * share)
          | Some b => if Rleb b (100 * share) then Some (100 * share) else None end)) (combine (map s_name st) data).
Proof.
  unfold pie. destruct (chosen c A t) as [[st f]|e] eqn:E; [|discriminate]. intros H. exists st, f.
  destruct (chosen_ok c A t st f E) as (HP & Hl & Hm).
  pose proof (smoothed_length A t (map s_name st) (map f st)) as HL. rewrite !map_length in HL. specialize (HL eq_refl).
  destruct (smoothed A t (map s_name st) (map f st)) as [t'' data] eqn:Es. cbn [snd] in *. exists data.
  destruct (forallb (fun v => Reqb v 0) data) eqn:Ez; [discriminate|].
  destruct (existsb (fun v => Rltb v 0) data) eqn:En; [discriminate|]. injection H as <- <-.
  split; [exact HP|]. split; [exact Hm|]. split; [reflexivity|]. split; [exact HL|]. split; [|split].
  - intros v Hv. destruct (Rlt_le_dec v 0) as [Hlt|Hle]; [|exact Hle]. exfalso. apply (not_true_false _ _ (existsb_neg data) En). now exists v.
  - exact (not_true_false _ _ (forallb_zero data) Ez).
  - reflexivity.
Qed.
Lemma pos_sum data : (forall v, In v data -> 0 <= v) -> ~ (forall v, In v data -> v = 0) -> 0 < rsum data.
Proof.
  intros Hp Hn. destruct (Rlt_le_dec 0 (rsum data)) as [Hlt|Hle]; [exact Hlt|]. exfalso. apply Hn. intros v Hv.
  pose proof (rsum_le_each data v Hp Hv). lra.
Qed.

(* ---------- C86: pie charts ---------- *)
(* Exactly one wedge per recorded section; shares are non-negative, proportional to the
   values and fill the circle; sections below the thresholds only lose their text. *)
Theorem C86_pie_wedges : forall c A th mp t t' l, reached c t -> pie c A th mp t = (t', Ok l) ->
  Permutation (map w_name l) (map s_name (stats t)) /\ NoDup (map w_name l) /\
  rsum (map w_share l) = 1 /\ 0 < rsum (map w_value l) /\
  (forall w, In w l -> 0 <= w_share w <= 1 /\ w_value w = w_share w * rsum (map w_value l) /\
     w_label w = (match th with Some b => if Rlt_dec (w_share w) b then "" else w_name w | None => w_name w end) /\
     w_pct w = (match mp with Some b => if Rlt_dec (100 * w_share w) b then None else Some (100 * w_share w) | None => Some (100 * w_share w) end)).
Proof.
  intros c A th mp t t' l Hr H. apply pie_ok in H as (st & f & data & HP & Hm & Hd & HL & Hpos & Hnz & ->).
  assert (HLn : List.length (map s_name st) = List.length data) by (rewrite map_length; lia).
  pose proof (pos_sum data Hpos Hnz) as HT.
  rewrite !map_map. cbn [w_name w_value w_share].
  assert (N : map (fun x => fst x) (combine (map s_name st) data) = map s_name st) by (now apply combine_fst).
  assert (V : map (fun x => snd x) (combine (map s_name st) data) = data) by (now apply combine_snd).
  rewrite N, V. assert (PN : Permutation (map s_name st) (map s_name (stats t))) by (rewrite <- (subject_names c A t); apply Permutation_map; now apply Permutation_sym).
  split; [exact PN|]. split; [eapply Permutation_NoDup; [apply Permutation_sym; exact PN|now apply (stats_nodup c)]|].
  split; [|split; [exact HT|]].
  - rewrite <- (map_map snd (fun x => x / rsum data)). rewrite rsum_div. replace (map snd (combine (map s_name st) data)) with data by (symmetry; exact V). field. lra.
  - intros w Hw. apply in_map_iff in Hw as ((nm & v) & <- & Hin). cbn [w_share w_value w_label w_pct w_name fst snd].
    assert (Hv : In v data) by (eapply in_combine_r; exact Hin).
    pose proof (rsum_le_each data v Hpos Hv) as Hb.
    split; [|split; [field; lra|split]].
    + split; [apply Rmult_le_pos; [lra|left; now apply Rinv_0_lt_compat]|]. apply (Rmult_le_reg_r (rsum data)); [exact HT|]. unfold Rdiv. rewrite Rmult_assoc, Rinv_l, Rmult_1_r, Rmult_1_l by lra. lra.
    + destruct th as [b|]; [|reflexivity]. destruct (Rlt_dec (v / rsum data) b) as [Hlt|Hge].
      * destruct (Rleb b (v / rsum data)) eqn:E; [|reflexivity]. apply Rleb_true in E. lra.
      * assert (Rleb b (v / rsum data) = true) as -> by (apply Rleb_true; lra). reflexivity.
    + destruct mp as [b|]; [|reflexivity]. destruct (Rlt_dec (100 * (v / rsum data)) b) as [Hlt|Hge].
      * destruct (Rleb b (100 * (v / rsum data))) eqn:E; [|reflexivity]. apply Rleb_true in E. lra.
      * assert (Rleb b (100 * (v / rsum data)) = true) as -> by (apply Rleb_true; lra). reflexivity.
Qed.
Print Assumptions C86_pie_wedges.

(* Without moving average the values are those of the statistics. *)
Theorem C86_pie_values : forall c A th mp t t' l, reached c t -> a_avg A = false -> pie c A th mp t = (t', Ok l) ->
  t' = t /\ (forall w, In w l -> exists s, In s (subject c A t) /\ w_name w = s_name s /\ shows (a_value A) s (w_value w)) /\
  (forall s, In s (subject c A t) -> exists w, In w l /\ w_name w = s_name s /\ shows (a_value A) s (w_value w)).
Proof.
  intros c A th mp t t' l Hr Ha H. split.
  { unfold pie, smoothed in H. rewrite Ha in H. destruct (chosen c A t) as [[st f]|e]; [|discriminate].
    destruct (forallb _ _); [discriminate|]. destruct (existsb _ _); [discriminate|]. now injection H. }
  apply pie_ok in H as (st & f & data & HP & Hm & Hd & HL & Hpos & Hnz & ->).
  unfold smoothed in Hd. rewrite Ha in Hd. cbn [snd] in Hd.
  set (T := rsum data) in *. clearbody T. subst data. rewrite combine_map, map_map. cbn [fst snd]. split.
  - intros w Hw. apply in_map_iff in Hw as (s & <- & Hs). exists s. split; [eapply Permutation_in; [apply Permutation_sym; exact HP|exact Hs]|]. split; [reflexivity|]. cbn [w_value]. now apply metric_shows.
  - intros s Hs. eexists. split; [apply in_map; eapply Permutation_in; [exact HP|exact Hs]|]. split; [reflexivity|]. cbn [w_value]. now apply metric_shows.
Qed.
Print Assumptions C86_pie_values.

(* ValueError is the only error, and it is raised exactly for an unknown sort key, an
   unknown value, no recorded section, or values that are all zero or partly negative. *)
Theorem C86_pie_error_iff : forall c A th mp t, reached c t -> a_avg A = false ->
  let bad := ~ In (a_sort A) sort_keys \/ ~ In (a_value A) value_names \/ stats t = [] \/
             (forall s, In s (subject c A t) -> shows (a_value A) s 0) \/
             (exists s x, In s (subject c A t) /\ shows (a_value A) s x /\ x < 0) in
  (snd (pie c A th mp t) = Err ValueError <-> bad) /\ (forall e, snd (pie c A th mp t) = Err e -> e = ValueError).
Proof.
  intros c A th mp t Hr Ha bad.
  assert (Hnil : subject c A t = [] <-> stats t = []).
  { unfold subject, self_time_stats. destruct (a_self A); [|tauto]. destruct (stats t); cbn [map]; split; easy. }
  unfold pie, smoothed. rewrite Ha. destruct (chosen c A t) as [[st f]|e] eqn:E.
  - destruct (chosen_ok c A t st f E) as (HP & Hl & Hm).
    assert (G : In (a_sort A) sort_keys /\ subject c A t <> [] /\ In (a_value A) value_names) by (apply chosen_ok_iff; now exists st, f).
    assert (Z : (forall v, In v (map f st) -> v = 0) <-> (forall s, In s (subject c A t) -> shows (a_value A) s 0)).
    { split.
      - intros H s Hs. rewrite <- (H (f s)); [now apply metric_shows|]. apply in_map. eapply Permutation_in; eassumption.
      - intros H v Hv. apply in_map_iff in Hv as (s & <- & Hs). apply (shows_fun _ _ _ _ (metric_shows _ _ Hm s)). apply H. eapply Permutation_in; [apply Permutation_sym; exact HP|exact Hs]. }
    assert (N : (exists v, In v (map f st) /\ v < 0) <-> (exists s x, In s (subject c A t) /\ shows (a_value A) s x /\ x < 0)).
    { split.
      - intros (v & Hv & Hlt). apply in_map_iff in Hv as (s & <- & Hs). exists s, (f s). split; [eapply Permutation_in; [apply Permutation_sym; exact HP|exact Hs]|]. split; [now apply metric_shows|exact Hlt].
      - intros (s & x & Hs & Hx & Hlt). exists (f s). split; [apply in_map; eapply Permutation_in; eassumption|]. now rewrite (shows_fun _ _ _ _ (metric_shows _ _ Hm s) Hx). }
    unfold bad. rewrite <- Z, <- N, <- Hnil.
    pose proof (forallb_zero (map f st)) as FZ. pose proof (existsb_neg (map f st)) as FN.
    destruct (forallb (fun v => Reqb v 0) (map f st)) eqn:Ez; [cbn [snd]; split; [split; [intros _; right; right; right; left; now apply FZ|reflexivity]|intros e [= <-]; reflexivity]|].
    destruct (existsb (fun v => Rltb v 0) (map f st)) eqn:En; [cbn [snd]; split; [split; [intros _; right; right; right; right; now apply FN|reflexivity]|intros e [= <-]; reflexivity]|].
    cbn [snd]. split; [split; [discriminate|]|discriminate]. intros [B|[B|[B|[B|B]]]]; exfalso; [tauto|tauto|tauto| |].
    + apply FZ in B. discriminate.
    + apply FN in B. discriminate.
  - apply chosen_err in E as (-> & Hb). cbn [snd]. split; [|now intros e [= <-]]. split; [|reflexivity]. intros _. unfold bad. rewrite <- Hnil. tauto.
Qed.
Print Assumptions C86_pie_error_iff.

(* Code using sections only, monotone clock: with self-times and value="total" the
   chart accounts for exactly the time spent in top-level sections. *)
Theorem C86_pie_self_time : forall c clk p n A th mp t' l,
  (forall i, clk i <= clk (S i)) -> sections_only p -> names_free c p ->
  a_self A = true -> a_avg A = false -> a_value A = "total" ->
  pie c A th mp (fst (run true (String c "") clk p (timer_new n))) = (t', Ok l) ->
  rsum (map w_value l) = rsum (durs clk top_level (events p n)).
Proof.
  intros c clk p n A th mp t' l Hclk Hso Hf Hs Ha Hv H.
  apply pie_ok in H as (st & f & data & HP & Hm & Hd & HL & Hpos & Hnz & ->).
  unfold smoothed in Hd. rewrite Ha in Hd. cbn [snd] in Hd. rewrite Hv in Hm. injection Hm as <-.
  rewrite map_map. cbn [w_value]. replace (map (fun x => snd x) (combine (map s_name st) data)) with data by (symmetry; apply combine_snd; now rewrite map_length).
  rewrite Hd, <- (rsum_perm _ _ (Permutation_map s_total HP)). unfold subject. rewrite Hs. now apply C42_self_times_partition.
Qed.
Print Assumptions C86_pie_self_time.

Theorem C86_plot_kinds : forall kind, (plot_kind kind = Ok true <-> kind = "pie") /\ (plot_kind kind = Ok false <-> kind = "bar") /\
  (plot_kind kind = Err ValueError <-> kind <> "pie" /\ kind <> "bar").
Proof.
  intros kind. unfold plot_kind. destruct (String.eqb_spec kind "pie") as [->|N1].
  - split; [split; reflexivity|]. split; [split; discriminate|]. split; [discriminate|]. intros (N & _). congruence.
  - destruct (String.eqb_spec kind "bar") as [->|N2].
    + split; [split; discriminate|]. split; [split; reflexivity|]. split; [discriminate|]. intros (_ & N). congruence.
    + split; [split; [discriminate|contradiction]|]. split; [split; [discriminate|contradiction]|]. split; auto.
Qed.
Print Assumptions C86_plot_kinds.
