(* C41-C44: the section timer. *)
From Verif Require Import Base History_model History_proofs Timer_model Timer_spec Timer_proofs Timer_proofs2.
From Coq Require Import Ascii Permutation Sorted.
Open Scope R_scope.
Open Scope string_scope.
Open Scope list_scope.

(* the durations stored under a name *)
Definition durations (t : timer) (name : string) : list R :=
  match hget (t_rec t) name with Some l => l | None => [] end.

(* ---------- C41 ---------- *)
(* For every program (nested sections, exceptions thrown anywhere, caught
   anywhere or not at all, resets and adds in between), every clock and every
   state of the timer: the nesting stack is afterwards exactly what it was, and
   the exception that escapes, if any, is the program's own. *)
Theorem C41_nesting_restored : forall hier sep clk p t,
  t_stack (fst (run hier sep clk p t)) = t_stack t /\
  snd (run hier sep clk p t) = outcome p (t_tick t).
Proof.
  intros hier sep clk p t. pose proof (run_trace hier sep clk p t) as H. unfold outcome.
  destruct (run hier sep clk p t) as [t' o]. destruct (trace p (t_tick t)) as [[e n] o']. simpl. tauto.
Qed.
Print Assumptions C41_nesting_restored.

(* Each entered section appends exactly one duration (last reading minus first
   reading) under its full path; nothing else is recorded. *)
Theorem C41_one_duration_per_section : forall hier sep clk p t, sections_only p ->
  (forall k, durations (fst (run hier sep clk p t)) k =
     durations t k ++
     durs clk (fun path => String.eqb k (if hier then join sep (t_stack t ++ path) else last path ""))
          (events p (t_tick t))) /\
  List.length (durs clk (fun _ => true) (events p (t_tick t))) = fst (entered p) /\
  (forall q a b, In (Visit q a b) (events p (t_tick t)) -> q <> [] /\ (t_tick t <= a < b)%nat).
Proof.
  intros hier sep clk p t Hp. split; [|split].
  - intros k. pose proof (run_trace hier sep clk p t) as H. pose proof (trace_sections p Hp (t_tick t)) as HF.
    unfold events in *. destruct (run hier sep clk p t) as [t' o].
    destruct (trace p (t_tick t)) as [[e n] o']. simpl in *. destruct H as (Hr & _).
    unfold durations. change (rget (t_rec t') k = rget (t_rec t) k ++ durs clk (fun q => String.eqb k (key_of hier sep (t_stack t) q)) e).
    rewrite Hr. now apply rget_fold.
  - destruct (entered_trace p Hp (t_tick t)) as (<- & _). pose proof (trace_sections p Hp (t_tick t)) as HF.
    induction HF as [|e l (q & a & b & ->) HF IH]; simpl; [reflexivity|]. now rewrite IH.
  - assert (G : forall n q a b, In (Visit q a b) (events p n) -> (n <= a < b)%nat).
    { clear t. unfold events. revert Hp.
      induction p as [|e|p IHp p2 IHq|p IHp|name p IHp|k d|o]; simpl; intros Hp n q a b Hin; try easy.
      - destruct Hp as (Hp & Hq). specialize (IHp Hp n q a b). pose proof (trace_next p n) as Hn.
        destruct (trace p n) as [[e1 n1] o]; simpl in *. destruct o; auto.
        specialize (IHq Hq n1 q a b). destruct (trace p2 n1) as [[e2 n2] o2]; simpl in *.
        apply in_app_or in Hin. destruct Hin as [Hin|Hin]; [auto|]. specialize (IHq Hin). lia.
      - specialize (IHp Hp n q a b). destruct (trace p n) as [[e1 n1] o]; auto.
      - specialize (IHp Hp (S n)). pose proof (trace_next p (S n)) as Hn.
        destruct (trace p (S n)) as [[e1 n1] o]; simpl in *.
        apply in_app_or in Hin. destruct Hin as [Hin|[Hin|[]]].
        + apply in_map_iff in Hin. destruct Hin as ([q' a' b'|k d|ok] & He & Hin); simpl in He; try discriminate.
          injection He as <- <- <-. specialize (IHp _ _ _ Hin). lia.
        + injection Hin as _ <- <-. lia. }
    intros q a b Hin. split; [|now apply (G _ q)]. pose proof (trace_ne p (t_tick t)) as Hne.
    rewrite Forall_forall in Hne. apply (Hne _ Hin).
Qed.
Print Assumptions C41_one_duration_per_section.

(* an exception inside an inner section, caught outside the outer one *)
Example C41_instance :
  let p := PSeq (PTry (PSection "outer" (PSeq (PSection "inner" (PRaise ValueError)) (PSection "never" PSkip))))
                (PSection "next" PSkip) in
  sections_only p /\ fst (entered p) = 3%nat /\
  let t := fst (run true ">" INR p (timer_new 0)) in
  t_stack t = [] /\ map fst (t_rec t) = ["outer>inner"; "outer"; "next"].
Proof. simpl. repeat split. Qed.

(* ---------- C42 ---------- *)
(* stats of any timer reached by any program *)
Theorem C42_statistics_exact : forall hier sep clk p n,
  let t := fst (run hier sep clk p (timer_new n)) in
  NoDup (map s_name (stats t)) /\
  (forall k, durations t k <> [] -> In k (map s_name (stats t))) /\
  (forall s, In s (stats t) ->
     let d := durations t (s_name s) in
     d <> [] /\ s_count s = Z.of_nat (List.length d) /\ s_total s = rsum d /\
     s_avg s * IZR (s_count s) = s_total s /\
     In (s_max s) d /\ (forall x, In x d -> x <= s_max s)).
Proof.
  intros hier sep clk p n t.
  assert (Hg : good_rec (t_rec t)).
  { unfold t. pose proof (run_trace hier sep clk p (timer_new n)) as H.
    destruct (run hier sep clk p (timer_new n)) as [t' o]. simpl in H. destruct (trace p n) as [[e n'] o']. simpl.
    destruct H as (-> & _). apply fold_good. split; constructor. }
  split; [|split].
  - rewrite (stats_names (t_rec t) t Hg eq_refl). apply Hg.
  - intros k Hk. rewrite (stats_names (t_rec t) t Hg eq_refl). unfold durations in Hk.
    destruct (hget (t_rec t) k) as [v|] eqn:E; [|easy].
    destruct (in_dec string_dec k (map fst (t_rec t))) as [H|H]; [exact H|]. apply hget_none in H. congruence.
  - intros s Hin. unfold stats in Hin. apply in_flat_map in Hin. destruct Hin as ([k v] & Hkv & Hs).
    destruct Hg as (Hn & HF).
    assert (Hget : hget (t_rec t) k = Some v) by now apply hget_in.
    unfold stat_of in Hs. simpl in Hs. destruct v as [|x v]; [easy|]. destruct Hs as [<-|[]].
    cbn [s_name s_count s_total s_avg s_max]. unfold durations. rewrite Hget.
    split; [easy|]. split; [reflexivity|]. split; [reflexivity|]. split; [|split].
    + apply Rmult_eq_reg_r with 1; [|lra]. field. intros H. apply eq_IZR in H. simpl in H. lia.
    + destruct (list_max_spec v x) as (_ & _ & H). simpl. simpl in H. intuition.
    + destruct (list_max_spec v x) as (A & B & _). intros y [<-|Hy]; auto.
Qed.
Print Assumptions C42_statistics_exact.

(* Hierarchical timer with a one-character separator, non-decreasing clock,
   section names free of the separator: each self-time is the section's total
   minus the totals of its direct children - never clipped - and all self-times
   add up to the total time spent in top-level sections. *)
Theorem C42_self_times_partition : forall c clk p n,
  (forall i, clk i <= clk (S i)) -> sections_only p -> names_free c p ->
  let t := fst (run true (String c "") clk p (timer_new n)) in
  rsum (map s_total (self_time_stats c (stats t))) = rsum (durs clk top_level (events p n)) /\
  (forall s, In s (self_time_stats c (stats t)) -> 0 <= s_total s /\
     exists s0, In s0 (stats t) /\ s_name s = s_name s0 /\ s_count s = s_count s0 /\
       s_total s = s_total s0 -
         rsum (map (fun m => rsum (durations t m)) (children_of c (map fst (t_rec t)) (s_name s0)))).
Proof.
  intros c clk p n Hclk Hp Hf t. split.
  - now apply self_sum.
  - intros s Hin. destruct (self_total_eq c clk Hclk p Hp Hf n s Hin) as (s0 & A & B & C & D & E).
    split; [exact E|]. exists s0. auto.
Qed.
Print Assumptions C42_self_times_partition.

(* children_of really lists the recorded direct sub-sections *)
Theorem C42_children_are_subsections : forall c names l m,
  l <> [] -> m <> [] ->
  Forall (fun x => has_char c x = false) l -> Forall (fun x => has_char c x = false) m ->
  (In (join (String c "") m) (children_of c names (join (String c "") l)) <->
   In (join (String c "") m) names /\ exists x, m = l ++ [x]).
Proof.
  intros c names l m Hl Hm HFl HFm. unfold children_of. rewrite filter_In.
  change (String c "") with (sep_of c). rewrite parent_join by auto.
  split; intros (Hin & H); (split; [exact Hin|]).
  - destruct (Nat.ltb_spec 1 (List.length m)) as [Hlen|]; [|discriminate]. apply String.eqb_eq in H.
    assert (HFr : Forall (fun x => has_char c x = false) (removelast m)).
    { rewrite (app_removelast_last "" Hm) in HFm. apply Forall_app in HFm. tauto. }
    apply (join_inj c) in H; auto.
    + subst l. exists (last m ""). now apply app_removelast_last.
    + destruct m as [|a [|b m]]; simpl in *; try lia; easy.
  - destruct H as (x & ->). rewrite app_length. simpl.
    destruct (Nat.ltb_spec 1 (List.length l + 1)) as [_|Hlt].
    + rewrite removelast_snoc. apply String.eqb_refl.
    + destruct l; [easy|simpl in Hlt; lia].
Qed.
Print Assumptions C42_children_are_subsections.

(* without the restriction on names the partition fails: a top-level section
   called "a>b" is charged to the section "a" *)
Theorem C42_separator_in_name_refuted : exists clk p,
  (forall i, clk i <= clk (S i)) /\ sections_only p /\
  rsum (map s_total (self_time_stats ">" (stats (fst (run true ">" clk p (timer_new 0)))))) <>
  rsum (durs clk top_level (events p 0)).
Proof.
  exists INR, (PSeq (PSection "a" PSkip) (PSection "a>b" (PSection "x" PSkip))).
  split; [intros i; rewrite S_INR; lra|]. split; [easy|].
  unfold events. cbn -[INR]. simpl INR. unfold total_of. simpl.
  unfold Rmax. case_Rle; lra.
Qed.
Print Assumptions C42_separator_in_name_refuted.

Example C42_instance :
  let p := PSection "a" (PSeq (PTry (PSection "b" (PRaise TypeError))) (PSection "b" PSkip)) in
  (forall i, INR i <= INR (S i)) /\ sections_only p /\ names_free ">" p /\
  rsum (durs INR top_level (events p 0)) = 5.
Proof.
  split; [intros i; rewrite S_INR; lra|]. simpl. repeat split. lra.
Qed.

(* ---------- C43 ---------- *)
(* values fed under a name since the last reset that concerned it *)
Definition fed_step (h : string -> list R) (o : avg_op) : string -> list R :=
  match o with
  | AUpdate ns ds => fun k => h k ++ map snd (filter (fun kv => String.eqb k (fst kv)) (combine ns ds))
  | AReset None => fun _ => []
  | AReset (Some n) => fun k => if String.eqb k n then [] else h k
  end.
Definition fed_since_reset (ops : list avg_op) : string -> list R := fold_left fed_step ops (fun _ => []).

Lemma feed_hist_all l : forall h k, fold_left feed_hist l h k = h k ++ map snd (filter (fun kv => String.eqb k (fst kv)) l).
Proof.
  induction l as [|[n v] l IH]; intros h k; simpl; [now rewrite app_nil_r|]. rewrite IH. unfold feed_hist. simpl.
  destruct (String.eqb k n); simpl; rewrite <- app_assoc; reflexivity.
Qed.
Lemma avg_inv_ext t h h' : (forall k, h k = h' k) -> avg_inv t h -> avg_inv t h'.
Proof. intros E Hi k. rewrite <- E. apply Hi. Qed.
Lemma avg_step_ok t h o : avg_inv t h -> avg_inv (avg_step t o) (fed_step h o).
Proof.
  intros Hi. destruct o as [ns ds|[n|]]; simpl.
  - eapply avg_inv_ext; [|apply update_running_ok; exact Hi]. intros k. apply feed_hist_all.
  - intros k. simpl. rewrite !hget_dpop. destruct (String.eqb k n); [easy|]. apply Hi.
  - intros k. simpl. easy.
Qed.
Lemma avg_ops_ok ops : forall t h, avg_inv t h -> avg_inv (fold_left avg_step ops t) (fold_left fed_step ops h).
Proof. induction ops as [|o ops IH]; intros t h Hi; simpl; [exact Hi|]. apply IH. now apply avg_step_ok. Qed.

Theorem C43_running_average_is_mean : forall ops n k,
  let t := fold_left avg_step ops (timer_new n) in
  let l := fed_since_reset ops k in
  hget (t_means t) k = (match l with [] => None | _ => Some (rsum l / INR (List.length l)) end) /\
  hget (t_counts t) k = (match l with [] => None | _ => Some (Z.of_nat (List.length l)) end).
Proof.
  intros ops n k t l. assert (Hi : avg_inv (timer_new n) (fun _ => [])) by (intros q; easy).
  pose proof (avg_ops_ok ops _ _ Hi k) as H. fold (fed_since_reset ops) in H. fold l t in H.
  destruct l; exact H.
Qed.
Print Assumptions C43_running_average_is_mean.

(* and the values returned for plotting are those means *)
Theorem C43_returned_values : forall ops n ns ds i, (i < List.length (combine ns ds))%nat ->
  let t := fold_left avg_step ops (timer_new n) in
  let k := fst (nth i (combine ns ds) ("", 0)) in
  let l := fed_since_reset ops k ++
           map snd (filter (fun kv => String.eqb k (fst kv)) (firstn (S i) (combine ns ds))) in
  nth i (snd (update_running (combine ns ds) t)) 0 = rsum l / INR (List.length l) /\
  List.length (snd (update_running (combine ns ds) t)) = List.length (combine ns ds).
Proof.
  intros ops n ns ds i Hi t.
  assert (Hinv : avg_inv t (fed_since_reset ops)).
  { apply avg_ops_ok. intros q; easy. }
  revert Hi Hinv. generalize (fed_since_reset ops) as h. generalize t as u. clear t ops.
  generalize (combine ns ds) as l. clear ns ds. intros l. revert i.
  induction l as [|[k v] l IH]; intros i u h Hi Hinv; [simpl in Hi; lia|].
  pose proof (update_running_ok [(k, v)] u h Hinv) as H1.
  cbn [update_running] in H1 |- *.
  set (u' := mkTimer _ _ _ _ _) in *. cbn [fst fold_left] in H1.
  destruct (update_running l u') as [t' out] eqn:E. cbn [snd].
  destruct i as [|i].
  - split.
    + cbn [nth fst firstn filter map app]. rewrite String.eqb_refl. cbn [map snd].
      assert (Hm : hget (t_means u') k = Some (mean_of (h k ++ [v]))).
      { specialize (H1 k). unfold feed_hist in H1. cbn [fst snd] in H1. rewrite String.eqb_refl in H1.
        destruct (h k ++ [v]) eqn:Eh; [now destruct (h k)|]. apply H1. }
      unfold u' in Hm. cbn [t_means] in Hm. rewrite hget_hset, String.eqb_refl in Hm. injection Hm as Hm. exact Hm.
    + cbn [List.length]. f_equal.
      assert (HL : forall l u, List.length (snd (update_running l u)) = List.length l).
      { clear. induction l as [|[a b] l IH]; intros u; simpl; [reflexivity|].
        match goal with |- context [update_running l ?w] => specialize (IH w); destruct (update_running l w) end.
        simpl in *. now rewrite IH. }
      pose proof (HL l u') as HLu. rewrite E in HLu. exact HLu.
  - cbn [nth List.length]. simpl in Hi.
    destruct (IH i u' _ ltac:(lia) H1) as (HA & HB). rewrite E in HA, HB. cbn [snd] in HA, HB.
    split; [|now rewrite HB]. rewrite HA. unfold feed_hist. cbn [fst snd].
    rewrite <- app_assoc. cbn [firstn filter fst]. destruct (String.eqb _ k); reflexivity.
Qed.
Print Assumptions C43_returned_values.
Example C43_instance :
  fed_since_reset [AUpdate ["a"; "b"] [1; 2]; AReset (Some "b"); AUpdate ["a"; "b"; "a"] [3; 4; 5]] "a" = [1; 3; 5] /\
  fed_since_reset [AUpdate ["a"; "b"] [1; 2]; AReset (Some "b"); AUpdate ["a"; "b"; "a"] [3; 4; 5]] "b" = [4].
Proof. split; reflexivity. Qed.

(* ---------- C44 ---------- *)
(* the documented sort keys as a relation "a may precede b" (ascending) *)
Definition ordered_by (k : string) (a b : stat) : Prop :=
  (k = "total" /\ s_total a <= s_total b) \/ (k = "avg" /\ s_avg a <= s_avg b) \/
  (k = "max" /\ s_max a <= s_max b) \/ (k = "count" /\ (s_count a <= s_count b)%Z) \/
  (k = "name" /\ String.leb (s_name a) (s_name b) = true).
Lemma key_le_ordered k le : key_le k = Some le -> forall a b, le a b = true <-> ordered_by k a b.
Proof.
  unfold key_le, ordered_by.
  destruct (String.eqb_spec k "total") as [->|H1]; [intros [= <-] a b; rewrite Rleb_true; intuition discriminate|].
  destruct (String.eqb_spec k "avg") as [->|H2]; [intros [= <-] a b; rewrite Rleb_true; intuition discriminate|].
  destruct (String.eqb_spec k "max") as [->|H3]; [intros [= <-] a b; rewrite Rleb_true; intuition discriminate|].
  destruct (String.eqb_spec k "count") as [->|H4]; [intros [= <-] a b; rewrite Z.leb_le; intuition discriminate|].
  destruct (String.eqb_spec k "name") as [->|H5]; [intros [= <-] a b; intuition discriminate|]. discriminate.
Qed.

Theorem C44_sorted_permutation : forall t k desc l, summary t k desc = Ok l ->
  Permutation (stats t) l /\
  StronglySorted (fun a b => if desc then ordered_by k b a else ordered_by k a b) l /\
  (* equal keys keep the order of stats, in both directions *)
  (forall f : stat -> bool, (forall a b, f a = true -> f b = true -> ordered_by k a b) ->
     filter f l = filter f (stats t)).
Proof.
  intros t k desc l H. unfold summary, sorted_stats in H. destruct (key_le k) as [le|] eqn:E; [|discriminate].
  injection H as <-. pose proof (key_le_ordered k le E) as Ho. destruct (key_le_order k le E) as (Htot & Htr).
  split; [apply sort_perm|]. split.
  - assert (HS : StronglySorted (fun a b => (if desc then le b a else le a b) = true)
                   (sort_by (fun a b => if desc then le b a else le a b) (stats t))).
    { apply sort_sorted; destruct desc; eauto. }
    clear - HS Ho. induction HS as [|a l HS IH HF]; constructor; [exact IH|].
    eapply Forall_impl; [|exact HF]. intros b Hb. destruct desc; now apply Ho.
  - intros f Hf. apply sort_stable. intros a b Ha Hb. destruct desc; apply Ho; auto.
Qed.
Print Assumptions C44_sorted_permutation.

Theorem C44_bad_key : forall t k desc,
  (In k ["total"; "avg"; "max"; "count"; "name"] -> exists l, summary t k desc = Ok l) /\
  (~ In k ["total"; "avg"; "max"; "count"; "name"] -> summary t k desc = Err ValueError).
Proof.
  intros t k desc. unfold summary, sorted_stats. split.
  - simpl. intros [<-|[<-|[<-|[<-|[<-|[]]]]]]; simpl; eauto.
  - intros H. unfold key_le.
    repeat match goal with |- context [String.eqb k ?s] => destruct (String.eqb_spec k s) as [->|?]; [exfalso; apply H; simpl; tauto|] end.
    reflexivity.
Qed.
Print Assumptions C44_bad_key.
(* the self-time summary is sorted the same way *)
Theorem C44_self_time_summary : forall c t k desc l, summary_self_time c t k desc = Ok l ->
  Permutation (self_time_stats c (stats t)) l /\
  StronglySorted (fun a b => if desc then ordered_by k b a else ordered_by k a b) l.
Proof.
  intros c t k desc l H. unfold summary_self_time, sorted_stats in H. destruct (key_le k) as [le|] eqn:E; [|discriminate].
  injection H as <-. pose proof (key_le_ordered k le E) as Ho. destruct (key_le_order k le E) as (Htot & Htr).
  split; [apply sort_perm|].
  assert (HS : StronglySorted (fun a b => (if desc then le b a else le a b) = true)
                 (sort_by (fun a b => if desc then le b a else le a b) (self_time_stats c (stats t)))).
  { apply sort_sorted; destruct desc; eauto. }
  clear - HS Ho. induction HS as [|a l HS IH HF]; constructor; [exact IH|].
  eapply Forall_impl; [|exact HF]. intros b Hb. destruct desc; now apply Ho.
Qed.
Print Assumptions C44_self_time_summary.
Example C44_instance :
  let t := mkTimer [("b", [1]); ("a", [2; 3]); ("d", [1])] [] [] [] 0 in
  exists l, summary t "name" false = Ok l /\ map s_name l = ["a"; "b"; "d"] /\
  exists l', summary t "count" true = Ok l' /\ map s_name l' = ["a"; "b"; "d"].
Proof. eexists. split; [reflexivity|]. split; [reflexivity|]. eexists. split; reflexivity. Qed.
