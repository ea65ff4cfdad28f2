(* C86, continued: the chart of a run, bar charts, stacked bars, moving averages. *)
From Verif Require Import Base History_model History_proofs Timer_model Timer_spec Timer_proofs Timer_proofs2 Timer_props Charts_model Charts_props.
From Coq Require Import Ascii Permutation Sorted.
Open Scope R_scope.
Open Scope string_scope.
Open Scope list_scope.

(* ---------- the chart timing.png of an optimisation run ---------- *)
Lemma name_inj l s s' : NoDup (map s_name l) -> In s l -> In s' l -> s_name s = s_name s' -> s = s'.
Proof.
  induction l as [|x l IH]; intros Hn Hs Hs' E; [easy|]. cbn [map] in Hn. inversion Hn as [|? ? Hnin Hnd]; subst.
  destruct Hs as [<-|Hs], Hs' as [<-|Hs']; [reflexivity| | |now apply IH].
  - exfalso. apply Hnin. rewrite E. now apply in_map.
  - exfalso. apply Hnin. rewrite <- E. now apply in_map.
Qed.
Lemma self_nonneg c t s : reached c t -> In s (self_time_stats c (stats t)) -> 0 <= s_total s /\ (0 < s_count s)%Z /\ s_avg s = s_total s / IZR (s_count s).
Proof.
  intros Hr Hin. unfold self_time_stats in Hin. apply in_map_iff in Hin as (s0 & <- & H0). cbn [s_total s_count s_avg].
  split; [apply Rmax_r|]. assert (Hc : (0 < s_count s0)%Z).
  { unfold stats in H0. apply in_flat_map in H0 as ((k & v) & _ & Hs). unfold stat_of in Hs. cbn [fst snd] in Hs. destruct v; [easy|]. destruct Hs as [<-|[]]. cbn [s_count List.length]. lia. }
  split; [exact Hc|]. destruct (Z.eqb_spec (s_count s0) 0); [lia|reflexivity].
Qed.
Lemma run_chart_shares c t l : reached c t -> run_chart c t = Some l ->
  let L := self_time_stats c (stats t) in
  let mean_sum := rsum (map (fun s => s_total s / IZR (s_count s)) L) in
  0 < mean_sum /\ (forall w, In w l -> exists s, In s L /\ w_name w = s_name s /\ w_share w = s_total s / IZR (s_count s) / mean_sum) /\
  (forall s, In s L -> exists w, In w l /\ w_name w = s_name s).
Proof.
  intros Hr H L mean_sum. unfold run_chart in H. destruct (pie c run_chart_args (Some 0.05) (Some 1) t) as [t' [l'|e]] eqn:E; [|discriminate]. cbn [snd] in H. injection H as ->.
  destruct (C86_pie_wedges c _ _ _ t t' l Hr E) as (HPn & HNn & Hsum & Hpos & Hw).
  destruct (C86_pie_values c run_chart_args _ _ t t' l Hr eq_refl E) as (_ & Hv & Hv').
  change (subject c run_chart_args t) with L in *. change (a_value run_chart_args) with "avg" in *.
  assert (Hsh : forall s x, shows "avg" s x -> In s L -> x = s_total s / IZR (s_count s)).
  { intros s x Hx Hin. destruct (self_nonneg c t s Hr Hin) as (_ & _ & <-). unfold shows in Hx. destruct Hx as [[? _]|[[_ ->]|[[? _]|[? _]]]]; easy. }
  assert (Hms : rsum (map w_value l) = mean_sum).
  { pose proof (pie_ok c _ _ _ t t' l E) as (st & f & data & HP & Hm & Hd & HL & _ & _ & Hl). injection Hm as <-.
    assert (map w_value l = data) as ->. { rewrite Hl, map_map. cbn [w_value]. apply combine_snd. now rewrite map_length. }
    rewrite Hd. change (snd (smoothed run_chart_args t (map s_name st) (map s_avg st))) with (map s_avg st).
    rewrite <- (rsum_perm _ _ (Permutation_map s_avg HP)). unfold mean_sum. apply rsum_map_ext. intros s Hs. now apply (self_nonneg c t s Hr). }
  rewrite Hms in *. split; [exact Hpos|]. split.
  - intros w Hin. destruct (Hv w Hin) as (s & Hs & Hn & Hx). exists s. split; [exact Hs|]. split; [exact Hn|].
    rewrite <- (Hsh s _ Hx Hs). destruct (Hw w Hin) as (_ & Hval & _). rewrite Hval. field. lra.
  - intros s Hs. destruct (Hv' s Hs) as (w & Hin & Hn & _). now exists w.
Qed.
(* The shares drawn in timing.png are those of the time per visit, not of the time. *)
Theorem C86_run_chart_shares : forall c t l, reached c t -> run_chart c t = Some l ->
  let L := self_time_stats c (stats t) in
  let mean_sum := rsum (map (fun s => s_total s / IZR (s_count s)) L) in
  0 < mean_sum /\ Permutation (map w_name l) (map s_name (stats t)) /\
  (forall w, In w l -> exists s, In s L /\ w_name w = s_name s /\ w_share w = s_total s / IZR (s_count s) / mean_sum).
Proof.
  intros c t l Hr H L mean_sum. destruct (run_chart_shares c t l Hr H) as (A & B & _). split; [exact A|]. split; [|exact B].
  unfold run_chart in H. destruct (pie c run_chart_args (Some 0.05) (Some 1) t) as [t' [l'|e]] eqn:E; [|discriminate]. cbn [snd] in H. injection H as ->.
  eapply C86_pie_wedges; eassumption.
Qed.
Print Assumptions C86_run_chart_shares.
(* They are the shares of the (self-)time if and only if all sections with non-zero
   self-time were visited equally often. *)
Theorem C86_run_chart_time_share_iff : forall c t l, reached c t -> run_chart c t = Some l ->
  let L := self_time_stats c (stats t) in
  ((forall w s, In w l -> In s L -> w_name w = s_name s -> w_share w = s_total s / rsum (map s_total L)) <->
   (forall s s', In s L -> In s' L -> s_total s <> 0 -> s_total s' <> 0 -> s_count s = s_count s')).
Proof.
  intros c t l Hr H L. destruct (run_chart_shares c t l Hr H) as (HA & Hw & Hs). fold L in HA, Hw, Hs.
  set (M := rsum (map (fun s => s_total s / IZR (s_count s)) L)) in *.
  assert (Hnn : forall s, In s L -> 0 <= s_total s /\ 0 < IZR (s_count s)).
  { intros s Hin. destruct (self_nonneg c t s Hr Hin) as (A & B & _). split; [exact A|]. now apply IZR_lt. }
  assert (HN : NoDup (map s_name L)). { change L with (subject c run_chart_args t). rewrite subject_names. now apply (stats_nodup c). }
  assert (HE : exists s, In s L /\ s_total s <> 0).
  { destruct (Classical_Prop.classic (exists s, In s L /\ s_total s <> 0)) as [Hy|Hno]; [exact Hy|]. exfalso.
    assert (M = 0); [|lra]. unfold M. apply rsum_map_zero. intros s Hin. destruct (Req_dec (s_total s) 0) as [-> |Hne]; [unfold Rdiv; ring|]. exfalso. apply Hno. now exists s. }
  assert (HT : 0 < rsum (map s_total L)).
  { destruct HE as (s & Hin & Hne). destruct (Hnn s Hin) as (Hp & _).
    assert (0 <= s_total s <= rsum (map s_total L)); [|lra]. apply rsum_le_each; [|now apply in_map]. intros y Hy. apply in_map_iff in Hy as (z & <- & Hz). now apply Hnn. }
  split.
  - intros Hsh s s' Hin Hin' Hne Hne'. assert (K : forall z, In z L -> s_total z <> 0 -> IZR (s_count z) = rsum (map s_total L) / M).
    { intros z Hz Hnz. destruct (Hs z Hz) as (w & Hwin & Hwn). destruct (Hw w Hwin) as (z' & Hz' & Hn' & Hshare).
      assert (z' = z) as -> by (apply (name_inj L); congruence || (congruence)). rewrite (Hsh w z Hwin Hz Hwn) in Hshare.
      destruct (Hnn z Hz) as (_ & Hc). set (T := rsum (map s_total L)) in *.
      assert (Q : s_total z * (IZR (s_count z) * M) = s_total z * T).
      { transitivity (s_total z / T * (T * IZR (s_count z) * M)); [field; lra|]. rewrite Hshare. field. lra. }
      apply Rmult_eq_reg_l in Q; [|exact Hnz]. rewrite <- Q. field. lra. }
    apply eq_IZR. now rewrite (K s), (K s').
  - intros Hc w s Hwin Hin Hn. destruct (Hw w Hwin) as (s1 & Hs1 & Hn1 & Hshare).
    assert (s1 = s) as -> by (apply (name_inj L); congruence). destruct HE as (s0 & Hin0 & Hne0). destruct (Hnn s0 Hin0) as (_ & Hc0).
    assert (HMs : M = rsum (map s_total L) / IZR (s_count s0)).
    { unfold M. rewrite <- rsum_div, map_map. apply rsum_map_ext. intros z Hz. destruct (Req_dec (s_total z) 0) as [-> |Hnz]; [unfold Rdiv; ring|]. now rewrite (Hc z s0). }
    rewrite Hshare, HMs. destruct (Req_dec (s_total s) 0) as [-> |Hnz]; [unfold Rdiv; ring|]. rewrite (Hc s s0) by assumption. field. lra.
Qed.
Print Assumptions C86_run_chart_time_share_iff.
(* and in an ordinary program it is not: "a" runs twice for one second, "b" once *)
Theorem C86_run_chart_time_share_refuted : exists p l, sections_only p /\ names_free ">" p /\
  let t := fst (run true ">" INR p (timer_new 0)) in
  run_chart ">" t = Some l /\ reached ">" t /\
  exists w s, In w l /\ In s (self_time_stats ">" (stats t)) /\ w_name w = s_name s /\ w_share w <> s_total s / rsum (map s_total (self_time_stats ">" (stats t))).
Proof.
  set (p := PSeq (PSection "a" PSkip) (PSeq (PSection "a" PSkip) (PSection "b" PSkip))).
  assert (R0 : reached ">" (fst (run true ">" INR p (timer_new 0)))) by (apply reached_run; apply reached_new).
  set (t := fst (run true ">" INR p (timer_new 0))) in *.
  assert (HL : self_time_stats ">" (stats t) = [mkStat "a" 2 2 1 2; mkStat "b" 1 1 1 1]).
  { unfold t, p. lazy -[Rmax Rplus Rminus Rdiv Rmult IZR INR]. cbn [INR].
    repeat match goal with |- context [Rmax ?a ?b] => rewrite (Rmax_left a b) by lra end.
    repeat (f_equal; try lra). }
  assert (Hp : exists l, run_chart ">" t = Some l).
  { unfold run_chart. destruct (pie ">" run_chart_args (Some 0.05) (Some 1) t) as [t' [l|e]] eqn:E; [now exists l|]. exfalso.
    pose proof (C86_pie_error_iff ">" run_chart_args (Some 0.05) (Some 1) t R0 eq_refl) as (Hb & Hv). rewrite E in Hb, Hv. cbn [snd] in Hb, Hv.
    specialize (Hv e eq_refl) as ->. destruct Hb as (Hb & _). specialize (Hb eq_refl).
    change (subject ">" run_chart_args t) with (self_time_stats ">" (stats t)) in Hb. rewrite HL in Hb. cbn [a_sort a_value run_chart_args] in Hb.
    destruct Hb as [B|[B|[B|[B|(s & x & B & Bx & Bl)]]]].
    - apply B. now left.
    - apply B. right. now left.
    - unfold self_time_stats in HL. rewrite B in HL. discriminate.
    - specialize (B _ (or_introl eq_refl)). unfold shows in B. cbn [s_avg] in B. destruct B as [[B _]|[[_ B]|[[B _]|[B _]]]]; try discriminate. lra.
    - unfold shows in Bx. destruct B as [<-|[<-|[]]]; cbn [s_avg] in Bx; destruct Bx as [[Bx _]|[[_ Bx]|[[Bx _]|[Bx _]]]]; try discriminate; lra. }
  destruct Hp as (l & Hl). exists p, l. split; [cbn; tauto|]. split; [cbn; tauto|]. split; [exact Hl|]. split; [exact R0|].
  destruct (Classical_Prop.classic (forall w s, In w l -> In s (self_time_stats ">" (stats t)) -> w_name w = s_name s -> w_share w = s_total s / rsum (map s_total (self_time_stats ">" (stats t))))) as [Hy|Hno].
  - exfalso. pose proof (proj1 (C86_run_chart_time_share_iff ">" t l R0 Hl) Hy) as K. rewrite HL in K.
    specialize (K _ _ (or_introl eq_refl) (or_intror (or_introl eq_refl))). cbn [s_total s_count] in K. specialize (K ltac:(lra) ltac:(lra)). discriminate.
  - apply Classical_Pred_Type.not_all_ex_not in Hno as (w & Hno). apply Classical_Pred_Type.not_all_ex_not in Hno as (s & Hno).
    exists w, s. apply Classical_Prop.imply_to_and in Hno as (H1 & Hno). apply Classical_Prop.imply_to_and in Hno as (H2 & Hno). apply Classical_Prop.imply_to_and in Hno as (H3 & Hno). repeat split; assumption.
Qed.
Print Assumptions C86_run_chart_time_share_refuted.
