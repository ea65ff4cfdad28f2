(* C86, continued: stacked bars. *)
From Verif Require Import Base History_model History_proofs Timer_model Timer_spec Timer_proofs Timer_proofs2 Timer_props Charts_model Charts_props ChartsRun_props ChartsBar_props ChartsAvg_props.
From Coq Require Import Ascii Permutation Sorted.
Open Scope R_scope.
Open Scope string_scope.
Open Scope list_scope.

(* the value of a recorded section in a chart *)
Definition has_value (c : ascii) (A : chart_args) (t : timer) (name : string) (x : R) : Prop :=
  exists s, In s (subject c A t) /\ s_name s = name /\ shows (a_value A) s x.

Lemma metric_named_value c A t st f n : reached c t -> Permutation (subject c A t) st -> metric_of (a_value A) = Some f ->
  In n (map s_name st) -> has_value c A t n (metric_named f st n).
Proof.
  intros Hr HP Hm Hin. apply in_map_iff in Hin as (s & <- & Hs). exists s. split; [eapply Permutation_in; [apply Permutation_sym; exact HP|exact Hs]|]. split; [reflexivity|].
  assert (N : NoDup (map s_name st)). { eapply Permutation_NoDup; [|apply (stats_nodup c t Hr)]. rewrite <- (subject_names c A t). now apply Permutation_map. }
  unfold metric_named, stat_named. assert (hget (map (fun s0 => (s_name s0, s0)) st) (s_name s) = Some s) as ->.
  { clear HP. induction st as [|x st IH]; [easy|]. cbn [map hget]. cbn [map] in N. inversion N as [|? ? Hnin Hnd]; subst.
    destruct (String.eqb_spec (s_name s) (s_name x)) as [E|E].
    - f_equal. destruct Hs as [->|Hs]; [reflexivity|]. exfalso. apply Hnin. rewrite <- E. now apply in_map.
    - destruct Hs as [->|Hs]; [easy|]. now apply IH. }
  now apply metric_shows.
Qed.
Lemma stacked_ok c A t rows : stacked c A t = Ok rows -> exists st f,
  Permutation (subject c A t) st /\ metric_of (a_value A) = Some f /\ existsb (fun s => has_char c (s_name s)) st = true /\
  rows = map (fun n =>
      let kids := map (fun k => (k, metric_named f st k)) (children_of c (map s_name st) n) in
      mkRow n (Rmax (metric_named f st n - rsum (map snd kids)) 0) kids)
    (filter (fun n => negb (has_char c n)) (map s_name st)).
Proof.
  unfold stacked. destruct (chosen c A t) as [[st f]|e] eqn:E; [|discriminate]. cbn [bind]. intros H. exists st, f.
  destruct (chosen_ok c A t st f E) as (HP & Hl & Hm). destruct (existsb _ st); [|discriminate]. cbn [negb] in H. injection H as <-. easy.
Qed.
(* Rows are the recorded names without separator; a row shows one segment per direct
   subsection and reaches the larger of its own value and the sum of its children's. *)
Theorem C86_stacked_rows : forall c A t rows, reached c t -> stacked c A t = Ok rows ->
  (forall n, In n (map r_name rows) <-> In n (map s_name (stats t)) /\ has_char c n = false) /\ NoDup (map r_name rows) /\
  (forall r, In r rows -> exists x, has_value c A t (r_name r) x /\ row_length r = Rmax x (rsum (map snd (r_children r))) /\
     NoDup (map fst (r_children r)) /\
     (forall k v, In (k, v) (r_children r) -> has_value c A t k v) /\
     (forall k, In k (map fst (r_children r)) <-> In k (map s_name (stats t)) /\ parent c k = Some (r_name r))).
Proof.
  intros c A t rows Hr H. apply stacked_ok in H as (st & f & HP & Hm & He & ->).
  assert (PN : Permutation (map s_name st) (map s_name (stats t))) by (rewrite <- (subject_names c A t); apply Permutation_map; now apply Permutation_sym).
  assert (N : NoDup (map s_name st)) by (eapply Permutation_NoDup; [apply Permutation_sym; exact PN|apply (stats_nodup c t Hr)]).
  assert (Hin : forall n, In n (map s_name st) <-> In n (map s_name (stats t))) by (intros n; split; apply Permutation_in; [exact PN|now apply Permutation_sym]).
  rewrite map_map. cbn [r_name]. rewrite map_id. split; [|split].
  - intros n. rewrite filter_In, Hin. destruct (has_char c n); cbn [negb]; intuition discriminate.
  - now apply NoDup_filter.
  - intros r Hrow. apply in_map_iff in Hrow as (n & <- & Hn). apply filter_In in Hn as (Hn & _). cbn [r_name r_children row_length].
    exists (metric_named f st n). split; [now apply metric_named_value|].
    assert (Hk : forall k, In k (children_of c (map s_name st) n) <-> In k (map s_name (stats t)) /\ parent c k = Some n).
    { intros k. unfold children_of. rewrite filter_In, Hin. destruct (parent c k) as [q|]; [|intuition discriminate]. split; intros (Ha & Hb); (split; [exact Ha|]).
      - apply String.eqb_eq in Hb. now subst.
      - injection Hb as ->. apply String.eqb_refl. }
    split; [|split; [|split]].
    + unfold row_length. cbn [r_self r_children]. set (kids := rsum _). unfold Rmax. repeat destruct (Rle_dec _ _); lra.
    + rewrite map_map. cbn [fst]. rewrite map_id. unfold children_of. now apply NoDup_filter.
    + intros k v Hkv. apply in_map_iff in Hkv as (k' & E & Hk'). injection E as <- <-. apply metric_named_value; try assumption. apply Hin. now apply Hk.
    + intros k. rewrite map_map. cbn [fst]. rewrite map_id. apply Hk.
Qed.
Print Assumptions C86_stacked_rows.
(* ValueError exactly when the flat chart fails or nothing is nested. *)
Theorem C86_stacked_error_iff : forall c A t,
  (stacked c A t = Err ValueError <->
   ~ In (a_sort A) sort_keys \/ ~ In (a_value A) value_names \/ forall n, In n (map s_name (stats t)) -> has_char c n = false) /\
  (forall e, stacked c A t = Err e -> e = ValueError).
Proof.
  intros c A t. unfold stacked. destruct (chosen c A t) as [[st f]|e] eqn:E.
  - assert (G : In (a_sort A) sort_keys /\ subject c A t <> [] /\ In (a_value A) value_names) by (apply chosen_ok_iff; now exists st, f).
    destruct (chosen_ok c A t st f E) as (HP & Hl & Hm). cbn [bind].
    assert (PN : Permutation (map s_name st) (map s_name (stats t))) by (rewrite <- (subject_names c A t); apply Permutation_map; now apply Permutation_sym).
    destruct (existsb (fun s => has_char c (s_name s)) st) eqn:Ex; cbn [negb].
    + split; [|discriminate]. split; [discriminate|]. intros [B|[B|B]]; [tauto|tauto|]. exfalso. apply existsb_exists in Ex as (s & Hs & Hc).
      rewrite B in Hc; [discriminate|]. eapply Permutation_in; [exact PN|]. now apply in_map.
    + split; [|now intros e [= <-]]. split; [intros _|reflexivity]. right; right. intros n Hn. apply Permutation_sym in PN. apply (Permutation_in _ PN) in Hn.
      apply in_map_iff in Hn as (s & <- & Hs). destruct (has_char c (s_name s)) eqn:Ec; [|reflexivity]. exfalso.
      assert (existsb (fun s => has_char c (s_name s)) st = true) by (apply existsb_exists; now exists s). congruence.
  - cbn [bind]. apply chosen_err in E as (-> & Hb). split; [|now intros e [= <-]]. split; [intros _|reflexivity].
    destruct Hb as [B|[B|B]]; [tauto| |tauto]. right; right. intros n Hn. rewrite <- (subject_names c A t), B in Hn. easy.
Qed.
Print Assumptions C86_stacked_error_iff.

(* Sections-only code, monotone clock, value="total" without self-times: every bar is as
   long as the time of its section, and the bars together are the top-level time. *)
Theorem C86_stacked_total : forall c clk p n A rows,
  (forall i, clk i <= clk (S i)) -> sections_only p -> names_free c p ->
  a_self A = false -> a_value A = "total" ->
  let t := fst (run true (String c "") clk p (timer_new n)) in
  stacked c A t = Ok rows ->
  (forall r, In r rows -> row_length r = rsum (durations t (r_name r))).
Proof.
  intros c clk p n A rows Hclk Hso Hf Hs Hv t H r Hin.
  assert (Hr : reached c t) by (apply reached_run; apply reached_new).
  destruct (C86_stacked_rows c A t rows Hr H) as (Hnames & _ & Hrow). destruct (Hrow r Hin) as (x & Hx & Hlen & Hnd & Hkv & Hk).
  assert (Hval : forall nm y, has_value c A t nm y -> y = rsum (durations t nm) /\ exists s, In s (stats t) /\ s_name s = nm).
  { intros nm y (s & Hsin & <- & Hsh). unfold subject in Hsin. rewrite Hs in Hsin. rewrite Hv in Hsh. unfold shows in Hsh.
    destruct Hsh as [[_ ->]|[[Hq _]|[[Hq _]|[Hq _]]]]; try discriminate. split; [|now exists s].
    destruct (C42_statistics_exact true (String c "") clk p n) as (_ & _ & HS). now apply HS. }
  destruct (Hval _ _ Hx) as (-> & s0 & Hs0 & Hn0).
  assert (Hc : rsum (map snd (r_children r)) <= rsum (durations t (r_name r))).
  { destruct (C42_self_times_partition c clk p n Hclk Hso Hf) as (_ & HP). fold t in HP.
    set (sf := self_time_stats c (stats t)) in *.
    assert (Hex : exists s, In s sf /\ s_name s = r_name r). { unfold sf, self_time_stats. eexists. split; [apply in_map; exact Hs0|]. cbn [s_name]. exact Hn0. }
    destruct Hex as (s & Hsf & Hsn). destruct (HP s Hsf) as (Hpos & s1 & Hs1 & Hn1 & _ & Ht).
    destruct (C42_statistics_exact true (String c "") clk p n) as (_ & _ & HS). fold t in HS.
    destruct (HS s1 Hs1) as (_ & _ & Htot & _). rewrite Htot, <- Hn1, Hsn in Ht.
    assert (E : rsum (map snd (r_children r)) = rsum (map (fun m => rsum (durations t m)) (children_of c (map fst (t_rec t)) (r_name r)))); [|lra].
    assert (E1 : map snd (r_children r) = map (fun m => rsum (durations t m)) (map fst (r_children r))).
    { rewrite map_map. apply map_ext_in. intros (k & v) Hin'. cbn [fst snd]. now apply Hval, Hkv. }
    rewrite E1. apply rsum_perm. apply Permutation_map. pose proof (reached_good c t Hr) as Hg. apply NoDup_Permutation; [exact Hnd|apply NoDup_filter; apply Hg|].
    intros k. rewrite Hk. unfold children_of. rewrite filter_In, (stats_names (t_rec t) t Hg eq_refl).
    destruct (parent c k) as [q|]; [|intuition discriminate]. split; intros (Ha & Hb); (split; [exact Ha|]).
    - injection Hb as ->. apply String.eqb_refl.
    - apply String.eqb_eq in Hb. now subst. }
  rewrite Hlen. now apply Rmax_left.
Qed.
Print Assumptions C86_stacked_total.
(* Only two levels are drawn: a section nested deeper appears nowhere, although the
   documentation announces a bar for every section with children. *)
Theorem C86_stacked_deep_sections_missing : forall c A t rows l, reached c t -> stacked c A t = Ok rows ->
  path_ok c l -> (3 <= List.length l)%nat ->
  ~ In (path_name c l) (map r_name rows) /\ forall r, In r rows -> ~ In (path_name c l) (map fst (r_children r)).
Proof.
  intros c A t rows l Hr H (Hne & HF) Hl. destruct (C86_stacked_rows c A t rows Hr H) as (Hnames & _ & Hrow). split.
  - intros Hin. apply Hnames in Hin as (_ & Hc). unfold path_name in Hc. change (String c "") with (sep_of c) in Hc. rewrite has_char_join in Hc by exact HF.
    apply Nat.ltb_ge in Hc. lia.
  - intros r Hin Hk. destruct (Hrow r Hin) as (x & _ & _ & _ & _ & HK). apply HK in Hk as (_ & Hp).
    unfold path_name in Hp. change (String c "") with (sep_of c) in Hp. rewrite parent_join in Hp by assumption.
    destruct (Nat.ltb_spec 1 (List.length l)); [|lia]. injection Hp as Hp.
    assert (In (r_name r) (map r_name rows)) as Hn by (now apply in_map). apply Hnames in Hn as (_ & Hc). rewrite <- Hp in Hc.
    assert (HFr : Forall (fun x => has_char c x = false) (removelast l)). { rewrite (app_removelast_last "" Hne) in HF. apply Forall_app in HF. tauto. }
    rewrite has_char_join in Hc by exact HFr. apply Nat.ltb_ge in Hc.
    rewrite (app_removelast_last "" Hne), app_length in Hl. cbn [List.length] in Hl. lia.
Qed.
Print Assumptions C86_stacked_deep_sections_missing.
(* For value="avg" a bar can be longer than its section's value, and with self-times it is
   shorter than the section's time (the children are subtracted twice). *)
Lemma stacked_eq c A t L : stats t = L -> a_self A = false -> stacked c A t =
  (let! l := sorted_stats L (a_sort A) (a_desc A) in
   let! lf := match l with [] => Err ValueError | _ => match metric_of (a_value A) with None => Err ValueError | Some f => Ok (l, f) end end in
   let '(l, f) := lf in
   if negb (existsb (fun s => has_char c (s_name s)) l) then Err ValueError else
   Ok (map (fun n =>
      let kids := map (fun k => (k, metric_named f l k)) (children_of c (map s_name l) n) in
      mkRow n (Rmax (metric_named f l n - rsum (map snd kids)) 0) kids)
    (filter (fun n => negb (has_char c n)) (map s_name l)))).
Proof. intros H Hs. unfold stacked, chosen, summary. rewrite Hs, H. destruct (sorted_stats L (a_sort A) (a_desc A)); reflexivity. Qed.
Lemma stat_ext n k a b m a' b' : a = a' -> b = b' -> mkStat n k a b m = mkStat n k a' b' m.
Proof. now intros -> ->. Qed.
Lemma stat_ext2 n k a b m a' : a = a' -> mkStat n k a b m = mkStat n k a' b m.
Proof. now intros ->. Qed.
Theorem C86_stacked_average_refuted : exists p rows r, sections_only p /\ names_free ">" p /\
  let t := fst (run true ">" INR p (timer_new 0)) in
  stacked ">" (mkArgs "name" "avg" false false false) t = Ok rows /\ In r rows /\ r_name r = "a" /\
  has_value ">" (mkArgs "name" "avg" false false false) t "a" (7 / 3) /\ row_length r = 3.
Proof.
  set (p := PSeq (PSection "a" PSkip) (PSeq (PSection "a" PSkip) (PSection "a" (PSection "b" (PSection "x" PSkip))))).
  set (t := fst (run true ">" INR p (timer_new 0))).
  assert (HL : exists m1 m2 m3, stats t = [mkStat "a" 3 7 (7 / 3) m1; mkStat "a>b>x" 1 1 1 m2; mkStat "a>b" 1 3 3 m3]).
  { unfold t, p. do 3 eexists. lazy -[Rplus Rminus Rdiv Rmult IZR INR rsum list_max]. cbn [INR rsum fold_right].
    apply (f_equal2 cons); [apply stat_ext; lra|]. apply (f_equal2 cons); [apply stat_ext; lra|]. apply (f_equal2 cons); [apply stat_ext; lra|reflexivity]. }
  destruct HL as (m1 & m2 & m3 & HL).
  eexists p, _, _. split; [cbn; tauto|]. split; [cbn; tauto|]. fold t. cbn zeta. split.
  { rewrite (stacked_eq _ _ _ _ HL) by reflexivity. lazy -[Rmax Rplus Rminus Rdiv Rmult IZR rsum]. reflexivity. }
  split; [now left|]. cbn [r_name]. split; [reflexivity|]. split.
  - unfold has_value, subject. cbn [a_self]. rewrite HL. eexists. split; [now left|]. split; [reflexivity|]. right. left. split; reflexivity.
  - unfold row_length. cbn [r_self r_children map snd rsum fold_right]. unfold Rmax. destruct (Rle_dec _ _); lra.
Qed.
Print Assumptions C86_stacked_average_refuted.
Theorem C86_stacked_self_time_refuted : exists p rows r, sections_only p /\ names_free ">" p /\
  let t := fst (run true ">" INR p (timer_new 0)) in
  stacked ">" (mkArgs "name" "total" false false true) t = Ok rows /\ In r rows /\ r_name r = "a" /\
  rsum (durations t "a") = 3 /\ row_length r = 2.
Proof.
  set (p := PSection "a" (PSection "b" PSkip)).
  set (t := fst (run true ">" INR p (timer_new 0))).
  assert (HL : exists a1 m1 a2 m2, self_time_stats ">" (stats t) = [mkStat "a>b" 1 1 a1 m1; mkStat "a" 1 2 a2 m2]).
  { unfold t, p. do 4 eexists. lazy -[Rmax Rplus Rminus Rdiv Rmult IZR INR rsum]. cbn [INR rsum fold_right].
    repeat match goal with |- context [Rmax ?a ?b] => rewrite (Rmax_left a b) by lra end.
    apply (f_equal2 cons); [apply stat_ext2; lra|]. apply (f_equal2 cons); [apply stat_ext2; lra|reflexivity]. }
  destruct HL as (a1 & m1 & a2 & m2 & HL).
  eexists p, _, _. split; [cbn; tauto|]. split; [cbn; tauto|]. fold t. cbn zeta. split.
  { unfold stacked, chosen, summary_self_time. cbn [a_self a_sort a_desc a_value]. rewrite HL. lazy -[Rmax Rplus Rminus Rdiv Rmult IZR rsum]. reflexivity. }
  split; [now left|]. cbn [r_name]. split; [reflexivity|]. split.
  - unfold t, p, durations. lazy -[Rmax Rplus Rminus Rdiv Rmult IZR INR rsum]. cbn [INR rsum fold_right]. lra.
  - unfold row_length. cbn [r_self r_children map snd rsum fold_right]. unfold Rmax. destruct (Rle_dec _ _); lra.
Qed.
Print Assumptions C86_stacked_self_time_refuted.
(* a nested program meets the hypotheses *)
Example C86_instance : exists rows, let p := PSection "a" (PSeq (PSection "b" PSkip) (PSection "d" PSkip)) in
  sections_only p /\ names_free ">" p /\ (forall i, INR i <= INR (S i)) /\
  stacked ">" (mkArgs "name" "total" true false false) (fst (run true ">" INR p (timer_new 0))) = Ok rows /\ List.length rows = 1%nat.
Proof. eexists. cbn zeta. split; [cbn; tauto|]. split; [cbn; tauto|]. split; [intros i; rewrite S_INR; lra|]. split; reflexivity. Qed.
