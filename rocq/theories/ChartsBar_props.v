(* C86, continued: bar charts, moving averages, stacked bars. *)
From Verif Require Import Base History_model History_proofs Timer_model Timer_spec Timer_proofs Timer_proofs2 Timer_props Charts_model Charts_props ChartsRun_props.
From Coq Require Import Ascii Permutation Sorted.
Open Scope R_scope.
Open Scope string_scope.
Open Scope list_scope.

(* a section path: names without the separator *)
Definition path_ok (c : ascii) (l : list string) : Prop := l <> [] /\ Forall (fun x => has_char c x = false) l.
Definition path_name (c : ascii) (l : list string) : string := join (String c "") l.

(* ---------- labels ---------- *)
Lemma count_char_free c x : has_char c x = false -> count_char c x = 0%nat.
Proof. induction x as [|a x IH]; cbn [has_char count_char]; [reflexivity|]. destruct (Ascii.eqb a c); [discriminate|exact IH]. Qed.
Lemma count_char_app c x y : count_char c (x ++ y) = (count_char c x + count_char c y)%nat.
Proof. induction x as [|a x IH]; cbn [append count_char]; [reflexivity|]. rewrite IH. lia. Qed.
Lemma count_char_join c l : Forall (fun x => has_char c x = false) l -> count_char c (join (String c "") l) = (List.length l - 1)%nat.
Proof.
  induction l as [|x [|y l] IH]; intros HF; [reflexivity| |].
  - inversion HF; subst. now apply count_char_free.
  - inversion HF; subst. rewrite join_cons, count_char_app, (count_char_free c x) by assumption. cbn [append count_char]. rewrite Ascii.eqb_refl. rewrite IH by assumption. cbn [List.length]. lia.
Qed.
Lemma label_path c l : path_ok c l -> nested_label c (path_name c l) = (spaces (List.length l - 1) ++ last l "")%string.
Proof.
  intros (Hne & HF). unfold nested_label, path_name. rewrite count_char_join by exact HF. f_equal. change (String c "") with (sep_of c). now rewrite split_join.
Qed.
Definition no_leading_space (s : string) : Prop := match s with String a _ => a <> " "%char | EmptyString => True end.
Lemma spaces_inj : forall a b x y, no_leading_space x -> no_leading_space y -> (spaces a ++ x)%string = (spaces b ++ y)%string -> a = b /\ x = y.
Proof.
  induction a as [|a IH]; intros [|b] x y Hx Hy E; cbn [spaces append] in E.
  - easy.
  - exfalso. destruct x as [|z x]; [discriminate|]. injection E as -> _. now apply Hx.
  - exfalso. destruct y as [|z y]; [discriminate|]. injection E as <- _. now apply Hy.
  - injection E as E. destruct (IH b x y Hx Hy E) as (-> & ->). easy.
Qed.
(* ---------- positions ---------- *)
Lemma index_in_inj l x y : In x l -> index_in x l = index_in y l -> x = y.
Proof.
  induction l as [|z l IH]; intros Hx E; [easy|]. cbn [index_in] in E.
  destruct (String.eqb_spec x z) as [->|Hn]; destruct (String.eqb_spec y z) as [->|Hn']; try congruence; try discriminate.
  destruct Hx as [->|Hx]; [easy|]. injection E as E. now apply IH.
Qed.
Lemma first_seen_in l : forall seen x, In x seen \/ In x l -> In x (first_seen seen l).
Proof.
  induction l as [|y l IH]; intros seen x H; cbn [first_seen]; [destruct H as [H|[]]; exact H|]. apply IH.
  destruct (existsb (String.eqb y) seen) eqn:E.
  - destruct H as [H|[<-|H]]; [now left| |now right]. left. apply existsb_exists in E as (z & Hz & E). apply String.eqb_eq in E. now subst.
  - rewrite in_app_iff. cbn [In] in *. tauto.
Qed.
Lemma position_inj labels x y : In x labels -> position labels x = position labels y -> x = y.
Proof. intros Hx. unfold position. apply index_in_inj. apply first_seen_in. now right. Qed.

Lemma bar_ok c A hier fn t t' b : bar c A hier fn t = (t', Ok b) -> exists st f,
  Permutation (subject c A t) st /\ metric_of (a_value A) = Some f /\
  let lab := fun s => if match fn with None => hier | Some x => x end then nested_label c (s_name s) else s_name s in
  b = combine (map lab st) (snd (smoothed A t (map lab st) (map f st))) /\ t' = fst (smoothed A t (map lab st) (map f st)).
Proof.
  unfold bar. destruct (chosen c A t) as [[st f]|e] eqn:E; [|discriminate]. intros H. exists st, f.
  destruct (chosen_ok c A t st f E) as (HP & Hl & Hm). split; [exact HP|]. split; [exact Hm|]. cbn zeta.
  destruct (smoothed A t _ (map f st)) as [t'' data]. injection H as <- <-. easy.
Qed.
Lemma nth_error_map_some {X Y} (g : X -> Y) l i y : nth_error (map g l) i = Some y -> exists x, nth_error l i = Some x /\ g x = y.
Proof. rewrite nth_error_map. destruct (nth_error l i) as [x|]; [|discriminate]. cbn. injection 1 as <-. now exists x. Qed.

(* Bar charts: one bar per recorded section, in the order of the summary; bars i and j
   are drawn at the same height exactly when their labels are equal: never with plain
   names, and with nested labels (the default of hierarchical timers) exactly when the two
   sections have the same depth and the same last name. *)
Theorem C86_bar_positions : forall c A hier fn t t' b, reached c t -> bar c A hier fn t = (t', Ok b) ->
  exists order, Permutation order (map s_name (stats t)) /\ List.length (drawn_bars b) = List.length order /\
  let height i := nth i (map fst (drawn_bars b)) 0%nat in
  let nested := match fn with None => hier | Some x => x end in
  (nested = false -> forall i j, (i < List.length order)%nat -> (j < List.length order)%nat -> height i = height j -> i = j) /\
  (nested = true -> forall i j l m, nth_error order i = Some (path_name c l) -> nth_error order j = Some (path_name c m) ->
     path_ok c l -> path_ok c m -> no_leading_space (last l "") -> no_leading_space (last m "") ->
     (height i = height j <-> List.length l = List.length m /\ last l "" = last m "")).
Proof.
  intros c A hier fn t t' b Hr H. apply bar_ok in H as (st & f & HP & Hm & H). cbn zeta in H. destruct H as (Hb & _).
  set (nested := match fn with None => hier | Some x => x end) in *.
  set (lab := fun s => if nested then nested_label c (s_name s) else s_name s) in *.
  exists (map s_name st). split; [|split].
  - rewrite <- (subject_names c A t). apply Permutation_map. now apply Permutation_sym.
  - unfold drawn_bars. rewrite map_length, Hb, combine_length, !map_length, smoothed_length by (now rewrite !map_length). rewrite map_length. lia.
  - assert (Hlab : map fst b = map lab st). { rewrite Hb. apply combine_fst. rewrite smoothed_length by (now rewrite !map_length). now rewrite !map_length. }
    assert (Hh : map fst (drawn_bars b) = map (fun s => position (map lab st) (lab s)) st).
    { unfold drawn_bars. rewrite map_map. cbn [fst]. rewrite Hlab. rewrite <- (map_map fst (position (map lab st))). rewrite Hlab, map_map. reflexivity. }
    assert (Hhi : forall i s, nth_error st i = Some s -> nth i (map fst (drawn_bars b)) 0%nat = position (map lab st) (lab s)).
    { intros i s Hs. rewrite Hh. apply nth_error_nth. rewrite nth_error_map, Hs. reflexivity. }
    assert (HN : NoDup (map s_name st)). { eapply Permutation_NoDup; [|apply (stats_nodup c t Hr)]. rewrite <- (subject_names c A t). now apply Permutation_map. }
    assert (Heq : forall i j s s', nth_error st i = Some s -> nth_error st j = Some s' ->
      (nth i (map fst (drawn_bars b)) 0%nat = nth j (map fst (drawn_bars b)) 0%nat <-> lab s = lab s')).
    { intros i j s s' Hs Hs'. rewrite (Hhi i s Hs), (Hhi j s' Hs'). split; [|now intros ->].
      apply position_inj. apply in_map. eapply nth_error_In; exact Hs. }
    cbn zeta. split.
    + intros Hn i j Hi Hj E. rewrite map_length in Hi, Hj.
      destruct (nth_error st i) as [s|] eqn:Es; [|apply nth_error_None in Es; lia].
      destruct (nth_error st j) as [s'|] eqn:Es'; [|apply nth_error_None in Es'; lia].
      apply (Heq i j s s' Es Es') in E. unfold lab in E. rewrite Hn in E.
      apply (proj1 (NoDup_nth_error (map s_name st)) HN i j); [now rewrite map_length|]. rewrite !nth_error_map, Es, Es'. cbn. now rewrite E.
    + intros Hn i j l m Hi Hj Hpl Hpm Hsl Hsm.
      apply nth_error_map_some in Hi as (s & Es & En). apply nth_error_map_some in Hj as (s' & Es' & En').
      rewrite (Heq i j s s' Es Es'). unfold lab. rewrite Hn, En, En', !label_path by assumption. split.
      * intros E. apply spaces_inj in E as (E1 & E2); [|assumption|assumption]. split; [|exact E2].
        destruct Hpl as (Hl0 & _), Hpm as (Hm0 & _). destruct l; [easy|]. destruct m; [easy|]. cbn [List.length] in *. lia.
      * intros (-> & ->). reflexivity.
Qed.
Print Assumptions C86_bar_positions.
(* So two different sections are drawn on top of each other by a common program. *)
Theorem C86_bars_overlap_refuted : exists p t' b, sections_only p /\ names_free ">" p /\
  let t := fst (run true ">" INR p (timer_new 0)) in
  bar ">" (mkArgs "name" "total" false false false) true None t = (t', Ok b) /\
  List.length b = 4%nat /\ map fst (drawn_bars b) = [0; 1; 2; 1]%nat.
Proof.
  exists (PSeq (PSection "a" (PSection "solve" PSkip)) (PSection "b" (PSection "solve" PSkip))). eexists. eexists.
  split; [cbn; tauto|]. split; [cbn; tauto|]. cbv zeta. split; [lazy -[Rplus Rminus Rdiv Rmult IZR INR rsum list_max]; reflexivity|]. split; reflexivity.
Qed.
Print Assumptions C86_bars_overlap_refuted.
