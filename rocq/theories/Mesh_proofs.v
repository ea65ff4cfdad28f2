(* Sets of elements: lemmas for Mesh_props. *)
From Verif Require Import Base Mesh_model Mesh_spec.
From Coq Require Import Sorting.Sorted Sorting.Permutation.
Open Scope list_scope.

Lemma mem_in x l : mem x l = true <-> In x l.
Proof.
  unfold mem. rewrite existsb_exists. split.
  - intros (y & Hy & E). apply Nat.eqb_eq in E. now subst y.
  - intros H. exists x. now rewrite Nat.eqb_refl.
Qed.
Lemma mem_false x l : mem x l = false <-> ~ In x l.
Proof. rewrite <- mem_in. destruct (mem x l); split; congruence. Qed.
Lemma setdiff_in x a b : In x (setdiff1d a b) <-> In x a /\ ~ In x b.
Proof.
  unfold setdiff1d. rewrite filter_In.
  destruct (mem x b) eqn:E; simpl.
  - apply mem_in in E. intuition congruence.
  - apply mem_false in E. intuition.
Qed.
Lemma filter_NoDup {A} f (l : list A) : NoDup l -> NoDup (filter f l).
Proof. apply NoDup_filter. Qed.

Lemma sadd_in y x l : In y (sadd x l) <-> y = x \/ In y l.
Proof.
  induction l as [|z r IH]; simpl; [intuition|].
  destruct (Nat.ltb_spec x z); [simpl; intuition|].
  destruct (Nat.eqb_spec x z) as [->|Hn]; [simpl; intuition|].
  simpl. rewrite IH. intuition.
Qed.
Lemma sadd_sorted x l : StronglySorted lt l -> StronglySorted lt (sadd x l).
Proof.
  induction l as [|z r IH]; simpl; intros H; [repeat constructor|].
  inversion H as [|? ? Hr Hz]; subst. rewrite Forall_forall in Hz.
  destruct (Nat.ltb_spec x z) as [Hl|Hg].
  - constructor; [exact H|]. rewrite Forall_forall. intros w [<-|Hw]; [exact Hl|].
    specialize (Hz w Hw). lia.
  - destruct (Nat.eqb_spec x z) as [->|Hn]; [exact H|].
    constructor; [auto|]. rewrite Forall_forall. intros w Hw. apply sadd_in in Hw.
    destruct Hw as [->|Hw]; [lia|auto].
Qed.
Lemma sunion_in y a b : In y (sunion a b) <-> In y a \/ In y b.
Proof.
  unfold sunion. induction a as [|x a IH]; simpl; [intuition|].
  rewrite sadd_in, IH. intuition.
Qed.
Lemma sunion_sorted a b : StronglySorted lt b -> StronglySorted lt (sunion a b).
Proof. intros H. unfold sunion. induction a; simpl; auto using sadd_sorted. Qed.
Lemma unique_in y l : In y (np_unique l) <-> In y l.
Proof.
  unfold np_unique. induction l as [|x l IH]; simpl; [intuition|]. rewrite sadd_in, IH. intuition.
Qed.
Lemma unique_sorted l : StronglySorted lt (np_unique l).
Proof. unfold np_unique. induction l; simpl; auto using sadd_sorted. constructor. Qed.
Lemma sorted_nodup l : StronglySorted lt l -> NoDup l.
Proof.
  induction 1 as [|x l Hl IH Hx]; constructor; auto.
  intros Hin. rewrite Forall_forall in Hx. specialize (Hx x Hin). lia.
Qed.
(* two strictly sorted lists with the same elements are equal *)
Lemma sorted_ext a : forall b, StronglySorted lt a -> StronglySorted lt b ->
  (forall x, In x a <-> In x b) -> a = b.
Proof.
  induction a as [|x a IH]; intros b Ha Hb H.
  - destruct b as [|y b]; [reflexivity|]. exfalso. apply (proj2 (H y)). now left.
  - destruct b as [|y b]; [exfalso; apply (proj1 (H x)); now left|].
    inversion Ha as [|? ? Ha' Fa]; inversion Hb as [|? ? Hb' Fb]; subst.
    rewrite Forall_forall in Fa, Fb.
    assert (x = y).
    { destruct (proj1 (H x) (or_introl eq_refl)) as [->|H1]; [reflexivity|].
      destruct (proj2 (H y) (or_introl eq_refl)) as [->|H2]; [reflexivity|].
      specialize (Fa y H2). specialize (Fb x H1). lia. }
    subst y. f_equal. apply IH; auto. intros w. split; intros Hw.
    + destruct (proj1 (H w) (or_intror Hw)) as [<-|]; [|assumption].
      specialize (Fa x Hw). lia.
    + destruct (proj2 (H w) (or_intror Hw)) as [<-|]; [|assumption].
      specialize (Fb x Hw). lia.
Qed.

Lemma tget_tadd k k' e tb : tget k (tadd k' e tb) = if Nat.eqb k k' then sadd e (tget k tb) else tget k tb.
Proof.
  induction tb as [|[j v] r IH]; simpl.
  - destruct (Nat.eqb k k'); reflexivity.
  - destruct (Nat.eqb_spec k' j) as [->|Hn]; simpl.
    + destruct (Nat.eqb k j); reflexivity.
    + destruct (Nat.eqb_spec k j) as [->|Hn'].
      * destruct (Nat.eqb_spec j k'); [congruence|reflexivity].
      * exact IH.
Qed.
Definition tsorted (tb : table) := forall k, StronglySorted lt (tget k tb).
Lemma add_nodes e ns : forall tb, tsorted tb ->
  tsorted (fold_left (fun tb n => tadd n e tb) ns tb) /\
  forall k x, In x (tget k (fold_left (fun tb n => tadd n e tb) ns tb)) <->
     (x = e /\ In k ns) \/ In x (tget k tb).
Proof.
  induction ns as [|n ns IH]; intros tb Ht; simpl.
  - split; [exact Ht|]. intuition.
  - assert (Ht' : tsorted (tadd n e tb)).
    { intros k. rewrite tget_tadd. destruct (Nat.eqb k n); auto using sadd_sorted. }
    destruct (IH _ Ht') as [S1 S2]. split; [exact S1|].
    intros k x. rewrite S2, tget_tadd. destruct (Nat.eqb_spec k n) as [->|Hn].
    + rewrite sadd_in. intuition.
    + intuition. congruence.
Qed.
Lemma add_elems (l : list (nat * elem)) : forall tb, tsorted tb ->
  let tb' := fold_left (fun tb en => fold_left (fun tb n => tadd n (fst en) tb) (snd en) tb) l tb in
  tsorted tb' /\ forall k x, In x (tget k tb') <-> (exists ns, In (x, ns) l /\ In k ns) \/ In x (tget k tb).
Proof.
  induction l as [|[e ns] l IH]; intros tb Ht; simpl.
  - split; [exact Ht|]. intros; split; [auto|]. intros [(? & [] & _)|]; auto.
  - destruct (add_nodes e ns tb Ht) as [A1 A2]. destruct (IH _ A1) as [B1 B2].
    split; [exact B1|]. intros k x. rewrite B2, A2. split.
    + intros [(ns' & H1 & H2)|[[-> H]|H]]; [left|left|now right].
      * exists ns'. auto.
      * exists ns. auto.
    + intros [(ns' & [E|H1] & H2)|H]; [|left; eauto|auto].
      injection E as <- <-. auto.
Qed.
Lemma in_enum {A} (d : A) (l : list A) x a : In (x, a) (enum l) <-> (x < List.length l)%nat /\ nth x l d = a.
Proof.
  unfold enum.
  assert (G : forall (m : list A) s, In (x, a) (combine (seq s (List.length m)) m) <->
     (s <= x < s + List.length m)%nat /\ nth (x - s) m d = a).
  { induction m as [|b m IH]; intros s; simpl; [intuition lia|].
    rewrite IH. split.
    - intros [E|[H1 H2]].
      + injection E as <- <-. rewrite Nat.sub_diag. split; [lia|reflexivity].
      + split; [lia|]. replace (x - s)%nat with (S (x - S s)) by lia. exact H2.
    - intros [H1 H2]. destruct (Nat.eq_dec x s) as [->|Hn].
      + left. rewrite Nat.sub_diag in H2. now rewrite <- H2.
      + right. split; [lia|]. replace (x - s)%nat with (S (x - S s)) in H2 by lia. exact H2. }
  rewrite G. rewrite Nat.sub_0_r. simpl. intuition lia.
Qed.
Lemma node_table_spec t : tsorted (node_table t) /\
  forall k x, In x (tget k (node_table t)) <-> (x < List.length t)%nat /\ In k (nth x t []).
Proof.
  unfold node_table. destruct (add_elems (enum t) []) as [S1 S2]; [intros k; constructor|].
  split; [exact S1|]. intros k x. rewrite S2. split.
  - intros [(ns & H1 & H2)|[]]. apply (in_enum []) in H1. destruct H1 as [H1 <-]. auto.
  - intros [H1 H2]. left. exists (nth x t []). split; [|exact H2]. now apply (in_enum []).
Qed.

Lemma lookup_spec t nodes : StronglySorted lt (lookup (node_table t) nodes) /\
  forall e, In e (lookup (node_table t) nodes) <-> touches t nodes e.
Proof.
  destruct (node_table_spec t) as [_ HT]. unfold lookup.
  assert (G : forall l acc, StronglySorted lt acc ->
    StronglySorted lt (fold_left (fun acc n => sunion (tget n (node_table t)) acc) l acc) /\
    forall e, In e (fold_left (fun acc n => sunion (tget n (node_table t)) acc) l acc) <->
      In e acc \/ touches t l e).
  { induction l as [|n l IH]; intros acc Ha; simpl.
    - split; [exact Ha|]. unfold touches. intros e; split; [auto|]. intros [H|(_ & n & [] & _)]; exact H.
    - destruct (IH (sunion (tget n (node_table t)) acc) (sunion_sorted _ _ Ha)) as [S1 S2].
      split; [exact S1|]. intros e. rewrite S2, sunion_in, HT. unfold touches. split.
      + intros [[[H1 H2]|H]|(H1 & m & H2 & H3)]; [right|now left|right]; split; auto.
        * exists n. simpl; auto.
        * exists m. simpl; auto.
      + intros [H|(H1 & m & [->|H2] & H3)]; [auto|auto|]. right. split; [auto|]. now exists m. }
  destruct (G (np_unique nodes) [] (SSorted_nil _)) as [S1 S2]. split; [exact S1|].
  intros e. rewrite S2. unfold touches. split.
  - intros [[]|(H1 & n & H2 & H3)]. split; [auto|]. exists n. now rewrite unique_in in H2.
  - intros (H1 & n & H2 & H3). right. split; [auto|]. exists n. now rewrite unique_in.
Qed.
Lemma ebn_eq t nodes : elements_by_nodes t nodes = lookup (node_table t) nodes.
Proof. reflexivity. Qed.
Lemma ebn_in t nodes e : In e (elements_by_nodes t nodes) <-> touches t nodes e.
Proof. rewrite ebn_eq. apply lookup_spec. Qed.
Lemma ebn_sorted t nodes : StronglySorted lt (elements_by_nodes t nodes).
Proof. rewrite ebn_eq. apply lookup_spec. Qed.
Lemma touches_app t a b e : touches t (a ++ b) e <-> touches t a e \/ touches t b e.
Proof.
  unfold touches. split.
  - intros (H & n & Hn & Hm). apply in_app_iff in Hn. destruct Hn; [left|right]; split; eauto.
  - intros [(H & n & Hn & Hm)|(H & n & Hn & Hm)]; (split; [auto|]); exists n; rewrite in_app_iff; auto.
Qed.
Lemma seq_sorted n : forall s, StronglySorted lt (seq s n).
Proof.
  induction n as [|n IH]; intros s; simpl; constructor; auto.
  rewrite Forall_forall. intros x Hx. apply in_seq in Hx. lia.
Qed.
Lemma filter_sorted f l : StronglySorted lt l -> StronglySorted lt (filter f l).
Proof.
  induction 1 as [|x l Hl IH Hx]; simpl; [constructor|].
  destruct (f x); [|exact IH]. constructor; [exact IH|].
  rewrite Forall_forall in *. intros y Hy. apply filter_In in Hy. now apply Hx.
Qed.
(* complement inside 0..n-1 *)
Lemma partition_perm n des : NoDup des -> (forall x, In x des -> (x < n)%nat) ->
  Permutation (des ++ setdiff1d (seq 0 n) des) (seq 0 n).
Proof.
  intros Hd Hr. apply NoDup_Permutation.
  - assert (H : NoDup (setdiff1d (seq 0 n) des)) by (apply filter_NoDup, seq_NoDup).
    clear Hr. assert (D : forall x, In x des -> ~ In x (setdiff1d (seq 0 n) des)).
    { intros x Hx Hc. apply setdiff_in in Hc. tauto. }
    revert D H. generalize (setdiff1d (seq 0 n) des) as f. intros f D Hf.
    induction Hd as [|x l Hx Hl IH]; simpl; [exact Hf|].
    constructor.
    + rewrite in_app_iff. intros [Hc|Hc]; [auto|]. apply (D x); simpl; auto.
    + apply IH. intros y Hy. apply D. now right.
  - apply seq_NoDup.
  - intros x. rewrite in_app_iff, setdiff_in, in_seq. split.
    + intros [H|[H _]]; [specialize (Hr x H); lia|lia].
    + intros H. destruct (in_dec Nat.eq_dec x des); [auto|right; split; [lia|auto]].
Qed.
