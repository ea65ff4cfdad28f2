(* C77: elements adjacent by nodes; C78: elements adjacent by faces. *)
From Coq Require Import Sorting.Sorted Permutation.
From Verif Require Import Base Mesh_model Mesh_spec Mesh_proofs Adj_model.
Open Scope nat_scope.
Open Scope list_scope.

(* ---------- specification ---------- *)
(* elements i and j have a node in common *)
Definition share_node (t : list elem) (i j : nat) : Prop := exists n, In n (nth i t []) /\ In n (nth j t []).
(* how many nodes of element i (counted with multiplicity) are nodes of element j *)
Definition common_nodes (t : list elem) (i j : nat) : nat :=
  List.length (filter (fun n => mem n (nth j t [])) (nth i t [])).
Definition at_most_255_nodes (t : list elem) : Prop := forall i, List.length (nth i t []) <= 255.

Lemma share_sym t i j : share_node t i j -> share_node t j i.
Proof. intros (n & H & G). now exists n. Qed.

(* ---------- the node based matrices ---------- *)
Lemma connected_in t n j : In j (connected t n) <-> j < List.length t /\ In n (nth j t []).
Proof.
  unfold connected. rewrite in_map_iff. split.
  - intros ([e ns] & <- & H). apply filter_In in H. destruct H as (H & Hm). cbn [fst snd] in *.
    apply (in_enum []) in H. destruct H as (H & <-). split; [exact H|]. now apply mem_in.
  - intros (H & Hn). exists (j, nth j t []). split; [reflexivity|]. apply filter_In. split; [now apply (in_enum [])|].
    now apply mem_in.
Qed.
Lemma enum_fst {A} (l : list A) : map fst (enum l) = seq 0 (List.length l).
Proof.
  unfold enum. generalize 0. induction l as [|a l IH]; intros s; cbn; [reflexivity|]. now rewrite IH.
Qed.
Lemma enum_nodup {A} (l : list A) : NoDup (map fst (enum l)).
Proof. rewrite enum_fst. apply seq_NoDup. Qed.
Lemma connected_nodup t n : NoDup (connected t n).
Proof.
  unfold connected. pose proof (enum_nodup t) as H. revert H. generalize (enum t). intros l.
  induction l as [|a l IH]; cbn [filter map]; intros H; [constructor|]. inversion H as [|? ? Hn Hd]; subst.
  destruct (mem n (@snd nat (list nat) a)); [|auto]. cbn [map]. constructor; [|auto]. intros Hin. apply Hn.
  apply in_map_iff in Hin. destruct Hin as (b & Hb & Hin). apply filter_In in Hin. apply in_map_iff. exists b. tauto.
Qed.
Lemma count_app i j a b : count_pair i j (a ++ b) = count_pair i j a + count_pair i j b.
Proof. unfold count_pair. now rewrite filter_app, app_length. Qed.
Lemma count_row i j k l : NoDup l -> count_pair i j (map (fun x => (k, x)) l) = if (Nat.eqb k i && mem j l)%bool then 1 else 0.
Proof.
  induction l as [|x l IH]; intros Hnd; [now rewrite andb_false_r|]. inversion Hnd as [|? ? Hn Hd]; subst.
  cbn [map]. change ((k, x) :: map (fun x => (k, x)) l) with ([(k, x)] ++ map (fun x => (k, x)) l).
  rewrite count_app, IH by exact Hd. unfold count_pair. cbn [filter fst snd mem existsb].
  destruct (Nat.eqb_spec k i); cbn [andb]; [|reflexivity]. rewrite (Nat.eqb_sym j x). destruct (Nat.eqb_spec x j) as [->|]; cbn [orb].
  - cbn [filter List.length]. assert (mem j l = false) as -> by now apply mem_false. reflexivity.
  - fold (mem j l). destruct (mem j l); reflexivity.
Qed.
Lemma slow_count t i j : i < List.length t -> j < List.length t -> count_pair i j (slow_pairs t) = common_nodes t i j.
Proof.
  intros Hi Hj. unfold slow_pairs, common_nodes.
  assert (Hrow : forall k ns, count_pair i j (flat_map (fun node => map (fun j => (k, j)) (connected t node)) ns) =
     if Nat.eqb k i then List.length (filter (fun n => mem n (nth j t [])) ns) else 0).
  { intros k ns. induction ns as [|n ns IH]; [now destruct (Nat.eqb k i)|]. cbn [flat_map]. rewrite count_app, IH, count_row by apply connected_nodup.
    destruct (Nat.eqb k i); [|reflexivity]. cbn [andb filter].
    assert (mem j (connected t n) = mem n (nth j t [])) as ->.
    { destruct (mem n (nth j t [])) eqn:E.
      - apply mem_in. apply connected_in. split; [exact Hj|]. now apply mem_in.
      - apply mem_false. apply mem_false in E. intros H. apply connected_in in H. tauto. }
    destruct (mem n (nth j t [])); reflexivity. }
  assert (G : forall l, NoDup (map fst l) -> count_pair i j (flat_map (fun en => flat_map (fun node => map (fun j => (fst en, j)) (connected t node)) (snd en)) l)
     = match find (fun en => Nat.eqb (fst en) i) l with Some en => List.length (filter (fun n => mem n (nth j t [])) (snd en)) | None => 0 end).
  { induction l as [|[k ns] l IH]; intros Hnd; [reflexivity|]. inversion Hnd as [|? ? Hn Hd]; subst.
    cbn [flat_map find fst snd]. rewrite count_app, (IH Hd), Hrow. destruct (Nat.eqb_spec k i) as [->|]; [|reflexivity].
    destruct (find _ l) as [[k' ns']|] eqn:E; [|apply Nat.add_0_r]. exfalso. apply find_some in E. destruct E as (E & Hk).
    apply Nat.eqb_eq in Hk. cbn in Hk. subst k'. apply Hn. apply (in_map fst) in E. exact E. }
  transitivity (match find (fun en : nat * list nat => fst en =? i) (enum t) with
    Some en => List.length (filter (fun n => mem n (nth j t [])) (snd en)) | None => 0 end); [exact (G (enum t) (enum_nodup t))|].
  destruct (find (fun en : nat * list nat => fst en =? i) (enum t)) as [[k ns]|] eqn:E.
  - apply find_some in E. destruct E as (E & Hk). apply Nat.eqb_eq in Hk. cbn in Hk. subst k.
    apply (in_enum []) in E. destruct E as (_ & <-). reflexivity.
  - exfalso. pose proof (find_none _ _ E (i, nth i t [])) as H. cbn [fst] in H. rewrite Nat.eqb_refl in H.
    assert (In (i, nth i t []) (enum t)) by now apply (in_enum []). now specialize (H H0).
Qed.
Lemma common_bound t i j : common_nodes t i j <= List.length (nth i t []).
Proof. unfold common_nodes. induction (nth i t []) as [|n l IH]; cbn; [lia|]. destruct (mem n (nth j t [])); cbn; lia. Qed.
Lemma common_pos t i j : common_nodes t i j <> 0 <-> share_node t i j.
Proof.
  unfold common_nodes, share_node. split.
  - intros H. destruct (filter (fun n => mem n (nth j t [])) (nth i t [])) as [|n l] eqn:E; [easy|].
    assert (Hin : In n (filter (fun n => mem n (nth j t [])) (nth i t []))) by (rewrite E; now left).
    apply filter_In in Hin. destruct Hin as (A & B). apply mem_in in B. now exists n.
  - intros (n & A & B) H. apply length_zero_iff_nil in H.
    assert (Hin : In n (filter (fun n => mem n (nth j t [])) (nth i t []))) by (apply filter_In; split; [exact A|now apply mem_in]).
    rewrite H in Hin. easy.
Qed.

(* the fast neighbours *)
Definition tnd (tb : table) : Prop := NoDup (map fst tb).
Lemma tadd_keys k e tb x : In x (map fst (tadd k e tb)) <-> x = k \/ In x (map fst tb).
Proof.
  induction tb as [|[j v] r IH]; cbn [tadd map fst In].
  - split; [intros [->|[]]; now left|intros [->|[]]; now left].
  - destruct (Nat.eqb_spec k j) as [->|]; cbn [map fst In].
    + split; [tauto|]. intros [->|H]; tauto.
    + rewrite IH. tauto.
Qed.
Lemma tadd_nd k e tb : tnd tb -> tnd (tadd k e tb).
Proof.
  unfold tnd. induction tb as [|[j v] r IH]; cbn [tadd map fst]; intros H.
  - constructor; [easy|constructor].
  - inversion H as [|? ? Hn Hd]; subst. destruct (Nat.eqb_spec k j) as [->|Hne]; cbn [map fst]; constructor; auto.
    intros Hin. apply tadd_keys in Hin. destruct Hin; congruence.
Qed.
Lemma tget_in tb k v : tnd tb -> In (k, v) tb -> tget k tb = v.
Proof.
  unfold tnd. induction tb as [|[j w] r IH]; cbn [tget map fst]; intros Hnd Hin; [easy|]. inversion Hnd as [|? ? Hn Hd]; subst.
  destruct Hin as [[= -> ->]|Hin]; [now rewrite Nat.eqb_refl|].
  destruct (Nat.eqb_spec k j) as [->|]; [|auto]. exfalso. apply Hn. apply (in_map fst) in Hin. exact Hin.
Qed.
Lemma tget_nonempty tb k x : In x (tget k tb) -> In (k, tget k tb) tb.
Proof.
  induction tb as [|[j w] r IH]; cbn [tget]; [easy|]. destruct (Nat.eqb_spec k j) as [->|]; [now left|]. intros H. right. auto.
Qed.
Lemma node_table_nd t : tnd (node_table t).
Proof.
  unfold node_table. assert (G : forall l tb, tnd tb -> tnd (fold_left (fun tb en => fold_left (fun tb n => tadd n (fst en) tb) (snd en) tb) l tb)).
  { induction l as [|en l IH]; intros tb H; cbn [fold_left]; [exact H|]. apply IH.
    revert tb H. induction (snd en) as [|n ns IHn]; intros tb H; cbn [fold_left]; [exact H|]. apply IHn. now apply tadd_nd. }
  apply G. constructor.
Qed.
Definition neigh_inner (e1 : nat) (l : list nat) (nb : table) : table :=
  fold_left (fun nb e2 => if Nat.eqb e1 e2 then nb else tadd e1 e2 nb) l nb.
Lemma neigh_inner_spec e1 l : forall nb, tsorted nb -> tnd nb ->
  tsorted (neigh_inner e1 l nb) /\ tnd (neigh_inner e1 l nb) /\
  forall a b, In b (tget a (neigh_inner e1 l nb)) <-> (a = e1 /\ b <> e1 /\ In b l) \/ In b (tget a nb).
Proof.
  induction l as [|e2 l IH]; intros nb Hs Hn; cbn [neigh_inner fold_left].
  - split; [exact Hs|]. split; [exact Hn|]. intros a b. cbn [In]. tauto.
  - fold (neigh_inner e1 l). destruct (Nat.eqb_spec e1 e2) as [->|Hne].
    + destruct (IH nb Hs Hn) as (A & B & C). split; [exact A|]. split; [exact B|]. intros a b. rewrite C. cbn [In].
      split; [tauto|]. intros [(E1 & E2 & [E3|E3])|]; [congruence|tauto|tauto].
    + assert (Hs' : tsorted (tadd e1 e2 nb)).
      { intros k. rewrite tget_tadd. destruct (Nat.eqb k e1); auto using sadd_sorted. }
      destruct (IH _ Hs' (tadd_nd _ _ _ Hn)) as (A & B & C). split; [exact A|]. split; [exact B|]. intros a b.
      rewrite C, tget_tadd. cbn [In]. destruct (Nat.eqb_spec a e1) as [->|Hae].
      * rewrite sadd_in. split; [intros [H|[->|H]]; [tauto| |tauto]|].
        { left. split; [reflexivity|]. split; [congruence|now left]. }
        intros [(_ & H2 & [->|H3])|H]; tauto.
      * split; [tauto|]. intros [(E & _)|H]; tauto.
Qed.
Lemma neigh_outer_spec l m : forall nb, tsorted nb -> tnd nb ->
  let nb' := fold_left (fun nb e1 => neigh_inner e1 m nb) l nb in
  tsorted nb' /\ tnd nb' /\
  forall a b, In b (tget a nb') <-> (In a l /\ b <> a /\ In b m) \/ In b (tget a nb).
Proof.
  induction l as [|e1 l IH]; intros nb Hs Hn; cbn [fold_left].
  - split; [exact Hs|]. split; [exact Hn|]. intros a b. cbn [In]. tauto.
  - destruct (neigh_inner_spec e1 m nb Hs Hn) as (A & B & C). destruct (IH _ A B) as (A' & B' & C').
    split; [exact A'|]. split; [exact B'|]. intros a b. rewrite C', C. cbn [In]. split.
    + intros [H|[(-> & H)|H]]; tauto.
    + intros [([<-|H1] & H2)|H]; tauto.
Qed.
Lemma fast_spec t : tsorted (fast_neighbors t) /\ tnd (fast_neighbors t) /\
  forall i j, In j (tget i (fast_neighbors t)) <-> i < List.length t /\ j < List.length t /\ i <> j /\ share_node t i j.
Proof.
  destruct (node_table_spec t) as (_ & HT). pose proof (node_table_nd t) as Hnd.
  assert (G : forall (l : table) nb, tsorted nb -> tnd nb ->
    let nb' := fold_left (fun nb ne => fold_left (fun nb e1 => neigh_inner e1 (snd ne) nb) (snd ne) nb) l nb in
    tsorted nb' /\ tnd nb' /\
    forall a b, In b (tget a nb') <-> (exists ne, In ne l /\ In a (snd ne) /\ b <> a /\ In b (snd ne)) \/ In b (tget a nb)).
  { induction l as [|ne l IH]; intros nb Hs Hn; cbn [fold_left].
    - split; [exact Hs|]. split; [exact Hn|]. intros a b. split; [tauto|]. intros [(ne & [] & _)|]; assumption.
    - destruct (neigh_outer_spec (snd ne) (snd ne) nb Hs Hn) as (A & B & C). destruct (IH _ A B) as (A' & B' & C').
      split; [exact A'|]. split; [exact B'|]. intros a b. rewrite C', C. split.
      + intros [(ne' & H1 & H2)|[H|H]]; [left; exists ne'; cbn [In]; tauto|left; exists ne; cbn [In]; tauto|tauto].
      + intros [(ne' & [<-|H1] & H2)|H]; [tauto|left; now exists ne'|tauto]. }
  destruct (G (node_table t) []) as (A & B & C); [intros k; constructor|constructor|].
  split; [exact A|]. split; [exact B|]. intros i j. unfold fast_neighbors.
  change (In j (tget i (fold_left (fun nb ne => fold_left (fun nb e1 => neigh_inner e1 (snd ne) nb) (snd ne) nb) (node_table t) [])) <->
    i < List.length t /\ j < List.length t /\ i <> j /\ share_node t i j).
  rewrite C. split.
  - intros [([n es] & H1 & H2 & H3 & H4)|[]]. cbn [snd] in *. pose proof (tget_in _ _ _ Hnd H1) as E. rewrite <- E in H2, H4.
    apply HT in H2, H4. destruct H2 as (H2 & H2'), H4 as (H4 & H4'). split; [exact H2|]. split; [exact H4|]. split; [congruence|]. now exists n.
  - intros (Hi & Hj & Hne & n & A1 & A2). left. exists (n, tget n (node_table t)).
    assert (I1 : In i (tget n (node_table t))) by now apply HT.
    assert (I2 : In j (tget n (node_table t))) by now apply HT.
    split; [now apply (tget_nonempty _ _ i)|]. cbn [snd]. split; [exact I1|]. split; [congruence|exact I2].
Qed.
Lemma fast_count t i j : count_pair i j (fast_pairs t) = if mem j (tget i (fast_neighbors t)) then 1 else 0.
Proof.
  destruct (fast_spec t) as (Hs & Hnd & _). unfold fast_pairs. revert Hs Hnd. unfold tnd. generalize (fast_neighbors t). intros tb Hs Hnd.
  assert (Hs' : forall k v, In (k, v) tb -> NoDup v).
  { intros k v Hin. rewrite <- (tget_in tb k v Hnd Hin). apply sorted_nodup, Hs. }
  clear Hs. induction tb as [|[k v] r IH]; [reflexivity|]. cbn [map fst] in Hnd. inversion Hnd as [|? ? Hn Hd]; subst.
  cbn [flat_map tget fst snd]. rewrite count_app, count_row by (apply (Hs' k); now left).
  rewrite IH by (auto; intros k' v' H; apply (Hs' k'); now right). rewrite (Nat.eqb_sym i k).
  destruct (Nat.eqb_spec k i) as [->|]; cbn [andb]; [|reflexivity].
  assert (E : tget i r = []).
  { destruct (tget i r) as [|x w] eqn:E; [reflexivity|]. exfalso. assert (Hx : In x (tget i r)) by (rewrite E; now left).
    apply tget_nonempty in Hx. apply Hn. apply (in_map fst) in Hx. exact Hx. }
  rewrite E. cbn [mem existsb]. lia.
Qed.

(* The fast matrix: 1 for two different elements with a common node, 0
   otherwise; symmetric. *)
Theorem C77_fast_matrix : forall t i j, i < List.length t -> j < List.length t ->
  (build_element_adjacency_matrix_fast t i j = 1 <-> i <> j /\ share_node t i j) /\
  (build_element_adjacency_matrix_fast t i j = 0 <-> ~ (i <> j /\ share_node t i j)) /\
  build_element_adjacency_matrix_fast t i j = build_element_adjacency_matrix_fast t j i.
Proof.
  intros t i j Hi Hj. destruct (fast_spec t) as (_ & _ & HS). unfold build_element_adjacency_matrix_fast, csr_ones. rewrite !fast_count.
  destruct (mem j (tget i (fast_neighbors t))) eqn:E1; destruct (mem i (tget j (fast_neighbors t))) eqn:E2.
  - apply mem_in, HS in E1. split; [|split; [|reflexivity]]; split; intros H; try easy; tauto.
  - exfalso. apply mem_in, HS in E1. apply mem_false in E2. apply E2. apply HS. destruct E1 as (A & B & C & D).
    split; [exact B|]. split; [exact A|]. split; [congruence|now apply share_sym].
  - exfalso. apply mem_in, HS in E2. apply mem_false in E1. apply E1. apply HS. destruct E2 as (A & B & C & D).
    split; [exact B|]. split; [exact A|]. split; [congruence|now apply share_sym].
  - apply mem_false in E1. assert (~ (i <> j /\ share_node t i j)) by (intros (A & B); apply E1, HS; tauto).
    split; [|split; [|reflexivity]]; split; intros H'; try easy.
Qed.
Print Assumptions C77_fast_matrix.

(* The documented matrix holds the number of common nodes instead of 1. *)
Theorem C77_slow_matrix : forall t i j, at_most_255_nodes t -> i < List.length t -> j < List.length t ->
  build_element_adjacency_matrix t i j = common_nodes t i j /\
  (build_element_adjacency_matrix t i j <> 0 <-> share_node t i j).
Proof.
  intros t i j Hm Hi Hj. unfold build_element_adjacency_matrix, csr_ones. rewrite slow_count by assumption.
  pose proof (common_bound t i j). specialize (Hm i). rewrite Nat.mod_small by lia. split; [reflexivity|apply common_pos].
Qed.
Print Assumptions C77_slow_matrix.
(* REFUTED: "A[i, j] = 1 if element i and j share at least one node" - on the
   diagonal it is the number of nodes of the element *)
Theorem C77_refuted_ones : forall t i, at_most_255_nodes t -> i < List.length t ->
  build_element_adjacency_matrix t i i = List.length (nth i t []).
Proof.
  intros t i Hm Hi. destruct (C77_slow_matrix t i i Hm Hi Hi) as (-> & _). unfold common_nodes.
  f_equal. assert (G : forall l, (forall n, In n l -> mem n (nth i t []) = true) -> filter (fun n => mem n (nth i t [])) l = l).
  { induction l as [|n l IH]; intros H; [reflexivity|]. cbn [filter]. rewrite H by now left. f_equal. apply IH. intros m Hmm. apply H. now right. }
  apply G. intros n Hn. now apply mem_in.
Qed.
Print Assumptions C77_refuted_ones.

(* ---------- the neighbours of a set of elements ---------- *)
Lemma collect_spec n A idxs : Forall (fun z => (0 <= z < Z.of_nat n)%Z) idxs -> forall acc, sorted_set acc ->
  exists nb, collect n A idxs acc = Ok nb /\ sorted_set nb /\
  forall j, In j nb <-> In j acc \/ (j < n /\ exists z, In z idxs /\ A (Z.to_nat z) j <> 0).
Proof.
  induction 1 as [|z idxs Hz HF IH]; intros acc Ha; cbn [collect].
  - exists acc. split; [reflexivity|]. split; [exact Ha|]. intros j. split; [tauto|]. intros [H|(_ & z & [] & _)]; exact H.
  - unfold row_nonzero. destruct (Z.ltb_spec z 0); [lia|]. cbn [orb].
    destruct (Z.ltb_spec z 0); [lia|]. destruct (Z.leb_spec (Z.of_nat n) z); [lia|]. cbn [orb bind].
    destruct (IH (sunion (filter (fun j => negb (A (Z.to_nat z) j =? 0)) (seq 0 n)) acc)) as (nb & E & Hs & Hin); [now apply sunion_sorted|].
    exists nb. split; [exact E|]. split; [exact Hs|]. intros j. rewrite Hin, sunion_in, filter_In, in_seq. split.
    + intros [[((_ & Hj) & Hb)|H']|(Hj & z' & Hz' & Hb)]; [right|now left|right].
      * split; [exact Hj|]. exists z. split; [now left|]. apply negb_true_iff, Nat.eqb_neq in Hb. exact Hb.
      * split; [exact Hj|]. exists z'. split; [now right|exact Hb].
    + intros [H'|(Hj & z' & [<-|Hz'] & Hb)]; [tauto| |right; split; [exact Hj|]; now exists z'].
      left. left. split; [lia|]. now apply negb_true_iff, Nat.eqb_neq.
Qed.

(* For any list of element numbers (repetitions allowed) both variants return,
   sorted and without repetition, exactly the elements that are not in the list
   and have a node in common with one that is. *)
Theorem C77_adjacent_elements : forall t idxs, at_most_255_nodes t ->
  Forall (fun z => (0 <= z < Z.of_nat (List.length t))%Z) idxs ->
  exists l, get_adjacent_elements t idxs = Ok l /\ get_adjacent_elements_fast t idxs = Ok l /\ sorted_set l /\
  forall j, In j l <-> j < List.length t /\ ~ In (Z.of_nat j) idxs /\
                       exists i, In (Z.of_nat i) idxs /\ share_node t i j.
Proof.
  intros t idxs Hm HF.
  assert (G : forall A, (forall i j, i < List.length t -> j < List.length t -> i <> j -> (A i j <> 0 <-> share_node t i j)) ->
    exists l, adjacent_in (List.length t) A idxs = Ok l /\ sorted_set l /\
    forall j, In j l <-> j < List.length t /\ ~ In (Z.of_nat j) idxs /\ exists i, In (Z.of_nat i) idxs /\ share_node t i j).
  { intros A HA. unfold adjacent_in. destruct (collect_spec (List.length t) A idxs HF [] (SSorted_nil _)) as (nb & -> & Hs & Hin). cbn [bind].
    eexists. split; [reflexivity|]. split; [now apply filter_sorted|]. intros j. rewrite filter_In, Hin.
    assert (Hex : existsb (Z.eqb (Z.of_nat j)) idxs = true <-> In (Z.of_nat j) idxs).
    { rewrite existsb_exists. split; [intros (z & Hz & E); apply Z.eqb_eq in E; now subst|]. intros H. exists (Z.of_nat j). split; [exact H|apply Z.eqb_refl]. }
    rewrite Forall_forall in HF. split.
    - intros ([[]|(Hj & z & Hz & HAz)] & Hb). apply negb_true_iff in Hb. pose proof (HF z Hz) as Hr.
      assert (Hni : ~ In (Z.of_nat j) idxs) by (intros Hc; apply Hex in Hc; congruence).
      split; [exact Hj|]. split; [exact Hni|]. exists (Z.to_nat z). rewrite Z2Nat.id by lia. split; [exact Hz|].
      apply HA; [lia|exact Hj| |exact HAz]. intros E. apply Hni. rewrite <- E, Z2Nat.id by lia. exact Hz.
    - intros (Hj & Hni & i & Hi & Hsh). pose proof (HF _ Hi) as Hr. split.
      + right. split; [exact Hj|]. exists (Z.of_nat i). split; [exact Hi|]. rewrite Nat2Z.id. apply HA; [lia|exact Hj| |exact Hsh].
        intros ->. easy.
      + apply negb_true_iff. destruct (existsb _ idxs) eqn:E; [|reflexivity]. exfalso. apply Hni. now apply Hex. }
  destruct (G (build_element_adjacency_matrix t)) as (l & E & Hs & Hl).
  { intros i j Hi Hj _. now apply C77_slow_matrix. }
  destruct (G (build_element_adjacency_matrix_fast t)) as (l' & E' & Hs' & Hl').
  { intros i j Hi Hj Hne. destruct (C77_fast_matrix t i j Hi Hj) as (_ & H0 & _). split.
    - intros HA. destruct (build_element_adjacency_matrix_fast t i j) as [|k] eqn:Ek; [easy|].
      destruct (C77_fast_matrix t i j Hi Hj) as (_ & (Hx & Hy) & _).
      destruct (mem j (tget i (fast_neighbors t))) eqn:Em.
      + apply mem_in in Em. now apply (proj2 (proj2 (fast_spec t))) in Em.
      + exfalso. unfold build_element_adjacency_matrix_fast, csr_ones in Ek. rewrite fast_count, Em in Ek. discriminate.
    - intros Hsh E0. apply H0 in E0. tauto. }
  exists l. split; [exact E|]. split; [|split; [exact Hs|exact Hl]]. unfold get_adjacent_elements_fast. rewrite E'. f_equal.
  apply sorted_ext; auto. intros j. now rewrite Hl', Hl.
Qed.
Print Assumptions C77_adjacent_elements.

(* An element number outside [-n, n) raises in both variants. *)
Theorem C77_out_of_range : forall t idxs z, In z idxs -> (z < - Z.of_nat (List.length t) \/ Z.of_nat (List.length t) <= z)%Z ->
  get_adjacent_elements t idxs = Err IndexError /\ get_adjacent_elements_fast t idxs = Err IndexError.
Proof.
  intros t idxs z Hz Hr.
  assert (G : forall n A l acc, (z < - Z.of_nat n \/ Z.of_nat n <= z)%Z -> In z l -> collect n A l acc = Err IndexError).
  { intros n A. induction l as [|y l IH]; intros acc Hn Hin; [easy|]. cbn [collect].
    destruct Hin as [->|Hin].
    - unfold row_nonzero. destruct (Z.ltb_spec z 0); cbv zeta.
      + destruct (Z.ltb_spec (z + Z.of_nat n) 0); [reflexivity|lia].
      + destruct (Z.ltb_spec z 0); [lia|]. destruct (Z.leb_spec (Z.of_nat n) z); [reflexivity|lia].
    - destruct (row_nonzero n A y) as [r|e] eqn:E; cbn [bind]; [now apply IH|].
      unfold row_nonzero in E. cbv zeta in E. destruct (_ || _)%bool; [now injection E as <-|discriminate]. }
  unfold get_adjacent_elements, get_adjacent_elements_fast, adjacent_in. now rewrite !G.
Qed.
Print Assumptions C77_out_of_range.

(* REFUTED for negative numbers, which are accepted as counted from the end: the
   two variants then disagree - the documented one returns the element itself. *)
Theorem C77_refuted_negative : forall t, at_most_255_nodes t -> t <> [] -> last t [] <> [] ->
  exists l l', get_adjacent_elements t [(-1)%Z] = Ok l /\ get_adjacent_elements_fast t [(-1)%Z] = Ok l' /\
  In (List.length t - 1) l /\ ~ In (List.length t - 1) l'.
Proof.
  intros t Hm Hne Hlast. set (n := List.length t). assert (Hn : 0 < n) by (unfold n; destruct t; [easy|cbn; lia]).
  assert (Hrow : forall A, adjacent_in n A [(-1)%Z] = Ok (filter (fun j => negb (existsb (Z.eqb (Z.of_nat j)) [(-1)%Z])) (sunion (filter (fun j => negb (A (n - 1) j =? 0)) (seq 0 n)) []))).
  { intros A. unfold adjacent_in. cbn [collect]. unfold row_nonzero. cbv zeta. destruct (Z.ltb_spec (-1) 0); [|lia].
    destruct (Z.ltb_spec (-1 + Z.of_nat n) 0); [lia|]. destruct (Z.leb_spec (Z.of_nat n) (-1 + Z.of_nat n)); [lia|].
    cbn [orb bind]. replace (Z.to_nat (-1 + Z.of_nat n)) with (n - 1) by lia. reflexivity. }
  unfold get_adjacent_elements, get_adjacent_elements_fast. fold n. rewrite !Hrow.
  eexists. eexists. split; [reflexivity|]. split; [reflexivity|].
  assert (Hlt : n - 1 < List.length t) by (fold n; lia).
  split.
  - apply filter_In. split.
    + apply sunion_in. left. apply filter_In. split; [apply in_seq; lia|]. apply negb_true_iff, Nat.eqb_neq.
      rewrite C77_refuted_ones by assumption.
      assert (En : nth (n - 1) t [] = last t []).
      { unfold n. clear. induction t as [|a t IH]; [reflexivity|]. destruct t as [|b t]; [reflexivity|].
        cbn [List.length last] in *. rewrite <- IH. replace (S (S (List.length t)) - 1) with (S (S (List.length t) - 1)) by lia. reflexivity. }
      rewrite En. destruct (last t []); [easy|discriminate].
    + cbn [existsb]. apply negb_true_iff. rewrite orb_false_r. apply Z.eqb_neq. lia.
  - intros H. apply filter_In in H. destruct H as (H & _). apply sunion_in in H. destruct H as [H|[]].
    apply filter_In in H. destruct H as (_ & Hb). apply negb_true_iff, Nat.eqb_neq in Hb. apply Hb.
    apply (C77_fast_matrix t _ _ Hlt Hlt). intros (C & _). easy.
Qed.
Print Assumptions C77_refuted_negative.

(* two tetrahedra with a common face and one apart *)
Definition ex_tets : list elem := [[0; 1; 2; 3]; [1; 2; 3; 4]; [5; 6; 7; 8]].
Example C77_instance : at_most_255_nodes ex_tets /\
  get_adjacent_elements ex_tets [1%Z] = Ok [0] /\ get_adjacent_elements_fast ex_tets [1%Z] = Ok [0] /\
  build_element_adjacency_matrix ex_tets 0 1 = 3.
Proof.
  split; [|split; [reflexivity|split; reflexivity]].
  intros i. destruct i as [|[|[|i]]]; cbn; try lia. destruct i; cbn; lia.
Qed.

(* ================= C78: faces ================= *)
(* ---------- specification ---------- *)
(* i and j have a face in common; a face is a set of nodes, given by its sorted
   list *)
Definition has_face (faces : list (list nat)) (t : list elem) (i : nat) (f : list nat) : Prop :=
  i < List.length t /\ exists pos, In pos faces /\ Permutation f (map (nd (nth i t [])) pos).
(* a mesh whose elements have distinct faces, each in at most two elements *)
Definition conforming (faces : list (list nat)) (t : list elem) : Prop :=
  (forall i, i < List.length t -> NoDup (elem_faces faces (nth i t []))) /\
  (forall i j k f, has_face faces t i f -> has_face faces t j f -> has_face faces t k f -> i = j \/ i = k \/ j = k).

(* ---------- sorting ---------- *)
Lemma ins_perm x l : Permutation (ins x l) (x :: l).
Proof.
  induction l as [|y l IH]; cbn [ins]; [apply Permutation_refl|]. destruct (x <=? y); [apply Permutation_refl|].
  eapply perm_trans; [apply perm_skip, IH|apply perm_swap].
Qed.
Lemma sort_nodes_perm l : Permutation (sort_nodes l) l.
Proof. induction l as [|x l IH]; [constructor|]. cbn. eapply perm_trans; [apply ins_perm|now apply perm_skip]. Qed.
Lemma ins_sorted x l : Sorted le l -> Sorted le (ins x l).
Proof.
  induction l as [|y l IH]; intros H; cbn [ins]; [repeat constructor|].
  destruct (Nat.leb_spec x y); [constructor; [exact H|now constructor]|].
  inversion H as [|? ? Hs Hr]; subst. constructor; [auto|].
  destruct l as [|z l]; cbn [ins]; [constructor; lia|]. inversion Hr; subst. destruct (x <=? z); constructor; lia.
Qed.
Lemma sort_nodes_sorted l : Sorted le (sort_nodes l).
Proof. induction l as [|x l IH]; [constructor|]. cbn. now apply ins_sorted. Qed.
Lemma sorted_perm_eq l : forall m, Permutation l m -> Sorted le l -> Sorted le m -> l = m.
Proof.
  induction l as [|x l IH]; intros m HP Hl Hm; [now apply Permutation_nil in HP|].
  destruct m as [|y m]; [apply Permutation_sym, Permutation_nil in HP; discriminate|].
  assert (Hmin : forall q a r, q = a :: r -> Sorted le q -> forall w, In w r -> a <= w).
  { clear. intros q a r -> Hs w Hw. apply Sorted_StronglySorted in Hs; [|intros u v z; lia].
    inversion Hs as [|? ? _ HF]; subst. rewrite Forall_forall in HF. auto. }
  assert (x = y).
  { assert (Hy : In y (x :: l)) by (eapply Permutation_in; [apply Permutation_sym, HP|now left]).
    assert (Hx : In x (y :: m)) by (eapply Permutation_in; [apply HP|now left]).
    destruct Hy as [|Hy]; [assumption|]. destruct Hx as [|Hx]; [congruence|].
    pose proof (Hmin _ x l eq_refl Hl y Hy). pose proof (Hmin _ y m eq_refl Hm x Hx). lia. }
  subst y. f_equal. inversion Hl; inversion Hm; subst. apply IH; auto. eapply Permutation_cons_inv; eauto.
Qed.
Lemma sort_nodes_eq a b : sort_nodes a = sort_nodes b <-> Permutation a b.
Proof.
  split; intros H.
  - eapply perm_trans; [apply Permutation_sym, sort_nodes_perm|]. rewrite H. apply sort_nodes_perm.
  - apply sorted_perm_eq; auto using sort_nodes_sorted. eapply perm_trans; [apply sort_nodes_perm|].
    eapply perm_trans; [exact H|apply Permutation_sym, sort_nodes_perm].
Qed.

(* ---------- the face table ---------- *)
Fixpoint fget (f : list nat) (tb : ftable) : list nat :=
  match tb with [] => [] | (g, v) :: r => if face_eqb f g then v else fget f r end.
Lemma face_eqb_eq a b : face_eqb a b = true <-> a = b.
Proof. unfold face_eqb. destruct (list_eq_dec Nat.eq_dec a b); split; congruence. Qed.
Lemma face_eqb_refl a : face_eqb a a = true.
Proof. now apply face_eqb_eq. Qed.
Lemma fget_fadd f g e tb : fget f (fadd g e tb) = fget f tb ++ (if face_eqb f g then [e] else []).
Proof.
  induction tb as [|[h v] r IH]; cbn [fadd fget].
  - destruct (face_eqb f g); reflexivity.
  - destruct (face_eqb g h) eqn:E; cbn [fget].
    + apply face_eqb_eq in E. subst h. destruct (face_eqb f g) eqn:E2; [reflexivity|]. now rewrite app_nil_r.
    + destruct (face_eqb f h) eqn:E2; [|exact IH]. apply face_eqb_eq in E2. subst h.
      destruct (face_eqb f g) eqn:E3; [|now rewrite app_nil_r]. apply face_eqb_eq in E3. subst g. rewrite face_eqb_refl in E. discriminate.
Qed.
Lemma fadd_keys g e tb x : In x (map fst (fadd g e tb)) <-> x = g \/ In x (map fst tb).
Proof.
  induction tb as [|[h v] r IH]; cbn [fadd map fst In].
  - split; [intros [->|[]]; now left|intros [->|[]]; now left].
  - destruct (face_eqb g h) eqn:E; cbn [map fst In].
    + apply face_eqb_eq in E. subst. split; [tauto|intros [->|H]; tauto].
    + rewrite IH. tauto.
Qed.
Lemma fadd_nd g e tb : NoDup (map fst tb) -> NoDup (map fst (fadd g e tb)).
Proof.
  induction tb as [|[h v] r IH]; cbn [fadd map fst]; intros H; [constructor; [easy|constructor]|].
  inversion H as [|? ? Hn Hd]; subst. destruct (face_eqb g h) eqn:E; cbn [map fst]; constructor; auto.
  intros Hin. apply fadd_keys in Hin. destruct Hin as [->|]; [rewrite face_eqb_refl in E; discriminate|easy].
Qed.
Definition owners (faces : list (list nat)) (t : list elem) (f : list nat) : list nat :=
  flat_map (fun en => map (fun _ => fst en) (filter (face_eqb f) (elem_faces faces (snd en)))) (enum t).
Lemma face_table_get faces t f : fget f (face_table faces t) = owners faces t f.
Proof.
  unfold face_table, owners.
  assert (Hin : forall e fs tb, fget f (fold_left (fun tb f => fadd f e tb) fs tb) = fget f tb ++ map (fun _ => e) (filter (face_eqb f) fs)).
  { intros e. induction fs as [|g fs IH]; intros tb; cbn [fold_left filter]; [now rewrite app_nil_r|].
    rewrite IH, fget_fadd, <- app_assoc. f_equal. destruct (face_eqb f g); reflexivity. }
  assert (G : forall (l : list (nat * elem)) tb, fget f (fold_left (fun tb en => fold_left (fun tb f => fadd f (fst en) tb) (elem_faces faces (snd en)) tb) l tb)
     = fget f tb ++ flat_map (fun en => map (fun _ => fst en) (filter (face_eqb f) (elem_faces faces (snd en)))) l).
  { induction l as [|en l IH]; intros tb; cbn [fold_left flat_map]; [now rewrite app_nil_r|]. now rewrite IH, Hin, app_assoc. }
  rewrite G. reflexivity.
Qed.
Lemma face_table_nd faces t : NoDup (map fst (face_table faces t)).
Proof.
  unfold face_table.
  assert (Hin : forall e fs tb, NoDup (map fst tb) -> NoDup (map fst (fold_left (fun tb f => fadd f e tb) fs tb))).
  { intros e. induction fs as [|g fs IH]; intros tb H; cbn [fold_left]; [exact H|]. apply IH. now apply fadd_nd. }
  assert (G : forall (l : list (nat * elem)) tb, NoDup (map fst tb) -> NoDup (map fst (fold_left (fun tb en => fold_left (fun tb f => fadd f (fst en) tb) (elem_faces faces (snd en)) tb) l tb))).
  { induction l as [|en l IH]; intros tb H; cbn [fold_left]; [exact H|]. apply IH. now apply Hin. }
  apply G. constructor.
Qed.
Lemma fget_in tb f v : NoDup (map fst tb) -> In (f, v) tb -> fget f tb = v.
Proof.
  induction tb as [|[g w] r IH]; cbn [fget map fst]; intros Hnd Hin; [easy|]. inversion Hnd as [|? ? Hn Hd]; subst.
  destruct Hin as [[= -> ->]|Hin]; [now rewrite face_eqb_refl|].
  destruct (face_eqb f g) eqn:E; [|auto]. apply face_eqb_eq in E. subst g. exfalso. apply Hn. apply (in_map fst) in Hin. exact Hin.
Qed.
Lemma fget_nonempty tb f : fget f tb <> [] -> In (f, fget f tb) tb.
Proof.
  induction tb as [|[g w] r IH]; cbn [fget]; [easy|]. destruct (face_eqb f g) eqn:E; [|intros H; right; auto].
  apply face_eqb_eq in E. subst. intros _. now left.
Qed.
Lemma owners_in faces t f i : In i (owners faces t f) <-> i < List.length t /\ In f (elem_faces faces (nth i t [])).
Proof.
  unfold owners. rewrite in_flat_map. split.
  - intros ([k e] & H & Hi). apply (in_enum []) in H. destruct H as (H & <-). apply in_map_iff in Hi. destruct Hi as (g & <- & Hg).
    apply filter_In in Hg. destruct Hg as (Hg & E). apply face_eqb_eq in E. subst g. tauto.
  - intros (H & Hf). exists (i, nth i t []). split; [now apply (in_enum [])|]. apply in_map_iff. exists f. split; [reflexivity|].
    apply filter_In. split; [exact Hf|apply face_eqb_refl].
Qed.
Lemma face_iff faces t f i : i < List.length t -> In f (elem_faces faces (nth i t [])) <-> Sorted le f /\ has_face faces t i f.
Proof.
  intros Hi. unfold elem_faces, has_face. rewrite in_map_iff. split.
  - intros (pos & <- & Hp). split; [apply sort_nodes_sorted|]. split; [exact Hi|]. exists pos. split; [exact Hp|apply sort_nodes_perm].
  - intros (Hs & _ & pos & Hp & HP). exists pos. split; [|exact Hp]. apply sorted_perm_eq; auto using sort_nodes_sorted.
    eapply perm_trans; [apply sort_nodes_perm|now apply Permutation_sym].
Qed.

(* exactly when j is listed as a neighbour of i, for every mesh *)
Lemma adjacency_iff faces t i j : In j (face_adjacency faces t i) <->
  exists f, owners faces t f = [i; j] \/ owners faces t f = [j; i].
Proof.
  unfold face_adjacency. rewrite in_flat_map. pose proof (face_table_nd faces t) as Hnd. split.
  - intros ([f v] & Hin & Hj). cbn [snd] in Hj. pose proof (fget_in _ _ _ Hnd Hin) as E. rewrite face_table_get in E.
    exists f. rewrite E. destruct v as [|a [|b [|c v]]]; try easy.
    apply in_app_or in Hj. destruct Hj as [Hj|Hj].
    + destruct (Nat.eqb_spec a i) as [->|]; [|easy]. destruct Hj as [->|[]]. now left.
    + destruct (Nat.eqb_spec b i) as [->|]; [|easy]. destruct Hj as [->|[]]. now right.
  - intros (f & H). exists (f, owners faces t f). rewrite <- face_table_get in H |- *.
    split; [apply fget_nonempty; destruct H as [-> | -> ]; easy|]. cbn [snd].
    destruct H as [-> | -> ]; apply in_or_app; [left|right]; rewrite Nat.eqb_refl; now left.
Qed.

(* Being a neighbour is mutual, in every mesh: j is listed at i as often as i at j *)
Theorem C78_symmetric : forall faces t i j,
  count_occ Nat.eq_dec (face_adjacency faces t i) j = count_occ Nat.eq_dec (face_adjacency faces t j) i.
Proof.
  intros faces t i j. unfold face_adjacency. induction (face_table faces t) as [|[f v] r IH]; [reflexivity|].
  cbn [flat_map snd]. rewrite !count_occ_app, IH. f_equal. destruct v as [|a [|b [|c v]]]; try reflexivity.
  rewrite !count_occ_app.
  destruct (Nat.eqb_spec a i), (Nat.eqb_spec b i), (Nat.eqb_spec a j), (Nat.eqb_spec b j); subst; cbn [count_occ];
    repeat (destruct (Nat.eq_dec _ _); subst); try congruence; try reflexivity; lia.
Qed.
Print Assumptions C78_symmetric.

(* the owners in a conforming mesh *)
Lemma owners_nodup faces (t : list elem) f : (forall i, i < List.length t -> NoDup (elem_faces faces (nth i t []))) -> NoDup (owners faces t f).
Proof.
  intros H. unfold owners. pose proof (enum_nodup t) as Hnd.
  assert (Hel : forall k e, In (k, e) (enum t) -> NoDup (elem_faces faces e)).
  { intros k e Hin. apply (in_enum []) in Hin. destruct Hin as (Hk & <-). auto. }
  revert Hnd Hel. generalize (@enum elem t). clear H. intros l. induction l as [|[k e] l IH]; intros Hnd Hel; [constructor|].
  cbn [map fst] in Hnd. inversion Hnd as [|? ? Hn Hd]; subst. cbn [flat_map fst snd].
  assert (Hfil : map (fun _ : list nat => k) (filter (face_eqb f) (elem_faces faces e)) = [] \/ map (fun _ : list nat => k) (filter (face_eqb f) (elem_faces faces e)) = [k]).
  { pose proof (Hel k e (or_introl eq_refl)) as Hfs. revert Hfs. generalize (elem_faces faces e). intros fs. induction fs as [|g fs IHf]; intros Hfs; [now left|].
    inversion Hfs as [|? ? Hg Hfs']; subst. cbn [filter]. destruct (face_eqb f g) eqn:E; [|auto]. apply face_eqb_eq in E. subst g.
    right. cbn [map]. replace (filter (face_eqb f) fs) with (@nil (list nat)); [reflexivity|].
    symmetry. destruct (filter (face_eqb f) fs) as [|h hs] eqn:Ef; [reflexivity|]. exfalso.
    assert (Hh : In h (filter (face_eqb f) fs)) by (rewrite Ef; now left). apply filter_In in Hh. destruct Hh as (Hh & E).
    apply face_eqb_eq in E. subst h. easy. }
  assert (IH' : NoDup (flat_map (fun en : nat * elem => map (fun _ => fst en) (filter (face_eqb f) (elem_faces faces (snd en)))) l)).
  { apply IH; [exact Hd|]. intros k' e' Hin. apply (Hel k'). now right. }
  destruct Hfil as [-> | -> ]; [exact IH'|]. cbn [app]. constructor; [|exact IH'].
  intros Hin. apply in_flat_map in Hin. destruct Hin as ([k' e'] & Hin & Hk). apply in_map_iff in Hk. destruct Hk as (g & Hk & _).
  cbn in Hk. subst k'. apply Hn. apply (in_map fst) in Hin. exact Hin.
Qed.

(* In a conforming mesh the neighbours of an element are exactly the other
   elements with a face in common. *)
Theorem C78_neighbours : forall faces t i j, conforming faces t ->
  (In j (face_adjacency faces t i) <-> i <> j /\ exists f, has_face faces t i f /\ has_face faces t j f).
Proof.
  intros faces t i j (Hd & Hc). rewrite adjacency_iff. split.
  - intros (f & H).
    assert (Hi : In i (owners faces t f)) by (destruct H as [-> | -> ]; cbn; tauto).
    assert (Hj : In j (owners faces t f)) by (destruct H as [-> | -> ]; cbn; tauto).
    pose proof (owners_nodup faces t f Hd) as Hnd.
    split.
    + destruct H as [H|H]; rewrite H in Hnd; inversion Hnd as [|? ? Hn _]; subst; intros ->; apply Hn; now left.
    + apply owners_in in Hi, Hj. destruct Hi as (Li & Fi), Hj as (Lj & Fj). apply face_iff in Fi, Fj; [|assumption|assumption].
      exists f. tauto.
  - intros (Hne & f0 & H1 & H2). set (f := sort_nodes f0).
    assert (Hp : forall k, has_face faces t k f0 -> In k (owners faces t f)).
    { intros k (Lk & pos & Hp & HP). apply owners_in. split; [exact Lk|]. apply face_iff; [exact Lk|]. split; [apply sort_nodes_sorted|].
      split; [exact Lk|]. exists pos. split; [exact Hp|]. eapply perm_trans; [apply sort_nodes_perm|exact HP]. }
    pose proof (Hp i H1) as Hi. pose proof (Hp j H2) as Hj.
    assert (Honly : forall k, In k (owners faces t f) -> k = i \/ k = j).
    { intros k Hk. apply owners_in in Hk. destruct Hk as (Lk & Fk). apply face_iff in Fk; [|exact Lk]. destruct Fk as (_ & Fk).
      assert (Fi : has_face faces t i f) by (apply owners_in in Hi; destruct Hi as (Li & Fi); apply face_iff in Fi; tauto).
      assert (Fj : has_face faces t j f) by (apply owners_in in Hj; destruct Hj as (Lj & Fj); apply face_iff in Fj; tauto).
      destruct (Hc i j k f Fi Fj Fk) as [E|[E|E]]; [easy|left|right]; congruence. }
    pose proof (owners_nodup faces t f Hd) as Hnd. exists f.
    destruct (owners faces t f) as [|a [|b [|c r]]]; [easy| | |exfalso].
    + exfalso. cbn in Hi, Hj. destruct Hi as [<-|[]], Hj as [<-|[]]. easy.
    + cbn in Hi, Hj. destruct Hi as [<-|[<-|[]]], Hj as [<-|[<-|[]]]; try easy; tauto.
    + inversion Hnd as [|? ? N1 Hnd']; subst. inversion Hnd' as [|? ? N2 _]; subst.
      destruct (Honly a) as [Ea|Ea]; [cbn; tauto| |]; destruct (Honly b) as [Eb|Eb]; try (cbn; tauto);
      destruct (Honly c) as [Ec|Ec]; try (cbn; tauto); subst; cbn in N1, N2; tauto.
Qed.
Print Assumptions C78_neighbours.

(* ... each of them once, if no two elements have two faces in common *)
Theorem C78_listed_once : forall faces t i, conforming faces t ->
  (forall j f g, i <> j -> has_face faces t i f -> has_face faces t j f -> has_face faces t i g -> has_face faces t j g -> Permutation f g) ->
  NoDup (face_adjacency faces t i).
Proof.
  intros faces t i Hconf Hone. pose proof Hconf as (Hd & Hc). unfold face_adjacency. pose proof (face_table_nd faces t) as Hnd.
  assert (Htab : forall f v, In (f, v) (face_table faces t) -> v = owners faces t f /\ Sorted le f).
  { intros f v Hin. split; [rewrite <- face_table_get; symmetry; now apply fget_in|].
    assert (Hk : forall (l : list (nat * elem)) tb, (forall g, In g (map fst tb) -> Sorted le g) ->
       forall g, In g (map fst (fold_left (fun tb en => fold_left (fun tb f => fadd f (fst en) tb) (elem_faces faces (snd en)) tb) l tb)) -> Sorted le g).
    { induction l as [|en l IH]; intros tb Htb; cbn [fold_left]; [exact Htb|]. apply IH.
      assert (Hfs : forall fs, (forall g, In g fs -> Sorted le g) -> forall tb, (forall g, In g (map fst tb) -> Sorted le g) ->
         forall g, In g (map fst (fold_left (fun tb f => fadd f (fst en) tb) fs tb)) -> Sorted le g).
      { induction fs as [|h fs IHf]; intros Hfs tb' Htb'; cbn [fold_left]; [exact Htb'|]. apply IHf; [intros g Hg; apply Hfs; now right|].
        intros g Hg. apply fadd_keys in Hg. destruct Hg as [->|Hg]; [apply Hfs; now left|auto]. }
      apply Hfs; [|exact Htb]. intros g Hg. unfold elem_faces in Hg. apply in_map_iff in Hg. destruct Hg as (pos & <- & _). apply sort_nodes_sorted. }
    apply (Hk (enum t) []); [easy|]. apply (in_map fst) in Hin. exact Hin. }
  assert (Hface : forall f v k, In (f, v) (face_table faces t) -> In k v -> has_face faces t k f).
  { intros f v k Hin Hk. destruct (Htab _ _ Hin) as (-> & _). apply owners_in in Hk. destruct Hk as (Lk & Fk). apply face_iff in Fk; tauto. }
  assert (Hnv : forall f v, In (f, v) (face_table faces t) -> NoDup v).
  { intros f v Hin. destruct (Htab _ _ Hin) as (-> & _). now apply owners_nodup. }
  assert (Hsrt : forall f v, In (f, v) (face_table faces t) -> Sorted le f) by (intros f v Hin; now apply (Htab f v)).
  clear Htab Hc Hd Hconf. revert Hnd Hface Hnv Hsrt. generalize (face_table faces t). intros tb.
  induction tb as [|[f v] r IH]; intros Hnd Hface Hnv Hsrt; [constructor|]. cbn [map fst] in Hnd. inversion Hnd as [|? ? Hn Hd']; subst.
  assert (IH' : NoDup (flat_map (fun fe : list nat * list nat => match snd fe with [a; b] => (if Nat.eqb a i then [b] else []) ++ (if Nat.eqb b i then [a] else []) | _ => [] end) r)).
  { apply IH; [exact Hd'| | |].
    - intros f' v' k Hin Hk. apply (Hface f' v'); [now right|exact Hk].
    - intros f' v' Hin. apply (Hnv f'). now right.
    - intros f' v' Hin. apply (Hsrt f' v'). now right. }
  cbn [flat_map snd]. destruct v as [|a [|b [|c v]]]; try exact IH'.
  assert (Hab : a <> b) by (pose proof (Hnv _ _ (or_introl eq_refl)) as H; inversion H as [|? ? H1 _]; subst; cbn in H1; intuition congruence).
  assert (Hpair : forall j, i <> j -> has_face faces t i f -> has_face faces t j f ->
     ~ In j (flat_map (fun fe : list nat * list nat => match snd fe with [a; b] => (if Nat.eqb a i then [b] else []) ++ (if Nat.eqb b i then [a] else []) | _ => [] end) r)).
  { intros j Hij Fi Fj Hin. apply in_flat_map in Hin. destruct Hin as ([g w] & Hin & Hj). cbn [snd] in Hj.
    assert (Hw : In i w /\ In j w).
    { destruct w as [|x [|y [|z w]]]; try easy. apply in_app_or in Hj. destruct Hj as [Hj|Hj].
      - destruct (Nat.eqb_spec x i) as [->|]; [|easy]. destruct Hj as [->|[]]. cbn. tauto.
      - destruct (Nat.eqb_spec y i) as [->|]; [|easy]. destruct Hj as [->|[]]. cbn. tauto. }
    destruct Hw as (Wi & Wj).
    pose proof (Hone j f g Hij Fi Fj (Hface g w i (or_intror Hin) Wi) (Hface g w j (or_intror Hin) Wj)) as HP.
    assert (f = g) by (apply sorted_perm_eq; [exact HP|now apply (Hsrt _ _ (or_introl eq_refl))|now apply (Hsrt g w (or_intror Hin))]).
    subst g. apply Hn. apply (in_map fst) in Hin. exact Hin. }
  assert (Fa : has_face faces t a f) by (apply (Hface f [a; b]); [now left|cbn; tauto]).
  assert (Fb : has_face faces t b f) by (apply (Hface f [a; b]); [now left|cbn; tauto]).
  destruct (Nat.eqb_spec a i) as [->|Ha]; destruct (Nat.eqb_spec b i) as [->|Hb]; cbn [app]; try easy.
  - constructor; [|exact IH']. now apply Hpair.
  - constructor; [|exact IH']. apply Hpair; auto.
Qed.
Print Assumptions C78_listed_once.

(* ---------- tetrahedra ---------- *)
Definition tet_mesh (t : list elem) : Prop := Forall (fun e => List.length e = 4 /\ NoDup e) t.
(* at least three different nodes in common *)
Definition three_common (t : list elem) (i j : nat) : Prop :=
  exists a b c, NoDup [a; b; c] /\ forall n, In n [a; b; c] -> In n (nth i t []) /\ In n (nth j t []).
Lemma tet_get t i : tet_mesh t -> i < List.length t ->
  exists a b c d, nth i t [] = [a; b; c; d] /\ NoDup [a; b; c; d].
Proof.
  intros H Hi. unfold tet_mesh in H. rewrite Forall_forall in H. destruct (H (nth i t [])) as (Hl & Hn); [now apply nth_In|].
  destruct (nth i t []) as [|a [|b [|c [|d [|]]]]]; try discriminate. now exists a, b, c, d.
Qed.
Lemma tet_face_triple a b c d f : NoDup [a; b; c; d] -> (exists pos, In pos tet_faces /\ Permutation f (map (nd [a; b; c; d]) pos)) <->
  exists x y z, NoDup [x; y; z] /\ Permutation f [x; y; z] /\ (forall n, In n [x; y; z] -> In n [a; b; c; d]).
Proof.
  intros Hnd. split.
  - intros (pos & Hp & HP). assert (Hd : a <> b /\ a <> c /\ a <> d /\ b <> c /\ b <> d /\ c <> d).
    { inversion Hnd as [|? ? N1 H1]; subst. inversion H1 as [|? ? N2 H2]; subst. inversion H2 as [|? ? N3 H3]; subst. cbn in N1, N2, N3. intuition congruence. }
    destruct Hd as (D1 & D2 & D3 & D4 & D5 & D6).
    cbn [tet_faces In] in Hp. destruct Hp as [<-|[<-|[<-|[<-|[]]]]]; cbn in HP.
    + exists a, b, c. split; [|split; [exact HP|cbn; tauto]]. repeat constructor; cbn; intuition congruence.
    + exists a, b, d. split; [|split; [exact HP|cbn; tauto]]. repeat constructor; cbn; intuition congruence.
    + exists a, c, d. split; [|split; [exact HP|cbn; tauto]]. repeat constructor; cbn; intuition congruence.
    + exists b, c, d. split; [|split; [exact HP|cbn; tauto]]. repeat constructor; cbn; intuition congruence.
  - intros (x & y & z & Hd & HP & Hsub).
    assert (G : forall pos q, In pos tet_faces -> map (nd [a; b; c; d]) pos = q -> NoDup q -> (forall n, In n [x; y; z] -> In n q) -> List.length q <= 3 ->
       exists pos, In pos tet_faces /\ Permutation f (map (nd [a; b; c; d]) pos)).
    { intros pos q Hp <- Hq Hin Hlen. exists pos. split; [exact Hp|]. eapply perm_trans; [exact HP|]. apply NoDup_Permutation_bis; auto. }
    assert (Hdd : a <> b /\ a <> c /\ a <> d /\ b <> c /\ b <> d /\ c <> d).
    { inversion Hnd as [|? ? N1 H1]; subst. inversion H1 as [|? ? N2 H2]; subst. inversion H2 as [|? ? N3 H3]; subst. cbn in N1, N2, N3. intuition congruence. }
    destruct Hdd as (D1 & D2 & D3 & D4 & D5 & D6).
    assert (Hxyz : x <> y /\ x <> z /\ y <> z).
    { inversion Hd as [|? ? N1 H1]; subst. inversion H1 as [|? ? N2 H2]; subst. cbn in N1, N2. intuition congruence. }
    destruct Hxyz as (E1 & E2 & E3).
    pose proof (Hsub x ltac:(cbn; tauto)) as Hx. pose proof (Hsub y ltac:(cbn; tauto)) as Hy. pose proof (Hsub z ltac:(cbn; tauto)) as Hz.
    assert (Hmiss : (forall n, In n [x; y; z] -> In n [a; b; c]) \/ (forall n, In n [x; y; z] -> In n [a; b; d]) \/
                    (forall n, In n [x; y; z] -> In n [a; c; d]) \/ (forall n, In n [x; y; z] -> In n [b; c; d])).
    { clear G HP. cbn [In] in Hx, Hy, Hz.
      destruct Hx as [<-|[<-|[<-|[<-|[]]]]]; destruct Hy as [<-|[<-|[<-|[<-|[]]]]]; try congruence;
      destruct Hz as [<-|[<-|[<-|[<-|[]]]]]; try congruence;
      first [left; intros n Hn; cbn in Hn |- *; tauto | right; left; intros n Hn; cbn in Hn |- *; tauto
            | right; right; left; intros n Hn; cbn in Hn |- *; tauto | right; right; right; intros n Hn; cbn in Hn |- *; tauto]. }
    destruct Hmiss as [H|[H|[H|H]]].
    + apply (G [0; 1; 2] [a; b; c]); [cbn; tauto|reflexivity| |exact H|cbn; lia]. repeat constructor; cbn; intuition congruence.
    + apply (G [0; 1; 3] [a; b; d]); [cbn; tauto|reflexivity| |exact H|cbn; lia]. repeat constructor; cbn; intuition congruence.
    + apply (G [0; 2; 3] [a; c; d]); [cbn; tauto|reflexivity| |exact H|cbn; lia]. repeat constructor; cbn; intuition congruence.
    + apply (G [1; 2; 3] [b; c; d]); [cbn; tauto|reflexivity| |exact H|cbn; lia]. repeat constructor; cbn; intuition congruence.
Qed.
Lemma tet_face_iff t i f : tet_mesh t -> i < List.length t ->
  (has_face tet_faces t i f <-> exists x y z, NoDup [x; y; z] /\ Permutation f [x; y; z] /\ (forall n, In n [x; y; z] -> In n (nth i t []))).
Proof.
  intros Ht Hi. destruct (tet_get t i Ht Hi) as (a & b & c & d & E & Hnd). unfold has_face. rewrite E.
  rewrite (tet_face_triple a b c d f Hnd). tauto.
Qed.
Lemma tet_common_face t i j : tet_mesh t -> i < List.length t -> j < List.length t ->
  ((exists f, has_face tet_faces t i f /\ has_face tet_faces t j f) <-> three_common t i j).
Proof.
  intros Ht Hi Hj. split.
  - intros (f & H1 & H2). apply tet_face_iff in H1; auto. apply tet_face_iff in H2; auto.
    destruct H1 as (x & y & z & Hd & HP & Hin). destruct H2 as (x' & y' & z' & _ & HP' & Hin').
    exists x, y, z. split; [exact Hd|]. intros n Hn. split; [auto|]. apply Hin'.
    eapply Permutation_in; [exact HP'|]. eapply Permutation_in; [apply Permutation_sym, HP|exact Hn].
  - intros (x & y & z & Hd & Hin). exists [x; y; z].
    split; apply tet_face_iff; auto; exists x, y, z; (split; [exact Hd|]); (split; [apply Permutation_refl|]); intros n Hn; now apply Hin.
Qed.
Lemma tet_faces_distinct t i : tet_mesh t -> i < List.length t -> NoDup (elem_faces tet_faces (nth i t [])).
Proof.
  intros Ht Hi. destruct (tet_get t i Ht Hi) as (a & b & c & d & E & Hnd). rewrite E. unfold elem_faces. cbn [map tet_faces].
  assert (Hdd : a <> b /\ a <> c /\ a <> d /\ b <> c /\ b <> d /\ c <> d).
  { inversion Hnd as [|? ? N1 H1]; subst. inversion H1 as [|? ? N2 H2]; subst. inversion H2 as [|? ? N3 H3]; subst. cbn in N1, N2, N3. intuition congruence. }
  destruct Hdd as (D1 & D2 & D3 & D4 & D5 & D6).
  assert (G : forall p q n, In n p -> ~ In n q -> sort_nodes p <> sort_nodes q).
  { intros p q n Hp Hq Eq. apply sort_nodes_eq in Eq. apply Hq. eapply Permutation_in; eauto. }
  cbn [nd nth]. constructor.
  { intros [H|[H|[H|[]]]]; symmetry in H; revert H; [apply (G _ _ c)|apply (G _ _ b)|apply (G _ _ a)]; cbn; intuition congruence. }
  constructor.
  { intros [H|[H|[]]]; symmetry in H; revert H; [apply (G _ _ b)|apply (G _ _ a)]; cbn; intuition congruence. }
  constructor; [|constructor; [easy|constructor]].
  intros [H|[]]; symmetry in H; revert H; apply (G _ _ a); cbn; intuition congruence.
Qed.

(* composer.adjacency_matrix: in a tetrahedral mesh in which no three elements
   have three nodes in common, the neighbours of i are exactly the elements that
   have at least three nodes in common with it. *)
Theorem C78_tetrahedra : forall t i j, tet_mesh t -> i < List.length t ->
  (forall i j k, i < List.length t -> j < List.length t -> k < List.length t ->
     (exists a b c, NoDup [a; b; c] /\ forall n, In n [a; b; c] -> In n (nth i t []) /\ In n (nth j t []) /\ In n (nth k t [])) ->
     i = j \/ i = k \/ j = k) ->
  List.length (adjacency_matrix t) = List.length t /\
  (In j (nth i (adjacency_matrix t) []) <-> j < List.length t /\ i <> j /\ three_common t i j).
Proof.
  intros t i j Ht Hi Hthree. unfold adjacency_matrix. split; [now rewrite map_length, seq_length|].
  assert (Hnth : nth i (map (face_adjacency tet_faces t) (seq 0 (List.length t))) [] = face_adjacency tet_faces t i).
  { rewrite (nth_indep _ [] (face_adjacency tet_faces t 0)) by (rewrite map_length, seq_length; exact Hi).
    rewrite map_nth, seq_nth by exact Hi. reflexivity. }
  rewrite Hnth.
  assert (Hc : conforming tet_faces t).
  { split; [intros k Hk; now apply tet_faces_distinct|]. intros a b c f Ha Hb Hcc.
    assert (La := proj1 Ha). assert (Lb := proj1 Hb). assert (Lc := proj1 Hcc).
    apply Hthree; auto. apply tet_face_iff in Ha; auto. apply tet_face_iff in Hb; auto. apply tet_face_iff in Hcc; auto.
    destruct Ha as (x & y & z & Hd & HP & Hin). destruct Hb as (x1 & y1 & z1 & _ & HP1 & Hin1). destruct Hcc as (x2 & y2 & z2 & _ & HP2 & Hin2).
    exists x, y, z. split; [exact Hd|]. intros n Hn. pose proof (Permutation_in n (Permutation_sym HP) Hn) as Hf.
    split; [auto|]. split; [apply Hin1; now apply (Permutation_in n HP1)|apply Hin2; now apply (Permutation_in n HP2)]. }
  rewrite (C78_neighbours tet_faces t i j Hc). split.
  - intros (Hne & f & H1 & H2). pose proof (proj1 H2) as Hj. split; [exact Hj|]. split; [exact Hne|]. apply tet_common_face; eauto.
  - intros (Hj & Hne & H3). split; [exact Hne|]. now apply tet_common_face.
Qed.
Print Assumptions C78_tetrahedra.

(* REFUTED for faces with three or more elements: they join none of them. *)
Theorem C78_refuted_three_at_a_face : forall t i j, tet_mesh t -> i < List.length t -> j < List.length t -> i <> j ->
  (forall f, has_face tet_faces t i f -> has_face tet_faces t j f ->
     exists k, k <> i /\ k <> j /\ has_face tet_faces t k f) ->
  ~ In j (face_adjacency tet_faces t i).
Proof.
  intros t i j Ht Hi Hj Hne H Hin. apply adjacency_iff in Hin. destruct Hin as (f & Ho).
  assert (Oi : In i (owners tet_faces t f)) by (destruct Ho as [-> | -> ]; cbn; tauto).
  assert (Oj : In j (owners tet_faces t f)) by (destruct Ho as [-> | -> ]; cbn; tauto).
  apply owners_in in Oi, Oj. destruct Oi as (_ & Fi), Oj as (_ & Fj). apply face_iff in Fi, Fj; auto.
  destruct (H f) as (k & K1 & K2 & Fk); [tauto|tauto|].
  assert (Ok : In k (owners tet_faces t f)).
  { apply owners_in. split; [apply Fk|]. apply face_iff; [apply Fk|]. split; [tauto|exact Fk]. }
  destruct Ho as [Ho|Ho]; rewrite Ho in Ok; cbn in Ok; intuition congruence.
Qed.
Print Assumptions C78_refuted_three_at_a_face.

(* ---------- hexahedra ---------- *)
(* the faces of a hexahedron in scikit-fem's numbering (nodes 1, 2, 3 are the
   neighbours of 0, 4 = 1+2, 5 = 1+3, 6 = 2+3, as Mesh_spec.skfem_corners) *)
Definition skfem_facets : list (list nat) :=
  [[0; 1; 4; 2]; [0; 2; 6; 3]; [0; 3; 5; 1]; [2; 4; 7; 6]; [1; 5; 7; 4]; [3; 6; 7; 5]].
(* a hexahedral mesh in that numbering: eight different nodes each, and what two
   elements have in common lies on one face *)
Definition skfem_hex_mesh (t : list elem) : Prop :=
  Forall (fun e => List.length e = 8 /\ NoDup e) t /\
  forall i j, i < List.length t -> j < List.length t -> i <> j ->
  exists F, In F skfem_facets /\ forall n, In n (nth i t []) -> In n (nth j t []) -> In n (map (nd (nth i t [])) F).

Lemma nd_inj (e : elem) a b : NoDup e -> a < List.length e -> b < List.length e -> nd e a = nd e b -> a = b.
Proof. intros Hn Ha Hb H. unfold nd in H. now apply (proj1 (NoDup_nth e 0) Hn a b Ha Hb). Qed.

(* REFUTED: with scikit-fem's own numbering the "faces" of the hexahedra are not
   faces, and no element of any mesh has a neighbour. *)
Theorem C78_refuted_hexahedra : forall t, skfem_hex_mesh t -> forall i, face_adjacency hex_faces t i = [].
Proof.
  intros t (Hel & Hmesh) i. destruct (face_adjacency hex_faces t i) as [|j l] eqn:E; [reflexivity|exfalso].
  assert (Hin : In j (face_adjacency hex_faces t i)) by (rewrite E; now left). clear E l.
  apply adjacency_iff in Hin. destruct Hin as (f & Ho). rewrite Forall_forall in Hel.
  assert (Hel' : forall k, k < List.length t -> List.length (nth k t []) = 8 /\ NoDup (nth k t [])) by (intros k Hk; apply Hel; now apply nth_In).
  assert (Oi : In i (owners hex_faces t f)) by (destruct Ho as [-> | -> ]; cbn; tauto).
  assert (Oj : In j (owners hex_faces t f)) by (destruct Ho as [-> | -> ]; cbn; tauto).
  assert (Hposlt : forall pos, In pos hex_faces -> forall a, In a pos -> a < 8).
  { assert (Hb : forallb (fun pos => forallb (fun a => a <? 8) pos) hex_faces = true) by reflexivity.
    intros pos Hp a Ha. rewrite forallb_forall in Hb. specialize (Hb pos Hp). rewrite forallb_forall in Hb. apply Nat.ltb_lt. auto. }
  destruct (Nat.eq_dec i j) as [<-|Hne].
  - (* one element cannot own the face twice *)
    assert (Hnd : NoDup (owners hex_faces t f)).
    { apply owners_nodup. intros k Hk. destruct (Hel' k Hk) as (Hl & Hn). unfold elem_faces.
      assert (G : forall ps, NoDup ps -> (forall p, In p ps -> In p hex_faces) -> NoDup (map (fun pos => sort_nodes (map (nd (nth k t [])) pos)) ps)).
      { induction ps as [|p ps IH]; intros Hps Hsub; cbn [map]; constructor.
        - intros Hin. apply in_map_iff in Hin. destruct Hin as (q & Eq & Hq). inversion Hps as [|? ? Hnp _]; subst.
          apply sort_nodes_eq in Eq.
          assert (Hpq : forall a, In a q -> In a p).
          { intros a Ha. assert (Hx : In (nd (nth k t []) a) (map (nd (nth k t [])) p)) by (eapply Permutation_in; [exact Eq|now apply in_map]).
            apply in_map_iff in Hx. destruct Hx as (b & Eb & Hb).
            assert (b = a); [|now subst]. apply (nd_inj (nth k t []) b a Hn); [rewrite Hl; apply (Hposlt p); [apply Hsub; now left|exact Hb]|rewrite Hl; apply (Hposlt q); [apply Hsub; now right|exact Ha]|exact Eb]. }
          assert (Hdist : forallb (fun p => forallb (fun q => implb (forallb (fun a => mem a p) q) (face_eqb p q)) hex_faces) hex_faces = true) by reflexivity.
          rewrite forallb_forall in Hdist. specialize (Hdist p (Hsub p (or_introl eq_refl))). rewrite forallb_forall in Hdist.
          specialize (Hdist q (Hsub q (or_intror Hq))).
          assert (Hall : forallb (fun a => mem a p) q = true) by (apply forallb_forall; intros a Ha; apply mem_in; auto).
          rewrite Hall in Hdist. cbn in Hdist. apply face_eqb_eq in Hdist. subst q. easy.
        - apply IH; [now inversion Hps|]. intros q Hq. apply Hsub. now right. }
      apply G; [|easy]. repeat (constructor; [cbn; intuition discriminate|]). constructor. }
    assert (Ho' : owners hex_faces t f = [i; i]) by now destruct Ho.
    rewrite Ho' in Hnd. inversion Hnd as [|? ? Hx _]; subst. apply Hx. now left.
  - apply owners_in in Oi, Oj. destruct Oi as (Li & Fi), Oj as (Lj & Fj). apply face_iff in Fi, Fj; auto.
    destruct Fi as (_ & _ & pos & Hp & HP). destruct Fj as (_ & _ & pos' & Hp' & HP').
    destruct (Hmesh i j Li Lj Hne) as (F & HF & Hcom). destruct (Hel' i Li) as (Hl & Hn). destruct (Hel' j Lj) as (Hl' & Hn').
    assert (Hsub : forall a, In a pos -> In a F).
    { intros a Ha. pose proof (Hposlt pos Hp a Ha) as Ha8.
      assert (H1 : In (nd (nth i t []) a) (nth i t [])) by (apply nth_In; rewrite Hl; exact Ha8).
      assert (H2 : In (nd (nth i t []) a) (nth j t [])).
      { assert (Hf : In (nd (nth i t []) a) f) by (eapply Permutation_in; [apply Permutation_sym, HP|now apply in_map]).
        pose proof (Permutation_in _ HP' Hf) as Hx. apply in_map_iff in Hx. destruct Hx as (b & <- & Hb). apply nth_In. rewrite Hl'. eauto. }
      pose proof (Hcom _ H1 H2) as H3. apply in_map_iff in H3. destruct H3 as (b & Eb & Hb).
      assert (Hb8 : b < 8).
      { assert (Hbb : forallb (fun pos => forallb (fun a => a <? 8) pos) skfem_facets = true) by reflexivity.
        rewrite forallb_forall in Hbb. specialize (Hbb F HF). rewrite forallb_forall in Hbb. apply Nat.ltb_lt. auto. }
      assert (b = a); [|now subst]. apply (nd_inj (nth i t [])); auto; rewrite Hl; assumption. }
    assert (Hno : forallb (fun pos => forallb (fun F => negb (forallb (fun a => mem a F) pos)) skfem_facets) hex_faces = true) by reflexivity.
    rewrite forallb_forall in Hno. specialize (Hno pos Hp). rewrite forallb_forall in Hno. specialize (Hno F HF).
    apply negb_true_iff in Hno. assert (Hall : forallb (fun a => mem a F) pos = true) by (apply forallb_forall; intros a Ha; apply mem_in; auto).
    congruence.
Qed.
Print Assumptions C78_refuted_hexahedra.

(* instances: two tetrahedra on a common face; two cubes in the source's own
   numbering are neighbours; the same two cubes in scikit-fem's numbering not *)
Definition two_tets : list elem := [[0; 1; 2; 3]; [1; 2; 3; 4]].
Definition two_cubes_drawn : list elem := [[0; 1; 2; 3; 4; 5; 6; 7]; [1; 8; 9; 2; 5; 10; 11; 6]].
(* nodes on x = 0: 0 (000) 2 (010) 3 (001) 6 (011); x = 1: 1 4 5 7; x = 2: 8 9 10 11 *)
Definition two_cubes_skfem : list elem := [[0; 1; 2; 3; 4; 5; 6; 7]; [1; 8; 4; 5; 9; 10; 7; 11]].
Example C78_instance : tet_mesh two_tets /\ adjacency_matrix two_tets = [[1]; [0]] /\
  face_adjacency hex_faces two_cubes_drawn 0 = [1] /\
  skfem_hex_mesh two_cubes_skfem /\ face_adjacency hex_faces two_cubes_skfem 0 = [].
Proof.
  split; [|split; [reflexivity|split; [reflexivity|split; [|reflexivity]]]].
  - constructor; [|constructor; [|constructor]]; (split; [reflexivity|]); repeat (constructor; [cbn; intuition discriminate|]); constructor.
  - split.
    + constructor; [|constructor; [|constructor]]; (split; [reflexivity|]); repeat (constructor; [cbn; intuition discriminate|]); constructor.
    + intros i j Hi Hj Hne. cbn [List.length two_cubes_skfem] in Hi, Hj.
      assert (Hij : (i = 0 /\ j = 1) \/ (i = 1 /\ j = 0)) by lia.
      destruct Hij as [(-> & ->)|(-> & ->)].
      * exists [1; 5; 7; 4]. split; [cbn; tauto|]. intros n. cbn. intuition (subst; try discriminate; tauto).
      * exists [0; 2; 6; 3]. split; [cbn; tauto|]. intros n. cbn. intuition (subst; try discriminate; tauto).
Qed.
