(* C61: condition.vtu. *)
From Verif Require Import Base Mesh_model Mesh_spec Mesh_proofs Mesh_props Cond_model.
Open Scope list_scope.

(* the colour documented by the order of the assignments: the last class wins *)
Definition colour3 (p3 p2 p1 : bool) : nat := if p3 then 3 else if p2 then 2 else if p1 then 1 else 0.
Definition in_range (n : nat) (a : option nodes_arg) : Prop := forall i, In i (opt_nodes a) -> (i < n)%nat.
(* boundary groups NumPy can stack: one array, or arrays of one length *)
Definition stackable (a : option nodes_arg) : Prop :=
  forall g h ll, a = Some (Lst ll) -> In g ll -> In h ll -> List.length g = List.length h.

Lemma set1_len a : forall i v, List.length (set1 a i v) = List.length a.
Proof. induction a; intros [|i] v; cbn; auto. Qed.
Lemma set1_nth a : forall i v j, (i < List.length a)%nat -> nth j (set1 a i v) 0%nat = if Nat.eqb j i then v else nth j a 0%nat.
Proof.
  induction a as [|x a IH]; intros i v j Hi; cbn in Hi; [lia|].
  destruct i as [|i]; destruct j as [|j]; cbn; auto. apply IH. lia.
Qed.
Lemma assign_some a l v : (forall i, In i l -> (i < List.length a)%nat) ->
  exists b, assign a (Some l) v = Ok b /\ List.length b = List.length a /\
    forall j, nth j b 0%nat = if mem j l then v else nth j a 0%nat.
Proof.
  intros Hr. unfold assign. assert (forallb (fun i => Nat.ltb i (List.length a)) l = true) as ->.
  { apply forallb_forall. intros i Hi. apply Nat.ltb_lt. auto. }
  eexists. split; [reflexivity|]. revert a Hr. induction l as [|i l IH]; intros a Hr; cbn [fold_left].
  - split; [reflexivity|]. intros j. reflexivity.
  - destruct (IH (set1 a i v)) as (HL & HN).
    { intros k Hk. rewrite set1_len. apply Hr. now right. }
    rewrite set1_len in HL. split; [exact HL|]. intros j. rewrite HN, set1_nth by (apply Hr; now left).
    assert (Hm : mem j (i :: l) = orb (Nat.eqb j i) (mem j l)) by reflexivity. rewrite Hm.
    destruct (Nat.eqb j i), (mem j l); reflexivity.
Qed.
Lemma flatten_ok ll : stackable (Some (Lst ll)) -> np_flatten ll = Ok (List.concat ll).
Proof.
  intros H. unfold np_flatten. destruct ll as [|a r]; [reflexivity|].
  assert (forallb (fun b => Nat.eqb (List.length a) (List.length b)) r = true) as ->; [|reflexivity].
  apply forallb_forall. intros b Hb. apply Nat.eqb_eq. eapply H; [reflexivity|now left|now right].
Qed.
Lemma index_ok a : a <> None -> stackable a -> as_index a = Ok (Some (opt_nodes a)).
Proof.
  intros Hn Hs. destruct a as [[l|ll]|]; [reflexivity| |easy]. cbn [as_index]. now rewrite flatten_ok.
Qed.
Lemma mem_unique x l : mem x (np_unique l) = mem x l.
Proof.
  destruct (mem x l) eqn:E; [apply mem_in; apply unique_in; now apply mem_in|].
  apply mem_false. rewrite unique_in. now apply mem_false.
Qed.

(* With all three boundaries given, every node gets the colour of the strongest
   condition on it: 3 Robin, 2 support, 1 load, 0 none. *)
Theorem C61_node_colours nn neumann dirichlet robin :
  neumann <> None -> neumann <> Some (Lst []) -> dirichlet <> None -> robin <> None ->
  stackable dirichlet -> stackable robin ->
  in_range nn neumann -> in_range nn dirichlet -> in_range nn robin ->
  exists c, node_colors nn neumann dirichlet robin = Ok c /\ List.length c = nn /\
    forall n, (n < nn)%nat -> nth n c 0%nat =
      colour3 (mem n (opt_nodes robin)) (mem n (opt_nodes dirichlet)) (mem n (opt_nodes neumann)).
Proof.
  intros Hn Hn' Hd Hr Sd Sr Rn Rd Rr. unfold node_colors.
  assert (exists l, neumann_nodes_all neumann = Ok (Some l) /\ (forall x, mem x l = mem x (opt_nodes neumann))) as (l & -> & Hl).
  { destruct neumann as [[l|ll]|]; [|destruct ll; [easy|]|easy].
    - exists l. auto.
    - eexists. split; [reflexivity|]. intros x. apply mem_unique. }
  cbn [bind]. destruct (assign_some (repeat 0%nat nn) l 1%nat) as (a & -> & La & Na).
  { intros i Hi. rewrite repeat_length. apply Rn. apply mem_in. rewrite <- Hl. now apply mem_in. }
  rewrite repeat_length in La. cbn [bind]. rewrite index_ok by auto. cbn [bind].
  destruct (assign_some a (opt_nodes dirichlet) 2%nat) as (b & -> & Lb & Nb).
  { intros i Hi. rewrite La. auto. }
  cbn [bind]. rewrite index_ok by auto. cbn [bind].
  destruct (assign_some b (opt_nodes robin) 3%nat) as (c & -> & Lc & Nc).
  { intros i Hi. rewrite Lb, La. auto. }
  exists c. split; [reflexivity|]. split; [lia|]. intros n Hlt. rewrite Nc, Nb, Na, Hl, nth_repeat. reflexivity.
Qed.
Print Assumptions C61_node_colours.

(* FINDING: without a Robin boundary (every elastic task) the index is None and
   all nodes are written with colour 3, whatever the supports and loads are. *)
Theorem C61_no_robin_refuted nn neumann dirichlet c :
  node_colors nn neumann dirichlet None = Ok c -> c = repeat 3%nat nn.
Proof.
  unfold node_colors. destruct (neumann_nodes_all neumann) as [ni|]; [|discriminate]. cbn [bind].
  destruct (assign (repeat 0%nat nn) ni 1%nat) as [a|] eqn:Ea; [|discriminate]. cbn [bind].
  destruct (as_index dirichlet) as [di|]; [|discriminate]. cbn [bind].
  destruct (assign a di 2%nat) as [b|] eqn:Eb; [|discriminate]. cbn [bind as_index assign]. intros H. injection H as <-.
  assert (Hl : forall x i v y, assign x i v = Ok y -> List.length y = List.length x).
  { clear. intros x [l|] v y; unfold assign.
    - destruct (forallb _ l); [|discriminate]. intros H. injection H as <-.
      revert x. induction l as [|i l IH]; intros x; cbn [fold_left]; [reflexivity|]. now rewrite IH, set1_len.
    - intros H. injection H as <-. now rewrite map_length. }
  apply Hl in Ea. apply Hl in Eb. rewrite Ea, repeat_length in Eb. rewrite <- Eb. clear.
  induction b; cbn; [reflexivity|]. now rewrite IHb.
Qed.
Print Assumptions C61_no_robin_refuted.

(* Elements: design elements get 3 and all others 2; the class "free" (1) is
   always overwritten, so the file shows exactly the design region. *)
Theorem C61_element_colours t ndofs dofs dirichlet neumann robin dr design d :
  from_nodes t ndofs dofs dirichlet neumann robin dr design = Ok d ->
  (forall e, In e design -> (e < List.length t)%nat) ->
  exists c, element_colors d = Ok c /\ List.length c = List.length t /\
    forall e, (e < List.length t)%nat -> nth e c 0%nat = (if mem e (d_design d) then 3 else 2)%nat.
Proof.
  intros H Hr. destruct (C49_partition _ _ _ _ _ _ _ _ d H) as (Hp & _ & Hf & _).
  destruct (C49_loaded_not_designed _ _ _ _ _ _ _ _ d H) as (_ & Hdes & _).
  pose proof (from_nodes_inv _ _ _ _ _ _ _ _ d H) as (_ & _ & _ & Hnel & _).
  assert (Hfree : forall e, In e (d_free_elements d) -> (e < List.length t)%nat).
  { revert H. unfold from_nodes. destruct (dirichlet_elems t dirichlet); cbn [bind]; [|discriminate].
    destruct (loaded_elems t neumann); cbn [bind]; [|discriminate].
    destruct (loaded_elems t robin); cbn [bind]; [|discriminate].
    match goal with |- bind ?x _ = _ -> _ => destruct x; cbn [bind]; [|discriminate] end.
    destruct (setdiff1d design _); [discriminate|].
    match goal with |- bind ?x _ = _ -> _ => destruct x; cbn [bind]; [|discriminate] end.
    intros H. injection H as <-. cbn [d_free_elements]. intros e He. apply ebn_in in He. now destruct He. }
  unfold element_colors.
  destruct (assign_some (repeat 0%nat (d_nel d)) (d_free_elements d) 1%nat) as (a & -> & La & Na).
  { intros i Hi. rewrite repeat_length, Hnel. auto. }
  rewrite repeat_length, Hnel in La. cbn [bind].
  destruct (assign_some a (d_fixed d) 2%nat) as (b & -> & Lb & Nb).
  { intros i Hi. rewrite La. auto. }
  cbn [bind]. destruct (assign_some b (d_design d) 3%nat) as (c & -> & Lc & Nc).
  { intros i Hi. rewrite Lb, La. apply Hr. now apply Hdes in Hi. }
  exists c. split; [reflexivity|]. split; [lia|]. intros e He. rewrite Nc, Nb, Na.
  destruct (mem e (d_design d)) eqn:E; [reflexivity|]. apply mem_false in E.
  destruct (Hp e He) as [[Hin _]|[_ Hin]]; [easy|]. apply mem_in in Hin. now rewrite Hin.
Qed.
Print Assumptions C61_element_colours.

(* When the supported elements are taken out of the design afterwards
   (design_dirichlet = False) they are in neither class and get the colour of a
   free element, or 0. *)
Theorem C61_excluded_colour t ndofs dofs dirichlet neumann robin dr design d e :
  from_nodes t ndofs dofs dirichlet neumann robin dr design = Ok d ->
  (forall e, In e design -> (e < List.length t)%nat) ->
  In e (d_design d) -> touches t (opt_nodes dirichlet) e ->
  exists c, element_colors (exclude_dirichlet d) = Ok c /\
    nth e c 0%nat = (if mem e (d_free_elements d) then 1 else 0)%nat.
Proof.
  intros H Hr He Ht. destruct (C49_partition _ _ _ _ _ _ _ _ d H) as (Hp & _ & Hf & _).
  destruct (C49_loaded_not_designed _ _ _ _ _ _ _ _ d H) as (_ & Hdes & _).
  pose proof (from_nodes_inv _ _ _ _ _ _ _ _ d H) as (_ & _ & _ & Hnel & _ & _ & HD & _).
  assert (Hfree : forall e, In e (d_free_elements d) -> (e < List.length t)%nat).
  { clear - H. revert H. unfold from_nodes. destruct (dirichlet_elems t dirichlet); cbn [bind]; [|discriminate].
    destruct (loaded_elems t neumann); cbn [bind]; [|discriminate].
    destruct (loaded_elems t robin); cbn [bind]; [|discriminate].
    match goal with |- bind ?x _ = _ -> _ => destruct x; cbn [bind]; [|discriminate] end.
    destruct (setdiff1d design _); [discriminate|].
    match goal with |- bind ?x _ = _ -> _ => destruct x; cbn [bind]; [|discriminate] end.
    intros H. injection H as <-. cbn [d_free_elements]. intros e He. apply ebn_in in He. now destruct He. }
  unfold element_colors, exclude_dirichlet. cbn [d_nel d_free_elements d_fixed d_design].
  destruct (assign_some (repeat 0%nat (d_nel d)) (d_free_elements d) 1%nat) as (a & -> & La & Na).
  { intros i Hi. rewrite repeat_length, Hnel. auto. }
  rewrite repeat_length, Hnel in La. cbn [bind].
  destruct (assign_some a (d_fixed d) 2%nat) as (b & -> & Lb & Nb).
  { intros i Hi. rewrite La. auto. }
  cbn [bind]. destruct (assign_some b (setdiff1d (d_design d) (olist (d_dirichlet d))) 3%nat) as (c & -> & Lc & Nc).
  { intros i Hi. rewrite Lb, La. apply Hr. apply setdiff_in in Hi. now apply Hdes. }
  exists c. split; [reflexivity|]. rewrite Nc, Nb, Na, nth_repeat.
  assert (mem e (setdiff1d (d_design d) (olist (d_dirichlet d))) = false) as ->.
  { apply mem_false. rewrite setdiff_in. intros (_ & Hn). apply Hn. now apply HD. }
  assert (mem e (d_fixed d) = false) as ->; [|reflexivity].
  apply mem_false. destruct (Hp e) as [[_ Hn]|[Hn _]]; [|exact Hn|easy]. apply Hr. now apply Hdes in He.
Qed.
Print Assumptions C61_excluded_colour.

(* free_elements, exactly: the dof numbers that are not prescribed are used as
   node numbers, and the elements having one of them are returned. *)
Theorem C61_free_elements t ndofs dofs l neumann robin dr design d :
  from_nodes t ndofs dofs (Some (Arr l)) neumann robin dr design = Ok d ->
  (forall i, In i (d_free_dofs d) <-> (i < ndofs)%nat /\ ~ In i (dofs l)) /\
  (forall e, In e (d_free_elements d) <-> touches t (d_free_dofs d) e).
Proof.
  unfold from_nodes. cbn [dirichlet_elems bind].
  destruct (loaded_elems t neumann); cbn [bind]; [|discriminate].
  destruct (loaded_elems t robin); cbn [bind]; [|discriminate].
  match goal with |- bind ?x _ = _ -> _ => destruct x; cbn [bind]; [|discriminate] end.
  destruct (setdiff1d design _); [discriminate|].
  intros H. injection H as <-. cbn [d_free_dofs d_free_elements]. split.
  - intros i. rewrite setdiff_in, in_seq. intuition lia.
  - intros e. apply ebn_in.
Qed.
Print Assumptions C61_free_elements.

(* FINDING: with three dofs per node this is not "the elements with a free
   node": a whole unsupported element can be missing. *)
Definition dofs3 (nodes : list nat) : list nat := List.concat (map (fun n => [3 * n; 3 * n + 1; 3 * n + 2]%nat) nodes).
Theorem C61_free_elements_refuted : exists d,
  from_nodes [[0; 1; 2; 3]; [4; 5; 6; 7]]%nat 24 dofs3 (Some (Arr [0; 1; 2; 3]%nat)) None None None [0; 1]%nat = Ok d /\
  (forall n, In n [4; 5; 6; 7]%nat -> forall k, In k (dofs3 [n]) -> In k (d_free_dofs d)) /\
  d_free_elements d = [].
Proof.
  eexists. split; [vm_compute; reflexivity|]. cbn [d_free_dofs d_free_elements]. split; [|reflexivity].
  intros n Hn k Hk. cbn in Hn. destruct Hn as [<-|[<-|[<-|[<-|[]]]]]; cbn in Hk; cbn; tauto.
Qed.
Print Assumptions C61_free_elements_refuted.

Example C61_instance : exists c, node_colors 5 (Some (Arr [0; 1]%nat)) (Some (Lst [[1]; [2]]%nat)) (Some (Arr [3]%nat)) = Ok c /\
  c = [1; 2; 2; 3; 0]%nat.
Proof. eexists. split; reflexivity. Qed.
