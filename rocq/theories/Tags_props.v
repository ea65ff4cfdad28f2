(* C75: boundary tags of a mesh become boundary conditions; C76: surface loads. *)
From Coq Require Import Ascii Permutation Sorted.
From Verif Require Import Base Sums Tags_model.
From Verif Require Ckpt_model Ckpt_proofs Mesh_model Heat_model.
Open Scope list_scope.

(* ---------- specification vocabulary ---------- *)
(* the tag "<pre><n>" written without leading zeros *)
Definition tag (pre : name) (n : Z) : name := pre ++ Ckpt_model.py_str n.
(* [k] is [pre] followed by at least one digit, which read as the number [n] *)
Definition tag_with_number (pre k : name) (n : Z) : Prop :=
  exists ds, k = pre ++ ds /\ ds <> [] /\ forallb Ckpt_model.is_digit ds = true /\ Ckpt_model.py_int ds = n.
Definition in_order (pre : name) (ks : list name) : Prop :=
  exists ns, Forall2 (tag_with_number pre) ks ns /\ Sorted Z.le ns.

Lemma prefixb_app pre : forall k, Ckpt_model.prefixb pre k = true <-> exists r, k = pre ++ r.
Proof.
  induction pre as [|a pre IH]; intros k; cbn [Ckpt_model.prefixb].
  - split; [intros _; now exists k|reflexivity].
  - destruct k as [|c k]; [split; [discriminate|intros (r & [=])]|].
    rewrite andb_true_iff, IH. split.
    + intros (E & r & ->). apply Ascii.eqb_eq in E. subst. now exists r.
    + intros (r & [= -> ->]). split; [apply Ascii.eqb_refl|eauto].
Qed.
Lemma numbered_iff pre k : numbered pre k = true <-> tag_with_number pre k (tag_no pre k).
Proof.
  unfold numbered, tag_with_number, tag_no. rewrite andb_true_iff, prefixb_app. split.
  - intros ((r & ->) & H). rewrite Ckpt_proofs.skipn_len_app in *. exists r.
    destruct r as [|c r]; [discriminate|]. split; [reflexivity|]. split; [easy|]. split; [exact H|reflexivity].
  - intros (ds & -> & Hne & Hd & _). rewrite Ckpt_proofs.skipn_len_app. split; [eauto|].
    destruct ds; [easy|exact Hd].
Qed.
Lemma tag_numbered pre n : (0 <= n)%Z -> numbered pre (tag pre n) = true /\ tag_no pre (tag pre n) = n.
Proof.
  intros Hn. assert (E : tag_no pre (tag pre n) = n).
  { unfold tag_no, tag. rewrite Ckpt_proofs.skipn_len_app. now apply Ckpt_proofs.py_int_str. }
  split; [|exact E]. apply numbered_iff. rewrite E. exists (Ckpt_model.py_str n). split; [reflexivity|].
  split; [|split; [now apply Ckpt_proofs.py_str_digits|now apply Ckpt_proofs.py_int_str]].
  destruct (Ckpt_proofs.digits_spec n Hn) as (_ & _ & Hne). unfold Ckpt_model.py_str. intros E'. apply map_eq_nil in E'. easy.
Qed.

Lemma insert_perm pre k l : Permutation (insert_tag pre k l) (k :: l).
Proof.
  induction l as [|y l IH]; cbn [insert_tag]; [apply Permutation_refl|].
  destruct (_ <=? _)%Z; [apply Permutation_refl|].
  eapply perm_trans; [apply perm_skip, IH|]. apply perm_swap.
Qed.
Lemma sort_perm pre l : Permutation (sort_tags pre l) l.
Proof.
  induction l as [|k l IH]; [constructor|]. cbn [sort_tags fold_right].
  eapply perm_trans; [apply insert_perm|]. now apply perm_skip.
Qed.
Lemma insert_sorted pre k l : Sorted Z.le (map (tag_no pre) l) -> Sorted Z.le (map (tag_no pre) (insert_tag pre k l)).
Proof.
  induction l as [|y l IH]; intros H; cbn [insert_tag]; [cbn; repeat constructor|].
  destruct (Z.leb_spec (tag_no pre k) (tag_no pre y)).
  - cbn [map] in *. constructor; [exact H|]. now constructor.
  - cbn [map] in *. inversion H as [|? ? Hs Hr]; subst. constructor; [now apply IH|].
    destruct l as [|z l]; cbn [insert_tag map]; [constructor; lia|].
    destruct (_ <=? _)%Z; cbn [map]; constructor; [lia|]. cbn [map] in Hr. inversion Hr; subst. lia.
Qed.
Lemma sort_sorted pre l : Sorted Z.le (map (tag_no pre) (sort_tags pre l)).
Proof. induction l as [|k l IH]; [constructor|]. cbn [sort_tags fold_right]. now apply insert_sorted. Qed.

Lemma select_in pre d k : In k (select pre d) <-> In k (map fst d) /\ numbered pre k = true.
Proof.
  unfold select. rewrite <- filter_In. split; intros H.
  - eapply Permutation_in; [apply sort_perm|exact H].
  - eapply Permutation_in; [apply Permutation_sym, sort_perm|exact H].
Qed.
Lemma select_order pre d : in_order pre (select pre d).
Proof.
  exists (map (tag_no pre) (select pre d)). split; [|apply sort_sorted].
  assert (H : forall k, In k (select pre d) -> numbered pre k = true) by (intros k Hk; now apply select_in in Hk).
  induction (select pre d) as [|k l IH]; [constructor|]. cbn [map]. constructor.
  - apply numbered_iff, H. now left.
  - apply IH. intros k' Hk'. apply H. now right.
Qed.

(* a strictly sorted arrangement is unique *)
Lemma sorted_unique pre l : forall m, Permutation l m -> NoDup (map (tag_no pre) l) ->
  Sorted Z.le (map (tag_no pre) l) -> Sorted Z.le (map (tag_no pre) m) -> l = m.
Proof.
  induction l as [|x l IH]; intros m HP Hnd Hl Hm.
  - now apply Permutation_nil in HP.
  - destruct m as [|y m]; [apply Permutation_sym, Permutation_nil in HP; discriminate|].
    assert (Hmin : forall q, Sorted Z.le (map (tag_no pre) q) -> forall z r, q = z :: r -> forall w, In w r -> (tag_no pre z <= tag_no pre w)%Z).
    { clear. intros q Hq z r -> w Hw. apply Sorted_StronglySorted in Hq; [|intros a b c; lia].
      cbn [map] in Hq. inversion Hq as [|? ? _ HF]; subst. rewrite Forall_forall in HF. apply HF. now apply in_map. }
    assert (Exy : x = y).
    { assert (Hy : In y (x :: l)) by (eapply Permutation_in; [apply Permutation_sym, HP|now left]).
      assert (Hx : In x (y :: m)) by (eapply Permutation_in; [apply HP|now left]).
      destruct Hy as [|Hy]; [assumption|]. destruct Hx as [Hx|Hx]; [now symmetry|].
      pose proof (Hmin _ Hl x l eq_refl y Hy). pose proof (Hmin _ Hm y m eq_refl x Hx).
      assert (Eq : tag_no pre x = tag_no pre y) by lia. exfalso. inversion Hnd as [|? ? Hni _]; subst.
      apply Hni. rewrite Eq. now apply in_map. }
    subst y. f_equal. apply IH.
    + eapply Permutation_cons_inv; exact HP.
    + now inversion Hnd.
    + cbn [map] in Hl. now inversion Hl.
    + cbn [map] in Hm. now inversion Hm.
Qed.

Lemma name_eqb_eq f g : Ckpt_model.name_eqb f g = true <-> f = g.
Proof. unfold Ckpt_model.name_eqb. destruct (list_eq_dec ascii_dec f g); split; congruence. Qed.
Lemma dget_in d k v : NoDup (map fst d) -> (dget k d = Some v <-> In (k, v) d).
Proof.
  induction d as [|[q w] d IH]; intros Hnd; cbn [dget]; [easy|].
  inversion Hnd as [|? ? Hni Hnd']; subst. destruct (Ckpt_model.name_eqb k q) eqn:E.
  - apply name_eqb_eq in E. subst q. split.
    + intros [= ->]. now left.
    + intros [H|H]; [congruence|]. exfalso. apply Hni. apply (in_map fst) in H. exact H.
  - rewrite (IH Hnd'). split; [now right|]. intros [H|H]; [|exact H].
    exfalso. injection H as -> ->. assert (Ckpt_model.name_eqb k k = true) by now apply name_eqb_eq. congruence.
Qed.
Lemma dget_none d k : dget k d = None <-> ~ In k (map fst d).
Proof.
  induction d as [|[q w] d IH]; cbn [dget map fst]; [easy|]. destruct (Ckpt_model.name_eqb k q) eqn:E.
  - apply name_eqb_eq in E. subst. split; [discriminate|]. intros H. exfalso. apply H. now left.
  - rewrite IH. split; [|intros H Hin; apply H; now right]. intros H [<-|Hin]; [|auto].
    assert (Ckpt_model.name_eqb q q = true) by now apply name_eqb_eq. congruence.
Qed.
Lemma dget_perm d d' k : NoDup (map fst d) -> Permutation d d' -> dget k d = dget k d'.
Proof.
  intros Hnd HP. assert (Hnd' : NoDup (map fst d')) by (eapply Permutation_NoDup; [apply Permutation_map, HP|exact Hnd]).
  destruct (dget k d) as [v|] eqn:E.
  - symmetry. apply dget_in; auto. apply (Permutation_in _ HP). now apply dget_in in E.
  - symmetry. apply dget_none. apply dget_none in E. intros Hin. apply E.
    eapply Permutation_in; [apply Permutation_map, Permutation_sym, HP|exact Hin].
Qed.

(* ---------- C75 ---------- *)
(* Numbered load tags: the load regions are the boundaries tagged neumann_<n>,
   each exactly once, in the order of their numbers (10 after 2); the plain tag
   and everything else is then ignored.  The same for the heat task's
   dirichlet_<n> and robin_<n>. *)
Theorem C75_numbered_tags : forall d, NoDup (map fst d) ->
  forall pre plain arg,
  In (pre, plain, arg)
    [(lit "neumann_", lit "neumann", elastic_neumann d); (lit "dirichlet_", lit "dirichlet", heat_dirichlet d);
     (lit "robin_", lit "robin", heat_robin d)] ->
  (exists k n, In k (map fst d) /\ tag_with_number pre k n) ->
  exists ks, arg = FList (map (ids_of d) ks) /\ NoDup ks /\ in_order pre ks /\
    (forall k, In k ks <-> In k (map fst d) /\ exists n, tag_with_number pre k n) /\
    (forall k, In k ks -> In (k, ids_of d k) d).
Proof.
  intros d Hnd pre plain arg Harg (k0 & n0 & Hk0 & Ht0).
  assert (Hsel : forall k, In k (select pre d) <-> In k (map fst d) /\ exists n, tag_with_number pre k n).
  { intros k. rewrite select_in. split; intros (A & B); split; auto.
    - exists (tag_no pre k). now apply numbered_iff.
    - destruct B as (n & ds & -> & Hne & Hd & _). apply numbered_iff. exists ds. split; [reflexivity|].
      split; [exact Hne|]. split; [exact Hd|]. unfold tag_no. now rewrite Ckpt_proofs.skipn_len_app. }
  assert (Hin0 : In k0 (select pre d)) by (apply Hsel; eauto).
  exists (select pre d). split; [|split; [|split; [apply select_order|split; [exact Hsel|]]]].
  - assert (Hne : select pre d <> []) by (intros E; rewrite E in Hin0; easy).
    destruct Harg as [E|[E|[E|[]]]]; injection E as <- <- <-;
      unfold elastic_neumann, heat_dirichlet, heat_robin, heat_boundary; now destruct (select _ d).
  - eapply Permutation_NoDup; [apply Permutation_sym, sort_perm|]. now apply NoDup_filter.
  - intros k Hk. apply Hsel in Hk. destruct Hk as (Hk & _). apply in_map_iff in Hk. destruct Hk as ([q v] & Hq & Hin).
    cbn in Hq. subst q. pose proof (proj2 (dget_in d k v Hnd) Hin) as E. unfold ids_of. rewrite E. exact Hin.
Qed.
Print Assumptions C75_numbered_tags.

(* neumann_1, ..., neumann_m in any order in the dict: load i is boundary
   neumann_i *)
Lemma sorted_seq pre ns : Forall (fun n => (0 <= n)%Z) ns -> Sorted Z.lt ns ->
  forall d, NoDup (map fst d) ->
  (forall k, In k (map fst d) /\ numbered pre k = true <-> In k (map (tag pre) ns)) ->
  select pre d = map (tag pre) ns.
Proof.
  intros Hpos Hs d Hnd Hk. rewrite Forall_forall in Hpos.
  assert (Hmap : map (tag_no pre) (map (tag pre) ns) = ns).
  { rewrite map_map. rewrite <- (map_id ns) at 2. apply map_ext_in. intros n Hn. now apply tag_numbered, Hpos. }
  assert (HsL : StronglySorted Z.lt ns) by (apply Sorted_StronglySorted; [intros a b c; lia|exact Hs]).
  assert (Hndn : NoDup ns).
  { clear - HsL. induction HsL as [|n ns HS IH HF]; constructor; auto. intros Hin.
    rewrite Forall_forall in HF. specialize (HF _ Hin). lia. }
  symmetry. apply (sorted_unique pre).
  - apply NoDup_Permutation.
    + apply (NoDup_map_inv (tag_no pre)). now rewrite Hmap.
    + eapply Permutation_NoDup; [apply Permutation_sym, sort_perm|]. now apply NoDup_filter.
    + intros k. rewrite select_in. symmetry. apply Hk.
  - now rewrite Hmap.
  - rewrite Hmap. clear - HsL. induction HsL as [|n ns HS IH HF]; constructor; auto.
    destruct ns as [|m ns]; constructor. inversion HF; lia.
  - apply sort_sorted.
Qed.

Theorem C75_consecutive_loads : forall (m : nat) d, NoDup (map fst d) ->
  (forall k, In k (map fst d) -> (exists n, tag_with_number (lit "neumann_") k n) ->
     exists i, (1 <= i <= m)%nat /\ k = tag (lit "neumann_") (Z.of_nat i)) ->
  (forall i, (1 <= i <= m)%nat -> In (tag (lit "neumann_") (Z.of_nat i)) (map fst d)) ->
  (1 <= m)%nat ->
  elastic_neumann d = FList (map (fun i => ids_of d (tag (lit "neumann_") (Z.of_nat i))) (seq 1 m)).
Proof.
  intros m d Hnd Honly Hall Hm. unfold elastic_neumann.
  rewrite (sorted_seq (lit "neumann_") (map Z.of_nat (seq 1 m))).
  - rewrite map_map. destruct m as [|m]; [lia|]. cbn [seq map]. rewrite !map_map. reflexivity.
  - apply Forall_forall. intros n Hn. apply in_map_iff in Hn. destruct Hn as (i & <- & _). lia.
  - clear. generalize 1%nat. induction m as [|m IH]; intros s; cbn [seq map]; [constructor|]. constructor; [apply IH|].
    destruct m; cbn [seq map]; constructor. lia.
  - exact Hnd.
  - intros k. rewrite map_map, (in_map_iff _ (seq 1 m)). split.
    + intros (Hk & Hn). destruct (Honly k Hk) as (i & Hi & ->); [exists (tag_no (lit "neumann_") k); now apply numbered_iff|].
      exists i. split; [reflexivity|]. apply in_seq. lia.
    + intros (i & <- & Hi). apply in_seq in Hi. split; [apply Hall; lia|]. apply tag_numbered. lia.
Qed.
Print Assumptions C75_consecutive_loads.

(* The order in which the boundaries were added does not matter, as long as no
   two tags have the same number. *)
Theorem C75_dict_order : forall d d', NoDup (map fst d) -> Permutation d d' ->
  (forall pre k1 k2 n, In k1 (map fst d) -> In k2 (map fst d) ->
     tag_with_number pre k1 n -> tag_with_number pre k2 n -> k1 = k2) ->
  elastic_dirichlet d = elastic_dirichlet d' /\ elastic_neumann d = elastic_neumann d' /\
  heat_dirichlet d = heat_dirichlet d' /\ heat_robin d = heat_robin d'.
Proof.
  intros d d' Hnd HP Hdist.
  assert (Hsel : forall pre, select pre d = select pre d').
  { intros pre. apply (sorted_unique pre); [| |apply sort_sorted|apply sort_sorted].
    - unfold select. eapply perm_trans; [apply sort_perm|]. eapply perm_trans; [|apply Permutation_sym, sort_perm].
      pose proof (Permutation_map fst HP) as HP'. revert HP'. generalize (map fst d) (map fst d'). clear.
      intros l l' HP. induction HP; cbn [filter]; auto.
      + destruct (numbered pre x); auto.
      + destruct (numbered pre x), (numbered pre y); auto. apply perm_swap.
      + eapply perm_trans; eauto.
    - assert (HndS : NoDup (select pre d)) by (eapply Permutation_NoDup; [apply Permutation_sym, sort_perm|now apply NoDup_filter]).
      assert (Hin : forall k, In k (select pre d) -> In k (map fst d) /\ numbered pre k = true) by (intros k; apply select_in).
      induction (select pre d) as [|k l IH]; cbn [map]; constructor.
      + intros Hk. apply in_map_iff in Hk. destruct Hk as (k2 & He & Hk2). inversion HndS as [|? ? Hni _]; subst.
        destruct (Hin k (or_introl eq_refl)) as (A1 & B1). destruct (Hin k2 (or_intror Hk2)) as (A2 & B2).
        apply numbered_iff in B1, B2. rewrite He in B2. rewrite (Hdist pre k k2 _ A1 A2 B1 B2) in Hni. easy.
      + apply IH; [now inversion HndS|]. intros q Hq. apply Hin. now right. }
  assert (Hids : forall k, ids_of d k = ids_of d' k) by (intros k; unfold ids_of; now rewrite (dget_perm d d' k Hnd HP)).
  unfold elastic_dirichlet, elastic_neumann, heat_dirichlet, heat_robin, heat_boundary.
  rewrite <- !Hsel, !(dget_perm d d' _ Hnd HP).
  assert (Hm : forall l, map (ids_of d) l = map (ids_of d') l) by (intros l; now apply map_ext).
  split; [|split; [|split]]; destruct (select _ d); try reflexivity; now rewrite Hm.
Qed.
Print Assumptions C75_dict_order.
(* ... REFUTED otherwise: neumann_1 and neumann_01 *)
Theorem C75_refuted_equal_numbers :
  let a := (lit "neumann_1", [1%nat]) in let b := (lit "neumann_01", [2%nat]) in
  elastic_neumann [a; b] = FList [[1%nat]; [2%nat]] /\ elastic_neumann [b; a] = FList [[2%nat]; [1%nat]].
Proof. split; reflexivity. Qed.
Print Assumptions C75_refuted_equal_numbers.

(* REFUTED for the supports of an elastic task: tags dirichlet_<n> are not
   recognised (the code looks for "dirichlete_").  They never change anything ... *)
Theorem C75_refuted_elastic_supports : forall area shape facets t ndofs dofs d sd ddir ndir nval,
  (forall k n, In k (map fst d) -> ~ tag_with_number (lit "dirichlete_") k n) ->
  (* ... without a plain tag the task cannot be built ... *)
  (dget (lit "dirichlet") d = None ->
   forall x, elastic_from_mesh_tags area shape facets t ndofs dofs (Some d) (Some sd) ddir ndir nval <> Ok x) /\
  (* ... and with one they are silently ignored *)
  (forall ids, dget (lit "dirichlet") d = Some ids -> elastic_dirichlet d = FArr ids).
Proof.
  intros area shape facets t ndofs dofs d sd ddir ndir nval Hno.
  assert (Hs : select (lit "dirichlete_") d = []).
  { destruct (select (lit "dirichlete_") d) as [|k l] eqn:E; [reflexivity|exfalso].
    assert (Hk : In k (select (lit "dirichlete_") d)) by (rewrite E; now left).
    apply select_in in Hk. destruct Hk as (Hk & Hn). apply numbered_iff in Hn. now apply (Hno k _ Hk) in Hn. }
  split.
  - intros Hn x. unfold elastic_from_mesh_tags, mesh_tags. destruct (dget (lit "design") sd); [|discriminate].
    cbn [bind]. unfold elastic_dirichlet. rewrite Hs, Hn. cbn [index_arg bind]. discriminate.
  - intros ids Hn. unfold elastic_dirichlet. now rewrite Hs, Hn.
Qed.
Print Assumptions C75_refuted_elastic_supports.

(* REFUTED for the heat task: a mesh with the plain tag "dirichlet" and no
   numbered one never gives a task, whatever else is passed. *)
Theorem C75_refuted_heat_plain : forall facets t ndofs dofs d sd values dr ids,
  (forall k n, In k (map fst d) -> ~ tag_with_number (lit "dirichlet_") k n) ->
  dget (lit "dirichlet") d = Some ids ->
  forall x, heat_from_mesh_tags facets t ndofs dofs (Some d) sd values dr <> Ok x.
Proof.
  intros facets t ndofs dofs d sd values dr ids Hno Hd x.
  assert (Hs : select (lit "dirichlet_") d = []).
  { destruct (select (lit "dirichlet_") d) as [|k l] eqn:E; [reflexivity|exfalso].
    assert (Hk : In k (select (lit "dirichlet_") d)) by (rewrite E; now left).
    apply select_in in Hk. destruct Hk as (Hk & Hn). apply numbered_iff in Hn. now apply (Hno k _ Hk) in Hn. }
  unfold heat_from_mesh_tags, mesh_tags. destruct sd as [sd|]; [|discriminate].
  destruct (dget (lit "design") sd); [|discriminate]. cbn [bind].
  unfold heat_dirichlet, heat_boundary. rewrite Hs, Hd. cbn [index_arg bind Mesh_model.facets_dir].
  destruct (Mesh_model.facet_nodes facets ids); [|discriminate]. cbn [bind].
  destruct (index_arg (heat_robin d)) as [ra|]; [|discriminate]. cbn [bind].
  destruct (Mesh_model.facets_load facets ra); [|discriminate]. cbn [bind]. discriminate.
Qed.
Print Assumptions C75_refuted_heat_plain.

(* Without numbered tags the plain one counts: one load region for the elastic
   task, the array itself for the heat task; without either the heat task has no
   such condition, and the elastic task cannot be built. *)
Theorem C75_plain_tags : forall d,
  (forall pre, In pre [lit "neumann_"; lit "dirichlet_"; lit "robin_"] ->
     forall k n, In k (map fst d) -> ~ tag_with_number pre k n) ->
  elastic_neumann d = match dget (lit "neumann") d with Some ids => FList [ids] | None => FFloat end /\
  heat_dirichlet d = match dget (lit "dirichlet") d with Some ids => FArr ids | None => FNone end /\
  heat_robin d = match dget (lit "robin") d with Some ids => FArr ids | None => FNone end /\
  (dget (lit "neumann") d = None ->
   forall area shape facets t ndofs dofs sd ddir ndir nval x,
   elastic_from_mesh_tags area shape facets t ndofs dofs (Some d) sd ddir ndir nval <> Ok x).
Proof.
  intros d Hno.
  assert (Hs : forall pre, In pre [lit "neumann_"; lit "dirichlet_"; lit "robin_"] -> select pre d = []).
  { intros pre Hp. destruct (select pre d) as [|k l] eqn:E; [reflexivity|exfalso].
    assert (Hk : In k (select pre d)) by (rewrite E; now left).
    apply select_in in Hk. destruct Hk as (Hk & Hn). apply numbered_iff in Hn. now apply (Hno pre Hp k _ Hk) in Hn. }
  assert (En : elastic_neumann d = match dget (lit "neumann") d with Some ids => FList [ids] | None => FFloat end).
  { unfold elastic_neumann. rewrite Hs by (now left). reflexivity. }
  split; [exact En|]. split; [|split].
  - unfold heat_dirichlet, heat_boundary. rewrite Hs by (right; now left). reflexivity.
  - unfold heat_robin, heat_boundary. rewrite Hs by (right; right; now left). reflexivity.
  - intros Hn area shape facets t ndofs dofs sd ddir ndir nval x. unfold elastic_from_mesh_tags.
    destruct (mesh_tags (Some d) sd) as [[d' design]|] eqn:Em; [|discriminate]. cbn [bind].
    assert (d' = d).
    { unfold mesh_tags in Em. destruct sd as [sd|]; [|discriminate]. destruct (dget (lit "design") sd); [|discriminate].
      now injection Em as <- <-. }
    subst d'. destruct (index_arg (elastic_dirichlet d)); [|discriminate]. cbn [bind].
    destruct (Mesh_model.facets_dir facets a); [|discriminate]. cbn [bind].
    rewrite En, Hn. cbn [index_arg bind]. discriminate.
Qed.
Print Assumptions C75_plain_tags.


(* What a mesh without the needed names gets: TypeError without subdomains,
   KeyError without the design subdomain, AttributeError without boundaries, and
   for the elastic task IndexError without support tags or without load tags
   (whatever the support tags are). *)
Theorem C75_missing_tags : forall area shape facets t ndofs dofs bd sd ddir ndir nval,
  let task := elastic_from_mesh_tags area shape facets t ndofs dofs in
  task bd None ddir ndir nval = Err TypeError /\
  (dget (lit "design") sd = None -> task bd (Some sd) ddir ndir nval = Err KeyError) /\
  (forall design, dget (lit "design") sd = Some design ->
     task None (Some sd) ddir ndir nval = Err AttributeError /\
     forall d, bd = Some d ->
     ((forall k n, In k (map fst d) -> ~ tag_with_number (lit "dirichlete_") k n) ->
      dget (lit "dirichlet") d = None -> task bd (Some sd) ddir ndir nval = Err IndexError) /\
     ((forall k n, In k (map fst d) -> ~ tag_with_number (lit "neumann_") k n) ->
      dget (lit "neumann") d = None -> task bd (Some sd) ddir ndir nval = Err IndexError)).
Proof.
  intros area shape facets t ndofs dofs bd sd ddir ndir nval task. subst task.
  assert (Hs : forall pre d, (forall k n, In k (map fst d) -> ~ tag_with_number pre k n) -> select pre d = []).
  { intros pre d Hno. destruct (select pre d) as [|k l] eqn:E; [reflexivity|exfalso].
    assert (Hk : In k (select pre d)) by (rewrite E; now left).
    apply select_in in Hk. destruct Hk as (Hk & Hn). apply numbered_iff in Hn. now apply (Hno k _ Hk) in Hn. }
  split; [reflexivity|]. split.
  { intros Hd. unfold elastic_from_mesh_tags, mesh_tags. now rewrite Hd. }
  intros design Hd. unfold elastic_from_mesh_tags, mesh_tags. rewrite Hd. split; [reflexivity|].
  intros d ->. cbn [bind]. split.
  - intros Hno Hn. unfold elastic_dirichlet. rewrite (Hs _ _ Hno), Hn. reflexivity.
  - intros Hno Hn.
    assert (En : elastic_neumann d = FFloat) by (unfold elastic_neumann; rewrite (Hs _ _ Hno), Hn; reflexivity).
    rewrite En. cbn [index_arg bind].
    assert (Hf : forall ids, exists l, Mesh_model.facet_nodes facets ids = Ok l \/ Mesh_model.facet_nodes facets ids = Err IndexError).
    { intros ids. unfold Mesh_model.facet_nodes. destruct (forallb _ ids); [eexists; now left|exists []; now right]. }
    destruct (elastic_dirichlet d) as [ids|idss| |]; cbn [index_arg bind Mesh_model.facets_dir]; try reflexivity.
    + destruct (Hf ids) as (l & [-> | ->]); reflexivity.
    + assert (Hm : exists ll, Mesh_model.mapres (Mesh_model.facet_nodes facets) idss = Ok ll \/
                             Mesh_model.mapres (Mesh_model.facet_nodes facets) idss = Err IndexError).
      { induction idss as [|i r IH]; [exists []; now left|]. cbn [Mesh_model.mapres].
        destruct (Hf i) as (l & [-> | ->]); cbn [bind]; [|exists []; now right].
        destruct IH as (ll & [-> | ->]); cbn [bind]; [eexists; now left|exists []; now right]. }
      destruct Hm as (ll & [-> | ->]); reflexivity.
Qed.
Print Assumptions C75_missing_tags.


(* the heat task: the same errors for subdomains and boundaries; with numbered
   supports whose facets exist, an int temperature or a list of the wrong length is an
   AssertionError *)
Theorem C75_missing_tags_heat : forall facets t ndofs dofs bd sd values dr,
  let task := heat_from_mesh_tags facets t ndofs dofs in
  task bd None values dr = Err TypeError /\
  (dget (lit "design") sd = None -> task bd (Some sd) values dr = Err KeyError) /\
  (forall design, dget (lit "design") sd = Some design ->
     task None (Some sd) values dr = Err AttributeError /\
     forall d regions, bd = Some d -> heat_dirichlet d = FList regions ->
       (forall r i, In r regions -> In i r -> (i < List.length facets)%nat) ->
       heat_robin d = FNone ->
       ((exists z, values = Heat_model.Int z) \/
        (exists l, values = Heat_model.FLst l /\ List.length l <> List.length regions)) ->
       task bd (Some sd) values dr = Err AssertionError).
Proof.
  intros facets t ndofs dofs bd sd values dr task. subst task.
  split; [reflexivity|]. split.
  { intros Hd. unfold heat_from_mesh_tags, mesh_tags. now rewrite Hd. }
  intros design Hd. unfold heat_from_mesh_tags, mesh_tags. rewrite Hd. split; [reflexivity|].
  intros d regions -> Hr Hin Hrob Hv. cbn [bind]. rewrite Hr, Hrob. cbn [index_arg bind Mesh_model.facets_dir Mesh_model.facets_load].
  assert (Hm : exists ll, Mesh_model.mapres (Mesh_model.facet_nodes facets) regions = Ok ll /\ List.length ll = List.length regions).
  { clear Hr Hv. induction regions as [|r rs IH]; [exists []; now split|]. cbn [Mesh_model.mapres].
    unfold Mesh_model.facet_nodes at 1.
    assert (E : forallb (fun i => Nat.ltb i (List.length facets)) r = true).
    { apply forallb_forall. intros i Hi. apply Nat.ltb_lt. apply (Hin r i); [now left|exact Hi]. }
    rewrite E. cbn [bind]. destruct IH as (ll & -> & Hl).
    { intros r' i Hr' Hi. apply (Hin r' i); [now right|exact Hi]. }
    cbn [bind]. eexists. split; [reflexivity|]. cbn [List.length]. now rewrite Hl. }
  destruct Hm as (ll & -> & Hl). cbn [bind].
  destruct Hv as [(z & ->)|(l & -> & Hne)]; [reflexivity|].
  replace (Nat.eqb (List.length ll) (List.length l)) with false; [reflexivity|].
  symmetry. apply Nat.eqb_neq. rewrite Hl. congruence.
Qed.
Print Assumptions C75_missing_tags_heat.
Example C75_missing_heat_instance :
  heat_from_mesh_tags [[0%nat; 1%nat]] [] 6 (fun l => l) (Some [(lit "dirichlet_1", [0%nat])])
    (Some [(lit "design", [0%nat])]) (Heat_model.Int 20) None = Err AssertionError.
Proof. reflexivity. Qed.
Example C75_missing_instance : forall area shape,
  elastic_from_mesh_tags area shape [[0%nat; 1%nat]] [] 6 (fun _ l => l) (Some [(lit "dirichlet", [0%nat])])
    (Some [(lit "design", [0%nat])]) (One (lit "u^1")) (One (lit "u^1")) (One 1%R) = Err IndexError.
Proof. reflexivity. Qed.

(* the instance: four boundaries, numbers 10 and 2, the plain tag ignored *)
Definition ex_tags : dict :=
  [(lit "neumann_10", [4%nat]); (lit "dirichlet", [0%nat]); (lit "neumann", [9%nat]); (lit "neumann_2", [5%nat; 6%nat])].
Example C75_instance :
  NoDup (map fst ex_tags) /\
  (exists k n, In k (map fst ex_tags) /\ tag_with_number (lit "neumann_") k n) /\
  elastic_neumann ex_tags = FList [[5%nat; 6%nat]; [4%nat]] /\
  elastic_dirichlet ex_tags = FArr [0%nat] /\
  (forall k n, In k (map fst ex_tags) -> ~ tag_with_number (lit "dirichlet_") k n).
Proof.
  assert (Hnd : NoDup (map fst ex_tags)).
  { cbn [map fst ex_tags]. repeat (constructor; [cbn; intuition discriminate|]). constructor. }
  split; [exact Hnd|]. split; [|split; [reflexivity|split; [reflexivity|]]].
  - exists (lit "neumann_2"), 2%Z. split; [cbn; tauto|]. exists (lit "2"). split; [reflexivity|].
    split; [discriminate|]. split; reflexivity.
  - intros k n Hk (ds & -> & Hne & _). cbn in Hk. destruct Hk as [H|[H|[H|[H|[]]]]]; discriminate.
Qed.

(* ---------- C76 ---------- *)
Section C76.
Variable area : nat -> R.
Variable shape : nat -> list (nat * R).
Variable N : nat.                                  (* number of nodes *)
Open Scope R_scope.
(* the shape functions on a facet add up to one, facets have positive area and
   their nodes are nodes of the mesh *)
Definition facet_ok (f : nat) : Prop :=
  0 < area f /\ rsum (map snd (shape f)) = area f /\ Forall (fun nw => (fst nw < N)%nat) (shape f).

(* sum of the nodal forces in direction c *)
Definition resultant (F : nat -> R) (c : nat) : R := rsum (map (fun n => F (3 * n + c)%nat) (seq 0 N)).
(* node n carries no force *)
Definition unloaded (F : nat -> R) (n : nat) : Prop := forall c, (c < 3)%nat -> F (3 * n + c)%nat = 0.

Lemma pick_sum (l : list (nat * R)) : Forall (fun nw => (fst nw < N)%nat) l ->
  rsum (map (fun n => rsum (map (fun nw => if Nat.eqb (fst nw) n then snd nw else 0) l)) (seq 0 N)) = rsum (map snd l).
Proof.
  intros HF. rewrite (rs_swap (fun n nw => if Nat.eqb (fst nw) n then snd nw else 0)).
  apply rs_ext. intros [n w] Hin. rewrite Forall_forall in HF. specialize (HF _ Hin). cbn [fst snd] in *.
  transitivity (rsum (map (fun i => if Nat.eqb i n then w else 0) (seq 0 N))); [|exact (rs_single_nat N n (fun _ => w) HF)]. apply rs_ext. intros k _. rewrite (Nat.eqb_sym n k). reflexivity.
Qed.
Lemma nodal_total facets : Forall facet_ok facets ->
  rsum (map (nodal_integral shape facets) (seq 0 N)) = total_area area facets.
Proof.
  intros HF. unfold nodal_integral, total_area. rewrite rs_swap. apply rs_ext. intros f Hf.
  rewrite Forall_forall in HF. destruct (HF f Hf) as (_ & Hs & Hn). rewrite pick_sum by exact Hn. exact Hs.
Qed.
Lemma total_area_pos facets : facets <> [] -> Forall facet_ok facets -> 0 < total_area area facets.
Proof.
  intros Hne HF. destruct facets as [|f r]; [easy|]. unfold total_area. apply (rs_pos area _ f).
  - intros y Hy. rewrite Forall_forall in HF. destruct (HF y Hy). lra.
  - now left.
  - inversion HF as [|? ? H _]; subst. apply H.
Qed.

Lemma ok_inv {A} (x y : A) : Ok x = Ok y -> x = y.
Proof. now intros [= ->]. Qed.
Lemma load_vector_spec facets comp val F : load_vector area shape facets comp val = Ok F ->
  facets <> [] -> Forall facet_ok facets ->
  (forall c, (c < 3)%nat -> resultant F c = if Nat.eqb c comp then val else 0) /\
  (forall n, (forall f w, In f facets -> ~ In (n, w) (shape f)) -> unloaded F n).
Proof.
  intros H Hne HF. unfold load_vector in H. destruct (Nat.ltb_spec comp 3); [|discriminate]. apply ok_inv in H. subst F.
  assert (Hmod : forall n c, (c < 3)%nat -> ((3 * n + c) mod 3 = c /\ (3 * n + c) / 3 = n)%nat).
  { intros n c Hc. split.
    - rewrite Nat.add_comm, Nat.mul_comm, Nat.mod_add by lia. now apply Nat.mod_small.
    - rewrite Nat.add_comm, Nat.mul_comm, Nat.div_add by lia. rewrite Nat.div_small by exact Hc. reflexivity. }
  pose proof (total_area_pos facets Hne HF) as HA. split.
  - intros c Hc. unfold resultant.
    rewrite (rs_ext _ (fun n => if Nat.eqb c comp then val / total_area area facets * nodal_integral shape facets n else 0)).
    2:{ intros n _. destruct (Hmod n c Hc) as (E1 & E2). cbv beta. rewrite E1, E2. reflexivity. }
    destruct (Nat.eqb c comp).
    + rewrite rs_scal. change (map (fun x => nodal_integral shape facets x) (seq 0 N)) with (map (nodal_integral shape facets) (seq 0 N)).
      rewrite nodal_total by exact HF. field. lra.
    + now apply rs_zero.
  - intros n Hn c Hc. destruct (Hmod n c Hc) as (E1 & E2). cbv beta. rewrite E1, E2. destruct (Nat.eqb c comp); [|reflexivity].
    unfold nodal_integral. rewrite rs_zero; [ring|]. intros f Hf. apply rs_zero. intros [m w] Hm. cbn [fst snd].
    destruct (Nat.eqb_spec m n) as [->|]; [|reflexivity]. exfalso. exact (Hn f w Hf Hm).
Qed.

(* the load regions an argument stands for: a list of id arrays, or one id array *)
Definition regions_of (a : facet_arg) (regions : list (list nat)) : Prop :=
  a = FList regions \/ exists ids, a = FArr ids /\ regions = [ids].

(* Every load case of an elastic task: there is one per load region, and
   case i acts on the nodes of region i only, in direction i only, with
   resultant exactly value i - however the region is cut into facets. *)
Theorem C76_load_cases : forall a regions dir val F,
  regions_of a regions ->
  Forall (fun r => r <> [] /\ Forall facet_ok r) regions ->
  assemble_surface_forces area shape a dir val = Ok F ->
  List.length F = List.length regions /\ List.length (to_list dir) = List.length regions /\
  List.length (to_list val) = List.length regions /\
  forall i, (i < List.length regions)%nat ->
  exists comp, dir_to_comp (nth i (to_list dir) []) = Ok comp /\
    (forall c, (c < 3)%nat -> resultant (nth i F (fun _ => 0)) c = if Nat.eqb c comp then nth i (to_list val) 0 else 0) /\
    (forall n, (forall f w, In f (nth i regions []) -> ~ In (n, w) (shape f)) -> unloaded (nth i F (fun _ => 0)) n).
Proof.
  intros a regions dir val F Ha Hreg H. unfold assemble_surface_forces in H.
  replace (match a with FList l => l | FArr ids => [ids] | FFloat => [[]] | FNone => [] end) with regions in H
    by (destruct Ha as [-> |(ids & -> & ->)]; reflexivity).
  destruct (Nat.eqb_spec (List.length regions) (List.length (to_list dir))) as [E1|]; [|discriminate].
  destruct (Nat.eqb_spec (List.length (to_list dir)) (List.length (to_list val))) as [E2|]; [|discriminate].
  cbn [andb] in H. clear Ha. revert H E1 E2. generalize (to_list dir) (to_list val). intros ds vs. revert F vs ds.
  induction Hreg as [|r rs (Hne & HF) Hrs IH]; intros F vs ds H E1 E2.
  - destruct ds; [|discriminate]. cbn [assemble] in H. injection H as <-. cbn. split; [reflexivity|]. split; [reflexivity|].
    split; [now rewrite <- E2|]. intros i Hi. lia.
  - destruct ds as [|s ds]; [discriminate|]. destruct vs as [|v vs]; [discriminate|]. cbn [assemble] in H.
    destruct (dir_to_comp s) as [c|] eqn:Ec; [|discriminate]. cbn [bind] in H.
    destruct (load_vector area shape r c v) as [G|] eqn:EG; [|discriminate]. cbn [bind] in H.
    destruct (assemble area shape rs ds vs) as [Gs|] eqn:EGs; [|discriminate]. cbn [bind] in H. injection H as <-.
    cbn [List.length] in *. destruct (IH Gs vs ds) as (L1 & L2 & L3 & Hi); [exact EGs|congruence|congruence|].
    split; [congruence|]. split; [congruence|]. split; [congruence|].
    intros [|i] Hlt; cbn [nth].
    + exists c. split; [exact Ec|]. now apply load_vector_spec.
    + apply Hi. lia.
Qed.

(* the load is proportional to its value, and does not depend on the order of
   the facets of the region *)
Theorem C76_linear_and_order : forall r r' comp a v F G,
  Permutation r r' -> load_vector area shape r comp v = Ok F -> load_vector area shape r' comp (a * v) = Ok G ->
  forall dof, G dof = a * F dof.
Proof.
  intros r r' comp a v F G HP HF HG dof. unfold load_vector in *. destruct (Nat.ltb comp 3); [|discriminate].
  injection HF as <-. injection HG as <-. destruct (Nat.eqb _ _); [|ring].
  assert (EA : total_area area r' = total_area area r).
  { unfold total_area. clear -HP. induction HP; cbn [map rsum fold_right]; try change (fold_right Rplus 0) with rsum; fold rsum in *; try lra; congruence. }
  assert (EN : forall n, nodal_integral shape r' n = nodal_integral shape r n).
  { intros n. unfold nodal_integral. clear -HP. induction HP; cbn [map rsum fold_right]; try change (fold_right Rplus 0) with rsum; fold rsum in *; try lra; congruence. }
  rewrite EA, EN. unfold Rdiv. ring.
Qed.

(* what the arguments must be: as many directions and values as regions, each
   direction "u^1", "u^2" or "u^3" (up to leading zeros) *)
Theorem C76_accepted : forall a regions dir val,
  regions_of a regions ->
  ((exists F, assemble_surface_forces area shape a dir val = Ok F) <->
   List.length (to_list dir) = List.length regions /\ List.length (to_list val) = List.length regions /\
   Forall (fun s => exists n, tag_with_number (lit "u^") s n /\ (1 <= n <= 3)%Z) (to_list dir)).
Proof.
  intros a regions dir val Ha. unfold assemble_surface_forces.
  replace (match a with FList l => l | FArr ids => [ids] | FFloat => [[]] | FNone => [] end) with regions
    by (destruct Ha as [-> |(ids & -> & ->)]; reflexivity).
  assert (Hdir : forall s, (exists c, dir_to_comp s = Ok c /\ (c < 3)%nat) <->
                           exists n, tag_with_number (lit "u^") s n /\ (1 <= n <= 3)%Z).
  { intros s. unfold dir_to_comp. change (Ckpt_model.prefixb (lit "u^") s &&
      match skipn 2 s with [] => false | r => forallb Ckpt_model.is_digit r end)%bool with (numbered (lit "u^") s).
    change (Ckpt_model.py_int (skipn 2 s)) with (tag_no (lit "u^") s).
    destruct (numbered (lit "u^") s) eqn:E.
    - apply numbered_iff in E. split.
      + intros (c & Hc & Hlt). exists (tag_no (lit "u^") s). split; [exact E|].
        destruct (Z.ltb_spec (tag_no (lit "u^") s - 1) 0); [discriminate|]. apply ok_inv in Hc. subst c. lia.
      + intros (n & (ds & Hs & _ & _ & Hn) & Hr). exists (Z.to_nat (n - 1)).
        assert (Et : tag_no (lit "u^") s = n) by (unfold tag_no; rewrite Hs, Ckpt_proofs.skipn_len_app; exact Hn).
        rewrite Et. destruct (Z.ltb_spec (n - 1) 0); [lia|]. split; [reflexivity|lia].
    - split; [intros (c & [=] & _)|]. intros (n & (ds & Hs & Hne & Hd & Hn) & Hr).
      assert (numbered (lit "u^") s = true); [|congruence]. apply numbered_iff. exists ds. split; [exact Hs|].
      split; [exact Hne|]. split; [exact Hd|]. unfold tag_no. now rewrite Hs, Ckpt_proofs.skipn_len_app. }
  assert (HA : forall rs ds vs, List.length rs = List.length ds -> List.length ds = List.length vs ->
    ((exists F, assemble area shape rs ds vs = Ok F) <->
     Forall (fun s => exists n, tag_with_number (lit "u^") s n /\ (1 <= n <= 3)%Z) ds)).
  { induction rs as [|r rs IH]; intros [|s ds] [|v vs] L1 L2; try discriminate; cbn [assemble].
    - split; [constructor|eauto].
    - injection L1 as L1. injection L2 as L2. specialize (IH ds vs L1 L2). split.
      + intros (F & H). destruct (dir_to_comp s) as [c|] eqn:Ec; [|discriminate]. cbn [bind] in H.
        destruct (load_vector area shape r c v) as [G|] eqn:EG; [|discriminate]. cbn [bind] in H.
        destruct (assemble area shape rs ds vs); [|discriminate]. constructor; [|apply IH; eauto].
        apply Hdir. exists c. split; [exact Ec|]. unfold load_vector in EG. destruct (Nat.ltb_spec c 3); [assumption|discriminate].
      + intros HF. inversion HF as [|? ? Hs HF']; subst. apply Hdir in Hs. destruct Hs as (c & -> & Hc).
        apply IH in HF'. destruct HF' as (F & ->). cbn [bind]. unfold load_vector.
        destruct (Nat.ltb_spec c 3); [|lia]. cbn [bind]. eauto. }
  destruct (Nat.eqb_spec (List.length regions) (List.length (to_list dir))) as [E1|E1]; cbn [andb].
  - destruct (Nat.eqb_spec (List.length (to_list dir)) (List.length (to_list val))) as [E2|E2].
    + rewrite HA by assumption. split; [intros H; split; [congruence|]; split; [congruence|exact H]|tauto].
    + split; [intros (F & [=])|]. intros (A & B & _). congruence.
  - split; [intros (F & [=])|]. intros (A & _). congruence.
Qed.
End C76.
Print Assumptions C76_load_cases.
Print Assumptions C76_linear_and_order.
Print Assumptions C76_accepted.

(* the instance: two facets 5 and 6 with areas 1 and 3 sharing node 1 as one
   region, facet 4 as a second one; loads of 8 along x and -2 along z *)
Definition ex_area (f : nat) : R := match f with 5%nat => 1 | 6%nat => 3 | _ => 2 end.
Definition ex_shape (f : nat) : list (nat * R) :=
  match f with 5%nat => [(0%nat, 1 / 2); (1%nat, 1 / 2)] | 6%nat => [(1%nat, 1); (2%nat, 2)] | _ => [(3%nat, 2)] end.
Example C76_instance :
  regions_of (elastic_neumann ex_tags) [[5%nat; 6%nat]; [4%nat]] /\
  Forall (fun r => r <> [] /\ Forall (facet_ok ex_area ex_shape 4) r) [[5%nat; 6%nat]; [4%nat]] /\
  exists F, assemble_surface_forces ex_area ex_shape (elastic_neumann ex_tags)
     (Many [lit "u^1"; lit "u^3"]) (Many [8; -2]) = Ok F /\
  nth 0 F (fun _ => 0) 3%nat = 3 /\ nth 1 F (fun _ => 0) 11%nat = -2.
Proof.
  assert (Hok : forall f, In f [4%nat; 5%nat; 6%nat] -> facet_ok ex_area ex_shape 4 f).
  { intros f [<-|[<-|[<-|[]]]]; unfold facet_ok, ex_area, ex_shape; cbn [map snd rsum fold_right];
      (split; [lra|]); (split; [lra|]); repeat (constructor; [cbn; lia|]); constructor. }
  split; [now left|]. split.
  - constructor; [|constructor; [|constructor]]; (split; [discriminate|]);
      repeat (constructor; [apply Hok; cbn; tauto|]); constructor.
  - eexists. split; [reflexivity|]. cbn [nth]. split.
    + change (8 / total_area ex_area [5%nat; 6%nat] * nodal_integral ex_shape [5%nat; 6%nat] 1 = 3).
      unfold total_area, nodal_integral, ex_area, ex_shape. cbn. lra.
    + change (-2 / total_area ex_area [4%nat] * nodal_integral ex_shape [4%nat] 3 = -2).
      unfold total_area, nodal_integral, ex_area, ex_shape. cbn. lra.
Qed.

(* several directions for one boundary, or one for several, are refused *)
Theorem C76_direction_shapes : forall ids ll l d,
  check_dirs (Some (Mesh_model.Arr ids)) (Many l) = Err AssertionError /\
  check_dirs (Some (Mesh_model.Lst ll)) (One d) = Err AssertionError /\
  (check_dirs (Some (Mesh_model.Lst ll)) (Many l) = Ok tt <-> List.length ll = List.length l) /\
  (check_dirs (Some (Mesh_model.Lst ll)) (Many l) = Err AssertionError <-> List.length ll <> List.length l) /\
  check_dirs (Some (Mesh_model.Arr ids)) (One d) = Ok tt.
Proof.
  intros ids ll l d. cbn [check_dirs]. destruct (Nat.eqb_spec (List.length ll) (List.length l)); repeat split; intros; congruence.
Qed.
Print Assumptions C76_direction_shapes.
