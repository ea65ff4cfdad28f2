(* C49-C54: element sets, lookup, orientation, volumes, export, scaling. *)
From Verif Require Import Base Mesh_model Mesh_spec Mesh_proofs.
From Coq Require Import Sorting.Sorted Sorting.Permutation.
Open Scope R_scope.
Open Scope list_scope.

(* ------------------------------------------------------------------ C49 *)
Lemma loaded_elems_ok t a r : loaded_elems t a = Ok r ->
  (a = None /\ r = None) \/
  (exists a' es, a = Some a' /\ r = Some es /\ es = elements_by_nodes t (arg_nodes a') /\ es <> []).
Proof.
  destruct a as [[l|ll]|]; cbn [loaded_elems bind].
  - destruct (elements_by_nodes t l) as [|x es] eqn:E; [discriminate|]. intros H. injection H as <-.
    right. exists (Arr l), (x :: es). repeat split; [symmetry; exact E|discriminate].
  - destruct ll as [|b ll]; [discriminate|]. cbn [bind].
    destruct (elements_by_nodes t (List.concat (b :: ll))) as [|x es] eqn:E; [discriminate|].
    intros H. injection H as <-.
    right. exists (Lst (b :: ll)), (x :: es). repeat split; [symmetry; exact E|discriminate].
  - intros H. injection H as <-. auto.
Qed.
Lemma loaded_in t a r e : loaded_elems t a = Ok r -> (In e (olist r) <-> touches t (opt_nodes a) e).
Proof.
  intros H. destruct (loaded_elems_ok t a r H) as [[-> ->]|(a' & es & -> & -> & -> & _)]; cbn.
  - split; [easy|]. intros (_ & n & [] & _).
  - apply ebn_in.
Qed.

Section Domain.
Variables (t : list elem) (ndofs : nat) (dofs : list nat -> list nat)
  (dirichlet neumann robin : option nodes_arg) (dr : option bool) (design : list nat).
Let build := from_nodes t ndofs dofs dirichlet neumann robin dr design.

(* an element is kept out of the design: it touches a load, or a Robin boundary
   that is not to be designed *)
Definition kept_out (e : nat) : Prop :=
  touches t (opt_nodes neumann) e \/ (dr = Some false /\ touches t (opt_nodes robin) e).

Lemma from_nodes_inv d : build = Ok d ->
  (exists f, d_design d = filter f design) /\ d_design d <> [] /\
  d_fixed d = setdiff1d (seq 0 (List.length t)) (d_design d) /\
  d_nel d = List.length t /\
  (forall e, In e (d_design d) <-> In e design /\ ~ kept_out e) /\
  (forall e, In e (olist (d_neumann d)) <-> touches t (opt_nodes neumann) e) /\
  (forall e, In e (olist (d_dirichlet d)) <-> touches t (opt_nodes dirichlet) e) /\
  d_dir_neu d = olist (d_dirichlet d) ++ olist (d_neumann d) /\
  (d_neumann d = None <-> neumann = None).
Proof.
  unfold build, from_nodes.
  destruct (dirichlet_elems t dirichlet) as [de|] eqn:ED; cbn [bind]; [|discriminate].
  destruct (loaded_elems t neumann) as [ne|] eqn:EN; cbn [bind]; [|discriminate].
  destruct (loaded_elems t robin) as [re|] eqn:ER; cbn [bind]; [|discriminate].
  match goal with |- bind ?x _ = _ -> _ => destruct x as [excl|] eqn:EX; cbn [bind]; [|discriminate] end.
  assert (HX : forall e, In e excl <-> kept_out e).
  { intros e. unfold kept_out. rewrite <- (loaded_in t neumann ne e EN), <- (loaded_in t robin re e ER).
    destruct dr as [[|]|].
    - injection EX as <-. intuition discriminate.
    - destruct re as [r|]; [|discriminate]. injection EX as <-. rewrite in_app_iff. cbn. intuition.
    - injection EX as <-. intuition discriminate. }
  assert (HD : forall e, In e (olist de) <-> touches t (opt_nodes dirichlet) e).
  { intros e. clear - ED. destruct dirichlet as [[l|ll]|]; cbn [dirichlet_elems] in ED.
    - injection ED as <-. apply ebn_in.
    - unfold np_flatten in ED. destruct ll as [|a ll].
      { cbn [bind] in ED. injection ED as <-. exact (ebn_in t [] e). }
      match type of ED with context [if ?b then _ else _] => destruct b end; [|discriminate].
      cbn [bind] in ED. injection ED as <-. exact (ebn_in t (List.concat (a :: ll)) e).
    - injection ED as <-. cbn. split; [easy|]. intros (_ & n & [] & _). }
  destruct (setdiff1d design excl) as [|x des] eqn:ES; [discriminate|].
  match goal with |- bind ?x _ = _ -> _ => destruct x as [dd|]; cbn [bind]; [|discriminate] end.
  intros H. injection H as <-. cbn [d_design d_fixed d_nel d_neumann d_dirichlet d_dir_neu].
  rewrite <- ES.
  split; [exists (fun x => negb (mem x excl)); reflexivity|].
  split; [rewrite ES; discriminate|].
  split; [reflexivity|]. split; [reflexivity|].
  split; [intros e; now rewrite setdiff_in, HX|].
  split; [intros e; apply (loaded_in t neumann ne _ EN)|].
  split; [exact HD|]. split; [reflexivity|].
  destruct (loaded_elems_ok _ _ _ EN) as [[-> ->]|(a & es & -> & -> & _)]; split; congruence.
Qed.

(* every element of the mesh is in exactly one of the two sets *)
Theorem C49_partition d : build = Ok d ->
  (forall e, (e < List.length t)%nat ->
     (In e (d_design d) /\ ~ In e (d_fixed d)) \/ (~ In e (d_design d) /\ In e (d_fixed d))) /\
  sorted_set (d_fixed d) /\ (forall e, In e (d_fixed d) -> (e < List.length t)%nat) /\
  (NoDup design -> (forall e, In e design -> (e < List.length t)%nat) ->
     Permutation (d_design d ++ d_fixed d) (seq 0 (List.length t))).
Proof.
  intros H. destruct (from_nodes_inv d H) as ((f & Hf) & _ & HF & _ & HI & _). rewrite HF. repeat split.
  - intros e He. rewrite setdiff_in, in_seq.
    destruct (in_dec Nat.eq_dec e (d_design d)); [left|right]; intuition lia.
  - apply filter_sorted, seq_sorted.
  - intros e He. apply setdiff_in in He. destruct He as [He _]. apply in_seq in He. lia.
  - intros Hn Hr. apply partition_perm.
    + rewrite Hf. now apply filter_NoDup.
    + intros x Hx. apply Hr. now apply HI in Hx.
Qed.

(* the design set is the requested one, in the requested order, without the
   elements that touch a load (or an excluded Robin boundary); those are fixed *)
Theorem C49_loaded_not_designed d : build = Ok d ->
  (exists f, d_design d = filter f design) /\
  (forall e, In e (d_design d) <-> In e design /\ ~ kept_out e) /\
  (forall e, kept_out e -> In e (d_fixed d)) /\ d_design d <> [].
Proof.
  intros H. destruct (from_nodes_inv d H) as (Hf & Hne & HF & _ & HI & _).
  split; [exact Hf|]. split; [exact HI|]. split; [|exact Hne].
  - intros e He. rewrite HF, setdiff_in, in_seq. split.
    + destruct He as [[He _]|[_ [He _]]]; lia.
    + rewrite HI. tauto.
Qed.

(* dirichlet_neumann_elements: exactly the elements touching either boundary *)
Theorem C49_pinned_sets d : build = Ok d ->
  (forall e, In e (olist (d_neumann d)) <-> touches t (opt_nodes neumann) e) /\
  (forall e, In e (d_dir_neu d) <-> touches t (opt_nodes dirichlet) e \/ touches t (opt_nodes neumann) e).
Proof.
  intros H. destruct (from_nodes_inv d H) as (_ & _ & _ & _ & _ & HN & HD & HE & _).
  split; [exact HN|]. intros e. rewrite HE, in_app_iff, HN, HD. tauto.
Qed.
End Domain.

(* with one array per boundary: an error exactly when a boundary touches no
   element, when the Robin exclusion is asked for without a Robin boundary, or
   when nothing would be left to design *)
Definition single (a : option nodes_arg) : Prop := forall ll, a <> Some (Lst ll).
Definition no_touch t (a : option nodes_arg) : Prop := a <> None /\ forall e, ~ touches t (opt_nodes a) e.
Theorem C49_errors t ndofs dofs dirichlet neumann robin dr design :
  single dirichlet -> single neumann -> single robin ->
  let r := from_nodes t ndofs dofs dirichlet neumann robin dr design in
  let bad := no_touch t neumann \/ no_touch t robin \/ (dr = Some false /\ robin = None) \/
             (forall e, In e design -> kept_out t neumann robin dr e) in
  (bad -> r = Err ValueError) /\ (~ bad -> exists d, r = Ok d).
Proof.
  intros S1 S2 S3 r bad.
  assert (L : forall a, single a -> (no_touch t a /\ loaded_elems t a = Err ValueError) \/
              (~ no_touch t a /\ exists x, loaded_elems t a = Ok x /\ (x = None <-> a = None))).
  { intros a Sa. destruct a as [[l|ll]|]; [|destruct (Sa ll); reflexivity|].
    - cbn [loaded_elems bind]. destruct (elements_by_nodes t l) as [|x es] eqn:E.
      + left. split; [|reflexivity]. split; [discriminate|]. intros e He. cbn in He.
        apply ebn_in in He. now rewrite E in He.
      + right. split.
        * intros [_ Hc]. apply (Hc x). cbn. apply ebn_in. rewrite E. now left.
        * eexists. split; [reflexivity|]. split; discriminate.
    - right. split; [intros [Hc _]; now apply Hc|]. exists None. cbn. intuition. }
  unfold r, from_nodes.
  assert (D : exists de, dirichlet_elems t dirichlet = Ok de).
  { destruct dirichlet as [[l|ll]|]; [|destruct (S1 ll); reflexivity|]; eexists; reflexivity. }
  destruct D as [de ->]. cbn [bind].
  destruct (L neumann S2) as [[B ->]|[B (ne & EN & HNE)]].
  { cbn [bind]. split; [auto|]. intros Hb. exfalso. apply Hb. now left. }
  rewrite EN. cbn [bind].
  destruct (L robin S3) as [[B' ->]|[B' (re & ER & HRE)]].
  { cbn [bind]. split; [auto|]. intros Hb. exfalso. apply Hb. right. now left. }
  rewrite ER. cbn [bind].
  assert (HX : (dr = Some false /\ robin = None /\
      match dr with Some false => match re with Some r0 => Ok (olist ne ++ r0) | None => Err ValueError end | _ => Ok (olist ne) end
        = Err ValueError (A:=list nat)) \/ (~ (dr = Some false /\ robin = None) /\ exists excl,
      match dr with Some false => match re with Some r0 => Ok (olist ne ++ r0) | None => Err ValueError end | _ => Ok (olist ne) end
        = Ok excl /\ forall e, In e excl <-> kept_out t neumann robin dr e)).
  { unfold kept_out. destruct dr as [[|]|].
    - right. split; [intuition discriminate|]. eexists. split; [reflexivity|]. intros e.
      rewrite (loaded_in t neumann ne e EN). intuition discriminate.
    - destruct re as [r0|].
      + right. split; [intros [_ Hc]; apply HRE in Hc; discriminate|]. eexists. split; [reflexivity|].
        intros e. rewrite in_app_iff, (loaded_in t neumann ne e EN).
        change r0 with (olist (Some r0)). rewrite (loaded_in t robin (Some r0) e ER). intuition.
      + left. repeat split. now apply HRE.
    - right. split; [intuition discriminate|]. eexists. split; [reflexivity|]. intros e.
      rewrite (loaded_in t neumann ne e EN). intuition discriminate. }
  destruct HX as [(H1 & H2 & ->)|(H1 & excl & -> & HX)].
  { cbn [bind]. split; [auto|]. intros Hb. exfalso. apply Hb. right. right. left. auto. }
  cbn [bind]. destruct (setdiff1d design excl) as [|x des] eqn:ES.
  - split; [auto|]. intros Hb. exfalso. apply Hb. right. right. right. intros e He.
    apply HX. destruct (in_dec Nat.eq_dec e excl) as [|Hn]; [assumption|].
    assert (Hc : In e (setdiff1d design excl)) by (apply setdiff_in; auto). now rewrite ES in Hc.
  - split.
    + intros Hb. exfalso. destruct Hb as [Hb|[Hb|[Hb|Hb]]]; try tauto.
      assert (Hc : In x (setdiff1d design excl)) by (rewrite ES; now left).
      apply setdiff_in in Hc. destruct Hc as [Hc1 Hc2]. apply Hc2, HX, Hb, Hc1.
    + intros _. destruct dirichlet as [[l|ll]|]; [|destruct (S1 ll); reflexivity|]; eexists; reflexivity.
Qed.

(* facets: whatever shares a node with a loaded facet is fixed *)
Lemma facet_nodes_in facets ids l i n : facet_nodes facets ids = Ok l -> In i ids -> In n (nth i facets []) -> In n l.
Proof.
  unfold facet_nodes. destruct (forallb (fun i => Nat.ltb i (List.length facets)) ids); [|discriminate].
  intros H Hi Hn. injection H as <-. apply unique_in. apply in_concat.
  exists (nth i facets []). split; [|exact Hn]. apply in_map_iff. eauto.
Qed.
Theorem C49_facets facets t ndofs dofs dirichlet neumann robin dr design d i e n :
  from_facets facets t ndofs dofs dirichlet neumann robin dr design = Ok d ->
  In i (opt_nodes neumann) -> In n (nth i facets []) ->
  (e < List.length t)%nat -> In n (nth e t []) ->
  ~ In e (d_design d) /\ In e (d_fixed d) /\ In e (d_dir_neu d).
Proof.
  unfold from_facets. intros H Hi Hn He Hen.
  destruct (facets_dir facets dirichlet) as [dn|]; cbn [bind] in H; [|discriminate].
  destruct (facets_load facets neumann) as [nn|] eqn:EN; cbn [bind] in H; [|discriminate].
  destruct (facets_load facets robin) as [rn|]; cbn [bind] in H; [|discriminate].
  assert (T : touches t (opt_nodes nn) e).
  { split; [exact He|]. exists n. split; [|exact Hen].
    destruct neumann as [[ids|[|b idss]]|]; cbn in EN, Hi; try discriminate; try easy.
    - destruct (facet_nodes facets ids) as [l|] eqn:EL; cbn in EN; [|discriminate]. injection EN as <-.
      cbn. eapply facet_nodes_in; eauto.
    - destruct (facet_nodes facets (b ++ List.concat idss)) as [l|] eqn:EL; cbn in EN; [|discriminate].
      injection EN as <-. cbn. eapply facet_nodes_in; eauto. }
  destruct (C49_loaded_not_designed _ _ _ _ _ _ _ _ _ H) as (_ & HD & HF & _).
  destruct (C49_pinned_sets _ _ _ _ _ _ _ _ _ H) as (_ & HP).
  repeat split.
  - rewrite HD. intros [_ Hc]. apply Hc. now left.
  - apply HF. now left.
  - apply HP. now right.
Qed.

(* FINDING: several Dirichlet groups of different sizes cannot be used *)
Theorem C49_unequal_dirichlet_groups_rejected t ndofs dofs a b ll neumann robin dr design :
  List.length a <> List.length b ->
  from_nodes t ndofs dofs (Some (Lst (a :: b :: ll))) neumann robin dr design = Err ValueError.
Proof.
  intros H. unfold from_nodes, dirichlet_elems, np_flatten. cbn [forallb].
  destruct (Nat.eqb_spec (List.length a) (List.length b)); [contradiction|]. reflexivity.
Qed.

(* FINDING: excluding the Dirichlet elements from the design (done by the
   optimizer when design_dirichlet is False) leaves every excluded element in
   neither set *)
Theorem C49_exclude_dirichlet_breaks_partition t ndofs dofs dirichlet neumann robin dr design d e :
  from_nodes t ndofs dofs dirichlet neumann robin dr design = Ok d ->
  In e (d_design d) -> touches t (opt_nodes dirichlet) e ->
  ~ In e (d_design (exclude_dirichlet d)) /\ ~ In e (d_fixed (exclude_dirichlet d)) /\
  In e (d_dir_neu (exclude_dirichlet d)).
Proof.
  intros H He Ht. destruct (from_nodes_inv _ _ _ _ _ _ _ _ _ H) as (_ & _ & HF & _ & _ & _ & HD & HE & _).
  cbn [exclude_dirichlet d_design d_fixed d_dir_neu]. repeat split.
  - rewrite setdiff_in, HD. tauto.
  - rewrite HF, setdiff_in. tauto.
  - rewrite HE, in_app_iff, HD. auto.
Qed.
(* what remains true: still disjoint, and every element is designed, fixed or pinned *)
Theorem C49_exclude_dirichlet_covers t ndofs dofs dirichlet neumann robin dr design d :
  from_nodes t ndofs dofs dirichlet neumann robin dr design = Ok d ->
  let d' := exclude_dirichlet d in
  (forall e, ~ (In e (d_design d') /\ In e (d_fixed d'))) /\
  (forall e, In e (d_design d') <-> In e (d_design d) /\ ~ touches t (opt_nodes dirichlet) e) /\
  (forall e, (e < List.length t)%nat -> In e (d_design d') \/ In e (d_fixed d') \/ In e (d_dir_neu d')) /\
  (forall e, ~ (In e (d_design d') /\ In e (d_dir_neu d'))).
Proof.
  intros H. destruct (from_nodes_inv _ _ _ _ _ _ _ _ _ H) as (_ & _ & HF & _ & HI & HN & HD & HE & _).
  cbn [exclude_dirichlet d_design d_fixed d_dir_neu].
  assert (A : forall e, In e (setdiff1d (d_design d) (olist (d_dirichlet d))) <->
     In e (d_design d) /\ ~ touches t (opt_nodes dirichlet) e).
  { intros e. rewrite setdiff_in, HD. tauto. }
  split; [|split; [exact A|split]].
  - intros e. rewrite A, HF, setdiff_in. tauto.
  - intros e He. rewrite A, HF, setdiff_in, in_seq, HE, in_app_iff, HD.
    destruct (in_dec Nat.eq_dec e (d_design d)) as [Hd|Hd]; [|right; left; intuition lia].
    destruct (in_dec Nat.eq_dec e (olist (d_dirichlet d))) as [Hx|Hx]; rewrite HD in Hx; tauto.
  - intros e. rewrite A, HE, in_app_iff, HD, HN, HI. unfold kept_out. tauto.
Qed.

(* the mask passed to the filters *)
Theorem C49_design_mask nel design e : (e < nel)%nat ->
  nth e (design_mask nel design) false = mem e design /\ (mem e design = true <-> In e design).
Proof.
  intros He. split; [|apply mem_in]. unfold design_mask.
  rewrite (nth_indep _ false (mem 0 design)) by (now rewrite map_length, seq_length).
  rewrite (map_nth (fun e => mem e design)). rewrite seq_nth by exact He. reflexivity.
Qed.

(* a mesh of three tetrahedra; load on node 6, Dirichlet on node 0 *)
Definition ex_t : list elem := [[0;1;2;3]; [1;2;3;4]; [2;3;4;6]]%nat.
Example C49_witness : exists d,
  from_nodes ex_t 21 (fun l => map (fun n => 3 * n)%nat l) (Some (Arr [0%nat])) (Some (Lst [[6%nat]]))
    None None [2;0;1]%nat = Ok d /\ d_design d = [0;1]%nat /\ d_fixed d = [2%nat] /\
  d_design (exclude_dirichlet d) = [1%nat] /\ d_fixed (exclude_dirichlet d) = [2%nat].
Proof. eexists. split; [vm_compute; reflexivity|]. repeat split; vm_compute; reflexivity. Qed.

(* ------------------------------------------------------------------ C50 *)
Definition exact_answer (k : ecall) (out : list nat) : Prop :=
  sorted_set out /\ forall e, In e out <-> touches (c_t k) (c_nodes k) e.
Theorem C50_lookup_exact cs :
  (forall k k', In k cs -> In k' cs -> c_id k = c_id k' -> c_t k = c_t k') ->
  Forall2 exact_answer cs (run_calls [] cs).
Proof.
  assert (G : forall cs c, (forall k k', In k cs -> In k' cs -> c_id k = c_id k' -> c_t k = c_t k') ->
     (forall k tb, In k cs -> cget (c_id k) c = Some tb -> tb = node_table (c_t k)) ->
     Forall2 exact_answer cs (run_calls c cs)).
  { clear cs. induction cs as [|k cs IH]; intros c Hid Hc; simpl; [constructor|].
    unfold get_elements_by_nodes. destruct (cget (c_id k) c) as [tb|] eqn:E.
    - rewrite E. constructor.
      + assert (Et : tb = node_table (c_t k)) by (apply Hc; [now left|exact E]). rewrite Et. apply lookup_spec.
      + apply IH; intros; [apply Hid|apply Hc]; simpl; auto.
    - cbn [cget]. rewrite Nat.eqb_refl. constructor; [apply lookup_spec|].
      apply IH; [intros; apply Hid; simpl; auto|].
      intros k' tb Hk. cbn [cget]. destruct (Nat.eqb_spec (c_id k') (c_id k)) as [Ee|_].
      + intros H. injection H as <-. f_equal. apply Hid; simpl; auto.
      + intros H. apply Hc; simpl; auto. }
  intros H. apply G; [exact H|]. intros k tb _ E. discriminate.
Qed.
(* FINDING: the cache is keyed by id(mesh); once a mesh is freed and its id
   reused, the answer for the new mesh is computed from the old one *)
Theorem C50_recycled_id_refuted : exists k1 k2,
  c_id k1 = c_id k2 /\ run_calls [] [k1; k2] = [[0%nat]; [0%nat]] /\
  ~ exact_answer k2 [0%nat] /\ exact_answer k2 [1%nat].
Proof.
  exists (mkCall 7 [[0;1;2;3]]%nat [0%nat]), (mkCall 7 [[1;2;3;4]; [0;2;3;4]]%nat [0%nat]).
  assert (A : exact_answer (mkCall 7 [[1;2;3;4]; [0;2;3;4]]%nat [0%nat]) [1%nat]).
  { change [1%nat] with (elements_by_nodes [[1;2;3;4]; [0;2;3;4]]%nat [0%nat]).
    split; [apply ebn_sorted|apply ebn_in]. }
  split; [reflexivity|]. split; [vm_compute; reflexivity|]. split; [|exact A].
  intros [_ Hc]. destruct A as [_ A]. assert (In 0%nat [1%nat]) by (apply A, Hc; now left).
  simpl in *. intuition discriminate.
Qed.
Example C50_witness : run_calls [] [mkCall 1 ex_t [2;6]%nat; mkCall 2 [[0;1;2;3]]%nat [3%nat]; mkCall 1 ex_t [4;4]%nat]
  = [[0;1;2]; [0]; [1;2]]%nat.
Proof. vm_compute. reflexivity. Qed.

(* ------------------------------------------------------------------ C51 *)
Ltac vec := unfold tet_vol, hex_jac, tet_abs, triple, vdot, vcross, vsub, vx, vy, vz, pt, nd, det3, vadd, vneg;
  cbn [nth fst snd].
Lemma tet_vol_det p a b c d : tet_vol p [a; b; c; d] =
  det3 (vadd (pt p b) (vneg (pt p a))) (vadd (pt p c) (vneg (pt p a))) (vadd (pt p d) (vneg (pt p a))) / 6.
Proof.
  unfold tet_vol, nd. cbn [nth]. destruct (pt p a) as [[? ?] ?], (pt p b) as [[? ?] ?], (pt p c) as [[? ?] ?], (pt p d) as [[? ?] ?].
  vec. f_equal. ring.
Qed.
Lemma tet_vol_swap p a b c d : tet_vol p [a; c; b; d] = - tet_vol p [a; b; c; d].
Proof.
  unfold tet_vol, nd. cbn [nth]. destruct (pt p a) as [[? ?] ?], (pt p b) as [[? ?] ?], (pt p c) as [[? ?] ?], (pt p d) as [[? ?] ?].
  vec. lra.
Qed.
(* signed volume of a tetrahedron as the determinant of its edge vectors *)
Definition signed_volume (p : list vec3) (e : elem) : R :=
  let q := fun k => nth (nth k e 0%nat) p (0, 0, 0) in
  det3 (vadd (q 1%nat) (vneg (q 0%nat))) (vadd (q 2%nat) (vneg (q 0%nat))) (vadd (q 3%nat) (vneg (q 0%nat))) / 6.
Lemma signed_volume_eq p e : List.length e = 4%nat -> signed_volume p e = tet_vol p e.
Proof.
  intros H. destruct e as [|a [|b [|c [|d [|]]]]]; try discriminate. now rewrite tet_vol_det.
Qed.
Definition tets (t : list elem) : Prop := Forall (fun e => List.length e = 4%nat) t.

Lemma fix_tet1_spec p e : List.length e = 4%nat ->
  tet_vol p (fix_tet1 p e) = Rabs (tet_vol p e) /\ Permutation (fix_tet1 p e) e /\
  fix_tet1 p (fix_tet1 p e) = fix_tet1 p e /\ (0 <= tet_vol p e -> fix_tet1 p e = e).
Proof.
  intros H. destruct e as [|a [|b [|c [|d [|]]]]]; try discriminate. clear H.
  pose proof (tet_vol_swap p a b c d) as S.
  assert (F : forall x y, fix_tet1 p [a; x; y; d] = if Rltb (tet_vol p [a; x; y; d]) 0 then [a; y; x; d] else [a; x; y; d])
    by reflexivity.
  destruct (Rltb (tet_vol p [a; b; c; d]) 0) eqn:E; pose proof (F b c) as F1; rewrite E in F1; rewrite F1.
  - apply Rltb_true in E. rewrite F. replace (Rltb (tet_vol p [a; c; b; d]) 0) with false
      by (symmetry; apply Rltb_false; lra).
    split; [rewrite S, Rabs_left by exact E; reflexivity|].
    split; [apply perm_skip, perm_swap|]. split; [reflexivity|]. intros; lra.
  - apply Rltb_false in E. rewrite Rabs_right by lra. repeat split; auto.
Qed.

Theorem C51_tet_orientation p t i : tets t -> (i < List.length t)%nat ->
  let t' := fix_tetrahedron_orientation p t in
  List.length t' = List.length t /\
  signed_volume p (nth i t' []) = Rabs (signed_volume p (nth i t [])) /\
  0 <= signed_volume p (nth i t' []) /\
  Permutation (nth i t' []) (nth i t []) /\
  (0 <= signed_volume p (nth i t []) -> nth i t' [] = nth i t []).
Proof.
  intros Ht Hi t'. unfold t', fix_tetrahedron_orientation.
  rewrite (nth_indep _ [] (fix_tet1 p [])) by (now rewrite map_length). rewrite map_nth.
  assert (L : List.length (nth i t []) = 4%nat).
  { unfold tets in Ht. rewrite Forall_forall in Ht. apply Ht, nth_In, Hi. }
  destruct (fix_tet1_spec p _ L) as (A & B & C & D).
  rewrite !signed_volume_eq by (try exact L; now rewrite (Permutation_length B)).
  rewrite map_length, A. repeat split; auto. apply Rabs_pos.
Qed.
Theorem C51_tet_idempotent p t : tets t ->
  fix_tetrahedron_orientation p (fix_tetrahedron_orientation p t) = fix_tetrahedron_orientation p t.
Proof.
  intros Ht. unfold fix_tetrahedron_orientation. rewrite map_map. apply map_ext_in.
  intros e He. unfold tets in Ht. rewrite Forall_forall in Ht. exact (proj1 (proj2 (proj2 (fix_tet1_spec p e (Ht e He))))).
Qed.

(* hexahedra: same vertices, corner determinant at node 0 repaired, idempotent *)
Definition corner0 (p : list vec3) (e : elem) : R :=
  let q := fun k => nth (nth k e 0%nat) p (0, 0, 0) in
  det3 (vadd (q 1%nat) (vneg (q 0%nat))) (vadd (q 3%nat) (vneg (q 0%nat))) (vadd (q 4%nat) (vneg (q 0%nat))).
(* the corner determinant at node 4 of the drawing, whose neighbours are 7, 5
   and 0; positive at every corner of a right-handed box *)
Definition corner4 (p : list vec3) (e : elem) : R :=
  let q := fun k => nth (nth k e 0%nat) p (0, 0, 0) in
  det3 (vadd (q 7%nat) (vneg (q 4%nat))) (vadd (q 5%nat) (vneg (q 4%nat))) (vadd (q 0%nat) (vneg (q 4%nat))).
Lemma corner0_jac p e : corner0 p e = hex_jac p e.
Proof.
  unfold corner0, hex_jac, nd, pt, v0.
  destruct (nth (nth 0 e 0%nat) p (0, 0, 0)) as [[? ?] ?], (nth (nth 1 e 0%nat) p (0, 0, 0)) as [[? ?] ?],
    (nth (nth 3 e 0%nat) p (0, 0, 0)) as [[? ?] ?], (nth (nth 4 e 0%nat) p (0, 0, 0)) as [[? ?] ?].
  vec. ring.
Qed.
Theorem C51_hex_corner p e n0 n1 n2 n3 r : e = n0 :: n1 :: n2 :: n3 :: r ->
  corner0 p (fix_hex1 p e) = Rabs (corner0 p e) /\ Permutation (fix_hex1 p e) e /\
  fix_hex1 p (fix_hex1 p e) = fix_hex1 p e.
Proof.
  intros ->.
  assert (S : hex_jac p (n0 :: n3 :: n2 :: n1 :: r) = - hex_jac p (n0 :: n1 :: n2 :: n3 :: r)).
  { unfold hex_jac, nd. cbn [nth]. destruct (pt p n0) as [[? ?] ?], (pt p n1) as [[? ?] ?], (pt p n3) as [[? ?] ?],
      (pt p (nth 0 r 0%nat)) as [[? ?] ?]. vec. ring. }
  rewrite !corner0_jac.
  assert (F : forall x y, fix_hex1 p (n0 :: x :: n2 :: y :: r) =
     if Rltb (hex_jac p (n0 :: x :: n2 :: y :: r)) 0 then n0 :: y :: n2 :: x :: r else n0 :: x :: n2 :: y :: r)
    by reflexivity.
  destruct (Rltb (hex_jac p (n0 :: n1 :: n2 :: n3 :: r)) 0) eqn:E; pose proof (F n1 n3) as F1; rewrite E in F1; rewrite F1.
  - apply Rltb_true in E. rewrite F. replace (Rltb (hex_jac p (n0 :: n3 :: n2 :: n1 :: r)) 0) with false
      by (symmetry; apply Rltb_false; lra).
    split; [rewrite S, Rabs_left by exact E; reflexivity|]. split; [|reflexivity].
    apply perm_skip. apply (Permutation_trans (l' := n3 :: n1 :: n2 :: r)).
    + apply perm_skip, perm_swap.
    + apply (Permutation_trans (perm_swap _ _ _)). apply perm_skip, perm_swap.
  - apply Rltb_false in E. rewrite Rabs_right by lra. repeat split; auto.
Qed.
(* FINDING: a left-handed box is not turned into a right-handed one: only the
   bottom face is reversed, the determinant at node 4 stays negative, for every
   parallelepiped *)
Theorem C51_hex_repair_tangles o u v w : det3 u v w < 0 ->
  let p := box_corners o u v w in
  let e := fix_hex1 p (seq 0 8) in
  0 < corner0 p e /\ corner4 p e < 0.
Proof.
  intros H p e.
  assert (J : hex_jac p (seq 0 8) = det3 u v w).
  { unfold p, box_corners, hex_jac, nd, pt. cbn [nth seq].
    destruct o as [[? ?] ?], u as [[? ?] ?], v as [[? ?] ?], w as [[? ?] ?]. vec. ring. }
  assert (E : e = [0; 3; 2; 1; 4; 5; 6; 7]%nat).
  { unfold e. cbn [seq]. unfold fix_hex1. change (seq 0 8) with [0;1;2;3;4;5;6;7]%nat in J. rewrite J.
    now rewrite (proj2 (Rltb_true _ _) H). }
  rewrite E. split.
  - replace (corner0 p [0; 3; 2; 1; 4; 5; 6; 7]%nat) with (- det3 u v w); [lra|].
    unfold corner0, p, box_corners. cbn [nth].
    destruct o as [[? ?] ?], u as [[? ?] ?], v as [[? ?] ?], w as [[? ?] ?]. vec. ring.
  - replace (corner4 p [0; 3; 2; 1; 4; 5; 6; 7]%nat) with (det3 u v w); [lra|].
    unfold corner4, p, box_corners. cbn [nth].
    destruct o as [[? ?] ?], u as [[? ?] ?], v as [[? ?] ?], w as [[? ?] ?]. vec. ring.
Qed.
Example C51_witness : let p := [(0,0,0); (1,0,0); (0,1,0); (0,0,1)] in
  tets [[0;2;1;3]]%nat /\ signed_volume p [0;2;1;3]%nat < 0 /\
  fix_tetrahedron_orientation p [[0;2;1;3]]%nat = [[0;1;2;3]]%nat.
Proof.
  cbv zeta. assert (V : tet_vol [(0,0,0); (1,0,0); (0,1,0); (0,0,1)] [0;2;1;3]%nat < 0) by (vec; lra).
  repeat split.
  - repeat constructor.
  - rewrite signed_volume_eq by reflexivity. exact V.
  - unfold fix_tetrahedron_orientation, fix_tet1. cbn [map]. now rewrite (proj2 (Rltb_true _ _) V).
Qed.

(* ------------------------------------------------------------------ C52 *)
Definition elem_points (p : list vec3) (e : elem) : list vec3 := map (fun n => nth n p (0, 0, 0)) e.
(* tetrahedra: the geometric volumes, whenever the elements are oriented; an
   error exactly when some signed volume is below -1e-12 *)
Theorem C52_tet_volumes p t : tets t ->
  ((forall e, In e t -> 0 <= signed_volume p e) ->
     elements_volume_tet p t = Ok (map (fun e =>
       match elem_points p e with [a; b; c; d] => tetra_volume a b c d | _ => 0 end) t)) /\
  (elements_volume_tet p t = Err ValueError <->
     exists e, In e t /\ signed_volume p e < - / 1000000000000).
Proof.
  intros Ht. unfold tets in Ht. rewrite Forall_forall in Ht. unfold elements_volume_tet.
  assert (X : existsb (fun v => Rltb v (- / 1000000000000)) (map (tet_vol p) t) = true <->
    exists e, In e t /\ signed_volume p e < - / 1000000000000).
  { rewrite existsb_exists. split.
    - intros (v & Hv & E). apply in_map_iff in Hv. destruct Hv as (e & <- & He). apply Rltb_true in E.
      exists e. rewrite signed_volume_eq by auto. auto.
    - intros (e & He & E). rewrite signed_volume_eq in E by auto. exists (tet_vol p e).
      split; [now apply in_map|now apply Rltb_true]. }
  split.
  - intros Hp. destruct (existsb (fun v => Rltb v (- / 1000000000000)) (map (tet_vol p) t)).
    + destruct (proj1 X eq_refl) as (e & He & E). specialize (Hp e He). lra.
    + f_equal. apply map_ext_in. intros e He. specialize (Hp e He). specialize (Ht e He).
      rewrite <- signed_volume_eq by exact Ht.
      destruct e as [|a [|b [|c [|d [|]]]]]; try discriminate. unfold signed_volume in *. cbn [nth elem_points map] in *.
      unfold tetra_volume. rewrite Rabs_right; [reflexivity|]. lra.
  - destruct (existsb (fun v => Rltb v (- / 1000000000000)) (map (tet_vol p) t)).
    + split; [intros _; now apply X|reflexivity].
    + split; [discriminate|]. intros H. apply X in H. discriminate.
Qed.
(* after the orientation repair the volumes are always available and exact *)
Theorem C52_tet_volumes_after_repair p t : tets t ->
  elements_volume_tet p (fix_tetrahedron_orientation p t) =
  Ok (map (fun e => match elem_points p e with [a; b; c; d] => tetra_volume a b c d | _ => 0 end) t).
Proof.
  intros Ht. assert (Ht' : tets (fix_tetrahedron_orientation p t)).
  { unfold tets in *. rewrite Forall_forall in *. intros e He. apply in_map_iff in He. destruct He as (e0 & <- & He).
    destruct (fix_tet1_spec p e0 (Ht _ He)) as (_ & B & _). rewrite (Permutation_length B). auto. }
  destruct (C52_tet_volumes p _ Ht') as [A _]. rewrite A.
  - f_equal. unfold fix_tetrahedron_orientation. rewrite map_map. apply map_ext_in. intros e He.
    unfold tets in Ht. rewrite Forall_forall in Ht. specialize (Ht e He).
    destruct e as [|a [|b [|c [|d [|]]]]]; try discriminate. unfold fix_tet1.
    destruct (Rltb (tet_vol p [a; b; c; d]) 0); [|reflexivity]. unfold elem_points, tetra_volume. cbn [map]. f_equal.
    destruct (nth a p (0, 0, 0)) as [[? ?] ?], (nth b p (0, 0, 0)) as [[? ?] ?],
      (nth c p (0, 0, 0)) as [[? ?] ?], (nth d p (0, 0, 0)) as [[? ?] ?].
    rewrite <- Rabs_Ropp. f_equal. vec. ring.
  - intros e He. apply In_nth with (d := []) in He. destruct He as (i & Hi & <-).
    unfold fix_tetrahedron_orientation in Hi. rewrite map_length in Hi. now apply C51_tet_orientation.
Qed.
Lemma tet_abs_det a b c d k D : det3 (vadd b (vneg a)) (vadd c (vneg a)) (vadd d (vneg a)) = k * D ->
  tet_abs a b c d = Rabs k * Rabs D / 6.
Proof.
  intros H. unfold tet_abs. f_equal. rewrite <- Rabs_mult, <- H. f_equal.
  destruct a as [[? ?] ?], b as [[? ?] ?], c as [[? ?] ?], d as [[? ?] ?]. vec. ring.
Qed.
Ltac tetdet o u v w k := rewrite (tet_abs_det _ _ _ _ k (det3 u v w))
  by (destruct o as [[? ?] ?], u as [[? ?] ?], v as [[? ?] ?], w as [[? ?] ?]; vec; ring).
(* FINDING: the six tetrahedra overlap.  For every parallelepiped numbered as in
   the source's own drawing the result is 7/6 of its volume *)
Theorem C52_hex_volume_refuted o u v w :
  hex_vol (box_corners o u v w) (seq 0 8) = 7 / 6 * box_volume u v w.
Proof.
  unfold hex_vol, box_corners, nd, pt. cbn [nth seq]. unfold box_volume.
  tetdet o u v w 1. tetdet o u v w 1. tetdet o u v w 1. tetdet o u v w 1.
  tetdet o u v w (-2). tetdet o u v w (-1).
  rewrite (Rabs_left (-1)), (Rabs_right 1), (Rabs_left (-2)) by lra. lra.
Qed.
(* in the numbering scikit-fem documents for MeshHex one of the six is flat and
   the result is 5/6 of the volume *)
Theorem C52_hex_volume_skfem_refuted o u v w :
  hex_vol (skfem_corners o u v w) (seq 0 8) = 5 / 6 * box_volume u v w.
Proof.
  unfold hex_vol, skfem_corners, nd, pt. cbn [nth seq]. unfold box_volume.
  tetdet o u v w (-1). tetdet o u v w 1. tetdet o u v w (-1). tetdet o u v w 1.
  tetdet o u v w 0. tetdet o u v w 1.
  rewrite (Rabs_left (-1)), (Rabs_right 1), (Rabs_right 0) by lra. lra.
Qed.
(* so for boxes ratios of volumes, hence volume fractions, are still right *)
Theorem C52_hex_ratio_partial o u v w o' u' v' w' : box_volume u' v' w' <> 0 ->
  hex_vol (box_corners o u v w) (seq 0 8) / hex_vol (box_corners o' u' v' w') (seq 0 8)
  = box_volume u v w / box_volume u' v' w'.
Proof. intros H. rewrite !C52_hex_volume_refuted. field. exact H. Qed.
Example C52_witness : hex_vol (box_corners (0,0,0) (2,0,0) (0,3,0) (0,0,4)) (seq 0 8) = 28 /\
  box_volume (2,0,0) (0,3,0) (0,0,4) = 24.
Proof.
  assert (B : box_volume (2,0,0) (0,3,0) (0,0,4) = 24).
  { unfold box_volume, det3. rewrite Rabs_right; lra. }
  split; [|exact B]. rewrite C52_hex_volume_refuted, B. lra.
Qed.

(* ------------------------------------------------------------------ C53 *)
Lemma index_of_nth l x : In x l -> (index_of x l < List.length l)%nat /\ nth (index_of x l) l 0%nat = x.
Proof.
  induction l as [|y l IH]; [easy|]. cbn [index_of In List.length]. destruct (Nat.eqb_spec x y) as [->|Hn].
  - intros _. split; [lia|reflexivity].
  - intros [->|H]; [congruence|]. destruct (IH H). split; [lia|]. cbn [nth]. assumption.
Qed.
(* a design element at or below the threshold is dropped *)
Definition solid (design : list nat) (rho : list R) (thr : R) (e : nat) : Prop :=
  ~ (In e design /\ nth e rho 0 <= thr).
Theorem C53_export m design rho thr m' : export_submesh m design rho thr = Ok m' ->
  exists kept, sorted_set kept /\
    (forall e, In e kept <-> (e < List.length (m_t m))%nat /\ solid design rho thr e) /\
    List.length (m_t m') = List.length kept /\
    (* element j of the file has, corner by corner, the coordinates of the original *)
    (forall j, (j < List.length kept)%nat ->
       map (fun n => nth n (m_p m') (0, 0, 0)) (nth j (m_t m') []) =
       map (fun n => nth n (m_p m) (0, 0, 0)) (nth (nth j kept 0%nat) (m_t m) [])) /\
    (forall j n, In n (nth j (m_t m') []) -> (n < List.length (m_p m'))%nat) /\
    (* no unused vertex *)
    (forall n, (n < List.length (m_p m'))%nat -> exists j, In n (nth j (m_t m') [])) /\
    (* no vertex is duplicated: corners coincide in the file only if they were the same node *)
    (forall j k a b, (j < List.length kept)%nat -> (k < List.length kept)%nat ->
       (a < List.length (nth j (m_t m') []))%nat -> (b < List.length (nth k (m_t m') []))%nat ->
       (nth a (nth j (m_t m') []) 0%nat = nth b (nth k (m_t m') []) 0%nat <->
        nth a (nth (nth j kept 0%nat) (m_t m) []) 0%nat = nth b (nth (nth k kept 0%nat) (m_t m) []) 0%nat)).
Proof.
  unfold export_submesh. set (remove := filter (fun e => Rleb (nth e rho 0) thr) design).
  set (kept := setdiff1d (seq 0 (List.length (m_t m))) remove).
  set (kt := map (fun e => nth e (m_t m) []) kept).
  set (uniq := np_unique (List.concat kt)).
  intros H. assert (E : m' = mkMesh (map (map (fun n => index_of n uniq)) kt) (map (pt (m_p m)) uniq)).
  { destruct (List.concat kt); [discriminate|]. now injection H as <-. }
  clear H. subst m'. cbn [m_t m_p].
  assert (Lk : List.length kt = List.length kept) by (unfold kt; now rewrite map_length).
  assert (Nk : forall j, (j < List.length kept)%nat -> nth j kt [] = nth (nth j kept 0%nat) (m_t m) []).
  { intros j Hj. unfold kt.
    rewrite (nth_indep _ [] ((fun e => nth e (m_t m) []) 0%nat)) by (now rewrite map_length).
    now rewrite (map_nth (fun e => nth e (m_t m) [])). }
  assert (Nm : forall j, nth j (map (map (fun n => index_of n uniq)) kt) [] = map (fun n => index_of n uniq) (nth j kt [])).
  { intros j. exact (map_nth (map (fun n => index_of n uniq)) kt [] j). }
  assert (U : forall j n, In n (nth j kt []) -> In n uniq).
  { intros j n Hn. apply unique_in. apply in_concat. exists (nth j kt []). split; [|exact Hn].
    destruct (Nat.lt_ge_cases j (List.length kt)) as [Hj|Hj]; [now apply nth_In|].
    rewrite nth_overflow in Hn by exact Hj. easy. }
  exists kept. split; [apply filter_sorted, seq_sorted|]. split.
  { intros e. unfold kept. rewrite setdiff_in, in_seq. unfold remove. rewrite filter_In, Rleb_true. unfold solid.
    intuition lia. }
  split; [now rewrite map_length|]. split.
  { intros j Hj. rewrite Nm, <- (Nk j Hj), map_map. apply map_ext_in. intros n Hn.
    destruct (index_of_nth uniq n (U j n Hn)) as [I1 I2].
    cbv beta. rewrite (nth_indep (map (pt (m_p m)) uniq) (0, 0, 0) (pt (m_p m) 0%nat)) by (now rewrite map_length).
    rewrite (map_nth (pt (m_p m))), I2. reflexivity. }
  split.
  { intros j n Hn. rewrite Nm in Hn. apply in_map_iff in Hn. destruct Hn as (x & <- & Hx).
    rewrite map_length. now apply index_of_nth, (U j). }
  split.
  { intros n Hn. rewrite map_length in Hn.
    assert (Hu : In (nth n uniq 0%nat) uniq) by (now apply nth_In).
    assert (Hc : In (nth n uniq 0%nat) (List.concat kt)) by (now apply unique_in).
    apply in_concat in Hc. destruct Hc as (ns & H1 & H2). apply In_nth with (d := []) in H1.
    destruct H1 as (j & Hj & <-). exists j. rewrite Nm. apply in_map_iff.
    exists (nth n uniq 0%nat). split; [|exact H2].
    destruct (index_of_nth uniq _ Hu) as [I1 I2].
    apply (proj1 (NoDup_nth uniq 0%nat) (sorted_nodup _ (unique_sorted _))); auto. }
  intros j k a b Hj Hk Ha Hb. rewrite !Nm in *. rewrite !map_length in *. rewrite <- (Nk j Hj), <- (Nk k Hk).
  rewrite (nth_indep _ 0%nat ((fun n => index_of n uniq) 0%nat)) by (now rewrite map_length).
  rewrite (nth_indep (map _ (nth k kt [])) 0%nat ((fun n => index_of n uniq) 0%nat)) by (now rewrite map_length).
  rewrite !(map_nth (fun n => index_of n uniq)).
  destruct (index_of_nth uniq (nth a (nth j kt []) 0%nat)) as [_ I1]; [apply (U j), nth_In, Ha|].
  destruct (index_of_nth uniq (nth b (nth k kt []) 0%nat)) as [_ I2]; [apply (U k), nth_In, Hb|].
  split; [|now intros ->]. intros E. rewrite <- I1, <- I2, E. reflexivity.
Qed.
(* it fails exactly when nothing is solid (elements being non-empty) *)
Theorem C53_export_error m design rho thr : (forall e, In e (m_t m) -> e <> []) ->
  ((exists m', export_submesh m design rho thr = Ok m') <->
   exists e, (e < List.length (m_t m))%nat /\ solid design rho thr e) /\
  (export_submesh m design rho thr = Err ValueError <->
   forall e, (e < List.length (m_t m))%nat -> ~ solid design rho thr e).
Proof.
  intros Hne. unfold export_submesh. set (remove := filter (fun e => Rleb (nth e rho 0) thr) design).
  set (kept := setdiff1d (seq 0 (List.length (m_t m))) remove).
  set (kt := map (fun e => nth e (m_t m) []) kept).
  assert (K : forall e, In e kept <-> (e < List.length (m_t m))%nat /\ solid design rho thr e).
  { intros e. unfold kept. rewrite setdiff_in, in_seq. unfold remove. rewrite filter_In, Rleb_true. unfold solid.
    intuition lia. }
  destruct kept as [|x kept'] eqn:EK.
  - unfold kt. cbn [map List.concat]. split; split.
    + intros (m' & H). discriminate.
    + intros (e & H1 & H2). exfalso. assert (Hc : In e []) by (now apply K). easy.
    + intros _ e H1 H2. assert (Hc : In e []) by (now apply K). easy.
    + reflexivity.
  - destruct (List.concat kt) as [|y c] eqn:EC.
    + exfalso. unfold kt in EC. cbn [map List.concat] in EC. apply app_eq_nil in EC.
      destruct EC as [EC _]. refine (Hne _ _ EC). apply nth_In. apply K. now left.
    + split; split.
      * intros _. exists x. apply K. now left.
      * intros _. eexists. reflexivity.
      * discriminate.
      * intros H. exfalso. destruct (proj1 (K x) (or_introl eq_refl)) as [H1 H2]. now apply (H x).
Qed.
Example C53_witness : exists m',
  export_submesh (mkMesh ex_t [(0,0,0); (1,0,0); (0,1,0); (0,0,1); (1,1,1); (5,5,5); (2,1,1)])
    [0;1]%nat [0; 1; 1] (/ 2) = Ok m' /\ m_t m' = [[0;1;2;3]; [1;2;3;4]]%nat.
Proof.
  unfold export_submesh. cbn [filter nth].
  replace (Rleb 0 (/ 2)) with true by (symmetry; apply Rleb_true; lra).
  replace (Rleb 1 (/ 2)) with false by (symmetry; apply Rleb_false; lra).
  eexists. split; [vm_compute; reflexivity|]. reflexivity.
Qed.

(* ------------------------------------------------------------------ C54 *)
Lemma vscale_inv L v : L <> 0 -> vscale L (vscale (1 / L) v) = v.
Proof.
  intros H. destruct v as [[a b] c]. unfold vscale, vx, vy, vz. cbn [fst snd].
  replace (a * (1 / L) * L) with a by (field; exact H).
  replace (b * (1 / L) * L) with b by (field; exact H).
  replace (c * (1 / L) * L) with c by (field; exact H). reflexivity.
Qed.
Lemma map_scale_inv F l : F <> 0 -> map (fun x => x * F) (map (fun x => x * (1 / F)) l) = l.
Proof.
  intros H. rewrite map_map. rewrite <- (map_id l) at 2. apply map_ext. intros x. field. exact H.
Qed.
(* several load cases: restored exactly, and the number of load cases is kept *)
Theorem C54_scale_unscale_multi L F k ls : L <> 0 -> F <> 0 ->
  et_loads k = LList ls -> List.length ls <> 1%nat ->
  exists k1, scale (1 / L) (1 / F) k = Ok k1 /\ n_tasks k1 = n_tasks k /\ scale L F k1 = Ok k.
Proof.
  intros HL HF E H1. destruct k as [[t p] vol lo]. cbn [et_loads] in E. subst lo.
  unfold scale. cbn [et_mesh et_vol et_loads m_t m_p].
  assert (P : map (vscale L) (map (vscale (1 / L)) p) = p).
  { rewrite map_map. rewrite <- (map_id p) at 2. apply map_ext. intros v. now apply vscale_inv. }
  destruct ls as [|a [|b ls]].
  - eexists. split; [reflexivity|]. split; [reflexivity|]. cbn [et_mesh et_vol et_loads m_t m_p map]. now rewrite P.
  - exfalso. now apply H1.
  - eexists. split; [reflexivity|]. cbn [map et_mesh et_vol et_loads m_t m_p n_tasks List.length]. rewrite !map_length.
    split; [reflexivity|]. rewrite P, !map_scale_inv by exact HF. do 4 f_equal. f_equal. f_equal.
    rewrite map_map. rewrite <- (map_id ls) at 2. apply map_ext. intros x. now apply map_scale_inv.
Qed.
(* FINDING: with a single load case the load vector is restored, but after the
   first scale() the task reports one load case per degree of freedom *)
Theorem C54_single_load_refuted L F k a : L <> 0 -> F <> 0 ->
  et_loads k = LList [a] -> List.length a <> 1%nat ->
  exists k1 k2, scale (1 / L) (1 / F) k = Ok k1 /\ scale L F k1 = Ok k2 /\
    n_tasks k = 1%nat /\ n_tasks k1 = List.length a /\ n_tasks k2 = List.length a /\
    et_mesh k2 = et_mesh k /\ et_loads k2 = LArr a.
Proof.
  intros HL HF E H1. destruct k as [[t p] vol lo]. cbn [et_loads] in E. subst lo.
  unfold scale. cbn [et_mesh et_vol et_loads m_t m_p].
  assert (P : map (vscale L) (map (vscale (1 / L)) p) = p).
  { rewrite map_map. rewrite <- (map_id p) at 2. apply map_ext. intros v. now apply vscale_inv. }
  eexists. exists (mkTask (mkMesh t p) vol (LArr a)). split; [reflexivity|].
  cbn [et_mesh et_vol et_loads m_t m_p n_tasks List.length].
  rewrite P, map_length. repeat split.
  destruct a as [|x [|y a]]; cbn [map].
  - reflexivity.
  - exfalso. now apply H1.
  - do 2 f_equal. f_equal. change (x * (1 / F) * F :: y * (1 / F) * F :: map (fun x0 => x0 * F) (map (fun x0 => x0 * (1 / F)) a))
      with (map (fun x0 => x0 * F) (map (fun x0 => x0 * (1 / F)) (x :: y :: a))). now apply map_scale_inv.
Qed.
(* FINDING: element volumes are not recomputed, so after scaling they belong to
   the unscaled mesh (a tetrahedron's true volume changes by L^3) *)
Theorem C54_volumes_stale L F k k' p e : scale L F k = Ok k' ->
  et_vol k' = et_vol k /\
  (m_p (et_mesh k) = p -> List.length e = 4%nat -> (forall n, In n e -> (n < List.length p)%nat) ->
   signed_volume (m_p (et_mesh k')) e = L * L * L * signed_volume p e).
Proof.
  intros H. assert (A : et_vol k' = et_vol k /\ m_p (et_mesh k') = map (vscale L) (m_p (et_mesh k))).
  { unfold scale in H. destruct (et_loads k) as [[|a [|b ls]]|[|a [|b l]]]; try discriminate; injection H as <-; auto. }
  destruct A as [A B]. split; [exact A|]. intros <- Le Hr. rewrite B.
  destruct e as [|a [|b [|c [|d [|]]]]]; try discriminate. unfold signed_volume. cbn [nth].
  assert (S : forall n, In n [a; b; c; d] -> nth n (map (vscale L) (m_p (et_mesh k))) (0, 0, 0) =
     vscale L (nth n (m_p (et_mesh k)) (0, 0, 0))).
  { intros n Hn. rewrite (nth_indep _ (0, 0, 0) (vscale L (0, 0, 0))) by (rewrite map_length; auto). now rewrite map_nth. }
  rewrite !S by (simpl; auto).
  destruct (nth a (m_p (et_mesh k)) (0, 0, 0)) as [[? ?] ?], (nth b (m_p (et_mesh k)) (0, 0, 0)) as [[? ?] ?],
    (nth c (m_p (et_mesh k)) (0, 0, 0)) as [[? ?] ?], (nth d (m_p (et_mesh k)) (0, 0, 0)) as [[? ?] ?].
  unfold vscale. vec. lra.
Qed.
Example C54_witness : exists k1, scale (1 / 2) (1 / 100000)
   (mkTask (mkMesh [[0;1;2;3]]%nat [(0,0,0); (2,0,0); (0,2,0); (0,0,2)]) [8 / 6] (LList [[0; 5]; [7; 0]])) = Ok k1 /\
   n_tasks k1 = 2%nat.
Proof. eexists. split; reflexivity. Qed.

(* boundary arguments given as an empty list, or touching no element, are refused *)
Theorem C50_empty_boundary_lists_refused : forall facets t ndofs dofs dn nn rn dr design,
  (forall d l, dirichlet_elems t dn = Ok d -> (nn = Some (Lst []) \/ nn = Some (Arr l) /\ elements_by_nodes t l = []) ->
     loaded_elems t nn = Err ValueError) /\
  (forall d, facets_dir facets dn = Ok d -> nn = Some (Lst []) -> from_facets facets t ndofs dofs dn nn rn dr design = Err ValueError) /\
  (forall d n, facets_dir facets dn = Ok d -> facets_load facets nn = Ok n -> rn = Some (Lst []) ->
     from_facets facets t ndofs dofs dn nn rn dr design = Err ValueError).
Proof.
  intros facets t ndofs dofs dn nn rn dr design. split; [|split].
  - intros d l _ [->|(-> & E)]; unfold loaded_elems; [reflexivity|]. cbn [bind]. now rewrite E.
  - intros d Hd ->. unfold from_facets. rewrite Hd. reflexivity.
  - intros d n Hd Hn ->. unfold from_facets. rewrite Hd. cbn [bind]. rewrite Hn. reflexivity.
Qed.
Print Assumptions C50_empty_boundary_lists_refused.
