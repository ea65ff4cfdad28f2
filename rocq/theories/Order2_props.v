(* C108 continued: from the mesh and the node lists to the element sets. *)
From Coq Require Import Permutation.
From Verif Require Import Base Sums OC_model Filter_model Mesh_model Mesh_spec Mesh_proofs Mesh_props Fea_model
  Iter_model Iter_spec Iter_props Order_spec Order2_spec Order_proofs Order_props.
Open Scope list_scope.

Lemma touches_image p nu T T' a b e : task_image p nu T T' -> node_image nu a b -> (e < List.length (ta_t T))%nat ->
  touches (ta_t T') (opt_nodes b) e <-> touches (ta_t T) (opt_nodes a) (old p e).
Proof.
  intros H Hn He. pose proof (ti_elem _ _ _ _ H e He) as Q. unfold touches. rewrite (ti_len _ _ _ _ H).
  pose proof (old_range _ _ (ti_numbering _ _ _ _ H) e He) as Ho. split.
  - intros (_ & y & Hy & Hin). split; [exact Ho|]. apply (Permutation_in _ Q), in_map_iff in Hin. destruct Hin as (x & <- & Hx).
    apply Hn in Hy. destruct Hy as (z & E & Hz). apply (ti_nu _ _ _ _ H) in E. subst z. exists x. auto.
  - intros (_ & x & Hx & Hin). split; [exact He|]. exists (nu x). split; [apply Hn; eauto|]. apply (Permutation_in _ (Permutation_sym Q)). now apply in_map.
Qed.
Lemma nodup_setdiff a b : NoDup a -> NoDup (setdiff1d a b).
Proof. intros H. unfold setdiff1d. now apply NoDup_filter. Qed.

(* C108.  the element sets of the image are the images: design elements and elements kept
   at 1 correspond, so C108_run applies to tasks given by mesh, node lists and options *)
Theorem C108_element_sets : forall p nu T T' c pb pb', task_image p nu T T' -> built_from T c pb -> built_from T' c pb' ->
  let n := List.length (ta_t T) in
  same_set n p (d_design (pb_dom pb)) (d_design (pb_dom pb')) /\
  NoDup (d_design (pb_dom pb)) /\ NoDup (d_design (pb_dom pb')) /\
  (forall e, In e (d_design (pb_dom pb)) -> (e < n)%nat) /\ (forall e, In e (d_design (pb_dom pb')) -> (e < n)%nat) /\
  match pins pb c, pins pb' c with
  | None, None => True | Some l, Some l' => same_set n p l l' | _, _ => False end.
Proof.
  intros p nu T T' c pb pb' H (d & Hd & Hpb) (d' & Hd' & Hpb') n.
  destruct (from_nodes_inv _ _ _ _ _ _ _ _ _ Hd) as ((f & Ef) & _ & HF & HN & HI & HNe & HDi & HE & Hnone).
  destruct (from_nodes_inv _ _ _ _ _ _ _ _ _ Hd') as ((f' & Ef') & _ & HF' & HN' & HI' & HNe' & HDi' & HE' & Hnone').
  assert (SD : same_set n p (d_design d) (d_design d')).
  { intros e He. rewrite HI, HI'. rewrite (ti_design _ _ _ _ H e He). unfold kept_out.
    rewrite (touches_image p nu T T' _ _ e H (ti_neumann _ _ _ _ H) He), (touches_image p nu T T' _ _ e H (ti_robin _ _ _ _ H) He), (ti_design_robin _ _ _ _ H). reflexivity. }
  assert (SN : same_set n p (olist (d_neumann d)) (olist (d_neumann d'))).
  { intros e He. rewrite HNe, HNe'. now apply touches_image with (nu := nu); [|apply (ti_neumann _ _ _ _ H)|]. }
  assert (SI : same_set n p (olist (d_dirichlet d)) (olist (d_dirichlet d'))).
  { intros e He. rewrite HDi, HDi'. now apply touches_image with (nu := nu); [|apply (ti_dirichlet _ _ _ _ H)|]. }
  assert (ND : NoDup (d_design d)) by (rewrite Ef; apply NoDup_filter, (ti_nodup _ _ _ _ H)).
  assert (ND' : NoDup (d_design d')) by (rewrite Ef'; apply NoDup_filter, (ti_nodup' _ _ _ _ H)).
  assert (RD : forall e, In e (d_design d) -> (e < n)%nat) by (intros e He; apply HI in He; apply (ti_range _ _ _ _ H), He).
  assert (RD' : forall e, In e (d_design d') -> (e < n)%nat) by (intros e He; apply HI' in He; apply (ti_range' _ _ _ _ H), He).
  unfold pins. rewrite Hpb, Hpb'. destruct (i_design_dirichlet c).
  - repeat (split; [assumption|]). pose proof (ti_given _ _ _ _ H) as G. destruct (d_neumann d) as [l|] eqn:E1, (d_neumann d') as [l'|] eqn:E2; try exact I.
    + exact SN.
    + assert (ta_neumann T' = None) as Q by now apply Hnone'. apply G, Hnone in Q. discriminate.
    + assert (ta_neumann T = None) as Q by now apply Hnone. apply G, Hnone' in Q. discriminate.
  - cbn [exclude_dirichlet d_design d_dir_neu]. split; [|split; [|split; [|split; [|split]]]].
    + intros e He. rewrite !setdiff_in. rewrite (SD e He), (SI e He). reflexivity.
    + now apply nodup_setdiff. + now apply nodup_setdiff.
    + intros e Q. apply setdiff_in in Q. now apply RD. + intros e Q. apply setdiff_in in Q. now apply RD'.
    + intros e He. rewrite HE, HE', !in_app_iff. rewrite (SN e He), (SI e He). reflexivity.
Qed.
Print Assumptions C108_element_sets.

(* the beam of C108_instance, from its mesh: nodes 0 and 2 exchanged *)
Theorem C108_sets_instance : task_image [1;0;2]%nat (fun x => match x with 0%nat => 2%nat | 2%nat => 0%nat | _ => x end) sy_T sy_T.
Proof.
  constructor; cbn [sy_T ta_t ta_dirichlet ta_neumann ta_robin ta_design ta_design_robin List.length].
  - apply perm_swap.
  - intros [|[|[|x]]] [|[|[|y]]]; cbn; congruence.
  - reflexivity.
  - intros [|[|[|e]]] He; [| | |lia]; cbn; try apply perm_swap; apply Permutation_refl.
  - intros y. cbn. split; [intros [<-|[<-|[]]]; [exists 2%nat|exists 0%nat]; auto|]. intros (x & -> & [<-|[<-|[]]]); auto.
  - intros y. cbn. split; [intros [<-|[]]; exists 4%nat; auto|]. intros (x & -> & [<-|[]]); auto.
  - split; congruence.
  - intros y. cbn. split; [easy|]. intros (x & _ & []).
  - reflexivity.
  - intros [|[|[|e]]] He; [| | |lia]; cbn; intuition.
  - repeat constructor; cbn; intuition discriminate. - repeat constructor; cbn; intuition discriminate.
  - intros e [<-|[<-|[<-|[]]]]; lia. - intros e [<-|[<-|[<-|[]]]]; lia.
Qed.
