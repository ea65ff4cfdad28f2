(* C108: an instance of C108_any_rotation with the filter of the turned mesh. *)
From Coq Require Import Permutation.
From Verif Require Import Base Sums Material_model OC_model Filter_model Mesh_model Fea_model Fea_spec
  Iter_model Iter_spec Iter_proofs Iter_props Scale_proofs Scale_props HeatIter_props Order_spec Order_proofs Order_props Turn_spec Turn_props.
Open Scope R_scope.
Open Scope list_scope.

(* the filter of the turned mesh: every centre of sy_filter turned by the same angle *)
Definition tq_filter := mkSF [[0; 0]; [3/5; 4/5]; [-(1/2); 1]] (Some [true; true; false]) 1 None.
Lemma tq_filter_turned : sf_centers tq_filter = map (fun c => [tq 0 0 * nth 0 c 0 + tq 0 1 * nth 1 c 0; tq 1 0 * nth 0 c 0 + tq 1 1 * nth 1 c 0]) (sf_centers sy_filter).
Proof. cbn. repeat match goal with |- (_ :: _) = (_ :: _) => f_equal end; try reflexivity; field. Qed.
Definition tq_same := mkImage [0;1;2]%nat [0;1;2]%nat (fun _ q => q) (fun _ => 1) (fun _ => 1) (fun i => i).
Lemma tq_image : reordered tq_same ex_c tq_pb tq_pb.
Proof.
  constructor; cbn [tq_same tq_pb tq_B pb_basis pb_dom pb_D pb_loads pb_volumes sy_dom d_design fb_n fb_ne fb_nq fb_dx fb_grad m_elements m_dofs m_points m_sign m_axis m_turn]; try reflexivity.
  - split; [apply Permutation_refl|]. split; [apply Permutation_refl|]. split; [intros; apply Permutation_refl|]. split; [intros; now left|]. split; [intros i; now left|apply Permutation_refl].
  - intros e q k i j He Hq Hk Hi Hj. small e; small k; unfold old; cbn [nth]; ring.
  - intros e He. cbn. tauto.
  - constructor; [|constructor]. intros k Hk. small k; unfold old; cbn [nth]; ring.
  - intros e He. small e; cbn; tauto.
  - repeat constructor; cbn; intuition discriminate. - repeat constructor; cbn; intuition discriminate.
  - intros e [<-|[<-|[]]]; lia. - intros e [<-|[<-|[]]]; lia.
  - cbn [pins ex_c i_design_dirichlet tq_pb pb_dom sy_dom d_neumann]. intros e He. small e; cbn; tauto.
Qed.
Lemma tq_filter_image : filter_reordered [0;1;2]%nat sy_filter tq_filter.
Proof.
  constructor; try reflexivity. cbn [sy_filter tq_filter sf_centers List.length]. intros i j Hi Hj.
  destruct i as [|[|[|]]]; [| | |lia]; (destruct j as [|[|[|]]]; [| | |lia]); cbn [nth old]; unfold dist; f_equal; cbn [zipwith]; unfold rsum; cbn [fold_right]; field.
Qed.
Theorem C108_any_rotation_filter_instance : let sched := [(1%Z, ex_v); (2%Z, ex_v); (3%Z, ex_v)] in
  exists l l', run dg_pb ex_c sched (mkIS [1/2; 1/2; 1] sy_filter 0 0 None None) = Ok l /\ run tq_pb ex_c sched (mkIS [1/2; 1/2; 1] tq_filter 0 0 None None) = Ok l' /\
    List.length l' = List.length l /\ Forall2 (fun s s' => forall e, (e < 3)%nat -> nth e (s_rho s') 0 = nth e (s_rho s) 0) l l'.
Proof.
  intros sched. set (s0 := mkIS [1/2; 1/2; 1] sy_filter 0 0 None None). set (s1 := mkIS [1/2; 1/2; 1] tq_filter 0 0 None None).
  assert (N : pins_known sy_T ex_c) by (left; discriminate).
  assert (Hd : forall e, In e (ta_design sy_T) -> (e < List.length (ta_t sy_T))%nat) by (intros e [<-|[<-|[<-|[]]]]; cbn; lia).
  assert (HW : forall i v, In (i, v) sched -> v = ex_v) by (intros i v [P|[P|[P|[]]]]; congruence).
  assert (HD : densities_ok sy_T ex_c (s_rho s0)).
  { destruct (sets_of sy_T ex_c dg_pb dg_built N) as (_ & HD & _). cbn [dg_pb pb_dom sy_dom d_design] in HD. split; [reflexivity|]. intros e He. rewrite <- HD. cbn in He.
    destruct e as [|[|[|]]]; [| | |lia]; cbn; (split; [intros P; try lra; exfalso; intuition discriminate|intros P; try reflexivity; exfalso; intuition]). }
  destruct (C26_run_succeeds sy_T ex_c dg_pb sched s0) as (l & El); try exact dg_built; auto; try (cbn; lra).
  { intros i v P. rewrite (HW i v P). split; [cbn; lra|]. split; [now left|exact dg_wp]. }
  assert (W : well_posed tq_pb ex_c ex_v tq_filter).
  { constructor; cbn; try lra. - reflexivity. - exists 0%nat. split; [lia|reflexivity]. - intros; lra. - discriminate. - apply tq_solver. }
  assert (SR : state_reordered (m_elements tq_same) s0 s1) by (constructor; try reflexivity; exact tq_filter_image).
  destruct (C108_any_rotation tq tq tq_same sy_T ex_c dg_pb tq_pb tq_pb sched s0 s1 l tq_turned tq_image dg_built N Hd) as (l' & El' & S); auto; try (cbn; lra).
  { intros i v P. rewrite (HW i v P). split; [cbn; lra|]. split; [exact dg_wp|]. split; [exact tq_wp|exact W]. }
  exists l, l'. split; [exact El|]. split; [exact El'|]. split; [symmetry; exact (F2_len _ _ _ S)|].
  clear - S. induction S as [|x y l l' H _ IH]; constructor; [|exact IH]. intros e He. rewrite (sr_rho _ _ _ H). cbn [tq_same m_elements reorder map]. small e; reflexivity.
Qed.
Print Assumptions C108_any_rotation_filter_instance.
