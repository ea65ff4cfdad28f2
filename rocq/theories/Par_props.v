(* C106: the loops compiled with parallel=True give the result of the sequential loop,
   for every distribution of the iterations and every interleaving of the workers. *)
From Verif Require Import Base Mesh_model Mesh_spec Mesh_proofs Mesh_props Par_model Par_spec Par_proofs.
From Coq Require Import Permutation.
Open Scope R_scope.
Open Scope list_scope.

(* iteration e of the orientation loop, alone *)
Definition orient_effect (p : list vec3) (e : nat) (m : memory nat) : memory nat :=
  if Rltb (tet_vol p [m (0%nat, e); m (1%nat, e); m (2%nat, e); m (3%nat, e)]) 0
  then put (put m (1%nat, e) (m (2%nat, e))) (2%nat, e) (m (1%nat, e)) else m.
Lemma orient_within p (S : cell -> Prop) e k : (forall r, S (r, e)) -> within S k -> within S (orient_body p e k).
Proof. intros H Hk. unfold orient_body. cbn [within]. repeat (split; [apply H|intros ?]). destruct (Rltb _ 0); [|exact Hk]. cbn [within]. repeat split; try apply H. exact Hk. Qed.
Lemma orient_takes p n e k : takes n k -> takes (8 + n) (orient_body p e k).
Proof.
  intros H. unfold orient_body. cbn [takes Nat.add]. intros n0 n1 n2 n3. destruct (Rltb _ 0); [cbn [takes]; auto|].
  assert (G : forall d (k : code nat) n, takes n k -> takes (d + n) k).
  { clear. intros d k. revert d. induction k as [|c k IH|c x k IH]; intros d n H; [exact I| |]; cbn [takes] in *; destruct n as [|n]; try easy; rewrite Nat.add_succ_r; cbn [takes]; [intros y; apply IH; auto|apply IH; auto]. }
  exact (G 4%nat k n H).
Qed.
Lemma orient_alone p e k m : alone (orient_body p e k) m = alone k (orient_effect p e m).
Proof. unfold orient_body, orient_effect. cbn [alone]. destruct (Rltb _ 0); [|reflexivity]. cbn [alone]. reflexivity. Qed.
Lemma orient_column p e (m m' : memory nat) : (forall r, m (r, e) = m' (r, e)) -> forall r, orient_effect p e m (r, e) = orient_effect p e m' (r, e).
Proof. intros H r. unfold orient_effect. rewrite !H. destruct (Rltb _ 0); [|apply H]. unfold put. repeat destruct (cell_eqb _ _); auto. Qed.
Lemma orient_other p e (m : memory nat) r e' : e' <> e -> orient_effect p e m (r, e') = m (r, e').
Proof. intros H. unfold orient_effect. destruct (Rltb _ 0); [|reflexivity]. rewrite !put_neq; [reflexivity| |]; intros Q; injection Q; auto. Qed.

(* the orientation loop of a tetrahedral mesh *)
Theorem C106_orientation_any_schedule : forall p t assign j s, tets t -> shares (List.length t) assign ->
  loop_reaches (orient_body p) (conn_memory t) assign j s -> finished s ->
  conn_result (List.length t) (snd s) = fix_tetrahedron_orientation p t.
Proof.
  intros p t assign j s Ht HS HR HF.
  pose proof (loop_result (orient_body p) (orient_effect p) (orient_within p) (orient_alone p) (orient_column p) (orient_other p) _ assign _ j s HS HR HF) as G.
  unfold conn_result, fix_tetrahedron_orientation. apply nth_ext with (d := []) (d' := fix_tet1 p []); rewrite !map_length, ?seq_length; [reflexivity|]. intros e He.
  rewrite (nth_indep _ [] ((fun e => map (fun r => snd s (r, e)) (seq 0 4)) 0%nat)) by (rewrite map_length, seq_length; exact He).
  rewrite (map_nth (fun e => map (fun r => snd s (r, e)) (seq 0 4))), seq_nth by exact He. rewrite map_nth. cbn [seq map Nat.add]. rewrite !G by exact He.
  unfold tets in Ht. rewrite Forall_forall in Ht. specialize (Ht _ (nth_In t [] He)). assert (M : forall r, conn_memory t (r, e) = nd (nth e t []) r) by reflexivity.
  set (m := conn_memory t) in *. clearbody m. destruct (nth e t []) as [|a [|b [|c [|d [|]]]]]; try discriminate.
  pose proof (M 0%nat) as M0. pose proof (M 1%nat) as M1. pose proof (M 2%nat) as M2. pose proof (M 3%nat) as M3. unfold nd in M0, M1, M2, M3. cbn [nth] in M0, M1, M2, M3.
  assert (EF : orient_effect p e m = if Rltb (tet_vol p [a; b; c; d]) 0 then put (put m (1%nat, e) c) (2%nat, e) b else m) by (unfold orient_effect; now rewrite M0, M1, M2, M3).
  rewrite EF. cbn [fix_tet1]. destruct (Rltb (tet_vol p [a; b; c; d]) 0).
  - unfold put, cell_eqb. cbn [fst snd Nat.eqb andb]. now rewrite Nat.eqb_refl, M0, M3.
  - now rewrite M0, M1, M2, M3.
Qed.
Print Assumptions C106_orientation_any_schedule.

(* no schedule runs for ever or gets stuck *)
Theorem C106_orientation_ends : forall p t assign j s, shares (List.length t) assign -> loop_reaches (orient_body p) (conn_memory t) assign j s ->
  (j <= 8 * List.length t)%nat /\ exists j' s', loop_reaches (orient_body p) (conn_memory t) assign (j + j') s' /\ steps j' s s' /\ finished s'.
Proof.
  intros p t assign j s HS HR.
  destruct (loop_ends (orient_body p) 8 (orient_takes p) _ assign _ j s HS HR) as (A & j' & s' & B & C).
  split; [exact A|]. exists j', s'. split; [exact (steps_trans _ _ _ _ _ HR B)|auto].
Qed.
Print Assumptions C106_orientation_ends.

(* volumes *)
Definition volume_effect (vol : elem -> R) (t : list elem) (e : nat) (m : memory R) : memory R := put m (0%nat, e) (vol (nth e t [])).
Lemma volume_loop vol t assign j s : shares (List.length t) assign -> loop_reaches (volume_body vol t) zeros_memory assign j s ->
  (finished s -> volume_result (List.length t) (snd s) = map vol t) /\ (j <= List.length t)%nat /\ exists j' s', steps j' s s' /\ finished s'.
Proof.
  intros HS HR. split.
  - intros HF. assert (G : forall r e, (e < List.length t)%nat -> snd s (r, e) = volume_effect vol t e zeros_memory (r, e)).
    { apply (loop_result (volume_body vol t) (volume_effect vol t)) with (assign := assign) (j := j); auto.
      - intros S e k H Hk. cbn. auto.
      - intros e m m' H r. unfold volume_effect, put. destruct (cell_eqb _ _); auto.
      - intros e m r e' H. unfold volume_effect. apply put_neq. intros Q. injection Q. auto. }
    unfold volume_result. apply nth_ext with (d := 0) (d' := vol []); rewrite !map_length, ?seq_length; [reflexivity|]. intros e He.
    rewrite (nth_indep _ 0 ((fun e => snd s (0%nat, e)) 0%nat)) by (rewrite map_length, seq_length; exact He).
    rewrite (map_nth (fun e => snd s (0%nat, e))), seq_nth by exact He. rewrite map_nth. rewrite G by exact He. apply put_eq.
  - destruct (loop_ends (volume_body vol t) 1) with (n := List.length t) (assign := assign) (m := zeros_memory) (j := j) (s := s) as (A & B); auto. rewrite Nat.mul_1_l in A. auto.
Qed.
Theorem C106_volumes_any_schedule : forall p t assign j s, shares (List.length t) assign ->
  (loop_reaches (volume_body (tet_vol p) t) zeros_memory assign j s -> finished s ->
   forall vs, elements_volume_tet p t = Ok vs -> volume_result (List.length t) (snd s) = vs) /\
  (loop_reaches (volume_body (hex_vol p) t) zeros_memory assign j s -> finished s ->
   volume_result (List.length t) (snd s) = elements_volume_hex p t).
Proof.
  intros p t assign j s HS. split; intros HR HF.
  - intros vs H. unfold elements_volume_tet in H. destruct (existsb _ _); [discriminate|]. injection H as <-. exact (proj1 (volume_loop _ _ _ _ _ HS HR) HF).
  - exact (proj1 (volume_loop _ _ _ _ _ HS HR) HF).
Qed.
Print Assumptions C106_volumes_any_schedule.
Theorem C106_volumes_end : forall vol t assign j s, shares (List.length t) assign -> loop_reaches (volume_body vol t) zeros_memory assign j s ->
  (j <= List.length t)%nat /\ exists j' s', loop_reaches (volume_body vol t) zeros_memory assign (j + j') s' /\ steps j' s s' /\ finished s'.
Proof.
  intros vol t assign j s HS HR. destruct (volume_loop _ _ _ _ _ HS HR) as (_ & A & j' & s' & B & C). split; [exact A|]. exists j', s'. split; [exact (steps_trans _ _ _ _ _ HR B)|auto].
Qed.
Print Assumptions C106_volumes_end.

(* REFUTED as a replacement for the sequential function: it refuses inverted elements, the
   parallel one returns their negative volume, under every schedule *)
Theorem C106_tet_volumes_unchecked_refuted : forall p t assign j s, shares (List.length t) assign ->
  loop_reaches (volume_body (tet_vol p) t) zeros_memory assign j s -> finished s -> elements_volume_tet p t = Err ValueError ->
  exists e, (e < List.length t)%nat /\ nth e (volume_result (List.length t) (snd s)) 0 = tet_vol p (nth e t []) /\ nth e (volume_result (List.length t) (snd s)) 0 < - / 1000000000000.
Proof.
  intros p t assign j s HS HR HF H. rewrite (proj1 (volume_loop _ _ _ _ _ HS HR) HF). unfold elements_volume_tet in H. destruct (existsb _ _) eqn:E; [|discriminate].
  apply existsb_exists in E. destruct E as (x & Hx & Hlt). apply In_nth with (d := 0) in Hx. destruct Hx as (e & He & Ee). rewrite map_length in He. exists e. split; [exact He|].
  split; [|rewrite Ee; now apply Rltb_true]. rewrite (nth_indep _ 0 (tet_vol p [])) by (now rewrite map_length). apply map_nth.
Qed.
Print Assumptions C106_tet_volumes_unchecked_refuted.

(* one after the other: whatever the schedules, the exact volumes *)
Theorem C106_repair_then_volumes : forall p t assign j s assign' j' s', tets t -> shares (List.length t) assign ->
  loop_reaches (orient_body p) (conn_memory t) assign j s -> finished s ->
  let t' := conn_result (List.length t) (snd s) in
  shares (List.length t') assign' -> loop_reaches (volume_body (tet_vol p) t') zeros_memory assign' j' s' -> finished s' ->
  volume_result (List.length t') (snd s') = map (fun e => match elem_points p e with [a; b; c; d] => tetra_volume a b c d | _ => 0 end) t.
Proof.
  intros p t assign j s assign' j' s' Ht HS HR HF t' HS' HR' HF'.
  assert (E : t' = fix_tetrahedron_orientation p t) by exact (C106_orientation_any_schedule p t assign j s Ht HS HR HF).
  apply (proj1 (C106_volumes_any_schedule p t' assign' j' s' HS') HR' HF'). rewrite E. now apply C52_tet_volumes_after_repair.
Qed.
Print Assumptions C106_repair_then_volumes.

(* disjointness matters: if two workers were given the same inverted element, one schedule
   swaps it twice and it stays inverted *)
Definition ex_p : list vec3 := [(0,0,0); (1,0,0); (0,1,0); (0,0,1)].
Lemma ex_inverted : Rltb (tet_vol ex_p [0;2;1;3]%nat) 0 = true.
Proof. apply Rltb_true. unfold tet_vol, triple, vdot, vcross, vsub, ex_p, pt, nd. cbn. lra. Qed.
Lemma ex_upright : Rltb (tet_vol ex_p [0;1;2;3]%nat) 0 = false.
Proof. apply Bool.not_true_iff_false. intros H. apply Rltb_true in H. revert H. unfold tet_vol, triple, vdot, vcross, vsub, ex_p, pt, nd. cbn. lra. Qed.
Ltac go i := eapply steps_more; [match i with 0%nat => apply (step_one []) | _ => eapply (step_one [_]) end; constructor|]; cbn [app].
Theorem C106_once_each_needed : exists j s, loop_reaches (orient_body ex_p) (conn_memory [[0;2;1;3]]%nat) [[0]; [0]]%nat j s /\ finished s /\
  conn_result 1 (snd s) = [[0;2;1;3]]%nat.
Proof.
  (* both read the four corners and decide to swap; then one swaps, then the other *)
  set (m := conn_memory [[0;2;1;3]]%nat).
  set (S1 := fun m : memory nat => put (put m (1%nat, 0%nat) (m (2%nat, 0%nat))) (2%nat, 0%nat) (m (1%nat, 0%nat))).
  exists 16%nat, ([Halt; Halt], S1 (S1 m)). split; [|split].
  - unfold loop_reaches. cbn [map worker fold_right].
    assert (D : Rltb (tet_vol ex_p [m (0, 0); m (1, 0); m (2, 0); m (3, 0)]%nat) 0 = true) by exact ex_inverted.
    unfold orient_body at 1. do 4 (go 0%nat). cbv beta. rewrite D. unfold orient_body at 1. do 4 (go 1%nat). cbv beta. rewrite D.
    do 4 (go 0%nat). do 4 (go 1%nat). apply steps_none.
  - intros P [<-|[<-|[]]]; reflexivity.
  - reflexivity.
Qed.
Print Assumptions C106_once_each_needed.

(* two elements, the first inverted, each with its own worker: a finished execution exists
   and its result has both upright *)
Example C106_instance : exists j s, loop_reaches (orient_body ex_p) (conn_memory [[0;2;1;3];[0;1;2;3]]%nat) [[1]; [0]]%nat j s /\ finished s /\
  conn_result 2 (snd s) = [[0;1;2;3];[0;1;2;3]]%nat.
Proof.
  set (t := [[0;2;1;3];[0;1;2;3]]%nat). assert (HS : shares (List.length t) [[1]; [0]]%nat) by (cbn; constructor).
  destruct (C106_orientation_ends ex_p t [[1]; [0]]%nat 0 _ HS (steps_none _)) as (_ & j & s & R & _ & F). exists (0 + j)%nat, s. split; [exact R|]. split; [exact F|].
  refine (eq_trans (C106_orientation_any_schedule ex_p t _ _ _ ltac:(repeat constructor) HS R F) _).
  unfold fix_tetrahedron_orientation. cbn [map fix_tet1 t]. now rewrite ex_inverted, ex_upright.
Qed.
