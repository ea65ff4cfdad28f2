(* C19, C21: what the volume error and the running scale of an OC update mean. *)
From Verif Require Import Base Sums Material_model Material_proofs OC_model OC_spec OC_proofs OC_props Filter_proofs.
Open Scope R_scope.
Open Scope list_scope.

Lemma scatter_placed ids : NoDup ids -> forall old vals, List.length vals = List.length ids ->
  (forall i, In i ids -> (i < List.length old)%nat) -> placed old ids vals (scatter old ids vals).
Proof.
  induction 1 as [|i ids Hi Hn IH]; intros old vals Hl Hr; destruct vals as [|v vals]; try discriminate.
  - cbn [scatter]. split; [reflexivity|split; [intros k Hk; cbn in Hk; lia|auto]].
  - cbn [scatter]. destruct (IH (upd old i v) vals) as (A & B & C).
    + cbn in Hl. lia.
    + intros j Hj. rewrite upd_len. apply Hr. now right.
    + split; [rewrite A; apply upd_len|split].
      * intros [|k] Hk; cbn [nth].
        -- rewrite C by exact Hi. rewrite upd_nth by (apply Hr; now left). now rewrite Nat.eqb_refl.
        -- apply B. cbn in Hk. lia.
      * intros j Hj. rewrite C by (intros X; apply Hj; now right).
        rewrite upd_nth by (apply Hr; now left). destruct (Nat.eqb_spec j i) as [->|]; [|reflexivity].
        exfalso. apply Hj. now left.
Qed.
Lemma placed_unique old ids vals a b : placed old ids vals a -> placed old ids vals b -> a = b.
Proof.
  intros (A1 & A2 & A3) (B1 & B2 & B3). apply (nth_ext _ _ 0 0); [congruence|].
  intros j _. destruct (in_dec Nat.eq_dec j ids) as [Hj|Hj].
  - apply (In_nth _ _ 0%nat) in Hj as (k & Hk & <-). rewrite A2, B2 by exact Hk. reflexivity.
  - rewrite A3, B3 by exact Hj. reflexivity.
Qed.
Lemma nth_map0 (g : nat -> R) ids k : (k < List.length ids)%nat -> nth k (map g ids) 0 = g (nth k ids 0%nat).
Proof. revert k; induction ids as [|i ids IH]; intros [|k] H; cbn in *; try lia; auto. apply IH. lia. Qed.
Lemma volume_error_fraction P rho full :
  placed (oc_rho_full P) (oc_design P) rho full -> NoDup (oc_design P) ->
  (forall i, In i (oc_design P) -> (i < List.length (oc_rho_full P))%nat) ->
  List.length rho = List.length (oc_design P) -> List.length (oc_volumes P) = List.length (oc_design P) ->
  volume_error P rho =
  material_fraction (oc_filter P) (oc_beta P) (oc_beta_eta P) full (oc_design P) (oc_volumes P) (oc_vol_sum P)
  - oc_vol_frac P.
Proof.
  intros Hp Hn Hr Hl Hv. unfold volume_error, material_fraction.
  rewrite (placed_unique _ _ _ _ _ Hp (scatter_placed _ Hn _ _ Hl Hr)). f_equal. f_equal. f_equal.
  set (G := scatter _ _ _). apply (nth_ext _ _ 0 0).
  - rewrite zipwith_length, !map_length, seq_length; [unfold gather; now rewrite map_length|].
    unfold gather. rewrite map_length. now symmetry.
  - intros k Hk. rewrite zipwith_length in Hk by (unfold gather; rewrite map_length; now symmetry).
    unfold gather in Hk. rewrite map_length in Hk.
    assert (Z : forall (l m : list R) j, List.length l = List.length m -> (j < List.length l)%nat ->
              nth j (zipwith Rmult l m) 0 = nth j l 0 * nth j m 0).
    { intros l. induction l as [|x l IH]; intros [|y m] [|j] E Hj; cbn in *; try lia; auto. apply IH; lia. }
    rewrite Z by (unfold gather; rewrite map_length; lia). 
    assert (Z2 : forall (f : nat -> R) m j, (j < m)%nat -> nth j (map f (seq 0 m)) 0 = f j).
    { intros f m j Hj. rewrite (nth_indep (map f (seq 0 m)) 0 (f 0%nat)) by (rewrite map_length, seq_length; lia).
      rewrite map_nth, seq_nth by lia. reflexivity. }
    rewrite Z2 by exact Hk. f_equal. unfold gather.
    rewrite nth_map0 by exact Hk. rewrite <- (H_at_0 (oc_beta P) (oc_beta_eta P)) at 1.
    apply (map_nth (fun x => heaviside_projection x (oc_beta P) (oc_beta_eta P))).
Qed.

(* The volume error an update reports is the deviation of the physical (filtered,
   projected) volume fraction of the new design from the target. *)
Theorem C19_reported_error_is_physical : forall cfg running a r new full,
  NoDup (a_design a) -> (forall i, In i (a_design a) -> (i < List.length (a_rho_full a))%nat) ->
  List.length (a_dC a) = List.length (a_design a) -> List.length (a_volumes a) = List.length (a_design a) ->
  c_lambda_lower cfg <= c_lambda_upper cfg ->
  rho_update cfg running a = Some r -> r_rho r = Some new -> placed (a_rho_full a) (a_design a) new full ->
  r_vol_error r = Some (material_fraction (a_filter a) (a_beta a) (c_beta_eta cfg) full (a_design a) (a_volumes a) (a_vol_sum a)
                        - a_vol_frac a).
Proof.
  intros cfg running a r new full Hn Hr Hl Hv Hb H Hnew Hp. unfold rho_update in H.
  set (dC := map _ (a_dC a)) in H. set (P := oc_problem_of cfg a dC) in H.
  destruct (bisection_consistent P 1000 (1/100000) (1/10000) _ _ Hb) as (o & E & _ & _ & C1 & C2).
  rewrite E in H. injection H as <-. cbn [r_rho r_vol_error] in *. rewrite C2, Hnew. f_equal.
  assert (Ln : List.length new = List.length (a_design a)).
  { rewrite C1 in Hnew. unfold candidate in Hnew.
    assert (Z : forall l m, all_some l = Some m -> List.length m = List.length l).
    { intros l. induction l as [|[x|] l IH]; intros m; cbn; [now intros [= <-]| |discriminate].
      destruct (all_some l) as [t|] eqn:Et; [|discriminate]. intros [= <-]. cbn. f_equal. now apply IH. }
    rewrite (Z _ _ Hnew). rewrite zipwith_length.
    - unfold P, dC. cbn. now rewrite map_length.
    - unfold P, dC. cbn. unfold gather. now rewrite !map_length. }
  apply (volume_error_fraction P new full); auto.
Qed.
Print Assumptions C19_reported_error_is_physical.

(* The first update of a run does not depend on what was in running_scale before, and
   normalises by the scale of its own sensitivities; later ones average 60:40. *)
Theorem C21_first_update_ignores_history : forall cfg running running' a, (a_iter a <= 1)%Z ->
  rho_update cfg running a = rho_update cfg running' a.
Proof.
  intros cfg r r' a Hi. unfold rho_update, next_running_scale.
  replace (1 <? a_iter a)%Z with false by (symmetry; apply Z.ltb_ge; lia). reflexivity.
Qed.
Print Assumptions C21_first_update_ignores_history.
Theorem C21_running_scale : forall cfg running a r, rho_update cfg running a = Some r ->
  let s := Rmax (raw_scale (a_percentile a) (a_dC a)) (c_floor cfg) in
  r_running r = (if (1 <? a_iter a)%Z then 6/10 * running + 4/10 * s else s) /\
  r_dC_scaled r = map (fun x => x / r_running r) (a_dC a).
Proof.
  intros cfg running a r H s. unfold rho_update in H.
  destruct (bisection_with_physical_volume _ _ _ _ _ _) as [b|]; [|discriminate]. injection H as <-.
  cbn [r_running r_dC_scaled]. split; [|reflexivity].
  unfold next_running_scale, sens_scale. fold s. destruct (1 <? a_iter a)%Z; [field|reflexivity].
Qed.
Print Assumptions C21_running_scale.
(* the percentile scale lies between the smallest and largest |dC| would be the next
   step; the instance: two design elements, first iteration *)
Example C19_reported_instance : NoDup [0;1]%nat /\ placed [1/2; 1/2] [0;1]%nat [4/10; 6/10] [4/10; 6/10] /\
  (forall r, rho_update ex_cfg 0 ex_args = Some r -> r_running r = 2).
Proof.
  split; [repeat constructor; cbn; intuition discriminate|split].
  - split; [reflexivity|split].
    + intros [|[|k]] Hk; cbn in *; try reflexivity; lia.
    + intros [|[|[|j]]] Hj; cbn; try reflexivity; exfalso; apply Hj; cbn; auto.
  - intros r H. destruct (C21_running_scale ex_cfg 0 ex_args r H) as [E _]. rewrite E. cbn.
    rewrite (Rabs_left (-1)), (Rabs_left (-2)) by lra. rewrite (Rmax_right (- -1)) by lra. rewrite Rmax_left; lra.
Qed.
