(* C63: the volume constraint over an iteration.  C64: restart. *)
From Verif Require Import Base Sums Material_model Material_proofs OC_model OC_spec OC_proofs OC_props OCvol_props Filter_model Filter_proofs Filter_props
  Mesh_model Mesh_spec Mesh_proofs Mesh_props Fea_model Fea_spec Fea_proofs Fea_props Iter_model Iter_spec Grad_proofs Iter_proofs Grad_props Iter_props.
Open Scope R_scope.
Open Scope list_scope.

Lemma design_nodup T c pb : built_from T c pb -> NoDup (ta_design T) -> NoDup (d_design (pb_dom pb)).
Proof.
  intros (d & Hd & Hpb) Hnd. destruct (from_nodes_inv _ _ _ _ _ _ _ _ _ Hd) as ((g & Hg) & _).
  assert (NoDup (d_design d)) by (rewrite Hg; now apply NoDup_filter).
  rewrite Hpb. destruct (i_design_dirichlet c); [assumption|]. cbn. now apply NoDup_filter.
Qed.
Lemma gather_nth full ids k : (k < List.length ids)%nat -> nth k (gather full ids) 0 = nth (nth k ids 0%nat) full 0.
Proof. intros H. unfold gather. now apply (nth_map0 (fun i => nth i full 0)). Qed.
Lemma gather_len full ids : List.length (gather full ids) = List.length ids.
Proof. unfold gather. apply map_length. Qed.
Lemma all_some_len l m : all_some l = Some m -> List.length m = List.length l.
Proof. intros H. apply all_some_inv in H. subst l. now rewrite map_length. Qed.
Lemma zip_nth {A C D} (g : A -> C -> D) : forall l m k da dc dd, (k < List.length l)%nat -> (k < List.length m)%nat ->
  nth k (zipwith g l m) dd = g (nth k l da) (nth k m dc).
Proof. induction l as [|x l IH]; intros [|y m] [|k] da dc dd Hl Hm; cbn in *; try lia; auto. apply IH; lia. Qed.

(* a design placed by the rule *)
Lemma rule_candidate pb c v rho dC lam full a dCs :
  NoDup (d_design (pb_dom pb)) -> (forall i, In i (d_design (pb_dom pb)) -> (i < List.length rho)%nat) ->
  a_rho_full a = rho -> a_design a = d_design (pb_dom pb) -> a_move a = v_move v -> a_eta a = v_eta v ->
  dCs = gather dC (d_design (pb_dom pb)) ->
  rule_gives pb c v rho dC lam full <->
  exists new, candidate (oc_problem_of (i_oc c) a dCs) lam = Some new /\ placed rho (d_design (pb_dom pb)) new full.
Proof.
  intros Hnd Hr E1 E2 E3 E4 E5. set (D := d_design (pb_dom pb)) in *. split.
  - intros (L & A & B). exists (gather full D). split.
    + unfold candidate. cbn [oc_problem_of oc_rho_min oc_rho_max oc_move oc_eta oc_eps oc_smin oc_smax oc_dC oc_rho_e].
      rewrite E1, E2, E3, E4, E5. unfold gather.
      assert (G : forall ids, (forall e, In e ids -> In e D) -> all_some (zipwith
        (oc_candidate (c_rho_min (i_oc c)) (c_rho_max (i_oc c)) (v_move v) (v_eta v) tiny (c_smin (i_oc c)) (c_smax (i_oc c)) lam)
        (map (fun i => nth i dC 0) ids) (map (fun i => nth i rho 0) ids)) = Some (map (fun i => nth i full 0) ids)).
      { induction ids as [|e ids IH]; intros Hi; cbn [map zipwith all_some]; [reflexivity|].
        rewrite A by (apply Hi; now left). rewrite IH by (intros; apply Hi; now right). reflexivity. }
      apply G. auto.
    + split; [exact L|]. split; [|exact B]. intros k Hk. now rewrite gather_nth.
  - intros (new & Hc & L & A & B). split; [exact L|]. split; [|exact B].
    intros e He. destruct (In_nth _ _ 0%nat He) as (k & Hk & <-). rewrite A by exact Hk.
    unfold candidate in Hc. cbn [oc_problem_of oc_rho_min oc_rho_max oc_move oc_eta oc_eps oc_smin oc_smax oc_dC oc_rho_e] in Hc.
    rewrite E1, E2, E3, E4, E5 in Hc.
    pose proof (all_some_inv _ _ Hc) as Q.
    assert (Ln : List.length new = List.length D).
    { rewrite (all_some_len _ _ Hc). rewrite zipwith_length; rewrite !gather_len; reflexivity. }
    assert (Q2 : nth k (map Some new) None = Some (nth k new 0)).
    { rewrite (nth_indep _ None (Some 0)) by (rewrite map_length, Ln; exact Hk). apply map_nth. }
    rewrite <- Q in Q2. rewrite (zip_nth _ _ _ k 0 0) in Q2 by (rewrite gather_len; exact Hk).
    now rewrite !gather_nth in Q2 by exact Hk.
Qed.

Lemma scaled_gather (dC : list R) s ids : map (fun x => x / s) (gather dC ids) = gather (map (fun x => x / s) dC) ids.
Proof.
  unfold gather. rewrite map_map. apply map_ext. intros i.
  assert (Q : 0 = (fun x => x / s) 0) by (unfold Rdiv; ring). rewrite Q at 2. now rewrite (map_nth (fun x => x / s)).
Qed.

(* what one accepted iteration is made of *)
Lemma advance_inv T c pb v i s s' f ev : built_from T c pb -> pins_known T c -> NoDup (ta_design T) ->
  (forall e, In e (ta_design T) -> (e < List.length (ta_t T))%nat) ->
  c_lambda_lower (i_oc c) <= c_lambda_upper (i_oc c) -> densities_ok T c (s_rho s) ->
  advance pb c v i s f ev = Ok s' ->
  s_filter s' = f /\ s_eval s' = Some ev /\
  exists r new, let a := oc_args_of pb v i (s_rho s) (s_filter s') ev in
    rho_update (i_oc c) (s_running s) a = Some r /\ r_rho r = Some new /\
    s_running s' = r_running r /\ s_kkt s' = r_kkt r /\
    List.length new = List.length (d_design (pb_dom pb)) /\
    placed (s_rho s) (d_design (pb_dom pb)) new (s_rho s').
Proof.
  intros HT Hne Hnd Hdes Hl (Hlen & Hok) H.
  destruct (sets_of T c pb HT Hne) as (Hn & HD & l & Hp & HL1 & HL2 & HL3). unfold advance in H.
  destruct (rho_update (i_oc c) (s_running s) (oc_args_of pb v i (s_rho s) f ev)) as [r|] eqn:Eu; [|discriminate].
  destruct (r_rho r) as [new|] eqn:En; [|discriminate]. rewrite Hp in H.
  assert (Hf : s_filter s' = f /\ s_eval s' = Some ev /\ s_rho s' = pin (scatter (s_rho s) (d_design (pb_dom pb)) new) (Some l) /\
               s_running s' = r_running r /\ s_kkt s' = r_kkt r).
  { match type of H with Ok ?x = _ => assert (Q : s' = x) by congruence end. rewrite Q. auto. }
  destruct Hf as (Hf & Hev' & Hr & Hrun & Hkkt). subst f. clear H.
  split; [reflexivity|]. split; [exact Hev'|]. exists r, new. cbv zeta. split; [exact Eu|]. split; [exact En|]. split; [exact Hrun|]. split; [exact Hkkt|].
  assert (Hnl : List.length new = List.length (d_design (pb_dom pb))).
  { unfold rho_update in Eu. set (P := oc_problem_of _ _ _) in Eu.
    destruct (bisection_consistent P 1000 (1/100000) (1/10000) _ _ Hl) as (o & E & _ & _ & C1 & _).
    rewrite E in Eu. assert (Q : r_rho r = b_rho o) by (injection Eu as <-; reflexivity).
    rewrite Q, C1 in En. unfold candidate in En. rewrite (all_some_len _ _ En).
    unfold P. cbn [oc_problem_of oc_dC oc_rho_e a_dC a_rho_full a_design oc_args_of]. rewrite zipwith_length; rewrite ?map_length, !gather_len; reflexivity. }
  split; [exact Hnl|].
  assert (R0 : forall i, In i (d_design (pb_dom pb)) -> (i < List.length (s_rho s))%nat).
  { intros e He. rewrite Hlen. apply Hdes. apply HD in He. apply He. }
  destruct (scatter_placed (d_design (pb_dom pb)) (design_nodup T c pb HT Hnd) (s_rho s) new Hnl R0) as (P1 & P2 & P3).
  assert (R1 : forall i, In i l -> (i < List.length (scatter (s_rho s) (d_design (pb_dom pb)) new))%nat).
  { intros e He. rewrite P1, Hlen. now apply HL1. }
  rewrite Hr. split; [now rewrite pin_len|]. split.
  - intros k Hk. rewrite pin_nth by exact R1.
    destruct (in_dec Nat.eq_dec (nth k (d_design (pb_dom pb)) 0%nat) l) as [Q|Q]; [|now apply P2].
    exfalso. apply HL1 in Q. apply (proj2 Q). apply HD. now apply nth_In.
  - intros j Hj. rewrite pin_nth by exact R1. destruct (in_dec Nat.eq_dec j l) as [Q|Q]; [|now apply P3].
    apply HL1 in Q. symmetry. apply Hok; [apply Q|]. tauto.
Qed.

Lemma iterate_inv T c pb v i s s' ev : built_from T c pb -> pins_known T c -> NoDup (ta_design T) ->
  (forall e, In e (ta_design T) -> (e < List.length (ta_t T))%nat) ->
  c_lambda_lower (i_oc c) <= c_lambda_upper (i_oc c) -> densities_ok T c (s_rho s) ->
  iterate pb c v i s = Ok s' -> s_eval s' = Some ev ->
  evaluate pb c v (s_filter s) (s_rho s) = Ok (s_filter s', ev) /\ advance pb c v i s (s_filter s') ev = Ok s'.
Proof.
  intros HT Hne Hnd Hdes Hl Hok H Hev. unfold iterate in H.
  destruct (evaluate pb c v (s_filter s) (s_rho s)) as [[f ev']|]; [|discriminate]. cbn [bind] in H.
  destruct (advance_inv T c pb v i s s' f ev' HT Hne Hnd Hdes Hl Hok H) as (-> & E & _). assert (ev' = ev) by congruence. subst ev'. auto.
Qed.

(* the bisection an iteration runs, in terms of the specification *)
Lemma iteration_bisection T c pb v i s s' ev :
  built_from T c pb -> pins_known T c -> NoDup (ta_design T) ->
  (forall e, In e (ta_design T) -> (e < List.length (ta_t T))%nat) ->
  c_lambda_lower (i_oc c) <= c_lambda_upper (i_oc c) ->
  densities_ok T c (s_rho s) -> advance pb c v i s (s_filter s') ev = Ok s' ->
  let dC := map (fun x => x / s_running s') (ev_dC ev) in
  let rule := rule_gives pb c v (s_rho s) dC in
  let frac := fraction_of pb c v (s_filter s') in
  let D := d_design (pb_dom pb) in
  let P := oc_problem_of (i_oc c) (oc_args_of pb v i (s_rho s) (s_filter s') ev) (gather dC D) in
  (forall lam full, rule lam full <-> exists new, candidate P lam = Some new /\ placed (s_rho s) D new full) /\
  (forall lam new, candidate P lam = Some new -> placed (s_rho s) D new (scatter (s_rho s) D new)) /\
  (forall lam new full, candidate P lam = Some new -> placed (s_rho s) D new full ->
     volume_error P new = frac full - v_vol_frac v) /\
  exists o, bisection_with_physical_volume P 1000 (1/100000) (1/10000) (c_lambda_lower (i_oc c)) (c_lambda_upper (i_oc c)) = Some o /\
    c_lambda_lower (i_oc c) <= b_lmid o <= c_lambda_upper (i_oc c) /\
    b_vol_error o = Some (frac (s_rho s') - v_vol_frac v) /\ rule (b_lmid o) (s_rho s').
Proof.
  intros HT Hne Hnd Hdes Hl Hok H dC rule frac D P.
  destruct (advance_inv T c pb v i s s' (s_filter s') ev HT Hne Hnd Hdes Hl Hok H) as (_ & _ & r & new & Hr & Hnew & Hrun & Hkkt & Hnl & Hpl).
  set (a := oc_args_of pb v i (s_rho s) (s_filter s') ev) in *. fold D in Hnl, Hpl.
  destruct (sets_of T c pb HT Hne) as (_ & HD & _). fold D in HD.
  assert (R0 : forall i, In i D -> (i < List.length (s_rho s))%nat).
  { intros e He. rewrite (proj1 Hok). apply Hdes. apply HD in He. apply He. }
  pose proof (design_nodup T c pb HT Hnd) as Hnd'. fold D in Hnd'.
  unfold rho_update in Hr. set (rs := next_running_scale _ _ _) in Hr. set (dCs := map _ (a_dC a)) in Hr.
  assert (HdC : dCs = gather dC D).
  { assert (Q2 : r_running r = rs) by (destruct (bisection_with_physical_volume _ _ _ _ _ _); [injection Hr as <-; reflexivity|discriminate]).
    unfold dCs, dC. rewrite Hrun, Q2. apply scaled_gather. }
  rewrite HdC in Hr. fold P in Hr.
  destruct (bisection_consistent P 1000 (1/100000) (1/10000) _ _ Hl) as (o & E & _ & B & C1 & C2).
  rewrite E in Hr. assert (Q1 : r_rho r = b_rho o) by (injection Hr as <-; auto).
  assert (Hrule : forall lam full, rule lam full <-> exists new, candidate P lam = Some new /\ placed (s_rho s) D new full).
  { intros lam full. unfold rule, P. apply rule_candidate; auto. }
  assert (Hcl : forall lam nw, candidate P lam = Some nw -> List.length nw = List.length D).
  { intros lam nw Hc. unfold candidate in Hc. rewrite (all_some_len _ _ Hc).
    unfold P. cbn [oc_problem_of oc_dC oc_rho_e]. rewrite zipwith_length; rewrite !gather_len; reflexivity. }
  assert (Hfrac : forall lam new full, candidate P lam = Some new -> placed (s_rho s) D new full ->
    volume_error P new = frac full - v_vol_frac v).
  { intros lam nw full Hc Hpf. rewrite (volume_error_fraction P nw full); auto; [exact (Hcl _ _ Hc)|].
    unfold P. cbn. unfold gather. now rewrite map_length. }
  split; [exact Hrule|]. split; [|split; [exact Hfrac|]].
  { intros lam nw Hc. apply scatter_placed; auto. exact (Hcl _ _ Hc). }
  assert (Hc0 : candidate P (b_lmid o) = Some new) by congruence.
  exists o. split; [exact E|]. split; [exact B|]. split; [|apply Hrule; eauto].
  rewrite C2, <- Q1, Hnew. f_equal. eapply Hfrac; eauto.
Qed.

Lemma advance_meets_the_volume : forall T c pb v i s s' ev,
  built_from T c pb -> pins_known T c -> NoDup (ta_design T) ->
  (forall e, In e (ta_design T) -> (e < List.length (ta_t T))%nat) ->
  c_lambda_lower (i_oc c) <= c_lambda_upper (i_oc c) -> c_lambda_upper (i_oc c) - c_lambda_lower (i_oc c) <= 1/100000 * 2 ^ 1000 ->
  densities_ok T c (s_rho s) -> advance pb c v i s (s_filter s') ev = Ok s' ->
  let dC := map (fun x => x / s_running s') (ev_dC ev) in
  let rule := rule_gives pb c v (s_rho s) dC in
  let frac := fraction_of pb c v (s_filter s') in
  exists lam, c_lambda_lower (i_oc c) <= lam <= c_lambda_upper (i_oc c) /\ rule lam (s_rho s') /\
    (Rabs (frac (s_rho s') - v_vol_frac v) < 1 / 10000 \/
     exists a b, c_lambda_lower (i_oc c) <= a <= lam /\ lam <= b <= c_lambda_upper (i_oc c) /\ b - a <= 1 / 100000 /\
       (a = c_lambda_lower (i_oc c) \/ exists full, rule a full /\ v_vol_frac v + 1 / 10000 <= frac full) /\
       (b = c_lambda_upper (i_oc c) \/ forall full, rule b full -> frac full <= v_vol_frac v - 1 / 10000)).
Proof.
  intros T c pb v i s s' ev HT Hne Hnd Hdes Hl Hw Hok H dC rule frac.
  destruct (iteration_bisection T c pb v i s s' ev HT Hne Hnd Hdes Hl Hok H) as (Hrule & Hsc & Hfrac & o & E & B & Hve & Hr).
  set (D := d_design (pb_dom pb)) in *. set (P := oc_problem_of _ _ _) in *. fold dC in Hrule, Hr. fold rule in Hrule, Hr. fold frac in Hfrac, Hve.
  exists (b_lmid o). split; [exact B|]. split; [exact Hr|].
  destruct (bisection_exit P 1000 (1/100000) (1/10000) _ _ o Hl Hw E) as [(x & Hx & Hx2)|(x & y & Hx & Hy & Hxy & Hlo & Hhi)].
  - left. congruence.
  - right. exists x, y. split; [exact Hx|]. split; [exact Hy|]. split; [exact Hxy|]. split.
    + destruct Hlo as [Hlo|(z & Hz & _ & Hz2)]; [now left|right]. unfold vol_of in Hz.
      destruct (candidate P x) as [nw|] eqn:Ec; [|discriminate]. injection Hz as Hz.
      exists (scatter (s_rho s) D nw). pose proof (Hsc _ _ Ec) as Hpz.
      split; [apply Hrule; eauto|]. rewrite (Hfrac _ nw _ Ec Hpz) in Hz. lra.
    + destruct Hhi as [Hhi|Hhi]; [now left|right]. intros full Hf. apply Hrule in Hf. destruct Hf as (nw & Ec & Hpz).
      unfold vol_of in Hhi. rewrite Ec in Hhi. rewrite (Hfrac _ nw _ Ec Hpz) in Hhi. lra.
Qed.
Theorem C63_iteration_meets_the_volume : forall T c pb v i s s' ev,
  built_from T c pb -> pins_known T c -> NoDup (ta_design T) ->
  (forall e, In e (ta_design T) -> (e < List.length (ta_t T))%nat) ->
  c_lambda_lower (i_oc c) <= c_lambda_upper (i_oc c) -> c_lambda_upper (i_oc c) - c_lambda_lower (i_oc c) <= 1/100000 * 2 ^ 1000 ->
  densities_ok T c (s_rho s) -> iterate pb c v i s = Ok s' -> s_eval s' = Some ev ->
  let dC := map (fun x => x / s_running s') (ev_dC ev) in
  let rule := rule_gives pb c v (s_rho s) dC in
  let frac := fraction_of pb c v (s_filter s') in
  exists lam, c_lambda_lower (i_oc c) <= lam <= c_lambda_upper (i_oc c) /\ rule lam (s_rho s') /\
    (Rabs (frac (s_rho s') - v_vol_frac v) < 1 / 10000 \/
     exists a b, c_lambda_lower (i_oc c) <= a <= lam /\ lam <= b <= c_lambda_upper (i_oc c) /\ b - a <= 1 / 100000 /\
       (a = c_lambda_lower (i_oc c) \/ exists full, rule a full /\ v_vol_frac v + 1 / 10000 <= frac full) /\
       (b = c_lambda_upper (i_oc c) \/ forall full, rule b full -> frac full <= v_vol_frac v - 1 / 10000)).
Proof.
  intros T c pb v i s s' ev HT Hne Hnd Hdes Hl Hw Hok H Hev.
  exact (advance_meets_the_volume T c pb v i s s' ev HT Hne Hnd Hdes Hl Hw Hok (proj2 (iterate_inv T c pb v i s s' ev HT Hne Hnd Hdes Hl Hok H Hev))).
Qed.
Print Assumptions C63_iteration_meets_the_volume.

Lemma ok_nonneg T c pb rho : built_from T c pb -> pins_known T c -> 0 <= c_rho_min (i_oc c) -> densities_ok T c rho ->
  (forall e, 0 <= nth e rho 0) /\ (c_rho_max (i_oc c) <= 1 -> forall e, nth e rho 0 <= 1).
Proof.
  intros HT Hne Hb (Hlen & Hok). destruct (sets_of T c pb HT Hne) as (_ & HD & _).
  assert (Hdec : forall e, designed T c e \/ ~ designed T c e).
  { intros e. destruct (in_dec Nat.eq_dec e (d_design (pb_dom pb))) as [Q|Q]; rewrite HD in Q; auto. }
  split; [intros e|intros Q1 e]; (destruct (Nat.lt_ge_cases e (List.length (ta_t T))) as [He|He];
    [destruct (Hdec e) as [Q|Q]; [pose proof (proj1 (Hok e He) Q); lra|rewrite (proj2 (Hok e He) Q); lra]|rewrite nth_overflow; [lra|lia]]).
Qed.

(* a larger multiplier removes material everywhere *)
Theorem C63_multiplier_removes_material : forall pb c v f rho dC l1 l2 full1 full2,
  (forall e, In e (d_design (pb_dom pb)) -> nth e dC 0 <= 0) -> (forall e, 0 <= nth e rho 0) -> 0 <= v_eta v -> 0 < l1 + tiny -> l1 <= l2 ->
  rule_gives pb c v rho dC l1 full1 -> rule_gives pb c v rho dC l2 full2 ->
  usable f -> 0 < v_beta v -> 0 <= c_beta_eta (i_oc c) <= 1 -> (forall e, 0 <= nth e (pb_volumes pb) 0) ->
  (forall e, nth e full2 0 <= nth e full1 0) /\ fraction_of pb c v f full2 <= fraction_of pb c v f full1.
Proof.
  intros pb c v f rho dC l1 l2 full1 full2 HdC Hrho Heta Hl1 Hl (L1 & A1 & B1) (L2 & A2 & B2) Hu Hb He Hv.
  assert (Q : forall e, nth e full2 0 <= nth e full1 0).
  { intros e. destruct (in_dec Nat.eq_dec e (d_design (pb_dom pb))) as [Hi|Hi]; [|rewrite B1, B2 by exact Hi; lra].
    destruct (oc_candidate_mono (c_rho_min (i_oc c)) (c_rho_max (i_oc c)) (v_move v) (v_eta v) tiny (c_smin (i_oc c)) (c_smax (i_oc c))
      l2 l1 (nth e dC 0) (nth e dC 0) (nth e rho 0)) as (x1 & x2 & X1 & X2 & X); auto; try lra.
    rewrite A2 in X1 by exact Hi. rewrite A1 in X2 by exact Hi. injection X1 as <-. injection X2 as <-. exact X. }
  split; [exact Q|]. unfold fraction_of, material_fraction.
  assert (F : Forall2 Rle (sf_map f full2) (sf_map f full1)).
  { apply (C45_monotone f Hu). apply Forall2_nth_le; [congruence|]. intros; apply Q. }
  set (vols := map (fun e => nth e (pb_volumes pb) 0) (d_design (pb_dom pb))).
  assert (Hvn : forall k, 0 <= nth k vols 0).
  { intros k. unfold vols. destruct (Nat.lt_ge_cases k (List.length (d_design (pb_dom pb)))) as [Hk|Hk].
    - rewrite nth_map0 by exact Hk. apply Hv.
    - rewrite nth_overflow; [lra|now rewrite map_length]. }
  assert (Hs : 0 <= rsum vols).
  { unfold vols. apply rs_nonneg. intros; apply Hv. }
  assert (Hle : forall x y, x <= y -> heaviside_projection x (v_beta v) (c_beta_eta (i_oc c)) <= heaviside_projection y (v_beta v) (c_beta_eta (i_oc c))).
  { intros x y [Hxy|<-]; [left; now apply H_increasing|lra]. }
  unfold Rdiv. apply Rmult_le_compat_r.
  - destruct Hs as [Hs|<-]; [left; now apply Rinv_0_lt_compat|rewrite Rinv_0; lra].
  - apply rs_le. intros k _. apply Rmult_le_compat_r; [apply Hvn|]. apply Hle. now apply Forall2_nth_R.
Qed.
Print Assumptions C63_multiplier_removes_material.

(* if some multiplier of the bracket meets the target exactly, the iteration meets the
   tolerance or has found that multiplier up to 1e-5 *)
Theorem C63_attainable_volume_is_met : forall T c pb v i s s' ev lstar full,
  built_from T c pb -> pins_known T c -> NoDup (ta_design T) ->
  (forall e, In e (ta_design T) -> (e < List.length (ta_t T))%nat) ->
  0 < c_lambda_lower (i_oc c) <= c_lambda_upper (i_oc c) -> c_lambda_upper (i_oc c) - c_lambda_lower (i_oc c) <= 1/100000 * 2 ^ 1000 ->
  0 <= c_rho_min (i_oc c) -> 0 < c_floor (i_oc c) -> 0 <= s_running s -> 0 <= v_eta v ->
  sign_safe c v -> well_posed pb c v (s_filter s) -> List.length (sf_centers (s_filter s)) = List.length (ta_t T) ->
  (forall e, 0 <= nth e (pb_volumes pb) 0) -> 0 < rsum (map (fun e => nth e (pb_volumes pb) 0) (d_design (pb_dom pb))) ->
  densities_ok T c (s_rho s) -> iterate pb c v i s = Ok s' -> s_eval s' = Some ev ->
  let dC := map (fun x => x / s_running s') (ev_dC ev) in
  let rule := rule_gives pb c v (s_rho s) dC in
  let frac := fraction_of pb c v (s_filter s') in
  c_lambda_lower (i_oc c) <= lstar <= c_lambda_upper (i_oc c) -> rule lstar full -> frac full = v_vol_frac v ->
  exists lam, rule lam (s_rho s') /\ (Rabs (frac (s_rho s') - v_vol_frac v) < 1 / 10000 \/ Rabs (lam - lstar) <= 1 / 100000).
Proof.
  intros T c pb v i s s' ev lstar full HT Hne Hnd Hdes Hl Hw Hmin Hfl Hrn Heta Hss WP Hc Hvol Hvs Hok H Hev dC rule frac Hls Hru Hfr.
  destruct (iterate_inv T c pb v i s s' ev HT Hne Hnd Hdes (proj2 Hl) Hok H Hev) as (Hevl & Had).
  destruct (iteration_bisection T c pb v i s s' ev HT Hne Hnd Hdes (proj2 Hl) Hok Had) as (Hrule & Hsc & Hfrac & o & E & B & Hve & Hr).
  destruct (advance_inv T c pb v i s s' (s_filter s') ev HT Hne Hnd Hdes (proj2 Hl) Hok Had) as (_ & _ & r & new & Hrr & Hnew & Hrun & _).
  set (D := d_design (pb_dom pb)) in *. set (P := oc_problem_of _ _ _) in *. fold dC in Hrule, Hr. fold rule in Hrule, Hr. fold frac in Hfrac, Hve.
  destruct (ok_nonneg T c pb _ HT Hne Hmin Hok) as (Hnn & Hr1).
  destruct (evaluate_safe pb c v (s_filter s) (s_rho s) WP Hss ltac:(destruct Hok; congruence) Hnn Hr1) as (ev' & Hev' & _ & Hdl & Hdn).
  assert (QQ : s_filter s' = f2 v (s_filter s) /\ ev = ev') by (split; congruence). destruct QQ as (Hf2 & <-).
  assert (Hrp : 0 < s_running s').
  { rewrite Hrun. unfold rho_update in Hrr. cbv zeta in Hrr.
    match type of Hrr with match ?x with _ => _ end = _ => destruct x as [b|]; [|discriminate] end.
    injection Hrr as <-. cbn [r_running]. exact (running_pos (i_oc c) (s_running s) (oc_args_of pb v i (s_rho s) (s_filter s') ev) Hfl Hrn). }
  assert (HdC : forall e, nth e dC 0 <= 0).
  { intros e. unfold dC. assert (Q : 0 = (fun x => x / s_running s') 0) by (unfold Rdiv; ring). rewrite Q at 1. rewrite (map_nth (fun x => x / s_running s')).
    pose proof (Hdn e). unfold Rdiv. pose proof (Rinv_0_lt_compat _ Hrp). nra. }
  exists (b_lmid o). split; [exact Hr|].
  apply Hrule in Hru. destruct Hru as (nw & Hcn & Hpn).
  assert (Hz : vol_of P lstar = Some 0).
  { unfold vol_of. rewrite Hcn. f_equal. rewrite (Hfrac _ _ _ Hcn Hpn). rewrite Hfr. ring. }
  destruct (bisection_finds P 1000 (1/100000) (1/10000) (c_lambda_lower (i_oc c)) (c_lambda_upper (i_oc c)) lstar o) as [(x & Hx & Hx2)|Hx]; auto.
  - unfold P. cbn [oc_dC oc_rho_e oc_problem_of]. now rewrite !gather_len.
  - unfold P. cbn [oc_dC oc_problem_of]. apply Forall_forall. intros x Hx. unfold gather in Hx. apply in_map_iff in Hx. destruct Hx as (e & <- & _). apply HdC.
  - unfold P. cbn [oc_rho_e oc_problem_of]. apply Forall_forall. intros x Hx. unfold gather in Hx. apply in_map_iff in Hx. destruct Hx as (e & <- & _). apply Hnn.
  - unfold P. cbn [oc_eps oc_problem_of]. unfold tiny. lra.
  - unfold P. cbn [oc_filter oc_problem_of oc_args_of a_filter]. apply C45_monotone. rewrite Hf2. split; [apply (wp_radius _ _ _ _ WP)|].
    apply (wp_design _ _ _ _ WP).
  - apply (wp_beta _ _ _ _ WP).
  - apply (wp_eta _ _ _ _ WP).
  - unfold P. cbn [oc_volumes oc_problem_of oc_args_of a_volumes]. apply Forall_forall. intros x Hx. unfold gather in Hx. apply in_map_iff in Hx. destruct Hx as (e & <- & _). apply Hvol.
  - lra.
  - left. congruence.
Qed.
Print Assumptions C63_attainable_volume_is_met.

(* ---- C64 ---- *)
(* the checkpoint stores the design densities; restarting from them restores the whole
   density field *)
Theorem C64_restart_restores_densities : forall T c pb val_init rho,
  built_from T c pb -> pins_known T c -> NoDup (ta_design T) ->
  (forall e, In e (ta_design T) -> (e < List.length (ta_t T))%nat) ->
  c_rho_min (i_oc c) <= c_rho_max (i_oc c) -> densities_ok T c rho ->
  initialize_density pb c val_init (Some (map (fun e => nth e rho 0) (d_design (pb_dom pb)))) = Ok rho.
Proof.
  intros T c pb v0 rho HT Hne Hnd Hdes Hb Hok. set (D := d_design (pb_dom pb)). set (data := map (fun e => nth e rho 0) D).
  destruct (sets_of T c pb HT Hne) as (Hn & HD & _). fold D in HD.
  assert (Hdr : forall e, designed T c e -> (e < List.length (ta_t T))%nat) by (intros e (He & _); auto).
  destruct (initialize_density pb c v0 (Some data)) as [rho'|x] eqn:E.
  - f_equal. destruct (C26_initial_densities T c pb v0 (Some data) rho' HT Hne Hdes Hb) as (Hok' & _ & Hg).
    + intros d [= <-] x Hx. unfold data in Hx. apply in_map_iff in Hx. destruct Hx as (e & <- & He). apply HD in He. apply Hok; auto.
    + exact E.
    + specialize (Hg data eq_refl Hnd). destruct Hok as (L & Hok). destruct Hok' as (L' & Hok').
      apply (nth_ext _ _ 0 0); [congruence|]. intros e He. rewrite L' in He.
      destruct (in_dec Nat.eq_dec e D) as [Hi|Hi].
      * destruct (In_nth _ _ 0%nat Hi) as (k & Hk & <-). fold D in Hg.
        rewrite <- (gather_nth rho' D k Hk). rewrite Hg. unfold data. now apply (nth_map0 (fun e => nth e rho 0)).
      * rewrite HD in Hi. rewrite (proj2 (Hok e He) Hi), (proj2 (Hok' e He) Hi). reflexivity.
  - exfalso. unfold initialize_density in E. fold D in E. unfold data in E. rewrite map_length, Nat.eqb_refl in E. cbn [bind] in E. discriminate.
Qed.
Print Assumptions C64_restart_restores_densities.

Lemma iterate_filter pb c v i s s2 : s_rho s2 = s_rho s -> s_running s2 = s_running s ->
  sf_centers (s_filter s2) = sf_centers (s_filter s) -> sf_mask (s_filter s2) = sf_mask (s_filter s) ->
  iterate pb c v i s2 = iterate pb c v i s.
Proof.
  intros E1 E2 E3 E4.
  assert (F : forall f, f1 v f = mkSF (sf_centers f) (sf_mask f) (v_radius v) (sf_W f)).
  { intros f. unfold f1, update_radius, Reqb. destruct (Req_EM_T (v_radius v) (sf_radius f)) as [->|]; [|reflexivity]. now destruct f. }
  assert (FW : forall f x, sf_forward (f1 v f) x = sf_forward (mkSF (sf_centers f) (sf_mask f) (v_radius v) None) x).
  { intros f x. rewrite F. reflexivity. }
  unfold iterate, advance. rewrite E1, E2. unfold evaluate. fold (f1 v (s_filter s)) (f1 v (s_filter s2)). rewrite !FW, E3, E4. reflexivity.
Qed.
(* the rest of the run depends on nothing but the densities and the running
   sensitivity scale: a restart with a new filter object on the same elements continues
   exactly as the uninterrupted run *)
Theorem C64_same_densities_same_future : forall pb c sched s s2,
  s_rho s2 = s_rho s -> s_running s2 = s_running s ->
  sf_centers (s_filter s2) = sf_centers (s_filter s) -> sf_mask (s_filter s2) = sf_mask (s_filter s) ->
  run pb c sched s2 = run pb c sched s.
Proof.
  intros pb c [|[i v] sched] s s2 E1 E2 E3 E4; [reflexivity|]. cbn [run]. now rewrite (iterate_filter pb c v i s s2).
Qed.
Print Assumptions C64_same_densities_same_future.

Lemma run_app pb c s1 : forall s l sched2, run pb c s1 s = Ok l ->
  run pb c (s1 ++ sched2) s = match run pb c sched2 (last l s) with Ok l2 => Ok (l ++ l2) | Err x => Err x end.
Proof.
  induction s1 as [|[i v] s1 IH]; intros s l sched2 H; cbn [run app] in *.
  - injection H as <-. cbn. now destruct (run pb c sched2 s).
  - destruct (iterate pb c v i s) as [s'|]; [|discriminate]. cbn [bind] in *.
    destruct (run pb c s1 s') as [l'|] eqn:E; [|discriminate]. cbn [bind] in H. injection H as <-.
    rewrite (IH s' l' sched2 E).
    assert (Hl : last (s' :: l') s = last l' s').
    { clear. destruct l' as [|a l']; [reflexivity|]. cbn [last]. revert a. induction l' as [|b l' IH]; intros a; [reflexivity|]. exact (IH b). }
    rewrite Hl. now destruct (run pb c sched2 (last l' s')).
Qed.
Lemma run_filter pb c sched : forall s l, run pb c sched s = Ok l ->
  sf_centers (s_filter (last l s)) = sf_centers (s_filter s) /\ sf_mask (s_filter (last l s)) = sf_mask (s_filter s).
Proof.
  assert (G : forall pb c v i s s', iterate pb c v i s = Ok s' ->
    sf_centers (s_filter s') = sf_centers (s_filter s) /\ sf_mask (s_filter s') = sf_mask (s_filter s)).
  { clear. intros pb c v i s s' H. unfold iterate, advance in H. destruct (evaluate pb c v (s_filter s) (s_rho s)) as [[f ev]|] eqn:E; [|discriminate].
    cbn [bind] in H. destruct (rho_update _ _ _) as [r|]; [|discriminate]. destruct (r_rho r); [|discriminate].
    assert (Q : s_filter s' = f) by (match type of H with Ok ?x = _ => assert (Q : s' = x) by congruence end; now rewrite Q).
    rewrite Q. clear H Q. unfold evaluate in E. fold (f1 v (s_filter s)) in E. destruct (f1_eq v (s_filter s)) as (F1 & F2 & _).
    assert (S : forall g x g' y, sf_forward g x = Ok (g', y) -> sf_centers g' = sf_centers g /\ sf_mask g' = sf_mask g).
    { intros g x g' y. unfold sf_forward. destruct (Reqb _ _); [discriminate|]. destruct (build_filter_matrix _ _ _ _); [|discriminate]. cbn [bind].
      destruct (negb _); [discriminate|]. intros Q. injection Q as <- _. auto. }
    destruct (sf_forward (f1 v (s_filter s)) (s_rho s)) as [[g1 y1]|] eqn:S1; [|discriminate]. cbn [bind] in E. apply S in S1.
    destruct (moduli _ _ _ _ _); [|discriminate]. cbn [bind] in E.
    destruct (objectives _ _ _ _ _ _ _) as [[cs us]|]; [|discriminate]. cbn [bind] in E.
    destruct (sum_gradients _ _ _) as [g|]; [|discriminate]. cbn [bind] in E.
    destruct (i_sens_filter c).
    - match type of E with bind ?x _ = _ => destruct x as [[g2 y2]|] eqn:S2; [|discriminate] end. cbn [bind] in E. apply S in S2.
      assert (Q : f = g2) by congruence. subst g2. split; [rewrite (proj1 S2), (proj1 S1)|rewrite (proj2 S2), (proj2 S1)]; assumption.
    - assert (Q : f = g1) by congruence. subst g1. split; [rewrite (proj1 S1)|rewrite (proj2 S1)]; assumption. }
  induction sched as [|[i v] sched IH]; intros s l H; cbn [run] in H.
  - injection H as <-. auto.
  - destruct (iterate pb c v i s) as [s'|] eqn:E1; [|discriminate]. cbn [bind] in H.
    destruct (run pb c sched s') as [l'|] eqn:E; [|discriminate]. cbn [bind] in H. injection H as <-.
    assert (Hl : last (s' :: l') s = last l' s').
    { clear. destruct l' as [|a l']; [reflexivity|]. cbn [last]. revert a. induction l' as [|b l' IH]; intros a; [reflexivity|]. exact (IH b). }
    rewrite Hl. destruct (IH s' l' E) as (-> & ->). eapply G; eauto.
Qed.

(* stop after [sched1], restart from the stored design densities with a new filter and,
   were it stored, the running scale: the continuation is the tail of the single run *)
Theorem C64_interrupted_run_continues : forall T c pb sched1 sched2 s l f0 val_init,
  built_from T c pb -> pins_known T c -> NoDup (ta_design T) ->
  (forall e, In e (ta_design T) -> (e < List.length (ta_t T))%nat) ->
  c_rho_min (i_oc c) <= c_rho_max (i_oc c) -> c_smin (i_oc c) <= c_smax (i_oc c) ->
  c_lambda_lower (i_oc c) <= c_lambda_upper (i_oc c) -> (forall i v, In (i, v) sched1 -> 0 <= v_move v) ->
  densities_ok T c (s_rho s) -> run pb c sched1 s = Ok l ->
  sf_centers f0 = sf_centers (s_filter s) -> sf_mask f0 = sf_mask (s_filter s) ->
  let stopped := last l s in
  let checkpoint := map (fun e => nth e (s_rho stopped) 0) (d_design (pb_dom pb)) in
  exists rho, initialize_density pb c val_init (Some checkpoint) = Ok rho /\
    forall change kkt ev tail,
    run pb c sched2 (mkIS rho f0 (s_running stopped) change kkt ev) = Ok tail <-> run pb c (sched1 ++ sched2) s = Ok (l ++ tail).
Proof.
  intros T c pb sched1 sched2 s l f0 v0 HT Hne Hnd Hdes Hb Hs Hl Hm Hok H F1 F2 stopped checkpoint.
  assert (Hst : densities_ok T c (s_rho stopped)).
  { destruct (C26_run_keeps_bounds T c pb sched1 s l) as (_ & Q); auto. unfold stopped.
    destruct l as [|a l]; [exact Hok|]. apply Q. destruct (@exists_last _ (a :: l) ltac:(discriminate)) as (m & x & ->).
    rewrite last_last. apply in_or_app. right. now left. }
  exists (s_rho stopped). split; [apply (C64_restart_restores_densities T); auto|].
  intros change kkt ev tail. destruct (run_filter pb c sched1 s l H) as (G1 & G2). fold stopped in G1, G2.
  rewrite (C64_same_densities_same_future pb c sched2 stopped); cbn [s_rho s_running s_filter]; try congruence.
  rewrite (run_app pb c sched1 s l sched2 H). fold stopped.
  destruct (run pb c sched2 stopped) as [t|]; [|split; discriminate]. split; intros Q.
  - congruence.
  - injection Q as Q. apply app_inv_head in Q. congruence.
Qed.
Print Assumptions C64_interrupted_run_continues.

Lemma ex_bracket : c_lambda_upper (i_oc ex_c) - c_lambda_lower (i_oc ex_c) <= 1 / 100000 * 2 ^ 1000.
Proof. apply Rle_trans with (1/100000 * 2 ^ 40); [cbn -[pow]; lra|]. apply Rmult_le_compat_l; [lra|]. apply Rle_pow; [lra|lia]. Qed.
(* the two-element bar of C26: its first iteration meets the hypotheses of C63, and a
   run of three iterations can be stopped after the first *)
Example C63_instance : exists s' ev lam, iterate ex_pb ex_c ex_v 1 ex_s0 = Ok s' /\ s_eval s' = Some ev /\
  rule_gives ex_pb ex_c ex_v [1/2; 1] (map (fun x => x / s_running s') (ev_dC ev)) lam (s_rho s').
Proof.
  assert (Hd : forall e, In e (ta_design ex_T) -> (e < List.length (ta_t ex_T))%nat) by (intros e [<-|[<-|[]]]; cbn; lia).
  assert (N : pins_known ex_T ex_c) by (left; discriminate).
  assert (Nd : NoDup (ta_design ex_T)) by (repeat constructor; cbn; intuition discriminate).
  destruct (C26_iteration_succeeds ex_T ex_c ex_pb ex_v 1 ex_s0) as (s' & E & _); try exact ex_built; auto; try (cbn; lra).
  - now left.
  - exact ex_wp.
  - exact ex_densities.
  - assert (Hev : exists ev, s_eval s' = Some ev).
    { unfold iterate, advance in E. destruct (evaluate _ _ _ _ _) as [[f ev]|]; [|discriminate]. cbn [bind] in E.
      destruct (rho_update _ _ _) as [r|]; [|discriminate]. destruct (r_rho r); [|discriminate]. exists ev.
      match type of E with Ok ?x = _ => assert (Q : s' = x) by congruence end. now rewrite Q. }
    destruct Hev as (ev & Hev).
    destruct (C63_iteration_meets_the_volume ex_T ex_c ex_pb ex_v 1 ex_s0 s' ev) as (lam & _ & Hr & _); try exact ex_built; try exact ex_bracket; auto; try (cbn -[pow]; lra).
    + exact ex_densities.
    + exists s', ev, lam. split; [exact E|]. split; [exact Hev|exact Hr].
Qed.
Example C64_instance : exists l rho tail,
  run ex_pb ex_c [(1%Z, ex_v)] ex_s0 = Ok l /\
  initialize_density ex_pb ex_c (1/2) (Some [nth 0 (s_rho (last l ex_s0)) 0]) = Ok rho /\
  run ex_pb ex_c [(2%Z, ex_v); (3%Z, ex_v)] (mkIS rho ex_filter (s_running (last l ex_s0)) 0 None None) = Ok tail /\
  run ex_pb ex_c [(1%Z, ex_v); (2%Z, ex_v); (3%Z, ex_v)] ex_s0 = Ok (l ++ tail) /\ List.length tail = 2%nat.
Proof.
  assert (Hd : forall e, In e (ta_design ex_T) -> (e < List.length (ta_t ex_T))%nat) by (intros e [<-|[<-|[]]]; cbn; lia).
  assert (N : pins_known ex_T ex_c) by (left; discriminate).
  assert (Nd : NoDup (ta_design ex_T)) by (repeat constructor; cbn; intuition discriminate).
  destruct (proj2 C26_instance) as (l3 & E3 & L3 & _).
  destruct (run ex_pb ex_c [(1%Z, ex_v)] ex_s0) as [l|] eqn:E1.
  2:{ exfalso. cbn [run] in E1, E3. destruct (iterate ex_pb ex_c ex_v 1 ex_s0); [discriminate E1|discriminate E3]. }
  destruct (C64_interrupted_run_continues ex_T ex_c ex_pb [(1%Z, ex_v)] [(2%Z, ex_v); (3%Z, ex_v)] ex_s0 l ex_filter (1/2)) as (rho & Hi & Hr);
    try exact ex_built; auto; try (cbn; lra).
  - intros i v [E|[]]. replace v with ex_v by congruence. cbn. lra.
  - exact ex_densities.
  - pose proof (run_app ex_pb ex_c [(1%Z, ex_v)] ex_s0 l [(2%Z, ex_v); (3%Z, ex_v)] E1) as Q. cbn [app] in Q.
    rewrite E3 in Q. destruct (run ex_pb ex_c [(2%Z, ex_v); (3%Z, ex_v)] (last l ex_s0)) as [t|] eqn:Et; [|discriminate].
    assert (Q' : l3 = l ++ t) by congruence. clear Q.
    exists l, rho, t. split; [reflexivity|]. change (pb_dom ex_pb) with ex_dom in Hi. rewrite ex_dom_eq in Hi. cbn [d_design map] in Hi. split; [exact Hi|].
    split; [apply Hr; cbn [app]; now rewrite E3, Q'|]. split; [now rewrite E3, Q'|].
    assert (Hll : forall sc s l, run ex_pb ex_c sc s = Ok l -> List.length l = List.length sc).
    { clear. induction sc as [|[i v] sc IH]; intros s l H; cbn [run] in H; [now injection H as <-|].
      destruct (iterate _ _ _ _ _) as [s1|]; [|discriminate]. cbn [bind] in H. destruct (run ex_pb ex_c sc s1) eqn:E; [|discriminate].
      cbn [bind] in H. injection H as <-. cbn. f_equal. eauto. }
    now rewrite (Hll _ _ _ Et).
Qed.
