(* Lemmas about whole iterations with the default filter. *)
From Verif Require Import Base Sums LinAlg Material_model Material_proofs OC_model OC_spec OC_proofs OC_props OCvol_props LogMOC_model LogMOC_proofs LogMOC_props Filter_model Filter_proofs Filter_props
  Helmholtz_model Helmholtz_props HzRange_spec HzRange_props
  Mesh_model Mesh_spec Mesh_proofs Mesh_props Fea_model Fea_spec Fea_proofs Fea_props Iter_model Iter_spec Grad_proofs Iter_proofs Grad_props Iter_props Vol_props VolGrad_props
  Heat_model Heat_spec Heat_proofs Heat_props HeatGrad_props HeatSens_props HeatArgs_props HeatAdj_model HeatAdj_props HeatIter_model HeatIter_spec HeatIter_props LMIter_model LMIter_spec LMIter_props HzIter_model HzIter_spec.
Open Scope R_scope.
Open Scope list_scope.

(* ---- the update, whatever the filter (as in Iter_props, HeatIter_props and Vol_props) ---- *)
Lemma hz_advance_keeps_bounds : forall T c pb v i s f ev s',
  built_from T c pb -> pins_known T c -> (forall e, In e (ta_design T) -> (e < List.length (ta_t T))%nat) ->
  c_rho_min (i_oc c) <= c_rho_max (i_oc c) -> c_smin (i_oc c) <= c_smax (i_oc c) ->
  c_lambda_lower (i_oc c) <= c_lambda_upper (i_oc c) -> 0 <= v_move v ->
  densities_ok T c (h_rho s) -> hz_advance pb c v i s f ev = Ok s' ->
  densities_ok T c (h_rho s') /\ (forall e, designed T c e -> oc_step_ok (c_rho_min (i_oc c)) (c_rho_max (i_oc c)) (v_move v) (c_smin (i_oc c)) (c_smax (i_oc c))
                                 (nth e (h_rho s) 0) (nth e (h_rho s') 0)) /\
  h_change s' <= v_move v /\
  (forall e, designed T c e -> Rabs (nth e (h_rho s') 0 - nth e (h_rho s) 0) <= h_change s') /\
  ((exists e, designed T c e) -> exists e, designed T c e /\ h_change s' = Rabs (nth e (h_rho s') 0 - nth e (h_rho s) 0)).
Proof.
  intros T c pb v i s f ev s' HT Hne Hdes Hb Hs Hl Hm (Hlen & Hok) H.
  destruct (sets_of T c pb HT Hne) as (Hn & HD & l & Hp & HL1 & HL2 & HL3).
  assert (Hdr : forall e, designed T c e -> (e < List.length (ta_t T))%nat) by (intros e (He & _); auto).
  unfold hz_advance in H.
  set (a := hz_oc_args pb v i (h_rho s) f ev) in H.
  destruct (rho_update (i_oc c) (h_running s) a) as [r|] eqn:Eu; [|discriminate].
  destruct (r_rho r) as [new|] eqn:En; [|discriminate]. rewrite Hp in H.
  set (rho' := pin (scatter (h_rho s) (d_design (pb_dom pb)) new) (Some l)) in *.
  assert (Hs' : h_rho s' = rho' /\ h_change s' = np_max (map Rabs (zipwith Rminus (gather rho' (d_design (pb_dom pb))) (gather (h_rho s) (d_design (pb_dom pb)))))).
  { assert (Q : s' = mkHSt rho' f (r_running r) (np_max (map Rabs (zipwith Rminus (gather rho' (d_design (pb_dom pb))) (gather (h_rho s) (d_design (pb_dom pb)))))) (r_kkt r) (Some ev)) by congruence.
    rewrite Q. auto. }
  destruct Hs' as (-> & ->). clear H.
  assert (Hin : Forall (fun r => c_rho_min (i_oc c) <= r <= c_rho_max (i_oc c)) (gather (h_rho s) (d_design (pb_dom pb)))).
  { apply Forall_forall. intros x Hx. unfold gather in Hx. apply in_map_iff in Hx. destruct Hx as (e & <- & He).
    apply HD in He. apply Hok; auto. }
  assert (Hstep : Forall2 (oc_step_ok (c_rho_min (i_oc c)) (c_rho_max (i_oc c)) (v_move v) (c_smin (i_oc c)) (c_smax (i_oc c)))
            (gather (h_rho s) (d_design (pb_dom pb))) new).
  { unfold rho_update in Eu. set (dC := map _ (a_dC a)) in Eu. set (P := oc_problem_of (i_oc c) a dC) in Eu.
    destruct (bisection_consistent P 1000 (1/100000) (1/10000) _ _ Hl) as (o & E & _ & _ & C1 & _).
    rewrite E in Eu. assert (Q : r_rho r = b_rho o) by (injection Eu as <-; reflexivity).
    rewrite Q, C1 in En. apply (candidate_step P _ _ En).
    - unfold P, dC. cbn. unfold gather. now rewrite !map_length.
    - exact Hin.
    - exact Hm.
    - exact Hs. }
  assert (Hnl : List.length new = List.length (d_design (pb_dom pb))).
  { apply Forall2_len in Hstep. unfold gather in Hstep. rewrite map_length in Hstep. auto. }
  assert (R0 : forall i, In i (d_design (pb_dom pb)) -> (i < List.length (h_rho s))%nat).
  { intros e He. rewrite Hlen. apply Hdr, HD, He. }
  assert (R1 : forall i, In i l -> (i < List.length (scatter (h_rho s) (d_design (pb_dom pb)) new))%nat).
  { intros e He. rewrite scatter_len, Hlen. now apply HL1. }
  assert (Hd : forall e, designed T c e -> oc_step_ok (c_rho_min (i_oc c)) (c_rho_max (i_oc c)) (v_move v) (c_smin (i_oc c)) (c_smax (i_oc c))
                                 (nth e (h_rho s) 0) (nth e rho' 0)).
  { intros e He. unfold rho'. rewrite pin_nth by exact R1. destruct (in_dec Nat.eq_dec e l) as [Q|Q]; [apply HL1 in Q; tauto|].
    destruct (scatter_in (d_design (pb_dom pb)) (h_rho s) new e (proj2 (HD e) He) R0 Hnl) as (k & Hk & Ek & ->).
    pose proof (F2_nth _ _ _ k 0 0 Hstep) as F. unfold gather in F. rewrite map_length in F. specialize (F Hk).
    rewrite (nth_indep _ 0 (nth 0%nat (h_rho s) 0)) in F by now rewrite map_length.
    rewrite (map_nth (fun i => nth i (h_rho s) 0)) in F. now rewrite Ek in F. }
  split; [split|split].
  - unfold rho'. now rewrite pin_len, scatter_len.
  - intros e He. split; [intros Hde; exact (proj1 (Hd e Hde))|]. intros Hnd. unfold rho'. rewrite pin_nth by exact R1.
    destruct (in_dec Nat.eq_dec e l); [reflexivity|]. rewrite scatter_notin by (rewrite HD; exact Hnd). now apply Hok.
  - exact Hd.
  - assert (Hg : gather rho' (d_design (pb_dom pb)) = map (fun e => nth e rho' 0) (d_design (pb_dom pb))) by reflexivity.
    assert (Hzz : forall (g h : nat -> R) ids, map Rabs (zipwith Rminus (map g ids) (map h ids)) = map (fun e => Rabs (g e - h e)) ids).
    { clear. induction ids as [|e ids IH]; [reflexivity|]. cbn [map zipwith]. now rewrite IH. }
    split; [|split].
    2:{ intros e He. unfold gather. rewrite Hzz. apply np_max_ge. apply in_map_iff. exists e. split; [reflexivity|now apply HD]. }
    2:{ intros (e & He). unfold gather. rewrite Hzz. apply HD in He.
        pose proof (np_max_in (map (fun e => Rabs (nth e rho' 0 - nth e (h_rho s) 0)) (d_design (pb_dom pb)))) as Q.
        assert (Hnn : map (fun e => Rabs (nth e rho' 0 - nth e (h_rho s) 0)) (d_design (pb_dom pb)) <> []) by (destruct (d_design (pb_dom pb)); [easy|discriminate]).
        specialize (Q Hnn). apply in_map_iff in Q. destruct Q as (e' & Ee & He').
        exists e'. split; [now apply HD|now symmetry]. }
    apply np_max_le; [exact Hm|]. intros x Hx. apply in_map_iff in Hx. destruct Hx as (y & <- & Hy).
    assert (Hz : forall (g h : nat -> R) ids y, In y (zipwith Rminus (map g ids) (map h ids)) -> exists e, In e ids /\ y = g e - h e).
    { clear. induction ids as [|e ids IH]; intros y Hy; [easy|]. destruct Hy as [<-|Hy].
      - exists e. split; [now left|reflexivity].
      - destruct (IH y Hy) as (e' & He' & ->). exists e'. split; [now right|reflexivity]. }
    unfold gather in Hy. apply Hz in Hy. destruct Hy as (e & He & ->). apply HD in He. destruct (Hd e He) as (_ & Q & _). exact Q.
Qed.
Lemma hz_advance_succeeds T c pb v i s f ev :
  built_from T c pb -> pins_known T c -> (forall e, In e (ta_design T) -> (e < List.length (ta_t T))%nat) ->
  c_smin (i_oc c) <= c_smax (i_oc c) -> 0 < c_floor (i_oc c) ->
  0 < c_lambda_lower (i_oc c) <= c_lambda_upper (i_oc c) -> 0 <= v_move v -> 0 <= h_running s ->
  densities_ok T c (h_rho s) -> (forall e, designed T c e -> nth e (ev_dC ev) 0 <= 0) ->
  exists s', hz_advance pb c v i s f ev = Ok s' /\ 0 < h_running s' /\ (exists k, h_kkt s' = Some k) /\ h_filter s' = f /\ h_eval s' = Some ev.
Proof.
  intros HT Hne Hdes Hs Hf Hl Hm Hrun (Hlen & Hok) Hdn.
  destruct (sets_of T c pb HT Hne) as (Hn & HD & l & Hp & HL1 & HL2 & HL3).
  unfold hz_advance. match goal with |- context [hz_oc_args ?x1 ?x2 ?x3 ?x4 ?x5 ?x6] => set (a := hz_oc_args x1 x2 x3 x4 x5 x6) end.
  destruct (C17_update_respects_bounds_and_move_limit (i_oc c) (h_running s) a) as (r & new & Hr & Hnew & _ & _ & Hrn & _ & Hk); auto.
  - cbn. unfold gather. now rewrite map_length.
  - cbn. apply Forall_forall. intros x Hx. unfold gather in Hx. apply in_map_iff in Hx. destruct Hx as (e & <- & He). apply Hdn, HD, He.
  - cbn. apply Forall_forall. intros x Hx. unfold gather in Hx. apply in_map_iff in Hx. destruct Hx as (e & <- & He).
    apply HD in He. apply Hok; [|exact He]. apply Hdes. apply He.
  - rewrite Hr, Hnew. eexists. split; [reflexivity|]. cbn [h_running h_kkt h_filter h_eval]. auto.
Qed.
Lemma hz_advance_fatal T c pb v i s f ev e : built_from T c pb -> pins_known T c ->
  designed T c e -> 0 < nth e (ev_dC ev) 0 -> (forall z, v_eta v <> IZR z) -> 0 < c_floor (i_oc c) -> 0 <= h_running s ->
  0 < c_lambda_lower (i_oc c) <= c_lambda_upper (i_oc c) -> hz_advance pb c v i s f ev = Err NotModelled.
Proof.
  intros HT Hne He Hpos Heta Hf Hrun Hl. destruct (sets_of T c pb HT Hne) as (_ & HD & _). apply HD in He. unfold hz_advance.
  match goal with |- context [hz_oc_args ?x1 ?x2 ?x3 ?x4 ?x5 ?x6] => set (a := hz_oc_args x1 x2 x3 x4 x5 x6) end.
  pose proof (running_pos (i_oc c) (h_running s) a Hf Hrun) as Hrp.
  destruct (rho_update (i_oc c) (h_running s) a) as [r|] eqn:Eu; [|reflexivity].
  assert (Hn : r_rho r = None); [|now rewrite Hn].
  unfold rho_update in Eu. set (rs := next_running_scale _ _ _) in *. set (dC := map _ (a_dC a)) in Eu. set (P := oc_problem_of (i_oc c) a dC) in Eu.
  destruct (bisection_consistent P 1000 (1/100000) (1/10000) _ _ (proj2 Hl)) as (o & E & _ & B2 & C1 & _).
  rewrite E in Eu. assert (Q : r_rho r = b_rho o) by (injection Eu as <-; reflexivity). rewrite Q, C1.
  destruct (In_nth _ _ 0%nat He) as (k & Hk & Ek).
  apply (candidate_nan P (b_lmid o) k (nth e (ev_dC ev) 0 / rs) (nth e (h_rho s) 0)).
  - unfold P, dC. unfold a, hz_oc_args. cbn [oc_dC oc_problem_of a_dC]. unfold gather. rewrite map_map.
    rewrite nth_error_map. rewrite (nth_error_nth' _ 0%nat Hk). cbn. now rewrite Ek.
  - unfold P. unfold a, hz_oc_args. cbn [oc_rho_e oc_problem_of a_rho_full a_design]. unfold gather.
    rewrite nth_error_map. rewrite (nth_error_nth' _ 0%nat Hk). cbn. now rewrite Ek.
  - apply Rdiv_lt_0_compat; auto.
  - unfold P. cbn. unfold tiny. lra.
  - exact Heta.
Qed.
Lemma hz_advance_inv T c pb v i s s' f ev : built_from T c pb -> pins_known T c -> NoDup (ta_design T) ->
  (forall e, In e (ta_design T) -> (e < List.length (ta_t T))%nat) ->
  c_lambda_lower (i_oc c) <= c_lambda_upper (i_oc c) -> densities_ok T c (h_rho s) ->
  hz_advance pb c v i s f ev = Ok s' ->
  h_filter s' = f /\ h_eval s' = Some ev /\
  exists r new, let a := hz_oc_args pb v i (h_rho s) (h_filter s') ev in
    rho_update (i_oc c) (h_running s) a = Some r /\ r_rho r = Some new /\
    h_running s' = r_running r /\ h_kkt s' = r_kkt r /\
    List.length new = List.length (d_design (pb_dom pb)) /\
    placed (h_rho s) (d_design (pb_dom pb)) new (h_rho s').
Proof.
  intros HT Hne Hnd Hdes Hl (Hlen & Hok) H.
  destruct (sets_of T c pb HT Hne) as (Hn & HD & l & Hp & HL1 & HL2 & HL3). unfold hz_advance in H.
  destruct (rho_update (i_oc c) (h_running s) (hz_oc_args pb v i (h_rho s) f ev)) as [r|] eqn:Eu; [|discriminate].
  destruct (r_rho r) as [new|] eqn:En; [|discriminate]. rewrite Hp in H.
  assert (Hf : h_filter s' = f /\ h_eval s' = Some ev /\ h_rho s' = pin (scatter (h_rho s) (d_design (pb_dom pb)) new) (Some l) /\
               h_running s' = r_running r /\ h_kkt s' = r_kkt r).
  { match type of H with Ok ?x = _ => assert (Q : s' = x) by congruence end. rewrite Q. auto. }
  destruct Hf as (Hf & Hev' & Hr & Hrun & Hkkt). subst f. clear H.
  split; [reflexivity|]. split; [exact Hev'|]. exists r, new. cbv zeta. split; [exact Eu|]. split; [exact En|]. split; [exact Hrun|]. split; [exact Hkkt|].
  assert (Hnl : List.length new = List.length (d_design (pb_dom pb))).
  { unfold rho_update in Eu. set (P := oc_problem_of _ _ _) in Eu.
    destruct (bisection_consistent P 1000 (1/100000) (1/10000) _ _ Hl) as (o & E & _ & _ & C1 & _).
    rewrite E in Eu. assert (Q : r_rho r = b_rho o) by (injection Eu as <-; reflexivity).
    rewrite Q, C1 in En. unfold candidate in En. rewrite (all_some_len _ _ En).
    unfold P. cbn [oc_problem_of oc_dC oc_rho_e a_dC a_rho_full a_design hz_oc_args]. rewrite zipwith_length; rewrite ?map_length, !gather_len; reflexivity. }
  split; [exact Hnl|].
  assert (R0 : forall i, In i (d_design (pb_dom pb)) -> (i < List.length (h_rho s))%nat).
  { intros e He. rewrite Hlen. apply Hdes. apply HD in He. apply He. }
  destruct (scatter_placed (d_design (pb_dom pb)) (design_nodup T c pb HT Hnd) (h_rho s) new Hnl R0) as (P1 & P2 & P3).
  assert (R1 : forall i, In i l -> (i < List.length (scatter (h_rho s) (d_design (pb_dom pb)) new))%nat).
  { intros e He. rewrite P1, Hlen. now apply HL1. }
  rewrite Hr. split; [now rewrite pin_len|]. split.
  - intros k Hk. rewrite pin_nth by exact R1.
    destruct (in_dec Nat.eq_dec (nth k (d_design (pb_dom pb)) 0%nat) l) as [Q|Q]; [|now apply P2].
    exfalso. apply HL1 in Q. apply (proj2 Q). apply HD. now apply nth_In.
  - intros j Hj. rewrite pin_nth by exact R1. destruct (in_dec Nat.eq_dec j l) as [Q|Q]; [|now apply P3].
    apply HL1 in Q. symmetry. apply Hok; [apply Q|]. tauto.
Qed.
Lemma hz_iteration_bisection T c pb v i s s' ev :
  built_from T c pb -> pins_known T c -> NoDup (ta_design T) ->
  (forall e, In e (ta_design T) -> (e < List.length (ta_t T))%nat) ->
  c_lambda_lower (i_oc c) <= c_lambda_upper (i_oc c) ->
  densities_ok T c (h_rho s) -> hz_advance pb c v i s (h_filter s') ev = Ok s' ->
  let dC := map (fun x => x / h_running s') (ev_dC ev) in
  let rule := rule_gives pb c v (h_rho s) dC in
  let frac := hz_fraction pb c v (h_filter s') in
  let D := d_design (pb_dom pb) in
  let P := oc_problem_of (i_oc c) (hz_oc_args pb v i (h_rho s) (h_filter s') ev) (gather dC D) in
  (forall lam full, rule lam full <-> exists new, candidate P lam = Some new /\ placed (h_rho s) D new full) /\
  (forall lam new, candidate P lam = Some new -> placed (h_rho s) D new (scatter (h_rho s) D new)) /\
  (forall lam new full, candidate P lam = Some new -> placed (h_rho s) D new full ->
     volume_error P new = frac full - v_vol_frac v) /\
  exists o, bisection_with_physical_volume P 1000 (1/100000) (1/10000) (c_lambda_lower (i_oc c)) (c_lambda_upper (i_oc c)) = Some o /\
    c_lambda_lower (i_oc c) <= b_lmid o <= c_lambda_upper (i_oc c) /\
    b_vol_error o = Some (frac (h_rho s') - v_vol_frac v) /\ rule (b_lmid o) (h_rho s').
Proof.
  intros HT Hne Hnd Hdes Hl Hok H dC rule frac D P.
  destruct (hz_advance_inv T c pb v i s s' (h_filter s') ev HT Hne Hnd Hdes Hl Hok H) as (_ & _ & r & new & Hr & Hnew & Hrun & Hkkt & Hnl & Hpl).
  set (a := hz_oc_args pb v i (h_rho s) (h_filter s') ev) in *. fold D in Hnl, Hpl.
  destruct (sets_of T c pb HT Hne) as (_ & HD & _). fold D in HD.
  assert (R0 : forall i, In i D -> (i < List.length (h_rho s))%nat).
  { intros e He. rewrite (proj1 Hok). apply Hdes. apply HD in He. apply He. }
  pose proof (design_nodup T c pb HT Hnd) as Hnd'. fold D in Hnd'.
  unfold rho_update in Hr. set (rs := next_running_scale _ _ _) in Hr. set (dCs := map _ (a_dC a)) in Hr.
  assert (HdC : dCs = gather dC D).
  { assert (Q2 : r_running r = rs) by (destruct (bisection_with_physical_volume _ _ _ _ _ _); [injection Hr as <-; reflexivity|discriminate]).
    unfold dCs, dC. rewrite Hrun, Q2. apply scaled_gather. }
  rewrite HdC in Hr. fold P in Hr.
  destruct (bisection_consistent P 1000 (1/100000) (1/10000) _ _ Hl) as (o & E & _ & B & C1 & C2).
  rewrite E in Hr. assert (Q1 : r_rho r = b_rho o) by (injection Hr as <-; auto).
  assert (Hrule : forall lam full, rule lam full <-> exists new, candidate P lam = Some new /\ placed (h_rho s) D new full).
  { intros lam full. unfold rule, P. apply rule_candidate; auto. }
  assert (Hcl : forall lam nw, candidate P lam = Some nw -> List.length nw = List.length D).
  { intros lam nw Hc. unfold candidate in Hc. rewrite (all_some_len _ _ Hc).
    unfold P. cbn [oc_problem_of oc_dC oc_rho_e]. rewrite zipwith_length; rewrite !gather_len; reflexivity. }
  assert (Hfrac : forall lam new full, candidate P lam = Some new -> placed (h_rho s) D new full ->
    volume_error P new = frac full - v_vol_frac v).
  { intros lam nw full Hc Hpf. rewrite (volume_error_fraction P nw full); auto; [exact (Hcl _ _ Hc)|].
    unfold P. cbn. unfold gather. now rewrite map_length. }
  split; [exact Hrule|]. split; [|split; [exact Hfrac|]].
  { intros lam nw Hc. apply scatter_placed; auto. exact (Hcl _ _ Hc). }
  assert (Hc0 : candidate P (b_lmid o) = Some new) by congruence.
  exists o. split; [exact E|]. split; [exact B|]. split; [|apply Hrule; eauto].
  rewrite C2, <- Q1, Hnew. f_equal. eapply Hfrac; eauto.
Qed.
Lemma hz_advance_meets_the_volume : forall T c pb v i s s' ev,
  built_from T c pb -> pins_known T c -> NoDup (ta_design T) ->
  (forall e, In e (ta_design T) -> (e < List.length (ta_t T))%nat) ->
  c_lambda_lower (i_oc c) <= c_lambda_upper (i_oc c) -> c_lambda_upper (i_oc c) - c_lambda_lower (i_oc c) <= 1/100000 * 2 ^ 1000 ->
  densities_ok T c (h_rho s) -> hz_advance pb c v i s (h_filter s') ev = Ok s' ->
  let dC := map (fun x => x / h_running s') (ev_dC ev) in
  let rule := rule_gives pb c v (h_rho s) dC in
  let frac := hz_fraction pb c v (h_filter s') in
  exists lam, c_lambda_lower (i_oc c) <= lam <= c_lambda_upper (i_oc c) /\ rule lam (h_rho s') /\
    (Rabs (frac (h_rho s') - v_vol_frac v) < 1 / 10000 \/
     exists a b, c_lambda_lower (i_oc c) <= a <= lam /\ lam <= b <= c_lambda_upper (i_oc c) /\ b - a <= 1 / 100000 /\
       (a = c_lambda_lower (i_oc c) \/ exists full, rule a full /\ v_vol_frac v + 1 / 10000 <= frac full) /\
       (b = c_lambda_upper (i_oc c) \/ forall full, rule b full -> frac full <= v_vol_frac v - 1 / 10000)).
Proof.
  intros T c pb v i s s' ev HT Hne Hnd Hdes Hl Hw Hok H dC rule frac.
  destruct (hz_iteration_bisection T c pb v i s s' ev HT Hne Hnd Hdes Hl Hok H) as (Hrule & Hsc & Hfrac & o & E & B & Hve & Hr).
  set (D := d_design (pb_dom pb)) in *. set (P := oc_problem_of _ _ _) in *. fold dC in Hrule, Hr. fold rule in Hrule, Hr. fold frac in Hfrac, Hve.
  exists (b_lmid o). split; [exact B|]. split; [exact Hr|].
  destruct (bisection_exit P 1000 (1/100000) (1/10000) _ _ o Hl Hw E) as [(x & Hx & Hx2)|(x & y & Hx & Hy & Hxy & Hlo & Hhi)].
  - left. congruence.
  - right. exists x, y. split; [exact Hx|]. split; [exact Hy|]. split; [exact Hxy|]. split.
    + destruct Hlo as [Hlo|(z & Hz & _ & Hz2)]; [now left|right]. unfold vol_of in Hz.
      destruct (candidate P x) as [nw|] eqn:Ec; [|discriminate]. injection Hz as Hz.
      exists (scatter (h_rho s) D nw). pose proof (Hsc _ _ Ec) as Hpz.
      split; [apply Hrule; eauto|]. rewrite (Hfrac _ nw _ Ec Hpz) in Hz. lra.
    + destruct Hhi as [Hhi|Hhi]; [now left|right]. intros full Hf. apply Hrule in Hf. destruct Hf as (nw & Ec & Hpz).
      unfold vol_of in Hhi. rewrite Ec in Hhi. rewrite (Hfrac _ nw _ Ec Hpz) in Hhi. lra.
Qed.

(* ---- the filter ---- *)
Lemma hz_at_eq v f : hz_mesh (hz_at v f) = hz_mesh f /\ hz_mask (hz_at v f) = hz_mask f /\ hz_solve (hz_at v f) = hz_solve f /\ hz_radius (hz_at v f) = v_radius v.
Proof.
  unfold hz_at. destruct (Reqb (v_radius v) (hz_radius f)) eqn:E; [|easy]. apply Reqb_true in E. auto.
Qed.
Lemma hz_fwd_len f rho : List.length (hz_fwd f rho) = n_els (hz_mesh f).
Proof. unfold hz_fwd. now rewrite map_length, seq_length. Qed.
Lemma hz_bwd_len f g : List.length (hz_bwd f g) = n_els (hz_mesh f).
Proof. unfold hz_bwd. now rewrite map_length, seq_length. Qed.
Lemma hz_fwd_spec f n rho : filter_ready f n (hz_radius f) -> hz_forward (hz_mesh f) (hz_mask f) (hz_radius f) (fun e => nth e rho 0) (fun e => nth e (hz_fwd f rho) 0).
Proof.
  intros (_ & _ & _ & _ & _ & S). eexists. split; [apply S|]. intros e He. unfold hz_fwd. now rewrite nth_map_seq' by exact He.
Qed.
Lemma hz_bwd_spec f n g : filter_ready f n (hz_radius f) -> hz_gradient (hz_mesh f) (hz_mask f) (hz_radius f) (fun e => nth e g 0) (fun e => nth e (hz_bwd f g) 0).
Proof.
  intros (_ & _ & _ & _ & _ & S). eexists. split; [apply S|]. intros e He. unfold hz_bwd. now rewrite nth_map_seq' by exact He.
Qed.
Lemma filter_ready_at v f n : filter_ready f n (v_radius v) -> filter_ready (hz_at v f) n (hz_radius (hz_at v f)).
Proof. destruct (hz_at_eq v f) as (E1 & E2 & E3 & E4). unfold filter_ready. now rewrite E1, E3, E4. Qed.
(* never positive, with any solver *)
Lemma hz_bwd_nonpos f g e : nth e (hz_bwd f g) 0 <= 0.
Proof.
  destruct (Nat.lt_ge_cases e (n_els (hz_mesh f))) as [He|He]; [|rewrite nth_overflow; [lra|now rewrite hz_bwd_len]].
  unfold hz_bwd. rewrite nth_map_seq' by exact He. apply Rmin_r.
Qed.
Lemma vadd_len a b : List.length a = List.length b -> List.length (vadd_list a b) = List.length a.
Proof. intros H. unfold vadd_list. now apply zipwith_length. Qed.
Lemma hz_sum_spec f n gs : n_els (hz_mesh f) = n -> List.length (hz_sum f n gs) = n /\
  forall e, (e < n)%nat -> nth e (hz_sum f n gs) 0 = rsum (map (fun g => nth e (hz_bwd f g) 0) gs).
Proof.
  intros Hn. unfold hz_sum.
  assert (G : forall gs acc, List.length acc = n -> List.length (fold_left (fun acc g => vadd_list acc (hz_bwd f g)) gs acc) = n /\
    forall e, (e < n)%nat -> nth e (fold_left (fun acc g => vadd_list acc (hz_bwd f g)) gs acc) 0 = nth e acc 0 + rsum (map (fun g => nth e (hz_bwd f g) 0) gs)).
  { clear gs. induction gs as [|g gs IH]; intros acc Hl; cbn [fold_left map].
    - split; [exact Hl|]. intros. unfold rsum. cbn. lra.
    - assert (La : List.length (vadd_list acc (hz_bwd f g)) = n) by (rewrite vadd_len; [exact Hl|rewrite hz_bwd_len; congruence]).
      destruct (IH _ La) as (I1 & I2). split; [exact I1|]. intros e He. rewrite (I2 e He).
      unfold vadd_list. rewrite (zip_nth Rplus _ _ e 0 0) by (rewrite ?hz_bwd_len; lia). unfold rsum. cbn [fold_right]. lra. }
  destruct (G gs (repeat 0 n) (repeat_length _ _)) as (G1 & G2). split; [exact G1|]. intros e He. rewrite (G2 e He), nth_repeat. lra.
Qed.
(* the sensitivities handed to the update, when they are not filtered again *)
Lemma hz_sensitivity_spec f c n nt gs : n_els (hz_mesh f) = n -> List.length (hz_sensitivity f c n nt gs) = n /\
  (i_sens_filter c = false -> forall e, (e < n)%nat -> nth e (hz_sensitivity f c n nt gs) 0 = rsum (map (fun g => nth e (hz_bwd f g) 0) gs) / INR nt).
Proof.
  intros Hn. destruct (hz_sum_spec f n gs Hn) as (H1 & H2). unfold hz_sensitivity. split.
  - destruct (i_sens_filter c); [rewrite hz_fwd_len; exact Hn|now rewrite map_length].
  - intros -> e He. rewrite (nth_mapR (fun x => x / INR nt)) by lia. now rewrite H2.
Qed.
Lemma hz_sensitivity_nonpos f c n nt gs e : n_els (hz_mesh f) = n -> i_sens_filter c = false -> nth e (hz_sensitivity f c n nt gs) 0 <= 0.
Proof.
  intros Hn Hs. destruct (hz_sensitivity_spec f c n nt gs Hn) as (H1 & H2). destruct (Nat.lt_ge_cases e n) as [He|He].
  - rewrite (H2 Hs e He). assert (0 <= - rsum (map (fun g => nth e (hz_bwd f g) 0) gs)).
    { pose proof (rs_nonpos (fun g => nth e (hz_bwd f g) 0) gs (fun g _ => hz_bwd_nonpos f g e)). lra. }
    destruct (Nat.eq_dec nt 0) as [->|Hz].
    + cbn [INR]. unfold Rdiv. rewrite Rinv_0, Rmult_0_r. lra.
    + assert (0 < INR nt) by (apply lt_0_INR; lia). pose proof (Rinv_0_lt_compat _ H0). unfold Rdiv. nra.
  - rewrite nth_overflow by lia. lra.
Qed.
(* filtered densities stay in range *)
Lemma hz_fwd_range f n rho lo hi : filter_ready f n (hz_radius f) -> lo <= 1 <= hi -> (forall e, (e < n)%nat -> lo <= nth e rho 0 <= hi) ->
  forall e, (e < n)%nat -> lo <= nth e (hz_fwd f rho) 0 <= hi.
Proof.
  intros HF H1 Hr e He. pose proof (hz_fwd_spec f n rho HF) as HS. destruct HF as (Hn & Hm & Hf & Hsh & Hc & _).
  refine (C101_in_range (hz_mesh f) (hz_mask f) (hz_radius f) _ _ lo hi Hm Hf Hsh Hc _ _ HS e _); [|intros; exact H1|lia].
  intros e' He' _. apply Hr. lia.
Qed.

(* ---- the analysis ---- *)
Definition hz_projected (c : icfg) (v : ivals) (f : hfilter) (rho : list R) : list R :=
  map (fun x => heaviside_projection x (v_beta v) (c_beta_eta (i_oc c))) (hz_fwd f rho).
Lemma hz_projected_range c v f n rho : filter_ready f n (hz_radius f) -> 0 < v_beta v -> 0 <= c_beta_eta (i_oc c) <= 1 ->
  (forall e, (e < n)%nat -> 0 <= nth e rho 0) ->
  List.length (hz_projected c v f rho) = n /\ (forall e, 0 <= nth e (hz_projected c v f rho) 0) /\
  ((forall e, (e < n)%nat -> nth e rho 0 <= 1) -> forall e, nth e (hz_projected c v f rho) 0 <= 1).
Proof.
  intros HF Hb He H0. assert (Hn : n_els (hz_mesh f) = n) by apply HF.
  assert (HL : List.length (hz_projected c v f rho) = n) by (unfold hz_projected; rewrite map_length, hz_fwd_len; exact Hn).
  split; [exact HL|].
  assert (Hx : forall e, (e < n)%nat -> nth e (hz_projected c v f rho) 0 = heaviside_projection (nth e (hz_fwd f rho) 0) (v_beta v) (c_beta_eta (i_oc c))).
  { intros e H. unfold hz_projected. apply (nth_mapR (fun x => heaviside_projection x (v_beta v) (c_beta_eta (i_oc c)))). rewrite hz_fwd_len. lia. }
  set (U := fold_right Rmax 1 rho).
  assert (HU : 1 <= U /\ forall e, (e < n)%nat -> nth e rho 0 <= U).
  { unfold U. clear. revert n. induction rho as [|a l IH]; intros n; cbn [fold_right].
    - split; [lra|]. intros [|e] _; cbn; lra.
    - destruct (IH n) as (I1 & I2). pose proof (Rmax_r a (fold_right Rmax 1 l)). pose proof (Rmax_l a (fold_right Rmax 1 l)). split; [lra|].
      intros [|e] He; cbn [nth]; [lra|]. specialize (I2 e ltac:(lia)). lra. }
  split.
  - intros e. destruct (Nat.lt_ge_cases e n) as [H|H]; [|rewrite nth_overflow by lia; lra]. rewrite Hx by exact H. apply H_nonneg; auto.
    refine (proj1 (hz_fwd_range f n rho 0 U HF _ _ e H)); [lra|]. intros e' He'. split; [now apply H0|now apply HU].
  - intros H1 e. destruct (Nat.lt_ge_cases e n) as [H|H]; [|rewrite nth_overflow by lia; lra]. rewrite Hx by exact H. apply Rlt_le. apply H_range; auto.
    apply (hz_fwd_range f n rho 0 1 HF); [lra| |exact H]. intros e' He'. split; [now apply H0|now apply H1].
Qed.

Lemma hz_evaluate_eq pb c v f n rho : well_posed pb c v (some_filter n) -> filter_ready f n (hz_radius f) -> List.length rho = n ->
  (forall e, (e < n)%nat -> 0 <= nth e rho 0) -> (i_interp c = RAMP -> forall e, (e < n)%nat -> nth e rho 0 <= 1) ->
  exists El us, moduli (i_interp c) (pb_E0 pb) (Emin_of pb c) (v_p v) (hz_projected c v f rho) = Ok El /\
    (forall e, (e < n)%nat -> Emin_of pb c <= nth e El 0) /\
    Forall2 (equilibrium (fb_n (pb_basis pb)) (stiffness (pb_basis pb) (pb_nu pb) (fun e => nth e El 0)) (pb_D pb)) (loads_of pb v) us /\
    let U := map (fun u => strain_energy (pb_basis pb) (pb_nu pb) (fun e => nth e El 0) u) us in
    hz_evaluate pb c v f rho = Ok (mkEval (hz_fwd f rho) (hz_projected c v f rho)
      (rsum (zipwith (fun g u => work (fb_n (pb_basis pb)) (pb_D pb) g u) (loads_of pb v) us) / INR (List.length (pb_loads pb))) U
      (hz_sensitivity f c n (List.length (pb_loads pb))
        (map (grad_filtered (i_interp c) (pb_E0 pb) (Emin_of pb c) (v_p v) (v_beta v) (c_beta_eta (i_oc c)) (hz_fwd f rho) (hz_projected c v f rho)) U))).
Proof.
  intros WP HF Hl H0 H1. destruct (hz_projected_range c v f n rho HF (wp_beta _ _ _ _ WP) (wp_eta _ _ _ _ WP) H0) as (PL & P0 & P1).
  destruct (Emin_pos pb c v _ WP) as (HEm & HEE).
  assert (Hval : forall e, exists y, modulus (i_interp c) (nth e (hz_projected c v f rho) 0) (pb_E0 pb) (Emin_of pb c) (v_p v) = Some y /\ Emin_of pb c <= y).
  { intros e. destruct (i_interp c) eqn:Ei; cbn [modulus].
    - apply simp_pos; auto. apply (wp_p _ _ _ _ WP).
    - eexists. split; [reflexivity|]. apply (E_ramp_range _ (pb_E0 pb) (Emin_of pb c) (v_p v) HEE (Rlt_le _ _ (wp_p _ _ _ _ WP))). split; [apply P0|apply P1; auto]. }
  set (val := fun x => match modulus (i_interp c) x (pb_E0 pb) (Emin_of pb c) (v_p v) with Some y => y | None => 0 end).
  set (El := map (fun e => val (nth e (hz_projected c v f rho) 0)) (seq 0 n)).
  assert (Hmod : moduli (i_interp c) (pb_E0 pb) (Emin_of pb c) (v_p v) (hz_projected c v f rho) = Ok El).
  { unfold moduli. rewrite <- (map_nth_seq (hz_projected c v f rho) 0) at 1. rewrite PL, map_map.
    rewrite (all_some_map _ (fun e => val (nth e (hz_projected c v f rho) 0))); [reflexivity|]. intros e He. apply in_seq in He.
    unfold val. destruct (Hval e) as (y & -> & _). reflexivity. }
  assert (HE : forall e, (e < n)%nat -> Emin_of pb c <= nth e El 0).
  { intros e He. unfold El. rewrite nth_map_seq' by exact He. unfold val. destruct (Hval e) as (y & -> & Hy). exact Hy. }
  assert (HE' : forall e, (e < fb_ne (pb_basis pb))%nat -> 0 < nth e El 0).
  { intros e He. pose proof (wp_elements _ _ _ _ WP) as Q. unfold some_filter in Q. cbn [sf_centers] in Q. rewrite repeat_length in Q.
    specialize (HE e ltac:(lia)). lra. }
  destruct (usol_spec pb c v _ WP (fun e => nth e El 0) HE') as (Hobj & Heq).
  exists El, (usol pb v (fun e => nth e El 0)). split; [exact Hmod|]. split; [exact HE|]. split; [exact Heq|]. cbn zeta.
  unfold hz_evaluate. fold (hz_projected c v f rho). rewrite Hmod. cbn [bind]. rewrite Hobj. cbn [bind].
  rewrite (zipwith_len_F2 _ _ _ _ Heq), Hl. unfold loads_of. now rewrite map_length.
Qed.
Lemma hz_heat_evaluate_eq T s D A values c P v f rho : heat_problem T s A values c P -> heat_ready s D values c v (some_filter (ne (hs_H s))) ->
  filter_ready f (ne (hs_H s)) (hz_radius f) -> List.length rho = ne (hs_H s) -> (forall e, 0 <= nth e rho 0 <= 1) ->
  let rp := hz_projected c v f rho in
  exists Js Ts Ls E G, evaluated (with_p s (v_p v)) A values rp Js Ts Ls E /\ reported (with_p s (v_p v)) A values rp Ts G /\
    List.length Js = cases values /\ List.length E = cases values /\ List.length G = cases values /\
    (forall g, In g G -> List.length g = ne (hs_H s)) /\
    hz_heat_evaluate P c v f rho = Ok (mkEval (hz_fwd f rho) rp (rsum Js / INR (List.length Js)) (map (fun l e => nth e l 0) E)
      (hz_sensitivity f c (List.length rho) (cases values) (map (slopes c v (hz_fwd f rho)) G))).
Proof.
  intros (_ & _ & _ & _ & _ & Ec & Ei & tk & B & EF) HR HF Lr Hr rp.
  destruct HR as [W HS Hsol HV Hc Hd Hrad Hb He]. set (s' := with_p s (v_p v)) in *.
  assert (HV' : match values with Flt _ => True | FLst l => List.length l = List.length (hs_ns s') | Int _ => False end) by (destruct values; auto; apply HV).
  destruct (hz_projected_range c v f _ rho HF Hb He (fun e _ => proj1 (Hr e))) as (Lp & P0 & P1). specialize (P1 (fun e _ => proj2 (Hr e))). fold rp in Lp, P0, P1.
  assert (W' : well_set s' D rp).
  { apply (well_set_other s' D (uniform s 1)); [exact W|unfold uniform; now rewrite repeat_length|]. intros x Hx. destruct (In_nth _ _ 0 Hx) as (k & _ & <-). auto. }
  destruct (analysed_ok s' D A values rp W' HS Hsol HV') as (Js & Ts & Ea & LJ & LT). unfold analysed in Ea.
  destruct (from_facets (hs_H s') (Lst (hs_ns s')) values (Some (hs_Ss s')) (Some (Flt (hs_h s'))) (Some (Flt A)) None (hs_k s') (hs_obj s') (hs_w s')) as [tk0|] eqn:B0; [|discriminate].
  cbn [bind] in Ea. destruct (C72_flag_irrelevant _ _ _ _ _ _ _ _ _ _ (ta_design_robin T) _ B0) as (tk1 & B1 & Eq).
  assert (Q : tk1 = tk) by (cbn [s' with_p hs_H hs_ns hs_Ss hs_h hs_k hs_obj hs_w] in B1; congruence). subst tk1. rewrite <- Eq in Ea. clear Eq B0 tk0.
  destruct (evaluation_of_task s' D A values rp _ tk Js Ts W' HS Hsol HV' B1 Ea LT) as (Ls & E & Hobj & Hen & LL & LE).
  destruct (sensitivity_total s' D A values _ tk rp Ts W' HS B1) as (G & HG & LG & Lg & Neg).
  exists Js, Ts, Ls, E, G. split; [exists (ta_design_robin T), tk; split; [exact B1|split; [exact Hobj|exact Hen]]|].
  split; [exists (ta_design_robin T), tk; split; [exact B1|exact HG]|]. split; [exact LJ|]. split; [exact LE|]. split; [unfold cases; congruence|].
  split; [intros g Hg; rewrite <- Lp; auto|].
  pose proof (cases_pos values _ HV) as Np.
  assert (EN : n_tasks tk = Ok (cases values)).
  { pose proof (from_facets_robin _ _ _ _ _ _ _ _ _ _ _ B1) as (_ & _ & _ & Ev & _). unfold n_tasks. rewrite Ev. destruct values; [reflexivity|contradiction|reflexivity]. }
  unfold hz_heat_evaluate. fold (hz_projected c v f rho). fold rp.
  rewrite EF. cbn [hf_task]. rewrite EN. cbn [bind]. destruct (Nat.eqb_spec (cases values) 0) as [|_]; [lia|].
  cbn [s' with_p hs_p hs_c hs_ip hs_q hs_sol hs_slvm] in Hobj, Hen, HG. rewrite Hobj. cbn [bind]. rewrite Hen. cbn [bind]. rewrite HG. cbn [bind]. reflexivity.
Qed.
(* the whole analysis of an iteration *)
Lemma hz_densities t T c rho : from_args t T c -> 0 <= c_rho_min (i_oc c) -> densities_ok T c rho ->
  List.length rho = List.length (ta_t T) /\ (forall e, 0 <= nth e rho 0) /\ (c_rho_max (i_oc c) <= 1 -> forall e, nth e rho 0 <= 1).
Proof.
  intros (HT & Hpk & _) Hb Hok. destruct (ok_nonneg T c _ rho HT Hpk Hb Hok) as (A1 & A2). split; [apply Hok|]. auto.
Qed.
Lemma hz_analyse_ok t T c v f rho : from_args t T c -> task_ready t T c v -> filter_ready f (List.length (ta_t T)) (v_radius v) ->
  0 <= c_rho_min (i_oc c) -> densities_ok T c rho ->
  exists ev nt gs, hz_analyse t c v f rho = Ok (hz_at v f, ev) /\ ev_filtered ev = hz_fwd (hz_at v f) rho /\ ev_projected ev = hz_projected c v (hz_at v f) rho /\
    ev_dC ev = hz_sensitivity (hz_at v f) c (List.length (ta_t T)) nt gs /\ (0 < nt)%nat.
Proof.
  intros HA HR HF Hb Hok. destruct (hz_densities t T c rho HA Hb Hok) as (Hl & H0 & H1). pose proof (filter_ready_at v f _ HF) as HF'.
  unfold hz_analyse. destruct t as [pb|P]; cbn [task_ready element_task] in *.
  - destruct HR as (WP & Hr). destruct (hz_evaluate_eq pb c v (hz_at v f) _ rho WP HF' Hl (fun e _ => H0 e) (fun Q e _ => H1 (Hr Q) e)) as (El & us & _ & _ & _ & E).
    rewrite E. cbn [bind]. eexists _, _, _. split; [reflexivity|]. cbn [ev_filtered ev_projected ev_dC]. split; [reflexivity|]. split; [reflexivity|]. split; [reflexivity|].
    pose proof (wp_loads _ _ _ _ WP). destruct (pb_loads pb); [easy|cbn; lia].
  - destruct HR as (_ & Hm & s & D & A & values & HP & HR). pose proof HP as (_ & _ & _ & Hn & _). 
    assert (En : List.length (ta_t T) = ne (hs_H s)) by congruence. rewrite En in *.
    destruct (hz_heat_evaluate_eq T s D A values c P v (hz_at v f) rho HP HR HF' Hl (fun e => conj (H0 e) (H1 Hm e))) as (Js & Ts & Ls & E & G & _ & _ & _ & _ & _ & _ & Q).
    rewrite Q, Hl. cbn [bind]. eexists _, _, _. split; [reflexivity|]. cbn [ev_filtered ev_projected ev_dC]. split; [reflexivity|]. split; [reflexivity|]. split; [reflexivity|].
    exact (cases_pos _ _ (hr_values _ _ _ _ _ _ HR)).
Qed.
