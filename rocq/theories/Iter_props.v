(* C26: densities over whole runs. *)
From Verif Require Import Base Sums Material_model Material_proofs OC_model OC_spec OC_proofs OC_props Filter_model Filter_proofs
  Mesh_model Mesh_spec Mesh_proofs Mesh_props Fea_model Fea_spec Fea_proofs Fea_props Iter_model Iter_spec Grad_proofs Iter_proofs Grad_props.
Open Scope R_scope.
Open Scope list_scope.

(* ---- the optimizer's element sets ---- *)
Lemma sets_of T c pb : built_from T c pb -> pins_known T c ->
  d_nel (pb_dom pb) = List.length (ta_t T) /\
  (forall e, In e (d_design (pb_dom pb)) <-> designed T c e) /\
  exists l, pins pb c = Some l /\
    (forall e, In e l -> (e < List.length (ta_t T))%nat /\ ~ designed T c e) /\
    (forall e, In e (d_fixed (pb_dom pb)) -> (e < List.length (ta_t T))%nat /\ ~ designed T c e) /\
    (forall e, (e < List.length (ta_t T))%nat -> ~ designed T c e -> In e l \/ In e (d_fixed (pb_dom pb))).
Proof.
  intros (d & Hd & Hpb) Hne.
  destruct (from_nodes_inv _ _ _ _ _ _ _ _ _ Hd) as (_ & _ & HF & HN & HI & HNe & HDi & HE & Hnone).
  assert (Hnn : i_design_dirichlet c = true -> d_neumann d <> None) by (intros Q; destruct Hne as [Hne|Hne]; [rewrite Hnone; exact Hne|congruence]).
  unfold designed, pins. rewrite Hpb. destruct (i_design_dirichlet c); cbn [exclude_dirichlet d_nel d_design d_fixed d_neumann d_dir_neu].
  - split; [exact HN|]. split; [intros e; rewrite HI; intuition discriminate|].
    destruct (d_neumann d) as [l|] eqn:El; [|now destruct (Hnn eq_refl)]. exists l. cbn [olist] in HNe. split; [reflexivity|]. split; [|split].
    + intros e He. apply HNe in He. split; [apply He|]. intros (_ & Hk & _). apply Hk. left. exact He.
    + intros e He. rewrite HF, setdiff_in, in_seq in He. split; [lia|]. rewrite HI in He. tauto.
    + intros e He Hn. right. rewrite HF, setdiff_in, in_seq. split; [lia|]. rewrite HI. intuition discriminate.
  - split; [exact HN|]. split; [intros e; rewrite setdiff_in, HI, HDi; intuition|].
    exists (d_dir_neu d). split; [reflexivity|]. split; [|split].
    + intros e He. rewrite HE, in_app_iff, HDi, HNe in He. split; [destruct He as [He|He]; apply He|].
      intros (_ & Hk & Ht). destruct He as [He|He]; [now apply Ht|]. apply Hk. now left.
    + intros e He. rewrite HF, setdiff_in, in_seq in He. split; [lia|]. rewrite HI in He. tauto.
    + intros e He Hn. rewrite HE, in_app_iff, HDi, HNe, HF, setdiff_in, in_seq, HI.
      destruct (in_dec Nat.eq_dec e (ta_design T)); [|right; split; [lia|tauto]].
      assert (Dt : forall ns, touches (ta_t T) ns e \/ ~ touches (ta_t T) ns e).
      { intros ns. destruct (in_dec Nat.eq_dec e (elements_by_nodes (ta_t T) ns)) as [Q|Q]; rewrite ebn_in in Q; auto. }
      destruct (Dt (opt_nodes (ta_dirichlet T))) as [Q|Q]; [left; now left|].
      right. split; [lia|]. intros (_ & Hk). apply Hn. auto.
Qed.

(* ---- writing into densities ---- *)
Lemma scatter_notin ids : forall full vals j, ~ In j ids -> nth j (scatter full ids vals) 0 = nth j full 0.
Proof.
  induction ids as [|i ids IH]; intros full vals j Hj; cbn [scatter]; [reflexivity|]. destruct vals as [|x vals]; [reflexivity|].
  rewrite IH by (intros Q; apply Hj; now right).
  destruct (Nat.lt_ge_cases i (List.length full)) as [Hi|Hi].
  - rewrite upd_nth by exact Hi. destruct (Nat.eqb_spec j i); [|reflexivity]. exfalso. apply Hj. left. auto.
  - assert (Hu : forall l i x, (List.length l <= i)%nat -> upd l i x = l).
    { clear. induction l as [|a l IH]; intros [|i] x H; cbn in *; try lia; try reflexivity. rewrite IH by lia. reflexivity. }
    now rewrite Hu.
Qed.
Lemma scatter_in ids : forall full vals j, In j ids -> (forall i, In i ids -> (i < List.length full)%nat) ->
  List.length vals = List.length ids ->
  exists k, (k < List.length ids)%nat /\ nth k ids 0%nat = j /\ nth j (scatter full ids vals) 0 = nth k vals 0.
Proof.
  induction ids as [|i ids IH]; intros full vals j Hj Hr Hl; [easy|]. destruct vals as [|x vals]; [discriminate|].
  cbn [scatter]. destruct (in_dec Nat.eq_dec j ids) as [Hin|Hout].
  - destruct (IH (upd full i x) vals j Hin) as (k & Hk & Hk1 & Hk2).
    + intros i' Hi'. rewrite upd_len. apply Hr. now right.
    + cbn in Hl. lia.
    + exists (S k). cbn. split; [lia|]. auto.
  - destruct Hj as [<-|Hj]; [|contradiction]. exists 0%nat. cbn. split; [lia|]. split; [reflexivity|].
    rewrite scatter_notin by exact Hout. rewrite upd_nth by (apply Hr; now left). now rewrite Nat.eqb_refl.
Qed.
Lemma pin_nth rho l j : (forall i, In i l -> (i < List.length rho)%nat) ->
  nth j (pin rho (Some l)) 0 = if in_dec Nat.eq_dec j l then 1 else nth j rho 0.
Proof.
  intros Hr. cbn [pin]. destruct (in_dec Nat.eq_dec j l) as [Hi|Hi]; [|now apply scatter_notin].
  destruct (scatter_in l rho (repeat 1 (List.length l)) j Hi Hr) as (k & Hk & _ & ->); [apply repeat_length|].
  rewrite (nth_indep (repeat 1 (List.length l)) 0 1) by now rewrite repeat_length. apply nth_repeat.
Qed.
Lemma pin_len rho o : List.length (pin rho o) = List.length rho.
Proof. destruct o; cbn [pin]; [apply scatter_len|apply map_length]. Qed.

(* ---- initialisation ---- *)
Theorem C26_initial_densities : forall T c pb val_init restart rho,
  built_from T c pb -> pins_known T c -> (forall e, In e (ta_design T) -> (e < List.length (ta_t T))%nat) ->
  c_rho_min (i_oc c) <= c_rho_max (i_oc c) ->
  (forall data, restart = Some data -> forall x, In x data -> c_rho_min (i_oc c) <= x <= c_rho_max (i_oc c)) ->
  initialize_density pb c val_init restart = Ok rho ->
  densities_ok T c rho /\
  (restart = None -> forall e, designed T c e ->
     nth e rho 0 = Rmin (Rmax val_init (c_rho_min (i_oc c))) (c_rho_max (i_oc c))) /\
  (forall data, restart = Some data -> NoDup (ta_design T) -> gather rho (d_design (pb_dom pb)) = data).
Proof.
  intros T c pb v0 restart rho HT Hne Hdes Hb Hre H.
  destruct (sets_of T c pb HT Hne) as (Hn & HD & l & Hl & HL1 & HL2 & HL3).
  assert (Hdr : forall e, designed T c e -> (e < List.length (ta_t T))%nat) by (intros e (He & _); auto).
  unfold initialize_density in H. rewrite Hn, Hl in H.
  match type of H with bind ?x _ = _ => destruct x as [r0|] eqn:E0; [|discriminate] end. cbn [bind] in H.
  assert (Hrho : rho = pin (pin r0 (Some l)) (Some (d_fixed (pb_dom pb)))) by congruence. clear H. subst rho.
  assert (H0 : List.length r0 = List.length (ta_t T) /\ (forall e, designed T c e ->
     c_rho_min (i_oc c) <= nth e r0 0 <= c_rho_max (i_oc c)) /\
     (restart = None -> forall e, designed T c e -> nth e r0 0 = Rmin (Rmax v0 (c_rho_min (i_oc c))) (c_rho_max (i_oc c))) /\
     (forall data, restart = Some data -> NoDup (ta_design T) -> gather r0 (d_design (pb_dom pb)) = data)).
  { destruct restart as [data|].
    - destruct (Nat.eqb_spec (List.length data) (List.length (d_design (pb_dom pb)))) as [El|]; [|discriminate].
      injection E0 as <-. rewrite scatter_len, repeat_length. split; [reflexivity|].
      assert (Hr : forall i, In i (d_design (pb_dom pb)) -> (i < List.length (repeat 0%R (List.length (ta_t T))))%nat).
      { intros i Hi. rewrite repeat_length. apply Hdr, HD, Hi. }
      split; [|split; [discriminate|]].
      + intros e He. apply HD in He.
        destruct (scatter_in (d_design (pb_dom pb)) (repeat 0%R (List.length (ta_t T))) data e He Hr El) as (k & Hk & _ & ->).
        apply (Hre data eq_refl). apply nth_In. lia.
      + intros data' [= <-] Hnd.
        assert (Hnd' : NoDup (d_design (pb_dom pb))).
        { destruct HT as (d & Hd & Hpb). destruct (from_nodes_inv _ _ _ _ _ _ _ _ _ Hd) as ((g & Hg) & _).
          assert (NoDup (d_design d)) by (rewrite Hg; now apply NoDup_filter).
          rewrite Hpb. destruct (i_design_dirichlet c); [assumption|]. cbn. now apply NoDup_filter. }
        apply (nth_ext _ _ 0 0); [unfold gather; now rewrite map_length|].
        unfold gather at 1. rewrite map_length. intros k Hk. unfold gather.
        rewrite (nth_indep _ 0 (nth 0%nat (scatter (repeat 0%R (List.length (ta_t T))) (d_design (pb_dom pb)) data) 0)) by now rewrite map_length.
        rewrite (map_nth (fun i => nth i (scatter (repeat 0%R (List.length (ta_t T))) (d_design (pb_dom pb)) data) 0)).
        destruct (scatter_in (d_design (pb_dom pb)) (repeat 0%R (List.length (ta_t T))) data (nth k (d_design (pb_dom pb)) 0%nat)) as (k' & Hk' & Ek & ->); auto.
        * now apply nth_In.
        * f_equal. apply (proj1 (NoDup_nth _ 0%nat) Hnd'); auto.
    - injection E0 as <-. rewrite repeat_length. split; [reflexivity|].
      assert (Q : forall e, designed T c e -> nth e (repeat (clip (0 + v0) (c_rho_min (i_oc c)) (c_rho_max (i_oc c))) (List.length (ta_t T))) 0
        = Rmin (Rmax v0 (c_rho_min (i_oc c))) (c_rho_max (i_oc c))).
      { intros e He. rewrite (nth_indep _ 0 (clip (0 + v0) (c_rho_min (i_oc c)) (c_rho_max (i_oc c)))) by (rewrite repeat_length; auto).
        rewrite nth_repeat. unfold clip. rewrite Rplus_0_l. reflexivity. }
      split; [|split; [auto|discriminate]]. intros e He. rewrite Q by exact He. split.
      + apply Rmin_glb; [apply Rmax_r|exact Hb].
      + apply Rmin_r. }
  destruct H0 as (H0l & H0b & H0i & H0r).
  assert (R1 : forall i, In i l -> (i < List.length r0)%nat) by (intros i Hi; rewrite H0l; now apply HL1).
  assert (R2 : forall i, In i (d_fixed (pb_dom pb)) -> (i < List.length (pin r0 (Some l)))%nat).
  { intros i Hi. rewrite pin_len, H0l. now apply HL2. }
  assert (Hkeep : forall e, designed T c e -> nth e (pin (pin r0 (Some l)) (Some (d_fixed (pb_dom pb)))) 0 = nth e r0 0).
  { intros e He. rewrite pin_nth by exact R2. destruct (in_dec Nat.eq_dec e (d_fixed (pb_dom pb))) as [Q|Q]; [apply HL2 in Q; tauto|].
    rewrite pin_nth by exact R1. destruct (in_dec Nat.eq_dec e l) as [Q'|Q']; [apply HL1 in Q'; tauto|reflexivity]. }
  split; [split|split].
  - now rewrite !pin_len.
  - intros e He. split; [intros Hd; rewrite Hkeep by exact Hd; auto|]. intros Hd. rewrite pin_nth by exact R2.
    destruct (in_dec Nat.eq_dec e (d_fixed (pb_dom pb))) as [Q|Q]; [reflexivity|]. rewrite pin_nth by exact R1.
    destruct (in_dec Nat.eq_dec e l) as [Q'|Q']; [reflexivity|]. destruct (HL3 e He Hd); contradiction.
  - intros Er e He. rewrite Hkeep by exact He. auto.
  - intros data Er Hnd. rewrite <- (H0r data Er Hnd). unfold gather. apply map_ext_in. intros e He. apply Hkeep. now apply HD.
Qed.
Print Assumptions C26_initial_densities.

(* ---- one update, whatever the sensitivities ---- *)
Lemma candidate_step P l cs : candidate P l = Some cs -> List.length (oc_dC P) = List.length (oc_rho_e P) ->
  Forall (fun r => oc_rho_min P <= r <= oc_rho_max P) (oc_rho_e P) -> 0 <= oc_move P -> oc_smin P <= oc_smax P ->
  Forall2 (oc_step_ok (oc_rho_min P) (oc_rho_max P) (oc_move P) (oc_smin P) (oc_smax P)) (oc_rho_e P) cs.
Proof.
  unfold candidate. generalize (oc_rho_e P) as rho. generalize (oc_dC P) as dC. intros dC rho E HL Hb Hm Hs. revert rho cs E HL Hb.
  induction dC as [|d dC IH]; intros [|r rho] cs E HL Hb; cbn [zipwith all_some] in E; try discriminate HL.
  - injection E as <-. constructor.
  - inversion Hb as [|? ? Hr Hb']; subst.
    destruct (oc_candidate _ _ _ _ _ _ _ _ d r) as [x|] eqn:Ex; [|discriminate].
    destruct (all_some _) as [xs|] eqn:Exs; [|discriminate]. injection E as <-. constructor; [|apply IH; auto].
    unfold oc_candidate in Ex. destruct (fclip _ _ _) as [q|] eqn:Eq; [|discriminate]. injection Ex as <-.
    assert (Hq : oc_smin P <= q <= oc_smax P).
    { unfold fclip in Eq. destruct (np_power _ _); try discriminate; injection Eq as <-; [|lra].
      split; [now apply clip_ge_lo|apply clip_le_hi]. }
    unfold oc_step_ok. repeat split.
    + rminmax.
    + rminmax.
    + apply Rabs_le. rminmax.
    + assert (oc_smin P * r <= r * q) by nra. assert (oc_smin P * r <= r) by nra. rminmax.
    + assert (r * q <= oc_smax P * r) by nra. assert (r <= oc_smax P * r) by nra. rminmax.
Qed.
Lemma np_max_le l b : 0 <= b -> (forall x, In x l -> x <= b) -> np_max l <= b.
Proof.
  intros Hb H. destruct l as [|x l]; cbn [np_max]; [exact Hb|].
  assert (G : forall l a, a <= b -> (forall x, In x l -> x <= b) -> fold_left Rmax l a <= b).
  { clear. induction l as [|y l IH]; intros a Ha H; cbn [fold_left]; [exact Ha|]. apply IH; [|intros; apply H; now right].
    apply Rmax_lub; [exact Ha|apply H; now left]. }
  apply G; [apply H; now left|intros; apply H; now right].
Qed.
Lemma np_max_ge l x : In x l -> x <= np_max l.
Proof.
  intros H. destruct l as [|a l]; [easy|]. cbn [np_max].
  assert (G : forall l a, a <= fold_left Rmax l a /\ forall x, In x l -> x <= fold_left Rmax l a).
  { clear. induction l as [|y l IH]; intros a; cbn [fold_left]; [split; [lra|easy]|]. destruct (IH (Rmax a y)) as (I1 & I2).
    pose proof (Rmax_l a y). pose proof (Rmax_r a y). split; [lra|]. intros x [<-|Hx]; [lra|auto]. }
  destruct (G l a) as (G1 & G2). destruct H as [<-|H]; [exact G1|now apply G2].
Qed.
Lemma np_max_in l : l <> [] -> In (np_max l) l.
Proof.
  destruct l as [|a l]; [easy|]. intros _. cbn [np_max].
  assert (G : forall l a, fold_left Rmax l a = a \/ In (fold_left Rmax l a) l).
  { clear. induction l as [|y l IH]; intros a; cbn [fold_left]; [auto|]. destruct (IH (Rmax a y)) as [E|E]; [|right; now right].
    rewrite E. unfold Rmax. destruct (Rle_dec a y); [right; now left|now left]. }
  destruct (G l a) as [->|H]; [now left|now right].
Qed.
Lemma F2_nth (P : R -> R -> Prop) l m k d e : Forall2 P l m -> (k < List.length l)%nat -> P (nth k l d) (nth k m e).
Proof. intros F. revert k. induction F; intros [|k] Hk; cbn in *; try lia; auto. apply IHF. lia. Qed.

(* every accepted iteration, with any interpolation and any solver *)
Lemma advance_keeps_bounds : forall T c pb v i s f ev s',
  built_from T c pb -> pins_known T c -> (forall e, In e (ta_design T) -> (e < List.length (ta_t T))%nat) ->
  c_rho_min (i_oc c) <= c_rho_max (i_oc c) -> c_smin (i_oc c) <= c_smax (i_oc c) ->
  c_lambda_lower (i_oc c) <= c_lambda_upper (i_oc c) -> 0 <= v_move v ->
  densities_ok T c (s_rho s) -> advance pb c v i s f ev = Ok s' ->
  densities_ok T c (s_rho s') /\ (forall e, designed T c e -> oc_step_ok (c_rho_min (i_oc c)) (c_rho_max (i_oc c)) (v_move v) (c_smin (i_oc c)) (c_smax (i_oc c))
                                 (nth e (s_rho s) 0) (nth e (s_rho s') 0)) /\
  s_change s' <= v_move v /\
  (forall e, designed T c e -> Rabs (nth e (s_rho s') 0 - nth e (s_rho s) 0) <= s_change s') /\
  ((exists e, designed T c e) -> exists e, designed T c e /\ s_change s' = Rabs (nth e (s_rho s') 0 - nth e (s_rho s) 0)).
Proof.
  intros T c pb v i s f ev s' HT Hne Hdes Hb Hs Hl Hm (Hlen & Hok) H.
  destruct (sets_of T c pb HT Hne) as (Hn & HD & l & Hp & HL1 & HL2 & HL3).
  assert (Hdr : forall e, designed T c e -> (e < List.length (ta_t T))%nat) by (intros e (He & _); auto).
  unfold advance in H.
  set (a := oc_args_of pb v i (s_rho s) f ev) in H.
  destruct (rho_update (i_oc c) (s_running s) a) as [r|] eqn:Eu; [|discriminate].
  destruct (r_rho r) as [new|] eqn:En; [|discriminate]. rewrite Hp in H.
  set (rho' := pin (scatter (s_rho s) (d_design (pb_dom pb)) new) (Some l)) in *.
  assert (Hs' : s_rho s' = rho' /\ s_change s' = np_max (map Rabs (zipwith Rminus (gather rho' (d_design (pb_dom pb))) (gather (s_rho s) (d_design (pb_dom pb)))))).
  { assert (Q : s' = mkIS rho' f (r_running r) (np_max (map Rabs (zipwith Rminus (gather rho' (d_design (pb_dom pb))) (gather (s_rho s) (d_design (pb_dom pb)))))) (r_kkt r) (Some ev)) by congruence.
    rewrite Q. auto. }
  destruct Hs' as (-> & ->). clear H.
  assert (Hin : Forall (fun r => c_rho_min (i_oc c) <= r <= c_rho_max (i_oc c)) (gather (s_rho s) (d_design (pb_dom pb)))).
  { apply Forall_forall. intros x Hx. unfold gather in Hx. apply in_map_iff in Hx. destruct Hx as (e & <- & He).
    apply HD in He. apply Hok; auto. }
  assert (Hstep : Forall2 (oc_step_ok (c_rho_min (i_oc c)) (c_rho_max (i_oc c)) (v_move v) (c_smin (i_oc c)) (c_smax (i_oc c)))
            (gather (s_rho s) (d_design (pb_dom pb))) new).
  { unfold rho_update in Eu. set (dC := map _ (a_dC a)) in Eu. set (P := oc_problem_of (i_oc c) a dC) in Eu.
    destruct (bisection_consistent P 1000 (1/100000) (1/10000) _ _ Hl) as (o & E & _ & _ & C1 & _).
    rewrite E in Eu. assert (Q : r_rho r = b_rho o) by (injection Eu as <-; reflexivity).
    rewrite Q, C1 in En. apply (candidate_step P _ _ En).
    - unfold P, dC. cbn. unfold gather. now rewrite !map_length.
    - exact Hin.
    - exact Hm.
    - exact Hs. }
  assert (Hnl : List.length new = List.length (d_design (pb_dom pb))).
  { apply Forall2_len in Hstep. unfold gather in Hstep. rewrite map_length in Hstep. auto. }
  assert (R0 : forall i, In i (d_design (pb_dom pb)) -> (i < List.length (s_rho s))%nat).
  { intros e He. rewrite Hlen. apply Hdr, HD, He. }
  assert (R1 : forall i, In i l -> (i < List.length (scatter (s_rho s) (d_design (pb_dom pb)) new))%nat).
  { intros e He. rewrite scatter_len, Hlen. now apply HL1. }
  assert (Hd : forall e, designed T c e -> oc_step_ok (c_rho_min (i_oc c)) (c_rho_max (i_oc c)) (v_move v) (c_smin (i_oc c)) (c_smax (i_oc c))
                                 (nth e (s_rho s) 0) (nth e rho' 0)).
  { intros e He. unfold rho'. rewrite pin_nth by exact R1. destruct (in_dec Nat.eq_dec e l) as [Q|Q]; [apply HL1 in Q; tauto|].
    destruct (scatter_in (d_design (pb_dom pb)) (s_rho s) new e (proj2 (HD e) He) R0 Hnl) as (k & Hk & Ek & ->).
    pose proof (F2_nth _ _ _ k 0 0 Hstep) as F. unfold gather in F. rewrite map_length in F. specialize (F Hk).
    rewrite (nth_indep _ 0 (nth 0%nat (s_rho s) 0)) in F by now rewrite map_length.
    rewrite (map_nth (fun i => nth i (s_rho s) 0)) in F. now rewrite Ek in F. }
  split; [split|split].
  - unfold rho'. now rewrite pin_len, scatter_len.
  - intros e He. split; [intros Hde; exact (proj1 (Hd e Hde))|]. intros Hnd. unfold rho'. rewrite pin_nth by exact R1.
    destruct (in_dec Nat.eq_dec e l); [reflexivity|]. rewrite scatter_notin by (rewrite HD; exact Hnd). now apply Hok.
  - exact Hd.
  - assert (Hg : gather rho' (d_design (pb_dom pb)) = map (fun e => nth e rho' 0) (d_design (pb_dom pb))) by reflexivity.
    assert (Hzz : forall (g h : nat -> R) ids, map Rabs (zipwith Rminus (map g ids) (map h ids)) = map (fun e => Rabs (g e - h e)) ids).
    { clear. induction ids as [|e ids IH]; [reflexivity|]. cbn [map zipwith]. now rewrite IH. }
    split; [|split].
    2:{ intros e He. unfold gather. rewrite Hzz. apply np_max_ge. apply in_map_iff. exists e. split; [reflexivity|now apply HD]. }
    2:{ intros (e & He). unfold gather. rewrite Hzz. apply HD in He.
        pose proof (np_max_in (map (fun e => Rabs (nth e rho' 0 - nth e (s_rho s) 0)) (d_design (pb_dom pb)))) as Q.
        assert (Hnn : map (fun e => Rabs (nth e rho' 0 - nth e (s_rho s) 0)) (d_design (pb_dom pb)) <> []) by (destruct (d_design (pb_dom pb)); [easy|discriminate]).
        specialize (Q Hnn). apply in_map_iff in Q. destruct Q as (e' & Ee & He').
        exists e'. split; [now apply HD|now symmetry]. }
    apply np_max_le; [exact Hm|]. intros x Hx. apply in_map_iff in Hx. destruct Hx as (y & <- & Hy).
    assert (Hz : forall (g h : nat -> R) ids y, In y (zipwith Rminus (map g ids) (map h ids)) -> exists e, In e ids /\ y = g e - h e).
    { clear. induction ids as [|e ids IH]; intros y Hy; [easy|]. destruct Hy as [<-|Hy].
      - exists e. split; [now left|reflexivity].
      - destruct (IH y Hy) as (e' & He' & ->). exists e'. split; [now right|reflexivity]. }
    unfold gather in Hy. apply Hz in Hy. destruct Hy as (e & He & ->). apply HD in He. destruct (Hd e He) as (_ & Q & _). exact Q.
Qed.
Theorem C26_iteration_keeps_bounds : forall T c pb v i s s',
  built_from T c pb -> pins_known T c -> (forall e, In e (ta_design T) -> (e < List.length (ta_t T))%nat) ->
  c_rho_min (i_oc c) <= c_rho_max (i_oc c) -> c_smin (i_oc c) <= c_smax (i_oc c) ->
  c_lambda_lower (i_oc c) <= c_lambda_upper (i_oc c) -> 0 <= v_move v ->
  densities_ok T c (s_rho s) -> iterate pb c v i s = Ok s' ->
  densities_ok T c (s_rho s') /\ (forall e, designed T c e -> oc_step_ok (c_rho_min (i_oc c)) (c_rho_max (i_oc c)) (v_move v) (c_smin (i_oc c)) (c_smax (i_oc c))
                                 (nth e (s_rho s) 0) (nth e (s_rho s') 0)) /\
  s_change s' <= v_move v /\
  (forall e, designed T c e -> Rabs (nth e (s_rho s') 0 - nth e (s_rho s) 0) <= s_change s') /\
  ((exists e, designed T c e) -> exists e, designed T c e /\ s_change s' = Rabs (nth e (s_rho s') 0 - nth e (s_rho s) 0)).
Proof.
  intros T c pb v i s s' HT Hne Hdes Hb Hs Hl Hm Hok H. unfold iterate in H.
  destruct (evaluate pb c v (s_filter s) (s_rho s)) as [[f ev]|]; [|discriminate]. cbn [bind] in H. eapply advance_keeps_bounds; eauto.
Qed.
Print Assumptions C26_iteration_keeps_bounds.

Theorem C26_run_keeps_bounds : forall T c pb sched s l,
  built_from T c pb -> pins_known T c -> (forall e, In e (ta_design T) -> (e < List.length (ta_t T))%nat) ->
  c_rho_min (i_oc c) <= c_rho_max (i_oc c) -> c_smin (i_oc c) <= c_smax (i_oc c) ->
  c_lambda_lower (i_oc c) <= c_lambda_upper (i_oc c) -> (forall i v, In (i, v) sched -> 0 <= v_move v) ->
  densities_ok T c (s_rho s) -> run pb c sched s = Ok l ->
  List.length l = List.length sched /\ forall s', In s' l -> densities_ok T c (s_rho s').
Proof.
  intros T c pb sched. induction sched as [|[i v] sched IH]; intros s l HT Hne Hdes Hb Hs Hl Hm Hok H; cbn [run] in H.
  - injection H as <-. split; [reflexivity|easy].
  - destruct (iterate pb c v i s) as [s1|] eqn:E1; [|discriminate]. cbn [bind] in H.
    destruct (run pb c sched s1) as [l1|] eqn:E2; [|discriminate]. cbn [bind] in H. injection H as <-.
    destruct (C26_iteration_keeps_bounds T c pb v i s s1) as (Hok1 & _); auto. { eapply Hm. now left. }
    destruct (IH s1 l1) as (IL & IF); auto. { intros i' v' Hv. eapply Hm. right. exact Hv. }
    split; [cbn; lia|]. intros s' [<-|Hs']; auto.
Qed.
Print Assumptions C26_run_keeps_bounds.

(* ---- with SIMP (or RAMP and p <= 1) nothing goes wrong ---- *)
Lemma cv_nonneg pb c v f x i : well_posed pb c v f -> (forall e, 0 <= nth e x 0) ->
  (i < List.length (sf_centers f))%nat -> is_design (sf_mask f) i = true -> 0 <= cv v f x i.
Proof.
  intros WP Hx Hi Hd. unfold cv, conv. apply rs_nonneg. intros j _. apply Rmult_le_pos; [|apply Hx].
  apply entry_nonneg; [intros; apply exp_pos|left; apply (wp_radius _ _ _ _ WP)|now apply ids_in].
Qed.
Lemma cvT_nonpos pb c v f g j : well_posed pb c v f -> (forall e, nth e g 0 <= 0) -> cvT v f g j <= 0.
Proof.
  intros WP Hg. unfold cvT, conv_T. apply rs_nonpos. intros i Hi. 
  assert (0 <= entry (kernel KGaussian (v_radius v)) (v_radius v) (sf_centers f) (design_ids (sf_mask f) (List.length (sf_centers f))) i j).
  { apply entry_nonneg; [intros; apply exp_pos|left; apply (wp_radius _ _ _ _ WP)|exact Hi]. }
  pose proof (Hg i). nra.
Qed.
Lemma filtered_nonneg pb c v f x e : well_posed pb c v f -> (forall e, 0 <= nth e x 0) -> 0 <= nth e (filtered v f x) 0.
Proof.
  intros WP Hx. destruct (Nat.lt_ge_cases e (List.length (sf_centers f))) as [He|He].
  - rewrite filtered_nth by exact He. destruct (is_design (sf_mask f) e) eqn:Ed; [|apply Hx]. eapply cv_nonneg; eauto.
  - rewrite nth_overflow; [lra|]. unfold filtered. now rewrite map_length, seq_length.
Qed.
Lemma filtered_nonpos pb c v f x e : well_posed pb c v f -> (forall e, nth e x 0 <= 0) -> nth e (filtered v f x) 0 <= 0.
Proof.
  intros WP Hx. destruct (Nat.lt_ge_cases e (List.length (sf_centers f))) as [He|He].
  - rewrite filtered_nth by exact He. destruct (is_design (sf_mask f) e) eqn:Ed; [|apply Hx].
    unfold cv, conv. apply rs_nonpos. intros j _.
    assert (0 <= entry (kernel KGaussian (v_radius v)) (v_radius v) (sf_centers f) (design_ids (sf_mask f) (List.length (sf_centers f))) e j).
    { apply entry_nonneg; [intros; apply exp_pos|left; apply (wp_radius _ _ _ _ WP)|now apply ids_in]. }
    pose proof (Hx j). nra.
  - rewrite nth_overflow; [lra|]. unfold filtered. now rewrite map_length, seq_length.
Qed.
Lemma H_nonneg beta eta x : 0 < beta -> 0 <= eta <= 1 -> 0 <= x -> 0 <= heaviside_projection x beta eta.
Proof. intros Hb He Hx. rewrite <- (H_at_0 beta eta). destruct Hx as [Hx|<-]; [left; now apply H_increasing|lra]. Qed.

Lemma filtered_le1 pb c v f x e : well_posed pb c v f -> (forall e, nth e x 0 <= 1) -> nth e (filtered v f x) 0 <= 1.
Proof.
  intros WP Hx. destruct (Nat.lt_ge_cases e (List.length (sf_centers f))) as [He|He].
  - rewrite filtered_nth by exact He. destruct (is_design (sf_mask f) e) eqn:Ed; [|apply Hx]. unfold cv, conv.
    set (ids := design_ids (sf_mask f) (List.length (sf_centers f))).
    assert (Hin : In e ids) by now apply ids_in.
    rewrite <- (entry_sum (kernel KGaussian (v_radius v)) (v_radius v) (sf_centers f) ids ltac:(intros; apply exp_pos) ltac:(left; apply (wp_radius _ _ _ _ WP)) e Hin).
    apply rs_le. intros j _.
    assert (0 <= entry (kernel KGaussian (v_radius v)) (v_radius v) (sf_centers f) ids e j).
    { apply entry_nonneg; [intros; apply exp_pos|left; apply (wp_radius _ _ _ _ WP)|exact Hin]. }
    pose proof (Hx j). nra.
  - rewrite nth_overflow; [lra|]. unfold filtered. now rewrite map_length, seq_length.
Qed.
Lemma projected_range pb c v f rho : well_posed pb c v f -> (forall e, 0 <= nth e rho 0) ->
  (forall e, 0 <= nth e (projected c v f rho) 0) /\
  ((forall e, nth e rho 0 <= 1) -> forall e, nth e (projected c v f rho) 0 <= 1).
Proof.
  intros WP Hrho. split; [intros e|intros H1 e]; destruct (Nat.lt_ge_cases e (List.length (sf_centers f))) as [He|He];
    try (rewrite nth_overflow; [lra|]; rewrite projected_length; exact He).
  - rewrite projected_eq, nth_map_seq' by exact He. apply H_nonneg; [apply (wp_beta _ _ _ _ WP)|apply (wp_eta _ _ _ _ WP)|].
    eapply filtered_nonneg; eauto.
  - rewrite projected_eq, nth_map_seq' by exact He. apply Rlt_le.
    apply H_range; [apply (wp_beta _ _ _ _ WP)|apply (wp_eta _ _ _ _ WP)|]. split; [eapply filtered_nonneg; eauto|eapply filtered_le1; eauto].
Qed.
(* the analysis succeeds whenever the moduli are numbers *)
Lemma evaluate_total pb c v f rho : well_posed pb c v f ->
  List.length rho = List.length (sf_centers f) ->
  (forall e, (e < List.length (sf_centers f))%nat -> exists y,
     modulus (i_interp c) (nth e (projected c v f rho) 0) (pb_E0 pb) (Emin_of pb c) (v_p v) = Some y /\ Emin_of pb c <= y) ->
  exists El, moduli (i_interp c) (pb_E0 pb) (Emin_of pb c) (v_p v) (projected c v f rho) = Ok El /\
    (forall e, (e < List.length (sf_centers f))%nat -> 0 < nth e El 0) /\
    evaluate pb c v f rho = Ok (f2 v f, mkEval (filtered v f rho) (projected c v f rho)
      (rsum (zipwith (fun g u => work (fb_n (pb_basis pb)) (pb_D pb) g u) (loads_of pb v) (usol pb v (fun e => nth e El 0))) / loads_count pb)
      (map (fun u => strain_energy (pb_basis pb) (pb_nu pb) (fun e => nth e El 0) u) (usol pb v (fun e => nth e El 0)))
      (if i_sens_filter c then filtered v f (dCfull pb c v f rho (fun e => nth e El 0)) else dCfull pb c v f rho (fun e => nth e El 0))).
Proof.
  intros WP Hlr Hval. set (n := List.length (sf_centers f)) in *.
  destruct (Emin_pos pb c v f WP) as (HEm & HEE).
  set (val := fun x => match modulus (i_interp c) x (pb_E0 pb) (Emin_of pb c) (v_p v) with Some y => y | None => 0 end).
  set (El := map (fun e => val (nth e (projected c v f rho) 0)) (seq 0 n)).
  assert (Hmod : moduli (i_interp c) (pb_E0 pb) (Emin_of pb c) (v_p v) (projected c v f rho) = Ok El).
  { unfold moduli. rewrite <- (map_nth_seq (projected c v f rho) 0) at 1. rewrite projected_length. fold n. rewrite map_map.
    rewrite (all_some_map _ (fun e => val (nth e (projected c v f rho) 0))); [reflexivity|]. intros e He. apply in_seq in He.
    unfold val. destruct (Hval e ltac:(lia)) as (y & -> & _). reflexivity. }
  assert (HE : forall e, (e < n)%nat -> 0 < nth e El 0).
  { intros e He. unfold El. rewrite nth_map_seq' by exact He. unfold val. destruct (Hval e He) as (y & -> & Hy). lra. }
  exists El. split; [exact Hmod|]. split; [exact HE|].
  pose proof (evaluate_eq pb c v f WP rho El Hlr Hmod HE) as HQ. cbn zeta in HQ. exact HQ.
Qed.
Lemma dCfull_nonpos pb c v f rho El e : well_posed pb c v f ->
  (forall e, (e < List.length (sf_centers f))%nat -> 0 < nth e El 0) ->
  (forall k U, (k < List.length (sf_centers f))%nat -> 0 <= U ->
     dC_of (i_interp c) (nth k (projected c v f rho) 0) U (pb_E0 pb) (Emin_of pb c) (v_p v) <= 0) ->
  nth e (dCfull pb c v f rho (fun e => nth e El 0)) 0 <= 0.
Proof.
  intros WP HE HdC. set (n := List.length (sf_centers f)) in *.
  assert (Hdc : List.length (dCfull pb c v f rho (fun e => nth e El 0)) = n) by (unfold dCfull; now rewrite map_length, seq_length).
  destruct (Nat.lt_ge_cases e n) as [He|He].
  2:{ rewrite nth_overflow; [lra|]. now rewrite Hdc. }
  unfold dCfull. fold n. rewrite nth_map_seq' by exact He. 
  assert (Hc : 0 < loads_count pb).
  { unfold loads_count. apply lt_0_INR. pose proof (wp_loads _ _ _ _ WP). destruct (pb_loads pb); [easy|cbn; lia]. }
  apply Ropp_le_cancel. rewrite Ropp_0. unfold Rdiv. rewrite Ropp_mult_distr_l. apply Rmult_le_pos; [|left; now apply Rinv_0_lt_compat].
  apply Ropp_0_ge_le_contravar, Rle_ge. apply rs_nonpos. intros u _. destruct (is_design (sf_mask f) e); [|lra].
  eapply cvT_nonpos; [exact WP|]. intros k. unfold gfun, grad_filtered. rewrite projected_length. fold n.
  destruct (Nat.lt_ge_cases k n) as [Hk|Hk].
  2:{ rewrite nth_overflow; [lra|]. now rewrite map_length, seq_length. }
  rewrite nth_map_seq' by exact Hk.
  pose proof (dH_pos (v_beta v) (c_beta_eta (i_oc c)) (nth k (filtered v f rho) 0) (wp_beta _ _ _ _ WP) (wp_eta _ _ _ _ WP)).
  assert (dC_of (i_interp c) (nth k (projected c v f rho) 0) (strain_energy (pb_basis pb) (pb_nu pb) (fun e => nth e El 0) u k) (pb_E0 pb) (Emin_of pb c) (v_p v) <= 0).
  { apply HdC; [exact Hk|]. apply energy_nonneg; [apply (wp_nu _ _ _ _ WP)|exact (wp_weights _ _ _ _ WP)|left; now apply HE]. }
  nra.
Qed.
Lemma modulus_ok pb c v f rho : well_posed pb c v f -> (forall e, 0 <= nth e rho 0) ->
  (i_interp c = RAMP -> forall e, nth e rho 0 <= 1) -> forall e, exists y,
     modulus (i_interp c) (nth e (projected c v f rho) 0) (pb_E0 pb) (Emin_of pb c) (v_p v) = Some y /\ Emin_of pb c <= y.
Proof.
  intros WP Hrho H1 e. destruct (projected_range pb c v f rho WP Hrho) as (P0 & P1). destruct (Emin_pos pb c v f WP) as (HEm & HEE).
  destruct (i_interp c) eqn:Ei; cbn [modulus].
  - apply simp_pos; auto. apply (wp_p _ _ _ _ WP).
  - eexists. split; [reflexivity|]. apply (E_ramp_range (nth e (projected c v f rho) 0) (pb_E0 pb) (Emin_of pb c) (v_p v) HEE (Rlt_le _ _ (wp_p _ _ _ _ WP))). split; [apply P0|apply P1; auto].
Qed.
Lemma evaluate_safe pb c v f rho : well_posed pb c v f -> sign_safe c v ->
  List.length rho = List.length (sf_centers f) -> (forall e, 0 <= nth e rho 0) ->
  (c_rho_max (i_oc c) <= 1 -> forall e, nth e rho 0 <= 1) ->
  exists ev, evaluate pb c v f rho = Ok (f2 v f, ev) /\ ev_projected ev = projected c v f rho /\
    List.length (ev_dC ev) = List.length rho /\ (forall e, nth e (ev_dC ev) 0 <= 0).
Proof.
  intros WP Hsafe Hlr Hrho Hr1.
  assert (Hramp : i_interp c = RAMP -> forall e, nth e rho 0 <= 1).
  { intros Q. destruct Hsafe as [S|(S & _ & _ & S')]; [rewrite S in Q; discriminate|auto]. }
  destruct (evaluate_total pb c v f rho WP Hlr (fun e _ => modulus_ok pb c v f rho WP Hrho Hramp e)) as (El & _ & HE & HQ).
  eexists. split; [exact HQ|]. cbn [ev_projected ev_dC]. split; [reflexivity|].
  assert (Hle : forall e, nth e (dCfull pb c v f rho (fun e => nth e El 0)) 0 <= 0).
  { intros e. apply dCfull_nonpos; [exact WP|exact HE|]. intros k U Hk HU. destruct (Emin_pos pb c v f WP) as (HEm & HEE).
    destruct (projected_range pb c v f rho WP Hrho) as (P0 & P1).
    destruct Hsafe as [S|(S & Hp1 & Hco & _)]; rewrite S; cbn [dC_of].
    - apply dC_simp_nonpos; [exact HEE|left; apply (wp_p _ _ _ _ WP)|exact HU].
    - pose proof (wp_p _ _ _ _ WP). pose proof (P0 k). pose proof (P1 (Hramp S) k). apply dC_ramp_ok; auto; try lra.
      + unfold Emin_of. pose proof (wp_E0 _ _ _ _ WP). nra.
      + nra. }
  destruct (i_sens_filter c).
  - split; [unfold filtered; rewrite map_length, seq_length; auto|]. intros e. eapply filtered_nonpos; eauto.
  - split; [unfold dCfull; rewrite map_length, seq_length; auto|exact Hle].
Qed.
Lemma wp_same pb c v f g : sf_centers f = sf_centers g -> sf_mask f = sf_mask g -> well_posed pb c v f -> well_posed pb c v g.
Proof. intros E1 E2 [W1 W2 W3 W4 W5 W6 W7 W8 W9 W10 W11 W12 W13]. constructor; rewrite <- ?E1, <- ?E2; assumption. Qed.

Theorem C26_iteration_succeeds : forall T c pb v i s,
  built_from T c pb -> pins_known T c -> (forall e, In e (ta_design T) -> (e < List.length (ta_t T))%nat) ->
  0 <= c_rho_min (i_oc c) <= c_rho_max (i_oc c) -> c_smin (i_oc c) <= c_smax (i_oc c) -> 0 < c_floor (i_oc c) ->
  0 < c_lambda_lower (i_oc c) <= c_lambda_upper (i_oc c) -> 0 <= v_move v -> 0 <= s_running s ->
  sign_safe c v -> well_posed pb c v (s_filter s) -> List.length (sf_centers (s_filter s)) = List.length (ta_t T) ->
  densities_ok T c (s_rho s) ->
  exists s', iterate pb c v i s = Ok s' /\ 0 < s_running s' /\ (exists k, s_kkt s' = Some k) /\
    sf_centers (s_filter s') = sf_centers (s_filter s) /\ sf_mask (s_filter s') = sf_mask (s_filter s).
Proof.
  intros T c pb v i s HT Hne Hdes Hb Hs Hf Hl Hm Hrun Hsimp WP Hc (Hlen & Hok).
  destruct (sets_of T c pb HT Hne) as (Hn & HD & l & Hp & HL1 & HL2 & HL3).
  assert (Hdr : forall e, designed T c e -> (e < List.length (ta_t T))%nat) by (intros e (He & _); auto).
  assert (Hdec : forall e, designed T c e \/ ~ designed T c e).
  { intros e. destruct (in_dec Nat.eq_dec e (d_design (pb_dom pb))) as [Q|Q]; rewrite HD in Q; auto. }
  assert (Hnn : forall e, 0 <= nth e (s_rho s) 0).
  { intros e. destruct (Nat.lt_ge_cases e (List.length (ta_t T))) as [He|He].
    - destruct (Hdec e) as [Q|Q]; [pose proof (proj1 (Hok e He) Q); lra|rewrite (proj2 (Hok e He) Q); lra].
    - rewrite nth_overflow; [lra|]. lia. }
  assert (Hr1 : c_rho_max (i_oc c) <= 1 -> forall e, nth e (s_rho s) 0 <= 1).
  { intros Q1 e. destruct (Nat.lt_ge_cases e (List.length (ta_t T))) as [He|He].
    - destruct (Hdec e) as [Q|Q]; [pose proof (proj1 (Hok e He) Q); lra|rewrite (proj2 (Hok e He) Q); lra].
    - rewrite nth_overflow; [lra|]. lia. }
  destruct (evaluate_safe pb c v (s_filter s) (s_rho s) WP Hsimp ltac:(congruence) Hnn Hr1) as (ev & Hev & _ & Hdl & Hdn).
  unfold iterate, advance. rewrite Hev. cbn [bind].
  match goal with |- context [oc_args_of ?x1 ?x2 ?x3 ?x4 ?x5 ?x6] => set (a := oc_args_of x1 x2 x3 x4 x5 x6) end.
  destruct (C17_update_respects_bounds_and_move_limit (i_oc c) (s_running s) a) as (r & new & Hr & Hnew & _ & _ & Hrn & _ & Hk); auto.
  - cbn. unfold gather. now rewrite map_length.
  - cbn. apply Forall_forall. intros x Hx. unfold gather in Hx. apply in_map_iff in Hx. destruct Hx as (e & <- & _). apply Hdn.
  - cbn. apply Forall_forall. intros x Hx. unfold gather in Hx. apply in_map_iff in Hx. destruct Hx as (e & <- & He).
    apply HD in He. apply Hok; auto.
  - rewrite Hr, Hnew. eexists. split; [reflexivity|]. cbn [s_running s_kkt s_filter]. split; [exact Hrn|]. split; [exact Hk|]. split; reflexivity.
Qed.
Print Assumptions C26_iteration_succeeds.

Theorem C26_run_succeeds : forall T c pb sched s,
  built_from T c pb -> pins_known T c -> (forall e, In e (ta_design T) -> (e < List.length (ta_t T))%nat) ->
  0 <= c_rho_min (i_oc c) <= c_rho_max (i_oc c) -> c_smin (i_oc c) <= c_smax (i_oc c) -> 0 < c_floor (i_oc c) ->
  0 < c_lambda_lower (i_oc c) <= c_lambda_upper (i_oc c) -> 0 <= s_running s ->
  List.length (sf_centers (s_filter s)) = List.length (ta_t T) ->
  (forall i v, In (i, v) sched -> 0 <= v_move v /\ sign_safe c v /\ well_posed pb c v (s_filter s)) ->
  densities_ok T c (s_rho s) ->
  exists l, run pb c sched s = Ok l.
Proof.
  intros T c pb sched. induction sched as [|[i v] sched IH]; intros s HT Hne Hdes Hb Hs Hf Hl Hrun Hc Hv Hok; cbn [run].
  - now exists [].
  - destruct (Hv i v) as (Hm & Hsf & WP); [now left|].
    destruct (C26_iteration_succeeds T c pb v i s) as (s1 & E1 & Hr1 & _ & Ec & Em); auto.
    rewrite E1. cbn [bind].
    destruct (C26_iteration_keeps_bounds T c pb v i s s1) as (Hok1 & _); auto; try lra.
    destruct (IH s1) as (l & El); auto; try lra; try congruence.
    + intros i' v' Hi. destruct (Hv i' v') as (Hm' & Hsf' & WP'); [now right|]. split; [exact Hm'|]. split; [exact Hsf'|].
      eapply wp_same; [symmetry; exact Ec|symmetry; exact Em|exact WP'].
    + rewrite El. cbn [bind]. eauto.
Qed.
Print Assumptions C26_run_succeeds.

(* ---- a concrete problem: two bars, the second one loaded and therefore kept ---- *)
Definition ex_T := mkTA [[0;1];[1;2]]%nat 2 (fun l => l) (Some (Arr [0%nat])) (Some (Arr [2%nat])) None None [0;1]%nat.
Definition ex_dom : domain :=
  match from_nodes (ta_t ex_T) (ta_ndofs ex_T) (ta_dofs ex_T) (ta_dirichlet ex_T) (ta_neumann ex_T) (ta_robin ex_T) (ta_design_robin ex_T) (ta_design ex_T) with
  | Ok d => d | Err _ => mkDom 0 None None None [] [] [] [] [] end.
Definition ex_slv (A : mat) (b : vec) : vec := fun i => b i / A i i.
Definition ex_pb := mkProb ex_dom ex_B 0 1 [1%nat] [ex_f] [1; 1] ex_slv (fun A => map (ex_slv A)).
Definition ex_c := mkICfg ex_cfg (1/1000) SIMP false true.
Definition ex_v := mkVals 1 3 (4/10) 2 (1/10) (1/2) None 1.
Definition ex_filter := mkSF [[0];[1]] (Some [true; false]) 1 None.
Lemma ex_solver : solver_ok ex_pb.
Proof.
  intros E HE A. cbn [ex_pb pb_basis] in HE.
  assert (E0 : 0 < E 0%nat) by (apply HE; cbn; lia). assert (E1 : 0 < E 1%nat) by (apply HE; cbn; lia).
  assert (S : forall b, solves (fb_n (pb_basis ex_pb)) A b (pb_slv ex_pb A b)).
  { intros b i Hi. change (fb_n (pb_basis ex_pb)) with 2%nat in *. unfold mv, sum. cbn [seq map rsum fold_right].
    assert (HA : forall k l, (k < 2)%nat -> (l < 2)%nat -> A k l = if Nat.eqb k l then (if Nat.eqb k 1 then 1 else E 0%nat + E 1%nat) else 0).
    { intros k l Hk Hl. unfold A, enforceK. cbn [pb_D ex_pb mem existsb]. rewrite (Nat.eqb_sym k 1). change (pb_basis ex_pb) with ex_B. change (pb_nu ex_pb) with 0.
      destruct k as [|[|]]; [| |lia]; cbn [Nat.eqb orb]; [|destruct l as [|[|]]; [| |lia]; reflexivity].
      apply ex_stiffness; lia. }
    cbn [pb_slv ex_pb]. unfold ex_slv. rewrite (HA i 0%nat), (HA i 1%nat), (HA 0%nat 0%nat), (HA 1%nat 1%nat) by lia.
    destruct i as [|[|]]; [| |lia]; cbn [Nat.eqb]; field; lra. }
  split; [exact S|]. intros bs. cbn [pb_slvm ex_pb]. induction bs as [|b bs IH]; cbn [map]; constructor; [apply S|exact IH].
Qed.
Lemma ex_wp : well_posed ex_pb ex_c ex_v ex_filter.
Proof.
  constructor; cbn; try lra.
  - reflexivity.
  - exists 0%nat. split; [lia|reflexivity].
  - intros; lra.
  - discriminate.
  - apply ex_solver.
Qed.
Lemma ex_dom_eq : ex_dom = mkDom 2 (Some [0%nat]) (Some [1%nat]) None [0%nat] [1%nat] [0;1]%nat [1%nat] [0;1]%nat.
Proof. vm_compute. reflexivity. Qed.
Lemma ex_built : built_from ex_T ex_c ex_pb.
Proof. exists ex_dom. split; [vm_compute; reflexivity|reflexivity]. Qed.

Lemma ex_densities : densities_ok ex_T ex_c [1/2; 1].
Proof.
  assert (N : pins_known ex_T ex_c) by (left; discriminate).
  destruct (sets_of ex_T ex_c ex_pb ex_built N) as (_ & HD & _). change (pb_dom ex_pb) with ex_dom in HD. rewrite ex_dom_eq in HD. cbn [d_design] in HD.
  split; [reflexivity|]. intros e He. rewrite <- HD. cbn in He. destruct e as [|[|]]; [| |lia]; cbn.
  - split; [intros _; lra|]. intros Q. exfalso. apply Q. now left.
  - split; [|reflexivity]. intros [Q|[]]. discriminate.
Qed.
Definition ex_s0 := mkIS [1/2; 1] ex_filter 0 0 None None.
Example C26_instance : initialize_density ex_pb ex_c (1/2) None = Ok [1/2; 1] /\
  exists l, run ex_pb ex_c [(1%Z, ex_v); (2%Z, ex_v); (3%Z, ex_v)] ex_s0 = Ok l /\ List.length l = 3%nat /\
    forall s', In s' l -> densities_ok ex_T ex_c (s_rho s').
Proof.
  split.
  - unfold initialize_density, pins. change (pb_dom ex_pb) with ex_dom. rewrite ex_dom_eq. cbn. f_equal. f_equal.
    unfold clip. rewrite Rmax_left, Rmin_left; lra.
  - assert (Hd : forall e, In e (ta_design ex_T) -> (e < List.length (ta_t ex_T))%nat) by (intros e [<-|[<-|[]]]; cbn; lia).
    assert (N : pins_known ex_T ex_c) by (left; discriminate).
    destruct (C26_run_succeeds ex_T ex_c ex_pb [(1%Z, ex_v); (2%Z, ex_v); (3%Z, ex_v)] ex_s0) as (l & El); try exact ex_built; auto; try (cbn; lra).
    + intros i v Hv. replace v with ex_v by (destruct Hv as [E|[E|[E|[]]]]; congruence). split; [cbn; lra|]. split; [now left|exact ex_wp].
    + exact ex_densities.
    + exists l. split; [exact El|]. refine (C26_run_keeps_bounds ex_T ex_c ex_pb [(1%Z, ex_v); (2%Z, ex_v); (3%Z, ex_v)] ex_s0 l ex_built N Hd _ _ _ _ _ El); try (cbn; lra).
      * intros i v Hv. replace v with ex_v by (destruct Hv as [E|[E|[E|[]]]]; congruence). cbn; lra.
      * exact ex_densities.
Qed.
Lemma tanh2_big : 1/10 < tanh 2.
Proof.
  unfold tanh, sinh, cosh. set (b := exp (-(2))). set (a := exp 2).
  assert (Ha : 3 < a) by (pose proof (exp_ineq1 2 ltac:(lra)); fold a in H; lra).
  assert (Hb0 : 0 < b) by apply exp_pos. assert (Hb : b < 1) by (unfold b; rewrite <- exp_0; apply exp_increasing; lra).
  clearbody a b. apply (Rmult_lt_reg_r ((a + b) / 2)); [lra|].
  replace ((a - b) / 2 / ((a + b) / 2) * ((a + b) / 2)) with ((a - b) / 2) by (field; lra). lra.
Qed.
Lemma ex_H : 1/1000000 < heaviside_projection (1/2) 2 (1/2).
Proof.
  pose proof (H_symmetric 2 0 ltac:(lra)) as Q. rewrite Rplus_0_r, Rminus_0_r in Q.
  pose proof (H1_close 2 (1/2) ltac:(lra) ltac:(lra)) as [_ C]. pose proof tanh2_big.
  assert (1 / 1000000000000 / tanh 2 < 1/2).
  { apply (Rmult_lt_reg_r (tanh 2)); [lra|]. unfold Rdiv at 1. rewrite Rmult_assoc, Rinv_l by lra. lra. }
  lra.
Qed.
Lemma ex_filtered : nth 0 (filtered ex_v ex_filter [1/2; 1]) 0 = 1/2.
Proof.
  rewrite filtered_nth by (cbn; lia). cbn [ex_filter sf_mask is_design nth]. unfold cv, conv. cbn [ex_filter sf_mask sf_centers].
  change (design_ids (Some [true; false]) (List.length [[0];[1]])) with [0%nat].
  pose proof (entry_sum (kernel KGaussian (v_radius ex_v)) (v_radius ex_v) [[0];[1]] [0%nat] ltac:(intros; apply exp_pos) ltac:(cbn; lra) 0%nat ltac:(now left)) as Q.
  cbn [map rsum fold_right] in *. rewrite Rplus_0_r in Q. rewrite Q. cbn [nth]. lra.
Qed.
Example C62_instance : exists f' ev, evaluate ex_pb ex_c ex_v ex_filter [1/2; 1] = Ok (f', ev) /\
  (forall e, (e < List.length (sf_centers ex_filter))%nat -> is_design (sf_mask ex_filter) e = true -> 1 / 1000000 < nth e (ev_projected ev) 0) /\
  derivable_pt_lim (fun t => reported_compliance ex_pb ex_c ex_v ex_filter (line [1/2; 1] [1; 0] t)) 0 (nth 0 (ev_dC ev) 0).
Proof.
  assert (Hnn : forall e, 0 <= nth e [1/2; 1] 0) by (intros [|[|[|e]]]; cbn; lra).
  assert (Hn1 : c_rho_max (i_oc ex_c) <= 1 -> forall e, nth e [1/2; 1] 0 <= 1) by (intros _ [|[|[|e]]]; cbn; lra).
  destruct (evaluate_safe ex_pb ex_c ex_v ex_filter [1/2; 1] ex_wp (or_introl eq_refl) eq_refl Hnn Hn1) as (ev & Hev & Hp & _).
  exists (f2 ex_v ex_filter), ev. split; [exact Hev|].
  assert (Hb : forall e, (e < List.length (sf_centers ex_filter))%nat -> is_design (sf_mask ex_filter) e = true -> 1 / 1000000 < nth e (ev_projected ev) 0).
  { intros e He Hd. rewrite Hp, projected_eq, nth_map_seq' by exact He.
    destruct e as [|[|]]; [|discriminate|cbn in He; lia]. rewrite ex_filtered. apply ex_H. }
  split; [exact Hb|].
  destruct (C62_reported_sensitivity_is_the_gradient ex_pb ex_c ex_v ex_filter [1/2; 1] [1; 0] (f2 ex_v ex_filter) ev) as (_ & Q); auto.
  - exact ex_wp.
  - intros [|[|[|e]]]; cbn; intros; try lra; discriminate.
  - match type of Q with derivable_pt_lim _ _ ?L => replace (nth 0 (ev_dC ev) 0) with L; [exact Q|] end. cbn. ring.
Qed.

(* ---- findings ---- *)
(* a task without Neumann boundary (a heat problem driven by Robin or Dirichlet
   conditions only) and design_dirichlet: rho[None] = 1.0 fills the whole array *)
Theorem C26_no_neumann_resets_all_densities : forall T c pb v i s s',
  built_from T c pb -> ta_neumann T = None -> i_design_dirichlet c = true ->
  (forall val restart rho, initialize_density pb c val restart = Ok rho -> forall e, (e < List.length rho)%nat -> nth e rho 0 = 1) /\
  (iterate pb c v i s = Ok s' -> forall e, (e < List.length (s_rho s'))%nat -> nth e (s_rho s') 0 = 1).
Proof.
  intros T c pb v i s s' (d & Hd & Hpb) Hn Hdd.
  destruct (from_nodes_inv _ _ _ _ _ _ _ _ _ Hd) as (_ & _ & HF & HN & HI & _ & _ & _ & Hnone).
  assert (Hp : pins pb c = None) by (unfold pins; rewrite Hdd, Hpb, Hdd; now apply Hnone).
  assert (Hone : forall rho e, (e < List.length rho)%nat -> nth e (pin rho None) 0 = 1).
  { intros rho e He. cbn [pin]. rewrite (nth_indep _ 0 1) by now rewrite map_length. exact (map_nth (fun _ => 1) rho 1 e). }
  split.
  - intros val restart rho H e He. unfold initialize_density in H. rewrite Hp in H.
    match type of H with bind ?x _ = _ => destruct x as [r0|] eqn:E0; [|discriminate] end. cbn [bind] in H.
    assert (Hr : rho = pin (pin r0 None) (Some (d_fixed (pb_dom pb)))) by congruence. subst rho.
    assert (Hl0 : List.length r0 = d_nel (pb_dom pb)).
    { destruct restart as [data|]; [destruct (Nat.eqb _ _); [|discriminate]|]; injection E0 as <-; [now rewrite scatter_len, repeat_length|apply repeat_length]. }
    rewrite !pin_len in He. rewrite pin_nth.
    + destruct (in_dec _ _ _); [reflexivity|now apply Hone].
    + intros k Hk. rewrite pin_len, Hl0. rewrite Hpb, Hdd in *. rewrite HF, setdiff_in, in_seq in Hk. lia.
  - intros H e He. unfold iterate, advance in H. destruct (evaluate pb c v (s_filter s) (s_rho s)) as [[f ev]|]; [|discriminate]. cbn [bind] in H.
    destruct (rho_update _ _ _) as [r|]; [|discriminate]. destruct (r_rho r) as [new|]; [|discriminate]. rewrite Hp in H.
    assert (Hr : s_rho s' = pin (scatter (s_rho s) (d_design (pb_dom pb)) new) None) by (injection H as <-; reflexivity).
    rewrite Hr in *. rewrite pin_len in He. now apply Hone.
Qed.
Print Assumptions C26_no_neumann_resets_all_densities.

(* a task that an optimizer with design_dirichlet = False has already used, given to
   one with design_dirichlet = True: elements at the Dirichlet boundary are neither
   designed nor fixed; they keep the initial volume fraction, and 0 after a restart *)
Theorem C26_reused_task_freezes_boundary : forall T d pb c e,
  from_nodes (ta_t T) (ta_ndofs T) (ta_dofs T) (ta_dirichlet T) (ta_neumann T) (ta_robin T) (ta_design_robin T) (ta_design T) = Ok d ->
  ta_neumann T <> None -> pb_dom pb = exclude_dirichlet d -> i_design_dirichlet c = true ->
  In e (ta_design T) -> ~ kept_out (ta_t T) (ta_neumann T) (ta_robin T) (ta_design_robin T) e ->
  touches (ta_t T) (opt_nodes (ta_dirichlet T)) e ->
  (forall val rho, initialize_density pb c val None = Ok rho ->
     nth e rho 0 = Rmin (Rmax val (c_rho_min (i_oc c))) (c_rho_max (i_oc c))) /\
  (forall val data rho, initialize_density pb c val (Some data) = Ok rho -> nth e rho 0 = 0) /\
  (forall v i s s', List.length (s_rho s) = List.length (ta_t T) -> iterate pb c v i s = Ok s' -> nth e (s_rho s') 0 = nth e (s_rho s) 0).
Proof.
  intros T d pb c e Hd Hn Hpb Hdd He Hk Ht.
  destruct (from_nodes_inv _ _ _ _ _ _ _ _ _ Hd) as (_ & _ & HF & HN & HI & HNe & HDi & HE & Hnone).
  assert (Hnn : d_neumann d <> None) by (rewrite Hnone; exact Hn).
  destruct (d_neumann d) as [l|] eqn:El; [|easy]. cbn [olist] in HNe.
  assert (Hp : pins pb c = Some l) by (unfold pins; rewrite Hdd, Hpb; exact El).
  assert (Hel : ~ In e l). { rewrite HNe. intros Q. apply Hk. now left. }
  assert (Hed : In e (d_design d)) by (rewrite HI; auto).
  assert (Hef : ~ In e (d_fixed (pb_dom pb))). { rewrite Hpb. cbn. rewrite HF, setdiff_in. tauto. }
  assert (Hee : ~ In e (d_design (pb_dom pb))). { rewrite Hpb. cbn. rewrite setdiff_in, HDi. tauto. }
  assert (Het : (e < List.length (ta_t T))%nat) by apply Ht.
  assert (Hlr : forall k, In k l -> (k < List.length (ta_t T))%nat) by (intros k Q; apply HNe in Q; apply Q).
  assert (Hfr : forall k, In k (d_fixed (pb_dom pb)) -> (k < List.length (ta_t T))%nat).
  { intros k Q. rewrite Hpb in Q. cbn in Q. rewrite HF, setdiff_in, in_seq in Q. lia. }
  assert (Hnel : d_nel (pb_dom pb) = List.length (ta_t T)) by (rewrite Hpb; exact HN).
  assert (Hpin : forall r0, List.length r0 = List.length (ta_t T) -> nth e (pin (pin r0 (Some l)) (Some (d_fixed (pb_dom pb)))) 0 = nth e r0 0).
  { intros r0 Hr. rewrite pin_nth by (intros k Q; rewrite pin_len, Hr; auto). destruct (in_dec _ _ _); [contradiction|].
    rewrite pin_nth by (intros k Q; rewrite Hr; auto). destruct (in_dec _ _ _); [contradiction|reflexivity]. }
  split; [|split].
  - intros val rho H. unfold initialize_density in H. rewrite Hp, Hnel in H. cbn [bind] in H.
    set (r0 := repeat _ _) in H. assert (Hr : rho = pin (pin r0 (Some l)) (Some (d_fixed (pb_dom pb)))) by congruence.
    subst rho. rewrite Hpin by apply repeat_length. unfold r0.
    rewrite (nth_indep _ 0 (clip (0 + val) (c_rho_min (i_oc c)) (c_rho_max (i_oc c)))) by (rewrite repeat_length; auto).
    rewrite nth_repeat. unfold clip. now rewrite Rplus_0_l.
  - intros val data rho H. unfold initialize_density in H. rewrite Hp, Hnel in H. destruct (Nat.eqb _ _); [|discriminate]. cbn [bind] in H.
    set (r0 := scatter _ _ _) in H. assert (Hr : rho = pin (pin r0 (Some l)) (Some (d_fixed (pb_dom pb)))) by congruence.
    subst rho. rewrite Hpin by (unfold r0; now rewrite scatter_len, repeat_length). unfold r0.
    rewrite scatter_notin by exact Hee. apply nth_repeat.
  - intros v i s s' Hs H. unfold iterate, advance in H. destruct (evaluate pb c v (s_filter s) (s_rho s)) as [[f ev]|]; [|discriminate]. cbn [bind] in H.
    destruct (rho_update _ _ _) as [r|]; [|discriminate]. destruct (r_rho r) as [new|]; [|discriminate]. rewrite Hp in H.
    assert (Hr : s_rho s' = pin (scatter (s_rho s) (d_design (pb_dom pb)) new) (Some l)) by (injection H as <-; reflexivity).
    rewrite Hr. rewrite pin_nth by (intros k Q; rewrite scatter_len, Hs; auto). destruct (in_dec _ _ _); [contradiction|].
    now apply scatter_notin.
Qed.
Print Assumptions C26_reused_task_freezes_boundary.

(* one positive sensitivity at a design element and a fractional exponent: the
   densities become NaN (which the model reports as NotModelled) *)
Theorem C26_positive_sensitivity_is_fatal : forall pb c v i s f ev e,
  evaluate pb c v (s_filter s) (s_rho s) = Ok (f, ev) -> In e (d_design (pb_dom pb)) -> 0 < nth e (ev_dC ev) 0 ->
  (forall z, v_eta v <> IZR z) -> 0 < c_floor (i_oc c) -> 0 <= s_running s ->
  0 < c_lambda_lower (i_oc c) <= c_lambda_upper (i_oc c) ->
  iterate pb c v i s = Err NotModelled.
Proof.
  intros pb c v i s f ev e Hev He Hpos Heta Hf Hrun Hl. unfold iterate, advance. rewrite Hev. cbn [bind].
  match goal with |- context [oc_args_of ?x1 ?x2 ?x3 ?x4 ?x5 ?x6] => set (a := oc_args_of x1 x2 x3 x4 x5 x6) end.
  pose proof (running_pos (i_oc c) (s_running s) a Hf Hrun) as Hrp.
  destruct (rho_update (i_oc c) (s_running s) a) as [r|] eqn:Eu; [|reflexivity].
  assert (Hn : r_rho r = None); [|now rewrite Hn].
  unfold rho_update in Eu. set (rs := next_running_scale _ _ _) in *. set (dC := map _ (a_dC a)) in Eu. set (P := oc_problem_of (i_oc c) a dC) in Eu.
  destruct (bisection_consistent P 1000 (1/100000) (1/10000) _ _ (proj2 Hl)) as (o & E & _ & B2 & C1 & _).
  rewrite E in Eu. assert (Q : r_rho r = b_rho o) by (injection Eu as <-; reflexivity). rewrite Q, C1.
  destruct (In_nth _ _ 0%nat He) as (k & Hk & Ek).
  apply (candidate_nan P (b_lmid o) k (nth e (ev_dC ev) 0 / rs) (nth e (s_rho s) 0)).
  - unfold P, dC. unfold a, oc_args_of. cbn [oc_dC oc_problem_of a_dC]. unfold gather. rewrite map_map.
    rewrite nth_error_map. rewrite (nth_error_nth' _ 0%nat Hk). cbn. now rewrite Ek.
  - unfold P. unfold a, oc_args_of. cbn [oc_rho_e oc_problem_of a_rho_full a_design]. unfold gather.
    rewrite nth_error_map. rewrite (nth_error_nth' _ 0%nat Hk). cbn. now rewrite Ek.
  - apply Rdiv_lt_0_compat; auto.
  - unfold P. cbn. unfold tiny. lra.
  - exact Heta.
Qed.
Print Assumptions C26_positive_sensitivity_is_fatal.

(* RAMP with p > 1: as soon as all design densities exceed (1+p)/(2p), every strained
   design element gets a positive sensitivity *)
Theorem C26_ramp_positive_sensitivity : forall pb c v f rho f' ev e,
  well_posed pb c v f -> i_interp c = RAMP -> i_sens_filter c = false -> i_Emin_coeff c < 1 ->
  List.length rho = List.length (sf_centers f) -> (forall k, 0 <= nth k rho 0 <= 1) ->
  evaluate pb c v f rho = Ok (f', ev) ->
  (forall k, (k < List.length (sf_centers f))%nat -> is_design (sf_mask f) k = true -> 1 + v_p v < 2 * v_p v * nth k (ev_projected ev) 0) ->
  (e < List.length (sf_centers f))%nat -> is_design (sf_mask f) e = true ->
  (exists U, In U (ev_energy ev) /\ 0 < U e) ->
  0 < nth e (ev_dC ev) 0.
Proof.
  intros pb c v f rho f' ev e WP Hi Hsf Hco Hlr Hrho Hev Hw He Hd (U & HU & HUe).
  assert (Hr0 : forall k, 0 <= nth k rho 0) by (intros k; apply Hrho).
  destruct (evaluate_total pb c v f rho WP Hlr (fun e _ => modulus_ok pb c v f rho WP Hr0 (fun _ k => proj2 (Hrho k)) e)) as (El & _ & HE & HQ).
  rewrite Hev in HQ. assert (Q : f' = f2 v f /\ ev = mkEval (filtered v f rho) (projected c v f rho)
      (rsum (zipwith (fun g u => work (fb_n (pb_basis pb)) (pb_D pb) g u) (loads_of pb v) (usol pb v (fun e => nth e El 0))) / loads_count pb)
      (map (fun u => strain_energy (pb_basis pb) (pb_nu pb) (fun e => nth e El 0) u) (usol pb v (fun e => nth e El 0)))
      (dCfull pb c v f rho (fun e => nth e El 0))) by (rewrite Hsf in HQ; split; congruence).
  destruct Q as (-> & ->). cbn [ev_projected ev_energy ev_dC] in *.
  apply in_map_iff in HU. destruct HU as (u & <- & Hu). cbn beta in HUe.
  destruct (projected_range pb c v f rho WP Hr0) as (P0 & P1). specialize (P1 (fun k => proj2 (Hrho k))).
  destruct (Emin_pos pb c v f WP) as (HEm & HEE).
  assert (HEs : 0 <= Emin_of pb c < pb_E0 pb). { unfold Emin_of in *. pose proof (wp_E0 _ _ _ _ WP). split; [lra|nra]. }
  pose proof (wp_p _ _ _ _ WP) as Hp.
  set (n := List.length (sf_centers f)) in *. set (ids := design_ids (sf_mask f) n).
  assert (Hg : forall u' k, (k < n)%nat -> is_design (sf_mask f) k = true ->
     0 <= nth k (gfun pb c v f rho (fun e => nth e El 0) u') 0 /\
     (0 < strain_energy (pb_basis pb) (pb_nu pb) (fun e => nth e El 0) u' k -> 0 < nth k (gfun pb c v f rho (fun e => nth e El 0) u') 0)).
  { intros u' k Hk Hdk. unfold gfun, grad_filtered. rewrite projected_length. fold n. rewrite nth_map_seq' by exact Hk. rewrite Hi. cbn [dC_of].
    pose proof (dH_pos (v_beta v) (c_beta_eta (i_oc c)) (nth k (filtered v f rho) 0) (wp_beta _ _ _ _ WP) (wp_eta _ _ _ _ WP)) as HdH.
    set (W := strain_energy (pb_basis pb) (pb_nu pb) (fun e => nth e El 0) u' k).
    assert (HW : 0 <= W) by (apply energy_nonneg; [apply (wp_nu _ _ _ _ WP)|exact (wp_weights _ _ _ _ WP)|left; now apply HE]).
    assert (Hpos : 0 < W -> 0 < dC_drho_ramp (nth k (projected c v f rho) 0) W (pb_E0 pb) (Emin_of pb c) (v_p v)).
    { intros HW0. apply dC_ramp_sign_wrong; auto; lra. }
    split; [|intros HW0; apply Rmult_lt_0_compat; auto].
    destruct HW as [HW|<-]; [left; apply Rmult_lt_0_compat; auto|]. unfold dC_drho_ramp. rewrite Rmult_0_r. unfold Rdiv. rewrite !Rmult_0_l. lra. }
  assert (Hent : forall i j, In i ids -> 0 <= entry (kernel KGaussian (v_radius v)) (v_radius v) (sf_centers f) ids i j).
  { intros i j Hi'. apply entry_nonneg; [intros; apply exp_pos|left; apply (wp_radius _ _ _ _ WP)|exact Hi']. }
  unfold dCfull. fold n. rewrite nth_map_seq' by exact He.
  assert (Hc : 0 < loads_count pb).
  { unfold loads_count. apply lt_0_INR. pose proof (wp_loads _ _ _ _ WP). destruct (pb_loads pb); [easy|cbn; lia]. }
  apply Rdiv_lt_0_compat; [|exact Hc]. rewrite Hd.
  assert (Hcv : forall u', 0 <= cvT v f (gfun pb c v f rho (fun e => nth e El 0) u') e).
  { intros u'. unfold cvT, conv_T. apply rs_nonneg. intros i Hi'. apply Rmult_le_pos; [now apply Hent|]. apply ids_in in Hi'. now apply Hg. }
  apply (rs_pos _ _ u); [intros; apply Hcv|exact Hu|].
  unfold cvT, conv_T. apply (rs_pos _ _ e).
  - intros i Hi'. apply Rmult_le_pos; [now apply Hent|]. apply ids_in in Hi'. now apply Hg.
  - now apply ids_in.
  - apply Rmult_lt_0_compat; [|now apply Hg]. apply entry_pos; [intros; apply exp_pos|left; apply (wp_radius _ _ _ _ WP)|now apply ids_in|].
    rewrite dist_self. left; apply (wp_radius _ _ _ _ WP).
Qed.
Print Assumptions C26_ramp_positive_sensitivity.
