(* Proofs about whole runs. *)
From Verif Require Import Base Sched_spec OC_model Filter_model Mesh_model Fea_model Iter_model Iter_spec Iter_proofs Iter_props Run_model Run_spec.
From Verif Require Sched_model Sched_proofs Sched_proofs2 Sched_proofs3 Sched_props Config_model Driver_model Driver_spec Driver_proofs Driver_proofs2 Driver_props.
Import Config_model.
Open Scope string_scope.
Open Scope R_scope.
Open Scope list_scope.

Definition named (k : string) (s : Sched_model.scheduler) : Sched_model.scheduler :=
  Sched_model.mkScheduler (Some k) (Sched_model.s_init s) (Sched_model.s_target s) (Sched_model.s_num s) (Sched_model.s_iters s) (Sched_model.s_curv s) (Sched_model.s_func s).
Lemma value_named k T s i : Sched_model.value (Sched_model.set_iters T (named k s)) i = Sched_model.value (Sched_model.set_iters T s) i.
Proof. reflexivity. Qed.

Lemma from_config_named nm i t n m cv ty k c2 s2 :
  Sched_model.from_config (Sched_model.mkConfig k i t n m cv ty) = Ok (c2, s2) ->
  exists c1 s1, Sched_model.from_config (Sched_model.mkConfig nm i t n m cv ty) = Ok (c1, s1) /\
    s2 = Sched_model.mkScheduler k (Sched_model.s_init s1) (Sched_model.s_target s1) (Sched_model.s_num s1) (Sched_model.s_iters s1) (Sched_model.s_curv s1) (Sched_model.s_func s1).
Proof.
  unfold Sched_model.from_config. cbn [Sched_model.c_type].
  repeat match goal with |- context [if String.eqb ty ?x then _ else _] => destruct (String.eqb ty x) end; intros H;
    try discriminate H; injection H as <- <-; do 2 eexists; (split; [reflexivity|]); reflexivity.
Qed.
Lemma add_field_inv c k l l' : add_field (fget c k) k l = Ok l' ->
  exists cf cf' s, fget c k = Some (FSched cf) /\ Sched_model.from_config cf = Ok (cf', s) /\ l' = l ++ [named k s].
Proof.
  unfold add_field. destruct (fget c k) as [[v|cf|d]|]; try discriminate.
  unfold Sched_model.add_object_from_config. intros H.
  destruct (Sched_model.from_config _) as [[c2 s2]|] eqn:E; [|discriminate]. cbn [bind] in H.
  destruct cf as [nm i t n m cv ty]. cbn [Sched_model.c_init Sched_model.c_target Sched_model.c_num Sched_model.c_iters Sched_model.c_curv Sched_model.c_type] in E.
  destruct (from_config_named nm i t n m cv ty _ _ _ E) as (c1 & s1 & E1 & E2).
  exists (Sched_model.mkConfig nm i t n m cv ty), c1, s1. split; [reflexivity|]. split; [exact E1|].
  unfold Sched_model.add_object in H. subst s2. injection H as <-. reflexivity.
Qed.
Lemma add_field_ok c k l cf cf' s : fget c k = Some (FSched cf) -> Sched_model.from_config cf = Ok (cf', s) ->
  add_field (fget c k) k l = Ok (l ++ [named k s]).
Proof.
  intros Hf Hs. rewrite Hf. unfold add_field, Sched_model.add_object_from_config. destruct cf as [nm i t n m cv ty].
  cbn [Sched_model.c_init Sched_model.c_target Sched_model.c_num Sched_model.c_iters Sched_model.c_curv Sched_model.c_type].
  unfold Sched_model.from_config in *. cbn [Sched_model.c_type] in *.
  repeat match goal with H : context [if String.eqb ty ?x then _ else _] |- _ => destruct (String.eqb ty x) end;
    try discriminate Hs; injection Hs as <- <-; reflexivity.
Qed.

(* the constant scheduler a plain eta becomes *)
Definition eta_sched (e : R) (m : Z) : Sched_model.scheduler :=
  Sched_model.mkScheduler (Some "eta") (Some e) (Some e) (Some (-1)%Z) (Some m) None (Some Sched_model.FStep).

(* the eight schedulers, in registration order *)
Definition eight (m : Z) (sp sv sm sb sc sr sn se : Sched_model.scheduler) : Sched_model.collection :=
  map (Sched_model.set_iters m) [named "p" sp; named "vol_frac" sv; named "move_limit" sm; named "beta" sb;
    named "percentile" sc; named "filter_radius" sr; named "neumann_scale" sn; named "eta" se].

Lemma init_schedulers_inv c l : init_schedulers c [] = Ok l ->
  exists m sp sv sm sb sc sr sn se, field_int c "max_iters" = Ok m /\ l = eight m sp sv sm sb sc sr sn se /\
    let src k s := exists cf cf', fget c k = Some (FSched cf) /\ Sched_model.from_config cf = Ok (cf', s) in
    src "p" sp /\ src "vol_frac" sv /\ src "move_limit" sm /\ src "beta" sb /\ src "percentile" sc /\
    src "filter_radius" sr /\ src "neumann_scale" sn /\
    (src "eta" se \/ exists e, fget c "eta" = Some (FPlain (PFloat e)) /\ se = eta_sched e m).
Proof.
  unfold init_schedulers. intros H.
  destruct (add_field (fget c "p") _ _) as [l1|] eqn:E1; [|discriminate]. cbn [bind] in H.
  destruct (add_field (fget c "vol_frac") _ _) as [l2|] eqn:E2; [|discriminate]. cbn [bind] in H.
  destruct (add_field (fget c "move_limit") _ _) as [l3|] eqn:E3; [|discriminate]. cbn [bind] in H.
  destruct (add_field (fget c "beta") _ _) as [l4|] eqn:E4; [|discriminate]. cbn [bind] in H.
  destruct (add_field (fget c "percentile") _ _) as [l5|] eqn:E5; [|discriminate]. cbn [bind] in H.
  destruct (add_field (fget c "filter_radius") _ _) as [l6|] eqn:E6; [|discriminate]. cbn [bind] in H.
  destruct (fget c "neumann_scale") as [[?|n|?]|] eqn:En; try discriminate.
  destruct (existsb _ allowed_neumann) eqn:Ea; [|discriminate].
  destruct (add_field (Some (FSched n)) _ _) as [l7|] eqn:E7; [|discriminate]. cbn [bind] in H.
  rewrite <- En in E7.
  apply add_field_inv in E1, E2, E3, E4, E5, E6, E7.
  destruct E1 as (f1 & f1' & s1 & F1 & G1 & ->). destruct E2 as (f2 & f2' & s2 & F2 & G2 & ->).
  destruct E3 as (f3 & f3' & s3 & F3 & G3 & ->). destruct E4 as (f4 & f4' & s4 & F4 & G4 & ->).
  destruct E5 as (f5 & f5' & s5 & F5 & G5 & ->). destruct E6 as (f6 & f6' & s6 & F6 & G6 & ->).
  destruct E7 as (f7 & f7' & s7 & F7 & G7 & ->). rewrite En in F7.
  assert (Hm : forall m, max_iters_of c = Ok m -> field_int c "max_iters" = Ok m).
  { unfold max_iters_of, field_int. intros m. now destruct (fget c "max_iters") as [[[| | | | |]| |]|]. }
  destruct (fget c "eta") as [[v|e|d]|] eqn:Ee; try discriminate.
  - destruct v as [|e| | | |]; try discriminate.
    destruct (max_iters_of c) as [m|] eqn:Em; [|discriminate]. cbn [bind] in H.
    exists m, s1, s2, s3, s4, s5, s6, s7, (eta_sched e m). split; [now apply Hm|]. split.
    + injection H as <-. reflexivity.
    + cbv zeta. repeat (split; [eauto|]). right. eauto.
  - rewrite <- Ee in H.
    match type of H with bind ?x _ = _ => destruct x as [l8|] eqn:E8; [|discriminate] end. cbn [bind] in H.
    apply add_field_inv in E8. destruct E8 as (f8 & f8' & s8 & F8 & G8 & ->).
    destruct (max_iters_of c) as [m|] eqn:Em; [|discriminate]. cbn [bind] in H.
    exists m, s1, s2, s3, s4, s5, s6, s7, s8. split; [now apply Hm|]. split.
    + injection H as <-. reflexivity.
    + cbv zeta. repeat (split; [eauto|]). left. rewrite <- Ee. eauto.
Qed.

Lemma values_eight m sp sv sm sb sc sr sn se i vs :
  Sched_model.values_as_list (eight m sp sv sm sb sc sr sn se) i value_names = Ok vs ->
  exists vp vv vm vb vc vr vn ve,
    vs = [vn; vp; vv; vb; vm; ve; vc; vr] /\
    Sched_model.value (Sched_model.set_iters m sp) i = Ok vp /\ Sched_model.value (Sched_model.set_iters m sv) i = Ok vv /\
    Sched_model.value (Sched_model.set_iters m sm) i = Ok vm /\ Sched_model.value (Sched_model.set_iters m sb) i = Ok vb /\
    Sched_model.value (Sched_model.set_iters m sc) i = Ok vc /\ Sched_model.value (Sched_model.set_iters m sr) i = Ok vr /\
    Sched_model.value (Sched_model.set_iters m sn) i = Ok vn /\ Sched_model.value (Sched_model.set_iters m se) i = Ok ve.
Proof.
  unfold Sched_model.values_as_list, Sched_model.values_as_dict, eight. cbn [map Sched_model.values_loop]. rewrite !value_named.
  destruct (Sched_model.value (Sched_model.set_iters m sp) i) as [vp|]; [|discriminate]. cbn [bind].
  destruct (Sched_model.value (Sched_model.set_iters m sv) i) as [vv|]; [|discriminate]. cbn [bind].
  destruct (Sched_model.value (Sched_model.set_iters m sm) i) as [vm|]; [|discriminate]. cbn [bind].
  destruct (Sched_model.value (Sched_model.set_iters m sb) i) as [vb|]; [|discriminate]. cbn [bind].
  destruct (Sched_model.value (Sched_model.set_iters m sc) i) as [vc|]; [|discriminate]. cbn [bind].
  destruct (Sched_model.value (Sched_model.set_iters m sr) i) as [vr|]; [|discriminate]. cbn [bind].
  destruct (Sched_model.value (Sched_model.set_iters m sn) i) as [vn|]; [|discriminate]. cbn [bind].
  destruct (Sched_model.value (Sched_model.set_iters m se) i) as [ve|]; [|discriminate]. cbn [bind].
  intros H. exists vp, vv, vm, vb, vc, vr, vn, ve. split; [injection H as <-; reflexivity|].
  repeat (split; [reflexivity|]). reflexivity.
Qed.
Lemma values_eight_ok m sp sv sm sb sc sr sn se i vp vv vm vb vc vr vn ve :
    Sched_model.value (Sched_model.set_iters m sp) i = Ok vp -> Sched_model.value (Sched_model.set_iters m sv) i = Ok vv ->
    Sched_model.value (Sched_model.set_iters m sm) i = Ok vm -> Sched_model.value (Sched_model.set_iters m sb) i = Ok vb ->
    Sched_model.value (Sched_model.set_iters m sc) i = Ok vc -> Sched_model.value (Sched_model.set_iters m sr) i = Ok vr ->
    Sched_model.value (Sched_model.set_iters m sn) i = Ok vn -> Sched_model.value (Sched_model.set_iters m se) i = Ok ve ->
  Sched_model.values_as_list (eight m sp sv sm sb sc sr sn se) i value_names = Ok [vn; vp; vv; vb; vm; ve; vc; vr].
Proof.
  intros H1 H2 H3 H4 H5 H6 H7 H8.
  unfold Sched_model.values_as_list, Sched_model.values_as_dict, eight. cbn [map Sched_model.values_loop]. rewrite !value_named.
  rewrite H1, H2, H3, H4, H5, H6, H7, H8. reflexivity.
Qed.

Lemma values_in_force c l m i v : init_schedulers c [] = Ok l -> field_int c "max_iters" = Ok m ->
  values_at l i = Ok v -> in_force c m i v.
Proof.
  intros Hl Hm Hv. destruct (init_schedulers_inv c l Hl) as (m' & sp & sv & sm & sb & sc & sr & sn & se & Hm' & -> & H).
  assert (m' = m) by congruence. subst m'. cbv zeta in H.
  destruct H as (Hp & Hvf & Hmv & Hb & Hc & Hr & Hn & He).
  unfold values_at in Hv. destruct (Sched_model.values_as_list _ i value_names) as [vs|] eqn:Evs; [|discriminate]. cbn [bind] in Hv.
  apply values_eight in Evs. destruct Evs as (vp & vv & vm & vb & vc & vr & vn & ve & -> & E1 & E2 & E3 & E4 & E5 & E6 & E7 & E8).
  destruct vn as [xn|]; [|discriminate]. destruct vp as [xp|]; [|discriminate]. destruct vv as [xv|]; [|discriminate].
  destruct vb as [xb|]; [|discriminate]. destruct vm as [xm|]; [|discriminate]. destruct ve as [xe|]; [|discriminate].
  destruct vr as [xr|]; [|discriminate]. injection Hv as <-.
  unfold in_force; cbn [v_scale v_p v_vol_frac v_beta v_move v_eta v_percentile v_radius].
  assert (G : forall k s x, (exists cf cf', fget c k = Some (FSched cf) /\ Sched_model.from_config cf = Ok (cf', s)) ->
            Sched_model.value (Sched_model.set_iters m s) i = Ok x -> prescribed c k m i x).
  { intros k s x (cf & cf' & F & G) V. exists cf, cf', s. auto. }
  repeat (split; [solve [eapply G; eauto]|]). split; [|split; eapply G; eauto].
  destruct He as [He|(e & He & ->)]; [left; eapply G; eauto|]. right.
  cbn in E8. injection E8 as <-. exact He.
Qed.

(* every performed iteration used the values in force and its own radius *)
Lemma evaluate_radius pb ic v f rho f' ev : evaluate pb ic v f rho = Ok (f', ev) -> sf_radius f' = v_radius v.
Proof.
  unfold evaluate. set (fa := if Reqb (v_radius v) (sf_radius f) then f else update_radius (v_radius v) f).
  assert (Hr : sf_radius fa = v_radius v).
  { unfold fa. destruct (Reqb (v_radius v) (sf_radius f)) eqn:E; [|reflexivity]. apply Reqb_true in E. auto. }
  assert (Hf : forall g x g' y, sf_forward g x = Ok (g', y) -> sf_radius g' = sf_radius g).
  { intros g x g' y H. unfold sf_forward in H. destruct (Reqb (sf_radius g) 0); [discriminate|].
    destruct (build_filter_matrix _ _ _ _); [|discriminate]. cbn [bind] in H. destruct (negb _); [discriminate|]. injection H as <- <-. reflexivity. }
  intros H. destruct (sf_forward fa rho) as [[fb rf]|] eqn:E1; [|discriminate]. cbn [bind] in H.
  destruct (moduli _ _ _ _ _) as [El|]; [|discriminate]. cbn [bind] in H.
  destruct (objectives _ _ _ _ _ _ _) as [[cs us]|]; [|discriminate]. cbn [bind] in H.
  destruct (sum_gradients _ _ _) as [g|]; [|discriminate]. cbn [bind] in H.
  destruct (i_sens_filter ic).
  - destruct (sf_forward fb _) as [[fc g']|] eqn:E2; [|discriminate]. cbn [bind] in H. injection H as <- <-.
    rewrite (Hf _ _ _ _ E2), (Hf _ _ _ _ E1). exact Hr.
  - injection H as <- <-. rewrite (Hf _ _ _ _ E1). exact Hr.
Qed.
Lemma iterate_radius pb ic v i s s' : iterate pb ic v i s = Ok s' -> sf_radius (s_filter s') = v_radius v.
Proof.
  unfold iterate. destruct (evaluate pb ic v (s_filter s) (s_rho s)) as [[f ev]|] eqn:E; [|discriminate]. cbn [bind].
  unfold advance. destruct (rho_update _ _ _) as [r|]; [|discriminate]. destruct (r_rho r); [|discriminate].
  intros H. injection H as <-. cbn [s_filter]. now apply evaluate_radius in E.
Qed.

Lemma chain_app {S} (body : Z -> S -> S * option exn) pre : forall s b i s' post,
  Driver_spec.chain body s b (pre ++ (i, s') :: post) ->
  i = (b + Z.of_nat (List.length pre))%Z /\ body i (Driver_spec.final_state s pre) = (s', None).
Proof.
  induction pre as [|[j t] pre IH]; intros s b i s' post H; cbn [app Driver_spec.chain] in H.
  - destruct H as (-> & H & _). cbn. split; [lia|exact H].
  - destruct H as (-> & Hb & H). destruct (IH _ _ _ _ _ H) as (-> & H'). split; [cbn [List.length]; lia|].
    rewrite <- H'. f_equal. unfold Driver_spec.final_state. cbn [map snd].
    destruct pre as [|[q w] pre']; [reflexivity|]. cbn [map]. 
    change (last (t :: snd (q, w) :: map snd pre') s) with (last (snd (q, w) :: map snd pre') s).
    generalize (map snd pre') (snd (q, w)). induction l as [|x l IHl]; intros y; [reflexivity|]. cbn [last] in *. destruct l; [reflexivity|apply (IHl x)].
Qed.

Lemma body_inv pb ic i s s' : oc_body pb ic i s = (s', None) ->
  rs_sched s' = rs_sched s /\ exists v, values_at (rs_sched s) i = Ok v /\ iterate pb ic v i (rs_it s) = Ok (rs_it s').
Proof.
  unfold oc_body. destruct (values_at (rs_sched s) i) as [v|]; [|intros H; discriminate].
  destruct (iterate pb ic v i (rs_it s)) as [t|] eqn:E; [|intros H; discriminate]. intros H. injection H as <-.
  cbn. eauto.
Qed.
Lemma chain_sched pb ic : forall tr s b, Driver_spec.chain (oc_body pb ic) s b tr ->
  Forall (fun e => rs_sched (snd e) = rs_sched s) tr.
Proof.
  induction tr as [|[i t] tr IH]; intros s b H; [constructor|]. cbn [Driver_spec.chain] in H. destruct H as (-> & Hb & H).
  apply body_inv in Hb. destruct Hb as (Hb & _). constructor; [exact Hb|].
  apply IH in H. rewrite <- Hb. exact H.
Qed.
Lemma last_in {A} (l : list A) : forall d, In (last l d) (d :: l).
Proof.
  induction l as [|x l IH]; intros d; [now left|]. destruct l as [|y l]; [right; now left|].
  change (last (x :: y :: l) d) with (last (y :: l) d). destruct (IH d) as [H|H]; [left; exact H|right; right; exact H].
Qed.
Lemma final_sched pb ic tr s b : Driver_spec.chain (oc_body pb ic) s b tr ->
  rs_sched (Driver_spec.final_state s tr) = rs_sched s.
Proof.
  intros H. apply chain_sched in H. unfold Driver_spec.final_state.
  destruct (last_in (map snd tr) s) as [E|E]; [now rewrite <- E|].
  apply in_map_iff in E. destruct E as (e & <- & He). rewrite Forall_forall in H. now apply H.
Qed.

(* a failing initialisation is reported by the call that needs it *)
Lemma failed_init_raises {S} (body : Z -> S -> S * option exn) rc kk dc e cs : forall (o o' : @Driver_model.opt S) rs,
  Driver_model.o_state o = None -> Driver_model.o_completed o = false ->
  Driver_model.exec_all body rc kk (Err e) dc (cs ++ [Driver_model.COptimize]) o = (o', rs) -> Forall (eq None) rs -> False.
Proof.
  induction cs as [|k cs IH]; intros o o' rs Hs Hc H Hrs; cbn [app Driver_model.exec_all] in H.
  - unfold Driver_model.exec, Driver_model.optimize, Driver_model.optimize_impl, Driver_model.ensure_initialized in H. rewrite Hc, Hs in H.
    injection H as <- <-. inversion Hrs; discriminate.
  - destruct (Driver_model.exec body rc kk (Err e) dc k o) as [o1 r1] eqn:E1.
    destruct (Driver_model.exec_all body rc kk (Err e) dc (cs ++ [Driver_model.COptimize]) o1) as [o2 rs2] eqn:E2. injection H as <- <-.
    inversion Hrs; subst. 
    assert (Ho : o1 = o).
    { assert (Q : forall n, fst (Driver_model.optimize_impl body rc kk (Err e) dc n o) = o).
      { intros n. unfold Driver_model.optimize_impl, Driver_model.ensure_initialized. rewrite Hc, Hs. reflexivity. }
      destruct k as [n|]; unfold Driver_model.exec, Driver_model.optimize_steps, Driver_model.optimize in E1.
      - destruct (n <=? 0)%Z; [now injection E1|]. specialize (Q (Some n)). now rewrite E1 in Q.
      - specialize (Q None). now rewrite E1 in Q. }
    subst o1. exact (IH o o2 _ Hs Hc E2 H2).
Qed.
