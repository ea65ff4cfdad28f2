(* Proofs about runs from a configuration object, for any iteration. *)
From Verif Require Import Base Sched_spec OC_model Filter_model Mesh_model Fea_model Iter_model Iter_spec Iter_proofs Iter_props Run_model Run_spec Run_proofs Run_props LRun_model.
From Verif Require Sched_model Config_model Driver_model Driver_spec Driver_proofs Driver_props.
Import Config_model.
Open Scope string_scope.
Open Scope R_scope.
Open Scope list_scope.

Definition first_iteration (restart : option (Z * list R)) : Z := match restart with Some (j, _) => (j + 1)%Z | None => 1%Z end.

Section Generic.
Context {S : Type}.
Variable it : ivals -> Z -> S -> res S.

Lemma cfg_body_inv i s s' : cfg_body it i s = (s', None) ->
  cs_sched s' = cs_sched s /\ exists v, values_at (cs_sched s) i = Ok v /\ it v i (cs_it s) = Ok (cs_it s').
Proof.
  unfold cfg_body. destruct (values_at (cs_sched s) i) as [v|]; [|intros H; discriminate].
  destruct (it v i (cs_it s)) as [t|] eqn:E; [|intros H; discriminate]. intros H. injection H as <-. cbn. eauto.
Qed.
Lemma cfg_chain_sched : forall tr s b, Driver_spec.chain (cfg_body it) s b tr -> Forall (fun e => cs_sched (snd e) = cs_sched s) tr.
Proof.
  induction tr as [|[i t] tr IH]; intros s b H; [constructor|]. cbn [Driver_spec.chain] in H. destruct H as (-> & Hb & H).
  apply cfg_body_inv in Hb. destruct Hb as (Hb & _). constructor; [exact Hb|]. apply IH in H. rewrite <- Hb. exact H.
Qed.
Lemma cfg_final_sched tr s b : Driver_spec.chain (cfg_body it) s b tr -> cs_sched (Driver_spec.final_state s tr) = cs_sched s.
Proof.
  intros H. apply cfg_chain_sched in H. unfold Driver_spec.final_state.
  destruct (last_in (map snd tr) s) as [E|E]; [now rewrite <- E|].
  apply in_map_iff in E. destruct E as (e & <- & He). rewrite Forall_forall in H. now apply H.
Qed.

Variable rc : cstate S -> R.
Variable kk : cstate S -> Driver_model.kktval.
Variable dc : Driver_model.dcfg.

(* a failing initialisation: nothing runs *)
Lemma failed_init_trace e cs : forall (o o' : @Driver_model.opt (cstate S)) rs, Driver_model.o_state o = None -> Driver_model.o_trace o = [] ->
  Driver_model.exec_all (cfg_body it) rc kk (Err e) dc cs o = (o', rs) -> Driver_model.o_trace o' = [].
Proof.
  induction cs as [|k cs IH]; intros o o' rs Hs Ht H; cbn [Driver_model.exec_all] in H; [injection H as <- <-; exact Ht|].
  destruct (Driver_model.exec _ _ _ _ _ k o) as [o1 r1] eqn:E1.
  destruct (Driver_model.exec_all _ _ _ _ _ cs o1) as [o2 rs2] eqn:E2. injection H as <- <-.
  assert (Ho : o1 = o).
  { assert (Q : forall n, fst (Driver_model.optimize_impl (cfg_body it) rc kk (Err e) dc n o) = o).
    { intros n. unfold Driver_model.optimize_impl, Driver_model.ensure_initialized.
      destruct (Driver_model.o_completed o); [reflexivity|]. rewrite Hs. reflexivity. }
    destruct k as [n|]; unfold Driver_model.exec, Driver_model.optimize_steps, Driver_model.optimize in E1.
    - destruct (n <=? 0)%Z; [now injection E1 as <- <-|]. specialize (Q (Some n)). now rewrite E1 in Q.
    - specialize (Q None). now rewrite E1 in Q. }
  subst o1. eapply IH; eauto.
Qed.

Variable start : list R -> sfilter -> S.
Variables (c : cfgobj) (ic : icfg) (pb : problem) (f : sfilter) (restart : option (Z * list R)).

Lemma cfg_initialize_inv s0 b : cfg_initialize start c ic pb f restart = Ok (s0, b) ->
  b = first_iteration restart /\ init_schedulers c [] = Ok (cs_sched s0) /\
  exists v0 rho r, initial_fraction c = Ok v0 /\ initialize_density pb ic v0 (option_map snd restart) = Ok rho /\
    initial_radius c = Ok r /\ cs_it s0 = start rho (update_radius r f).
Proof.
  unfold cfg_initialize. intros H. destruct (init_schedulers c []) as [l|]; [|discriminate]. cbn [bind] in H.
  destruct (field_int c "max_iters") as [m|]; [|discriminate]. cbn [bind] in H.
  destruct (export_all _ _); [|discriminate]. cbn [bind] in H. destruct (initial_fraction c) as [v0|]; [|discriminate]. cbn [bind] in H.
  destruct (initialize_density _ _ _ _) as [rho|] eqn:E; [|discriminate]. cbn [bind] in H.
  destruct (initial_radius c) as [r|]; [|discriminate]. cbn [bind] in H. injection H as <- <-.
  split; [reflexivity|]. split; [reflexivity|]. exists v0, rho, r. auto.
Qed.

Lemma cfg_values cs o rs : field_int c "max_iters" = Ok (Driver_model.max_iters dc) ->
  Driver_model.exec_all (cfg_body it) rc kk (cfg_initialize start c ic pb f restart) dc cs (Driver_model.opt_new []) = (o, rs) -> Forall (eq None) rs ->
  forall pre i s post, Driver_model.o_trace o = pre ++ (i, s) :: post ->
  i = (first_iteration restart + Z.of_nat (List.length pre))%Z /\ (i <= Driver_model.max_iters dc)%Z /\
  exists s0 v, cfg_initialize start c ic pb f restart = Ok (s0, first_iteration restart) /\
    in_force c (Driver_model.max_iters dc) i v /\
    it v i (cs_it (Driver_spec.final_state s0 pre)) = Ok (cs_it s).
Proof.
  intros Hm Hrun Hok pre i s post Htr.
  destruct (cfg_initialize start c ic pb f restart) as [[s0 b]|e] eqn:Ei.
  2:{ exfalso. assert (Ht : Driver_model.o_trace o = []) by (eapply failed_init_trace; [| |exact Hrun]; reflexivity).
      rewrite Ht in Htr. destruct pre; discriminate. }
  destruct (cfg_initialize_inv _ _ Ei) as (Hb & Hl & _).
  destruct (Driver_props.C28_iterations_once_in_order _ _ _ _ _ _ _ _ _ _ _ Hrun Hok) as (Hch & _ & Hmax & _).
  rewrite Htr in Hch, Hmax. destruct (chain_app _ pre s0 b i s post Hch) as (Hi & Hbody).
  rewrite Forall_forall in Hmax.
  split; [now rewrite <- Hb|]. split; [apply Hmax; rewrite map_app; apply in_or_app; right; now left|].
  apply cfg_body_inv in Hbody. destruct Hbody as (_ & v & Hv & Hit).
  assert (Hcp : Driver_spec.chain (cfg_body it) s0 b pre).
  { apply (Driver_proofs.chain_app _ pre ((i, s) :: post)) in Hch. exact (proj1 Hch). }
  rewrite (cfg_final_sched pre s0 b Hcp) in Hv.
  exists s0, v. split; [now rewrite <- Hb|]. split; [|exact Hit].
  eapply values_in_force; eauto.
Qed.
End Generic.

Lemma due_fine dc i limit conv : (1 <= Driver_model.record_times dc <= Driver_model.max_iters dc)%Z -> exists d, Driver_model.save_due dc i limit conv = Ok d.
Proof.
  intros H. unfold Driver_model.save_due. destruct (Z.eqb_spec (Driver_model.record_times dc) 0); [lia|].
  destruct (Z.eqb_spec (Driver_model.max_iters dc / Driver_model.record_times dc) 0) as [E|E]; [|eauto].
  assert (1 <= Driver_model.max_iters dc / Driver_model.record_times dc)%Z by (apply Z.div_le_lower_bound; lia). lia.
Qed.
Lemma conv_fine {S} (rc : S -> R) kkt dc s : kkt s <> Driver_model.KNone -> exists d, Driver_model.converged_at rc kkt dc s = Ok d.
Proof. unfold Driver_model.converged_at. destruct (Driver_model.check_convergence dc); [|eauto]. destruct (kkt s); [congruence|eauto|eauto]. Qed.
(* a driver whose iteration i succeeds from states ready for iteration i *)
Section SmoothI.
Context {S : Type}.
Variable body : Z -> S -> S * option exn.
Variable rc : S -> R.
Variable kkt : S -> Driver_model.kktval.
Variable dc : Driver_model.dcfg.
Variable Inv : Z -> S -> Prop.
Hypothesis Hbody : forall i s, (1 <= i)%Z -> Inv i s -> exists s', body i s = (s', None) /\ Inv (i + 1) s' /\ kkt s' <> Driver_model.KNone.
Hypothesis Hrec : (1 <= Driver_model.record_times dc <= Driver_model.max_iters dc)%Z.

Definition traced (tr : list (Z * S)) : Prop := forall e, In e tr -> Inv (fst e + 1) (snd e).

Lemma loop_smooth_i n : forall i limit last s disk trace, Z.to_nat (limit - i) = n -> (1 <= i)%Z -> Inv i s -> traced trace ->
  (i < limit \/ last + 1 = i)%Z ->
  exists s' disk' trace' last' conv,
    Driver_model.loop body rc kkt dc (Driver_model.zrange i limit) limit last s disk trace = (s', disk', trace', last', Driver_model.Finished conv) /\
    Inv (last' + 1) s' /\ (0 <= last')%Z /\ traced trace'.
Proof.
  induction n as [|n IH]; intros i limit last s disk trace Hn Hi Hs Htr Hl.
  - rewrite Driver_proofs.zrange_nil by lia. cbn [Driver_model.loop]. assert (last + 1 = i)%Z by lia.
    exists s, disk, trace, last, false. split; [reflexivity|]. split; [now subst i|]. split; [lia|exact Htr].
  - rewrite Driver_proofs.zrange_cons by lia. cbn [Driver_model.loop].
    destruct (Hbody i s Hi Hs) as (s' & -> & Hs' & Hk). destruct (conv_fine rc kkt dc s' Hk) as (cv & ->).
    destruct (due_fine dc i limit cv Hrec) as (d & ->).
    assert (Htr' : traced (trace ++ [(i, s')])).
    { intros e He. apply in_app_or in He. destruct He as [He|[<-|[]]]; [auto|exact Hs']. }
    destruct (d && cv)%bool.
    + exists s'. do 4 eexists. split; [reflexivity|]. split; [exact Hs'|]. split; [lia|exact Htr'].
    + apply IH; auto; lia.
Qed.

Definition fine_i (o : @Driver_model.opt S) : Prop :=
  match Driver_model.o_state o with
  | None => Driver_model.o_completed o = false /\ Driver_model.o_trace o = []
  | Some s => Driver_model.o_completed o = true \/ Inv (Driver_model.o_next o) s /\ (1 <= Driver_model.o_next o)%Z
  end /\ traced (Driver_model.o_trace o).
Variable s0 : S.
Variable b : Z.
Hypothesis Hs0 : Inv b s0.
Hypothesis Hb : (1 <= b)%Z.

Lemma impl_smooth_i n o : (forall k, n = Some k -> (1 <= k)%Z) -> fine_i o ->
  exists o', Driver_model.optimize_impl body rc kkt (Ok (s0, b)) dc n o = (o', None) /\ fine_i o'.
Proof.
  intros Hnk (Ho & Htr). unfold Driver_model.optimize_impl, Driver_model.ensure_initialized.
  destruct (Driver_model.o_completed o) eqn:Ec; [exists o; split; [reflexivity|split; [rewrite Ec; exact Ho|exact Htr]]|].
  assert (Hcont : forall (o1 : @Driver_model.opt S) s, Driver_model.o_state o1 = Some s -> Inv (Driver_model.o_next o1) s -> (1 <= Driver_model.o_next o1)%Z ->
     traced (Driver_model.o_trace o1) ->
     exists o', (let start := Driver_model.o_next o1 in
       if (Driver_model.o_end o1 <=? start)%Z then (Driver_model.finalize o1, None)
       else let limit := match n with None => Driver_model.o_end o1 | Some k => Z.min (start + k) (Driver_model.o_end o1) end in
         match Driver_model.loop body rc kkt dc (Driver_model.zrange start limit) limit start s (Driver_model.o_disk o1) (Driver_model.o_trace o1) with
         | (s', disk, trace, last, Driver_model.Raised e) => (Driver_model.mkOpt (Some s') start (Driver_model.o_end o1) false disk trace, Some e)
         | (s', disk, trace, last, Driver_model.Finished conv) =>
           let o' := Driver_model.mkOpt (Some s') (last + 1) (Driver_model.o_end o1) false disk trace in
           (if (conv || (Driver_model.o_end o' <=? Driver_model.o_next o')%Z)%bool then Driver_model.finalize o' else o', None)
         end) = (o', None) /\ fine_i o').
  { intros o1 s Es Is Hn Ht. cbv zeta. destruct (Z.leb_spec (Driver_model.o_end o1) (Driver_model.o_next o1)) as [Q|Q].
    - exists (Driver_model.finalize o1). split; [reflexivity|]. unfold Driver_model.finalize. rewrite Es. unfold fine_i. cbn [Driver_model.o_state Driver_model.o_trace Driver_model.o_next]. auto.
    - match goal with |- context [Driver_model.loop _ _ _ _ (Driver_model.zrange ?i ?lim) _ ?st ?s ?d ?t] =>
        destruct (loop_smooth_i _ i lim st s d t eq_refl) as (s' & disk' & tr' & last' & cv & -> & Is' & Hl & Ht') end; auto.
      + left. destruct n as [k|]; [specialize (Hnk k eq_refl)|]; lia.
      + eexists. split; [reflexivity|]. destruct (_ || _)%bool; unfold fine_i, Driver_model.finalize; cbn; (split; [right; split; [exact Is'|lia]|exact Ht']). }
  destruct (Driver_model.o_state o) as [s|] eqn:Es.
  - destruct Ho as [Q|(Is & Hn)]; [congruence|]. exact (Hcont o s Es Is Hn Htr).
  - refine (Hcont (Driver_model.mkOpt (Some s0) b (Driver_model.max_iters dc + 1) false (Driver_model.o_disk o) (Driver_model.o_trace o)) s0 eq_refl Hs0 _ _); cbn; auto.
Qed.
Lemma exec_all_smooth_i cs : forall o, fine_i o -> exists o' rs,
  Driver_model.exec_all body rc kkt (Ok (s0, b)) dc cs o = (o', rs) /\ Forall (eq None) rs /\ fine_i o'.
Proof.
  induction cs as [|k cs IH]; intros o Ho; cbn [Driver_model.exec_all]; [exists o, []; auto|].
  assert (H1 : exists o1, Driver_model.exec body rc kkt (Ok (s0, b)) dc k o = (o1, None) /\ fine_i o1).
  { destruct k as [n|]; unfold Driver_model.exec, Driver_model.optimize_steps, Driver_model.optimize.
    - destruct (Z.leb_spec n 0); [exists o; auto|]. apply impl_smooth_i; [intros k [= <-]; lia|exact Ho].
    - apply impl_smooth_i; [discriminate|exact Ho]. }
  destruct H1 as (o1 & -> & F1). destruct (IH o1 F1) as (o2 & rs & -> & Hrs & F2).
  exists o2, (None :: rs). split; [reflexivity|]. split; [constructor; auto|exact F2].
Qed.
End SmoothI.

(* the driver when iteration b always fails with e and leaves the state alone *)
Section Stuck.
Context {S : Type}.
Variable body : Z -> S -> S * option exn.
Variable rc : S -> R.
Variable kkt : S -> Driver_model.kktval.
Variable dc : Driver_model.dcfg.
Variables (s0 : S) (b : Z) (e : exn).
Hypothesis Hbody : body b s0 = (s0, Some e).
Hypothesis Hb : (b <= Driver_model.max_iters dc)%Z.

Definition stuck (o : @Driver_model.opt S) : Prop := Driver_model.o_completed o = false /\ Driver_model.o_trace o = [] /\ Driver_model.o_disk o = [] /\
  (Driver_model.o_state o = None \/
   Driver_model.o_state o = Some s0 /\ Driver_model.o_next o = b /\ Driver_model.o_end o = (Driver_model.max_iters dc + 1)%Z).
Lemma impl_stuck n o : (forall k, n = Some k -> (1 <= k)%Z) -> stuck o ->
  exists o', Driver_model.optimize_impl body rc kkt (Ok (s0, b)) dc n o = (o', Some e) /\ stuck o'.
Proof.
  intros Hn (Hc & Ht & Hd & Hs). unfold Driver_model.optimize_impl, Driver_model.ensure_initialized. rewrite Hc.
  assert (G : forall o1 : @Driver_model.opt S, Driver_model.o_next o1 = b -> Driver_model.o_end o1 = (Driver_model.max_iters dc + 1)%Z ->
     Driver_model.o_trace o1 = [] -> Driver_model.o_disk o1 = [] ->
     exists o', (let start := Driver_model.o_next o1 in
       if (Driver_model.o_end o1 <=? start)%Z then (Driver_model.finalize o1, None)
       else let limit := match n with None => Driver_model.o_end o1 | Some k => Z.min (start + k) (Driver_model.o_end o1) end in
         match Driver_model.loop body rc kkt dc (Driver_model.zrange start limit) limit start s0 (Driver_model.o_disk o1) (Driver_model.o_trace o1) with
         | (s', disk, trace, last, Driver_model.Raised e) => (Driver_model.mkOpt (Some s') start (Driver_model.o_end o1) false disk trace, Some e)
         | (s', disk, trace, last, Driver_model.Finished conv) =>
           let o' := Driver_model.mkOpt (Some s') (last + 1) (Driver_model.o_end o1) false disk trace in
           (if (conv || (Driver_model.o_end o' <=? Driver_model.o_next o')%Z)%bool then Driver_model.finalize o' else o', None)
         end) = (o', Some e) /\ stuck o').
  { intros o1 E1 E2 E3 E4. cbv zeta. rewrite E1, E2, E3, E4. destruct (Z.leb_spec (Driver_model.max_iters dc + 1) b); [lia|].
    rewrite Driver_proofs.zrange_cons by (destruct n as [k|]; [specialize (Hn k eq_refl)|]; lia).
    cbn [Driver_model.loop]. rewrite Hbody. eexists. split; [reflexivity|]. unfold stuck. cbn. do 3 (split; [reflexivity|]). right. do 2 (split; [reflexivity|]). reflexivity. }
  destruct Hs as [Hs|(Hs & Hnx & He)]; rewrite Hs.
  - refine (G (Driver_model.mkOpt (Some s0) b (Driver_model.max_iters dc + 1) false (Driver_model.o_disk o) (Driver_model.o_trace o)) eq_refl eq_refl _ _); cbn; auto.
  - exact (G o Hnx He Ht Hd).
Qed.
Lemma exec_all_stuck cs : forall o, stuck o -> exists o' rs,
  Driver_model.exec_all body rc kkt (Ok (s0, b)) dc cs o = (o', rs) /\ stuck o' /\
  rs = map (fun k => match k with Driver_model.CSteps n => if (n <=? 0)%Z then None else Some e | Driver_model.COptimize => Some e end) cs.
Proof.
  induction cs as [|k cs IH]; intros o Ho; cbn [Driver_model.exec_all]; [exists o, []; auto|].
  assert (H1 : exists o1, Driver_model.exec body rc kkt (Ok (s0, b)) dc k o = (o1, match k with Driver_model.CSteps n => if (n <=? 0)%Z then None else Some e | Driver_model.COptimize => Some e end) /\ stuck o1).
  { destruct k as [n|]; unfold Driver_model.exec, Driver_model.optimize_steps, Driver_model.optimize.
    - destruct (Z.leb_spec n 0); [exists o; auto|]. apply impl_stuck; [intros k [= <-]; lia|exact Ho].
    - apply impl_stuck; [discriminate|exact Ho]. }
  destruct H1 as (o1 & -> & F1). destruct (IH o1 F1) as (o2 & rs & -> & F2 & ->).
  exists o2. eexists. split; [reflexivity|]. split; [exact F2|reflexivity].
Qed.
End Stuck.
