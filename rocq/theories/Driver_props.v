(* Property theorems about the iteration driver: C27-C30, C34. *)
From Verif Require Import Base Driver_model Driver_spec Driver_proofs Driver_proofs2.
Open Scope Z_scope.
Open Scope list_scope.

(* a concrete driver for the witnesses: the state is the list of iterations
   done so far; iteration numbers in [bad] raise *)
Definition toy (bad : Z) (i : Z) (s : list Z) : list Z * option exn :=
  if i =? bad then (s, Some RuntimeError) else (s ++ [i], None).
Definition toy_cfg (n r : Z) (check : bool) : dcfg := mkDC n r check 1 1.
Definition toy_change (s : list Z) : R := if (3 <=? Z.of_nat (List.length s)) then 0%R else 2%R.

(* C27 *)
Theorem C27_chunked_equals_single :
  forall (S : Type) (body : Z -> S -> S * option exn) rho_change kkt initialize cfg
         (disk : list (Z * S)) (cs : list call) o1 o2 rs,
  optimize body rho_change kkt initialize cfg (opt_new disk) = (o1, None) ->
  exec_all body rho_change kkt initialize cfg (cs ++ [COptimize]) (opt_new disk) = (o2, rs) ->
  Forall (eq None) rs /\
  o_state o2 = o_state o1 /\ o_next o2 = o_next o1 /\ o_end o2 = o_end o1 /\
  o_completed o1 = true /\ o_completed o2 = true /\ o_trace o2 = o_trace o1 /\
  exists D1 D2, o_disk o1 = disk ++ D1 /\ o_disk o2 = disk ++ D2 /\
    sublist D1 D2 /\ sublist D2 (o_trace o1).
Proof.
  intros S body rc kkt init cfg disk cs o1 o2 rs H1 H2.
  destruct init as [[s0 b]|e].
  2:{ unfold optimize, optimize_impl, ensure_initialized in H1. simpl in H1. discriminate. }
  destruct (chunked_eq _ _ _ _ _ _ _ _ eq_refl cs o1 o2 rs H1 H2) as (Hr & HD & Hs & Hn & He & Hc & Ht & HDs).
  assert (o_completed o2 = true).
  { destruct HD as (? & ? & ? & ? & -> & _). reflexivity. }
  repeat (split; [congruence || assumption|]). exact HDs.
Qed.
Print Assumptions C27_chunked_equals_single.

Example C27_instance :
  exec_all (toy 0) toy_change (fun _ => KVal 0) (Ok ([], 1)) (toy_cfg 10 5 false)
    [CSteps 3; CSteps 0; CSteps (-2); CSteps 1; COptimize] (opt_new []) =
  (mkOpt (Some [1;2;3;4;5;6;7;8;9;10]) 11 11 true
     (map (fun i => (i, zrange 1 (i + 1))) [1;2;3;4;6;8;10])
     (map (fun i => (i, zrange 1 (i + 1))) (zrange 1 11)), [None;None;None;None;None]) /\
  optimize (toy 0) toy_change (fun _ => KVal 0) (Ok ([], 1)) (toy_cfg 10 5 false) (opt_new []) =
  (mkOpt (Some [1;2;3;4;5;6;7;8;9;10]) 11 11 true
     (map (fun i => (i, zrange 1 (i + 1))) [1;2;4;6;8;10])
     (map (fun i => (i, zrange 1 (i + 1))) (zrange 1 11)), None).
Proof. split; vm_compute; reflexivity. Qed.

(* C28 *)
Theorem C28_iterations_once_in_order :
  forall (S : Type) (body : Z -> S -> S * option exn) rho_change kkt s0 b cfg disk (cs : list call) o rs,
  exec_all body rho_change kkt (Ok (s0, b)) cfg cs (opt_new disk) = (o, rs) ->
  Forall (eq None) rs ->
  chain body s0 b (o_trace o) /\
  map fst (o_trace o) = zrange b (b + Z.of_nat (List.length (o_trace o))) /\
  Forall (fun i => i <= max_iters cfg) (map fst (o_trace o)) /\
  (forall s, o_state o = Some s ->
     s = final_state s0 (o_trace o) /\ o_next o = b + Z.of_nat (List.length (o_trace o))) /\
  (In COptimize cs -> o_completed o = true) /\
  (forall c o' r, exec body rho_change kkt (Ok (s0, b)) cfg c o = (o', r) -> r = None ->
     exists new, o_trace o' = o_trace o ++ new /\
       match c with CSteps n => Z.of_nat (List.length new) <= Z.max n 0 | COptimize => True end).
Proof.
  intros S body rc kkt s0 b cfg disk cs o rs H Hr.
  pose proof (exec_all_inv _ _ _ _ _ _ _ _ eq_refl _ _ _ _ (or_introl eq_refl) H Hr) as HI.
  destruct (inv_facts _ _ _ _ _ _ _ _ HI) as (Hch & Hmx & Hst).
  split; [exact Hch|]. split; [now apply (chain_fst body _ s0)|].
  split; [rewrite Forall_forall in *; intros i Hi; apply in_map_iff in Hi; destruct Hi as (x & <- & Hx); auto|].
  split; [intros s Hs; rewrite Hs in Hst; exact Hst|]. split.
  - intros Hin. apply in_split in Hin. destruct Hin as (c1 & c2 & ->).
    rewrite exec_all_app in H. destruct (exec_all _ _ _ _ _ c1 _) as [oa ra] eqn:Ea.
    destruct (exec_all _ _ _ _ _ (COptimize :: c2) oa) as [ob rb] eqn:Eb. injection H as <- <-.
    apply Forall_app in Hr. destruct Hr as (Hra & Hrb).
    pose proof (exec_all_inv _ _ _ _ _ _ _ _ eq_refl _ _ _ _ (or_introl eq_refl) Ea Hra) as HIa.
    apply exec_all_cons in Eb. destruct Eb as (oc & r & rs' & H1 & H2 & ->).
    inversion Hrb as [|? ? Hn Hrb']; subst r.
    destruct (exec_inv _ _ _ _ _ _ _ _ eq_refl _ _ _ HIa H1) as (_ & HD). specialize (HD eq_refl).
    assert (Hc : o_completed oc = true) by (destruct HD as (? & ? & ? & ? & -> & _); reflexivity).
    clear - H2 Hc. revert oc ob rs' Hc H2. induction c2 as [|c c2 IH]; intros oc ob rs' Hc H2.
    + simpl in H2. injection H2 as <- <-. exact Hc.
    + apply exec_all_cons in H2. destruct H2 as (o1 & r & rs'' & H1 & H2 & ->).
      rewrite completed_frozen in H1 by exact Hc. injection H1 as <- <-. eauto.
  - intros c o' r Hc ->. eapply call_grows; eauto.
Qed.
Print Assumptions C28_iterations_once_in_order.

Theorem C28_completed_optimizer_is_frozen :
  forall (S : Type) (body : Z -> S -> S * option exn) rho_change kkt initialize cfg c (o : @opt S),
  o_completed o = true -> exec body rho_change kkt initialize cfg c o = (o, None).
Proof. intros. now apply completed_frozen. Qed.
Print Assumptions C28_completed_optimizer_is_frozen.

(* C29 *)
Theorem C29_stops_at_first_converged_iteration :
  forall (S : Type) (body : Z -> S -> S * option exn) rho_change kkt s0 b cfg disk cs o rs,
  exec_all body rho_change kkt (Ok (s0, b)) cfg (cs ++ [COptimize]) (opt_new disk) = (o, rs) ->
  Forall (eq None) rs ->
  let meets := meets_criteria rho_change kkt cfg in
  (exists pre i s, o_trace o = pre ++ [(i, s)] /\ o_state o = Some s /\ meets s /\
     Forall (fun e => ~ meets (snd e)) pre /\ In (i, s) (o_disk o)) \/
  (Forall (fun e => ~ meets (snd e)) (o_trace o) /\
   map fst (o_trace o) = zrange b (max_iters cfg + 1)).
Proof.
  intros S body rc kkt s0 b cfg disk cs o rs H Hr meets.
  rewrite exec_all_app in H. destruct (exec_all _ _ _ _ _ cs _) as [oa ra] eqn:Ea.
  cbn [Driver_model.exec_all] in H.
  destruct (exec _ _ _ _ _ COptimize oa) as [ob rb] eqn:Eb. injection H as <- <-.
  apply Forall_app in Hr. destruct Hr as (Hra & Hrb). inversion Hrb as [|? ? Hn _]; subst rb.
  pose proof (exec_all_inv _ _ _ _ _ _ _ _ eq_refl _ _ _ _ (or_introl eq_refl) Ea Hra) as HIa.
  destruct (exec_inv _ _ _ _ _ _ _ _ eq_refl _ _ _ HIa Eb) as (HI & HD). specialize (HD eq_refl).
  destruct (inv_facts _ _ _ _ _ _ _ _ HI) as (Hch & _).
  destruct (done_convergence _ _ _ _ _ _ _ _ HD) as [Hl|(Hf & Hlen)]; [now left|right].
  split; [exact Hf|]. rewrite (chain_fst body _ s0 b Hch), Hlen.
  destruct (Z.max_spec 0 (max_iters cfg + 1 - b)) as [(H1 & ->)|(H1 & ->)].
  - f_equal. lia.
  - rewrite !zrange_nil by lia. reflexivity.
Qed.
Print Assumptions C29_stops_at_first_converged_iteration.

Theorem C29_no_early_stop_when_unchecked :
  forall (S : Type) (body : Z -> S -> S * option exn) rho_change kkt s0 b cfg disk cs o rs,
  check_convergence cfg = false ->
  exec_all body rho_change kkt (Ok (s0, b)) cfg (cs ++ [COptimize]) (opt_new disk) = (o, rs) ->
  Forall (eq None) rs ->
  map fst (o_trace o) = zrange b (max_iters cfg + 1).
Proof.
  intros S body rc kkt s0 b cfg disk cs o rs Hoff H Hr.
  destruct (C29_stops_at_first_converged_iteration S body rc kkt s0 b cfg disk cs o rs H Hr)
    as [(pre & i & s & _ & _ & Hm & _)|(_ & Hm)]; [|exact Hm].
  exfalso. destruct Hm as (Hm & _). congruence.
Qed.
Print Assumptions C29_no_early_stop_when_unchecked.

(* criteria needed but the optimizer computed no residual: an error, not a stop *)
Theorem C29_missing_residual_raises :
  forall (S : Type) (body : Z -> S -> S * option exn) rho_change kkt s0 s1 b cfg disk,
  check_convergence cfg = true -> b <= max_iters cfg ->
  body b s0 = (s1, None) -> kkt s1 = KNone ->
  exists o, optimize body rho_change kkt (Ok (s0, b)) cfg (opt_new disk) = (o, Some ValueError) /\
    o_disk o = disk /\ o_completed o = false.
Proof.
  intros S body rc kkt s0 s1 b cfg disk Hc Hb Hbody Hk.
  unfold optimize, optimize_impl, ensure_initialized, opt_new. cbn -[loop zrange Z.leb].
  destruct (Z.leb_spec (max_iters cfg + 1) b); [lia|].
  rewrite zrange_cons by lia. cbn [loop]. rewrite Hbody. unfold converged_at. rewrite Hc, Hk. eauto.
Qed.
Print Assumptions C29_missing_residual_raises.

Lemma C29_toy_conv s : toy_change s = 0%R \/ toy_change s = 2%R.
Proof. unfold toy_change. destruct (_ <=? _); auto. Qed.
Example C29_instance_criteria :
  meets_criteria toy_change (fun _ => KVal 0) (toy_cfg 10 5 true) [1;2;3] /\
  ~ meets_criteria toy_change (fun _ => KVal 0) (toy_cfg 10 5 true) [1;2].
Proof.
  unfold meets_criteria, toy_change. simpl. rewrite Rabs_R0. split; [repeat split; lra|].
  intros (_ & H & _). lra.
Qed.
(* on this toy the run stops at iteration 3 of 10 *)
Example C29_instance_run :
  exists o, optimize (toy 0) toy_change (fun _ => KVal 0) (Ok ([], 1)) (toy_cfg 10 5 true) (opt_new []) = (o, None) /\
    map fst (o_trace o) = [1;2;3] /\ map fst (o_disk o) = [1;2;3] /\ o_completed o = true.
Proof.
  assert (H1 : forall s, toy_change s = 2%R ->
    converged_at toy_change (fun _ => KVal 0) (toy_cfg 10 5 true) s = Ok false).
  { intros s H. unfold converged_at. simpl. rewrite H. unfold Rltb. destruct (Rlt_dec 2 1); [lra|reflexivity]. }
  assert (H2 : forall s, toy_change s = 0%R ->
    converged_at toy_change (fun _ => KVal 0) (toy_cfg 10 5 true) s = Ok true).
  { intros s H. unfold converged_at. simpl. rewrite H, Rabs_R0. unfold Rltb. destruct (Rlt_dec 0 1); [reflexivity|lra]. }
  eexists. unfold optimize, optimize_impl, ensure_initialized, opt_new.
  cbn -[loop zrange Z.leb]. change (zrange 1 11) with [1;2;3;4;5;6;7;8;9;10].
  cbn [loop toy Z.eqb app]. rewrite (H1 [1]) by reflexivity. cbn -[converged_at loop toy_change].
  cbn [loop toy Z.eqb app]. rewrite (H1 [1;2]) by reflexivity. cbn -[converged_at loop toy_change].
  cbn [loop toy Z.eqb app]. rewrite (H2 [1;2;3]) by reflexivity. cbn -[converged_at loop toy_change].
  repeat split.
Qed.

(* C30 *)
Theorem C30_checkpoints_exactly_when_documented :
  forall (S : Type) (body : Z -> S -> S * option exn) rho_change kkt s0 b cfg disk cs o rs c o',
  exec_all body rho_change kkt (Ok (s0, b)) cfg cs (opt_new disk) = (o, rs) ->
  Forall (eq None) rs ->
  exec body rho_change kkt (Ok (s0, b)) cfg c o = (o', None) ->
  exists new saved, o_trace o' = o_trace o ++ new /\ o_disk o' = o_disk o ++ saved /\
    sublist saved new /\
    forall e, In e new -> (In e saved <->
      fst e = 1 \/ (max_iters cfg / record_times cfg | fst e) \/
      (exists pre, new = pre ++ [e]) \/ meets_criteria rho_change kkt cfg (snd e)).
Proof.
  intros S body rc kkt s0 b cfg disk cs o rs c o' H Hr Hc.
  pose proof (exec_all_inv _ _ _ _ _ _ _ _ eq_refl _ _ _ _ (or_introl eq_refl) H Hr) as HI.
  destruct c as [n|]; simpl in Hc.
  - unfold optimize_steps in Hc. destruct (Z.leb_spec n 0).
    + injection Hc as <-. exists [], []. rewrite !app_nil_r. repeat split; auto; try constructor; easy.
    + exact (inv_written _ _ _ _ _ _ _ _ eq_refl (Some n) _ _ HI H0 Hc).
  - exact (inv_written _ _ _ _ _ _ _ _ eq_refl None _ _ HI I Hc).
Qed.
Print Assumptions C30_checkpoints_exactly_when_documented.

(* The last sentence of C30 is false: with record_times > max_iters (the
   integer quotient is 0) or record_times = 0 every run dies in its first
   iteration, with nothing saved. *)
Theorem C30_record_times_out_of_range_refuted :
  forall (S : Type) (body : Z -> S -> S * option exn) rho_change kkt s0 s1 b cfg disk,
  (record_times cfg = 0 \/ 0 <= max_iters cfg < record_times cfg) ->
  b <= max_iters cfg -> body b s0 = (s1, None) -> check_convergence cfg = false ->
  exists o, optimize body rho_change kkt (Ok (s0, b)) cfg (opt_new disk) = (o, Some ZeroDivisionError) /\
    o_disk o = disk /\ o_next o = b /\ o_completed o = false.
Proof.
  intros S body rc kkt s0 s1 b cfg disk Hrt Hb Hbody Hc.
  unfold optimize, optimize_impl, ensure_initialized, opt_new. cbn -[loop zrange Z.leb].
  destruct (Z.leb_spec (max_iters cfg + 1) b); [lia|].
  rewrite zrange_cons by lia. cbn [loop]. rewrite Hbody. unfold converged_at. rewrite Hc.
  unfold save_due. destruct (Z.eqb_spec (record_times cfg) 0) as [E|E].
  - simpl. eauto.
  - destruct Hrt as [|Hrt]; [easy|]. rewrite Z.div_small by lia. simpl. eauto.
Qed.
Print Assumptions C30_record_times_out_of_range_refuted.
Example C30_refutation_instance : (* max_iters = 10 with the default record_times = 20 *)
  snd (optimize (toy 0) toy_change (fun _ => KVal 0) (Ok ([], 1)) (toy_cfg 10 20 false) (opt_new [])) = Some ZeroDivisionError.
Proof. vm_compute. reflexivity. Qed.

(* C34 *)
(* What holds: an exception leaves the optimizer usable; when every call asks
   for one iteration, a retry after a failure continues with exactly the
   iteration that failed, and none is skipped or repeated.  (The state is what
   the interrupted iteration left behind: its arrays are updated in place.) *)
Theorem C34_single_step_retry_partial :
  forall (S : Type) (body : Z -> S -> S * option exn) rho_change kkt initialize cfg (o o' : @opt S) e s,
  o_state o = Some s -> o_completed o = false -> 
  optimize_steps body rho_change kkt initialize cfg 1 o = (o', Some e) ->
  1 <= record_times cfg <= max_iters cfg -> check_convergence cfg = false ->
  o_next o' = o_next o /\ o_trace o' = o_trace o /\ o_disk o' = o_disk o /\
  o_state o' = Some (fst (body (o_next o) s)) /\ o_completed o' = false.
Proof.
  intros S body rc kkt init cfg o o' e s Hs Hcomp H Hrt Hoff.
  unfold optimize_steps in H. change (1 <=? 0) with false in H. cbv iota in H.
  unfold optimize_impl, ensure_initialized in H. rewrite Hcomp, Hs in H.
  destruct (Z.leb_spec (o_end o) (o_next o)) as [|Hlt]; [discriminate|].
  replace (Z.min (o_next o + 1) (o_end o)) with (o_next o + 1) in H by lia.
  rewrite zrange_cons, zrange_nil in H by lia. cbn [loop] in H.
  destruct (body (o_next o) s) as [s1 [e1|]] eqn:Eb.
  - injection H as <- <-. simpl. auto.
  - exfalso. unfold converged_at in H. rewrite Hoff in H. unfold save_due in H.
    destruct (Z.eqb_spec (record_times cfg) 0); [lia|].
    assert (1 <= max_iters cfg / record_times cfg) by (apply Z.div_le_lower_bound; lia).
    destruct (Z.eqb_spec (max_iters cfg / record_times cfg) 0); [lia|].
    destruct (_ || _)%bool; simpl in H; discriminate.
Qed.
Print Assumptions C34_single_step_retry_partial.

(* What does not hold: with larger chunks the counter stays at the beginning of
   the failed chunk while state and histories have advanced, so the retry
   repeats iterations.  For every run with 1 <= b, b + 1 <= max_iters and a body
   that fails once, at iteration b + 1: *)
Theorem C34_failed_chunk_repeats_iterations_refuted :
  forall (S : Type) (body : Z -> S -> S * option exn) rho_change kkt s0 s1 s2 e b cfg disk,
  1 <= record_times cfg <= max_iters cfg -> check_convergence cfg = false ->
  b + 1 <= max_iters cfg ->
  body b s0 = (s1, None) -> body (b + 1) s1 = (s2, Some e) ->
  exists o, optimize body rho_change kkt (Ok (s0, b)) cfg (opt_new disk) = (o, Some e) /\
    o_next o = b /\ map fst (o_trace o) = [b] /\ o_state o = Some s2 /\
    forall o' s3, body b s2 = (s3, None) ->
      optimize_steps body rho_change kkt (Ok (s0, b)) cfg 1 o = (o', None) ->
      map fst (o_trace o') = [b; b].
Proof.
  intros S body rc kkt s0 s1 s2 e b cfg disk Hrt Hoff Hb H1 H2.
  assert (1 <= max_iters cfg / record_times cfg) by (apply Z.div_le_lower_bound; lia).
  assert (HE : exists D, optimize body rc kkt (Ok (s0, b)) cfg (opt_new disk) =
    (mkOpt (Some s2) b (max_iters cfg + 1) false D [(b, s1)], Some e)).
  { unfold optimize, optimize_impl, ensure_initialized, opt_new. cbn -[loop zrange Z.leb].
    destruct (Z.leb_spec (max_iters cfg + 1) b); [lia|].
    rewrite zrange_cons, zrange_cons by lia. cbn [loop]. rewrite H1.
    unfold converged_at. rewrite Hoff. unfold save_due.
    destruct (Z.eqb_spec (record_times cfg) 0); [lia|].
    destruct (Z.eqb_spec (max_iters cfg / record_times cfg) 0); [lia|].
    rewrite andb_false_r. cbn [loop]. rewrite H2. eauto. }
  destruct HE as (D & HE). eexists. split; [exact HE|]. cbn. split; [easy|]. split; [easy|]. split; [easy|].
  intros o' s3 H3 Hrun. unfold optimize_steps in Hrun. change (1 <=? 0) with false in Hrun. cbv iota in Hrun.
  unfold optimize_impl, ensure_initialized in Hrun. cbn -[loop zrange Z.leb] in Hrun.
  destruct (Z.leb_spec (max_iters cfg + 1) b); [lia|].
  replace (Z.min (b + 1) (max_iters cfg + 1)) with (b + 1) in Hrun by lia.
  rewrite zrange_cons, zrange_nil in Hrun by lia. cbn [loop] in Hrun. rewrite H3 in Hrun.
  unfold converged_at in Hrun. rewrite Hoff in Hrun. unfold save_due in Hrun.
  destruct (Z.eqb_spec (record_times cfg) 0); [lia|].
  destruct (Z.eqb_spec (max_iters cfg / record_times cfg) 0); [lia|].
  rewrite andb_false_r in Hrun. injection Hrun as <-.
  destruct (_ <=? _); reflexivity.
Qed.
Print Assumptions C34_failed_chunk_repeats_iterations_refuted.
(* e.g. iterations 1,2 done, 3 fails: the counter says 1, a retry runs 1 again *)
Example C34_instance :
  let r := optimize (toy 3) toy_change (fun _ => KVal 0) (Ok ([], 1)) (toy_cfg 10 5 false) (opt_new []) in
  snd r = Some RuntimeError /\ o_next (fst r) = 1 /\ o_state (fst r) = Some [1;2] /\
  o_state (fst (optimize_steps (toy 3) toy_change (fun _ => KVal 0) (Ok ([], 1)) (toy_cfg 10 5 false) 2 (fst r))) = Some [1;2;1;2].
Proof. vm_compute. auto. Qed.
