(* C74: the recorded histories over several process lives on one output
   directory. *)
From Coq Require Import Permutation.
From Verif Require Import Base Driver_model Driver_spec Driver_proofs Driver_proofs2 Ckpt_model Ckpt_proofs
  Session_spec Session_proofs History_model History_proofs History_props HistSess_model HistSess_proofs.
Open Scope Z_scope.
Open Scope list_scope.

(* ---------- specification vocabulary ---------- *)
(* [e] is what recording the value fed under [n] in iteration (i, x) leaves *)
Definition records {X} (fed : Z -> X -> list (string * input)) (ptype n : string) (it : Z * X) (e : entry) : Prop :=
  exists inp, In (n, inp) (fed (fst it) (snd it)) /\ summarises ptype inp e.
(* the iterations a process performed, in order *)
Definition iterations {X} (o : opt (S := X * hists)) : list (Z * X) :=
  map (fun e => (fst e, fst (snd e))) (o_trace o).
(* a recorder as the two optimizers build and feed it: every registered series
   is fed exactly once per iteration, always a scalar or always an array *)
Record recorder_ok {X} (regs : list (string * (string * bool))) (fed : Z -> X -> list (string * input)) : Prop := {
  ro_some : regs <> [];
  ro_distinct : NoDup (map fst regs);
  ro_names : forall n, In n (map fst regs) -> ends_header n = false /\ n <> "file"%string;
  ro_once : forall i x, Permutation (map fst (fed i x)) (map fst regs);
  ro_shape : forall n, In n (map fst regs) ->
    (forall i x inp, In (n, inp) (fed i x) -> exists v, inp = IScalar v) \/
    (forall i x inp, In (n, inp) (fed i x) -> exists v, inp = IArray v) }.

Lemma Forall2_len {B C} (P : B -> C -> Prop) l m : Forall2 P l m -> List.length l = List.length m.
Proof. induction 1; cbn; congruence. Qed.

Section C74.
Context {X A : Type}.
Variable rho_of : X -> A.
Variable step : Z -> X -> X * option exn.
Variable fed : Z -> X -> list (string * input).
Variables (rho_change : X -> R) (kkt : X -> kktval).
Variable regs : list (string * (string * bool)).
Hypothesis Hro : recorder_ok regs fed.
Notation process := (process rho_of step fed rho_change kkt regs).
Notation init_run := (init_run rho_of regs).
(* what the next process finds when it restarts *)
Definition stored (d : outdir X) : hists := import_histories (d_hist d) (new_recorder regs).

Lemma trace_entries h0 h (tr : list (Z * X)) n s0 :
  feeds (fed_by fed tr) h0 = Ok h -> In n (map fst regs) -> hget h0 n = Some s0 ->
  exists es, entries h n = Some (h_data s0 ++ es) /\ Forall2 (records fed (h_type s0) n) tr es.
Proof.
  intros Hf Hn Hs. destruct (feeds_ok _ _ _ _ _ Hf Hs) as (es & HF & Hg). exists es.
  unfold entries. rewrite Hg. split; [reflexivity|].
  pose proof (inputs_trace fed regs (ro_distinct _ _ Hro) (ro_once _ _ Hro) n tr Hn) as HI.
  clear Hf Hg. revert es HF. generalize dependent (inputs_for n (fed_by fed tr)).
  induction tr as [|e tr IH]; intros l HI es HF; inversion HI; subst; inversion HF; subst; constructor.
  - exists y. split; [assumption|]. now apply C39_stored_summary.
  - eapply IH; eauto.
Qed.

(* One process without exceptions, however started and however chunked: every
   series ends with what it started with followed by exactly one entry per
   iteration of this process, in order. *)
Theorem C74_one_process : forall cfg st cs d o rs d' x0 h0 b x h n s0,
  process cfg st cs d = (o, rs, d') -> Forall (eq None) rs ->
  init_run st d = Ok ((x0, h0), b) -> o_state o = Some (x, h) ->
  In n (map fst regs) -> hget h0 n = Some s0 ->
  map fst (iterations o) = zrange b (b + Z.of_nat (List.length (iterations o))) /\
  exists es, entries h n = Some (h_data s0 ++ es) /\ Forall2 (records fed (h_type s0) n) (iterations o) es.
Proof.
  intros cfg st cs d o rs d' x0 h0 b x h n s0 Hp Hrs Hi Hs Hn Hg.
  destruct (process_facts _ _ _ _ _ _ _ _ _ _ _ _ _ _ _ _ Hp Hrs Hi) as (Hl & _ & Hf & _).
  split; [exact Hl|]. eapply trace_entries; eauto.
Qed.

(* A process that does not complete leaves histories.npz as it was. *)
Theorem C74_unfinished_writes_nothing : forall cfg st cs d o rs d',
  process cfg st cs d = (o, rs, d') -> o_completed o = false -> d_hist d' = d_hist d.
Proof.
  intros cfg st cs d o rs d' Hp Hc. unfold HistSess_model.process in Hp.
  destruct (exec_all _ _ _ _ _ _ _) as [o' rs']. injection Hp as -> -> <-. cbn [d_hist]. now rewrite Hc.
Qed.

(* Runs that complete: a fresh run of at least one iteration on an empty
   directory, then any number of restarts - from the newest checkpoint, the
   directory listed in any order, or from the last iteration by number -, each
   with its own cfg (a larger max_iters, for instance) and its own calls. *)
Inductive completed_runs : outdir X -> list (Z * X) -> Prop :=
| first_run cfg x0 cs o rs d' :
    1 <= max_iters cfg < 10 ^ 6 ->
    process cfg (Fresh x0) cs (mkDir [] None) = (o, rs, d') ->
    Forall (eq None) rs -> o_completed o = true ->
    completed_runs d' (iterations o)
| restarted_run cfg from ls load cs d its o rs d' :
    completed_runs d its ->
    max_iters cfg < 10 ^ 6 ->
    (from = -1 /\ Permutation ls (map fst (data_of (fun s : X * hists => rho_of (fst s)) (d_cks d))) \/
     from = Z.of_nat (List.length its)) ->
    process cfg (Restart from ls load) cs d = (o, rs, d') ->
    Forall (eq None) rs -> o_completed o = true ->
    completed_runs d' (its ++ iterations o).

Lemma homogeneous_all n tr : In n (map fst regs) -> homogeneous (inputs_for n (fed_by fed tr)).
Proof.
  intros Hn. pose proof (inputs_trace fed regs (ro_distinct _ _ Hro) (ro_once _ _ Hro) n tr Hn) as HI.
  destruct (ro_shape _ _ Hro n Hn) as [Hs|Hs]; [left|right].
  - induction HI as [|e inp tr l He HI IH]; [now exists []|]. destruct IH as (xs & Hxs).
    destruct (Hs _ _ _ He) as (v & ->). exists (v :: xs). cbn [map]. now rewrite Hxs.
  - induction HI as [|e inp tr l He HI IH]; [now exists []|]. destruct IH as (xs & Hxs).
    destruct (Hs _ _ _ He) as (v & ->). exists (v :: xs). cbn [map]. now rewrite Hxs.
Qed.
Lemma inputs_nonempty n tr : In n (map fst regs) -> tr <> [] -> inputs_for n (fed_by fed tr) <> [].
Proof.
  intros Hn Hne E. pose proof (inputs_trace fed regs (ro_distinct _ _ Hro) (ro_once _ _ Hro) n tr Hn) as HI.
  rewrite E in HI. inversion HI; subst. easy.
Qed.
Lemma fed_by_app t1 t2 : fed_by fed (t1 ++ t2) = fed_by fed t1 ++ fed_by fed t2.
Proof. unfold fed_by. apply flat_map_app. Qed.

Lemma iterations_fst (o : opt (S := X * hists)) : map fst (iterations o) = map fst (o_trace o).
Proof. unfold iterations. rewrite map_map. reflexivity. Qed.
Lemma iterations_length (o : opt (S := X * hists)) : List.length (iterations o) = List.length (o_trace o).
Proof. unfold iterations. now rewrite map_length. Qed.
Lemma last_number {B} (tr pre : list (Z * B)) e b c : map fst tr = zrange b c -> tr = pre ++ [e] ->
  fst e = b + Z.of_nat (List.length pre).
Proof.
  revert b. revert tr. induction pre as [|p pre IH]; intros tr b Hl ->.
  - cbn in Hl. destruct (Z_lt_ge_dec b c); [|rewrite zrange_nil in Hl by lia; discriminate].
    rewrite zrange_cons in Hl by lia. injection Hl as -> _. cbn. lia.
  - cbn [app map] in Hl. destruct (Z_lt_ge_dec b c); [|rewrite zrange_nil in Hl by lia; discriminate].
    rewrite zrange_cons in Hl by lia. injection Hl as _ Hl. rewrite (IH _ _ Hl eq_refl). cbn [List.length]. lia.
Qed.

(* a run that completes after iterations [its] of which it performed a final part *)
Lemma written_after h its old : its <> [] -> feeds (fed_by fed its) (new_recorder regs) = Ok h ->
  exists f, written_hist h old = Some f /\ import_histories (Some f) (new_recorder regs) = h.
Proof.
  intros Hne Hf. apply (written_reload regs (fed_by fed its) h old); try apply Hro.
  - exact Hf.
  - intros n Hn. now apply homogeneous_all.
  - intros n Hn. now apply inputs_nonempty.
Qed.

Lemma completed_inv d its : completed_runs d its ->
  its <> [] /\ map fst its = zrange 1 (1 + Z.of_nat (List.length its)) /\
  feeds (fed_by fed its) (new_recorder regs) = Ok (stored d) /\
  Forall (fun e => small (fst e)) (d_cks d) /\
  (exists s, In (Z.of_nat (List.length its), s) (d_cks d)) /\
  (forall e, In e (d_cks d) -> fst e <= Z.of_nat (List.length its)).
Proof.
  induction 1 as [cfg x0 cs o rs d' Hmax Hp Hrs Hc|cfg from ls load cs d its o rs d' Hr IH Hmax Hfrom Hp Hrs Hc].
  - assert (Hi : init_run (Fresh x0) (mkDir [] None) = Ok ((x0, new_recorder regs), 1)) by reflexivity.
    pose proof (process_facts _ _ _ _ _ _ _ _ _ _ _ _ _ _ _ _ Hp Hrs Hi) as (Hl & Hnone & Hf & _ & Hw & D & HD & Hsub & Hlast).
    pose proof (process_small _ _ _ _ _ _ _ _ _ _ _ _ _ _ _ _ Hp Hrs Hi) as Hsm.
    fold (iterations o) in *. change (strip (o_trace o)) with (iterations o) in *.
    destruct (o_state o) as [[x h]|] eqn:Es; [|destruct (Hnone eq_refl); congruence].
    specialize (Hf _ _ eq_refl). specialize (Hw _ _ eq_refl Hc).
    assert (Hne : o_trace o <> []).
    { intros E. unfold HistSess_model.process in Hp.
      destruct (exec_all _ _ _ _ _ _ _) as [o' rs'] eqn:Ee. injection Hp as -> -> _.
      assert (HI : Inv (rec_body step fed) (fun s => rho_change (fst s)) (fun s => kkt (fst s)) cfg (x0, new_recorder regs) 1 [] o).
      { eapply exec_all_inv; eauto. now left. }
      destruct HI as [->|[(s & tr & D' & Ho & _)|HDn]]; [discriminate Es|rewrite Ho in Hc; discriminate|].
      destruct (done_convergence _ _ _ _ _ _ _ _ HDn) as [(pre & i & s & Ht & _)|(_ & Hlen)].
      - rewrite Ht in E. now destruct pre.
      - rewrite E in Hlen. cbn in Hlen. lia. }
    assert (Hne' : iterations o <> []) by (unfold iterations; intros E; apply map_eq_nil in E; easy).
    destruct (written_after h (iterations o) None Hne' Hf) as (f & Hwf & Himp).
    cbn [d_hist] in Hw. rewrite Hwf in Hw.
    split; [exact Hne'|]. split; [exact Hl|]. split; [unfold stored; rewrite Hw, Himp; exact Hf|].
    cbn [d_cks app] in HD. rewrite HD.
    assert (Hrange : forall e, In e (o_trace o) -> 1 <= fst e <= Z.of_nat (List.length (iterations o))).
    { intros e He. apply (in_map fst) in He. unfold iterations in Hl. rewrite map_map in Hl. cbn [fst] in Hl.
      change (map fst (o_trace o) = zrange 1 (1 + Z.of_nat (List.length (iterations o)))) in Hl.
      rewrite Hl in He. apply in_zrange in He. lia. }
    rewrite Forall_forall in Hsm.
    split; [|split].
    + apply Forall_forall. intros e He. apply Hsub in He. pose proof (Hrange _ He). pose proof (Hsm _ He). unfold small. lia.
    + destruct (exists_last Hne) as (pre & e & Ht). exists (snd e).
      replace (Z.of_nat (List.length (iterations o)), snd e) with e; [apply (Hlast Hc pre e Ht)|].
      rewrite iterations_fst in Hl. pose proof (last_number _ _ _ _ _ Hl Ht) as Hk. rewrite (iterations_length o).
      rewrite Ht, app_length. cbn [List.length]. destruct e as [k s']. cbn [fst snd] in *. f_equal. lia.
    + intros e He. apply Hsub in He. apply Hrange in He. lia.
  - destruct IH as (IHne & IHl & IHf & IHsm & (sN & IHN) & IHle).
    destruct (init_run (Restart from ls load) d) as [[[x0 h0] b]|e0] eqn:Hi.
    2:{ (* an initialisation that raises cannot complete *)
      exfalso. unfold HistSess_model.process in Hp. rewrite Hi in Hp.
      assert (G : forall cs o, o_state o = None -> o_completed o = false ->
        o_completed (fst (exec_all (rec_body step fed) (fun s => rho_change (fst s)) (fun s => kkt (fst s)) (Err e0) cfg cs o)) = false).
      { clear. induction cs as [|c cs IH]; intros o Ho Hc; [exact Hc|]. cbn [exec_all].
        assert (E : exists r, exec (rec_body step fed) (fun s => rho_change (fst s)) (fun s => kkt (fst s)) (Err e0) cfg c o = (o, r)).
        { destruct c; cbn [exec]; unfold optimize_steps, optimize, optimize_impl, ensure_initialized; rewrite Hc, Ho.
          - destruct (n <=? 0); eauto.
          - eauto. }
        destruct E as (r & ->). specialize (IH o Ho Hc).
        destruct (exec_all _ _ _ _ _ cs o). exact IH. }
      specialize (G cs (opt_new (d_cks d)) eq_refl eq_refl).
      destruct (exec_all _ _ _ _ _ _ _) as [o' rs']. injection Hp as -> _ _. cbn [fst] in G. congruence. }
    pose proof (process_facts _ _ _ _ _ _ _ _ _ _ _ _ _ _ _ _ Hp Hrs Hi) as (Hl & Hnone & Hf & _ & Hw & D & HD & Hsub & Hlast).
    pose proof (process_small _ _ _ _ _ _ _ _ _ _ _ _ _ _ _ _ Hp Hrs Hi) as Hsm.
    change (strip (o_trace o)) with (iterations o) in *.
    destruct (o_state o) as [[x h]|] eqn:Es; [|destruct (Hnone eq_refl); congruence].
    specialize (Hf _ _ eq_refl). specialize (Hw _ _ eq_refl Hc).
    set (N := Z.of_nat (List.length its)) in *.
    assert (Hb : b = N + 1 /\ h0 = stored d).
    { unfold HistSess_model.init_run in Hi. destruct (restart_init _ _ _) as [[a b']|] eqn:Hri; [|discriminate].
      cbn [bind] in Hi. injection Hi as _ <- <-. split; [|reflexivity].
      destruct Hfrom as [(-> & HP)| -> ].
      - eapply restart_at; eauto.
      - unfold restart_init in Hri. destruct (0 <? N) eqn:E0.
        + destruct (np_load _ _); [|discriminate]. cbn [bind] in Hri. injection Hri as _ <-. reflexivity.
        + apply Z.ltb_ge in E0. unfold N in E0. destruct its; [easy|]. cbn in E0. lia. }
    destruct Hb as (-> & ->).
    assert (Hall : feeds (fed_by fed (its ++ iterations o)) (new_recorder regs) = Ok h).
    { rewrite fed_by_app. eapply feeds_app; eauto. }
    assert (Hne' : its ++ iterations o <> []) by (destruct its; easy).
    destruct (written_after h _ (d_hist d) Hne' Hall) as (f & Hwf & Himp). rewrite Hwf in Hw.
    split; [exact Hne'|]. split; [|split].
    { rewrite map_app, IHl, Hl, app_length.
      replace (1 + N) with (N + 1) by lia.
      replace (1 + Z.of_nat (List.length its + List.length (iterations o))) with (N + 1 + Z.of_nat (List.length (iterations o))) by (unfold N; lia).
      symmetry. apply zrange_app; unfold N; lia. }
    { unfold stored. rewrite Hw, Himp. exact Hall. }
    rewrite HD, app_length.
    assert (Hrange : forall e, In e (o_trace o) -> N + 1 <= fst e <= N + Z.of_nat (List.length (iterations o))).
    { intros e He. apply (in_map fst) in He. unfold iterations in Hl. rewrite map_map in Hl. cbn [fst] in Hl.
      change (map fst (o_trace o) = zrange (N + 1) (N + 1 + Z.of_nat (List.length (iterations o)))) in Hl.
      rewrite Hl in He. apply in_zrange in He. lia. }
    rewrite Forall_forall in Hsm, IHsm.
    split; [|split].
    + apply Forall_forall. intros e He. apply in_app_or in He. destruct He as [He|He]; [auto|].
      apply Hsub in He. pose proof (Hrange _ He). pose proof (Hsm _ He). unfold small. unfold N in *. lia.
    + destruct (o_trace o) as [|e1 tr1] eqn:Etr.
      * exists sN. apply in_or_app. left. replace (Z.of_nat (List.length its + List.length (iterations o))) with N; [exact IHN|].
        unfold iterations. rewrite Etr. cbn. unfold N. lia.
      * assert (Hne : o_trace o <> []) by (rewrite Etr; easy). rewrite <- Etr in *. clear Etr.
        destruct (exists_last Hne) as (pre & e & Ht). exists (snd e). apply in_or_app. right.
        replace (Z.of_nat (List.length its + List.length (iterations o)), snd e) with e; [apply (Hlast Hc pre e Ht)|].
        rewrite iterations_fst in Hl. pose proof (last_number _ _ _ _ _ Hl Ht) as Hk. rewrite (iterations_length o).
        rewrite Ht, app_length. cbn [List.length]. destruct e as [k s']. cbn [fst snd] in *. f_equal. unfold N in *. lia.
    + intros e He. apply in_app_or in He. destruct He as [He|He].
      * specialize (IHle _ He). unfold N in *. lia.
      * apply Hsub in He. apply Hrange in He. unfold N in *. lia.
Qed.

(* After any number of completed runs: the iterations performed so far are
   1, 2, ..., N, each once, and histories.npz holds for every series exactly one
   entry per iteration, in that order. *)
Theorem C74_completed_runs : forall d its, completed_runs d its ->
  its <> [] /\ map fst its = zrange 1 (1 + Z.of_nat (List.length its)) /\
  forall n t yl, In (n, (t, yl)) regs ->
  exists es, entries (stored d) n = Some es /\ Forall2 (records fed t n) its es.
Proof.
  intros d its H. destruct (completed_inv d its H) as (Hne & Hl & Hf & _).
  split; [exact Hne|]. split; [exact Hl|]. intros n t yl Hn.
  assert (Hin : In n (map fst regs)) by (apply (in_map fst) in Hn; exact Hn).
  assert (Hg : hget (new_recorder regs) n = Some (mkSeries n t yl None [])).
  { apply hget_in; [change (NoDup (map fst (registry regs))); rewrite registry_keys; apply Hro|].
    unfold new_recorder. apply in_map_iff. exists (n, (t, yl)). split; [reflexivity|exact Hn]. }
  destruct (trace_entries _ _ _ _ _ Hf Hin Hg) as (es & He & HF). exists es. split; [exact He|exact HF].
Qed.

(* REFUTED when a process ends before completing: nothing it recorded is on
   disk, so after the restart completes, the stored histories have entries for
   the second process only - whatever the first one did. *)
Theorem C74_refuted_unfinished : forall cfg1 x0 cs1 o1 rs1 d1 cfg2 from ls load cs2 o2 rs2 d2 x2 h2 b2,
  process cfg1 (Fresh x0) cs1 (mkDir [] None) = (o1, rs1, d1) -> o_completed o1 = false ->
  init_run (Restart from ls load) d1 = Ok ((x2, h2), b2) ->
  process cfg2 (Restart from ls load) cs2 d1 = (o2, rs2, d2) -> Forall (eq None) rs2 -> o_completed o2 = true ->
  iterations o2 <> [] ->
  forall n t yl, In (n, (t, yl)) regs ->
  exists es, entries (stored d2) n = Some es /\ Forall2 (records fed t n) (iterations o2) es /\
    map fst (iterations o2) = zrange b2 (b2 + Z.of_nat (List.length es)).
Proof.
  intros cfg1 x0 cs1 o1 rs1 d1 cfg2 from ls load cs2 o2 rs2 d2 x2 h2 b2 Hp1 Hc1 Hi Hp2 Hrs2 Hc2 Hne n t yl Hn.
  pose proof (C74_unfinished_writes_nothing _ _ _ _ _ _ _ Hp1 Hc1) as Hd1. cbn [d_hist] in Hd1.
  pose proof (process_facts _ _ _ _ _ _ _ _ _ _ _ _ _ _ _ _ Hp2 Hrs2 Hi) as (Hl & Hnone & Hf & _ & Hw & _).
  change (strip (o_trace o2)) with (iterations o2) in *.
  assert (h2 = new_recorder regs) as ->.
  { unfold HistSess_model.init_run in Hi. destruct (restart_init _ _ _) as [[a b']|]; [|discriminate].
    cbn [bind] in Hi. injection Hi as _ <- _. rewrite Hd1. reflexivity. }
  destruct (o_state o2) as [[x h]|] eqn:Es; [|destruct (Hnone eq_refl); congruence].
  specialize (Hf _ _ eq_refl). specialize (Hw _ _ eq_refl Hc2).
  destruct (written_after h _ (d_hist d1) Hne Hf) as (f & Hwf & Himp). rewrite Hwf in Hw.
  assert (Hin : In n (map fst regs)) by (apply (in_map fst) in Hn; exact Hn).
  assert (Hg : hget (new_recorder regs) n = Some (mkSeries n t yl None [])).
  { apply hget_in; [change (NoDup (map fst (registry regs))); rewrite registry_keys; apply Hro|].
    unfold new_recorder. apply in_map_iff. exists (n, (t, yl)). split; [reflexivity|exact Hn]. }
  destruct (trace_entries _ _ _ _ _ Hf Hin Hg) as (es & He & HF). exists es.
  unfold stored. rewrite Hw, Himp. split; [exact He|]. split; [exact HF|].
  rewrite <- (Forall2_len _ _ _ HF). exact Hl.
Qed.

(* REFUTED when a completed run of N iterations is restarted from an earlier
   checkpoint k < N: the entries of iterations k+1, k+2, ... are appended to
   those of 1, ..., N, so position j is no longer iteration j. *)
Theorem C74_refuted_rewind : forall d its cfg k ls load cs o rs d' x0 h0 b,
  completed_runs d its -> 1 <= k < Z.of_nat (List.length its) ->
  init_run (Restart k ls load) d = Ok ((x0, h0), b) ->
  process cfg (Restart k ls load) cs d = (o, rs, d') -> Forall (eq None) rs -> o_completed o = true ->
  map fst (its ++ iterations o) =
    zrange 1 (1 + Z.of_nat (List.length its)) ++ zrange (k + 1) (k + 1 + Z.of_nat (List.length (iterations o))) /\
  forall n t yl, In (n, (t, yl)) regs ->
  exists es, entries (stored d') n = Some es /\ Forall2 (records fed t n) (its ++ iterations o) es.
Proof.
  intros d its cfg k ls load cs o rs d' x0 h0 b Hcr Hk Hi Hp Hrs Hc.
  destruct (completed_inv d its Hcr) as (Hne & Hl & Hf & _).
  pose proof (process_facts _ _ _ _ _ _ _ _ _ _ _ _ _ _ _ _ Hp Hrs Hi) as (Hl2 & Hnone & Hf2 & _ & Hw & _).
  change (strip (o_trace o)) with (iterations o) in *.
  assert (b = k + 1 /\ h0 = stored d) as (-> & ->).
  { unfold HistSess_model.init_run in Hi. destruct (restart_init _ _ _) as [[a b']|] eqn:Hri; [|discriminate].
    cbn [bind] in Hi. injection Hi as _ <- <-. split; [|reflexivity].
    unfold restart_init in Hri. destruct (Z.ltb_spec 0 k); [|lia].
    destruct (np_load _ _); [|discriminate]. cbn [bind] in Hri. injection Hri as _ <-. reflexivity. }
  destruct (o_state o) as [[x h]|] eqn:Es; [|destruct (Hnone eq_refl); congruence].
  specialize (Hf2 _ _ eq_refl). specialize (Hw _ _ eq_refl Hc).
  split; [now rewrite map_app, Hl, Hl2|].
  assert (Hall : feeds (fed_by fed (its ++ iterations o)) (new_recorder regs) = Ok h).
  { rewrite fed_by_app. eapply feeds_app; eauto. }
  assert (Hne' : its ++ iterations o <> []) by (destruct its; easy).
  destruct (written_after h _ (d_hist d) Hne' Hall) as (f & Hwf & Himp). rewrite Hwf in Hw.
  intros n t yl Hn.
  assert (Hin : In n (map fst regs)) by (apply (in_map fst) in Hn; exact Hn).
  assert (Hg : hget (new_recorder regs) n = Some (mkSeries n t yl None [])).
  { apply hget_in; [change (NoDup (map fst (registry regs))); rewrite registry_keys; apply Hro|].
    unfold new_recorder. apply in_map_iff. exists (n, (t, yl)). split; [reflexivity|exact Hn]. }
  destruct (trace_entries _ _ _ _ _ Hall Hin Hg) as (es & He & HF). exists es.
  unfold stored. rewrite Hw, Himp. split; [exact He|exact HF].
Qed.
(* A fresh run that completes replaces whatever histories the directory held:
   afterwards it holds this run's entries only. *)
Theorem C74_fresh_run_replaces : forall cfg x0 cs d o rs d',
  process cfg (Fresh x0) cs d = (o, rs, d') -> Forall (eq None) rs -> o_completed o = true -> iterations o <> [] ->
  forall n t yl, In (n, (t, yl)) regs ->
  exists es, entries (stored d') n = Some es /\ Forall2 (records fed t n) (iterations o) es /\
    map fst (iterations o) = zrange 1 (1 + Z.of_nat (List.length es)).
Proof.
  intros cfg x0 cs d o rs d' Hp Hrs Hc Hne n t yl Hn.
  assert (Hi : init_run (Fresh x0) d = Ok ((x0, new_recorder regs), 1)) by reflexivity.
  pose proof (process_facts _ _ _ _ _ _ _ _ _ _ _ _ _ _ _ _ Hp Hrs Hi) as (Hl & Hnone & Hf & _ & Hw & _).
  change (strip (o_trace o)) with (iterations o) in *.
  destruct (o_state o) as [[x h]|] eqn:Es; [|destruct (Hnone eq_refl); congruence].
  specialize (Hf _ _ eq_refl). specialize (Hw _ _ eq_refl Hc).
  destruct (written_after h _ (d_hist d) Hne Hf) as (f & Hwf & Himp). rewrite Hwf in Hw.
  assert (Hin : In n (map fst regs)) by (apply (in_map fst) in Hn; exact Hn).
  assert (Hg : hget (new_recorder regs) n = Some (mkSeries n t yl None [])).
  { apply hget_in; [change (NoDup (map fst (registry regs))); rewrite registry_keys; apply Hro|].
    unfold new_recorder. apply in_map_iff. exists (n, (t, yl)). split; [reflexivity|exact Hn]. }
  destruct (trace_entries _ _ _ _ _ Hf Hin Hg) as (es & He & HF). exists es.
  unfold stored. rewrite Hw, Himp. split; [exact He|]. split; [exact HF|].
  rewrite <- (Forall2_len _ _ _ HF). exact Hl.
Qed.

(* REFUTED when a fresh run in a used directory is interrupted: a restart of it
   starts its histories with those of the EARLIER experiment, and if it
   completes they are stored in front of its own. *)
Theorem C74_refuted_other_run : forall dold itsold cfg1 x0 cs1 o1 rs1 d1 cfg2 from ls load cs2 o2 rs2 d2 x2 h2 b2,
  completed_runs dold itsold ->
  process cfg1 (Fresh x0) cs1 dold = (o1, rs1, d1) -> o_completed o1 = false ->
  init_run (Restart from ls load) d1 = Ok ((x2, h2), b2) ->
  process cfg2 (Restart from ls load) cs2 d1 = (o2, rs2, d2) -> Forall (eq None) rs2 -> o_completed o2 = true ->
  forall n t yl, In (n, (t, yl)) regs ->
  exists es, entries (stored d2) n = Some es /\ Forall2 (records fed t n) (itsold ++ iterations o2) es.
Proof.
  intros dold itsold cfg1 x0 cs1 o1 rs1 d1 cfg2 from ls load cs2 o2 rs2 d2 x2 h2 b2 Hcr Hp1 Hc1 Hi Hp2 Hrs2 Hc2 n t yl Hn.
  destruct (completed_inv dold itsold Hcr) as (Hne & _ & Hfold & _).
  pose proof (C74_unfinished_writes_nothing _ _ _ _ _ _ _ Hp1 Hc1) as Hd1.
  pose proof (process_facts _ _ _ _ _ _ _ _ _ _ _ _ _ _ _ _ Hp2 Hrs2 Hi) as (_ & Hnone & Hf & _ & Hw & _).
  change (strip (o_trace o2)) with (iterations o2) in *.
  assert (h2 = stored dold) as ->.
  { unfold HistSess_model.init_run in Hi. destruct (restart_init _ _ _) as [[a b']|]; [|discriminate].
    cbn [bind] in Hi. injection Hi as _ <- _. rewrite Hd1. reflexivity. }
  destruct (o_state o2) as [[x h]|] eqn:Es; [|destruct (Hnone eq_refl); congruence].
  specialize (Hf _ _ eq_refl). specialize (Hw _ _ eq_refl Hc2).
  assert (Hall : feeds (fed_by fed (itsold ++ iterations o2)) (new_recorder regs) = Ok h).
  { rewrite fed_by_app. eapply feeds_app; eauto. }
  assert (Hne' : itsold ++ iterations o2 <> []) by (destruct itsold; easy).
  destruct (written_after h _ (d_hist d1) Hne' Hall) as (f & Hwf & Himp). rewrite Hwf in Hw.
  assert (Hin : In n (map fst regs)) by (apply (in_map fst) in Hn; exact Hn).
  assert (Hg : hget (new_recorder regs) n = Some (mkSeries n t yl None [])).
  { apply hget_in; [change (NoDup (map fst (registry regs))); rewrite registry_keys; apply Hro|].
    unfold new_recorder. apply in_map_iff. exists (n, (t, yl)). split; [reflexivity|exact Hn]. }
  destruct (trace_entries _ _ _ _ _ Hall Hin Hg) as (es & He & HF). exists es.
  unfold stored. rewrite Hw, Himp. split; [exact He|exact HF].
Qed.
End C74.

(* The recorders of the two optimizers satisfy recorder_ok, whatever values are
   fed, as long as a series is always fed scalars or always arrays. *)
Definition array_series (multi : bool) (n : string) : bool :=
  (String.eqb n "rho_projected" || String.eqb n "energy" || String.eqb n "scaling_rate" || String.eqb n "-dC" ||
   String.eqb n "dL" || String.eqb n "dV_chain" || (multi && String.eqb n "u_max"))%string%bool.
Definition fed_values {X} (names : list string) (multi : bool)
    (vec : string -> Z -> X -> list R) (num : string -> Z -> X -> R) (i : Z) (x : X) : list (string * input) :=
  map (fun n => (n, if array_series multi n then IArray (vec n i x) else IScalar (num n i x))) names.

Lemma fed_values_ok {X} regs names multi vec num :
  regs <> [] -> NoDup (map fst regs) ->
  (forall n, In n (map fst regs) -> ends_header n = false /\ n <> "file"%string) ->
  Permutation names (map fst regs) ->
  recorder_ok (X := X) regs (fed_values names multi vec num).
Proof.
  intros Hne Hnd Hn HP. split; auto.
  - intros i x. unfold fed_values. rewrite map_map. cbn [fst]. rewrite map_id. exact HP.
  - intros n _. destruct (array_series multi n) eqn:E; [right|left]; intros i x inp Hin;
      apply in_map_iff in Hin; destruct Hin as (m & Hm & _); injection Hm as -> <-; rewrite E; eauto.
Qed.

(* a decision procedure, so that the two name lists can be checked by computation *)
Fixpoint nodupb (l : list string) : bool :=
  match l with [] => true | x :: r => (negb (existsb (String.eqb x) r) && nodupb r)%bool end.
Lemma nodupb_ok l : nodupb l = true -> NoDup l.
Proof.
  induction l as [|x l IH]; cbn; intros H; [constructor|]. apply andb_true_iff in H. destruct H as (Ha & Hb).
  constructor; [|auto]. intros Hin. apply negb_true_iff in Ha.
  assert (existsb (String.eqb x) l = true); [|congruence].
  apply existsb_exists. exists x. split; [exact Hin|apply String.eqb_refl].
Qed.
Lemma subset_perm (l m : list string) : nodupb l = true -> nodupb m = true -> List.length l = List.length m ->
  forallb (fun x => existsb (String.eqb x) m) l = true -> Permutation l m.
Proof.
  intros Ha Hb Hl Hs. apply nodupb_ok in Ha, Hb. apply NoDup_Permutation_bis; auto; [lia|].
  intros x Hx. rewrite forallb_forall in Hs. specialize (Hs x Hx). apply existsb_exists in Hs.
  destruct Hs as (y & Hy & He). apply String.eqb_eq in He. now subst.
Qed.

Definition heat_or_elastic (objective : string) : Prop :=
  In objective ["compliance"; "heat_exchange"; "averaged_temp"]%string.

Theorem C74_optimizer_recorders : forall (X : Type) multi objective obj_ylog
    (vec : string -> Z -> X -> list R) (num : string -> Z -> X -> R),
  heat_or_elastic objective ->
  recorder_ok (regs_oc multi objective obj_ylog) (fed_values (fed_oc objective) multi vec num) /\
  recorder_ok (regs_logmoc multi objective obj_ylog) (fed_values (fed_logmoc objective) multi vec num).
Proof.
  intros X multi objective obj_ylog vec num Hobj.
  split; (apply fed_values_ok; [easy| | |]).
  1,4: apply nodupb_ok; cbn in Hobj; destruct Hobj as [<-|[<-|[<-|[]]]]; vm_compute; reflexivity.
  2,4: apply subset_perm; cbn in Hobj; destruct Hobj as [<-|[<-|[<-|[]]]]; vm_compute; reflexivity.
  - intros n Hn. assert (Hb : forallb (fun n => negb (ends_header n) && negb (String.eqb n "file"))%bool
                       (map fst (regs_oc multi objective obj_ylog)) = true).
    { cbn in Hobj; destruct Hobj as [<-|[<-|[<-|[]]]]; vm_compute; reflexivity. }
    rewrite forallb_forall in Hb. specialize (Hb n Hn). apply andb_true_iff in Hb. destruct Hb as (Ha & Hb).
    apply negb_true_iff in Ha, Hb. split; [exact Ha|]. now apply String.eqb_neq.
  - intros n Hn. assert (Hb : forallb (fun n => negb (ends_header n) && negb (String.eqb n "file"))%bool
                       (map fst (regs_logmoc multi objective obj_ylog)) = true).
    { cbn in Hobj; destruct Hobj as [<-|[<-|[<-|[]]]]; vm_compute; reflexivity. }
    rewrite forallb_forall in Hb. specialize (Hb n Hn). apply andb_true_iff in Hb. destruct Hb as (Ha & Hb).
    apply negb_true_iff in Ha, Hb. split; [exact Ha|]. now apply String.eqb_neq.
Qed.
Print Assumptions C74_optimizer_recorders.

(* ---------- instances ---------- *)
Definition ex_step (i x : Z) : Z * option exn := (x + 1, None).
Definition ex_fed (i x : Z) : list (string * input) := [("v"%string, IScalar (IZR x))].
Definition ex_regs : list (string * (string * bool)) := [("v", ("value", false))]%string.
Definition ex_cfg (n : Z) : dcfg := mkDC n 1 false 0 0.
Definition ex_process n st cs d :=
  process (fun x : Z => x) ex_step ex_fed (fun _ => 0%R) (fun _ => KNone) ex_regs (ex_cfg n) st cs d.

Lemma ex_ok : recorder_ok ex_regs ex_fed.
Proof.
  split.
  - easy.
  - apply nodupb_ok. reflexivity.
  - intros n [<-|[]]. split; [reflexivity|easy].
  - intros i x. apply Permutation_refl.
  - intros n [<-|[]]. left. intros i x inp [H|[]]. injection H as <-. eauto.
Qed.
(* two iterations in two calls, restarted with max_iters 3 *)
Example C74_completed_instance : exists d its,
  completed_runs (fun x : Z => x) ex_step ex_fed (fun _ => 0%R) (fun _ => KNone) ex_regs d its /\
  map fst its = [1; 2; 3].
Proof.
  set (p1 := ex_process 2 (Fresh 10) [CSteps 1; COptimize] (mkDir [] None)).
  set (p2 := ex_process 3 (Restart 2 [] (fun a => a)) [COptimize] (snd p1)).
  assert (G1 : snd (fst p1) = [None; None] /\ o_completed (fst (fst p1)) = true /\ map fst (iterations (fst (fst p1))) = [1; 2]).
  { split; [reflexivity|]. split; reflexivity. }
  assert (G2 : snd (fst p2) = [None] /\ o_completed (fst (fst p2)) = true /\ map fst (iterations (fst (fst p2))) = [3]).
  { split; [reflexivity|]. split; reflexivity. }
  unfold p2 in G2. destruct p1 as [[o1 rs1] d1] eqn:E1. cbn [fst snd] in G1, G2. unfold p1 in E1. clear p1 p2.
  destruct G1 as (Hr1 & Hc1 & Hi1).
  assert (Hcr : completed_runs (fun x : Z => x) ex_step ex_fed (fun _ => 0%R) (fun _ => KNone) ex_regs d1 (iterations o1)).
  { eapply first_run; [|exact E1| |exact Hc1]; [cbn; lia|]. rewrite Hr1. repeat constructor. }
  destruct (ex_process 3 (Restart 2 [] (fun a => a)) [COptimize] d1) as [[o2 rs2] d2] eqn:E2.
  cbn [fst snd] in G2. destruct G2 as (Hr2 & Hc2 & Hi2).
  exists d2, (iterations o1 ++ iterations o2). split; [|now rewrite map_app, Hi1, Hi2].
  eapply restarted_run; [exact Hcr| | |exact E2| |exact Hc2]; [cbn; lia| |rewrite Hr2; repeat constructor].
  right. rewrite <- (map_length fst), Hi1. reflexivity.
Qed.
(* one iteration, end of the process, restart: iterations 1, 2, 3 were performed
   but the stored history has two entries, the values of iterations 2 and 3 *)
Example C74_unfinished_instance :
  let p1 := ex_process 3 (Fresh 10) [CSteps 1] (mkDir [] None) in
  let p2 := ex_process 3 (Restart 1 [] (fun a => a)) [COptimize] (snd p1) in
  o_completed (fst (fst p1)) = false /\ map fst (iterations (fst (fst p1))) = [1] /\
  o_completed (fst (fst p2)) = true /\ map fst (iterations (fst (fst p2))) = [2; 3] /\
  entries (stored ex_regs (snd p2)) "v" = Some [EScalar (IZR 12); EScalar (IZR 13)].
Proof. cbv zeta. split; [reflexivity|]. split; [reflexivity|]. split; [reflexivity|]. split; reflexivity. Qed.

(* a completed run from 10, a fresh run from 50 interrupted after one iteration,
   and its restart: the stored history begins with 11, 12 of the first experiment *)
Example C74_other_run_instance :
  let p0 := ex_process 2 (Fresh 10) [COptimize] (mkDir [] None) in
  let p1 := ex_process 2 (Fresh 50) [CSteps 1] (snd p0) in
  let p2 := ex_process 2 (Restart 1 [] (fun a => a)) [COptimize] (snd p1) in
  o_completed (fst (fst p0)) = true /\ o_completed (fst (fst p1)) = false /\ o_completed (fst (fst p2)) = true /\
  map fst (iterations (fst (fst p2))) = [2] /\
  exists v, entries (stored ex_regs (snd p2)) "v" = Some [EScalar (IZR 11); EScalar (IZR 12); EScalar v].
Proof. cbv zeta. split; [reflexivity|]. split; [reflexivity|]. split; [reflexivity|]. split; [reflexivity|]. eexists. reflexivity. Qed.

(* REFUTED when an exception is caught and the run retried in the same process
   (the iteration counter is only advanced when a call returns, line 1240):
   iterations done before the exception are performed and recorded again. *)
Definition flaky_step (i x : Z) : Z * option exn :=
  if (x =? 11) then (20, Some ValueError) else (x + 1, None).
Theorem C74_refuted_retry :
  let p := process (fun x : Z => x) flaky_step ex_fed (fun _ => 0%R) (fun _ => KNone) ex_regs (ex_cfg 2)
             (Fresh 10) [COptimize; COptimize] (mkDir [] None) in
  snd (fst p) = [Some ValueError; None] /\ o_completed (fst (fst p)) = true /\
  map fst (iterations (fst (fst p))) = [1; 1; 2] /\
  entries (stored ex_regs (snd p)) "v" = Some [EScalar (IZR 11); EScalar (IZR 21); EScalar (IZR 22)].
Proof. cbv zeta. split; [reflexivity|]. split; [reflexivity|]. split; reflexivity. Qed.
Print Assumptions C74_refuted_retry.
Print Assumptions C74_one_process.
Print Assumptions C74_unfinished_writes_nothing.
Print Assumptions C74_completed_runs.
Print Assumptions C74_refuted_unfinished.
Print Assumptions C74_refuted_rewind.
Print Assumptions C74_fresh_run_replaces.
Print Assumptions C74_refuted_other_run.
