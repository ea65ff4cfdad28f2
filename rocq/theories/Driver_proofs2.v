From Verif Require Import Base Driver_model Driver_spec Driver_proofs.
Open Scope Z_scope.
Open Scope list_scope.

Section P.
Context {S : Type}.
Variable body : Z -> S -> S * option exn.
Variable rho_change_max : S -> R.
Variable kkt_residual : S -> kktval.
Variable initialize : res (S * Z).
Variable cfg : dcfg.
Notation loop := (loop body rho_change_max kkt_residual cfg).
Notation conv_at := (converged_at rho_change_max kkt_residual cfg).
Notation meets := (meets_criteria rho_change_max kkt_residual cfg).
Notation exec := (exec body rho_change_max kkt_residual initialize cfg).
Notation exec_all := (exec_all body rho_change_max kkt_residual initialize cfg).
Notation optimize := (optimize body rho_change_max kkt_residual initialize cfg).
Notation optimize_impl := (optimize_impl body rho_change_max kkt_residual initialize cfg).
Notation core := (core body rho_change_max kkt_residual cfg).
Notation written := (written rho_change_max kkt_residual cfg).
Notation convb := (convb rho_change_max kkt_residual cfg).
Notation okb := (okb rho_change_max kkt_residual cfg).
Notation Inv := (Inv body rho_change_max kkt_residual cfg).
Notation Done := (Done body rho_change_max kkt_residual cfg).
Notation Running := (Running body rho_change_max kkt_residual cfg).

Lemma exec_all_cons c cs o o' rs : exec_all (c :: cs) o = (o', rs) ->
  exists o1 r rs', exec c o = (o1, r) /\ exec_all cs o1 = (o', rs') /\ rs = r :: rs'.
Proof.
  simpl. destruct (exec c o) as [o1 r]. destruct (exec_all cs o1) as [o2 rs'] eqn:E.
  intros [= <- <-]. eauto 10.
Qed.
Lemma exec_all_app cs1 cs2 : forall o, exec_all (cs1 ++ cs2) o =
  let (o1, r1) := exec_all cs1 o in let (o2, r2) := exec_all cs2 o1 in (o2, r1 ++ r2).
Proof.
  induction cs1 as [|c cs1 IH]; intros o; simpl.
  - destruct (exec_all cs2 o). reflexivity.
  - destruct (exec c o) as [o1 r]. rewrite IH.
    destruct (exec_all cs1 o1) as [o2 r2]. destruct (exec_all cs2 o2). reflexivity.
Qed.

(* what any call does to trace and disk, raising or not *)
Lemma impl_grows ms o o' r : optimize_impl ms o = (o', r) ->
  exists tr limit, o_trace o' = o_trace o ++ tr /\ o_disk o' = o_disk o ++ written limit tr.
Proof.
  unfold Driver_model.optimize_impl, ensure_initialized.
  assert (Hrefl : exists tr limit, o_trace o = o_trace o ++ tr /\ o_disk o = o_disk o ++ written limit tr).
  { exists [], 0. simpl. now rewrite !app_nil_r. }
  destruct (o_completed o); [intros [= <- <-]; exact Hrefl|].
  assert (Hgen : forall o1 s, o_trace o1 = o_trace o -> o_disk o1 = o_disk o ->
    (let start := o_next o1 in
    if o_end o1 <=? start then (finalize o1, None)
    else
      let limit := match ms with
                   | None => o_end o1
                   | Some n => Z.min (start + n) (o_end o1) end in
      match loop (zrange start limit) limit start s (o_disk o1) (o_trace o1) with
      | (s', disk, trace, last, Raised e) =>
        (mkOpt (Some s') start (o_end o1) false disk trace, Some e)
      | (s', disk, trace, last, Finished conv) =>
        let o' := mkOpt (Some s') (last + 1) (o_end o1) false disk trace in
        (if conv || (o_end o' <=? o_next o') then finalize o' else o', None)
      end) = (o', r) ->
    exists tr limit, o_trace o' = o_trace o ++ tr /\ o_disk o' = o_disk o ++ written limit tr).
  { intros o1 s Ht Hd. cbv zeta. destruct (_ <=? _).
    - intros [= <- <-]. exists [], 0. simpl. rewrite !app_nil_r. unfold finalize.
      destruct (o_state o1); auto.
    - set (limit := match ms with None => _ | Some n => _ end).
      destruct (core (zrange (o_next o1) limit) (o_next o1) s) as [[[s' tr] l] e] eqn:Ec.
      rewrite (loop_core _ _ _ _ _ _ _ _ _ _ _ _ _ _ Ec).
      destruct e as [cv|e].
      + intros [= <- <-]. exists tr, limit.
        destruct (_ || _)%bool; simpl; rewrite Ht, Hd; auto.
      + intros [= <- <-]. exists tr, limit. simpl. rewrite Ht, Hd; auto. }
  destruct (o_state o) as [s|].
  - apply Hgen; reflexivity.
  - destruct initialize as [[s b]|e].
    + apply Hgen; reflexivity.
    + intros [= <- <-]. exact Hrefl.
Qed.

Section Init.
Variables (s0 : S) (b : Z) (disk0 : list (Z * S)).
Hypothesis Hinit : initialize = Ok (s0, b).
Notation E := (max_iters cfg + 1).
Notation Inv0 := (Inv s0 b disk0).
Notation Done0 := (Done s0 b disk0).
Notation Running0 := (Running s0 b disk0).

Lemma exec_inv c o o' : Inv0 o -> exec c o = (o', None) -> Inv0 o' /\ (c = COptimize -> Done0 o').
Proof.
  intros HI H. destruct c as [n|]; simpl in H.
  - split; [|discriminate]. unfold optimize_steps in H. destruct (Z.leb_spec n 0).
    + injection H as <-. exact HI.
    + destruct (impl_inv _ _ _ _ _ _ _ _ Hinit (Some n) o HI H0 _ _ H) as (Hn & _).
      destruct (Hn eq_refl) as [(-> & _)|([?|?] & _)]; auto; [now right; left|now right; right].
  - destruct (impl_inv _ _ _ _ _ _ _ _ Hinit None o HI I _ _ H) as (Hn & _).
    destruct (Hn eq_refl) as [(-> & HD)|(_ & HD & _)].
    + split; auto.
    + split; auto. right. right. auto.
Qed.
Lemma exec_all_inv cs : forall o o' rs, Inv0 o -> exec_all cs o = (o', rs) ->
  Forall (eq None) rs -> Inv0 o'.
Proof.
  induction cs as [|c cs IH]; intros o o' rs HI H Hr.
  - simpl in H. injection H as <- <-. exact HI.
  - apply exec_all_cons in H. destruct H as (o1 & r & rs' & H1 & H2 & ->).
    inversion Hr as [|? ? Hr1 Hr2]; subst r. apply exec_inv in H1; auto. destruct H1 as (H1 & _).
    eauto.
Qed.

(* no call raises when the single run does not *)
Lemma exec_ok c o o' r : Inv0 o ->
  (forall s1 tr1 l1 e, core (zrange b E) (b - 1) s0 <> (s1, tr1, l1, Raised e)) ->
  exec c o = (o', r) -> r = None.
Proof.
  intros HI Hno H. destruct r as [e|]; [exfalso|reflexivity]. destruct c as [n|]; simpl in H.
  - unfold optimize_steps in H. destruct (Z.leb_spec n 0); [discriminate|].
    destruct (impl_inv _ _ _ _ _ _ _ _ Hinit (Some n) o HI H0 _ _ H) as (_ & He).
    destruct (He e eq_refl) as (? & ? & ? & Hc & _). eapply Hno; eauto.
  - destruct (impl_inv _ _ _ _ _ _ _ _ Hinit None o HI I _ _ H) as (_ & He).
    destruct (He e eq_refl) as (? & ? & ? & Hc & _). eapply Hno; eauto.
Qed.

Lemma single_not_raised o : exec COptimize (opt_new disk0) = (o, None) ->
  Done0 o /\ forall s1 tr1 l1 e, core (zrange b E) (b - 1) s0 <> (s1, tr1, l1, Raised e).
Proof.
  intros H. apply exec_inv in H; [|now left]. destruct H as (_ & HD). specialize (HD eq_refl).
  split; auto. destruct HD as (s & tr & D & c & _ & _ & Hc & _). rewrite Hc. congruence.
Qed.

Lemma chunked_eq cs o1 o2 rs : exec COptimize (opt_new disk0) = (o1, None) ->
  exec_all (cs ++ [COptimize]) (opt_new disk0) = (o2, rs) ->
  Forall (eq None) rs /\ Done0 o2 /\
  o_state o2 = o_state o1 /\ o_next o2 = o_next o1 /\ o_end o2 = o_end o1 /\
  o_completed o2 = o_completed o1 /\ o_trace o2 = o_trace o1 /\
  exists D1 D2, o_disk o1 = disk0 ++ D1 /\ o_disk o2 = disk0 ++ D2 /\
    sublist D1 D2 /\ sublist D2 (o_trace o1).
Proof.
  intros H1 H2.
  assert (Hd1 : o_disk o1 = disk0 ++ written E (o_trace o1)).
  { simpl in H1. unfold Driver_model.optimize in H1.
    destruct (impl_inv _ _ _ _ _ _ _ _ Hinit None (opt_new disk0) (or_introl eq_refl) I _ _ H1) as (Hn & _).
    destruct (Hn eq_refl) as [(_ & (? & ? & ? & ? & Hbad & _))|(_ & _ & tr & Ht & _ & Hd)].
    - discriminate Hbad.
    - simpl in Ht, Hd. now rewrite Hd, Ht. }
  destruct (single_not_raised _ H1) as (HD1 & Hno).
  assert (Hall : forall cs o o' rs, Inv0 o -> exec_all cs o = (o', rs) -> Forall (eq None) rs /\ Inv0 o').
  { clear - Hno Hinit. induction cs as [|c cs IH]; intros o o' rs HI H.
    - simpl in H. injection H as <- <-. auto.
    - apply exec_all_cons in H. destruct H as (oa & r & rs' & Ha & Hb & ->).
      assert (r = None) by (eapply exec_ok; eauto). subst r.
      apply exec_inv in Ha; auto. destruct Ha as (Ha & _). apply IH in Hb; auto.
      destruct Hb. split; auto. }
  rewrite exec_all_app in H2. destruct (exec_all cs (opt_new disk0)) as [oa r1] eqn:Ea.
  apply Hall in Ea; [|now left]. destruct Ea as (Hr1 & HIa).
  cbn [Driver_model.exec_all] in H2. destruct (exec COptimize oa) as [ob r2] eqn:Eb. injection H2 as <- <-.
  assert (r2 = None) by (eapply exec_ok; eauto). subst r2.
  apply exec_inv in Eb; auto. destruct Eb as (_ & HD2). specialize (HD2 eq_refl).
  split; [apply Forall_app; auto|]. split; [exact HD2|].
  destruct HD1 as (s1 & tr1 & D1 & c1 & Ho1 & _ & Hc1 & _).
  destruct HD2 as (s2 & tr2 & D2 & c2 & Ho2 & _ & Hc2 & HW2 & HS2).
  rewrite Hc1 in Hc2. injection Hc2 as <- <- Hn <-.
  assert (Hn' : o_next ob = o_next o1) by lia.
  rewrite Ho1 in Hd1. simpl in Hd1. apply app_inv_head in Hd1. subst D1.
  rewrite Ho1, Ho2. simpl. repeat split; auto.
  exists (written E tr1), D2. auto.
Qed.

Lemma inv_facts o : Inv0 o ->
  chain body s0 b (o_trace o) /\
  Forall (fun e => fst e <= max_iters cfg) (o_trace o) /\
  match o_state o with
  | None => o = opt_new disk0
  | Some s => s = final_state s0 (o_trace o) /\ o_next o = b + Z.of_nat (List.length (o_trace o))
  end.
Proof.
  intros [->|[H|H]].
  - simpl. auto.
  - destruct H as (s & tr & D & Ho & Hb & Hlt & Hc & _). apply core_range in Hc; auto.
    destruct Hc as (Hch & Hlen & Hs & Hl & _). rewrite Ho. simpl. split; auto.
    split; [|split; [auto|lia]].
    apply Forall_forall. intros x Hx. pose proof (chain_in _ _ _ _ _ Hch Hx). lia.
  - destruct H as (s & tr & D & c & Ho & Hb & Hc & _). rewrite Ho. simpl.
    destruct (Z_le_gt_dec b E) as [Hle|Hgt].
    + apply core_range in Hc; auto. destruct Hc as (Hch & Hlen & Hf). split; auto.
      split; [apply Forall_forall; intros x Hx; pose proof (chain_in _ _ _ _ _ Hch Hx); lia|].
      destruct c.
      * destruct Hf as (Hs & _ & Hl & _). split; [auto|lia].
      * destruct Hf as (Hs & Hl & _ & Hn). split; [auto|]. destruct (Z.eqb_spec E b); lia.
    + rewrite zrange_nil in Hc by lia. simpl in Hc. injection Hc as <- <- Hn _. simpl.
      split; auto. split; auto. split; [reflexivity|lia].
Qed.

Lemma call_grows c o o' : Inv0 o -> exec c o = (o', None) ->
  exists tr, o_trace o' = o_trace o ++ tr /\
    match c with CSteps n => Z.of_nat (List.length tr) <= Z.max n 0 | COptimize => True end.
Proof.
  intros HI H. destruct c as [n|]; simpl in H.
  - unfold optimize_steps in H. destruct (Z.leb_spec n 0).
    + injection H as <-. exists []. rewrite app_nil_r. simpl. split; auto. lia.
    + destruct (impl_inv _ _ _ _ _ _ _ _ Hinit (Some n) o HI H0 _ _ H) as (Hn & _).
      destruct (Hn eq_refl) as [(-> & _)|(_ & _ & tr & Ht & Hl & _)].
      * exists []. rewrite app_nil_r. simpl. split; auto. lia.
      * exists tr. split; auto. lia.
  - destruct (impl_grows _ _ _ _ H) as (tr & lim & Ht & _). exists tr. auto.
Qed.

Lemma completed_frozen c o : o_completed o = true -> exec c o = (o, None).
Proof.
  intros H. destruct c as [n|]; simpl.
  - unfold optimize_steps, Driver_model.optimize_impl, ensure_initialized. rewrite H.
    destruct (n <=? 0); reflexivity.
  - unfold Driver_model.optimize, Driver_model.optimize_impl, ensure_initialized. now rewrite H.
Qed.

(* ---------- convergence ---------- *)
Lemma convb_meets s : okb s = true -> (convb s = true <-> meets s).
Proof.
  unfold Driver_proofs.okb, Driver_proofs.convb. destruct (conv_at s) as [c|] eqn:Ec; [|discriminate].
  intros _. now apply conv_meets.
Qed.
(* when nothing raised, every trace state had well-defined criteria *)
Lemma core_okb its : forall lst s s' tr l c, core its lst s = (s', tr, l, Finished c) ->
  Forall (fun x => okb (snd x) = true) tr.
Proof.
  induction its as [|i its IH]; intros lst s s' tr l c H; simpl in H.
  - injection H as <- <- <- <-. constructor.
  - destruct (body i s) as [s1 [e1|]]; [discriminate|].
    assert (Hok := eq_refl (okb s1)). unfold Driver_proofs.okb at 2 in Hok.
    destruct (conv_at s1) as [conv|ec]; [|discriminate].
    destruct (cfg_ok cfg); [|discriminate].
    destruct conv.
    + injection H as <- <- <- <-. constructor; auto.
    + destruct (core its i s1) as [[[s2 tr2] l2] e2] eqn:E2. injection H as <- <- <- ->.
      constructor; eauto.
Qed.
Lemma done_convergence o : Done0 o ->
  (exists pre i s, o_trace o = pre ++ [(i, s)] /\ o_state o = Some s /\ meets s /\
     Forall (fun e => ~ meets (snd e)) pre /\ In (i, s) (o_disk o)) \/
  (Forall (fun e => ~ meets (snd e)) (o_trace o) /\ Z.of_nat (List.length (o_trace o)) = Z.max 0 (E - b)).
Proof.
  intros (s & tr & D & c & Ho & Hb & Hc & HW & HD). rewrite Ho. simpl.
  pose proof (core_okb _ _ _ _ _ _ _ Hc) as Hok. rewrite Forall_forall in Hok.
  assert (Hneg : forall x : Z * S, okb (snd x) = true -> convb (snd x) = false -> ~ meets (snd x)).
  { intros x Hx Hf Hm. apply convb_meets in Hm; auto. congruence. }
  destruct (Z_le_gt_dec b E) as [Hle|Hgt].
  - apply core_range in Hc; auto. destruct Hc as (Hch & Hlen & Hf). destruct c.
    + left. destruct Hf as (Hs & Hcfg & Hl & pre & Htr & Hcv & Hpre).
      exists pre, (o_next o - 1), s. split; [easy|]. split; [easy|].
      assert (Hin : In (o_next o - 1, s) tr) by (rewrite Htr; apply in_or_app; right; now left).
      split; [|split].
      * apply convb_meets; auto. apply (Hok _ Hin).
      * rewrite Forall_forall in Hpre |- *. intros x Hx. apply Hneg; auto.
        apply Hok. rewrite Htr. apply in_or_app. now left.
      * apply in_or_app. right. apply (sublist_in _ _ _ HW). unfold Driver_proofs.written.
        apply filter_In. split; auto. rewrite (Hok _ Hin). simpl. rewrite Hcv, dueb_conv. reflexivity.
    + right. destruct Hf as (Hs & Hl & Hfa & _). split; [|lia].
      rewrite Forall_forall in Hfa |- *. intros x Hx. apply Hneg; auto.
  - right. rewrite zrange_nil in Hc by lia. simpl in Hc. injection Hc as <- <- Hn _. simpl. split; [constructor|lia].
Qed.

(* ---------- checkpoints ---------- *)
Lemma inv_written ms o o' : Inv0 o -> (match ms with Some n => 0 < n | None => True end) ->
  optimize_impl ms o = (o', None) ->
  exists tr saved, o_trace o' = o_trace o ++ tr /\ o_disk o' = o_disk o ++ saved /\ sublist saved tr /\
    forall e, In e tr -> (In e saved <->
      fst e = 1 \/ (max_iters cfg / record_times cfg | fst e) \/ (exists pre, tr = pre ++ [e]) \/ meets (snd e)).
Proof.
  intros HI Hms H.
  assert (Htriv : o' = o -> exists tr saved, o_trace o' = o_trace o ++ tr /\ o_disk o' = o_disk o ++ saved /\ sublist saved tr /\
    forall e, In e tr -> (In e saved <->
      fst e = 1 \/ (max_iters cfg / record_times cfg | fst e) \/ (exists pre, tr = pre ++ [e]) \/ meets (snd e))).
  { intros ->. exists [], []. rewrite !app_nil_r. repeat split; auto; try constructor; easy. }
  destruct (impl_inv _ _ _ _ _ _ _ _ Hinit ms o HI Hms _ _ H) as (Hn & _).
  destruct (Hn eq_refl) as [(-> & _)|(HRD & _ & tr & Ht & Hl & Hd)]; [auto|clear Htriv].
  set (start := match o_state o with Some _ => o_next o | None => b end) in *.
  set (limit := match ms with Some n => Z.min (start + n) E | None => E end) in *.
  exists tr, (written limit tr). split; [easy|]. split; [easy|].
  split; [unfold Driver_proofs.written; clear; induction tr; simpl; [constructor|destruct (_ && _)%bool; constructor; auto]|].
  destruct (inv_facts o HI) as (Hch & Hmx & Hst).
  assert (HI' : Inv0 o') by (right; exact HRD).
  destruct (inv_facts o' HI') as (Hch' & Hmx' & Hst').
  assert (Hok : Forall (fun x => okb (snd x) = true) (o_trace o') /\
    (Done0 o' -> (exists pre x, o_trace o' = pre ++ [x] /\ convb (snd x) = true /\ Forall (fun y => convb (snd y) = false) pre) \/
        (Forall (fun y => convb (snd y) = false) (o_trace o') /\ Z.of_nat (List.length (o_trace o')) = Z.max 0 (E - b))) /\
    (Running0 o' -> Forall (fun y => convb (snd y) = false) (o_trace o'))).
  { split; [|split].
    - destruct HRD as [(s & tr' & D & Ho & _ & _ & Hc & _)|(s & tr' & D & c & Ho & _ & Hc & _)];
        rewrite Ho; simpl; eapply core_okb; eauto.
    - intros (s & tr' & D & c & Ho & Hb & Hc & _). rewrite Ho. simpl.
      destruct (Z_le_gt_dec b E) as [Hle|Hgt].
      + apply core_range in Hc; auto. destruct Hc as (_ & Hlen & Hf). destruct c.
        * left. destruct Hf as (_ & _ & _ & pre & Htr & Hcv & Hpre). eauto 10.
        * right. destruct Hf as (_ & Hl1 & Hfa & _). split; auto. lia.
      + right. rewrite zrange_nil in Hc by lia. simpl in Hc. injection Hc as <- <- Hn' _. simpl. split; [constructor|lia].
    - intros (s & tr' & D & Ho & Hb & Hlt & Hc & _). rewrite Ho. simpl. apply core_range in Hc; auto. tauto. }
  destruct Hok as (Hok & HDn & HRn). rewrite Forall_forall in Hok.
  intros e Hin.
  assert (Hin' : In e (o_trace o')) by (rewrite Ht; apply in_or_app; now right).
  assert (Hoke := Hok _ Hin').
  assert (Hcfg : cfg_ok cfg = Ok tt).
  { unfold Driver_proofs.okb in Hoke. destruct (conv_at (snd e)); [|discriminate].
    destruct (cfg_ok cfg) as [[]|]; [reflexivity|discriminate]. }
  assert (HP : max_iters cfg / record_times cfg <> 0).
  { unfold cfg_ok in Hcfg. destruct (record_times cfg =? 0) eqn:E1; [discriminate|].
    destruct (max_iters cfg / record_times cfg =? 0) eqn:E2; [discriminate|]. now apply Z.eqb_neq. }
  unfold Driver_proofs.written. rewrite filter_In. rewrite Hoke. simpl. unfold dueb.
  rewrite !orb_true_iff, !Z.eqb_eq. rewrite (convb_meets _ Hoke).
  rewrite Z.mod_divide by exact HP.
  (* position of e inside the call *)
  assert (Hstart : start = b + Z.of_nat (List.length (o_trace o))).
  { unfold start. destruct (o_state o); [tauto|]. rewrite Hst. simpl. lia. }
  rewrite Ht in Hch'. apply chain_app in Hch'. destruct Hch' as (_ & Hchn). rewrite <- Hstart in Hchn.
  assert (Hlim : forall k, fst k = limit - 1 -> In k tr -> exists pre, tr = pre ++ [k]).
  { intros k Hk Hkin. apply in_split in Hkin. destruct Hkin as (l1 & l2 & ->).
    destruct l2 as [|y l2]; [now exists l1|exfalso].
    assert (Hyr : fst y = fst k + 1).
    { rewrite chain_app in Hchn. destruct Hchn as (_ & Hchn). simpl in Hchn. destruct k as [i si], y as [j sj].
      simpl in Hchn. simpl. intuition lia. }
    assert (fst y <= max_iters cfg).
    { rewrite Forall_forall in Hmx'. apply Hmx'. rewrite Ht. apply in_or_app. right. apply in_or_app. right. simpl. auto. }
    assert (fst y < start + Z.of_nat (List.length (l1 ++ k :: y :: l2))).
    { apply (chain_in _ _ _ _ _ Hchn). apply in_or_app. right. simpl. auto. }
    unfold limit in *. destruct ms; lia. }
  split.
  - intros (_ & [[[H1|H1]|H1]|H1]); auto.
  - intros [H1|[H1|[(pre & Hpre)|H1]]]; split; auto.
    (* last of the call: either converged, or at the limit *)
    destruct HRD as [HR|HD].
    + (* running: the call did exactly its number of steps *)
      right. specialize (HRn HR). destruct HR as (s & tr' & D & Ho & Hb & Hlt & Hc & _).
      (* use the loop: all limit - start iterations performed *)
      assert (Hfull : Z.of_nat (List.length tr) = limit - start).
      { destruct ms as [n|].
        - (* o_next o' = start + length tr < E, so the chunk was not cut by E *)
          assert (Hnx : o_next o' = b + Z.of_nat (List.length (o_trace o'))).
          { rewrite Ho in Hst'. simpl in Hst'. rewrite Ho. simpl. apply Hst'. }
          rewrite Ht, app_length in Hnx.
          (* call ran to its limit: redo from impl *)
          assert (Hcl : o_next o' = limit).
          { clear - H HI Hinit Hlt Ho start limit Hst Hms.
            unfold Driver_model.optimize_impl in H.
            assert (Hens : exists o1 s1, ensure_initialized initialize cfg o = Ok (Some (o1, s1)) /\
              o_next o1 = start /\ o_end o1 = E \/ o_completed o = true).
            { destruct HI as [->|[(s1 & tr1 & D1 & Ho1 & _)|(s1 & tr1 & D1 & c1 & Ho1 & _)]].
              - exists (mkOpt (Some s0) b E false disk0 []), s0. left. unfold ensure_initialized. simpl. rewrite Hinit. auto.
              - exists o, s1. left. unfold start, ensure_initialized. rewrite Ho1. simpl. auto.
              - exists o, s1. right. rewrite Ho1. reflexivity. }
            destruct Hens as (o1 & s1 & [(Hens & Hn1 & He1)|Hcomp]).
            2:{ unfold ensure_initialized in H. rewrite Hcomp in H. injection H as <-. rewrite Ho in Hcomp. discriminate. }
            rewrite Hens in H. rewrite Hn1, He1 in H.
            destruct (E <=? start) eqn:Ele.
            { injection H as <-. exfalso. revert Ho. unfold finalize.
              destruct (o_state o1) eqn:Eo1.
              - intros Hbad. discriminate Hbad.
              - intros Hbad. unfold ensure_initialized in Hens.
                destruct (o_completed o); [discriminate|]. destruct (o_state o) eqn:Eo.
                + injection Hens as <- <-. congruence.
                + rewrite Hinit in Hens. injection Hens as <- <-. discriminate Eo1. }
            fold limit in H.
            destruct (core (zrange start limit) start s1) as [[[s2 tr2] l2] e2] eqn:Ec.
            rewrite (loop_core _ _ _ _ _ _ _ _ _ _ _ _ _ _ Ec) in H. apply Z.leb_gt in Ele.
            apply core_range in Ec; [|unfold limit; lia]. destruct Ec as (_ & _ & Hf).
            destruct e2 as [[|]|e2]; [| |discriminate].
            - simpl in H. injection H as <-. discriminate Ho.
            - destruct Hf as (_ & _ & _ & Hl2). simpl in H. destruct (E <=? l2 + 1) eqn:E3.
              + injection H as <-. discriminate Ho.
              + injection H as <-. simpl. destruct (Z.eqb_spec limit start); unfold limit in *; lia. }
          lia.
        - exfalso. unfold Driver_model.optimize in *.
          destruct (exec_inv COptimize o o' HI H) as (_ & HD). specialize (HD eq_refl).
          destruct HD as (? & ? & ? & ? & Ho2 & _). rewrite Ho in Ho2. discriminate Ho2. }
      rewrite Hpre in Hchn. apply chain_app in Hchn. destruct Hchn as (_ & Hchn). destruct e as [i si].
      simpl in Hchn. simpl. destruct Hchn as (Hi & _). rewrite Hpre, app_length in Hfull. simpl in Hfull. lia.
    + destruct (HDn HD) as [(pre' & x & Hx & Hcv & _)|(Hfa & Hlen)].
      * left. right. apply convb_meets; auto.
        assert (x = e).
        { rewrite Ht, Hpre, app_assoc in Hx. apply app_inj_tail in Hx. now symmetry. }
        subst x. exact Hcv.
      * right. rewrite Ht, app_length in Hlen.
        rewrite Hpre in Hchn. apply chain_app in Hchn. destruct Hchn as (_ & Hchn). destruct e as [i si].
        simpl in Hchn. simpl. destruct Hchn as (Hi & _).
        rewrite Hpre, app_length in Hlen. simpl in Hlen.
        assert (i <= max_iters cfg) by (rewrite Forall_forall in Hmx'; apply (Hmx' _ Hin')).
        assert (HE : i + 1 = E) by lia.
        unfold limit in *. destruct ms as [n|]; [|lia].
        rewrite Hpre, app_length in Hl. simpl in Hl. lia.
Qed.
End Init.
End P.
