From Coq Require Import Permutation.
From Verif Require Import Base Driver_model Driver_spec Driver_proofs Driver_proofs2 Ckpt_model Ckpt_proofs
  Session_spec Session_proofs History_model History_proofs History_props HistSess_model.
Open Scope Z_scope.
Open Scope list_scope.

Lemma feeds_until_ok l : forall h h', feeds_until l h = (h', None) -> feeds l h = Ok h'.
Proof.
  induction l as [|[n i] l IH]; intros h h' H; simpl in *; [now injection H as <-|].
  destruct (feed_data n i h); [simpl; auto|discriminate].
Qed.
Lemma feeds_app l1 : forall l2 h h1 h2, feeds l1 h = Ok h1 -> feeds l2 h1 = Ok h2 -> feeds (l1 ++ l2) h = Ok h2.
Proof.
  induction l1 as [|[n i] l1 IH]; intros l2 h h1 h2 Ha Hb; simpl in *; [now injection Ha as ->|].
  destruct (feed_data n i h) as [h'|]; [|discriminate]. simpl in *. eauto.
Qed.
Lemma inputs_app n l1 l2 : inputs_for n (l1 ++ l2) = inputs_for n l1 ++ inputs_for n l2.
Proof. unfold inputs_for. now rewrite filter_app, map_app. Qed.

(* the import looks at the old recorder only for constants and ylog *)
Definition meta (s : series) := (h_consts s, h_ylog s).
Lemma import_old old old' : (forall n, option_map meta (hget old n) = option_map meta (hget old' n)) ->
  forall f all acc, import_loop old f all acc = import_loop old' f all acc.
Proof.
  intros Hm. induction f as [|[k v] f IH]; intros all acc; [reflexivity|]. cbn [import_loop].
  destruct (ends_header k); [apply IH|]. destruct v as [a|]; [|apply IH].
  destruct (match hget all (k ++ "_header") with Some (ZHeader n t) => (n, t) | _ => (k, "value"%string) end) as [n t].
  specialize (Hm n). unfold meta in Hm.
  destruct (hget old n), (hget old' n); cbn in Hm; try discriminate; [|apply IH].
  injection Hm as -> ->. apply IH.
Qed.
Lemma feeds_meta l : forall h h' n, feeds l h = Ok h' -> option_map meta (hget h' n) = option_map meta (hget h n).
Proof.
  induction l as [|[m i] l IH]; intros h h' n H; simpl in H; [now injection H as <-|].
  destruct (feed_data m i h) as [h1|] eqn:E; [|discriminate]. simpl in H. rewrite (IH _ _ _ H).
  apply feed_ok in E. destruct E as (s & e & Hs & _ & Hs' & Ho & _).
  destruct (String.eqb_spec n m) as [->|Hn]; [|now rewrite Ho].
  rewrite Hs, Hs'. reflexivity.
Qed.

Lemma written_reload regs l h old :
  NoDup (map fst regs) -> regs <> [] ->
  (forall n, In n (map fst regs) -> ends_header n = false /\ n <> "file"%string) ->
  feeds l (registry regs) = Ok h ->
  (forall n, In n (map fst regs) -> homogeneous (inputs_for n l)) ->
  (forall n, In n (map fst regs) -> inputs_for n l <> []) ->
  exists f, written_hist h old = Some f /\ import_histories (Some f) (registry regs) = h.
Proof.
  intros Hnd Hne Hn Hf Hhom Hfed.
  destruct (C40_export_import_partial regs l h Hnd Hn Hf Hhom) as (h' & He & _ & Hh).
  specialize (Hh Hfed). subst h'. unfold export_histories in He. unfold written_hist.
  destruct (histories_to_array h []) as [f|] eqn:Ef; [|discriminate]. cbn [bind] in He.
  assert (Hkeys : map fst h = map fst regs) by now rewrite (feeds_keys _ _ _ Hf), registry_keys.
  assert (Hfb : forallb (fun kv => ends_header (fst kv)) f = false).
  { assert (Hall : forall k s, In (k, s) h -> In k (map fst regs) /\ h_data s <> [] /\ storable s).
    { intros k s Hin. assert (Hk : In k (map fst regs)) by (rewrite <- Hkeys; apply (in_map fst) in Hin; exact Hin).
      split; [exact Hk|]. rewrite <- registry_keys in Hk. destruct (in_hget _ _ Hk) as (s0 & Hg0 & Hi0).
      rewrite registry_keys in Hk. destruct (registry_in _ _ _ Hi0) as (Hn0 & Hd0 & _).
      destruct (feeds_ok _ _ _ _ _ Hf Hg0) as (es & HF & Hgs).
      assert (Hndh : NoDup (map fst h)) by now rewrite Hkeys.
      rewrite (hget_in h k s Hndh Hin) in Hgs. injection Hgs as ->. cbn [h_data]. rewrite Hd0. cbn [app]. split.
      - intros ->. inversion HF as [E|]. apply (Hfed k Hk). congruence.
      - unfold storable. cbn [h_data h_type]. apply (to_entries_storable _ _ _ (Hhom k Hk) HF). }
    rewrite to_array_eq in Ef; [|now rewrite Hkeys| |].
    - injection Ef as <-. destruct regs as [|[k r] regs0]; [easy|].
      destruct h as [|[k' s] h0]; [discriminate|]. cbn in Hkeys. injection Hkeys as -> _.
      destruct (Hall k s (or_introl eq_refl)) as (Hk & Hd & Hst). destruct (round_trip_data s Hd Hst) as (a & Ha & _).
      cbn [filter]. unfold nonempty at 1. cbn [snd]. destruct (h_data s) as [|e0 r0] eqn:Ed; [easy|].
      cbn [flat_map app]. unfold rec at 1. cbn [fst snd]. rewrite Ha. cbn [app forallb fst].
      destruct (Hn k Hk) as (-> & _). reflexivity.
    - intros k s Hin. destruct (Hall k s Hin) as (Hk & _). destruct (Hn k Hk). auto.
    - intros k s Hin Hd. destruct (Hall k s Hin) as (_ & _ & Hst). destruct (round_trip_data s Hd Hst) as (a & Ha & _). eauto. }
  rewrite Hfb in He |- *. destruct (hget f "file"); [discriminate|]. injection He as He.
  exists f. split; [reflexivity|]. transitivity (import_histories (Some f) h); [|exact He]. unfold import_histories. apply import_old.
  intros n. symmetry. apply (feeds_meta _ _ _ _ Hf).
Qed.

Section R.
Context {X A : Type}.
Variable rho_of : X -> A.
Variable step : Z -> X -> X * option exn.
Variable fed : Z -> X -> list (string * input).
Variables (rho_change : X -> R) (kkt : X -> kktval).
Variable regs : list (string * (string * bool)).
Notation body := (rec_body step fed).
Notation rc := (fun s : X * hists => rho_change (fst s)).
Notation kk := (fun s : X * hists => kkt (fst s)).
Notation process := (process rho_of step fed rho_change kkt regs).
Notation init_run := (init_run rho_of regs).

Definition fed_by (tr : list (Z * X)) : list (string * input) := flat_map (fun e => fed (fst e) (snd e)) tr.
Definition strip (tr : list (Z * (X * hists))) : list (Z * X) := map (fun e => (fst e, fst (snd e))) tr.

Lemma chain_feeds tr : forall x h b, chain body (x, h) b tr ->
  feeds (fed_by (strip tr)) h = Ok (snd (final_state (x, h) tr)).
Proof.
  induction tr as [|[i [x' h']] tr IH]; intros x h b H; [reflexivity|].
  destruct H as (-> & Hb & Hc). rewrite final_state_cons. cbn [strip map fed_by flat_map fst snd].
  unfold rec_body in Hb. destruct (step b x) as [x1 [e|]]; [discriminate|].
  destruct (feeds_until (fed b x1) h) as [h1 e] eqn:E. injection Hb as <- <- ->.
  apply feeds_until_ok in E. eapply feeds_app; [exact E|]. apply (IH _ _ _ Hc).
Qed.

Lemma fst_strip tr : map fst (strip tr) = map fst tr.
Proof. unfold strip. rewrite map_map. reflexivity. Qed.

(* one process without exceptions *)
Lemma process_facts cfg st cs d o rs d' x0 h0 b :
  process cfg st cs d = (o, rs, d') -> Forall (eq None) rs -> init_run st d = Ok ((x0, h0), b) ->
  let tr := strip (o_trace o) in
  map fst tr = zrange b (b + Z.of_nat (List.length tr)) /\
  (o_state o = None -> o_trace o = [] /\ o_completed o = false) /\
  (forall x h, o_state o = Some (x, h) -> feeds (fed_by tr) h0 = Ok h) /\
  (o_completed o = false -> d_hist d' = d_hist d) /\
  (forall x h, o_state o = Some (x, h) -> o_completed o = true -> d_hist d' = written_hist h (d_hist d)) /\
  (exists D, d_cks d' = d_cks d ++ D /\ (forall e, In e D -> In e (o_trace o)) /\
     (o_completed o = true -> forall pre e, o_trace o = pre ++ [e] -> In e D)).
Proof.
  intros Hp Hrs Hi. unfold HistSess_model.process in Hp.
  destruct (exec_all body rc kk (init_run st d) cfg cs (opt_new (d_cks d))) as [o' rs'] eqn:Ee.
  injection Hp as -> -> <-.
  assert (HI : Inv body rc kk cfg (x0, h0) b (d_cks d) o).
  { eapply exec_all_inv; eauto. now left. }
  destruct (inv_facts _ _ _ _ _ _ _ _ HI) as (Hch & Hmx & Hst).
  cbv zeta. rewrite fst_strip. split.
  { unfold strip. rewrite map_length. apply (chain_fst _ _ _ _ Hch). }
  split. { intros E. rewrite E in Hst. rewrite Hst. easy. }
  split. { intros x h E. rewrite E in Hst. destruct Hst as (Hs & _). rewrite (chain_feeds _ _ _ _ Hch), <- Hs. reflexivity. }
  cbn [d_hist d_cks].
  split. { intros ->. reflexivity. }
  split. { intros x h -> ->. reflexivity. }
  destruct HI as [->|[H|H]].
  - exists []. cbn. rewrite app_nil_r. split; [reflexivity|]. split; easy.
  - destruct H as (s & tr & D & Ho & _ & _ & _ & _ & HS). exists D. rewrite Ho. cbn.
    split; [reflexivity|]. split; [|discriminate]. intros e. apply (sublist_in _ _ _ HS).
  - destruct H as (s & tr & D & c & Ho & Hb & Hc & HW & HS). exists D. rewrite Ho. cbn.
    split; [reflexivity|]. split; [intros e; apply (sublist_in _ _ _ HS)|].
    intros _ pre e Htr. apply (sublist_in _ _ _ HW). unfold Driver_proofs.written. apply filter_In.
    assert (Hin : In e tr) by (rewrite Htr; apply in_or_app; right; now left). split; [exact Hin|].
    pose proof (core_okb _ _ _ _ _ _ _ _ _ _ _ Hc) as Hok. rewrite Forall_forall in Hok. rewrite (Hok _ Hin). cbn [andb].
    destruct (Z_le_gt_dec b (max_iters cfg + 1)) as [Hle|Hgt].
    + apply core_range in Hc; [|exact Hle]. destruct Hc as (Hch' & Hlen & Hf). destruct c.
      * destruct Hf as (_ & _ & _ & pre' & Htr' & Hcv & _).
        rewrite Htr in Htr'. apply app_inj_tail in Htr'. destruct Htr' as (_ & ->). cbn [snd]. rewrite Hcv. apply dueb_conv.
      * destruct Hf as (_ & Hl & _). unfold dueb. apply orb_true_iff. right.
        apply Z.eqb_eq. rewrite Htr in Hch'. destruct e as [k s']. apply chain_app in Hch'. destruct Hch' as (_ & Hk & _). cbn [fst].
        rewrite Htr, app_length in Hl. cbn in Hl. lia.
    + rewrite zrange_nil in Hc by lia. cbn in Hc. injection Hc as _ <- _ _. easy.
Qed.

Lemma process_small cfg st cs d o rs d' x0 h0 b :
  process cfg st cs d = (o, rs, d') -> Forall (eq None) rs -> init_run st d = Ok ((x0, h0), b) ->
  Forall (fun e => fst e <= max_iters cfg) (o_trace o).
Proof.
  intros Hp Hrs Hi. unfold HistSess_model.process in Hp.
  destruct (exec_all body rc kk (init_run st d) cfg cs (opt_new (d_cks d))) as [o' rs'] eqn:Ee.
  injection Hp as -> -> <-.
  assert (HI : Inv body rc kk cfg (x0, h0) b (d_cks d) o).
  { eapply exec_all_inv; eauto. now left. }
  now destruct (inv_facts _ _ _ _ _ _ _ _ HI) as (_ & Hmx & _).
Qed.

Lemma restart_at cks ls (Q : A) b N : 
  Forall (fun e : Z * (X * hists) => small (fst e)) cks ->
  Permutation ls (map fst (data_of (fun s : X * hists => rho_of (fst s)) cks)) ->
  restart_init (-1) ls (data_of (fun s : X * hists => rho_of (fst s)) cks) = Ok (Q, b) ->
  (exists s, In (N, s) cks) -> (forall e, In e cks -> fst e <= N) -> b = N + 1.
Proof.
  intros Hsm HP Hr (s & Hs) Hle.
  destruct (restart_newest (map (fun e => (fst e, rho_of (fst (snd e)))) cks) ls) as (m & a & Hr' & _ & Hin & Hm).
  - intros E. apply map_eq_nil in E. subst. easy.
  - apply Forall_forall. intros e He. apply in_map_iff in He. destruct He as (y & <- & Hy). cbn [fst].
    rewrite Forall_forall in Hsm. auto.
  - exact HP.
  - pose proof (eq_trans (eq_sym Hr) Hr') as Heq. injection Heq as _ ->. f_equal.
    apply in_map_iff in Hin. destruct Hin as (y & Hy & Hyin). injection Hy as Hy _.
    specialize (Hle _ Hyin). apply (in_map (fun e => (fst e, rho_of (fst (snd e))))) in Hs. specialize (Hm _ Hs). cbn [fst] in Hm. lia.
Qed.

Hypothesis Hnd : NoDup (map fst regs).
Hypothesis Honce : forall i x, Permutation (map fst (fed i x)) (map fst regs).

Lemma inputs_one i x n : In n (map fst regs) ->
  exists inp, In (n, inp) (fed i x) /\ inputs_for n (fed i x) = [inp].
Proof.
  intros Hn. assert (Hnd' : NoDup (map fst (fed i x))).
  { eapply Permutation_NoDup; [apply Permutation_sym, Honce|exact Hnd]. }
  assert (Hin : In n (map fst (fed i x))) by (apply (Permutation_in _ (Permutation_sym (Honce i x))); exact Hn).
  revert Hnd' Hin. unfold inputs_for. generalize (fed i x). induction l as [|[m v] l IH]; intros Hd Hin; [easy|].
  inversion Hd as [|? ? Hni Hd']; subst. cbn [filter fst]. destruct (String.eqb_spec m n) as [->|Hne].
  - exists v. split; [now left|]. cbn [map snd]. f_equal.
    assert (E : filter (fun p : string * input => (fst p =? n)%string) l = []).
    { clear IH Hd Hd' Hin. induction l as [|[k w] l IH]; [reflexivity|]. cbn [filter fst].
      destruct (String.eqb_spec k n) as [->|]; [exfalso; apply Hni; now left|]. apply IH. intros H; apply Hni; now right. }
    now rewrite E.
  - destruct Hin as [Hin|Hin]; [cbn in Hin; congruence|]. destruct (IH Hd' Hin) as (inp & Hi & He). exists inp. split; [now right|exact He].
Qed.

Lemma inputs_trace n tr : In n (map fst regs) ->
  Forall2 (fun (e : Z * X) inp => In (n, inp) (fed (fst e) (snd e))) tr (inputs_for n (fed_by tr)).
Proof.
  intros Hn. induction tr as [|e tr IH]; [constructor|].
  unfold fed_by. cbn [flat_map]. rewrite inputs_app. destruct (inputs_one (fst e) (snd e) n Hn) as (inp & Hi & ->).
  cbn [app]. constructor; [exact Hi|exact IH].
Qed.
End R.
