From Coq Require Import Permutation.
From Verif Require Import Base Driver_model Driver_spec Driver_proofs Driver_proofs2 Ckpt_model Ckpt_proofs Session_spec.
Open Scope Z_scope.
Open Scope list_scope.

Definition small (i : Z) : Prop := 0 <= i < 10 ^ 6.

Lemma list_max_exists {B} (l : list (Z * B)) : l <> [] ->
  exists m b, In (m, b) l /\ forall e, In e l -> fst e <= m.
Proof.
  induction l as [|[i b] l IH]; [easy|]. intros _. destruct l as [|e l].
  - exists i, b. split; [now left|]. intros e [<-|[]]. simpl. lia.
  - destruct IH as (m & b' & Hin & Hmax); [easy|]. destruct (Z_le_gt_dec i m).
    + exists m, b'. split; [now right|]. intros x [<-|Hx]; [easy|auto].
    + exists i, b. split; [now left|]. intros x [<-|Hx]; [simpl; lia|]. specialize (Hmax _ Hx). lia.
Qed.

(* what a restart reads from a directory of complete checkpoints *)
Lemma restart_newest {A} (cks : list (Z * A)) ls : cks <> [] ->
  Forall (fun e => small (fst e)) cks ->
  Permutation ls (map fst (save_all cks [])) ->
  exists m a, restart_init (-1) ls (save_all cks []) = Ok (a, m + 1) /\
    find (fun e => fst e =? m) (rev cks) = Some (m, a) /\
    In (m, a) cks /\ forall e, In e cks -> fst e <= m.
Proof.
  intros Hne Hsm HP. rewrite Forall_forall in Hsm.
  pose proof (find_latest_found ls) as Hf. unfold found in Hf.
  assert (Hnames : forall f, In f ls <-> exists e, In e cks /\ f = ckpt_name (fst e)).
  { intros f. split.
    - intros H. apply (Permutation_in _ HP) in H. apply names_save_all in H.
      destruct H as [[]|H]. exact H.
    - intros H. apply (Permutation_in _ (Permutation_sym HP)). apply names_save_all. now right. }
  unfold restart_init. change (0 <? -1) with false. cbv iota.
  destruct (find_latest ls) as [m [f|]]; cbn [fst snd] in Hf.
  - destruct Hf as (Hin & Hm & Hmax). apply Hnames in Hin. destruct Hin as (e0 & He0 & ->).
    rewrite match_ckpt in Hm by (apply Hsm; auto). injection Hm as Hm.
    assert (Hle : forall e, In e cks -> fst e <= m).
    { intros e He. apply (Hmax (ckpt_name (fst e))).
      - apply Hnames. eauto.
      - apply match_ckpt. apply Hsm. auto. }
    assert (Hmsm : small m) by (rewrite <- Hm; apply Hsm; auto).
    destruct (find (fun e => fst e =? m) (rev cks)) as [[m' a]|] eqn:Efind.
    + pose proof (find_some _ _ Efind) as (Hin' & Heq). simpl in Heq. apply Z.eqb_eq in Heq. subst m'.
      exists m, a. split; [|split; [exact Efind|split; [now apply in_rev|exact Hle]]].
      unfold np_load. rewrite Hm. rewrite lookup_save_all.
      * rewrite Efind. reflexivity.
      * unfold small in Hmsm. lia.
      * apply Forall_forall. intros e He. specialize (Hsm e He). unfold small in Hsm. lia.
    + exfalso. apply find_none with (x := e0) in Efind; [|now apply in_rev in He0 || (apply -> in_rev; auto)].
      apply Z.eqb_neq in Efind. congruence.
  - exfalso. destruct cks as [|e cks]; [easy|]. destruct Hf as (_ & Hno).
    apply (Hno (ckpt_name (fst e)) (fst e)).
    + apply Hnames. exists e. split; [now left|reflexivity].
    + apply match_ckpt. apply Hsm. now left.
Qed.

Section S.
Context {S A : Type}.
Variable rho_of : S -> A.
Variables (rho_change : S -> R) (kkt : S -> kktval) (cfg : dcfg).
Notation P := (max_iters cfg / record_times cfg).
Hypothesis HP : 1 <= P.
Hypothesis Hrt : 1 <= record_times cfg.
Hypothesis Hmax : max_iters cfg < 10 ^ 6.
Hypothesis Hkkt : check_convergence cfg = true -> forall s, kkt s <> KNone.
Notation epoch := (epoch rho_of rho_change kkt cfg).
Notation sessions := (sessions rho_of rho_change kkt cfg).
Notation written := (written rho_change kkt cfg).

Lemma okb_true s : okb rho_change kkt cfg s = true.
Proof.
  unfold okb, converged_at, cfg_ok.
  destruct (Z.eqb_spec (record_times cfg) 0); [lia|].
  destruct (Z.eqb_spec P 0); [lia|].
  destruct (check_convergence cfg) eqn:E; auto.
  pose proof (Hkkt eq_refl s). destruct (kkt s); [congruence|reflexivity|reflexivity].
Qed.
Lemma written_due limit tr e : In e tr -> (fst e = 1 \/ (P | fst e)) -> In e (written limit tr).
Proof.
  intros Hin Hd. unfold Driver_proofs.written. apply filter_In. split; auto.
  rewrite okb_true. simpl. unfold dueb. destruct Hd as [->|Hd].
  - rewrite !orb_true_iff. simpl. auto.
  - apply Z.mod_divide in Hd; [|lia]. rewrite Hd. reflexivity.
Qed.
Lemma written_sub limit tr e : In e (written limit tr) -> In e tr.
Proof. unfold Driver_proofs.written. intros H. apply filter_In in H. tauto. Qed.

Definition good (cks : list (Z * S)) : Prop := Forall (fun e => 1 <= fst e <= max_iters cfg) cks.

(* trace and checkpoints of one epoch *)
Lemma epoch_facts cks b tr cks' : epoch cks b tr cks' ->
  exists body s0, chain body s0 b tr /\ Forall (fun e => fst e <= max_iters cfg) tr /\
  exists D, cks' = cks ++ D /\ (forall e, In e D -> In e tr) /\
    (forall e, In e tr -> (fst e = 1 \/ (P | fst e)) -> In e D).
Proof.
  intros [(body & init & s0 & cs & c & o1 & rs & o2 & r & Hinit & _ & Hall & Hrs & Hc & -> & ->)].
  exists body, s0.
  assert (HI : Inv body rho_change kkt cfg s0 b cks o1).
  { eapply exec_all_inv; eauto. now left. }
  assert (Htr : chain body s0 b (o_trace o2) /\ Forall (fun e => fst e <= max_iters cfg) (o_trace o2)).
  { destruct r as [e|].
    - assert (exists ms, (match ms with Some n => 0 < n | None => True end) /\
        optimize_impl body rho_change kkt init cfg ms o1 = (o2, Some e)) as (ms & Hms & Himp).
      { destruct c as [n|]; simpl in Hc.
        - unfold optimize_steps in Hc. destruct (Z.leb_spec n 0); [discriminate|]. exists (Some n). auto.
        - exists None. auto. }
      destruct (impl_inv _ _ _ _ _ _ _ _ Hinit ms o1 HI Hms _ _ Himp) as (_ & He).
      destruct (He e eq_refl) as (s1 & tr1 & l1 & Hcore & -> & _).
      destruct (Z_le_gt_dec b (max_iters cfg + 1)) as [Hle|Hgt].
      + apply core_range in Hcore; auto. destruct Hcore as (Hch & Hlen & _). split; auto.
        apply Forall_forall. intros x Hx. pose proof (chain_in _ _ _ _ _ Hch Hx). lia.
      + rewrite zrange_nil in Hcore by lia. discriminate.
    - destruct (exec_inv _ _ _ _ _ _ _ _ Hinit _ _ _ HI Hc) as (HI2 & _).
      apply inv_facts in HI2. tauto. }
  destruct Htr as (Hch & Hmx). split; auto. split; auto.
  assert (Hg : exists tr limit, o_trace o2 = o_trace o1 ++ tr /\ o_disk o2 = o_disk o1 ++ written limit tr).
  { destruct c as [n|]; simpl in Hc.
    - unfold optimize_steps in Hc. destruct (Z.leb_spec n 0).
      + injection Hc as <- <-. exists [], 0. simpl. now rewrite !app_nil_r.
      + eapply impl_grows; eauto.
    - eapply impl_grows; eauto. }
  destruct Hg as (tr & limit & Ht & Hd).
  assert (HD1 : exists D1, o_disk o1 = cks ++ D1 /\ (forall e, In e D1 -> In e (o_trace o1)) /\
     (forall e, In e (o_trace o1) -> (fst e = 1 \/ (P | fst e)) -> In e D1)).
  { destruct HI as [->|[(s & t & D & Ho & _ & _ & _ & HW & HS)|(s & t & D & cc & Ho & _ & _ & HW & HS)]].
    - exists []. simpl. rewrite app_nil_r. intuition.
    - exists D. rewrite Ho. simpl. split; auto. split; [intros e; apply (sublist_in _ _ _ HS)|].
      intros e He Hdue. apply (sublist_in _ _ _ HW). now apply written_due.
    - exists D. rewrite Ho. simpl. split; auto. split; [intros e; apply (sublist_in _ _ _ HS)|].
      intros e He Hdue. apply (sublist_in _ _ _ HW). now apply written_due. }
  destruct HD1 as (D1 & Hd1 & Hs1 & Hw1). exists (D1 ++ written limit tr).
  rewrite Hd, Hd1, Ht, app_assoc. split; [reflexivity|]. split.
  - intros e He. apply in_app_or in He. apply in_or_app. destruct He as [He|He]; auto.
    right. now apply written_sub in He.
  - intros e He Hdue. apply in_app_or in He. apply in_or_app. destruct He as [He|He]; auto.
    right. now apply written_due.
Qed.

Lemma chain_app_last body s b (tr : list (Z * S)) k x : chain body s b (tr ++ [(k, x)]) ->
  k = b + Z.of_nat (List.length tr).
Proof. intros H. apply chain_app in H. destruct H as (_ & H). simpl in H. tauto. Qed.

Definition to_arr (e : Z * S) : Z * A := (fst e, rho_of (snd e)).

Lemma sessions_good cks : sessions cks -> good cks.
Proof.
  induction 1 as [|cks b tr cks' Hs IH He]; [constructor|].
  assert (Hb : 1 <= b).
  { destruct He as [(body & init & s0 & cs & c & o1 & rs & o2 & r & _ & Hst & _)].
    destruct Hst as [(_ & ->)|(ls & a & HPerm & Hr)]; [lia|].
    destruct cks as [|e0 cks0]; [simpl in Hr |].
    - apply Permutation_sym, Permutation_nil in HPerm. subst ls. discriminate.
    - destruct (restart_newest (map to_arr (e0 :: cks0)) ls) as (m & a' & Hr' & _ & Hin & _); [easy| |exact HPerm|].
      + apply Forall_forall. intros x Hx. apply in_map_iff in Hx. destruct Hx as (y & <- & Hy).
        unfold good in IH. rewrite Forall_forall in IH. specialize (IH _ Hy). unfold small. simpl. lia.
      + pose proof (eq_trans (eq_sym Hr) Hr') as Heq. injection Heq as -> ->.
        apply in_map_iff in Hin. destruct Hin as (y & Hy & Hin). unfold good in IH. rewrite Forall_forall in IH.
        specialize (IH _ Hin). unfold to_arr in Hy. injection Hy as Hy _. lia. }
  apply epoch_facts in He. destruct He as (body & s0 & Hch & Hmx & D & -> & Hsub & _).
  unfold good in *. apply Forall_app. split; auto. rewrite Forall_forall in *. intros e He.
  apply Hsub in He. pose proof (chain_in _ _ _ _ _ Hch He). specialize (Hmx _ He). lia.
Qed.

(* the iteration an epoch starts with is one past the newest checkpoint *)
Lemma epoch_begin cks b tr cks' : good cks -> epoch cks b tr cks' ->
  1 <= b /\ (b = 1 /\ cks = [] \/ exists s, In (b - 1, s) cks) /\ forall e, In e cks -> fst e < b.
Proof.
  intros IH [(body & init & s0 & cs & c & o1 & rs & o2 & r & _ & Hst & _)].
  destruct Hst as [(-> & ->)|(ls & a & HPerm & Hr)].
  { split; [lia|]. split; auto. intros e []. }
  destruct cks as [|e0 cks0].
  { simpl in *. apply Permutation_sym, Permutation_nil in HPerm. subst ls. discriminate. }
  destruct (restart_newest (map to_arr (e0 :: cks0)) ls) as (m & a' & Hr' & _ & Hin & Hle); [easy| |exact HPerm|].
  - apply Forall_forall. intros x Hx. apply in_map_iff in Hx. destruct Hx as (y & <- & Hy).
    unfold good in IH. rewrite Forall_forall in IH. specialize (IH _ Hy). unfold small. simpl. lia.
  - pose proof (eq_trans (eq_sym Hr) Hr') as Heq. injection Heq as -> ->.
    apply in_map_iff in Hin. destruct Hin as (y & Hy & Hin). unfold to_arr in Hy. injection Hy as Hy _.
    unfold good in IH. rewrite Forall_forall in IH. pose proof (IH _ Hin).
    split; [lia|]. split.
    + right. exists (snd y). replace (m + 1 - 1) with (fst y) by lia. now destruct y.
    + intros e He. apply (in_map to_arr) in He. apply Hle in He. simpl in He. lia.
Qed.

Lemma epoch_restart cks b tr cks' k s_k tr0 : good cks -> epoch cks b tr cks' -> tr = tr0 ++ [(k, s_k)] ->
  forall ls, Permutation ls (map fst (data_of rho_of cks')) ->
  exists j s_j, restart_init (-1) ls (data_of rho_of cks') = Ok (rho_of s_j, j + 1) /\
    In (j, s_j) cks' /\ (forall e, In e cks' -> fst e <= j) /\ j <= k < j + P /\
    (In (j, s_j) tr \/ In (j, s_j) cks /\ j = b - 1).
Proof.
  intros Hg He Htr ls HPerm. destruct (epoch_begin _ _ _ _ Hg He) as (Hb & Hb1 & Hlt).
  pose proof (epoch_facts _ _ _ _ He) as (body & s0 & Hch & Hmx & D & Hcks' & Hsub & Hdue).
  assert (Hk : k = b + Z.of_nat (List.length tr0)) by (rewrite Htr in Hch; eapply chain_app_last; eauto).
  assert (Hkin : In (k, s_k) tr) by (rewrite Htr; apply in_or_app; right; now left).
  assert (Hg' : good cks').
  { unfold good in *. rewrite Hcks'. apply Forall_app. split; auto. rewrite Forall_forall in *. intros e Hx.
    apply Hsub in Hx. pose proof (chain_in _ _ _ _ _ Hch Hx). specialize (Hmx _ Hx). lia. }
  (* every iteration in [b, k] is in the trace *)
  assert (Hcover : forall i, b <= i <= k -> exists s, In (i, s) tr).
  { intros i Hi. assert (Hin : In i (map fst tr)).
    { rewrite (chain_fst _ _ _ _ Hch). apply in_zrange. rewrite Htr, app_length. simpl. lia. }
    apply in_map_iff in Hin. destruct Hin as ([i' s] & Hi' & Hin). simpl in Hi'. subst i'. eauto. }
  (* a checkpoint close to k *)
  assert (Hclose : exists j0 s0', In (j0, s0') cks' /\ j0 <= k < j0 + P).
  { set (q := P * (k / P)). assert (Hq : q <= k < q + P).
    { unfold q. pose proof (Z.div_mod k P). pose proof (Z.mod_pos_bound k P). lia. }
    destruct (Z_le_gt_dec b q) as [Hbq|Hbq].
    - destruct (Hcover q) as (s & Hin); [lia|]. exists q, s. split; [|lia].
      rewrite Hcks'. apply in_or_app. right. apply Hdue; auto. right. simpl. exists (k / P). unfold q. lia.
    - destruct Hb1 as [(-> & _)|(s & Hin)].
      + destruct (Hcover 1) as (s & Hin); [lia|]. exists 1, s. split; [|lia].
        rewrite Hcks'. apply in_or_app. right. apply Hdue; auto.
      + exists (b - 1), s. split; [rewrite Hcks'; apply in_or_app; now left|]. lia. }
  destruct Hclose as (j0 & sj0 & Hj0in & Hj0).
  assert (Hne : cks' <> []) by (intros ->; easy).
  destruct (restart_newest (map to_arr cks') ls) as (m & a & Hr & Hfind & Hin & Hle).
  { intros Hbad. apply map_eq_nil in Hbad. easy. }
  { apply Forall_forall. intros x Hx. apply in_map_iff in Hx. destruct Hx as (y & <- & Hy).
    unfold good in Hg'. rewrite Forall_forall in Hg'. specialize (Hg' _ Hy). unfold small. simpl. lia. }
  { exact HPerm. }
  apply in_map_iff in Hin. destruct Hin as ([m' s_j] & Hy & Hin). unfold to_arr in Hy. simpl in Hy.
  injection Hy as -> <-. exists m, s_j.
  assert (Hle' : forall e, In e cks' -> fst e <= m).
  { intros e Hx. apply (in_map to_arr) in Hx. apply Hle in Hx. exact Hx. }
  split; [exact Hr|]. split; [exact Hin|]. split; [exact Hle'|].
  pose proof (Hle' _ Hj0in) as Hjm. simpl in Hjm.
  assert (Hmk : m <= k).
  { rewrite Hcks' in Hin. apply in_app_or in Hin. destruct Hin as [Hin|Hin].
    - specialize (Hlt _ Hin). simpl in Hlt. lia.
    - apply Hsub in Hin. pose proof (chain_in _ _ _ _ _ Hch Hin) as Hr2. simpl in Hr2.
      rewrite Htr, app_length in Hr2. simpl in Hr2. lia. }
  split; [lia|].
  rewrite Hcks' in Hin. apply in_app_or in Hin. destruct Hin as [Hin|Hin].
  - right. split; auto. destruct Hb1 as [(_ & ->)|(s & Hs)]; [easy|].
    pose proof (Hlt _ Hin). simpl in *. assert (b - 1 <= m); [|lia].
    apply (Hle' (b - 1, s)). rewrite Hcks'. apply in_or_app. now left.
  - left. auto.
Qed.
End S.
