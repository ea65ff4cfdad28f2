(* Workers on disjoint cells do not influence each other. *)
From Verif Require Import Base Mesh_model Mesh_spec Par_model Par_spec.
From Coq Require Import Permutation.
Open Scope R_scope.
Open Scope list_scope.

Lemma cell_eqb_spec a b : cell_eqb a b = true <-> a = b.
Proof.
  unfold cell_eqb. destruct a as [a1 a2], b as [b1 b2]; cbn [fst snd]. rewrite Bool.andb_true_iff, !Nat.eqb_eq. split; [intros (-> & ->); reflexivity|intros E; injection E; auto].
Qed.
Lemma put_eq {V} (m : memory V) c x : put m c x c = x.
Proof. unfold put. now rewrite (proj2 (cell_eqb_spec c c) eq_refl). Qed.
Lemma put_neq {V} (m : memory V) c x d : d <> c -> put m c x d = m d.
Proof. intros H. unfold put. destruct (cell_eqb d c) eqn:E; [apply cell_eqb_spec in E; easy|reflexivity]. Qed.

(* the worker alone *)
Fixpoint alone {V} (P : code V) (m : memory V) : memory V :=
  match P with Halt => m | Load c k => alone (k (m c)) m | Store c x k => alone k (put m c x) end.
(* the worker only uses cells of S *)
Fixpoint within {V} (S : cell -> Prop) (P : code V) : Prop :=
  match P with Halt => True | Load c k => S c /\ forall x, within S (k x) | Store c x k => S c /\ within S k end.
(* the worker makes at most n steps *)
Fixpoint takes {V} (n : nat) (P : code V) {struct P} : Prop :=
  match P with
  | Halt => True
  | Load c k => match n with O => False | S n => forall x, takes n (k x) end
  | Store c x k => match n with O => False | S n => takes n k end
  end.
Lemma alone_frame {V} (S : cell -> Prop) (P : code V) : forall m m', within S P -> (forall c, S c -> m c = m' c) -> forall c, S c -> alone P m c = alone P m' c.
Proof.
  induction P as [|c k IH|c x k IH]; intros m m' HW HE d Hd; cbn [alone within] in *.
  - auto.
  - destruct HW as (Hc & HW). rewrite <- (HE c Hc). now apply IH.
  - destruct HW as (Hc & HW). apply IH; auto. intros d' Hd'. unfold put. destruct (cell_eqb d' c); auto.
Qed.
Lemma alone_outside {V} (S : cell -> Prop) (P : code V) : forall m c, within S P -> ~ S c -> alone P m c = m c.
Proof.
  induction P as [|d k IH|d x k IH]; intros m c HW Hc; cbn [alone within] in *; [reflexivity| |]; destruct HW as (Hd & HW); rewrite IH by auto; [reflexivity|].
  apply put_neq. intros ->. easy.
Qed.
(* a pool whose workers use disjoint sets of cells *)
Definition disjoint (Ss : list (cell -> Prop)) : Prop := forall i j c, (i < List.length Ss)%nat -> (j < List.length Ss)%nat -> nth i Ss (fun _ => False) c -> nth j Ss (fun _ => False) c -> i = j.
Definition agree {V} (m0 : memory V) (pool0 : list (code V)) (Ss : list (cell -> Prop)) (pool : list (code V)) (m : memory V) : Prop :=
  List.length pool = List.length Ss /\
  (forall i, (i < List.length Ss)%nat -> within (nth i Ss (fun _ => False)) (nth i pool Halt)) /\
  (forall i c, (i < List.length Ss)%nat -> nth i Ss (fun _ => False) c -> alone (nth i pool Halt) m c = alone (nth i pool0 Halt) m0 c) /\
  (forall c, (forall i, (i < List.length Ss)%nat -> ~ nth i Ss (fun _ => False) c) -> m c = m0 c).
Lemma agree_step {V} (m0 : memory V) pool0 Ss s s' : disjoint Ss -> agree m0 pool0 Ss (fst s) (snd s) -> step s s' -> agree m0 pool0 Ss (fst s') (snd s').
Proof.
  intros HD HA HS. destruct HS as [l P P' r m m' HT]. cbn [fst snd] in *. destruct HA as (A1 & A2 & A3 & A4).
  set (i0 := List.length l). assert (Hi0 : (i0 < List.length Ss)%nat) by (rewrite <- A1, app_length; cbn; lia).
  assert (N0 : forall Q : code V, nth i0 (l ++ Q :: r) Halt = Q) by (intros Q; unfold i0; rewrite app_nth2, Nat.sub_diag by lia; reflexivity).
  assert (N1 : forall (Q Q' : code V) i, i <> i0 -> nth i (l ++ Q :: r) Halt = nth i (l ++ Q' :: r) Halt).
  { intros Q Q' i Hi. destruct (Nat.lt_ge_cases i i0) as [H|H]; [now rewrite !app_nth1|]. rewrite !app_nth2 by lia. fold i0. destruct (i - i0)%nat eqn:E; [lia|reflexivity]. }
  pose proof (A2 i0 Hi0) as W. pose proof (A3 i0) as E0. rewrite N0 in W, E0. specialize (fun c => E0 c Hi0).
  assert (G : within (nth i0 Ss (fun _ => False)) P' /\ (forall c, alone P' m' c = alone P m c) /\ (forall c, ~ nth i0 Ss (fun _ => False) c -> m' c = m c)).
  { inversion HT as [c k m1 E1 E2|c x k m1 E1 E2]; subst; cbn [within] in W; destruct W as (W1 & W2).
    - repeat split; auto.
    - split; [exact W2|]. split; [reflexivity|]. intros d Hd. apply put_neq. intros ->. easy. }
  destruct G as (G1 & G2 & G3).
  assert (Q : forall i c, (i < List.length Ss)%nat -> i <> i0 -> nth i Ss (fun _ => False) c -> m' c = m c).
  { intros i c Hi Hne Hc. apply G3. intros Hc0. apply Hne. exact (HD i i0 c Hi Hi0 Hc Hc0). }
  split; [rewrite <- A1, !app_length; reflexivity|]. split; [|split].
  - intros i Hi. destruct (Nat.eq_dec i i0) as [->|Hne]; [now rewrite N0|]. rewrite (N1 P' P) by exact Hne. auto.
  - intros i c Hi Hc. destruct (Nat.eq_dec i i0) as [->|Hne]; [rewrite N0, G2; auto|]. rewrite (N1 P' P) by exact Hne. rewrite <- (A3 i c Hi Hc).
    refine (alone_frame _ _ _ _ (A2 i Hi) _ c Hc). intros d Hd. exact (Q i d Hi Hne Hd).
  - intros c Hc. rewrite <- (A4 c Hc). apply G3. auto.
Qed.
Lemma agree_steps {V} (m0 : memory V) pool0 Ss j s s' : disjoint Ss -> steps j s s' -> agree m0 pool0 Ss (fst s) (snd s) -> agree m0 pool0 Ss (fst s') (snd s').
Proof. intros HD H. induction H as [s|n s s1 s2 H1 H2 IH]; [auto|]. intros HA. apply IH. exact (agree_step _ _ _ _ _ HD HA H1). Qed.

(* no endless execution *)
Lemma takes_tick {V} n (P P' : code V) m m' : takes n P -> tick (P, m) (P', m') -> exists n', n = S n' /\ takes n' P'.
Proof. intros H T. inversion T; subst; cbn [takes] in H; destruct n as [|n]; try easy; exists n; auto. Qed.
Definition total (ns : list nat) : nat := fold_right Nat.add 0%nat ns.
Lemma total_app a b : total (a ++ b) = (total a + total b)%nat.
Proof. induction a as [|x a IH]; cbn; [reflexivity|]. fold (total (a ++ b)). fold (total a). lia. Qed.
Lemma steps_bounded {V} j (s s' : list (code V) * memory V) ns : steps j s s' -> Forall2 takes ns (fst s) -> exists ns', Forall2 takes ns' (fst s') /\ (j + total ns' = total ns)%nat.
Proof.
  intros H. revert ns. induction H as [s|n s s1 s2 H1 H2 IH]; intros ns HF; [exists ns; auto|].
  destruct H1 as [l P P' r m m' HT]. cbn [fst] in *. apply Forall2_app_inv_r in HF. destruct HF as (a & b & Ha & Hb & ->). inversion Hb as [|x y b' r' Hx Hr E1 E2]; subst.
  destruct (takes_tick _ _ _ _ _ Hx HT) as (x' & -> & Hx'). destruct (IH (a ++ x' :: b')) as (ns' & I1 & I2).
  - apply Forall2_app; [exact Ha|constructor; assumption].
  - exists ns'. split; [exact I1|]. rewrite total_app in *. cbn [total fold_right] in *. fold (total b') in *. lia.
Qed.
(* somebody can always go on *)
Lemma progress {V} (s : list (code V) * memory V) : finished s \/ exists s', step s s'.
Proof.
  destruct s as [pool m]. unfold finished. cbn [fst]. induction pool as [|P pool IH]; [left; easy|].
  destruct P as [|c k|c x k].
  - destruct IH as [IH|(s' & IH)]; [left; intros P [<-|HP]; auto|]. right. inversion IH as [l P P' r m1 m' HT E1 E2]; subst. exists ((Halt :: l) ++ P' :: r, m'). exact (step_one (Halt :: l) P P' r m m' HT).
  - right. exists ([] ++ k (m c) :: pool, m). apply (step_one [] (Load c k)). constructor.
  - right. exists ([] ++ k :: pool, put m c x). apply (step_one [] (Store c x k)). constructor.
Qed.
Lemma steps_trans {V} i j (s1 s2 s3 : list (code V) * memory V) : steps i s1 s2 -> steps j s2 s3 -> steps (i + j) s1 s3.
Proof. intros H. induction H; [auto|]. intros G. cbn. econstructor; eauto. Qed.
Lemma finishes {V} N : forall (s : list (code V) * memory V) ns, Forall2 takes ns (fst s) -> (total ns <= N)%nat -> exists j s', steps j s s' /\ finished s'.
Proof.
  induction N as [|N IH]; intros s ns HF Hle.
  - destruct (progress s) as [H|(s' & H)]; [exists 0%nat, s; split; [constructor|exact H]|].
    destruct (steps_bounded 1 s s' ns) as (ns' & _ & E); [econstructor; [exact H|constructor]|exact HF|lia].
  - destruct (progress s) as [H|(s' & H)]; [exists 0%nat, s; split; [constructor|exact H]|].
    destruct (steps_bounded 1 s s' ns) as (ns' & HF' & E); [econstructor; [exact H|constructor]|exact HF|].
    destruct (IH s' ns' HF' ltac:(lia)) as (j & s2 & I1 & I2). exists (S j), s2. split; [econstructor; eassumption|exact I2].
Qed.

(* ---- loops whose iteration e uses column e only ---- *)
Section Loop.
Context {V : Type}.
Variable body : nat -> code V -> code V.
Variable b : nat.
Variable effect : nat -> memory V -> memory V.
Hypothesis body_within : forall (S : cell -> Prop) e k, (forall r, S (r, e)) -> within S k -> within S (body e k).
Hypothesis body_takes : forall n e k, takes n k -> takes (b + n) (body e k).
Hypothesis body_alone : forall e k m, alone (body e k) m = alone k (effect e m).
Hypothesis effect_column : forall e m m', (forall r, m (r, e) = m' (r, e)) -> forall r, effect e m (r, e) = effect e m' (r, e).
Hypothesis effect_other : forall e m r e', e' <> e -> effect e m (r, e') = m (r, e').

Definition columns (es : list nat) : cell -> Prop := fun c => In (snd c) es.
Lemma worker_within es (S : cell -> Prop) : (forall e r, In e es -> S (r, e)) -> within S (worker body es).
Proof. induction es as [|e es IH]; intros H; cbn [worker fold_right]; [exact I|]. apply body_within; [intros; apply H; now left|]. apply IH. intros; apply H; now right. Qed.
Lemma worker_takes es : takes (b * List.length es) (worker body es).
Proof. induction es as [|e es IH]; cbn [worker fold_right List.length]; [exact I|]. rewrite Nat.mul_succ_r, Nat.add_comm. apply body_takes. exact IH. Qed.
Lemma worker_alone es : forall m e r, NoDup es -> alone (worker body es) m (r, e) = if in_dec Nat.eq_dec e es then effect e m (r, e) else m (r, e).
Proof.
  induction es as [|e0 es IH]; intros m e r Hnd; [reflexivity|]. inversion Hnd as [|? ? Hni Hnd']; subst. cbn [worker fold_right]. fold (worker body es).
  rewrite body_alone, IH by exact Hnd'. destruct (Nat.eq_dec e e0) as [->|Hne].
  - destruct (in_dec Nat.eq_dec e0 es) as [Q|Q]; [easy|]. destruct (in_dec Nat.eq_dec e0 (e0 :: es)) as [Q'|Q']; [reflexivity|]. exfalso. apply Q'. now left.
  - destruct (in_dec Nat.eq_dec e es) as [Q|Q], (in_dec Nat.eq_dec e (e0 :: es)) as [Q'|Q'].
    + apply effect_column. intros r'. now apply effect_other.
    + exfalso. apply Q'. now right.
    + exfalso. destruct Q' as [->|Q']; easy.
    + now apply effect_other.
Qed.
Lemma shares_nodup n assign : shares n assign -> NoDup (List.concat assign).
Proof. intros H. apply (Permutation_NoDup (Permutation_sym H)). apply seq_NoDup. Qed.
Lemma nodup_parts (assign : list (list nat)) : NoDup (List.concat assign) -> forall i, (i < List.length assign)%nat -> NoDup (nth i assign []) /\
  forall j e, (j < List.length assign)%nat -> In e (nth i assign []) -> In e (nth j assign []) -> i = j.
Proof.
  assert (IN : forall (a : list (list nat)) j e, (j < List.length a)%nat -> In e (nth j a []) -> In e (List.concat a)).
  { intros a j e Hj He. apply in_concat. exists (nth j a []). split; [now apply nth_In|exact He]. }
  induction assign as [|es assign IH]; intros H i Hi; [cbn in Hi; lia|]. cbn [List.concat] in H.
  assert (SPL : NoDup es /\ NoDup (List.concat assign) /\ forall e, In e es -> ~ In e (List.concat assign)).
  { clear -H. induction es as [|x es IHe]; [cbn in H; repeat split; [constructor|exact H|easy]|]. cbn in H. inversion H as [|? ? Hx Hr]; subst. destruct (IHe Hr) as (I1 & I2 & I3).
    split; [constructor; [intros Q; apply Hx, in_app_iff; now left|exact I1]|]. split; [exact I2|]. intros e [<-|He]; [intros Q; apply Hx, in_app_iff; now right|auto]. }
  destruct SPL as (S1 & S2 & S3). destruct i as [|i]; cbn [nth].
  - split; [exact S1|]. intros [|j] e Hj He Hj'; [reflexivity|]. exfalso. cbn [nth] in Hj'. cbn in Hj. apply (S3 e He). apply (IN assign j); [lia|exact Hj'].
  - cbn in Hi. destruct (IH S2 i ltac:(lia)) as (I1 & I2). split; [exact I1|]. intros [|j] e Hj He Hj'; cbn [nth] in Hj'.
    + exfalso. apply (S3 e Hj'). apply (IN assign i); [lia|exact He].
    + cbn in Hj. f_equal. apply (I2 j e); auto. lia.
Qed.
Lemma loop_result n assign m j s : shares n assign -> loop_reaches body m assign j s -> finished s ->
  forall r e, (e < n)%nat -> snd s (r, e) = effect e m (r, e).
Proof.
  intros HS HR HF r e He. pose proof (nodup_parts assign (shares_nodup n assign HS)) as HP.
  set (Ss := map columns assign). assert (NS : forall i c, (i < List.length assign)%nat -> nth i Ss (fun _ => False) c = In (snd c) (nth i assign [])).
  { intros i c Hi. unfold Ss. rewrite (nth_indep _ _ (columns [])) by (now rewrite map_length). rewrite map_nth. reflexivity. }
  assert (LS : List.length Ss = List.length assign) by apply map_length.
  assert (NW : forall i, nth i (map (worker body) assign) Halt = worker body (nth i assign [])) by (intros i; change (@Halt V) with (worker body []); apply map_nth).
  assert (HD : disjoint Ss).
  { intros i i' c Hi Hi' H1 H2. rewrite LS in Hi, Hi'. rewrite NS in H1, H2 by assumption. exact (proj2 (HP i Hi) i' _ Hi' H1 H2). }
  assert (HA : agree m (map (worker body) assign) Ss (map (worker body) assign) m).
  { split; [now rewrite map_length|]. split; [|split; [reflexivity|reflexivity]]. intros i Hi. rewrite NW. apply worker_within. intros e' r' He'. rewrite NS by lia. exact He'. }
  pose proof (agree_steps m (map (worker body) assign) Ss j _ s HD HR HA) as (A1 & _ & A3 & _).
  assert (Hin : In e (List.concat assign)) by (apply (Permutation_in _ (Permutation_sym HS)), in_seq; lia).
  apply in_concat in Hin. destruct Hin as (es & Hes & Hee). destruct (In_nth _ _ [] Hes) as (i & Hi & Ei).
  specialize (A3 i (r, e) ltac:(lia)). rewrite NS, NW, Ei in A3 by exact Hi. specialize (A3 Hee).
  rewrite (HF (nth i (fst s) Halt)) in A3 by (apply nth_In; lia). cbn [alone] in A3. rewrite A3, worker_alone by (rewrite <- Ei; apply HP; exact Hi).
  destruct (in_dec Nat.eq_dec e es); [reflexivity|easy].
Qed.
Lemma loop_takes assign : Forall2 takes (map (fun es => (b * List.length es)%nat) assign) (map (worker body) assign).
Proof. induction assign as [|es assign IH]; constructor; [apply worker_takes|exact IH]. Qed.
Lemma loop_total n assign : shares n assign -> total (map (fun es => (b * List.length es)%nat) assign) = (b * n)%nat.
Proof.
  intros H. apply Permutation_length in H. rewrite seq_length in H. rewrite <- H. clear H. induction assign as [|es assign IH]; [cbn; lia|].
  cbn [map total fold_right List.concat]. fold (total (map (fun es => (b * List.length es)%nat) assign)). rewrite IH, app_length. lia.
Qed.
Lemma loop_ends n assign m j s : shares n assign -> loop_reaches body m assign j s ->
  (j <= b * n)%nat /\ exists j' s', steps j' s s' /\ finished s'.
Proof.
  intros HS HR. destruct (steps_bounded j _ s _ HR (loop_takes assign)) as (ns' & F & E). rewrite (loop_total n) in E by exact HS. split; [lia|].
  exact (finishes (total ns') s ns' F (Nat.le_refl _)).
Qed.
End Loop.
