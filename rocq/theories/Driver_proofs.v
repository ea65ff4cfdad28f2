From Verif Require Import Base Driver_model Driver_spec.
Open Scope Z_scope.
Open Scope list_scope.

Lemma zrange_nil a b : b <= a -> zrange a b = [].
Proof. intros H. unfold zrange. replace (Z.to_nat (b - a)) with 0%nat by lia. reflexivity. Qed.
Lemma zrange_cons a b : a < b -> zrange a b = a :: zrange (a + 1) b.
Proof.
  intros H. unfold zrange.
  replace (Z.to_nat (b - a)) with (Datatypes.S (Z.to_nat (b - (a + 1)))) by lia.
  simpl. f_equal; [lia|]. rewrite <- seq_shift, map_map. apply map_ext. intros. lia.
Qed.
Lemma zrange_len a b : List.length (zrange a b) = Z.to_nat (b - a).
Proof. unfold zrange. now rewrite map_length, seq_length. Qed.
Lemma zrange_app a b c : a <= b -> b <= c -> zrange a c = zrange a b ++ zrange b c.
Proof.
  intros H1 H2. remember (Z.to_nat (b - a)) as n eqn:E. revert a H1 E.
  induction n; intros a H1 E.
  - assert (a = b) by lia. subst. now rewrite (zrange_nil b b) by lia.
  - rewrite (zrange_cons a b), (zrange_cons a c) by lia. simpl. f_equal. apply IHn; lia.
Qed.
Lemma in_zrange a b i : In i (zrange a b) <-> a <= i < b.
Proof.
  unfold zrange. rewrite in_map_iff. split.
  - intros (k & <- & H). apply in_seq in H. lia.
  - intros H. exists (Z.to_nat (i - a)). rewrite in_seq. lia.
Qed.

Lemma sublist_refl {A} (l : list A) : sublist l l.
Proof. induction l; constructor; auto. Qed.
Lemma sublist_app {A} (l m l' m' : list A) : sublist l m -> sublist l' m' -> sublist (l ++ l') (m ++ m').
Proof. induction 1; simpl; intros; auto; constructor; auto. Qed.
Lemma sublist_nil {A} (m : list A) : sublist [] m.
Proof. induction m; constructor; auto. Qed.
Lemma sublist_in {A} (l m : list A) x : sublist l m -> In x l -> In x m.
Proof. induction 1; simpl; intuition. Qed.
Lemma sublist_filter {A} (f g : A -> bool) l :
  (forall x, In x l -> f x = true -> g x = true) -> sublist (filter f l) (filter g l).
Proof.
  induction l as [|x l IH]; intros H; simpl; [constructor|].
  assert (IH' := IH (fun y Hy => H y (or_intror Hy))).
  assert (Hx := H x (or_introl eq_refl)).
  destruct (f x).
  - rewrite Hx by easy. now constructor.
  - destruct (g x); [now constructor | easy].
Qed.

Section Chain.
Context {S : Type}.
Variable body : Z -> S -> S * option exn.
Lemma final_state_cons (s : S) i s' tr : final_state s ((i, s') :: tr) = final_state s' tr.
Proof.
  unfold final_state. simpl. destruct tr as [|[j x] tr]; [reflexivity|].
  simpl. generalize (map snd tr). intros l. revert x.
  induction l as [|y l IH]; intros x; simpl; auto.
Qed.
Lemma chain_in tr : forall s b x, chain body s b tr -> In x tr -> b <= fst x < b + Z.of_nat (List.length tr).
Proof.
  induction tr as [|[i s1] tr IH]; intros s b x H Hin; [easy|].
  destruct H as (-> & _ & H). destruct Hin as [<-|Hin]; simpl List.length.
  - simpl. lia.
  - apply (IH _ _ _ H) in Hin. lia.
Qed.
Lemma chain_fst tr : forall s b, chain body s b tr -> map fst tr = zrange b (b + Z.of_nat (List.length tr)).
Proof.
  induction tr as [|[i s1] tr IH]; intros s b H.
  - simpl. now rewrite zrange_nil by lia.
  - destruct H as (-> & _ & H). simpl List.length. rewrite zrange_cons by lia. simpl. f_equal.
    rewrite (IH _ _ H). f_equal. lia.
Qed.
Lemma chain_app tr1 tr2 : forall s b, chain body s b (tr1 ++ tr2) <->
  chain body s b tr1 /\ chain body (final_state s tr1) (b + Z.of_nat (List.length tr1)) tr2.
Proof.
  induction tr1 as [|[i s1] tr1 IH]; intros s b.
  - simpl. replace (b + 0) with b by lia. unfold final_state. simpl. tauto.
  - simpl app. simpl chain. rewrite IH, final_state_cons.
    replace (b + 1 + Z.of_nat (List.length tr1)) with (b + Z.of_nat (List.length ((i, s1) :: tr1))) by (simpl List.length; lia).
    tauto.
Qed.
End Chain.

Section P.
Context {S : Type}.
Variable body : Z -> S -> S * option exn.
Variable rho_change_max : S -> R.
Variable kkt_residual : S -> kktval.
Variable initialize : res (S * Z).
Variable cfg : dcfg.
Notation loop := (loop body rho_change_max kkt_residual cfg).
Notation conv_at := (converged_at rho_change_max kkt_residual cfg).
Notation save_due := (save_due cfg).
Notation meets := (meets_criteria rho_change_max kkt_residual cfg).
Notation exec := (exec body rho_change_max kkt_residual initialize cfg).
Notation exec_all := (exec_all body rho_change_max kkt_residual initialize cfg).
Notation optimize := (optimize body rho_change_max kkt_residual initialize cfg).
Notation optimize_impl := (optimize_impl body rho_change_max kkt_residual initialize cfg).

Lemma conv_meets s c : conv_at s = Ok c -> (c = true <-> meets s).
Proof.
  unfold converged_at, meets_criteria. destruct (check_convergence cfg).
  - destruct (kkt_residual s).
    + discriminate.
    + intros [= <-]. rewrite andb_true_r. destruct (Rltb _ _) eqn:E.
      * apply Rltb_true in E. intuition.
      * apply Rltb_false in E. split; [discriminate|]. intros (_ & H & _). lra.
    + intros [= <-]. destruct (Rltb (rho_change_max s) _) eqn:E; simpl.
      * apply Rltb_true in E. destruct (Rltb (Rabs r) _) eqn:E'.
        -- apply Rltb_true in E'. intuition.
        -- apply Rltb_false in E'. split; [discriminate|]. intros (_ & _ & H). lra.
      * apply Rltb_false in E. split; [discriminate|]. intros (_ & H & _). lra.
  - intros [= <-]. intuition discriminate.
Qed.

(* errors of the save test do not depend on anything but the configuration *)
Definition cfg_ok : res unit :=
  if record_times cfg =? 0 then Err ZeroDivisionError
  else if max_iters cfg / record_times cfg =? 0 then Err ZeroDivisionError else Ok tt.
Definition dueb (i limit : Z) (conv : bool) : bool :=
  ((i mod (max_iters cfg / record_times cfg) =? 0) || (i =? 1) || conv || (i =? limit - 1))%bool.
Lemma save_due_eq i limit c : save_due i limit c =
  match cfg_ok with Ok _ => Ok (dueb i limit c) | Err e => Err e end.
Proof.
  unfold Driver_model.save_due, cfg_ok, dueb. destruct (_ =? 0); auto. destruct (_ =? 0); auto.
Qed.
Lemma dueb_conv i l : dueb i l true = true.
Proof. unfold dueb. destruct (_ =? 0), (i =? 1), (i =? l - 1); reflexivity. Qed.

(* the loop without the disk: does not depend on the chunk limit *)
Fixpoint core (its : list Z) (last : Z) (s : S) : S * list (Z * S) * Z * loop_end :=
  match its with
  | [] => (s, [], last, Finished false)
  | i :: its' =>
    match body i s with
    | (s', Some e) => (s', [], i, Raised e)
    | (s', None) =>
      match conv_at s' with
      | Err e => (s', [(i, s')], i, Raised e)
      | Ok conv =>
        match cfg_ok with
        | Err e => (s', [(i, s')], i, Raised e)
        | Ok _ =>
          if conv then (s', [(i, s')], i, Finished true)
          else let '(s2, tr, l, e) := core its' i s' in (s2, (i, s') :: tr, l, e)
        end
      end
    end
  end.

Definition convb (s : S) : bool := match conv_at s with Ok c => c | Err _ => false end.
Definition okb (s : S) : bool :=
  match conv_at s, cfg_ok with Ok _, Ok _ => true | _, _ => false end.
Definition written (limit : Z) (tr : list (Z * S)) : list (Z * S) :=
  filter (fun e => okb (snd e) && dueb (fst e) limit (convb (snd e))) tr.

Lemma loop_core its limit : forall last s disk trace s' tr l e,
  core its last s = (s', tr, l, e) ->
  loop its limit last s disk trace = (s', disk ++ written limit tr, trace ++ tr, l, e).
Proof.
  induction its as [|i its IH]; intros lst s disk trace s' tr l e H; simpl in *.
  - injection H as <- <- <- <-. simpl. now rewrite !app_nil_r.
  - destruct (body i s) as [s1 [e1|]] eqn:Eb.
    { injection H as <- <- <- <-. simpl. now rewrite !app_nil_r. }
    destruct (conv_at s1) as [conv|ec] eqn:Ec.
    2:{ injection H as <- <- <- <-. unfold written, okb. simpl. rewrite Ec. simpl. now rewrite app_nil_r. }
    rewrite save_due_eq.
    destruct cfg_ok as [[]|eo] eqn:Eo.
    2:{ injection H as <- <- <- <-. unfold written, okb. simpl. rewrite Ec, Eo. simpl. now rewrite app_nil_r. }
    destruct conv.
    + injection H as <- <- <- <-. rewrite dueb_conv. simpl.
      unfold written, okb, convb. simpl. rewrite Ec, Eo, dueb_conv. reflexivity.
    + rewrite andb_false_r.
      destruct (core its i s1) as [[[s2 tr2] l2] e2] eqn:E2. injection H as <- <- <- <-.
      rewrite (IH _ _ _ _ _ _ _ _ E2).
      unfold written. simpl. unfold okb at 2. unfold convb at 2. rewrite Ec, Eo. simpl.
      destruct (dueb i limit false); simpl; rewrite <- !app_assoc; reflexivity.
Qed.

Lemma core_last_irrel its a b s : its <> [] -> core its a s = core its b s.
Proof. destruct its; [easy|reflexivity]. Qed.

Lemma core_app l1 l2 : forall lst s,
  core (l1 ++ l2) lst s =
  match core l1 lst s with
  | (s1, tr1, lst1, Finished false) =>
    let '(s2, tr2, lst2, e) := core l2 lst1 s1 in (s2, tr1 ++ tr2, lst2, e)
  | r => r
  end.
Proof.
  induction l1 as [|i l1 IH]; intros lst s; simpl.
  - destruct (core l2 lst s) as [[[? ?] ?] ?]. reflexivity.
  - destruct (body i s) as [s1 [e1|]]; [reflexivity|].
    destruct (conv_at s1) as [conv|ec]; [|reflexivity].
    destruct cfg_ok as [[]|eo]; [|reflexivity].
    destruct conv; [reflexivity|].
    rewrite IH. destruct (core l1 i s1) as [[[s2 tr2] l2'] [[|]|e2]]; try reflexivity.
    destruct (core l2 l2' s2) as [[[? ?] ?] ?]. reflexivity.
Qed.


Lemma core_chain n : forall a lst s s' tr l e,
  core (zrange a (a + Z.of_nat n)) lst s = (s', tr, l, e) ->
  chain body s a tr /\ (List.length tr <= n)%nat /\
  match e with
  | Raised _ => True
  | Finished false =>
      s' = final_state s tr /\ List.length tr = n /\ Forall (fun x => convb (snd x) = false) tr /\
      l = (if (n =? 0)%nat then lst else a + Z.of_nat n - 1)
  | Finished true =>
      s' = final_state s tr /\ cfg_ok = Ok tt /\ l = a + Z.of_nat (List.length tr) - 1 /\
      exists pre, tr = pre ++ [(l, s')] /\ convb s' = true /\ Forall (fun x => convb (snd x) = false) pre
  end.
Proof.
  induction n as [|n IH]; intros a lst s s' tr l e H.
  - rewrite zrange_nil in H by lia. simpl in H. injection H as <- <- <- <-.
    simpl. intuition.
  - rewrite zrange_cons in H by lia.
    replace (a + Z.of_nat (Datatypes.S n)) with (a + 1 + Z.of_nat n) in H by lia.
    simpl in H. destruct (body a s) as [s1 [e1|]] eqn:Eb.
    { injection H as <- <- <- <-. simpl. intuition lia. }
    destruct (conv_at s1) as [conv|ec] eqn:Ec.
    2:{ injection H as <- <- <- <-. simpl. intuition lia. }
    destruct cfg_ok as [[]|eo] eqn:Eo.
    2:{ injection H as <- <- <- <-. simpl. intuition lia. }
    destruct conv.
    + injection H as <- <- <- <-. simpl.
      split; [easy|]. split; [lia|]. split; [easy|]. split; [easy|]. split; [lia|].
      exists []. split; [easy|]. split; [unfold convb; now rewrite Ec|constructor].
    + destruct (core (zrange (a + 1) (a + 1 + Z.of_nat n)) a s1) as [[[s2 tr2] l2] e2] eqn:E2.
      injection H as <- <- <- <-. apply IH in E2. destruct E2 as (Hc & Hl & He).
      split; [simpl; auto|]. split; [simpl; lia|].
      rewrite final_state_cons.
      assert (Hf : convb s1 = false) by (unfold convb; now rewrite Ec).
      destruct e2 as [[|]|]; [| |easy].
      * destruct He as (-> & _ & Hl2 & pre & Htr & Hcv & Hpre). split; [easy|]. split; [easy|].
        split; [simpl List.length; lia|]. exists ((a, s1) :: pre). split.
        -- rewrite Htr at 1. reflexivity.
        -- split; [easy|]. constructor; auto.
      * destruct He as (-> & Hn & Hfa & ->). split; [easy|]. split; [simpl; lia|].
        split; [constructor; auto|]. simpl. destruct n; simpl; lia.
Qed.


(* ---------- any sequence of calls, none of which raises ---------- *)
Section Calls.
Variables (s0 : S) (b : Z) (disk0 : list (Z * S)).
Hypothesis Hinit : initialize = Ok (s0, b).
Let E := max_iters cfg + 1.

Lemma core_range a c lst s s' tr l e : a <= c ->
  core (zrange a c) lst s = (s', tr, l, e) ->
  chain body s a tr /\ Z.of_nat (List.length tr) <= c - a /\
  match e with
  | Raised _ => True
  | Finished false =>
      s' = final_state s tr /\ Z.of_nat (List.length tr) = c - a /\ Forall (fun x => convb (snd x) = false) tr /\
      l = (if c =? a then lst else c - 1)
  | Finished true =>
      s' = final_state s tr /\ cfg_ok = Ok tt /\ l = a + Z.of_nat (List.length tr) - 1 /\
      exists pre, tr = pre ++ [(l, s')] /\ convb s' = true /\ Forall (fun x => convb (snd x) = false) pre
  end.
Proof.
  intros Hac H. replace c with (a + Z.of_nat (Z.to_nat (c - a))) in H by lia.
  apply core_chain in H. destruct H as (H1 & H2 & H3). split; [easy|]. split; [lia|].
  destruct e as [[|]|]; auto.
  destruct H3 as (? & ? & ? & ->). repeat split; auto; [lia|].
  destruct (Z.to_nat (c - a) =? 0)%nat eqn:E1, (c =? a) eqn:E2; auto; try lia.
  - apply Nat.eqb_eq in E1. apply Z.eqb_neq in E2. lia.
  - apply Nat.eqb_neq in E1. apply Z.eqb_eq in E2. lia.
Qed.

Definition Running (o : opt) : Prop :=
  exists s tr D, o = mkOpt (Some s) (o_next o) E false (disk0 ++ D) tr /\
    b <= o_next o /\ (o_next o < E) /\
    core (zrange b (o_next o)) (b - 1) s0 = (s, tr, o_next o - 1, Finished false) /\
    sublist (written E tr) D /\ sublist D tr.
Definition Done (o : opt) : Prop :=
  exists s tr D c, o = mkOpt (Some s) (o_next o) E true (disk0 ++ D) tr /\
    b <= o_next o /\
    core (zrange b E) (b - 1) s0 = (s, tr, o_next o - 1, Finished c) /\
    sublist (written E tr) D /\ sublist D tr.
Definition Inv (o : opt) : Prop := o = opt_new disk0 \/ Running o \/ Done o.

(* what one loop call does from a running (or just initialised) state *)
Lemma run_from o s tr D limit :
  o = mkOpt (Some s) (o_next o) E false (disk0 ++ D) tr ->
  b <= o_next o -> o_next o < limit -> limit <= E ->
  core (zrange b (o_next o)) (b - 1) s0 = (s, tr, o_next o - 1, Finished false) ->
  sublist (written E tr) D -> sublist D tr ->
  forall s' disk' tr' l e,
  loop (zrange (o_next o) limit) limit (o_next o) s (o_disk o) (o_trace o) = (s', disk', tr', l, e) ->
  exists trn,
    tr' = tr ++ trn /\ disk' = o_disk o ++ written limit trn /\
    core (zrange (o_next o) limit) (o_next o - 1) s = (s', trn, l, e) /\
    core (zrange b limit) (b - 1) s0 = (s', tr', l, e) /\
    sublist (written E tr') (D ++ written limit trn) /\ sublist (D ++ written limit trn) tr'.
Proof.
  intros Ho Hb Hl HE Hc HW HD s' disk' tr' l e Hloop.
  destruct (core (zrange (o_next o) limit) (o_next o - 1) s) as [[[s2 trn] l2] e2] eqn:Ecore.
  assert (Hne : zrange (o_next o) limit <> []) by (rewrite zrange_cons by lia; easy).
  rewrite (core_last_irrel _ _ (o_next o) _ Hne) in Ecore.
  rewrite (loop_core _ _ _ _ _ _ _ _ _ _ Ecore) in Hloop.
  rewrite (core_last_irrel _ _ (o_next o - 1) _ Hne) in Ecore.
  injection Hloop as <- <- <- <- <-.
  assert (Htr : o_trace o = tr) by (rewrite Ho; reflexivity).
  rewrite Htr. exists trn. split; [easy|]. split; [easy|]. split; [easy|].
  split.
  { rewrite (zrange_app b (o_next o) limit) by lia. rewrite core_app, Hc, Ecore. reflexivity. }
  assert (Hch : chain body s (o_next o) trn /\ Z.of_nat (List.length trn) <= limit - o_next o).
  { apply core_range in Ecore; [|lia]. tauto. }
  destruct Hch as (Hch & Hlen).
  split.
  - unfold written at 1. rewrite filter_app. apply sublist_app; [exact HW|].
    apply sublist_filter. intros x Hx Hd. apply andb_true_iff in Hd. destruct Hd as (Hok & Hd).
    rewrite Hok. simpl. pose proof (chain_in _ _ _ _ _ Hch Hx) as Hr.
    unfold dueb in *. apply orb_true_iff in Hd. destruct Hd as [->|Hd]; [reflexivity|].
    apply Z.eqb_eq in Hd. assert (fst x = limit - 1) by lia.
    apply orb_true_iff. right. now apply Z.eqb_eq.
  - apply sublist_app; [exact HD|]. unfold written.
    clear. induction trn as [|x l IH]; simpl; [constructor|].
    destruct (_ && _)%bool; constructor; auto.
Qed.

Lemma ensure_new : ensure_initialized initialize cfg (opt_new disk0) =
  Ok (Some (mkOpt (Some s0) b E false disk0 [], s0)).
Proof. unfold ensure_initialized. simpl. rewrite Hinit. reflexivity. Qed.

(* one call *)
Lemma impl_inv ms o : Inv o -> (match ms with Some n => 0 < n | None => True end) ->
  forall o' r, optimize_impl ms o = (o', r) ->
  (r = None -> (o' = o /\ Done o) \/
     ((Running o' \/ Done o') /\ (ms = None -> Done o') /\
      exists tr, o_trace o' = o_trace o ++ tr /\
        match ms with Some n => Z.of_nat (List.length tr) <= n | None => True end /\
        o_disk o' = o_disk o ++ written (match ms with
           | Some n => Z.min ((match o_state o with Some _ => o_next o | None => b end) + n) E | None => E end) tr)) /\
  (forall e, r = Some e -> exists s1 tr1 l1, core (zrange b E) (b - 1) s0 = (s1, tr1, l1, Raised e) /\
     o_trace o' = tr1 /\ o_state o' = Some s1).
Proof.
  intros HI Hms o' r Hrun.
  (* bring the state to "running or just initialised" *)
  assert (Hcase : (Done o) \/ exists o1 s tr D,
     ensure_initialized initialize cfg o = Ok (Some (o1, s)) /\
     o1 = mkOpt (Some s) (o_next o1) E false (disk0 ++ D) tr /\
     b <= o_next o1 /\
     core (zrange b (o_next o1)) (b - 1) s0 = (s, tr, o_next o1 - 1, Finished false) /\
     sublist (written E tr) D /\ sublist D tr /\
     (o_next o1 < E \/ o_next o1 = b) /\ o_trace o1 = o_trace o /\ o_disk o1 = o_disk o /\
     o_next o1 = match o_state o with Some _ => o_next o | None => b end).
  { destruct HI as [->|[HR|HD]]; [|right|now left].
    - right. exists (mkOpt (Some s0) b E false disk0 []), s0, [], [].
      rewrite ensure_new. simpl. rewrite app_nil_r, zrange_nil by lia. simpl.
      repeat split; auto; try lia; try constructor; auto.
    - destruct HR as (s & tr & D & Ho & Hb & Hn & Hc & HW & HD).
      exists o, s, tr, D. split; [unfold ensure_initialized; rewrite Ho; reflexivity|].
      repeat split; auto. rewrite Ho. reflexivity. }
  destruct Hcase as [HD | (o1 & s & tr & D & Hens & Ho1 & Hb & Hc & HW & HDt & Hlt & Ht & Hd & Hnx)].
  { assert (o' = o /\ r = None) as (-> & ->).
    { destruct HD as (s & tr & D & c & Ho & _). unfold Driver_model.optimize_impl, ensure_initialized in Hrun.
      rewrite Ho in Hrun |- *. simpl in Hrun. now injection Hrun as <- <-. }
    split; [tauto|discriminate]. }
  unfold Driver_model.optimize_impl in Hrun. rewrite Hens in Hrun.
  assert (HE : o_end o1 = E) by (rewrite Ho1; reflexivity). rewrite HE in Hrun.
  assert (Htr1 : o_trace o1 = tr) by (rewrite Ho1; reflexivity).
  assert (Hdk1 : o_disk o1 = disk0 ++ D) by (rewrite Ho1; reflexivity).
  destruct (Z.leb_spec E (o_next o1)) as [Hge|Hlt'].
  { injection Hrun as <- <-. split; [intros _; right|discriminate].
    assert (Hbe : o_next o1 = b) by lia.
    assert (HDone : Done (finalize o1)).
    { rewrite Hbe in Hc. rewrite Ho1. unfold finalize. simpl. exists s, tr, D, false. simpl.
      split; [easy|]. split; [lia|]. split; [|easy].
      rewrite zrange_nil by lia. rewrite zrange_nil in Hc by lia. rewrite Hbe. exact Hc. }
    split; [now right|]. split; [easy|]. exists []. rewrite app_nil_r.
    unfold finalize. rewrite Ho1. simpl. rewrite app_nil_r, <- Ht, <- Hd, Htr1, Hdk1.
    split; [easy|]. split; [destruct ms; [lia|easy]|easy]. }
  set (limit := match ms with Some n => Z.min (o_next o1 + n) E | None => E end) in *.
  assert (Hlim : o_next o1 < limit <= E) by (unfold limit; destruct ms; lia).
  destruct (Driver_model.loop _ _ _ _ _ _ _ _ _ _) as [[[[s' disk'] tr'] l] e] eqn:Eloop.
  destruct (run_from o1 s tr D limit Ho1 Hb (proj1 Hlim) (proj2 Hlim) Hc HW HDt _ _ _ _ _ Eloop)
    as (trn & Htr' & Hdisk' & Hcn & Hcall & HW' & HD').
  assert (Hrest : core (zrange b E) (b - 1) s0 =
     match e with
     | Finished false => let '(s2, tr2, lst2, e2) := core (zrange limit E) l s' in (s2, tr' ++ tr2, lst2, e2)
     | _ => (s', tr', l, e) end).
  { rewrite (zrange_app b limit E) by lia. rewrite core_app, Hcall. destruct e as [[|]|]; reflexivity. }
  pose proof (core_range _ _ _ _ _ _ _ _ (Z.lt_le_incl _ _ (proj1 Hlim)) Hcn) as (Hch & Hlen & Hfin).
  rewrite Hdk1 in Hdisk'. rewrite <- app_assoc in Hdisk'.
  destruct e as [conv|ex].
  2:{ injection Hrun as <- <-. split; [discriminate|]. intros e [= <-]. simpl. eauto 10. }
  simpl in Hrun. injection Hrun as <- <-. split; [intros _; right|discriminate].
  match goal with |- (Running ?x \/ Done ?x) /\ _ => set (res := x) end.
  assert (Hres : o_trace res = tr' /\ o_disk res = disk').
  { unfold res. destruct (conv || _)%bool; split; reflexivity. }
  assert (Hl0 : b <= l + 1).
  { destruct conv.
    - destruct Hfin as (_ & _ & -> & _). lia.
    - destruct Hfin as (_ & _ & _ & ->). destruct (Z.eqb_spec limit (o_next o1)); lia. }
  assert (HRD : (l + 1 < E /\ conv = false /\ Running res) \/ ((conv = true \/ E <= l + 1) /\ Done res)).
  { unfold res. destruct conv.
    - right. split; [now left|]. simpl. unfold finalize. simpl.
      exists s', tr', (D ++ written limit trn), true. simpl. rewrite Hdisk'.
      split; [easy|]. split; [lia|]. split; [|easy].
      rewrite Hrest. repeat f_equal. lia.
    - destruct Hfin as (Hs' & Hlen' & Hfa & Hll). simpl.
      assert (Hll' : l = limit - 1) by (destruct (Z.eqb_spec limit (o_next o1)); lia).
      destruct (Z.leb_spec E (l + 1)).
      + right. split; [now right|]. unfold finalize. simpl.
        exists s', tr', (D ++ written limit trn), false. simpl. rewrite Hdisk'.
        split; [easy|]. split; [lia|]. split; [|easy].
        rewrite Hrest, zrange_nil by lia. simpl. rewrite app_nil_r. repeat f_equal. lia.
      + left. split; [lia|]. split; [easy|]. exists s', tr', (D ++ written limit trn). simpl. rewrite Hdisk'.
        split; [easy|]. split; [lia|]. split; [lia|]. split; [|easy].
        replace (l + 1) with limit by lia. rewrite Hcall. repeat f_equal. lia. }
  split; [destruct HRD as [(_ & _ & ?)|(_ & ?)]; auto|].
  split.
  - intros ->. destruct HRD as [(Hlt2 & -> & _)|(_ & ?)]; auto.
    exfalso. destruct Hfin as (_ & _ & _ & Hll). unfold limit in *.
    destruct (Z.eqb_spec E (o_next o1)); lia.
  - exists trn. destruct Hres as (-> & ->). rewrite Htr', <- Htr1, Ht. split; [easy|].
    split.
    + destruct ms; auto. unfold limit in Hlen. lia.
    + rewrite Hdisk', <- Hd, Hdk1, <- Hnx. fold limit. now rewrite app_assoc.
Qed.
End Calls.
End P.
