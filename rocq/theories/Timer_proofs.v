From Verif Require Import Base History_model History_proofs Timer_model Timer_spec.
From Coq Require Import Ascii Permutation Sorted.
Open Scope R_scope.
Open Scope string_scope.
Open Scope list_scope.

(* ---------- the stack and the records ---------- *)
Definition key_of (hier : bool) (sep : string) (stack path : list string) : string :=
  if hier then join sep (stack ++ path) else last path "".
Definition rec_event (hier : bool) (sep : string) (clk : nat -> R) (stack : list string)
  (r : list (string * list R)) (e : event) : list (string * list R) :=
  match e with
  | Visit p a b => rec_append r (key_of hier sep stack p) (clk b - clk a)
  | Added k d => rec_append r k d
  | Cleared None => []
  | Cleared (Some k) => dpop r k
  end.

Lemma full_name_key hier sep stack name : full_name hier sep stack name = key_of hier sep stack [name].
Proof.
  unfold full_name, key_of. destruct hier; [|reflexivity]. destruct stack as [|x s]; reflexivity.
Qed.
Lemma key_under hier sep stack name p : p <> [] ->
  key_of hier sep (stack ++ [name]) p = key_of hier sep stack (name :: p).
Proof.
  intros Hp. unfold key_of. destruct hier.
  - now rewrite <- app_assoc.
  - destruct p; [easy|reflexivity].
Qed.
Definition visit_ne (e : event) : Prop := match e with Visit p _ _ => p <> [] | _ => True end.
Lemma trace_ne p : forall n, Forall visit_ne (events p n).
Proof.
  unfold events. induction p as [|e|p IHp q IHq|p IHp|name p IHp|k d|o]; intros n; simpl; auto.
  - specialize (IHp n). destruct (trace p n) as [[e1 n1] o]; simpl in *. destruct o; auto.
    specialize (IHq n1). destruct (trace q n1) as [[e2 n2] o2]; simpl in *. apply Forall_app; auto.
  - specialize (IHp n). destruct (trace p n) as [[e1 n1] o]; auto.
  - specialize (IHp (S n)). destruct (trace p (S n)) as [[e1 n1] o]; simpl in *. apply Forall_app. split.
    + apply Forall_map. eapply Forall_impl; [|exact IHp]. intros [pa a b|k d|k] H; simpl; easy.
    + repeat constructor. simpl. easy.
  - repeat constructor.
  - repeat constructor.
Qed.

Lemma removelast_snoc {A} (l : list A) x : removelast (l ++ [x]) = l.
Proof. rewrite removelast_app by easy. now rewrite app_nil_r. Qed.

Lemma run_trace hier sep clk p : forall t,
  let '(t', o) := run hier sep clk p t in
  let '(evs, n', o') := trace p (t_tick t) in
  t_rec t' = fold_left (rec_event hier sep clk (t_stack t)) evs (t_rec t) /\
  t_stack t' = t_stack t /\ t_tick t' = n' /\ o = o'.
Proof.
  induction p as [|e|p IHp q IHq|p IHp|name p IHp|k d|o]; intros t; simpl; auto.
  - specialize (IHp t). destruct (run hier sep clk p t) as [t1 o].
    destruct (trace p (t_tick t)) as [[e1 n1] o1]. destruct IHp as (Hr & Hs & Ht & <-).
    destruct o as [x|]; [easy|]. specialize (IHq t1). rewrite Ht in IHq.
    destruct (run hier sep clk q t1) as [t2 o2]. destruct (trace q n1) as [[e2 n2] o3].
    destruct IHq as (Hr2 & Hs2 & Ht2 & <-). rewrite fold_left_app, <- Hr, Hr2, Hs2, Hs. auto.
  - specialize (IHp t). destruct (run hier sep clk p t) as [t1 o].
    destruct (trace p (t_tick t)) as [[e1 n1] o1]. destruct IHp as (Hr & Hs & Ht & _). auto.
  - match goal with |- context [run hier sep clk p ?u] => specialize (IHp u); destruct (run hier sep clk p u) as [t1 o] end.
    simpl in IHp. pose proof (trace_ne p (S (t_tick t))) as Hne. unfold events in Hne.
    destruct (trace p (S (t_tick t))) as [[e1 n1] o1]. simpl in Hne. destruct IHp as (Hr & Hs & Ht & <-).
    cbn [t_rec t_stack t_tick]. rewrite Hs, removelast_snoc, Ht, full_name_key. split; [|auto].
    rewrite fold_left_app. cbn [fold_left rec_event]. rewrite Hr. f_equal.
    generalize (t_rec t). clear - Hne. induction Hne as [|e l He HF IH]; intros r; simpl; [reflexivity|].
    rewrite IH. f_equal. destruct e as [pa a b|k d|o]; simpl; [|reflexivity|reflexivity]. simpl in He.
    now rewrite key_under.
  - destruct o; auto.
Qed.

(* values stored under a name *)
Definition rget (r : list (string * list R)) (k : string) : list R :=
  match hget r k with Some l => l | None => [] end.
Lemma rget_append r k d k' : rget (rec_append r k d) k' = rget r k' ++ (if String.eqb k' k then [d] else []).
Proof.
  unfold rget, rec_append. destruct (hget r k) as [vs|] eqn:E.
  - rewrite hget_hset. destruct (String.eqb_spec k' k) as [->|]; [now rewrite E|now rewrite app_nil_r].
  - rewrite hget_app. destruct (String.eqb_spec k' k) as [->|Hn].
    + rewrite E. simpl. now rewrite String.eqb_refl.
    + simpl. apply String.eqb_neq in Hn. rewrite Hn. destruct (hget r k'); now rewrite app_nil_r.
Qed.

Lemma trace_sections p : sections_only p -> forall n, Forall (fun e => exists q a b, e = Visit q a b) (events p n).
Proof.
  unfold events. induction p as [|e|p IHp q IHq|p IHp|name p IHp|k d|o]; simpl; intros Hp n; try easy; auto.
  - destruct Hp as (Hp & Hq). specialize (IHp Hp n). destruct (trace p n) as [[e1 n1] o]; simpl in *. destruct o; auto.
    specialize (IHq Hq n1). destruct (trace q n1) as [[e2 n2] o2]; simpl in *. apply Forall_app; auto.
  - specialize (IHp Hp n). destruct (trace p n) as [[e1 n1] o]; auto.
  - specialize (IHp Hp (S n)). destruct (trace p (S n)) as [[e1 n1] o]; simpl in *. apply Forall_app. split.
    + apply Forall_map. eapply Forall_impl; [|exact IHp]. intros ? (pa & a & b & ->). simpl. eauto.
    + repeat constructor. eauto.
Qed.
Lemma entered_trace p : sections_only p -> forall n,
  List.length (events p n) = fst (entered p) /\ (outcome p n <> None <-> snd (entered p) = true).
Proof.
  unfold events, outcome. induction p as [|e|p IHp q IHq|p IHp|name p IHp|k d|o]; simpl; intros Hp n; try easy.
  - destruct Hp as (Hp & Hq). specialize (IHp Hp n). destruct (trace p n) as [[e1 n1] o]; simpl in *.
    destruct (entered p) as [a x]; simpl in *. destruct IHp as (HL & HO). destruct o as [ex|].
    + assert (x = true) as -> by (apply HO; easy). simpl. split; [exact HL|easy].
    + assert (x = false) as -> by (destruct x; [exfalso; now apply HO|reflexivity]).
      specialize (IHq Hq n1). destruct (trace q n1) as [[e2 n2] o2]; destruct (entered q) as [b y]; simpl in *.
      rewrite app_length, HL. destruct IHq as (-> & HO2). auto.
  - specialize (IHp Hp n). destruct (trace p n) as [[e1 n1] o]; simpl in *. easy.
  - specialize (IHp Hp (S n)). destruct (trace p (S n)) as [[e1 n1] o]; destruct (entered p) as [a x]; simpl in *.
    rewrite app_length, map_length. simpl. destruct IHp as (-> & HO). split; [lia|exact HO].
Qed.

Lemma rget_fold hier sep clk stack evs : forall r k,
  Forall (fun e => exists q a b, e = Visit q a b) evs ->
  rget (fold_left (rec_event hier sep clk stack) evs r) k =
  rget r k ++ durs clk (fun p => String.eqb k (key_of hier sep stack p)) evs.
Proof.
  induction evs as [|e evs IH]; intros r k HF; simpl; [now rewrite app_nil_r|].
  inversion HF as [|? ? He HF']; subst. destruct He as (q & a & b & ->). cbn [rec_event].
  rewrite IH by exact HF'. rewrite rget_append, <- app_assoc. reflexivity.
Qed.

(* ---------- names ---------- *)
Lemma split_ne c s : split c s <> [].
Proof. destruct s; simpl; [easy|]. destruct (Ascii.eqb a c); [easy|]. destruct (split c s); easy. Qed.
Lemma split_free c x : has_char c x = false -> split c x = [x].
Proof.
  induction x as [|a x IH]; simpl; [reflexivity|]. intros H. apply orb_false_iff in H. destruct H as [Ha Hx].
  now rewrite Ha, (IH Hx).
Qed.
Lemma split_app c x s : has_char c x = false -> split c (x ++ String c s) = x :: split c s.
Proof.
  induction x as [|a x IH]; simpl.
  - intros _. now rewrite Ascii.eqb_refl.
  - intros H. apply orb_false_iff in H. destruct H as [Ha Hx]. rewrite Ha, (IH Hx). reflexivity.
Qed.
Lemma join_cons sep x y r : join sep (x :: y :: r) = (x ++ sep ++ join sep (y :: r))%string.
Proof. reflexivity. Qed.
Definition sep_of (c : ascii) : string := String c "".
Lemma split_join c l : l <> [] -> Forall (fun x => has_char c x = false) l -> split c (join (sep_of c) l) = l.
Proof.
  intros Hne HF. induction HF as [|x l Hx HF IH]; [easy|]. destruct l as [|y r].
  - now apply split_free.
  - rewrite join_cons. unfold sep_of at 1. cbn [append]. rewrite split_app by exact Hx. f_equal. now apply IH.
Qed.
Lemma has_char_app c x y : has_char c (x ++ y)%string = (has_char c x || has_char c y)%bool.
Proof. induction x; simpl; [reflexivity|]. now rewrite IHx, orb_assoc. Qed.
Lemma has_char_join c l : Forall (fun x => has_char c x = false) l ->
  has_char c (join (sep_of c) l) = Nat.ltb 1 (List.length l).
Proof.
  intros HF. destruct HF as [|x l Hx HF]; [reflexivity|]. destruct l as [|y r]; [exact Hx|].
  rewrite join_cons, has_char_app. unfold sep_of at 1. cbn [append has_char]. rewrite Ascii.eqb_refl, Hx. reflexivity.
Qed.
Lemma join_inj c l m : l <> [] -> m <> [] -> Forall (fun x => has_char c x = false) l ->
  Forall (fun x => has_char c x = false) m -> join (sep_of c) l = join (sep_of c) m -> l = m.
Proof.
  intros Hl Hm HFl HFm H. rewrite <- (split_join c l), <- (split_join c m) by auto. now rewrite H.
Qed.
Lemma parent_join c l : l <> [] -> Forall (fun x => has_char c x = false) l ->
  parent c (join (sep_of c) l) = if Nat.ltb 1 (List.length l) then Some (join (sep_of c) (removelast l)) else None.
Proof. intros Hl HF. unfold parent. rewrite has_char_join by exact HF. rewrite split_join by auto. reflexivity. Qed.

Lemma trace_free c p : names_free c p -> forall n,
  Forall (fun e => match e with Visit q _ _ => Forall (fun x => has_char c x = false) q | _ => True end) (events p n).
Proof.
  unfold events. induction p as [|e|p IHp q IHq|p IHp|name p IHp|k d|o]; simpl; intros Hp n; try easy; auto.
  - destruct Hp as (Hp & Hq). specialize (IHp Hp n). destruct (trace p n) as [[e1 n1] o]; simpl in *. destruct o; auto.
    specialize (IHq Hq n1). destruct (trace q n1) as [[e2 n2] o2]; simpl in *. apply Forall_app; auto.
  - specialize (IHp Hp n). destruct (trace p n) as [[e1 n1] o]; auto.
  - destruct Hp as (Hn & Hp). specialize (IHp Hp (S n)). destruct (trace p (S n)) as [[e1 n1] o]; simpl in *. apply Forall_app. split.
    + apply Forall_map. eapply Forall_impl; [|exact IHp]. intros [pa a b|k d|k]; simpl; auto.
    + repeat constructor. exact Hn.
Qed.

(* ---------- durations ---------- *)
Lemma durs_app clk f e1 e2 : durs clk f (e1 ++ e2) = durs clk f e1 ++ durs clk f e2.
Proof. apply flat_map_app. Qed.
Lemma durs_under clk f name e : durs clk f (map (under name) e) = durs clk (fun p => f (name :: p)) e.
Proof. induction e as [|[p a b|k d|o] e IH]; simpl; auto. now rewrite IH. Qed.
Lemma durs_ext clk f g e : (forall p a b, In (Visit p a b) e -> f p = g p) -> durs clk f e = durs clk g e.
Proof.
  induction e as [|[p a b|k d|o] e IH]; simpl; intros H; auto.
  - rewrite (H p a b) by auto. f_equal. apply IH. intros; eapply H; eauto.
  - apply IH. intros; eapply H; eauto.
  - apply IH. intros; eapply H; eauto.
Qed.
Lemma durs_false clk e : durs clk (fun _ => false) e = [].
Proof. induction e as [|[p a b|k d|o] e IH]; simpl; auto. Qed.

Section Mono.
Variable clk : nat -> R.
Hypothesis Hclk : forall n, clk n <= clk (S n).
Lemma clk_le n m : (n <= m)%nat -> clk n <= clk m.
Proof. induction 1; [lra|]. pose proof (Hclk m). lra. Qed.

Lemma trace_next p : forall n, (n <= snd (fst (trace p n)))%nat.
Proof.
  induction p as [|e|p IHp q IHq|p IHp|name p IHp|k d|o]; intros n; simpl; auto.
  - specialize (IHp n). destruct (trace p n) as [[e1 n1] o]; simpl in *. destruct o; auto.
    specialize (IHq n1). destruct (trace q n1) as [[e2 n2] o2]; simpl in *. lia.
  - specialize (IHp n). destruct (trace p n) as [[e1 n1] o]; auto.
  - specialize (IHp (S n)). destruct (trace p (S n)) as [[e1 n1] o]; simpl in *. lia.
Qed.

Lemma top_bound p : forall n, rsum (durs clk top_level (events p n)) <= clk (snd (fst (trace p n))) - clk n.
Proof.
  unfold events. induction p as [|e|p IHp q IHq|p IHp|name p IHp|k d|o]; intros n; simpl; try lra.
  - specialize (IHp n). destruct (trace p n) as [[e1 n1] o]; simpl in *. destruct o; auto.
    specialize (IHq n1). destruct (trace q n1) as [[e2 n2] o2]; simpl in *. rewrite durs_app, rsum_app. lra.
  - specialize (IHp n). destruct (trace p n) as [[e1 n1] o]; auto.
  - pose proof (trace_next p (S n)) as Hn. pose proof (trace_ne p (S n)) as Hne. unfold events in Hne.
    destruct (trace p (S n)) as [[e1 n1] o]; simpl in *.
    rewrite durs_app, durs_under, rsum_app. simpl.
    rewrite (durs_ext clk _ (fun _ => false)).
    + rewrite durs_false. simpl. pose proof (Hclk n1). lra.
    + intros q a b Hin. rewrite Forall_forall in Hne. apply Hne in Hin. simpl in Hin.
      unfold top_level. destruct q; [easy|reflexivity].
Qed.

(* time in the direct children of a path never exceeds the time in the path *)
Arguments list_eq_dec : simpl never.
Definition child_of (pi q : list string) : bool :=
  (Nat.ltb 1 (List.length q) && if list_eq_dec string_dec (removelast q) pi then true else false)%bool.
Definition is_path (pi q : list string) : bool := if list_eq_dec string_dec q pi then true else false.
Lemma children_bound p : forall n pi, pi <> [] ->
  rsum (durs clk (child_of pi) (events p n)) <= rsum (durs clk (is_path pi) (events p n)).
Proof.
  unfold events. induction p as [|e|p IHp q IHq|p IHp|name p IHp|k d|o]; intros n pi Hpi; simpl; try lra.
  - specialize (IHp n pi Hpi). destruct (trace p n) as [[e1 n1] o]; simpl in *. destruct o; auto.
    specialize (IHq n1 pi Hpi). destruct (trace q n1) as [[e2 n2] o2]; simpl in *. rewrite !durs_app, !rsum_app. lra.
  - specialize (IHp n pi Hpi). destruct (trace p n) as [[e1 n1] o]; auto.
  - pose proof (top_bound p (S n)) as Htop. pose proof (trace_next p (S n)) as Hn.
    pose proof (trace_ne p (S n)) as Hne. unfold events in *.
    assert (IH : forall pi', pi' <> [] ->
       rsum (durs clk (child_of pi') (fst (fst (trace p (S n))))) <= rsum (durs clk (is_path pi') (fst (fst (trace p (S n)))))) by (intros; now apply IHp).
    clear IHp. destruct (trace p (S n)) as [[e1 n1] o]; simpl in *. rewrite Forall_forall in Hne.
    rewrite !durs_app, !durs_under, !rsum_app. simpl.
    destruct pi as [|x pi']; [easy|]. destruct (string_dec x name) as [->|Hx].
    + destruct pi' as [|y pi''].
      * (* the children of [name] are the top-level sections of the body *)
        rewrite (durs_ext clk (fun q => child_of [name] (name :: q)) top_level).
        2:{ intros q a b Hin. apply Hne in Hin. simpl in Hin. unfold child_of, top_level.
            destruct q as [|z [|w q]]; [easy| |].
            - simpl. destruct (list_eq_dec string_dec [name] [name]); [reflexivity|congruence].
            - cbn [List.length removelast]. destruct (list_eq_dec _ _ _) as [E|_]; [|reflexivity].
              exfalso. injection E as E. destruct q; discriminate. }
        rewrite (durs_ext clk (fun q => is_path [name] (name :: q)) (fun _ => false)).
        2:{ intros q a b Hin. apply Hne in Hin. simpl in Hin. unfold is_path. destruct (list_eq_dec _ _ _) as [E|_]; [|reflexivity].
            injection E as ->. easy. }
        rewrite durs_false. unfold is_path. destruct (list_eq_dec string_dec [name] [name]); [|congruence].
        simpl. pose proof (Hclk n). lra.
      * rewrite (durs_ext clk (fun q => child_of (name :: y :: pi'') (name :: q)) (child_of (y :: pi''))).
        2:{ intros q a b Hin. apply Hne in Hin. simpl in Hin. unfold child_of.
            destruct q as [|z [|w q]]; [easy| |].
            - simpl. destruct (list_eq_dec string_dec [name] (name :: y :: pi'')) as [E|_]; [discriminate|reflexivity].
            - cbn [List.length]. change (removelast (name :: z :: w :: q)) with (name :: removelast (z :: w :: q)).
              cbn [Nat.ltb Nat.leb andb].
              destruct (list_eq_dec string_dec (name :: removelast (z :: w :: q)) (name :: y :: pi'')) as [E|E];
              destruct (list_eq_dec string_dec (removelast (z :: w :: q)) (y :: pi'')) as [E'|E']; try reflexivity.
              + exfalso. apply E'. exact (f_equal (@tl string) E).
              + rewrite E' in E. congruence. }
        rewrite (durs_ext clk (fun q => is_path (name :: y :: pi'') (name :: q)) (is_path (y :: pi''))).
        2:{ intros q a b _. unfold is_path.
            destruct (list_eq_dec string_dec (name :: q) (name :: y :: pi'')) as [E|E];
            destruct (list_eq_dec string_dec q (y :: pi'')) as [E'|E']; try reflexivity; congruence. }
        unfold is_path at 2. destruct (list_eq_dec string_dec [name] (name :: y :: pi'')); [discriminate|].
        simpl. specialize (IH (y :: pi'')). assert (y :: pi'' <> []) by easy. specialize (IH H). lra.
    + rewrite (durs_ext clk (fun q => child_of (x :: pi') (name :: q)) (fun _ => false)).
      2:{ intros q a b Hin. apply Hne in Hin. simpl in Hin. unfold child_of. destruct q as [|z q]; [easy|].
          change (removelast (name :: z :: q)) with (name :: removelast (z :: q)).
          destruct (list_eq_dec _ _ _) as [E|_]; [congruence|]. apply andb_false_r. }
      rewrite (durs_ext clk (fun q => is_path (x :: pi') (name :: q)) (fun _ => false)).
      2:{ intros q a b _. unfold is_path. destruct (list_eq_dec _ _ _) as [E|_]; [congruence|reflexivity]. }
      rewrite !durs_false. unfold is_path. destruct (list_eq_dec _ _ _) as [E|_]; [congruence|]. simpl. lra.
Qed.
End Mono.
