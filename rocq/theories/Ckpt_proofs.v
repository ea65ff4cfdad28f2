From Coq Require Import Ascii Permutation.
From Verif Require Import Base Ckpt_model.
Open Scope Z_scope.
Open Scope list_scope.

Definition dig_ok (d : Z) : Prop := 0 <= d < 10.
Definition horner (ds : list Z) (acc : Z) : Z := fold_left (fun a d => 10 * a + d) ds acc.

Lemma digits_fuel_spec f : forall n, 0 <= n < 2 ^ (Z.of_nat f + 1) ->
  Forall dig_ok (digits_fuel f n) /\ horner (digits_fuel f n) 0 = n /\ digits_fuel f n <> [].
Proof.
  induction f as [|f IH]; intros n Hn.
  - change (2 ^ (Z.of_nat 0 + 1)) with 2 in Hn. unfold horner. simpl.
    split; [constructor; [unfold dig_ok; lia|constructor]|]. split; [lia|easy].
  - cbn [digits_fuel]. destruct (Z.ltb_spec n 10).
    + unfold horner. simpl.
      split; [constructor; [unfold dig_ok; lia|constructor]|]. split; [lia|easy].
    + assert (Hq : 0 <= n / 10 < 2 ^ (Z.of_nat f + 1)).
      { split; [apply Z.div_pos; lia|]. apply Z.div_lt_upper_bound; [lia|].
        replace (Z.of_nat (S f) + 1) with (Z.succ (Z.of_nat f + 1)) in Hn by lia.
        rewrite Z.pow_succ_r in Hn by lia. lia. }
      destruct (IH _ Hq) as (H1 & H2 & H3). split; [|split].
      * apply Forall_app. split; auto. constructor; [|constructor]. unfold dig_ok. apply Z.mod_pos_bound. lia.
      * unfold horner in *. rewrite fold_left_app, H2. cbn [fold_left]. pose proof (Z.div_mod n 10). lia.
      * intros Hbad. apply app_eq_nil in Hbad. easy.
Qed.
Lemma log2_fuel n : 0 <= n -> 0 <= n < 2 ^ (Z.of_nat (Z.to_nat (Z.log2 n)) + 1).
Proof.
  intros H. pose proof (Z.log2_nonneg n). rewrite Z2Nat.id by lia. split; auto.
  destruct (Z.eq_dec n 0) as [->|]; [reflexivity|]. apply Z.log2_spec. lia.
Qed.
Lemma digits_spec n : 0 <= n -> Forall dig_ok (digits n) /\ horner (digits n) 0 = n /\ digits n <> [].
Proof. intros H. apply digits_fuel_spec. now apply log2_fuel. Qed.

(* the leading digit is non-zero unless n = 0, hence the length *)
Lemma digits_fuel_len f : forall n k, 0 <= n < 10 ^ (Z.of_nat k + 1) ->
  (List.length (digits_fuel f n) <= k + 1)%nat.
Proof.
  induction f as [|f IH]; intros n k Hn; [simpl; lia|].
  cbn [digits_fuel]. destruct (Z.ltb_spec n 10); [simpl; lia|].
  destruct k as [|k]; [simpl in Hn; lia|].
  rewrite app_length. simpl.
  assert (Hlen : (List.length (digits_fuel f (n / 10)) <= k + 1)%nat).
  { apply IH. split; [apply Z.div_pos; lia|]. apply Z.div_lt_upper_bound; [lia|].
    replace (Z.of_nat (S k) + 1) with (Z.succ (Z.of_nat k + 1)) in Hn by lia.
    rewrite Z.pow_succ_r in Hn by lia. lia. }
  lia.
Qed.
Lemma digits_fuel_len_low f : forall n k, n < 2 ^ (Z.of_nat f + 1) -> 10 ^ (Z.of_nat k) <= n ->
  (k < List.length (digits_fuel f n))%nat.
Proof.
  induction f as [|f IH]; intros n k Hf Hn.
  - change (2 ^ (Z.of_nat 0 + 1)) with 2 in Hf. destruct k; [simpl; lia|].
    assert (10 ^ 1 <= 10 ^ Z.of_nat (S k)) by (apply Z.pow_le_mono_r; lia). lia.
  - cbn [digits_fuel]. destruct (Z.ltb_spec n 10).
    + destruct k; [simpl; lia|].
      assert (10 ^ 1 <= 10 ^ Z.of_nat (S k)) by (apply Z.pow_le_mono_r; lia). lia.
    + rewrite app_length. simpl. destruct k as [|k]; [lia|].
      assert (k < List.length (digits_fuel f (n / 10)))%nat; [|lia].
      apply IH.
      * apply Z.div_lt_upper_bound; [lia|].
        replace (Z.of_nat (S f) + 1) with (Z.succ (Z.of_nat f + 1)) in Hf by lia.
        rewrite Z.pow_succ_r in Hf by lia. lia.
      * apply Z.div_le_lower_bound; [lia|].
        replace (Z.of_nat (S k)) with (Z.succ (Z.of_nat k)) in Hn by lia.
        rewrite Z.pow_succ_r in Hn by lia. lia.
Qed.

Lemma dig_cases d : dig_ok d -> d = 0 \/ d = 1 \/ d = 2 \/ d = 3 \/ d = 4 \/ d = 5 \/ d = 6 \/ d = 7 \/ d = 8 \/ d = 9.
Proof. unfold dig_ok. lia. Qed.
Lemma digit_char_ok d : dig_ok d -> is_digit (digit_char d) = true /\ digit_val (digit_char d) = d.
Proof.
  intros H. apply dig_cases in H.
  decompose [or] H; subst; split; reflexivity.
Qed.
Lemma digit_char_inj d e : dig_ok d -> dig_ok e -> digit_char d = digit_char e -> d = e.
Proof. intros Hd He H. rewrite <- (proj2 (digit_char_ok _ Hd)), H. now apply digit_char_ok. Qed.

Lemma py_str_digits n : 0 <= n -> forallb is_digit (py_str n) = true.
Proof.
  intros H. destruct (digits_spec n H) as (Hd & _). unfold py_str. induction Hd; cbn [map forallb]; auto.
  rewrite (proj1 (digit_char_ok _ H0)). exact IHHd.
Qed.
Lemma py_int_map ds acc : Forall dig_ok ds ->
  fold_left (fun a c => 10 * a + digit_val c) (map digit_char ds) acc = horner ds acc.
Proof.
  intros H. revert acc. induction H; intros acc; cbn [fold_left map]; auto.
  unfold horner. cbn [fold_left]. rewrite (proj2 (digit_char_ok _ H)). apply IHForall.
Qed.
Lemma py_int_zeros k s : py_int (repeat "0"%char k ++ s) = py_int s.
Proof. unfold py_int. induction k; simpl; auto. Qed.
Lemma py_int_str n : 0 <= n -> py_int (py_str n) = n.
Proof.
  intros H. destruct (digits_spec n H) as (Hd & Hh & _). unfold py_int, py_str.
  rewrite py_int_map; [exact Hh|exact Hd].
Qed.
Lemma py_int_zfill w n : 0 <= n -> py_int (zfill w (py_str n)) = n.
Proof. intros H. unfold zfill. rewrite py_int_zeros. now apply py_int_str. Qed.
Lemma zfill_digits w n : 0 <= n -> forallb is_digit (zfill w (py_str n)) = true.
Proof.
  intros H. unfold zfill. rewrite forallb_app, py_str_digits by auto. rewrite andb_true_r.
  induction (w - _)%nat; simpl; auto.
Qed.
Lemma zfill_len w s : List.length (zfill w s) = Nat.max w (List.length s).
Proof. unfold zfill. rewrite app_length, repeat_length. lia. Qed.
Lemma py_str_len n k : 0 <= n < 10 ^ (Z.of_nat k + 1) -> (List.length (py_str n) <= k + 1)%nat.
Proof. intros H. unfold py_str. rewrite map_length. now apply digits_fuel_len. Qed.
Lemma py_str_len_low n k : 0 <= n -> 10 ^ Z.of_nat k <= n -> (k < List.length (py_str n))%nat.
Proof.
  intros H0 H. unfold py_str. rewrite map_length. apply digits_fuel_len_low; auto.
  now apply log2_fuel.
Qed.

Lemma firstn_len_app {A} (a b : list A) : firstn (List.length a) (a ++ b) = a.
Proof. rewrite firstn_app, Nat.sub_diag. simpl. rewrite app_nil_r. apply firstn_all. Qed.
Lemma skipn_len_app {A} (a b : list A) : skipn (List.length a) (a ++ b) = b.
Proof. rewrite skipn_app, Nat.sub_diag. simpl. now rewrite skipn_all. Qed.

Lemma match_ckpt n : 0 <= n < 10 ^ 6 -> match_iter (ckpt_name n) = Some n.
Proof.
  intros H. unfold match_iter, ckpt_name.
  assert (Hl : List.length (zfill 6 (py_str n)) = 6%nat).
  { rewrite zfill_len. pose proof (py_str_len n 5 H). lia. }
  assert (Hf : firstn 6 (zfill 6 (py_str n) ++ lit "-rho.npz") = zfill 6 (py_str n)).
  { rewrite <- Hl at 1. apply firstn_len_app. }
  assert (Hs : skipn 6 (zfill 6 (py_str n) ++ lit "-rho.npz") = lit "-rho.npz").
  { rewrite <- Hl at 1. apply skipn_len_app. }
  rewrite Hf, Hs.
  rewrite Hl, Nat.eqb_refl, zfill_digits, py_int_zfill by lia. reflexivity.
Qed.
Lemma ckpt_inj n m : 0 <= n -> 0 <= m -> ckpt_name n = ckpt_name m -> n = m.
Proof.
  intros Hn Hm H. unfold ckpt_name in H. apply app_inv_tail in H.
  rewrite <- (py_int_zfill 6 n Hn), H. now apply py_int_zfill.
Qed.
(* a name of seven or more digits does not match *)
Lemma match_ckpt_big n : 10 ^ 6 <= n -> match_iter (ckpt_name n) = None.
Proof.
  intros H. assert (H0 : 0 <= n) by lia.
  pose proof (py_str_len_low n 6 H0 H) as Hl.
  unfold match_iter, ckpt_name. pose proof (py_str_digits n H0) as Hd.
  assert (Hz : zfill 6 (py_str n) = py_str n).
  { unfold zfill. replace (6 - _)%nat with 0%nat by lia. reflexivity. }
  rewrite Hz. remember (py_str n) as l. clear Heql Hz.
  do 7 (destruct l as [|? l]; [simpl in Hl; lia|]).
  simpl in Hd. rewrite !andb_true_iff in Hd.
  cbn [firstn skipn app]. replace (prefixb (lit "-rho.npz") (a5 :: l ++ lit "-rho.npz")) with false.
  - now rewrite andb_false_r.
  - symmetry. change (Ascii.eqb "-"%char a5 && prefixb (lit "rho.npz") (l ++ lit "-rho.npz") = false)%bool.
    destruct (Ascii.eqb_spec "-"%char a5) as [<-|]; [|reflexivity].
    exfalso. destruct Hd as (_ & _ & _ & _ & _ & _ & Hd & _). discriminate Hd.
Qed.

(* ---------- find_latest ---------- *)
Definition found (ls : list name) (r : Z * option name) : Prop :=
  match snd r with
  | None => fst r = -1 /\ forall f i, In f ls -> match_iter f <> Some i
  | Some f => In f ls /\ match_iter f = Some (fst r) /\
              forall g i, In g ls -> match_iter g = Some i -> i <= fst r
  end.
Lemma py_int_nonneg s acc : 0 <= acc -> forallb is_digit s = true ->
  0 <= fold_left (fun a c => 10 * a + digit_val c) s acc.
Proof.
  revert acc. induction s as [|c s IH]; intros acc Ha Hd; cbn [fold_left]; auto.
  cbn [forallb] in Hd. apply andb_true_iff in Hd. destruct Hd as (Hc & Hd). apply IH; auto.
  unfold is_digit in Hc. apply andb_true_iff in Hc. destruct Hc as (Hc & _).
  apply Nat.leb_le in Hc. unfold digit_val. lia.
Qed.
Lemma match_nonneg f i : match_iter f = Some i -> 0 <= i.
Proof.
  unfold match_iter. destruct (_ && _)%bool eqn:E; [|discriminate]. intros [= <-].
  apply andb_true_iff in E. destruct E as (E & _). apply andb_true_iff in E.
  apply py_int_nonneg; [lia|tauto].
Qed.
Lemma find_latest_found ls : found ls (find_latest ls).
Proof.
  unfold find_latest.
  assert (Hgen : forall done acc, found done acc -> found (done ++ ls) (fold_left find_step ls acc)).
  { induction ls as [|f ls IH]; intros done acc H; simpl; [now rewrite app_nil_r|].
    replace (done ++ f :: ls) with ((done ++ [f]) ++ ls) by now rewrite <- app_assoc.
    apply IH. unfold find_step. unfold found in *.
    destruct (match_iter f) as [i|] eqn:Em.
    - destruct acc as [m [g|]]; simpl in *.
      + destruct H as (Hin & Hm & Hmax). destruct (Z.ltb_spec m i); simpl.
        * split; [apply in_or_app; right; now left|]. split; auto.
          intros h j Hh Hj. apply in_app_or in Hh. destruct Hh as [Hh|[<-|[]]].
          -- specialize (Hmax _ _ Hh Hj). lia.
          -- rewrite Em in Hj. injection Hj as ->. lia.
        * split; [apply in_or_app; now left|]. split; auto.
          intros h j Hh Hj. apply in_app_or in Hh. destruct Hh as [Hh|[<-|[]]]; eauto.
          rewrite Em in Hj. injection Hj as <-. lia.
      + destruct H as (-> & Hno). pose proof (match_nonneg _ _ Em). destruct (Z.ltb_spec (-1) i); [|lia]. simpl.
        split; [apply in_or_app; right; now left|]. split; auto.
        intros h j Hh Hj. apply in_app_or in Hh. destruct Hh as [Hh|[<-|[]]].
        * exfalso. eapply Hno; eauto.
        * rewrite Em in Hj. injection Hj as <-. lia.
    - destruct acc as [m [g|]]; simpl in *.
      + destruct H as (Hin & Hm & Hmax). split; [apply in_or_app; now left|]. split; auto.
        intros h j Hh Hj. apply in_app_or in Hh. destruct Hh as [Hh|[<-|[]]]; eauto. congruence.
      + destruct H as (-> & Hno). split; auto. intros h j Hh Hj.
        apply in_app_or in Hh. destruct Hh as [Hh|[<-|[]]]; [|congruence]. eapply Hno; eauto. }
  apply (Hgen [] (-1, None)). unfold found. simpl. auto.
Qed.
Lemma find_latest_num_perm l1 l2 : Permutation l1 l2 -> fst (find_latest l1) = fst (find_latest l2).
Proof.
  intros HP. pose proof (find_latest_found l1) as H1. pose proof (find_latest_found l2) as H2.
  unfold found in *. destruct (find_latest l1) as [m1 [f1|]], (find_latest l2) as [m2 [f2|]]; simpl in *.
  - destruct H1 as (A1 & B1 & C1), H2 as (A2 & B2 & C2). apply Z.le_antisymm.
    + apply (C2 f1); auto. apply (Permutation_in _ HP); auto.
    + apply (C1 f2); auto. apply (Permutation_in _ (Permutation_sym HP)); auto.
  - destruct H1 as (A1 & B1 & C1), H2 as (A2 & B2). exfalso. apply (B2 f1 m1); auto. apply (Permutation_in _ HP); auto.
  - destruct H2 as (A1 & B1 & C1), H1 as (A2 & B2). exfalso. apply (B2 f2 m2); auto. apply (Permutation_in _ (Permutation_sym HP)); auto.
  - destruct H1, H2. congruence.
Qed.

(* ---------- the directory ---------- *)
Section Dir.
Context {A : Type}.
Lemma name_eqb_true f g : name_eqb f g = true <-> f = g.
Proof. unfold name_eqb. destruct (list_eq_dec ascii_dec f g); intuition discriminate. Qed.
Lemma lookup_write f c g (d : dir A) :
  lookup g (write f c d) = if name_eqb g f then Some c else lookup g d.
Proof.
  unfold write. simpl. destruct (name_eqb g f) eqn:E; auto.
  induction d as [|[h x] d IH]; simpl; auto.
  destruct (name_eqb f h) eqn:E1; simpl.
  - apply name_eqb_true in E1. subst h. rewrite E. auto.
  - destruct (name_eqb g h); auto.
Qed.
Lemma lookup_in f (d : dir A) : (exists c, lookup f d = Some c) <-> In f (map fst d).
Proof.
  induction d as [|[g x] d IH]; simpl.
  - split; [intros (c & H); discriminate|easy].
  - destruct (name_eqb f g) eqn:E.
    + apply name_eqb_true in E. subst. split; [auto|]. intros _. eauto.
    + rewrite IH. split; auto. intros [<-|]; auto.
      assert (name_eqb g g = true) by now apply name_eqb_true. congruence.
Qed.
Lemma save_all_app c1 c2 (d : dir A) : save_all (c1 ++ c2) d = save_all c2 (save_all c1 d).
Proof. unfold save_all. now rewrite fold_left_app. Qed.

Lemma save_all_cons e cks (d : dir A) :
  save_all (e :: cks) d = save_all cks (write (ckpt_name (fst e)) (Complete (snd e)) d).
Proof. reflexivity. Qed.
Lemma save_all_nil (d : dir A) : save_all [] d = d.
Proof. reflexivity. Qed.

(* reading back after a series of writes: the last write of that iteration,
   otherwise what was there before *)
Lemma lookup_save_all cks (d : dir A) i : 0 <= i -> Forall (fun e => 0 <= fst e) cks ->
  lookup (ckpt_name i) (save_all cks d) =
  match find (fun e => fst e =? i) (rev cks) with
  | Some e => Some (Complete (snd e))
  | None => lookup (ckpt_name i) d
  end.
Proof.
  intros Hi. induction cks as [|e cks IH] using rev_ind; intros HF; [reflexivity|].
  apply Forall_app in HF. destruct HF as (HF & He). inversion He; subst.
  rewrite save_all_app, save_all_cons, save_all_nil, lookup_write, rev_app_distr. cbn [rev app find].
  destruct (Z.eqb_spec (fst e) i) as [->|Hne].
  - assert (name_eqb (ckpt_name i) (ckpt_name i) = true) as -> by now apply name_eqb_true. reflexivity.
  - destruct (name_eqb (ckpt_name i) (ckpt_name (fst e))) eqn:E; auto.
    apply name_eqb_true in E. apply ckpt_inj in E; auto. lia.
Qed.
Lemma names_save_all cks f : forall (d : dir A),
  In f (map fst (save_all cks d)) <-> In f (map fst d) \/ exists e, In e cks /\ f = ckpt_name (fst e).
Proof.
  induction cks as [|e cks IH]; intros d.
  - rewrite save_all_nil. split; auto. intros [|(? & [] & _)]; auto.
  - rewrite save_all_cons, IH. rewrite <- !lookup_in. split.
    + intros [(c & Hc)|(e' & Hin & ->)]; [|right; exists e'; split; [now right|reflexivity]].
      rewrite lookup_write in Hc. destruct (name_eqb f (ckpt_name (fst e))) eqn:E.
      * apply name_eqb_true in E. right. exists e. split; [now left|exact E].
      * left. eauto.
    + intros [(c & Hc)|(e' & [->|Hin] & ->)].
      * left. rewrite lookup_write. destruct (name_eqb _ _); eauto.
      * left. rewrite lookup_write. assert (name_eqb (ckpt_name (fst e')) (ckpt_name (fst e')) = true) as -> by now apply name_eqb_true. eauto.
      * right. eauto.
Qed.
End Dir.
