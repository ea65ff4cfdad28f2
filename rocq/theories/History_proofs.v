From Verif Require Import Base History_model.
Open Scope R_scope.
Open Scope string_scope.
Open Scope list_scope.

Lemma hget_hset {V} (d : list (string * V)) k v k' :
  hget (hset d k v) k' = if String.eqb k' k then Some v else hget d k'.
Proof.
  induction d as [|[q w] d IH]; simpl.
  - destruct (String.eqb k' k); reflexivity.
  - destruct (String.eqb_spec k q) as [->|Hkq]; simpl.
    + destruct (String.eqb k' q); reflexivity.
    + rewrite IH. destruct (String.eqb_spec k' q) as [->|]; [|reflexivity].
      destruct (String.eqb_spec q k); [congruence|reflexivity].
Qed.
Lemma hset_fresh {V} (d : list (string * V)) k v : hget d k = None -> hset d k v = d ++ [(k, v)].
Proof.
  induction d as [|[q w] d IH]; simpl; [reflexivity|].
  destruct (String.eqb_spec k q); [discriminate|]. intros H. now rewrite IH.
Qed.
Lemma hget_none {V} (d : list (string * V)) k : hget d k = None <-> ~ In k (map fst d).
Proof.
  induction d as [|[q w] d IH]; simpl; [tauto|].
  destruct (String.eqb_spec k q) as [->|Hne].
  - split; [discriminate|]. tauto.
  - rewrite IH. split; [intros H [|]; [congruence|tauto]|tauto].
Qed.
Lemma hget_app {V} (d e : list (string * V)) k :
  hget (d ++ e) k = match hget d k with Some v => Some v | None => hget e k end.
Proof. induction d as [|[q w] d IH]; simpl; [reflexivity|]. destruct (String.eqb k q); auto. Qed.
Lemma keys_hset {V} (d : list (string * V)) k v : hget d k <> None -> map fst (hset d k v) = map fst d.
Proof.
  induction d as [|[q w] d IH]; simpl; [congruence|].
  destruct (String.eqb_spec k q); [reflexivity|]. intros H. simpl. now rewrite IH.
Qed.

(* ---------- statistics ---------- *)
Lemma list_min_spec l : forall d, list_min d l <= d /\ (forall x, In x l -> list_min d l <= x) /\
  (list_min d l = d \/ In (list_min d l) l).
Proof.
  induction l as [|y l IH]; intros d; simpl; [split; [lra|]; split; [easy|now left]|].
  destruct (IH (Rmin d y)) as (H1 & H2 & H3).
  pose proof (Rmin_l d y). pose proof (Rmin_r d y).
  split; [lra|]. split.
  - intros x [<-|Hx]; [lra|auto].
  - destruct H3 as [->|H3]; [|auto]. unfold Rmin. destruct (Rle_dec d y); auto.
Qed.
Lemma list_max_spec l : forall d, d <= list_max d l /\ (forall x, In x l -> x <= list_max d l) /\
  (list_max d l = d \/ In (list_max d l) l).
Proof.
  induction l as [|y l IH]; intros d; simpl; [split; [lra|]; split; [easy|now left]|].
  destruct (IH (Rmax d y)) as (H1 & H2 & H3).
  pose proof (Rmax_l d y). pose proof (Rmax_r d y).
  split; [lra|]. split.
  - intros x [<-|Hx]; [lra|auto].
  - destruct H3 as [->|H3]; [|auto]. unfold Rmax. destruct (Rle_dec d y); auto.
Qed.
Lemma rsum_le_const l c : (forall x, In x l -> x <= c) -> rsum l <= INR (List.length l) * c.
Proof.
  induction l as [|y l IH]; intros H; [simpl; lra|].
  cbn [rsum fold_right List.length]. rewrite S_INR. fold (rsum l).
  assert (y <= c) by (apply H; now left). assert (rsum l <= INR (List.length l) * c) by (apply IH; intros; apply H; now right). lra.
Qed.
Lemma rsum_ge_const l c : (forall x, In x l -> c <= x) -> INR (List.length l) * c <= rsum l.
Proof.
  induction l as [|y l IH]; intros H; [simpl; lra|].
  cbn [rsum fold_right List.length]. rewrite S_INR. fold (rsum l).
  assert (c <= y) by (apply H; now left). assert (INR (List.length l) * c <= rsum l) by (apply IH; intros; apply H; now right). lra.
Qed.
Lemma mean_bounds l m M : l <> [] -> (forall x, In x l -> m <= x <= M) -> m <= mean l <= M.
Proof.
  intros Hne H. unfold mean. assert (0 < INR (List.length l)).
  { apply lt_0_INR. destruct l; [easy|simpl; lia]. }
  pose proof (rsum_le_const l M (fun x Hx => proj2 (H x Hx))).
  pose proof (rsum_ge_const l m (fun x Hx => proj1 (H x Hx))).
  split; apply (Rmult_le_reg_r (INR (List.length l))); auto; unfold Rdiv; rewrite Rmult_assoc, Rinv_l by lra; lra.
Qed.
Lemma rsum_sq l c : rsum (map (fun x => (x - c) * (x - c)) l) =
  rsum (map (fun x => x * x) l) - 2 * c * rsum l + INR (List.length l) * (c * c).
Proof.
  induction l as [|y l IH]; [simpl; lra|].
  cbn [map rsum fold_right List.length]. rewrite S_INR.
  change (fold_right Rplus 0 (map (fun x => (x - c) * (x - c)) l)) with (rsum (map (fun x => (x - c) * (x - c)) l)).
  change (fold_right Rplus 0 (map (fun x => x * x) l)) with (rsum (map (fun x => x * x) l)).
  change (fold_right Rplus 0 l) with (rsum l). rewrite IH. ring.
Qed.
Lemma rsum_prod_nonneg l m M : (forall x, In x l -> m <= x <= M) ->
  0 <= (m + M) * rsum l - rsum (map (fun x => x * x) l) - INR (List.length l) * (m * M).
Proof.
  induction l as [|y l IH]; intros H; [simpl; lra|].
  cbn [map rsum fold_right List.length]. rewrite S_INR.
  change (fold_right Rplus 0 (map (fun x => x * x) l)) with (rsum (map (fun x => x * x) l)).
  change (fold_right Rplus 0 l) with (rsum l).
  assert (IH' := IH (fun x Hx => H x (or_intror Hx))). assert (Hy := H y (or_introl eq_refl)).
  assert (0 <= (y - m) * (M - y)) by (apply Rmult_le_pos; lra). nra.
Qed.
(* Popoviciu: the standard deviation is at most half the range *)
Lemma std_bound l m M : l <> [] -> (forall x, In x l -> m <= x <= M) -> 0 <= np_std l <= (M - m) / 2.
Proof.
  intros Hne H. split; [apply sqrt_pos|]. unfold np_std.
  assert (Hn : 0 < INR (List.length l)).
  { apply lt_0_INR. destruct l; [easy|simpl; lia]. }
  pose proof (mean_bounds l m M Hne H) as Hm.
  assert (HmM : m <= M) by lra.
  rewrite <- (sqrt_square ((M - m) / 2)) by lra. apply sqrt_le_1_alt.
  unfold mean at 1. rewrite map_length. apply (Rmult_le_reg_r (INR (List.length l))); [exact Hn|].
  unfold Rdiv at 1. rewrite Rmult_assoc, Rinv_l, Rmult_1_r by lra.
  rewrite rsum_sq. pose proof (rsum_prod_nonneg l m M H) as Hp.
  assert (Hs : rsum l = INR (List.length l) * mean l) by (unfold mean; field; lra).
  set (n := INR (List.length l)) in *. set (mu := mean l) in *. rewrite Hs in *.
  set (q := rsum (map (fun x => x * x) l)) in *.
  assert (Hq : q <= n * ((m + M) * mu - m * M)) by lra.
  assert (0 <= n * ((mu - (m + M) / 2) * (mu - (m + M) / 2))).
  { apply Rmult_le_pos; [lra|]. apply Rle_0_sqr. }
  lra || nra.
Qed.

(* ---------- feeding ---------- *)
Lemma feed_ok name i h h' : feed_data name i h = Ok h' ->
  exists s e, hget h name = Some s /\ to_entry (h_type s) i = Ok e /\
    hget h' name = Some (mkSeries (h_name s) (h_type s) (h_ylog s) (h_consts s) (h_data s ++ [e])) /\
    (forall k, k <> name -> hget h' k = hget h k) /\ map fst h' = map fst h.
Proof.
  unfold feed_data, series_add. destruct (hget h name) as [s|] eqn:Es; [|discriminate].
  destruct (to_entry (h_type s) i) as [e|] eqn:Ee; [|discriminate]. simpl. intros [= <-].
  exists s, e. split; [easy|]. split; [easy|]. rewrite hget_hset, String.eqb_refl. split; [easy|].
  split.
  - intros k Hk. rewrite hget_hset. apply String.eqb_neq in Hk. now rewrite Hk.
  - apply keys_hset. congruence.
Qed.

Definition inputs_for (name : string) (l : list (string * input)) : list input :=
  map snd (filter (fun p => String.eqb (fst p) name) l).
Lemma feeds_ok l : forall h h' name s, feeds l h = Ok h' -> hget h name = Some s ->
  exists es, Forall2 (fun i e => to_entry (h_type s) i = Ok e) (inputs_for name l) es /\
    hget h' name = Some (mkSeries (h_name s) (h_type s) (h_ylog s) (h_consts s) (h_data s ++ es)).
Proof.
  induction l as [|[n i] l IH]; intros h h' name s H Hs; simpl in H.
  - injection H as <-. exists []. split; [constructor|]. rewrite app_nil_r. destruct s; exact Hs.
  - destruct (feed_data n i h) as [h1|] eqn:E1; [|discriminate]. simpl in H.
    apply feed_ok in E1. destruct E1 as (s1 & e & Hg & He & Hg1 & Hoth & _).
    unfold inputs_for. cbn [filter fst]. destruct (String.eqb_spec n name) as [->|Hne].
    + rewrite Hs in Hg. injection Hg as <-. destruct (IH _ _ _ _ H Hg1) as (es & Hf & Hr).
      exists (e :: es). split; [constructor; auto|]. simpl in Hr. rewrite <- app_assoc in Hr. exact Hr.
    + rewrite <- Hoth in Hs by auto. apply (IH _ _ _ _ H Hs).
Qed.
Lemma last_app_one {A} (r : list A) d e : last (r ++ [e]) d = e.
Proof. induction r as [|x r IH]; simpl; auto. destruct (r ++ [e]) eqn:E; [now destruct r|auto]. Qed.
Lemma latest_app s e : series_latest (mkSeries (h_name s) (h_type s) (h_ylog s) (h_consts s) (h_data s ++ [e])) = Ok e.
Proof.
  unfold series_latest. simpl. destruct (h_data s) as [|d r]; [reflexivity|]. simpl.
  f_equal. apply last_app_one.
Qed.

(* ---------- export and import ---------- *)
Lemma substring_app a b n : substring (String.length a) n (a ++ b) = substring 0 n b.
Proof. induction a; simpl; auto. Qed.
Lemma length_append a b : String.length (a ++ b) = (String.length a + String.length b)%nat.
Proof. induction a; simpl; auto. Qed.
Lemma ends_header_app a : ends_header (a ++ "_header") = true.
Proof.
  unfold ends_header. rewrite length_append. change (String.length "_header") with 7%nat.
  replace (String.length a + 7 - 7)%nat with (String.length a) by lia.
  rewrite substring_app. rewrite andb_true_iff. split; [apply Nat.leb_le; lia|reflexivity].
Qed.

Lemma transpose_len k rows : List.length (transpose k rows) = k.
Proof. unfold transpose. now rewrite map_length, seq_length. Qed.
Lemma nth_ext_eq (l1 l2 : list R) n : List.length l1 = n -> List.length l2 = n ->
  (forall i, (i < n)%nat -> nth i l1 0 = nth i l2 0) -> l1 = l2.
Proof.
  intros H1 H2 H. apply (nth_ext _ _ 0 0); [congruence|]. intros i Hi. apply H. lia.
Qed.
Lemma nth_map_seq {A} (f : nat -> A) k i d : (i < k)%nat -> nth i (map f (seq 0 k)) d = f i.
Proof.
  intros H. rewrite (nth_indep _ d (f 0%nat)) by (rewrite map_length, seq_length; lia).
  rewrite map_nth. f_equal. now rewrite seq_nth.
Qed.
Lemma transpose_invol k rows : Forall (fun r => List.length r = k) rows ->
  transpose (List.length rows) (transpose k rows) = rows.
Proof.
  intros HF. apply (nth_ext _ _ [] []); [apply transpose_len|].
  intros i Hi. rewrite transpose_len in Hi. unfold transpose at 1. rewrite nth_map_seq by exact Hi.
  rewrite Forall_forall in HF. assert (Hk : List.length (nth i rows []) = k) by (apply HF, nth_In; exact Hi).
  apply nth_ext_eq with (n := k); auto.
  - now rewrite map_length, transpose_len.
  - intros j Hj. unfold transpose. rewrite map_map. rewrite nth_map_seq by exact Hj.
    rewrite (nth_indep _ 0 (nth j [] 0)) by (rewrite map_length; lia).
    rewrite (map_nth (fun r => nth j r 0)). reflexivity.
Qed.

(* series that numpy can store: all scalars, or all equally long statistics *)
Definition stat_len (ptype : string) : nat := if String.eqb ptype "min-max-mean-std" then 4%nat else 3%nat.
Definition storable (s : series) : Prop :=
  (exists xs, h_data s = map EScalar xs) \/
  (exists rows, h_data s = map EStats rows /\ Forall (fun r => List.length r = stat_len (h_type s)) rows).

Lemma all_scalars_map xs : all_scalars (map EScalar xs) = Some xs.
Proof. induction xs as [|x xs IH]; simpl; [reflexivity|now rewrite IH]. Qed.
Lemma all_stats_map k rows : Forall (fun r => List.length r = k) rows -> all_stats k (map EStats rows) = Some rows.
Proof.
  induction 1 as [|r rows Hr HF IH]; simpl; [reflexivity|]. rewrite Hr, Nat.eqb_refl, IH. reflexivity.
Qed.
Lemma round_trip_data s : h_data s <> [] -> storable s ->
  exists a, data_to_array s = Ok a /\ from_array a = h_data s.
Proof.
  intros Hne [(xs & Hx)|(rows & Hx & HF)]; unfold data_to_array.
  - rewrite Hx in *. destruct xs as [|x xs]; [easy|]. cbn [map].
    change (EScalar x :: map EScalar xs) with (map EScalar (x :: xs)). rewrite all_scalars_map.
    eexists. split; [reflexivity|reflexivity].
  - rewrite Hx in *. destruct rows as [|r rows]; [easy|]. cbn [map].
    change (EStats r :: map EStats rows) with (map EStats (r :: rows)).
    assert (Hr : List.length r = stat_len (h_type s)) by (inversion HF; auto). rewrite Hr.
    rewrite all_stats_map by exact HF. eexists. split; [reflexivity|].
    rewrite firstn_all2 by (rewrite transpose_len; unfold stat_len; lia).
    unfold from_array. rewrite transpose_len.
    assert (H1 : Nat.ltb 1 (stat_len (h_type s)) = true) by (unfold stat_len; destruct (_ =? _)%string; reflexivity).
    rewrite H1. f_equal.
    assert (Hh : List.length (hd [] (transpose (stat_len (h_type s)) (r :: rows))) = List.length (r :: rows)).
    { unfold transpose. unfold stat_len. destruct (_ =? _)%string; simpl; now rewrite map_length. }
    rewrite Hh. apply transpose_invol. exact HF.
Qed.

Definition plain_hists (h : hists) : Prop :=
  NoDup (map fst h) /\ forall k s, In (k, s) h -> h_name s = k /\ ends_header k = false.

Definition nonempty (ks : string * series) : bool := match h_data (snd ks) with [] => false | _ => true end.
Definition rec (ks : string * series) : list (string * npz) :=
  match data_to_array (snd ks) with
  | Ok a => [(fst ks, ZArr a); ((fst ks ++ "_header")%string, ZHeader (h_name (snd ks)) (h_type (snd ks)))]
  | Err _ => [] end.

Lemma append_inj_header (a b : string) : (a ++ "_header" = b ++ "_header")%string -> a = b.
Proof.
  revert b. induction a as [|c a IH]; intros b H.
  - destruct b as [|d b]; [reflexivity|]. exfalso.
    apply (f_equal String.length) in H. rewrite !length_append in H. simpl in H. lia.
  - destruct b as [|d b].
    + exfalso. apply (f_equal String.length) in H. rewrite !length_append in H. simpl in H. lia.
    + simpl in H. injection H as -> H. f_equal. auto.
Qed.

Lemma to_array_eq h : forall acc, NoDup (map fst h) ->
  (forall k s, In (k, s) h -> ends_header k = false /\ hget acc k = None /\ hget acc (k ++ "_header") = None) ->
  (forall k s, In (k, s) h -> h_data s <> [] -> exists a, data_to_array s = Ok a) ->
  histories_to_array h acc = Ok (acc ++ flat_map rec (filter nonempty h)).
Proof.
  induction h as [|[k s] h IH]; intros acc Hnd Hfr Hok; cbn [histories_to_array].
  - simpl. now rewrite app_nil_r.
  - inversion Hnd as [|? ? Hnin Hnd']; subst.
    cbn [filter]. unfold nonempty at 1. cbn [snd]. destruct (h_data s) as [|e0 r0] eqn:Ed.
    + apply IH; auto.
      * intros k' s' Hin. apply (Hfr k' s'). now right.
      * intros k' s' Hin. apply (Hok k' s'). now right.
    + destruct (Hok k s (or_introl eq_refl)) as (a & Ha); [rewrite Ed; easy|]. rewrite Ha. cbn [bind].
      destruct (Hfr k s (or_introl eq_refl)) as (Hk & Hf1 & Hf2).
      assert (Hkne : (k ++ "_header")%string <> k).
      { intros Heq. apply (f_equal String.length) in Heq. rewrite length_append in Heq. simpl in Heq. lia. }
      rewrite (hset_fresh acc k) by exact Hf1.
      rewrite hset_fresh.
      2:{ rewrite hget_app, Hf2. simpl. apply String.eqb_neq in Hkne. now rewrite Hkne. }
      rewrite IH; auto.
      * cbn [flat_map]. unfold rec at 2. cbn [fst snd]. rewrite Ha. rewrite <- !app_assoc. reflexivity.
      * intros k' s' Hin. destruct (Hfr k' s' (or_intror Hin)) as (Hk' & Hg1 & Hg2).
        assert (Hkk : k' <> k) by (intros ->; apply Hnin; apply (in_map fst) in Hin; exact Hin).
        split; [exact Hk'|]. rewrite !hget_app, Hg1, Hg2. simpl.
        assert (E1 : (k' =? k)%string = false) by now apply String.eqb_neq.
        assert (E2 : (k' =? k ++ "_header")%string = false).
        { apply String.eqb_neq. intros ->. rewrite ends_header_app in Hk'. discriminate. }
        assert (E3 : (k' ++ "_header" =? k)%string = false).
        { apply String.eqb_neq. intros <-. rewrite ends_header_app in Hk. discriminate. }
        assert (E4 : (k' ++ "_header" =? k ++ "_header")%string = false).
        { apply String.eqb_neq. intros Heq. apply append_inj_header in Heq. congruence. }
        rewrite E1, E2, E3, E4. auto.
      * intros k' s' Hin. apply (Hok k' s'). now right.
Qed.

Lemma hget_rec h k : NoDup (map fst h) ->
  (forall k s, In (k, s) h -> ends_header k = false /\ exists a, data_to_array s = Ok a) ->
  forall s, In (k, s) h -> hget (flat_map rec h) (k ++ "_header") = Some (ZHeader (h_name s) (h_type s)).
Proof.
  induction h as [|[q w] h IH]; intros Hnd Hok s Hin; [easy|].
  inversion Hnd as [|? ? Hnin Hnd']; subst. cbn [flat_map]. rewrite hget_app.
  destruct (Hok q w (or_introl eq_refl)) as (Hq & a & Ha). unfold rec at 1. cbn [fst snd]. rewrite Ha.
  cbn [hget].
  assert (E3 : (k ++ "_header" =? q)%string = false).
  { apply String.eqb_neq. intros <-. rewrite ends_header_app in Hq. discriminate. }
  rewrite E3. destruct Hin as [Hin|Hin].
  - injection Hin as -> ->. now rewrite String.eqb_refl.
  - assert (E4 : (k ++ "_header" =? q ++ "_header")%string = false).
    { apply String.eqb_neq. intros Heq. apply append_inj_header in Heq. subst.
      apply Hnin. apply (in_map fst) in Hin. exact Hin. }
    rewrite E4. apply IH; auto. intros k' s' Hin'. apply (Hok k' s'). now right.
Qed.

Lemma hget_in {V} (h : list (string * V)) k s : NoDup (map fst h) -> In (k, s) h -> hget h k = Some s.
Proof.
  induction h as [|[q w] h IH]; intros Hnd Hin; [easy|]. inversion Hnd as [|? ? Hnin Hnd']; subst.
  simpl. destruct Hin as [Hin|Hin].
  - injection Hin as -> ->. now rewrite String.eqb_refl.
  - destruct (String.eqb_spec k q) as [->|]; [|auto].
    exfalso. apply Hnin. apply (in_map fst) in Hin. exact Hin.
Qed.

Lemma import_eq old all : forall h acc, NoDup (map fst h) ->
  (forall k s, In (k, s) h -> hget old k = Some s /\ h_name s = k /\ ends_header k = false /\
     hget acc k = None /\ hget all (k ++ "_header") = Some (ZHeader (h_name s) (h_type s)) /\
     exists a, data_to_array s = Ok a /\ from_array a = h_data s) ->
  import_loop old (flat_map rec h) all acc = acc ++ h.
Proof.
  induction h as [|[k s] h IH]; intros acc Hnd H; [simpl; now rewrite app_nil_r|].
  inversion Hnd as [|? ? Hnin Hnd']; subst.
  destruct (H k s (or_introl eq_refl)) as (Hold & Hn & Hk & Hacc & Hall & a & Ha & Hda).
  cbn [flat_map]. unfold rec at 1. cbn [fst snd]. rewrite Ha. cbn [app import_loop].
  rewrite Hk, Hall, Hn, Hold, ends_header_app, Hda.
  rewrite hset_fresh by exact Hacc.
  assert (Hs : mkSeries k (h_type s) (h_ylog s) (h_consts s) (h_data s) = s) by (destruct s; simpl in *; congruence).
  rewrite Hs. rewrite IH; auto.
  - now rewrite <- app_assoc.
  - intros k' s' Hin. destruct (H k' s' (or_intror Hin)) as (Hold' & Hn' & Hk' & Hacc' & Hall' & Hd').
    repeat (split; [auto; fail|]). split; [|auto].
    rewrite hget_app, Hacc'. simpl.
    destruct (String.eqb_spec k' k) as [->|]; [|reflexivity].
    exfalso. apply Hnin. apply (in_map fst) in Hin. exact Hin.
Qed.

Lemma filter_keys_nodup (h : hists) f : NoDup (map fst h) -> NoDup (map fst (filter f h)).
Proof.
  induction h as [|[k s] h IH]; intros H; simpl; [constructor|]. inversion H as [|? ? Hnin Hnd]; subst.
  destruct (f (k, s)); simpl; auto. constructor; auto.
  intros Hin. apply Hnin. apply in_map_iff in Hin. destruct Hin as (x & Hx & Hin). apply filter_In in Hin.
  apply in_map_iff. exists x. tauto.
Qed.

(* what export_histories leaves: exactly the non-empty series, unchanged *)
Lemma export_result h : plain_hists h -> (forall k s, In (k, s) h -> storable s) ->
  hget h "file" = None ->
  export_histories h = Ok (if forallb (fun ks => negb (nonempty ks)) h then h else filter nonempty h).
Proof.
  intros (Hnd & Hp) Hst Hfile. unfold export_histories.
  rewrite to_array_eq; auto.
  2:{ intros k s Hin. destruct (Hp k s Hin). auto. }
  2:{ intros k s Hin Hne. destruct (round_trip_data s Hne (Hst k s Hin)) as (a & Ha & _). eauto. }
  cbn [bind app].
  assert (Hrec : forall k s, In (k, s) (filter nonempty h) ->
     In (k, s) h /\ h_name s = k /\ ends_header k = false /\ exists a, data_to_array s = Ok a /\ from_array a = h_data s).
  { intros k s Hin. apply filter_In in Hin. destruct Hin as (Hin & Hne). destruct (Hp k s Hin).
    split; auto. split; auto. split; auto. apply round_trip_data; [|eauto].
    unfold nonempty in Hne. simpl in Hne. destruct (h_data s); [discriminate|easy]. }
  assert (Hcase : filter nonempty h = [] \/ exists k s, In (k, s) (filter nonempty h)).
  { destruct (filter nonempty h) as [|[k s] r]; [now left|right]. exists k, s. now left. }
  destruct Hcase as [Hnil|(k0 & s0 & Hin0)].
  - rewrite Hnil. simpl.
    assert (forallb (fun ks => negb (nonempty ks)) h = true) as ->; [|reflexivity].
    apply forallb_forall. intros x Hx. destruct (nonempty x) eqn:E; [|reflexivity].
    assert (In x (filter nonempty h)) by (apply filter_In; auto). rewrite Hnil in H. easy.
  - assert (Hfb : forallb (fun kv => ends_header (fst kv)) (flat_map rec (filter nonempty h)) = false).
    { destruct (forallb _ _) eqn:E; [exfalso|reflexivity]. rewrite forallb_forall in E.
      destruct (Hrec _ _ Hin0) as (_ & _ & Hk & a & Ha & _).
      specialize (E (k0, ZArr a)). simpl in E. rewrite E in Hk; [discriminate|].
      apply in_flat_map. exists (k0, s0). split; auto. unfold rec. simpl. rewrite Ha. now left. }
    rewrite Hfb.
    assert (forallb (fun ks => negb (nonempty ks)) h = false) as ->.
    { destruct (forallb (fun ks => negb (nonempty ks)) h) eqn:E; [exfalso|reflexivity]. rewrite forallb_forall in E.
      apply filter_In in Hin0. destruct Hin0 as (Hi & Hn). specialize (E _ Hi). rewrite Hn in E. discriminate. }
    assert (Hff : hget (flat_map rec (filter nonempty h)) "file" = None).
    { apply hget_none. intros Hin. apply in_map_iff in Hin. destruct Hin as ([q v] & Hq & Hin). simpl in Hq. subst q.
      apply in_flat_map in Hin. destruct Hin as ([k s] & Hks & Hr). unfold rec in Hr. simpl in Hr.
      destruct (Hrec _ _ Hks) as (Hi & _ & _ & a & Ha & _). rewrite Ha in Hr.
      destruct Hr as [Hr|[Hr|[]]].
      - injection Hr as -> _. apply hget_none in Hfile. apply Hfile. apply (in_map fst) in Hi. exact Hi.
      - injection Hr as Hr _. pose proof (ends_header_app k) as Hc. rewrite Hr in Hc. discriminate Hc. }
    rewrite Hff. unfold import_histories. f_equal.
    rewrite import_eq.
    + reflexivity.
    + apply filter_keys_nodup. exact Hnd.
    + intros k s Hin. destruct (Hrec _ _ Hin) as (Hi & Hn & Hk & Ha).
      split; [now apply hget_in|]. split; auto. split; auto. split; [reflexivity|]. split; [|exact Ha].
      apply hget_rec; auto.
      * apply filter_keys_nodup. exact Hnd.
      * intros k' s' Hin'. destruct (Hrec _ _ Hin') as (_ & _ & Hk' & a & Ha' & _). eauto.
Qed.
