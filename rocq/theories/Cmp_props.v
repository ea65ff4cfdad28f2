(* C87: comparing histories; the recorder as an object (params_latest). *)
From Verif Require Import Base History_model History_proofs History_props Cmp_model.
Open Scope R_scope.
Open Scope string_scope.
Open Scope list_scope.

(* ---------- specification ---------- *)
(* data numpy can stack: only scalars, or only lists of one length *)
Definition uniform (d : list entry) : Prop :=
  (exists xs, d = map EScalar xs) \/ (exists k rows, d = map EStats rows /\ Forall (fun r => List.length r = k) rows).
Definition entries_of (a : arr) : list entry := match a with A1 xs => map EScalar xs | A2 rows => map EStats rows end.
(* numpy's tolerance; it is relative to the second value *)
Definition near (x y : R) : Prop := Rabs (x - y) <= 1 / 10 ^ 8 + 1 / 10 ^ 5 * Rabs y.
Definition entry_near (a b : entry) : Prop :=
  match a, b with EScalar x, EScalar y => near x y | EStats x, EStats y => Forall2 near x y | _, _ => False end.

(* ---------- arrays ---------- *)
Lemma all_scalars_inv d : forall xs, all_scalars d = Some xs -> d = map EScalar xs.
Proof.
  induction d as [|[x|l] d IH]; intros xs H; cbn [all_scalars] in H; [now injection H as <-| |discriminate].
  destruct (all_scalars d) as [ys|]; [|discriminate]. injection H as <-. cbn [map]. f_equal. now apply IH.
Qed.
Lemma all_stats_inv k d : forall rows, all_stats k d = Some rows -> d = map EStats rows /\ Forall (fun r => List.length r = k) rows.
Proof.
  induction d as [|[x|l] d IH]; intros rows H; cbn [all_stats] in H; [injection H as <-; split; [reflexivity|constructor]|discriminate|].
  destruct (Nat.eqb_spec (List.length l) k) as [E|]; [|discriminate]. destruct (all_stats k d) as [ys|]; [|discriminate]. injection H as <-.
  destruct (IH ys eq_refl) as (-> & HF). split; [reflexivity|]. now constructor.
Qed.
Lemma np_array_ok d a : np_array d = Ok a -> entries_of a = d /\ (match a with A1 _ => True | A2 rows => rows <> [] /\ Forall (fun r => List.length r = List.length (hd [] rows)) rows end).
Proof.
  unfold np_array. destruct d as [|[x|l] d].
  - injection 1 as <-. easy.
  - destruct (all_scalars (EScalar x :: d)) as [xs|] eqn:E; [|discriminate]. injection 1 as <-. apply all_scalars_inv in E. split; [now symmetry|exact I].
  - destruct (all_stats (List.length l) (EStats l :: d)) as [rows|] eqn:E; [|discriminate]. injection 1 as <-. apply all_stats_inv in E as (E & HF). split; [now symmetry|].
    destruct rows as [|r rows]; [discriminate|]. cbn [map] in E. injection E as -> _. split; [easy|exact HF].
Qed.
Lemma np_array_uniform d : uniform d <-> exists a, np_array d = Ok a.
Proof.
  split.
  - intros [(xs & ->)|(k & rows & -> & HF)].
    + destruct xs as [|x xs]; [now exists (A1 [])|]. unfold np_array. cbn [map]. change (EScalar x :: map EScalar xs) with (map EScalar (x :: xs)). rewrite all_scalars_map. eauto.
    + destruct rows as [|r rows]; [now exists (A1 [])|]. unfold np_array. cbn [map]. change (EStats r :: map EStats rows) with (map EStats (r :: rows)).
      inversion HF; subst. rewrite all_stats_map by exact HF. eauto.
  - intros (a & H). apply np_array_ok in H as (<- & H). destruct a as [xs|rows]; [left; now exists xs|right]. destruct H as (_ & HF). now exists (List.length (hd [] rows)), rows.
Qed.
Lemma np_array_err d e : np_array d = Err e -> e = ValueError.
Proof. unfold np_array. destruct d as [|[x|l] d]; [discriminate| |]; [destruct (all_scalars _)|destruct (all_stats _ _)]; try discriminate; now injection 1 as <-. Qed.
Lemma arr_last_ok a d : entries_of a = d -> d <> [] -> exists e r, arr_last a = Ok e /\ d = r ++ [e].
Proof.
  intros <- Hne. destruct a as [[|x xs]|[|x xs]]; try easy; cbn [arr_last entries_of].
  - exists (EScalar (last xs x)), (map EScalar (removelast (x :: xs))). split; [reflexivity|]. change [EScalar (last xs x)] with (map EScalar [last xs x]). rewrite <- map_app. f_equal.
    rewrite (app_removelast_last x) at 1 by easy. f_equal. f_equal. destruct xs as [|y xs]; [reflexivity|]. cbn [last]. clear. revert y. induction xs as [|z xs IH]; intros y; [reflexivity|]. cbn [last] in *. apply IH.
  - exists (EStats (last xs x)), (map EStats (removelast (x :: xs))). split; [reflexivity|]. change [EStats (last xs x)] with (map EStats [last xs x]). rewrite <- map_app. f_equal.
    rewrite (app_removelast_last x) at 1 by easy. f_equal. f_equal. destruct xs as [|y xs]; [reflexivity|]. cbn [last]. clear. revert y. induction xs as [|z xs IH]; intros y; [reflexivity|]. cbn [last] in *. apply IH.
Qed.

(* ---------- C87: the recorder as an object ---------- *)
(* as_object and as_object_latest succeed exactly when every series has data that can be
   stacked; otherwise both raise ValueError. *)
Definition presentable (h : hists) : Prop := forall k s, In (k, s) h -> h_data s <> [] /\ uniform (h_data s).
Lemma data_np_ok s : (exists a, data_np_array s = Ok a) <-> h_data s <> [] /\ uniform (h_data s).
Proof.
  unfold data_np_array. destruct (h_data s) as [|e d] eqn:E.
  - split; [intros (a & H); discriminate|intros (H & _); easy].
  - rewrite <- np_array_uniform. split; [intros H; split; [easy|exact H]|tauto].
Qed.
Lemma data_np_err s e : data_np_array s = Err e -> e = ValueError.
Proof. unfold data_np_array. destruct (h_data s); [now injection 1 as <-|apply np_array_err]. Qed.
Theorem C87_as_object_iff : forall h,
  ((exists o, as_object h = Ok o) <-> presentable h) /\ ((exists o, as_object_latest h = Ok o) <-> presentable h) /\
  (forall e, as_object h = Err e -> e = ValueError) /\ (forall e, as_object_latest h = Err e -> e = ValueError).
Proof.
  unfold presentable. induction h as [|[k s] h IH].
  { cbn [as_object as_object_latest]. split; [|split; [|split; discriminate]]; split; try (intros; now exists []); intros _ k s []. }
  destruct IH as (IH1 & IH2 & IH3 & IH4).
  assert (Hp : (forall k0 s0, In (k0, s0) ((k, s) :: h) -> h_data s0 <> [] /\ uniform (h_data s0)) <->
    (h_data s <> [] /\ uniform (h_data s)) /\ (forall k0 s0, In (k0, s0) h -> h_data s0 <> [] /\ uniform (h_data s0))).
  { split.
    - intros H. split; [apply (H k); now left|]. intros k0 s0 Hin. apply (H k0). now right.
    - intros (H1 & H2) k0 s0 [E|Hin]; [injection E as <- <-; exact H1|]. now apply (H2 k0). }
  rewrite Hp, <- data_np_ok. cbn [as_object as_object_latest].
  destruct (data_np_array s) as [a|e] eqn:E; cbn [bind].
  - assert (HL : exists x, arr_last a = Ok x).
    { unfold data_np_array in E. destruct (h_data s) eqn:Ed; [discriminate|]. apply np_array_ok in E as (E & _). destruct (arr_last_ok a _ E) as (x & r & Hx & _); [easy|now exists x]. }
    destruct HL as (x & Hx). rewrite Hx. cbn [bind].
    assert (Hy : exists b, Ok a = Ok b :> res arr) by (now exists a).
    split; [|split; [|split]].
    + rewrite <- IH1. destruct (as_object h) as [o|e]; cbn [bind]; [split; [intros _; split; [exact Hy|now exists o]|intros _; eauto]|split; [intros (o & Ho); discriminate|intros (_ & o & Ho); discriminate]].
    + rewrite <- IH2. destruct (as_object_latest h) as [o|e]; cbn [bind]; [split; [intros _; split; [exact Hy|now exists o]|intros _; eauto]|split; [intros (o & Ho); discriminate|intros (_ & o & Ho); discriminate]].
    + intros e. destruct (as_object h) as [o|e']; cbn [bind]; [discriminate|]. injection 1 as <-. now apply IH3.
    + intros e. destruct (as_object_latest h) as [o|e']; cbn [bind]; [discriminate|]. injection 1 as <-. now apply IH4.
  - pose proof (data_np_err s e E) as ->. split; [|split; [|split]]; try (intros e [= <-]; reflexivity).
    + split; [intros (o & Ho); discriminate|intros ((a & Ha) & _); discriminate].
    + split; [intros (o & Ho); discriminate|intros ((a & Ha) & _); discriminate].
Qed.
Print Assumptions C87_as_object_iff.
(* the attributes are the series, in full or by their last entry *)
Theorem C87_as_object_values : forall h o ol, NoDup (map fst h) -> as_object h = Ok o -> as_object_latest h = Ok ol ->
  map fst o = map fst h /\ map fst ol = map fst h /\
  (forall k a, In (k, a) o -> entries h k = Some (entries_of a)) /\ (forall k e, In (k, e) ol -> latest k h = Ok e).
Proof.
  induction h as [|[k s] h IH]; intros o ol Hn Ho Hol; cbn [as_object as_object_latest] in Ho, Hol.
  { injection Ho as <-. injection Hol as <-. repeat split; easy. }
  destruct (data_np_array s) as [a|] eqn:E; cbn [bind] in Ho, Hol; [|discriminate].
  destruct (as_object h) as [o1|] eqn:E1; cbn [bind] in Ho; [|discriminate]. injection Ho as <-.
  destruct (arr_last a) as [x|] eqn:Ex; cbn [bind] in Hol; [|discriminate].
  destruct (as_object_latest h) as [ol1|] eqn:E2; cbn [bind] in Hol; [|discriminate]. injection Hol as <-.
  cbn [map fst] in *. inversion Hn as [|? ? Hnin Hnd]; subst. destruct (IH o1 ol1 Hnd eq_refl eq_refl) as (A & B & C & D).
  assert (Hd : entries_of a = h_data s /\ h_data s <> []). { unfold data_np_array in E. destruct (h_data s) eqn:Ed; [discriminate|]. apply np_array_ok in E as (E & _). easy. }
  destruct Hd as (Hd & Hne). split; [now rewrite A|]. split; [now rewrite B|]. split.
  - intros q b [Eq|Hin]; [injection Eq as <- <-; unfold entries; cbn [hget]; rewrite String.eqb_refl; cbn; now rewrite Hd|].
    rewrite <- (C q b Hin). unfold entries. cbn [hget]. assert (q <> k). { intros ->. apply Hnin. rewrite <- A. apply (in_map fst) in Hin. exact Hin. }
    apply String.eqb_neq in H. now rewrite H.
  - intros q b [Eq|Hin].
    + injection Eq as <- <-. unfold latest. cbn [hget]. rewrite String.eqb_refl. destruct (arr_last_ok a _ Hd Hne) as (y & r & Hy & Hr). rewrite Ex in Hy. injection Hy as ->.
      unfold series_latest. rewrite Hr. destruct r as [|z r]; [reflexivity|]. cbn [app]. f_equal. rewrite last_last. reflexivity.
    + rewrite <- (D q b Hin). unfold latest. cbn [hget]. assert (q <> k). { intros ->. apply Hnin. rewrite <- B. apply (in_map fst) in Hin. exact Hin. }
      apply String.eqb_neq in H. now rewrite H.
Qed.
Print Assumptions C87_as_object_values.
(* A recorder fed with one kind of value per series: params_latest works exactly when
   every registered series has been fed (so not before the first iteration). *)
Theorem C87_params_latest_iff : forall regs l h, NoDup (map fst regs) -> feeds l (registry regs) = Ok h ->
  (forall n, In n (map fst regs) -> homogeneous (inputs_for n l)) ->
  ((exists o, as_object_latest h = Ok o) <-> forall n, In n (map fst regs) -> inputs_for n l <> []).
Proof.
  intros regs l h Hnd Hf Hhom. destruct (C87_as_object_iff h) as (_ & Hiff & _). rewrite Hiff. clear Hiff.
  assert (Hkeys : map fst h = map fst regs) by now rewrite (feeds_keys _ _ _ Hf), registry_keys.
  assert (K : forall k s, In (k, s) h -> In k (map fst regs) /\ exists t, Forall2 (fun i e => to_entry t i = Ok e) (inputs_for k l) (h_data s)).
  { intros k s Hin. assert (Hk : In k (map fst regs)) by (rewrite <- Hkeys; apply (in_map fst) in Hin; exact Hin). split; [exact Hk|].
    assert (Hreg : In k (map fst (registry regs))) by now rewrite registry_keys. destruct (in_hget _ _ Hreg) as (s0 & Hs0 & Hin0).
    destruct (registry_in _ _ _ Hin0) as (_ & Hd0 & _). destruct (C38_any_history_of_feeds l (registry regs) h k s0 Hf Hs0) as (es & He & HF).
    exists (h_type s0). rewrite Hd0 in He. cbn [app] in He. unfold entries in He.
    assert (hget h k = Some s) as Hg by (apply hget_in; [now rewrite Hkeys|exact Hin]). rewrite Hg in He. injection He as ->. exact HF. }
  split.
  - intros Hp n Hn. rewrite <- Hkeys in Hn. apply in_map_iff in Hn as ((k & s) & <- & Hin). cbn [fst]. destruct (K k s Hin) as (_ & t & HF). destruct (Hp k s Hin) as (Hne & _).
    intros E. rewrite E in HF. inversion HF as [Hx Hy|]. congruence.
  - intros Hfed k s Hin. destruct (K k s Hin) as (Hk & t & HF). split.
    + intros E. rewrite E in HF. inversion HF as [Hx|]. symmetry in Hx. now apply (Hfed k Hk).
    + destruct (to_entries_storable t _ _ (Hhom k Hk) HF) as [(xs & ->)|(rows & -> & HR)]; [left; now exists xs|right; now exists (stat_len t), rows].
Qed.
Print Assumptions C87_params_latest_iff.

(* ---------- C87: comparison ---------- *)
Lemma close_near x y : close x y = true <-> near x y.
Proof. unfold close, near. apply Rleb_true. Qed.
Lemma close_list x : forall y, List.length x = List.length y ->
  (forallb (fun p => close (fst p) (snd p)) (combine x y) = true <-> Forall2 near x y).
Proof.
  induction x as [|a x IH]; intros [|b y] H; try discriminate; [cbn; split; constructor|]. cbn [combine forallb fst snd].
  rewrite andb_true_iff, close_near, IH by (now injection H). split; [intros (A & B); now constructor|intros HF; now inversion HF].
Qed.
Lemma concat_length_k k (rows : list (list R)) : Forall (fun r => List.length r = k) rows -> List.length (List.concat rows) = (List.length rows * k)%nat.
Proof. induction 1 as [|r rows Hr HF IH]; [reflexivity|]. cbn [List.concat List.length]. rewrite app_length, IH, Hr. lia. Qed.
Lemma Forall2_app_len {A B} (P : A -> B -> Prop) a a' : List.length a = List.length a' -> forall b b',
  (Forall2 P (a ++ b) (a' ++ b') <-> Forall2 P a a' /\ Forall2 P b b').
Proof.
  revert a'. induction a as [|x a IH]; intros [|y a'] H b b'; try discriminate; cbn [app].
  - split; [intros HF; split; [constructor|exact HF]|tauto].
  - injection H as H. split.
    + intros HF. inversion HF; subst. apply IH in H5 as (U & V); [|exact H]. split; [now constructor|exact V].
    + intros (U & V). inversion U; subst. constructor; [assumption|]. now apply IH.
Qed.
Lemma near_rows k x : Forall (fun r => List.length r = k) x -> forall y, Forall (fun r => List.length r = k) y -> List.length x = List.length y ->
  (Forall2 near (List.concat x) (List.concat y) <-> Forall2 entry_near (map EStats x) (map EStats y)).
Proof.
  induction 1 as [|r x Hr HF IH]; intros y Hy HL.
  - destruct y; [|discriminate]. cbn. split; constructor.
  - destruct y as [|r' y]; [discriminate|]. inversion Hy as [|? ? Hr' HF']; subst. cbn [List.concat map].
    rewrite Forall2_app_len by congruence. rewrite (IH y HF') by (now injection HL). split.
    + intros (U & V). constructor; [exact U|exact V].
    + intros H. inversion H; subst. now split.
Qed.
Lemma Forall2_length' {A B} (P : A -> B -> Prop) x y : Forall2 P x y -> List.length x = List.length y.
Proof. induction 1; cbn [List.length]; congruence. Qed.
Lemma arrays_near a b d d' : np_array d = Ok a -> np_array d' = Ok b ->
  ((same_shape a b && all_close a b)%bool = true <-> Forall2 entry_near d d').
Proof.
  intros Ha Hb. apply np_array_ok in Ha as (<- & Ha). apply np_array_ok in Hb as (<- & Hb).
  rewrite andb_true_iff. unfold all_close. destruct a as [x|x], b as [y|y]; cbn [same_shape flat entries_of].
  - rewrite Nat.eqb_eq. split.
    + intros (HL & HC). apply close_list in HC; [|exact HL]. clear -HC. induction HC; cbn [map]; constructor; [exact H|exact IHHC].
    + intros HF. assert (HF' : Forall2 near x y). { clear -HF. revert y HF. induction x as [|a x IH]; intros [|b y] HF; inversion HF; subst; constructor; [exact H2|now apply IH]. }
      pose proof (Forall2_length' _ _ _ HF'). split; [assumption|]. now apply close_list.
  - split; [intros (H & _); discriminate|]. intros HF. destruct Hb as (Hne & _). destruct x, y; inversion HF; subst; cbn in *; easy.
  - split; [intros (H & _); discriminate|]. intros HF. destruct Ha as (Hne & _). destruct x, y; inversion HF; subst; cbn in *; easy.
  - rewrite andb_true_iff, !Nat.eqb_eq. destruct Ha as (Hnx & HFx), Hb as (Hny & HFy). split.
    + intros ((HL & HK) & HC). rewrite <- HK in HFy. apply close_list in HC; [|now rewrite (concat_length_k _ _ HFx), (concat_length_k _ _ HFy), HL]. now apply (near_rows (List.length (hd [] x))).
    + intros HF. pose proof (Forall2_length' _ _ _ HF) as HL. rewrite !map_length in HL.
      assert (HK : List.length (hd [] x) = List.length (hd [] y)). { destruct x as [|r x], y as [|r' y]; try easy. inversion HF; subst. cbn [hd]. cbn in H2. now apply Forall2_length' in H2. }
      split; [now split|]. rewrite <- HK in HFy. apply close_list; [now rewrite (concat_length_k _ _ HFx), (concat_length_k _ _ HFy), HL|]. now apply (near_rows (List.length (hd [] x))).
Qed.
Lemma compare_from_ok h2 l : (forall k s, In (k, s) l -> uniform (h_data s) /\ exists s', hget h2 k = Some s' /\ uniform (h_data s')) ->
  exists b, compare_from l h2 = Ok b /\
  (b = true <-> forall k s s', In (k, s) l -> hget h2 k = Some s' -> h_type s = h_type s' /\ Forall2 entry_near (h_data s) (h_data s')).
Proof.
  induction l as [|[k s] l IH]; intros Hu; cbn [compare_from]; [exists true; split; [reflexivity|split; [intros _ ? ? ? []|reflexivity]]|].
  destruct (Hu k s (or_introl eq_refl)) as (Us & s' & Hg & Us'). rewrite Hg.
  apply np_array_uniform in Us as (x & Hx). apply np_array_uniform in Us' as (y & Hy). rewrite Hx, Hy. cbn [bind].
  pose proof (arrays_near x y _ _ Hx Hy) as HN.
  destruct (String.eqb_spec (h_type s) (h_type s')) as [Ht|Ht]; cbn [negb].
  2:{ exists false. split; [reflexivity|]. split; [discriminate|]. intros H. exfalso. apply Ht. now apply (H k s s' (or_introl eq_refl)). }
  destruct (same_shape x y) eqn:Es; cbn [negb andb] in *.
  2:{ exists false. split; [reflexivity|]. split; [discriminate|]. intros H. apply HN. now apply (H k s s' (or_introl eq_refl)). }
  destruct (all_close x y) eqn:Ec; cbn [negb] in *.
  2:{ exists false. split; [reflexivity|]. split; [discriminate|]. intros H. apply HN. now apply (H k s s' (or_introl eq_refl)). }
  destruct IH as (b & Hb & HI); [intros; apply Hu; now right|]. exists b. split; [exact Hb|]. rewrite HI. split.
  - intros H q r r' [E|Hin] Hr; [injection E as <- <-; rewrite Hg in Hr; injection Hr as <-; split; [exact Ht|now apply HN]|now apply (H q)].
  - intros H q r r' Hin. apply H. now right.
Qed.
Lemma subset_spec a b : subset a b = true <-> (forall x, In x a -> In x b).
Proof.
  unfold subset. rewrite forallb_forall. split; intros H x Hx; specialize (H x Hx).
  - apply existsb_exists in H as (y & Hy & E). apply String.eqb_eq in E. now subst.
  - apply existsb_exists. exists x. split; [exact H|apply String.eqb_refl].
Qed.
(* On stackable data the comparison never raises, and it answers True exactly when both
   have the same names and, under each name, the same plot type and the same number of
   entries, each within numpy's tolerance. *)
Theorem C87_compare_iff : forall h1 h2, NoDup (map fst h1) -> NoDup (map fst h2) ->
  (forall k s, In (k, s) h1 \/ In (k, s) h2 -> uniform (h_data s)) ->
  exists b, compare h1 h2 = Ok b /\
  (b = true <-> (forall k, hget h1 k = None <-> hget h2 k = None) /\
     (forall k s s', hget h1 k = Some s -> hget h2 k = Some s' -> h_type s = h_type s' /\ Forall2 entry_near (h_data s) (h_data s'))).
Proof.
  intros h1 h2 N1 N2 Hu. unfold compare.
  assert (HK : forall h : hists, forall k, In k (map fst h) <-> hget h k <> None).
  { intros h k. split.
    - intros Hin. destruct (in_hget h k Hin) as (v & Hv & _). congruence.
    - destruct (hget h k) as [v|] eqn:E; [|easy]. intros _. apply hget_In in E. apply (in_map fst) in E. exact E. }
  assert (HS : (subset (map fst h1) (map fst h2) && subset (map fst h2) (map fst h1))%bool = true <-> (forall k, hget h1 k = None <-> hget h2 k = None)).
  { rewrite andb_true_iff, !subset_spec. split.
    - intros (A & B) k. specialize (A k). specialize (B k). rewrite !HK in A, B. destruct (hget h1 k), (hget h2 k); try tauto; try (exfalso; apply A; easy); (split; [discriminate|]); exfalso; apply B; easy.
    - intros H. split; intros k Hk; rewrite HK in *; specialize (H k); tauto. }
  destruct (subset (map fst h1) (map fst h2) && subset (map fst h2) (map fst h1))%bool eqn:E.
  - destruct HS as (HS & _). specialize (HS eq_refl). destruct (compare_from_ok h2 h1) as (b & Hb & HI).
    { intros k s Hin. split; [apply (Hu k); now left|]. destruct (hget h2 k) as [s'|] eqn:Eg; [exists s'; split; [reflexivity|apply (Hu k); right; now apply hget_In]|].
      apply HS in Eg. rewrite (hget_in h1 k s N1 Hin) in Eg. discriminate. }
    exists b. split; [exact Hb|]. rewrite HI. split.
    + intros H. split; [exact HS|]. intros k s s' Hg. apply H. now apply hget_In.
    + intros (_ & H) k s s' Hin. apply H. now apply hget_in.
  - exists false. split; [reflexivity|]. split; [discriminate|]. intros (H & _). apply HS in H. discriminate.
Qed.
Print Assumptions C87_compare_iff.
Lemma near_refl x : near x x.
Proof. unfold near. rewrite Rminus_diag_eq, Rabs_R0 by reflexivity. pose proof (Rabs_pos x). lra. Qed.
Lemma entry_near_refl d : Forall2 entry_near d d.
Proof. induction d as [|[x|l] d IH]; constructor; try exact IH; cbn; [apply near_refl|]. clear. induction l; constructor; [apply near_refl|assumption]. Qed.
(* every collection equals itself; ylog, constants and display names are not compared *)
Theorem C87_reflexive_and_blind : forall h g, NoDup (map fst h) -> (forall k s, In (k, s) h -> uniform (h_data s)) ->
  compare h (map (fun ks => (fst ks, mkSeries (fst (g ks)) (h_type (snd ks)) (fst (snd (g ks))) (snd (snd (g ks))) (h_data (snd ks)))) h) = Ok true.
Proof.
  intros h g Hn Hu. set (f := fun ks : string * series => mkSeries (fst (g ks)) (h_type (snd ks)) (fst (snd (g ks))) (snd (snd (g ks))) (h_data (snd ks))).
  change (map _ h) with (map (fun ks => (fst ks, f ks)) h). set (h2 := map (fun ks => (fst ks, f ks)) h).
  assert (K : map fst h2 = map fst h) by (unfold h2; rewrite map_map; reflexivity).
  assert (G : forall k s s', hget h k = Some s -> hget h2 k = Some s' -> h_type s = h_type s' /\ h_data s = h_data s').
  { intros k s s' H1 H2. apply hget_In in H2. unfold h2 in H2. apply in_map_iff in H2 as ((q & r) & E & Hin). injection E as -> <-. rewrite (hget_in h k r Hn Hin) in H1. injection H1 as ->. easy. }
  destruct (C87_compare_iff h h2) as (b & Hb & HI).
  - exact Hn.
  - now rewrite K.
  - intros k s [Hin|Hin]; [now apply (Hu k)|]. unfold h2 in Hin. apply in_map_iff in Hin as ((q & r) & E & Hin). injection E as <- <-. cbn. now apply (Hu q).
  - rewrite Hb. f_equal. apply HI. split.
    + intros k. assert (HK : forall h0 : hists, In k (map fst h0) <-> hget h0 k <> None).
      { intros h0. split; [intros Hin; destruct (in_hget h0 k Hin) as (v & Hv & _); congruence|]. destruct (hget h0 k) as [v|] eqn:E; [|easy]. intros _. apply hget_In in E. apply (in_map fst) in E. exact E. }
      pose proof (HK h) as A. pose proof (HK h2) as B. rewrite K in B. rewrite A in B. destruct (hget h k), (hget h2 k); try tauto; split; try discriminate; intros; exfalso; apply B; easy.
    + intros k s s' H1 H2. destruct (G k s s' H1 H2) as (-> & ->). split; [reflexivity|apply entry_near_refl].
Qed.
Print Assumptions C87_reflexive_and_blind.
(* but it is neither symmetric nor transitive *)
Definition one_value (x : R) : hists := [("a", mkSeries "a" "value" false None [EScalar x])].
Lemma compare_one x y : compare (one_value x) (one_value y) = Ok (close x y).
Proof. unfold compare, one_value. cbn -[close]. destruct (close x y); reflexivity. Qed.
Lemma close_false x y : ~ near x y -> close x y = false.
Proof. intros H. destruct (close x y) eqn:E; [|reflexivity]. exfalso. apply H. now apply close_near. Qed.
Theorem C87_symmetric_refuted : exists h1 h2, NoDup (map fst h1) /\ NoDup (map fst h2) /\ compare h1 h2 = Ok true /\ compare h2 h1 = Ok false.
Proof.
  set (y := 1 / 10 ^ 8 + 1 / 10 ^ 14). exists (one_value 0), (one_value y). split; [repeat constructor; easy|]. split; [repeat constructor; easy|]. rewrite !compare_one.
  assert (Hy : 0 < y) by (unfold y; lra). split.
  - f_equal. apply close_near. unfold near. rewrite Rabs_left, Rabs_right by lra. unfold y. lra.
  - f_equal. apply close_false. unfold near. rewrite Rabs_right, Rabs_R0 by lra. unfold y. lra.
Qed.
Print Assumptions C87_symmetric_refuted.
Theorem C87_transitive_refuted : exists h1 h2 h3, compare h1 h2 = Ok true /\ compare h2 h3 = Ok true /\ compare h1 h3 = Ok false.
Proof.
  exists (one_value 0), (one_value (1 / 10 ^ 8)), (one_value (2 / 10 ^ 8)). rewrite !compare_one. split; [|split]; f_equal.
  - apply close_near. unfold near. rewrite Rabs_left, Rabs_right by lra. lra.
  - apply close_near. unfold near. rewrite Rabs_left, Rabs_right by lra. lra.
  - apply close_false. unfold near. rewrite Rabs_left, Rabs_right by lra. lra.
Qed.
Print Assumptions C87_transitive_refuted.
(* symmetric up to the factor 1/(1 - 10^-5) *)
Theorem C87_almost_symmetric : forall x y, near x y -> Rabs (y - x) <= (1 / 10 ^ 8 + 1 / 10 ^ 5 * Rabs x) / (1 - 1 / 10 ^ 5).
Proof.
  intros x y H. unfold near in H. rewrite Rabs_minus_sym in H. assert (Rabs y <= Rabs x + Rabs (y - x)).
  { replace y with (x + (y - x)) at 1 by ring. apply Rabs_triang. }
  apply (Rmult_le_reg_r (1 - 1 / 10 ^ 5)); [lra|]. replace ((1 / 10 ^ 8 + 1 / 10 ^ 5 * Rabs x) / (1 - 1 / 10 ^ 5) * (1 - 1 / 10 ^ 5)) with (1 / 10 ^ 8 + 1 / 10 ^ 5 * Rabs x) by (field; lra). lra.
Qed.
Print Assumptions C87_almost_symmetric.
(* exporting (and re-importing) a recorder that was fed completely gives an equal one *)
Theorem C87_export_compares_equal : forall regs l h h', NoDup (map fst regs) ->
  (forall n, In n (map fst regs) -> ends_header n = false /\ n <> "file") ->
  feeds l (registry regs) = Ok h -> (forall n, In n (map fst regs) -> homogeneous (inputs_for n l) /\ inputs_for n l <> []) ->
  export_histories h = Ok h' -> compare h h' = Ok true.
Proof.
  intros regs l h h' Hn Hh Hf Hi He. destruct (C40_export_import_partial regs l h Hn Hh Hf (fun n H => proj1 (Hi n H))) as (h2 & E2 & _ & Hall).
  rewrite He in E2. injection E2 as <-. rewrite Hall by (intros n Hin; now apply Hi).
  assert (Hkeys : map fst h = map fst regs) by now rewrite (feeds_keys _ _ _ Hf), registry_keys.
  assert (HP : presentable h). { apply C87_as_object_iff. apply (C87_params_latest_iff regs l h Hn Hf); [intros n Hin; now apply Hi|intros n Hin; now apply Hi]. }
  pose proof (C87_reflexive_and_blind h (fun ks => (h_name (snd ks), (h_ylog (snd ks), h_consts (snd ks))))) as HR.
  cbn [fst snd] in HR. assert (map (fun ks => (fst ks, mkSeries (h_name (snd ks)) (h_type (snd ks)) (h_ylog (snd ks)) (h_consts (snd ks)) (h_data (snd ks)))) h = h) as E.
  { rewrite <- (map_id h) at 2. apply map_ext. intros (k & []). reflexivity. }
  rewrite E in HR. apply HR; [now rewrite Hkeys|]. intros k s Hin. now apply (HP k s).
Qed.
Print Assumptions C87_export_compares_equal.
Example C87_instance : exists h, feeds [("a", IScalar 1); ("b", IArray [1; 3])] (registry [("a", ("value", false)); ("b", ("min-max-mean", false))]) = Ok h /\
  presentable h.
Proof.
  eexists. split; [reflexivity|]. intros k s [E|[E|[]]]; injection E as <- <-; cbn; (split; [easy|]); [left; now exists [1]|right].
  exists 3%nat, [[Rmin 1 3; (1 + (3 + 0)) / (1 + 1); Rmax 1 3]]. split; [reflexivity|]. now repeat constructor.
Qed.
