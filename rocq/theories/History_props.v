(* C38-C40: histories. *)
From Verif Require Import Base History_model History_proofs.
Open Scope R_scope.
Open Scope string_scope.
Open Scope list_scope.

(* ---------- specification vocabulary ---------- *)
(* the entries stored under a name (None: the name is not registered) *)
Definition entries (h : hists) (name : string) : option (list entry) :=
  option_map h_data (hget h name).
(* a recorder as the optimizers build it: one add per name, all empty *)
Definition registry (regs : list (string * (string * bool))) : hists :=
  map (fun r => (fst r, mkSeries (fst r) (fst (snd r)) (snd (snd r)) None [])) regs.

(* a scalar is stored as itself, an array as its statistics *)
Definition is_min (m : R) (xs : list R) := In m xs /\ forall x, In x xs -> m <= x.
Definition is_max (m : R) (xs : list R) := In m xs /\ forall x, In x xs -> x <= m.
Definition summarises (ptype : string) (i : input) (e : entry) : Prop :=
  match i with
  | IScalar x => e = EScalar x
  | IArray xs => exists mn mx rest,
      e = EStats (mn :: rsum xs / INR (List.length xs) :: mx :: rest) /\
      is_min mn xs /\ is_max mx xs /\
      if String.eqb ptype "min-max-mean-std"
      then exists sd, rest = [sd] /\ 0 <= sd /\
        sd * sd * INR (List.length xs) =
        rsum (map (fun x => (x - rsum xs / INR (List.length xs)) * (x - rsum xs / INR (List.length xs))) xs)
      else rest = []
  end.

(* ---------- C38 ---------- *)
(* one feed: exactly one new entry, at the end of the named series, nothing
   else changes - neither another series nor the set or order of names *)
Theorem C38_feed_appends_one : forall name i h h', feed_data name i h = Ok h' ->
  exists s e, hget h name = Some s /\ to_entry (h_type s) i = Ok e /\
    entries h' name = Some (h_data s ++ [e]) /\
    (forall k, k <> name -> hget h' k = hget h k) /\ map fst h' = map fst h /\
    latest name h' = Ok e.
Proof.
  intros name i h h' H. apply feed_ok in H. destruct H as (s & e & Hs & He & H' & Ho & Hk).
  exists s, e. unfold entries. rewrite H'. split; [exact Hs|]. split; [exact He|]. split; [reflexivity|]. split; [exact Ho|]. split; [exact Hk|].
  unfold latest. rewrite H'. apply latest_app.
Qed.
Print Assumptions C38_feed_appends_one.

(* any history of feeds: every series holds its old entries followed by one
   entry per feed of that name, in order *)
Theorem C38_any_history_of_feeds : forall l h h' name s,
  feeds l h = Ok h' -> hget h name = Some s ->
  exists es, entries h' name = Some (h_data s ++ es) /\
    Forall2 (fun i e => to_entry (h_type s) i = Ok e)
            (map snd (filter (fun p => String.eqb (fst p) name) l)) es.
Proof.
  intros l h h' name s H Hs. destruct (feeds_ok l h h' name s H Hs) as (es & HF & Hr).
  exists es. unfold entries. rewrite Hr. split; [reflexivity|exact HF].
Qed.
Print Assumptions C38_any_history_of_feeds.

Theorem C38_errors : forall name i h,
  (hget h name = None -> feed_data name i h = Err KeyError /\ latest name h = Err KeyError) /\
  (entries h name = Some [] -> latest name h = Err ValueError) /\
  (hget h name <> None -> (feed_data name i h = Err ValueError <-> i = IArray [])) /\
  (forall d, entries h name = Some d -> d <> [] -> exists e, latest name h = Ok e /\ exists r, d = r ++ [e]).
Proof.
  intros name i h. unfold feed_data, latest, entries, series_add. split; [|split; [|split]].
  - intros ->. easy.
  - destruct (hget h name) as [s|]; simpl; [|discriminate]. intros [= Hd]. unfold series_latest. now rewrite Hd.
  - intros Hn. destruct (hget h name) as [s|]; [|easy]. unfold to_entry.
    destruct i as [x|[|x r]]; simpl; split; intros H; try discriminate; reflexivity.
  - destruct (hget h name) as [s|]; simpl; [|discriminate]. intros d [= <-] Hne. unfold series_latest.
    destruct (h_data s) as [|a r] eqn:Ed; [easy|]. eexists. split; [reflexivity|].
    assert (G : forall (q : list entry) a0, exists p, a0 :: q = p ++ [last q a0]).
    { clear. induction q as [|b q IH]; intros a0; [now exists []|].
      destruct (IH b) as (p & Hp). exists (a0 :: p). cbn [app].
      assert (Hl : last (b :: q) a0 = last q b).
      { clear. revert a0 b. induction q as [|c q IHq]; intros a0 b; [reflexivity|].
        change (last (b :: c :: q) a0) with (last (c :: q) a0).
        rewrite IHq. change (last (c :: q) b) with (last (c :: q) b). now rewrite <- (IHq b c). }
      rewrite Hl. now rewrite <- Hp. }
    apply G.
Qed.
Print Assumptions C38_errors.

Example C38_instance :
  let h := hist_add "b" "min-max-mean" false (hist_add "a" "value" true []) in
  exists h', feeds [("a", IScalar 1); ("b", IArray [2; 2]); ("a", IScalar 3)] h = Ok h' /\
    entries h' "a" = Some [EScalar 1; EScalar 3] /\ latest "a" h' = Ok (EScalar 3) /\
    hget h "c" = None /\ entries h "a" = Some [].
Proof. eexists. repeat split. Qed.

(* ---------- C39 ---------- *)
(* what is stored for an input is exactly its summary ... *)
Theorem C39_stored_summary : forall ptype i e, to_entry ptype i = Ok e -> summarises ptype i e.
Proof.
  intros ptype [x|[|x r]] e H; simpl in H; try discriminate; injection H as <-; [reflexivity|].
  exists (list_min x r), (list_max x r), (if String.eqb ptype "min-max-mean-std" then [np_std (x :: r)] else []).
  split; [reflexivity|]. destruct (list_min_spec r x) as (A1 & A2 & A3). destruct (list_max_spec r x) as (B1 & B2 & B3).
  split; [|split].
  - split; [simpl in *; intuition|]. intros y [<-|Hy]; auto.
  - split; [simpl in *; intuition|]. intros y [<-|Hy]; auto.
  - destruct (String.eqb ptype "min-max-mean-std"); [|reflexivity].
    exists (np_std (x :: r)). split; [reflexivity|]. unfold np_std.
    split; [apply sqrt_pos|]. rewrite sqrt_sqrt.
    + unfold mean at 1. rewrite map_length. unfold mean. field. apply not_0_INR. simpl. lia.
    + unfold mean. apply Rmult_le_pos.
      * clear. generalize (rsum (x :: r) / INR (List.length (x :: r))). intros c.
        induction (x :: r) as [|y l IH]; simpl; [lra|]. pose proof (Rle_0_sqr (y - c)). unfold Rsqr in *. lra.
      * left. apply Rinv_0_lt_compat. rewrite map_length. apply lt_0_INR. simpl. lia.
Qed.
Print Assumptions C39_stored_summary.

(* ... and every non-empty array is accepted, with min <= mean <= max and
   0 <= std <= (max - min) / 2 *)
Theorem C39_ordered : forall ptype xs, xs <> [] ->
  exists mn me mx rest, to_entry ptype (IArray xs) = Ok (EStats (mn :: me :: mx :: rest)) /\
    mn <= me <= mx /\ (forall sd, In sd rest -> 0 <= sd <= (mx - mn) / 2) /\
    (rest = [] <-> ptype <> "min-max-mean-std").
Proof.
  intros ptype xs Hne. destruct xs as [|x r]; [easy|].
  destruct (list_min_spec r x) as (A1 & A2 & A3). destruct (list_max_spec r x) as (B1 & B2 & B3).
  assert (Hb : forall y, In y (x :: r) -> list_min x r <= y <= list_max x r).
  { intros y [<-|Hy]; auto. }
  exists (list_min x r), (mean (x :: r)), (list_max x r),
    (if String.eqb ptype "min-max-mean-std" then [np_std (x :: r)] else []).
  split; [reflexivity|]. split; [apply mean_bounds; [easy|exact Hb]|].
  destruct (String.eqb_spec ptype "min-max-mean-std") as [->|Hn].
  - split; [|split; [discriminate|easy]]. intros sd [<-|[]]. apply std_bound; [easy|exact Hb].
  - split; [intros sd []|easy].
Qed.
Print Assumptions C39_ordered.
Example C39_instance : exists e, to_entry "min-max-mean-std" (IArray [1; 3]) = Ok e /\
  e = EStats [1; 2; 3; 1].
Proof.
  eexists. split; [reflexivity|]. cbn [app map list_min list_max]. unfold np_std, mean. simpl.
  replace ((1 + (3 + 0)) / (1 + 1)) with 2 by lra.
  replace (((1 - 2) * (1 - 2) + ((3 - 2) * (3 - 2) + 0)) / (1 + 1)) with 1 by lra. rewrite sqrt_1.
  rewrite Rmin_left, Rmax_right by lra. reflexivity.
Qed.

(* ---------- C40 ---------- *)
Definition homogeneous (is : list input) : Prop :=
  (exists xs, is = map IScalar xs) \/ (exists xss, is = map IArray xss).

Lemma registry_keys regs : map fst (registry regs) = map fst regs.
Proof. unfold registry. rewrite map_map. apply map_ext. reflexivity. Qed.
Lemma registry_in regs k s : In (k, s) (registry regs) -> h_name s = k /\ h_data s = [] /\ In k (map fst regs).
Proof.
  unfold registry. intros H. apply in_map_iff in H. destruct H as ((n & t & b) & He & Hin). simpl in He.
  injection He as <- <-. repeat split. apply (in_map fst) in Hin. exact Hin.
Qed.
Lemma feeds_keys l : forall h h', feeds l h = Ok h' -> map fst h' = map fst h.
Proof.
  induction l as [|[n i] l IH]; intros h h' H; simpl in H; [now injection H as <-|].
  destruct (feed_data n i h) as [h1|] eqn:E; [|discriminate]. simpl in H.
  apply feed_ok in E. destruct E as (_ & _ & _ & _ & _ & _ & Hk). rewrite (IH _ _ H). exact Hk.
Qed.
Lemma in_hget {V} (h : list (string * V)) k : In k (map fst h) -> exists v, hget h k = Some v /\ In (k, v) h.
Proof.
  induction h as [|[q w] h IH]; simpl; [easy|]. destruct (String.eqb_spec k q) as [->|Hn].
  - eauto.
  - intros [Hq|Hin]; [congruence|]. destruct (IH Hin) as (v & Hv & Hi). eauto.
Qed.
Lemma hget_In {V} (h : list (string * V)) k v : hget h k = Some v -> In (k, v) h.
Proof.
  induction h as [|[q w] h IH]; simpl; [easy|]. destruct (String.eqb_spec k q) as [->|Hn]; [|auto].
  intros [= ->]. now left.
Qed.
Lemma to_entries_storable ptype is es : homogeneous is ->
  Forall2 (fun i e => to_entry ptype i = Ok e) is es ->
  (exists xs, es = map EScalar xs) \/
  (exists rows, es = map EStats rows /\ Forall (fun r => List.length r = stat_len ptype) rows).
Proof.
  intros [(xs & ->)|(xss & ->)] HF; [left|right].
  - revert es HF. induction xs as [|x xs IH]; intros es HF; inversion HF as [|? ? ? ? Hx HF']; subst; [now exists []|].
    destruct (IH _ HF') as (ys & ->). simpl in Hx. injection Hx as <-. now exists (x :: ys).
  - revert es HF. induction xss as [|x xs IH]; intros es HF; inversion HF as [|? ? ? ? Hx HF']; subst.
    + exists []. split; [reflexivity|constructor].
    + destruct (IH _ HF') as (ys & -> & Hy). simpl in Hx. destruct x as [|a r]; [discriminate|].
      injection Hx as <-. eexists (_ :: ys). split; [reflexivity|]. constructor; [|exact Hy].
      unfold stat_len. destruct (String.eqb ptype "min-max-mean-std"); reflexivity.
Qed.

(* Any recorder built by add calls with distinct names and fed any history in
   which no series mixes scalars and arrays: exporting (which re-imports) keeps
   every series that has been fed exactly as it is.  MISSING for the full C40:
   series that were never fed, names ending in "_header", a series named
   "file", and series mixing scalars and arrays; all four refuted below. *)
Theorem C40_export_import_partial : forall regs l h,
  NoDup (map fst regs) ->
  (forall n, In n (map fst regs) -> ends_header n = false /\ n <> "file") ->
  feeds l (registry regs) = Ok h ->
  (forall n, In n (map fst regs) -> homogeneous (inputs_for n l)) ->
  exists h', export_histories h = Ok h' /\
    (forall n s, hget h n = Some s -> h_data s <> [] -> hget h' n = Some s) /\
    ((forall n, In n (map fst regs) -> inputs_for n l <> []) -> h' = h).
Proof.
  intros regs l h Hnd Hn Hf Hhom.
  assert (Hkeys : map fst h = map fst regs) by now rewrite (feeds_keys _ _ _ Hf), registry_keys.
  assert (Hndh : NoDup (map fst h)) by now rewrite Hkeys.
  assert (Hall : forall k s, In (k, s) h -> h_name s = k /\ In k (map fst regs) /\ storable s /\
            (inputs_for k l <> [] -> h_data s <> [])).
  { intros k s Hin. assert (Hk : In k (map fst regs)) by (rewrite <- Hkeys; apply (in_map fst) in Hin; exact Hin).
    rewrite <- registry_keys in Hk. destruct (in_hget _ _ Hk) as (s0 & Hg0 & Hi0).
    rewrite registry_keys in Hk. destruct (registry_in _ _ _ Hi0) as (Hn0 & Hd0 & _).
    destruct (feeds_ok _ _ _ _ _ Hf Hg0) as (es & HF & Hgs).
    rewrite (hget_in h k s Hndh Hin) in Hgs. injection Hgs as ->. simpl. rewrite Hd0. simpl.
    split; [exact Hn0|]. split; [exact Hk|]. split.
    - unfold storable. simpl. apply (to_entries_storable _ _ _ (Hhom k Hk) HF).
    - intros Hne ->. inversion HF as [E|]; subst. congruence. }
  assert (Hnone : hget h "file" = None).
  { apply hget_none. rewrite Hkeys. intros Hin. now apply Hn in Hin. }
  assert (HE : export_histories h = Ok (if forallb (fun ks => negb (nonempty ks)) h then h else filter nonempty h)).
  { apply export_result; [|intros k s Hin; now apply (Hall k s)|exact Hnone].
    split; [exact Hndh|]. intros k s Hin. destruct (Hall k s Hin) as (A & B & _). split; [exact A|]. now apply Hn. }
  eexists. split; [exact HE|]. split.
  - intros n s Hs Hne. destruct (forallb _ h); [exact Hs|].
    apply hget_in; [now apply filter_keys_nodup|]. apply filter_In. split; [now apply hget_In|].
    unfold nonempty. simpl. destruct (h_data s); [easy|reflexivity].
  - intros Hfed. destruct (forallb _ h); [reflexivity|].
    assert (G : forall q, (forall k s, In (k, s) q -> h_data s <> []) -> filter nonempty q = q).
    { induction q as [|[k s] q IH]; intros Hq; [reflexivity|]. cbn [filter]. unfold nonempty at 1. simpl.
      destruct (h_data s) eqn:Ed; [exfalso; apply (Hq k s); [now left|exact Ed]|].
      f_equal. apply IH. intros k' s' Hin. apply (Hq k' s'). now right. }
    apply G. intros k s Hin. destruct (Hall k s Hin) as (_ & Hk & _ & H). apply H. now apply Hfed.
Qed.
Print Assumptions C40_export_import_partial.

(* the hypotheses hold for a recorder like the optimizers' *)
Example C40_instance :
  let regs := [("energy", ("min-max-mean-std", false)); ("vol_error", ("value", false)); ("lmid", ("value", true))] in
  let l := [("energy", IArray [1; 2]); ("lmid", IScalar 5); ("vol_error", IScalar 0); ("lmid", IScalar 4)] in
  NoDup (map fst regs) /\ (forall n, In n (map fst regs) -> ends_header n = false /\ n <> "file") /\
  (exists h, feeds l (registry regs) = Ok h) /\
  (forall n, In n (map fst regs) -> homogeneous (inputs_for n l) /\ inputs_for n l <> []).
Proof.
  split; [|split; [|split]].
  - repeat constructor; simpl; intuition; discriminate.
  - simpl. intros n [<-|[<-|[<-|[]]]]; split; try reflexivity; discriminate.
  - eexists. reflexivity.
  - simpl. intros n [<-|[<-|[<-|[]]]]; (split; [|discriminate]).
    + right. now exists [[1; 2]].
    + left. now exists [0].
    + left. now exists [5; 4].
Qed.

(* REFUTED for a registered but not yet fed series: exporting forgets it, and
   the next feed raises KeyError - for every such series, next to any fed one *)
Theorem C40_refuted_empty_series : forall n1 n2 t1 t2 b1 b2 x i,
  n1 <> n2 -> ends_header n1 = false -> ends_header n2 = false -> n1 <> "file" -> n2 <> "file" ->
  exists h h', feeds [(n1, IScalar x)] (registry [(n1, (t1, b1)); (n2, (t2, b2))]) = Ok h /\
    hget h n2 <> None /\ export_histories h = Ok h' /\ hget h' n2 = None /\
    feed_data n2 i h' = Err KeyError.
Proof.
  intros n1 n2 t1 t2 b1 b2 x i Hne He1 He2 Hf1 Hf2.
  assert (E12 : String.eqb n1 n2 = false) by now apply String.eqb_neq.
  assert (E21 : String.eqb n2 n1 = false) by (apply String.eqb_neq; congruence).
  pose (h := [(n1, mkSeries n1 t1 b1 None [EScalar x]); (n2, mkSeries n2 t2 b2 None [])]).
  assert (Hex : export_histories h = Ok [(n1, mkSeries n1 t1 b1 None [EScalar x])]).
  { rewrite export_result.
    - reflexivity.
    - split; [repeat constructor; simpl; intuition|]. simpl.
      intros k s [H|[H|[]]]; injection H as <- <-; auto.
    - simpl. intros k s [H|[H|[]]]; injection H as <- <-; left; [now exists [x]|now exists []].
    - apply hget_none. simpl. intuition congruence. }
  exists h, [(n1, mkSeries n1 t1 b1 None [EScalar x])].
  split; [|split; [|split; [exact Hex|]]].
  - simpl. unfold feed_data. simpl. rewrite String.eqb_refl. reflexivity.
  - simpl. rewrite E21, String.eqb_refl. discriminate.
  - unfold feed_data. simpl. rewrite E21. easy.
Qed.
Print Assumptions C40_refuted_empty_series.

(* REFUTED for the other three cases, by concrete recorders *)
Theorem C40_refuted_other_cases :
  (* a series whose name ends in "_header" is lost *)
  (exists h h', feeds [("a", IScalar 1); ("b_header", IScalar 2)]
                      (registry [("a", ("value", false)); ("b_header", ("value", false))]) = Ok h /\
     export_histories h = Ok h' /\ hget h "b_header" <> None /\ hget h' "b_header" = None) /\
  (* a series named "file" makes every export raise *)
  (exists h, feeds [("file", IScalar 1)] (registry [("file", ("value", false))]) = Ok h /\
     export_histories h = Err TypeError) /\
  (* a series fed a scalar and an array makes every later export raise *)
  (exists h, feeds [("a", IScalar 1); ("a", IArray [1; 2])] (registry [("a", ("min-max-mean", false))]) = Ok h /\
     export_histories h = Err ValueError).
Proof.
  split; [|split].
  - eexists. eexists. split; [reflexivity|]. split; [reflexivity|]. split; [discriminate|reflexivity].
  - eexists. split; reflexivity.
  - eexists. split; reflexivity.
Qed.
Print Assumptions C40_refuted_other_cases.

(* an entry of a different shape than the first cannot be exported *)
Theorem C39_mixed_entries_refused : forall s x l r, h_data s = x :: r -> In l r ->
  (match x, l with EScalar _, EStats _ => True | EStats _, EScalar _ => True | EStats a, EStats b => List.length b <> List.length a | _, _ => False end) ->
  data_to_array s = Err ValueError.
Proof.
  intros s x l r Hd Hin Hx.
  assert (A : forall a, (match a, l with EScalar _, EStats _ => True | _, _ => False end) -> forall r, In l r -> all_scalars r = None).
  { intros a Ha. destruct a, l; try easy. induction r0 as [|y r0 IH]; [easy|]. intros [->|H]; [reflexivity|]. cbn [all_scalars]. destruct y; [|reflexivity]. now rewrite IH. }
  assert (B : forall k, (match l with EScalar _ => True | EStats b => List.length b <> k end) -> forall r, In l r -> all_stats k r = None).
  { intros k Hk. induction r0 as [|y r0 IH]; [easy|]. intros [->|H]; cbn [all_stats].
    - destruct l; [reflexivity|]. destruct (Nat.eqb_spec (List.length l) k); [contradiction|reflexivity].
    - destruct y; [reflexivity|]. destruct (Nat.eqb _ _); [|reflexivity]. now rewrite IH. }
  unfold data_to_array. rewrite Hd. destruct x as [v|v].
  - rewrite (A (EScalar v)); [reflexivity|destruct l; easy|now right].
  - rewrite (B (List.length v)); [reflexivity|destruct l; easy|now right].
Qed.
Print Assumptions C39_mixed_entries_refused.
(* a series the optimizer did not register is imported with no constants and a linear
   axis *)
Theorem C39_unregistered_series_imported_plain : forall old name ptype xs,
  ends_header name = false -> hget old name = None ->
  import_histories (Some [(name, ZArr (A1 xs)); ((name ++ "_header")%string, ZHeader name ptype)]) old =
  [(name, mkSeries name ptype false None (map EScalar xs))].
Proof.
  intros old name ptype xs Hn Ho. unfold import_histories. cbn [import_loop]. rewrite Hn, ends_header_app.
  assert (Hh : hget [(name, ZArr (A1 xs)); ((name ++ "_header")%string, ZHeader name ptype)] (name ++ "_header") = Some (ZHeader name ptype)).
  { cbn [hget]. destruct (String.eqb_spec (name ++ "_header") name) as [E|_]; [exfalso; rewrite <- E, ends_header_app in Hn; discriminate|].
    now rewrite String.eqb_refl. }
  rewrite Hh, Ho. reflexivity.
Qed.
Print Assumptions C39_unregistered_series_imported_plain.
