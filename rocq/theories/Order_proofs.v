From Coq Require Import Permutation FunctionalExtensionality Sorting.Sorted.
From Verif Require Import Base Sums Material_model OC_model OC_spec OC_proofs Filter_model Filter_proofs Mesh_model Mesh_proofs Fea_model Fea_spec Fea_proofs
  Iter_model Iter_spec Iter_proofs Grad_proofs Grad_props Iter_props Scale_proofs HeatIter_props Order_spec.
Open Scope R_scope.
Open Scope list_scope.

Lemma rsum_perm l m : Permutation l m -> rsum l = rsum m.
Proof. induction 1; rewrite ?rs_cons1; try lra. Qed.
Lemma perm_filter {A} (g : A -> bool) l m : Permutation l m -> Permutation (filter g l) (filter g m).
Proof.
  induction 1 as [|x l m _ IH|x y l|l m k _ IH1 _ IH2]; cbn [filter].
  - constructor.
  - destruct (g x); [now constructor|exact IH].
  - destruct (g x), (g y); try apply Permutation_refl. apply perm_swap.
  - eapply Permutation_trans; eassumption.
Qed.
Lemma filter_map {A C} (h : A -> C) (g : C -> bool) l : map h (filter (fun x => g (h x)) l) = filter g (map h l).
Proof. induction l as [|x l IH]; [reflexivity|]. cbn [filter map]. destruct (g (h x)); cbn [map]; now rewrite IH. Qed.
Lemma filter_ext_in' {A} (g h : A -> bool) l : (forall x, In x l -> g x = h x) -> filter g l = filter h l.
Proof. induction l as [|x l IH]; intros H; [reflexivity|]. cbn [filter]. rewrite (H x) by now left. rewrite IH by (intros; apply H; now right). reflexivity. Qed.

Lemma nth_map_seq_any (g : R -> R) x e : (e < List.length x)%nat -> nth e (map g x) 0 = g (nth e x 0).
Proof. intros He. rewrite (nth_indep _ 0 (g 0)) by (rewrite map_length; exact He). apply map_nth. Qed.
Lemma insert_swap x y : forall l, insert_r x (insert_r y l) = insert_r y (insert_r x l).
Proof.
  induction l as [|z l IH]; cbn [insert_r].
  - destruct (Rle_dec x y), (Rle_dec y x); try reflexivity; try lra. replace x with y by lra. reflexivity.
  - destruct (Rle_dec y z), (Rle_dec x z); cbn [insert_r];
      repeat match goal with |- context [Rle_dec ?a ?b] => destruct (Rle_dec a b); try lra end; try reflexivity; try (now rewrite IH).
    replace x with y by lra. reflexivity.
Qed.
Lemma sort_perm l m : Permutation l m -> sort_r l = sort_r m.
Proof.
  induction 1 as [|x l m _ IH|x y l|l m k _ IH1 _ IH2]; cbn [sort_r fold_right]; [reflexivity| |apply insert_swap|congruence].
  fold (sort_r l) (sort_r m). now rewrite IH.
Qed.
Lemma percentile_perm l m q : Permutation l m -> np_percentile l q = np_percentile m q.
Proof. intros H. unfold np_percentile. now rewrite (sort_perm l m H), (Permutation_length H). Qed.
Lemma Rmax_assoc_local a b c : Rmax (Rmax a b) c = Rmax a (Rmax b c).
Proof. unfold Rmax. repeat destruct (Rle_dec _ _); lra. Qed.
Lemma maxl_perm : forall l m, Permutation l m -> forall x, fold_left Rmax l x = fold_left Rmax m x.
Proof.
  induction 1 as [|x l m _ IH|x y l|l m k _ IH1 _ IH2]; intros z; cbn [fold_left]; [reflexivity|apply IH| |congruence].
  f_equal. rewrite !Rmax_assoc_local. f_equal. apply Rmax_comm.
Qed.
Lemma np_max_perm l m : Permutation l m -> np_max l = np_max m.
Proof.
  intros H. destruct l as [|x l]; [apply Permutation_nil in H; now subst|]. destruct m as [|y m]; [apply Permutation_sym, Permutation_nil in H; discriminate|].
  cbn [np_max]. assert (G : forall z t, fold_left Rmax (z :: t) z = fold_left Rmax t z) by (intros; cbn; f_equal; apply Rmax_left; lra).
  assert (G2 : forall z t w, fold_left Rmax t (Rmax w z) = Rmax w (fold_left Rmax t z)).
  { intros z t. revert z. induction t as [|a t IH]; intros z w; cbn [fold_left]; [reflexivity|]. rewrite <- IH. f_equal. now rewrite Rmax_assoc_local. }
  pose proof (maxl_perm _ _ H x) as Q1. pose proof (maxl_perm _ _ H y) as Q2. rewrite G in Q1. rewrite G in Q2. cbn [fold_left] in Q1, Q2.
  rewrite (G2 y m x) in Q1. rewrite (G2 x l y) in Q2. pose proof (Rmax_l x (fold_left Rmax m y)). pose proof (Rmax_r x (fold_left Rmax m y)). pose proof (Rmax_l y (fold_left Rmax l x)). pose proof (Rmax_r y (fold_left Rmax l x)). lra.
Qed.
Definition is_some (o : option R) : bool := match o with Some _ => true | None => false end.
Definition some_of (o : option R) : R := match o with Some y => y | None => 0 end.
Lemma all_some_form (g : nat -> option R) l : all_some (map g l) = if forallb (fun i => is_some (g i)) l then Some (map (fun i => some_of (g i)) l) else None.
Proof. induction l as [|x l IH]; [reflexivity|]. cbn [map all_some forallb]. rewrite IH. destruct (g x); cbn [is_some andb]; [|reflexivity]. destruct (forallb _ l); reflexivity. Qed.
Lemma forallb_perm {A} (g : A -> bool) l m : Permutation l m -> forallb g l = forallb g m.
Proof. induction 1; cbn [forallb]; try congruence. now rewrite !andb_assoc, (andb_comm (g y)). Qed.
Lemma zip_maps {A B C D} (h : A -> B -> C) (a : D -> A) (b : D -> B) l : zipwith h (map a l) (map b l) = map (fun i => h (a i) (b i)) l.
Proof. induction l as [|x l IH]; [reflexivity|]. cbn [map zipwith]. now rewrite IH. Qed.
Lemma combine_maps {A B D} (a : D -> A) (b : D -> B) l : combine (map a l) (map b l) = map (fun i => (a i, b i)) l.
Proof. induction l as [|x l IH]; [reflexivity|]. cbn [map combine]. now rewrite IH. Qed.
Lemma F2_len {A B} (P : A -> B -> Prop) l m : Forall2 P l m -> List.length l = List.length m.
Proof. induction 1; cbn; congruence. Qed.
Lemma old_range n d : numbering n d -> forall k, (k < n)%nat -> (old d k < n)%nat.
Proof.
  intros H k Hk. assert (L : List.length d = n) by (rewrite (Permutation_length H); apply seq_length).
  assert (Q : In (nth k d 0%nat) d) by (apply nth_In; lia). apply (Permutation_in _ H), in_seq in Q. unfold old. lia.
Qed.
Lemma sum_perm_old n d : numbering n d -> forall g, sum n (fun k => g (old d k)) = sum n g.
Proof.
  intros H g. unfold sum, old. assert (L : List.length d = n) by (rewrite (Permutation_length H); apply seq_length).
  transitivity (rsum (map g d)); [|apply rsum_perm, Permutation_map, H]. f_equal. rewrite <- (map_map (fun k => nth k d 0%nat) g). f_equal. rewrite <- L. apply map_nth_seq.
Qed.
(* strain energies do not see mirrors and right angles *)
Lemma turn_sum tu g : Permutation (map tu (seq 0 3)) (seq 0 3) -> sum 3 (fun i => g (tu i)) = sum 3 g.
Proof. intros H. unfold sum. rewrite <- (map_map tu g). now apply rsum_perm, Permutation_map. Qed.
Lemma trace_sum (K : tensor) : trace K = sum 3 (fun i => K i i).
Proof. unfold trace, sum. cbn [seq map]. unfold rsum. cbn [fold_right]. ring. Qed.
Lemma form_mirror ax tu s t lam mu G H G' H' : (forall i, ax i = 1 \/ ax i = -1) -> Permutation (map tu (seq 0 3)) (seq 0 3) ->
  (forall i j, (i < 3)%nat -> (j < 3)%nat -> G' i j = s * (ax i * ax j) * G (tu i) (tu j)) -> (forall i j, (i < 3)%nat -> (j < 3)%nat -> H' i j = t * (ax i * ax j) * H (tu i) (tu j)) ->
  stiffness_form lam mu G' H' = s * t * stiffness_form lam mu G H.
Proof.
  intros A T HG HH. assert (A2 : forall i, ax i * ax i = 1) by (intros i; destruct (A i) as [-> | ->]; ring).
  assert (SG : forall i j, (i < 3)%nat -> (j < 3)%nat -> sym_grad G' i j = s * (ax i * ax j) * sym_grad G (tu i) (tu j)) by (intros i j Hi Hj; unfold sym_grad; rewrite !HG by assumption; field).
  assert (SH : forall i j, (i < 3)%nat -> (j < 3)%nat -> sym_grad H' i j = t * (ax i * ax j) * sym_grad H (tu i) (tu j)) by (intros i j Hi Hj; unfold sym_grad; rewrite !HH by assumption; field).
  assert (TG : trace (sym_grad G') = s * trace (sym_grad G)).
  { rewrite !trace_sum. rewrite <- (turn_sum tu (fun i => sym_grad G i i) T), <- sum_scal. apply sum_ext. intros i Hi. rewrite SG, A2 by exact Hi. ring. }
  assert (TH : trace (sym_grad H') = t * trace (sym_grad H)).
  { rewrite !trace_sum. rewrite <- (turn_sum tu (fun i => sym_grad H i i) T), <- sum_scal. apply sum_ext. intros i Hi. rewrite SH, A2 by exact Hi. ring. }
  assert (DD : ddot (sym_grad G') (sym_grad H') = s * t * ddot (sym_grad G) (sym_grad H)).
  { unfold ddot. rewrite <- (turn_sum tu (fun i => sum 3 (fun j => sym_grad G i j * sym_grad H i j)) T), <- sum_scal. apply sum_ext. intros i Hi.
    rewrite <- (turn_sum tu (fun j => sym_grad G (tu i) j * sym_grad H (tu i) j) T), <- sum_scal. apply sum_ext. intros j Hj. rewrite SG, SH by assumption.
    replace (s * (ax i * ax j) * sym_grad G (tu i) (tu j) * (t * (ax i * ax j) * sym_grad H (tu i) (tu j)))
      with (ax i * ax i * (ax j * ax j) * (s * t * (sym_grad G (tu i) (tu j) * sym_grad H (tu i) (tu j)))) by ring. rewrite !A2. ring. }
  unfold stiffness_form. rewrite TG, TH, DD. ring.
Qed.
Lemma density_mirror ax tu lam mu G G' : (forall i, ax i = 1 \/ ax i = -1) -> Permutation (map tu (seq 0 3)) (seq 0 3) ->
  (forall i j, (i < 3)%nat -> (j < 3)%nat -> G' i j = ax i * ax j * G (tu i) (tu j)) -> energy_density lam mu G' = energy_density lam mu G.
Proof.
  intros A T HG.
  assert (F : forall K, energy_density lam mu K = / 2 * stiffness_form lam mu K K).
  { intros K. unfold energy_density, stiffness_form, ddot, stress, trace, sym_grad, delta, sum. cbn [seq map]. unfold rsum. cbn [fold_right Nat.eqb]. field. }
  rewrite !F. rewrite (form_mirror ax tu 1 1 lam mu G G G' G' A T); [ring| |]; intros i j Hi Hj; rewrite HG by assumption; ring.
Qed.
Section Numbering.
Variables (n : nat) (p : list nat).
Hypothesis Hp : numbering n p.
Lemma p_len : List.length p = n.
Proof. rewrite (Permutation_length Hp). apply seq_length. Qed.
Lemma old_lt e : (e < n)%nat -> (old p e < n)%nat.
Proof.
  intros He. unfold old. assert (Q : In (nth e p 0%nat) p) by (apply nth_In; rewrite p_len; exact He).
  apply (Permutation_in _ Hp), in_seq in Q. lia.
Qed.
Lemma old_map : map (old p) (seq 0 n) = p.
Proof. unfold old. rewrite <- p_len. apply map_nth_seq. Qed.
Lemma old_inj e e' : (e < n)%nat -> (e' < n)%nat -> old p e = old p e' -> e = e'.
Proof.
  intros H1 H2 H. assert (ND : NoDup p) by (eapply Permutation_NoDup; [apply Permutation_sym, Hp|apply seq_NoDup]).
  apply (proj1 (NoDup_nth p 0%nat) ND); rewrite ?p_len; assumption.
Qed.
Lemma old_onto e : (e < n)%nat -> exists e', (e' < n)%nat /\ old p e' = e.
Proof.
  intros He. assert (Q : In e p) by (apply (Permutation_in _ (Permutation_sym Hp)), in_seq; lia).
  destruct (In_nth p e 0%nat Q) as (k & Hk & E). rewrite p_len in Hk. eauto.
Qed.
Lemma re_nth {A} (d : A) x e : (e < n)%nat -> nth e (reorder d p x) d = nth (old p e) x d.
Proof.
  intros He. unfold reorder, old. rewrite <- p_len in He. rewrite (nth_indep _ d (nth (nth 0 p 0%nat) x d)) by (rewrite map_length; exact He).
  rewrite (nth_indep _ _ (nth 0%nat x d)) by (rewrite map_length; exact He). exact (map_nth (fun k => nth k x d) p 0%nat e).
Qed.
Lemma re_len {A} (d : A) x : List.length (reorder d p x) = n.
Proof. unfold reorder. rewrite map_length. apply p_len. Qed.
Lemma re_build (x y : list R) : List.length y = n -> (forall e, (e < n)%nat -> nth e y 0 = nth (old p e) x 0) -> y = reorder 0 p x.
Proof.
  intros Hl H. apply nth_ext with 0 0; [now rewrite re_len|]. intros e He. rewrite Hl in He. rewrite re_nth by exact He. now apply H.
Qed.
Lemma sum_old g : sum n (fun e => g (old p e)) = sum n g.
Proof. unfold sum. rewrite <- (map_map (old p) g), old_map. apply rsum_perm, Permutation_map, Hp. Qed.
Lemma mask_old mask e : (e < n)%nat -> is_design (option_map (reorder false p) mask) e = is_design mask (old p e).
Proof. intros He. destruct mask as [m|]; cbn; [|reflexivity]. now apply re_nth. Qed.
Lemma ids_old mask : Permutation (map (old p) (design_ids (option_map (reorder false p) mask) n)) (design_ids mask n).
Proof.
  unfold design_ids. rewrite (filter_ext_in' _ (fun e => is_design mask (old p e))) by (intros e He; apply in_seq in He; apply mask_old; lia).
  rewrite filter_map, old_map. apply perm_filter, Hp.
Qed.
Lemma set_old l l' : NoDup l -> NoDup l' -> (forall e, In e l -> (e < n)%nat) -> (forall e, In e l' -> (e < n)%nat) -> same_set n p l l' -> Permutation (map (old p) l') l.
Proof.
  intros N1 N2 R1 R2 H. apply NoDup_Permutation.
  - clear - N2 R2 Hp. induction N2 as [|x l' Hx _ IH]; cbn [map]; constructor.
    + intros Q. apply in_map_iff in Q. destruct Q as (y & E & Hy). apply Hx. replace x with y; [exact Hy|]. apply old_inj; [apply R2; now right|apply R2; now left|exact E].
    + apply IH. intros e He. apply R2. now right.
  - exact N1.
  - intros e. rewrite in_map_iff. split.
    + intros (y & <- & Hy). apply H; auto.
    + intros He. destruct (old_onto e (R1 e He)) as (y & Hy & <-). exists y. split; [reflexivity|]. now apply H.
Qed.

(* the filter *)
Section Filter.
Variables (v : ivals) (f f' : sfilter).
Hypothesis Hf : filter_reordered p f f'.
Hypothesis Hc : List.length (sf_centers f) = n.
Let kf := kernel KGaussian (v_radius v).
Lemma c_len : List.length (sf_centers f') = n.
Proof. rewrite (fr_len _ _ _ Hf). exact Hc. Qed.
Let ids := design_ids (sf_mask f) n.
Let ids' := design_ids (sf_mask f') n.
Lemma ids_perm : Permutation (map (old p) ids') ids.
Proof. unfold ids, ids'. rewrite (fr_mask _ _ _ Hf). apply ids_old. Qed.
Lemma ids_lt e : In e ids' -> (e < n)%nat.
Proof. intros H. apply ids_in in H. apply H. Qed.
Lemma ids_sum_old (g g' : nat -> R) : (forall e, (e < n)%nat -> g' e = g (old p e)) -> rsum (map g' ids') = rsum (map g ids).
Proof.
  intros H. rewrite (map_ext_in _ (fun e => g (old p e))) by (intros e He; apply H, ids_lt, He).
  rewrite <- (map_map (old p) g). apply rsum_perm, Permutation_map, ids_perm.
Qed.
Lemma wraw_old k r i j : (i < n)%nat -> (j < n)%nat -> wraw k r (sf_centers f') i j = wraw k r (sf_centers f) (old p i) (old p j).
Proof. intros Hi Hj. unfold wraw. rewrite (fr_dist _ _ _ Hf) by (rewrite Hc; assumption). reflexivity. Qed.
Lemma entry_old k r i j : (i < n)%nat -> (j < n)%nat -> entry k r (sf_centers f') ids' i j = entry k r (sf_centers f) ids (old p i) (old p j).
Proof.
  intros Hi Hj. unfold entry. rewrite wraw_old by assumption. f_equal. unfold rowsum. apply ids_sum_old. intros e He. now apply wraw_old.
Qed.
Lemma cv_old x y i : (i < n)%nat -> (forall e, (e < n)%nat -> nth e y 0 = nth (old p e) x 0) -> cv v f' y i = cv v f x (old p i).
Proof.
  intros Hi H. unfold cv, conv. rewrite c_len, Hc. fold ids ids'.
  apply (ids_sum_old (fun j => entry (kernel KGaussian (v_radius v)) _ (sf_centers f) ids (old p i) j * nth j x 0)). intros e He. now rewrite entry_old, H by assumption.
Qed.
Lemma cvT_old x y i : (i < n)%nat -> (forall e, (e < n)%nat -> nth e y 0 = nth (old p e) x 0) -> cvT v f' y i = cvT v f x (old p i).
Proof.
  intros Hi H. unfold cvT, conv_T. rewrite c_len, Hc. fold ids ids'.
  apply (ids_sum_old (fun j => entry (kernel KGaussian (v_radius v)) _ (sf_centers f) ids j (old p i) * nth j x 0)). intros e He. now rewrite entry_old, H by assumption.
Qed.
Lemma design_old e : (e < n)%nat -> is_design (sf_mask f') e = is_design (sf_mask f) (old p e).
Proof. intros He. rewrite (fr_mask _ _ _ Hf). now apply mask_old. Qed.
Lemma filtered_len x : List.length (filtered v f x) = n.
Proof. unfold filtered. rewrite map_length, seq_length. exact Hc. Qed.
Lemma filtered_old x y : (forall e, (e < n)%nat -> nth e y 0 = nth (old p e) x 0) -> filtered v f' y = reorder 0 p (filtered v f x).
Proof.
  intros H. apply re_build; [unfold filtered; rewrite map_length, seq_length; apply c_len|]. intros e He.
  unfold filtered. rewrite c_len, Hc, !nth_map_seq' by (try apply old_lt; exact He). rewrite design_old by exact He. destruct (is_design _ _); [now apply cv_old|now apply H].
Qed.
Lemma f2_old : filter_reordered p (f2 v f) (f2 v f').
Proof. constructor; cbn [f2 sf_centers sf_mask sf_radius]; [apply Hf|apply Hf|apply Hf|reflexivity]. Qed.
End Filter.

(* the analysis *)
Lemma all_some_at {A} (m : A -> option R) d : forall l r, all_some (map m l) = Some r -> forall e, (e < List.length l)%nat -> m (nth e l d) = Some (nth e r 0).
Proof.
  induction l as [|x l IH]; intros r H e He; [cbn in He; lia|]. cbn [map all_some] in H. destruct (m x) as [y|] eqn:Ey; [|discriminate].
  destruct (all_some (map m l)) as [r'|] eqn:Er; [|discriminate]. injection H as <-. destruct e as [|e]; cbn [nth]; [exact Ey|]. apply IH; [reflexivity|]. cbn in He. lia.
Qed.
Section Analysis.
Variables (c : icfg) (pb pb' : problem) (v : ivals) (f f' : sfilter) (m : image).
Hypothesis Hr : reordered m c pb pb'.
Hypothesis Hm : m_elements m = p.
Hypothesis Hf : filter_reordered p f f'.
Hypothesis WP : well_posed pb c v f.
Hypothesis WP' : well_posed pb' c v f'.
Hypothesis Hc : List.length (sf_centers f) = n.
Let d := m_dofs m.
Let nd := fb_n (pb_basis pb).
Lemma ne_n : fb_ne (pb_basis pb) = n.
Proof. rewrite <- Hc. symmetry. apply (wp_elements _ _ _ _ WP). Qed.
Lemma Hd : numbering nd d.
Proof. apply (re_ok _ _ _ _ Hr). Qed.
Lemma sign2 k : m_sign m k * m_sign m k = 1.
Proof. destruct (re_ok _ _ _ _ Hr) as (_ & _ & _ & S & _). destruct (S k) as [-> | ->]; lra. Qed.
Section Moduli.
Variables (E E' : nat -> R).
Hypothesis HE : forall e, (e < n)%nat -> E' e = E (old p e).
Hypothesis HP : forall e, (e < n)%nat -> 0 < E e.
Lemma points_sum e g : (e < n)%nat -> sum (fb_nq (pb_basis pb)) (fun q => g (m_points m e q)) = sum (fb_nq (pb_basis pb)) g.
Proof.
  intros He. destruct (re_ok _ _ _ _ Hr) as (_ & _ & Q & _). unfold sum. rewrite <- (map_map (m_points m e) g). apply rsum_perm, Permutation_map, Q. rewrite ne_n. exact He.
Qed.
Lemma stiffness_old k l : (k < nd)%nat -> (l < nd)%nat ->
  stiffness (pb_basis pb') (pb_nu pb') E' k l = m_sign m k * m_sign m l * stiffness (pb_basis pb) (pb_nu pb) E (old d k) (old d l).
Proof.
  intros Hk Hl. unfold stiffness. rewrite (re_ne _ _ _ _ Hr), (re_nq _ _ _ _ Hr), (re_nu _ _ _ _ Hr).
  rewrite ne_n. rewrite <- (sum_old (fun e => sum (fb_nq (pb_basis pb)) (fun q => stiffness_form (lam_of E (pb_nu pb) e) (mu_of E (pb_nu pb) e) (fb_grad (pb_basis pb) e q (old d l)) (fb_grad (pb_basis pb) e q (old d k)) * fb_dx (pb_basis pb) e q))).
  rewrite <- sum_scal. apply sum_ext. intros e He.
  rewrite <- (points_sum e (fun q => stiffness_form (lam_of E (pb_nu pb) (old p e)) (mu_of E (pb_nu pb) (old p e)) (fb_grad (pb_basis pb) (old p e) q (old d l)) (fb_grad (pb_basis pb) (old p e) q (old d k)) * fb_dx (pb_basis pb) (old p e) q) He).
  rewrite <- sum_scal. apply sum_ext. intros q Hq. rewrite (re_dx _ _ _ _ Hr) by (rewrite ?ne_n; assumption). unfold lam_of, mu_of. rewrite HE by exact He. rewrite Hm.
  rewrite (form_mirror (m_axis m) (m_turn m) (m_sign m l) (m_sign m k) _ _ (fb_grad (pb_basis pb) (old p e) (m_points m e q) (old d l)) (fb_grad (pb_basis pb) (old p e) (m_points m e q) (old d k))); [ring| | | |].
  - apply (re_ok _ _ _ _ Hr).
  - apply (re_ok _ _ _ _ Hr).
  - intros i j Hi Hj. rewrite (re_grad _ _ _ _ Hr) by (rewrite ?ne_n; assumption). rewrite Hm. reflexivity.
  - intros i j Hi Hj. rewrite (re_grad _ _ _ _ Hr) by (rewrite ?ne_n; assumption). rewrite Hm. reflexivity.
Qed.
Section Solution.
Variables (u u' : vec).
Hypothesis Hu : forall k, (k < nd)%nat -> u' k = m_sign m k * u (old d k).
Lemma energy_old e : (e < n)%nat -> strain_energy (pb_basis pb') (pb_nu pb') E' u' e = strain_energy (pb_basis pb) (pb_nu pb) E u (old p e).
Proof.
  intros He. unfold strain_energy. rewrite (re_nq _ _ _ _ Hr), (re_nu _ _ _ _ Hr).
  rewrite <- (points_sum e (fun q => energy_density (lam_of E (pb_nu pb) (old p e)) (mu_of E (pb_nu pb) (old p e)) (grad_of (pb_basis pb) u (old p e) q) * fb_dx (pb_basis pb) (old p e) q) He).
  apply sum_ext. intros q Hq. rewrite (re_dx _ _ _ _ Hr) by (rewrite ?ne_n; assumption). rewrite Hm. f_equal. unfold lam_of, mu_of. rewrite HE by exact He.
  apply (density_mirror (m_axis m) (m_turn m)); [apply (re_ok _ _ _ _ Hr)|apply (re_ok _ _ _ _ Hr)|]. intros i j Hi Hj. unfold grad_of. rewrite (re_n _ _ _ _ Hr). fold nd.
  rewrite <- (sum_perm_old nd d Hd (fun k => u k * fb_grad (pb_basis pb) (old p e) (m_points m e q) k (m_turn m i) (m_turn m j))). rewrite <- sum_scal. apply sum_ext. intros k Hk.
  rewrite (re_grad _ _ _ _ Hr), Hu by (rewrite ?ne_n; assumption). rewrite Hm. fold d. pose proof (sign2 k) as S.
  replace (m_sign m k * u (old d k) * (m_sign m k * (m_axis m i * m_axis m j) * fb_grad (pb_basis pb) (old p e) (m_points m e q) (old d k) (m_turn m i) (m_turn m j)))
    with (m_sign m k * m_sign m k * (m_axis m i * m_axis m j * (u (old d k) * fb_grad (pb_basis pb) (old p e) (m_points m e q) (old d k) (m_turn m i) (m_turn m j)))) by ring. rewrite S. ring.
Qed.
Variables (g g' : vec).
Hypothesis Hg : forall k, (k < nd)%nat -> g' k = m_sign m k * g (old d k).
Lemma work_old : work nd (pb_D pb') g' u' = work nd (pb_D pb) g u.
Proof.
  unfold work. rewrite <- (sum_perm_old nd d Hd (fun i => if Mesh_model.mem i (pb_D pb) then 0 else g i * u i)). apply sum_ext. intros k Hk.
  pose proof (re_D _ _ _ _ Hr k Hk) as Q. fold d in Q.
  assert (E0 : Mesh_model.mem k (pb_D pb') = Mesh_model.mem (old d k) (pb_D pb)).
  { destruct (Mesh_model.mem (old d k) (pb_D pb)) eqn:M; [apply mem_in; apply mem_in in M; tauto|apply mem_false; apply mem_false in M; tauto]. }
  cbv beta. rewrite E0. clear E0. destruct (Mesh_model.mem (old d k) (pb_D pb)); [reflexivity|]. rewrite Hg, Hu by exact Hk. pose proof (sign2 k). replace (m_sign m k * g (old d k) * (m_sign m k * u (old d k))) with (m_sign m k * m_sign m k * (g (old d k) * u (old d k))) by ring. rewrite H. ring.
Qed.
End Solution.
Lemma equilibrium_old u g g' : (forall k, (k < nd)%nat -> g' k = m_sign m k * g (old d k)) ->
  equilibrium nd (stiffness (pb_basis pb) (pb_nu pb) E) (pb_D pb) g u -> equilibrium nd (stiffness (pb_basis pb') (pb_nu pb') E') (pb_D pb') g' (fun k => m_sign m k * u (old d k)).
Proof.
  intros Hg (U1 & U2). split.
  - intros k Hk Hin. rewrite U1; [ring| |]. { now apply (old_range nd d Hd). } { apply (re_D _ _ _ _ Hr k Hk), Hin. }
  - intros k Hk Hout. rewrite Hg by exact Hk. rewrite <- U2.
    + unfold mv. rewrite <- (sum_perm_old nd d Hd (fun j => stiffness (pb_basis pb) (pb_nu pb) E (old d k) j * u j)). rewrite <- sum_scal. apply sum_ext. intros l Hl. rewrite stiffness_old by assumption.
      pose proof (sign2 l). replace (m_sign m k * m_sign m l * stiffness (pb_basis pb) (pb_nu pb) E (old d k) (old d l) * (m_sign m l * u (old d l)))
        with (m_sign m l * m_sign m l * (m_sign m k * (stiffness (pb_basis pb) (pb_nu pb) E (old d k) (old d l) * u (old d l)))) by ring. rewrite H. ring.
    + now apply (old_range nd d Hd).
    + intros Q. apply Hout, (re_D _ _ _ _ Hr k Hk), Q.
Qed.
Lemma HP' e : (e < n)%nat -> 0 < E' e.
Proof. intros He. rewrite HE by exact He. apply HP. now apply old_lt. Qed.
Lemma usol_old : Forall2 (fun u u' => forall k, (k < nd)%nat -> u' k = m_sign m k * u (old d k)) (usol pb v E) (usol pb' v E') /\
  zipwith (fun g u => work (fb_n (pb_basis pb')) (pb_D pb') g u) (loads_of pb' v) (usol pb' v E') = zipwith (fun g u => work nd (pb_D pb) g u) (loads_of pb v) (usol pb v E).
Proof.
  assert (HL : Forall2 (fun g g' => forall k, (k < nd)%nat -> g' k = m_sign m k * g (old d k)) (loads_of pb v) (loads_of pb' v)).
  { unfold loads_of. pose proof (re_loads _ _ _ _ Hr) as Q. fold nd d in Q. induction Q as [|g g' l l' Q _ IH]; cbn [map]; constructor; [|exact IH]. intros k Hk. rewrite Q by exact Hk. ring. }
  destruct (usol_spec pb c v f WP E ltac:(intros e He; apply HP; rewrite <- ne_n; exact He)) as (_ & Q).
  destruct (usol_spec pb' c v f' WP' E' ltac:(intros e He; apply HP'; rewrite <- ne_n, <- (re_ne _ _ _ _ Hr); exact He)) as (_ & Q').
  pose proof (pb_supported pb' c v f' WP' E' ltac:(intros e He; apply HP'; rewrite <- ne_n, <- (re_ne _ _ _ _ Hr); exact He)) as SU.
  rewrite (re_n _ _ _ _ Hr) in *. fold nd in Q, Q', SU |- *.
  revert Q Q'. generalize (usol pb v E) as us. generalize (usol pb' v E') as us'. induction HL as [|g g' l l' Hg _ IH]; intros us' us Q Q'.
  { inversion_clear Q. inversion_clear Q'. split; [constructor|reflexivity]. }
  inversion_clear Q as [|? u ? us1 R1 R2]. inversion_clear Q' as [|? u' ? us1' R1' R2'].
  assert (HU : forall k, (k < nd)%nat -> u' k = m_sign m k * u (old d k)).
  { intros k Hk. refine (equilibrium_unique _ _ _ g' u' (fun k => m_sign m k * u (old d k)) SU R1' _ k Hk). now apply (equilibrium_old u g). }
  destruct (IH us1' us1 R2 R2') as (I1 & I2). split; [constructor; assumption|]. cbn [zipwith]. rewrite I2. f_equal. now apply work_old.
Qed.
End Moduli.
Lemma Emin_old : Emin_of pb' c = Emin_of pb c.
Proof. unfold Emin_of. now rewrite (re_E0 _ _ _ _ Hr). Qed.
Variables (rho : list R).
Hypothesis Hlen : List.length rho = n.
Hypothesis H0 : forall e, 0 <= nth e rho 0.
Hypothesis H1 : i_interp c = RAMP -> forall e, nth e rho 0 <= 1.
Lemma rho_old e : (e < n)%nat -> nth e (reorder 0 p rho) 0 = nth (old p e) rho 0.
Proof. apply re_nth. Qed.
Lemma filtered_here : filtered v f' (reorder 0 p rho) = reorder 0 p (filtered v f rho).
Proof. apply filtered_old; auto. apply rho_old. Qed.
Lemma re_map (g : R -> R) x : List.length x = n -> map g (reorder 0 p x) = reorder 0 p (map g x).
Proof.
  intros Hx. apply re_build; [rewrite map_length; apply re_len|]. intros e He. rewrite (nth_map_seq_any g (reorder 0 p x)) by (rewrite re_len; exact He).
  rewrite (nth_map_seq_any g x) by (rewrite Hx; now apply old_lt). now rewrite re_nth.
Qed.
Lemma projected_here : projected c v f' (reorder 0 p rho) = reorder 0 p (projected c v f rho).
Proof. unfold projected. rewrite filtered_here. apply re_map. now apply filtered_len. Qed.
Lemma proj_len : List.length (projected c v f rho) = n.
Proof. rewrite projected_length. exact Hc. Qed.
Lemma evaluate_old : exists ev ev', evaluate pb c v f rho = Ok (f2 v f, ev) /\
  evaluate pb' c v f' (reorder 0 p rho) = Ok (f2 v f', ev') /\ eval_reordered p ev ev' /\ List.length (ev_dC ev) = n /\ List.length (ev_filtered ev) = n.
Proof.
  destruct (evaluate_total pb c v f rho WP ltac:(congruence) (fun e _ => modulus_ok pb c v f rho WP H0 H1 e)) as (El & Hmo & HEp & Hev).
  assert (B0 : forall e, 0 <= nth e (reorder 0 p rho) 0 /\ ((forall e, nth e rho 0 <= 1) -> nth e (reorder 0 p rho) 0 <= 1)).
  { intros e. destruct (Nat.lt_ge_cases e n) as [He|He]; [rewrite rho_old by exact He; auto|]. rewrite nth_overflow by (rewrite re_len; exact He). split; intros; lra. }
  destruct (evaluate_total pb' c v f' (reorder 0 p rho) WP' ltac:(rewrite re_len; symmetry; now apply c_len with f)
    (fun e _ => modulus_ok pb' c v f' _ WP' (fun e => proj1 (B0 e)) (fun Q e => proj2 (B0 e) (H1 Q)) e)) as (El' & Hmo' & HEp' & Hev').
  rewrite Emin_old, (re_E0 _ _ _ _ Hr), projected_here in Hmo'.
  assert (HE : forall e, (e < n)%nat -> nth e El' 0 = nth (old p e) El 0).
  { intros e He. unfold moduli in Hmo, Hmo'. destruct (all_some (map _ (projected c v f rho))) as [r|] eqn:Er; [|discriminate]. injection Hmo as <-.
    destruct (all_some (map _ (reorder 0 p (projected c v f rho)))) as [r'|] eqn:Er'; [|discriminate]. injection Hmo' as <-.
    pose proof (all_some_at _ 0 _ _ Er (old p e) ltac:(rewrite proj_len; now apply old_lt)) as Q.
    pose proof (all_some_at _ 0 _ _ Er' e ltac:(rewrite re_len; exact He)) as Q'. rewrite re_nth in Q' by exact He. congruence. }
  set (E := fun e => nth e El 0) in *. set (E' := fun e => nth e El' 0) in *.
  assert (HPE : forall e, (e < n)%nat -> 0 < E e) by (intros e He; apply HEp; rewrite Hc; exact He).
  destruct (usol_old E E' HE HPE) as (HU & HW).
  assert (HG : forall u u', (forall k, (k < nd)%nat -> u' k = m_sign m k * u (old d k)) -> forall e, (e < n)%nat -> nth e (gfun pb' c v f' (reorder 0 p rho) E' u') 0 = nth (old p e) (gfun pb c v f rho E u) 0).
  { intros u u' Hu e He. unfold gfun, grad_filtered. rewrite projected_here, filtered_here, re_len, proj_len, !nth_map_seq' by (try apply old_lt; exact He).
    rewrite !re_nth by exact He. rewrite (energy_old E E' HE u u' Hu) by exact He. now rewrite Emin_old, (re_E0 _ _ _ _ Hr). }
  assert (LL : @List.length vec (pb_loads pb) = @List.length vec (pb_loads pb')) by exact (F2_len _ _ _ (re_loads _ _ _ _ Hr)).
  assert (HD : dCfull pb' c v f' (reorder 0 p rho) E' = reorder 0 p (dCfull pb c v f rho E)).
  { apply re_build; [unfold dCfull; rewrite map_length, seq_length; now apply c_len with f|]. intros e He. unfold dCfull. rewrite (c_len f f' Hf Hc), Hc, !nth_map_seq' by (try apply old_lt; exact He).
    unfold loads_count. rewrite <- LL. f_equal. f_equal. rewrite (design_old f f' Hf) by exact He.
    clear - HU HG He Hp Hf Hc. induction HU as [|u u' l l' Hu _ IH]; cbn [map]; [reflexivity|]. rewrite IH. f_equal.
    destruct (is_design _ _); [|reflexivity]. apply cvT_old; auto. }
  assert (DL : List.length (dCfull pb c v f rho E) = n) by (unfold dCfull; rewrite map_length, seq_length; exact Hc).
  do 2 eexists. split; [exact Hev|]. split; [exact Hev'|]. split.
  - constructor; cbn [ev_filtered ev_projected ev_compliance ev_energy ev_dC].
    + apply filtered_here. + apply projected_here.
    + rewrite HW. unfold loads_count. now rewrite <- LL.
    + clear - HE Hr WP Hc Hp HU Hm. induction HU as [|u u' l l' Hu _ IH]; cbn [map]; constructor; [|exact IH]. intros e He. apply (energy_old E E' HE u u' Hu). now rewrite p_len in He.
    + rewrite HD. destruct (i_sens_filter c); [|reflexivity]. apply filtered_old; auto. intros e He. now apply re_nth.
  - cbn [ev_dC ev_filtered]. split; [|now apply filtered_len]. destruct (i_sens_filter c); [now apply filtered_len|exact DL].
Qed.
End Analysis.

(* the update of the densities *)
Section Update.
Variables (D D' : list nat) (rho : list R).
Hypothesis HD : Permutation (map (old p) D') D.
Hypothesis ND : NoDup D.
Hypothesis ND' : NoDup D'.
Hypothesis RD : forall e, In e D -> (e < n)%nat.
Hypothesis RD' : forall e, In e D' -> (e < n)%nat.
Hypothesis Hlen : List.length rho = n.
Let D2 := map (old p) D'.
Lemma gather_old x : gather (reorder 0 p x) D' = gather x D2.
Proof. unfold gather, D2. rewrite map_map. apply map_ext_in. intros e He. apply re_nth. now apply RD'. Qed.
Lemma in_old e : (e < n)%nat -> In e D' <-> In (old p e) D.
Proof.
  intros He. split; intros H.
  - apply (Permutation_in _ HD). now apply in_map.
  - apply (Permutation_in _ (Permutation_sym HD)), in_map_iff in H. destruct H as (y & E & Hy). replace e with y; [exact Hy|]. apply old_inj; auto.
Qed.
Lemma scatter_old nf : scatter (reorder 0 p rho) D' (map nf D2) = reorder 0 p (scatter rho D (map nf D)).
Proof.
  apply re_build; [rewrite scatter_len; apply re_len|]. intros e He. unfold D2. rewrite map_map.
  rewrite !scatter_map_nth by (try assumption; intros i Hi; rewrite ?re_len, ?Hlen; auto).
  destruct (in_dec Nat.eq_dec e D') as [Q|Q]; destruct (in_dec Nat.eq_dec (old p e) D) as [Q'|Q']; try reflexivity.
  - exfalso. apply Q', in_old; auto. - exfalso. apply Q, in_old; auto. - now apply re_nth.
Qed.
Variables (a a' : oc_args) (dcf vf : nat -> R).
Hypothesis A_iter : a_iter a' = a_iter a.
Hypothesis A_rho : a_rho_full a = rho.
Hypothesis A_rho' : a_rho_full a' = reorder 0 p rho.
Hypothesis A_D : a_design a = D.
Hypothesis A_D' : a_design a' = D'.
Hypothesis A_filter : forall x, List.length x = n -> a_filter a' (reorder 0 p x) = reorder 0 p (a_filter a x) /\ List.length (a_filter a x) = n.
Hypothesis A_dC : a_dC a = map dcf D.
Hypothesis A_dC' : a_dC a' = map dcf D2.
Hypothesis A_move : a_move a' = a_move a.
Hypothesis A_eta : a_eta a' = a_eta a.
Hypothesis A_beta : a_beta a' = a_beta a.
Hypothesis A_perc : a_percentile a' = a_percentile a.
Hypothesis A_vol : a_volumes a = map vf D.
Hypothesis A_vol' : a_volumes a' = map vf D2.
Hypothesis A_sum : a_vol_sum a' = a_vol_sum a.
Hypothesis A_frac : a_vol_frac a' = a_vol_frac a.
Variable cfg : oc_cfg.
Lemma D2_perm : Permutation D2 D.
Proof. exact HD. Qed.
Lemma scale_old : sens_scale (a_percentile a') (c_floor cfg) (a_dC a') = sens_scale (a_percentile a) (c_floor cfg) (a_dC a).
Proof.
  unfold sens_scale, raw_scale. rewrite A_perc, A_dC, A_dC'. f_equal. destruct (a_percentile a); [apply percentile_perm|apply np_max_perm]; apply Permutation_map, Permutation_map, D2_perm.
Qed.
Section Bisect.
Variable r : R.
Let P := oc_problem_of cfg a (map (fun x => x / r) (a_dC a)).
Let P' := oc_problem_of cfg a' (map (fun x => x / r) (a_dC a')).
Definition cf (lmid : R) (i : nat) : option R :=
  oc_candidate (c_rho_min cfg) (c_rho_max cfg) (a_move a) (a_eta a) tiny (c_smin cfg) (c_smax cfg) lmid (dcf i / r) (nth i rho 0).
Definition nf (lmid : R) (i : nat) : R := some_of (cf lmid i).
Lemma cand_form lmid : candidate P lmid = if forallb (fun i => is_some (cf lmid i)) D then Some (map (nf lmid) D) else None.
Proof.
  unfold candidate, P. cbn [oc_problem_of oc_dC oc_rho_e oc_rho_min oc_rho_max oc_move oc_eta oc_eps oc_smin oc_smax]. rewrite A_dC, A_rho, A_D. unfold gather. rewrite map_map, zip_maps.
  apply (all_some_form (cf lmid)).
Qed.
Lemma cand_form' lmid : candidate P' lmid = if forallb (fun i => is_some (cf lmid i)) D then Some (map (nf lmid) D2) else None.
Proof.
  unfold candidate, P'. cbn [oc_problem_of oc_dC oc_rho_e oc_rho_min oc_rho_max oc_move oc_eta oc_eps oc_smin oc_smax]. rewrite A_dC', A_rho', A_D', gather_old, A_move, A_eta. unfold gather. rewrite map_map, zip_maps.
  rewrite (all_some_form (cf lmid)). now rewrite (forallb_perm _ _ _ D2_perm).
Qed.
Lemma vol_old lmid : vol_of P' lmid = vol_of P lmid.
Proof.
  unfold vol_of. rewrite cand_form, cand_form'. destruct (forallb _ D); [|reflexivity]. f_equal. unfold volume_error, P, P'.
  cbn [oc_problem_of oc_rho_full oc_design oc_filter oc_beta oc_beta_eta oc_volumes oc_vol_sum oc_vol_frac]. rewrite A_rho, A_rho', A_D, A_D', scatter_old, A_beta, A_sum, A_frac, A_vol, A_vol'.
  destruct (A_filter (scatter rho D (map (nf lmid) D)) ltac:(rewrite scatter_len; exact Hlen)) as (F1 & F2). rewrite F1. rewrite (re_map _ _ F2), gather_old. unfold gather. rewrite !zip_maps.
  f_equal. f_equal. apply rsum_perm, Permutation_map, D2_perm.
Qed.
Lemma bisect_old mi tol vt : forall fuel l1 l2 lm k,
  match bisect P mi tol vt fuel l1 l2 lm k, bisect P' mi tol vt fuel l1 l2 lm k with
  | Some b, Some b' => b_lmid b' = b_lmid b /\ b_vol_error b' = b_vol_error b /\ b_rho b = candidate P (b_lmid b) /\ b_rho b' = candidate P' (b_lmid b)
  | None, None => True | _, _ => False end.
Proof.
  induction fuel as [|fuel IH]; intros l1 l2 lm k; cbn [bisect]; [exact I|]. rewrite vol_old.
  destruct (within _ _); [repeat split|]. destruct (Nat.leb _ _); [repeat split|]. destruct (Rleb _ _); [repeat split|].
  destruct (if positive (vol_of P lm) then (lm, l2) else (l1, lm)) as [x y]. apply IH.
Qed.
End Bisect.
Lemma kkt_old ls w : kkt_residual (c_rho_min cfg) (c_rho_max cfg) ls (map w D2) (a_dC a') (dV_design (a_volumes a') (a_vol_sum a')) =
  kkt_residual (c_rho_min cfg) (c_rho_max cfg) ls (map w D) (a_dC a) (dV_design (a_volumes a) (a_vol_sum a)).
Proof.
  rewrite A_dC, A_dC', A_vol, A_vol', A_sum. unfold kkt_residual, dV_design. rewrite !map_map, !combine_maps.
  set (row := fun i => (w i, (dcf i, vf i / a_vol_sum a))). set (g := fun r => interior (c_rho_min cfg) (c_rho_max cfg) (fst r)).
  assert (Q : Permutation (filter g (map row D2)) (filter g (map row D))) by (apply perm_filter, Permutation_map, D2_perm).
  destruct (filter g (map row D)) as [|x l]; [apply Permutation_sym, Permutation_nil in Q; now rewrite Q|].
  destruct (filter g (map row D2)) as [|y m]; [apply Permutation_nil in Q; discriminate|].
  unfold norm_inf. apply np_max_perm. apply Permutation_map, Permutation_map, Q.
Qed.
Lemma update_old running :
  match rho_update cfg running a with
  | None => rho_update cfg running a' = None
  | Some r => exists r', rho_update cfg running a' = Some r' /\ r_running r' = r_running r /\ r_lmid r' = r_lmid r /\ r_vol_error r' = r_vol_error r /\ r_kkt r' = r_kkt r /\
      match r_rho r with None => r_rho r' = None | Some new => exists w, new = map w D /\ r_rho r' = Some (map w D2) end
  end.
Proof.
  unfold rho_update. rewrite scale_old, A_iter. set (r := next_running_scale _ _ _).
  pose proof (bisect_old r 1000 (1/100000) (1/10000) 1001 (c_lambda_lower cfg) (c_lambda_upper cfg) (1/2 * (c_lambda_lower cfg + c_lambda_upper cfg)) 0) as Q.
  unfold bisection_with_physical_volume. destruct (bisect _ _ _ _ _ _ _ _ _) as [b|] in Q |- *; destruct (bisect _ _ _ _ _ _ _ _ _) as [b'|] in Q |- *; try easy.
  destruct Q as (Q1 & Q2 & Q3 & Q4). eexists. split; [reflexivity|]. cbn [r_running r_lmid r_vol_error r_kkt r_rho]. rewrite cand_form in Q3. rewrite cand_form' in Q4.
  split; [reflexivity|]. split; [exact Q1|]. split; [exact Q2|]. destruct (forallb _ D); rewrite Q3, Q4; [|auto].
  split; [rewrite Q1; f_equal; apply kkt_old|]. eexists. split; reflexivity.
Qed.
End Update.
End Numbering.
