(* C108 continued: LogMOC does not know the numbering either. *)
From Coq Require Import Permutation.
From Verif Require Import Base Sums Material_model OC_model OC_spec OC_proofs LogMOC_model LogMOC_proofs LogMOC_props Filter_model Filter_proofs Filter_props Mesh_model Fea_model Fea_spec
  Iter_model Iter_spec Iter_proofs Iter_props HeatIter_model HeatIter_spec HeatIter_props LMIter_model LMIter_spec LMIter_props Units_props Units2_props Order_spec Order_proofs Order_props Order3_spec.
Open Scope R_scope.
Open Scope list_scope.

Section LM.
Variables (n : nat) (p : list nat).
Hypothesis Hp : numbering n p.
Variables (D D' : list nat).
Hypothesis HD : Permutation (map (old p) D') D.
Hypothesis ND : NoDup D.
Hypothesis ND' : NoDup D'.
Hypothesis RD : forall e, In e D -> (e < n)%nat.
Hypothesis RD' : forall e, In e D' -> (e < n)%nat.
Let D2 := map (old p) D'.
(* values per design element: the same function of the element's old number *)
Definition twin (x y : list R) : Prop := exists h, x = map h D /\ y = map h D2.
(* values per element *)
Definition full (x y : list R) : Prop := List.length x = n /\ y = reorder 0 p x.
Lemma twin_map g x y : twin x y -> twin (map g x) (map g y).
Proof. intros (h & -> & ->). exists (fun i => g (h i)). now rewrite !map_map. Qed.
Lemma twin_zip (g : R -> R -> R) x y u w : twin x y -> twin u w -> twin (zipwith g x u) (zipwith g y w).
Proof. intros (h & -> & ->) (k & -> & ->). exists (fun i => g (h i) (k i)). now rewrite !zip_maps. Qed.
Lemma twin_perm x y : twin x y -> Permutation y x.
Proof. intros (h & -> & ->). now apply Permutation_map. Qed.
Lemma twin_sum x y : twin x y -> rsum y = rsum x.
Proof. intros H. now apply rsum_perm, twin_perm. Qed.
Lemma twin_percentile x y q : twin x y -> np_percentile (map Rabs y) q = np_percentile (map Rabs x) q.
Proof. intros H. now apply percentile_perm, Permutation_map, twin_perm. Qed.
Lemma twin_gather x y : full x y -> twin (gather x D) (gather y D').
Proof. intros (_ & ->). exists (fun i => nth i x 0). split; [reflexivity|]. exact (gather_old n p Hp D' RD' x). Qed.
Lemma twin_scatter x y u w : full x y -> twin u w -> full (scatter x D u) (scatter y D' w).
Proof.
  intros (L & ->) (h & -> & ->). split; [rewrite scatter_len; exact L|].
  exact (scatter_old n p Hp D D' x HD ND ND' RD RD' L h).
Qed.
Lemma full_map g x y : full x y -> full (map g x) (map g y).
Proof.
  intros (L & ->). split; [now rewrite map_length|]. apply (re_build n p Hp); [rewrite map_length; now apply re_len|]. intros e He.
  rewrite (nth_map_seq_any g (reorder 0 p x)) by (rewrite (re_len n p Hp); exact He).
  rewrite (nth_map_seq_any g x) by (rewrite L; now apply (old_lt n p Hp)). now rewrite (re_nth n p Hp).
Qed.
Lemma zip_len {A B C} (g : A -> B -> C) : forall x y, List.length x = List.length y -> List.length (zipwith g x y) = List.length x.
Proof. induction x as [|a x IH]; intros [|b y] H; cbn in *; try discriminate; auto. Qed.
Lemma zip_nth (g : R -> R -> R) : forall x y e, List.length x = List.length y -> (e < List.length x)%nat -> nth e (zipwith g x y) 0 = g (nth e x 0) (nth e y 0).
Proof. induction x as [|a x IH]; intros [|b y] [|e] H He; cbn in *; try discriminate; try lia; auto. apply IH; lia. Qed.
Lemma full_zip (g : R -> R -> R) x y u w : full x y -> full u w -> full (zipwith g x u) (zipwith g y w).
Proof.
  intros (L & ->) (M & ->). assert (Hre : forall z, List.length (reorder 0 p z) = n) by (intros z; apply (re_len n p Hp 0 z)).
  split; [rewrite zip_len; congruence|]. apply (re_build n p Hp); [rewrite zip_len; rewrite !Hre; reflexivity|]. intros e He.
  rewrite (zip_nth g (reorder 0 p x)) by (rewrite !Hre; auto). rewrite (zip_nth g x) by (rewrite ?L, ?M; try reflexivity; now apply (old_lt n p Hp)).
  now rewrite !(re_nth n p Hp).
Qed.
Lemma full_perm x y : full x y -> Permutation y x.
Proof.
  intros (L & ->). unfold reorder. transitivity (map (fun e => nth e x 0) (seq 0 n)); [now apply Permutation_map|].
  rewrite <- L. rewrite (map_nth_seq x) . reflexivity.
Qed.
Lemma existsb_perm {A} (g : A -> bool) l m : Permutation l m -> existsb g l = existsb g m.
Proof. induction 1; cbn; try congruence. destruct (g x), (g y); reflexivity. Qed.

Variables (a a' : lm_args).
Hypothesis A_iter : la_iter a' = la_iter a.
Hypothesis A_D : la_design a = D.
Hypothesis A_D' : la_design a' = D'.
Hypothesis A_rho : twin (la_rho a) (la_rho a').
Hypothesis A_filtered : full (la_rho_filtered a) (la_rho_filtered a').
Hypothesis A_projected : full (la_rho_projected a) (la_rho_projected a').
Hypothesis A_dC : twin (la_dC a) (la_dC a').
Hypothesis A_forward : forall x y, full x y -> full (la_forward a x) (la_forward a' y).
Hypothesis A_gradient : forall x y, full x y -> full (la_gradient a x) (la_gradient a' y).
Hypothesis A_move : la_move a' = la_move a.
Hypothesis A_eta : la_eta a' = la_eta a.
Hypothesis A_beta : la_beta a' = la_beta a.
Hypothesis A_perc : la_percentile a' = la_percentile a.
Hypothesis A_vol : twin (la_volumes a) (la_volumes a').
Hypothesis A_sum : la_vol_sum a' = la_vol_sum a.
Hypothesis A_frac : la_vol_frac a' = la_vol_frac a.
Lemma center_old x y : twin x y -> twin (LogMOC_model.center a x) (LogMOC_model.center a' y).
Proof.
  intros H. unfold LogMOC_model.center. rewrite A_sum. rewrite (twin_sum (zipwith Rmult x (la_volumes a)) (zipwith Rmult y (la_volumes a'))) by now apply twin_zip. now apply twin_map.
Qed.
Variable c : lm_cfg.
Lemma chain_old : twin (volume_chain c a) (volume_chain c a').
Proof.
  unfold volume_chain. rewrite A_D, A_D', A_beta.
  set (z := map (fun _ => 0) (la_rho_filtered a)). set (z' := map (fun _ => 0) (la_rho_filtered a')).
  assert (Z : full z z') by now apply full_map.
  assert (V : full (scatter z D (dV_design (la_volumes a) (la_vol_sum a))) (scatter z' D' (dV_design (la_volumes a') (la_vol_sum a')))).
  { apply twin_scatter; [exact Z|]. unfold dV_design. rewrite A_sum. now apply twin_map. }
  set (dH := map _ (la_rho_filtered a)). set (dH' := map _ (la_rho_filtered a')).
  assert (W : full (zipwith Rmult dH (scatter z D (dV_design (la_volumes a) (la_vol_sum a)))) (zipwith Rmult dH' (scatter z' D' (dV_design (la_volumes a') (la_vol_sum a'))))).
  { apply full_zip; [now apply full_map|exact V]. }
  set (w := zipwith Rmult dH _) in *. set (w' := zipwith Rmult dH' _) in *.
  pose proof (A_gradient _ _ W) as G. apply twin_gather.
  replace (allclose0 (la_gradient a' w') && existsb (fun x => Rltb 0 x) w') with (allclose0 (la_gradient a w) && existsb (fun x => Rltb 0 x) w).
  { destruct (_ && _); [now apply A_forward|exact G]. }
  f_equal; symmetry; [apply forallb_perm|apply existsb_perm]; now apply full_perm.
Qed.
Lemma error_old : lm_vol_error a' = lm_vol_error a.
Proof.
  unfold lm_vol_error. rewrite A_D, A_D', A_sum, A_frac. f_equal. f_equal. apply twin_sum, twin_zip; [now apply twin_gather|exact A_vol].
Qed.
Lemma chain_scale_old x y u w e : twin x y -> twin u w -> chain_scale c y w e = chain_scale c x u e.
Proof. intros H1 H2. unfold chain_scale. now rewrite (twin_percentile x y), (twin_percentile u w) by assumption. Qed.
Lemma lagrangian_old lam : twin (lagrangian_gradient c a lam) (lagrangian_gradient c a' lam).
Proof.
  unfold lagrangian_gradient. rewrite error_old, A_D, A_D'.
  set (dC := if m_center_objective c then LogMOC_model.center a (la_dC a) else la_dC a). set (dC' := if m_center_objective c then LogMOC_model.center a' (la_dC a') else la_dC a').
  assert (HC : twin dC dC') by (unfold dC, dC'; destruct (m_center_objective c); [now apply center_old|exact A_dC]).
  rewrite (chain_scale_old dC dC' _ _ _ HC chain_old).
  set (s := chain_scale _ _ _ _). set (k := lam + _).
  assert (HL : twin (zipwith (fun d v => d + k * v) dC (map (fun x => x * s) (volume_chain c a))) (zipwith (fun d v => d + k * v) dC' (map (fun x => x * s) (volume_chain c a')))).
  { apply twin_zip; [exact HC|]. apply twin_map, chain_old. }
  set (L := zipwith _ dC _) in *. set (L' := zipwith _ dC' _) in *.
  assert (HF : twin (if m_filter_lagrangian c then gather (la_forward a (scatter (map (fun _ => 0) (la_rho_filtered a)) D L)) D else L)
                    (if m_filter_lagrangian c then gather (la_forward a' (scatter (map (fun _ => 0) (la_rho_filtered a')) D' L')) D' else L')).
  { destruct (m_filter_lagrangian c); [|exact HL]. apply twin_gather, A_forward, twin_scatter; [now apply full_map|exact HL]. }
  destruct (m_center_lagrangian c); [now apply center_old|exact HF].
Qed.
Lemma lm_update_old s : match lm_rho_update c s a, lm_rho_update c s a' with
  | Ok o, Ok o' => lo_state o' = lo_state o /\ twin (lo_rho o) (lo_rho o') /\ lo_kkt o' = lo_kkt o
  | Err e, Err e' => e = e'
  | _, _ => False end.
Proof.
  unfold lm_rho_update. rewrite error_old, A_iter. set (lam := dual_step _ _ _ _). pose proof (lagrangian_old lam) as HL.
  set (L := lagrangian_gradient c a lam) in *. set (L' := lagrangian_gradient c a' lam) in *.
  assert (HR : lm_running c a' (running_scale s) L' = lm_running c a (running_scale s) L).
  { unfold lm_running. rewrite A_iter, A_perc, (twin_percentile L L') by exact HL. reflexivity. }
  rewrite HR. destruct (lm_running c a (running_scale s) L) as [rs|e]; cbn [bind]; [|reflexivity]. cbn [lo_state lo_rho lo_kkt].
  pose proof (twin_map (fun x => x / rs) _ _ HL) as HS. split; [reflexivity|]. rewrite A_eta, A_move. split; [now apply twin_zip|].
  destruct A_rho as (h & -> & ->). destruct HS as (k & -> & ->). rewrite !combine_maps.
  set (row := fun i => (h i, k i)). set (g := fun r => interior (m_rho_min c) (m_rho_max c) (fst r)).
  assert (Q : Permutation (filter g (map row D2)) (filter g (map row D))) by (apply perm_filter, Permutation_map, HD).
  destruct (filter g (map row D)) as [|x l]; [apply Permutation_sym, Permutation_nil in Q; now rewrite Q|].
  destruct (filter g (map row D2)) as [|y m]; [apply Permutation_nil in Q; discriminate|].
  unfold norm_inf. apply np_max_perm. apply Permutation_map, Permutation_map, Q.
Qed.
End LM.

Lemma sf_grad_old n p pb pb' c v f f' : numbering n p -> filter_reordered p f f' -> List.length (sf_centers f) = n ->
  well_posed pb c v f -> well_posed pb' c v f' -> forall x y, full n p x y -> full n p (sf_grad (f2 v f) x) (sf_grad (f2 v f') y).
Proof.
  intros Hp Hf Hc WP WP' x y (L & ->). unfold sf_grad.
  pose proof (c_len n p f f' Hf Hc) as Hc'.
  rewrite (gradient2 v f x) by congruence. rewrite (gradient2 v f' (reorder 0 p x)) by (rewrite (re_len n p Hp); congruence).
  split; [rewrite map_length, seq_length; exact Hc|]. apply (re_build n p Hp); [rewrite map_length, seq_length; exact Hc'|]. intros e He.
  rewrite Hc, Hc', !nth_map_seq' by (try apply (old_lt n p Hp); exact He). rewrite (design_old n p Hp f f' Hf) by exact He. destruct (is_design _ _); [|reflexivity].
  apply (cvT_old n p Hp v f f' Hf Hc); auto. intros k Hk. now apply re_nth with n.
Qed.
Lemma sf_map_old n p pb pb' c v f f' : numbering n p -> filter_reordered p f f' -> List.length (sf_centers f) = n ->
  well_posed pb c v f -> well_posed pb' c v f' -> forall x y, full n p x y -> full n p (sf_map (f2 v f) x) (sf_map (f2 v f') y).
Proof.
  intros Hp Hf Hc WP WP' x y (L & ->). unfold sf_map. pose proof (c_len n p f f' Hf Hc) as Hc'.
  rewrite (f2_forward pb c v f x WP) by congruence. rewrite (f2_forward pb' c v f' (reorder 0 p x) WP') by (rewrite (re_len n p Hp); congruence).
  split; [now apply filtered_len|]. apply (filtered_old n p Hp v f f' Hf Hc). intros e He. now apply re_nth with n.
Qed.

(* C108.  an iteration of LogMOC on the image is the image of the iteration *)
Theorem C108_logmoc_iteration : forall m T L pb pb' v i a b a', reordered m (loop_cfg L) pb pb' -> lstate_reordered (m_elements m) a b ->
  made_from (Elastic pb) T L -> ready (Elastic pb) T L v (ls_filter a) -> well_posed pb' (loop_cfg L) v (ls_filter b) ->
  0 < m_rho_min (l_m L) <= m_rho_max (l_m L) -> densities_ok T (loop_cfg L) (ls_rho a) ->
  lm_iterate (Elastic pb) L v i a = Ok a' -> exists b', lm_iterate (Elastic pb') L v i b = Ok b' /\ lstate_reordered (m_elements m) a' b'.
Proof.
  intros m T L pb pb' v i a b a' Hr [R1 R2 R3 R4 R5 _] HM HR WP' Hb Hok H. set (p := m_elements m) in *. set (n := List.length (sf_centers (ls_filter a))) in *.
  destruct (dens_range pb T L v _ _ HM HR Hb Hok) as (H0 & H1). pose proof HR as (_ & _ & WP & Hc & _).
  assert (Hlen : List.length (ls_rho a) = n) by (unfold n; rewrite Hc; apply Hok).
  assert (Hne : fb_ne (pb_basis pb) = n) by (unfold n; symmetry; apply (wp_elements _ _ _ _ WP)).
  assert (Hp : numbering n p) by (rewrite <- Hne; apply (re_ok _ _ _ _ Hr)).
  destruct (evaluate_old n p Hp (loop_cfg L) pb pb' v _ _ m Hr eq_refl R2 WP WP' eq_refl (ls_rho a) Hlen H0 H1) as (ev & ev' & E1 & E2 & E3 & L1 & L2).
  unfold lm_iterate in *. cbn [analyse element_task] in *. rewrite E1 in H. rewrite R1, E2. cbn [bind] in *.
  set (g := f2 v (ls_filter a)) in *. set (g' := f2 v (ls_filter b)) in *. set (D := d_design (pb_dom pb)). set (D' := d_design (pb_dom pb')).
  assert (RD : forall e, In e D -> (e < n)%nat) by (intros e He; rewrite <- Hne; now apply (re_range _ _ _ _ Hr)).
  assert (RD' : forall e, In e D' -> (e < n)%nat) by (intros e He; rewrite <- Hne; now apply (re_range' _ _ _ _ Hr)).
  pose proof (re_nodup _ _ _ _ Hr : NoDup D) as ND. pose proof (re_nodup' _ _ _ _ Hr : NoDup D') as ND'.
  assert (HD : Permutation (map (old p) D') D).
  { apply (set_old n p Hp); auto. pose proof (re_design _ _ _ _ Hr) as Q. rewrite Hne in Q. exact Q. }
  assert (TV : twin p D D' (gather (pb_volumes pb) D) (gather (pb_volumes pb') D')).
  { rewrite (re_volumes _ _ _ _ Hr). fold p. exists (fun k => nth k (pb_volumes pb) 0). split; [reflexivity|]. rewrite (gather_old n p Hp D' RD'). reflexivity. }
  assert (TG : forall x, twin p D D' (gather x D) (gather (reorder 0 p x) D')).
  { intros x. exists (fun k => nth k x 0). split; [reflexivity|]. rewrite (gather_old n p Hp D' RD'). reflexivity. }
  destruct (lm_advance_inv _ _ _ _ _ _ _ _ H) as (o & Ho & ->). clear H.
  pose proof (lm_update_old n p Hp D D' HD ND ND' RD RD' (lm_args_of pb v i (ls_rho a) g ev) (lm_args_of pb' v i (reorder 0 p (ls_rho a)) g' ev')) as U.
  cbn [lm_args_of la_iter la_design la_rho la_rho_filtered la_rho_projected la_dC la_forward la_gradient la_move la_eta la_beta la_percentile la_volumes la_vol_sum la_vol_frac] in U. fold D D' in U.
  specialize (U eq_refl eq_refl eq_refl (TG _) (conj L2 (er_filtered _ _ _ E3))).
  assert (LP : List.length (ev_projected ev) = n).
  { destruct (analyse_ok _ _ _ _ _ _ HM HR Hb Hok) as (ev2 & A1 & _ & A3 & _). cbn [analyse] in A1. rewrite E1 in A1. assert (ev2 = ev) by congruence. subst ev2. rewrite A3. unfold projected, filtered. now rewrite !map_length, seq_length. }
  specialize (U (conj LP (er_projected _ _ _ E3))). rewrite (er_dC _ _ _ E3) in U. fold p in U. specialize (U (TG _)).
  specialize (U (sf_map_old n p pb pb' _ v _ _ Hp R2 eq_refl WP WP') (sf_grad_old n p pb pb' _ v _ _ Hp R2 eq_refl WP WP') eq_refl eq_refl eq_refl eq_refl TV (twin_sum p D D' HD _ _ TV) eq_refl (l_m L) (ls_opt a)).
  change (match lm_rho_update (l_m L) (ls_opt a) (lm_args_of pb v i (ls_rho a) g ev), lm_rho_update (l_m L) (ls_opt a) (lm_args_of pb' v i (reorder 0 p (ls_rho a)) g' ev') with
    | Ok o, Ok o' => lo_state o' = lo_state o /\ twin p D D' (lo_rho o) (lo_rho o') /\ lo_kkt o' = lo_kkt o | Err e, Err e' => e = e' | _, _ => False end) in U.
  rewrite Ho in U. unfold lm_advance. rewrite R1, R3.
  destruct (lm_rho_update (l_m L) (ls_opt a) (lm_args_of pb' v i (reorder 0 p (ls_rho a)) g' ev')) as [o'|]; [|easy]. destruct U as (U1 & (w & U2 & U3) & U4). cbn [bind].
  fold D D'. rewrite U2, U3, U1, U4.
  rewrite (scatter_old n p Hp D D' (ls_rho a) HD ND ND' RD RD' Hlen w).
  set (fl := scatter (ls_rho a) D (map w D)) in *. assert (FL : List.length fl = n) by (unfold fl; rewrite scatter_len; exact Hlen).
  assert (HPin : pin (reorder 0 p fl) (pins pb' (loop_cfg L)) = reorder 0 p (pin fl (pins pb (loop_cfg L)))).
  { apply (pin_old n p Hp _ _ _ FL). pose proof (re_pins _ _ _ _ Hr) as Q. rewrite Hne in Q. exact Q. }
  rewrite HPin. eexists. split; [reflexivity|].
  constructor; cbn [ls_rho ls_filter ls_opt ls_change ls_kkt ls_eval]; try reflexivity.
  - now apply f2_old.
  - rewrite !(gather_old n p Hp D') by exact RD'. unfold gather. rewrite !zip_maps. apply np_max_perm, Permutation_map, Permutation_map, HD.
  - exact E3.
Qed.
Print Assumptions C108_logmoc_iteration.

(* C108.  a whole LogMOC run *)
Theorem C108_logmoc_run : forall m T L pb pb' sched a b l, reordered m (loop_cfg L) pb pb' -> lstate_reordered (m_elements m) a b ->
  made_from (Elastic pb) T L -> 0 < m_rho_min (l_m L) <= m_rho_max (l_m L) -> m_lambda_lower (l_m L) <= m_lambda_upper (l_m L) ->
  (forall i v, In (i, v) sched -> 0 <= v_move v /\ ready (Elastic pb) T L v (ls_filter a) /\ well_posed pb' (loop_cfg L) v (ls_filter b)) ->
  densities_ok T (loop_cfg L) (ls_rho a) ->
  lm_optimize (Elastic pb) L sched a = Ok l ->
  exists l', lm_optimize (Elastic pb') L sched b = Ok l' /\ Forall2 (lstate_reordered (m_elements m)) l l'.
Proof.
  intros m T L pb pb' sched. induction sched as [|[i v] sched IH]; intros a b l Hr Hs HM Hb Hl Hv Hok H; cbn [lm_optimize] in *.
  - injection H as <-. exists []. split; [reflexivity|constructor].
  - destruct (lm_iterate (Elastic pb) L v i a) as [a1|] eqn:E1; [|discriminate]. cbn [bind] in H.
    destruct (lm_optimize (Elastic pb) L sched a1) as [l1|] eqn:E2; [|discriminate]. cbn [bind] in H. injection H as <-.
    destruct (Hv i v (or_introl eq_refl)) as (Hm & HR & WP').
    destruct (C108_logmoc_iteration m T L pb pb' v i a b a1 Hr Hs HM HR WP' Hb Hok E1) as (b1 & Eb & Hs1).
    destruct (C95_iteration_keeps_bounds _ _ _ _ _ _ _ HM Hb Hl Hm Hok E1) as (Hok1 & _).
    destruct (lm_filter_after _ _ _ _ _ _ _ HM HR Hb Hok E1) as (Ef & _).
    assert (Ebf : sf_centers (ls_filter b1) = sf_centers (ls_filter b) /\ sf_mask (ls_filter b1) = sf_mask (ls_filter b)).
    { unfold lm_iterate in Eb. cbn [analyse element_task] in Eb. destruct (evaluate pb' (loop_cfg L) v (ls_filter b) (ls_rho b)) as [[g ev]|] eqn:Ev; [|discriminate]. cbn [bind] in Eb.
      destruct (lm_advance_inv _ _ _ _ _ _ _ _ Eb) as (o & _ & ->). cbn [ls_filter].
      destruct (dens_range pb T L v _ _ HM HR Hb Hok) as (H0 & H1). pose proof HR as (_ & _ & WP & Hc & _).
      assert (Hp : numbering (List.length (sf_centers (ls_filter a))) (m_elements m)) by (rewrite (wp_elements _ _ _ _ WP); apply (re_ok _ _ _ _ Hr)).
      destruct (evaluate_old _ _ Hp (loop_cfg L) pb pb' v _ _ m Hr eq_refl (lr_filter _ _ _ Hs) WP WP' eq_refl (ls_rho a) ltac:(rewrite Hc; apply Hok) H0 H1) as (e1 & e2 & _ & Q & _).
      rewrite <- (lr_rho _ _ _ Hs), Ev in Q. assert (g = f2 v (ls_filter b)) by congruence. subst g. split; reflexivity. }
    destruct (IH a1 b1 l1 Hr Hs1 HM Hb Hl) as (l' & El & Hall); try assumption.
    + intros j w Q. destruct (Hv j w (or_intror Q)) as (Q1 & Q2 & Q3). split; [exact Q1|]. split; [rewrite Ef; eapply ready_same; [| |exact Q2]; reflexivity|].
      eapply wp_same; [| |exact Q3]; symmetry; apply Ebf.
    + rewrite Eb. cbn [bind]. rewrite El. cbn [bind]. exists (b1 :: l'). split; [reflexivity|]. now constructor.
Qed.
Print Assumptions C108_logmoc_run.

(* C108.  LogMOC keeps a symmetric task symmetric *)
Theorem C108_logmoc_symmetric : forall m T L pb sched a l, reordered m (loop_cfg L) pb pb ->
  made_from (Elastic pb) T L -> 0 < m_rho_min (l_m L) <= m_rho_max (l_m L) -> m_lambda_lower (l_m L) <= m_lambda_upper (l_m L) ->
  (forall i v, In (i, v) sched -> 0 <= v_move v /\ ready (Elastic pb) T L v (ls_filter a)) ->
  densities_ok T (loop_cfg L) (ls_rho a) -> filter_reordered (m_elements m) (ls_filter a) (ls_filter a) -> ls_eval a = None ->
  (forall e, (e < List.length (ta_t T))%nat -> nth (old (m_elements m) e) (ls_rho a) 0 = nth e (ls_rho a) 0) ->
  lm_optimize (Elastic pb) L sched a = Ok l ->
  forall st, In st l -> forall e, (e < List.length (ta_t T))%nat -> nth (old (m_elements m) e) (ls_rho st) 0 = nth e (ls_rho st) 0.
Proof.
  intros m T L pb sched a l Hr HM Hb Hl Hv Hok Hf Hev Hsym H st Hin e He.
  destruct sched as [|[i0 v0] sched0]; [cbn in H; injection H as <-; easy|]. remember ((i0, v0) :: sched0) as sched eqn:Es.
  assert (RD0 : ready (Elastic pb) T L v0 (ls_filter a)) by (apply (Hv i0 v0); rewrite Es; now left).
  destruct RD0 as (_ & _ & WP0 & Hc & _).
  assert (Hn : fb_ne (pb_basis pb) = List.length (ta_t T)) by (rewrite <- Hc; symmetry; apply (wp_elements _ _ _ _ WP0)).
  assert (Hp : numbering (List.length (ta_t T)) (m_elements m)) by (rewrite <- Hn; apply (re_ok _ _ _ _ Hr)).
  assert (Hs : lstate_reordered (m_elements m) a a).
  { constructor; auto; [|now rewrite Hev]. apply (re_build _ _ Hp); [apply Hok|]. intros k Hk. now rewrite Hsym. }
  destruct (C108_logmoc_run m T L pb pb sched a a l Hr Hs HM Hb Hl) as (l' & E & Q); auto.
  { intros i v HI. destruct (Hv i v HI) as (Q1 & Q2). split; [exact Q1|]. split; [exact Q2|]. apply Q2. }
  rewrite H in E. assert (l' = l) by congruence. subst l'.
  assert (Qs : lstate_reordered (m_elements m) st st).
  { clear - Q Hin. induction l as [|x l IH]; [easy|]. inversion Q; subst. destruct Hin as [<-|Hin]; auto. }
  rewrite <- (re_nth _ _ Hp) by exact He. now rewrite <- (lr_rho _ _ _ Qs).
Qed.
Print Assumptions C108_logmoc_symmetric.

(* ---- an instance: the symmetric beam of Order_props, three iterations of LogMOC ---- *)
Lemma sy_made : made_from (Elastic sy_pb) sy_T un_L.
Proof.
  split; [exists sy_dom; split; [vm_compute; reflexivity|reflexivity]|]. split; [left; discriminate|]. intros e [<-|[<-|[<-|[]]]]; cbn; lia.
Qed.
Lemma sy_ready : ready (Elastic sy_pb) sy_T un_L ex_v sy_filter.
Proof.
  split; [apply sy_made|]. split; [apply sy_made|]. split; [|split; [reflexivity|intros; cbn; lra]].
  constructor; cbn; try lra.
  - reflexivity. - exists 0%nat. split; [lia|reflexivity]. - intros; lra. - discriminate. - apply sy_solver.
Qed.
Lemma sy_image_lm : reordered sy_mirror (loop_cfg un_L) sy_pb sy_pb.
Proof. destruct sy_image. constructor; assumption. Qed.
Theorem C108_logmoc_instance : let sched := [(1%Z, ex_v); (2%Z, ex_v); (3%Z, ex_v)] in
  exists l, lm_optimize (Elastic sy_pb) un_L sched (lm_start un_L [1/2; 1/2; 1] sy_filter) = Ok l /\ forall st, In st l -> nth 1 (ls_rho st) 0 = nth 0 (ls_rho st) 0.
Proof.
  intros sched. assert (Hb : 0 < m_rho_min (l_m un_L) <= m_rho_max (l_m un_L)) by (cbn; lra).
  assert (HD : densities_ok sy_T (loop_cfg un_L) [1/2; 1/2; 1]).
  { destruct sy_made as (HT & Hp & _). destruct (sets_of sy_T _ _ HT Hp) as (_ & HD & _). cbn [element_task sy_pb pb_dom sy_dom d_design] in HD. split; [reflexivity|]. intros e He. rewrite <- HD. cbn in He.
    destruct e as [|[|[|]]]; [| | |lia]; cbn; (split; [intros Q; try lra; exfalso; intuition discriminate|intros Q; try reflexivity; exfalso; intuition]). }
  assert (Hv : forall i v, In (i, v) sched -> 0 <= v_move v /\ ready (Elastic sy_pb) sy_T un_L v sy_filter).
  { intros i v Q. assert (v = ex_v) by (destruct Q as [E|[E|[E|[]]]]; congruence). subst v. split; [cbn; lra|exact sy_ready]. }
  destruct (C95_fresh_run_succeeds (Elastic sy_pb) sy_T un_L ex_v 1 [(2%Z, ex_v); (3%Z, ex_v)] [1/2; 1/2; 1] sy_filter sy_made Hb) as (l & El); try assumption; try (cbn; lra).
  { destruct sy_made as (HT & Hp & _). destruct (sets_of sy_T _ _ HT Hp) as (_ & HD' & _). exists 0%nat. apply HD'. now left. } { lia. }
  exists l. split; [exact El|]. intros st Hin.
  pose proof (C108_logmoc_symmetric sy_mirror sy_T un_L sy_pb sched (lm_start un_L [1/2; 1/2; 1] sy_filter) l sy_image_lm sy_made Hb ltac:(cbn; lra) Hv HD sy_same_filter eq_refl) as Q.
  assert (Q0 : nth (old (m_elements sy_mirror) 0) (ls_rho st) 0 = nth 0 (ls_rho st) 0); [|exact Q0].
  apply Q; try assumption; [|cbn; lia]. intros [|[|[|e]]] He; cbn in *; try reflexivity. lia.
Qed.
Print Assumptions C108_logmoc_instance.
