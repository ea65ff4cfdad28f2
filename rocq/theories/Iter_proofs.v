From Verif Require Import Base Sums Material_model Material_proofs OC_model Filter_model Filter_proofs
  Mesh_model Mesh_proofs Fea_model Fea_spec Fea_proofs Fea_props Iter_model Iter_spec Grad_proofs.
Open Scope R_scope.
Open Scope list_scope.

Lemma all_some_map {A} (g : A -> option R) (h : A -> R) l : (forall x, In x l -> g x = Some (h x)) ->
  all_some (map g l) = Some (map h l).
Proof.
  induction l as [|a l IH]; intros H; [reflexivity|]. cbn [map all_some]. rewrite (H a) by now left.
  rewrite IH by (intros; apply H; now right). reflexivity.
Qed.
Lemma all_some_inv l r : all_some l = Some r -> l = map Some r.
Proof.
  revert r. induction l as [|[x|] l IH]; intros r; cbn [all_some]; [intros [= <-]; reflexivity| |discriminate].
  destruct (all_some l) as [r'|]; [|discriminate]. intros [= <-]. cbn. now rewrite (IH r' eq_refl).
Qed.
Lemma compliance_multi_total n slv slvm K D fs : fs <> [] -> exists cs us, compliance_multi n slv slvm K D fs = Ok (cs, us).
Proof.
  destruct fs as [|f [|g fs]]; [easy| |]; intros _.
  - unfold compliance_multi. destruct (compliance_single n slv K D f). eauto.
  - unfold compliance_multi. eauto.
Qed.

Section Evaluate.
Variables (pb : problem) (c : icfg) (v : ivals) (f : sfilter).
Hypothesis WP : well_posed pb c v f.
Let B := pb_basis pb.
Let n := List.length (sf_centers f).
Let ids := design_ids (sf_mask f) n.
Definition loads_of : list vec := map (fun g i => g i * v_scale v) (pb_loads pb).
(* the filter with the iteration's radius *)
Definition f1 : sfilter := if Reqb (v_radius v) (sf_radius f) then f else update_radius (v_radius v) f.
Lemma f1_eq : sf_centers f1 = sf_centers f /\ sf_mask f1 = sf_mask f /\ sf_radius f1 = v_radius v.
Proof.
  unfold f1. destruct (Reqb (v_radius v) (sf_radius f)) eqn:E; [|easy].
  apply Reqb_true in E. auto.
Qed.
Let kf := kernel KGaussian (v_radius v).
Definition cv (x : list R) (i : nat) : R := conv kf (v_radius v) (sf_centers f) ids x i.
Definition cvT (x : list R) (j : nat) : R := conv_T kf (v_radius v) (sf_centers f) ids x j.
Definition filtered (x : list R) : list R := map (fun i => if is_design (sf_mask f) i then cv x i else nth i x 0) (seq 0 n).
Definition projected (x : list R) : list R := map (fun y => heaviside_projection y (v_beta v) (c_beta_eta (i_oc c))) (filtered x).
Definition f2 : sfilter := mkSF (sf_centers f) (sf_mask f) (v_radius v) (Some (Wof f1)).

Lemma ids_nonempty : ids <> [].
Proof.
  destruct (wp_design _ _ _ _ WP) as (i & Hi & Hd). intros E. assert (In i ids) by (apply ids_in; auto). rewrite E in H. easy.
Qed.
Lemma forward1 x : List.length x = n -> sf_forward f1 x = Ok (f2, filtered x).
Proof.
  intros Hx. destruct f1_eq as (E1 & E2 & E3).
  rewrite (forward_eq f1).
  - unfold f2, filtered, cv, kf, ids, n. rewrite E1, E2, E3. reflexivity.
  - rewrite E3. apply (wp_radius _ _ _ _ WP).
  - rewrite E1, E2. apply ids_nonempty.
  - rewrite E1. exact Hx.
Qed.
Lemma gradient2 g : List.length g = n ->
  sf_gradient f2 g = Ok (map (fun j => if is_design (sf_mask f) j then cvT g j else 0) (seq 0 n)).
Proof.
  intros Hg. destruct f1_eq as (E1 & E2 & E3). rewrite (gradient_eq f1).
  - unfold cvT, kf, ids, n. rewrite E1, E2, E3. reflexivity.
  - cbn. now rewrite E1.
  - cbn. now rewrite E2.
  - reflexivity.
  - rewrite E1. exact Hg.
Qed.
Lemma sum_gradients_eq gs : forall acc, List.length acc = n -> (forall g, In g gs -> List.length g = n) ->
  sum_gradients f2 acc gs =
  Ok (map (fun j => nth j acc 0 + rsum (map (fun g => if is_design (sf_mask f) j then cvT g j else 0) gs)) (seq 0 n)).
Proof.
  induction gs as [|g gs IH]; intros acc Ha Hg; cbn [sum_gradients].
  - f_equal. apply (nth_ext _ _ 0 0); [now rewrite map_length, seq_length|]. intros j Hj.
    rewrite nth_map_seq' by lia. cbn. lra.
  - rewrite gradient2 by (apply Hg; now left). cbn [bind]. rewrite IH.
    + f_equal. apply map_ext_in. intros j Hj. apply in_seq in Hj. unfold vadd_list.
      assert (Hz : forall a b : list R, List.length a = List.length b -> (j < List.length a)%nat -> nth j (zipwith Rplus a b) 0 = nth j a 0 + nth j b 0).
      { clear. revert j. intros j a. revert j. induction a as [|x a IH]; intros j [|y b] Hl Hj; cbn in *; try lia.
        destruct j; [reflexivity|]. apply IH; lia. }
      rewrite Hz by (rewrite ?map_length, ?seq_length; lia). rewrite nth_map_seq' by lia. cbn [map rsum fold_right]. unfold rsum. lra.
    + unfold vadd_list. rewrite zipwith_length; [exact Ha|]. now rewrite map_length, seq_length.
    + intros g' Hg'. apply Hg. now right.
Qed.

(* displacements of all load cases for given element moduli *)
Definition usol (E : nat -> R) : list vec :=
  match objectives (fb_n B) (pb_slv pb) (pb_slvm pb) (stiffness B (pb_nu pb) E) (pb_D pb) (pb_loads pb) (v_scale v) with
  | Ok (_, us) => us | Err _ => [] end.
Lemma usol_spec E : (forall e, (e < fb_ne B)%nat -> 0 < E e) ->
  objectives (fb_n B) (pb_slv pb) (pb_slvm pb) (stiffness B (pb_nu pb) E) (pb_D pb) (pb_loads pb) (v_scale v)
    = Ok (zipwith (fun g u => work (fb_n B) (pb_D pb) g u) loads_of (usol E), usol E) /\
  Forall2 (equilibrium (fb_n B) (stiffness B (pb_nu pb) E) (pb_D pb)) loads_of (usol E).
Proof.
  intros HE. unfold usol, objectives. fold loads_of.
  destruct (compliance_multi_total (fb_n B) (pb_slv pb) (pb_slvm pb) (stiffness B (pb_nu pb) E) (pb_D pb) loads_of) as (cs & us & Eq).
  { unfold loads_of. pose proof (wp_loads _ _ _ _ WP). destruct (pb_loads pb); [easy|discriminate]. }
  rewrite Eq. destruct (wp_solver _ _ _ _ WP E HE) as (S1 & S2). fold B in S1, S2.
  assert (Q : Forall2 (equilibrium (fb_n B) (stiffness B (pb_nu pb) E) (pb_D pb)) loads_of us /\
    cs = zipwith (fun f u => work (fb_n B) (pb_D pb) f u) loads_of us).
  { refine (multi_value _ _ _ _ _ _ cs us _ _ Eq); [intros b _; apply S1|apply S2]. }
  destruct Q as (Q1 & Q2). rewrite Q2. auto.
Qed.
Lemma usol_length E : (forall e, (e < fb_ne B)%nat -> 0 < E e) -> List.length (usol E) = List.length (pb_loads pb).
Proof.
  intros HE. destruct (usol_spec E HE) as (_ & F). apply Forall2_len in F. unfold loads_of in F. now rewrite map_length in F.
Qed.
Definition loads_count : R := INR (List.length (pb_loads pb)).
Definition gfun (rho : list R) (E : nat -> R) (u : vec) : list R :=
  grad_filtered (i_interp c) (pb_E0 pb) (Emin_of pb c) (v_p v) (v_beta v) (c_beta_eta (i_oc c))
    (filtered rho) (projected rho) (strain_energy B (pb_nu pb) E u).
Definition dCfull (rho : list R) (E : nat -> R) : list R :=
  map (fun j => rsum (map (fun u => if is_design (sf_mask f) j then cvT (gfun rho E u) j else 0) (usol E)) / loads_count) (seq 0 n).

Lemma projected_length rho : List.length (projected rho) = n.
Proof. unfold projected, filtered. now rewrite !map_length, seq_length. Qed.
Lemma zipwith_len_F2 {A C} (P : A -> C -> Prop) (g : A -> C -> R) l m : Forall2 P l m -> List.length (zipwith g l m) = List.length l.
Proof. induction 1; cbn; auto. Qed.

Lemma evaluate_eq rho El : List.length rho = n ->
  moduli (i_interp c) (pb_E0 pb) (Emin_of pb c) (v_p v) (projected rho) = Ok El ->
  (forall e, (e < n)%nat -> 0 < nth e El 0) -> 
  let E := fun e => nth e El 0 in
  let ev g := mkEval (filtered rho) (projected rho)
      (rsum (zipwith (fun g u => work (fb_n B) (pb_D pb) g u) loads_of (usol E)) / loads_count)
      (map (fun u => strain_energy B (pb_nu pb) E u) (usol E)) g in
  evaluate pb c v f rho =
  Ok (f2, ev (if i_sens_filter c then filtered (dCfull rho E) else dCfull rho E)).
Proof.
  intros Hlen Hm HE E ev. unfold evaluate. fold f1. fold B. rewrite forward1 by exact Hlen. cbn [bind]. fold (projected rho). rewrite Hm. cbn [bind].
  assert (HE' : forall e, (e < fb_ne B)%nat -> 0 < E e).
  { intros e He. apply HE. unfold n. rewrite (wp_elements _ _ _ _ WP). exact He. }
  destruct (usol_spec E HE') as (Hobj & Heq). fold E. rewrite Hobj. cbn [bind].
  rewrite sum_gradients_eq.
  2: now rewrite repeat_length.
  2:{ intros g Hg. apply in_map_iff in Hg. destruct Hg as (U & <- & _). unfold grad_filtered. rewrite map_length, seq_length. apply projected_length. }
  cbn [bind].
  assert (Hg : map (fun x => x / INR (List.length (pb_loads pb)))
     (map (fun j => nth j (repeat 0 (List.length rho)) 0 +
        rsum (map (fun g => if is_design (sf_mask f) j then cvT g j else 0)
          (map (grad_filtered (i_interp c) (pb_E0 pb) (Emin_of pb c) (v_p v) (v_beta v) (c_beta_eta (i_oc c)) (filtered rho) (projected rho))
             (map (fun u => strain_energy B (pb_nu pb) E u) (usol E))))) (seq 0 n)) = dCfull rho E).
  { rewrite map_map. unfold dCfull, loads_count. apply map_ext_in. intros j _. rewrite nth_repeat, Rplus_0_l. rewrite !map_map. reflexivity. }
  rewrite Hg. rewrite (zipwith_len_F2 _ _ _ _ Heq). assert (Hll : INR (List.length loads_of) = loads_count) by (unfold loads_of, loads_count; now rewrite map_length).
  rewrite Hll.
  destruct (i_sens_filter c).
  - assert (Hf : sf_forward f2 (dCfull rho E) = Ok (f2, filtered (dCfull rho E))).
    { destruct f1_eq as (E1 & E2 & E3). rewrite (forward_eq f2).
      - unfold f2 at 1. cbn [sf_centers sf_mask sf_radius]. unfold f2. f_equal. f_equal. f_equal. f_equal.
        unfold Wof. cbn [sf_centers sf_mask sf_radius]. now rewrite E1, E2, E3.
      - cbn. apply (wp_radius _ _ _ _ WP).
      - cbn. apply ids_nonempty.
      - cbn. unfold dCfull. now rewrite map_length, seq_length. }
    rewrite Hf. cbn [bind]. reflexivity.
  - reflexivity.
Qed.

(* pairing with a direction: the filter gradient is the adjoint of the filter *)
Lemma adjoint_pair d g :
  rsum (map (fun j => nth j d 0 * (if is_design (sf_mask f) j then cvT g j else 0)) (seq 0 n)) =
  rsum (map (fun i => nth i g 0 * (if is_design (sf_mask f) i then cv d i else 0)) (seq 0 n)).
Proof.
  transitivity (rsum (map (fun j => nth j d 0 * cvT g j) ids)).
  { unfold ids. rewrite ids_sum. apply rs_ext. intros j _. fold ids. destruct (is_design _ j); lra. }
  transitivity (rsum (map (fun i => nth i g 0 * cv d i) ids)).
  2:{ unfold ids. rewrite ids_sum. apply rs_ext. intros j _. fold ids. destruct (is_design _ j); lra. }
  unfold cvT, cv, conv_T, conv.
  rewrite (rs_ext _ (fun j => rsum (map (fun i => nth j d 0 * (entry kf (v_radius v) (sf_centers f) ids i j * nth i g 0)) ids))).
  2:{ intros j _. now rewrite rs_scal. }
  rewrite rs_swap. apply rs_ext. intros i _. rewrite <- rs_scal. apply rs_ext. intros j _. ring.
Qed.
(* the filter along a line *)
Lemma line_length rho d t : List.length rho = n -> List.length d = n -> List.length (line rho d t) = n.
Proof. intros H1 H2. unfold line. rewrite zipwith_length; lia. Qed.
Lemma line_nth rho d t e : List.length rho = List.length d -> nth e (line rho d t) 0 = nth e rho 0 + t * nth e d 0.
Proof.
  unfold line. revert d e. induction rho as [|r rho IH]; intros [|x d] e Hl; cbn in Hl; try lia.
  - destruct e; cbn; lra.
  - destruct e; [reflexivity|]. cbn [zipwith nth]. apply IH. lia.
Qed.
Lemma cv_line rho d t i : List.length rho = n -> List.length d = n -> cv (line rho d t) i = cv rho i + t * cv d i.
Proof.
  intros H1 H2. unfold cv, conv. rewrite <- rs_scal, <- rs_plus. apply rs_ext. intros j _. rewrite line_nth by lia. ring.
Qed.
Lemma filtered_nth rho e : (e < n)%nat -> nth e (filtered rho) 0 = if is_design (sf_mask f) e then cv rho e else nth e rho 0.
Proof. intros He. unfold filtered. now rewrite nth_map_seq'. Qed.
Lemma projected_eq rho : projected rho = map (fun e => heaviside_projection (nth e (filtered rho) 0) (v_beta v) (c_beta_eta (i_oc c))) (seq 0 n).
Proof.
  unfold projected. unfold filtered at 1. rewrite map_map. apply map_ext_in. intros e He. apply in_seq in He.
  rewrite filtered_nth by lia. reflexivity.
Qed.
End Evaluate.
