(* C108: the numbering of a task and mirroring it do not matter. *)
From Coq Require Import Permutation.
From Verif Require Import Base Sums Material_model OC_model OC_spec OC_proofs Filter_model Filter_proofs Mesh_model Mesh_proofs Fea_model Fea_spec Fea_proofs
  Iter_model Iter_spec Iter_proofs Grad_proofs Grad_props Iter_props Scale_proofs Scale_props HeatIter_props Order_spec Order_proofs.
Open Scope R_scope.
Open Scope list_scope.

(* C108.  an analysis of the image is the image of the analysis *)
Theorem C108_analysis : forall m c pb pb' v f f' rho, reordered m c pb pb' -> filter_reordered (m_elements m) f f' ->
  well_posed pb c v f -> well_posed pb' c v f' -> List.length rho = List.length (sf_centers f) ->
  (forall e, 0 <= nth e rho 0) -> (i_interp c = RAMP -> forall e, nth e rho 0 <= 1) ->
  exists g ev g' ev', evaluate pb c v f rho = Ok (g, ev) /\ evaluate pb' c v f' (reorder 0 (m_elements m) rho) = Ok (g', ev') /\
    eval_reordered (m_elements m) ev ev' /\ filter_reordered (m_elements m) g g'.
Proof.
  intros m c pb pb' v f f' rho Hr Hf WP WP' Hlen H0 H1. set (n := List.length (sf_centers f)) in *.
  assert (Hp : numbering n (m_elements m)) by (unfold n; rewrite (wp_elements _ _ _ _ WP); apply (re_ok _ _ _ _ Hr)).
  destruct (evaluate_old n (m_elements m) Hp c pb pb' v f f' m Hr eq_refl Hf WP WP' eq_refl rho Hlen H0 H1) as (ev & ev' & E1 & E2 & E3 & _).
  exists (f2 v f), ev, (f2 v f'), ev'. repeat (split; [assumption|]). now apply f2_old.
Qed.
Print Assumptions C108_analysis.

Lemma pin_nth l rho j : (j < List.length rho)%nat -> nth j (pin rho (Some l)) 0 = if in_dec Nat.eq_dec j l then 1 else nth j rho 0.
Proof.
  cbn [pin]. revert rho. induction l as [|i l IH]; intros rho Hj; [reflexivity|]. cbn [List.length repeat scatter].
  rewrite IH by (rewrite upd_len; exact Hj). destruct (Nat.lt_ge_cases i (List.length rho)) as [Hi|Hi].
  - rewrite upd_nth by exact Hi. destruct (in_dec Nat.eq_dec j l); destruct (in_dec Nat.eq_dec j (i :: l)) as [Q|Q]; cbn in Q; try reflexivity; try tauto;
      destruct (Nat.eqb_spec j i); subst; try reflexivity; try tauto. destruct Q; [congruence|tauto].
  - assert (Hu : forall l i x, (List.length l <= i)%nat -> upd l i x = l).
    { clear. induction l as [|a l IH]; intros [|i] x H; cbn in *; try lia; try reflexivity. rewrite IH by lia. reflexivity. }
    rewrite Hu by exact Hi. destruct (in_dec Nat.eq_dec j l); destruct (in_dec Nat.eq_dec j (i :: l)) as [Q|Q]; cbn in Q; try reflexivity; try tauto. destruct Q; [lia|tauto].
Qed.
Lemma pin_len rho o : List.length (pin rho o) = List.length rho.
Proof. destruct o as [l|]; cbn [pin]; [apply scatter_len|apply map_length]. Qed.
Lemma pin_old n p : numbering n p -> forall rho o o', List.length rho = n ->
  match o, o' with None, None => True | Some l, Some l' => same_set n p l l' | _, _ => False end -> pin (reorder 0 p rho) o' = reorder 0 p (pin rho o).
Proof.
  intros Hp rho o o' Hl H. apply (re_build n p Hp); [rewrite pin_len; now apply re_len|]. intros e He. destruct o as [l|], o' as [l'|]; try easy.
  - rewrite !pin_nth by (rewrite ?(re_len n p Hp), ?Hl; try (apply (old_lt n p Hp)); exact He). specialize (H e He).
    destruct (in_dec Nat.eq_dec e l'), (in_dec Nat.eq_dec (old p e) l); try reflexivity; try tauto. now apply re_nth with n.
  - cbn [pin]. rewrite (nth_map_seq_any (fun _ => 1) (reorder 0 p rho)) by (rewrite (re_len n p Hp); exact He). rewrite (nth_map_seq_any (fun _ => 1)) by (rewrite Hl; now apply (old_lt n p Hp)). reflexivity.
Qed.

(* C108.  an iteration of the image is the image of the iteration: densities, filter,
   running scale, density change and KKT residual *)
Theorem C108_iteration : forall m c pb pb' v i a b a', reordered m c pb pb' -> state_reordered (m_elements m) a b ->
  well_posed pb c v (s_filter a) -> well_posed pb' c v (s_filter b) -> List.length (s_rho a) = List.length (sf_centers (s_filter a)) ->
  (forall e, 0 <= nth e (s_rho a) 0) -> (i_interp c = RAMP -> forall e, nth e (s_rho a) 0 <= 1) ->
  iterate pb c v i a = Ok a' -> exists b', iterate pb' c v i b = Ok b' /\ state_reordered (m_elements m) a' b'.
Proof.
  intros m c pb pb' v i a b a' Hr [R1 R2 R3 R4 R5 _] WP WP' Hlen H0 H1 H. set (p := m_elements m) in *. set (n := List.length (sf_centers (s_filter a))) in *.
  assert (Hne : fb_ne (pb_basis pb) = n) by (unfold n; symmetry; apply (wp_elements _ _ _ _ WP)).
  assert (Hp : numbering n p) by (rewrite <- Hne; apply (re_ok _ _ _ _ Hr)).
  destruct (evaluate_old n p Hp c pb pb' v _ _ m Hr eq_refl R2 WP WP' eq_refl (s_rho a) Hlen H0 H1) as (ev & ev' & E1 & E2 & E3 & L1 & L2).
  unfold iterate in *. rewrite E1 in H. rewrite R1, E2. cbn [bind] in *.
  set (g := f2 v (s_filter a)) in *. set (g' := f2 v (s_filter b)) in *. set (D := d_design (pb_dom pb)). set (D' := d_design (pb_dom pb')).
  assert (RD : forall e, In e D -> (e < n)%nat) by (intros e He; rewrite <- Hne; now apply (re_range _ _ _ _ Hr)).
  assert (RD' : forall e, In e D' -> (e < n)%nat) by (intros e He; rewrite <- Hne; now apply (re_range' _ _ _ _ Hr)).
  pose proof (re_nodup _ _ _ _ Hr : NoDup D) as ND. pose proof (re_nodup' _ _ _ _ Hr : NoDup D') as ND'.
  assert (HD : Permutation (map (old p) D') D).
  { apply (set_old n p Hp); auto. pose proof (re_design _ _ _ _ Hr) as Q. rewrite Hne in Q. exact Q. }
  pose proof (update_old n p Hp D D' (s_rho a) HD ND ND' RD RD' Hlen (oc_args_of pb v i (s_rho a) g ev) (oc_args_of pb' v i (reorder 0 p (s_rho a)) g' ev')
    (fun k => nth k (ev_dC ev) 0) (fun k => nth k (pb_volumes pb) 0) eq_refl eq_refl eq_refl eq_refl eq_refl) as U.
  cbn [oc_args_of a_filter a_dC a_move a_eta a_beta a_percentile a_volumes a_vol_sum a_vol_frac] in U. fold D D' in U.
  assert (V : gather (pb_volumes pb') D' = map (fun k => nth k (pb_volumes pb) 0) (map (old p) D')).
  { rewrite (re_volumes _ _ _ _ Hr). apply (gather_old n p Hp D'); auto. }
  assert (U' := fun HF HC HV => U HF eq_refl HC eq_refl eq_refl eq_refl eq_refl eq_refl V HV eq_refl (i_oc c) (s_running a)). clear U.
  specialize (U' ltac:(intros x Hx; unfold sf_map, g, g'; rewrite (f2_forward pb c v _ x WP Hx);
     rewrite (f2_forward pb' c v _ (reorder 0 p x) WP') by (rewrite (re_len n p Hp); symmetry; apply (fr_len _ _ _ R2));
     split; [apply (filtered_old n p Hp v _ _ R2 eq_refl); intros e He; now apply re_nth with n|now apply filtered_len])).
  specialize (U' ltac:(rewrite (er_dC _ _ _ E3); apply (gather_old n p Hp D'); auto)).
  specialize (U' ltac:(rewrite V; unfold gather; apply rsum_perm, Permutation_map, HD)).
  unfold advance in *. rewrite R3, R1. fold D in H. fold D'.
  destruct (rho_update (i_oc c) (s_running a) (oc_args_of pb v i (s_rho a) g ev)) as [r|]; [|discriminate].
  destruct U' as (r' & Er & Q1 & Q2 & Q3 & Q4 & Q5).
  match type of Er with ?l = _ => replace (rho_update (i_oc c) (s_running a) (oc_args_of pb' v i (reorder 0 p (s_rho a)) g' ev')) with (Some r') by (symmetry; exact Er) end.
  destruct (r_rho r) as [new|]; [|discriminate]. destruct Q5 as (w & -> & Q5). rewrite Q5.
  rewrite (scatter_old n p Hp D D' (s_rho a) HD ND ND' RD RD' Hlen w).
  set (full := scatter (s_rho a) D (map w D)) in *. assert (FL : List.length full = n) by (unfold full; rewrite scatter_len; exact Hlen).
  assert (HPin : pin (reorder 0 p full) (pins pb' c) = reorder 0 p (pin full (pins pb c))).
  { apply (pin_old n p Hp _ _ _ FL). pose proof (re_pins _ _ _ _ Hr) as Q. rewrite Hne in Q. exact Q. }
  rewrite HPin. injection H as <-. eexists. split; [reflexivity|].
  constructor; cbn [s_rho s_filter s_running s_change s_kkt s_eval].
  - reflexivity.
  - now apply f2_old.
  - exact Q1.
  - rewrite !(gather_old n p Hp D') by exact RD'. unfold gather. rewrite !zip_maps. apply np_max_perm, Permutation_map, Permutation_map, HD.
  - exact Q4.
  - exact E3.
Qed.
Print Assumptions C108_iteration.

(* C108.  a whole run of the image is the image of the run *)
Theorem C108_run : forall m T c pb pb' sched a b l, reordered m c pb pb' ->
  built_from T c pb -> pins_known T c -> (forall e, In e (ta_design T) -> (e < List.length (ta_t T))%nat) ->
  0 <= c_rho_min (i_oc c) <= c_rho_max (i_oc c) -> c_rho_max (i_oc c) <= 1 -> c_smin (i_oc c) <= c_smax (i_oc c) ->
  c_lambda_lower (i_oc c) <= c_lambda_upper (i_oc c) ->
  List.length (sf_centers (s_filter a)) = List.length (ta_t T) ->
  (forall i v, In (i, v) sched -> 0 <= v_move v /\ well_posed pb c v (s_filter a) /\ well_posed pb' c v (s_filter b)) -> densities_ok T c (s_rho a) ->
  state_reordered (m_elements m) a b -> run pb c sched a = Ok l ->
  exists l', run pb' c sched b = Ok l' /\ Forall2 (state_reordered (m_elements m)) l l'.
Proof.
  intros m T c pb pb' sched. induction sched as [|[i v] sched IH]; intros a b l Hr HT Hne Hdes Hb Hb1 Hsm Hl Hc Hv Hok Hs H; cbn [run] in *.
  - injection H as <-. exists []. split; [reflexivity|constructor].
  - destruct (iterate pb c v i a) as [a1|] eqn:E1; [|discriminate]. cbn [bind] in H.
    destruct (run pb c sched a1) as [l1|] eqn:E2; [|discriminate]. cbn [bind] in H. injection H as <-.
    destruct (Hv i v) as (Hm & WP & WP'); [now left|].
    assert (Hlen : List.length (s_rho a) = List.length (sf_centers (s_filter a))) by (rewrite Hc; apply Hok).
    pose proof (unit_densities T c pb (s_rho a) HT Hne ltac:(lra) Hb1 Hok) as Hu.
    destruct (C108_iteration m c pb pb' v i a b a1 Hr Hs WP WP' Hlen (fun e => proj1 (Hu e)) (fun _ e => proj2 (Hu e)) E1) as (b1 & I1 & I2).
    destruct (C26_iteration_keeps_bounds T c pb v i a a1) as (Hok1 & _); auto; try lra.
    pose proof (iterate_filter pb c v i a a1 WP Hlen Hu E1) as Hf.
    destruct (IH a1 b1 l1) as (l' & I4 & I5); auto.
    + rewrite Hf. exact Hc.
    + intros j w Q. destruct (Hv j w) as (Hm' & W1 & W2); [now right|]. split; [exact Hm'|]. split.
      * rewrite Hf. apply (wp_same pb c w (s_filter a) (f2 v (s_filter a))); [reflexivity|reflexivity|exact W1].
      * assert (Lb : List.length (s_rho b) = List.length (sf_centers (s_filter b))).
        { rewrite (sr_rho _ _ _ Hs), (fr_len _ _ _ (sr_filter _ _ _ Hs)). unfold reorder. rewrite map_length. rewrite (Permutation_length (proj1 (re_ok _ _ _ _ Hr))), seq_length. symmetry. apply (wp_elements _ _ _ _ WP). }
        assert (Ub : forall e, 0 <= nth e (s_rho b) 0 <= 1).
        { intros e. rewrite (sr_rho _ _ _ Hs). destruct (Nat.lt_ge_cases e (fb_ne (pb_basis pb))) as [He|He].
          - rewrite (re_nth _ _ (proj1 (re_ok _ _ _ _ Hr)) 0 _ e He). apply Hu.
          - rewrite nth_overflow; [lra|]. rewrite (re_len _ _ (proj1 (re_ok _ _ _ _ Hr))). exact He. }
        rewrite (iterate_filter pb' c v i b b1 WP' Lb Ub I1). apply (wp_same pb' c w (s_filter b) (f2 v (s_filter b))); [reflexivity|reflexivity|exact W2].
    + exists (b1 :: l'). rewrite I1. cbn [bind]. rewrite I4. cbn [bind]. split; [reflexivity|now constructor].
Qed.
Print Assumptions C108_run.

(* C108.  symmetry: a task that is its own image, started from densities that are their
   own image, has in every iteration densities and sensitivities that are their own image *)
Theorem C108_symmetric_designs : forall m T c pb sched a l, reordered m c pb pb ->
  built_from T c pb -> pins_known T c -> (forall e, In e (ta_design T) -> (e < List.length (ta_t T))%nat) ->
  0 <= c_rho_min (i_oc c) <= c_rho_max (i_oc c) -> c_rho_max (i_oc c) <= 1 -> c_smin (i_oc c) <= c_smax (i_oc c) ->
  c_lambda_lower (i_oc c) <= c_lambda_upper (i_oc c) ->
  List.length (sf_centers (s_filter a)) = List.length (ta_t T) ->
  (forall i v, In (i, v) sched -> 0 <= v_move v /\ well_posed pb c v (s_filter a)) -> densities_ok T c (s_rho a) ->
  filter_reordered (m_elements m) (s_filter a) (s_filter a) -> s_eval a = None ->
  (forall e, (e < List.length (ta_t T))%nat -> nth (old (m_elements m) e) (s_rho a) 0 = nth e (s_rho a) 0) ->
  run pb c sched a = Ok l ->
  forall st, In st l -> forall e, (e < List.length (ta_t T))%nat -> nth (old (m_elements m) e) (s_rho st) 0 = nth e (s_rho st) 0 /\
    forall ev, s_eval st = Some ev -> nth (old (m_elements m) e) (ev_dC ev) 0 = nth e (ev_dC ev) 0 /\ nth (old (m_elements m) e) (ev_projected ev) 0 = nth e (ev_projected ev) 0.
Proof.
  intros m T c pb sched a l Hr HT Hne Hdes Hb Hb1 Hsm Hl Hc Hv Hok Hf Hev Hsym H st Hin e He.
  destruct sched as [|[i0 v0] sched0]; [cbn in H; injection H as <-; easy|]. remember ((i0, v0) :: sched0) as sched eqn:Es.
  assert (WP0 : well_posed pb c v0 (s_filter a)) by (apply (Hv i0 v0); rewrite Es; now left).
  assert (Hn : fb_ne (pb_basis pb) = List.length (ta_t T)) by (rewrite <- Hc; symmetry; apply (wp_elements _ _ _ _ WP0)).
  assert (Hp : numbering (List.length (ta_t T)) (m_elements m)) by (rewrite <- Hn; apply (re_ok _ _ _ _ Hr)).
  assert (Hs : state_reordered (m_elements m) a a).
  { constructor; auto; [|now rewrite Hev]. apply (re_build _ _ Hp); [apply Hok|]. intros k Hk. now rewrite Hsym. }
  destruct (C108_run m T c pb pb sched a a l Hr HT Hne Hdes Hb Hb1 Hsm Hl Hc (fun i v Q => conj (proj1 (Hv i v Q)) (conj (proj2 (Hv i v Q)) (proj2 (Hv i v Q)))) Hok Hs H) as (l' & E & Q).
  rewrite H in E. assert (l' = l) by congruence. subst l'.
  assert (Qs : state_reordered (m_elements m) st st).
  { clear - Q Hin. induction l as [|x l IH]; [easy|]. inversion Q; subst. destruct Hin as [<-|Hin]; auto. }
  split; [rewrite <- (re_nth _ _ Hp) by exact He; now rewrite <- (sr_rho _ _ _ Qs)|]. intros ev Hs1. pose proof (sr_eval _ _ _ Qs) as QE. rewrite Hs1 in QE. split.
  - rewrite <- (re_nth _ _ Hp) by exact He. now rewrite <- (er_dC _ _ _ QE).
  - rewrite <- (re_nth _ _ Hp) by exact He. now rewrite <- (er_projected _ _ _ QE).
Qed.
Print Assumptions C108_symmetric_designs.

(* ---- an instance: a beam of two elements held at both ends, loaded in the middle, next
   to a loaded element that is kept; mirrored about the middle ---- *)
Definition sy_T := mkTA [[0;1];[1;2];[3;4]]%nat 5 (fun l => l) (Some (Arr [0;2]%nat)) (Some (Arr [4%nat])) None None [0;1;2]%nat.
Definition sy_dom : domain := mkDom 3 (Some [0;1]%nat) (Some [2%nat]) None [0;1]%nat [1;3;4]%nat [0;1;2]%nat [2%nat] [0;1;2]%nat.
(* degree of freedom 0: the middle node across the beam, its shape function rises in
   element 0 and falls in element 1; degree of freedom 1 belongs to element 2 *)
Definition sy_B : fembasis := mkBasis 2 3 1 (fun _ _ => 1) (fun e _ k i j =>
  match k, e, i, j with
  | O, O, 1%nat, O => 1
  | O, 1%nat, 1%nat, O => -1
  | 1%nat, 2%nat, 1%nat, 1%nat => 1
  | _, _, _, _ => 0 end).
Definition sy_pb := mkProb sy_dom sy_B 0 1 [] [fun _ => 1] [1; 1; 1] ex_slv (fun A => map (ex_slv A)).
Definition sy_filter := mkSF [[0; 0]; [1; 0]; [1/2; 1]] (Some [true; true; false]) 1 None.
Definition sy_mirror := mkImage [1;0;2]%nat [0;1]%nat (fun _ q => q) (fun _ => 1) (fun i => match i with O => -1 | _ => 1 end) (fun i => i).
Lemma sy_built : built_from sy_T ex_c sy_pb.
Proof. exists sy_dom. split; [vm_compute; reflexivity|reflexivity]. Qed.
Lemma sy_stiffness E k l : (k < 2)%nat -> (l < 2)%nat ->
  stiffness sy_B 0 E k l = if Nat.eqb k l then (if Nat.eqb k 0 then (E 0%nat + E 1%nat) / 2 else E 2%nat) else 0.
Proof.
  intros Hk Hl. unfold stiffness, lam_of, mu_of, lam_mu, stiffness_form, trace, ddot, sym_grad, sum, sy_B.
  destruct k as [|[|]]; [| |lia]; destruct l as [|[|]]; try lia; cbn; field.
Qed.
Lemma sy_solver : solver_ok sy_pb.
Proof.
  intros E HE A. cbn [sy_pb pb_basis] in HE.
  assert (E0 : 0 < E 0%nat) by (apply HE; cbn; lia). assert (E1 : 0 < E 1%nat) by (apply HE; cbn; lia). assert (E2 : 0 < E 2%nat) by (apply HE; cbn; lia).
  assert (S : forall b, solves (fb_n (pb_basis sy_pb)) A b (pb_slv sy_pb A b)).
  { intros b i Hi. change (fb_n (pb_basis sy_pb)) with 2%nat in *. unfold mv, sum. cbn [seq map rsum fold_right].
    assert (HA : forall k l, (k < 2)%nat -> (l < 2)%nat -> A k l = if Nat.eqb k l then (if Nat.eqb k 0 then (E 0%nat + E 1%nat) / 2 else E 2%nat) else 0) by (intros k l Hk Hl; exact (sy_stiffness E k l Hk Hl)).
    cbn [pb_slv sy_pb]. unfold ex_slv. rewrite (HA i 0%nat), (HA i 1%nat), (HA 0%nat 0%nat), (HA 1%nat 1%nat) by lia.
    destruct i as [|[|]]; [| |lia]; cbn [Nat.eqb]; field; lra. }
  split; [exact S|]. intros bs. cbn [pb_slvm sy_pb]. induction bs as [|b bs IH]; cbn [map]; constructor; [apply S|exact IH].
Qed.
Lemma sy_wp : well_posed sy_pb ex_c ex_v sy_filter.
Proof.
  constructor; cbn; try lra.
  - reflexivity. - exists 0%nat. split; [lia|reflexivity]. - intros; lra. - discriminate. - apply sy_solver.
Qed.
Lemma sy_image : reordered sy_mirror ex_c sy_pb sy_pb.
Proof.
  constructor; cbn [sy_mirror sy_pb sy_B pb_basis pb_dom pb_D pb_loads pb_volumes sy_dom d_design fb_n fb_ne fb_nq fb_dx fb_grad m_elements m_dofs m_points m_sign m_axis m_turn]; try reflexivity.
  - split; [apply perm_swap|]. split; [apply Permutation_refl|]. split; [intros; apply Permutation_refl|]. split; [intros; now left|]. split; [intros [|i]; [now right|now left]|apply Permutation_refl].
  - intros e q k i j He Hq Hk Hi Hj. destruct e as [|[|[|]]]; [| | |lia]; destruct k as [|[|]]; try lia; destruct i as [|[|[|]]]; try lia; destruct j as [|[|[|]]]; try lia; cbn; ring.
  - intros e He. cbn. tauto.
  - constructor; [|constructor]. intros; ring.
  - intros e He. destruct e as [|[|[|]]]; [| | |lia]; cbn; intuition (try discriminate; auto).
  - repeat constructor; cbn; intuition discriminate. - repeat constructor; cbn; intuition discriminate.
  - intros e [<-|[<-|[]]]; lia. - intros e [<-|[<-|[]]]; lia.
  - cbn [pins ex_c i_design_dirichlet sy_pb pb_dom sy_dom d_neumann]. intros e He. destruct e as [|[|[|]]]; [| | |lia]; cbn; intuition (try discriminate; auto).
Qed.
Lemma sy_same_filter : filter_reordered [1;0;2]%nat sy_filter sy_filter.
Proof.
  constructor; try reflexivity. cbn [sy_filter sf_centers List.length]. intros i j Hi Hj.
  destruct i as [|[|[|]]]; [| | |lia]; (destruct j as [|[|[|]]]; [| | |lia]); cbn [nth old]; unfold dist; f_equal; cbn [zipwith]; unfold rsum; cbn [fold_right]; field.
Qed.
Theorem C108_instance : let sched := [(1%Z, ex_v); (2%Z, ex_v); (3%Z, ex_v)] in
  exists l, run sy_pb ex_c sched (mkIS [1/2; 1/2; 1] sy_filter 0 0 None None) = Ok l /\ forall st, In st l -> nth 1 (s_rho st) 0 = nth 0 (s_rho st) 0.
Proof.
  intros sched. set (s0 := mkIS [1/2; 1/2; 1] sy_filter 0 0 None None).
  assert (N : pins_known sy_T ex_c) by (left; discriminate).
  assert (Hd : forall e, In e (ta_design sy_T) -> (e < List.length (ta_t sy_T))%nat) by (intros e [<-|[<-|[<-|[]]]]; cbn; lia).
  assert (HW : forall i v, In (i, v) sched -> v = ex_v) by (intros i v [Q|[Q|[Q|[]]]]; congruence).
  assert (HD : densities_ok sy_T ex_c (s_rho s0)).
  { destruct (sets_of sy_T ex_c sy_pb sy_built N) as (_ & HD & _). cbn [sy_pb pb_dom sy_dom d_design] in HD. split; [reflexivity|]. intros e He. rewrite <- HD. cbn in He.
    destruct e as [|[|[|]]]; [| | |lia]; cbn; (split; [intros Q; try lra; exfalso; intuition discriminate|intros Q; try reflexivity; exfalso; intuition]). }
  destruct (C26_run_succeeds sy_T ex_c sy_pb sched s0) as (l & El); try exact sy_built; auto; try (cbn; lra).
  { intros i v Q. rewrite (HW i v Q). split; [cbn; lra|]. split; [now left|exact sy_wp]. }
  exists l. split; [exact El|]. intros st Hin.
  destruct (C108_symmetric_designs sy_mirror sy_T ex_c sy_pb sched s0 l sy_image sy_built N Hd) with (st := st) (e := 0%nat) as (Q & _); auto; try (cbn; lra); try (cbn; lia); try exact sy_same_filter.
  - intros i v Q. rewrite (HW i v Q). split; [cbn; lra|exact sy_wp].
  - intros [|[|[|e]]] He; cbn in *; try reflexivity. lia.
Qed.
Print Assumptions C108_instance.

(* ---- an instance with exchanged axes: two elements, one stretched along x and one along
   y, next to the kept element stretched along z; mirrored in the diagonal plane x = y ---- *)
Definition dg_B : fembasis := mkBasis 3 3 1 (fun _ _ => 1) (fun e _ k i j =>
  if (Nat.eqb k e && Nat.eqb i e && Nat.eqb j e)%bool then 1 else 0).
Definition dg_pb := mkProb sy_dom dg_B 0 1 [] [fun _ => 1] [1; 1; 1] ex_slv (fun A => map (ex_slv A)).
Definition dg_swap (i : nat) : nat := match i with O => 1%nat | 1%nat => 0%nat | _ => i end.
Definition dg_mirror := mkImage [1;0;2]%nat [1;0;2]%nat (fun _ q => q) (fun _ => 1) (fun _ => 1) dg_swap.
Lemma dg_built : built_from sy_T ex_c dg_pb.
Proof. exists sy_dom. split; [vm_compute; reflexivity|reflexivity]. Qed.
Lemma dg_stiffness E k l : (k < 3)%nat -> (l < 3)%nat -> stiffness dg_B 0 E k l = if Nat.eqb k l then E k else 0.
Proof.
  intros Hk Hl. unfold stiffness, lam_of, mu_of, lam_mu, stiffness_form, trace, ddot, sym_grad, sum, dg_B.
  destruct k as [|[|[|]]]; try lia; destruct l as [|[|[|]]]; try lia; cbn; field.
Qed.
Lemma dg_solver : solver_ok dg_pb.
Proof.
  intros E HE A. cbn [dg_pb pb_basis] in HE.
  assert (S : forall b, solves (fb_n (pb_basis dg_pb)) A b (pb_slv dg_pb A b)).
  { intros b i Hi. change (fb_n (pb_basis dg_pb)) with 3%nat in *. unfold mv, sum. cbn [seq map]. unfold rsum. cbn [fold_right].
    assert (HA : forall k l, (k < 3)%nat -> (l < 3)%nat -> A k l = if Nat.eqb k l then E k else 0) by (intros k l Hk Hl; exact (dg_stiffness E k l Hk Hl)).
    pose proof (HE i Hi) as Ei. cbn [pb_slv dg_pb]. unfold ex_slv. rewrite (HA i 0%nat), (HA i 1%nat), (HA i 2%nat), (HA 0%nat 0%nat), (HA 1%nat 1%nat), (HA 2%nat 2%nat) by lia.
    destruct i as [|[|[|]]]; try lia; cbn [Nat.eqb]; rewrite !Rmult_0_l; field; lra. }
  split; [exact S|]. intros bs. cbn [pb_slvm dg_pb]. induction bs as [|b bs IH]; cbn [map]; constructor; [apply S|exact IH].
Qed.
Lemma dg_wp : well_posed dg_pb ex_c ex_v sy_filter.
Proof.
  constructor; cbn; try lra.
  - reflexivity. - exists 0%nat. split; [lia|reflexivity]. - intros; lra. - discriminate. - apply dg_solver.
Qed.
Lemma dg_image : reordered dg_mirror ex_c dg_pb dg_pb.
Proof.
  constructor; cbn [dg_mirror dg_pb dg_B pb_basis pb_dom pb_D pb_loads pb_volumes sy_dom d_design fb_n fb_ne fb_nq fb_dx fb_grad m_elements m_dofs m_points m_sign m_axis m_turn]; try reflexivity.
  - split; [apply perm_swap|]. split; [apply perm_swap|]. split; [intros; apply Permutation_refl|]. split; [intros; now left|]. split; [intros i; now left|apply perm_swap].
  - intros e q k i j He Hq Hk Hi Hj. destruct e as [|[|[|]]]; try lia; destruct k as [|[|[|]]]; try lia; destruct i as [|[|[|]]]; try lia; destruct j as [|[|[|]]]; try lia; cbn; ring.
  - intros e He. cbn. tauto.
  - constructor; [|constructor]. intros; ring.
  - intros e He. destruct e as [|[|[|]]]; [| | |lia]; cbn; intuition (try discriminate; auto).
  - repeat constructor; cbn; intuition discriminate. - repeat constructor; cbn; intuition discriminate.
  - intros e [<-|[<-|[]]]; lia. - intros e [<-|[<-|[]]]; lia.
  - cbn [pins ex_c i_design_dirichlet dg_pb pb_dom sy_dom d_neumann]. intros e He. destruct e as [|[|[|]]]; [| | |lia]; cbn; intuition (try discriminate; auto).
Qed.
Theorem C108_diagonal_instance : let sched := [(1%Z, ex_v); (2%Z, ex_v); (3%Z, ex_v)] in
  exists l, run dg_pb ex_c sched (mkIS [1/2; 1/2; 1] sy_filter 0 0 None None) = Ok l /\ forall st, In st l -> nth 1 (s_rho st) 0 = nth 0 (s_rho st) 0.
Proof.
  intros sched. set (s0 := mkIS [1/2; 1/2; 1] sy_filter 0 0 None None).
  assert (N : pins_known sy_T ex_c) by (left; discriminate).
  assert (Hd : forall e, In e (ta_design sy_T) -> (e < List.length (ta_t sy_T))%nat) by (intros e [<-|[<-|[<-|[]]]]; cbn; lia).
  assert (HW : forall i v, In (i, v) sched -> v = ex_v) by (intros i v [Q|[Q|[Q|[]]]]; congruence).
  assert (HD : densities_ok sy_T ex_c (s_rho s0)).
  { destruct (sets_of sy_T ex_c dg_pb dg_built N) as (_ & HD & _). cbn [dg_pb pb_dom sy_dom d_design] in HD. split; [reflexivity|]. intros e He. rewrite <- HD. cbn in He.
    destruct e as [|[|[|]]]; [| | |lia]; cbn; (split; [intros Q; try lra; exfalso; intuition discriminate|intros Q; try reflexivity; exfalso; intuition]). }
  destruct (C26_run_succeeds sy_T ex_c dg_pb sched s0) as (l & El); try exact dg_built; auto; try (cbn; lra).
  { intros i v Q. rewrite (HW i v Q). split; [cbn; lra|]. split; [now left|exact dg_wp]. }
  exists l. split; [exact El|]. intros st Hin.
  destruct (C108_symmetric_designs dg_mirror sy_T ex_c dg_pb sched s0 l dg_image dg_built N Hd) with (st := st) (e := 0%nat) as (Q & _); auto; try (cbn; lra); try (cbn; lia); try exact sy_same_filter.
  - intros i v Q. rewrite (HW i v Q). split; [cbn; lra|exact dg_wp].
  - intros [|[|[|e]]] He; cbn in *; try reflexivity. lia.
Qed.
Print Assumptions C108_diagonal_instance.
