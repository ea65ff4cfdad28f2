(* C94: whole iterations and runs of the density method on heat problems. *)
From Verif Require Import Base Sums LinAlg Material_model Material_proofs OC_model OC_spec OC_proofs OC_props Filter_model Filter_proofs
  Mesh_model Mesh_spec Mesh_proofs Mesh_props Fea_model Fea_spec Fea_proofs Fea_props Iter_model Iter_spec Grad_proofs Iter_proofs Grad_props Iter_props Vol_props
  Heat_model Heat_spec Heat_proofs Heat_props HeatGrad_props HeatSens_props HeatArgs_props HeatAdj_model HeatAdj_props HeatIter_model HeatIter_spec.
Open Scope R_scope.
Open Scope list_scope.

(* ---- the filter lemmas apply ---- *)
Definition bare (n : nat) : problem :=
  mkProb (mkDom 0 None None None [] [] [] [] []) (mkBasis 0 n 0 (fun _ _ => 0) (fun _ _ _ _ _ => 0)) 0 1 [] [fun _ => 0] [] (fun _ b => b) (fun _ bs => bs).
Definition bare_cfg (c : icfg) : icfg := mkICfg (i_oc c) 1 SIMP false false.
Lemma bare_wp s D values c v f : heat_ready s D values c v f -> well_posed (bare (ne (hs_H s))) (bare_cfg c) v f.
Proof.
  intros [W _ _ _ Hc Hd Hr Hb He]. pose proof W as (_ & _ & [_ _ _ _ _ _ Hp _ _] & _). cbn [with_p hs_p] in Hp.
  constructor; cbn [bare bare_cfg pb_basis pb_nu pb_E0 i_Emin_coeff i_oc pb_loads fb_ne fb_dx]; auto; try lra; try discriminate.
  - intros; lra.
  - intros E _ A. cbn [bare pb_basis fb_n pb_slv pb_slvm]. split; [intros b i Hi; lia|].
    intros bs. induction bs; constructor; auto. intros i Hi; lia.
Qed.
Lemma well_set_other s D r r' : well_set s D r -> List.length r' = List.length r -> (forall x, In x r' -> 0 <= x <= 1) -> well_set s D r'.
Proof. intros (H1 & H2 & [S1 S2 S3 S4 S5 S6 S7 S8 S9] & H4) L Hr. split; [exact H1|]. split; [exact H2|]. split; [|exact H4]. constructor; auto; congruence. Qed.
Definition cases (values : farg) : nat := List.length (values_list values).
Lemma cases_pos values ns : match values with Flt _ => True | FLst l => l <> [] /\ List.length l = ns | Int _ => False end -> (0 < cases values)%nat.
Proof. destruct values as [x|x|[|y l]]; cbn; intros H; try lia. destruct H as (H & _). congruence. Qed.

Definition slopes (c : icfg) (v : ivals) (rf g : list R) : list R :=
  zipwith (fun d x => d * heaviside_projection_derivative x (v_beta v) (c_beta_eta (i_oc c))) g rf.
Definition dC_heat (c : icfg) (v : ivals) (f : sfilter) (rho : list R) (G : list (list R)) (n : nat) : list R :=
  map (fun j => rsum (map (fun g => if is_design (sf_mask f) j then cvT v f (slopes c v (filtered v f rho) g) j else 0) G) / INR n)
      (seq 0 (List.length (sf_centers f))).

Lemma sensitivity_total s D A values dr tk rho Ts : well_set s D rho -> hs_Ss s <> [] ->
  from_facets (hs_H s) (Lst (hs_ns s)) values (Some (hs_Ss s)) (Some (Flt (hs_h s))) (Some (Flt A)) dr (hs_k s) (hs_obj s) (hs_w s) = Ok tk ->
  exists G, heat_sensitivity (mkHFem tk (hs_c s) (hs_ip s) (hs_q s) (hs_sol s) (hs_slvm s)) (hs_p s) rho Ts = Ok G /\
    List.length G = List.length Ts /\ (forall g, In g G -> List.length g = List.length rho) /\
    (hs_obj s <> Compliance -> forall g, In g G -> forall x, In x g -> x <= 0).
Proof.
  intros (_ & _ & [Sh SS An Hh Hk Hc Hp Lr Hr] & _) HS B.
  pose proof (from_facets_robin _ _ _ _ _ _ _ _ _ _ _ B) as (UR & EH & En & Ev & Ek & Eo & _ & _).
  destruct UR as [(Ec & Ee & _)|(ES & _)]; [|congruence].
  unfold heat_sensitivity. cbn [hf_task hf_interp]. unfold kmin. cbn [hf_task hf_coeff]. rewrite Ek, Ec, Ee, EH, Eo.
  pose proof (moduli_ok (hs_ip s) (hs_k s) (hs_c s) (hs_p s) rho) as MO. rewrite MO by auto. cbn [bind].
  set (ks := map _ rho). 
  set (base := map _ Ts).
  assert (Lb : forall g, In g base -> List.length g = List.length rho).
  { intros g Hg. unfold base in Hg. apply in_map_iff in Hg. destruct Hg as (T & <- & _). now rewrite map_length, seq_length. }
  assert (Neg : forall g, In g base -> forall x, In x g -> x <= 0).
  { intros g Hg x Hx. unfold base in Hg. apply in_map_iff in Hg. destruct Hg as (T & <- & _). apply in_map_iff in Hx. destruct Hx as (e & <- & He). apply in_seq in He.
    apply dC_simp_nonpos; [nra|lra|]. unfold heat_energy. apply sum_nonneg. intros q Hq. cbn beta.
    assert (Kp : 0 < nth e ks 0).
    { unfold ks. rewrite (nth_indep _ 0 (conductivity (hs_ip s) (hs_k s) (hs_c s) (hs_p s) 0)) by (rewrite map_length; lia). rewrite map_nth.
      apply conductivity_pos; auto. apply Hr, nth_In. lia. }
    assert (Dx : 0 < fb_dx (hb_B (hs_H s)) e q) by (apply (Sh e q); unfold ne, nq in *; lia).
    assert (V : 0 <= vdot3 (gradv (hs_H s) T e q) (gradv (hs_H s) T e q)).
    { rewrite vdot3_eq. assert (S2 : forall y, 0 <= y * y) by (intros y; apply Rle_0_sqr). pose proof (S2 (gradv (hs_H s) T e q 0%nat 0%nat)). pose proof (S2 (gradv (hs_H s) T e q 0%nat 1%nat)). pose proof (S2 (gradv (hs_H s) T e q 0%nat 2%nat)). lra. }
    apply Rmult_le_pos; [apply Rmult_le_pos; [lra|exact V]|lra]. }
  destruct (hs_obj s) eqn:Eob.
  - eexists. split; [reflexivity|]. split; [|split; [|congruence]].
    + rewrite zipwith_len_min. unfold base. rewrite map_length. lia.
    + intros g Hg. revert Hg. unfold base. clear. revert Ts. induction Ts as [|T Ts IH]; [easy|]. cbn [map zipwith]. intros [<-|Hg]; [|auto].
      rewrite zipwith_len_min, !map_length, seq_length. lia.
  - eexists. split; [reflexivity|]. split; [unfold base; now rewrite map_length|]. split; [exact Lb|]. intros _. exact Neg.
  - eexists. split; [reflexivity|]. split; [unfold base; now rewrite map_length|]. split; [exact Lb|]. intros _. exact Neg.
Qed.

Lemma slopes_length c v rf g : List.length g = List.length rf -> List.length (slopes c v rf g) = List.length rf.
Proof. intros H. unfold slopes. rewrite zipwith_len_min. lia. Qed.
Lemma f2_forward pb c v f x : well_posed pb c v f -> List.length x = List.length (sf_centers f) -> sf_forward (f2 v f) x = Ok (f2 v f, filtered v f x).
Proof.
  intros WP Hx. destruct (f1_eq v f) as (E1 & E2 & E3). rewrite (forward_eq (f2 v f)).
  - unfold f2 at 1. cbn [sf_centers sf_mask sf_radius]. unfold f2. f_equal. f_equal. f_equal. f_equal.
    unfold Wof. cbn [sf_centers sf_mask sf_radius]. now rewrite E1, E2, E3.
  - cbn. apply (wp_radius _ _ _ _ WP).
  - cbn. apply (ids_nonempty pb c v f WP).
  - exact Hx.
Qed.

(* everything one analysis of densities between 0 and 1 does *)
Lemma heat_evaluate_eq T s D A values c P v f rho : heat_problem T s A values c P -> heat_ready s D values c v f ->
  List.length rho = ne (hs_H s) -> (forall e, 0 <= nth e rho 0 <= 1) ->
  let rp := projected c v f rho in
  exists Js Ts Ls E G, evaluated (with_p s (v_p v)) A values rp Js Ts Ls E /\ reported (with_p s (v_p v)) A values rp Ts G /\
    List.length Js = cases values /\ List.length E = cases values /\ List.length G = cases values /\
    (forall g, In g G -> List.length g = ne (hs_H s)) /\
    (hs_obj s <> Compliance -> forall g, In g G -> forall x, In x g -> x <= 0) /\
    heat_evaluate P c v f rho = Ok (f2 v f, mkEval (filtered v f rho) rp (rsum Js / INR (List.length Js)) (map (fun l e => nth e l 0) E)
      (if i_sens_filter c then filtered v f (dC_heat c v f rho G (cases values)) else dC_heat c v f rho G (cases values))).
Proof.
  intros (_ & _ & _ & _ & _ & Ec & Ei & tk & B & EF) HR Lr Hr rp. pose proof (bare_wp _ _ _ _ _ _ HR) as WP.
  destruct HR as [W HS Hsol HV Hc Hd Hrad Hb He]. set (s' := with_p s (v_p v)) in *.
  assert (HV' : match values with Flt _ => True | FLst l => List.length l = List.length (hs_ns s') | Int _ => False end) by (destruct values; auto; apply HV).
  destruct (projected_range _ _ _ _ rho WP (fun e => proj1 (Hr e))) as (P0 & P1). specialize (P1 (fun e => proj2 (Hr e))).
  change (projected (bare_cfg c) v f rho) with rp in P0, P1.
  assert (Lp : List.length rp = ne (hs_H s)) by (unfold rp; rewrite projected_length; exact Hc).
  assert (W' : well_set s' D rp).
  { apply (well_set_other s' D (uniform s 1)); [exact W|unfold uniform; now rewrite repeat_length|]. intros x Hx. destruct (In_nth _ _ 0 Hx) as (k & _ & <-). auto. }
  destruct (analysed_ok s' D A values rp W' HS Hsol HV') as (Js & Ts & Ea & LJ & LT). unfold analysed in Ea.
  destruct (from_facets (hs_H s') (Lst (hs_ns s')) values (Some (hs_Ss s')) (Some (Flt (hs_h s'))) (Some (Flt A)) None (hs_k s') (hs_obj s') (hs_w s')) as [tk0|] eqn:B0; [|discriminate].
  cbn [bind] in Ea. destruct (C72_flag_irrelevant _ _ _ _ _ _ _ _ _ _ (ta_design_robin T) _ B0) as (tk1 & B1 & Eq).
  assert (Q : tk1 = tk) by (cbn [s' with_p hs_H hs_ns hs_Ss hs_h hs_k hs_obj hs_w] in B1; congruence). subst tk1. rewrite <- Eq in Ea. clear Eq B0 tk0.
  destruct (evaluation_of_task s' D A values rp _ tk Js Ts W' HS Hsol HV' B1 Ea LT) as (Ls & E & Hobj & Hen & LL & LE).
  destruct (sensitivity_total s' D A values _ tk rp Ts W' HS B1) as (G & HG & LG & Lg & Neg).
  exists Js, Ts, Ls, E, G. split; [exists (ta_design_robin T), tk; split; [exact B1|split; [exact Hobj|exact Hen]]|].
  split; [exists (ta_design_robin T), tk; split; [exact B1|exact HG]|]. split; [exact LJ|]. split; [exact LE|]. split; [unfold cases; congruence|].
  split; [intros g Hg; rewrite <- Lp; auto|]. split; [exact Neg|].
  pose proof (cases_pos values _ HV) as Np.
  assert (EN : n_tasks tk = Ok (cases values)).
  { pose proof (from_facets_robin _ _ _ _ _ _ _ _ _ _ _ B1) as (_ & _ & _ & Ev & _). unfold n_tasks. rewrite Ev. destruct values; [reflexivity|contradiction|reflexivity]. }
  unfold heat_evaluate. fold (f1 v f). rewrite (forward1 _ _ v f WP) by congruence. cbn [bind]. 
  change (map (fun x => heaviside_projection x (v_beta v) (c_beta_eta (i_oc c))) (filtered v f rho)) with rp.
  rewrite EF. cbn [hf_task]. rewrite EN. cbn [bind]. destruct (Nat.eqb_spec (cases values) 0) as [|_]; [lia|].
  cbn [s' with_p hs_p hs_c hs_ip hs_q hs_sol hs_slvm] in Hobj, Hen, HG. rewrite Hobj. cbn [bind]. rewrite Hen. cbn [bind]. rewrite HG. cbn [bind].
  assert (Lf : List.length (filtered v f rho) = List.length (sf_centers f)) by (unfold filtered; now rewrite map_length, seq_length).
  rewrite sum_gradients_eq.
  2:{ rewrite repeat_length. congruence. }
  2:{ intros g Hg. apply in_map_iff in Hg. destruct Hg as (g0 & <- & Hg). change (List.length (slopes c v (filtered v f rho) g0) = List.length (sf_centers f)).
      rewrite slopes_length; [exact Lf|]. rewrite Lf, Hc, <- Lp. auto. }
  cbn [bind].
  assert (EdC : map (fun x => x / INR (cases values)) (map (fun j => nth j (repeat 0 (List.length rho)) 0 +
      rsum (map (fun g => if is_design (sf_mask f) j then cvT v f g j else 0)
        (map (fun g => zipwith (fun d x => d * heaviside_projection_derivative x (v_beta v) (c_beta_eta (i_oc c))) g (filtered v f rho)) G)))
      (seq 0 (List.length (sf_centers f)))) = dC_heat c v f rho G (cases values)).
  { rewrite map_map. unfold dC_heat. apply map_ext_in. intros j _. rewrite nth_repeat, Rplus_0_l, map_map. reflexivity. }
  rewrite EdC. destruct (i_sens_filter c); [|reflexivity].
  rewrite (f2_forward _ _ v f _ WP) by (unfold dC_heat; now rewrite map_length, seq_length). reflexivity.
Qed.

(* C94.  the analysis of an iteration: the objective recorded is the mean over the load
   cases, the energies are those of energy_multi_load, and the sensitivities handed to
   the update are, for every change d of the design, the mean over the load cases of
   reported sensitivity times projection slope times filtered change *)
Theorem C94_what_is_evaluated T s D A values c P v f rho : heat_problem T s A values c P -> heat_ready s D values c v f ->
  List.length rho = ne (hs_H s) -> (forall e, 0 <= nth e rho 0 <= 1) ->
  exists f' ev Js Ts Ls E G, heat_evaluate P c v f rho = Ok (f', ev) /\
    sf_forward f' rho = Ok (f', ev_filtered ev) /\
    ev_projected ev = map (fun x => heaviside_projection x (v_beta v) (c_beta_eta (i_oc c))) (ev_filtered ev) /\
    evaluated (with_p s (v_p v)) A values (ev_projected ev) Js Ts Ls E /\
    reported (with_p s (v_p v)) A values (ev_projected ev) Ts G /\
    List.length Js = List.length (values_list values) /\ List.length G = List.length (values_list values) /\
    ev_compliance ev = rmean Js /\ ev_energy ev = map (fun l e => nth e l 0) E /\
    (i_sens_filter c = false -> forall d fd, List.length d = List.length rho ->
       (forall e, is_design (sf_mask f) e = false -> nth e d 0 = 0) -> sf_forward f' d = Ok (f', fd) ->
       along (ev_dC ev) d = rmean (map (fun g => chain_sum v c (ev_filtered ev) g fd) G)).
Proof.
  intros HP HR Lr Hr. pose proof (bare_wp _ _ _ _ _ _ HR) as WP. pose proof (hr_centers _ _ _ _ _ _ HR) as Hc. pose proof (cases_pos _ _ (hr_values _ _ _ _ _ _ HR)) as Np.
  destruct (heat_evaluate_eq T s D A values c P v f rho HP HR Lr Hr) as (Js & Ts & Ls & E & G & HE & HG & LJ & LE & LG & Lg & _ & Q).
  eexists (f2 v f), _, Js, Ts, Ls, E, G. split; [exact Q|]. cbn [ev_filtered ev_projected ev_compliance ev_energy ev_dC].
  split; [apply (f2_forward _ _ v f rho WP); congruence|]. split; [reflexivity|]. split; [exact HE|]. split; [exact HG|]. split; [exact LJ|]. split; [exact LG|].
  split; [unfold rmean; reflexivity|]. split; [reflexivity|]. intros -> d fd Ld Hd Hf. rewrite (f2_forward _ _ v f d WP) in Hf by congruence. injection Hf as <-.
  unfold rmean. rewrite map_length, LG. unfold along, dC_heat. set (n := List.length (sf_centers f)) in *.
  assert (Ed : d = map (fun i => nth i d 0) (seq 0 n)) by (replace n with (List.length d) by congruence; symmetry; apply map_nth_seq).
  rewrite Ed at 1. rewrite zipwith_map.
  rewrite (rs_ext _ (fun j => / INR (cases values) * rsum (map (fun g => nth j d 0 * (if is_design (sf_mask f) j then cvT v f (slopes c v (filtered v f rho) g) j else 0)) G))).
  2:{ intros j _. rewrite rs_scal. unfold Rdiv. ring. }
  rewrite rs_scal. unfold Rdiv. rewrite (Rmult_comm _ (/ INR (cases values))). apply (f_equal (fun z => / INR (cases values) * z)).
  rewrite rs_swap. apply rs_ext. intros g Hg. unfold n. rewrite adjoint_pair. fold n. unfold chain_sum.
  assert (Lf : List.length (filtered v f rho) = n) by (unfold filtered; now rewrite map_length, seq_length). rewrite Lf.
  apply rs_ext. intros e He. apply in_seq in He. rewrite (filtered_nth v f d) by (fold n; lia).
  assert (Es : nth e (slopes c v (filtered v f rho) g) 0 = nth e g 0 * heaviside_projection_derivative (nth e (filtered v f rho) 0) (v_beta v) (c_beta_eta (i_oc c))).
  { unfold slopes. rewrite <- (map_nth_seq g 0) at 1. rewrite <- (map_nth_seq (filtered v f rho) 0) at 1. rewrite Lf, (Lg g Hg), <- Hc. fold n. rewrite zipwith_map.
    rewrite nth_map_seq' by lia. reflexivity. }
  rewrite Es. destruct (is_design (sf_mask f) e) eqn:Edd; [ring|]. rewrite (Hd e Edd). ring.
Qed.
Print Assumptions C94_what_is_evaluated.

(* ---- the update, whatever produced the sensitivities ---- *)
Lemma advance_succeeds T c pb v i s f ev :
  built_from T c pb -> pins_known T c -> (forall e, In e (ta_design T) -> (e < List.length (ta_t T))%nat) ->
  c_smin (i_oc c) <= c_smax (i_oc c) -> 0 < c_floor (i_oc c) ->
  0 < c_lambda_lower (i_oc c) <= c_lambda_upper (i_oc c) -> 0 <= v_move v -> 0 <= s_running s ->
  densities_ok T c (s_rho s) -> (forall e, designed T c e -> nth e (ev_dC ev) 0 <= 0) ->
  exists s', advance pb c v i s f ev = Ok s' /\ 0 < s_running s' /\ (exists k, s_kkt s' = Some k) /\ s_filter s' = f /\ s_eval s' = Some ev.
Proof.
  intros HT Hne Hdes Hs Hf Hl Hm Hrun (Hlen & Hok) Hdn.
  destruct (sets_of T c pb HT Hne) as (Hn & HD & l & Hp & HL1 & HL2 & HL3).
  unfold advance. match goal with |- context [oc_args_of ?x1 ?x2 ?x3 ?x4 ?x5 ?x6] => set (a := oc_args_of x1 x2 x3 x4 x5 x6) end.
  destruct (C17_update_respects_bounds_and_move_limit (i_oc c) (s_running s) a) as (r & new & Hr & Hnew & _ & _ & Hrn & _ & Hk); auto.
  - cbn. unfold gather. now rewrite map_length.
  - cbn. apply Forall_forall. intros x Hx. unfold gather in Hx. apply in_map_iff in Hx. destruct Hx as (e & <- & He). apply Hdn, HD, He.
  - cbn. apply Forall_forall. intros x Hx. unfold gather in Hx. apply in_map_iff in Hx. destruct Hx as (e & <- & He).
    apply HD in He. apply Hok; [|exact He]. apply Hdes. apply He.
  - rewrite Hr, Hnew. eexists. split; [reflexivity|]. cbn [s_running s_kkt s_filter s_eval]. auto.
Qed.
Lemma advance_fatal T c pb v i s f ev e : built_from T c pb -> pins_known T c ->
  designed T c e -> 0 < nth e (ev_dC ev) 0 -> (forall z, v_eta v <> IZR z) -> 0 < c_floor (i_oc c) -> 0 <= s_running s ->
  0 < c_lambda_lower (i_oc c) <= c_lambda_upper (i_oc c) -> advance pb c v i s f ev = Err NotModelled.
Proof.
  intros HT Hne He Hpos Heta Hf Hrun Hl. destruct (sets_of T c pb HT Hne) as (_ & HD & _). apply HD in He. unfold advance.
  match goal with |- context [oc_args_of ?x1 ?x2 ?x3 ?x4 ?x5 ?x6] => set (a := oc_args_of x1 x2 x3 x4 x5 x6) end.
  pose proof (running_pos (i_oc c) (s_running s) a Hf Hrun) as Hrp.
  destruct (rho_update (i_oc c) (s_running s) a) as [r|] eqn:Eu; [|reflexivity].
  assert (Hn : r_rho r = None); [|now rewrite Hn].
  unfold rho_update in Eu. set (rs := next_running_scale _ _ _) in *. set (dC := map _ (a_dC a)) in Eu. set (P := oc_problem_of (i_oc c) a dC) in Eu.
  destruct (bisection_consistent P 1000 (1/100000) (1/10000) _ _ (proj2 Hl)) as (o & E & _ & B2 & C1 & _).
  rewrite E in Eu. assert (Q : r_rho r = b_rho o) by (injection Eu as <-; reflexivity). rewrite Q, C1.
  destruct (In_nth _ _ 0%nat He) as (k & Hk & Ek).
  apply (candidate_nan P (b_lmid o) k (nth e (ev_dC ev) 0 / rs) (nth e (s_rho s) 0)).
  - unfold P, dC. unfold a, oc_args_of. cbn [oc_dC oc_problem_of a_dC]. unfold gather. rewrite map_map.
    rewrite nth_error_map. rewrite (nth_error_nth' _ 0%nat Hk). cbn. now rewrite Ek.
  - unfold P. unfold a, oc_args_of. cbn [oc_rho_e oc_problem_of a_rho_full a_design]. unfold gather.
    rewrite nth_error_map. rewrite (nth_error_nth' _ 0%nat Hk). cbn. now rewrite Ek.
  - apply Rdiv_lt_0_compat; auto.
  - unfold P. cbn. unfold tiny. lra.
  - exact Heta.
Qed.

(* ---- runs ---- *)
(* the optimizer's settings are usable *)
Definition oc_settings_ok (T : task_args) (c : icfg) : Prop :=
  (forall e, In e (ta_design T) -> (e < List.length (ta_t T))%nat) /\
  0 <= c_rho_min (i_oc c) <= c_rho_max (i_oc c) /\ c_rho_max (i_oc c) <= 1 /\ c_smin (i_oc c) <= c_smax (i_oc c) /\ 0 < c_floor (i_oc c) /\
  0 < c_lambda_lower (i_oc c) <= c_lambda_upper (i_oc c).
Lemma ok_range T c pb rho n : built_from T c pb -> pins_known T c -> oc_settings_ok T c -> List.length (ta_t T) = n -> densities_ok T c rho ->
  List.length rho = n /\ forall e, 0 <= nth e rho 0 <= 1.
Proof.
  intros HT Hp (_ & Hb & H1 & _) Hn Hok. destruct (ok_nonneg T c pb rho HT Hp (proj1 Hb) Hok) as (O1 & O2). specialize (O2 H1).
  split; [destruct Hok; congruence|]. intros e. split; auto.
Qed.
Lemma not_pinned_known T s A values c P : heat_problem T s A values c P -> i_design_dirichlet c = false -> pins_known T c.
Proof. intros _ H. now right. Qed.

(* every accepted iteration and run keeps the densities within the bounds, the fixed
   elements at 1 and the move limit; whatever the objective, solver and interpolation *)
Theorem C94_iteration_keeps_bounds T c P v i st st' :
  built_from T c (plain P) -> i_design_dirichlet c = false -> (forall e, In e (ta_design T) -> (e < List.length (ta_t T))%nat) ->
  c_rho_min (i_oc c) <= c_rho_max (i_oc c) -> c_smin (i_oc c) <= c_smax (i_oc c) ->
  c_lambda_lower (i_oc c) <= c_lambda_upper (i_oc c) -> 0 <= v_move v ->
  densities_ok T c (s_rho st) -> heat_iterate P c v i st = Ok st' ->
  densities_ok T c (s_rho st') /\ (forall e, designed T c e -> oc_step_ok (c_rho_min (i_oc c)) (c_rho_max (i_oc c)) (v_move v) (c_smin (i_oc c)) (c_smax (i_oc c))
                                 (nth e (s_rho st) 0) (nth e (s_rho st') 0)) /\
  s_change st' <= v_move v /\ (forall e, designed T c e -> Rabs (nth e (s_rho st') 0 - nth e (s_rho st) 0) <= s_change st').
Proof.
  intros HT Hd Hdes Hb Hs Hl Hm Hok H. unfold heat_iterate in H.
  destruct (heat_evaluate P c v (s_filter st) (s_rho st)) as [[f ev]|]; [|discriminate]. cbn [bind] in H.
  destruct (advance_keeps_bounds T c (plain P) v i st f ev st' HT (or_intror Hd) Hdes Hb Hs Hl Hm Hok H) as (A1 & A2 & A3 & A4 & _). auto.
Qed.
Print Assumptions C94_iteration_keeps_bounds.

Theorem C94_run_keeps_bounds T c P val_init restart rho0 f sched l :
  built_from T c (plain P) -> i_design_dirichlet c = false -> (forall e, In e (ta_design T) -> (e < List.length (ta_t T))%nat) ->
  c_rho_min (i_oc c) <= c_rho_max (i_oc c) -> c_smin (i_oc c) <= c_smax (i_oc c) ->
  c_lambda_lower (i_oc c) <= c_lambda_upper (i_oc c) -> (forall i v, In (i, v) sched -> 0 <= v_move v) ->
  (forall data, restart = Some data -> forall x, In x data -> c_rho_min (i_oc c) <= x <= c_rho_max (i_oc c)) ->
  initialize_density (plain P) c val_init restart = Ok rho0 ->
  heat_run P c sched (mkIS rho0 f 0 0 None None) = Ok l ->
  densities_ok T c rho0 /\ List.length l = List.length sched /\ forall st, In st l -> densities_ok T c (s_rho st).
Proof.
  intros HT Hd Hdes Hb Hs Hl Hm Hre Hi Hrun.
  destruct (C26_initial_densities T c (plain P) val_init restart rho0 HT (or_intror Hd) Hdes Hb Hre Hi) as (H0 & _). split; [exact H0|].
  change rho0 with (s_rho (mkIS rho0 f 0 0 None None)) in H0. clear Hi.
  revert l H0 Hrun. generalize (mkIS rho0 f 0 0 None None) as st. induction sched as [|[i v] sched IH]; intros st l Hok H; cbn [heat_run] in H.
  - injection H as <-. split; [reflexivity|easy].
  - destruct (heat_iterate P c v i st) as [s1|] eqn:E1; [|discriminate]. cbn [bind] in H.
    destruct (heat_run P c sched s1) as [l1|] eqn:E2; [|discriminate]. cbn [bind] in H. injection H as <-.
    destruct (C94_iteration_keeps_bounds T c P v i st s1) as (Hok1 & _); auto. { eapply Hm. now left. }
    destruct (IH (fun i' v' Hv => Hm i' v' (or_intror Hv)) s1 l1 Hok1 E2) as (IL & IF).
    split; [cbn; lia|]. intros s' [<-|Hs']; auto.
Qed.
Print Assumptions C94_run_keeps_bounds.

Lemma heat_ready_same s D values c v f g : sf_centers g = sf_centers f -> sf_mask g = sf_mask f -> heat_ready s D values c v f -> heat_ready s D values c v g.
Proof. intros E1 E2 [W1 W2 W3 W4 W5 W6 W7 W8 W9]. constructor; rewrite ?E1, ?E2; assumption. Qed.
Lemma dC_heat_nonpos s D values c v f rho G n e : heat_ready s D values c v f -> (0 < n)%nat ->
  (forall g, In g G -> List.length g = List.length (sf_centers f)) -> (forall g, In g G -> forall x, In x g -> x <= 0) ->
  nth e (dC_heat c v f rho G n) 0 <= 0.
Proof.
  intros HR Hn Lg Neg. pose proof (bare_wp _ _ _ _ _ _ HR) as WP. unfold dC_heat.
  destruct (Nat.lt_ge_cases e (List.length (sf_centers f))) as [He|He].
  2:{ rewrite nth_overflow; [lra|]. now rewrite map_length, seq_length. }
  rewrite nth_map_seq' by exact He. apply Ropp_le_cancel. rewrite Ropp_0. unfold Rdiv. rewrite Ropp_mult_distr_l.
  apply Rmult_le_pos; [|left; apply Rinv_0_lt_compat, lt_0_INR; exact Hn].
  apply Ropp_0_ge_le_contravar, Rle_ge. apply rs_nonpos. intros g Hg. destruct (is_design (sf_mask f) e); [|lra].
  apply (cvT_nonpos _ _ _ _ _ _ WP). intros k. unfold slopes. specialize (Neg g Hg). clear - Neg HR.
  generalize (filtered v f rho) as rf. revert k. induction g as [|x g IH]; intros k [|y rf]; cbn [zipwith]; try (destruct k; cbn; lra).
  destruct k as [|k]; cbn [nth]; [|apply IH; intros; apply Neg; now right].
  pose proof (Neg x (or_introl eq_refl)). pose proof (dH_pos (v_beta v) (c_beta_eta (i_oc c)) y (hr_beta _ _ _ _ _ _ HR) (hr_eta _ _ _ _ _ _ HR)). nra.
Qed.

(* with an objective other than compliance no iteration can fail *)
Theorem C94_iteration_succeeds T s D A values c P v i st :
  heat_problem T s A values c P -> hs_obj s <> Compliance -> i_design_dirichlet c = false -> oc_settings_ok T c ->
  heat_ready s D values c v (s_filter st) -> 0 <= v_move v -> 0 <= s_running st -> densities_ok T c (s_rho st) ->
  exists st', heat_iterate P c v i st = Ok st' /\ 0 < s_running st' /\ (exists k, s_kkt st' = Some k) /\
    sf_centers (s_filter st') = sf_centers (s_filter st) /\ sf_mask (s_filter st') = sf_mask (s_filter st).
Proof.
  intros HP Hob Hd Hset HR Hm Hrun Hok. pose proof HP as (HT & _ & _ & Hn & _). pose proof Hset as (Hdes & Hb & H1 & Hs & Hf & Hl).
  destruct (ok_range T c (plain P) (s_rho st) _ HT (or_intror Hd) Hset Hn Hok) as (Lr & Hr).
  destruct (heat_evaluate_eq T s D A values c P v (s_filter st) (s_rho st) HP HR Lr Hr) as (Js & Ts & Ls & E & G & _ & _ & _ & _ & _ & Lg & Neg & Q).
  unfold heat_iterate. rewrite Q. cbn [bind]. set (ev := mkEval _ _ _ _ _).
  assert (Le : forall e, nth e (ev_dC ev) 0 <= 0).
  { assert (L0 : forall e, nth e (dC_heat c v (s_filter st) (s_rho st) G (cases values)) 0 <= 0).
    { intros e. apply (dC_heat_nonpos s D values); [exact HR|apply (cases_pos _ _ (hr_values _ _ _ _ _ _ HR))| |exact (Neg Hob)].
      intros g Hg. rewrite (hr_centers _ _ _ _ _ _ HR). auto. }
    intros e. unfold ev. cbn [ev_dC]. destruct (i_sens_filter c); [|apply L0]. apply (filtered_nonpos _ _ _ _ _ _ (bare_wp _ _ _ _ _ _ HR)). exact L0. }
  destruct (advance_succeeds T c (plain P) v i st (f2 v (s_filter st)) ev HT (or_intror Hd) Hdes Hs Hf Hl Hm Hrun Hok (fun e _ => Le e)) as (st' & E1 & E2 & E3 & E4 & _).
  exists st'. rewrite E4. auto.
Qed.
Print Assumptions C94_iteration_succeeds.

Theorem C94_run_succeeds T s D A values c P sched st :
  heat_problem T s A values c P -> hs_obj s <> Compliance -> i_design_dirichlet c = false -> oc_settings_ok T c ->
  (forall i v, In (i, v) sched -> 0 <= v_move v /\ heat_ready s D values c v (s_filter st)) ->
  0 <= s_running st -> densities_ok T c (s_rho st) -> exists l, heat_run P c sched st = Ok l.
Proof.
  intros HP Hob Hd Hset. pose proof HP as (HT & _). pose proof Hset as (Hdes & Hb & H1 & Hs & Hf & Hl).
  revert st. induction sched as [|[i v] sched IH]; intros st Hv Hrun Hok; cbn [heat_run].
  - now exists [].
  - destruct (Hv i v) as (Hm & HR); [now left|].
    destruct (C94_iteration_succeeds T s D A values c P v i st) as (s1 & E1 & Hr1 & _ & Ec & Em); auto.
    rewrite E1. cbn [bind].
    destruct (C94_iteration_keeps_bounds T c P v i st s1) as (Hok1 & _); auto; try lra.
    destruct (IH s1) as (l & El); auto; try lra.
    + intros i' v' Hi. destruct (Hv i' v') as (Hm' & HR'); [now right|]. split; [exact Hm'|]. exact (heat_ready_same _ _ _ _ _ _ _ Ec Em HR').
    + rewrite El. cbn [bind]. eauto.
Qed.
Print Assumptions C94_run_succeeds.

(* with compliance and a fractional exponent eta, an iteration succeeds exactly when no
   design element has a positive sensitivity *)
Theorem C94_compliance_iteration T s D A values c P v i st :
  heat_problem T s A values c P -> i_design_dirichlet c = false -> oc_settings_ok T c ->
  heat_ready s D values c v (s_filter st) -> 0 <= v_move v -> 0 <= s_running st -> densities_ok T c (s_rho st) ->
  (forall z, v_eta v <> IZR z) ->
  exists f' ev, heat_evaluate P c v (s_filter st) (s_rho st) = Ok (f', ev) /\
    ((exists st', heat_iterate P c v i st = Ok st') <-> forall e, designed T c e -> nth e (ev_dC ev) 0 <= 0) /\
    (forall e, designed T c e -> 0 < nth e (ev_dC ev) 0 -> heat_iterate P c v i st = Err NotModelled).
Proof.
  intros HP Hd Hset HR Hm Hrun Hok Heta. pose proof HP as (HT & _ & _ & Hn & _). pose proof Hset as (Hdes & Hb & H1 & Hs & Hf & Hl).
  destruct (ok_range T c (plain P) (s_rho st) _ HT (or_intror Hd) Hset Hn Hok) as (Lr & Hr).
  destruct (heat_evaluate_eq T s D A values c P v (s_filter st) (s_rho st) HP HR Lr Hr) as (Js & Ts & Ls & E & G & _ & _ & _ & _ & _ & _ & _ & Q).
  eexists _, _. split; [exact Q|]. unfold heat_iterate. rewrite Q. cbn [bind]. set (ev := mkEval _ _ _ _ _).
  assert (Fatal : forall e, designed T c e -> 0 < nth e (ev_dC ev) 0 -> advance (plain P) c v i st (f2 v (s_filter st)) ev = Err NotModelled).
  { intros e He Hp. exact (advance_fatal T c (plain P) v i st _ ev e HT (or_intror Hd) He Hp Heta Hf Hrun Hl). }
  split; [|exact Fatal]. split.
  - intros (st' & E1) e He. destruct (Rle_dec (nth e (ev_dC ev) 0) 0) as [|Hg]; [assumption|]. rewrite (Fatal e He) in E1 by lra. discriminate.
  - intros Le. destruct (advance_succeeds T c (plain P) v i st (f2 v (s_filter st)) ev HT (or_intror Hd) Hdes Hs Hf Hl Hm Hrun Hok Le) as (st' & E1 & _). eauto.
Qed.
Print Assumptions C94_compliance_iteration.

(* every accepted iteration meets the volume fraction or stops at a narrow bracket *)
Theorem C94_volume T c P v i st st' ev :
  built_from T c (plain P) -> i_design_dirichlet c = false -> NoDup (ta_design T) ->
  (forall e, In e (ta_design T) -> (e < List.length (ta_t T))%nat) ->
  c_lambda_lower (i_oc c) <= c_lambda_upper (i_oc c) -> c_lambda_upper (i_oc c) - c_lambda_lower (i_oc c) <= 1/100000 * 2 ^ 1000 ->
  densities_ok T c (s_rho st) -> heat_iterate P c v i st = Ok st' -> s_eval st' = Some ev ->
  let dC := map (fun x => x / s_running st') (ev_dC ev) in
  let rule := rule_gives (plain P) c v (s_rho st) dC in
  let frac := fraction_of (plain P) c v (s_filter st') in
  exists lam, c_lambda_lower (i_oc c) <= lam <= c_lambda_upper (i_oc c) /\ rule lam (s_rho st') /\
    (Rabs (frac (s_rho st') - v_vol_frac v) < 1 / 10000 \/
     exists a b, c_lambda_lower (i_oc c) <= a <= lam /\ lam <= b <= c_lambda_upper (i_oc c) /\ b - a <= 1 / 100000 /\
       (a = c_lambda_lower (i_oc c) \/ exists full, rule a full /\ v_vol_frac v + 1 / 10000 <= frac full) /\
       (b = c_lambda_upper (i_oc c) \/ forall full, rule b full -> frac full <= v_vol_frac v - 1 / 10000)).
Proof.
  intros HT Hd Hnd Hdes Hl Hw Hok H Hev. unfold heat_iterate in H.
  destruct (heat_evaluate P c v (s_filter st) (s_rho st)) as [[f ev']|]; [|discriminate]. cbn [bind] in H.
  assert (Q : f = s_filter st' /\ ev' = ev).
  { unfold advance in H. destruct (rho_update _ _ _) as [r|]; [|discriminate]. destruct (r_rho r) as [new|]; [|discriminate].
    injection H as H. rewrite <- H in Hev |- *. cbn [s_filter s_eval] in *. split; congruence. }
  destruct Q as (-> & ->).
  exact (advance_meets_the_volume T c (plain P) v i st st' ev HT (or_intror Hd) Hnd Hdes Hl Hw Hok H).
Qed.
Print Assumptions C94_volume.

(* refuted with design_dirichlet=True: a heat task has no Neumann boundary, so every
   density is 1 after initialisation, restart and every iteration *)
Theorem C94_design_dirichlet_resets_all T s A values c P : heat_problem T s A values c P -> i_design_dirichlet c = true ->
  (forall val restart rho, initialize_density (plain P) c val restart = Ok rho -> forall e, (e < List.length rho)%nat -> nth e rho 0 = 1) /\
  (forall v i st st', heat_iterate P c v i st = Ok st' -> forall e, (e < List.length (s_rho st'))%nat -> nth e (s_rho st') 0 = 1).
Proof.
  intros (HT & Hn & _) Hdd. split.
  - intros val restart rho H. exact (proj1 (C26_no_neumann_resets_all_densities T c (plain P) (mkVals 0 0 0 0 0 0 None 0) 0%Z (mkIS [] (mkSF [] None 0 None) 0 0 None None) (mkIS [] (mkSF [] None 0 None) 0 0 None None) HT Hn Hdd) val restart rho H).
  - intros v i st st' H e He. destruct HT as (d & Hd & Hpb). destruct (from_nodes_inv _ _ _ _ _ _ _ _ _ Hd) as (_ & _ & _ & _ & _ & _ & _ & _ & Hnone).
    assert (Hp : pins (plain P) c = None) by (unfold pins; rewrite Hdd, Hpb, Hdd; now apply Hnone).
    unfold heat_iterate, advance in H. destruct (heat_evaluate P c v (s_filter st) (s_rho st)) as [[f ev]|]; [|discriminate]. cbn [bind] in H.
    destruct (rho_update _ _ _) as [r|]; [|discriminate]. destruct (r_rho r) as [new|]; [|discriminate]. rewrite Hp in H.
    assert (Hr : s_rho st' = pin (scatter (s_rho st) (d_design (pb_dom (plain P))) new) None) by (injection H as <-; reflexivity).
    rewrite Hr in *. cbn [pin] in *. rewrite map_length in He. rewrite (nth_indep _ 0 1) by now rewrite map_length. exact (map_nth (fun _ => 1) _ 1 e).
Qed.
Print Assumptions C94_design_dirichlet_resets_all.

(* ---- instances: three bars in a row, held at vertex 0, Robin exchange at vertex 3;
   the last bar is designed ---- *)
Lemma gauss_exact n : exact_solver n (fun A bs => map (gauss n A) bs).
Proof.
  intros A bs Reg. induction bs as [|b bs IH]; constructor; [|exact IH]. intros i Hi. exact (gauss_solves n A Reg b i Hi).
Qed.
Definition row3 : hbasis := mkHB
  (mkBasis 4 3 1 (fun _ _ => 1) (fun e _ k => fun _ j => if Nat.eqb j 0 then (if Nat.eqb k e then -1 else if Nat.eqb k (S e) then 1 else 0) else 0))
  (fun e _ k => if Nat.eqb k e then / 2 else if Nat.eqb k (S e) then / 2 else 0) [[0; 1; 2]; [1; 2; 3]]%nat.
Definition tip3 : surface := mkSurf 1 (fun _ => 1) (fun _ k => if Nat.eqb k 3 then 1 else 0).
Definition row_hs (obj : hobjective) : hsettings :=
  mkHS row3 [[0]]%nat [tip3] 4 10 (1 / 100) 3 obj 0 SIMP 4 HAuto (fun A bs => map (gauss 4 A) bs).
Definition row_T : task_args :=
  mkTA [[0; 1]; [1; 2]; [2; 3]]%nat 4 (fun l => l) (Some (Lst [[0]]%nat)) None (Some (Arr [3%nat])) None [2%nat].
Definition row_c : icfg := mkICfg (mkOCCfg 0 1 (1/2) (7/10) (13/10) (1/1000000000000) (1/10000000) 10000000) (1/100) SIMP false false.
Definition row_v : ivals := mkVals 1 3 (4/10) 2 (1/10) (1/2) None 1.
Definition row_f : sfilter := mkSF [[0]; [1]; [2]] (Some [false; false; true]) 1 None.
Definition row_dom : domain := mkDom 3 (Some [0%nat]) None (Some [2%nat]) [2%nat] [1; 2; 3]%nat [0; 1; 2]%nat [0; 1]%nat [0%nat].
Definition row_tk (obj : hobjective) (g A : R) : htask :=
  mkHTask row3 [[0]]%nat (Flt g) (Some [tip3]) (Some (Flt 4)) (Some (Flt A)) None 10 [robin_mat tip3 4] [robin_vec tip3 4 A] obj 0.
Definition row_P (obj : hobjective) (g A : R) : hproblem :=
  mkHP row_dom [1; 1; 1] (mkHFem (row_tk obj g A) (1 / 100) SIMP 4 HAuto (fun A bs => map (gauss 4 A) bs)).

Lemma sum3 f : sum 3 f = f 0%nat + f 1%nat + f 2%nat.
Proof. unfold sum. cbn [seq map rsum fold_right]. ring. Qed.
Lemma sum4 f : sum 4 f = f 0%nat + f 1%nat + f 2%nat + f 3%nat.
Proof. unfold sum. cbn [seq map rsum fold_right]. ring. Qed.
Lemma row_value u e q : (e < 3)%nat -> value_of row3 u e q = (u e + u (S e)) / 2.
Proof.
  intros He. unfold value_of. change (hn row3) with 4%nat. rewrite sum4. cbn [row3 hb_val].
  destruct e as [|[|[|]]]; [| | |lia]; cbn [Nat.eqb]; field.
Qed.
Lemma row_grad u e q i : (e < 3)%nat -> gradv row3 u e q 0%nat i = if Nat.eqb i 0 then u (S e) - u e else 0.
Proof.
  intros He. unfold gradv, grad_of. change (fb_n (hb_B row3)) with 4%nat. rewrite sum4. cbn [row3 hb_B fb_grad]. destruct (Nat.eqb i 0).
  - destruct e as [|[|[|]]]; [| | |lia]; cbn [Nat.eqb]; ring.
  - ring.
Qed.
Lemma row_problem obj g A : heat_problem row_T (row_hs obj) A (Flt g) row_c (row_P obj g A).
Proof.
  split; [|split; [reflexivity|split; [reflexivity|split; [reflexivity|split; [|split; [reflexivity|split; [reflexivity|]]]]]]].
  - eexists. split; [vm_compute; reflexivity|]. reflexivity.
  - intros e k He Hk. cbn in He, Hk. destruct e as [|[|[|]]]; [| | |lia]; (destruct k as [|[|]]; [reflexivity|reflexivity|lia]).
  - exists (row_tk obj g A). split; [|reflexivity]. unfold from_facets. cbn [bind row_hs hs_Ss]. rewrite surface_robin_floats. reflexivity.
Qed.
Lemma row_ready obj g : heat_ready (row_hs obj) [0%nat] (Flt g) row_c row_v row_f.
Proof.
  constructor; cbn [row_hs hs_Ss hs_sol row_c row_v row_f v_radius v_beta i_oc c_beta_eta]; try discriminate; try exact I; try lra; try reflexivity.
  - split; [reflexivity|]. split; [intros D' [<-|[]] i; reflexivity|]. split; [|apply (gauss_exact 4)].
    constructor; cbn [with_p row_hs hs_H hs_Ss hs_h hs_k hs_c hs_p row_v v_p]; try lra.
    + intros e q He Hq. change (ne row3) with 3%nat in He. change (hn row3) with 4%nat. cbn [row3 hb_val hb_B fb_grad fb_dx]. rewrite sum4. split; [|split; [|split; [|lra]]].
      * intros k _. destruct (Nat.eqb k e); [lra|]. destruct (Nat.eqb k (S e)); lra.
      * destruct e as [|[|[|]]]; [| | |lia]; cbn [Nat.eqb]; field.
      * intros i Hi. rewrite sum4. destruct (Nat.eqb i 0); [|ring]. destruct e as [|[|[|]]]; [| | |lia]; cbn [Nat.eqb]; ring.
    + intros S [<-|[]] q Hq. change (hn row3) with 4%nat. rewrite sum4. cbn [tip3 sf_val sf_dx Nat.eqb]. split; [ring|]. split; [lra|]. intros k _. destruct (Nat.eqb k 3); lra.
    + intros u U0 G. pose proof (U0 0%nat ltac:(cbn; lia) (or_introl eq_refl)) as Z.
      assert (St : forall e, (e < 3)%nat -> u (S e) = u e).
      { intros e He. specialize (G e 0%nat 0%nat He ltac:(cbn; lia) ltac:(lia)). rewrite row_grad in G by exact He. cbn [Nat.eqb] in G. lra. }
      pose proof (St 0%nat ltac:(lia)). pose proof (St 1%nat ltac:(lia)). pose proof (St 2%nat ltac:(lia)).
      intros i Hi. change (hn row3) with 4%nat in Hi. destruct i as [|[|[|[|]]]]; [| | | |lia]; lra.
    + reflexivity.
    + intros x [<-|[<-|[<-|[]]]]; lra.
  - exists 2%nat. split; [cbn; lia|reflexivity].
Qed.
Lemma row_designed e : designed row_T row_c e <-> e = 2%nat.
Proof.
  destruct (row_problem Compliance 0 0) as (HT & _). destruct (sets_of row_T row_c _ HT (or_intror eq_refl)) as (_ & HD & _). rewrite <- HD. cbn. intuition.
Qed.
Lemma row_densities x : 0 <= x <= 1 -> densities_ok row_T row_c [1; 1; x].
Proof.
  intros Hx. split; [reflexivity|]. intros e He. rewrite row_designed. cbn in He. cbn [row_c i_oc c_rho_min c_rho_max].
  destruct e as [|[|[|]]]; [| | |lia]; cbn [nth]; split; intros Q; try lra; try lia.
Qed.
Lemma row_settings : oc_settings_ok row_T row_c.
Proof.
  unfold oc_settings_ok. cbn [row_c i_oc c_rho_min c_rho_max c_smin c_smax c_floor c_lambda_lower c_lambda_upper]. repeat split; try lra.
  intros e [<-|[]]. cbn. lia.
Qed.
Definition row_s (x : R) : istate := mkIS [1; 1; x] row_f 0 0 None None.
Theorem C94_instance obj : obj <> Compliance ->
  heat_problem row_T (row_hs obj) 300 (Flt 600) row_c (row_P obj 600 300) /\
  initialize_density (plain (row_P obj 600 300)) row_c (1/2) None = Ok [1; 1; 1/2] /\
  exists l, heat_run (row_P obj 600 300) row_c [(1%Z, row_v); (2%Z, row_v); (3%Z, row_v)] (row_s (1/2)) = Ok l /\ List.length l = 3%nat /\
    forall st, In st l -> densities_ok row_T row_c (s_rho st).
Proof.
  intros Hob. pose proof (row_problem obj 600 300) as HP. split; [exact HP|].
  assert (I0 : initialize_density (plain (row_P obj 600 300)) row_c (1/2) None = Ok [1; 1; 1/2]).
  { unfold initialize_density, pins. cbn [plain element_data row_P hp_dom pb_dom row_dom d_nel d_dir_neu d_fixed row_c i_design_dirichlet i_oc c_rho_min c_rho_max bind repeat pin scatter List.length upd].
    do 4 f_equal. unfold clip. rewrite Rmax_left, Rmin_left; lra. }
  split; [exact I0|].
  assert (Hv : forall i v, In (i, v) [(1%Z, row_v); (2%Z, row_v); (3%Z, row_v)] -> v = row_v) by (intros i v [E|[E|[E|[]]]]; congruence).
  destruct (C94_run_succeeds row_T (row_hs obj) [0%nat] 300 (Flt 600) row_c (row_P obj 600 300) [(1%Z, row_v); (2%Z, row_v); (3%Z, row_v)] (row_s (1/2)) HP Hob eq_refl row_settings) as (l & El).
  - intros i v Q. rewrite (Hv i v Q). split; [cbn; lra|apply row_ready].
  - cbn. lra.
  - apply row_densities. lra.
  - exists l. split; [exact El|].
    refine (proj2 (C94_run_keeps_bounds row_T row_c (row_P obj 600 300) (1/2) None [1; 1; 1/2] row_f _ l (proj1 HP) eq_refl (proj1 row_settings) _ _ _ _ _ I0 El)); try (cbn; lra); try discriminate.
    intros i v Q. rewrite (Hv i v Q). cbn. lra.
Qed.

(* held at the ambient temperature the field is constant *)
Lemma constant_at_ambient s D A g rho Js Ts : well_set s D rho -> analysis s A (Flt g) rho Js Ts -> g = A ->
  forall i, (i < hn (hs_H s))%nat -> nth 0 Ts zv i = A.
Proof.
  intros W An ->. destruct (analysis_temperature s D A (Flt A) _ _ _ W An) as (_ & T1).
  specialize (T1 0%nat ltac:(cbn; lia)). cbn [values_list nth] in T1. pose proof W as (_ & _ & [Sh SS _ _ _ _ _ _ _] & _).
  apply (well_unique s D _ A A _ (fun _ => A) W T1). split; [reflexivity|]. intros v Hv. rewrite const_cond by auto.
  rewrite exchanged_eq by auto. rewrite (exch0_ext _ _ _ _ (fun _ => A) (fun i => A * one i + 0 * one i) v v) by (auto; intros; unfold one; ring).
  rewrite exch0_lin. ring.
Qed.
Lemma Rp2 x : 0 < x -> Rpower x 2 = x ^ 2.
Proof. intros. replace 2 with (INR 2) by (cbn; ring). now apply Rpower_pow. Qed.
Lemma Rp3 x : 0 < x -> Rpower x 3 = x ^ 3.
Proof. intros. replace 3 with (INR 3) by (cbn; ring). now apply Rpower_pow. Qed.
(* the exchange part of the sensitivity of the last bar for the densities y, y, 0 *)
Lemma row_explicit y T A : 9/10 <= y <= 1 -> (forall i, (i < 4)%nat -> T i = A) -> A <> 0 ->
  0 < to_elements (hb_t row3) (explicit_nodal row3 (nodal_average (hb_t row3) [y; y; 0]) T A 4 3 4) 2.
Proof.
  intros Hy HT HA. set (r := nodal_average (hb_t row3) [y; y; 0]).
  assert (R0 : r 0%nat = y /\ r 1%nat = y /\ r 2%nat = y / 2 /\ r 3%nat = 0).
  { unfold r, nodal_average, node_count, add_at, np_repeat, rsum. cbn [row3 hb_t List.concat app map repeat List.length zipwith Nat.eqb fold_right].
    repeat match goal with |- context [Rmax ?a 1] => rewrite (Rmax_left a 1) by lra end. repeat split; field. }
  destruct R0 as (R0 & R1 & R2 & R3).
  assert (N : forall e, (e < 3)%nat -> gnorm (gradv row3 r e 0) = Rabs (r (S e) - r e)).
  { intros e He. unfold gnorm. rewrite vdot3_eq, !row_grad by exact He. cbn [Nat.eqb]. rewrite <- sqrt_Rsqr_abs. f_equal. unfold Rsqr. ring. }
  assert (V : forall e, (e < 3)%nat -> value_of row3 T e 0 = A).
  { intros e He. rewrite row_value by exact He. rewrite !HT by lia. field. }
  assert (Ex : forall v, explicit_nodal row3 r T A 4 3 4 v = sum 3 (fun e =>
     let x := (r e + r (S e)) / 2 in
     4 * (((3 * pw x (3 - 1) * (1 - x) ^ 4 - 4 * pw x 3 * (1 - x) ^ 3) * Rabs (r (S e) - r e) * (A * A)) * hb_val row3 e 0 v +
       pw x 3 * (1 - x) ^ 4 * (A * A) * ((r (S e) - r e) * (if Nat.eqb v e then -1 else if Nat.eqb v (S e) then 1 else 0) / Rmax (Rabs (r (S e) - r e)) tiny)))).
  { intros v. unfold explicit_nodal, integral. change (fb_ne (hb_B row3)) with 3%nat. change (fb_nq (hb_B row3)) with 1%nat. apply sum_ext. intros e He.
    rewrite sum1. cbv zeta. rewrite N, V, row_value by exact He. rewrite vdot3_eq, !row_grad by exact He. cbn [row3 hb_B fb_grad fb_dx Nat.eqb].
    replace (INR 4) with 4 by (cbn; ring). change (4 - 1)%nat with 3%nat.
    set (x := (r e + r (S e)) / 2). set (b := if Nat.eqb v e then -1 else if Nat.eqb v (S e) then 1 else 0). unfold Rdiv. ring. }
  assert (P0 : forall x, 0 < x -> pw x (3 - 1) = x ^ 2 /\ pw x 3 = x ^ 3).
  { intros x Hx. replace (3 - 1) with 2 by ring. rewrite !pw_if by lra. destruct (Rlt_dec 0 x); [|lra]. split; [now apply Rp2|now apply Rp3]. }
  assert (T0 : tiny <= 1 / 10) by (unfold tiny; lra).
  unfold to_elements. cbn [row3 hb_t map nth rsum fold_right]. fold row3.
  unfold node_count, add_at, rsum. cbn [List.concat app map zipwith Nat.eqb fold_right].
  repeat match goal with |- context [Rmax ?a 1] => rewrite (Rmax_left a 1) by lra end.
  rewrite !Ex, !sum3. cbv zeta. rewrite R0, R1, R2, R3. cbn [row3 hb_val Nat.eqb].
  destruct (P0 ((y + y) / 2) ltac:(lra)) as (-> & ->). destruct (P0 ((y + y / 2) / 2) ltac:(lra)) as (-> & ->). destruct (P0 ((y / 2 + 0) / 2) ltac:(lra)) as (-> & ->).
  replace (Rabs (y - y)) with 0 by (rewrite Rminus_eq_0, Rabs_R0; reflexivity).
  rewrite (Rabs_left (y / 2 - y)), (Rabs_left (0 - y / 2)) by lra. rewrite !(Rmax_left (- _) tiny) by lra.
  assert (A2 : 0 < A * A) by nra. set (z := y / 4). assert (Hz : 9/40 <= z <= 1/4) by (unfold z; lra). replace y with (4 * z) by (unfold z; field).
  match goal with |- 0 < ?L => replace L with (4 * (A * A) * (z ^ 3 * ((1 - z) ^ 3 * (4 - 10 * z) - 54 * z * (1 - 3 * z) ^ 3))) end.
  2:{ replace (4 * z - 4 * z) with 0 by ring. assert (M : Rmax 0 tiny <> 0) by (rewrite Rmax_right; unfold tiny; lra). field. repeat split; solve [exact M|lra]. }
  assert (Z3 : 0 < z ^ 3) by (apply pow_lt; lra).
  apply Rmult_lt_0_compat; [lra|]. apply Rmult_lt_0_compat; [exact Z3|].
  assert (Q1 : (3/4) ^ 3 * (3/2) <= (1 - z) ^ 3 * (4 - 10 * z)).
  { apply Rmult_le_compat; [lra|lra| |lra]. apply pow_incr. lra. }
  assert (Q2 : 54 * z * (1 - 3 * z) ^ 3 <= 54 * (1/4) * (13/40) ^ 3).
  { apply Rmult_le_compat; [lra| |lra|]; [apply pow_le; lra|apply pow_incr; lra]. }
  lra.
Qed.
Lemma not_integer : forall z, 1 / 2 <> IZR z.
Proof. intros z E. assert (H : IZR (2 * z) = IZR 1) by (rewrite mult_IZR; lra). apply eq_IZR in H. lia. Qed.

(* refuted for compliance: held at the ambient temperature, starting from density 0,
   the very first iteration has a positive sensitivity; the densities become NaN (which
   the model reports as NotModelled) *)
Theorem C94_compliance_first_iteration_refuted A : A <> 0 ->
  heat_problem row_T (row_hs Compliance) A (Flt A) row_c (row_P Compliance A A) /\ oc_settings_ok row_T row_c /\
  heat_ready (row_hs Compliance) [0%nat] (Flt A) row_c row_v row_f /\
  initialize_density (plain (row_P Compliance A A)) row_c 0 None = Ok [1; 1; 0] /\
  heat_iterate (row_P Compliance A A) row_c row_v 1 (row_s 0) = Err NotModelled.
Proof.
  intros HA. set (P := row_P Compliance A A). pose proof (row_problem Compliance A A) as HP. pose proof (row_ready Compliance A) as HR.
  split; [exact HP|]. split; [exact row_settings|]. split; [exact HR|]. split.
  { unfold initialize_density, pins. cbn [P plain element_data row_P hp_dom pb_dom row_dom d_nel d_dir_neu d_fixed row_c i_design_dirichlet i_oc c_rho_min c_rho_max bind repeat pin scatter List.length upd].
    do 4 f_equal. unfold clip. rewrite Rmax_left, Rmin_left; lra. }
  assert (Hr : forall e, 0 <= nth e [1; 1; 0] 0 <= 1) by (intros [|[|[|[|e]]]]; cbn; lra).
  destruct (heat_evaluate_eq row_T (row_hs Compliance) [0%nat] A (Flt A) row_c P row_v row_f [1; 1; 0] HP HR eq_refl Hr)
    as (Js & Ts & Ls & E & G & HE & HG & LJ & LE & LG & Lg & _ & Q).
  set (rp := projected row_c row_v row_f [1; 1; 0]) in *. set (y := heaviside_projection 1 2 (1/2)).
  assert (F2 : nth 2 (filtered row_v row_f [1; 1; 0]) 0 = 0).
  { rewrite filtered_nth by (cbn; lia). cbn [row_f sf_mask is_design nth]. unfold cv, conv. cbn [row_f sf_mask sf_centers].
    change (design_ids (Some [false; false; true]) (List.length [[0];[1];[2]])) with [2%nat]. cbn [map rsum fold_right nth]. ring. }
  assert (Erp : rp = [y; y; 0]).
  { unfold rp. rewrite projected_eq. change (List.length (sf_centers row_f)) with 3%nat. cbn [seq map]. rewrite F2, !filtered_nth by (cbn; lia).
    cbn [row_f sf_mask is_design nth]. change (v_beta row_v) with 2. change (c_beta_eta (i_oc row_c)) with (1/2). rewrite H_at_0. reflexivity. }
  assert (Hy : 9/10 <= y <= 1).
  { destruct (H1_close 2 (1/2) ltac:(lra) ltac:(lra)) as (C1 & C2). fold y in C1, C2. pose proof tanh2_big.
    assert (1 / 1000000000000 / tanh 2 < 1/10).
    { apply (Rmult_lt_reg_r (tanh 2)); [lra|]. unfold Rdiv at 1. rewrite Rmult_assoc, Rinv_l by lra. lra. }
    lra. }
  set (s' := with_p (row_hs Compliance) (v_p row_v)) in *.
  assert (W' : well_set s' [0%nat] rp).
  { apply (well_set_other s' [0%nat] (uniform (row_hs Compliance) 1)); [exact (hr_set _ _ _ _ _ _ HR)|rewrite Erp; reflexivity|].
    rewrite Erp. intros x [<-|[<-|[<-|[]]]]; lra. }
  destruct HE as (dr & tk & B & Hobj & _). 
  assert (An : analysis s' A (Flt A) rp Js Ts).
  { exists dr, tk. split; [exact B|]. unfold objective_call in Hobj. destruct (objectives_multi_load _ _ _) as [[Js' Ts']|]; [|discriminate].
    cbn [bind] in Hobj. destruct (heat_system _ _ _); [|discriminate]. cbn [bind] in Hobj. destruct (n_tasks _); [|discriminate]. cbn [bind] in Hobj.
    destruct (adjoint_fields _ _ _ _ _); [|discriminate]. cbn [bind] in Hobj. injection Hobj as -> -> _. reflexivity. }
  pose proof (constant_at_ambient s' [0%nat] A A rp Js Ts W' An eq_refl) as HT. change (hn (hs_H s')) with 4%nat in HT.
  assert (LT : List.length Ts = 1%nat) by (destruct (analysis_temperature s' [0%nat] A (Flt A) _ _ _ W' An) as (LT & _); exact LT).
  destruct Ts as [|T0 [|? ?]]; try discriminate LT. cbn [nth] in HT. clear dr tk B Hobj.
  destruct HG as (dr & tk & B & HG).
  destruct (from_facets_robin _ _ _ _ _ _ _ _ _ _ _ B) as (UR & EH & En & Ev & Ek & Eo & _ & _).
  destruct UR as [(Ec & Ee & _)|(ES & _)]; [|discriminate ES].
  unfold heat_sensitivity in HG. cbn [hf_task hf_interp] in HG. unfold kmin in HG. cbn [hf_task hf_coeff] in HG. rewrite Ek, Ec, Ee, EH, Eo in HG.
  destruct (moduli _ _ _ _ _) as [ks|] eqn:Em; [|discriminate]. cbn [bind map zipwith values_list] in HG. rewrite Erp in HG. cbn [List.length seq map zipwith] in HG.
  assert (EU : forall e, (e < 3)%nat -> heat_energy (hs_H s') (fun e' => nth e' ks 0) T0 e = 0).
  { intros e He. unfold heat_energy. change (hs_H s') with row3. change (fb_nq (hb_B row3)) with 1%nat. rewrite sum1, vdot3_eq, !row_grad by exact He. cbn [Nat.eqb]. rewrite !HT by lia. ring. }
  assert (HG2 : exists g, G = [g] /\ 0 < nth 2 g 0).
  { injection HG as <-. eexists. split; [reflexivity|]. cbn [nth]. rewrite EU by lia.
    match goal with |- 0 < dC_drho_simp ?a 0 ?b ?d ?x + ?R => replace (dC_drho_simp a 0 b d x) with 0 by (unfold dC_drho_simp; unfold Rdiv; ring); set (Z := R) end.
    pose proof (row_explicit y T0 A Hy HT HA) as Pos. unfold Z, rsum. cbn [fold_right]. rewrite Rplus_0_l, Rplus_0_r.
    exact Pos. }
  destruct HG2 as (g & -> & Hg2).
  unfold heat_iterate. cbn [row_s s_filter s_rho]. fold P. rewrite Q. cbn [bind].
  apply (advance_fatal row_T row_c (plain P) row_v 1 (row_s 0) _ _ 2 (proj1 HP) (or_intror eq_refl)).
  - now apply row_designed.
  - cbn [ev_dC row_c i_sens_filter]. unfold dC_heat. change (List.length (sf_centers row_f)) with 3%nat. rewrite nth_map_seq' by lia.
    cbn [row_f sf_mask is_design nth map rsum fold_right cases values_list List.length INR]. rewrite Rplus_0_r. unfold Rdiv. rewrite Rinv_1, Rmult_1_r.
    fold row_f. unfold cvT, conv_T. change (design_ids (sf_mask row_f) (List.length (sf_centers row_f))) with [2%nat].
    pose proof (entry_sum (kernel KGaussian (v_radius row_v)) (v_radius row_v) (sf_centers row_f) [2%nat] ltac:(intros; apply exp_pos) ltac:(cbn; lra) 2%nat ltac:(now left)) as Es.
    cbn [map rsum fold_right] in *. rewrite Rplus_0_r in Es. rewrite Es, Rplus_0_r, Rmult_1_l.
    assert (Lg2 : List.length g = 3%nat) by (apply Lg; now left). destruct g as [|g0 [|g1 [|g2 [|? ?]]]]; try discriminate Lg2. cbn [nth] in Hg2.
    assert (Lf : exists a b d, filtered row_v row_f [1; 1; 0] = [a; b; d]).
    { unfold filtered. change (List.length (sf_centers row_f)) with 3%nat. cbn [seq map]. eauto. }
    destruct Lf as (a & b & d & Lf). rewrite Lf. unfold slopes. cbn [zipwith nth].
    pose proof (dH_pos (v_beta row_v) (c_beta_eta (i_oc row_c)) d ltac:(cbn; lra) ltac:(cbn; lra)). now apply Rmult_lt_0_compat.
  - exact not_integer.
  - cbn. lra.
  - cbn. lra.
  - cbn. lra.
Qed.
Print Assumptions C94_compliance_first_iteration_refuted.
