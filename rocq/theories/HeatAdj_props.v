(* C93: the adjoint fields of the heat objectives and the energies reported from them. *)
From Verif Require Import Base Sums Material_model Material_proofs OC_model Mesh_model Mesh_proofs Fea_model Fea_spec Fea_proofs Fea_props Iter_model Grad_proofs
  Heat_model Heat_spec Heat_proofs Heat_props HeatGrad_props HeatSens_props LinDiff_proofs HeatDiff_proofs HeatDiff_props HeatArgs_props HeatAdj_model.
Open Scope R_scope.
Open Scope list_scope.

(* ---- specification ---- *)
(* L is the field with the value g on the nodes D that balances the nodal sources [src]
   against conduction and exchange with ambient 0 *)
Definition response (H : hbasis) (k : nat -> R) (D : list nat) (g : R) (Ss : list surface) (h : R)
    (lay : nat -> nat -> R) (src L : vec) : Prop :=
  (forall i, (i < hn H)%nat -> In i D -> L i = g) /\
  (forall v, (forall i, (i < hn H)%nat -> In i D -> v i = 0) ->
     conducted H k L v + exchanged H Ss h 0 lay L v = sum (hn H) (fun i => src i * v i)).
(* heat conducted between the fields T and L by element e alone, at conductivity 1 *)
Definition coupling (H : hbasis) (T L : vec) (e : nat) : R := conducted H (fun e' => if Nat.eqb e' e then 1 else 0) T L.
(* one evaluation as the optimiser does it: objective values Js, temperatures Ts, and
   the energies E reported for them, one list per load case *)
Definition evaluated (s : hsettings) (A : R) (values : farg) (rho Js : list R) (Ts Ls : list vec) (E : list (list R)) : Prop :=
  exists dr tk,
    from_facets (hs_H s) (Lst (hs_ns s)) values (Some (hs_Ss s)) (Some (Flt (hs_h s))) (Some (Flt A)) dr (hs_k s) (hs_obj s) (hs_w s) = Ok tk /\
    let F := mkHFem tk (hs_c s) (hs_ip s) (hs_q s) (hs_sol s) (hs_slvm s) in
    objective_call F (hs_p s) rho = Ok (Js, Ts, Ls) /\ energy_multi_load F (Some Ls) (hs_p s) rho Ts = Ok E.
(* temperatures while the conductivities change and nothing else does, starting with
   those of the densities rho; k' is the rate of change *)
Definition conductivities_move (s : hsettings) (D : list nat) (A g : R) (rho : list R) (k' : nat -> R) (Tt : R -> vec) : Prop :=
  exists kt : R -> nat -> R,
    (forall e, (e < ne (hs_H s))%nat -> kt 0 e = conductivity (hs_ip s) (hs_k s) (hs_c s) (hs_p s) (nth e rho 0)) /\
    (forall e, (e < ne (hs_H s))%nat -> derivable_pt_lim (fun t => kt t e) 0 (k' e)) /\
    exists d, 0 < d /\ forall t, Rabs t < d ->
      temperature (hs_H s) (kt t) D g (hs_Ss s) (hs_h s) A
        (layer (hs_H s) (nodal_average (hb_t (hs_H s)) rho) (hs_p s) (hs_q s)) (Tt t).

(* ---- element sums ---- *)
Lemma grad_density_coupling H T L e : (e < ne H)%nat -> grad_density H T L e = coupling H T L e.
Proof.
  intros He. unfold coupling, conducted, integral. rewrite (sum_ext _ _ (fun i => if Nat.eqb i e then grad_density H T L i else 0)).
  - symmetry. apply (sum_single (ne H) e (grad_density H T L)). exact He.
  - intros i Hi. destruct (Nat.eqb i e); unfold grad_density.
    + apply sum_ext. intros. ring.
    + apply sum_zero. intros. ring.
Qed.
Lemma conducted_sum H k T L : conducted H k T L = sum (ne H) (fun e => k e * grad_density H T L e).
Proof. unfold conducted, integral. apply sum_ext. intros e He. unfold grad_density. rewrite <- sum_scal. apply sum_ext. intros. ring. Qed.
Lemma conducted_couplings H k T L : conducted H k T L = sum (ne H) (fun e => k e * coupling H T L e).
Proof. rewrite conducted_sum. apply sum_ext. intros e He. rewrite grad_density_coupling by exact He. reflexivity. Qed.
Lemma grad_density_lin_r H T a u b w e : grad_density H T (fun i => a * u i + b * w i) e = a * grad_density H T u e + b * grad_density H T w e.
Proof.
  unfold grad_density. rewrite <- !sum_scal, <- sum_plus. apply sum_ext. intros q Hq. rewrite !vdot3_eq, !gradv_lin. ring.
Qed.
Lemma grad_density_ext H T T' L L' e : (forall i, (i < hn H)%nat -> T i = T' i) -> (forall i, (i < hn H)%nat -> L i = L' i) -> grad_density H T L e = grad_density H T' L' e.
Proof.
  intros E1 E2. unfold grad_density. apply sum_ext. intros q Hq. rewrite !vdot3_eq, !(grad_ext H T T'), !(grad_ext H L L') by auto. reflexivity.
Qed.
Lemma response_form H k D g Ss h lay src L : shapes H -> (forall S, In S Ss -> surf_shapes (hn H) S) ->
  (response H k D g Ss h lay src L <->
   (forall i, (i < hn H)%nat -> In i D -> L i = g) /\
   (forall v, (forall i, (i < hn H)%nat -> In i D -> v i = 0) -> aform H k Ss h lay L v = dot (hn H) v src)).
Proof.
  intros Sh SS. unfold response, aform, dot. split; intros (E & W); split; auto; intros v Hv; specialize (W v Hv).
  - rewrite exchanged_eq in W by auto. rewrite (sum_ext (hn H) (fun i => v i * src i) (fun i => src i * v i)) by (intros; ring). lra.
  - rewrite exchanged_eq by auto. rewrite (sum_ext (hn H) (fun i => v i * src i) (fun i => src i * v i)) in W by (intros; ring). lra.
Qed.
Lemma response_combine H k D g g' Ss h lay src src' L L' a b : shapes H -> (forall S, In S Ss -> surf_shapes (hn H) S) ->
  response H k D g Ss h lay src L -> response H k D g' Ss h lay src' L' ->
  response H k D (a * g + b * g') Ss h lay (fun i => a * src i + b * src' i) (fun i => a * L i + b * L' i).
Proof.
  intros Sh SS R R'. apply response_form in R; auto. apply response_form in R'; auto. apply response_form; auto.
  destruct R as (B & W), R' as (B' & W'). split.
  - intros i Hi Hd. rewrite B, B' by auto. reflexivity.
  - intros v Hv. rewrite aform_lin, W, W' by auto. unfold dot. rewrite <- !sum_scal, <- sum_plus. apply sum_ext. intros. ring.
Qed.
Lemma response_unique H k D g Ss h lay src src' L L' : shapes H -> (forall S, In S Ss -> surf_shapes (hn H) S) -> anchored H D ->
  (forall e, (e < ne H)%nat -> 0 < k e) -> 0 <= h -> (forall e q, (e < ne H)%nat -> (q < nq H)%nat -> 0 <= lay e q) ->
  (forall i, (i < hn H)%nat -> src i = src' i) ->
  response H k D g Ss h lay src L -> response H k D g Ss h lay src' L' -> forall i, (i < hn H)%nat -> L i = L' i.
Proof.
  intros Sh SS An Kp Hh Hl Es R R' i Hi. apply response_form in R; auto. apply response_form in R'; auto. destruct R as (B & W), R' as (B' & W').
  assert (Z : 1 * L i + -1 * L' i = 0); [|lra]. 
  assert (V0 : forall j, (j < hn H)%nat -> In j D -> (fun j => 1 * L j + -1 * L' j) j = 0) by (intros j Hj Hd; rewrite B, B' by auto; ring).
  apply (aform_zero H k Ss h lay Sh SS Kp Hh Hl D (fun j => 1 * L j + -1 * L' j) An V0); [|exact Hi].
  rewrite aform_lin, W, W' by exact V0. unfold dot.
  rewrite (sum_ext _ (fun i0 => (1 * L i0 + -1 * L' i0) * src i0) (fun i0 => (1 * L i0 + -1 * L' i0) * src' i0)) by (intros; rewrite Es by auto; reflexivity). lra.
Qed.

(* a linear functional of the temperature along a path of conductivities *)
Lemma path_functional H D Ss h A g slvm (kt : R -> nat -> R) lay k' (Tt : R -> vec) src L x :
  shapes H -> (forall S, In S Ss -> surf_shapes (hn H) S) -> anchored H D -> 0 <= h -> exact_solver (hn H) slvm ->
  (forall e, (e < ne H)%nat -> 0 < kt x e) -> (forall e q, (e < ne H)%nat -> (q < nq H)%nat -> 0 <= lay e q) ->
  (forall e, (e < ne H)%nat -> derivable_pt_lim (fun t => kt t e) x (k' e)) ->
  (exists d, 0 < d /\ forall t, Rabs (t - x) < d -> temperature H (kt t) D g Ss h A lay (Tt t)) ->
  response H (kt x) D 0 Ss h lay src L ->
  derivable_pt_lim (fun t => dot (hn H) src (Tt t)) x (- conducted H k' (Tt x) L).
Proof.
  intros Sh SS An Hh Hex Kp Lp Dk HT HL. set (n := hn H).
  set (Kt := fun t => form_mat (aform H (kt t) Ss h lay)). set (Ft := fun (t : R) i => A * exch0 H Ss h lay one (unit i)).
  set (K' := form_mat (aform H k' [] h (fun _ _ => 0))). set (F' := fun i : nat => 0).
  assert (Wk : forall t gg T, temperature H (kt t) D gg Ss h A lay T ->
    (forall i, (i < n)%nat -> mem i D = true -> T i = gg) /\ (forall i, (i < n)%nat -> mem i D = false -> mv n (Kt t) T i = Ft t i)).
  { intros t gg T Tm. apply temperature_form in Tm; auto. destruct Tm as (B & W). split.
    - intros i Hi Mi. apply B; auto. apply existsb_exists in Mi. destruct Mi as (y & Hy & Ey). apply Nat.eqb_eq in Ey. now subst.
    - intros i Hi Mi. unfold n, Kt. rewrite aform_mv. unfold Ft. apply W. intros j Hj HD. unfold unit. destruct (Nat.eqb_spec j i); [|reflexivity]. subst.
      assert (mem i D = true) by (apply existsb_exists; exists i; split; [auto|apply Nat.eqb_refl]). congruence. }
  destruct (inverse_exists n D (Kt x) slvm Hex) as (G & HG).
  { apply (regular H (kt x) D Ss h lay (Kt x)); auto. intros T v. apply aform_dot. }
  assert (DK : forall i j, (i < n)%nat -> (j < n)%nat -> derivable_pt_lim (fun t => Kt t i j) x (K' i j)).
  { intros i j _ _. apply (aform_derive H Ss h x kt (fun _ => lay) k' (fun _ _ => 0) Dk (fun e q _ _ => derivable_pt_lim_const _ _) (unit j) (unit i)). }
  assert (DF : forall i, (i < n)%nat -> derivable_pt_lim (fun t => Ft t i) x (F' i)) by (intros; apply derivable_pt_lim_const).
  assert (HS : exists d, 0 < d /\ forall t, Rabs (t - x) < d -> solution_at n (fun i => mem i D) g Kt Ft Tt t).
  { destruct HT as (d & Hd & W); exists d; split; [exact Hd|intros t Ht; exact (Wk t g (Tt t) (W t Ht))]. }
  pose proof (sol_derive n (fun i => mem i D) g x Kt Ft Tt K' F' G DK DF HG HS) as SD.
  pose proof (dsol_eq n (fun i => mem i D) g x Kt Ft Tt K' F' G DK DF HG HS) as SE.
  set (dT := dsol n (fun i => mem i D) x Tt K' F' G) in *.
  apply response_form in HL; auto. destruct HL as (B & W).
  assert (V0 : forall i, (i < hn H)%nat -> In i D -> dT i = 0).
  { intros i Hi Hd. apply (proj1 (SE i Hi)). apply existsb_exists. exists i. split; [exact Hd|apply Nat.eqb_refl]. }
  assert (E : - conducted H k' (Tt x) L = dot n src dT).
  { transitivity (dot n dT src); [|apply sum_ext; intros; ring]. unfold n. rewrite <- (W dT V0), aform_sym.
    rewrite <- (aform_dot H (kt x) Ss h lay dT L).
    transitivity (- dot n L (mv n K' (Tt x))).
    - unfold n, K'. rewrite aform_dot. unfold aform, exch0. cbn [map]. rewrite (integral_ext H _ (fun e q => 0 * 0)) by (intros; ring).
      rewrite (integral_scal H 0 (fun _ _ => 0)). unfold rsum. cbn [fold_right]. ring.
    - unfold dot.
      replace (- sum n (fun i => L i * mv n K' (Tt x) i)) with (-1 * sum n (fun i => L i * mv n K' (Tt x) i)) by ring.
      rewrite <- sum_scal. apply sum_ext. intros i Hi. destruct (mem i D) eqn:M.
      + apply existsb_exists in M. destruct M as (y & Hy & Ey). apply Nat.eqb_eq in Ey. subst y. rewrite (B i Hi Hy). ring.
      + pose proof (proj2 (SE i Hi) M) as Q. unfold F' in Q. change (mv (hn H) (form_mat (aform H (kt x) Ss h lay)) dT i) with (mv n (Kt x) dT i).
        replace (mv n (Kt x) dT i) with (- mv n K' (Tt x) i) by lra. ring. }
  rewrite E. apply (derive_sum n (fun i t => src i * Tt t i) (fun i => src i * dT i)). intros i Hi. apply derivable_pt_lim_scal. exact (SD i Hi).
Qed.

(* ---- one evaluation, taken apart ---- *)
(* a solve with the matrix of the run: boundary value g_i, any right-hand side *)
Definition run_facts (s : hsettings) (D : list nat) (A : R) (values : farg) (rho : list R) (tk : htask) (sys : hsystem) : Prop :=
  ht_H tk = hs_H s /\ ht_obj tk = hs_obj s /\ ht_weight tk = hs_w s /\ ht_k tk = hs_k s /\
  ht_coef tk = Some (Flt (hs_h s)) /\ ht_env tk = Some (Flt A) /\
  n_tasks tk = Ok (List.length (values_list values)) /\ ht_values tk = values /\
  sy_nodal sys = Some (nodal_average (hb_t (hs_H s)) rho) /\
  forall f nc us, nc = List.length (values_list values) ->
    solve_heat (hs_sol s) (hs_slvm s) (sy_K sys) f (ht_nodes tk) (values_list values) nc = Ok us ->
    List.length us = List.length (values_list values) /\
    forall i, (i < List.length (values_list values))%nat ->
      response (hs_H s) (kap_of s rho) D (nth i (values_list values) 0) (hs_Ss s) (hs_h s) (lay_of s rho) f (nth i us zv).
Lemma evaluation s D A values rho Js Ts Ls E : well_set s D rho -> evaluated s A values rho Js Ts Ls E ->
  exists tk sys, run_facts s D A values rho tk sys /\ analysis s A values rho Js Ts /\
    let F := mkHFem tk (hs_c s) (hs_ip s) (hs_q s) (hs_sol s) (hs_slvm s) in
    adjoint_fields F (hs_p s) sys Ts (List.length (values_list values)) = Ok Ls /\
    energy_multi_load F (Some Ls) (hs_p s) rho Ts = Ok E.
Proof.
  intros W (dr & tk & B & Hrun & HE). set (F := mkHFem tk (hs_c s) (hs_ip s) (hs_q s) (hs_sol s) (hs_slvm s)) in *.
  unfold objective_call in Hrun. destruct (objectives_multi_load F (hs_p s) rho) as [[Js' Ts']|] eqn:Eo; [|discriminate]. cbn [bind] in Hrun.
  pose proof W as (HD & Same & Sd & Hex). pose proof (from_facets_robin _ _ _ _ _ _ _ _ _ _ _ B) as (UR & EH & En & Ev & Ek & Eob & Ew & HV).
  assert (HV' : match values with FLst l => List.length l = List.length (hs_ns s) | Flt _ => True | Int _ => False end).
  { destruct values; auto. unfold objectives_multi_load in Eo. cbn [F hf_task] in Eo. unfold n_tasks in Eo. rewrite Ev in Eo. discriminate. }
  destruct (heat_columns F (hs_p s) rho Js' Ts' (hs_Ss s) (hs_h s) A (hs_H s) (hs_ns s) values (hs_k s) (hs_c s) D
    UR EH En Ev Ek eq_refl HV' HD Sd Hex Eo) as (sys & ks & lay & Es & Nk & _ & -> & Hl & Pk & EK & _ & _ & _).
  cbn [F hf_interp hf_q] in *. rewrite Es in Hrun. cbn [bind] in Hrun. unfold F in Hrun at 1. cbn [hf_task] in Hrun.
  assert (EN : n_tasks tk = Ok (List.length (values_list values))).
  { unfold n_tasks. rewrite Ev. destruct values; [reflexivity|contradiction|reflexivity]. }
  rewrite EN in Hrun. cbn [bind] in Hrun.
  destruct (adjoint_fields _ _ sys Ts' _) as [Ls'|] eqn:EL; [|discriminate]. cbn [bind] in Hrun.
  injection Hrun as -> -> ->. exists tk, sys.
  assert (UR' : ht_coef tk = Some (Flt (hs_h s)) /\ ht_env tk = Some (Flt A)).
  { destruct UR as [(Ec & Ee & _)|(ES & _)]; [auto|]. exfalso. rewrite ES in B. unfold from_facets in B. destruct values; cbn [bind] in B; try discriminate.
    destruct (Nat.eqb _ _); cbn [bind] in B; discriminate. }
  destruct UR' as (Ec & Ee).
  split; [|split; [exists dr, tk; split; [exact B|exact Eo]|split; [exact EL|exact HE]]].
  unfold run_facts. split; [exact EH|]. split; [exact Eob|]. split; [exact Ew|]. split; [exact Ek|]. split; [exact Ec|]. split; [exact Ee|]. split; [exact EN|]. split; [exact Ev|]. split.
  { destruct (heat_system_form F (hs_p s) rho sys (hs_Ss s) (hs_h s) A UR Es) as (_ & _ & _ & _ & _ & _ & _ & Hn). rewrite Hn.
    cbn [F hf_task]. rewrite Ec, EH. reflexivity. }
  intros f nc us -> Su. rewrite En in Su. destruct Sd as [Sh SS An Hh Hk Hc Hp Lr Hr].
  assert (ED : nth 0 (hs_ns s) [] = D) by (destruct (hs_ns s); [discriminate|cbn in *; congruence]).
  assert (C := solve_heat_columns (hn (hs_H s)) _ _ _ _ _ _ _ _ Su eq_refl). rewrite ED in C.
  specialize (C ltac:(destruct values; cbn; [right; split; [auto|destruct (hs_ns s); [discriminate|congruence]]|contradiction|left; congruence])).
  specialize (C ltac:(intros bs; apply Hex; apply (regular (hs_H s) (fun e => nth e ks 0) D (hs_Ss s) (hs_h s) (layer (hs_H s) (nodal_average (hb_t (hs_H s)) rho) (hs_p s) (hs_q s))); auto)).
  destruct C as (LU & C). split; [exact LU|]. intros i Hi. specialize (C i Hi).
  assert (Sm : same_set (nth i (hs_ns s) []) D).
  { destruct values as [x|x|l]; [|contradiction|]; cbn [values_list List.length] in Hi.
    - replace i with 0%nat by lia. rewrite ED. intros j. reflexivity.
    - apply Same, nth_In. lia. }
  apply (solves_same _ D (nth i (hs_ns s) [])) in C; [|intros j; symmetry; apply Sm].
  apply enforced_solve in C. destruct C as (S0 & SF). apply response_form; auto. split.
  - intros j Hj HjD. apply S0; auto. now apply Sm.
  - intros v Hv. specialize (SF v ltac:(intros j Hj HjD; apply Hv; auto; now apply Sm)).
    rewrite EK in SF. unfold aform in *. rewrite (conducted_cond (hs_H s) ks (kap_of s rho)) in SF by exact Nk. unfold lay_of. lra.
Qed.
Lemma energy_rows H Ts Ls (E : list (list R)) i : E = zipwith (fun T L => map (grad_density H T L) (seq 0 (fb_ne (hb_B H)))) Ts Ls ->
  (i < List.length Ts)%nat -> (i < List.length Ls)%nat ->
  List.length (nth i E []) = ne H /\ forall e, (e < ne H)%nat -> nth e (nth i E []) 0 = coupling H (nth i Ts zv) (nth i Ls zv) e.
Proof.
  intros -> HT HL. rewrite (zipwith_nth3 _ _ _ i zv zv []) by lia. split; [rewrite map_length, seq_length; reflexivity|].
  intros e He. rewrite (nth_indep _ 0 (grad_density H (nth i Ts zv) (nth i Ls zv) 0)) by (rewrite map_length, seq_length; exact He).
  rewrite map_nth, seq_nth by exact He. apply grad_density_coupling. exact He.
Qed.
(* what the energies are, for the two objectives with an adjoint *)
Lemma adjoint_energies s D A values rho Js Ts Ls E : well_set s D rho -> evaluated s A values rho Js Ts Ls E -> hs_obj s <> Compliance ->
  List.length Ls = List.length (values_list values) -> List.length E = List.length (values_list values) /\
  forall i, (i < List.length (values_list values))%nat -> List.length (nth i E []) = ne (hs_H s) /\
    forall e, (e < ne (hs_H s))%nat -> nth e (nth i E []) 0 = coupling (hs_H s) (nth i Ts zv) (nth i Ls zv) e.
Proof.
  intros W Ev Ho LL. destruct (evaluation _ _ _ _ _ _ _ _ _ W Ev) as (tk & sys & (EH & Eob & _) & An & _ & HE).
  destruct (analysis_temperature _ _ _ _ _ _ _ W An) as (LT & _). unfold energy_multi_load in HE. cbn [hf_task] in HE. rewrite EH, Eob in HE.
  assert (Q : E = zipwith (fun T L => map (grad_density (hs_H s) T L) (seq 0 (fb_ne (hb_B (hs_H s))))) Ts Ls).
  { destruct (hs_obj s); [congruence| |]; (destruct (Nat.ltb (List.length Ls) (List.length Ts)); [discriminate|]); injection HE as <-; reflexivity. }
  split; [rewrite Q, zipwith_len_min; lia|]. intros i Hi. apply (energy_rows (hs_H s) Ts Ls E i Q); lia.
Qed.

(* ---- averaged temperature ---- *)
(* the adjoint of every load case balances a unit source at every node, but takes the
   prescribed temperature as its value at the held nodes, not 0 *)
Theorem C93_average_adjoint s D A values rho Js Ts Ls E : well_set s D rho -> hs_obj s = AveragedTemp ->
  evaluated s A values rho Js Ts Ls E ->
  List.length Ls = List.length (values_list values) /\ forall i, (i < List.length (values_list values))%nat ->
    response (hs_H s) (fun e => conductivity (hs_ip s) (hs_k s) (hs_c s) (hs_p s) (nth e rho 0)) D (nth i (values_list values) 0) (hs_Ss s) (hs_h s)
      (layer (hs_H s) (nodal_average (hb_t (hs_H s)) rho) (hs_p s) (hs_q s)) (fun _ => 1) (nth i Ls zv).
Proof.
  intros W Ho Ev. destruct (evaluation _ _ _ _ _ _ _ _ _ W Ev) as (tk & sys & (EH & Eob & Ew & Ek & Ec & Ee & EN & Evl & Hn & Sv) & An & EL & HE).
  unfold adjoint_fields in EL. cbn [hf_task hf_sol hf_slvm] in EL. rewrite Eob, Ho, Evl in EL. exact (Sv _ _ _ eq_refl EL).
Qed.
(* the field that is 1 on D with no source *)
Lemma lift_exists s D rho : well_set s D rho ->
  exists w, response (hs_H s) (kap_of s rho) D 1 (hs_Ss s) (hs_h s) (lay_of s rho) (fun _ => 0) w.
Proof.
  intros (HD & Same & [Sh SS An Hh Hk Hc Hp Lr Hr] & Hex). set (K := form_mat (aform (hs_H s) (kap_of s rho) (hs_Ss s) (hs_h s) (lay_of s rho))).
  assert (Kp : forall e, (e < ne (hs_H s))%nat -> 0 < kap_of s rho e).
  { intros e He. unfold kap_of. apply conductivity_pos; auto. apply Hr. apply nth_In. lia. }
  assert (F := Hex (enforceK D K) [enforceV D 1 (fun _ => 0)]).
  specialize (F ltac:(apply (regular (hs_H s) (kap_of s rho) D (hs_Ss s) (hs_h s) (lay_of s rho) K); auto;
    [intros; unfold lay_of; now apply layer_nonneg|intros; apply aform_dot])).
  destruct (hs_slvm s (enforceK D K) [enforceV D 1 (fun _ => 0)]) as [|u us]; [inversion F|]. assert (Su := Forall2_nth2 _ _ _ 0 zv zv F ltac:(cbn; lia)). cbn [nth] in Su. exists u. apply enforced_solve in Su. destruct Su as (S0 & SF). apply response_form; auto. split; [exact S0|].
  intros v Hv. specialize (SF v Hv). unfold K in SF. rewrite aform_dot in SF. lra.
Qed.
Lemma well_kap s D rho : well_set s D rho -> (forall e, (e < ne (hs_H s))%nat -> 0 < kap_of s rho e) /\
  (forall e q, (e < ne (hs_H s))%nat -> (q < nq (hs_H s))%nat -> 0 <= lay_of s rho e q).
Proof.
  intros (HD & Same & [Sh SS An Hh Hk Hc Hp Lr Hr] & Hex). split.
  - intros e He. unfold kap_of. apply conductivity_pos; auto. apply Hr. apply nth_In. lia.
  - intros. unfold lay_of. now apply layer_nonneg.
Qed.
(* derivative of a linear functional of the temperature when only conductivities move,
   from any field L with that functional as source, held at 0 *)
Lemma move_functional s D A g rho k' Tt T src L : well_set s D rho -> conductivities_move s D A g rho k' Tt ->
  temperature (hs_H s) (kap_of s rho) D g (hs_Ss s) (hs_h s) A (lay_of s rho) T ->
  response (hs_H s) (kap_of s rho) D 0 (hs_Ss s) (hs_h s) (lay_of s rho) src L ->
  derivable_pt_lim (fun t => dot (hn (hs_H s)) src (Tt t)) 0 (- sum (ne (hs_H s)) (fun e => k' e * coupling (hs_H s) T L e)).
Proof.
  intros W (kt & K0 & Dk & d & Hd & HT) Tm HL. pose proof W as (HD & Same & [Sh SS An Hh Hk Hc Hp Lr Hr] & Hex).
  destruct (well_kap s D rho W) as (Kp & Lp). fold (lay_of s rho) in HT. fold (kap_of s rho) in K0.
  assert (AF : forall u v, aform (hs_H s) (kt 0) (hs_Ss s) (hs_h s) (lay_of s rho) u v = aform (hs_H s) (kap_of s rho) (hs_Ss s) (hs_h s) (lay_of s rho) u v).
  { intros. unfold aform. rewrite (cond_k_ext (hs_H s) (kt 0) (kap_of s rho)) by exact K0. reflexivity. }
  assert (P := path_functional (hs_H s) D (hs_Ss s) (hs_h s) A g (hs_slvm s) kt (lay_of s rho) k' Tt src L 0 Sh SS An Hh Hex
    ltac:(intros e He; rewrite K0 by exact He; now apply Kp) Lp Dk
    ltac:(exists d; split; [exact Hd|intros t Ht; rewrite Rminus_0_r in Ht; now apply HT])
    ltac:(apply response_form; auto; apply response_form in HL; auto; destruct HL as (B & Wf); split; [exact B|intros v Hv; rewrite AF; now apply Wf])).
  assert (T0 : forall i, (i < hn (hs_H s))%nat -> Tt 0 i = T i).
  { apply (well_unique s D rho g A); [exact W| |exact Tm]. specialize (HT 0 ltac:(rewrite Rabs_R0; exact Hd)).
    apply temperature_form in HT; auto. apply temperature_form; auto. destruct HT as (B & Wf). split; [exact B|]. intros v Hv. rewrite <- AF. now apply Wf. }
  rewrite <- conducted_couplings. rewrite <- (cond_ext (hs_H s) k' (Tt 0) T L L); auto.
Qed.
(* the true rate of the average when conductivities move, and what is reported: each
   element is off by the prescribed temperature times its coupling with the field that
   is 1 on the held nodes *)
Theorem C93_average_derivative s D A values rho Js Ts Ls E : well_set s D rho -> hs_obj s = AveragedTemp ->
  evaluated s A values rho Js Ts Ls E ->
  exists w, response (hs_H s) (fun e => conductivity (hs_ip s) (hs_k s) (hs_c s) (hs_p s) (nth e rho 0)) D 1 (hs_Ss s) (hs_h s)
      (layer (hs_H s) (nodal_average (hb_t (hs_H s)) rho) (hs_p s) (hs_q s)) (fun _ => 0) w /\
  forall i, (i < List.length (values_list values))%nat -> forall k' Tt, conductivities_move s D A (nth i (values_list values) 0) rho k' Tt ->
    derivable_pt_lim (fun t => sum (hn (hs_H s)) (Tt t)) 0
      (- sum (ne (hs_H s)) (fun e => k' e * (nth e (nth i E []) 0 - nth i (values_list values) 0 * coupling (hs_H s) (nth i Ts zv) w e))).
Proof.
  intros W Ho Ev. destruct (lift_exists s D rho W) as (w & Hw). exists w. split; [exact Hw|]. intros i Hi k' Tt Mv.
  destruct (C93_average_adjoint _ _ _ _ _ _ _ _ _ W Ho Ev) as (LL & RL). specialize (RL i Hi). set (g := nth i (values_list values) 0) in *.
  destruct (adjoint_energies _ _ _ _ _ _ _ _ _ W Ev ltac:(congruence) LL) as (_ & HE). destruct (HE i Hi) as (_ & HEi). clear HE.
  destruct (evaluation _ _ _ _ _ _ _ _ _ W Ev) as (_ & _ & _ & An & _). destruct (analysis_temperature _ _ _ _ _ _ _ W An) as (_ & HT). specialize (HT i Hi). fold g in HT.
  pose proof W as (_ & _ & [Sh SS _ _ _ _ _ _ _] & _).
  pose proof (response_combine _ _ _ _ _ _ _ _ _ _ _ _ 1 (- g) Sh SS RL Hw) as R0.
  replace (1 * g + - g * 1) with 0 in R0 by ring.
  pose proof (move_functional s D A g rho k' Tt _ _ _ W Mv HT R0) as Dv. cbv beta in Dv.
  rewrite (sum_ext _ (fun e => k' e * (nth e (nth i E []) 0 - g * coupling (hs_H s) (nth i Ts zv) w e)) (fun e => k' e * coupling (hs_H s) (nth i Ts zv) (fun i0 => 1 * nth i Ls zv i0 + - g * w i0) e)).
  - apply (derive_locally (fun t => dot (hn (hs_H s)) (fun i0 => 1 * 1 + - g * 0) (Tt t))); [|exact Dv].
    exists 1. split; [lra|]. intros t _. apply sum_ext. intros. ring.
  - intros e He. rewrite HEi by exact He. rewrite <- !grad_density_coupling by exact He. rewrite grad_density_lin_r. ring.
Qed.
(* held at 0 the reported energies are the derivative *)
Theorem C93_average_exact_at_zero s D A values rho Js Ts Ls E i : well_set s D rho -> hs_obj s = AveragedTemp ->
  evaluated s A values rho Js Ts Ls E -> (i < List.length (values_list values))%nat -> nth i (values_list values) 0 = 0 ->
  forall k' Tt, conductivities_move s D A 0 rho k' Tt ->
    derivable_pt_lim (fun t => sum (hn (hs_H s)) (Tt t)) 0 (- sum (ne (hs_H s)) (fun e => k' e * nth e (nth i E []) 0)).
Proof.
  intros W Ho Ev Hi Hz k' Tt Mv. destruct (C93_average_derivative _ _ _ _ _ _ _ _ _ W Ho Ev) as (w & _ & Dv).
  specialize (Dv i Hi k' Tt). rewrite Hz in Dv. specialize (Dv Mv).
  rewrite (sum_ext _ _ (fun e => k' e * nth e (nth i E []) 0)) in Dv by (intros; ring). exact Dv.
Qed.

(* the evaluation of a sound problem never fails *)
Lemma solve_heat_ok n sol slvm K D ns vals f : sol <> HOther -> nth_error ns 0 = Some D ->
  (List.length ns = List.length vals \/ List.length vals = 1%nat) ->
  (forall bs, Forall2 (solves n (enforceK D K)) bs (slvm (enforceK D K) bs)) ->
  exists us, solve_heat sol slvm K f ns vals (List.length vals) = Ok us /\ List.length us = List.length vals.
Proof.
  intros Hsol HD L Ex. unfold solve_heat. destruct ns as [|D1 ns']; [discriminate|]. cbn in HD. injection HD as ->.
  set (bs := zipwith _ _ _).
  assert (Lb : List.length bs = List.length vals) by (unfold bs; rewrite zipwith_len_min; cbn [List.length] in *; lia).
  assert (Lu : List.length (slvm (enforceK D K) bs) = List.length vals) by (rewrite <- (Forall2_len _ _ _ (Ex bs)); exact Lb).
  destruct sol; try congruence; (destruct vals as [|v vs]; [eexists; split; [reflexivity|apply repeat_length]|];
    exists (slvm (enforceK D K) bs); rewrite Lu, Nat.eqb_refl; auto).
Qed.
Lemma evaluation_of_task s D A values rho dr tk Js Ts : well_set s D rho -> hs_Ss s <> [] -> hs_sol s <> HOther ->
  (match values with Flt _ => True | FLst l => List.length l = List.length (hs_ns s) | Int _ => False end) ->
  from_facets (hs_H s) (Lst (hs_ns s)) values (Some (hs_Ss s)) (Some (Flt (hs_h s))) (Some (Flt A)) dr (hs_k s) (hs_obj s) (hs_w s) = Ok tk ->
  let F := mkHFem tk (hs_c s) (hs_ip s) (hs_q s) (hs_sol s) (hs_slvm s) in
  objectives_multi_load F (hs_p s) rho = Ok (Js, Ts) -> List.length Ts = List.length (values_list values) ->
  exists Ls E, objective_call F (hs_p s) rho = Ok (Js, Ts, Ls) /\ energy_multi_load F (Some Ls) (hs_p s) rho Ts = Ok E /\
    List.length Ls = List.length (values_list values) /\ List.length E = List.length (values_list values).
Proof.
  intros W HS Hsol HV B F Ea LT.
  pose proof W as (HD & Same & Sd & Hex). pose proof (from_facets_robin _ _ _ _ _ _ _ _ _ _ _ B) as (UR & EH & En & Ev & Ek & Eob & Ew & _).
  destruct (heat_columns F (hs_p s) rho Js Ts (hs_Ss s) (hs_h s) A (hs_H s) (hs_ns s) values (hs_k s) (hs_c s) D
    UR EH En Ev Ek eq_refl HV HD Sd Hex Ea) as (sys & ks & lay & Es & Nk & _ & -> & Hl & Pk & EK & _ & _ & _).
  destruct (heat_system_form F (hs_p s) rho sys (hs_Ss s) (hs_h s) A UR Es) as (_ & _ & _ & _ & _ & _ & _ & Hn).
  assert (EN : n_tasks tk = Ok (List.length (values_list values))).
  { unfold n_tasks. rewrite Ev. destruct values; [reflexivity|contradiction|reflexivity]. }
  destruct UR as [(Ec & Ee & _)|(ES & _)]; [|congruence]. cbn [F hf_task] in Hn. rewrite Ec, EH in Hn.
  destruct Sd as [Sh SS An Hh Hk Hc Hp Lr Hr].
  assert (Sv : forall f, exists us, solve_heat (hs_sol s) (hs_slvm s) (sy_K sys) f (hs_ns s) (values_list values) (List.length (values_list values)) = Ok us /\ List.length us = List.length (values_list values)).
  { intros f. apply (solve_heat_ok (hn (hs_H s)) _ _ _ D); auto.
    - destruct values; cbn; [auto|contradiction|left; congruence].
    - intros bs. apply Hex. apply (regular (hs_H s) (fun e => nth e ks 0) D (hs_Ss s) (hs_h s) (layer (hs_H s) (nodal_average (hb_t (hs_H s)) rho) (hs_p s) (hs_q s))); auto. }
  assert (EL : exists Ls, adjoint_fields F (hs_p s) sys Ts (List.length (values_list values)) = Ok Ls /\ List.length Ls = List.length (values_list values)).
  { unfold adjoint_fields. cbn [F hf_task hf_sol hf_slvm hf_q]. rewrite EH, En, Ev, Eob, Ew, Ec, Ee, Hn. destruct (hs_obj s).
    - eexists. split; [reflexivity|]. rewrite map_length. exact LT.
    - destruct (Rleb _ tiny16); [eexists; split; [reflexivity|rewrite map_length; exact LT]|]. cbn [full_arg bind].
      assert (VP : vertex_powers_ok (hs_H s) (nodal_average (hb_t (hs_H s)) rho) (hs_p s) = true).
      { apply forallb_forall. intros v _. pose proof (nodal_01 (hb_t (hs_H s)) rho v Hr) as N01. unfold npow.
        destruct (Rlt_dec 0 _); [reflexivity|]. destruct (Req_EM_T _ 0) as [E0|E0]; [|lra]. destruct (Rlt_dec 0 (hs_p s)); [reflexivity|lra]. }
      rewrite VP. cbn [negb]. destruct (Sv (hx_rhs (hs_H s) (nodal_average (hb_t (hs_H s)) rho) A (hs_h s) (hs_p s) (hs_q s))) as (L1 & E1 & N1).
      rewrite E1. cbn [bind]. destruct (Reqb (hs_w s) 0); [eauto|]. destruct (Sv (fun _ => 1)) as (L2 & E2 & N2). rewrite E2. cbn [bind].
      destruct (scales _ _) as [hs0 as0]. eexists. split; [reflexivity|]. rewrite zipwith_len_min, N1, N2. lia.
    - exact (Sv (fun _ => 1)). }
  destruct EL as (Ls & EL & LL).
  assert (EE : exists E, energy_multi_load F (Some Ls) (hs_p s) rho Ts = Ok E /\ List.length E = List.length (values_list values)).
  { unfold energy_multi_load. cbn [F hf_task hf_interp]. unfold kmin. cbn [F hf_task hf_coeff]. rewrite EH, Eob, Ek. destruct (hs_obj s).
    - rewrite moduli_ok by auto. cbn [bind]. eexists. split; [reflexivity|]. rewrite map_length. exact LT.
    - rewrite (proj2 (Nat.ltb_ge _ _)) by lia. eexists. split; [reflexivity|]. rewrite zipwith_len_min. lia.
    - rewrite (proj2 (Nat.ltb_ge _ _)) by lia. eexists. split; [reflexivity|]. rewrite zipwith_len_min. lia. }
  destruct EE as (E & EE & LE). exists Ls, E. split; [|split; [exact EE|split; [exact LL|exact LE]]].
  unfold objective_call. rewrite Ea. cbn [bind]. rewrite Es. cbn [bind]. change (hf_task F) with tk. rewrite EN. cbn [bind]. rewrite EL. reflexivity.
Qed.
Theorem C93_evaluation_succeeds s D A values rho : well_set s D rho -> hs_Ss s <> [] -> hs_sol s <> HOther ->
  (match values with Flt _ => True | FLst l => List.length l = List.length (hs_ns s) | Int _ => False end) ->
  exists Js Ts Ls E, evaluated s A values rho Js Ts Ls E /\
    List.length Ls = List.length (values_list values) /\ List.length E = List.length (values_list values).
Proof.
  intros W HS Hsol HV. destruct (analysed_ok s D A values rho W HS Hsol HV) as (Js & Ts & Ea & LJ & LT). exists Js, Ts.
  unfold analysed in Ea. destruct (from_facets _ _ _ _ _ _ _ _ _ _) as [tk|] eqn:B; [|discriminate]. cbn [bind] in Ea.
  destruct (evaluation_of_task s D A values rho None tk Js Ts W HS Hsol HV B Ea LT) as (Ls & E & H1 & H2 & H3 & H4).
  exists Ls, E. split; [|auto]. exists None, tk. auto.
Qed.

(* ---- the bar, averaged temperature: off by the factor 1 - 4 g ---- *)
Lemma bar_one_coupling T L : coupling (bars 1) T L 0%nat = (T 1%nat - T 0%nat) * (L 1%nat - L 0%nat).
Proof.
  rewrite <- grad_density_coupling by (cbn; lia). unfold grad_density. cbn [bars hb_B fb_nq fb_dx]. rewrite sum1, vdot3_eq. unfold gradv, grad_of. cbn [bars hb_B fb_n fb_grad].
  rewrite !sum2. cbn [Nat.eqb]. ring.
Qed.
Lemma bar_average A g x : floor6 <= x < 1 ->
  derivable_pt_lim (fun t => objective_value (bar AveragedTemp SIMP) A g [t]) x
    (- dconductivity SIMP 10 (1 / 100) 3 x * (4 * (A - g) / Rsqr (conductivity SIMP 10 (1 / 100) 3 x + 4))).
Proof.
  intros Hx. assert (F6 : 0 < floor6) by (unfold floor6; lra). set (s := bar AveragedTemp SIMP). pose proof (bar_problem AveragedTemp SIMP) as UP. fold s in UP.
  pose proof UP as (W & _).
  set (kf := conductivity SIMP 10 (1 / 100) 3). set (dk := dconductivity SIMP 10 (1 / 100) 3 x).
  assert (Kp : forall t, 0 <= t <= 1 -> 0 < kf t) by (intros; apply conductivity_pos; lra).
  assert (Dk : derivable_pt_lim kf x dk) by (apply (kf_derive s); cbn; lra). pose proof (Kp x ltac:(lra)).
  apply (derive_eq _ _ (((dk * g + 0) * (kf x + 4) - (dk + 0) * (kf x * g + 4 * A)) / Rsqr (kf x + 4))).
  2: { unfold Rsqr. fold (kf x). field. lra. }
  apply (derive_locally (fun t => g + (kf t * g + 4 * A) / (kf t + 4))).
  - exists (Rmin x (1 - x)). split; [apply Rmin_glb_lt; lra|]. intros t Ht.
    pose proof (Rmin_l x (1 - x)). pose proof (Rmin_r x (1 - x)). apply Rabs_def2 in Ht.
    pose proof (average_value s _ A (Flt g) _ _ _ eq_refl (well_uniform s _ 1 t W ltac:(lra)) (uniform_analysed s _ A g t UP ltac:(lra))) as J.
    cbn [map] in J. injection J as J. change [t] with (uniform s t). unfold uniform in J |- *. rewrite J. unfold hn. cbn [s bar hs_H bars hb_B fb_n]. rewrite sum2.
    destruct (bar_temperature AveragedTemp SIMP A g t ltac:(lra)) as (T0 & T1). unfold uniform in T0, T1.
    change (bar AveragedTemp SIMP) with s in T0, T1. rewrite <- T0 at 1. unfold kf. rewrite <- T1. reflexivity.
  - set (L := _ / _). replace L with (0 + L) by ring. apply (derivable_pt_lim_plus (fun _ => g)); [apply derivable_pt_lim_const|].
    apply (derivable_pt_lim_div (fun t => kf t * g + 4 * A) (fun t => kf t + 4)); [| |lra].
    + apply (derivable_pt_lim_plus (fun t => kf t * g) (fun _ => 4 * A)); [|apply derivable_pt_lim_const].
      replace (dk * g) with (dk * g + kf x * 0) by ring. apply (derivable_pt_lim_mult kf (fun _ => g)); [exact Dk|apply derivable_pt_lim_const].
    + apply (derivable_pt_lim_plus kf (fun _ => 4)); [exact Dk|apply derivable_pt_lim_const].
Qed.
(* one bar with exchange 4 at its tip: the reported energy is 1 - 4 g times what the
   derivative of the average temperature needs; wrong sign for every prescribed
   temperature above 1/4 *)
Theorem C93_average_refuted A g x Js Ts Ls E : floor6 <= x < 1 -> evaluated (bar AveragedTemp SIMP) A (Flt g) [x] Js Ts Ls E ->
  exists r, nth 0 (nth 0 E []) 0 = (1 - 4 * g) * r /\
    derivable_pt_lim (fun t => objective_value (bar AveragedTemp SIMP) A g [t]) x (- dconductivity SIMP 10 (1 / 100) 3 x * r) /\
    (/ 4 < g -> g <> A -> nth 0 (nth 0 E []) 0 * r < 0).
Proof.
  intros Hx Ev. assert (F6 : 0 < floor6) by (unfold floor6; lra). set (s := bar AveragedTemp SIMP) in *. pose proof (bar_problem AveragedTemp SIMP) as UP. fold s in UP.
  pose proof UP as (W1 & M & _). pose proof (well_uniform s _ 1 x W1 ltac:(lra)) as W. change (repeat x (ne (hs_H s))) with [x] in W.
  set (kf := conductivity SIMP 10 (1 / 100) 3). assert (Kp : 0 < kf x) by (apply conductivity_pos; lra).
  exists (4 * (A - g) / Rsqr (kf x + 4)).
  destruct (C93_average_adjoint _ _ _ _ _ _ _ _ _ W eq_refl Ev) as (LL & RL). specialize (RL 0%nat ltac:(cbn; lia)). cbn [values_list nth] in RL.
  destruct (adjoint_energies _ _ _ _ _ _ _ _ _ W Ev ltac:(discriminate) LL) as (_ & HE). destruct (HE 0%nat ltac:(cbn; lia)) as (_ & HE0).
  specialize (HE0 0%nat ltac:(cbn; lia)). clear HE.
  destruct (evaluation _ _ _ _ _ _ _ _ _ W Ev) as (_ & _ & _ & An & _). destruct (analysis_temperature _ _ _ _ _ _ _ W An) as (_ & HT). specialize (HT 0%nat ltac:(cbn; lia)). cbn [values_list nth] in HT.
  set (T := nth 0 Ts zv) in *. set (L := nth 0 Ls zv) in *.
  assert (Sh := bars_shapes 1). assert (SS : forall S, In S [tip] -> surf_shapes (hn (bars 1)) S) by (intros S [<-|[]]; apply tip_shapes).
  assert (AF : forall u v, aform (hs_H s) (kap_of s [x]) (hs_Ss s) (hs_h s) (lay_of s [x]) u v = kf x * ((u 1%nat - u 0%nat) * (v 1%nat - v 0%nat)) + 4 * u 1%nat * v 1%nat).
  { intros u v. change [x] with (repeat x (ne (hs_H s))). rewrite (u_aform s [0%nat] (fun t Ht => well_uniform s _ 1 t W1 Ht) M x) by lra. unfold s. rewrite bar_uform. reflexivity. }
  apply temperature_form in HT; [|exact Sh|exact SS]. destruct HT as (TB & TW). change (kap_of s [x]) with (kap_of s [x]) in TW.
  apply response_form in RL; [|exact Sh|exact SS]. destruct RL as (LB & LW). fold (kap_of s [x]) in LW. fold (lay_of s [x]) in LW.
  assert (Z : forall i, (i < hn (hs_H s))%nat -> In i [0%nat] -> unit 1 i = 0) by (intros i _ [<-|[]]; reflexivity).
  specialize (TW (unit 1) Z). specialize (LW (unit 1) Z). rewrite AF in TW, LW.
  assert (T0 : T 0%nat = g) by (apply TB; [cbn; lia|now left]). assert (L0 : L 0%nat = g) by (apply LB; [cbn; lia|now left]).
  assert (X1 : exch0 (hs_H s) (hs_Ss s) (hs_h s) (lay_of s [x]) one (unit 1) = 4).
  { transitivity (aform (hs_H s) (kap_of s [x]) (hs_Ss s) (hs_h s) (lay_of s [x]) one (unit 1)); [unfold aform; rewrite cond_one by exact Sh; ring|]. rewrite AF. unfold one, unit. cbn [Nat.eqb]. ring. }
  rewrite X1 in TW. unfold dot, hn in LW. cbn [s bar hs_H bars hb_B fb_n] in LW. rewrite sum2 in LW. unfold unit in TW, LW. cbn [Nat.eqb] in TW, LW. rewrite T0 in TW. rewrite L0 in LW.
  assert (ET : T 1%nat - T 0%nat = 4 * (A - g) / (kf x + 4)).
  { rewrite T0. apply (Rmult_eq_reg_r (kf x + 4)); [|lra]. unfold Rdiv. rewrite Rmult_assoc, Rinv_l by lra. lra. }
  assert (EL : L 1%nat - L 0%nat = (1 - 4 * g) / (kf x + 4)).
  { rewrite L0. apply (Rmult_eq_reg_r (kf x + 4)); [|lra]. unfold Rdiv. rewrite Rmult_assoc, Rinv_l by lra. lra. }
  cbn [s bar hs_H] in HE0. rewrite bar_one_coupling, ET, EL in HE0.
  assert (HEr : nth 0 (nth 0 E []) 0 = (1 - 4 * g) * (4 * (A - g) / Rsqr (kf x + 4))) by (rewrite HE0; unfold Rsqr; field; lra).
  split; [exact HEr|]. split; [apply bar_average; exact Hx|]. intros Hg HgA. rewrite HEr.
  set (r := 4 * (A - g) / Rsqr (kf x + 4)). assert (Rn : r <> 0).
  { unfold r, Rdiv. apply Rmult_integral_contrapositive_currified; [lra|]. apply Rinv_neq_0_compat. unfold Rsqr. nra. }
  pose proof (Rsqr_pos_lt r Rn) as R2. unfold Rsqr in R2. nra.
Qed.

(* ---- heat exchange ---- *)
(* -A times the integral of c |grad r| over the mesh, tested at node a, per size of the
   interface *)
Definition interface_source (H : hbasis) (rho : list R) (A : R) (c : nat -> nat -> R) : vec := fun a =>
  integral H (fun e q => - A * c e q * gnorm (gradv H (nodal_average (hb_t H) rho) e q) * hb_val H e q a) / interface H rho.
(* the exchange coefficient the adjoint uses: h x^p (1-x)^q at the vertices, interpolated *)
Definition weakened (H : hbasis) (rho : list R) (h p : R) (m : nat) (e q : nat) : R :=
  value_of H (fun v => let x := nodal_average (hb_t H) rho v in h * (if Rlt_dec 0 x then Rpower x p else 0) * (1 - x) ^ m) e q.
(* the heat-exchange value of a temperature field, see C73_value *)
Definition exchange_value (H : hbasis) (rho : list R) (A h : R) (T : vec) : R := - A * h * excess H rho T A / interface H rho.

Lemma pw_if x p : 0 <= x -> 0 < p -> pw x p = if Rlt_dec 0 x then Rpower x p else 0.
Proof. intros Hx Hp. unfold pw, npow. destruct (Rlt_dec 0 x); [reflexivity|]. destruct (Req_EM_T x 0); [|lra]. destruct (Rlt_dec 0 p); [reflexivity|lra]. Qed.
Lemma hx_rhs_source H rho A h p m a : 0 < p -> (forall x, In x rho -> 0 <= x <= 1) ->
  hx_rhs H (nodal_average (hb_t H) rho) A h p m a = interface_source H rho A (weakened H rho h p m) a.
Proof.
  intros Hp Hr. unfold hx_rhs, interface_source, interface, hx_den. f_equal. apply integral_ext. intros e q He Hq. f_equal. f_equal. f_equal.
  unfold weakened. apply value_ext. intros v Hv. cbv zeta. rewrite pw_if; [reflexivity| |exact Hp]. apply (nodal_01 (hb_t H) rho v Hr).
Qed.
Lemma dot_value H (F : nat -> nat -> R) v : sum (hn H) (fun i => integral H (fun e q => F e q * hb_val H e q i) * v i) = integral H (fun e q => F e q * value_of H v e q).
Proof.
  unfold integral.
  rewrite (sum_ext (hn H) _ (fun i => sum (fb_ne (hb_B H)) (fun e => sum (fb_nq (hb_B H)) (fun q => F e q * hb_val H e q i * fb_dx (hb_B H) e q * v i)))).
  2: { intros i Hi. rewrite <- sum_scal_r. apply sum_ext. intros e He. rewrite <- sum_scal_r. reflexivity. }
  rewrite sum_swap. apply sum_ext. intros e He. rewrite sum_swap. apply sum_ext. intros q Hq. unfold value_of.
  rewrite <- sum_scal, <- sum_scal_r. apply sum_ext. intros. ring.
Qed.
Lemma source_dot H rho A c v : sum (hn H) (fun i => interface_source H rho A c i * v i) =
  integral H (fun e q => - A * c e q * gnorm (gradv H (nodal_average (hb_t H) rho) e q) * value_of H v e q) / interface H rho.
Proof.
  unfold interface_source. unfold Rdiv. rewrite <- dot_value. rewrite Rmult_comm, <- sum_scal. apply sum_ext. intros. ring.
Qed.
(* the value is affine in the temperature; its gradient is the source with the full
   coefficient h *)
Theorem C93_exchange_gradient H rho A h T T' :
  exchange_value H rho A h T' - exchange_value H rho A h T =
  sum (hn H) (fun i => interface_source H rho A (fun _ _ => h) i * (T' i - T i)).
Proof.
  rewrite source_dot. unfold exchange_value, Rdiv. rewrite <- Rmult_minus_distr_r. f_equal. unfold excess.
  rewrite <- !integral_scal.
  rewrite (integral_ext H (fun e q => - A * h * gnorm (gradv H (nodal_average (hb_t H) rho) e q) * value_of H (fun i => T' i - T i) e q)
    (fun e q => 1 * (- A * h * ((value_of H T' e q - A) * gnorm (gradv H (nodal_average (hb_t H) rho) e q))) + (-1) * (- A * h * ((value_of H T e q - A) * gnorm (gradv H (nodal_average (hb_t H) rho) e q))))).
  - rewrite integral_lin. ring.
  - intros e q He Hq. rewrite (value_ext H (fun i => T' i - T i) (fun i => 1 * T' i + -1 * T i)) by (intros; ring). rewrite value_lin. ring.
Qed.
(* the adjoint balances the source with the weakened coefficient instead; the averaged
   temperature is mixed in with its weight; the value on the held nodes is the prescribed
   temperature, scaled alike *)
Theorem C93_exchange_adjoint s D A values rho Js Ts Ls E : well_set s D rho -> hs_obj s = HeatExchange ->
  1 / 10 ^ 16 < interface (hs_H s) rho -> evaluated s A values rho Js Ts Ls E ->
  let n := List.length (values_list values) in
  let many := Nat.ltb 1 n in
  let a := if many then / Rmax (rmean (map (fun T => Rabs (exchange_value (hs_H s) rho A (hs_h s) T)) Ts)) (1 / 10 ^ 12) else 1 in
  let b := if many then / Rmax (rmean (map (fun T => Rabs (sum (hn (hs_H s)) T)) Ts)) (1 / 10 ^ 12) else 1 in
  List.length Ls = n /\ forall i, (i < n)%nat ->
    response (hs_H s) (fun e => conductivity (hs_ip s) (hs_k s) (hs_c s) (hs_p s) (nth e rho 0)) D
      ((if Req_EM_T (hs_w s) 0 then 1 else a + hs_w s * b) * nth i (values_list values) 0) (hs_Ss s) (hs_h s)
      (layer (hs_H s) (nodal_average (hb_t (hs_H s)) rho) (hs_p s) (hs_q s))
      (fun j => let src := interface_source (hs_H s) rho A (weakened (hs_H s) rho (hs_h s) (hs_p s) (hs_q s)) j in
                if Req_EM_T (hs_w s) 0 then src else a * src + hs_w s * b) (nth i Ls zv).
Proof.
  intros W Ho HI Ev n many a b. destruct (evaluation _ _ _ _ _ _ _ _ _ W Ev) as (tk & sys & (EH & Eob & Ew & Ek & Ec & Ee & EN & Evl & Hn & Sv) & An & EL & _).
  pose proof W as (_ & _ & [Sh SS _ _ _ _ Hp _ Hr] & _). destruct (analysis_temperature _ _ _ _ _ _ _ W An) as (LT & _).
  unfold adjoint_fields in EL. cbn [hf_task hf_sol hf_slvm hf_q] in EL. rewrite Eob, Ho, Evl, Hn, EH, Ec, Ee, Ew in EL.
  assert (ED : hx_den (hs_H s) (nodal_average (hb_t (hs_H s)) rho) = interface (hs_H s) rho) by reflexivity.
  assert (RL : Rleb (hx_den (hs_H s) (nodal_average (hb_t (hs_H s)) rho)) tiny16 = false) by (apply Rleb_false; rewrite ED; unfold tiny16; lra).
  rewrite RL in EL. cbn [full_arg bind] in EL.
  destruct (vertex_powers_ok _ _ _); [|discriminate]. cbn [negb] in EL.
  destruct (solve_heat _ _ _ _ _ _ _) as [L1|] eqn:E1; [|discriminate]. cbn [bind] in EL. destruct (Sv _ _ _ eq_refl E1) as (N1 & R1). fold n in N1, R1.
  assert (R1' : forall i, (i < n)%nat -> response (hs_H s) (kap_of s rho) D (nth i (values_list values) 0) (hs_Ss s) (hs_h s) (lay_of s rho)
     (interface_source (hs_H s) rho A (weakened (hs_H s) rho (hs_h s) (hs_p s) (hs_q s))) (nth i L1 zv)).
  { intros i Hi. destruct (R1 i Hi) as (P & Q). split; [exact P|]. intros v Hv. rewrite (Q v Hv). apply sum_ext. intros. rewrite hx_rhs_source by auto. reflexivity. }
  destruct (Req_EM_T (hs_w s) 0) as [Ew0|Ew0].
  - rewrite (proj2 (Reqb_true _ _) Ew0) in EL. injection EL as <-. split; [exact N1|]. intros i Hi. rewrite Rmult_1_l. exact (R1' i Hi).
  - assert (Rf : Reqb (hs_w s) 0 = false) by (unfold Reqb; destruct (Req_EM_T (hs_w s) 0); [contradiction|reflexivity]). rewrite Rf in EL.
    destruct (solve_heat _ _ _ (fun _ => 1) _ _ _) as [L2|] eqn:E2; [|discriminate]. cbn [bind] in EL. destruct (Sv _ _ _ eq_refl E2) as (N2 & R2). fold n in N2, R2.
    unfold scales in EL. rewrite map_length, LT in EL. fold n in EL. fold many in EL.
    assert (ES : exists hs0 as0, Ls = zipwith (fun L W0 => comb (/ hs0) L (hs_w s / as0) W0) L1 L2 /\ / hs0 = a /\ / as0 = b).
    { assert (EX : map Rabs (map (fun T => heat_exchange_objective (hs_H s) T (nodal_average (hb_t (hs_H s)) rho) A (hs_h s)) Ts) = map (fun T => Rabs (exchange_value (hs_H s) rho A (hs_h s) T)) Ts).
      { rewrite map_map. apply map_ext. intros T. f_equal. unfold heat_exchange_objective. rewrite RL. rewrite hx_num_excess. reflexivity. }
      destruct many; injection EL as <-.
      - eexists _, _. split; [reflexivity|]. rewrite EX, map_map. unfold a, b. replace tiny with (1 / 10 ^ 12) by (unfold tiny; lra). split; reflexivity.
      - exists 1, 1. split; [reflexivity|]. unfold a, b. split; field. }
    destruct ES as (hs0 & as0 & -> & Ea & Eb). split; [rewrite zipwith_len_min; lia|]. intros i Hi.
    rewrite (zipwith_nth3 _ _ _ i zv zv zv) by lia. unfold comb, Rdiv. rewrite Ea, Eb.
    pose proof (response_combine _ _ _ _ _ _ _ _ _ _ _ _ a (hs_w s * b) Sh SS (R1' i Hi) (R2 i Hi)) as RC. cbv beta in RC. cbv zeta.
    replace ((a + hs_w s * b) * nth i (values_list values) 0) with (a * nth i (values_list values) 0 + hs_w s * b * nth i (values_list values) 0) by ring.
    destruct RC as (P & Q). split; [exact P|]. intros v Hv. etransitivity; [exact (Q v Hv)|]. apply sum_ext. intros. ring.
Qed.
(* on a black-and-white design (every vertex density 0 or 1) the weakened coefficient
   vanishes: with the nodes held at 0 the adjoint and all reported energies are 0 *)
Theorem C93_black_and_white_energies s D A values rho Js Ts Ls E i : well_set s D rho -> hs_obj s = HeatExchange -> hs_w s = 0 -> (0 < hs_q s)%nat ->
  1 / 10 ^ 16 < interface (hs_H s) rho -> evaluated s A values rho Js Ts Ls E ->
  (forall v, (v < hn (hs_H s))%nat -> nodal_average (hb_t (hs_H s)) rho v = 0 \/ nodal_average (hb_t (hs_H s)) rho v = 1) ->
  (i < List.length (values_list values))%nat -> nth i (values_list values) 0 = 0 ->
  forall e, (e < ne (hs_H s))%nat -> nth e (nth i E []) 0 = 0.
Proof.
  intros W Ho Hw Hq HI Ev BW Hi Hz e He. destruct (C93_exchange_adjoint _ _ _ _ _ _ _ _ _ W Ho HI Ev) as (LL & RL). specialize (RL i Hi).
  destruct (adjoint_energies _ _ _ _ _ _ _ _ _ W Ev ltac:(congruence) LL) as (_ & HE). destruct (HE i Hi) as (_ & HEi). rewrite HEi by exact He. clear HE HEi.
  destruct (Req_EM_T (hs_w s) 0) as [_|N]; [|contradiction]. rewrite Hz, Rmult_0_r in RL. cbv zeta in RL.
  pose proof W as (_ & _ & [Sh SS Anc Hh _ _ Hp _ Hr] & _). destruct (well_kap s D rho W) as (Kp & Lp).
  assert (Z : forall j, (j < hn (hs_H s))%nat -> nth i Ls zv j = 0).
  { apply (response_unique (hs_H s) (kap_of s rho) D 0 (hs_Ss s) (hs_h s) (lay_of s rho) (interface_source (hs_H s) rho A (weakened (hs_H s) rho (hs_h s) (hs_p s) (hs_q s))) (fun _ => 0) (nth i Ls zv) (fun _ => 0) Sh SS Anc Kp Hh Lp).
    - intros j Hj. unfold interface_source. rewrite (integral_ext _ _ (fun e q => 0 * 0)); [rewrite (integral_scal (hs_H s) 0 (fun _ _ => 0)); unfold Rdiv; ring|].
      intros e0 q0 He0 Hq0. assert (V : weakened (hs_H s) rho (hs_h s) (hs_p s) (hs_q s) e0 q0 = 0); [|rewrite V; ring].
      unfold weakened. apply sum_zero. intros v Hv. cbv zeta. destruct (BW v Hv) as [->| ->].
      + destruct (Rlt_dec 0 0); [lra|]. ring.
      + replace (1 - 1) with 0 by ring. rewrite pow_i by exact Hq. ring.
    - exact RL.
    - split; [reflexivity|]. intros v Hv. transitivity 0.
      + unfold conducted, exchanged. 
        rewrite (integral_ext _ _ (fun e q => 0 * 0)).
        2: { intros. rewrite vdot3_eq. unfold gradv, grad_of. rewrite !(sum_ext _ (fun k0 => 0 * _) (fun _ => 0)) by (intros; ring). rewrite !sum_zero by reflexivity. ring. }
        rewrite (integral_scal (hs_H s) 0 (fun _ _ => 0)).
        rewrite (integral_ext _ (fun e0 q0 => hs_h s * lay_of s rho e0 q0 * (value_of (hs_H s) (fun _ => 0) e0 q0 - 0) * value_of (hs_H s) v e0 q0) (fun e q => 0 * 0)).
        2: { intros. unfold value_of at 1. rewrite sum_zero by (intros; ring). ring. }
        rewrite (integral_scal (hs_H s) 0 (fun _ _ => 0)).
        rewrite (map_ext _ (fun _ : surface => 0 * 0)); [rewrite (rsum_map_scal 0 (fun _ => 0)); ring|].
        intros S. unfold surf_integral. rewrite sum_zero; [ring|]. intros q0 _. unfold sval_of at 1. rewrite sum_zero by (intros; ring). ring.
      + symmetry. apply sum_zero. intros. ring. }
  rewrite <- grad_density_coupling by exact He. rewrite (grad_density_ext _ _ (nth i Ts zv) _ (fun _ => 0)) by auto.
  unfold grad_density. apply sum_zero. intros q0 _. rewrite vdot3_eq. unfold gradv, grad_of at 2 4 6. rewrite !(sum_zero _ (fun k0 => 0 * _)) by (intros; ring). ring.
Qed.
(* the true rate of the heat-exchange value when conductivities move *)
Theorem C93_exchange_derivative s D A g rho k' Tt T L : well_set s D rho -> conductivities_move s D A g rho k' Tt ->
  let k e := conductivity (hs_ip s) (hs_k s) (hs_c s) (hs_p s) (nth e rho 0) in
  let lay := layer (hs_H s) (nodal_average (hb_t (hs_H s)) rho) (hs_p s) (hs_q s) in
  temperature (hs_H s) k D g (hs_Ss s) (hs_h s) A lay T ->
  response (hs_H s) k D 0 (hs_Ss s) (hs_h s) lay (interface_source (hs_H s) rho A (fun _ _ => hs_h s)) L ->
  derivable_pt_lim (fun t => exchange_value (hs_H s) rho A (hs_h s) (Tt t)) 0 (- sum (ne (hs_H s)) (fun e => k' e * coupling (hs_H s) T L e)).
Proof.
  intros W Mv k lay HT HL. pose proof (move_functional s D A g rho k' Tt T _ L W Mv HT HL) as Dv.
  set (r := - sum _ _) in *. set (src := interface_source (hs_H s) rho A (fun _ _ => hs_h s)) in *.
  apply (derive_locally (fun t => exchange_value (hs_H s) rho A (hs_h s) (fun _ => 0) + dot (hn (hs_H s)) src (Tt t))).
  - exists 1. split; [lra|]. intros t _.
    pose proof (C93_exchange_gradient (hs_H s) rho A (hs_h s) (fun _ => 0) (Tt t)) as G. fold src in G.
    rewrite (sum_ext _ _ (fun i => src i * Tt t i)) in G by (intros; ring). unfold dot. lra.
  - replace r with (0 + r) by ring. apply (derivable_pt_lim_plus (fun _ => exchange_value (hs_H s) rho A (hs_h s) (fun _ => 0))); [apply derivable_pt_lim_const|exact Dv].
Qed.
(* refuted: a void and a solid bar side by side, held at 0 in any ambient other than 0:
   reported energies all 0, while the heat-exchange value changes with the conductivities *)
Definition bw_pair : hsettings :=
  mkHS (bars 2) [[0]]%nat [tip] 4 10 (1 / 100) 3 HeatExchange 0 SIMP 4 HAuto (fun A bs => map (cramer A) bs).
Lemma bw_well : well_set bw_pair [0%nat] [0; 1].
Proof. exact (pair_well 0 1 ltac:(lra) ltac:(lra)). Qed.
Lemma bw_lay e q : lay_of bw_pair [0; 1] e q = / 128.
Proof.
  unfold lay_of, layer. cbn [bw_pair hs_H hs_p hs_q]. destruct (pair_nodal 0 1) as (N0 & N1). rewrite pair_value, pair_gnorm by (rewrite N0, N1; lra).
  rewrite N0, N1. unfold pw, npow. destruct (Rlt_dec 0 ((0 + 1) / 2)); [|lra]. replace 3 with (INR 3) by (cbn; ring). rewrite Rpower_pow by lra. cbn [pow]. field.
Qed.
Lemma bw_form k u v : aform (bars 2) k [tip] 4 (lay_of bw_pair [0; 1]) u v =
  (k 0%nat + k 1%nat) * ((u 1%nat - u 0%nat) * (v 1%nat - v 0%nat)) + 4 * u 1%nat * v 1%nat + / 64 * ((u 0%nat + u 1%nat) * (v 0%nat + v 1%nat)).
Proof.
  unfold aform, exch0, conducted. rewrite !pair_integral, !bw_lay, !pair_value, !vdot3_eq. cbn [map].
  destruct (pair_grad u 0 0) as (-> & -> & ->). destruct (pair_grad v 0 0) as (-> & -> & ->). destruct (pair_grad u 1 0) as (-> & -> & ->). destruct (pair_grad v 1 0) as (-> & -> & ->).
  unfold rsum. cbn [fold_right]. unfold surf_integral, sval_of, hn. cbn [bars hb_B fb_n tip sf_np sf_dx sf_val Nat.eqb]. rewrite sum1, !sum2. cbn [Nat.eqb]. field.
Qed.
Lemma bw_interface : interface (bars 2) [0; 1] = 2.
Proof.
  unfold interface. destruct (pair_nodal 0 1) as (N0 & N1). rewrite pair_integral, !pair_gnorm by (rewrite N0, N1; lra). rewrite N0, N1. ring.
Qed.
Lemma bw_value A T : exchange_value (bars 2) [0; 1] A 4 T = - 2 * A * (T 0%nat + T 1%nat - 2 * A).
Proof.
  unfold exchange_value. rewrite bw_interface. unfold excess. destruct (pair_nodal 0 1) as (N0 & N1).
  rewrite pair_integral, !pair_gnorm by (rewrite N0, N1; lra). rewrite N0, N1, !pair_value. field.
Qed.
Theorem C93_black_and_white_refuted A : A <> 0 -> exists Js Ts Ls E k' Tt r,
  evaluated bw_pair A (Flt 0) [0; 1] Js Ts Ls E /\ E = [[0; 0]] /\
  conductivities_move bw_pair [0%nat] A 0 [0; 1] k' Tt /\ k' 0%nat = 1 / 10 /\ k' 1%nat = 10 /\
  derivable_pt_lim (fun t => exchange_value (bars 2) [0; 1] A 4 (Tt t)) 0 r /\ 0 < r.
Proof.
  intros HA. destruct (C93_evaluation_succeeds bw_pair [0%nat] A (Flt 0) [0; 1] bw_well ltac:(discriminate) ltac:(discriminate) I) as (Js & Ts & Ls & E & Ev & LL & LE).
  set (kk := fun e : nat => if Nat.eqb e 0 then 1 / 10 else 10). set (m := 101 / 10).
  set (Tt := fun (t : R) (i : nat) => if Nat.eqb i 1 then A * (4 + / 32) / (m * (1 + t) + 4 + / 64) else 0).
  exists Js, Ts, Ls, E, kk, Tt, (2 * A * A * (4 + / 32) * m / ((m + 4 + / 64) * (m + 4 + / 64))).
  assert (K : forall e, (e < 2)%nat -> kap_of bw_pair [0; 1] e = kk e).
  { intros [|[|e]] He; [| |lia]; unfold kap_of, kk; cbn [bw_pair hs_ip hs_k hs_c hs_p conductivity nth Nat.eqb].
    - destruct (Rlt_dec 0 0); lra.
    - destruct (Rlt_dec 0 1); [|lra]. unfold Rpower. rewrite ln_1, Rmult_0_r, exp_0. lra. }
  split; [exact Ev|]. split.
  { assert (Z : forall e, (e < 2)%nat -> nth e (nth 0 E []) 0 = 0).
    { intros e He. apply (C93_black_and_white_energies bw_pair [0%nat] A (Flt 0) [0; 1] Js Ts Ls E 0%nat bw_well eq_refl eq_refl); auto.
      - cbn; lia.
      - cbn [bw_pair hs_H]. rewrite bw_interface. lra.
      - cbn [bw_pair hs_H]. intros v Hv. destruct (pair_nodal 0 1) as (N0 & N1). unfold hn in Hv. cbn in Hv. destruct v as [|[|v]]; [left; exact N0|right; exact N1|lia]. }
    destruct (adjoint_energies _ _ _ _ _ _ _ _ _ bw_well Ev ltac:(discriminate) LL) as (_ & HE). destruct (HE 0%nat ltac:(cbn; lia)) as (L0 & _).
    cbn [values_list List.length] in LE. destruct E as [|E0 [|? ?]]; try discriminate. cbn [nth] in *. unfold ne in L0. cbn [bw_pair hs_H bars hb_B fb_ne] in L0.
    destruct E0 as [|a [|b [|? ?]]]; try discriminate. pose proof (Z 0%nat ltac:(lia)) as Z0. pose proof (Z 1%nat ltac:(lia)) as Z1. cbn in Z0, Z1. rewrite Z0, Z1. reflexivity. }
  split.
  { exists (fun t e => kk e * (1 + t)). unfold ne. cbn [bw_pair hs_H bars hb_B fb_ne]. change (mkHB _ _ _) with (bars 2). split; [|split].
    - intros e He. rewrite Rplus_0_r, Rmult_1_r. symmetry. exact (K e He).
    - intros e He. apply (derive_locally (fun t => kk e + t * kk e)); [exists 1; split; [lra|intros; ring]|]. apply derive_affine.
    - exists 1. split; [lra|]. intros t Ht. apply Rabs_def2 in Ht. apply temperature_form; [apply bars_shapes|intros S [<-|[]]; apply tip_shapes|].
      cbn [hs_Ss hs_h hs_p hs_q]. change (layer (bars 2) (nodal_average (hb_t (bars 2)) [0; 1]) 3 4) with (lay_of bw_pair [0; 1]). split.
      + intros i Hi [<-|[]]. reflexivity.
      + intros v Hv. assert (V0 : v 0%nat = 0) by (apply Hv; [cbn; lia|now left]).
        assert (X : exch0 (bars 2) [tip] 4 (lay_of bw_pair [0; 1]) one v = (4 + / 32) * v 1%nat).
        { transitivity (aform (bars 2) (fun _ => 0) [tip] 4 (lay_of bw_pair [0; 1]) one v); [unfold aform; rewrite cond_one by apply bars_shapes; ring|].
          rewrite bw_form. unfold one. rewrite V0. field. }
        change (aform (bars 2) (fun e => kk e * (1 + t)) [tip] 4 (lay_of bw_pair [0; 1]) (Tt t) v = A * exch0 (bars 2) [tip] 4 (lay_of bw_pair [0; 1]) one v).
        rewrite X, bw_form, V0. unfold Tt, kk, m. cbn [Nat.eqb]. field. lra. }
  split; [reflexivity|]. split; [reflexivity|]. split.
  - assert (Mp : 0 < m) by (unfold m; lra).
    apply (derive_locally (fun t => (4 * A * A) + (-2 * A * (A * (4 + / 32))) * / (m * (1 + t) + 4 + / 64))).
    { exists 1. split; [lra|]. intros t Ht. rewrite bw_value. unfold Tt. cbn [Nat.eqb]. unfold Rdiv. ring. }
    set (c := m + 4 + / 64) in *. assert (Cp : c <> 0) by (unfold c; lra).
    apply (derive_eq _ _ (0 + (-2 * A * (A * (4 + / 32))) * (- m / Rsqr c))); [|unfold Rsqr; field; exact Cp].
    apply (derivable_pt_lim_plus (fun _ => 4 * A * A)); [apply derivable_pt_lim_const|].
    apply (derivable_pt_lim_scal (fun t => / (m * (1 + t) + 4 + / 64))).
    assert (DI := derivable_pt_lim_div (fun _ => 1) (fun t => c + t * m) 0 0 m (derivable_pt_lim_const 1 0) ltac:(apply derive_affine)).
    cbv beta in DI. assert (E0 : c + 0 * m = c) by ring. rewrite E0 in DI. specialize (DI Cp).
    replace (- m / Rsqr c) with ((0 * c - m * 1) / Rsqr c) by (unfold Rdiv; ring).
    refine (derive_locally _ _ _ _ _ DI). exists 1. split; [lra|]. intros t Ht. unfold div_fct. unfold Rdiv. rewrite Rmult_1_l. f_equal. unfold c. ring.
  - assert (Mp : 0 < m) by (unfold m; lra). pose proof (Rsqr_pos_lt A HA) as A2. unfold Rsqr in A2. apply Rdiv_lt_0_compat; [|apply Rmult_lt_0_compat; lra].
    apply Rmult_lt_0_compat; [|exact Mp]. apply Rmult_lt_0_compat; [|lra]. nra.
Qed.

(* ---- compliance: the energies ---- *)
Theorem C93_compliance_energies s D A values rho Js Ts Ls E : well_set s D rho -> hs_obj s = Compliance -> evaluated s A values rho Js Ts Ls E ->
  let k e := conductivity (hs_ip s) (hs_k s) (hs_c s) (hs_p s) (nth e rho 0) in
  let lay := layer (hs_H s) (nodal_average (hb_t (hs_H s)) rho) (hs_p s) (hs_q s) in
  List.length E = List.length (values_list values) /\ forall i, (i < List.length (values_list values))%nat ->
    let T := nth i Ts zv in
    List.length (nth i E []) = ne (hs_H s) /\
    (forall x, In x (nth i E []) -> 0 <= x) /\
    rsum (nth i E []) = conducted (hs_H s) k T T / 2 /\
    nth i Js 0 = 2 * rsum (nth i E []) + exchanged (hs_H s) (hs_Ss s) (hs_h s) 0 lay T T /\
    (forall j, (j < hn (hs_H s))%nat -> nth i Ls zv j = -2 * T j).
Proof.
  intros W Ho Ev k lay. destruct (evaluation _ _ _ _ _ _ _ _ _ W Ev) as (tk & sys & (EH & Eob & Ew & Ek & Ec & Ee & EN & Evl & Hn & Sv) & An & EL & HE).
  destruct (analysis_temperature _ _ _ _ _ _ _ W An) as (LT & _). pose proof W as (_ & _ & [Sh SS _ Hh Hk Hc Hp Lr Hr] & _).
  unfold adjoint_fields in EL. cbn [hf_task] in EL. rewrite Eob, Ho in EL. injection EL as <-.
  unfold energy_multi_load in HE. cbn [hf_task hf_interp] in HE. unfold kmin in HE. cbn [hf_task hf_coeff] in HE. rewrite Eob, Ho, EH, Ek in HE.
  rewrite moduli_ok in HE by auto. cbn [bind] in HE. injection HE as <-.
  split; [rewrite map_length; exact LT|]. intros i Hi T.
  set (ks := map (conductivity (hs_ip s) (hs_k s) (hs_c s) (hs_p s)) rho).
  assert (Nk : forall e, (e < ne (hs_H s))%nat -> nth e ks 0 = k e).
  { intros e He. unfold ks. rewrite (nth_indep _ 0 (conductivity (hs_ip s) (hs_k s) (hs_c s) (hs_p s) 0)) by (rewrite map_length; lia). rewrite map_nth. reflexivity. }
  assert (En : nth i (map (fun T0 => map (heat_energy (hs_H s) (fun e => nth e ks 0) T0) (seq 0 (fb_ne (hb_B (hs_H s))))) Ts) [] =
     map (heat_energy (hs_H s) (fun e => nth e ks 0) T) (seq 0 (ne (hs_H s)))).
  { rewrite (nth_indep _ [] (map (heat_energy (hs_H s) (fun e => nth e ks 0) zv) (seq 0 (fb_ne (hb_B (hs_H s)))))) by (rewrite map_length; lia).
    rewrite (map_nth (fun T0 => map (heat_energy (hs_H s) (fun e => nth e ks 0) T0) (seq 0 (fb_ne (hb_B (hs_H s)))))). reflexivity. }
  rewrite En. split; [rewrite map_length, seq_length; reflexivity|].
  assert (Sm : rsum (map (heat_energy (hs_H s) (fun e => nth e ks 0) T) (seq 0 (ne (hs_H s)))) = conducted (hs_H s) k T T / 2).
  { replace (conducted (hs_H s) k T T / 2) with (/ 2 * conducted (hs_H s) k T T) by field. unfold conducted. rewrite <- integral_scal. unfold integral. unfold sum at 1. f_equal.
    apply map_ext_in. intros e He. apply in_seq in He. unfold heat_energy. apply sum_ext. intros q Hq. rewrite Nk by (unfold ne in *; lia). ring. }
  split; [|split; [exact Sm|split]].
  - intros x Hx. apply in_map_iff in Hx. destruct Hx as (e & <- & He). apply in_seq in He. unfold heat_energy. apply sum_nonneg. intros q Hq.
    destruct (Sh e q ltac:(lia) ltac:(unfold nq; lia)) as (_ & _ & _ & Hd). rewrite Nk by lia.
    assert (0 < k e) by (apply conductivity_pos; auto; apply Hr, nth_In; lia). pose proof (vdot3_nonneg (gradv (hs_H s) T e q)).
    apply Rmult_le_pos; [apply Rmult_le_pos; nra|lra].
  - pose proof (compliance_value s D A values rho Js Ts Ho W An i ltac:(lia)) as J. cbv beta in J. fold T in J. rewrite J, Sm. unfold aform.
    rewrite exchanged_eq by auto. change (lay_of s rho) with lay. change (kap_of s rho) with k. field.
  - intros j Hj. rewrite (nth_indep _ zv ((fun (T : vec) i => -2 * T i) zv)) by (rewrite map_length; exact (eq_ind_r (fun z => (i < z)%nat) Hi LT)).
    rewrite (map_nth (fun (T : vec) i => -2 * T i)). reflexivity.
Qed.

(* ---- which adjoint an energy call uses ---- *)
(* the adjoint stored by the last objective call that succeeded, if any *)
Fixpoint last_adjoint (F : hfem) (cs : list hcall) : option (list vec) :=
  match cs with
  | [] => None
  | c :: cs =>
    match last_adjoint F cs with
    | Some Ls => Some Ls
    | None => match c with
      | ObjectiveOf p rho => match objective_call F p rho with Ok (_, _, Ls) => Some Ls | Err _ => None end
      | EnergyOf _ _ _ => None
      end
    end
  end.
Lemma hcalls_state F : forall cs lam, fst (hcalls F lam cs) = match last_adjoint F cs with Some Ls => Some Ls | None => lam end.
Proof.
  induction cs as [|c cs IH]; intros lam; cbn [hcalls last_adjoint]; [reflexivity|].
  destruct (hcall_step F lam c) as [l1 o] eqn:Ec. destruct (hcalls F l1 cs) as [l2 os] eqn:Er. cbn [fst].
  specialize (IH l1). rewrite Er in IH. cbn [fst] in IH. rewrite IH. destruct (last_adjoint F cs); [reflexivity|].
  destruct c as [p rho|p rho Ts]; cbn [hcall_step] in Ec.
  - destruct (objective_call F p rho) as [[[Js Ts] Ls]|]; injection Ec as <- _; reflexivity.
  - injection Ec as <- _. reflexivity.
Qed.
Lemma hcalls_app F : forall cs lam ds, hcalls F lam (cs ++ ds) =
  let (l1, o1) := hcalls F lam cs in let (l2, o2) := hcalls F l1 ds in (l2, o1 ++ o2).
Proof.
  induction cs as [|c cs IH]; intros lam ds; cbn [app hcalls]; [destruct (hcalls F lam ds); reflexivity|].
  destruct (hcall_step F lam c) as [l1 o]. rewrite IH. destruct (hcalls F l1 cs) as [l2 os]. destruct (hcalls F l2 ds). reflexivity.
Qed.
(* after any calls, an energy call answers with that adjoint: other densities, other
   temperatures and failed objective calls in between make no difference; without any
   successful objective call it raises RuntimeError (compliance needs no adjoint) *)
Theorem C93_energy_uses_last_adjoint F cs p rho Ts :
  snd (hcalls F None (cs ++ [EnergyOf p rho Ts])) = snd (hcalls F None cs) ++ [Energy (energy_multi_load F (last_adjoint F cs) p rho Ts)] /\
  (ht_obj (hf_task F) <> Compliance -> last_adjoint F cs = None -> energy_multi_load F (last_adjoint F cs) p rho Ts = Err RuntimeError) /\
  (ht_obj (hf_task F) = Compliance -> forall lam lam', energy_multi_load F lam p rho Ts = energy_multi_load F lam' p rho Ts).
Proof.
  split; [|split].
  - rewrite hcalls_app. pose proof (hcalls_state F cs None) as S0. destruct (hcalls F None cs) as [l1 o1]. cbn [fst] in S0. cbn [hcalls hcall_step snd].
    rewrite S0. destruct (last_adjoint F cs); reflexivity.
  - intros Ho ->. unfold energy_multi_load. destruct (ht_obj (hf_task F)); [contradiction| |]; reflexivity.
  - intros Ho lam lam'. unfold energy_multi_load. rewrite Ho. reflexivity.
Qed.
(* stale: with an adjoint objective the reported energies do not depend on the densities
   passed, nor on calls that failed *)
Theorem C93_energies_ignore_densities F lam p p' rho rho' Ts : ht_obj (hf_task F) <> Compliance ->
  energy_multi_load F lam p rho Ts = energy_multi_load F lam p' rho' Ts.
Proof. intros Ho. unfold energy_multi_load. destruct (ht_obj (hf_task F)); [contradiction| |]; reflexivity. Qed.
Theorem C93_failed_call_keeps_adjoint F cs p rho e : objective_call F p rho = Err e ->
  fst (hcalls F None (cs ++ [ObjectiveOf p rho])) = fst (hcalls F None cs) /\
  exists os, snd (hcalls F None (cs ++ [ObjectiveOf p rho])) = os ++ [Objective (Err e)].
Proof.
  intros Hf. rewrite hcalls_app. destruct (hcalls F None cs) as [l1 o1]. cbn [hcalls hcall_step]. rewrite Hf. split; [reflexivity|]. exists o1. reflexivity.
Qed.
(* instance: held at 300 in ambient 600, half density: an evaluation, its energies of
   the wrong sign *)
Theorem C93_instance : exists Js Ts Ls E L,
  evaluated (bar AveragedTemp SIMP) 600 (Flt 300) [/ 2] Js Ts Ls E /\ nth 0 (nth 0 E []) 0 < 0 /\
  derivable_pt_lim (fun t => objective_value (bar AveragedTemp SIMP) 600 300 [t]) (/ 2) L /\ L < 0.
Proof.
  pose proof (bar_problem AveragedTemp SIMP) as (W1 & _). pose proof (well_uniform _ _ 1 (/ 2) W1 ltac:(lra)) as W.
  destruct (C93_evaluation_succeeds (bar AveragedTemp SIMP) [0%nat] 600 (Flt 300) [/ 2] W ltac:(discriminate) ltac:(discriminate) I) as (Js & Ts & Ls & E & Ev & _).
  destruct (C93_average_refuted 600 300 (/ 2) Js Ts Ls E ltac:(unfold floor6; lra) Ev) as (r & E1 & Dv & Sg).
  assert (Rp : 0 < r).
  { pose proof (bar_average 600 300 (/ 2) ltac:(unfold floor6; lra)) as Dv'. pose proof (uniqueness_limite _ _ _ _ Dv Dv') as U.
    pose proof (dcond_pos SIMP 10 (1 / 100) 3 (/ 2) ltac:(lra) ltac:(lra) ltac:(lra) ltac:(lra)) as Dp.
    pose proof (conductivity_pos SIMP 10 (1 / 100) 3 (/ 2) ltac:(lra) ltac:(lra) ltac:(lra) ltac:(lra)) as Kp.
    set (dk := dconductivity _ _ _ _ _) in *. set (kk := conductivity _ _ _ _ _) in *.
    assert (Q : r = 4 * (600 - 300) / Rsqr (kk + 4)) by (apply (Rmult_eq_reg_l (- dk)); [exact U|lra]). rewrite Q. apply Rdiv_lt_0_compat; [lra|]. apply Rlt_0_sqr. lra. }
  exists Js, Ts, Ls, E, (- dconductivity SIMP 10 (1 / 100) 3 (/ 2) * r). split; [exact Ev|]. split; [rewrite E1; nra|]. split; [exact Dv|].
  pose proof (dcond_pos SIMP 10 (1 / 100) 3 (/ 2) ltac:(lra) ltac:(lra) ltac:(lra) ltac:(lra)) as Dp. nra.
Qed.
