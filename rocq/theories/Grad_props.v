(* C62: the sensitivity handed to the density update is the gradient of the reported
   compliance. *)
From Verif Require Import Base Sums Material_model Material_proofs OC_model Filter_model Filter_proofs
  Mesh_model Mesh_proofs Fea_model Fea_spec Fea_proofs Fea_props Iter_model Iter_spec Grad_proofs Iter_proofs.
Open Scope R_scope.
Open Scope list_scope.

Lemma Emin_pos pb c v f : well_posed pb c v f -> 0 < Emin_of pb c /\ Emin_of pb c <= pb_E0 pb.
Proof.
  intros WP. pose proof (wp_Emin _ _ _ _ WP). pose proof (wp_E0 _ _ _ _ WP). pose proof (wp_coeff _ _ _ _ WP).
  unfold Emin_of. split; [lra|nra].
Qed.
Lemma simp_pos E0 Emin p x : 0 < Emin -> Emin <= E0 -> 0 < p -> 0 <= x ->
  exists y, simp_interpolation x E0 Emin p = Some y /\ Emin <= y.
Proof.
  intros H1 H2 Hp Hx. unfold simp_interpolation, npow. destruct (Rlt_dec 0 x).
  - eexists. split; [reflexivity|]. pose proof (Rpower_pos x p). nra.
  - destruct (Req_EM_T x 0); [|lra]. destruct (Rlt_dec 0 p); [|lra]. eexists. split; [reflexivity|]. lra.
Qed.

Theorem C62_reported_sensitivity_is_the_gradient : forall pb c v f rho d f' ev,
  well_posed pb c v f -> i_interp c = SIMP -> i_sens_filter c = false ->
  List.length rho = List.length (sf_centers f) -> List.length d = List.length (sf_centers f) ->
  (forall e, 0 <= nth e rho 0) ->
  (forall e, is_design (sf_mask f) e = false -> nth e d 0 = 0) ->
  evaluate pb c v f rho = Ok (f', ev) ->
  (forall e, (e < List.length (sf_centers f))%nat -> is_design (sf_mask f) e = true -> 1 / 1000000 < nth e (ev_projected ev) 0) ->
  (exists delta, 0 < delta /\ forall t, Rabs t < delta -> exists ft evt, evaluate pb c v f (line rho d t) = Ok (ft, evt)) /\
  derivable_pt_lim (fun t => reported_compliance pb c v f (line rho d t)) 0
    (rsum (map (fun e => nth e d 0 * nth e (ev_dC ev) 0) (seq 0 (List.length (sf_centers f))))).
Proof.
  intros pb c v f rho d f' ev WP Hsimp Hsf Hlr Hld Hrho Hd Hev Hproj.
  set (n := List.length (sf_centers f)) in *. set (B := pb_basis pb).
  assert (Hne : fb_ne B = n) by (symmetry; apply (wp_elements _ _ _ _ WP)).
  destruct (Emin_pos pb c v f WP) as (HEm & HEE). pose proof (wp_E0 _ _ _ _ WP) as HE0.
  pose proof (wp_beta _ _ _ _ WP) as Hb. pose proof (wp_eta _ _ _ _ WP) as Het. pose proof (wp_p _ _ _ _ WP) as Hp.
  set (beta := v_beta v) in *. set (eta := c_beta_eta (i_oc c)) in *. set (E0 := pb_E0 pb) in *. set (Emin := Emin_of pb c) in *.
  set (p := v_p v) in *.
  assert (Hnn : forall x, 0 <= x -> 0 <= heaviside_projection x beta eta).
  { intros x Hx. rewrite <- (H_at_0 beta eta). destruct Hx as [Hx|<-]; [left; now apply H_increasing|lra]. }
  (* filtered value and its slope *)
  set (a := fun e => nth e (filtered v f rho) 0). set (b := fun e => if is_design (sf_mask f) e then cv v f d e else 0).
  set (Hs := fun e t => heaviside_projection (a e + t * b e) beta eta).
  assert (Hfil : forall t e, (e < n)%nat -> nth e (filtered v f (line rho d t)) 0 = a e + t * b e).
  { intros t e He. unfold a, b. rewrite !filtered_nth by exact He. destruct (is_design (sf_mask f) e) eqn:Ed.
    - now apply cv_line.
    - rewrite line_nth by congruence. rewrite (Hd e Ed). ring. }
  (* moduli along the line *)
  set (val := fun x => match simp_interpolation x E0 Emin p with Some y => y | None => 0 end).
  set (Ee := fun t e => if is_design (sf_mask f) e then E_simp (Hs e t) E0 Emin p else val (Hs e 0)).
  set (El := fun t => map (Ee t) (seq 0 n)).
  assert (Hl0 : line rho d 0 = rho).
  { apply (nth_ext _ _ 0 0); unfold line; [rewrite zipwith_length; congruence|]. intros k _. fold (line rho d 0). rewrite line_nth by congruence. ring. }
  assert (Hnon : forall e, (e < n)%nat -> is_design (sf_mask f) e = false -> forall t,
     simp_interpolation (Hs e t) E0 Emin p = Some (val (Hs e 0)) /\ Emin <= val (Hs e 0)).
  { intros e He Ed t. unfold Hs, b. rewrite Ed. rewrite !Rmult_0_r. destruct (simp_pos E0 Emin p (heaviside_projection (a e + 0) beta eta)) as (y & Ey & Hy); auto.
    - apply Hnn. unfold a. rewrite filtered_nth by exact He. rewrite Ed. pose proof (Hrho e). lra.
    - unfold val. rewrite Ey. auto. }
  assert (Hmod : forall t, (forall e, (e < n)%nat -> is_design (sf_mask f) e = true -> floor6 <= Hs e t) ->
    moduli (i_interp c) E0 Emin p (projected c v f (line rho d t)) = Ok (El t)).
  { intros t Ht. unfold moduli. rewrite projected_eq. rewrite map_map.
    rewrite (all_some_map _ (Ee t)); [reflexivity|]. intros e He. apply in_seq in He.
    rewrite Hfil by lia. fold (Hs e t). rewrite Hsimp. cbn [modulus]. unfold Ee. destruct (is_design (sf_mask f) e) eqn:Ed.
    - apply simp_analysis_same. apply Ht; [lia|exact Ed].
    - apply Hnon; [lia|exact Ed]. }
  assert (HEpos : forall t e, (e < n)%nat -> 0 < nth e (El t) 0).
  { intros t e He. unfold El. rewrite nth_map_seq' by exact He. unfold Ee. destruct (is_design (sf_mask f) e) eqn:Ed.
    - unfold E_simp. pose proof (Rpower_pos (Rmax (Hs e t) floor6) p). nra.
    - pose proof (Hnon e He Ed 0). lra. }
  (* at t = 0 *)
  assert (Hs0 : forall e, (e < n)%nat -> is_design (sf_mask f) e = true -> floor6 < Hs e 0).
  { assert (Hpr : ev_projected ev = projected c v f rho).
    { unfold evaluate in Hev. fold (f1 v f) in Hev. rewrite (forward1 pb c v f WP) in Hev by exact Hlr. cbn [bind] in Hev.
      fold beta eta in Hev. change (map (fun x => heaviside_projection x beta eta) (filtered v f rho)) with (projected c v f rho) in Hev.
      destruct (moduli _ _ _ _ _) as [El'|]; [|discriminate]. cbn [bind] in Hev.
      destruct (objectives _ _ _ _ _ _ _) as [[cs us]|]; [|discriminate]. cbn [bind] in Hev.
      destruct (sum_gradients _ _ _) as [g|]; [|discriminate]. cbn [bind] in Hev. rewrite Hsf in Hev. injection Hev as _ <-. reflexivity. }
    intros e He Ed. specialize (Hproj e He Ed). rewrite Hpr, projected_eq, nth_map_seq' in Hproj by exact He.
    unfold Hs. rewrite Rmult_0_l, Rplus_0_r. exact Hproj. }
  assert (HdH : forall e, derivable_pt_lim (Hs e) 0 (heaviside_projection_derivative (a e) beta eta * b e)).
  { intros e. unfold Hs.
    replace (heaviside_projection_derivative (a e) beta eta * b e) with (heaviside_projection_derivative (a e + 0 * b e) beta eta * (0 + (1 * b e + 0 * 0))).
    2:{ rewrite Rmult_0_l, Rplus_0_r. ring. }
    apply (derivable_pt_lim_comp (fun t => a e + t * b e) (fun x => heaviside_projection x beta eta)).
    - apply (derivable_pt_lim_plus (fun _ => a e) (fun t => t * b e)); [apply derivable_pt_lim_const|].
      apply (derivable_pt_lim_mult (fun t => t) (fun _ => b e)); [apply derivable_pt_lim_id|apply derivable_pt_lim_const].
    - apply H_derive. }
  assert (Hnear : exists delta, 0 < delta /\ forall t, Rabs t < delta -> forall e, (e < n)%nat -> is_design (sf_mask f) e = true -> floor6 <= Hs e t).
  { destruct (near_all n (fun e t => is_design (sf_mask f) e = true -> floor6 <= Hs e t) 0) as (dl & Hdl & H).
    - intros e He. destruct (is_design (sf_mask f) e) eqn:Ed; [|exists 1; split; [lra|discriminate]].
      destruct (derive_continuous_eps (Hs e) 0 _ (Hs e 0 - floor6) (HdH e)) as (dl & Hdl & Hc); [pose proof (Hs0 e He Ed); lra|].
      exists dl. split; [exact Hdl|]. intros t Ht _. specialize (Hc t Ht). apply Rabs_def2 in Hc. lra.
    - exists dl. split; [exact Hdl|]. intros t Ht. apply H. now rewrite Rminus_0_r. }
  destruct Hnear as (dl & Hdl & Hnear).
  assert (Hevt : forall t, Rabs t < dl -> exists evt, evaluate pb c v f (line rho d t) = Ok (f2 v f, evt) /\
     ev_compliance evt = rsum (zipwith (fun g u => work (fb_n B) (pb_D pb) g u) (loads_of pb v) (usol pb v (fun e => nth e (El t) 0))) / loads_count pb /\
     ev_dC evt = dCfull pb c v f (line rho d t) (fun e => nth e (El t) 0)).
  { intros t Ht. eexists. split; [|split].
    - pose proof (evaluate_eq pb c v f WP (line rho d t) (El t)) as HQ. cbn zeta in HQ. rewrite HQ.
      + reflexivity.
      + now apply line_length.
      + apply Hmod. now apply Hnear.
      + intros e He. now apply HEpos.
    - reflexivity.
    - cbn [ev_dC]. now rewrite Hsf. }
  split.
  { exists dl. split; [exact Hdl|]. intros t Ht. destruct (Hevt t Ht) as (evt & He & _). eauto. }
  (* the gradient reported at rho *)
  assert (H0 : Rabs 0 < dl) by now rewrite Rabs_R0.
  destruct (Hevt 0 H0) as (ev0 & Hev0 & _ & HdC). rewrite Hl0 in Hev0, HdC. rewrite Hev in Hev0. injection Hev0 as -> ->.
  set (us0 := usol pb v (fun e => nth e (El 0) 0)).
  set (m := loads_count pb).
  assert (Hm : m <> 0).
  { unfold m, loads_count. apply not_0_INR. pose proof (wp_loads _ _ _ _ WP). destruct (pb_loads pb); [easy|discriminate]. }
  (* the derivative along the moduli *)
  set (dE := fun e => dE_drho_simp (Hs e 0) E0 Emin p * (heaviside_projection_derivative (a e) beta eta * b e)).
  apply (derive_locally (fun t => rsum (zipwith (fun g u => work (fb_n B) (pb_D pb) g u) (loads_of pb v) (usol pb v (fun e => nth e (El t) 0))) * / m)).
  { exists dl. split; [exact Hdl|]. intros t Ht. rewrite Rminus_0_r in Ht. destruct (Hevt t Ht) as (evt & He & Hc & _).
    unfold reported_compliance. rewrite He. now rewrite Hc. }
  assert (Hpath : derivable_pt_lim (fun t => rsum (zipwith (fun g u => work (fb_n B) (pb_D pb) g u) (loads_of pb v) (usol pb v (fun e => nth e (El t) 0)))) 0
      (- sum (fb_ne B) (fun e => dE e * rsum (map (fun u => bil B (pb_nu pb) e u u) us0)))).
  { apply (path_derivative B (pb_nu pb) (pb_D pb) (fun t e => nth e (El t) 0) dE (loads_of pb v) (fun t => usol pb v (fun e => nth e (El t) 0)) 0).
    - apply (wp_nu _ _ _ _ WP).
    - exact (wp_weights _ _ _ _ WP).
    - intros e He. apply HEpos. now rewrite <- Hne.
    - intros e He. rewrite Hne in He.
      apply (derive_locally (fun t => Ee t e)).
      { exists 1. split; [lra|]. intros t _. unfold El. now rewrite nth_map_seq'. }
      unfold Ee. destruct (is_design (sf_mask f) e) eqn:Ed.
      + apply (derivable_pt_lim_comp (Hs e) (fun x => E_simp x E0 Emin p)); [apply HdH|]. apply E_simp_derive. now apply Hs0.
      + unfold dE, b. rewrite Ed, !Rmult_0_r. apply derivable_pt_lim_const.
    - exists 1. split; [lra|]. intros t _. apply (usol_spec pb c v f WP). intros e He. apply HEpos. now rewrite <- Hne. }
  match goal with |- derivable_pt_lim _ _ ?L =>
    replace L with ((- sum (fb_ne B) (fun e => dE e * rsum (map (fun u => bil B (pb_nu pb) e u u) us0))) * / m +
      rsum (zipwith (fun g u => work (fb_n B) (pb_D pb) g u) (loads_of pb v) (usol pb v (fun e => nth e (El 0) 0))) * 0) end.
  { apply (derivable_pt_lim_mult (fun t => rsum (zipwith (fun g u => work (fb_n B) (pb_D pb) g u) (loads_of pb v) (usol pb v (fun e => nth e (El t) 0)))) (fun _ => / m)); [exact Hpath|apply derivable_pt_lim_const]. }
  rewrite Rmult_0_r, Rplus_0_r. rewrite HdC. symmetry.
  (* pair d with the reported sensitivities *)
  transitivity (rsum (map (fun u => rsum (map (fun j => nth j d 0 * (if is_design (sf_mask f) j then cvT v f (gfun pb c v f rho (fun e => nth e (El 0) 0) u) j else 0)) (seq 0 n))) us0) * / m).
  { rewrite rs_swap. rewrite <- rs_scal_r. apply rs_ext. intros j Hj. apply in_seq in Hj.
    unfold dCfull. fold n. rewrite nth_map_seq' by lia. fold us0 m. rewrite rs_scal. unfold Rdiv. ring. }
  f_equal.
  transitivity (rsum (map (fun u => - sum n (fun e => dE e * bil B (pb_nu pb) e u u)) us0)).
  2:{ rewrite Hne. rewrite (rs_ext _ (fun u => (-1) * sum n (fun e => dE e * bil B (pb_nu pb) e u u))) by (intros; ring).
      rewrite rs_scal. unfold sum. rewrite rs_swap.
      transitivity ((-1) * rsum (map (fun e => dE e * rsum (map (fun u => bil B (pb_nu pb) e u u) us0)) (seq 0 n))); [|ring].
      f_equal. apply rs_ext. intros e _. now rewrite rs_scal. }
  apply rs_ext. intros u _. rewrite (adjoint_pair v f d). fold n.
  transitivity (sum n (fun e => (-1) * (dE e * bil B (pb_nu pb) e u u))).
  2:{ rewrite sum_scal. ring. }
  apply rs_ext. intros e He. apply in_seq in He.
  unfold dE, b. destruct (is_design (sf_mask f) e) eqn:Ed; [|ring].
  unfold gfun, grad_filtered. rewrite (projected_length c v f). fold n. rewrite nth_map_seq' by lia.
  rewrite Hsimp. cbn [dC_of]. fold beta eta E0 Emin p B. rewrite projected_eq, nth_map_seq' by (fold n; lia). fold (a e).
  assert (HH : heaviside_projection (a e) (v_beta v) (c_beta_eta (i_oc c)) = Hs e 0) by (unfold Hs; now rewrite Rmult_0_l, Rplus_0_r).
  rewrite HH. unfold dC_drho_simp.
  assert (HEe : nth e (El 0) 0 = E_simp (Hs e 0) E0 Emin p) by (unfold El; rewrite nth_map_seq' by lia; unfold Ee; now rewrite Ed).
  pose proof (bil_energy B (pb_nu pb) (fun e => nth e (El 0) 0) u e ltac:(rewrite Hne; lia)) as Hen. cbn beta in Hen. rewrite HEe in Hen.
  assert (HEt : tiny <= E_simp (Hs e 0) E0 Emin p).
  { unfold E_simp. pose proof (Rpower_pos (Rmax (Hs e 0) floor6) p). pose proof (wp_Emin _ _ _ _ WP). change (pb_E0 pb * i_Emin_coeff c) with Emin in *. unfold tiny. nra. }
  rewrite Rmax_left by exact HEt.
  assert (E_simp (Hs e 0) E0 Emin p <> 0) by (unfold tiny in HEt; lra).
  replace (-2 * strain_energy B (pb_nu pb) (fun e0 => nth e0 (El 0) 0) u e) with (- (E_simp (Hs e 0) E0 Emin p * bil B (pb_nu pb) e u u)) by lra.
  field. assumption.
Qed.
Print Assumptions C62_reported_sensitivity_is_the_gradient.
