(* C70 for every design: derivative of the thermal compliance along any move of the
   densities, and what the reported sensitivities are compared with it. *)
From Verif Require Import Base Sums Material_model Material_proofs OC_model Mesh_model Fea_model Fea_spec Fea_proofs Fea_props Iter_model Grad_proofs
  Heat_model Heat_spec Heat_proofs Heat_props HeatGrad_props HeatSens_props LinDiff_proofs HeatDiff_proofs.
Open Scope R_scope.
Open Scope list_scope.

(* ---- moving the densities ---- *)
Lemma moved_len rho d t : List.length d = List.length rho -> List.length (moved rho d t) = List.length rho.
Proof. intros E. unfold moved. rewrite zipwith_len_min. lia. Qed.
Lemma moved_nth rho d t e : List.length d = List.length rho -> (e < List.length rho)%nat -> nth e (moved rho d t) 0 = nth e rho 0 + t * nth e d 0.
Proof. intros E He. unfold moved. rewrite (zipwith_nth3 _ rho d e 0 0 0); auto. lia. Qed.
Lemma moved_zero rho d : List.length d = List.length rho -> moved rho d 0 = rho.
Proof.
  intros E. apply nth_ext with (d := 0) (d' := 0); [now apply moved_len|]. intros e He. rewrite moved_len in He by auto. rewrite moved_nth by auto. ring.
Qed.
Lemma np_repeat_moved rho d t k : np_repeat (moved rho d t) k = moved (np_repeat rho k) (np_repeat d k) t.
Proof.
  revert d. induction rho as [|x rho IH]; intros [|y d]; try reflexivity.
  - unfold moved. cbn [zipwith]. unfold np_repeat at 1. cbn [map List.concat]. destruct (np_repeat (x :: rho) k); reflexivity.
  - unfold np_repeat in *. cbn [moved zipwith map List.concat]. change (zipwith _ rho d) with (moved rho d t). rewrite IH. unfold moved.
    induction k as [|k IHk]; [reflexivity|]. cbn [repeat app zipwith]. f_equal.
    clear. set (X := List.concat _). set (Y := List.concat _). clearbody X Y. induction k as [|k IHk]; [reflexivity|]. cbn [repeat app zipwith]. now f_equal.
Qed.
Lemma add_at_moved idx a b t v : List.length a = List.length b -> add_at idx (moved a b t) v = add_at idx a v + t * add_at idx b v.
Proof.
  unfold add_at. revert a b. induction idx as [|i idx IH]; intros a b L; [cbn; ring|].
  destruct a as [|x a], b as [|y b]; try discriminate; [cbn; ring|]. cbn [moved zipwith]. change (zipwith _ a b) with (moved a b t).
  unfold rsum in *. cbn [fold_right]. rewrite IH by (cbn in L; lia). destruct (Nat.eqb i v); ring.
Qed.
Lemma nodal_moved t rho d s v : List.length d = List.length rho ->
  nodal_average t (moved rho d s) v = 1 * nodal_average t rho v + s * nodal_average t d v.
Proof.
  intros E. unfold nodal_average. rewrite np_repeat_moved, add_at_moved by (rewrite !np_repeat_len; congruence). unfold Rdiv. ring.
Qed.

(* ---- derivative of the layer ---- *)
Lemma derive_eq f x l l' : derivable_pt_lim f x l -> l = l' -> derivable_pt_lim f x l'.
Proof. intros D <-. exact D. Qed.
Lemma derive_affine a b : derivable_pt_lim (fun t => a + t * b) 0 b.
Proof.
  apply (derive_eq _ _ (0 + (1 * b + 0 * 0))); [|ring]. apply (derivable_pt_lim_plus (fun _ => a) (fun t => t * b)); [apply derivable_pt_lim_const|].
  apply (derivable_pt_lim_mult (fun t => t) (fun _ => b)); [apply derivable_pt_lim_id|apply derivable_pt_lim_const].
Qed.
Lemma derive_pw a b p : 0 < a -> derivable_pt_lim (fun t => pw (a + t * b) p) 0 (p * Rpower a (p - 1) * b).
Proof.
  intros Ha. apply (derive_locally (fun t => Rpower (a + t * b) p)).
  - exists (a / (Rabs b + 1)). pose proof (Rabs_pos b). split; [apply Rdiv_lt_0_compat; lra|]. intros t Ht. rewrite Rminus_0_r in Ht. unfold pw.
    rewrite npow_pos; [reflexivity|]. assert (Rabs (t * b) < a).
    { rewrite Rabs_mult. apply Rle_lt_trans with (Rabs t * (Rabs b + 1)); [pose proof (Rabs_pos t); nra|].
      apply Rmult_lt_compat_r with (r := Rabs b + 1) in Ht; [|lra]. replace (a / (Rabs b + 1) * (Rabs b + 1)) with a in Ht by (field; lra). exact Ht. }
    apply Rabs_def2 in H0. lra.
  - apply (derivable_pt_lim_comp (fun t => a + t * b) (fun y => Rpower y p)); [apply derive_affine|]. rewrite Rmult_0_l, Rplus_0_r.
    now apply derivable_pt_lim_power.
Qed.
Lemma derive_pow1 a b m : derivable_pt_lim (fun t => (1 - (a + t * b)) ^ m) 0 (- (INR m * (1 - a) ^ (m - 1) * b)).
Proof.
  replace (- (INR m * (1 - a) ^ (m - 1) * b)) with (INR m * (1 - (a + 0 * b)) ^ (pred m) * (0 - b))
    by (rewrite Nat.sub_1_r; replace (a + 0 * b) with a by ring; ring).
  apply (derivable_pt_lim_comp (fun t => 1 - (a + t * b)) (fun y => y ^ m)).
  - apply (derivable_pt_lim_minus (fun _ => 1) (fun t => a + t * b)); [apply derivable_pt_lim_const|apply derive_affine].
  - apply derivable_pt_lim_pow.
Qed.
Lemma derive_quad a b c : derivable_pt_lim (fun t => a + t * b + t * t * c) 0 b.
Proof.
  apply (derive_eq _ _ (b + ((1 * 0 + 0 * 1) * c + 0 * 0 * 0))); [|ring].
  apply (derivable_pt_lim_plus (fun t => a + t * b) (fun t => t * t * c)); [apply derive_affine|].
  apply (derivable_pt_lim_mult (fun t => t * t) (fun _ => c)); [|apply derivable_pt_lim_const].
  apply (derivable_pt_lim_mult (fun t => t) (fun t => t)); apply derivable_pt_lim_id.
Qed.
Lemma derive_gnorm (gt : R -> tensor) (g dg : tensor) : (forall t i, gt t 0%nat i = g 0%nat i + t * dg 0%nat i) -> 0 < gnorm g ->
  derivable_pt_lim (fun t => gnorm (gt t)) 0 (vdot3 g dg / gnorm g).
Proof.
  intros E Hg. assert (Q : 0 < vdot3 g g).
  { unfold gnorm in Hg. destruct (Rle_lt_dec (vdot3 g g) 0) as [L|L]; [|exact L]. rewrite (sqrt_neg_0 _ L) in Hg. lra. }
  unfold gnorm. apply (derive_locally (fun t => sqrt (vdot3 g g + t * (2 * vdot3 g dg) + t * t * vdot3 dg dg))).
  - exists 1. split; [lra|]. intros t _. f_equal. rewrite !vdot3_eq, !E. ring.
  - replace (vdot3 g dg / sqrt (vdot3 g g)) with (/ (2 * sqrt (vdot3 g g + 0 * (2 * vdot3 g dg) + 0 * 0 * vdot3 dg dg)) * (2 * vdot3 g dg)).
    + apply (derivable_pt_lim_comp (fun t => vdot3 g g + t * (2 * vdot3 g dg) + t * t * vdot3 dg dg) sqrt).
      * apply derive_quad.
      * apply derivable_pt_lim_sqrt. nra.
    + replace (vdot3 g g + 0 * (2 * vdot3 g dg) + 0 * 0 * vdot3 dg dg) with (vdot3 g g) by ring. field.
      pose proof (sqrt_lt_R0 _ Q). lra.
Qed.
Lemma gnorm_zero g : (forall i, (i < 3)%nat -> g 0%nat i = 0) -> gnorm g = 0.
Proof. intros Z. unfold gnorm. rewrite vdot3_eq, !Z by lia. rewrite !Rmult_0_l, !Rplus_0_l. apply sqrt_0. Qed.
Lemma layer_derive H rho d p m e q : List.length d = List.length rho -> (e < ne H)%nat -> (q < nq H)%nat ->
  0 < value_of H (nodal_average (hb_t H) rho) e q ->
  smooth_move H (nodal_average (hb_t H) rho) (nodal_average (hb_t H) d) ->
  derivable_pt_lim (fun t => layer H (nodal_average (hb_t H) (moved rho d t)) p m e q) 0
    (layer_rate H (nodal_average (hb_t H) rho) (nodal_average (hb_t H) d) p m e q).
Proof.
  intros L He Hq Hx Sm. set (r := nodal_average (hb_t H) rho). set (dr := nodal_average (hb_t H) d).
  assert (EV : forall t, value_of H (nodal_average (hb_t H) (moved rho d t)) e q = value_of H r e q + t * value_of H dr e q).
  { intros t. rewrite (value_ext _ _ (fun i => 1 * r i + t * dr i)) by (intros; now apply nodal_moved). rewrite value_lin. ring. }
  assert (EG : forall t i, gradv H (nodal_average (hb_t H) (moved rho d t)) e q 0%nat i = gradv H r e q 0%nat i + t * gradv H dr e q 0%nat i).
  { intros t i. rewrite (grad_ext _ _ (fun i => 1 * r i + t * dr i)) by (intros; now apply nodal_moved). rewrite gradv_lin. ring. }
  unfold layer_rate. fold r in Hx. set (x := value_of H r e q) in *. set (g := gradv H r e q) in *. set (dx := value_of H dr e q) in *. cbn beta zeta.
  destruct (Sm e q He Hq) as [Gp|Gz]; fold r dr g in Gp || fold r dr g in Gz.
  - destruct (Req_EM_T (gnorm g) 0) as [Z|_]; [exfalso; rewrite Z in Gp; lra|].
    apply (derive_locally (fun t => pw (x + t * dx) p * (1 - (x + t * dx)) ^ m * gnorm (gradv H (nodal_average (hb_t H) (moved rho d t)) e q))).
    { exists 1. split; [lra|]. intros t _. unfold layer. now rewrite EV. }
    assert (G0 : gnorm (gradv H (nodal_average (hb_t H) (moved rho d 0)) e q) = gnorm g) by (rewrite moved_zero by auto; reflexivity).
    assert (X0 : x + 0 * dx = x) by ring.
    replace ((p * Rpower x (p - 1) * (1 - x) ^ m - INR m * Rpower x p * (1 - x) ^ (m - 1)) * gnorm g * dx +
        Rpower x p * (1 - x) ^ m * (vdot3 g (gradv H dr e q) / gnorm g))
      with ((p * Rpower x (p - 1) * dx * (1 - (x + 0 * dx)) ^ m + pw (x + 0 * dx) p * (- (INR m * (1 - x) ^ (m - 1) * dx))) *
              gnorm (gradv H (nodal_average (hb_t H) (moved rho d 0)) e q) +
            pw (x + 0 * dx) p * (1 - (x + 0 * dx)) ^ m * (vdot3 g (gradv H dr e q) / gnorm g)).
    + apply (derivable_pt_lim_mult (fun t => pw (x + t * dx) p * (1 - (x + t * dx)) ^ m) (fun t => gnorm (gradv H (nodal_average (hb_t H) (moved rho d t)) e q))).
      * apply (derivable_pt_lim_mult (fun t => pw (x + t * dx) p) (fun t => (1 - (x + t * dx)) ^ m)); [now apply derive_pw|apply derive_pow1].
      * apply derive_gnorm; [exact (EG)|]. unfold tiny in Gp. lra.
    + rewrite G0, X0. unfold pw. rewrite npow_pos by auto. ring.
  - assert (Z : gnorm g = 0) by (apply gnorm_zero; intros i Hi; now apply Gz). rewrite Z. destruct (Req_EM_T 0 0) as [_|N]; [|exfalso; now apply N].
    rewrite Rmult_0_r, Rmult_0_l, Rmult_0_r, Rplus_0_l.
    apply (derive_locally (fun _ => 0)); [|apply derivable_pt_lim_const]. exists 1. split; [lra|]. intros t _. unfold layer.
    rewrite (gnorm_zero (gradv H (nodal_average (hb_t H) (moved rho d t)) e q)); [ring|]. intros i Hi. rewrite EG. destruct (Gz i Hi) as (G1 & G2).
    rewrite G1, G2. ring.
Qed.

(* ---- the analysis at a single load, as a function of the design ---- *)
Lemma single_analysed s D A g rho : well_set s D rho -> hs_Ss s <> [] -> hs_sol s <> HOther ->
  analysis s A (Flt g) rho [objective_value s A g rho] [temperature_field s A g rho].
Proof.
  intros W HS Hsol. destruct (analysed_ok s D A (Flt g) _ W HS Hsol I) as (Js & Ts & E & LJ & LT). cbn [values_list List.length] in LJ, LT.
  pose proof (analysed_analysis _ _ _ _ _ _ E) as An. unfold objective_value, temperature_field. rewrite E.
  destruct Js as [|J [|? ?]]; try discriminate. destruct Ts as [|T [|? ?]]; try discriminate. exact An.
Qed.
Lemma single_temperature s D A g rho : well_set s D rho -> hs_Ss s <> [] -> hs_sol s <> HOther ->
  temperature (hs_H s) (kap_of s rho) D g (hs_Ss s) (hs_h s) A (lay_of s rho) (temperature_field s A g rho).
Proof.
  intros W HS Hsol. pose proof (single_analysed s D A g rho W HS Hsol) as An. destruct (analysis_temperature s D A (Flt g) rho _ _ W An) as (_ & T).
  exact (T 0%nat ltac:(cbn; lia)).
Qed.
Lemma single_compliance s D A g rho : well_set s D rho -> hs_Ss s <> [] -> hs_sol s <> HOther -> hs_obj s = Compliance ->
  objective_value s A g rho = aform (hs_H s) (kap_of s rho) (hs_Ss s) (hs_h s) (lay_of s rho) (temperature_field s A g rho) (temperature_field s A g rho).
Proof.
  intros W HS Hsol Ho. pose proof (single_analysed s D A g rho W HS Hsol) as An.
  exact (compliance_value s D A (Flt g) rho _ _ Ho W An 0%nat ltac:(cbn; lia)).
Qed.
Lemma in_nth_lt (l : list R) x : In x l -> exists e, (e < List.length l)%nat /\ nth e l 0 = x.
Proof. intros. now apply In_nth. Qed.
Lemma move_inside rho d : List.length d = List.length rho -> (forall x, In x rho -> 0 < x < 1) ->
  exists eps, 0 < eps /\ forall t, Rabs t < eps -> forall x, In x (moved rho d t) -> 0 < x < 1.
Proof.
  intros L Hr. destruct (near_all (List.length rho) (fun e t => 0 < nth e rho 0 + t * nth e d 0 < 1) 0) as (eps & He & N).
  - intros e He. pose proof (Hr (nth e rho 0) (nth_In _ _ He)) as Hx. set (x := nth e rho 0) in *. set (y := nth e d 0).
    pose proof (derive_continuous_eps (fun t => x + t * y) 0 y (Rmin x (1 - x)) (derive_affine x y)) as C.
    assert (M : 0 < Rmin x (1 - x)) by (apply Rmin_pos; lra). destruct (C M) as (dl & Hd & C'). exists dl. split; [exact Hd|]. intros t Ht. specialize (C' t Ht).
    replace (x + t * y - (x + 0 * y)) with (t * y) in C' by ring. apply Rabs_def2 in C'. pose proof (Rmin_l x (1 - x)). pose proof (Rmin_r x (1 - x)). lra.
  - exists eps. split; [exact He|]. intros t Ht x Hx. apply in_nth_lt in Hx. destruct Hx as (e & Le & <-). rewrite moved_len in Le by auto. rewrite moved_nth by auto.
    apply N; [|exact Le]. now rewrite Rminus_0_r.
Qed.
Lemma well_other s D rho rho' : well_set s D rho -> List.length rho' = List.length rho -> (forall x, In x rho' -> 0 <= x <= 1) -> well_set s D rho'.
Proof.
  intros (HD & Same & [Sh SS An Hh Hk Hc Hp Lr Hr] & Hex) L Hr'. split; [exact HD|]. split; [exact Same|]. split; [|exact Hex]. constructor; auto. congruence.
Qed.
Lemma positive_min (rho : list R) : (forall x, In x rho -> 0 < x) -> exists a, 0 < a /\ forall x, In x rho -> a <= x.
Proof.
  induction rho as [|y rho IH]; intros Hr; [exists 1; split; [lra|intros x []]|].
  destruct IH as (a & Ha & B); [intros; apply Hr; now right|]. exists (Rmin y a). split; [apply Rmin_pos; auto; apply Hr; now left|].
  intros x [<-|Hx]; [apply Rmin_l|]. apply Rle_trans with a; [apply Rmin_r|auto].
Qed.
Lemma value_positive H rho e q : shapes H -> mesh_ok H -> List.length rho = ne H -> (forall x, In x rho -> 0 < x < 1) -> (e < ne H)%nat -> (q < nq H)%nat ->
  0 < value_of H (nodal_average (hb_t H) rho) e q.
Proof.
  intros Sh (M1 & M2) L Hr He Hq. destruct (positive_min rho) as (a & Ha & B); [intros; now apply Hr|].
  apply Rlt_le_trans with a; [exact Ha|]. apply (value_range H _ e q a 1); auto. intros v Hv.
  apply C67_nodal_density_between; [intros; rewrite L; auto|auto|]. intros x Hx. split; [auto|]. destruct (Hr x Hx). lra.
Qed.

Section everywhere.
  Variables (s : hsettings) (D : list nat) (A g : R) (rho d : list R).
  Let H := hs_H s.
  Hypothesis (W : well_set s D rho) (M : mesh_ok H) (HS : hs_Ss s <> []) (Hsol : hs_sol s <> HOther) (Ho : hs_obj s = Compliance).
  Hypothesis (Ld : List.length d = ne H) (Hr : forall x, In x rho -> 0 < x < 1).
  Hypothesis Sm : smooth_move H (nodal_average (hb_t H) rho) (nodal_average (hb_t H) d).
  (* the exact derivative: T is the temperature field, P the field of the same problem
     held at 0 *)
  Theorem C70_derivative :
    let T := temperature_field s A g rho in
    let P := temperature_field s A 0 rho in
    let rate := fun e => dconductivity (hs_ip s) (hs_k s) (hs_c s) (hs_p s) (nth e rho 0) * nth e d 0 in
    derivable_pt_lim (fun t => objective_value s A g (moved rho d t)) 0
      (conducted H rate T T - 2 * conducted H rate T P +
       hs_h s * integral H (fun e q => layer_rate H (nodal_average (hb_t H) rho) (nodal_average (hb_t H) d) (hs_p s) (hs_q s) e q *
         (2 * A * value_of H P e q - 2 * value_of H P e q * value_of H T e q + value_of H T e q * value_of H T e q))).
  Proof.
    intros T P rate. pose proof W as (HD & Same & [Sh SS An Hh Hk Hc Hp Lr Hr0] & Hex). fold H in Sh, SS, An, Lr.
    assert (Ldr : List.length d = List.length rho) by congruence.
    destruct (move_inside rho d Ldr Hr) as (eps & Heps & In01).
    assert (Wt : forall t, Rabs t < eps -> well_set s D (moved rho d t)).
    { intros t Ht. apply (well_other s D rho); [exact W|now apply moved_len|]. intros x Hx. destruct (In01 t Ht x Hx). lra. }
    set (lay' := layer_rate H (nodal_average (hb_t H) rho) (nodal_average (hb_t H) d) (hs_p s) (hs_q s)).
    assert (PC := path_compliance H D (hs_Ss s) (hs_h s) A g (hs_slvm s) (fun t => kap_of s (moved rho d t)) (fun t => lay_of s (moved rho d t))
      rate lay' (fun t => temperature_field s A g (moved rho d t)) P 0 Sh SS An Hh Hex).
    cbn beta in PC. rewrite !(moved_zero rho d Ldr) in PC.
    specialize (PC (fun e He => conductivity_pos _ _ _ _ _ Hk Hc Hp (Hr0 _ (nth_In rho 0 ltac:(rewrite Lr; exact He))))).
    specialize (PC (fun e q He Hq => layer_nonneg H rho (hs_p s) (hs_q s) e q Sh Hr0 He Hq)).
    refine (derive_eq _ _ _ _ (derive_locally _ _ _ _ _ (PC _ _ _ _)) _).
    - exists eps. split; [exact Heps|]. intros t Ht. rewrite Rminus_0_r in Ht. symmetry. apply (single_compliance s D); auto.
    - intros e He. unfold kap_of, rate. assert (Le : (e < List.length rho)%nat) by (rewrite Lr; exact He).
      apply (derive_locally (fun t => conductivity (hs_ip s) (hs_k s) (hs_c s) (hs_p s) (nth e rho 0 + t * nth e d 0))).
      { exists 1. split; [lra|]. intros t _. now rewrite moved_nth by auto. }
      apply (derivable_pt_lim_comp (fun t => nth e rho 0 + t * nth e d 0) (conductivity (hs_ip s) (hs_k s) (hs_c s) (hs_p s))); [apply derive_affine|].
      rewrite Rmult_0_l, Rplus_0_r. destruct (Hr _ (nth_In rho 0 Le)). now apply kf_derive.
    - intros e q He Hq. unfold lay_of. apply layer_derive; auto. now apply value_positive.
    - exists eps. split; [exact Heps|]. intros t Ht. rewrite Rminus_0_r in Ht. apply single_temperature; auto.
    - apply single_temperature; auto.
    - fold T. unfold aform, exch0. cbn [map]. unfold rsum. cbn [fold_right].
      set (I1 := integral H (fun e q => hs_h s * lay' e q * value_of H one e q * value_of H P e q)).
      set (I2 := integral H (fun e q => hs_h s * lay' e q * value_of H T e q * value_of H P e q)).
      set (I3 := integral H (fun e q => hs_h s * lay' e q * value_of H T e q * value_of H T e q)).
      rewrite <- integral_scal.
      rewrite (integral_ext H _ (fun e q => 2 * A * (hs_h s * lay' e q * value_of H one e q * value_of H P e q) +
        1 * (-2 * (hs_h s * lay' e q * value_of H T e q * value_of H P e q) + 1 * (hs_h s * lay' e q * value_of H T e q * value_of H T e q)))).
      + rewrite (integral_lin H (2 * A) (fun e q => hs_h s * lay' e q * value_of H one e q * value_of H P e q)).
        rewrite (integral_lin H (-2) (fun e q => hs_h s * lay' e q * value_of H T e q * value_of H P e q) 1 (fun e q => hs_h s * lay' e q * value_of H T e q * value_of H T e q)).
        fold I1 I2 I3. ring.
      + intros e q He Hq. rewrite value_one by auto. fold lay'. ring.
  Qed.
End everywhere.

(* ---- the reported sensitivities ---- *)
Lemma add_at_weighted n (F : vec) idx vals : (forall i, In i idx -> (i < n)%nat) -> 
  sum n (fun v => F v * add_at idx vals v) = rsum (zipwith (fun i x => F i * x) idx vals).
Proof.
  revert vals. unfold add_at. induction idx as [|i idx IH]; intros vals Hi.
  - apply sum_zero. intros. cbn. ring.
  - destruct vals as [|x vals]; [apply sum_zero; intros; cbn; ring|]. cbn [zipwith]. unfold rsum at 2. cbn [fold_right]. fold (rsum (zipwith (fun i x => F i * x) idx vals)).
    rewrite <- IH by (intros; apply Hi; now right). rewrite <- (sum_single n i (fun v => F v * x)) by (apply Hi; now left). rewrite <- sum_plus. apply sum_ext. intros v Hv.
    unfold rsum. cbn [fold_right]. rewrite (Nat.eqb_sym v i). destruct (Nat.eqb i v); ring.
Qed.
Lemma zipwith_app2 {X Y Z} (f : X -> Y -> Z) a b c e : List.length a = List.length c -> zipwith f (a ++ b) (c ++ e) = zipwith f a c ++ zipwith f b e.
Proof. revert c. induction a as [|x a IH]; intros [|y c] L; try discriminate; [reflexivity|]. cbn. f_equal. apply IH. now injection L. Qed.
Lemma rows_sum (G : nat -> R) t (d : list R) : (forall row, In row t -> List.length row = List.length d) ->
  rsum (zipwith (fun i x => G i * x) (List.concat t) (List.concat (map (fun _ => d) t))) =
  sum (List.length d) (fun e => nth e d 0 * rsum (map (fun row => G (nth e row 0%nat)) t)).
Proof.
  induction t as [|row t IH]; intros Ht.
  - cbn. symmetry. apply sum_zero. intros. unfold rsum. cbn. ring.
  - cbn [List.concat map]. rewrite zipwith_app2 by (apply Ht; now left). rewrite rsum_app, IH by (intros; apply Ht; now right).
    assert (E : rsum (zipwith (fun i x => G i * x) row d) = sum (List.length d) (fun e => nth e d 0 * G (nth e row 0%nat))).
    { clear -Ht. assert (L : List.length row = List.length d) by (apply Ht; now left). clear Ht. revert d L. induction row as [|i row IH]; intros [|x d] L; try discriminate; [reflexivity|].
      cbn [zipwith List.length]. unfold rsum at 1. cbn [fold_right]. fold (rsum (zipwith (fun i x => G i * x) row d)). rewrite IH by (now injection L).
      unfold sum. cbn [seq map]. rewrite <- seq_shift, map_map. cbn [nth]. unfold rsum at 2. cbn [fold_right]. fold (rsum (map (fun x0 => nth x0 d 0 * G (nth x0 row 0%nat)) (seq 0 (List.length d)))). ring. }
    rewrite E, <- sum_plus. apply sum_ext. intros e He. unfold rsum. cbn [fold_right]. ring.
Qed.
Lemma to_elements_along t (E : vec) (d : list R) n : (forall row, In row t -> List.length row = List.length d) ->
  (forall v, In v (List.concat t) -> (v < n)%nat) ->
  sum (List.length d) (fun e => nth e d 0 * to_elements t E e) = sum n (fun v => E v * vertex_mean t d v).
Proof.
  intros Ht Hn. unfold to_elements.
  rewrite <- (rows_sum (fun i => E i / Rmax (node_count t i) 1) t d Ht), <- (add_at_weighted n (fun i => E i / Rmax (node_count t i) 1)) by exact Hn.
  apply sum_ext. intros v Hv. unfold vertex_mean, Rdiv. ring.
Qed.
Lemma rate_expand H r dr p m e q : layer_rate H r dr p m e q = sum (hn H) (fun v => dr v * layer_rate H r (unit v) p m e q).
Proof.
  apply (expand_gen (hn H) (fun d => layer_rate H r d p m e q)).
  - intros a u b w. unfold layer_rate. rewrite value_lin. destruct (Req_EM_T _ 0); [ring|].
    rewrite !vdot3_eq, !gradv_lin. unfold Rdiv. ring.
  - intros u w E. unfold layer_rate. rewrite (value_ext H u w) by auto. rewrite !vdot3_eq. rewrite !(grad_ext H u w) by auto. reflexivity.
Qed.
Lemma value_unit H v e q : (v < hn H)%nat -> value_of H (unit v) e q = hb_val H e q v.
Proof.
  intros Hv. unfold value_of. rewrite <- (sum_single (hn H) v (fun k => hb_val H e q k)) by auto. apply sum_ext. intros k _. unfold unit. destruct (Nat.eqb k v); ring.
Qed.
Lemma grad_unit H v e q i : (v < hn H)%nat -> gradv H (unit v) e q 0%nat i = fb_grad (hb_B H) e q v 0%nat i.
Proof.
  intros Hv. unfold gradv, grad_of. change (fb_n (hb_B H)) with (hn H). rewrite <- (sum_single (hn H) v (fun k => fb_grad (hb_B H) e q k 0%nat i)) by auto. apply sum_ext.
  intros k _. unfold unit. destruct (Nat.eqb k v); ring.
Qed.
Lemma explicit_rate s A rho T v : (v < hn (hs_H s))%nat ->
  (forall e q, (e < ne (hs_H s))%nat -> (q < nq (hs_H s))%nat -> 0 < value_of (hs_H s) (nodal_average (hb_t (hs_H s)) rho) e q /\
     (tiny <= gnorm (gradv (hs_H s) (nodal_average (hb_t (hs_H s)) rho) e q) \/
      forall i, (i < 3)%nat -> gradv (hs_H s) (nodal_average (hb_t (hs_H s)) rho) e q 0%nat i = 0)) ->
  explicit_nodal (hs_H s) (nodal_average (hb_t (hs_H s)) rho) T A (hs_h s) (hs_p s) (hs_q s) v = vertex_rate s A rho T v.
Proof.
  intros Hv Pt. set (H := hs_H s) in *. unfold explicit_nodal, vertex_rate. fold H. rewrite <- integral_scal. apply integral_ext. intros e q He Hq.
  destruct (Pt e q He Hq) as (Hx & Gr). unfold layer_rate. cbn beta zeta. set (r := nodal_average (hb_t H) rho) in *. set (x := value_of H r e q) in *. set (g := gradv H r e q) in *.
  rewrite value_unit by auto. unfold pw. rewrite !npow_pos by auto.
  assert (EG : vdot3 g (gradv H (unit v) e q) = vdot3 g (fb_grad (hb_B H) e q v)) by (rewrite !vdot3_eq, !grad_unit by auto; reflexivity).
  rewrite EG. destruct (Req_EM_T (gnorm g) 0) as [Z|NZ].
  - assert (Gz : forall i, (i < 3)%nat -> g 0%nat i = 0).
    { destruct Gr as [Gr|Gr]; [|exact Gr]. exfalso. rewrite Z in Gr. unfold tiny in Gr. lra. }
    rewrite (vdot3_eq g), !Gz by lia. rewrite Z. unfold Rdiv. ring.
  - destruct Gr as [Gr|Gr].
    + rewrite Rmax_left by exact Gr. ring.
    + exfalso. apply NZ. now apply gnorm_zero.
Qed.
Lemma zipwith_seq (f : R -> R -> R) (a : nat -> R) (d : list R) :
  rsum (zipwith f (map a (seq 0 (List.length d))) d) = sum (List.length d) (fun e => f (a e) (nth e d 0)).
Proof.
  revert a. induction d as [|x d IH]; intros a; [reflexivity|]. unfold sum. cbn [List.length seq map zipwith]. unfold rsum. cbn [fold_right nth].
  rewrite <- seq_shift, !map_map. cbn [nth]. f_equal. apply (IH (fun e => a (S e))).
Qed.
(* what is reported for a single load, any design *)
Lemma reported_form s D A g rho T G : well_set s D rho -> hs_Ss s <> [] -> hs_obj s = Compliance -> hs_ip s = SIMP ->
  tiny <= hs_c s * hs_k s -> (forall x, In x rho -> floor6 <= x) -> reported s A (Flt g) rho [T] G ->
  G = [map (fun e => - (dconductivity SIMP (hs_k s) (hs_c s) (hs_p s) (nth e rho 0) *
              sum (nq (hs_H s)) (fun q => vdot3 (gradv (hs_H s) T e q) (gradv (hs_H s) T e q) * fb_dx (hb_B (hs_H s)) e q)) +
            to_elements (hb_t (hs_H s)) (explicit_nodal (hs_H s) (nodal_average (hb_t (hs_H s)) rho) T A (hs_h s) (hs_p s) (hs_q s)) e) (seq 0 (ne (hs_H s)))].
Proof.
  intros (_ & _ & [Sh SS An Hh Hk Hc Hp Lr Hr] & _) HS Ho Hip Ht Hf (dr & tk & B & E). assert (F6 : 0 < floor6) by (unfold floor6; lra).
  pose proof (from_facets_robin _ _ _ _ _ _ _ _ _ _ _ B) as (UR & EH & En & Ev & Ek & Eo & _ & _).
  destruct UR as [(Ec & Ee & _)|(ES & _)]; [|contradiction].
  set (H := hs_H s) in *. unfold heat_sensitivity in E. cbn [hf_task hf_interp hf_q] in E. unfold kmin in E. cbn [hf_task hf_coeff] in E. rewrite EH, Ek, Hip in E.
  rewrite moduli_ok in E by auto. cbn [bind] in E. rewrite Ec, Ee, Eo, Ho, Lr in E. cbn [map values_list zipwith] in E. injection E as <-. f_equal.
  rewrite HeatSens_props.zipwith_map. apply map_ext_in. intros e He. apply in_seq in He. assert (Le : (e < List.length rho)%nat) by lia.
  pose proof (Hf _ (nth_In rho 0 Le)) as Hx. pose proof (Hr _ (nth_In rho 0 Le)) as Hx1.
  f_equal; [|unfold rsum; cbn [fold_right]; ring].
  unfold heat_energy. rewrite (nth_indep (map (conductivity SIMP (hs_k s) (hs_c s) (hs_p s)) rho) 0 (conductivity SIMP (hs_k s) (hs_c s) (hs_p s) 0)) by (rewrite map_length; auto). rewrite map_nth. set (x := nth e rho 0) in *.
  rewrite (sum_ext _ _ (fun q => / 2 * conductivity SIMP (hs_k s) (hs_c s) (hs_p s) x * (vdot3 (gradv H T e q) (gradv H T e q) * fb_dx (hb_B H) e q))) by (intros; ring).
  rewrite (sum_scal _ (/ 2 * conductivity SIMP (hs_k s) (hs_c s) (hs_p s) x)). change (fb_nq (hb_B H)) with (nq H). set (S := sum (nq H) _).
  unfold dC_drho_simp, dE_drho_simp, E_simp, conductivity, dconductivity. rewrite (Rmax_left x) by lra.
  destruct (Rlt_dec 0 x); [|lra]. pose proof (Rpower_pos x (hs_p s)).
  assert (P1 : 0 <= (hs_k s - hs_k s * hs_c s) * Rpower x (hs_p s)) by (apply Rmult_le_pos; nra).
  assert (P2 : 0 < hs_k s * hs_c s) by (apply Rmult_lt_0_compat; lra).
  rewrite (Rmax_left _ tiny) by lra. field. lra.
Qed.

Section held_at_zero.
  Variables (s : hsettings) (D : list nat) (A : R) (rho d gr : list R).
  Let H := hs_H s.
  Hypothesis (W : well_set s D rho) (M : mesh_ok H) (HS : hs_Ss s <> []) (Hsol : hs_sol s <> HOther) (Ho : hs_obj s = Compliance) (Hip : hs_ip s = SIMP).
  Hypothesis (MV : forall v, In v (List.concat (hb_t H)) -> (v < hn H)%nat) (Hmin : tiny <= hs_c s * hs_k s).
  Hypothesis (Ld : List.length d = ne H) (Hr : forall x, In x rho -> floor6 <= x < 1).
  Hypothesis Sm : smooth_move H (nodal_average (hb_t H) rho) (nodal_average (hb_t H) d).
  Hypothesis Rp : reported s A (Flt 0) rho [temperature_field s A 0 rho] [gr].
  (* the derivative is the reported one plus the error made at the vertices: the
     forward analysis uses nodal_average, the chain rule back to elements the true
     vertex mean *)
  Theorem C70_held_at_zero : derivable_pt_lim (fun t => objective_value s A 0 (moved rho d t)) 0
    (along gr d + sum (hn H) (fun v => vertex_rate s A rho (temperature_field s A 0 rho) v * (nodal_average (hb_t H) d v - vertex_mean (hb_t H) d v))).
  Proof.
    assert (F6 : 0 < floor6) by (unfold floor6; lra). pose proof W as (_ & _ & [Sh SS An Hh Hk Hc Hp Lr Hr0] & _). fold H in Sh, Lr.
    assert (Hr' : forall x, In x rho -> 0 < x < 1) by (intros x Hx; destruct (Hr x Hx); lra).
    pose proof (C70_derivative s D A 0 rho d W M HS Hsol Ho Ld Hr' Sm) as Dv. cbn zeta in Dv. fold H in Dv. set (T := temperature_field s A 0 rho) in *.
    refine (derive_eq _ _ _ _ Dv _). clear Dv.
    pose proof (reported_form s D A 0 rho T [gr] W HS Ho Hip Hmin (fun x Hx => proj1 (Hr x Hx)) Rp) as E. injection E as E. fold H in E.
    assert (Pt : forall e q, (e < ne H)%nat -> (q < nq H)%nat -> 0 < value_of H (nodal_average (hb_t H) rho) e q /\
       (tiny <= gnorm (gradv H (nodal_average (hb_t H) rho) e q) \/ forall i, (i < 3)%nat -> gradv H (nodal_average (hb_t H) rho) e q 0%nat i = 0)).
    { intros e q He Hq. split; [now apply value_positive|]. destruct (Sm e q He Hq) as [Gp|Gz]; [left; unfold tiny; lra|right; intros i Hi; now apply Gz]. }
    set (ex := explicit_nodal H (nodal_average (hb_t H) rho) T A (hs_h s) (hs_p s) (hs_q s)) in *.
    assert (EX : forall v, (v < hn H)%nat -> ex v = vertex_rate s A rho T v) by (intros v Hv; apply explicit_rate; auto).
    assert (EL : along gr d = - conducted H (fun e => dconductivity SIMP (hs_k s) (hs_c s) (hs_p s) (nth e rho 0) * nth e d 0) T T +
      sum (hn H) (fun v => vertex_rate s A rho T v * vertex_mean (hb_t H) d v)).
    { unfold along. rewrite E, <- Ld, zipwith_seq.
      rewrite (sum_ext (List.length d) _ (fun e => (-1) * (dconductivity SIMP (hs_k s) (hs_c s) (hs_p s) (nth e rho 0) * nth e d 0 *
        sum (nq H) (fun q => vdot3 (gradv H T e q) (gradv H T e q) * fb_dx (hb_B H) e q)) + nth e d 0 * to_elements (hb_t H) ex e)) by (intros; cbn beta; unfold dconductivity; ring).
      rewrite sum_plus, (sum_scal _ (-1)), (to_elements_along (hb_t H) ex d (hn H)); [|intros row Hrow; rewrite Ld; now apply M|exact MV].
      f_equal.
      - unfold conducted, integral. rewrite Ld. change (ne H) with (fb_ne (hb_B H)). match goal with |- -1 * ?x = - ?y => replace (- y) with (-1 * y) by ring end. f_equal. apply sum_ext. intros e He. rewrite <- sum_scal. apply sum_ext. intros. ring.
      - apply sum_ext. intros v Hv. now rewrite EX. }
    rewrite EL, Hip. clear E.
    rewrite (sum_ext (hn H) (fun v => vertex_rate s A rho T v * (nodal_average (hb_t H) d v - vertex_mean (hb_t H) d v))
      (fun v => vertex_rate s A rho T v * nodal_average (hb_t H) d v - vertex_rate s A rho T v * vertex_mean (hb_t H) d v)) by (intros; ring).
    rewrite sum_minus.
    assert (EI : hs_h s * integral H (fun e q => layer_rate H (nodal_average (hb_t H) rho) (nodal_average (hb_t H) d) (hs_p s) (hs_q s) e q *
         (2 * A * value_of H T e q - 2 * value_of H T e q * value_of H T e q + value_of H T e q * value_of H T e q)) =
       sum (hn H) (fun v => vertex_rate s A rho T v * nodal_average (hb_t H) d v)).
    { rewrite (integral_ext H _ (fun e q => sum (hn H) (fun v => nodal_average (hb_t H) d v * (layer_rate H (nodal_average (hb_t H) rho) (unit v) (hs_p s) (hs_q s) e q *
         (2 * A * value_of H T e q - value_of H T e q * value_of H T e q))))).
      - unfold integral. rewrite (sum_ext (fb_ne (hb_B H)) _ (fun e => sum (hn H) (fun v => sum (fb_nq (hb_B H)) (fun q => nodal_average (hb_t H) d v * (layer_rate H (nodal_average (hb_t H) rho) (unit v) (hs_p s) (hs_q s) e q *
         (2 * A * value_of H T e q - value_of H T e q * value_of H T e q)) * fb_dx (hb_B H) e q)))).
        + rewrite sum_swap, <- sum_scal. apply sum_ext. intros v Hv. unfold vertex_rate, integral. fold H. rewrite Rmult_assoc. f_equal. match goal with |- _ = ?y * ?z => rewrite (Rmult_comm y z) end. rewrite <- sum_scal.
          apply sum_ext. intros e He. rewrite <- sum_scal. apply sum_ext. intros q Hq. ring.
        + intros e He. rewrite sum_swap. apply sum_ext. intros q Hq. rewrite <- sum_scal_r. reflexivity.
      - intros e q He Hq. rewrite rate_expand, <- sum_scal_r. apply sum_ext. intros v Hv. ring. }
    rewrite EI. ring.
  Qed.
End held_at_zero.

(* the reported sensitivities are the gradient whenever the vertex densities are true means *)
Corollary C70_correct_with_true_means s D A rho d gr : well_set s D rho -> mesh_ok (hs_H s) -> hs_Ss s <> [] -> hs_sol s <> HOther ->
  hs_obj s = Compliance -> hs_ip s = SIMP -> (forall v, In v (List.concat (hb_t (hs_H s))) -> (v < hn (hs_H s))%nat) -> 1 / 10 ^ 12 <= hs_c s * hs_k s ->
  List.length d = ne (hs_H s) -> (forall x, In x rho -> floor6 <= x < 1) ->
  smooth_move (hs_H s) (nodal_average (hb_t (hs_H s)) rho) (nodal_average (hb_t (hs_H s)) d) ->
  (forall v, (v < hn (hs_H s))%nat -> nodal_average (hb_t (hs_H s)) d v = vertex_mean (hb_t (hs_H s)) d v) ->
  reported s A (Flt 0) rho [temperature_field s A 0 rho] [gr] ->
  derivable_pt_lim (fun t => objective_value s A 0 (moved rho d t)) 0 (along gr d).
Proof.
  intros W M HS Hsol Ho Hip MV Ht Ld Hr Sm E Rp.
  refine (derive_eq _ _ _ _ (C70_held_at_zero s D A rho d gr W M HS Hsol Ho Hip MV _ Ld Hr Sm Rp) _); [unfold tiny; lra|].
  rewrite (sum_zero (hn (hs_H s))); [ring|]. intros v Hv. rewrite E by auto. ring.
Qed.
Lemma concat_ones (t : list (list nat)) n (x : R) : (forall row, In row t -> List.length row = n) ->
  List.concat (map (fun _ => repeat x n) t) = map (fun _ => x) (List.concat t).
Proof.
  induction t as [|row t IH]; intros L; [reflexivity|]. cbn [map List.concat]. rewrite map_app, IH by (intros; apply L; now right). f_equal.
  rewrite <- (L row) by now left. clear. induction row; [reflexivity|]. cbn. now f_equal.
Qed.
Lemma mean_ones H v : mesh_ok H -> (v < hn H)%nat -> vertex_mean (hb_t H) (repeat 1 (ne H)) v = 1.
Proof.
  intros (M1 & M2) Hv. unfold vertex_mean. rewrite (concat_ones (hb_t H) (ne H) 1 M1). fold (node_count (hb_t H) v).
  pose proof (node_count_ge1 (hb_t H) v (M2 v Hv)). rewrite Rmax_left by lra. field. lra.
Qed.
(* adding the same amount to every density: the sum of the sensitivities is right, on
   any mesh and at any design *)
Corollary C70_moving_together s D A rho gr : well_set s D rho -> mesh_ok (hs_H s) -> hs_Ss s <> [] -> hs_sol s <> HOther ->
  hs_obj s = Compliance -> hs_ip s = SIMP -> (forall v, In v (List.concat (hb_t (hs_H s))) -> (v < hn (hs_H s))%nat) -> 1 / 10 ^ 12 <= hs_c s * hs_k s ->
  (forall x, In x rho -> floor6 <= x < 1) ->
  (forall e q, (e < ne (hs_H s))%nat -> (q < nq (hs_H s))%nat -> 
     let gn := gnorm (gradv (hs_H s) (nodal_average (hb_t (hs_H s)) rho) e q) in 1 / 10 ^ 12 <= gn \/ gn = 0) ->
  reported s A (Flt 0) rho [temperature_field s A 0 rho] [gr] ->
  derivable_pt_lim (fun t => objective_value s A 0 (map (fun x => x + t) rho)) 0 (rsum gr).
Proof.
  intros W M HS Hsol Ho Hip MV Ht Hr Sm Rp. pose proof W as (_ & _ & [Sh SS An Hh Hk Hc Hp Lr Hr0] & _). set (H := hs_H s) in *.
  assert (EA : along gr (repeat 1 (ne H)) = rsum gr).
  { pose proof (reported_form s D A 0 rho _ [gr] W HS Ho Hip ltac:(unfold tiny; lra) (fun x Hx => proj1 (Hr x Hx)) Rp) as E. injection E as E.
    assert (L : List.length gr = ne H) by (rewrite E, map_length, seq_length; reflexivity). rewrite <- L. unfold along. clear.
    induction gr; [reflexivity|]. cbn [List.length repeat zipwith]. unfold rsum in *. cbn [fold_right]. rewrite IHgr. ring. }
  refine (derive_eq _ _ _ _ (derive_locally (fun t => objective_value s A 0 (moved rho (repeat 1 (ne H)) t)) _ 0 _ _
    (C70_correct_with_true_means s D A rho (repeat 1 (ne H)) gr W M HS Hsol Ho Hip MV Ht (repeat_length _ _) Hr _ _ Rp)) EA).
  - exists 1. split; [lra|]. intros t _. f_equal. clear - Lr. set (n := ne H) in *. clearbody n. revert n Lr. induction rho as [|x l IH]; intros n L; [reflexivity|].
    cbn [List.length] in L. subst n. cbn [moved zipwith map repeat]. f_equal; [ring|]. now apply IH.
  - intros e q He Hq. destruct (Sm e q He Hq) as [G|G]; [left; exact G|right]. intros i Hi. split; [|now apply grad_nodal_uniform].
    fold H in G |- *. unfold gnorm in G. apply sqrt_eq_0 in G; [|apply vdot3_nonneg]. rewrite vdot3_eq in G.
    set (g := gradv H (nodal_average (hb_t H) rho) e q) in *. destruct i as [|[|[|i]]]; [nra|nra|nra|lia].
  - intros v Hv. fold H. rewrite nodal_uniform by auto. now rewrite mean_ones.
Qed.

(* ---- two parallel bars: the reported sensitivities are not the gradient ---- *)
Definition pair_bar : hsettings :=
  mkHS (bars 2) [[0]]%nat [tip] 4 10 (1 / 100) 3 Compliance 0 SIMP 4 HAuto (fun A bs => map (cramer A) bs).
Lemma pair_nodal a b : nodal_average (hb_t (bars 2)) [a; b] 0%nat = a /\ nodal_average (hb_t (bars 2)) [a; b] 1%nat = b.
Proof.
  unfold nodal_average, node_count, add_at, np_repeat. cbn [bars hb_t repeat map List.concat app List.length zipwith Nat.eqb rsum fold_right]. unfold rsum. cbn [fold_right].
  split; rewrite Rmax_left by lra; field.
Qed.
Lemma pair_mean a b : vertex_mean (hb_t (bars 2)) [a; b] 0%nat = (a + b) / 2 /\ vertex_mean (hb_t (bars 2)) [a; b] 1%nat = (a + b) / 2.
Proof.
  unfold vertex_mean, node_count, add_at. cbn [bars hb_t repeat map List.concat app List.length zipwith Nat.eqb rsum fold_right]. unfold rsum. cbn [fold_right].
  split; rewrite Rmax_left by lra; field.
Qed.
Lemma pair_grad r e q : gradv (bars 2) r e q 0%nat 0%nat = r 1%nat - r 0%nat /\ gradv (bars 2) r e q 0%nat 1%nat = 0 /\ gradv (bars 2) r e q 0%nat 2%nat = 0.
Proof. unfold gradv, grad_of. cbn [bars hb_B fb_n fb_grad]. rewrite !sum2. cbn [Nat.eqb]. split; [ring|split; ring]. Qed.
Lemma pair_value r e q : value_of (bars 2) r e q = (r 0%nat + r 1%nat) / 2.
Proof. unfold value_of, hn. cbn [bars hb_B fb_n hb_val]. rewrite sum2. field. Qed.
Lemma pair_gnorm r e q : r 0%nat <= r 1%nat -> gnorm (gradv (bars 2) r e q) = r 1%nat - r 0%nat.
Proof.
  intros L. unfold gnorm. rewrite vdot3_eq. destruct (pair_grad r e q) as (-> & -> & ->).
  replace ((r 1%nat - r 0%nat) * (r 1%nat - r 0%nat) + 0 * 0 + 0 * 0) with ((r 1%nat - r 0%nat) * (r 1%nat - r 0%nat)) by ring. apply sqrt_square. lra.
Qed.
Lemma pair_integral F : integral (bars 2) F = F 0%nat 0%nat + F 1%nat 0%nat.
Proof. unfold integral. cbn [bars hb_B fb_ne fb_nq fb_dx]. rewrite sum2, !sum1. ring. Qed.
Lemma pair_mesh : mesh_ok (bars 2).
Proof.
  split.
  - intros row [<-|[<-|[]]]; reflexivity.
  - intros v Hv. unfold hn in Hv. cbn in Hv. cbn [bars hb_t repeat List.concat app]. destruct v as [|[|v]]; cbn; [auto|auto|lia].
Qed.
Lemma pair_well a b : 0 <= a <= 1 -> 0 <= b <= 1 -> well_set pair_bar [0%nat] [a; b].
Proof.
  intros Ha Hb. split; [reflexivity|]. split; [intros D' [<-|[]]; unfold same_set; tauto|]. split; [|exact cramer_exact].
  constructor; cbn [pair_bar hs_H hs_Ss hs_h hs_k hs_c hs_p]; try lra.
  - apply bars_shapes.
  - intros S [<-|[]]. exact tip_shapes.
  - apply bars_anchored. lia.
  - reflexivity.
  - intros x [<-|[<-|[]]]; lra.
Qed.
Lemma pair_temperature A a b : 0 < A -> 0 < a -> a < b < 1 ->
  temperature_field pair_bar A 0 [a; b] 0%nat = 0 /\ 0 < temperature_field pair_bar A 0 [a; b] 1%nat <= 2 * A.
Proof.
  intros HA Ha Hb. pose proof (pair_well a b ltac:(lra) ltac:(lra)) as W.
  pose proof (single_temperature pair_bar [0%nat] A 0 [a; b] W ltac:(discriminate) ltac:(discriminate)) as Tm. set (T := temperature_field pair_bar A 0 [a; b]) in *.
  pose proof W as (_ & _ & [Sh SS _ _ _ _ _ _ _] & _).
  apply temperature_form in Tm; auto. destruct Tm as (B & Wf). split; [apply B; [cbn; lia|now left]|].
  assert (T0 : T 0%nat = 0) by (apply B; [cbn; lia|now left]). specialize (Wf (unit 1)).
  assert (Z : forall i, (i < hn (hs_H pair_bar))%nat -> In i [0%nat] -> unit 1 i = 0) by (intros i _ [<-|[]]; reflexivity). specialize (Wf Z).
  set (k0 := kap_of pair_bar [a; b] 0%nat) in *. set (k1 := kap_of pair_bar [a; b] 1%nat) in *.
  assert (K0 : 0 < k0) by (apply conductivity_pos; cbn; lra). assert (K1 : 0 < k1) by (apply conductivity_pos; cbn; lra).
  unfold aform, exch0, conducted in Wf. cbn [pair_bar hs_H hs_Ss hs_h map] in Wf. rewrite !pair_integral in Wf.
  assert (EL : forall e, lay_of pair_bar [a; b] e 0%nat = Rpower ((a + b) / 2) 3 * (1 - (a + b) / 2) ^ 4 * (b - a)).
  { intros e. unfold lay_of, layer. cbn [pair_bar hs_H hs_p hs_q]. rewrite pair_value, pair_gnorm.
    - destruct (pair_nodal a b) as (-> & ->). unfold pw. rewrite npow_pos by lra. reflexivity.
    - destruct (pair_nodal a b) as (-> & ->). lra. }
  change (lay_of _ _) with (lay_of pair_bar [a; b]) in Wf. rewrite !EL in Wf. set (l := Rpower _ _ * _ * _) in Wf.
  assert (L0 : 0 <= l). { unfold l. pose proof (Rpower_pos ((a + b) / 2) 3). assert (0 <= (1 - (a + b) / 2) ^ 4) by (apply pow_le; lra). apply Rmult_le_pos; [apply Rmult_le_pos|]; lra. }
  change (kap_of _ _ 0%nat) with k0 in Wf. change (kap_of _ _ 1%nat) with k1 in Wf.
  rewrite !vdot3_eq in Wf. repeat match type of Wf with context [gradv (bars 2) ?r ?e ?q 0%nat 0%nat] =>
    destruct (pair_grad r e q) as (G0 & G1 & G2); rewrite ?G0, ?G1, ?G2 in Wf; clear G0 G1 G2 end.
  rewrite !pair_value in Wf. unfold rsum in Wf. cbn [fold_right] in Wf. unfold surf_integral, sval_of, hn in Wf.
  cbn [bars hb_B fb_n tip sf_np sf_dx sf_val Nat.eqb] in Wf. rewrite ?sum1, ?sum2 in Wf. unfold unit, one in Wf. cbn [Nat.eqb] in Wf. rewrite T0 in Wf. fold l in Wf.
  assert (E : T 1%nat * (k0 + k1 + 4 + 2 * l) = A * (4 + 4 * l)) by lra.
  assert (P : 0 < A * (4 + 4 * l)) by (apply Rmult_lt_0_compat; lra). split; nra.
Qed.
Theorem C70_vertex_densities_refuted A a b : 0 < A -> floor6 <= a -> a + 1 / 10 ^ 12 <= b < 1 -> exists gr L,
  reported pair_bar A (Flt 0) [a; b] [temperature_field pair_bar A 0 [a; b]] [gr] /\
  derivable_pt_lim (fun t => objective_value pair_bar A 0 [a - t; b + t]) 0 L /\ along gr [-1; 1] < L.
Proof.
  intros HA Ha Hb. assert (F6 : 0 < floor6) by (unfold floor6; lra). pose proof (pair_well a b ltac:(lra) ltac:(lra)) as W. set (T := temperature_field pair_bar A 0 [a; b]).
  assert (Ro : exists gr, reported pair_bar A (Flt 0) [a; b] [T] [gr]).
  { unfold reported. eexists. exists None. eexists. split; [reflexivity|]. unfold heat_sensitivity. cbn [hf_task hf_interp hf_q ht_k ht_H]. unfold kmin. cbn [hf_task hf_coeff ht_k].
    cbn [pair_bar hs_k hs_c hs_p hs_ip]. rewrite moduli_ok by (try lra; intros x [<-|[<-|[]]]; lra). cbn [bind]. reflexivity. }
  destruct Ro as (gr & Rp). exists gr. eexists. split; [exact Rp|].
  assert (Sm : smooth_move (bars 2) (nodal_average (hb_t (bars 2)) [a; b]) (nodal_average (hb_t (bars 2)) [-1; 1])).
  { intros e q _ _. left. rewrite pair_gnorm; destruct (pair_nodal a b) as (-> & ->); lra. }
  split.
  - refine (derive_locally (fun t => objective_value pair_bar A 0 (moved [a; b] [-1; 1] t)) _ 0 _ _
      (C70_held_at_zero pair_bar [0%nat] A [a; b] [-1; 1] gr W pair_mesh _ _ eq_refl eq_refl _ _ eq_refl _ Sm Rp)).
    + exists 1. split; [lra|]. intros t _. unfold moved. cbn [zipwith]. f_equal. f_equal; [ring|]. f_equal. ring.
    + discriminate.
    + discriminate.
    + intros v Hv. cbn in Hv. unfold hn. cbn. lia.
    + cbn [pair_bar hs_c hs_k]. unfold tiny. lra.
    + intros x [<-|[<-|[]]]; lra.
  - cbn [pair_bar hs_H]. unfold hn. cbn [bars hb_B fb_n]. rewrite sum2. change (mkHB _ _ _) with (bars 2).
    destruct (pair_nodal (-1) 1) as (-> & ->). destruct (pair_mean (-1) 1) as (-> & ->).
    destruct (pair_temperature A a b HA ltac:(lra) ltac:(lra)) as (T0 & T1). fold T in T0, T1.
    unfold vertex_rate. cbn [pair_bar hs_H hs_h hs_p hs_q]. change (temperature_field _ A 0 [a; b]) with T. rewrite !pair_integral, !pair_value, T0. unfold layer_rate. cbn zeta.
    assert (GN : forall e q, gnorm (gradv (bars 2) (nodal_average (hb_t (bars 2)) [a; b]) e q) = b - a).
    { intros e q. rewrite pair_gnorm; destruct (pair_nodal a b) as (-> & ->); [ring|lra]. }
    rewrite !GN, !pair_value. destruct (Req_EM_T (b - a) 0) as [Z|_]; [lra|].
    assert (VD : forall e q v, vdot3 (gradv (bars 2) (nodal_average (hb_t (bars 2)) [a; b]) e q) (gradv (bars 2) (unit v) e q) = (b - a) * (unit v 1%nat - unit v 0%nat)).
    { intros e q v. rewrite vdot3_eq. destruct (pair_grad (nodal_average (hb_t (bars 2)) [a; b]) e q) as (-> & -> & ->).
      destruct (pair_grad (unit v) e q) as (-> & -> & ->). destruct (pair_nodal a b) as (-> & ->). ring. }
    rewrite !VD. destruct (pair_nodal a b) as (-> & ->). unfold unit. cbn [Nat.eqb].
    set (P := Rpower ((a + b) / 2) 3). set (S1 := (3 * Rpower ((a + b) / 2) (3 - 1) * (1 - (a + b) / 2) ^ 4 - INR 4 * P * (1 - (a + b) / 2) ^ (4 - 1)) * (b - a)).
    set (Q := (1 - (a + b) / 2) ^ 4). assert (PP : 0 < P) by apply Rpower_pos. assert (QP : 0 < Q) by (apply pow_lt; lra).
    set (t1 := T 1%nat) in *. set (phi := 2 * A * ((0 + t1) / 2) - (0 + t1) / 2 * ((0 + t1) / 2)).
    assert (PH : 0 < phi) by (unfold phi; nra).
    replace ((b - a) * (0 - 1) / (b - a)) with (-1) by (field; lra). replace ((b - a) * (1 - 0) / (b - a)) with 1 by (field; lra).
    assert (0 < P * Q * phi) by (apply Rmult_lt_0_compat; [apply Rmult_lt_0_compat|]; auto).
    match goal with |- _ < _ + ?x => assert (E : x = 16 * (P * Q * phi)) by (unfold S1; field) end. rewrite E. lra.
Qed.
(* the layer that exchanges heat inside the design domain *)
Theorem C66_interface_layer s rho e q : List.length rho = ne (hs_H s) -> shapes (hs_H s) -> mesh_ok (hs_H s) -> (forall x, In x rho -> 0 < x < 1) ->
  (e < ne (hs_H s))%nat -> (q < nq (hs_H s))%nat ->
  lay_of s rho e q =
    let x := value_of (hs_H s) (nodal_average (hb_t (hs_H s)) rho) e q in
    let g := fun i => gradv (hs_H s) (nodal_average (hb_t (hs_H s)) rho) e q 0%nat i in
    exp (hs_p s * ln x) * (1 - x) ^ hs_q s * sqrt (g 0%nat ^ 2 + g 1%nat ^ 2 + g 2%nat ^ 2).
Proof.
  intros L Sh M Hr He Hq. pose proof (value_positive (hs_H s) rho e q Sh M L Hr He Hq) as Hx. cbn zeta. unfold lay_of, layer, pw.
  rewrite npow_pos by exact Hx. unfold Rpower, gnorm. rewrite vdot3_eq. do 2 f_equal. ring.
Qed.
