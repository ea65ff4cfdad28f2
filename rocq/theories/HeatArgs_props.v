(* C72: arguments of heat tasks; C73: the heat exchange objective. *)
From Verif Require Import Base Sums Material_model Material_proofs OC_model Mesh_model Fea_model Fea_spec Fea_proofs Fea_props Iter_model
  Heat_model Heat_spec Heat_proofs Heat_props HeatGrad_props HeatSens_props.
Open Scope R_scope.
Open Scope list_scope.

(* ---- C72 ---- *)
(* the densities are not read: updating the Robin condition for any design gives the
   task that was there *)
Theorem C72_design_robin_has_no_effect H nodes values Ss coef env dr k obj w tk rho :
  from_facets H nodes values (Some Ss) coef env dr k obj w = Ok tk -> update_robin_bc tk rho = Ok tk.
Proof.
  unfold from_facets. destruct nodes as [a|ns]; [discriminate|].
  match goal with |- bind ?x _ = _ -> _ => destruct x; [|discriminate] end. cbn [bind]. destruct Ss as [|S0 Ss]; [discriminate|].
  destruct (assemble_surface_robin (S0 :: Ss) coef env None) as [[bil lin]|] eqn:E; [|discriminate]. cbn [bind]. intros [= <-].
  unfold update_robin_bc. cbn [ht_surfaces ht_coef ht_env ht_H ht_nodes ht_values ht_design_robin ht_k ht_obj ht_weight].
  change (assemble_surface_robin (S0 :: Ss) coef env (Some rho)) with (assemble_surface_robin (S0 :: Ss) coef env None). rewrite E. reflexivity.
Qed.
Theorem C72_flag_irrelevant H nodes values Ss coef env k obj w dr dr' tk : from_facets H nodes values (Some Ss) coef env dr k obj w = Ok tk ->
  exists tk', from_facets H nodes values (Some Ss) coef env dr' k obj w = Ok tk' /\
    forall cf ip q sol slvm p rho, objectives_multi_load (mkHFem tk' cf ip q sol slvm) p rho = objectives_multi_load (mkHFem tk cf ip q sol slvm) p rho.
Proof.
  intros B. pose proof (fun rho => C72_design_robin_has_no_effect _ _ _ _ _ _ _ _ _ _ _ rho B) as U. revert B U.
  unfold from_facets. destruct nodes as [a|ns]; [discriminate|].
  match goal with |- bind ?x _ = _ -> _ => destruct x; [|discriminate] end. cbn [bind]. destruct Ss as [|S0 Ss]; [discriminate|].
  destruct (assemble_surface_robin (S0 :: Ss) coef env None) as [[bil lin]|] eqn:E; [|discriminate]. cbn [bind]. intros [= <-] U.
  eexists. split; [reflexivity|]. intros.
  unfold objectives_multi_load. unfold heat_system, kmin, n_tasks, update_robin_bc. cbn [hf_task ht_surfaces ht_coef ht_env ht_H ht_nodes ht_values ht_design_robin ht_k ht_obj ht_weight ht_bil ht_lin hf_interp hf_coeff hf_q hf_sol hf_slvm].
  change (assemble_surface_robin (S0 :: Ss) coef env (Some rho)) with (assemble_surface_robin (S0 :: Ss) coef env None). rewrite E. cbn [bind].
  assert (N : forall d, exists x, (match d with Some true => Ok (mkHTask H ns values (Some (S0 :: Ss)) coef env d k bil lin obj w) | _ => Ok (mkHTask H ns values (Some (S0 :: Ss)) coef env d k bil lin obj w) end) = Ok x)
    by (intros [[|]|]; eexists; reflexivity).
  destruct (N dr) as (x & ->). destruct (N dr') as (x' & ->). cbn [bind]. reflexivity.
Qed.
(* what is rejected, and with which exception *)
Theorem C72_rejected H nodes values Ss coef env dr k obj w :
  (forall a, nodes = Arr a -> from_facets H nodes values Ss coef env dr k obj w = Err AssertionError) /\
  (forall x, values = Int x -> from_facets H nodes values Ss coef env dr k obj w = Err AssertionError) /\
  (forall ns l, nodes = Lst ns -> values = FLst l -> List.length ns <> List.length l -> from_facets H nodes values Ss coef env dr k obj w = Err AssertionError).
Proof.
  unfold from_facets. split; [intros a ->; reflexivity|]. split.
  - intros x ->. destruct nodes; reflexivity.
  - intros ns l -> -> N. destruct (Nat.eqb_spec (List.length ns) (List.length l)); [contradiction|reflexivity].
Qed.
Definition flength (n : nat) (a : farg) : nat := match a with FLst l => List.length l | _ => n end.
Theorem C72_robin_rejected H ns v Ss coef env dr k obj w : Ss <> [] ->
  let build := from_facets H (Lst ns) (Flt v) (Some Ss) coef env dr k obj w in
  let number a := match a with Some (Flt _) | Some (FLst _) => True | _ => False end in
  (* an int or nothing instead of a float *)
  (~ number coef -> build = Err TypeError) /\
  (* as many coefficients as surfaces *)
  (forall c, coef = Some c -> number coef -> flength (List.length Ss) c <> List.length Ss -> build = Err ValueError) /\
  (forall c, coef = Some c -> number coef -> flength (List.length Ss) c = List.length Ss ->
     (~ number env -> build = Err TypeError) /\
     (forall e, env = Some e -> number env -> flength (List.length Ss) e <> List.length Ss -> build = Err ValueError) /\
     (forall e, env = Some e -> number env -> flength (List.length Ss) e = List.length Ss -> exists tk, build = Ok tk)).
Proof.
  intros HS build number. unfold build, from_facets. cbn [bind]. destruct Ss as [|S0 Ss]; [congruence|].
  unfold assemble_surface_robin. set (n := List.length (S0 :: Ss)).
  assert (PF : forall c, number (Some c) -> exists l, per_facet n (Some c) = Ok l /\ List.length l = flength n c).
  { intros [x|x|l] Hn; [|destruct Hn|]; cbn [per_facet flength]; eexists; split; try reflexivity. apply repeat_length. }
  assert (PN : forall a, ~ number a -> per_facet n a = Err TypeError).
  { intros [[x|x|l]|] Hn; try reflexivity; cbn in Hn; tauto. }
  split; [intros Hn; rewrite (PN _ Hn); reflexivity|]. split.
  - intros c -> Hn Hl. destruct (PF c Hn) as (l & -> & Ll). cbn [bind]. rewrite Ll. destruct (Nat.eqb_spec n (flength n c)); [congruence|reflexivity].
  - intros c -> Hn Hl. destruct (PF c Hn) as (l & -> & Ll). cbn [bind]. rewrite Ll, Hl, Nat.eqb_refl. cbn [negb].
    split; [intros Hn'; rewrite (PN _ Hn'); reflexivity|]. split.
    + intros e -> Hn' Hl'. destruct (PF e Hn') as (l' & -> & Ll'). cbn [bind]. rewrite Ll'. destruct (Nat.eqb_spec n (flength n e)); [congruence|reflexivity].
    + intros e -> Hn' Hl'. destruct (PF e Hn') as (l' & -> & Ll'). cbn [bind]. rewrite Ll', Hl', Nat.eqb_refl. cbn [negb bind]. eexists. reflexivity.
Qed.
(* a list of coefficients, one per surface, is accepted when the task is built; every
   analysis then fails unless there is one surface, one integration point per element
   or as many surfaces as integration points *)
Theorem C72_list_of_coefficients_refuted H ns v Ss hs env dr k obj w tk cf ip q sol slvm p rho :
  from_facets H (Lst ns) (Flt v) (Some Ss) (Some (FLst hs)) env dr k obj w = Ok tk ->
  (1 < List.length Ss)%nat -> (nq H <> 1)%nat -> List.length Ss <> nq H ->
  objectives_multi_load (mkHFem tk cf ip q sol slvm) p rho = Err ValueError.
Proof.
  intros B L1 N1 N2. pose proof (C72_design_robin_has_no_effect _ _ _ _ _ _ _ _ _ _ _ rho B) as U. revert B.
  unfold from_facets. cbn [bind]. destruct Ss as [|S0 Ss]; [discriminate|].
  destruct (assemble_surface_robin (S0 :: Ss) (Some (FLst hs)) env None) as [[bil lin]|] eqn:E; [|discriminate]. cbn [bind]. intros [= <-].
  assert (Lh : List.length hs = List.length (S0 :: Ss)).
  { unfold assemble_surface_robin in E. cbn [per_facet bind] in E. destruct (Nat.eqb_spec (List.length (S0 :: Ss)) (List.length hs)); [auto|discriminate]. }
  assert (Ee : exists e, env = Some e).
  { destruct env as [e|]; [eauto|]. unfold assemble_surface_robin in E. cbn [per_facet bind] in E. destruct (negb _); discriminate. }
  destruct Ee as (e & ->).
  unfold objectives_multi_load. cbn [hf_task n_tasks ht_values bind].
  match goal with |- bind ?x _ = _ => assert (X : exists y, x = Ok y) end.
  { cbn [ht_design_robin]. destruct dr as [[|]|]; try (eexists; reflexivity). rewrite U. eexists; reflexivity. }
  destruct X as (y & ->). cbn [bind].
  unfold heat_system. cbn [hf_task ht_coef ht_env ht_H]. unfold virtual_factors.
  assert (Bc : bcast (nq H) (FLst hs) = Err ValueError).
  { unfold bcast. destruct hs as [|h0 [|h1 hs]]; [cbn in Lh; lia|cbn in Lh, L1; lia|].
    destruct (Nat.eqb_spec (nq H) 1); [contradiction|]. destruct (Nat.eqb_spec (List.length (h0 :: h1 :: hs)) (nq H)); [congruence|reflexivity]. }
  unfold nq in Bc. rewrite Bc. reflexivity.
Qed.
(* and with as many surfaces as integration points the coefficient of surface q is used
   at integration point q of every element *)
Theorem C72_coefficients_at_integration_points_refuted H hs A hq hTq : (1 < List.length hs)%nat -> List.length hs = nq H ->
  virtual_factors (nq H) (FLst hs) (Flt A) = Ok (hq, hTq) -> forall q, (q < nq H)%nat -> hq q = nth q hs 0 /\ hTq q = nth q hs 0 * A.
Proof.
  intros L1 L E q Hq. unfold virtual_factors, bcast in E. destruct hs as [|h0 [|h1 hs]]; [cbn in L1; lia|cbn in L1; lia|].
  destruct (Nat.eqb_spec (nq H) 1); [lia|]. rewrite L, Nat.eqb_refl in E. cbn [bind] in E. injection E as <- <-.
  unfold rsum. cbn [bprod map fold_right]. destruct q as [|[|q]]; cbn [nth]; split; ring.
Qed.
Theorem C72_instance : exists tk,
  from_facets (mkHB (mkBasis 2 1 4 (fun _ _ => 1) (fun _ _ _ _ _ => 0)) (fun _ _ _ => / 2) [[0]; [1]]%nat) (Lst [[0]]%nat) (Flt 600)
    (Some [tip; tip]) (Some (FLst [4; 5])) (Some (Flt 300)) (Some true) 10 Compliance 0 = Ok tk.
Proof. eexists. reflexivity. Qed.

(* ---- C73 ---- *)
Lemma hx_value s A values rho Js Ts : hs_obj s = HeatExchange -> analysis s A values rho Js Ts ->
  let r := nodal_average (hb_t (hs_H s)) rho in
  Js = if Rleb (hx_den (hs_H s) r) tiny16 then map (fun _ => 0) Ts
       else weighted (hs_w s) (map (fun T => heat_exchange_objective (hs_H s) T r A (hs_h s)) Ts) (map (fun T => sum (hn (hs_H s)) T) Ts).
Proof.
  intros Eo (dr & tk & B & Hrun) r.
  pose proof (from_facets_robin _ _ _ _ _ _ _ _ _ _ _ B) as (UR & EH & En & Ev & Ek & Eob & Ew & HV).
  unfold objectives_multi_load in Hrun. cbn [hf_task] in Hrun. rewrite EH in Hrun.
  destruct (n_tasks tk) as [nc|]; [|discriminate]. cbn [bind] in Hrun.
  match type of Hrun with bind ?x _ = _ => destruct x; [|discriminate] end. cbn [bind] in Hrun.
  destruct (heat_system _ _ _) as [sys|] eqn:Es; [|discriminate]. cbn [bind] in Hrun.
  destruct (solve_heat _ _ _ _ _ _ _) as [us|]; [|discriminate]. cbn [bind] in Hrun.
  rewrite Eob, Eo in Hrun.
  destruct (heat_system_form (mkHFem tk (hs_c s) (hs_ip s) (hs_q s) (hs_sol s) (hs_slvm s)) _ _ _ _ _ _ UR Es) as (ks & lay & _ & _ & _ & _ & _ & Nd). cbn [hf_task] in Nd. rewrite EH in Nd.
  destruct UR as [(Ec & Ee & _)|(_ & _ & Ec & _)]; [|rewrite Ec in Nd; rewrite Nd in Hrun; discriminate].
  rewrite Ec in Nd. rewrite Nd in Hrun. fold r in Hrun. rewrite Ee, Ec, Ew in Hrun. cbn [full_arg bind] in Hrun.
  destruct (Rleb _ _); injection Hrun as <- <-; reflexivity.
Qed.
Lemma hx_num_excess H rho T A h : hx_num H T (nodal_average (hb_t H) rho) A h = - A * h * excess H rho T A.
Proof. unfold hx_num, excess. rewrite <- integral_scal. apply integral_ext. intros. ring. Qed.
(* what is reported *)
Theorem C73_value s A values rho Js Ts : hs_obj s = HeatExchange -> hs_w s = 0 -> analysis s A values rho Js Ts ->
  List.length Js = List.length Ts /\
  (1 / 10 ^ 16 < interface (hs_H s) rho -> forall i, (i < List.length Ts)%nat ->
     nth i Js 0 * interface (hs_H s) rho = - A * hs_h s * excess (hs_H s) rho (nth i Ts zv) A) /\
  (interface (hs_H s) rho <= 1 / 10 ^ 16 -> forall J, In J Js -> J = 0).
Proof.
  intros Eo Ew An. pose proof (hx_value s A values rho Js Ts Eo An) as E. cbv zeta in E. rewrite Ew in E.
  change (hx_den (hs_H s) (nodal_average (hb_t (hs_H s)) rho)) with (interface (hs_H s) rho) in E. unfold weighted in E.
  assert (R0 : Reqb 0 0 = true) by (apply Reqb_true; reflexivity). rewrite R0 in E. split; [|split].
  - rewrite E. destruct (Rleb _ _); apply map_length.
  - intros Hi i Li. assert (F : Rleb (interface (hs_H s) rho) tiny16 = false) by (apply Rleb_false; exact Hi). rewrite F in E. rewrite E.
    set (f := fun T => heat_exchange_objective _ T _ _ _). rewrite (nth_indep (map f Ts) 0 (f zv)) by (rewrite map_length; auto). rewrite map_nth. unfold f, heat_exchange_objective.
    change (hx_den (hs_H s) (nodal_average (hb_t (hs_H s)) rho)) with (interface (hs_H s) rho). rewrite F, hx_num_excess. field. lra.
  - intros Hi J HJ. assert (F : Rleb (interface (hs_H s) rho) tiny16 = true) by (apply Rleb_true; exact Hi). rewrite F in E. rewrite E in HJ.
    apply in_map_iff in HJ. destruct HJ as (T & <- & _). reflexivity.
Qed.
Lemma interface_uniform s x : shapes (hs_H s) -> mesh_ok (hs_H s) -> interface (hs_H s) (uniform s x) = 0.
Proof.
  intros Sh M. unfold interface. rewrite (integral_ext _ _ (fun e q => 0 * 0)); [rewrite (integral_scal _ 0 (fun _ _ => 0)); ring|].
  intros e q He Hq. unfold gnorm. rewrite vdot3_eq. unfold uniform. rewrite !grad_nodal_uniform by (auto; lia). replace (0 * 0 + 0 * 0 + 0 * 0) with 0 by ring. rewrite sqrt_0. ring.
Qed.
(* a uniform design exchanges nothing *)
Theorem C73_uniform_design_is_zero s A values x Js Ts : hs_obj s = HeatExchange -> shapes (hs_H s) -> mesh_ok (hs_H s) ->
  analysis s A values (uniform s x) Js Ts -> forall J, In J Js -> J = 0.
Proof.
  intros Eo Sh M An J HJ. pose proof (hx_value s A values _ Js Ts Eo An) as E. cbv zeta in E.
  change (hx_den (hs_H s) (nodal_average (hb_t (hs_H s)) (uniform s x))) with (interface (hs_H s) (uniform s x)) in E. rewrite interface_uniform in E by auto.
  assert (F : Rleb 0 tiny16 = true) by (apply Rleb_true; unfold tiny16; lra). rewrite F in E. rewrite E in HJ. apply in_map_iff in HJ. destruct HJ as (T & <- & _). reflexivity.
Qed.
(* in ambient 0 every design exchanges nothing *)
Theorem C73_ambient_zero_refuted s values rho Js Ts : hs_obj s = HeatExchange -> hs_w s = 0 ->
  analysis s 0 values rho Js Ts -> forall J, In J Js -> J = 0.
Proof.
  intros Eo Ew An J HJ. destruct (C73_value s 0 values rho Js Ts Eo Ew An) as (L & V & Z).
  destruct (Rlt_le_dec (1 / 10 ^ 16) (interface (hs_H s) rho)) as [Hi|Hi]; [|now apply Z].
  apply (In_nth _ _ 0) in HJ. destruct HJ as (i & Li & <-). specialize (V Hi i ltac:(lia)).
  replace (- 0 * hs_h s * excess (hs_H s) rho (nth i Ts zv) 0) with 0 in V by ring. apply Rmult_integral in V. destruct V; [auto|lra].
Qed.
(* bounds *)
Theorem C73_bounds s A values rho Js Ts a b : hs_obj s = HeatExchange -> hs_w s = 0 -> shapes (hs_H s) -> analysis s A values rho Js Ts ->
  0 <= A -> 0 <= hs_h s -> 1 / 10 ^ 16 < interface (hs_H s) rho ->
  forall i, (i < List.length Ts)%nat -> (forall v, (v < hn (hs_H s))%nat -> a <= nth i Ts zv v <= b) ->
  - A * hs_h s * (b - A) <= nth i Js 0 <= - A * hs_h s * (a - A).
Proof.
  intros Eo Ew Sh An HA Hh Hi i Li HT. destruct (C73_value s A values rho Js Ts Eo Ew An) as (L & V & _). specialize (V Hi i Li).
  assert (X : (a - A) * interface (hs_H s) rho <= excess (hs_H s) rho (nth i Ts zv) A <= (b - A) * interface (hs_H s) rho).
  { unfold interface. rewrite <- !integral_scal. unfold excess.
    assert (P : forall F G, (forall e q, (e < ne (hs_H s))%nat -> (q < nq (hs_H s))%nat -> F e q <= G e q) -> integral (hs_H s) F <= integral (hs_H s) G).
    { intros F G Le. pose proof (integral_nonneg (hs_H s) (fun e q => 1 * G e q + (-1) * F e q) Sh) as N.
      assert (N1 : 0 <= integral (hs_H s) (fun e q => 1 * G e q + (-1) * F e q)) by (apply N; intros e q He Hq; pose proof (Le e q He Hq); lra).
      rewrite integral_lin in N1. lra. }
    split; apply P; intros e q He Hq; apply Rmult_le_compat_r; try apply gnorm_nonneg;
      destruct (value_range (hs_H s) (nth i Ts zv) e q a b Sh He Hq HT); lra. }
  assert (I0 : 0 < interface (hs_H s) rho) by lra. assert (Ah : 0 <= A * hs_h s) by now apply Rmult_le_pos.
  split; apply (Rmult_le_reg_r (interface (hs_H s) rho)); auto; rewrite V; nra.
Qed.
(* another zero of the temperature scale changes the objective, not the physics: the
   value is multiplied by (A+c)/A *)
Theorem C73_temperature_scale_refuted s D A g c rho J T J' T' : hs_obj s = HeatExchange -> hs_w s = 0 -> well_set s D rho ->
  analysis s A (Flt g) rho [J] [T] -> analysis s (A + c) (Flt (g + c)) rho [J'] [T'] ->
  (forall v, (v < hn (hs_H s))%nat -> T' v = T v + c) /\ A * J' = (A + c) * J.
Proof.
  intros Eo Ew W An An'. pose proof W as (_ & _ & [Sh SS _ _ _ _ _ _ _] & _).
  destruct (analysis_temperature s D A (Flt g) _ _ _ W An) as (_ & T1). specialize (T1 0%nat ltac:(cbn; lia)). cbn [values_list nth] in T1.
  destruct (analysis_temperature s D (A + c) (Flt (g + c)) _ _ _ W An') as (_ & T2). specialize (T2 0%nat ltac:(cbn; lia)). cbn [values_list nth] in T2.
  assert (ET : forall v, (v < hn (hs_H s))%nat -> T' v = T v + c).
  { intros v Hv. pose proof (temperature_combine _ _ _ _ _ _ _ _ _ _ _ _ 1 0 c Sh SS T1 T1) as C.
    replace (1 * g + 0 * g + c) with (g + c) in C by ring. replace (1 * A + 0 * A + c) with (A + c) in C by ring.
    rewrite (well_unique s D rho _ _ _ _ W T2 C v Hv). ring. }
  split; [exact ET|].
  destruct (C73_value s A (Flt g) rho _ _ Eo Ew An) as (_ & V & Z). destruct (C73_value s (A + c) (Flt (g + c)) rho _ _ Eo Ew An') as (_ & V' & Z').
  destruct (Rlt_le_dec (1 / 10 ^ 16) (interface (hs_H s) rho)) as [Hi|Hi].
  - specialize (V Hi 0%nat ltac:(cbn; lia)). specialize (V' Hi 0%nat ltac:(cbn; lia)). cbn [nth] in V, V'.
    assert (EX : excess (hs_H s) rho T' (A + c) = excess (hs_H s) rho T A).
    { unfold excess. apply integral_ext. intros e q He Hq.
      rewrite (value_ext (hs_H s) T' (fun i => 1 * T i + c * one i)) by (intros; rewrite ET by auto; unfold one; ring). rewrite value_lin, value_one by auto. ring. }
    rewrite EX in V'. apply (Rmult_eq_reg_r (interface (hs_H s) rho)); [|lra].
    rewrite (Rmult_assoc A), V', (Rmult_assoc (A + c)), V. ring.
  - rewrite (Z Hi J (or_introl eq_refl)), (Z' Hi J' (or_introl eq_refl)). ring.
Qed.
(* weighted with the averaged temperature: with two or more load cases the mean of the
   reported values is the constant w - 1, whatever the design, if no load case has a
   positive exchange or a negative mean temperature *)
Lemma rsum_zipwith_lin (f : R -> R -> R) a b l m : List.length l = List.length m -> (forall x y, f x y = a * x + b * y) ->
  rsum (zipwith f l m) = a * rsum l + b * rsum m.
Proof.
  intros L E. revert m L. induction l as [|x l IH]; intros [|y m] L; try discriminate; [unfold rsum; cbn; ring|].
  injection L as L. specialize (IH m L). unfold rsum in *. cbn [zipwith fold_right]. rewrite IH, E. ring.
Qed.
Lemma mean_abs_neg l : (forall x, In x l -> x <= 0) -> rsum (map Rabs l) = - rsum l.
Proof.
  induction l as [|x l IH]; intros P; unfold rsum in *; cbn [map fold_right]; [ring|].
  rewrite IH by (intros; apply P; now right). rewrite Rabs_left1 by (apply P; now left). ring.
Qed.
Lemma mean_abs_pos l : (forall x, In x l -> 0 <= x) -> rsum (map Rabs l) = rsum l.
Proof.
  induction l as [|x l IH]; intros P; unfold rsum in *; cbn [map fold_right]; [ring|].
  rewrite IH by (intros; apply P; now right). rewrite Rabs_pos_eq by (apply P; now left). ring.
Qed.
Theorem C73_weighted_mean_is_constant_refuted s A vs rho Js Ts : hs_obj s = HeatExchange -> hs_w s <> 0 ->
  analysis s A (FLst vs) rho Js Ts -> (1 < List.length Ts)%nat ->
  1 / 10 ^ 16 < interface (hs_H s) rho ->
  let exchange T := - A * hs_h s * excess (hs_H s) rho T A / interface (hs_H s) rho in
  let total T := sum (hn (hs_H s)) T in
  (forall T, In T Ts -> exchange T <= 0 /\ 0 <= total T) ->
  1 / 10 ^ 12 <= - rmean (map exchange Ts) -> 1 / 10 ^ 12 <= rmean (map total Ts) ->
  rmean Js = hs_w s - 1.
Proof.
  intros Eo Ew An L1 Hi exchange total Hs Hx Ha. pose proof (hx_value s A _ rho Js Ts Eo An) as E. cbv zeta in E.
  change (hx_den (hs_H s) (nodal_average (hb_t (hs_H s)) rho)) with (interface (hs_H s) rho) in E.
  assert (F : Rleb (interface (hs_H s) rho) tiny16 = false) by (apply Rleb_false; exact Hi). rewrite F in E.
  assert (EX : map (fun T => heat_exchange_objective (hs_H s) T (nodal_average (hb_t (hs_H s)) rho) A (hs_h s)) Ts = map exchange Ts).
  { apply map_ext. intros T. unfold heat_exchange_objective. change (hx_den (hs_H s) (nodal_average (hb_t (hs_H s)) rho)) with (interface (hs_H s) rho).
    rewrite F, hx_num_excess. reflexivity. }
  rewrite EX in E. fold total in E. unfold weighted in E.
  assert (R0 : Reqb (hs_w s) 0 = false) by (apply Reqb_false; exact Ew). rewrite R0 in E.
  rewrite (map_length exchange) in E. destruct (Nat.ltb_spec 1 (List.length Ts)) as [_|]; [|lia].
  set (X := map exchange Ts) in *. set (Y := map total Ts) in *.
  assert (LX : List.length X = List.length Ts) by apply map_length. assert (LY : List.length Y = List.length Ts) by apply map_length.
  assert (PX : forall x, In x X -> x <= 0) by (intros x Hx'; apply in_map_iff in Hx'; destruct Hx' as (T & <- & HT); apply Hs; auto).
  assert (PY : forall y, In y Y -> 0 <= y) by (intros y Hy; apply in_map_iff in Hy; destruct Hy as (T & <- & HT); apply Hs; auto).
  assert (MX : rmean (map Rabs X) = - rmean X) by (unfold rmean; rewrite mean_abs_neg, map_length by auto; unfold Rdiv; ring).
  assert (MY : rmean (map Rabs Y) = rmean Y) by (unfold rmean; rewrite mean_abs_pos, map_length by auto; reflexivity).
  rewrite MX, MY in E. rewrite (Rmax_left (- rmean X)), (Rmax_left (rmean Y)) in E by (unfold tiny; lra).
  assert (NP : 0 < INR (List.length Ts)) by (apply lt_0_INR; lia).
  assert (LJ : List.length Js = List.length Ts) by (rewrite E, zipwith_length; congruence).
  unfold rmean at 1. rewrite LJ, E. rewrite (rsum_zipwith_lin _ (/ - rmean X) (hs_w s * / rmean Y)) by (try congruence; intros; unfold Rdiv; ring).
  assert (SX : rsum X = rmean X * INR (List.length Ts)) by (unfold rmean; rewrite LX; field; lra).
  assert (SY : rsum Y = rmean Y * INR (List.length Ts)) by (unfold rmean; rewrite LY; field; lra).
  rewrite SX, SY. field. repeat split; lra.
Qed.
(* instance: two bars of densities 1 and 1/2 (the vertices then have densities 1 and
   1/2 as well, see C67), interface 1, held at 600 and 500 in ambient 300 *)
Definition ex_hx (w : R) : hsettings :=
  mkHS (bars 2) [[0]; [0]]%nat [tip] 4 10 (1 / 100) 3 HeatExchange w SIMP 4 HAuto (fun A bs => map (cramer A) bs).
Lemma ex_hx_well w : well_set (ex_hx w) [0%nat] [1; / 2].
Proof.
  split; [reflexivity|]. split; [|split; [|apply cramer_exact]].
  - intros D' [<-|[<-|[]]] i; reflexivity.
  - constructor; cbn [ex_hx hs_H hs_Ss hs_h hs_k hs_c hs_p]; try lra.
    + apply bars_shapes.
    + intros S [<-|[]]. apply tip_shapes.
    + apply bars_anchored. lia.
    + reflexivity.
    + intros x [<-|[<-|[]]]; lra.
Qed.
Lemma ex_nodal : nodal_average (hb_t (bars 2)) [1; / 2] 0%nat = 1 /\ nodal_average (hb_t (bars 2)) [1; / 2] 1%nat = / 2.
Proof.
  unfold nodal_average, node_count, add_at, np_repeat. cbn [bars hb_t repeat map List.concat app List.length zipwith Nat.eqb rsum fold_right]. unfold rsum. cbn [fold_right].
  split; rewrite Rmax_left by lra; field.
Qed.
Lemma ex_gnorm e q : gnorm (gradv (bars 2) (nodal_average (hb_t (bars 2)) [1; / 2]) e q) = / 2.
Proof.
  destruct ex_nodal as (N0 & N1). unfold gnorm. rewrite vdot3_eq. unfold gradv, grad_of. cbn [bars hb_B fb_n fb_grad]. rewrite !sum2. cbn [Nat.eqb].
  cbn [bars] in N0, N1. rewrite N0, N1.
  replace ((1 * -1 + / 2 * 1) * (1 * -1 + / 2 * 1) + (1 * 0 + / 2 * 0) * (1 * 0 + / 2 * 0) + (1 * 0 + / 2 * 0) * (1 * 0 + / 2 * 0)) with (/ 2 * / 2) by field.
  apply sqrt_square. lra.
Qed.
Lemma ex_interface : interface (bars 2) [1; / 2] = 1.
Proof.
  unfold interface, integral. cbn [hb_B fb_ne fb_nq fb_dx bars]. rewrite sum2, !sum1. change (mkHB _ _ _) with (bars 2). rewrite !ex_gnorm. field.
Qed.
Lemma ex_excess T A : excess (bars 2) [1; / 2] T A = (T 0%nat + T 1%nat) / 2 - A.
Proof.
  unfold excess, integral. cbn [hb_B fb_ne fb_nq fb_dx bars]. rewrite sum2, !sum1. change (mkHB _ _ _) with (bars 2). rewrite !ex_gnorm.
  unfold value_of, hn. cbn [bars hb_B fb_n hb_val]. rewrite !sum2. field.
Qed.
Lemma ex_lay w : exists l, 0 <= l <= 1 /\ forall e q, lay_of (ex_hx w) [1; / 2] e q = l.
Proof.
  set (l := pw (3 / 4) 3 * (1 - 3 / 4) ^ 4 * / 2). exists l.
  assert (E : pw (3 / 4) 3 = 27 / 64).
  { unfold pw, npow. destruct (Rlt_dec 0 (3 / 4)); [|lra]. replace 3 with (INR 3) at 2 by (cbn; ring). rewrite Rpower_pow by lra. cbn [pow]. field. }
  split; [unfold l; rewrite E; cbn [pow]; lra|]. intros e q. unfold lay_of, layer. cbn [ex_hx hs_H hs_p hs_q]. rewrite ex_gnorm.
  assert (V : value_of (bars 2) (nodal_average (hb_t (bars 2)) [1; / 2]) e q = 3 / 4).
  { destruct ex_nodal as (N0 & N1). unfold value_of, hn. cbn [bars hb_B fb_n hb_val]. rewrite sum2. cbn [bars] in N0, N1. rewrite N0, N1. field. }
  rewrite V. reflexivity.
Qed.
Lemma ex_temperature w A vs Js Ts i : analysis (ex_hx w) A (FLst vs) [1; / 2] Js Ts -> (i < List.length vs)%nat -> A <= nth i vs 0 ->
  nth i Ts zv 0%nat = nth i vs 0 /\ A <= nth i Ts zv 1%nat.
Proof.
  intros An Hi HA. destruct (analysis_temperature _ _ A (FLst vs) _ _ _ (ex_hx_well w) An) as (_ & T1).
  specialize (T1 i Hi). cbn [values_list] in T1. set (T := nth i Ts zv) in *. set (g := nth i vs 0) in *.
  apply temperature_form in T1; [|apply bars_shapes|intros S [<-|[]]; apply tip_shapes]. destruct T1 as (B & Wf).
  assert (B0 : T 0%nat = g) by (apply B; [cbn; lia|now left]). split; [exact B0|].
  specialize (Wf (unit 1) ltac:(intros j Hj [<-|[]]; reflexivity)). destruct (ex_lay w) as (l & Hl & El).
  rewrite (exch0_lay _ _ _ _ (fun _ _ => l)) in Wf by (intros; apply El). unfold aform in Wf.
  rewrite (exch0_lay _ _ _ (lay_of _ _) (fun _ _ => l)) in Wf by (intros; apply El).
  unfold conducted, exch0, integral, surf_integral, value_of, sval_of in Wf.
  cbn [ex_hx hs_H hs_Ss hs_h bars hb_B fb_ne fb_nq fb_dx map rsum fold_right tip sf_np sf_val sf_dx hb_val] in Wf.
  rewrite !sum2, !sum1, !vdot3_eq in Wf. unfold gradv, grad_of, hn in Wf. cbn [bars hb_B fb_n fb_grad] in Wf. rewrite !sum2 in Wf. cbn [Nat.eqb] in Wf.
  unfold unit, one in Wf. cbn [Nat.eqb] in Wf. unfold rsum in Wf. cbn [fold_right] in Wf. rewrite ?sum1, ?sum2 in Wf. cbn [Nat.eqb] in Wf. rewrite B0 in Wf.
  set (k0 := kap_of _ _ 0%nat) in Wf. set (k1 := kap_of _ _ 1%nat) in Wf.
  assert (K0 : 10 <= k0).
  { unfold k0, kap_of. cbn [ex_hx hs_ip hs_k hs_c hs_p conductivity nth]. destruct (Rlt_dec 0 1); [|lra]. unfold Rpower. rewrite ln_1, Rmult_0_r, exp_0. lra. }
  assert (K1 : 0 < k1) by (apply conductivity_pos; cbn; lra).
  assert (E : (k0 + k1 + 4 + 2 * l) * (T 1%nat - A) = (k0 + k1 - 2 * l) * (g - A)) by lra.
  assert (0 <= (k0 + k1 - 2 * l) * (g - A)) by (apply Rmult_le_pos; lra).
  destruct (Rle_dec A (T 1%nat)) as [|N]; [auto|exfalso].
  assert ((k0 + k1 + 4 + 2 * l) * (T 1%nat - A) < 0); [|lra]. nra.
Qed.
Theorem C73_instance w : exists Js Ts, analysis (ex_hx w) 300 (FLst [600; 500]) [1; / 2] Js Ts /\ List.length Ts = 2%nat /\
  1 / 10 ^ 16 < interface (bars 2) [1; / 2] /\
  (w = 0 -> nth 0 Js 0 < 0) /\ (w <> 0 -> rmean Js = w - 1).
Proof.
  destruct (C66_analysis_succeeds _ _ 300 (FLst [600; 500]) _ (ex_hx_well w) ltac:(discriminate) ltac:(discriminate) eq_refl) as (Js & Ts & An & LJ).
  exists Js, Ts. destruct (analysis_temperature _ _ 300 (FLst [600; 500]) _ _ _ (ex_hx_well w) An) as (LT & _). cbn [values_list List.length] in LT.
  split; [exact An|]. split; [exact LT|]. assert (I1 : 1 / 10 ^ 16 < interface (bars 2) [1; / 2]) by (rewrite ex_interface; lra). split; [exact I1|].
  destruct (ex_temperature w 300 [600; 500] Js Ts 0 An ltac:(cbn; lia) ltac:(cbn; lra)) as (A0 & A1).
  destruct (ex_temperature w 300 [600; 500] Js Ts 1 An ltac:(cbn; lia) ltac:(cbn; lra)) as (B0 & B1). cbn [nth] in A0, B0.
  destruct Ts as [|T [|T' [|? ?]]]; try discriminate. cbn [nth] in A0, A1, B0, B1. split.
  - intros ->. destruct (C73_value (ex_hx 0) 300 _ _ _ _ eq_refl eq_refl An) as (_ & V & _). specialize (V I1 0%nat ltac:(cbn; lia)).
    cbn [ex_hx hs_H hs_h nth] in V. rewrite ex_interface, ex_excess, A0 in V. lra.
  - intros Hw.
    refine (C73_weighted_mean_is_constant_refuted (ex_hx w) 300 _ _ _ _ eq_refl Hw An ltac:(cbn; lia) I1 _ _ _).
    + intros U HU. cbn [ex_hx hs_H hs_h]. rewrite ex_interface, ex_excess. unfold hn. cbn [bars hb_B fb_n]. rewrite sum2.
      destruct HU as [<-|[<-|[]]]; split; lra.
    + unfold rmean. cbn [map List.length INR]. unfold rsum. cbn [fold_right ex_hx hs_H hs_h]. rewrite ex_interface, !ex_excess. lra.
    + unfold rmean. cbn [map List.length INR]. unfold rsum. cbn [fold_right ex_hx hs_H hs_h]. unfold hn. cbn [bars hb_B fb_n]. rewrite !sum2. lra.
Qed.
(* C68: the hypotheses of the maximum principle hold there too *)
Theorem C68_instance w : well_set (ex_hx w) [0%nat] [1; / 2] /\
  no_positive_coupling (bars 2) (fun e => conductivity SIMP 10 (1 / 100) 3 (nth e [1; / 2] 0)) [tip] 4
    (layer (bars 2) (nodal_average (hb_t (bars 2)) [1; / 2]) 3 4) /\
  exists Js Ts, analysis (ex_hx w) 300 (FLst [600; 500]) [1; / 2] Js Ts.
Proof.
  split; [apply ex_hx_well|]. split.
  2: { destruct (C73_instance w) as (Js & Ts & An & _). exists Js, Ts. exact An. }
  intros a b Ha Hb N. destruct (ex_lay w) as (l & Hl & El). change (layer _ _ _ _) with (lay_of (ex_hx w) [1; / 2]).
  rewrite exch0_amb0. rewrite (exch0_lay _ _ _ (lay_of _ _) (fun _ _ => l)) by (intros; apply El).
  set (k := fun e => conductivity _ _ _ _ _).
  assert (K0 : 10 <= k 0%nat).
  { unfold k. cbn [conductivity nth]. destruct (Rlt_dec 0 1); [|lra]. unfold Rpower. rewrite ln_1, Rmult_0_r, exp_0. lra. }
  assert (K1 : 0 < k 1%nat) by (apply conductivity_pos; cbn; lra).
  unfold conducted, exch0, integral, surf_integral, value_of, sval_of, hn in *.
  cbn [bars hb_B fb_n fb_ne fb_nq fb_dx map rsum fold_right tip sf_np sf_val sf_dx hb_val] in *.
  rewrite !sum2, !sum1, !vdot3_eq. unfold gradv, grad_of, unit, rsum. cbn [bars hb_B fb_n fb_grad fold_right]. rewrite ?sum1, ?sum2. cbn [Nat.eqb].
  destruct a as [|[|a]]; [| |lia]; (destruct b as [|[|b]]; [| |lia]); try congruence; cbn [Nat.eqb]; rewrite ?sum2; cbn [Nat.eqb]; lra.
Qed.
