(* C66 (temperatures), C67 (nodal densities), C68 (physical laws). *)
From Verif Require Import Base Sums Material_model OC_model Mesh_model Fea_model Fea_spec Fea_proofs Fea_props Iter_model Heat_model Heat_spec Heat_proofs.
Open Scope R_scope.
Open Scope list_scope.

Definition zv : vec := fun _ => 0.
Lemma zipwith_nth3 {A B C} (f : A -> B -> C) l m k a b c : (k < List.length l)%nat -> (k < List.length m)%nat ->
  nth k (zipwith f l m) c = f (nth k l a) (nth k m b).
Proof.
  revert m k. induction l as [|x l IH]; intros m k Hl Hm; [cbn in Hl; lia|]. destruct m as [|y m]; [cbn in Hm; lia|].
  destruct k; [reflexivity|]. cbn [zipwith nth]. apply IH; cbn in *; lia.
Qed.
Lemma zipwith_len_min {A B C} (f : A -> B -> C) l m : List.length (zipwith f l m) = Nat.min (List.length l) (List.length m).
Proof. revert m; induction l; intros [|b m]; cbn; auto. Qed.
(* columns of a solve: the matrix belongs to the first node set, the right-hand
   side to the set of the load case *)
Lemma solve_heat_columns n sol slvm K emit ns vals nc us :
  solve_heat sol slvm K emit ns vals nc = Ok us -> nc = List.length vals ->
  (List.length ns = List.length vals \/ (List.length vals = 1%nat /\ ns <> [])) ->
  (forall bs, Forall2 (solves n (enforceK (nth 0 ns []) K)) bs (slvm (enforceK (nth 0 ns []) K) bs)) ->
  List.length us = List.length vals /\ forall i, (i < List.length vals)%nat ->
    solves n (enforceK (nth 0 ns []) K) (enforceV (nth i ns []) (nth i vals 0) emit) (nth i us zv).
Proof.
  unfold solve_heat. intros E -> L Ex. destruct sol; try discriminate; (destruct vals as [|v vals];
    [injection E as <-; cbn; split; [auto|lia]|]); (destruct ns as [|D0 ns]; [discriminate|]);
  (set (bs := zipwith _ _ _) in E; set (vs := v :: vals) in *;
   assert (Lb : List.length bs = List.length vs) by (unfold bs; rewrite zipwith_len_min; destruct L as [->|(-> & _)]; [lia|cbn; lia]);
   assert (F := Ex bs); cbn [nth] in F; assert (Lu := Forall2_len _ _ _ F);
   rewrite <- Lu, Lb, Nat.eqb_refl in E; injection E as <-; split; [congruence|]; intros i Hi;
   pose proof (Forall2_nth2 _ _ _ i zv zv F ltac:(lia)) as S;
   replace (nth i bs zv) with (enforceV (nth i (D0 :: ns) []) (nth i vs 0) emit) in S; [exact S|];
   symmetry; unfold bs; apply (zipwith_nth3 (fun D v => enforceV D v emit)); [destruct L as [->|(E1 & _)]; [auto|rewrite E1 in Hi; cbn; lia]|auto]).
Qed.

(* the state equation of a sound problem *)
Lemma heat_columns F p rho Js Ts Ss h A H ns values k c D0 :
  let tk := hf_task F in
  uniform_robin tk Ss h A -> ht_H tk = H -> ht_nodes tk = ns -> ht_values tk = values -> ht_k tk = k -> hf_coeff F = c ->
  (match values with FLst l => List.length l = List.length ns | Flt _ => True | Int _ => False end) -> nth_error ns 0 = Some D0 ->
  sound H D0 Ss h k c p rho -> exact_solver (hn H) (hf_slvm F) ->
  objectives_multi_load F p rho = Ok (Js, Ts) ->
  exists sys ks lay, heat_system F p rho = Ok sys /\
    (forall e, (e < ne H)%nat -> nth e ks 0 = conductivity (hf_interp F) k c p (nth e rho 0)) /\ List.length ks = List.length rho /\
    lay = layer H (nodal_average (hb_t H) rho) p (hf_q F) /\
    (forall e q, (e < ne H)%nat -> (q < nq H)%nat -> 0 <= lay e q) /\ (forall e, (e < ne H)%nat -> 0 < nth e ks 0) /\
    (forall T v, dot (hn H) v (mv (hn H) (sy_K sys) T) = aform H (fun e => nth e ks 0) Ss h lay T v) /\
    (forall T v, dot (hn H) v (mv (hn H) (sy_K sys) T) - dot (hn H) v (sy_emit sys) =
       conducted H (fun e => nth e ks 0) T v + exchanged H Ss h A lay T v) /\
    List.length Ts = List.length (values_list values) /\
    forall i, (i < List.length (values_list values))%nat ->
      solves (hn H) (enforceK D0 (sy_K sys)) (enforceV (nth i ns []) (nth i (values_list values) 0) (sy_emit sys)) (nth i Ts zv).
Proof.
  intros tk UR EH En Ev Ek Ec HV H0 Sd Ex E. unfold objectives_multi_load in E. fold tk in E. rewrite EH, En, Ev in E.
  assert (EN : n_tasks tk = Ok (List.length (values_list values))).
  { unfold n_tasks. rewrite Ev. destruct values; [reflexivity|contradiction|reflexivity]. }
  rewrite EN in E. cbn [bind] in E.
  match type of E with bind ?x _ = _ => destruct x; [|discriminate] end. cbn [bind] in E. destruct (heat_system F p rho) as [sys|] eqn:Es; [|discriminate]. cbn [bind] in E.
  destruct (heat_system_form F p rho sys Ss h A UR Es) as (ks & lay & Em & Elay & _ & EK & EW & _). fold tk in Em, Elay, EK, EW.
  rewrite EH in *. destruct Sd as [Sh SS An Hh Hk Hc Hp Lr Hr].
  assert (Ekm : kmin F = k * c) by (unfold kmin; fold tk; congruence). rewrite Ekm, Ek in Em.
  destruct (moduli_conductivity _ _ _ _ _ _ Hp Hr Em) as (Lk & Nk).
  assert (Hl : forall e q, (e < ne H)%nat -> (q < nq H)%nat -> 0 <= lay e q) by (intros; subst lay; now apply layer_nonneg).
  assert (Pk : forall e, (e < ne H)%nat -> 0 < nth e ks 0).
  { intros e He. rewrite Nk by lia. apply conductivity_pos; auto. apply Hr. apply nth_In. lia. }
  exists sys, ks, lay. split; [reflexivity|]. split; [intros e He; apply Nk; lia|]. split; [auto|]. split; [auto|]. split; [auto|].
  split; [auto|]. split; [auto|]. split; [auto|].
  destruct (solve_heat _ _ _ _ _ _ _) as [us|] eqn:Eu; [|discriminate]. cbn [bind] in E.
  assert (ED : nth 0 ns [] = D0) by (destruct ns; [discriminate|cbn in *; congruence]).
  assert (C := solve_heat_columns (hn H) _ _ _ _ _ _ _ _ Eu eq_refl).
  rewrite ED in C. specialize (C ltac:(destruct values; cbn; [right; split; [auto|destruct ns; [discriminate|congruence]]|contradiction|left; congruence])).
  specialize (C ltac:(intros bs; apply Ex; apply (regular H (fun e => nth e ks 0) D0 Ss h lay); auto)).
  assert (ETs : us = Ts).
  { destruct (ht_obj tk); [congruence| |congruence]. destruct (sy_nodal sys) as [r|]; [|discriminate].
    destruct (Rleb _ _); [congruence|]. destruct (full_arg (hn H) (ht_env tk)); [|discriminate]. cbn [bind] in E.
    destruct (full_arg (hn H) (ht_coef tk)); [|discriminate]. cbn [bind] in E. congruence. }
  subst us. exact C.
Qed.
Lemma conducted_cond H ks k T v : (forall e, (e < ne H)%nat -> nth e ks 0 = k e) -> conducted H (fun e => nth e ks 0) T v = conducted H k T v.
Proof. apply cond_k_ext. Qed.

(* C66: every load case has the prescribed temperature at its nodes and balances
   heat everywhere else, if the load cases share their nodes *)
Section run.
  Variables (H : hbasis) (ns : list (list nat)) (values : farg) (k cf p : R) (obj : hobjective) (w : R) (ip : interp) (q : nat)
    (sol : hsolver) (slvm : mat -> list vec -> list vec) (rho : list R) (tk : htask) (Js : list R) (Ts : list vec) (D0 : list nat).
  Let kap := fun e => conductivity ip k cf p (nth e rho 0).
  Let lay := layer H (nodal_average (hb_t H) rho) p q.
  Hypothesis (HD : nth_error ns 0 = Some D0) (Hex : exact_solver (hn H) slvm).
  Hypothesis Hrun : objectives_multi_load (mkHFem tk cf ip q sol slvm) p rho = Ok (Js, Ts).

  Lemma temperatures_gen Ss h A :
    uniform_robin tk Ss h A /\ ht_H tk = H /\ ht_nodes tk = ns /\ ht_values tk = values /\ ht_k tk = k /\ ht_obj tk = obj /\ ht_weight tk = w /\
    match values with FLst l => List.length l = List.length ns | _ => True end ->
    sound H D0 Ss h k cf p rho ->
    List.length Ts = List.length (values_list values) /\
    forall i, (i < List.length (values_list values))%nat -> same_set (nth i ns []) D0 ->
      temperature H kap D0 (nth i (values_list values) 0) Ss h A lay (nth i Ts zv).
  Proof.
    intros (UR & EH & En & Ev & Ek & _ & _ & HV) Sd.
    assert (HV' : match values with FLst l => List.length l = List.length ns | Flt _ => True | Int _ => False end).
    { destruct values; auto. unfold objectives_multi_load in Hrun. cbn [hf_task] in Hrun. unfold n_tasks in Hrun. rewrite Ev in Hrun. discriminate. }
    destruct (heat_columns (mkHFem tk cf ip q sol slvm) p rho Js Ts Ss h A H ns values k cf D0 UR EH En Ev Ek eq_refl HV' HD Sd Hex Hrun)
      as (sys & ks & lay' & _ & Nk & _ & -> & _ & _ & _ & EW & LT & S).
    split; [exact LT|]. intros i Hi Same. specialize (S i Hi).
    apply (solves_same _ D0 (nth i ns [])) in S; [|intros j; symmetry; apply Same].
    apply enforced_solve in S. destruct S as (S0 & SF). split.
    - intros j Hj HjD. apply S0; auto. now apply Same.
    - intros v Hv. specialize (SF v ltac:(intros j Hj HjD; apply Hv; auto; now apply Same)).
      rewrite EW in SF. rewrite (conducted_cond H ks kap) in SF by exact Nk. exact SF.
  Qed.
  Theorem C66_temperatures Ss h A dr :
    from_facets H (Lst ns) values (Some Ss) (Some (Flt h)) (Some (Flt A)) dr k obj w = Ok tk ->
    sound H D0 Ss h k cf p rho -> (forall D, In D ns -> same_set D D0) ->
    List.length Ts = List.length (values_list values) /\
    forall i, (i < List.length (values_list values))%nat ->
      temperature H kap D0 (nth i (values_list values) 0) Ss h A lay (nth i Ts zv).
  Proof.
    intros B Sd Same. apply from_facets_robin in B. destruct (temperatures_gen Ss h A B Sd) as (L & P). split; [exact L|].
    intros i Hi. apply P; auto. destruct B as (_ & _ & _ & _ & _ & _ & _ & HV).
    destruct (Nat.lt_ge_cases i (List.length ns)) as [Li|Li]; [apply Same; now apply nth_In|].
    destruct values as [x|x|l]; cbn in Hi.
    - assert (i = 0%nat) by lia. subst i. destruct ns; [discriminate|cbn in Li; lia].
    - assert (i = 0%nat) by lia. subst i. destruct ns; [discriminate|cbn in Li; lia].
    - lia.
  Qed.
  (* without Robin surfaces *)
  Theorem C66_temperatures_without_robin coef env dr :
    from_facets H (Lst ns) values None coef env dr k obj w = Ok tk ->
    sound H D0 [] 0 k cf p rho -> (forall D, In D ns -> same_set D D0) ->
    List.length Ts = List.length (values_list values) /\
    forall i, (i < List.length (values_list values))%nat ->
      temperature H kap D0 (nth i (values_list values) 0) [] 0 0 lay (nth i Ts zv).
  Proof.
    intros B Sd Same. apply from_facets_plain in B. destruct (temperatures_gen [] 0 0 B Sd) as (L & P). split; [exact L|].
    intros i Hi. apply P; auto. destruct B as (_ & _ & _ & _ & _ & _ & _ & HV).
    destruct (Nat.lt_ge_cases i (List.length ns)) as [Li|Li]; [apply Same; now apply nth_In|].
    destruct values as [x|x|l]; cbn in Hi.
    - assert (i = 0%nat) by lia. subst i. destruct ns; [discriminate|cbn in Li; lia].
    - assert (i = 0%nat) by lia. subst i. destruct ns; [discriminate|cbn in Li; lia].
    - lia.
  Qed.
  (* C66: one float for several node sets holds only the first set *)
  Theorem C66_single_value_holds_first_set_only Ss h A dr g :
    from_facets H (Lst ns) values (Some Ss) (Some (Flt h)) (Some (Flt A)) dr k obj w = Ok tk -> values = Flt g ->
    sound H D0 Ss h k cf p rho ->
    exists T, Ts = [T] /\ temperature H kap D0 g Ss h A lay T.
  Proof.
    intros B Ev Sd. apply from_facets_robin in B. destruct (temperatures_gen Ss h A B Sd) as (L & P).
    rewrite Ev in L, P. destruct Ts as [|T [|T' r]]; try discriminate. exists T. split; [reflexivity|].
    apply (P 0%nat); [cbn; lia|]. destruct ns as [|D1 ns']; [discriminate|]. cbn in HD |- *. injection HD as E1. rewrite E1. intros j. reflexivity.
  Qed.
End run.

(* temperatures are unique *)
Lemma temperature_unique H k D g Ss h A lay T T' : shapes H -> (forall S, In S Ss -> surf_shapes (hn H) S) -> anchored H D ->
  (forall e, (e < ne H)%nat -> 0 < k e) -> 0 <= h -> (forall e q, (e < ne H)%nat -> (q < nq H)%nat -> 0 <= lay e q) ->
  temperature H k D g Ss h A lay T -> temperature H k D g Ss h A lay T' -> forall i, (i < hn H)%nat -> T i = T' i.
Proof.
  intros Sh SS An Hk Hh Hl T1 T2. apply temperature_form in T1; auto. apply temperature_form in T2; auto.
  destruct T1 as (B1 & W1), T2 as (B2 & W2).
  set (d := fun i => 1 * T i + (-1) * T' i).
  assert (D0 : forall i, (i < hn H)%nat -> In i D -> d i = 0) by (intros; unfold d; rewrite B1, B2 by auto; ring).
  assert (Z := aform_zero H k Ss h lay Sh SS Hk Hh Hl D d An D0).
  intros i Hi. specialize (Z ltac:(unfold d at 1; rewrite aform_lin, W1, W2 by auto; lra) i Hi). unfold d in Z. lra.
Qed.

(* C66, refuted for load cases held at different nodes (shown without Robin surfaces):
   the second and later cases are not at their temperature on their own nodes, which
   instead receive the temperature value as a heat source, and they are at 0 on the
   nodes of the first case *)
Theorem C66_different_nodes_refuted H ns l coef env dr k obj w tk cf ip q sol slvm p rho Js Ts D0 i :
  from_facets H (Lst ns) (FLst l) None coef env dr k obj w = Ok tk ->
  objectives_multi_load (mkHFem tk cf ip q sol slvm) p rho = Ok (Js, Ts) ->
  nth_error ns 0 = Some D0 -> sound H D0 [] 0 k cf p rho -> exact_solver (hn H) slvm -> (i < List.length l)%nat ->
  let T := nth i Ts zv in
  (forall j, (j < hn H)%nat -> In j D0 -> ~ In j (nth i ns []) -> T j = 0) /\
  (forall j, (j < hn H)%nat -> In j (nth i ns []) -> ~ In j D0 ->
     conducted H (fun e => conductivity ip k cf p (nth e rho 0)) T (unit j) = nth i l 0).
Proof.
  intros B Hrun HD Sd Hex Hi T. apply from_facets_plain in B. destruct B as (UR & EH & En & Ev & Ek & _ & _ & HV).
  destruct (heat_columns (mkHFem tk cf ip q sol slvm) p rho Js Ts [] 0 0 H ns (FLst l) k cf D0 UR EH En Ev Ek eq_refl HV HD Sd Hex Hrun)
      as (sys & ks & lay' & _ & Nk & _ & -> & _ & _ & EK & EW & LT & S).
  specialize (S i Hi). cbn [values_list] in S. fold T in S.
  assert (MI : forall j D, mem j D = true <-> In j D).
  { intros j D. unfold mem. rewrite existsb_exists. split; [intros (x & Hx & E); apply Nat.eqb_eq in E; now subst|intros; exists j; split; auto; apply Nat.eqb_refl]. }
  assert (Dj : forall j f, (j < hn H)%nat -> dot (hn H) (unit j) f = f j).
  { intros j f Hj. unfold dot, unit. rewrite (sum_ext _ _ (fun a => if Nat.eqb a j then f a else 0)); [now apply (sum_single (hn H) j f)|].
    intros a Ha. destruct (Nat.eqb a j); ring. }
  assert (Em : forall j, (j < hn H)%nat -> sy_emit sys j = 0).
  { intros j Hj. pose proof (EW (fun _ => 0) (unit j)) as E1. rewrite EK in E1. unfold aform in E1.
    rewrite exch0_none, exchanged_none, (Dj j _ Hj) in E1. lra. }
  split; intros j Hj H1 H2; specialize (S j Hj); unfold mv, enforceK, enforceV in S.
  - assert (M1 : mem j D0 = true) by now apply MI. assert (M2 : mem j (nth i ns []) = false) by (apply not_true_iff_false; rewrite MI; auto).
    rewrite M1, M2, Em in S by auto. rewrite <- S.
    rewrite (sum_ext _ _ (fun a => if Nat.eqb a j then T a else 0)); [symmetry; now apply (sum_single (hn H) j T)|].
    intros a Ha. rewrite Nat.eqb_sym. destruct (Nat.eqb a j); ring.
  - assert (M1 : mem j D0 = false) by (apply not_true_iff_false; rewrite MI; auto). assert (M2 : mem j (nth i ns []) = true) by now apply MI.
    rewrite M1, M2 in S. pose proof (EK T (unit j)) as E1. rewrite (Dj j _ Hj) in E1. unfold mv in E1. rewrite S in E1.
    unfold aform in E1. rewrite exch0_none, (conducted_cond H ks (fun e => conductivity ip k cf p (nth e rho 0))) in E1 by exact Nk. lra.
Qed.

(* ---- C68 ---- *)
Definition kap_of (s : hsettings) (rho : list R) (e : nat) : R := conductivity (hs_ip s) (hs_k s) (hs_c s) (hs_p s) (nth e rho 0).
Definition lay_of (s : hsettings) (rho : list R) : nat -> nat -> R := layer (hs_H s) (nodal_average (hb_t (hs_H s)) rho) (hs_p s) (hs_q s).
Lemma analysis_temperature s D A values rho Js Ts : well_set s D rho -> analysis s A values rho Js Ts ->
  List.length Ts = List.length (values_list values) /\ forall i, (i < List.length (values_list values))%nat ->
  temperature (hs_H s) (kap_of s rho) D (nth i (values_list values) 0) (hs_Ss s) (hs_h s) A (lay_of s rho) (nth i Ts zv).
Proof.
  intros (HD & Same & Sd & Hex) (dr & tk & B & Hrun).
  exact (C66_temperatures (hs_H s) (hs_ns s) values (hs_k s) (hs_c s) (hs_p s) (hs_obj s) (hs_w s) (hs_ip s) (hs_q s) (hs_sol s) (hs_slvm s)
    rho tk Js Ts D HD Hex Hrun (hs_Ss s) (hs_h s) A dr B Sd Same).
Qed.
Lemma well_unique s D rho g A T T' : well_set s D rho ->
  temperature (hs_H s) (kap_of s rho) D g (hs_Ss s) (hs_h s) A (lay_of s rho) T ->
  temperature (hs_H s) (kap_of s rho) D g (hs_Ss s) (hs_h s) A (lay_of s rho) T' -> forall i, (i < hn (hs_H s))%nat -> T i = T' i.
Proof.
  intros (HD & Same & [Sh SS An Hh Hk Hc Hp Lr Hr] & Hex). apply temperature_unique; auto.
  - intros e He. unfold kap_of. apply conductivity_pos; auto. apply Hr. apply nth_In. lia.
  - intros e q He Hq. unfold lay_of. now apply layer_nonneg.
Qed.
(* the fields combine linearly, and shift with the temperature scale *)
Lemma temperature_combine H k D g g' Ss h A A' lay T T' a b c : shapes H -> (forall S, In S Ss -> surf_shapes (hn H) S) ->
  temperature H k D g Ss h A lay T -> temperature H k D g' Ss h A' lay T' ->
  temperature H k D (a * g + b * g' + c) Ss h (a * A + b * A' + c) lay (fun i => a * T i + b * T' i + c).
Proof.
  intros Sh SS T1 T2. apply temperature_form in T1; auto. apply temperature_form in T2; auto. apply temperature_form; auto.
  destruct T1 as (B1 & W1), T2 as (B2 & W2). split.
  - intros i Hi HD. rewrite B1, B2 by auto. ring.
  - intros v Hv. rewrite (aform_ext _ _ _ _ _ _ (fun i => 1 * (fun j => a * T j + b * T' j) i + c * one i) v v) by (intros; unfold one; ring).
    rewrite aform_lin, aform_lin, W1, W2 by auto. unfold aform. rewrite cond_one by auto. ring.
Qed.
Section laws.
  Variables (s : hsettings) (D : list nat) (rho : list R).
  Hypothesis W : well_set s D rho.
  Let n := hn (hs_H s).
  (* superposition of heating conditions *)
  Theorem C68_superposition A A' vs vs' a b Js Ts Js' Ts' Js'' Ts'' : List.length vs = List.length vs' ->
    analysis s A (FLst vs) rho Js Ts -> analysis s A' (FLst vs') rho Js' Ts' ->
    analysis s (a * A + b * A') (FLst (zipwith (fun v v' => a * v + b * v') vs vs')) rho Js'' Ts'' ->
    forall i j, (i < List.length vs)%nat -> (j < n)%nat -> nth i Ts'' zv j = a * nth i Ts zv j + b * nth i Ts' zv j.
  Proof.
    intros L X1 X2 X3 i j Hi Hj. destruct (analysis_temperature _ _ _ _ _ _ _ W X1) as (_ & T1). destruct (analysis_temperature _ _ _ _ _ _ _ W X2) as (_ & T2).
    destruct (analysis_temperature _ _ _ _ _ _ _ W X3) as (_ & T3). cbn [values_list] in *.
    specialize (T1 i Hi). specialize (T2 i ltac:(lia)). specialize (T3 i ltac:(rewrite zipwith_length; auto)).
    rewrite (zipwith_nth3 (fun v v' => a * v + b * v') _ _ i 0 0) in T3 by lia. pose proof W as (_ & _ & Sd & _).
    pose proof (temperature_combine _ _ _ _ _ _ _ _ _ _ _ _ a b 0 (sd_shapes _ _ _ _ _ _ _ _ Sd) (sd_surf _ _ _ _ _ _ _ _ Sd) T1 T2) as T4.
    rewrite !Rplus_0_r in T4. rewrite (well_unique s D rho _ _ _ _ W T3 T4 j Hj). ring.
  Qed.
  (* the zero point and the unit of the temperature scale do not matter *)
  Theorem C68_temperature_scale A vs a c Js Ts Js' Ts' :
    analysis s A (FLst vs) rho Js Ts -> analysis s (a * A + c) (FLst (map (fun v => a * v + c) vs)) rho Js' Ts' ->
    forall i j, (i < List.length vs)%nat -> (j < n)%nat -> nth i Ts' zv j = a * nth i Ts zv j + c.
  Proof.
    intros X1 X3 i j Hi Hj. destruct (analysis_temperature _ _ _ _ _ _ _ W X1) as (_ & T1).
    destruct (analysis_temperature _ _ _ _ _ _ _ W X3) as (_ & T3). cbn [values_list] in *.
    specialize (T1 i Hi). specialize (T3 i ltac:(rewrite map_length; auto)).
    rewrite (nth_indep _ 0 (a * 0 + c)) in T3 by (rewrite map_length; auto). rewrite (map_nth (fun v => a * v + c)) in T3. pose proof W as (_ & _ & Sd & _).
    pose proof (temperature_combine _ _ _ _ _ _ _ _ _ _ _ _ a 0 c (sd_shapes _ _ _ _ _ _ _ _ Sd) (sd_surf _ _ _ _ _ _ _ _ Sd) T1 T1) as T4.
    rewrite !Rmult_0_l, !Rplus_0_r in T4. rewrite (well_unique s D rho _ _ _ _ W T3 T4 j Hj). ring.
  Qed.
  (* held at the ambient temperature, everything is at the ambient temperature *)
  Theorem C68_equilibrium A vs Js Ts : analysis s A (FLst vs) rho Js Ts ->
    forall i j, (i < List.length vs)%nat -> (j < n)%nat -> nth i vs 0 = A -> nth i Ts zv j = A.
  Proof.
    intros X1 i j Hi Hj E. destruct (analysis_temperature _ _ _ _ _ _ _ W X1) as (_ & T1). specialize (T1 i Hi). cbn [values_list] in T1. rewrite E in T1.
    pose proof W as (_ & _ & Sd & _). pose proof (sd_shapes _ _ _ _ _ _ _ _ Sd) as Sh. pose proof (sd_surf _ _ _ _ _ _ _ _ Sd) as SS.
    refine (well_unique s D rho A A (nth i Ts zv) (fun _ => A) W T1 _ j Hj).
    apply temperature_form; auto. split; [reflexivity|]. intros v Hv.
    rewrite (aform_ext _ _ _ _ _ _ (fun i => A * one i + 0 * one i) v v) by (intros; unfold one; ring).
    rewrite aform_lin. unfold aform. rewrite cond_one by auto. ring.
  Qed.
End laws.

(* maximum principle *)
Lemma form_entries H k Ss h lay K : (forall T v, dot (hn H) v (mv (hn H) K T) = aform H k Ss h lay T v) ->
  forall T v, aform H k Ss h lay T v = sum (hn H) (fun a => sum (hn H) (fun b => v a * T b * aform H k Ss h lay (unit b) (unit a))).
Proof.
  intros EK T v. rewrite <- EK. unfold dot, mv at 1. apply sum_ext. intros a Ha. rewrite <- sum_scal. apply sum_ext. intros b Hb.
  rewrite <- EK. assert (E : dot (hn H) (unit a) (mv (hn H) K (unit b)) = K a b); [|rewrite E; ring].
  unfold dot. rewrite (sum_ext _ _ (fun i => if Nat.eqb i a then mv (hn H) K (unit b) i else 0)).
  2: { intros i Hi. unfold unit at 1. destruct (Nat.eqb i a); ring. }
  rewrite (sum_single (hn H) a (mv (hn H) K (unit b)) Ha). unfold mv.
  rewrite (sum_ext _ _ (fun i => if Nat.eqb i b then K a i else 0)); [now apply (sum_single (hn H) b (K a))|].
  intros i Hi. unfold unit. destruct (Nat.eqb i b); ring.
Qed.
Lemma exch0_amb0 H Ss h lay u v : exchanged H Ss h 0 lay u v = exch0 H Ss h lay u v.
Proof.
  unfold exchanged, exch0. f_equal; [f_equal; apply map_ext; intros; apply surf_ext; intros; ring|apply integral_ext; intros; ring].
Qed.
Lemma exch0_one_nonneg H Ss h lay v : shapes H -> (forall S, In S Ss -> surf_shapes (hn H) S) -> 0 <= h ->
  (forall e q, (e < ne H)%nat -> (q < nq H)%nat -> 0 <= lay e q) -> (forall i, (i < hn H)%nat -> 0 <= v i) -> 0 <= exch0 H Ss h lay one v.
Proof.
  intros Sh SS Hh Hl Hv. apply Rplus_le_le_0_compat.
  - apply rs_nonneg. intros S HS. apply (surf_nonneg (hn H)); [auto|]. intros q Hq. rewrite (sval_one (hn H)) by auto.
    destruct (SS S HS q Hq) as (_ & _ & P). rewrite Rmult_1_r. apply Rmult_le_pos; [auto|]. apply sum_nonneg. intros. apply Rmult_le_pos; auto.
  - apply integral_nonneg; [auto|]. intros e q He Hq. rewrite value_one by auto. destruct (Sh e q He Hq) as (P & _).
    rewrite Rmult_1_r. apply Rmult_le_pos; [apply Rmult_le_pos; auto|]. apply sum_nonneg. intros. apply Rmult_le_pos; auto.
Qed.
Lemma max_principle H k D g Ss h A lay T M K : shapes H -> (forall S, In S Ss -> surf_shapes (hn H) S) -> anchored H D ->
  (forall e, (e < ne H)%nat -> 0 < k e) -> 0 <= h -> (forall e q, (e < ne H)%nat -> (q < nq H)%nat -> 0 <= lay e q) ->
  (forall T v, dot (hn H) v (mv (hn H) K T) = aform H k Ss h lay T v) ->
  no_positive_coupling H k Ss h lay -> temperature H k D g Ss h A lay T -> g <= M -> A <= M -> forall i, (i < hn H)%nat -> T i <= M.
Proof.
  intros Sh SS An Hk Hh Hl EK NP T1 Hg HA. apply temperature_form in T1; auto. destruct T1 as (B & Wf).
  set (v := fun i => Rmax (T i - M) 0). set (w := fun i => Rmax (M - T i) 0).
  assert (V0 : forall i, (i < hn H)%nat -> In i D -> v i = 0).
  { intros i Hi HD. unfold v. rewrite B by auto. rewrite Rmax_right; lra. }
  assert (Vp : forall i, 0 <= v i) by (intros; apply Rmax_r). assert (Wp : forall i, 0 <= w i) by (intros; apply Rmax_r).
  assert (E1 : aform H k Ss h lay v v = aform H k Ss h lay T v - M * exch0 H Ss h lay one v + aform H k Ss h lay w v).
  { rewrite (aform_ext _ _ _ _ _ v (fun i => 1 * (fun j => 1 * T j + (- M) * one j) i + 1 * w i) v v).
    - rewrite aform_lin, aform_lin. unfold aform at 2. rewrite cond_one by auto. ring.
    - intros. unfold v, w, one. rminmax.
    - auto. }
  assert (E2 : aform H k Ss h lay w v <= 0).
  { rewrite (form_entries H k Ss h lay K EK). apply Rle_trans with (sum (hn H) (fun _ => 0)); [|rewrite sum_zero; [lra|auto]].
    apply sum_le. intros a Ha. apply Rle_trans with (sum (hn H) (fun _ => 0)); [|rewrite sum_zero; [lra|auto]].
    apply sum_le. intros b Hb. destruct (Nat.eq_dec a b) as [->|N].
    - assert (Z : v b * w b = 0) by (unfold v, w; rminmax). rewrite Z. lra.
    - pose proof (NP b a Hb Ha (not_eq_sym N)) as C. rewrite exch0_amb0 in C. fold (aform H k Ss h lay (unit b) (unit a)) in C.
      assert (0 <= v a * w b) by (apply Rmult_le_pos; auto). nra. }
  assert (E3 := exch0_one_nonneg H Ss h lay v Sh SS Hh Hl (fun i _ => Vp i)).
  rewrite (Wf v V0) in E1.
  intros i Hi. assert (Z := aform_zero H k Ss h lay Sh SS Hk Hh Hl D v An V0 ltac:(nra) i Hi). unfold v in Z. revert Z. rminmax.
Qed.
Theorem C68_maximum_principle s D rho A vs Js Ts : well_set s D rho -> analysis s A (FLst vs) rho Js Ts ->
  no_positive_coupling (hs_H s) (fun e => conductivity (hs_ip s) (hs_k s) (hs_c s) (hs_p s) (nth e rho 0)) (hs_Ss s) (hs_h s)
    (layer (hs_H s) (nodal_average (hb_t (hs_H s)) rho) (hs_p s) (hs_q s)) ->
  forall i j, (i < List.length vs)%nat -> (j < hn (hs_H s))%nat ->
    Rmin (nth i vs 0) A <= nth i Ts zv j <= Rmax (nth i vs 0) A.
Proof.
  intros W X NP i j Hi Hj. destruct (analysis_temperature _ _ _ _ _ _ _ W X) as (_ & T1). specialize (T1 i Hi). cbn [values_list] in T1.
  pose proof W as (HD & Same & Sd & Hex). pose proof X as (dr & tk & B & Hrun). pose proof (from_facets_robin _ _ _ _ _ _ _ _ _ _ _ B) as (UR & EH & En & Ev & Ek & _ & _ & HV).
  destruct (heat_columns (mkHFem tk (hs_c s) (hs_ip s) (hs_q s) (hs_sol s) (hs_slvm s)) (hs_p s) rho Js Ts (hs_Ss s) (hs_h s) A (hs_H s) (hs_ns s) (FLst vs) (hs_k s) (hs_c s) D
    UR EH En Ev Ek eq_refl HV HD Sd Hex Hrun) as (sys & ks & lay & _ & Nk & _ & -> & Hl & Pk & EK & _ & _ & _).
  cbn [hf_interp hf_q] in *.
  assert (EK' : forall T v, dot (hn (hs_H s)) v (mv (hn (hs_H s)) (sy_K sys) T) = aform (hs_H s) (kap_of s rho) (hs_Ss s) (hs_h s) (lay_of s rho) T v).
  { intros T v. rewrite EK. unfold aform. rewrite (conducted_cond (hs_H s) ks (kap_of s rho)); [reflexivity|exact Nk]. }
  assert (Pk' : forall e, (e < ne (hs_H s))%nat -> 0 < kap_of s rho e) by (intros e He; unfold kap_of; rewrite <- Nk by auto; auto).
  destruct Sd as [Sh SS An Hh Hk Hc Hp Lr Hr].
  split.
  - pose proof (temperature_combine _ _ _ _ _ _ _ _ _ _ _ _ (-1) 0 0 Sh SS T1 T1) as T4.
    pose proof (max_principle _ _ _ _ _ _ _ _ _ (- Rmin (nth i vs 0) A) _ Sh SS An Pk' Hh Hl EK' NP T4) as M.
    pose proof (Rmin_l (nth i vs 0) A). pose proof (Rmin_r (nth i vs 0) A).
    specialize (M ltac:(lra) ltac:(lra) j Hj). lra.
  - apply (max_principle _ _ _ _ _ _ _ _ _ _ _ Sh SS An Pk' Hh Hl EK' NP T1); auto; [apply Rmax_l|apply Rmax_r].
Qed.

(* ---- C67 ---- *)
Section nodal.
  Variables (t : list (list nat)) (rho : list R).
  Hypothesis (HT : forall row, In row t -> List.length row = List.length rho).
  (* the density of a vertex lies between those of the elements *)
  Theorem C67_nodal_density_between v a b : In v (List.concat t) -> (forall x, In x rho -> a <= x <= b) -> a <= nodal_average t rho v <= b.
  Proof.
    intros Hv Hr. pose proof (node_count_ge1 t v Hv) as C. unfold nodal_average. rewrite Rmax_left by lra.
    pose proof (zipwith_bounds (List.concat t) (np_repeat rho (List.length t)) v a b (fun x Hx => Hr x (np_repeat_in _ _ _ Hx))) as B.
    rewrite np_repeat_len, (concat_len t (List.length rho)) in B by auto. specialize (B ltac:(lia)). fold (node_count t v) in B.
    split; apply (Rmult_le_reg_r (node_count t v)); try lra; unfold Rdiv; rewrite Rmult_assoc, Rinv_l by lra; lra.
  Qed.
  (* what is averaged: the local node l of element e contributes the density of
     element (l * elements + e) / (nodes per element), not that of e *)
  Theorem C67_what_is_averaged v : nodal_average t rho v =
    sum (List.length t * List.length rho) (fun m =>
      if Nat.eqb (nth m (List.concat t) 0%nat) v then nth (m / List.length t) rho 0 else 0) / Rmax (node_count t v) 1.
  Proof.
    unfold nodal_average. f_equal. unfold add_at, sum.
    assert (L1 : List.length (List.concat t) = (List.length t * List.length rho)%nat) by now apply concat_len.
    assert (L2 := np_repeat_len rho (List.length t)).
    assert (N : forall m, (m < List.length t * List.length rho)%nat ->
      nth m (zipwith (fun i x => if Nat.eqb i v then x else 0) (List.concat t) (np_repeat rho (List.length t))) 0 =
      if Nat.eqb (nth m (List.concat t) 0%nat) v then nth (m / List.length t) rho 0 else 0).
    { intros m Hm. rewrite (zipwith_nth3 _ _ _ m 0%nat 0) by lia. rewrite np_repeat_nth by lia. reflexivity. }
    f_equal. apply (nth_ext _ _ 0 0).
    - rewrite zipwith_len_min, map_length, seq_length. lia.
    - intros m Hm. rewrite zipwith_len_min in Hm. rewrite N by lia.
      set (G := fun m0 => if Nat.eqb (nth m0 (List.concat t) 0%nat) v then nth (m0 / List.length t) rho 0 else 0).
      change (G m = nth m (map G (seq 0 (List.length t * List.length rho))) 0).
      rewrite (nth_indep _ 0 (G 0%nat)) by (rewrite map_length, seq_length; lia). rewrite map_nth, seq_nth by lia. reflexivity.
  Qed.
End nodal.
Theorem C67_uniform t x n v : (forall row, In row t -> List.length row = n) -> In v (List.concat t) -> nodal_average t (repeat x n) v = x.
Proof.
  intros HT Hv. apply Rle_antisym; apply (C67_nodal_density_between t (repeat x n)) with (a := x) (b := x); auto;
    try (intros; rewrite repeat_length; auto); intros y Hy; apply repeat_spec in Hy; lra.
Qed.
(* refuted: two hexahedra side by side (scikit-fem's local order).  Vertex 8 belongs to
   the second only, vertex 4 to the first only; each gets the other's density. *)
Definition two_hexes : list (list nat) := map (fun l => [nth l [0;1;2;3;4;5;6;7] 0; nth l [3;5;6;8;7;9;10;11] 0])%nat (seq 0 8).
Theorem C67_wrong_elements_refuted a b :
  elements_around two_hexes 2 8 = [1%nat] /\ elements_around two_hexes 2 4 = [0%nat] /\
  mean_around two_hexes [a; b] 8 = b /\ nodal_average two_hexes [a; b] 8%nat = a /\
  mean_around two_hexes [a; b] 4 = a /\ nodal_average two_hexes [a; b] 4%nat = b.
Proof.
  assert (E8 : elements_around two_hexes 2 8 = [1%nat]) by reflexivity. assert (E4 : elements_around two_hexes 2 4 = [0%nat]) by reflexivity.
  split; [exact E8|]. split; [exact E4|]. unfold mean_around, rmean, nodal_average, node_count, add_at, np_repeat. cbn [List.length]. rewrite E8, E4.
  cbn [two_hexes map seq nth List.concat app repeat List.length zipwith Nat.eqb rsum fold_right INR].
  repeat split; try (rewrite Rmax_left by lra); try field; try lra.
Qed.

(* the analysis of a sound problem never fails *)
Lemma analysed_ok s D A values rho : well_set s D rho -> hs_Ss s <> [] -> hs_sol s <> HOther ->
  (match values with Flt _ => True | FLst l => List.length l = List.length (hs_ns s) | Int _ => False end) ->
  exists Js Ts, analysed s A values rho = Ok (Js, Ts) /\ List.length Js = List.length (values_list values) /\ List.length Ts = List.length (values_list values).
Proof.
  intros (HD & Same & Sd & Hex) HS Hsol HV. destruct s as [H ns Ss h k cf p obj w ip q sol slvm].
  cbn [hs_H hs_ns hs_Ss hs_h hs_k hs_c hs_p hs_obj hs_w hs_ip hs_q hs_sol hs_slvm] in *. unfold analysed.
  cbn [hs_H hs_ns hs_Ss hs_h hs_k hs_c hs_p hs_obj hs_w hs_ip hs_q hs_sol hs_slvm] in *.
  set (bil := map (fun S => robin_mat S h) Ss). set (lin := map (fun S => robin_vec S h A) Ss).
  set (tk := mkHTask H ns values (Some Ss) (Some (Flt h)) (Some (Flt A)) None k bil lin obj w).
  assert (B : from_facets H (Lst ns) values (Some Ss) (Some (Flt h)) (Some (Flt A)) None k obj w = Ok tk).
  { unfold from_facets. destruct values as [x|x|l]; [|contradiction|]; [|rewrite HV, Nat.eqb_refl]; cbn [bind];
      (destruct Ss as [|S Ss']; [congruence|]); rewrite surface_robin_floats; reflexivity. }
  pose proof (from_facets_robin _ _ _ _ _ _ _ _ _ _ _ B) as (UR & _).
  set (F := mkHFem tk cf ip q sol slvm).
  pose proof Sd as [Sh SS An Hh Hk Hc Hp Lr Hr].
  assert (Lo : layer_ok H (nodal_average (hb_t H) rho) p = true).
  { apply forallb_forall. intros e He. apply forallb_forall. intros q' Hq. apply in_seq in He, Hq.
    destruct (value_range H (nodal_average (hb_t H) rho) e q' 0 1 Sh ltac:(unfold ne; lia) ltac:(unfold nq; lia) (fun v _ => nodal_01 _ _ v Hr)) as (V0 & V1).
    unfold npow. destruct (Rlt_dec 0 _); [reflexivity|]. destruct (Req_EM_T _ 0) as [E0|E0]; [|lra]. destruct (Rlt_dec 0 p); [reflexivity|lra]. }
  assert (Es : exists sys, heat_system F p rho = Ok sys).
  { unfold heat_system. cbn [F hf_task tk ht_coef ht_env ht_H]. unfold virtual_factors, bcast. cbn [bind]. rewrite Lo. cbn [bind].
    unfold kmin. cbn [F hf_task tk ht_k hf_coeff hf_interp]. rewrite moduli_ok by auto. cbn [bind]. eexists. reflexivity. }
  destruct Es as (sys & Es).
  destruct (heat_system_form F p rho sys Ss h A UR Es) as (ks & lay & Em & Elay & _ & EK & EW & En). cbn [F hf_task tk ht_H] in Elay, EK, EW.
  unfold kmin in Em. cbn [F hf_task tk ht_k hf_coeff hf_interp] in Em.
  destruct (moduli_conductivity _ _ _ _ _ _ Hp Hr Em) as (Lk & Nk).
  assert (Reg : forall u, (forall i, (i < hn H)%nat -> mv (hn H) (enforceK D (sy_K sys)) u i = 0) -> forall i, (i < hn H)%nat -> u i = 0).
  { apply (regular H (fun e => nth e ks 0) D Ss h lay); auto.
    - intros e He. rewrite Nk by lia. apply conductivity_pos; auto. apply Hr, nth_In. lia.
    - intros e q' He Hq. subst lay. now apply layer_nonneg. }
  assert (Eu : exists us, solve_heat sol slvm (sy_K sys) (sy_emit sys) ns (values_list values) (List.length (values_list values)) = Ok us /\
     List.length us = List.length (values_list values)).
  { unfold solve_heat. destruct ns as [|D1 ns']; [discriminate|]. cbn in HD. injection HD as ->.
    set (bs := zipwith _ _ _).
    assert (Lb : List.length bs = List.length (values_list values)).
    { unfold bs. rewrite zipwith_len_min. destruct values; [|contradiction|]; cbn [values_list List.length] in *; lia. }
    assert (Lu : List.length (slvm (enforceK D (sy_K sys)) bs) = List.length (values_list values)).
    { rewrite <- (Forall2_len _ _ _ (Hex _ bs Reg)). exact Lb. }
    destruct sol; try congruence; (destruct (values_list values) as [|v vs]; [eexists; split; [reflexivity|apply repeat_length]|];
      exists (slvm (enforceK D (sy_K sys)) bs); rewrite Lu, Nat.eqb_refl; auto). }
  destruct Eu as (us & Eu & Lu).
  assert (EN : n_tasks tk = Ok (List.length (values_list values))) by (unfold n_tasks; cbn; destruct values; [reflexivity|contradiction|reflexivity]).
  assert (R : exists Js, objectives_multi_load F p rho = Ok (Js, us) /\ List.length Js = List.length us).
  { unfold objectives_multi_load. cbn [F hf_task]. rewrite EN. cbn [bind tk ht_design_robin].
    change (mkHFem _ cf ip q sol slvm) with F. rewrite Es. cbn [bind]. cbn [F tk hf_sol hf_slvm ht_nodes ht_values hf_task]. rewrite Eu. cbn [bind ht_obj].
    destruct obj.
    - eexists. split; [reflexivity|apply map_length].
    - cbn [F hf_task tk ht_coef] in En. rewrite En. cbn [ht_H]. destruct (Rleb _ _); [eexists; split; [reflexivity|apply map_length]|].
      cbn [full_arg ht_env ht_coef bind]. eexists. split; [reflexivity|]. unfold weighted.
      destruct (Reqb _ 0); [apply map_length|]. destruct (Nat.ltb 1 _); rewrite zipwith_length; rewrite ?map_length; auto.
    - eexists. split; [reflexivity|apply map_length]. }
  destruct R as (Js & R & LJ). exists Js, us. split; [|split; congruence]. rewrite B. exact R.
Qed.
Lemma analysed_analysis s A values rho Js Ts : analysed s A values rho = Ok (Js, Ts) -> analysis s A values rho Js Ts.
Proof.
  unfold analysed, analysis. intros E. destruct (from_facets _ _ _ _ _ _ _ _ _ _) as [tk|] eqn:B; [|discriminate]. exists None, tk. split; [exact B|exact E].
Qed.
Theorem C66_analysis_succeeds s D A values rho : well_set s D rho -> hs_Ss s <> [] -> hs_sol s <> HOther ->
  (match values with Flt _ => True | FLst l => List.length l = List.length (hs_ns s) | Int _ => False end) ->
  exists Js Ts, analysis s A values rho Js Ts /\ List.length Js = List.length (values_list values).
Proof.
  intros W HS Hsol HV. destruct (analysed_ok s D A values rho W HS Hsol HV) as (Js & Ts & E & L & _).
  exists Js, Ts. split; [now apply analysed_analysis|exact L].
Qed.

(* ---- instance: two bars between vertices 0 and 1, Robin exchange at vertex 1 ---- *)
Definition bars (m : nat) : hbasis := mkHB
  (mkBasis 2 m 1 (fun _ _ => 1) (fun _ _ k => fun i j => if Nat.eqb j 0 then (if Nat.eqb k 0 then -1 else 1) else 0))
  (fun _ _ _ => / 2) [repeat 0 m; repeat 1 m]%nat.
Definition tip : surface := mkSurf 1 (fun _ => 1) (fun _ k => if Nat.eqb k 1 then 1 else 0).
Definition cramer (A : mat) (b : vec) : vec := fun i =>
  let d := A 0%nat 0%nat * A 1%nat 1%nat - A 0%nat 1%nat * A 1%nat 0%nat in
  if Nat.eqb i 0 then (b 0%nat * A 1%nat 1%nat - A 0%nat 1%nat * b 1%nat) / d
  else (A 0%nat 0%nat * b 1%nat - A 1%nat 0%nat * b 0%nat) / d.
Lemma sum2 f : sum 2 f = f 0%nat + f 1%nat.
Proof. unfold sum. cbn [seq map rsum fold_right]. ring. Qed.
Lemma cramer_exact : exact_solver 2 (fun A bs => map (cramer A) bs).
Proof.
  intros A bs Reg. set (d := A 0%nat 0%nat * A 1%nat 1%nat - A 0%nat 1%nat * A 1%nat 0%nat).
  assert (Hd : d <> 0).
  { intros Z. unfold d in Z.
    pose proof (Reg (fun i => if Nat.eqb i 0 then A 1%nat 1%nat else - A 1%nat 0%nat)) as R1.
    pose proof (Reg (fun i => if Nat.eqb i 0 then - A 0%nat 1%nat else A 0%nat 0%nat)) as R2.
    assert (P : forall u : vec, A 0%nat 0%nat * u 0%nat + A 0%nat 1%nat * u 1%nat = 0 -> A 1%nat 0%nat * u 0%nat + A 1%nat 1%nat * u 1%nat = 0 ->
      forall i, (i < 2)%nat -> mv 2 A u i = 0).
    { intros u E0 E1 i Hi. unfold mv. rewrite sum2. destruct i as [|[|]]; [auto|auto|lia]. }
    assert (R1' := R1 (P (fun i => if Nat.eqb i 0 then A 1%nat 1%nat else - A 1%nat 0%nat) ltac:(cbn [Nat.eqb]; lra) ltac:(cbn [Nat.eqb]; lra))).
    assert (R2' := R2 (P (fun i => if Nat.eqb i 0 then - A 0%nat 1%nat else A 0%nat 0%nat) ltac:(cbn [Nat.eqb]; lra) ltac:(cbn [Nat.eqb]; lra))).
    clear R1 R2. rename R1' into R1, R2' into R2.
    pose proof (R1 0%nat ltac:(lia)) as A11. pose proof (R1 1%nat ltac:(lia)) as A10. pose proof (R2 0%nat ltac:(lia)) as A01. pose proof (R2 1%nat ltac:(lia)) as A00.
    cbn [Nat.eqb] in *.
    pose proof (Reg (fun _ => 1) (P (fun _ => 1) ltac:(lra) ltac:(lra)) 0%nat ltac:(lia)). cbv beta in *. lra. }
  induction bs as [|b bs IH]; constructor; [|exact IH].
  intros i Hi. unfold mv. rewrite sum2. unfold cramer. fold d. cbn [Nat.eqb].
  destruct i as [|[|]]; [| |lia]; unfold Rdiv; (apply (Rmult_eq_reg_r d); [|exact Hd]); unfold d; field; exact Hd.
Qed.
Lemma bars_shapes m : shapes (bars m).
Proof.
  intros e q He Hq. cbn [bars hb_val hb_B fb_grad fb_dx hn fb_n]. unfold hn. cbn [hb_B fb_n bars].
  split; [intros; lra|]. split; [rewrite sum2; field|]. split; [|lra].
  intros i Hi. rewrite sum2. cbn [Nat.eqb]. destruct (Nat.eqb i 0); ring.
Qed.
Lemma tip_shapes : surf_shapes 2 tip.
Proof. intros q Hq. cbn [tip sf_val sf_dx]. rewrite sum2. cbn [Nat.eqb]. split; [ring|]. split; [lra|]. intros k Hk. destruct (Nat.eqb k 1); lra. Qed.
Lemma bars_anchored m : (0 < m)%nat -> anchored (bars m) [0%nat].
Proof.
  intros Hm u U0 G i Hi. pose proof (U0 0%nat ltac:(cbn; lia) (or_introl eq_refl)) as Z. specialize (G 0%nat 0%nat 0%nat ltac:(cbn; lia) ltac:(cbn; lia) ltac:(lia)).
  unfold gradv, grad_of in G. cbn [bars hb_B fb_n fb_grad] in G. rewrite sum2 in G. cbn [Nat.eqb] in G.
  destruct i as [|[|]]; [auto|lra|cbn in Hi; lia].
Qed.
Definition ex_hs (obj : hobjective) : hsettings :=
  mkHS (bars 2) [[0]; [0]]%nat [tip] 4 10 (1 / 100) 3 obj 0 SIMP 4 HAuto (fun A bs => map (cramer A) bs).
Theorem C66_instance obj : well_set (ex_hs obj) [0%nat] [1; / 2] /\
  exists Js Ts, analysis (ex_hs obj) 300 (FLst [600; 300]) [1; / 2] Js Ts /\ List.length Js = 2%nat.
Proof.
  assert (W : well_set (ex_hs obj) [0%nat] [1; / 2]).
  { split; [reflexivity|]. split; [|split; [|apply cramer_exact]].
    - intros D' [<-|[<-|[]]] i; reflexivity.
    - constructor; cbn [ex_hs hs_H hs_Ss hs_h hs_k hs_c hs_p]; try lra.
      + apply bars_shapes.
      + intros S [<-|[]]. apply tip_shapes.
      + apply bars_anchored. lia.
      + reflexivity.
      + intros x [<-|[<-|[]]]; lra. }
  split; [exact W|]. apply (C66_analysis_succeeds _ _ 300 (FLst [600; 300]) _ W); cbn; congruence.
Qed.
(* the repository's own two-case example has different node sets: on a bar of
   conductivity 10 the second case is at 60 instead of 600 at its node, and at 0 at
   the node of the first case *)
Theorem C66_different_nodes_instance : exists tk Js Ts,
  from_facets (bars 1) (Lst [[0]; [1]]%nat) (FLst [600; 600]) None None None None 10 Compliance 0 = Ok tk /\
  objectives_multi_load (mkHFem tk (1 / 100) SIMP 4 HAuto (fun A bs => map (cramer A) bs)) 3 [1] = Ok (Js, Ts) /\
  nth 1 Ts zv 0%nat = 0 /\ nth 1 Ts zv 1%nat = 60.
Proof.
  set (tk := mkHTask (bars 1) [[0]; [1]]%nat (FLst [600; 600]) None None None None 10 [] [] Compliance 0).
  assert (B : from_facets (bars 1) (Lst [[0]; [1]]%nat) (FLst [600; 600]) None None None None 10 Compliance 0 = Ok tk) by reflexivity.
  assert (R : exists Js Ts, objectives_multi_load (mkHFem tk (1 / 100) SIMP 4 HAuto (fun A bs => map (cramer A) bs)) 3 [1] = Ok (Js, Ts)).
  { unfold objectives_multi_load, heat_system. cbn [hf_task n_tasks tk ht_values ht_design_robin bind ht_coef]. unfold kmin.
    cbn [hf_task ht_k hf_coeff hf_interp tk]. rewrite moduli_ok by (try lra; intros x [<-|[]]; lra). cbn [bind].
    cbn [values_list List.length solve_heat hf_sol ht_nodes zipwith hf_slvm map Nat.eqb bind ht_obj]. eexists. eexists. reflexivity. }
  destruct R as (Js & Ts & R). exists tk, Js, Ts. split; [exact B|]. split; [exact R|].
  assert (Sd : sound (bars 1) [0%nat] [] 0 10 (1 / 100) 3 [1]).
  { constructor; try lra; [apply bars_shapes|intros S []|apply bars_anchored; lia|reflexivity|intros x [<-|[]]; lra]. }
  destruct (C66_different_nodes_refuted _ _ _ _ _ _ _ _ _ _ _ _ _ _ _ _ _ _ _ _ 1%nat B R eq_refl Sd cramer_exact ltac:(cbn; lia)) as (P1 & P2).
  assert (Z : nth 1 Ts zv 0%nat = 0).
  { apply P1; [cbn; lia|now left|]. cbn. intros [E|[]]; discriminate. }
  split; [exact Z|].
  specialize (P2 1%nat ltac:(cbn; lia) ltac:(now left) ltac:(intros [E|[]]; discriminate)).
  set (T := nth 1 Ts zv) in *. cbn [nth] in P2. unfold conducted, integral in P2.
  cbn [bars hb_B fb_ne fb_nq fb_dx] in P2.
  assert (S1 : forall f, sum 1 f = f 0%nat) by (intros; unfold sum; cbn [seq map rsum fold_right]; ring).
  rewrite S1, S1, vdot3_eq in P2. unfold gradv, grad_of in P2. cbn [hb_B fb_n fb_grad bars] in P2. rewrite !sum2 in P2. unfold unit in P2. cbn [Nat.eqb nth conductivity] in P2.
  rewrite Z in P2. destruct (Rlt_dec 0 1) as [_|]; [|lra]. rewrite rpower_1 in P2 || (unfold Rpower in P2; rewrite ln_1, Rmult_0_r, exp_0 in P2). lra.
Qed.

(* how the film coefficient h and the temperature T_env of the virtual boundary term
   combine at quadrature point q, for numbers and for lists with one value per point *)
Theorem C66_virtual_factors : forall nq h T hs Ts, (1 < nq)%nat -> List.length hs = nq -> List.length Ts = nq ->
  (forall fh fT q, virtual_factors nq (Flt h) (Flt T) = Ok (fh, fT) -> fh q = h /\ fT q = h * T) /\
  (forall fh fT q, virtual_factors nq (FLst hs) (Flt T) = Ok (fh, fT) -> fh q = nth q hs 0 /\ fT q = nth q hs 0 * T) /\
  (forall fh fT q, virtual_factors nq (Flt h) (FLst Ts) = Ok (fh, fT) -> fh q = h /\ fT q = h * nth q Ts 0) /\
  (forall fh fT q, virtual_factors nq (FLst hs) (FLst Ts) = Ok (fh, fT) -> fh q = nth q hs 0 /\ fT q = nth q hs 0 * nth q Ts 0) /\
  (forall l, (1 < List.length l)%nat -> List.length l <> nq -> virtual_factors nq (FLst l) (Flt T) = Err ValueError /\ virtual_factors nq (Flt h) (FLst l) = Err ValueError).
Proof.
  intros nq h T hs Ts Hn Lh LT.
  assert (B : forall l, List.length l = nq -> exists g, bcast nq (FLst l) = Ok g /\ forall q, g q = [nth q l 0]).
  { intros l Hl. unfold bcast. destruct l as [|x [|y l]]; [cbn in Hl; lia|cbn in Hl; lia|]. destruct (Nat.eqb_spec nq 1); [lia|]. rewrite (proj2 (Nat.eqb_eq _ _) Hl). eauto. }
  destruct (B hs Lh) as (gh & Eh & Vh). destruct (B Ts LT) as (gT & ET & VT). unfold virtual_factors. rewrite Eh, ET. cbn [bcast bind].
  assert (S : forall x, rsum [x] = x) by (intros; unfold rsum; cbn [fold_right]; ring).
  split; [|split; [|split; [|split]]].
  - intros fh fT q [= <- <-]. unfold rsum. cbn [bprod map fold_right]. lra.
  - intros fh fT q [= <- <-]. rewrite Vh. unfold rsum. cbn [bprod map fold_right]. lra.
  - intros fh fT q [= <- <-]. rewrite VT. unfold rsum. cbn [bprod map fold_right]. lra.
  - intros fh fT q [= <- <-]. rewrite Vh, VT. unfold rsum. cbn [bprod map fold_right]. lra.
  - intros [|x [|y l]] H1 H2; cbn in H1; try lia. unfold bcast. destruct (Nat.eqb_spec nq 1); [lia|].
    destruct (Nat.eqb_spec (List.length (x :: y :: l)) nq); [contradiction|]. split; reflexivity.
Qed.
Print Assumptions C66_virtual_factors.
(* a single quadrature point takes a list as several additive terms; a one-element
   list counts as a number *)
Theorem C66_virtual_factors_single_point : forall hs T x Ts fh fT,
  virtual_factors 1 (FLst hs) (Flt T) = Ok (fh, fT) -> fh 0%nat = rsum hs /\ fT 0%nat = rsum hs * T /\
  (virtual_factors 1 (FLst [x]) (FLst Ts) = virtual_factors 1 (Flt x) (FLst Ts)).
Proof.
  intros hs T x Ts fh fT H. assert (E : bcast 1 (FLst hs) = Ok (fun _ => hs)) by (destruct hs as [|a [|b hs]]; reflexivity).
  unfold virtual_factors in H. rewrite E in H. cbn [bcast bind] in H. injection H as <- <-. split; [reflexivity|]. split; [|reflexivity].
  assert (G : forall l, rsum (map (fun x => x * T) l) = rsum l * T) by (induction l as [|a l IH]; unfold rsum in *; cbn [map fold_right]; [ring|rewrite IH; ring]).
  destruct hs as [|a [|b hs]]; [unfold rsum; cbn; ring|unfold rsum; cbn; ring|exact (G (a :: b :: hs))].
Qed.
Print Assumptions C66_virtual_factors_single_point.

(* what is refused: supports without values for them, an exchange objective without
   Robin data, an update of a Robin condition the task does not have *)
Theorem C67_refusals : forall F p rho tk,
  (forall sol slvm K emit vals n, sol <> HOther -> vals <> [] -> solve_heat sol slvm K emit [] vals n = Err IndexError) /\
  (ht_surfaces tk = None -> update_robin_bc tk rho = Err TypeError) /\
  (forall Ts, ht_obj (hf_task F) = HeatExchange -> ht_coef (hf_task F) = None -> n_tasks (hf_task F) = Ok (List.length Ts) -> ht_design_robin (hf_task F) <> Some true ->
     (exists ks, moduli (hf_interp F) (ht_k (hf_task F)) (kmin F) p rho = Ok ks) ->
     (forall sys, heat_system F p rho = Ok sys ->
        solve_heat (hf_sol F) (hf_slvm F) (sy_K sys) (sy_emit sys) (ht_nodes (hf_task F)) (values_list (ht_values (hf_task F))) (List.length Ts) = Ok Ts) ->
     objectives_multi_load F p rho = Err RuntimeError).
Proof.
  intros F p rho tk. split; [|split].
  - intros sol slvm K emit [|v vals] n Hs Hv; [congruence|]. destruct sol; congruence || reflexivity.
  - intros H. unfold update_robin_bc. now rewrite H.
  - intros Ts Ho Hc Hn Hd (ks & Hk) Hs. unfold objectives_multi_load. rewrite Hn. cbn [bind].
    assert (Hsys : exists sys, heat_system F p rho = Ok sys /\ sy_nodal sys = None).
    { unfold heat_system. rewrite Hc. cbn [bind]. rewrite Hk. cbn [bind]. eexists. split; reflexivity. }
    destruct Hsys as (sys & Es & Hnod).
    destruct (ht_design_robin (hf_task F)) as [[|]|]; [congruence| |]; cbn [bind]; rewrite Es; cbn [bind]; rewrite (Hs sys Es); cbn [bind]; rewrite Ho, Hnod; reflexivity.
Qed.
Print Assumptions C67_refusals.
