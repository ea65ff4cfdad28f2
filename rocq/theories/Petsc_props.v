(* C91: what PETSc is asked for. *)
From Verif Require Import Base Sums Mesh_model Mesh_proofs Fea_model Fea_spec Fea_proofs Fea_props Solver_model Heat_model Petsc_model.
Open Scope string_scope.
Open Scope R_scope.
Open Scope list_scope.

(* ---- specification ---- *)
(* the solver object is the one these options describe *)
Definition as_asked (o : petsc) (rtol : R) (maxiter : option nat) (k : ksp) : Prop :=
  k_prefix k = prefix o /\ k_type k = ksp_type o /\ k_pc k = pc_type o /\ k_factor k = factor_type o /\
  k_rtol k = rtol /\ k_maxit k = match maxiter with Some m => Z.of_nat m | None => 10000%Z end.
(* a value from the options database, where it has one *)
Definition override {A} (d : option A) (asked used : A) : Prop :=
  match d with Some x => used = x | None => used = asked end.
(* the same with the entry e of the options database applied on top *)
Definition as_asked_then (e : dbentry) (o : petsc) (rtol : R) (maxiter : option nat) (k : ksp) : Prop :=
  k_prefix k = prefix o /\ override (db_type e) (ksp_type o) (k_type k) /\
  override (db_pc e) (pc_type o) (k_pc k) /\
  k_factor k = match db_factor e with Some f => Some f | None => factor_type o end /\
  override (db_rtol e) rtol (k_rtol k) /\
  override (db_maxit e) (match maxiter with Some m => Z.of_nat m | None => 10000%Z end) (k_maxit k).
(* a current petsc4py, installed *)
Definition complete (E : penv) : Prop := pe_installed E = true /\ pe_has_prefix E = true /\ pe_has_factor E = true.
(* what a solver object returns does not depend on earlier right-hand sides *)
Definition memoryless (E : penv) : Prop := forall k A past b, pe_solve E k A past b = pe_solve E k A [] b.

(* ---- configuration ---- *)
Theorem C91_options_are_used E A b rtol maxiter p : complete E -> from_options p = false ->
  exists k, as_asked p rtol maxiter k /\ solve_u_petsc E A b rtol maxiter (OPetsc p) = pe_solve E k A [] b.
Proof.
  intros (H1 & H2 & H3) Hf. exists (create_ksp E rtol maxiter p). split.
  - unfold as_asked, create_ksp. rewrite H2, H3, Hf. destruct (prefix p), (factor_type p), maxiter; cbn; auto 10.
  - unfold solve_u_petsc, import_petsc. now rewrite H1.
Qed.
Theorem C91_options_then_database E A b rtol maxiter p : complete E -> from_options p = true ->
  exists k, as_asked_then (pe_db E (prefix p)) p rtol maxiter k /\
    solve_u_petsc E A b rtol maxiter (OPetsc p) = pe_solve E k A [] b.
Proof.
  intros (H1 & H2 & H3) Hf. exists (create_ksp E rtol maxiter p). split.
  - unfold as_asked_then, override, create_ksp. rewrite H2, H3, Hf.
    destruct (prefix p), (factor_type p), maxiter; cbn [set_prefix set_type set_pc set_factor set_tol set_from_options
      k_prefix k_type k_pc k_factor k_rtol k_maxit fresh_ksp dflt];
    match goal with |- context [pe_db E ?x] => destruct (pe_db E x) as [[|] [|] [|] [|] [|]] end; cbn; auto 12.
  - unfold solve_u_petsc, import_petsc. now rewrite H1.
Qed.
(* dicts and None mean the PETScOptions they describe *)
Theorem C91_dict_and_none E A b rtol maxiter d :
  solve_u_petsc E A b rtol maxiter ONone = solve_u_petsc E A b rtol maxiter (OPetsc (mkPetsc "cg" "gamg" None None true)) /\
  solve_u_petsc E A b rtol maxiter (ODict d) = solve_u_petsc E A b rtol maxiter (OPetsc
    (mkPetsc (match oget "ksp_type" d with Some v => py_str v | None => "cg" end)
             (match oget "pc_type" d with Some v => py_str v | None => "gamg" end)
             (match oget "pc_factor_mat_solver_type" d with None | Some VNone => None | Some v => Some (py_str v) end)
             (match oget "options_prefix" d with None | Some VNone => None | Some v => Some (py_str v) end)
             (match oget "use_set_from_options" d with Some v => py_bool v | None => true end))).
Proof. split; reflexivity. Qed.
(* only the entry of the asked prefix matters *)
Theorem C91_prefix_selects E E' A b rtol maxiter p :
  pe_installed E = pe_installed E' -> pe_has_prefix E = true -> pe_has_prefix E' = true -> pe_has_factor E = pe_has_factor E' ->
  pe_solve E = pe_solve E' -> pe_db E (prefix p) = pe_db E' (prefix p) ->
  solve_u_petsc E A b rtol maxiter (OPetsc p) = solve_u_petsc E' A b rtol maxiter (OPetsc p).
Proof.
  intros H1 H2 H2' H3 H4 H5. unfold solve_u_petsc, import_petsc. rewrite <- H1. destruct (pe_installed E); [|reflexivity].
  cbn [bind]. rewrite <- H4. f_equal. cbn [normalize_petsc]. unfold create_ksp. rewrite H2, H2', <- H3. destruct (from_options p).
  2: reflexivity.
  destruct (prefix p), (factor_type p), (pe_has_factor E); cbn in *; unfold set_from_options; cbn; now rewrite H5.
Qed.
(* refuted: a requested prefix or factorization package that this petsc4py cannot set is not reported *)
Theorem C91_unsupported_is_ignored_refuted E A b rtol maxiter t q f pre b1 :
  (pe_has_factor E = false ->
     solve_u_petsc E A b rtol maxiter (OPetsc (mkPetsc t q (Some f) pre b1)) =
     solve_u_petsc E A b rtol maxiter (OPetsc (mkPetsc t q None pre b1))) /\
  (pe_has_prefix E = false ->
     solve_u_petsc E A b rtol maxiter (OPetsc (mkPetsc t q (Some f) pre b1)) =
     solve_u_petsc E A b rtol maxiter (OPetsc (mkPetsc t q (Some f) None b1))).
Proof.
  split; intros H; unfold solve_u_petsc; cbn [normalize_petsc]; do 2 f_equal; unfold create_ksp; cbn [prefix factor_type ksp_type pc_type from_options].
  all: rewrite ?H; try reflexivity; now destruct pre.
Qed.

(* ---- petsc_spdirect ---- *)
(* with use_set_from_options=False the sparse direct solver is what runs *)
Theorem C91_spdirect_runs E direct rtol maxiter fb p A b : complete E -> from_options p = false ->
  ksp_type p = "preonly" -> pc_type p = "lu" ->
  exists k, k_type k = "preonly" /\ k_pc k = "lu" /\ k_factor k = factor_type p /\ k_prefix k = prefix p /\
    solve_u_with_petsc E direct (mkLcfg "petsc_spdirect" rtol maxiter (OPetsc p) fb) A b =
      match pe_solve E k A [] b with Ok (u, _) => Ok u | Err e => if fb then direct A b else Err e end.
Proof.
  intros HE Hf Ht Hp. destruct p as [t q f pre fo]. cbn in Hf, Ht, Hp. subst fo t q.
  destruct (C91_options_are_used E A b rtol maxiter (mkPetsc "preonly" "lu" f pre false) HE eq_refl) as (k & (K1 & K2 & K3 & K4 & _) & H).
  exists k. cbn in *. split; [exact K2|split; [exact K3|split; [exact K4|split; [exact K1|]]]].
  unfold solve_u_with_petsc. cbn. destruct f, pre; cbn in *; rewrite H; reflexivity.
Qed.
(* refuted: by default an entry of the options database replaces the direct solver
   that petsc_spdirect promises and that the options cannot replace *)
Theorem C91_spdirect_overridden_refuted E direct rtol maxiter fb A b t q : complete E ->
  db_type (pe_db E None) = Some t -> db_pc (pe_db E None) = Some q ->
  exists k, k_type k = t /\ k_pc k = q /\
    solve_u_with_petsc E direct (mkLcfg "petsc_spdirect" rtol maxiter ONone fb) A b =
      match pe_solve E k A [] b with Ok (u, _) => Ok u | Err e => if fb then direct A b else Err e end.
Proof.
  intros HE Ht Hq.
  destruct (C91_options_then_database E A b rtol maxiter (mkPetsc "preonly" "lu" None None true) HE eq_refl) as (k & K & H).
  unfold as_asked_then, override in K. cbn in K. rewrite Ht, Hq in K. destruct K as (_ & K2 & K3 & _).
  exists k. split; [exact K2|split; [exact K3|]]. unfold solve_u_with_petsc, petsc_for_solver, direct_petsc.
  cbn [l_solver l_rtol l_maxiter l_petsc l_fallback String.eqb Ascii.eqb Bool.eqb negb bind]. rewrite H.
  now destruct (pe_solve E k A [] b) as [[u i]|].
Qed.

(* ---- several right-hand sides ---- *)
Lemma columns_spec E k A : memoryless E -> forall bs past us is,
  columns E k A past bs = Ok (us, is) <->
  List.length us = List.length is /\ Forall2 (fun b x => pe_solve E k A [] b = Ok x) bs (combine us is).
Proof.
  intros HM. induction bs as [|b bs IH]; intros past us is; cbn [columns].
  - split.
    + intros H. injection H as <- <-. split; constructor.
    + intros (L & H). destruct us, is; cbn in L, H; try discriminate; [reflexivity|inversion H].
  - rewrite HM. split.
    + intros H. destruct (pe_solve E k A [] b) as [[u i]|e] eqn:Eb; [|discriminate]. cbn [bind] in H.
      destruct (columns E k A (past ++ [b]) bs) as [[us' is']|e] eqn:Ec; [|discriminate]. cbn [bind] in H.
      injection H as <- <-. apply IH in Ec. destruct Ec as (L & F). cbn. split; [now rewrite L|]. now constructor.
    + intros (L & H). destruct us as [|u us], is as [|i is]; cbn in L, H; try discriminate; inversion H; subst.
      match goal with Hx : pe_solve E k A [] b = _ |- _ => rewrite Hx end. cbn [bind].
      assert (Ec : columns E k A (past ++ [b]) bs = Ok (us, is)) by (apply IH; split; [now injection L|assumption]).
      rewrite Ec. reflexivity.
Qed.
Lemma columns_err E k A e : memoryless E -> forall bs past,
  columns E k A past bs = Err e <->
  exists l b r, bs = l ++ b :: r /\ pe_solve E k A [] b = Err e /\
    forall c, In c l -> exists x, pe_solve E k A [] c = Ok x.
Proof.
  intros HM. induction bs as [|b bs IH]; intros past; cbn [columns].
  - split; [discriminate|]. intros (l & b & r & H & _). now destruct l.
  - rewrite HM. split.
    + intros H. destruct (pe_solve E k A [] b) as [[u i]|e'] eqn:Eb; cbn [bind] in H.
      * destruct (columns E k A (past ++ [b]) bs) as [[us' is']|e'] eqn:Ec; cbn [bind] in H; [discriminate|].
        injection H as ->. apply IH in Ec. destruct Ec as (l & c & r & -> & Hc & Hl).
        exists (b :: l), c, r. split; [reflexivity|split; [exact Hc|]]. intros x [<-|Hx]; [eexists; exact Eb|now apply Hl].
      * injection H as ->. exists [], b, bs. split; [reflexivity|split; [exact Eb|intros c []]].
    + intros (l & c & r & Hl & Hc & Ho). destruct l as [|x l].
      * injection Hl as -> ->. rewrite Hc. reflexivity.
      * injection Hl as -> ->. destruct (Ho x (or_introl eq_refl)) as ([u i] & Ex). rewrite Ex. cbn [bind].
        assert (Ec : columns E k A (past ++ [x]) (l ++ c :: r) = Err e).
        { apply IH. exists l, c, r. split; [reflexivity|split; [exact Hc|]]. intros y Hy. apply Ho. now right. }
        rewrite Ec. reflexivity.
Qed.
(* every column and flag is that of a separate call, in order *)
Theorem C91_columns E A bs rtol maxiter o us is : memoryless E -> pe_installed E = true ->
  solve_u_petsc_multi E A (R2 bs) rtol maxiter o = Ok (us, is) <->
  List.length us = List.length is /\
  Forall2 (fun b x => solve_u_petsc E A b rtol maxiter o = Ok x) bs (combine us is).
Proof.
  intros HM HI. unfold solve_u_petsc_multi, solve_u_petsc, import_petsc. rewrite HI. cbn [bind].
  apply columns_spec, HM.
Qed.
(* the first failing column decides the exception *)
Theorem C91_columns_exception E A bs rtol maxiter o e : memoryless E -> pe_installed E = true ->
  solve_u_petsc_multi E A (R2 bs) rtol maxiter o = Err e <->
  exists l b r, bs = l ++ b :: r /\ solve_u_petsc E A b rtol maxiter o = Err e /\
    forall c, In c l -> exists x, solve_u_petsc E A c rtol maxiter o = Ok x.
Proof.
  intros HM HI. unfold solve_u_petsc_multi, solve_u_petsc, import_petsc. rewrite HI. cbn [bind].
  apply columns_err, HM.
Qed.
(* a one-dimensional right-hand side is one column *)
Theorem C91_one_dimensional E A b rtol maxiter o :
  solve_u_petsc_multi E A (R1 b) rtol maxiter o = solve_u_petsc_multi E A (R2 [b]) rtol maxiter o.
Proof.
  unfold solve_u_petsc_multi, solve_u_petsc, import_petsc. destruct (pe_installed E); [|reflexivity]. cbn [bind normalize_petsc columns].
  now destruct (pe_solve E _ A [] b) as [[u i]|e].
Qed.

(* ---- PETSc missing ---- *)
Theorem C91_missing E A b bs rtol maxiter o : pe_installed E = false ->
  solve_u_petsc E A b rtol maxiter o = Err RuntimeError /\
  solve_u_petsc_multi E A bs rtol maxiter o = Err RuntimeError.
Proof. intros H. unfold solve_u_petsc_multi, solve_u_petsc, import_petsc. rewrite H. split; reflexivity. Qed.
(* through the analyses: RuntimeError, or the direct solver if that was permitted *)
Theorem C91_missing_analyses E direct c A b n K D fs emit Ds vals : pe_installed E = false ->
  l_solver c = "petsc" ->
  solve_u_with_petsc E direct c A b = (if l_fallback c then direct A b else Err RuntimeError) /\
  elastic_multi_petsc E c n K D fs = Err RuntimeError /\
  (Ds <> [] -> heat_multi_petsc E c K emit Ds vals = Err RuntimeError).
Proof.
  intros HI Hs. destruct (C91_missing E A b (R1 b) (l_rtol c) (l_maxiter c) (l_petsc c) HI) as (H1 & _).
  unfold solve_u_with_petsc, elastic_multi_petsc, heat_multi_petsc, petsc_multi, petsc_for_solver. rewrite Hs. cbn [String.eqb Ascii.eqb Bool.eqb negb bind].
  rewrite H1. split; [reflexivity|]. split.
  - destruct (l_petsc c); cbn [bind]; rewrite (proj2 (C91_missing E _ b (R2 _) _ _ _ HI)); reflexivity.
  - intros HD. destruct Ds as [|D0 Ds]; [congruence|]. destruct (l_petsc c); cbn [bind]; rewrite (proj2 (C91_missing E _ b (R2 _) _ _ _ HI)); reflexivity.
Qed.
(* the stand-in module used when solver_petsc cannot be imported treats options the
   same way and refuses every PETSc solver *)
Theorem C91_stand_in o direct solver A b rtol maxiter :
  shim_normalize o direct = normalize_petsc o direct /\
  (solver <> "petsc" -> solver <> "petsc_spdirect" -> shim_for_solver solver o = petsc_for_solver solver o) /\
  (solver = "petsc" \/ solver = "petsc_spdirect" -> shim_for_solver solver o = Err RuntimeError) /\
  shim_solve_u_petsc A b rtol maxiter o = Err RuntimeError.
Proof.
  assert (N : forall d, shim_normalize o d = normalize_petsc o d) by (intros []; reflexivity).
  split; [apply N|]. split; [|split].
  - intros H1 H2. unfold shim_for_solver, petsc_for_solver. apply String.eqb_neq in H1, H2. rewrite H1, H2. cbn [orb negb].
    destruct o; try reflexivity; now rewrite N.
  - intros [-> | ->]; reflexivity.
  - reflexivity.
Qed.

(* ---- the analyses ---- *)
(* flags of PETSc never change a result: refuted that a failed solve is reported *)
Theorem C91_flags_are_ignored_refuted E E' direct c A b n K D fs :
  (forall k M past b, pe_solve E' k M past b = match pe_solve E k M past b with Ok (u, _) => Ok (u, (-3)%Z) | Err e => Err e end) ->
  pe_installed E' = pe_installed E -> pe_has_prefix E' = pe_has_prefix E -> pe_has_factor E' = pe_has_factor E -> pe_db E' = pe_db E ->
  solve_u_with_petsc E' direct c A b = solve_u_with_petsc E direct c A b /\
  elastic_multi_petsc E' c n K D fs = elastic_multi_petsc E c n K D fs.
Proof.
  intros H Hi Hp Hf Hd.
  assert (Hc : forall r m o, create_ksp E' r m o = create_ksp E r m o) by (intros; unfold create_ksp; now rewrite Hp, Hf, Hd).
  assert (H1 : forall A b r m o, solve_u_petsc E' A b r m o = match solve_u_petsc E A b r m o with Ok (u, _) => Ok (u, (-3)%Z) | Err e => Err e end).
  { intros. unfold solve_u_petsc, import_petsc. rewrite Hi. destruct (pe_installed E); [|reflexivity]. cbn [bind]. now rewrite Hc, H. }
  assert (H2 : forall k M bs past, columns E' k M past bs = match columns E k M past bs with Ok (us, is) => Ok (us, map (fun _ => (-3)%Z) is) | Err e => Err e end).
  { intros k M bs. induction bs as [|x bs IH]; intros past; cbn [columns]; [reflexivity|]. rewrite H.
    destruct (pe_solve E k M past x) as [[u i]|]; [|reflexivity]. cbn [bind]. rewrite IH. now destruct (columns E k M (past ++ [x]) bs) as [[us is]|]. }
  split.
  - unfold solve_u_with_petsc. destruct (String.eqb (l_solver c) "petsc").
    + rewrite H1. now destruct (solve_u_petsc E A b (l_rtol c) (l_maxiter c) (l_petsc c)) as [[u i]|].
    + destruct (petsc_for_solver (l_solver c) (l_petsc c)) as [o|]; [|reflexivity]. cbn [bind]. rewrite H1. now destruct (solve_u_petsc _ _ _ _ _ _) as [[u i]|].
  - unfold elastic_multi_petsc, petsc_multi. destruct (petsc_for_solver (l_solver c) (l_petsc c)) as [o|]; [|reflexivity]. cbn [bind].
    unfold solve_u_petsc_multi, import_petsc. rewrite Hi. destruct (pe_installed E); [|reflexivity]. cbn [bind]. rewrite Hc, H2.
    now destruct (columns _ _ _ _ _) as [[us is]|].
Qed.
(* the two-load analysis uses PETSc's own step limit, the one-load analysis its own *)
Theorem C91_step_limit_refuted E direct rtol p ndof A b bs : complete E -> memoryless E -> from_options p = false ->
  exists k k', k_maxit k = Z.of_nat (Nat.min 1000 (Nat.max 300 (ndof / 5))) /\ k_maxit k' = 10000%Z /\
    k_type k = k_type k' /\ k_pc k = k_pc k' /\ k_rtol k = k_rtol k' /\
    solve_u_with_petsc E direct (single_load_cfg (mkLcfg "petsc" rtol None (OPetsc p) false) ndof) A b =
      match pe_solve E k A [] b with Ok (u, _) => Ok u | Err e => Err e end /\
    forall us, petsc_multi E (mkLcfg "petsc" rtol None (OPetsc p) false) A bs = Ok us ->
      Forall2 (fun b u => exists i, pe_solve E k' A [] b = Ok (u, i)) bs us.
Proof.
  intros HE HM Hf.
  set (m := Nat.min 1000 (Nat.max 300 (ndof / 5))).
  destruct (C91_options_are_used E A b rtol (Some m) p HE Hf) as (k & (_ & K2 & K3 & _ & K5 & K6) & H).
  exists k, (create_ksp E rtol None p).
  assert (Hk' : as_asked p rtol None (create_ksp E rtol None p)).
  { destruct HE as (H1 & H2 & H3). unfold as_asked, create_ksp. rewrite H2, H3, Hf. destruct (prefix p), (factor_type p); cbn; auto 10. }
  destruct Hk' as (_ & Q2 & Q3 & _ & Q5 & Q6).
  split; [exact K6|split; [exact Q6|split; [congruence|split; [congruence|split; [congruence|split]]]]].
  - unfold solve_u_with_petsc, single_load_cfg. cbn [l_solver l_rtol l_maxiter l_petsc l_fallback String.eqb Ascii.eqb Bool.eqb].
    unfold default_maxiter. fold m. rewrite H. now destruct (pe_solve E k A [] b) as [[u i]|].
  - intros us Hu. unfold petsc_multi, petsc_for_solver in Hu. cbn [l_solver l_petsc l_rtol l_maxiter String.eqb Ascii.eqb Bool.eqb negb bind normalize_petsc] in Hu.
    destruct (solve_u_petsc_multi E A (R2 bs) rtol None (OPetsc p)) as [[vs is]|] eqn:Em; [|discriminate]. cbn [bind] in Hu. injection Hu as ->.
    apply (C91_columns E A bs rtol None (OPetsc p) us is HM (proj1 HE)) in Em. destruct Em as (L & F).
    assert (F' : Forall2 (fun b x => pe_solve E (create_ksp E rtol None p) A [] b = Ok x) bs (combine us is)).
    { clear - F HE. induction F; constructor; auto. unfold solve_u_petsc, import_petsc in H. now rewrite (proj1 HE) in H. }
    clear - F' L. revert us is L F'. induction bs as [|x bs IH]; intros us is L F'.
    + destruct us, is; cbn in *; try discriminate; [constructor|inversion F'].
    + destruct us as [|u us], is as [|i is]; cbn in *; try discriminate; inversion F'; subst. constructor; [now exists i|]. eapply IH; eauto.
Qed.
(* solves that solve give equilibrium and the work of the loads, in the order of the loads *)
Theorem C91_elastic_multi E c n K D fs cs us :
  (forall k past b u i, pe_solve E k (enforceK D K) past b = Ok (u, i) -> solves n (enforceK D K) b u) ->
  elastic_multi_petsc E c n K D fs = Ok (cs, us) ->
  Forall2 (equilibrium n K D) fs us /\ cs = zipwith (work n D) fs us.
Proof.
  intros Hex H. unfold elastic_multi_petsc, petsc_multi in H.
  destruct (petsc_for_solver (l_solver c) (l_petsc c)) as [o|]; [|discriminate]. cbn [bind] in H.
  unfold solve_u_petsc_multi in H. destruct (import_petsc E); [|discriminate]. cbn [bind] in H.
  set (k := create_ksp _ _ _ _) in H.
  destruct (columns E k (enforceK D K) [] (map (enforceF D) fs)) as [[vs is]|] eqn:Ec; [|discriminate]. cbn [bind] in H.
  injection H as <- <-.
  assert (G : forall l past ws js, columns E k (enforceK D K) past (map (enforceF D) l) = Ok (ws, js) ->
     Forall2 (equilibrium n K D) l ws /\ zipwith (dot n) (map (enforceF D) l) ws = zipwith (work n D) l ws).
  { induction l as [|f l IH]; intros past ws js E1; cbn [map columns] in E1.
    - injection E1 as <- <-. split; constructor.
    - destruct (pe_solve E k (enforceK D K) past (enforceF D f)) as [[u i]|] eqn:Eb; [|discriminate]. cbn [bind] in E1.
      destruct (columns E k (enforceK D K) (past ++ [enforceF D f]) (map (enforceF D) l)) as [[us is']|] eqn:Ed; [|discriminate].
      cbn [bind] in E1. injection E1 as <- <-. destruct (IH _ _ _ Ed) as (P & Q). split.
      + constructor; [|exact P]. apply enforce_equilibrium. eapply Hex; eauto.
      + cbn [map zipwith]. now rewrite Q, work_dot. }
  exact (G fs [] vs is Ec).
Qed.
(* the same for the heat analysis when all load cases hold the same nodes *)
Theorem C91_heat_multi E c n K emit D vals Ts :
  (forall k past b u i, pe_solve E k (enforceK D K) past b = Ok (u, i) -> solves n (enforceK D K) b u) -> vals <> [] ->
  heat_multi_petsc E c K emit (repeat D (List.length vals)) vals = Ok Ts ->
  Forall2 (fun g T => (forall i, (i < n)%nat -> In i D -> T i = g) /\
                      (forall i, (i < n)%nat -> ~ In i D -> mv n K T i = emit i)) vals Ts.
Proof.
  intros Hex Hv H. unfold heat_multi_petsc in H. destruct vals as [|v0 vals]; [congruence|].
  cbn [List.length repeat] in H. change (D :: repeat D (List.length vals)) with (repeat D (List.length (v0 :: vals))) in H.
  set (vs := v0 :: vals) in *. clearbody vs. clear Hv.
  unfold petsc_multi in H. destruct (petsc_for_solver (l_solver c) (l_petsc c)) as [o|]; [|discriminate]. cbn [bind] in H.
  unfold solve_u_petsc_multi in H. destruct (import_petsc E); [|discriminate]. cbn [bind] in H.
  set (k := create_ksp _ _ _ _) in H. match goal with |- Forall2 ?Q _ _ => set (P := Q) end.
  assert (G : forall l past ws js, columns E k (enforceK D K) past (zipwith (fun D v => enforceV D v emit) (repeat D (List.length l)) l) = Ok (ws, js) ->
     Forall2 P l ws).
  { induction l as [|g l IH]; intros past ws js E1; cbn [List.length repeat zipwith columns] in E1.
    - injection E1 as <- <-. constructor.
    - destruct (pe_solve E k (enforceK D K) past (enforceV D g emit)) as [[u i]|] eqn:Eb; [|discriminate]. cbn [bind] in E1.
      match type of E1 with context [columns ?a ?b ?c' ?d ?e] => destruct (columns a b c' d e) as [[us is']|] eqn:Ed; [|discriminate] end.
      cbn [bind] in E1. injection E1 as <- <-. constructor; [|eapply IH; eauto].
      apply Hex in Eb. split; intros j Hj Hd; specialize (Eb j Hj); unfold mv, enforceK, enforceV in Eb.
      + apply mem_in in Hd. rewrite Hd in Eb. rewrite <- Eb.
        rewrite (sum_ext _ _ (fun a => if Nat.eqb a j then u a else 0)); [symmetry; now apply (sum_single n j u)|].
        intros z Ha. rewrite Nat.eqb_sym. destruct (Nat.eqb z j); ring.
      + apply mem_false in Hd. rewrite Hd in Eb. exact Eb. }
  destruct (columns E k (enforceK D K) [] _) as [[ws js]|] eqn:Ec; [|discriminate]. cbn [bind] in H. injection H as <-.
  eapply G; eauto.
Qed.

(* ---- inexact solves ---- *)
Lemma cauchy n u v : dot n u v * dot n u v <= dot n u u * dot n v v.
Proof.
  assert (P : forall a b, 0 <= dot n (fun i => a * u i - b * v i) (fun i => a * u i - b * v i)).
  { intros. apply sum_nonneg. intros i _. apply Rle_0_sqr. }
  assert (X : forall a b, dot n (fun i => a * u i - b * v i) (fun i => a * u i - b * v i) =
     a * a * dot n u u - 2 * a * b * dot n u v + b * b * dot n v v).
  { intros. unfold dot. rewrite <- !sum_scal, <- sum_minus, <- sum_plus. apply sum_ext. intros i _. ring. }
  pose proof (P (dot n v v) (dot n u v)) as Q. rewrite X in Q.
  assert (V0 : 0 <= dot n v v) by (apply sum_nonneg; intros; apply Rle_0_sqr).
  destruct (Req_dec (dot n v v) 0) as [Z|Z].
  - assert (Hv : forall i, (i < n)%nat -> v i = 0).
    { intros i Hi. assert (E : v i * v i = 0) by (apply (sum_zero_inv n (fun i => v i * v i)); auto; intros; apply Rle_0_sqr). nra. }
    assert (U : dot n u v = 0) by (apply sum_zero; intros i Hi; rewrite Hv by auto; ring). rewrite U, Z. lra.
  - assert (0 < dot n v v) by lra. nra.
Qed.
(* whatever vector a solver returns for a load, the error of its compliance is the
   work of the out-of-balance force on the exact displacement *)
Definition unbalanced (n : nat) (K : mat) (D : list nat) (f u : vec) : vec := fun i => if mem i D then 0 else mv n K u i - f i.
Theorem C91_inexact_compliance n K D f u v : symmetric n K -> equilibrium n K D f v ->
  (forall i, (i < n)%nat -> In i D -> u i = 0) ->
  work n D f u - work n D f v = dot n v (unbalanced n K D f u) /\
  Rabs (work n D f u - work n D f v) <= sqrt (dot n v v) * sqrt (dot n (unbalanced n K D f u) (unbalanced n K D f u)).
Proof.
  intros S Hv Hu.
  assert (E : work n D f u - work n D f v = dot n v (unbalanced n K D f u)).
  { rewrite <- (work_test n K D f v u Hv Hu), (dot_mv_sym n K u v S). unfold dot, work. rewrite <- sum_minus. apply sum_ext.
    intros i Hi. unfold unbalanced. destruct (mem i D) eqn:M; [|ring]. apply mem_in in M. rewrite (proj1 Hv i Hi M). ring. }
  split; [exact E|]. rewrite E. rewrite <- sqrt_mult by (apply sum_nonneg; intros; apply Rle_0_sqr).
  rewrite <- sqrt_Rsqr_abs. apply sqrt_le_1_alt. unfold Rsqr. apply cauchy.
Qed.

(* ---- an instance: two springs, a PETSc that can only do 1 unknown problems ---- *)
Definition toyE : penv := mkPenv true true true
  (fun p => match p with None => mkDb (Some "cg") (Some "jacobi") None None None | Some _ => mkDb None None None None None end)
  (fun k A _ b => if String.eqb (k_type k) "preonly" then Ok ((fun i => b i / A i i), 4%Z) else Err RuntimeError).
Theorem C91_instance :
  complete toyE /\ memoryless toyE /\
  (* the database breaks petsc_spdirect; a prefix or use_set_from_options=False protects it *)
  (forall A b, solve_u_with_petsc toyE (fun _ _ => Err ValueError) (mkLcfg "petsc_spdirect" 0 None ONone false) A b = Err RuntimeError) /\
  (forall A b, exists u, solve_u_with_petsc toyE (fun _ _ => Err ValueError)
      (mkLcfg "petsc_spdirect" 0 None (OPetsc (mkPetsc "preonly" "lu" None (Some "topt_") true)) false) A b = Ok u /\
      forall i, u i = b i / A i i) /\
  (* two loads on two independent springs, the second held *)
  let K := fun i j : nat => if Nat.eqb i j then 2 else 0 in
  let c := mkLcfg "petsc_spdirect" 0 None (OPetsc (mkPetsc "preonly" "lu" None None false)) false in
  exists cs us, elastic_multi_petsc toyE c 2 K [1%nat] [fun _ => 6; fun _ => 10] = Ok (cs, us) /\ cs = [18; 50] /\
    symmetric 2 K /\ equilibrium 2 K [1%nat] (fun _ => 6) (fun i => if Nat.eqb i 0 then 3 else 0).
Proof.
  split; [now repeat split|]. split; [intros k A past b; reflexivity|]. split; [intros; reflexivity|]. split.
  { intros A b. eexists. split; [reflexivity|]. reflexivity. }
  intros K c. unfold elastic_multi_petsc, petsc_multi.
  eexists. eexists. split; [unfold c; reflexivity|]. split.
  - cbn [zipwith map]. unfold dot, sum, enforceF, enforceK, K, mem. cbn [seq map rsum fold_right existsb Nat.eqb orb]. f_equal; [field|f_equal; field].
  - split.
    + intros i j _ _. unfold K. now rewrite Nat.eqb_sym.
    + split; intros i Hi Hd; unfold mv, sum, K; cbn [seq map rsum fold_right].
      * destruct Hd as [<-|[]]. reflexivity.
      * destruct i as [|[|i]]; [cbn; ring|exfalso; apply Hd; now left|lia].
Qed.
