(* C55: solver options. *)
From Verif Require Import Base Solver_model.
Open Scope string_scope.
Open Scope list_scope.

(* the back end a solver name asks for, with its parameters: the public contract *)
Definition petsc_direct_ok (p : petsc) : Prop := ksp_type p = "preonly" /\ pc_type p = "lu".
Definition known : list string := ["cg_jacobi"; "cg_pyamg"; "spsolve"; "petsc"; "petsc_spdirect"].
(* [requested c b]: configuration c asks for back end b *)
Inductive requested (c : lcfg) : backend -> Prop :=
| ReqJ : l_solver c = "cg_jacobi" -> requested c (BJacobi (l_rtol c) (l_maxiter c))
| ReqA : l_solver c = "cg_pyamg" -> requested c (BAmg (l_rtol c) (l_maxiter c))
| ReqD : l_solver c = "spsolve" -> requested c BDirect
| ReqP p : l_solver c = "petsc" ->
    p = (match l_petsc c with OPetsc q => q | ONone => petsc_default
         | ODict d => merge_petsc petsc_default (ODict d) end) ->
    requested c (BPetsc (l_rtol c) (l_maxiter c) p)
| ReqS p : l_solver c = "petsc_spdirect" -> petsc_direct_ok p ->
    p = (merge_petsc direct_petsc (l_petsc c)) ->
    requested c (BPetsc (l_rtol c) (l_maxiter c) p).

Lemma merge_twice o : merge_petsc direct_petsc (OPetsc (merge_petsc direct_petsc o)) = merge_petsc direct_petsc o.
Proof.
  destruct (merge_petsc direct_petsc o) as [k pc [f|] [x|] b]; reflexivity.
Qed.
Lemma seqb_true a b : String.eqb a b = true -> a = b.
Proof. apply String.eqb_eq. Qed.

Lemma petsc_for_spdirect o :
  (petsc_direct_ok (merge_petsc direct_petsc o) ->
   petsc_for_solver "petsc_spdirect" o =
     Ok (Some (merge_petsc direct_petsc o))) /\
  (~ petsc_direct_ok (merge_petsc direct_petsc o) ->
   petsc_for_solver "petsc_spdirect" o = Err ValueError).
Proof.
  unfold petsc_for_solver. rewrite String.eqb_refl. cbn [negb].
  assert (G : forall q, (petsc_direct_ok q ->
     (if negb (String.eqb (ksp_type q) "preonly") then Err ValueError else
      if negb (String.eqb (pc_type q) "lu") then Err ValueError else Ok (Some q)) = Ok (Some q)) /\
    (~ petsc_direct_ok q ->
     (if negb (String.eqb (ksp_type q) "preonly") then Err ValueError else
      if negb (String.eqb (pc_type q) "lu") then Err ValueError else Ok (Some q)) = Err ValueError (A := option petsc))).
  { intros q. unfold petsc_direct_ok. destruct (String.eqb_spec (ksp_type q) "preonly") as [E|E]; cbn [negb].
    - destruct (String.eqb_spec (pc_type q) "lu") as [F|F]; cbn [negb]; split; tauto.
    - split; tauto. }
  destruct o as [|p|d].
  - split; [reflexivity|]. intros H. exfalso. apply H. split; reflexivity.
  - rewrite merge_twice. apply G.
  - rewrite merge_twice. apply G.
Qed.

Lemma attempt_cases V (run : backend -> res (V * Z)) c :
  (exists b, requested c b /\ (forall b', requested c b' -> b' = b) /\ attempt run c = ([b], run b)) \/
  ((forall b, ~ requested c b) /\ attempt run c = ([], Err ValueError)).
Proof.
  unfold attempt. destruct c as [s rt mi pe fb]. cbn [l_solver l_rtol l_maxiter l_petsc].
  destruct (String.eqb_spec s "cg_jacobi") as [->|N1].
  { left. eexists. split; [now apply (ReqJ (mkLcfg _ _ _ _ _))|]. split; [|reflexivity].
    intros b' H. inversion H; try discriminate; reflexivity. }
  destruct (String.eqb_spec s "cg_pyamg") as [->|N2].
  { left. eexists. split; [now apply (ReqA (mkLcfg _ _ _ _ _))|]. split; [|reflexivity].
    intros b' H. inversion H; try discriminate; reflexivity. }
  destruct (String.eqb_spec s "spsolve") as [->|N3].
  { left. eexists. split; [now apply (ReqD (mkLcfg _ _ _ _ _))|]. split; [|reflexivity].
    intros b' H. inversion H; try discriminate; reflexivity. }
  destruct (String.eqb_spec s "petsc") as [->|N4].
  { left. eexists. split; [|split; [|reflexivity]].
    - apply (ReqP (mkLcfg _ _ _ _ _)); [reflexivity|]. cbn [l_petsc]. destruct pe; reflexivity.
    - intros b' H. inversion H; try discriminate. subst b'. cbn [l_petsc l_rtol l_maxiter] in *. subst p. now destruct pe. }
  destruct (String.eqb_spec s "petsc_spdirect") as [->|N5].
  - destruct (petsc_for_spdirect pe) as [A B].
    set (q := merge_petsc direct_petsc pe) in *.
    assert (D : petsc_direct_ok q \/ ~ petsc_direct_ok q).
    { unfold petsc_direct_ok. destruct (String.string_dec (ksp_type q) "preonly"), (String.string_dec (pc_type q) "lu"); tauto. }
    destruct D as [D|D].
    + left. rewrite (A D). exists (BPetsc rt mi q). split; [|split; [|reflexivity]].
      * apply (ReqS (mkLcfg "petsc_spdirect" rt mi pe fb)); [reflexivity|exact D|reflexivity].
      * intros b' H. inversion H as [| | |p E Ep|p E Eo Ep]; try discriminate. cbn [l_petsc] in Ep. subst p. reflexivity.
    + right. rewrite (B D). split; [|reflexivity]. intros b H. inversion H; try discriminate.
      cbn [l_petsc] in *. subst p. auto.
  - right. split; [|reflexivity]. intros b H. inversion H; cbn in *; congruence.
Qed.

(* without permission to fall back: exactly the requested back end is called,
   once, with the requested parameters, and its result or error is returned; if
   nothing is requested (unknown name, unsuitable PETSc options) a ValueError *)
Theorem C55_no_fallback V (run : backend -> res (V * Z)) c : l_fallback c = false ->
  (forall b, requested c b ->
     solve_u run c = ([b], match run b with Ok (u, _) => Ok u | Err e => Err e end)) /\
  ((forall b, ~ requested c b) -> solve_u run c = ([], Err ValueError)).
Proof.
  intros Hf. unfold solve_u. rewrite Hf. destruct (attempt_cases V run c) as [(b & Hb & Hu & ->)|[Hn ->]].
  - split; [|intros Hn; destruct (Hn b Hb)]. intros b' Hb'. rewrite (Hu b' Hb').
    destruct (run b) as [[u i]|e]; reflexivity.
  - split; [intros b Hb; destruct (Hn b Hb)|reflexivity].
Qed.
Theorem C55_unknown_solver V (run : backend -> res (V * Z)) c : ~ In (l_solver c) known ->
  l_fallback c = false -> solve_u run c = ([], Err ValueError).
Proof.
  intros Hk Hf. apply C55_no_fallback; [exact Hf|]. intros b H.
  inversion H as [E|E|E|p E|p E]; apply Hk; rewrite E; simpl; tauto.
Qed.
(* with permission: the direct solver is used in addition exactly when the
   requested one raised (or none could be run) *)
Theorem C55_fallback V (run : backend -> res (V * Z)) c : l_fallback c = true ->
  (forall b u i, requested c b -> run b = Ok (u, i) -> solve_u run c = ([b], Ok u)) /\
  (forall b e, requested c b -> run b = Err e ->
     solve_u run c = ([b; BDirect], match run BDirect with Ok (u, _) => Ok u | Err e => Err e end)) /\
  ((forall b, ~ requested c b) ->
     solve_u run c = ([BDirect], match run BDirect with Ok (u, _) => Ok u | Err e => Err e end)).
Proof.
  intros Hf. unfold solve_u. rewrite Hf. destruct (attempt_cases V run c) as [(b & Hb & Hu & ->)|[Hn ->]].
  - repeat split.
    + intros b' u i Hb' Hr. rewrite (Hu b' Hb') in *. now rewrite Hr.
    + intros b' e Hb' Hr. rewrite (Hu b' Hb') in *. now rewrite Hr.
    + intros Hn. destruct (Hn b Hb).
  - repeat split; intros b; try (intros; exfalso; eapply Hn; eassumption).
Qed.
(* FINDING: with fallback allowed even a misspelt solver name is silently solved directly *)
Theorem C55_unknown_solver_fallback_refuted V (run : backend -> res (V * Z)) c u i :
  ~ In (l_solver c) known -> l_fallback c = true -> run BDirect = Ok (u, i) ->
  solve_u run c = ([BDirect], Ok u).
Proof.
  intros Hk Hf Hr. destruct (C55_fallback V run c Hf) as (_ & _ & H). rewrite H, Hr; [reflexivity|].
  intros b Hb. inversion Hb as [E|E|E|p E|p E]; apply Hk; rewrite E; simpl; tauto.
Qed.
(* FINDING: the convergence flag is ignored; an unconverged iterate is returned
   exactly like a converged one *)
Theorem C55_convergence_flag_ignored V (run : backend -> res (V * Z)) c b u i j :
  requested c b -> run b = Ok (u, i) ->
  solve_u run c = solve_u (fun b' => match run b' with Ok (u', _) => Ok (u', j) | Err e => Err e end) c.
Proof.
  intros Hb Hr. unfold solve_u at 1.
  destruct (attempt_cases V run c) as [(b1 & Hb1 & Hu & ->)|[Hn _]]; [|destruct (Hn b Hb)].
  pose proof (Hu b Hb) as ->. rewrite Hr.
  unfold solve_u. destruct (attempt_cases V (fun b' => match run b' with Ok (u', _) => Ok (u', j) | Err e => Err e end) c)
    as [(b2 & Hb2 & Hu2 & ->)|[Hn _]]; [|destruct (Hn b1 Hb)].
  pose proof (Hu b2 Hb2) as ->. now rewrite Hr.
Qed.

(* ---- PETSc option merging ---- *)
(* a user dict entry wins over the base; a missing one keeps the base *)
Theorem C55_merge_dict base d :
  let m := merge_petsc base (ODict d) in
  (forall s, oget "ksp_type" d = Some (VStr s) -> ksp_type m = s) /\
  (forall s, oget "pc_type" d = Some (VStr s) -> pc_type m = s) /\
  (forall s, oget "pc_factor_mat_solver_type" d = Some (VStr s) -> factor_type m = Some s) /\
  (forall s, oget "options_prefix" d = Some (VStr s) -> prefix m = Some s) /\
  (forall b, oget "use_set_from_options" d = Some (VBool b) -> from_options m = b) /\
  (oget "ksp_type" d = None -> ksp_type m = ksp_type base) /\
  (oget "pc_type" d = None -> pc_type m = pc_type base) /\
  (oget "pc_factor_mat_solver_type" d = None -> factor_type m = factor_type base) /\
  (oget "options_prefix" d = None -> prefix m = prefix base) /\
  (oget "use_set_from_options" d = None -> from_options m = from_options base).
Proof.
  cbv zeta. unfold merge_petsc, get_str, get_opt, get_bool.
  cbn [ksp_type pc_type factor_type prefix from_options].
  repeat split; intros; rewrite H; reflexivity.
Qed.
Theorem C55_merge_options base p :
  let m := merge_petsc base (OPetsc p) in
  ksp_type m = ksp_type p /\ pc_type m = pc_type p /\ from_options m = from_options p /\
  (forall s, factor_type p = Some s -> factor_type m = Some s) /\
  (factor_type p = None -> factor_type m = factor_type base) /\
  (forall s, prefix p = Some s -> prefix m = Some s) /\ (prefix p = None -> prefix m = prefix base).
Proof.
  cbv zeta. unfold merge_petsc. cbn [ksp_type pc_type factor_type prefix from_options].
  repeat split; intros; rewrite H; reflexivity.
Qed.
(* the sparse direct mode accepts exactly preonly/lu *)
Theorem C55_spdirect_options o :
  let q := merge_petsc direct_petsc o in
  (petsc_for_solver "petsc_spdirect" o = Ok (Some q) <-> petsc_direct_ok q) /\
  (petsc_for_solver "petsc_spdirect" o = Err ValueError <-> ~ petsc_direct_ok q).
Proof.
  intros q. destruct (petsc_for_spdirect o) as [A B]. fold q in A, B.
  assert (D : petsc_direct_ok q \/ ~ petsc_direct_ok q).
  { unfold petsc_direct_ok. destruct (String.string_dec (ksp_type q) "preonly"), (String.string_dec (pc_type q) "lu"); tauto. }
  destruct D as [D|D].
  - rewrite (A D). split; split; auto; [discriminate|tauto].
  - rewrite (B D). split; split; auto; [discriminate|tauto].
Qed.

(* ---- single-load analyses ---- *)
Theorem C55_single_load_solver V (run : backend -> res (V * Z)) c ndof b :
  l_solver c <> "auto" -> l_maxiter c <> None ->
  requested c b -> single_load_solve run c ndof =
    ([b], match run b with Ok (u, _) => Ok u | Err e => Err e end).
Proof.
  intros Ha Hm Hb. unfold single_load_solve. apply C55_no_fallback.
  - unfold single_load_cfg. cbn [l_fallback]. now apply String.eqb_neq.
  - destruct c as [s rt [mi|] pe fb]; [|now destruct Hm]. unfold single_load_cfg. cbn [l_solver l_rtol l_maxiter l_petsc] in *.
    apply String.eqb_neq in Ha. rewrite Ha.
    inversion Hb as [E|E|E|p E Ep|p E Eo Ep]; cbn [l_solver l_rtol l_maxiter l_petsc] in *.
    + now apply (ReqJ (mkLcfg s rt (Some mi) pe false)).
    + now apply (ReqA (mkLcfg s rt (Some mi) pe false)).
    + now apply (ReqD (mkLcfg s rt (Some mi) pe false)).
    + now apply (ReqP (mkLcfg s rt (Some mi) pe false)).
    + now apply (ReqS (mkLcfg s rt (Some mi) pe false)).
Qed.
(* 'auto': direct below 1000 dofs, AMG-preconditioned CG from there on; default
   iteration limit between 300 and 1000 *)
Theorem C55_auto_choice V (run : backend -> res (V * Z)) c ndof u i : l_solver c = "auto" ->
  (300 <= default_maxiter ndof <= 1000)%nat /\
  ((ndof < 1000)%nat -> run BDirect = Ok (u, i) -> single_load_solve run c ndof = ([BDirect], Ok u)) /\
  ((1000 <= ndof)%nat -> forall m, m = match l_maxiter c with None => default_maxiter ndof | Some m => m end ->
     run (BAmg (l_rtol c) (Some m)) = Ok (u, i) ->
     single_load_solve run c ndof = ([BAmg (l_rtol c) (Some m)], Ok u)).
Proof.
  intros Ha. split; [unfold default_maxiter; lia|].
  unfold single_load_solve, single_load_cfg. rewrite Ha. cbn [String.eqb Ascii.eqb Bool.eqb].
  unfold auto_solver. split.
  - intros Hn Hr. destruct (Nat.ltb_spec ndof 1000); [|lia].
    eapply (C55_fallback V run (mkLcfg _ _ _ _ true)); [reflexivity|now apply ReqD|exact Hr].
  - intros Hn m -> Hr. destruct (Nat.ltb_spec ndof 1000); [lia|].
    replace (if Nat.ltb ndof 30000 then "cg_pyamg" else "cg_pyamg") with "cg_pyamg" by (now destruct (Nat.ltb ndof 30000)).
    eapply (C55_fallback V run (mkLcfg _ _ _ _ true)); [reflexivity| |exact Hr].
    exact (ReqA (mkLcfg "cg_pyamg" (l_rtol c) _ (l_petsc c) true) eq_refl).
Qed.
(* FINDING: allow_fallback_to_spsolve of the given configuration is ignored by the
   single-load analysis: 'auto' replaces a failing solver although it was not
   allowed, and an explicit solver is not replaced although it was *)
Theorem C55_fallback_flag_ignored V (run : backend -> res (V * Z)) s rt mi pe ndof :
  single_load_solve run (mkLcfg s rt mi pe true) ndof = single_load_solve run (mkLcfg s rt mi pe false) ndof.
Proof. reflexivity. Qed.
Theorem C55_auto_replaces_without_permission_refuted V (run : backend -> res (V * Z)) rt pe ndof e u i :
  (1000 <= ndof)%nat -> run (BAmg rt (Some (default_maxiter ndof))) = Err e -> run BDirect = Ok (u, i) ->
  single_load_solve run (mkLcfg "auto" rt None pe false) ndof =
    ([BAmg rt (Some (default_maxiter ndof)); BDirect], Ok u).
Proof.
  intros Hn He Hr. unfold single_load_solve, single_load_cfg. cbn [l_solver l_rtol l_maxiter l_petsc String.eqb Ascii.eqb Bool.eqb].
  unfold auto_solver. destruct (Nat.ltb_spec ndof 1000); [lia|].
  replace (if Nat.ltb ndof 30000 then "cg_pyamg" else "cg_pyamg") with "cg_pyamg" by (now destruct (Nat.ltb ndof 30000)).
  destruct (C55_fallback V run (mkLcfg "cg_pyamg" rt (Some (default_maxiter ndof)) pe true) eq_refl) as (_ & H2 & _).
  erewrite H2; [now rewrite Hr| |exact He].
  exact (ReqA (mkLcfg "cg_pyamg" rt _ pe true) eq_refl).
Qed.
(* several loads: direct LU or PETSc only; everything else is refused, never replaced *)
Theorem C55_multi_load c :
  (l_solver c = "auto" \/ l_solver c = "spsolve" -> multi_load_plan c = Ok MLU) /\
  (l_solver c = "petsc" -> exists o, multi_load_plan c = Ok (MPetsc (l_rtol c) (l_maxiter c) o) /\
      requested c (BPetsc (l_rtol c) (l_maxiter c) o)) /\
  (l_solver c = "petsc_spdirect" -> forall o, multi_load_plan c = Ok (MPetsc (l_rtol c) (l_maxiter c) o) <->
      requested c (BPetsc (l_rtol c) (l_maxiter c) o)) /\
  (~ In (l_solver c) ["auto"; "spsolve"; "petsc"; "petsc_spdirect"] -> multi_load_plan c = Err NotImplementedError).
Proof.
  destruct c as [s rt mi pe fb]. unfold multi_load_plan. cbn [l_solver l_rtol l_maxiter l_petsc]. repeat split.
  - intros [->| ->]; reflexivity.
  - intros ->. cbn [String.eqb Ascii.eqb Bool.eqb orb]. unfold petsc_for_solver.
    cbn [String.eqb Ascii.eqb Bool.eqb negb bind]. eexists. split; [reflexivity|].
    apply (ReqP (mkLcfg _ _ _ _ _)); [reflexivity|]. cbn [l_petsc]. destruct pe; reflexivity.
  - subst s. cbn [String.eqb Ascii.eqb Bool.eqb orb]. intros Hm.
    destruct (petsc_for_solver "petsc_spdirect" pe) as [oo|] eqn:E; cbn [bind] in Hm; [|discriminate].
    injection Hm as <-. destruct (petsc_for_spdirect pe) as [A B].
    set (q := merge_petsc direct_petsc pe) in *.
    assert (D : petsc_direct_ok q \/ ~ petsc_direct_ok q).
    { unfold petsc_direct_ok. destruct (String.string_dec (ksp_type q) "preonly"), (String.string_dec (pc_type q) "lu"); tauto. }
    destruct D as [D|D]; [|rewrite (B D) in E; discriminate]. rewrite (A D) in E. injection E as <-.
    apply (ReqS (mkLcfg _ _ _ _ _)); [reflexivity|exact D|reflexivity].
  - subst s. cbn [String.eqb Ascii.eqb Bool.eqb orb]. intros Hr.
    inversion Hr as [| | |p E Ep|p E Eo Ep]; cbn [l_solver l_petsc] in *; [discriminate|].
    destruct (petsc_for_spdirect pe) as [A _]. rewrite <- Ep in A. rewrite (A Eo). reflexivity.
  - intros Hn. destruct (String.eqb_spec s "petsc"); [subst; simpl in Hn; tauto|].
    destruct (String.eqb_spec s "petsc_spdirect"); [subst; simpl in Hn; tauto|].
    destruct (String.eqb_spec s "auto"); [subst; simpl in Hn; tauto|].
    destruct (String.eqb_spec s "spsolve"); [subst; simpl in Hn; tauto|]. reflexivity.
Qed.

(* ---- DensityMethodConfig ---- *)
(* the default options are accepted with petsc_spdirect and become preonly/lu
   (the low-level function refuses the very same options) *)
Theorem C55_config_default_spdirect :
  (exists c, post_init "petsc_spdirect" (OPetsc petsc_default) = Ok c /\ l_petsc c = OPetsc direct_petsc) /\
  petsc_for_solver "petsc_spdirect" (OPetsc petsc_default) = Err ValueError.
Proof. split; [eexists; split; reflexivity|reflexivity]. Qed.
(* FINDING: a user who explicitly asks for cg (or gamg) together with
   petsc_spdirect gets preonly/lu without an error *)
Theorem C55_config_silently_replaces_refuted f x b :
  exists c p, post_init "petsc_spdirect" (OPetsc (mkPetsc "cg" "gamg" f x b)) = Ok c /\
    l_petsc c = OPetsc p /\ ksp_type p = "preonly" /\ pc_type p = "lu" /\ factor_type p = f /\ prefix p = x /\
    from_options p = b.
Proof.
  destruct f as [f|], x as [x|], b; eexists; eexists; (split; [reflexivity|]); repeat split; reflexivity.
Qed.
(* any other Krylov method or preconditioner is refused *)
Theorem C55_config_spdirect_refuses p :
  (ksp_type p <> "cg" /\ ksp_type p <> "preonly") \/
  (pc_type p <> "gamg" /\ pc_type p <> "lu") ->
  post_init "petsc_spdirect" (OPetsc p) = Err ValueError.
Proof.
  intros H. unfold post_init. rewrite String.eqb_refl.
  destruct p as [k pc f x b]. cbn [ksp_type pc_type] in H.
  assert (NE : changed_fields (mkPetsc k pc f x b) <> []).
  { unfold changed_fields. cbn [ksp_type pc_type factor_type prefix from_options].
    destruct H as [[H _]|[H _]]; apply String.eqb_neq in H; rewrite H; [discriminate|].
    destruct (String.eqb k "cg"); discriminate. }
  destruct (changed_fields (mkPetsc k pc f x b)) as [|e d] eqn:EC; [now destruct NE|].
  destruct (petsc_for_spdirect (ODict (e :: d))) as [_ B]. rewrite B; [reflexivity|].
  rewrite <- EC. unfold petsc_direct_ok, changed_fields. cbn [ksp_type pc_type factor_type prefix from_options].
  unfold merge_petsc, get_str. cbn [ksp_type pc_type]. intros [K P].
  assert (KP : forall o, oget "ksp_type" ((if String.eqb pc "gamg" then [] else [("pc_type", VStr pc)]) ++
     (match f with None => [] | Some s => [("pc_factor_mat_solver_type", VStr s)] end) ++
     (match x with None => [] | Some s => [("options_prefix", VStr s)] end) ++
     (if b then [] else [("use_set_from_options", VBool false)])) = o -> o = None).
  { intros o <-. destruct (String.eqb pc "gamg"), f, x, b; reflexivity. }
  destruct H as [[H1 H2]|[H1 H2]].
  - apply String.eqb_neq in H1. rewrite H1 in K. cbn in K. auto.
  - destruct (String.eqb k "cg"); cbn in P; apply String.eqb_neq in H1; rewrite H1 in P; cbn in P; auto.
Qed.
Example C55_witness : exists c, post_init "petsc_spdirect"
    (ODict [("pc_factor_mat_solver_type", VStr "mumps")]) = Ok c /\
  solve_u (fun b => match b with BPetsc _ _ o => Ok (factor_type o, 0%Z) | _ => Err RuntimeError end) c
    = ([BPetsc (/ 100000000) None (mkPetsc "preonly" "lu" (Some "mumps") None true)], Ok (Some "mumps")).
Proof. eexists. split; reflexivity. Qed.

(* other backends keep the PETSc options the user wrote, completed with the iterative
   defaults (never the direct ones) *)
Theorem C55_options_of_other_backends : forall s o, s <> "petsc" -> s <> "petsc_spdirect" ->
  exists c, post_init s o = Ok c /\ l_solver c = s /\ l_petsc c = OPetsc (normalize_petsc o false) /\
    (o = ONone -> l_petsc c = OPetsc petsc_default).
Proof.
  intros s o H1 H2. unfold post_init. destruct (String.eqb_spec s "petsc_spdirect"); [contradiction|]. destruct (String.eqb_spec s "petsc"); [contradiction|].
  cbn [bind]. eexists. split; [reflexivity|]. cbn. repeat split. intros ->. reflexivity.
Qed.
Print Assumptions C55_options_of_other_backends.
