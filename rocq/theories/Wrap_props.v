(* C81: the wrappers in fea/solver.py. *)
From Coq Require Import String Lia.
From Verif Require Import Base Solver_model Solver_props Wrap_model.
Open Scope string_scope.
Open Scope list_scope.

(* ---------- specification ---------- *)
(* a call with npos positional arguments and the keywords kws fits the parameters *)
Definition fits (ps : params) (npos : nat) (kws : list string) : Prop :=
  (npos <= List.length ps)%nat /\ NoDup kws /\
  (forall k, In k kws -> In k (map fst ps) /\ ~ In k (map fst (firstn npos ps))) /\
  (forall n, In (n, false) (skipn npos ps) -> In n kws).

Lemma strmem_in x l : strmem x l = true <-> In x l.
Proof.
  unfold strmem. rewrite existsb_exists. split.
  - intros (y & Hy & E). apply String.eqb_eq in E. now subst.
  - intros H. exists x. split; [exact H|apply String.eqb_refl].
Qed.
Lemma dup_nodup l : dup l = false <-> NoDup l.
Proof.
  induction l as [|x l IH]; cbn [dup]; [split; [constructor|reflexivity]|].
  rewrite Bool.orb_false_iff, IH. split.
  - intros (E & H). constructor; [|exact H]. intros Hi. apply strmem_in in Hi. congruence.
  - intros H. inversion H as [|? ? Hn Hd]; subst. split; [|exact Hd]. destruct (strmem x l) eqn:E; [|reflexivity].
    apply strmem_in in E. contradiction.
Qed.
Theorem C81_binding : forall ps npos kws,
  (bind ps npos kws = Ok tt <-> fits ps npos kws) /\ (bind ps npos kws = Err TypeError <-> ~ fits ps npos kws).
Proof.
  intros ps npos kws.
  assert (D : bind ps npos kws = Ok tt /\ fits ps npos kws \/ bind ps npos kws = Err TypeError /\ ~ fits ps npos kws).
  { unfold bind. destruct (Nat.ltb_spec (List.length ps) npos) as [H|H].
    { right. split; [reflexivity|]. intros (F & _). lia. }
    destruct (dup kws) eqn:Ed.
    { right. split; [reflexivity|]. intros (_ & F & _). apply dup_nodup in F. congruence. }
    destruct (existsb _ kws) eqn:E1.
    { right. split; [reflexivity|]. intros (_ & _ & F & _). apply existsb_exists in E1. destruct E1 as (k & Hk & E).
      destruct (F k Hk) as (F1 & _). apply strmem_in in F1. now rewrite F1 in E. }
    destruct (existsb (fun k => strmem k _) kws) eqn:E2.
    { right. split; [reflexivity|]. intros (_ & _ & F & _). apply existsb_exists in E2. destruct E2 as (k & Hk & E).
      apply strmem_in in E. now destruct (F k Hk). }
    destruct (existsb _ (skipn npos ps)) eqn:E3.
    { right. split; [reflexivity|]. intros (_ & _ & _ & F). apply existsb_exists in E3. destruct E3 as ([n b] & Hk & E).
      apply Bool.andb_true_iff in E. cbn [fst snd] in E. destruct E as (Eb & En). destruct b; [discriminate|].
      apply F in Hk. apply strmem_in in Hk. now rewrite Hk in En. }
    left. split; [reflexivity|]. split; [lia|]. split; [now apply dup_nodup|]. split.
    - intros k Hk. split.
      + destruct (strmem k (map fst ps)) eqn:E; [now apply strmem_in|]. exfalso. apply Bool.not_true_iff_false in E1. apply E1.
        apply existsb_exists. exists k. split; [exact Hk|]. now rewrite E.
      + intros Hi. apply Bool.not_true_iff_false in E2. apply E2. apply existsb_exists. exists k. split; [exact Hk|]. now apply strmem_in.
    - intros n Hn. destruct (strmem n kws) eqn:E; [now apply strmem_in|]. exfalso. apply Bool.not_true_iff_false in E3. apply E3.
      apply existsb_exists. exists (n, false). split; [exact Hn|]. cbn [fst snd]. now rewrite E. }
  destruct D as [(-> & F)|(-> & F)]; split; split; try tauto; try discriminate.
Qed.
Print Assumptions C81_binding.

(* The single load wrappers accept what their signature says and hand it on. *)
Theorem C81_single_load_wrappers : forall A (inner : res A) npos kws,
  (fits sig_w_simp npos kws -> w_compute_compliance_simp_basis inner npos kws = inner) /\
  (~ fits sig_w_simp npos kws -> w_compute_compliance_simp_basis inner npos kws = Err TypeError) /\
  (fits sig_w_single npos kws -> w_compute_compliance_basis inner npos kws = inner /\ w_compute_compliance_basis_numba inner npos kws = inner) /\
  (~ fits sig_w_single npos kws ->
     w_compute_compliance_basis inner npos kws = Err TypeError /\ w_compute_compliance_basis_numba inner npos kws = Err TypeError).
Proof.
  intros A inner npos kws. split; [|split; [|split]]; intros F.
  - apply (proj1 (C81_binding _ _ _)) in F. unfold w_compute_compliance_simp_basis, call. rewrite F. reflexivity.
  - apply (proj2 (C81_binding _ _ _)) in F. unfold w_compute_compliance_simp_basis, call. rewrite F. reflexivity.
  - apply (proj1 (C81_binding _ _ _)) in F. unfold w_compute_compliance_basis_numba, w_compute_compliance_basis, call. rewrite F.
    split; reflexivity.
  - apply (proj2 (C81_binding _ _ _)) in F. unfold w_compute_compliance_basis_numba, w_compute_compliance_basis, call. rewrite F.
    split; reflexivity.
Qed.
Print Assumptions C81_single_load_wrappers.

(* REFUTED for the multi load wrappers: no call ever reaches the solver. *)
Theorem C81_multi_load_wrappers_refuted : forall A (inner : res A) npos kws,
  w_solve_multi_load inner npos kws = Err TypeError /\ w_compute_compliance_basis_multi_load inner npos kws = Err TypeError.
Proof.
  intros A inner npos kws. unfold w_solve_multi_load, w_compute_compliance_basis_multi_load.
  assert (B : forall c : res A, call sig_w_multi npos kws (call sig_solve_multi_load 10 ["solver"; "elem_func"; "rtol"; "maxiter"; "n_joblib"] c) = Err TypeError).
  { intros c. unfold call. destruct (bind sig_w_multi npos kws) as [u|e] eqn:E; [reflexivity|].
    destruct (C81_binding sig_w_multi npos kws) as (H1 & H2). f_equal.
    assert (Hn : ~ fits sig_w_multi npos kws) by (intros F; apply H1 in F; congruence). apply H2 in Hn. congruence. }
  split; apply B.
Qed.
Print Assumptions C81_multi_load_wrappers_refuted.

(* The wrapper's default "auto" never selects a solver: whatever tolerance and
   limit are given, the direct solver is called, once, through the fallback.  A
   named solver is used as requested, without fallback. *)
Theorem C81_solve_u_wrapper : forall V (run : backend -> res (V * Z)) rtol maxiter,
  w_solve_u run (AName "auto") rtol maxiter = ([BDirect], match run BDirect with Ok (u, _) => Ok u | Err e => Err e end) /\
  (forall s, s <> "auto" -> w_solve_u run (AName s) rtol maxiter = solve_u run (mkLcfg s rtol maxiter ONone false)) /\
  (forall c, w_solve_u run (ACfg c) rtol maxiter = solve_u run c).
Proof.
  intros V run rtol maxiter. split; [reflexivity|]. split; [|reflexivity].
  intros s Hs. unfold w_solve_u, normalize_solver_arg. now rewrite (proj2 (String.eqb_neq s "auto") Hs).
Qed.
Print Assumptions C81_solve_u_wrapper.

Example C81_instance : fits sig_w_multi 10 [] /\ fits sig_w_single 8 ["rho"; "solver"].
Proof. split; apply (proj1 (C81_binding _ _ _)); reflexivity. Qed.

(* every argument of the problem is required, by the wrappers and by what they wrap *)
Theorem C81_required_arguments : forall npos kws k x,
  (fits sig_w_simp npos kws \/ fits sig_w_single npos kws \/ fits sig_compute_compliance_basis npos kws) -> nth_error problem_single k = Some x ->
  (k < npos)%nat \/ In x kws.
Proof.
  assert (S : forall (l : params) n k p, nth_error l k = Some p -> (n <= k)%nat -> In p (skipn n l)).
  { induction l as [|a l IH]; intros n k p H Hn; [destruct k; discriminate|]. destruct n as [|n]; [cbn [skipn]; now apply nth_error_In in H|].
    destruct k as [|k]; [lia|]. cbn [skipn]. apply (IH n k p); [exact H|lia]. }
  assert (G : forall rest npos kws k x, fits (req problem_single ++ rest) npos kws -> nth_error problem_single k = Some x -> (k < npos)%nat \/ In x kws).
  { intros rest npos kws k x F Hx. destruct (Nat.lt_ge_cases k npos) as [H|H]; [now left|right].
    destruct F as (_ & _ & _ & F). apply F. apply (S _ _ k); [|exact H].
    assert (Hk : (k < List.length problem_single)%nat) by (apply nth_error_Some; congruence).
    rewrite nth_error_app1 by (unfold req; rewrite map_length; exact Hk).
    unfold req. rewrite nth_error_map, Hx. reflexivity. }
  intros npos kws k x F Hx. destruct F as [F|[F|F]]; [|eapply G; [exact F|exact Hx]..].
  eapply (G []); [rewrite app_nil_r; exact F|exact Hx].
Qed.
Print Assumptions C81_required_arguments.
