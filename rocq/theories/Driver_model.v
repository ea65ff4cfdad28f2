(* Model of the iteration driver of core/optimizers/common_density.py
   (optimize, optimize_steps, _ensure_state_initialized, _optimize_impl,
   _finalize).  What one iteration computes is a parameter: everything the
   optimizer object carries from one iteration to the next (densities,
   histories, running scale, multiplier) is one value of type [S]. *)
From Verif Require Import Base.
Open Scope Z_scope.
Open Scope list_scope.

(* cfg fields read by the driver, common_density.py:208-261 *)
Record dcfg := mkDC {
  max_iters : Z; record_times : Z; check_convergence : bool;
  tol_rho_change : R; tol_kkt_residual : R }.

(* self.kkt_residual: None | non-finite | a number *)
Inductive kktval := KNone | KNonFinite | KVal (r : R).

(* range(a, b) *)
Definition zrange (a b : Z) : list Z := map (fun k => a + Z.of_nat k) (seq 0 (Z.to_nat (b - a))).

Section Driver.
Context {S : Type}.
(* common_density.py:1013-1157: schedules, filter, projection, analysis,
   sensitivities, rho_update, pinning, recording.  On an exception the state
   may already have changed. *)
Variable body : Z -> S -> S * option exn.
Variable rho_change_max : S -> R.               (* 1136-1142 *)
Variable kkt_residual : S -> kktval.            (* 1162 *)
Variable initialize : res (S * Z).              (* initialize_params: state, iter_begin *)
Variable cfg : dcfg.

(* the optimizer object.  [disk] is the data/ directory: checkpoints written,
   newest last; [trace] is a ghost: the iterations completed by [body], with
   the resulting states. *)
Record opt := mkOpt {
  o_state : option S; o_next : Z; o_end : Z; o_completed : bool;
  o_disk : list (Z * S); o_trace : list (Z * S) }.

(* __init__, common_density.py:584-589 *)
Definition opt_new (disk : list (Z * S)) : opt := mkOpt None 0 0 false disk [].

(* 1159-1184; the conv flags are False when checking is off *)
Definition converged_at (s : S) : res bool :=
  if check_convergence cfg then
    let conv_rho := Rltb (rho_change_max s) (tol_rho_change cfg) in
    match kkt_residual s with
    | KNone => Err ValueError
    | KNonFinite => Ok (conv_rho && true)
    | KVal k => Ok (conv_rho && Rltb (Rabs k) (tol_kkt_residual cfg))
    end
  else Ok false.

(* 1187-1193.  The tuple is built before any() looks at it, so the modulo is
   evaluated in every iteration. *)
Definition save_due (i limit : Z) (conv : bool) : res bool :=
  if record_times cfg =? 0 then Err ZeroDivisionError
  else
    let period := max_iters cfg / record_times cfg in
    if period =? 0 then Err ZeroDivisionError
    else Ok ((i mod period =? 0) || (i =? 1) || conv || (i =? limit - 1))%bool.

Inductive loop_end := Finished (converged : bool) | Raised (e : exn).

(* 1013-1238: the for loop over the remaining iteration numbers; [last] is the
   loop variable iter_num, which survives the loop. *)
Fixpoint loop (its : list Z) (limit last : Z) (s : S) (disk trace : list (Z * S))
    : S * list (Z * S) * list (Z * S) * Z * loop_end :=
  match its with
  | [] => (s, disk, trace, last, Finished false)
  | i :: its' =>
    match body i s with
    | (s', Some e) => (s', disk, trace, i, Raised e)
    | (s', None) =>
      let trace := trace ++ [(i, s')] in
      match converged_at s' with
      | Err e => (s', disk, trace, i, Raised e)
      | Ok conv =>
        match save_due i limit conv with
        | Err e => (s', disk, trace, i, Raised e)
        | Ok due =>
          let disk := if due then disk ++ [(i, s')] else disk in
          if due && conv then (s', disk, trace, i, Finished true)
          else loop its' limit i s' disk trace
        end
      end
    end
  end.

(* 944-964: only the completion flag is visible here *)
Definition finalize (o : opt) : opt :=
  match o_state o with
  | None => o
  | Some _ => mkOpt (o_state o) (o_next o) (o_end o) true (o_disk o) (o_trace o)
  end.

(* 861-918; Ok None = already completed, skip *)
Definition ensure_initialized (o : opt) : res (option (opt * S)) :=
  if o_completed o then Ok None
  else match o_state o with
       | Some s => Ok (Some (o, s))
       | None =>
         match initialize with
         | Err e => Err e
         | Ok (s, b) =>
           Ok (Some (mkOpt (Some s) b (max_iters cfg + 1) false (o_disk o) (o_trace o), s))
         end
       end.

(* 966-1243.  [max_steps] None is optimize().  An exception leaves the method
   before line 1240, so _iter_next keeps its value; the state arrays were
   modified in place. *)
Definition optimize_impl (max_steps : option Z) (o : opt) : opt * option exn :=
  match ensure_initialized o with
  | Err e => (o, Some e)
  | Ok None => (o, None)
  | Ok (Some (o, s)) =>
    let start := o_next o in
    if o_end o <=? start then (finalize o, None)
    else
      let limit := match max_steps with
                   | None => o_end o
                   | Some n => Z.min (start + n) (o_end o) end in
      match loop (zrange start limit) limit start s (o_disk o) (o_trace o) with
      | (s', disk, trace, last, Raised e) =>
        (mkOpt (Some s') start (o_end o) false disk trace, Some e)
      | (s', disk, trace, last, Finished conv) =>
        let o' := mkOpt (Some s') (last + 1) (o_end o) false disk trace in
        (if conv || (o_end o' <=? o_next o') then finalize o' else o', None)
      end
  end.

(* 845-859 *)
Definition optimize (o : opt) : opt * option exn := optimize_impl None o.
Definition optimize_steps (n : Z) (o : opt) : opt * option exn :=
  if n <=? 0 then (o, None) else optimize_impl (Some n) o.

(* A client: a list of calls, catching whatever each raises. *)
Inductive call := CSteps (n : Z) | COptimize.
Definition exec (c : call) (o : opt) : opt * option exn :=
  match c with CSteps n => optimize_steps n o | COptimize => optimize o end.
Fixpoint exec_all (cs : list call) (o : opt) : opt * list (option exn) :=
  match cs with
  | [] => (o, [])
  | c :: cs' => let (o1, r) := exec c o in
                let (o2, rs) := exec_all cs' o1 in (o2, r :: rs)
  end.
End Driver.
