(* Specification vocabulary for the driver properties (C27-C30, C34). *)
From Verif Require Import Base Driver_model.
Open Scope Z_scope.
Open Scope list_scope.

(* [chain body s b tr]: tr records iterations b, b+1, b+2, ... each performed
   exactly once, each from the state the previous one left, the first from s. *)
Fixpoint chain {S} (body : Z -> S -> S * option exn) (s : S) (b : Z) (tr : list (Z * S)) : Prop :=
  match tr with
  | [] => True
  | (i, s') :: tr' => i = b /\ body i s = (s', None) /\ chain body s' (b + 1) tr'
  end.

(* state after a trace that started in s *)
Definition final_state {S} (s : S) (tr : list (Z * S)) : S := last (map snd tr) s.

(* the two stopping criteria, as documented for check_convergence *)
Definition meets_criteria {S} (rho_change : S -> R) (kkt : S -> kktval) (cfg : dcfg) (s : S) : Prop :=
  check_convergence cfg = true /\ (rho_change s < tol_rho_change cfg)%R /\
  match kkt s with
  | KNone => False
  | KNonFinite => True
  | KVal k => (Rabs k < tol_kkt_residual cfg)%R
  end.

(* the iterations at which a checkpoint is documented: iteration 1, every
   multiple of max_iters // record_times, the last iteration of the call, and
   the iteration at which the run converges *)
Definition documented {S} (rho_change : S -> R) (kkt : S -> kktval) (cfg : dcfg)
    (last_of_call : Z) (e : Z * S) : Prop :=
  fst e = 1 \/ (max_iters cfg / record_times cfg | fst e) \/ fst e = last_of_call \/
  meets_criteria rho_change kkt cfg (snd e).

(* sub-list: keeps order, drops elements *)
Inductive sublist {A} : list A -> list A -> Prop :=
| sub_nil : sublist [] []
| sub_keep x l m : sublist l m -> sublist (x :: l) (x :: m)
| sub_drop x l m : sublist l m -> sublist l (x :: m).
