(* Model of the three multi-load heat solvers of fea/solver_heat.py as programs that
   write into the caller's array u_all: (columns after the call, outcome). *)
From Verif Require Import Base Sums Mesh_model Fea_model Heat_model.
Open Scope R_scope.
Open Scope list_scope.

Section HeatAlt.
(* SuperLU: scipy.sparse.linalg.splu(A).solve(b), column by column for several b *)
Variable lu : mat -> vec -> vec.

Definition set_col (i : nat) (u : vec) (us : list vec) : list vec :=
  firstn i us ++ match skipn i us with [] => [] | _ :: r => u :: r end.
(* solver_heat.py:43-54: the loop from load i on; loads = values[i:] *)
Fixpoint enforce_loop (K : mat) (emit : vec) (Ds : list (list nat)) (vals : list R) (i : nat) (u_all : list vec)
  : list vec * res unit :=
  match vals with
  | [] => (u_all, Ok tt)
  | v :: r =>
    match nth_error Ds i with
    | None => (u_all, Err IndexError)
    | Some D => enforce_loop K emit Ds r (S i) (set_col i (lu (enforceK D K) (enforceV D v emit)) u_all)
    end
  end.
(* solver_heat.py:27-54 *)
Definition solve_scipy_heat_multi_enforce (K : mat) (emit : vec) (Ds : list (list nat)) (vals : list R) (u_all : list vec)
  : list vec * res unit :=
  if negb (Nat.eqb (List.length u_all) (List.length vals)) then (u_all, Err AssertionError)
  else enforce_loop K emit Ds vals 0 u_all.

(* u_all[:, :] = u_sol: equal widths, or one column copied to all *)
Definition assign_all (u_all us : list vec) : list vec * res unit :=
  if Nat.eqb (List.length us) (List.length u_all) then (us, Ok tt)
  else match us with [u] => (map (fun _ => u) u_all, Ok tt) | _ => (u_all, Err ValueError) end.
(* zip(dirichlet_dofs_list, dirichlet_values_list) stops at the shorter list *)
Definition stacked (emit : vec) (Ds : list (list nat)) (vals : list R) : list vec :=
  zipwith (fun D v => enforceV D v emit) Ds vals.
(* solver_heat.py:57-130 *)
Definition solve_scipy (K : mat) (emit : vec) (Ds : list (list nat)) (vals : list R) (u_all : list vec)
  : list vec * res unit :=
  match vals with
  | [] => (u_all, Ok tt)                                  (* 98-100 *)
  | _ =>
    match Ds with
    | [] => (u_all, Err IndexError)                       (* 103 *)
    | D0 :: _ => assign_all u_all (map (lu (enforceK D0 K)) (stacked emit Ds vals))
    end
  end.
(* solver_heat.py:133-195 with the direct solver *)
Definition solve_heat_system_multi (K : mat) (emit : vec) (Ds : list (list nat)) (vals : list R) (u_all : list vec)
  : list vec * res unit :=
  match vals with
  | [] => (map (fun _ _ => 0) u_all, Ok tt)               (* 153-156 *)
  | _ =>
    match Ds with
    | [] => (u_all, Err IndexError)                       (* 158 *)
    | D0 :: _ => assign_all u_all (map (lu (enforceK D0 K)) (stacked emit Ds vals))
    end
  end.
End HeatAlt.
