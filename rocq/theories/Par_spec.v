(* What the theorems about the parallel loops mean. *)
From Verif Require Import Base Mesh_model Par_model.
From Coq Require Import Permutation.
Open Scope R_scope.
Open Scope list_scope.

(* prange(n): every iteration is given to exactly one worker *)
Definition shares (n : nat) (assign : list (list nat)) : Prop := Permutation (List.concat assign) (seq 0 n).
(* the loop has finished: no worker has anything to do *)
Definition finished {V} (s : list (code V) * memory V) : Prop := forall P, In P (fst s) -> P = Halt.
(* the loop started by the given assignment can be in state s after j steps *)
Definition loop_reaches {V} (body : nat -> code V -> code V) (m : memory V) (assign : list (list nat)) (j : nat) (s : list (code V) * memory V) : Prop :=
  steps j (map (worker body) assign, m) s.
