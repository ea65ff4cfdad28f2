(* What C56-C60 mean. *)
From Verif Require Import Base Sums Fea_model.
Open Scope R_scope.
Open Scope list_scope.

(* u solves A u = b *)
Definition solves (n : nat) (A : mat) (b u : vec) : Prop := forall i, (i < n)%nat -> mv n A u i = b i.
Definition quad (n : nat) (K : mat) (u : vec) : R := dot n u (mv n K u).
Definition symmetric (n : nat) (K : mat) : Prop := forall i j, (i < n)%nat -> (j < n)%nat -> K i j = K j i.
Definition semidefinite (n : nat) (K : mat) : Prop := forall u, 0 <= quad n K u.
(* the supports exclude every zero-energy motion *)
Definition supported (n : nat) (K : mat) (D : list nat) : Prop :=
  forall u, (forall i, (i < n)%nat -> In i D -> u i = 0) -> (exists i, (i < n)%nat /\ u i <> 0) -> 0 < quad n K u.
(* static equilibrium under load f with the dofs D held at 0 *)
Definition equilibrium (n : nat) (K : mat) (D : list nat) (f u : vec) : Prop :=
  (forall i, (i < n)%nat -> In i D -> u i = 0) /\
  (forall i, (i < n)%nat -> ~ In i D -> mv n K u i = f i).
(* work of the load on the unsupported dofs *)
Definition work (n : nat) (D : list nat) (f u : vec) : R :=
  sum n (fun i => if Mesh_model.mem i D then 0 else f i * u i).
