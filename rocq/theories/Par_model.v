(* Model of the numba loops compiled with parallel=True: mesh/utils.py:94-127 and
   fea/composer.py:149-161, 251-311.  prange hands the iterations to workers which run at
   the same time on shared arrays.  Shared cells are read and written one at a time; the
   steps of the workers interleave in any order. *)
From Verif Require Import Base Mesh_model.
Open Scope R_scope.
Open Scope list_scope.

(* a cell of a shared array: row and column *)
Definition cell := (nat * nat)%type.
Definition cell_eqb (a b : cell) : bool := (Nat.eqb (fst a) (fst b) && Nat.eqb (snd a) (snd b))%bool.
(* what a worker still has to do *)
Inductive code (V : Type) :=
| Halt
| Load (c : cell) (k : V -> code V)
| Store (c : cell) (x : V) (k : code V).
Arguments Halt {V}.
Arguments Load {V}.
Arguments Store {V}.
Definition memory V := cell -> V.
Definition put {V} (m : memory V) (c : cell) (x : V) : memory V := fun d => if cell_eqb d c then x else m d.

(* one worker makes one step *)
Inductive tick {V} : code V * memory V -> code V * memory V -> Prop :=
| tick_load c k m : tick (Load c k, m) (k (m c), m)
| tick_store c x k m : tick (Store c x k, m) (k, put m c x).
(* some worker of the pool makes one step *)
Inductive step {V} : list (code V) * memory V -> list (code V) * memory V -> Prop :=
| step_one l P P' r m m' : tick (P, m) (P', m') -> step (l ++ P :: r, m) (l ++ P' :: r, m').
(* n steps *)
Inductive steps {V} : nat -> list (code V) * memory V -> list (code V) * memory V -> Prop :=
| steps_none s : steps 0 s s
| steps_more n s s1 s2 : step s s1 -> steps n s1 s2 -> steps (S n) s s2.

(* a worker runs the loop body for the elements it was given, in order *)
Definition worker {V} (body : nat -> code V -> code V) (es : list nat) : code V := fold_right body Halt es.

(* mesh/utils.py:118-125, iteration e; p is not written by anyone.  The four node numbers
   are read one by one, then the signed volume decides (tet_vol) *)
Definition orient_body (p : list vec3) (e : nat) (k : code nat) : code nat :=
  Load (0%nat, e) (fun n0 => Load (1%nat, e) (fun n1 => Load (2%nat, e) (fun n2 => Load (3%nat, e) (fun n3 =>
    if Rltb (tet_vol p [n0; n1; n2; n3]) 0 then
      (* t_fixed[1, e], t_fixed[2, e] = t_fixed[2, e], t_fixed[1, e] *)
      Load (2%nat, e) (fun a => Load (1%nat, e) (fun b => Store (1%nat, e) a (Store (2%nat, e) b k)))
    else k)))).
(* mesh/utils.py:116: t_fixed starts as a copy of t, rows are the four corners *)
Definition conn_memory (t : list elem) : memory nat := fun c => nd (nth (snd c) t []) (fst c).
(* mesh/utils.py:127: the array returned when n_elem columns have been treated *)
Definition conn_result (n : nat) (m : memory nat) : list elem := map (fun e => map (fun r => m (r, e)) (seq 0 4)) (seq 0 n).

(* composer.py:153-159 and 271-309, iteration e: a local volume, then one store.  The
   connectivity and the coordinates are not written by anyone *)
Definition volume_body (vol : elem -> R) (t : list elem) (e : nat) (k : code R) : code R :=
  Store (0%nat, e) (vol (nth e t [])) k.
(* composer.py:152, 270: np.zeros *)
Definition zeros_memory : memory R := fun _ => 0.
(* composer.py:161, 311 *)
Definition volume_result (n : nat) (m : memory R) : list R := map (fun e => m (0%nat, e)) (seq 0 n).
