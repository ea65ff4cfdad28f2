(* What "the image of a task's arguments" means. *)
From Coq Require Import Permutation.
From Verif Require Import Base Mesh_model Mesh_spec Iter_model Iter_spec Order_spec.
Open Scope list_scope.

(* the arguments of the image of a task: nodes renumbered by nu, elements listed in the
   order p, each with its nodes in any order; boundary nodes are the images *)
Definition node_image (nu : nat -> nat) (a b : option nodes_arg) : Prop :=
  forall y, In y (opt_nodes b) <-> exists x, y = nu x /\ In x (opt_nodes a).
Record task_image (p : list nat) (nu : nat -> nat) (T T' : task_args) : Prop := mkTI {
  ti_numbering : numbering (List.length (ta_t T)) p;
  ti_nu : forall x y, nu x = nu y -> x = y;
  ti_len : List.length (ta_t T') = List.length (ta_t T);
  ti_elem : forall e, (e < List.length (ta_t T))%nat -> Permutation (nth e (ta_t T') []) (map nu (nth (old p e) (ta_t T) []));
  ti_dirichlet : node_image nu (ta_dirichlet T) (ta_dirichlet T');
  ti_neumann : node_image nu (ta_neumann T) (ta_neumann T');
  ti_given : ta_neumann T' = None <-> ta_neumann T = None;
  ti_robin : node_image nu (ta_robin T) (ta_robin T');
  ti_design_robin : ta_design_robin T' = ta_design_robin T;
  ti_design : same_set (List.length (ta_t T)) p (ta_design T) (ta_design T');
  ti_nodup : NoDup (ta_design T); ti_nodup' : NoDup (ta_design T');
  ti_range : forall e, In e (ta_design T) -> (e < List.length (ta_t T))%nat;
  ti_range' : forall e, In e (ta_design T') -> (e < List.length (ta_t T))%nat }.
