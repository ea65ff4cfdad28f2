(* Specification: an output directory over any number of interrupted runs. *)
From Coq Require Import Permutation.
From Verif Require Import Base Driver_model Ckpt_model.
Open Scope Z_scope.
Open Scope list_scope.

Section S.
Context {S A : Type}.
Variable rho_of : S -> A.                 (* rho[tsk.design_elements] *)
Variables (rho_change : S -> R) (kkt : S -> kktval) (cfg : dcfg).

(* data/ when exactly these checkpoints were written, oldest first *)
Definition data_of (cks : list (Z * S)) : dir A :=
  save_all (map (fun e => (fst e, rho_of (snd e))) cks) [].

(* One process life on that directory.  It starts at iteration 1 on an empty
   data/, or by restart from the newest checkpoint (directory listed in any
   order); it makes any calls, and finally one more call that may be cut short
   anywhere ([body] may raise in any iteration: that is the crash). *)
Record epoch (cks : list (Z * S)) (first_iter : Z) (trace : list (Z * S)) (cks' : list (Z * S)) : Prop := {
  ep : exists body init s0 cs c o1 rs o2 r,
    init = Ok (s0, first_iter) /\
    ((cks = [] /\ first_iter = 1) \/
     (exists ls a, Permutation ls (map fst (data_of cks)) /\
        restart_init (-1) ls (data_of cks) = Ok (a, first_iter))) /\
    exec_all body rho_change kkt init cfg cs (opt_new cks) = (o1, rs) /\
    Forall (eq None) rs /\
    exec body rho_change kkt init cfg c o1 = (o2, r) /\
    trace = o_trace o2 /\ cks' = o_disk o2 }.

Inductive sessions : list (Z * S) -> Prop :=
| no_session : sessions []
| one_more cks b tr cks' : sessions cks -> epoch cks b tr cks' -> sessions cks'.
End S.
