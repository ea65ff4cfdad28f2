(* What "the same LogMOC run in the new order" means. *)
From Verif Require Import Base OC_model LogMOC_model Filter_model Iter_model LMIter_model Order_spec.
Open Scope R_scope.

(* the states of two LogMOC optimizers: densities and analysis in the new order, the same
   multiplier, running scale, density change and KKT residual *)
Record lstate_reordered (p : list nat) (a b : lstate) : Prop := mkLR {
  lr_rho : ls_rho b = reorder 0 p (ls_rho a);
  lr_filter : filter_reordered p (ls_filter a) (ls_filter b);
  lr_opt : ls_opt b = ls_opt a;
  lr_change : ls_change b = ls_change a;
  lr_kkt : ls_kkt b = ls_kkt a;
  lr_eval : match ls_eval a, ls_eval b with
            | Some x, Some y => eval_reordered p x y | None, None => True | _, _ => False end }.
