(* What the theorems about whole iterations on heat problems mean. *)
From Verif Require Import Base Sums Material_model OC_model OC_spec Filter_model Mesh_model Mesh_spec Mesh_props Fea_model Fea_spec Fea_proofs
  Iter_model Iter_spec Heat_model Heat_spec HeatAdj_model HeatIter_model.
Open Scope R_scope.
Open Scope list_scope.

(* the same problem with penalty p *)
Definition with_p (s : hsettings) (p : R) : hsettings :=
  mkHS (hs_H s) (hs_ns s) (hs_Ss s) (hs_h s) (hs_k s) (hs_c s) p (hs_obj s) (hs_w s) (hs_ip s) (hs_q s) (hs_sol s) (hs_slvm s).
(* P is what the optimizer holds for the heat task with element data T (its elements
   are the columns of mesh.t; heat tasks never have a Neumann boundary), settings s,
   ambient temperature A and prescribed temperatures [values], under configuration c *)
Definition heat_problem (T : task_args) (s : hsettings) (A : R) (values : farg) (c : icfg) (P : hproblem) : Prop :=
  built_from T c (plain P) /\ ta_neumann T = None /\ ta_dirichlet T = Some (Lst (hs_ns s)) /\
  List.length (ta_t T) = ne (hs_H s) /\
  (forall e k, (e < ne (hs_H s))%nat -> (k < List.length (hb_t (hs_H s)))%nat ->
     nth e (nth k (hb_t (hs_H s)) []) 0%nat = nth k (nth e (ta_t T) []) 0%nat) /\
  hs_c s = i_Emin_coeff c /\ hs_ip s = i_interp c /\
  exists tk,
    from_facets (hs_H s) (Lst (hs_ns s)) values (Some (hs_Ss s)) (Some (Flt (hs_h s))) (Some (Flt A)) (ta_design_robin T) (hs_k s) (hs_obj s) (hs_w s) = Ok tk /\
    hp_F P = mkHFem tk (hs_c s) (hs_ip s) (hs_q s) (hs_sol s) (hs_slvm s).
(* nothing is wrong with the settings of an iteration with scheduled values v: a sound
   heat problem held at the nodes D with an existing solver, at least one prescribed
   temperature, a filter with one centre per element and some element to filter *)
Record heat_ready (s : hsettings) (D : list nat) (values : farg) (c : icfg) (v : ivals) (f : sfilter) : Prop := mkHR {
  hr_set : well_set (with_p s (v_p v)) D (uniform s 1);
  hr_robin : hs_Ss s <> []; hr_solver : hs_sol s <> HOther;
  hr_values : match values with Flt _ => True | FLst l => l <> [] /\ List.length l = List.length (hs_ns s) | Int _ => False end;
  hr_centers : List.length (sf_centers f) = ne (hs_H s);
  hr_design : exists i, (i < List.length (sf_centers f))%nat /\ is_design (sf_mask f) i = true;
  hr_radius : 0 < v_radius v; hr_beta : 0 < v_beta v; hr_eta : 0 <= c_beta_eta (i_oc c) <= 1 }.
(* sum over the elements of sensitivity times projection slope times filtered change *)
Definition chain_sum (v : ivals) (c : icfg) (rf g fd : list R) : R :=
  rsum (map (fun e => nth e g 0 * heaviside_projection_derivative (nth e rf 0) (v_beta v) (c_beta_eta (i_oc c)) * nth e fd 0)
            (seq 0 (List.length rf))).
