(* What the theorems about scaling=True mean. *)
From Verif Require Import Base OC_model Filter_model Mesh_model Fea_model Iter_model Scale_model.
Open Scope R_scope.
Open Scope list_scope.

(* the scheduled values of one iteration with every length multiplied by s *)
Definition values_scaled (s : R) (v : ivals) : ivals :=
  mkVals (v_scale v) (v_p v) (v_vol_frac v) (v_beta v) (v_move v) (v_eta v) (v_percentile v) (s * v_radius v).
Definition schedule_scaled (s : R) (l : list (Z * ivals)) : list (Z * ivals) :=
  map (fun e => (fst e, values_scaled s (snd e))) l.
(* what the compliances and the strain energies are multiplied by when lengths are
   multiplied by s and forces by F: in space stiffness is a modulus times a length *)
Definition energy_factor (s F : R) : R := F ^ 2 / s.
(* what the sensitivities are multiplied by; a single load case is counted once per
   degree of freedom *)
Definition sens_factor (s F : R) (pb : problem) : R :=
  energy_factor s F / (if Nat.eqb (List.length (pb_loads pb)) 1 then INR (fb_n (pb_basis pb)) else 1).
(* the sensitivities of the design elements are above the normalisation floor, also
   after multiplication by k *)
Definition above_floor (pb : problem) (c : icfg) (k : R) (v : ivals) (ev : eval) : Prop :=
  let raw := raw_scale (v_percentile v) (gather (ev_dC ev) (d_design (pb_dom pb))) in
  c_floor (i_oc c) <= raw /\ c_floor (i_oc c) <= k * raw.
(* two analyses, the second of the scaled problem: the same densities, energies times
   [ke], sensitivities times [k]; load cases beyond those of the first have no energy *)
Record analysis_scaled (ke k : R) (a b : eval) : Prop := mkAS {
  as_filtered : ev_filtered b = ev_filtered a;
  as_projected : ev_projected b = ev_projected a;
  as_compliance : ev_compliance b = ke * ev_compliance a;
  as_energy : forall j, (j < List.length (ev_energy a))%nat -> forall e, nth j (ev_energy b) (fun _ => 0) e = ke * nth j (ev_energy a) (fun _ => 0) e;
  as_idle : forall j, (List.length (ev_energy a) <= j)%nat -> forall e, nth j (ev_energy b) (fun _ => 0) e = 0;
  as_dC : ev_dC b = map (Rmult k) (ev_dC a) }.
(* two states: the same densities and density change; the KKT residual times [k] *)
Record state_related (s ke k : R) (a b : istate) : Prop := mkSR {
  sr_rho : s_rho b = s_rho a;
  sr_change : s_change b = s_change a;
  sr_kkt : s_kkt b = match s_kkt a with Some x => Some (k * x) | None => None end;
  sr_running : s_running b = k * s_running a;
  sr_filter : s_filter b = filter_scaled s (s_filter a);
  sr_eval : match s_eval a, s_eval b with
            | Some x, Some y => analysis_scaled ke k x y | None, None => True | _, _ => False end }.
