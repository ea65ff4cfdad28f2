(* Model of what the recorder's histories become over several process lives on
   one output directory: the loop records (common_density.py:1134-1157 and the
   feed_data calls of rho_update, oc.py:247-250 / logmoc.py:238-245), completion
   writes histories.npz (944-964), a restart reads it back (711-745).
   Built on Driver_model (the loop), Ckpt_model (data/) and History_model
   (the recorder). *)
From Verif Require Import Base Driver_model Ckpt_model Session_spec History_model.
Open Scope Z_scope.
Open Scope list_scope.

(* feed_data calls one after the other; an exception leaves what was fed *)
Fixpoint feeds_until (l : list (string * input)) (h : hists) : hists * option exn :=
  match l with
  | [] => (h, None)
  | (n, i) :: r => match feed_data n i h with
                   | Ok h' => feeds_until r h'
                   | Err e => (h, Some e)
                   end
  end.

(* add_recorder, common_density.py:591-611: one empty series per name *)
Definition new_recorder (regs : list (string * (string * bool))) : hists :=
  map (fun r => (fst r, mkSeries (fst r) (fst (snd r)) (snd (snd r)) None [])) regs.

(* names, plot types and ylog of the series of add_recorder (597-610; u_max is
   "value" for one load case, the objective's name and ylog come from the
   objective) and of the two optimizers (oc.py:120-121, logmoc.py:77-82) *)
Definition regs_common (multi : bool) (objective : string) (obj_ylog : bool)
    : list (string * (string * bool)) :=
  [("rho_projected", ("min-max-mean-std", false)); ("energy", ("min-max-mean-std", false));
   ("vol_error", ("value", false));
   ("u_max", ((if multi then "min-max-mean-std" else "value"), false));
   (objective, ("value", obj_ylog)); ("scaling_rate", ("min-max-mean-std", false));
   ("neumann_scale", ("value", false)); ("rho_change_max", ("value", false));
   ("kkt_residual", ("value", false))]%string.
Definition regs_oc (multi : bool) (objective : string) (obj_ylog : bool) :=
  regs_common multi objective obj_ylog ++
  [("-dC", ("min-max-mean-std", true)); ("lmid", ("value", true))]%string.
Definition regs_logmoc (multi : bool) (objective : string) (obj_ylog : bool) :=
  regs_common multi objective obj_ylog ++
  [("dL", ("min-max-mean-std", false)); ("-dC", ("min-max-mean-std", true));
   ("lambda_v", ("value", false)); ("constraint_coeff", ("value", false));
   ("dV_chain", ("min-max-mean-std", true)); ("volume_chain_scale", ("value", true))]%string.

(* the names fed in one iteration, in order: rho_update first, then 1142-1156 *)
Definition fed_common (objective : string) : list string :=
  ["rho_change_max"; "rho_projected"; "energy"; objective; "scaling_rate"; "u_max"; "neumann_scale"]%string.
Definition fed_oc (objective : string) : list string :=
  ["lmid"; "vol_error"; "-dC"; "kkt_residual"]%string ++ fed_common objective.
Definition fed_logmoc (objective : string) : list string :=
  ["lambda_v"; "constraint_coeff"; "vol_error"; "-dC"; "dV_chain"; "volume_chain_scale"; "dL"; "kkt_residual"]%string
  ++ fed_common objective.

Section Run.
Context {X A : Type}.                      (* optimizer state; saved array *)
Variable rho_of : X -> A.                  (* rho[tsk.design_elements], 1227 *)
Variable step : Z -> X -> X * option exn.  (* 1013-1141: everything but recording *)
Variable fed : Z -> X -> list (string * input).  (* what iteration i then feeds, in order *)
Variables (rho_change : X -> R) (kkt : X -> kktval).
Variable regs : list (string * (string * bool)).

(* Simplification: rho_update feeds its series in the middle of the step; here
   all feeds of an iteration come after the computations. *)
Definition rec_body (i : Z) (s : X * hists) : (X * hists) * option exn :=
  let (x, h) := s in
  match step i x with
  | (x', Some e) => ((x', h), Some e)
  | (x', None) => let (h', e) := feeds_until (fed i x') h in ((x', h'), e)
  end.

(* the output directory: data/ (checkpoints, oldest first) and histories.npz *)
Record outdir := mkDir { d_cks : list (Z * (X * hists)); d_hist : option npzfile }.

(* how a process starts: cfg.restart False, or True with restart_from and the
   directory listed in some order; [load] puts the saved array into a fresh state *)
Inductive start := Fresh (x0 : X) | Restart (from : Z) (listing : list name) (load : A -> X).

(* initialize_density, 711-745 (the recorder is new: __init__, 575) *)
Definition init_run (st : start) (d : outdir) : res ((X * hists) * Z) :=
  match st with
  | Fresh x0 => Ok ((x0, new_recorder regs), 1)
  | Restart from ls load =>
      let! (a, b) := restart_init from ls (data_of (fun s => rho_of (fst s)) (d_cks d)) in
      Ok ((load a, import_histories (d_hist d) (new_recorder regs)), b)
  end.

(* _finalize, 963 / export_histories 591-605: nothing is written without data.
   Simplification: an exception of export_histories (C40) is not propagated. *)
Definition written_hist (h : hists) (old : option npzfile) : option npzfile :=
  match histories_to_array h [] with
  | Err _ => old
  | Ok f => if forallb (fun kv => ends_header (fst kv)) f then old
            else match hget f "file"%string with Some _ => old | None => Some f end
  end.

(* one process life: start, calls, end of the process.  The histories file is
   written exactly when the optimizer completes (944-964), after which the state
   no longer changes. *)
Definition process (cfg : dcfg) (st : start) (cs : list call) (d : outdir)
    : opt (S := X * hists) * list (option exn) * outdir :=
  let (o, rs) := exec_all rec_body (fun s => rho_change (fst s)) (fun s => kkt (fst s))
                   (init_run st d) cfg cs (opt_new (d_cks d)) in
  let hist' := if o_completed o then
                 match o_state o with Some s => written_hist (snd s) (d_hist d) | None => d_hist d end
               else d_hist d in
  (o, rs, mkDir (o_disk o) hist').
End Run.
Arguments outdir X : clear implicits.
Arguments start X A : clear implicits.
