(* Model of the environment-variable guard of core/optimizers/oc.py, of
   core/derivatives.py:_sensitivity_mode, of core/misc.py:args2OC_Config_dict
   and of the configuration's export/import (core/optimizers/common_density.py). *)
From Coq Require Import Ascii.
From Verif Require Import Base Sched_model.
Open Scope string_scope.
Open Scope list_scope.

(* ---------- os.environ and the guard ---------- *)
(* os.environ: variable -> value, None = unset *)
Definition env := string -> option string.
Definition env_set (k : string) (v : option string) (e : env) : env :=
  fun x => if String.eqb x k then v else e x.
Definition MODE : string := "SCITOPT_SENSITIVITY_MODE".

(* oc.py:129-147.  [body] is super().optimize() / super().optimize_steps(n):
   it gets the environment and leaves another one, returning or raising. *)
Definition with_scaled_mode {A} (body : env -> env * res A) (e : env) : env * res A :=
  let previous := e MODE in
  let e1 := env_set MODE (Some "current") e in
  let (e2, r) := body e1 in
  (env_set MODE previous e2, r).

(* derivatives.py:6-22; str.strip()/lower() over ASCII *)
Definition lower_char (c : ascii) : ascii :=
  let n := nat_of_ascii c in
  if (Nat.leb 65 n && Nat.leb n 90)%bool then ascii_of_nat (n + 32) else c.
Definition is_space (c : ascii) : bool :=
  let n := nat_of_ascii c in (Nat.eqb n 32 || (Nat.leb 9 n && Nat.leb n 13))%bool.
Fixpoint lstrip (l : list ascii) : list ascii :=
  match l with c :: l' => if is_space c then lstrip l' else l | [] => [] end.
Definition strip_lower (s : string) : string :=
  let l := lstrip (rev (lstrip (rev (list_ascii_of_string s)))) in
  string_of_list_ascii (map lower_char l).
Definition sensitivity_mode (e : env) : res string :=
  let raw := match e MODE with Some v => v | None => "current" end in
  let m := strip_lower raw in
  if existsb (String.eqb m) ["current"; "default"; "physical"; "scaled"]
  then Ok "current" else Err ValueError.

(* ---------- argparse results ---------- *)
Inductive pyval :=
| PNone | PFloat (r : R) | PInt (z : Z) | PStr (s : string) | PBool (b : bool)
| PSched (c : config).
Definition pydict := list (string * pyval).
Fixpoint pget (d : pydict) (k : string) : option pyval :=
  match d with [] => None | (k', v) :: r => if String.eqb k k' then Some v else pget r k end.
Fixpoint pset (d : pydict) (k : string) (v : pyval) : pydict :=
  match d with
  | [] => [(k, v)]
  | (k', v') :: r => if String.eqb k k' then (k', v) :: r else (k', v') :: pset r k v
  end.
Definition pindex (d : pydict) (k : string) : res pyval :=
  match pget d k with Some v => Ok v | None => Err KeyError end.
(* numeric arguments; a non-number is outside the parser's types *)
Definition as_real (v : pyval) : res (option R) :=
  match v with
  | PNone => Ok None | PFloat r => Ok (Some r) | PInt z => Ok (Some (IZR z))
  | _ => Err NotModelled end.
(* step counts; the parser yields floats for some of them: a float with an
   integral value is represented by that integer *)
Definition as_int (v : pyval) : res (option Z) :=
  match v with PNone => Ok None | PInt z => Ok (Some z) | _ => Err NotModelled end.

Definition keyw_schedulers : list string :=
  ["filter_radius"; "move_limit"; "vol_frac"; "p"; "beta"; "percentile"].

(* misc.py:170-190: one turn of the first loop *)
Definition stype_of (kw : string) (v : pyval) : string :=
  if String.eqb kw "move_limit" then "SawtoothDecay"
  else if String.eqb kw "beta" then "StepAccelerating"
  else if String.eqb kw "percentile" then
    match v with PNone => "None" | _ => "Step" end
  else "Step".
Definition sched_of_args (args : pydict) (kw : string) : res config :=
  let! curv := (if String.eqb kw "beta" then
                  let! v := pindex args "beta_curvature" in as_real v else Ok None) in
  let! vt := pindex args kw in
  let! vi := pindex args (kw ++ "_init") in
  let! vs := pindex args (kw ++ "_step") in
  let! i := as_real vi in let! t := as_real vt in let! n := as_int vs in
  from_defaults (Some kw) i t n None curv (stype_of kw vt).
Fixpoint first_loop (args : pydict) (kws : list string) (ret : pydict) : res pydict :=
  match kws with
  | [] => Ok ret
  | kw :: r => let! c := sched_of_args args kw in first_loop args r (pset ret kw (PSched c))
  end.
(* misc.py:192-203: the second loop *)
Definition is_sched_key (k : string) : bool := existsb (fun kw => prefix kw k) keyw_schedulers.
Definition second_step (ret : pydict) (kv : string * pyval) : pydict :=
  let (k, v) := kv in
  let ret := if String.eqb k "beta_eta" then pset ret k v else ret in
  if is_sched_key k then ret else pset ret k v.
(* misc.py:162-205 *)
Definition args2OC_Config_dict (args : pydict) : res pydict :=
  let! ret := first_loop args keyw_schedulers [] in
  Ok (fold_left second_step args ret).

(* the numeric part of the parser's defaults, misc.py:42-158 *)
Definition parser_defaults : pydict :=
  [ ("interpolation", PStr "SIMP"); ("max_iters", PInt 200); ("filter_type", PStr "helmholtz");
    ("filter_radius_init", PFloat (1/100)); ("filter_radius", PFloat (1/100)); ("filter_radius_step", PInt 3);
    ("move_limit_init", PFloat (8/10)); ("move_limit", PFloat (2/10)); ("move_limit_step", PInt 5);
    ("record_times", PInt 20); ("dst_path", PStr "./result/test0");
    ("vol_frac_init", PFloat (8/10)); ("vol_frac", PFloat (4/10)); ("vol_frac_step", PNone);
    ("p_init", PFloat 1); ("p", PFloat 3); ("p_step", PNone);
    ("beta_init", PFloat (1/10)); ("beta", PFloat 5); ("beta_curvature", PFloat 5); ("beta_step", PNone);
    ("percentile_init", PNone); ("percentile_step", PNone); ("percentile", PNone);
    ("rho_min", PFloat (1/10)); ("E_min_coeff", PFloat (1/1000)); ("eta", PFloat (3/10));
    ("beta_eta", PFloat (1/2)); ("lambda_lower", PFloat (1/10000)); ("lambda_upper", PFloat 100);
    ("restart", PBool false); ("restart_from", PInt (-1)); ("task_name", PStr "toy1");
    ("mesh_path", PStr "plate.msh"); ("export_img", PBool true); ("design_dirichlet", PBool true);
    ("sensitivity_filter", PBool true); ("solver_option", PStr "spsolve") ].

(* misc.py:25-33 (argument already a bool, or a string) *)
Definition str2bool (v : pyval) : res bool :=
  match v with
  | PBool b => Ok b
  | PStr s =>
    let l := string_of_list_ascii (map lower_char (list_ascii_of_string s)) in
    if (String.eqb l "true" || String.eqb l "t")%bool then Ok true
    else if (String.eqb l "false" || String.eqb l "f")%bool then Ok false
    else Err ArgumentTypeError
  | _ => Err AttributeError          (* value.lower() *)
  end.

(* ---------- configuration objects ---------- *)
(* a field of a configuration object: a plain value (number, string, bool,
   None), a SchedulerConfig, or -- after json.load -- a dict *)
Inductive fieldval :=
| FPlain (v : pyval)
| FSched (c : config)
| FDict (d : pydict).
Definition cfgobj := list (string * fieldval).
Fixpoint fget (d : cfgobj) (k : string) : option fieldval :=
  match d with [] => None | (k', v) :: r => if String.eqb k k' then Some v else fget r k end.

(* dataclasses.asdict on a SchedulerConfig, scheduler.py:327-333 *)
Definition opt_real (o : option R) : pyval := match o with Some r => PFloat r | None => PNone end.
Definition opt_int (o : option Z) : pyval := match o with Some z => PInt z | None => PNone end.
Definition opt_str (o : option string) : pyval := match o with Some s => PStr s | None => PNone end.
Definition sched_dict (c : config) : pydict :=
  [("name", opt_str (c_name c)); ("init_value", opt_real (c_init c));
   ("target_value", opt_real (c_target c)); ("num_steps", opt_int (c_num c));
   ("iters_max", opt_int (c_iters c)); ("curvature", opt_real (c_curv c));
   ("scheduler_type", PStr (c_type c))].

(* common_density.py:322-324: json.dump(asdict(self)).  JSON text itself is not
   modelled: numbers, strings, booleans and null survive json.dump/json.load
   (finite floats are written with repr). *)
Definition export_cfg (c : cfgobj) : cfgobj :=
  map (fun kv => (fst kv, match snd kv with FSched s => FDict (sched_dict s) | v => v end)) c.
(* common_density.py:313-320: json.load, drop record_timing, cls( **data ) --
   dataclass construction stores the dicts as they are *)
Definition import_cfg (data : cfgobj) : cfgobj :=
  filter (fun kv => negb (String.eqb (fst kv) "record_timing")) data.

(* scheduler.py:1196-1206 on a field: [cfg.name = rewrite_name] on a dict or on
   a plain value is an AttributeError *)
Definition add_field (v : option fieldval) (name : string) (l : collection) : res collection :=
  match v with
  | Some (FSched c) => let! (_, l') := add_object_from_config c (Some name) l in Ok l'
  | Some _ | None => Err AttributeError
  end.
(* common_density.py:643-679 *)
Definition allowed_neumann : list string :=
  ["ConstantOne"; "StepToOne"; "StepAcceleratingToOne"; "StepDeceleratingToOne"].
Definition max_iters_of (c : cfgobj) : res Z :=
  match fget c "max_iters" with Some (FPlain (PInt z)) => Ok z | _ => Err NotModelled end.
Definition init_schedulers (c : cfgobj) (l : collection) : res collection :=
  let! l := add_field (fget c "p") "p" l in
  let! l := add_field (fget c "vol_frac") "vol_frac" l in
  let! l := add_field (fget c "move_limit") "move_limit" l in
  let! l := add_field (fget c "beta") "beta" l in
  let! l := add_field (fget c "percentile") "percentile" l in
  let! l := add_field (fget c "filter_radius") "filter_radius" l in
  match fget c "neumann_scale" with
  | Some (FSched n) =>
    if existsb (String.eqb (c_type n)) allowed_neumann then
      let! l := add_field (Some (FSched n)) "neumann_scale" l in
      let! l := match fget c "eta" with
                | Some (FSched e) => add_field (Some (FSched e)) "eta" l
                | Some (FPlain (PFloat e)) =>
                  let! m := max_iters_of c in
                  Ok (add_object (mkScheduler (Some "eta") (Some e) (Some e) (Some (-1)%Z)
                                    (Some m) None (Some FStep)) l)
                | _ => Err NotModelled
                end in
      let! m := max_iters_of c in
      Ok (set_iters_max m l)
    else Err ValueError
  | _ => Err AttributeError
  end.

(* common_density.py:263-268: unknown keys are dropped *)
Definition cfg_from_defaults (fields : list string) (defaults args : cfgobj) : cfgobj :=
  let given := filter (fun kv => existsb (String.eqb (fst kv)) fields) args in
  map (fun kv => (fst kv, match fget given (fst kv) with Some v => v | None => snd kv end)) defaults.
