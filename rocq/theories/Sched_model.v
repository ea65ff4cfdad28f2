(* Model of tools/scheduler.py *)
From Verif Require Import Base.
Open Scope R_scope.
Open Scope string_scope.
Open Scope list_scope.

(* Python's float power [b ** e] for b >= 0, tools/scheduler.py:163,213.
   0.0 ** e is 0 for e > 0, 1 for e = 0 and raises ZeroDivisionError for e < 0.
   A negative base (only possible for a negative iteration number) yields a
   complex number in Python: NotModelled. *)
Definition py_pow (b e : R) : res R :=
  if Rltb b 0 then Err NotModelled
  else if Reqb b 0 then
    (if Rltb e 0 then Err ZeroDivisionError
     else if Reqb e 0 then Ok 1 else Ok 0)
  else Ok (Rpower b e).

(* Python arithmetic with a possibly missing operand: None raises TypeError *)
Definition need {A} (o : option A) : res A :=
  match o with Some a => Ok a | None => Err TypeError end.

(* tools/scheduler.py:14-30  schedule_exp_slowdown (exact reals) *)
Definition schedule_exp_slowdown (it total : Z) (init target rate : R) : res R :=
  if (total <=? 0)%Z then Err ValueError
  else
    let t := IZR it / IZR total in
    let decay := exp (- rate * t) in
    let final_decay := exp (- rate) in
    if Rltb target init
    then Ok (target + (init - target) * (decay - final_decay) / (1 - final_decay))
    else Ok (target - (target - init) * (decay - final_decay) / (1 - final_decay)).

(* tools/scheduler.py:33-41  schedule_exp_accelerate; no guard on total:
   total = 0 raises ZeroDivisionError *)
Definition schedule_exp_accelerate (it total : Z) (init target rate : R) : res R :=
  if (total =? 0)%Z then Err ZeroDivisionError
  else
    let t := IZR it / IZR total in
    if Rltb target init
    then Ok (target + (init - target) * (1 - exp (rate * (t - 1))))
    else Ok (target - (target - init) * (1 - exp (rate * (t - 1)))).

(* tools/scheduler.py:44-71  schedule_constant *)
Definition schedule_constant (target : R) : res R := Ok target.

(* tools/scheduler.py:105-107,152-154,204-206
   step_length = total/num_steps; min(int(it // step_length), num_steps-1) *)
Definition step_index (it total num_steps : Z) : Z :=
  let step_length := IZR total / IZR num_steps in
  Z.min (Rfloor (IZR it / step_length)) (num_steps - 1).

(* tools/scheduler.py:74-114  schedule_step; num_steps is an int (its
   documented type) *)
Definition schedule_step (it total : Z) (init : option R) (target : R)
    (num_steps : Z) : res R :=
  if (total <=? 0)%Z then Err ValueError
  else if (num_steps <=? 1)%Z then Ok target
  else
    let alpha := IZR (step_index it total num_steps) / IZR (num_steps - 1) in
    let! i := need init in
    Ok ((1 - alpha) * i + alpha * target).

(* tools/scheduler.py:117-166  schedule_step_accelerating *)
Definition schedule_step_accelerating (it total : Z) (init : option R)
    (target : R) (num_steps : Z) (curvature : option R) : res R :=
  if (total <=? 0)%Z then Err ValueError
  else if (num_steps <=? 1)%Z then Ok target
  else
    let alpha := IZR (step_index it total num_steps) / IZR (num_steps - 1) in
    let! c := need curvature in
    let! na := py_pow alpha c in
    let! i := need init in
    Ok ((1 - na) * i + na * target).

(* tools/scheduler.py:169-216  schedule_step_decelerating *)
Definition schedule_step_decelerating (it total : Z) (init : option R)
    (target : R) (num_steps : Z) (curvature : option R) : res R :=
  if (total <=? 0)%Z then Err ValueError
  else if (num_steps <=? 1)%Z then Ok target
  else
    let alpha := IZR (step_index it total num_steps) / IZR (num_steps - 1) in
    let! c := need curvature in
    let! pw := py_pow (1 - alpha) c in
    let na := 1 - pw in
    let! i := need init in
    Ok ((1 - na) * i + na * target).

(* tools/scheduler.py:219-261  schedule_sawtooth_decay *)
Definition schedule_sawtooth_decay (it total : Z) (init : option R)
    (target : R) (num_steps : Z) : res R :=
  if ((total <=? 0) || (num_steps <=? 0))%Z then Err ValueError
  else
    let it0 := (it - 1)%Z in
    let step_size := IZR total / IZR num_steps in
    let idx := Rfloor (IZR it0 / step_size) in
    let local_index := IZR it0 - IZR idx * step_size in
    let alpha := Rmin (local_index / step_size) 1 in
    let! i := need init in
    Ok ((1 - alpha) * i + alpha * target).

(* tools/scheduler.py:327-334  SchedulerConfig (a mutable dataclass: functions
   that mutate it return the new record) *)
Record config := mkConfig {
  c_name : option string;
  c_init : option R;
  c_target : option R;
  c_num : option Z;
  c_iters : option Z;
  c_curv : option R;
  c_type : string }.

(* math.isclose(x, 1.0) with the default rel_tol = 1e-9, abs_tol = 0 *)
Definition isclose_one (x : R) : bool :=
  Rleb (Rabs (x - 1)) (1 / 1000000000 * Rmax (Rabs x) (Rabs 1)).

Definition req {A} (o : option A) : res unit :=
  match o with Some _ => Ok tt | None => Err ValueError end.

(* tools/scheduler.py:429-438,439-450,451-462: the checks shared by the three
   *ToOne branches; [need_curv] distinguishes the last two *)
Definition check_to_one (target : option R) (num : option Z) (curv : option R)
    (need_curv : bool) : res Z :=
  match num with
  | None => Err ValueError
  | Some n =>
      if (n <=? 0)%Z then Err ValueError
      else
        let! _ := (if need_curv then req curv else Ok tt) in
        match target with
        | Some t => if isclose_one t then Ok n else Err ValueError
        | None => Ok n
        end
  end.

(* tools/scheduler.py:336-499  SchedulerConfig.from_defaults *)
Definition from_defaults (name : option string) (init target : option R)
    (num : option Z) (iters : option Z) (curv : option R) (ty : string)
    : res config :=
  let mk i t := Ok (mkConfig name i t num iters curv ty) in
  if String.eqb ty "Constant" then
    let init' := match init with None => target | _ => init end in
    let! _ := req target in mk init' target
  else if String.eqb ty "ConstantOne" then mk (Some 1) (Some 1)
  else if String.eqb ty "Step" then
    let! _ := req init in let! _ := req target in let! _ := req num in mk init target
  else if String.eqb ty "StepToOne" then
    let! n := check_to_one target num curv false in mk (Some (1 / IZR n)) (Some 1)
  else if String.eqb ty "StepAcceleratingToOne" then
    let! n := check_to_one target num curv true in mk (Some (1 / IZR n)) (Some 1)
  else if String.eqb ty "StepDeceleratingToOne" then
    let! n := check_to_one target num curv true in mk (Some (1 / IZR n)) (Some 1)
  else if String.eqb ty "StepAccelerating" then
    let! _ := req init in let! _ := req target in let! _ := req num in
    let! _ := req curv in mk init target
  else if String.eqb ty "StepDecelerating" then
    let! _ := req init in let! _ := req target in let! _ := req num in
    let! _ := req curv in mk init target
  else if String.eqb ty "SawtoothDecay" then
    let! _ := req init in let! _ := req target in let! _ := req num in mk init target
  else if String.eqb ty "None" then mk init target
  else Err ValueError.

(* tools/scheduler.py:501-657  the factories *)
Definition cfg_none : res config :=
  from_defaults None None None None None None "None".
Definition cfg_constant (name : option string) (t : R) : res config :=
  from_defaults name (Some t) (Some t) None None None "Constant".
Definition cfg_constant_one (name : option string) : res config :=
  from_defaults name (Some 1) (Some 1) None None None "ConstantOne".
Definition cfg_step name init target num iters : res config :=
  from_defaults name init target num iters None "Step".
Definition cfg_step_to_one name num iters : res config :=
  from_defaults name None (Some 1) num iters None "StepToOne".
Definition cfg_step_accelerating name init target num iters curv : res config :=
  from_defaults name init target num iters curv "StepAccelerating".
Definition cfg_step_accelerating_to_one name num iters curv : res config :=
  from_defaults name None (Some 1) num iters curv "StepAcceleratingToOne".
Definition cfg_step_decelerating name init target num iters curv : res config :=
  from_defaults name init target num iters curv "StepDecelerating".
Definition cfg_step_decelerating_to_one name num iters curv : res config :=
  from_defaults name None (Some 1) num iters curv "StepDeceleratingToOne".
(* tools/scheduler.py:659-682  sawtooth_decay calls the dataclass constructor
   directly, without from_defaults' checks.  Positional order:
   name, init_value, target_value, iters_max, num_steps. *)
Definition cfg_sawtooth_decay (name : option string) (init target : R)
    (iters num : Z) : res config :=
  Ok (mkConfig name (Some init) (Some target) (Some num) (Some iters) None
        "SawtoothDecay").

(* the function object stored in a Scheduler *)
Inductive schedfn := FConstant | FStep | FAccel | FDecel | FSaw.

(* tools/scheduler.py:727-745  Scheduler *)
Record scheduler := mkScheduler {
  s_name : option string;
  s_init : option R;
  s_target : option R;
  s_num : option Z;
  s_iters : option Z;
  s_curv : option R;
  s_func : option schedfn }.

Definition with_values (c : config) (i t : option R) (n : option Z)
    (m : option Z) (cv : option R) : config :=
  mkConfig (c_name c) i t n m cv (c_type c).

(* [if cfg.num_steps: cfg.init_value = 1.0 / cfg.num_steps]
   tools/scheduler.py:768-769,773-774,782-783 *)
Definition to_one_cfg (c : config) : config :=
  let init := match c_num c with
              | Some n => if (n =? 0)%Z then c_init c else Some (1 / IZR n)
              | None => c_init c
              end in
  with_values c init (Some 1) (c_num c) (c_iters c) (c_curv c).

(* tools/scheduler.py:747-807  Scheduler.from_config: mutates the config, then
   copies it.  Returns the mutated config and the scheduler. *)
Definition from_config (c : config) : res (config * scheduler) :=
  let fin (c' : config) (f : option schedfn) :=
    Ok (c', mkScheduler (c_name c') (c_init c') (c_target c') (c_num c')
              (c_iters c') (c_curv c') f) in
  let ty := c_type c in
  if String.eqb ty "Constant" then
    fin (with_values c (c_target c) (c_target c) None None None) (Some FConstant)
  else if String.eqb ty "ConstantOne" then
    fin (with_values c (Some 1) (Some 1) None None None) (Some FConstant)
  else if String.eqb ty "Step" then fin c (Some FStep)
  else if String.eqb ty "StepToOne" then fin (to_one_cfg c) (Some FStep)
  else if String.eqb ty "StepAcceleratingToOne" then fin (to_one_cfg c) (Some FAccel)
  else if String.eqb ty "StepAccelerating" then fin c (Some FAccel)
  else if String.eqb ty "StepDecelerating" then fin c (Some FDecel)
  else if String.eqb ty "StepDeceleratingToOne" then fin (to_one_cfg c) (Some FDecel)
  else if String.eqb ty "SawtoothDecay" then fin c (Some FSaw)
  else if String.eqb ty "None" then fin c None
  else Err ValueError.

(* the call [self.func(it=..., total=..., ...)], tools/scheduler.py:822-829 *)
Definition call_func (f : schedfn) (it total : Z) (init : option R) (target : R)
    (num : Z) (curv : option R) : res R :=
  match f with
  | FConstant => schedule_constant target
  | FStep => schedule_step it total init target num
  | FAccel => schedule_step_accelerating it total init target num curv
  | FDecel => schedule_step_decelerating it total init target num curv
  | FSaw => schedule_sawtooth_decay it total init target num
  end.

(* tools/scheduler.py:809-830  Scheduler.value for a scalar iteration *)
Definition value (s : scheduler) (it : Z) : res (option R) :=
  match s_target s with
  | None => Ok None
  | Some t =>
      match s_num s with
      | None => Ok (Some t)
      | Some n =>
          if (n <? 0)%Z then Ok (Some t)
          else
            match s_iters s with
            | None => Err TypeError
            | Some T =>
                if (T <=? it)%Z then Ok (Some t)
                else
                  match s_func s with
                  | None => Err TypeError
                  | Some f =>
                      let! v := call_func f it T (s_init s) t n (s_curv s) in
                      Ok (Some v)
                  end
            end
      end
  end.

(* tools/scheduler.py:833-898,986-1151  the dedicated classes *)
Definition SchedulerStep (name : string) (init target : R) (num iters : Z) : scheduler :=
  mkScheduler (Some name) (Some init) (Some target) (Some num) (Some iters) None (Some FStep).
Definition SchedulerStepAccelerating (name : string) (init target : R)
    (num : Z) (iters : option Z) (curv : option R) : scheduler :=
  mkScheduler (Some name) (Some init) (Some target) (Some num) iters curv (Some FAccel).
Definition SchedulerStepDecelerating (name : string) (init target : R)
    (num : Z) (iters : option Z) (curv : option R) : scheduler :=
  mkScheduler (Some name) (Some init) (Some target) (Some num) iters curv (Some FDecel).
Definition SchedulerSawtoothDecay (name : string) (init target : R)
    (num : Z) (iters : option Z) : scheduler :=
  mkScheduler (Some name) (Some init) (Some target) (Some num) iters None (Some FSaw).
(* tools/scheduler.py:900-927 *)
Definition SchedulerStepToOne (name : string) (num : option Z) (iters : Z) : res scheduler :=
  match num with
  | None => Err ValueError
  | Some n => if (n <=? 0)%Z then Err ValueError
              else Ok (mkScheduler (Some name) (Some (1 / IZR n)) (Some 1)
                         (Some n) (Some iters) None (Some FStep))
  end.
(* tools/scheduler.py:930-983 (two classes, same shape) *)
Definition mkToOneCurv (f : schedfn) (name : string) (num : option Z)
    (iters : option Z) (curv : option R) : res scheduler :=
  match num with
  | None => Err ValueError
  | Some n => if (n <=? 0)%Z then Err ValueError
              else match curv with
                   | None => Err ValueError
                   | Some c => Ok (mkScheduler (Some name) (Some (1 / IZR n)) (Some 1)
                                     (Some n) iters (Some c) (Some f))
                   end
  end.
Definition SchedulerStepAcceleratingToOne := mkToOneCurv FAccel.
Definition SchedulerStepDeceleratingToOne := mkToOneCurv FDecel.

(* ---- Schedulers: tools/scheduler.py:1154-1233 ------------------------- *)

Definition set_iters (T : Z) (s : scheduler) : scheduler :=
  mkScheduler (s_name s) (s_init s) (s_target s) (s_num s) (Some T) (s_curv s) (s_func s).

(* the collection is its scheduler_list *)
Definition collection := list scheduler.

(* tools/scheduler.py:1159-1161 *)
Definition set_iters_max (T : Z) (l : collection) : collection := map (set_iters T) l.
(* tools/scheduler.py:1195-1198 *)
Definition add_object (s : scheduler) (l : collection) : collection := l ++ [s].

(* tools/scheduler.py:1200-1210: renames the config, then registers.  Returns
   the mutated config as well. *)
Definition add_object_from_config (c : config) (rewrite : option string)
    (l : collection) : res (config * collection) :=
  let c1 := match rewrite with
            | Some n => mkConfig (Some n) (c_init c) (c_target c) (c_num c)
                          (c_iters c) (c_curv c) (c_type c)
            | None => c end in
  let! (c2, s) := from_config c1 in
  Ok (c2, add_object s l).

(* Python dict keyed by optional strings (a name may be None), insertion
   ordered; assignment to an existing key keeps its position *)
Definition name_eqb (a b : option string) : bool :=
  match a, b with
  | Some x, Some y => String.eqb x y
  | None, None => true
  | _, _ => false
  end.
Fixpoint dict_set {V} (d : list (option string * V)) (k : option string) (v : V) :=
  match d with
  | [] => [(k, v)]
  | (k', v') :: r => if name_eqb k k' then (k', v) :: r else (k', v') :: dict_set r k v
  end.
Fixpoint dict_get {V} (d : list (option string * V)) (k : option string) : option V :=
  match d with
  | [] => None
  | (k', v') :: r => if name_eqb k k' then Some v' else dict_get r k
  end.

(* tools/scheduler.py:1168-1172  values_as_dict *)
Fixpoint values_loop (l : collection) (it : Z) (d : list (option string * option R))
    : res (list (option string * option R)) :=
  match l with
  | [] => Ok d
  | s :: r => let! v := value s it in values_loop r it (dict_set d (s_name s) v)
  end.
Definition values_as_dict (l : collection) (it : Z) := values_loop l it [].

(* [values_dic[k] for k in order] *)
Fixpoint gather (d : list (option string * option R)) (order : list string)
    : res (list (option R)) :=
  match order with
  | [] => Ok []
  | k :: r => match dict_get d (Some k) with
              | None => Err KeyError
              | Some v => let! vs := gather d r in Ok (v :: vs)
              end
  end.

(* tools/scheduler.py:1174-1192  values_as_list (logging omitted: formatting a
   number or None cannot fail) *)
Definition values_as_list (l : collection) (it : Z) (order : list string)
    : res (list (option R)) :=
  let! d := values_as_dict l it in gather d order.

(* tools/scheduler.py:1163-1166 *)
Definition value_on_a_scheduler (l : collection) (key : string) (it : Z)
    : res (option R) :=
  let! vs := values_as_list l it [key] in
  match vs with v :: _ => Ok v | [] => Err IndexError end.
