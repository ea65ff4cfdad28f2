(* tools/scheduler.py:219-261 in IEEE binary64 (stdlib SpecFloat: pure Gallina,
   no primitive floats, no axioms), for positive iteration counts.  The float
   operations follow CPython: int/int true division of small ints is the
   correctly rounded quotient; float // float is float_floor_div
   (Objects/floatobject.c: fmod, subtract, divide, floor, 0.5 correction). *)
From Coq Require Import ZArith Floats.SpecFloat.
Open Scope Z_scope.

Definition prec := 53.
Definition emax := 1024.
Definition fadd := SFadd prec emax.
Definition fsub := SFsub prec emax.
Definition fmul := SFmul prec emax.
Definition fdiv := SFdiv prec emax.
(* float of an int (exact below 2^53) *)
Definition fint (z : Z) : spec_float := binary_normalize prec emax z 0 false.

(* C fmod on positive finite arguments (exact); NaN elsewhere: not needed *)
Definition ffmod (x y : spec_float) : spec_float :=
  match x, y with
  | S754_zero _, _ => x
  | S754_finite false m1 e1, S754_finite false m2 e2 =>
      let e := Z.min e1 e2 in
      binary_normalize prec emax
        ((Zpos m1 * 2 ^ (e1 - e)) mod (Zpos m2 * 2 ^ (e2 - e))) e false
  | _, _ => S754_nan
  end.

(* floor of a non-negative finite float, as an integer *)
Definition ffloor (x : spec_float) : Z :=
  match x with
  | S754_finite false m e => if e <? 0 then Zpos m / 2 ^ (- e) else Zpos m * 2 ^ e
  | _ => 0
  end.

(* CPython's x // y for x >= 0, y > 0, as an integer *)
Definition ffloordiv (x y : spec_float) : Z :=
  let d := fdiv (fsub x (ffmod x y)) y in
  let fl := ffloor d in
  let half := fdiv (fint 1) (fint 2) in
  if SFltb half (fsub d (fint fl)) then fl + 1 else fl.

(* tools/scheduler.py:253-261 *)
Definition saw64 (it total num_steps : Z) (init target : spec_float) : spec_float :=
  let it0 := it - 1 in
  let step_size := fdiv (fint total) (fint num_steps) in
  let step_index := ffloordiv (fint it0) step_size in
  let local_index := fsub (fint it0) (fmul (fint step_index) step_size) in
  let q := fdiv local_index step_size in
  let alpha := if SFltb (fint 1) q then fint 1 else q in
  fadd (fmul (fsub (fint 1) alpha) init) (fmul alpha target).

(* tools/scheduler.py:105-107: the plateau index of the step schedules *)
Definition step_index64 (it total num_steps : Z) : Z :=
  Z.min (ffloordiv (fint it) (fdiv (fint total) (fint num_steps))) (num_steps - 1).

Definition f0_3 := fdiv (fint 3) (fint 10).
Definition f0_1 := fdiv (fint 1) (fint 10).
