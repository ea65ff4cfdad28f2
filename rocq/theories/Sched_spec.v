(* Vocabulary for the scheduler properties, independent of the model. *)
From Verif Require Import Base.
Open Scope R_scope.
Open Scope string_scope.
Open Scope list_scope.

(* x lies in the closed interval spanned by a and b (in either order) *)
Definition between (a b x : R) : Prop := Rmin a b <= x <= Rmax a b.

(* iteration [it] belongs to the k-th of n equal parts of the horizon [0,T) *)
Definition in_part (T n k it : Z) : Prop := (k * T <= it * n < (k + 1) * T)%Z.

(* math.isclose(x, 1.0) with its documented default relative tolerance 1e-9 *)
Definition close_to_one (x : R) : Prop :=
  Rabs (x - 1) <= 1 / 1000000000 * Rmax (Rabs x) 1.

Definition to_one_types : list string :=
  ["StepToOne"; "StepAcceleratingToOne"; "StepDeceleratingToOne"].

(* Which parameters each documented type requires. *)
Inductive acceptable :
  string -> option R -> option R -> option Z -> option R -> Prop :=
| acc_constant i t n c : acceptable "Constant" i (Some t) n c
| acc_constant_one i t n c : acceptable "ConstantOne" i t n c
| acc_none i t n c : acceptable "None" i t n c
| acc_step ty i t n c :
    In ty ["Step"; "SawtoothDecay"] -> acceptable ty (Some i) (Some t) (Some n) c
| acc_curved ty i t n c :
    In ty ["StepAccelerating"; "StepDecelerating"] ->
    acceptable ty (Some i) (Some t) (Some n) (Some c)
| acc_to_one ty i t n c :
    In ty to_one_types ->
    (0 < n)%Z ->
    (forall x, t = Some x -> close_to_one x) ->
    (ty <> "StepToOne" -> c <> None) ->
    acceptable ty i t (Some n) c.

(* The initial and target values an accepted configuration ends up with. *)
Definition one_of (ty : string) (l : list string) : bool := existsb (String.eqb ty) l.

Definition effective_target (ty : string) (target : option R) : option R :=
  if one_of ty ("ConstantOne" :: to_one_types) then Some 1 else target.
Definition effective_init (ty : string) (init target : option R) (num : option Z)
    : option R :=
  if String.eqb ty "ConstantOne" then Some 1
  else if one_of ty to_one_types then
    match num with Some n => Some (1 / IZR n) | None => None end
  else if String.eqb ty "Constant" then
    match init with None => target | Some _ => init end
  else init.

(* A user's history of operations on a collection of schedulers, over an
   abstract type of schedulers with a name and a settable horizon; [effective]
   says which scheduler must answer for a name, reading the history backwards:
   the last one registered under that name, with the last horizon set after its
   registration (or its own horizon if none was). *)
Inductive cop (S : Type) := Register (s : S) | SetHorizon (T : Z).
Arguments Register {S} s.
Arguments SetHorizon {S} T.
Section Effective.
  Variable S : Type.
  Variable name_of : S -> option string.
  Variable at_horizon : Z -> S -> S.
  Fixpoint effective (rev_ops : list (cop S)) (pending : option Z) (name : string)
    : option S :=
    match rev_ops with
    | [] => None
    | SetHorizon T :: r =>
        effective r (match pending with None => Some T | _ => pending end) name
    | Register s :: r =>
        if (if name_of s then true else false)
           && String.eqb (match name_of s with Some n => n | None => "" end) name
        then Some (match pending with Some T => at_horizon T s | None => s end)
        else effective r pending name
    end.
End Effective.
