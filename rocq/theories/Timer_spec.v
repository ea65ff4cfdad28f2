(* Specification side of the timer properties: what happened in an execution,
   told without a stack, records or names. *)
From Verif Require Import Base Timer_model.
Open Scope R_scope.

(* a section entered at clock reading [start] and left at reading [stop]; its
   path lists the enclosing sections of the same program, outermost first *)
Inductive event :=
| Visit (path : list string) (start stop : nat)
| Added (name : string) (d : R)
| Cleared (o : option string).

Definition under (name : string) (e : event) : event :=
  match e with Visit p a b => Visit (name :: p) a b | _ => e end.

(* events in order of completion, the next clock reading, how it ended *)
Fixpoint trace (p : prog) (n : nat) : list event * nat * option exn :=
  match p with
  | PSkip => ([], n, None)
  | PRaise e => ([], n, Some e)
  | PSeq p q =>
    let '(e1, n1, o) := trace p n in
    match o with
    | None => let '(e2, n2, o2) := trace q n1 in (e1 ++ e2, n2, o2)
    | Some x => (e1, n1, Some x)
    end
  | PTry p => let '(e1, n1, _) := trace p n in (e1, n1, None)
  | PSection name body =>
    let '(e1, n1, o) := trace body (S n) in
    (map (under name) e1 ++ [Visit [name] n n1], S n1, o)
  | PAdd k d => ([Added k d], n, None)
  | PReset o => ([Cleared o], n, None)
  end.
Definition events p n := fst (fst (trace p n)).
Definition outcome p n := snd (trace p n).

(* how many sections are entered, and whether an exception escapes *)
Fixpoint entered (p : prog) : nat * bool :=
  match p with
  | PSkip => (0%nat, false)
  | PRaise _ => (0%nat, true)
  | PSeq p q => let '(a, x) := entered p in
                if x then (a, true) else let '(b, y) := entered q in ((a + b)%nat, y)
  | PTry p => (fst (entered p), false)
  | PSection _ b => let '(a, x) := entered b in (S a, x)
  | PAdd _ _ | PReset _ => (0%nat, false)
  end.

(* programs that only use sections (no manual add, no reset) *)
Fixpoint sections_only (p : prog) : Prop :=
  match p with
  | PSkip | PRaise _ => True
  | PSeq p q => sections_only p /\ sections_only q
  | PTry p | PSection _ p => sections_only p
  | PAdd _ _ | PReset _ => False
  end.
(* every section name avoids the separator character *)
Fixpoint names_free (c : Ascii.ascii) (p : prog) : Prop :=
  match p with
  | PSkip | PRaise _ | PAdd _ _ | PReset _ => True
  | PSeq p q => names_free c p /\ names_free c q
  | PTry p => names_free c p
  | PSection n p => has_char c n = false /\ names_free c p
  end.

Section Durations.
Variable clk : nat -> R.
(* durations of the visits selected by [f] *)
Definition durs (f : list string -> bool) (evs : list event) : list R :=
  flat_map (fun e => match e with Visit p a b => if f p then [clk b - clk a] else [] | _ => [] end) evs.
End Durations.
Definition top_level (p : list string) : bool := Nat.eqb (List.length p) 1.
