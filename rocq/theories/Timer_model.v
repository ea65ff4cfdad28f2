(* Model of tools/timer.py: SectionTimer. *)
From Verif Require Import Base History_model.
From Coq Require Import Ascii.
Open Scope R_scope.
Open Scope string_scope.
Open Scope list_scope.

(* str.join (timer.py:60, 128) *)
Fixpoint join (sep : string) (l : list string) : string :=
  match l with
  | [] => ""
  | [x] => x
  | x :: r => (x ++ sep ++ join sep r)%string
  end.
(* str.split for a one-character separator (the default ">"); timer.py:128.
   Longer separators are not modelled here. *)
Fixpoint split (c : ascii) (s : string) : list string :=
  match s with
  | EmptyString => [""]
  | String a r =>
    if Ascii.eqb a c then "" :: split c r
    else match split c r with
         | x :: l => String a x :: l
         | [] => [String a ""]
         end
  end.
(* sep in name; timer.py:127 *)
Fixpoint has_char (c : ascii) (s : string) : bool :=
  match s with EmptyString => false | String a r => (Ascii.eqb a c || has_char c r)%bool end.

(* timer.py:48-55.  Dicts are insertion-ordered association lists; the clock is
   an arbitrary sequence of readings, t_tick of which have been taken. *)
Record timer := mkTimer {
  t_rec : list (string * list R);
  t_stack : list string;
  t_means : list (string * R);
  t_counts : list (string * Z);
  t_tick : nat }.
Definition timer_new (n : nat) : timer := mkTimer [] [] [] [] n.

Definition dpop {V} (d : list (string * V)) (k : string) : list (string * V) :=
  filter (fun kv => negb (String.eqb (fst kv) k)) d.
(* self._records[name].append(d) on a defaultdict(list); timer.py:69, 93 *)
Definition rec_append (r : list (string * list R)) (k : string) (d : R) : list (string * list R) :=
  match hget r k with Some vs => hset r k (vs ++ [d]) | None => r ++ [(k, [d])] end.
(* timer.py:92-93 *)
Definition t_add (k : string) (d : R) (t : timer) : timer :=
  mkTimer (rec_append (t_rec t) k d) (t_stack t) (t_means t) (t_counts t) (t_tick t).
(* timer.py:95-103 *)
Definition t_reset (o : option string) (t : timer) : timer :=
  match o with
  | None => mkTimer [] (t_stack t) [] [] (t_tick t)
  | Some k => mkTimer (dpop (t_rec t) k) (t_stack t) (dpop (t_means t) k) (dpop (t_counts t) k) (t_tick t)
  end.

(* A (terminating) execution of a program using the timer: nested sections,
   also through the wrap decorator (timer.py:72-90), exceptions escaping or
   caught anywhere, direct add and reset calls. *)
Inductive prog :=
| PSkip | PRaise (e : exn) | PSeq (p q : prog) | PTry (p : prog)
| PSection (name : string) (body : prog)
| PAdd (name : string) (d : R) | PReset (o : option string).

Section Run.
Variable hier : bool.
Variable sep : string.
Variable clk : nat -> R.

(* timer.py:59-62 *)
Definition full_name (stack : list string) (name : string) : string :=
  if (hier && negb (match stack with [] => true | _ => false end))%bool
  then join sep (stack ++ [name]) else name.

(* timer.py:57-70; the finally clause runs however the body ends *)
Fixpoint run (p : prog) (t : timer) : timer * option exn :=
  match p with
  | PSkip => (t, None)
  | PRaise e => (t, Some e)
  | PSeq p q => let '(t1, o) := run p t in
                match o with None => run q t1 | Some e => (t1, Some e) end
  | PTry p => let '(t1, _) := run p t in (t1, None)
  | PSection name body =>
    let full := full_name (t_stack t) name in
    let start := clk (t_tick t) in
    let '(t1, o) := run body (mkTimer (t_rec t) (t_stack t ++ [name]) (t_means t) (t_counts t) (S (t_tick t))) in
    let duration := clk (t_tick t1) - start in
    (mkTimer (rec_append (t_rec t1) full duration) (removelast (t_stack t1))
             (t_means t1) (t_counts t1) (S (t_tick t1)), o)
  | PAdd k d => (t_add k d t, None)
  | PReset o => (t_reset o t, None)
  end.
End Run.

(* timer.py:12-18, 105-120 *)
Record stat := mkStat { s_name : string; s_count : Z; s_total : R; s_avg : R; s_max : R }.
Definition stat_of (kv : string * list R) : list stat :=
  match snd kv with
  | [] => []
  | v :: r =>
    let n := Z.of_nat (List.length (snd kv)) in
    [mkStat (fst kv) n (rsum (snd kv)) (rsum (snd kv) / IZR n) (list_max v r)]
  end.
Definition stats (t : timer) : list stat := flat_map stat_of (t_rec t).

(* timer.py:122-144; totals is a dict built in order, so later stats of the
   same name would overwrite (they cannot be equal: stats come from a dict) *)
Section SelfTime.
Variable c : ascii.
Definition parent (name : string) : option string :=
  if has_char c name then Some (join (String c "") (removelast (split c name))) else None.
Definition children_of (names : list string) (n : string) : list string :=
  filter (fun m => match parent m with Some q => String.eqb q n | None => false end) names.
Definition total_of (l : list stat) (n : string) : R :=
  match hget (map (fun s => (s_name s, s_total s)) l) n with Some x => x | None => 0 end.
Definition self_time_stats (l : list stat) : list stat :=
  map (fun s =>
    let child_total := rsum (map (total_of l) (children_of (map s_name l) (s_name s))) in
    let self := Rmax (s_total s - child_total) 0 in
    mkStat (s_name s) (s_count s) self
           (if (s_count s =? 0)%Z then 0 else self / IZR (s_count s)) self) l.
End SelfTime.

(* Python's sorted: stable, and stable with reverse=True as well.  le is the
   order on keys. *)
Fixpoint insert_by (le : stat -> stat -> bool) (x : stat) (l : list stat) : list stat :=
  match l with
  | [] => [x]
  | y :: r => if le x y then x :: y :: r else y :: insert_by le x r
  end.
Fixpoint sort_by (le : stat -> stat -> bool) (l : list stat) : list stat :=
  match l with [] => [] | x :: r => insert_by le x (sort_by le r) end.
(* timer.py:149-155 *)
Definition key_le (k : string) : option (stat -> stat -> bool) :=
  if String.eqb k "total" then Some (fun a b => Rleb (s_total a) (s_total b))
  else if String.eqb k "avg" then Some (fun a b => Rleb (s_avg a) (s_avg b))
  else if String.eqb k "max" then Some (fun a b => Rleb (s_max a) (s_max b))
  else if String.eqb k "count" then Some (fun a b => (s_count a <=? s_count b)%Z)
  else if String.eqb k "name" then Some (fun a b => String.leb (s_name a) (s_name b))
  else None.
(* timer.py:146-163 *)
Definition sorted_stats (l : list stat) (k : string) (descending : bool) : res (list stat) :=
  match key_le k with
  | None => Err ValueError
  | Some le => Ok (sort_by (fun a b => if descending then le b a else le a b) l)
  end.
Definition summary (t : timer) (k : string) (descending : bool) : res (list stat) :=
  sorted_stats (stats t) k descending.
(* timer.py:165-182 *)
Definition summary_self_time (c : ascii) (t : timer) (k : string) (descending : bool) : res (list stat) :=
  sorted_stats (self_time_stats c (stats t)) k descending.

(* timer.py:623-633 *)
Fixpoint update_running (l : list (string * R)) (t : timer) : timer * list R :=
  match l with
  | [] => (t, [])
  | (name, val) :: r =>
    let cnt := (match hget (t_counts t) name with Some k => k | None => 0 end + 1)%Z in
    let prev := match hget (t_means t) name with Some m => m | None => val end in
    let new := prev + (val - prev) / IZR cnt in
    let '(t', out) := update_running r
       (mkTimer (t_rec t) (t_stack t) (hset (t_means t) name new) (hset (t_counts t) name cnt) (t_tick t)) in
    (t', new :: out)
  end.
(* a history of plot calls with moving_average=True and resets *)
Inductive avg_op := AUpdate (names : list string) (data : list R) | AReset (o : option string).
Definition avg_step (t : timer) (o : avg_op) : timer :=
  match o with
  | AUpdate ns ds => fst (update_running (combine ns ds) t)
  | AReset o => t_reset o t
  end.
