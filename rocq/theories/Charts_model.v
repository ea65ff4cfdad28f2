(* tools/timer.py:206-621: the charts of the section timer, up to what is handed to
   matplotlib; common_density.py:927-942: the chart of an optimisation run. *)
From Verif Require Import Base History_model Timer_model.
From Coq Require Import Ascii.
Open Scope R_scope.
Open Scope string_scope.
Open Scope list_scope.

(* timer.py:262-267, 451-456 *)
Definition metric_of (value : string) : option (stat -> R) :=
  if String.eqb value "total" then Some s_total
  else if String.eqb value "avg" then Some s_avg
  else if String.eqb value "max" then Some s_max
  else if String.eqb value "count" then Some (fun s => IZR (s_count s))
  else None.

(* arguments common to both charts, in the order of the Python signatures *)
Record chart_args := mkArgs { a_sort : string; a_value : string; a_desc : bool; a_avg : bool; a_self : bool }.

Section Chart.
Variable c : ascii.   (* the separator *)
Variable A : chart_args.

(* timer.py:254-271, 443-460: the statistics and the metric; ValueError without data *)
Definition chosen (t : timer) : res (list stat * (stat -> R)) :=
  let! l := (if a_self A then summary_self_time c t (a_sort A) (a_desc A) else summary t (a_sort A) (a_desc A)) in
  match l with
  | [] => Err ValueError
  | _ => match metric_of (a_value A) with None => Err ValueError | Some f => Ok (l, f) end
  end.
(* timer.py:373-374, 464-465 *)
Definition smoothed (t : timer) (names : list string) (data : list R) : timer * list R :=
  if a_avg A then update_running (combine names data) t else (t, data).

(* timer.py:462-506.  matplotlib's pie rejects negative sizes with ValueError and
   divides by their sum.  A wedge: section, value (shown in the legend), share of the
   circle, text label, percentage text. *)
Record wedge := mkWedge { w_name : string; w_value : R; w_share : R; w_label : string; w_pct : option R }.
Definition pie (label_threshold min_pct : option R) (t : timer) : timer * res (list wedge) :=
  match chosen t with
  | Err e => (t, Err e)
  | Ok (l, f) =>
    let names := map s_name l in
    let '(t', data) := smoothed t names (map f l) in
    if forallb (fun v => Reqb v 0) data then (t', Err ValueError) else
    let total := rsum data in
    if existsb (fun v => Rltb v 0) data then (t', Err ValueError) else
    (t', Ok (map (fun nv =>
       let share := snd nv / total in
       mkWedge (fst nv) (snd nv) share
         (match label_threshold with None => fst nv | Some b => if Rleb b share then fst nv else "" end)
         (match min_pct with
          | None => Some (100 * share)
          | Some b => if Rleb b (100 * share) then Some (100 * share) else None end)) (combine names data)))
  end.

(* timer.py:364-371: "  " * name.count(sep) + last component *)
Fixpoint count_char (s : string) : nat :=
  match s with EmptyString => 0 | String a r => ((if Ascii.eqb a c then 1 else 0) + count_char r)%nat end.
Fixpoint spaces (n : nat) : string := match n with O => "" | S k => String " " (String " " (spaces k)) end.
Definition nested_label (name : string) : string :=
  (spaces (count_char name) ++ last (split c name) "")%string.
(* timer.py:362-385 *)
Definition bar (hier : bool) (format_nested : option bool) (t : timer) : timer * res (list (string * R)) :=
  match chosen t with
  | Err e => (t, Err e)
  | Ok (l, f) =>
    let fmt := match format_nested with None => hier | Some b => b end in
    let names := map (fun s => if fmt then nested_label (s_name s) else s_name s) l in
    let '(t', data) := smoothed t names (map f l) in
    (t', Ok (combine names data))
  end.
(* matplotlib's categorical axis (StrCategoryConverter): equal labels share one
   position, positions count distinct labels in order of appearance *)
Fixpoint index_in (x : string) (l : list string) : nat :=
  match l with [] => 0 | y :: r => if String.eqb x y then 0 else S (index_in x r) end.
Fixpoint first_seen (seen l : list string) : list string :=
  match l with
  | [] => seen
  | x :: r => first_seen (if existsb (String.eqb x) seen then seen else seen ++ [x]) r
  end.
Definition position (labels : list string) (x : string) : nat := index_in x (first_seen [] labels).
Definition drawn_bars (l : list (string * R)) : list (nat * R) :=
  map (fun nv => (position (map fst l) (fst nv), snd nv)) l.

(* timer.py:273-332: a row per top-level section: its name, its own segment, and the
   segments of its direct children (name, value), drawn end to end *)
Record row := mkRow { r_name : string; r_self : R; r_children : list (string * R) }.
Definition row_length (r : row) : R := r_self r + rsum (map snd (r_children r)).
Definition stat_named (l : list stat) (n : string) : option stat := hget (map (fun s => (s_name s, s)) l) n.
Definition metric_named (f : stat -> R) (l : list stat) (n : string) : R :=
  match stat_named l n with Some s => f s | None => 0 end.
Definition stacked (t : timer) : res (list row) :=
  let! lf := chosen t in
  let '(l, f) := lf in
  if negb (existsb (fun s => has_char c (s_name s)) l) then Err ValueError else
  Ok (map (fun n =>
      let kids := map (fun k => (k, metric_named f l k)) (children_of c (map s_name l) n) in
      mkRow n (Rmax (metric_named f l n - rsum (map snd kids)) 0) kids)
    (filter (fun n => negb (has_char c n)) (map s_name l))).
End Chart.

(* timer.py:527-575 (kind) *)
Definition plot_kind (kind : string) : res bool :=
  if String.eqb kind "pie" then Ok true else if String.eqb kind "bar" then Ok false else Err ValueError.
(* common_density.py:927-942: arguments of the chart saved as timing.png (sort_by and
   descending are save_plot's defaults; thresholds are plot_pie's) *)
Definition run_chart_args : chart_args := mkArgs "total" "avg" true false true.
Definition run_chart (c : ascii) (t : timer) : option (list wedge) :=
  match snd (pie c run_chart_args (Some 0.05) (Some 1) t) with Ok l => Some l | Err _ => None end.
