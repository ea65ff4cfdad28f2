(* Page layout of the progress plots.
   tools/scheduler.py:1236-1281 (Schedulers.export) and
   tools/history.py:461-532 (HistoryCollection.export_progress) use the same
   arithmetic; the drawing calls themselves are not modelled. *)
From Coq Require Import List Arith.
Import ListNotations.

(* math.ceil(a / b) *)
Definition ceil_nat (a b : nat) : nat := (a + b - 1) / b.

(* one page: number of rows of the allocated grid (4 columns), the panels used
   as (series index, row, column), and the panels switched off *)
Record page := mkPage {
  pg_rows : nat;
  pg_used : list (nat * (nat * nat));
  pg_off : list (nat * nat) }.

Definition cols : nat := 4.

(* scheduler.py:1248-1276 / history.py:467-528 for one value of [page];
   range(a,b) = seq a (b-a) *)
Definition draw_page (n pageno : nat) : page :=
  let start := pageno * cols * 2 in
  let stop := Nat.min (start + cols * 2) n in
  let count := stop - start in
  let rows := ceil_nat count cols in
  mkPage rows
    (map (fun i => let idx := i - start in (i, (idx / cols, idx mod cols)))
         (seq start (stop - start)))
    (map (fun j => (j / cols, j mod cols)) (seq count (rows * cols - count))).

(* scheduler.py:1242-1245 / history.py:461-465 *)
Definition num_pages (n : nat) : nat := ceil_nat n 8.
Definition draw (n : nat) : list page := map (draw_page n) (seq 0 (num_pages n)).
