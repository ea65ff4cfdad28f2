(* Model of the checkpoint files of an optimizer run: their names, the
   directory they live in, and what a restart reads back
   (common_density.py:711-737, 1225-1228; core/misc.py:8-22). *)
From Coq Require Import Ascii Permutation.
From Verif Require Import Base.
Open Scope Z_scope.
Open Scope list_scope.

(* file names: strings as lists of characters *)
Definition name := list ascii.
Definition lit (s : string) : name := list_ascii_of_string s.

(* str(n) for an int n >= 0: decimal digits, most significant first *)
Fixpoint digits_fuel (fuel : nat) (n : Z) : list Z :=
  match fuel with
  | O => [n]
  | S f => if n <? 10 then [n] else digits_fuel f (n / 10) ++ [n mod 10]
  end.
Definition digits (n : Z) : list Z := digits_fuel (Z.to_nat (Z.log2 n)) n.
Definition digit_char (d : Z) : ascii := ascii_of_nat (48 + Z.to_nat d).
Definition py_str (n : Z) : name := map digit_char (digits n).
(* str.zfill (no sign: iteration numbers are positive) *)
Definition zfill (w : nat) (s : name) : name := repeat "0"%char (w - List.length s) ++ s.

(* common_density.py:1226 (zfill(6)) and :721 (f"{k:06d}"), which agree on
   non-negative numbers *)
Definition ckpt_name (i : Z) : name := zfill 6 (py_str i) ++ lit "-rho.npz".

Definition is_digit (c : ascii) : bool :=
  ((48 <=? nat_of_ascii c) && (nat_of_ascii c <=? 57))%nat.
Definition digit_val (c : ascii) : Z := Z.of_nat (nat_of_ascii c) - 48.
(* int("ddd") *)
Definition py_int (s : name) : Z := fold_left (fun acc c => 10 * acc + digit_val c) s 0.

Fixpoint prefixb (p s : name) : bool :=
  match p, s with
  | [], _ => true
  | a :: p', c :: s' => Ascii.eqb a c && prefixb p' s'
  | _ :: _, [] => false
  end.

(* misc.py:9,14-16: re.match of "(\d{6})-rho\.npz" is a prefix match.
   Simplification: \d also matches non-ASCII digits in Python. *)
Definition match_iter (f : name) : option Z :=
  let g := firstn 6 f in
  if ((List.length g =? 6)%nat && forallb is_digit g && prefixb (lit "-rho.npz") (skipn 6 f))%bool
  then Some (py_int g) else None.

(* misc.py:10-22 over the directory listing, in whatever order it comes *)
Definition find_step (acc : Z * option name) (f : name) : Z * option name :=
  match match_iter f with
  | Some i => if fst acc <? i then (i, Some f) else acc
  | None => acc
  end.
Definition find_latest (listing : list name) : Z * option name :=
  fold_left find_step listing (-1, None).

Section Dir.
Context {A : Type}.                (* the saved array rho_design_elements *)

(* a file is complete, or was cut off by a crash while being written *)
Inductive file := Complete (a : A) | Torn.
Definition dir := list (name * file).

Definition name_eqb (f g : name) : bool := if list_eq_dec ascii_dec f g then true else false.
Fixpoint lookup (f : name) (d : dir) : option file :=
  match d with
  | [] => None
  | (g, c) :: d' => if name_eqb f g then Some c else lookup f d'
  end.
(* create or overwrite *)
Definition write (f : name) (c : file) (d : dir) : dir :=
  (f, c) :: filter (fun e => negb (name_eqb f (fst e))) d.

(* np.load; a truncated .npz is not a zip file.  Anything outside data/ is
   not looked at. *)
Definition np_load (f : name) (d : dir) : res A :=
  match lookup f d with
  | None => Err FileNotFoundError
  | Some Torn => Err BadZipFile
  | Some (Complete a) => Ok a
  end.

(* common_density.py:718-733: the restart branch of initialize_density, for
   one order of os.listdir; returns the saved array and iter_begin.
   np.load(None) is a TypeError. *)
Definition restart_init (restart_from : Z) (listing : list name) (d : dir) : res (A * Z) :=
  if 0 <? restart_from then
    let! a := np_load (ckpt_name restart_from) d in Ok (a, restart_from + 1)
  else
    match find_latest listing with
    | (_, None) => Err TypeError
    | (m, Some f) => let! a := np_load f d in Ok (a, m + 1)
    end.

(* data/ after the checkpoints [cks] (oldest first) were written to it *)
Definition save_all (cks : list (Z * A)) (d : dir) : dir :=
  fold_left (fun d e => write (ckpt_name (fst e)) (Complete (snd e)) d) cks d.
End Dir.
Arguments file A : clear implicits.
Arguments dir A : clear implicits.
