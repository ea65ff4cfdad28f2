(* Model of tools/history.py:94-123, 234-276, 385-427: histories as arrays, their
   comparison, and the recorder seen as an object; common_density.py:622-624. *)
From Verif Require Import Base History_model.
Open Scope R_scope.
Open Scope string_scope.
Open Scope list_scope.

(* np.array of a list of floats or of lists: 1-D, 2-D by rows, or ValueError (ragged) *)
Definition np_array (d : list entry) : res arr :=
  match d with
  | [] => Ok (A1 [])
  | EScalar _ :: _ => match all_scalars d with Some xs => Ok (A1 xs) | None => Err ValueError end
  | EStats x :: _ => match all_stats (List.length x) d with Some rows => Ok (A2 rows) | None => Err ValueError end
  end.
(* history.py:94-123: self.data[0] of an empty list raises, any exception becomes ValueError *)
Definition data_np_array (s : series) : res arr :=
  match h_data s with [] => Err ValueError | _ => np_array (h_data s) end.
(* history.py:385-405 *)
Fixpoint as_object (h : hists) : res (list (string * arr)) :=
  match h with
  | [] => Ok []
  | (name, s) :: r => let! a := data_np_array s in let! o := as_object r in Ok ((name, a) :: o)
  end.
(* a[-1] *)
Definition arr_last (a : arr) : res entry :=
  match a with
  | A1 [] | A2 [] => Err IndexError
  | A1 (x :: r) => Ok (EScalar (last r x))
  | A2 (x :: r) => Ok (EStats (last r x))
  end.
(* history.py:407-427; common_density.py:622-624 params_latest *)
Fixpoint as_object_latest (h : hists) : res (list (string * entry)) :=
  match h with
  | [] => Ok []
  | (name, s) :: r => let! a := data_np_array s in let! e := arr_last a in
                      let! o := as_object_latest r in Ok ((name, e) :: o)
  end.

(* np.allclose with the default tolerances, elementwise; values are real numbers *)
Definition close (x y : R) : bool := Rleb (Rabs (x - y)) (1 / 10 ^ 8 + 1 / 10 ^ 5 * Rabs y).
Definition same_shape (a b : arr) : bool :=
  match a, b with
  | A1 x, A1 y => Nat.eqb (List.length x) (List.length y)
  | A2 x, A2 y => (Nat.eqb (List.length x) (List.length y) &&
                   Nat.eqb (List.length (hd [] x)) (List.length (hd [] y)))%bool
  | _, _ => false
  end.
Definition flat (a : arr) : list R := match a with A1 x => x | A2 x => List.concat x end.
Definition all_close (a b : arr) : bool := forallb (fun p => close (fst p) (snd p)) (combine (flat a) (flat b)).
(* history.py:259-260: equality of key views is equality of sets *)
Definition subset (a b : list string) : bool := forallb (fun x => existsb (String.eqb x) b) a.
(* history.py:262-276 *)
Fixpoint compare_from (l h2 : hists) : res bool :=
  match l with
  | [] => Ok true
  | (key, a) :: r =>
    match hget h2 key with
    | None => Err KeyError
    | Some b =>
      if negb (String.eqb (h_type a) (h_type b)) then Ok false else
      let! x := np_array (h_data a) in
      let! y := np_array (h_data b) in
      if negb (same_shape x y) then Ok false else
      if negb (all_close x y) then Ok false else compare_from r h2
    end
  end.
Definition compare (h1 h2 : hists) : res bool :=
  if (subset (map fst h1) (map fst h2) && subset (map fst h2) (map fst h1))%bool
  then compare_from h1 h2 else Ok false.
