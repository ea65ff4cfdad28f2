(* Model of tools/history.py: HistorySeries and HistoryCollection. *)
From Verif Require Import Base.
Open Scope R_scope.
Open Scope string_scope.
Open Scope list_scope.

(* one stored entry: a float, or a list [min, mean, max(, std)] *)
Inductive entry := EScalar (x : R) | EStats (l : list R).
(* what callers feed: a float / 0-d array, or an array with >= 1 dimension
   (its elements, flattened) *)
Inductive input := IScalar (x : R) | IArray (xs : list R).

(* history.py:39-88; constants are only carried along *)
Record series := mkSeries {
  h_name : string; h_type : string; h_ylog : bool; h_consts : option (list R);
  h_data : list entry }.

(* np.min / np.max / np.mean / np.std; an empty array makes np.min raise *)
Fixpoint list_min (d : R) (l : list R) : R := match l with [] => d | x :: r => list_min (Rmin d x) r end.
Fixpoint list_max (d : R) (l : list R) : R := match l with [] => d | x :: r => list_max (Rmax d x) r end.
Definition mean (l : list R) : R := rsum l / INR (List.length l).
Definition np_std (l : list R) : R := sqrt (mean (map (fun x => (x - mean l) * (x - mean l)) l)).

(* history.py:125-154 *)
Definition to_entry (ptype : string) (i : input) : res entry :=
  match i with
  | IScalar x => Ok (EScalar x)
  | IArray [] => Err ValueError
  | IArray (x :: r) =>
    let l := x :: r in
    Ok (EStats ([list_min x r; mean l; list_max x r]
                ++ (if String.eqb ptype "min-max-mean-std" then [np_std l] else [])))
  end.
Definition series_add (s : series) (i : input) : res series :=
  let! e := to_entry (h_type s) i in
  Ok (mkSeries (h_name s) (h_type s) (h_ylog s) (h_consts s) (h_data s ++ [e])).
(* history.py:208-231 *)
Definition series_latest (s : series) : res entry :=
  match h_data s with [] => Err ValueError | d :: r => Ok (last r d) end.

(* history.py:278-372: the dict of series, insertion ordered *)
Definition hists := list (string * series).
Fixpoint hget {V} (d : list (string * V)) (k : string) : option V :=
  match d with [] => None | (k', v) :: r => if String.eqb k k' then Some v else hget r k end.
Fixpoint hset {V} (d : list (string * V)) (k : string) (v : V) : list (string * V) :=
  match d with
  | [] => [(k, v)]
  | (k', v') :: r => if String.eqb k k' then (k', v) :: r else (k', v') :: hset r k v
  end.
(* history.py:319-372 *)
Definition hist_add (name ptype : string) (ylog : bool) (h : hists) : hists :=
  hset h name (mkSeries name ptype ylog None []).
(* history.py:305-317 *)
Definition feed_data (name : string) (i : input) (h : hists) : res hists :=
  match hget h name with
  | None => Err KeyError
  | Some s => let! s' := series_add s i in Ok (hset h name s')
  end.
(* a history of feeds, stopping at the first exception *)
Fixpoint feeds (l : list (string * input)) (h : hists) : res hists :=
  match l with [] => Ok h | (n, i) :: r => let! h' := feed_data n i h in feeds r h' end.
(* history.py:689-713 *)
Definition latest (name : string) (h : hists) : res entry :=
  match hget h name with None => Err KeyError | Some s => series_latest s end.

(* NumPy arrays as saved: 1-D, or 2-D given by its rows *)
Inductive arr := A1 (xs : list R) | A2 (rows : list (list R)).

(* the transpose of n rows of length k *)
Definition transpose (k : nat) (rows : list (list R)) : list (list R) :=
  map (fun j => map (fun r => nth j r 0) rows) (seq 0 k).

(* np.array of a list of floats / of equally long lists; anything mixed is
   inhomogeneous: ValueError *)
Fixpoint all_scalars (l : list entry) : option (list R) :=
  match l with
  | [] => Some []
  | EScalar x :: r => match all_scalars r with Some xs => Some (x :: xs) | None => None end
  | EStats _ :: _ => None
  end.
Fixpoint all_stats (k : nat) (l : list entry) : option (list (list R)) :=
  match l with
  | [] => Some []
  | EStats x :: r => if Nat.eqb (List.length x) k then
      match all_stats k r with Some xs => Some (x :: xs) | None => None end else None
  | EScalar _ :: _ => None
  end.
(* history.py:172-206 (the header is built by the caller below) *)
Definition data_to_array (s : series) : res arr :=
  match h_data s with
  | [] => Ok (A1 [])
  | EStats x :: _ =>
    match all_stats (List.length x) (h_data s) with
    | None => Err ValueError
    | Some rows =>
      let t := transpose (List.length x) rows in
      Ok (A2 (firstn (if String.eqb (h_type s) "min-max-mean-std" then 4 else 3) t))
    end
  | EScalar _ :: _ =>
    match all_scalars (h_data s) with Some xs => Ok (A1 xs) | None => Err ValueError end
  end.

(* str.endswith("_header") *)
Definition ends_header (s : string) : bool :=
  let n := String.length s in
  (Nat.leb 7 n && String.eqb (substring (n - 7) 7 s) "_header")%bool.

(* contents of the .npz file *)
Inductive npz := ZArr (a : arr) | ZHeader (name ptype : string).
Definition npzfile := list (string * npz).

(* history.py:534-566 *)
Fixpoint histories_to_array (h : hists) (acc : npzfile) : res npzfile :=
  match h with
  | [] => Ok acc
  | (key, s) :: r =>
    match h_data s with
    | [] => histories_to_array r acc
    | _ =>
      let! a := data_to_array s in
      histories_to_array r
        (hset (hset acc key (ZArr a)) (key ++ "_header") (ZHeader (h_name s) (h_type s)))
    end
  end.

(* history.py:661-664.  arr.T of k rows of length n *)
Definition from_array (a : arr) : list entry :=
  match a with
  | A1 xs => map EScalar xs
  | A2 rows => map EStats
      (if Nat.ltb 1 (List.length rows) then transpose (List.length (hd [] rows)) rows else rows)
  end.
(* history.py:612-687, the file present.  A data key without header, and a
   header entry that is not text, cannot come from export. *)
Fixpoint import_loop (old : hists) (f all : npzfile) (acc : hists) : hists :=
  match f with
  | [] => acc
  | (key, v) :: r =>
    if ends_header key then import_loop old r all acc
    else
      match v with
      | ZHeader _ _ => import_loop old r all acc
      | ZArr a =>
        let '(name, ptype) := match hget all (key ++ "_header") with
                              | Some (ZHeader n t) => (n, t)
                              | _ => (key, "value")
                              end in
        let '(consts, ylog) := match hget old name with
                               | Some e => (h_consts e, h_ylog e)
                               | None => (None, false)
                               end in
        import_loop old r all (hset acc name (mkSeries name ptype ylog consts (from_array a)))
      end
  end.
Definition import_histories (file : option npzfile) (h : hists) : hists :=
  match file with None => h | Some f => import_loop h f f [] end.

(* history.py:568-605; np.savez(path, **histories) cannot take a key "file" *)
Definition export_histories (h : hists) : res hists :=
  let! f := histories_to_array h [] in
  if forallb (fun kv => ends_header (fst kv)) f then Ok h
  else match hget f "file" with
       | Some _ => Err TypeError
       | None => Ok (import_histories (Some f) h)
       end.
