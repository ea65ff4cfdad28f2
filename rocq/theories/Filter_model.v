(* Model of filters/spacial.py. *)
From Verif Require Import Base OC_model.
Open Scope R_scope.
Open Scope list_scope.

Definition point := list R.
(* filters/spacial.py:13-16.  mesh.p given by node, mesh.t by element. *)
Definition center (dim : nat) (p : list point) (nodes : list nat) : point :=
  map (fun k => rsum (map (fun i => nth k (nth i p []) 0) nodes) / INR (List.length nodes)) (seq 0 dim).
Definition get_element_centers (dim : nat) (p : list point) (t : list (list nat)) : list point :=
  map (center dim p) t.

(* np.linalg.norm(a - b) *)
Definition dist (a b : point) : R := sqrt (rsum (zipwith (fun x y => (x - y) * (x - y)) a b)).

(* filters/spacial.py:19-48, the kernels on one distance.  quadratic is clipped
   to 0 from r_min on; gaussian needs s <> 0. *)
Inductive kernel_kind := KLinear | KQuadratic | KGaussian.
Definition kernel (k : kernel_kind) (r : R) (d : R) : R :=
  match k with
  | KLinear => Rmax 0 (r - d)
  | KQuadratic => if Rleb r d then 0 else 1 - (d / r) * (d / r)
  | KGaussian => exp (- (1 / 2) * ((d / (r / 3)) * (d / (r / 3))))
  end.
Definition support (k : kernel_kind) (r : R) : R :=
  match k with KGaussian => 3 * (r / 3) | _ => r end.

(* np.nonzero(design_mask)[0]; a missing mask is all ones (lines 60-63) *)
Definition is_design (mask : option (list bool)) (i : nat) : bool :=
  match mask with None => true | Some m => nth i m false end.
Definition design_ids (mask : option (list bool)) (n : nat) : list nat :=
  filter (is_design mask) (seq 0 n).

(* filters/spacial.py:51-103 without volume correction (the only use, line
   147).  query_ball_point returns the indices at distance <= radius (scipy's
   contract, trusted), so an entry is the kernel value inside the closed ball
   and 0 outside.  The matrix is given by its dense rows. *)
Definition raw_row (kf : R -> R) (rad : R) (c : list point) (ids : list nat) (i : nat) : list R :=
  map (fun j => let d := dist (nth j c []) (nth i c []) in
                if Rleb d rad then kf d else 0) ids.
Definition has_neighbour (rad : R) (c : list point) (ids : list nat) (i : nat) : bool :=
  existsb (fun j => Rleb (dist (nth j c []) (nth i c [])) rad) ids.
Definition normalise_row (row : list R) : list R :=
  let s := rsum row in
  let s' := if Reqb s 0 then 1 else s in
  map (fun w => 1 / s' * w) row.
Definition build_filter_matrix (kf : R -> R) (rad : R) (c : list point) (mask : option (list bool))
  : res (list (list R)) :=
  let ids := design_ids mask (List.length c) in
  if existsb (has_neighbour rad c ids) ids
  then Ok (map (fun i => normalise_row (raw_row kf rad c ids i)) ids)
  else Err RuntimeError.

(* W @ x and W.T @ v *)
Definition matvec (W : list (list R)) (x : list R) : list R :=
  map (fun row => rsum (zipwith Rmult row x)) W.
Definition matvec_T (n : nat) (W : list (list R)) (v : list R) : list R :=
  map (fun j => rsum (zipwith (fun row vi => nth j row 0 * vi) W v)) (seq 0 n).

(* the filter object; W is only set by forward (spacial.py:106-133) *)
Record sfilter := mkSF {
  sf_centers : list point; sf_mask : option (list bool); sf_radius : R;
  sf_W : option (list (list R)) }.
Definition from_defaults (dim : nat) (p : list point) (t : list (list nat)) (radius : R)
    (mask : option (list bool)) : sfilter :=
  mkSF (get_element_centers dim p t) mask radius None.
(* spacial.py:110-115 *)
Definition update_radius (r : R) (f : sfilter) : sfilter :=
  mkSF (sf_centers f) (sf_mask f) r (sf_W f).

(* spacial.py:135-157.  radius = 0 divides by zero inside the kernel and is not
   modelled; wrong sizes raise. *)
Definition sf_forward (f : sfilter) (rho : list R) : res (sfilter * list R) :=
  let n := List.length (sf_centers f) in
  if Reqb (sf_radius f) 0 then Err NotModelled else
  let! W := build_filter_matrix (kernel KGaussian (sf_radius f)) (support KGaussian (sf_radius f))
              (sf_centers f) (sf_mask f) in
  if negb (Nat.eqb (List.length rho) n) then Err ValueError else
  let ids := design_ids (sf_mask f) n in
  Ok (mkSF (sf_centers f) (sf_mask f) (sf_radius f) (Some W),
      match sf_mask f with
      | None => matvec W rho
      | Some _ => scatter rho ids (matvec W (gather rho ids))
      end).
(* spacial.py:159-166 *)
Definition sf_gradient (f : sfilter) (v : list R) : res (list R) :=
  let n := List.length (sf_centers f) in
  match sf_W f with
  | None => Err AttributeError
  | Some W =>
    if negb (Nat.eqb (List.length v) n) then Err ValueError else
    match sf_mask f with
    | None => Ok (matvec_T n W v)
    | Some _ =>
      let ids := design_ids (sf_mask f) n in
      Ok (scatter (repeat 0 n) ids (matvec_T (List.length ids) W (gather v ids)))
    end
  end.
(* the map a caller sees, as the OC update uses it (oc.py:70) *)
Definition sf_map (f : sfilter) (rho : list R) : list R :=
  match sf_forward f rho with Ok (_, out) => out | Err _ => rho end.
