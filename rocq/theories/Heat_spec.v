(* What C66-C73 mean: steady heat conduction in weak form. *)
From Verif Require Import Base Sums Mesh_model Fea_model Fea_spec Iter_model Heat_model.
Open Scope R_scope.
Open Scope list_scope.

Definition ne (H : hbasis) : nat := fb_ne (hb_B H).
Definition nq (H : hbasis) : nat := fb_nq (hb_B H).
(* heat conducted, tested with v *)
Definition conducted (H : hbasis) (k : nat -> R) (T v : vec) : R :=
  integral H (fun e q => k e * vdot3 (gradv H T e q) (gradv H v e q)).
(* heat given off to the ambient temperature A through the Robin surfaces (coefficient
   h) and through the interface layer (coefficient h * lay), tested with v *)
Definition exchanged (H : hbasis) (Ss : list surface) (h A : R) (lay : nat -> nat -> R) (T v : vec) : R :=
  rsum (map (fun S => surf_integral S (fun q => h * (sval_of (hn H) S T q - A) * sval_of (hn H) S v q)) Ss) +
  integral H (fun e q => h * lay e q * (value_of H T e q - A) * value_of H v e q).
(* T is the temperature field: g on the nodes D, heat balance everywhere else *)
Definition temperature (H : hbasis) (k : nat -> R) (D : list nat) (g : R) (Ss : list surface) (h A : R)
    (lay : nat -> nat -> R) (T : vec) : Prop :=
  (forall i, (i < hn H)%nat -> In i D -> T i = g) /\
  (forall v, (forall i, (i < hn H)%nat -> In i D -> v i = 0) ->
     conducted H k T v + exchanged H Ss h A lay T v = 0).

(* linear elements: shape functions are between 0 and 1 and add up to 1 *)
Definition shapes (H : hbasis) : Prop := forall e q, (e < ne H)%nat -> (q < nq H)%nat ->
  (forall k, (k < hn H)%nat -> 0 <= hb_val H e q k) /\
  sum (hn H) (fun k => hb_val H e q k) = 1 /\
  (forall i, (i < 3)%nat -> sum (hn H) (fun k => fb_grad (hb_B H) e q k 0%nat i) = 0) /\
  0 < fb_dx (hb_B H) e q.
Definition surf_shapes (n : nat) (S : surface) : Prop := forall q, (q < sf_np S)%nat ->
  sum n (fun k => sf_val S q k) = 1 /\ 0 <= sf_dx S q /\ (forall k, (k < n)%nat -> 0 <= sf_val S q k).
(* a field that is 0 on D and has no gradient anywhere is 0: D meets every connected
   part of the mesh *)
Definition anchored (H : hbasis) (D : list nat) : Prop := forall u : vec,
  (forall i, (i < hn H)%nat -> In i D -> u i = 0) ->
  (forall e q i, (e < ne H)%nat -> (q < nq H)%nat -> (i < 3)%nat -> gradv H u e q 0%nat i = 0) ->
  forall i, (i < hn H)%nat -> u i = 0.

(* elements of mesh.t around vertex v *)
Definition elements_around (t : list (list nat)) (nel v : nat) : list nat :=
  filter (fun e => existsb (fun row => Nat.eqb (nth e row 0%nat) v) t) (seq 0 nel).
(* the density of a vertex: the mean over the elements around it *)
Definition mean_around (t : list (list nat)) (rho : list R) (v : nat) : R :=
  rmean (map (fun e => nth e rho 0) (elements_around t (List.length rho) v)).

(* conductivity of density x in [0,1] between c*k (void) and k (solid), p > 0 *)
Definition conductivity (ip : interp) (k c p x : R) : R :=
  match ip with
  | SIMP => c * k + (k - c * k) * (if Rlt_dec 0 x then Rpower x p else 0)
  | RAMP => c * k + (k - c * k) * (x / (1 + p * (1 - x)))
  end.
(* the linear solver solves every regular system exactly *)
Definition exact_solver (n : nat) (slvm : mat -> list vec -> list vec) : Prop := forall A bs,
  (forall u, (forall i, (i < n)%nat -> mv n A u i = 0) -> forall i, (i < n)%nat -> u i = 0) ->
  Forall2 (solves n A) bs (slvm A bs).
(* a sound problem, held at the nodes D *)
Record sound (H : hbasis) (D : list nat) (Ss : list surface) (h k c p : R) (rho : list R) : Prop := {
  sd_shapes : shapes H;
  sd_surf : forall S, In S Ss -> surf_shapes (hn H) S;
  sd_anchored : anchored H D;
  sd_h : 0 <= h; sd_k : 0 < k; sd_c : 0 < c <= 1; sd_p : 0 < p;
  sd_len : List.length rho = ne H;
  sd_rho : forall x, In x rho -> 0 <= x <= 1 }.
Definition same_set (D D' : list nat) : Prop := forall i, In i D <-> In i D'.

(* building a task with Robin surfaces Ss (coefficient h, ambient A), temperatures
   [values] at the nodes [ns], and analysing the densities rho, gives the objective
   values Js and the temperature fields Ts *)
Record hsettings := mkHS {
  hs_H : hbasis; hs_ns : list (list nat); hs_Ss : list surface; hs_h : R; hs_k : R; hs_c : R; hs_p : R;
  hs_obj : hobjective; hs_w : R; hs_ip : interp; hs_q : nat; hs_sol : hsolver; hs_slvm : mat -> list vec -> list vec }.
Definition analysis (s : hsettings) (A : R) (values : farg) (rho Js : list R) (Ts : list vec) : Prop :=
  exists dr tk,
    from_facets (hs_H s) (Lst (hs_ns s)) values (Some (hs_Ss s)) (Some (Flt (hs_h s))) (Some (Flt A)) dr (hs_k s) (hs_obj s) (hs_w s) = Ok tk /\
    objectives_multi_load (mkHFem tk (hs_c s) (hs_ip s) (hs_q s) (hs_sol s) (hs_slvm s)) (hs_p s) rho = Ok (Js, Ts).
(* the same as a function; the objective value of a single load case held at g *)
Definition analysed (s : hsettings) (A : R) (values : farg) (rho : list R) : res (list R * list vec) :=
  let! tk := from_facets (hs_H s) (Lst (hs_ns s)) values (Some (hs_Ss s)) (Some (Flt (hs_h s))) (Some (Flt A)) None (hs_k s) (hs_obj s) (hs_w s) in
  objectives_multi_load (mkHFem tk (hs_c s) (hs_ip s) (hs_q s) (hs_sol s) (hs_slvm s)) (hs_p s) rho.
Definition objective_value (s : hsettings) (A g : R) (rho : list R) : R :=
  match analysed s A (Flt g) rho with Ok (J :: _, _) => J | _ => 0 end.
Definition temperature_field (s : hsettings) (A g : R) (rho : list R) : vec :=
  match analysed s A (Flt g) rho with Ok (_, T :: _) => T | _ => fun _ => 0 end.
(* all load cases are held at the same nodes D, the problem is sound, the solver exact *)
Definition well_set (s : hsettings) (D : list nat) (rho : list R) : Prop :=
  nth_error (hs_ns s) 0 = Some D /\ (forall D', In D' (hs_ns s) -> same_set D' D) /\
  sound (hs_H s) D (hs_Ss s) (hs_h s) (hs_k s) (hs_c s) (hs_p s) rho /\ exact_solver (hn (hs_H s)) (hs_slvm s).
Definition unit (a : nat) : vec := fun i => if Nat.eqb i a then 1 else 0.
(* the coupling between different nodes is never positive (M-matrix: holds on
   non-obtuse meshes with lumped exchange) *)
Definition no_positive_coupling (H : hbasis) (k : nat -> R) (Ss : list surface) (h : R) (lay : nat -> nat -> R) : Prop :=
  forall a b, (a < hn H)%nat -> (b < hn H)%nat -> a <> b ->
    conducted H k (unit a) (unit b) + exchanged H Ss h 0 lay (unit a) (unit b) <= 0.

(* the sensitivities reported for densities rho and temperature fields Ts: one list
   per load case *)
Definition reported (s : hsettings) (A : R) (values : farg) (rho : list R) (Ts : list vec) (G : list (list R)) : Prop :=
  exists dr tk,
    from_facets (hs_H s) (Lst (hs_ns s)) values (Some (hs_Ss s)) (Some (Flt (hs_h s))) (Some (Flt A)) dr (hs_k s) (hs_obj s) (hs_w s) = Ok tk /\
    heat_sensitivity (mkHFem tk (hs_c s) (hs_ip s) (hs_q s) (hs_sol s) (hs_slvm s)) (hs_p s) rho Ts = Ok G.
(* mesh.t has one column per element and every vertex belongs to an element *)
Definition mesh_ok (H : hbasis) : Prop :=
  (forall row, In row (hb_t H) -> List.length row = ne H) /\ (forall v, (v < hn H)%nat -> In v (List.concat (hb_t H))).
(* slope of the interpolation law at x > 0 *)
Definition dconductivity (ip : interp) (k c p x : R) : R :=
  match ip with
  | SIMP => (k - c * k) * (p * Rpower x (p - 1))
  | RAMP => (k - c * k) * ((1 + p) / (1 + p * (1 - x)) ^ 2)
  end.
(* the same density everywhere *)
Definition uniform (s : hsettings) (x : R) : list R := repeat x (ne (hs_H s)).
(* everything C70 and C71 need of the settings: sound for every uniform density, at
   least one Robin surface, a solver that exists, void conductivity at least 1e-12 *)
Definition uniform_problem (s : hsettings) (D : list nat) : Prop :=
  well_set s D (uniform s 1) /\ mesh_ok (hs_H s) /\ hs_Ss s <> [] /\ hs_sol s <> HOther /\ 1 / 10 ^ 12 <= hs_c s * hs_k s.
(* size of the material interface: integral of |grad rho| for the vertex densities *)
Definition interface (H : hbasis) (rho : list R) : R :=
  integral H (fun e q => gnorm (gradv H (nodal_average (hb_t H) rho) e q)).
(* temperature above ambient, integrated over the interface *)
Definition excess (H : hbasis) (rho : list R) (T : vec) (A : R) : R :=
  integral H (fun e q => (value_of H T e q - A) * gnorm (gradv H (nodal_average (hb_t H) rho) e q)).
(* densities moved by t in the direction d *)
Definition moved (rho d : list R) (t : R) : list R := zipwith (fun x y => x + t * y) rho d.
(* rate of x^p (1-x)^q |grad x| when the vertex densities r move in the direction dr *)
Definition layer_rate (H : hbasis) (r dr : vec) (p : R) (m : nat) (e q : nat) : R :=
  let x := value_of H r e q in
  let g := gradv H r e q in
  (p * Rpower x (p - 1) * (1 - x) ^ m - INR m * Rpower x p * (1 - x) ^ (m - 1)) * gnorm g * value_of H dr e q +
  Rpower x p * (1 - x) ^ m * (if Req_EM_T (gnorm g) 0 then 0 else vdot3 g (gradv H dr e q) / gnorm g).
(* the interface is differentiable along the move: at every integration point the
   vertex densities have a gradient, or have none before and after the move *)
Definition smooth_move (H : hbasis) (r dr : vec) : Prop := forall e q, (e < ne H)%nat -> (q < nq H)%nat ->
  1 / 10 ^ 12 <= gnorm (gradv H r e q) \/
  (forall i, (i < 3)%nat -> gradv H r e q 0%nat i = 0 /\ gradv H dr e q 0%nat i = 0).
(* the mean over the elements around a vertex, elements counted as often as they touch it *)
Definition vertex_mean (t : list (list nat)) (rho : list R) (v : nat) : R :=
  add_at (List.concat t) (List.concat (map (fun _ => rho) t)) v / Rmax (node_count t v) 1.
(* rate of the compliance of the problem held at 0 when the density of vertex v alone
   changes and the conductivities do not *)
Definition vertex_rate (s : hsettings) (A : R) (rho : list R) (T : vec) (v : nat) : R :=
  hs_h s * integral (hs_H s) (fun e q =>
    layer_rate (hs_H s) (nodal_average (hb_t (hs_H s)) rho) (unit v) (hs_p s) (hs_q s) e q *
    (2 * A * value_of (hs_H s) T e q - value_of (hs_H s) T e q * value_of (hs_H s) T e q)).
(* the derivative in the direction d that a gradient g stands for *)
Definition along (g d : list R) : R := rsum (zipwith Rmult g d).
