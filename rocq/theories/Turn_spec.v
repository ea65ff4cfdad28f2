(* The task turned by an arbitrary angle about an arbitrary axis (or mirrored in an arbitrary plane). *)
From Verif Require Import Base Sums Mesh_model Fea_model Fea_spec Iter_model Stress_props.
Open Scope R_scope.

(* Q: the rotation (or reflection) of space, columns orthonormal.  M: what it does to nodal
   displacements (each node's displacement vector is multiplied by Q), an orthogonal matrix.
   The elements, the nodes and the sets of them keep their numbers; each shape function of the first mesh, turned, is the
   combination of the shape functions of the second mesh that M says; loads are turned with the
   body.  A support direction of the second task is made of support directions of the first
   only, a free one of free ones (clamped nodes; or supports along directions Q maps to axes). *)
Definition orthogonal (n : nat) (M : mat) : Prop :=
  (forall a b, (a < n)%nat -> (b < n)%nat -> sum n (fun k => M k a * M k b) = delta a b) /\
  (forall k l, (k < n)%nat -> (l < n)%nat -> sum n (fun a => M k a * M l a) = delta k l).
Record turned (Q : tensor) (M : mat) (pb pb' : problem) : Prop := mkTurned {
  tn_Q : orthonormal Q;
  tn_M : orthogonal (fb_n (pb_basis pb)) M;
  tn_n : fb_n (pb_basis pb') = fb_n (pb_basis pb);
  tn_ne : fb_ne (pb_basis pb') = fb_ne (pb_basis pb);
  tn_nq : fb_nq (pb_basis pb') = fb_nq (pb_basis pb);
  tn_dx : forall e q, (e < fb_ne (pb_basis pb))%nat -> (q < fb_nq (pb_basis pb))%nat -> fb_dx (pb_basis pb') e q = fb_dx (pb_basis pb) e q;
  tn_grad : forall e q a i j, (e < fb_ne (pb_basis pb))%nat -> (q < fb_nq (pb_basis pb))%nat -> (a < fb_n (pb_basis pb))%nat -> (i < 3)%nat -> (j < 3)%nat ->
    sum (fb_n (pb_basis pb)) (fun k => M k a * fb_grad (pb_basis pb') e q k i j) = rotated Q (fb_grad (pb_basis pb) e q a) i j;
  tn_nu : pb_nu pb' = pb_nu pb; tn_E0 : pb_E0 pb' = pb_E0 pb;
  tn_D : forall k a, (k < fb_n (pb_basis pb))%nat -> (a < fb_n (pb_basis pb))%nat -> M k a <> 0 -> (In k (pb_D pb') <-> In a (pb_D pb));
  tn_loads : Forall2 (fun g g' => forall k, (k < fb_n (pb_basis pb))%nat -> g' k = mv (fb_n (pb_basis pb)) M g k) (pb_loads pb) (pb_loads pb');
  tn_volumes : pb_volumes pb' = pb_volumes pb;
  tn_dom : pb_dom pb' = pb_dom pb }.
(* the same analysis: densities, compliance and sensitivities equal, energies equal per element *)
Record same_eval (n : nat) (a b : eval) : Prop := mkSE {
  se_filtered : ev_filtered b = ev_filtered a; se_projected : ev_projected b = ev_projected a;
  se_compliance : ev_compliance b = ev_compliance a; se_dC : ev_dC b = ev_dC a;
  se_energy : Forall2 (fun U V => forall e, (e < n)%nat -> V e = U e) (ev_energy a) (ev_energy b) }.
Record same_state (n : nat) (a b : istate) : Prop := mkSS {
  ss_rho : s_rho b = s_rho a; ss_filter : s_filter b = s_filter a; ss_running : s_running b = s_running a;
  ss_change : s_change b = s_change a; ss_kkt : s_kkt b = s_kkt a;
  ss_eval : match s_eval a, s_eval b with
            | Some x, Some y => same_eval n x y | None, None => True | _, _ => False end }.
