(* Derivative of the thermal compliance along any move of the densities. *)
From Verif Require Import Base Sums Material_model Material_proofs OC_model Mesh_model Fea_model Fea_spec Fea_proofs Fea_props Iter_model Grad_proofs
  Heat_model Heat_spec Heat_proofs Heat_props HeatGrad_props HeatSens_props LinDiff_proofs.
Open Scope R_scope.
Open Scope list_scope.

(* ---- forms and their matrices ---- *)
Lemma expand_gen n (f : vec -> R) : (forall a u b w, f (fun i => a * u i + b * w i) = a * f u + b * f w) ->
  (forall u w, (forall i, (i < n)%nat -> u i = w i) -> f u = f w) -> forall T, f T = sum n (fun b => T b * f (unit b)).
Proof.
  intros Lin Ext T. assert (P : forall m, f (fun i => if Nat.ltb i m then T i else 0) = sum m (fun b => T b * f (unit b))).
  { induction m as [|m IH].
    - rewrite (Ext _ (fun i => 0 * T i + 0 * T i)); [rewrite Lin; unfold sum; cbn; ring|]. intros i _. cbn. ring.
    - rewrite (Ext _ (fun i => 1 * (if Nat.ltb i m then T i else 0) + T m * unit m i)).
      + rewrite (Lin 1 (fun i => if Nat.ltb i m then T i else 0)), IH. unfold sum. rewrite seq_S, map_app. cbn [map Nat.add].
        rewrite rsum_app. unfold rsum at 3. cbn [fold_right]. ring.
      + intros i _. unfold unit. destruct (Nat.ltb_spec i (S m)), (Nat.ltb_spec i m), (Nat.eqb_spec i m); subst; try lia; ring. }
  rewrite <- P. apply Ext. intros i Hi. destruct (Nat.ltb_spec i n); [reflexivity|lia].
Qed.
Definition form_mat (f : vec -> vec -> R) : mat := fun a b => f (unit b) (unit a).
Section forms.
  Variables (H : hbasis) (k : nat -> R) (Ss : list surface) (h : R) (lay : nat -> nat -> R).
  Let f := aform H k Ss h lay.
  Lemma aform_expand_l T v : f T v = sum (hn H) (fun b => T b * f (unit b) v).
  Proof.
    apply (expand_gen (hn H) (fun u => f u v)).
    - intros. apply aform_lin.
    - intros. apply aform_ext; auto.
  Qed.
  Lemma aform_mv T a : mv (hn H) (form_mat f) T a = f T (unit a).
  Proof. rewrite (aform_expand_l T). apply sum_ext. intros. unfold form_mat. ring. Qed.
  Lemma aform_dot T v : dot (hn H) v (mv (hn H) (form_mat f) T) = f T v.
  Proof.
    unfold f. rewrite aform_sym. fold f. rewrite (aform_expand_l v). apply sum_ext. intros a Ha. rewrite aform_mv. unfold f. rewrite aform_sym. reflexivity.
  Qed.
  Lemma form_mat_sym : symmetric (hn H) (form_mat f).
  Proof. intros i j _ _. apply aform_sym. Qed.
  Lemma exch0_expand v : exch0 H Ss h lay one v = sum (hn H) (fun b => v b * exch0 H Ss h lay one (unit b)).
  Proof.
    apply (expand_gen (hn H) (fun u => exch0 H Ss h lay one u)).
    - intros. rewrite (exch0_sym _ _ _ _ one), exch0_lin, !(exch0_sym _ _ _ _ one). reflexivity.
    - intros. apply exch0_ext; auto.
  Qed.
End forms.

(* ---- derivatives of the coefficients ---- *)
Lemma integral_derive H (F : R -> nat -> nat -> R) (F' : nat -> nat -> R) x : 
  (forall e q, (e < ne H)%nat -> (q < nq H)%nat -> derivable_pt_lim (fun t => F t e q) x (F' e q)) ->
  derivable_pt_lim (fun t => integral H (F t)) x (integral H F').
Proof.
  intros D. unfold integral. apply (derive_sum (fb_ne (hb_B H)) (fun e t => sum (fb_nq (hb_B H)) (fun q => F t e q * fb_dx (hb_B H) e q))). intros e He.
  apply (derive_sum (fb_nq (hb_B H)) (fun q t => F t e q * fb_dx (hb_B H) e q)). intros q Hq.
  replace (F' e q * fb_dx (hb_B H) e q) with (F' e q * fb_dx (hb_B H) e q + F x e q * 0) by ring.
  apply (derivable_pt_lim_mult (fun t => F t e q) (fun _ => fb_dx (hb_B H) e q)); [now apply D|apply derivable_pt_lim_const].
Qed.
Lemma derive_scaled (f : R -> R) x l c d : derivable_pt_lim f x l -> derivable_pt_lim (fun t => c * f t * d) x (c * l * d).
Proof.
  intros D. replace (c * l * d) with ((c * l) * d + (c * f x) * 0) by ring.
  apply (derivable_pt_lim_mult (fun t => c * f t) (fun _ => d)); [now apply derivable_pt_lim_scal|apply derivable_pt_lim_const].
Qed.
Section coeff.
  Variables (H : hbasis) (Ss : list surface) (h x : R) (kt : R -> nat -> R) (layt : R -> nat -> nat -> R) (k' : nat -> R) (lay' : nat -> nat -> R).
  Hypothesis Dk : forall e, (e < ne H)%nat -> derivable_pt_lim (fun t => kt t e) x (k' e).
  Hypothesis Dl : forall e q, (e < ne H)%nat -> (q < nq H)%nat -> derivable_pt_lim (fun t => layt t e q) x (lay' e q).
  Lemma exch0_derive u v : derivable_pt_lim (fun t => exch0 H Ss h (layt t) u v) x (exch0 H [] h lay' u v).
  Proof.
    unfold exch0. apply (derivable_pt_lim_plus (fun _ => rsum (map (fun S => surf_integral S (fun q => h * sval_of (hn H) S u q * sval_of (hn H) S v q)) Ss))).
    - apply derivable_pt_lim_const.
    - apply (integral_derive H (fun t e q => h * layt t e q * value_of H u e q * value_of H v e q)). intros e q He Hq.
      apply (derive_locally (fun t => h * layt t e q * (value_of H u e q * value_of H v e q))); [exists 1; split; [lra|intros; ring]|].
      rewrite (Rmult_assoc (h * lay' e q)). apply derive_scaled. now apply Dl.
  Qed.
  Lemma aform_derive u v : derivable_pt_lim (fun t => aform H (kt t) Ss h (layt t) u v) x (aform H k' [] h lay' u v).
  Proof.
    unfold aform. apply (derivable_pt_lim_plus (fun t => conducted H (kt t) u v)); [|apply exch0_derive].
    apply (integral_derive H (fun t e q => kt t e * vdot3 (gradv H u e q) (gradv H v e q))). intros e q He Hq.
    apply (derive_locally (fun t => 1 * kt t e * vdot3 (gradv H u e q) (gradv H v e q))); [exists 1; split; [lra|intros; ring]|].
    replace (k' e * vdot3 (gradv H u e q) (gradv H v e q)) with (1 * k' e * vdot3 (gradv H u e q) (gradv H v e q)) by ring. apply derive_scaled. now apply Dk.
  Qed.
End coeff.

(* the compliance along a path of coefficients *)
Lemma path_compliance H D Ss h A g slvm (kt : R -> nat -> R) (layt : R -> nat -> nat -> R) k' lay' (Tt : R -> vec) p x :
  shapes H -> (forall S, In S Ss -> surf_shapes (hn H) S) -> anchored H D -> 0 <= h -> exact_solver (hn H) slvm ->
  (forall e, (e < ne H)%nat -> 0 < kt x e) -> (forall e q, (e < ne H)%nat -> (q < nq H)%nat -> 0 <= layt x e q) ->
  (forall e, (e < ne H)%nat -> derivable_pt_lim (fun t => kt t e) x (k' e)) ->
  (forall e q, (e < ne H)%nat -> (q < nq H)%nat -> derivable_pt_lim (fun t => layt t e q) x (lay' e q)) ->
  (exists d, 0 < d /\ forall t, Rabs (t - x) < d -> temperature H (kt t) D g Ss h A (layt t) (Tt t)) ->
  temperature H (kt x) D 0 Ss h A (layt x) p ->
  derivable_pt_lim (fun t => aform H (kt t) Ss h (layt t) (Tt t) (Tt t)) x
    (2 * (A * exch0 H [] h lay' one p - aform H k' [] h lay' (Tt x) p) + aform H k' [] h lay' (Tt x) (Tt x)).
Proof.
  intros Sh SS An Hh Hex Kp Lp Dk Dl HT Hp. set (n := hn H).
  set (Kt := fun t => form_mat (aform H (kt t) Ss h (layt t))). set (Ft := fun t i => A * exch0 H Ss h (layt t) one (unit i)).
  set (K' := form_mat (aform H k' [] h lay')). set (F' := fun i => A * exch0 H [] h lay' one (unit i)).
  assert (Wk : forall t gg T, temperature H (kt t) D gg Ss h A (layt t) T ->
    (forall i, (i < n)%nat -> mem i D = true -> T i = gg) /\ (forall i, (i < n)%nat -> mem i D = false -> mv n (Kt t) T i = Ft t i)).
  { intros t gg T Tm. apply temperature_form in Tm; auto. destruct Tm as (B & W). split.
    - intros i Hi Mi. apply B; auto. apply existsb_exists in Mi. destruct Mi as (y & Hy & Ey). apply Nat.eqb_eq in Ey. now subst.
    - intros i Hi Mi. unfold n, Kt. rewrite aform_mv. unfold Ft. apply W. intros j Hj HD. unfold unit. destruct (Nat.eqb_spec j i); [|reflexivity]. subst.
      assert (mem i D = true) by (apply existsb_exists; exists i; split; [auto|apply Nat.eqb_refl]). congruence. }
  destruct (inverse_exists n D (Kt x) slvm Hex) as (G & HG).
  { apply (regular H (kt x) D Ss h (layt x) (Kt x)); auto. intros T v. apply aform_dot. }
  assert (Q := quad_derive n (fun i => mem i D) g x Kt Ft Tt K' F' G
    (fun i j _ _ => aform_derive H Ss h x kt layt k' lay' Dk Dl (unit j) (unit i))
    (fun i _ => derivable_pt_lim_scal _ A x _ (exch0_derive H Ss h x layt lay' Dl one (unit i)))
    HG ltac:(destruct HT as (d & Hd & W); exists d; split; [exact Hd|intros t Ht; exact (Wk t g (Tt t) (W t Ht))])
    (fun i j _ _ => aform_sym _ _ _ _ _ _ _) p (Wk x 0 p Hp)).
  replace (2 * (A * exch0 H [] h lay' one p - aform H k' [] h lay' (Tt x) p) + aform H k' [] h lay' (Tt x) (Tt x))
    with (2 * (dot n p F' - dot n p (mv n K' (Tt x))) + dot n (Tt x) (mv n K' (Tt x))).
  - apply (derive_locally (fun t => dot n (Tt t) (mv n (Kt t) (Tt t)))); [|exact Q]. exists 1. split; [lra|]. intros t _. apply aform_dot.
  - unfold n, K'. rewrite !aform_dot. f_equal. f_equal. f_equal. rewrite exch0_expand, <- sum_scal. apply sum_ext. intros. unfold F'. ring.
Qed.
