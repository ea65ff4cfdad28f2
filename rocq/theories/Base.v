(* Common vocabulary of the model: Python exceptions as values, NumPy scalar
   helpers over the reals, and lists of reals. *)
From Coq Require Export Reals ZArith List String Bool Lia Lra.
Export ListNotations.
Open Scope R_scope.

(* Python exception classes raised by the modelled code.  [NotModelled] is not a
   Python exception: it marks inputs on which the model makes no claim (each
   use says which). *)
Inductive exn : Set :=
| ValueError | TypeError | KeyError | ZeroDivisionError | AttributeError
| RuntimeError | NotImplementedError | FileNotFoundError | AssertionError
| IndexError | ArgumentTypeError | BadZipFile | NotModelled.

Inductive res (A : Type) : Type := Ok (a : A) | Err (e : exn).
Arguments Ok {A} a.
Arguments Err {A} e.

Definition bind {A B} (r : res A) (f : A -> res B) : res B :=
  match r with Ok a => f a | Err e => Err e end.
Notation "'let!' x := r 'in' k" := (bind r (fun x => k))
  (at level 200, x pattern, r at level 100, k at level 200, right associativity).

Definition is_ok {A} (r : res A) : Prop := exists a, r = Ok a.

(* boolean comparisons on reals: Python's <, <=, == on floats (exact) *)
Definition Rltb (x y : R) : bool := if Rlt_dec x y then true else false.
Definition Rleb (x y : R) : bool := if Rle_dec x y then true else false.
Definition Reqb (x y : R) : bool := if Req_EM_T x y then true else false.

Lemma Rltb_true x y : Rltb x y = true <-> x < y.
Proof. unfold Rltb; destruct (Rlt_dec x y); split; intros; try discriminate; auto; lra. Qed.
Lemma Rltb_false x y : Rltb x y = false <-> y <= x.
Proof. unfold Rltb; destruct (Rlt_dec x y); split; intros; try discriminate; auto; lra. Qed.
Lemma Rleb_true x y : Rleb x y = true <-> x <= y.
Proof. unfold Rleb; destruct (Rle_dec x y); split; intros; try discriminate; auto; lra. Qed.
Lemma Rleb_false x y : Rleb x y = false <-> y < x.
Proof. unfold Rleb; destruct (Rle_dec x y); split; intros; try discriminate; auto; lra. Qed.
Lemma Reqb_true x y : Reqb x y = true <-> x = y.
Proof. unfold Reqb; destruct (Req_EM_T x y); split; intros; try discriminate; auto; lra. Qed.
Lemma Reqb_false x y : Reqb x y = false <-> x <> y.
Proof. unfold Reqb; destruct (Req_EM_T x y); split; intros; try discriminate; auto; lra. Qed.

(* np.clip(x, lo, hi) = np.minimum(np.maximum(x, lo), hi) *)
Definition clip (x lo hi : R) : R := Rmin (Rmax x lo) hi.

Ltac case_Rle :=
  repeat match goal with
  | |- context [Rle_dec ?a ?b] => destruct (Rle_dec a b)
  | H : context [Rle_dec ?a ?b] |- _ => destruct (Rle_dec a b)
  end.
Ltac rminmax := unfold clip, Rmin, Rmax in *; case_Rle; try lra.

Lemma clip_le_hi x lo hi : clip x lo hi <= hi.
Proof. rminmax. Qed.
Lemma clip_ge_lo x lo hi : lo <= hi -> lo <= clip x lo hi.
Proof. intros; rminmax. Qed.
Lemma clip_mono x y lo hi : x <= y -> clip x lo hi <= clip y lo hi.
Proof. intros; rminmax. Qed.
Lemma clip_id x lo hi : lo <= x <= hi -> clip x lo hi = x.
Proof. intros; rminmax. Qed.

(* the largest integer not above x: math.floor / Python's // on floats *)
Definition Rfloor (x : R) : Z := (up x - 1)%Z.

Lemma Rfloor_spec x : IZR (Rfloor x) <= x < IZR (Rfloor x) + 1.
Proof. unfold Rfloor; destruct (archimed x) as [H1 H2]; rewrite minus_IZR; lra. Qed.

Lemma Rfloor_unique x z : IZR z <= x < IZR z + 1 -> Rfloor x = z.
Proof.
  intros [H1 H2]; destruct (Rfloor_spec x) as [H3 H4].
  assert (IZR (Rfloor x) < IZR (z + 1)) by (rewrite plus_IZR; lra).
  assert (IZR z < IZR (Rfloor x + 1)) by (rewrite plus_IZR; lra).
  apply lt_IZR in H; apply lt_IZR in H0; lia.
Qed.

Lemma Rfloor_mono x y : x <= y -> (Rfloor x <= Rfloor y)%Z.
Proof.
  intros H; destruct (Rfloor_spec x), (Rfloor_spec y).
  assert (IZR (Rfloor x) < IZR (Rfloor y + 1)) by (rewrite plus_IZR; lra).
  apply lt_IZR in H4; lia.
Qed.

Lemma Rfloor_IZR z : Rfloor (IZR z) = z.
Proof. apply Rfloor_unique; lra. Qed.

(* floor of a rational = integer division *)
Lemma Rfloor_div a b : (0 < b)%Z -> Rfloor (IZR a / IZR b) = (a / b)%Z.
Proof.
  intros Hb; apply Rfloor_unique.
  assert (Hb' : 0 < IZR b) by (apply IZR_lt; auto).
  pose proof (Z.div_mod a b ltac:(lia)) as E.
  pose proof (Z.mod_pos_bound a b Hb) as M.
  assert (E' : IZR a = IZR b * IZR (a / b) + IZR (a mod b)).
  { rewrite <- mult_IZR, <- plus_IZR; f_equal; auto. }
  assert (0 <= IZR (a mod b)) by (apply IZR_le; lia).
  assert (IZR (a mod b) < IZR b) by (apply IZR_lt; lia).
  split.
  - apply Rmult_le_reg_r with (IZR b); auto.
    unfold Rdiv; rewrite Rmult_assoc, Rinv_l by lra; nra.
  - apply Rmult_lt_reg_r with (IZR b); auto.
    unfold Rdiv; rewrite Rmult_assoc, Rinv_l by lra; nra.
Qed.

(* sums, and pointwise helpers on lists of reals *)
Definition rsum (l : list R) : R := fold_right Rplus 0 l.

Lemma rsum_app l1 l2 : rsum (l1 ++ l2) = rsum l1 + rsum l2.
Proof. induction l1; simpl; lra. Qed.

Fixpoint zipwith {A B C} (f : A -> B -> C) (l : list A) (m : list B) : list C :=
  match l, m with
  | a :: l', b :: m' => f a b :: zipwith f l' m'
  | _, _ => []
  end.

Lemma zipwith_length {A B C} (f : A -> B -> C) l m :
  List.length l = List.length m -> List.length (zipwith f l m) = List.length l.
Proof. revert m; induction l; destruct m; simpl; intros; auto; discriminate. Qed.
