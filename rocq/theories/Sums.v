(* Finite sums of reals over lists. *)
From Verif Require Import Base.
Open Scope R_scope.
Open Scope list_scope.

Lemma rs_filter {A} (T : A -> R) f l : rsum (map T (filter f l)) = rsum (map (fun x => if f x then T x else 0) l).
Proof. induction l as [|x l IH]; simpl; [reflexivity|]. destruct (f x); simpl; lra. Qed.
Lemma rs_plus {A} (f g : A -> R) l : rsum (map (fun x => f x + g x) l) = rsum (map f l) + rsum (map g l).
Proof. induction l as [|x l IH]; simpl; lra. Qed.
Lemma rs_minus {A} (f g : A -> R) l : rsum (map (fun x => f x - g x) l) = rsum (map f l) - rsum (map g l).
Proof. induction l as [|x l IH]; simpl; lra. Qed.
Lemma rs_scal {A} c (f : A -> R) l : rsum (map (fun x => c * f x) l) = c * rsum (map f l).
Proof. induction l as [|x l IH]; simpl; lra. Qed.
Lemma rs_scal_r {A} c (f : A -> R) l : rsum (map (fun x => f x * c) l) = rsum (map f l) * c.
Proof. induction l as [|x l IH]; simpl; lra. Qed.
Lemma rs_zero {A} (f : A -> R) l : (forall x, In x l -> f x = 0) -> rsum (map f l) = 0.
Proof. induction l as [|x l IH]; simpl; intros H; [reflexivity|]. rewrite H, IH by auto. lra. Qed.
Lemma rs_ext {A} (f g : A -> R) l : (forall x, In x l -> f x = g x) -> rsum (map f l) = rsum (map g l).
Proof. induction l as [|x l IH]; simpl; intros H; [reflexivity|]. rewrite H, IH by auto. reflexivity. Qed.
Lemma rs_le {A} (f g : A -> R) l : (forall x, In x l -> f x <= g x) -> rsum (map f l) <= rsum (map g l).
Proof. induction l as [|x l IH]; simpl; intros H; [lra|]. pose proof (H x (or_introl eq_refl)). assert (rsum (map f l) <= rsum (map g l)) by auto. lra. Qed.
Lemma rs_nonneg {A} (f : A -> R) l : (forall x, In x l -> 0 <= f x) -> 0 <= rsum (map f l).
Proof. intros H. rewrite <- (rs_zero (fun _ => 0) l) by auto. now apply rs_le. Qed.
Lemma rs_nonpos {A} (f : A -> R) l : (forall x, In x l -> f x <= 0) -> rsum (map f l) <= 0.
Proof. intros H. rewrite <- (rs_zero (fun _ => 0) l) by auto. now apply rs_le. Qed.
Lemma rs_swap {A B} (f : A -> B -> R) l m :
  rsum (map (fun a => rsum (map (fun b => f a b) m)) l) = rsum (map (fun b => rsum (map (fun a => f a b) l)) m).
Proof.
  induction l as [|a l IH]; simpl.
  - symmetry. now apply rs_zero.
  - rewrite IH, <- rs_plus. reflexivity.
Qed.
Lemma rs_ge_elem {A} (f : A -> R) l x : (forall y, In y l -> 0 <= f y) -> In x l -> f x <= rsum (map f l).
Proof.
  induction l as [|y l IH]; intros H Hin; [easy|]. simpl. destruct Hin as [->|Hin].
  - assert (0 <= rsum (map f l)) by (apply rs_nonneg; intros; apply H; now right). lra.
  - assert (f x <= rsum (map f l)) by (apply IH; auto; intros; apply H; now right).
    assert (0 <= f y) by (apply H; now left). lra.
Qed.
Lemma rs_pos {A} (f : A -> R) l x : (forall y, In y l -> 0 <= f y) -> In x l -> 0 < f x -> 0 < rsum (map f l).
Proof. intros H Hin Hx. pose proof (rs_ge_elem f l x H Hin). lra. Qed.
Lemma rs_zero_inv {A} (f : A -> R) l : (forall y, In y l -> 0 <= f y) -> rsum (map f l) = 0 -> forall y, In y l -> f y = 0.
Proof. intros H Hs y Hin. pose proof (rs_ge_elem f l y H Hin). pose proof (H y Hin). lra. Qed.
Lemma rs_const {A} c (l : list A) : rsum (map (fun _ => c) l) = INR (List.length l) * c.
Proof.
  induction l as [|x l IH]; [simpl; lra|]. cbn [map List.length]. rewrite S_INR.
  change (rsum (c :: map (fun _ => c) l)) with (c + rsum (map (fun _ => c) l)). rewrite IH. lra.
Qed.
(* a convex combination stays in range *)
Lemma rs_convex {A} (w f : A -> R) l a b : (forall x, In x l -> 0 <= w x) -> rsum (map w l) = 1 ->
  (forall x, In x l -> 0 < w x -> a <= f x <= b) -> a <= rsum (map (fun x => w x * f x) l) <= b.
Proof.
  intros Hw H1 Hf. split.
  - rewrite <- (Rmult_1_l a), <- H1, <- rs_scal_r. apply rs_le. intros x Hx. specialize (Hw x Hx).
    destruct (Req_dec (w x) 0) as [->|Hn]; [lra|]. assert (0 < w x) by lra. specialize (Hf x Hx H). nra.
  - rewrite <- (Rmult_1_l b), <- H1, <- rs_scal_r. apply rs_le. intros x Hx. specialize (Hw x Hx).
    destruct (Req_dec (w x) 0) as [->|Hn]; [lra|]. assert (0 < w x) by lra. specialize (Hf x Hx H). nra.
Qed.
Lemma zipwith_map {A B C D} (f : B -> C -> D) (g : A -> B) (h : A -> C) l :
  zipwith f (map g l) (map h l) = map (fun x => f (g x) (h x)) l.
Proof. induction l as [|x l IH]; simpl; [reflexivity|]. now rewrite IH. Qed.
Lemma rs_single_nat n k (g : nat -> R) : (k < n)%nat ->
  rsum (map (fun i => if Nat.eqb i k then g i else 0) (seq 0 n)) = g k.
Proof.
  assert (G : forall m s, rsum (map (fun i => if Nat.eqb i k then g i else 0) (seq s m)) =
     if (Nat.leb s k && Nat.ltb k (s + m))%bool then g k else 0).
  { induction m as [|m IH]; intros s; simpl.
    - destruct (Nat.leb_spec s k); simpl; [|reflexivity]. destruct (Nat.ltb_spec k (s + 0)); [lia|reflexivity].
    - rewrite IH. destruct (Nat.eqb_spec s k) as [->|Hs].
      + destruct (Nat.leb_spec (S k) k); [lia|]. simpl. rewrite Nat.leb_refl.
        destruct (Nat.ltb_spec k (k + S m)); [|lia]. simpl. lra.
      + destruct (Nat.leb_spec (S s) k); destruct (Nat.leb_spec s k); simpl; try lia; try lra.
        destruct (Nat.ltb_spec k (S (s + m))); destruct (Nat.ltb_spec k (s + S m)); try lia; lra. }
  intros Hk. rewrite G. simpl. destruct (Nat.ltb_spec k n); [reflexivity|lia].
Qed.
