(* C98: specification. *)
From Coq Require Import Sorting.Sorted Permutation.
From Verif Require Import Base Mesh_model.
Open Scope R_scope.
Open Scope list_scope.

(* Euclidean distance *)
Definition dist3 (a b : vec3) : R :=
  let '(ax, ay, az) := a in let '(bx, by_, bz) := b in sqrt ((ax - bx) ^ 2 + (ay - by_) ^ 2 + (az - bz) ^ 2).
(* d is the distance from point i to the nearest other point of the list *)
Definition nearest_other (p : list vec3) (i : nat) (d : R) : Prop :=
  (exists j, (j < List.length p)%nat /\ j <> i /\ d = dist3 (nth i p (0, 0, 0)) (nth j p (0, 0, 0))) /\
  (forall j, (j < List.length p)%nat -> j <> i -> d <= dist3 (nth i p (0, 0, 0)) (nth j p (0, 0, 0))).
(* l lists the distances of all the points, in their order *)
Definition nearest_list (p : list vec3) (l : list R) : Prop :=
  List.length l = List.length p /\ forall i, (i < List.length p)%nat -> nearest_other p i (nth i l 0).
(* the middle value: of the values in ascending order, the middle one, or half way
   between the two middle ones *)
Definition is_median (l : list R) (x : R) : Prop :=
  exists s, Permutation l s /\ Sorted Rle s /\
    ((exists k, List.length l = (2 * k + 1)%nat /\ x = nth k s 0) \/
     (exists k, List.length l = (2 * k + 2)%nat /\ x = (nth k s 0 + nth (S k) s 0) / 2)).
(* the five figures of a list of values *)
Record describes (l : list R) (mn mx mean med sd : R) : Prop := {
  ds_min : In mn l /\ forall x, In x l -> mn <= x;
  ds_max : In mx l /\ forall x, In x l -> x <= mx;
  ds_mean : INR (List.length l) * mean = rsum l;
  ds_median : is_median l med;
  ds_std : 0 <= sd /\ INR (List.length l) * sd ^ 2 = rsum (map (fun x => (x - mean) ^ 2) l) }.
(* two different indices carry the same point *)
Definition duplicate_points (p : list vec3) : Prop :=
  exists i j, (i < List.length p)%nat /\ (j < List.length p)%nat /\ i <> j /\ nth i p (0, 0, 0) = nth j p (0, 0, 0).
(* the volume of a set of elements *)
Definition volume_of (vol : list R) (l : list nat) : R := rsum (map (fun i => nth i vol 0) l).
