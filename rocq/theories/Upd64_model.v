(* The density updates and the projection in IEEE binary64 (numpy float64), with
   the libm functions as parameters. *)
From Coq Require Import ZArith Reals List Floats.SpecFloat.
From Flocq Require Import Core BinarySingleNaN.
From Verif Require Import Sched_float Bin64.
Import ListNotations.
Open Scope list_scope.

(* np.maximum, np.minimum: NaN wins; np.clip(x, lo, hi) = minimum(maximum(x, lo), hi) *)
Definition bmaximum (x y : b64) : b64 :=
  if is_nan x then x else if is_nan y then y else if Bltb x y then y else x.
Definition bminimum (x y : b64) : b64 :=
  if is_nan x then x else if is_nan y then y else if Bltb y x then y else x.
Definition bclip (x lo hi : b64) : b64 := bminimum (bmaximum x lo) hi.

(* oc.py:51-66 for one element; [pw] is np.power *)
Section oc.
  Variable pw : b64 -> b64 -> b64.
  Variables (rho_min rho_max move eta eps smin smax : b64).
  Definition scaling64 (dC lmid : b64) : b64 :=
    bclip (pw (bdiv (Bopp dC) (badd lmid eps)) eta) smin smax.
  Definition candidate64 (rho dC lmid : b64) : b64 :=
    bclip (bmul rho (scaling64 dC lmid))
      (bmaximum (bsub rho move) rho_min) (bminimum (badd rho move) rho_max).

  (* oc.py:47-94.  [vol] is the volume error of the candidate densities (filter,
     projection and sum are arbitrary); the result is the list of multipliers the
     candidates were computed for, the last one is the one kept *)
  Variables (vol : list b64 -> b64) (tolerance vol_tol : b64).
  Definition midpoint64 (l1 l2 : b64) : b64 := bmul (bdiv (bint 1) (bint 2)) (badd l1 l2).
  Fixpoint bisection64 (left : nat) (rho dC : list b64) (l1 l2 : b64) : list b64 :=
    let lmid := midpoint64 l1 l2 in
    let e := vol (map (fun p => candidate64 (fst p) (snd p) lmid) (combine rho dC)) in
    if Bltb (Babs e) vol_tol then [lmid]                       (* :81 *)
    else match left with                                       (* :83 iter_num >= max_iter *)
    | O => [lmid]
    | S k =>
        if Bleb (Babs (bsub l2 l1)) tolerance then [lmid]      (* :85 *)
        else if Bltb (bint 0) e then lmid :: bisection64 k rho dC lmid l2
        else lmid :: bisection64 k rho dC l1 lmid
    end.
  Definition oc_update64 (max_iter : nat) (rho dC : list b64) (l1 l2 : b64) : list b64 :=
    let lmid := last (bisection64 max_iter rho dC l1 l2) l1 in
    map (fun p => candidate64 (fst p) (snd p) lmid) (combine rho dC).
End oc.

(* logmoc.py:48-66 for one element; [lg], [ex] are np.log and np.exp *)
Section logmoc.
  Variables lg ex : b64 -> b64.
  Variables (rho_min rho_max move eta lclip : b64).
  Definition log_update64 (rho dL : b64) : b64 :=
    let scaling := bclip dL (Bopp lclip) lclip in
    let rho := bclip rho rho_min rho_max in
    let lower := lg rho in
    let upper := ex lower in
    let upper := bdiv move upper in
    let upper := badd upper (bint 1) in
    let upper := lg upper in
    let lower := bsub lower upper in
    let upper := badd lower (bmul (bint 2) upper) in
    let x := lg rho in
    let x := bsub x (bmul eta scaling) in
    let x := bclip x lower upper in
    let x := ex x in
    bclip x rho_min rho_max.
End logmoc.

(* projection.py:27-77 for one element; [th] is np.tanh *)
Section projection.
  Variable th : b64 -> b64.
  (* the literal 1e-12 *)
  Definition tiny64 : b64 := bdiv (bint 1) (bint 1000000000000).
  Definition projection64 (beta eta rho : b64) : b64 :=
    let t := th (bmul (bsub rho eta) beta) in
    let num := badd (th (bmul beta eta)) t in
    let den := badd (badd (th (bmul beta eta)) (th (bmul beta (bsub (bint 1) eta)))) tiny64 in
    bdiv num den.
End projection.

(* fea/composer.py:19-33: Emin + (E0 - Emin) * rho ** p for one element *)
Definition simp64 (pw : b64 -> b64 -> b64) (E0 Emin p rho : b64) : b64 :=
  badd Emin (bmul (bsub E0 Emin) (pw rho p)).
