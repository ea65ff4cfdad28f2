From Coq Require Import List Arith Lia FinFun ZArith ZifyNat.
From Verif Require Import Plot_model.
Import ListNotations.
Open Scope nat_scope.
Ltac Zify.zify_post_hook ::= Z.div_mod_to_equations.

Lemma used_series n p :
  map fst (pg_used (draw_page n p)) = seq (p * 8) (Nat.min (p * 8 + 8) n - p * 8).
Proof.
  unfold draw_page, cols; cbn [pg_used]. rewrite map_map; cbn [fst].
  rewrite map_id. replace (p * 4 * 2) with (p * 8) by lia. reflexivity.
Qed.

Lemma seq_split_pages n k :
  k <= num_pages n ->
  concat (map (fun p => map fst (pg_used (draw_page n p))) (seq 0 k)) = seq 0 (Nat.min (k * 8) n).
Proof.
  induction k; intros H; [reflexivity|].
  rewrite seq_S, map_app, concat_app, IHk by lia. cbn [map concat plus]. rewrite app_nil_r, used_series.
  assert (k * 8 < n). { unfold num_pages, ceil_nat in H. lia. }
  replace (Nat.min (k * 8) n) with (k * 8) by lia.
  replace (Nat.min (S k * 8) n) with (k * 8 + (Nat.min (k * 8 + 8) n - k * 8)) by lia.
  rewrite seq_app. reflexivity.
Qed.

Lemma all_series_once n :
  concat (map (fun pg => map fst (pg_used pg)) (draw n)) = seq 0 n.
Proof.
  unfold draw; rewrite map_map, seq_split_pages by lia. f_equal.
  unfold num_pages, ceil_nat. lia.
Qed.

(* on one page, used and switched-off panels together are exactly the grid,
   in row-major order *)
Lemma panels_row_major n p :
  map snd (pg_used (draw_page n p)) ++ pg_off (draw_page n p) =
  map (fun j => (j / 4, j mod 4)) (seq 0 (pg_rows (draw_page n p) * 4)).
Proof.
  unfold draw_page, cols; cbn [pg_used pg_off pg_rows].
  replace (p * 4 * 2) with (p * 8) by lia. replace (4 * 2) with 8 by lia.
  set (c := Nat.min (p * 8 + 8) n - p * 8).
  set (r := ceil_nat c 4).
  assert (Hr : c <= r * 4) by (unfold r, ceil_nat; lia).
  rewrite map_map; cbn [snd].
  assert (E : map (fun x => ((x - p * 8) / 4, (x - p * 8) mod 4)) (seq (p * 8) c) =
              map (fun j => (j / 4, j mod 4)) (seq 0 c)).
  { clearbody c. clear. generalize (p * 8). intros a.
    assert (G : forall k c a, map (fun x => ((x - a) / 4, (x - a) mod 4)) (seq (a + k) c) =
                map (fun j => (j / 4, j mod 4)) (seq k c)).
    { intros k c'; revert k; induction c'; intros; cbn [seq map]; [reflexivity|].
      replace (a0 + k - a0) with k by lia. f_equal. replace (S (a0 + k)) with (a0 + S k) by lia. apply IHc'. }
    specialize (G 0 c a). rewrite Nat.add_0_r in G. exact G. }
  rewrite E, <- map_app. replace (r * 4) with (c + (r * 4 - c)) at 2 by lia.
  rewrite seq_app. reflexivity.
Qed.

Lemma grid_nodup k : NoDup (map (fun j => (j / 4, j mod 4)) (seq 0 k)).
Proof.
  apply FinFun.Injective_map_NoDup; [|apply seq_NoDup].
  intros x y E. assert (x / 4 = y / 4) by congruence. assert (x mod 4 = y mod 4) by congruence. lia.
Qed.

Lemma grid_in k p q : In (p, q) (map (fun j => (j / 4, j mod 4)) (seq 0 (k * 4))) <-> p < k /\ q < 4.
Proof.
  rewrite in_map_iff; split.
  - intros (j & E & H). assert (j / 4 = p) by congruence. assert (j mod 4 = q) by congruence. apply in_seq in H. lia.
  - intros [H1 H2]; exists (p * 4 + q). split; [|apply in_seq; lia].
    f_equal; lia.
Qed.

Lemma rows_small n p : p < num_pages n -> 1 <= pg_rows (draw_page n p) <= 2.
Proof.
  unfold num_pages, draw_page, ceil_nat, cols; cbn [pg_rows]; intros. lia.
Qed.

Lemma layout_ok n pg :
  In pg (draw n) ->
  1 <= pg_rows pg <= 2 /\
  NoDup (map snd (pg_used pg) ++ pg_off pg) /\
  (forall r c, In (r, c) (map snd (pg_used pg) ++ pg_off pg) <-> r < pg_rows pg /\ c < 4).
Proof.
  unfold draw; rewrite in_map_iff; intros (p & <- & H); apply in_seq in H.
  split; [apply rows_small; lia|]. rewrite panels_row_major.
  split; [apply grid_nodup|]. intros; apply grid_in.
Qed.
