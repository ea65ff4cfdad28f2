(* C92: the multi-load heat solvers that are called directly. *)
From Verif Require Import Base Sums Mesh_model Mesh_proofs Fea_model Fea_spec Fea_proofs Fea_props Heat_model Heat_props HeatAlt_model.
Open Scope R_scope.
Open Scope list_scope.

(* ---- specification ---- *)
(* T is the steady temperature with the nodes D held at g *)
Definition held_at (n : nat) (K : mat) (emit : vec) (D : list nat) (g : R) (T : vec) : Prop :=
  (forall i, (i < n)%nat -> In i D -> T i = g) /\
  (forall i, (i < n)%nat -> ~ In i D -> mv n K T i = emit i).
(* holding the nodes D leaves one solution *)
Definition regular (n : nat) (A : mat) : Prop :=
  forall u, (forall i, (i < n)%nat -> mv n A u i = 0) -> forall i, (i < n)%nat -> u i = 0.
Definition determined (n : nat) (K : mat) (D : list nat) : Prop :=
  forall u, (forall i, (i < n)%nat -> In i D -> u i = 0) -> (forall i, (i < n)%nat -> ~ In i D -> mv n K u i = 0) ->
    forall i, (i < n)%nat -> u i = 0.
(* SuperLU solves every system with one solution *)
Definition lu_exact (n : nat) (lu : mat -> vec -> vec) : Prop := forall A b, regular n A -> solves n A b (lu A b).
Definition agree (n : nat) (u v : vec) : Prop := forall i, (i < n)%nat -> u i = v i.

Lemma enforced_row n K D T i : (i < n)%nat -> mv n (enforceK D K) T i = (if mem i D then T i else mv n K T i).
Proof.
  intros Hi. unfold mv, enforceK. destruct (mem i D); [|reflexivity].
  rewrite (sum_ext _ _ (fun a => if Nat.eqb a i then T a else 0)); [now apply (sum_single n i T)|].
  intros z Hz. rewrite Nat.eqb_sym. destruct (Nat.eqb z i); ring.
Qed.
Lemma determined_regular n K D : determined n K D -> regular n (enforceK D K).
Proof.
  intros H u Hu. apply H; intros i Hi Hd; specialize (Hu i Hi); rewrite (enforced_row n K D) in Hu by auto.
  - apply mem_in in Hd. now rewrite Hd in Hu.
  - apply mem_false in Hd. now rewrite Hd in Hu.
Qed.
Lemma solves_held n K D g emit T : solves n (enforceK D K) (enforceV D g emit) T <-> held_at n K emit D g T.
Proof.
  unfold solves, held_at, enforceV. split.
  - intros H. split; intros i Hi Hd; specialize (H i Hi); rewrite (enforced_row n K D) in H by auto.
    + apply mem_in in Hd. now rewrite Hd in H.
    + apply mem_false in Hd. now rewrite Hd in H.
  - intros [H1 H2] i Hi. rewrite (enforced_row n K D) by auto. destruct (mem i D) eqn:M.
    + apply mem_in in M. auto.
    + apply mem_false in M. auto.
Qed.
(* one solution only *)
Lemma held_unique n K D g emit T T' : determined n K D -> held_at n K emit D g T -> held_at n K emit D g T' -> agree n T T'.
Proof.
  intros HD [A1 A2] [B1 B2] i Hi. assert (Z : T i - T' i = 0); [|lra].
  apply (HD (fun j => T j - T' j)); auto; intros j Hj Hd.
  - rewrite A1, B1 by auto. ring.
  - rewrite mv_minus, A2, B2 by auto. ring.
Qed.

(* ---- solve_scipy_heat_multi_enforce ---- *)
Lemma set_col_length i u us : List.length (set_col i u us) = List.length us.
Proof.
  unfold set_col. rewrite app_length, firstn_length. destruct (skipn i us) as [|x r] eqn:E.
  - cbn. pose proof (skipn_length i us) as L. rewrite E in L. cbn in L. lia.
  - cbn. pose proof (skipn_length i us) as L. rewrite E in L. cbn in L. lia.
Qed.
Lemma set_col_nth i u us j d : (i < List.length us)%nat -> nth j (set_col i u us) d = if Nat.eqb j i then u else nth j us d.
Proof.
  revert i j. induction us as [|x us IH]; intros i j Hi; [cbn in Hi; lia|]. destruct i, j; cbn; try reflexivity.
  - unfold set_col in IH. rewrite IH by (cbn in Hi; lia). reflexivity.
Qed.
Lemma loop_spec lu K emit Ds : forall vals i us, (i + List.length vals = List.length us)%nat ->
  let r := enforce_loop lu K emit Ds vals i us in
  List.length (fst r) = List.length us /\
  snd r = (if Nat.leb (i + List.length vals) (Nat.max i (List.length Ds)) then Ok tt else Err IndexError) /\
  forall j, nth j (fst r) zv =
    if andb (Nat.leb i j) (andb (Nat.ltb j (i + List.length vals)) (Nat.ltb j (List.length Ds)))
    then lu (enforceK (nth j Ds []) K) (enforceV (nth j Ds []) (nth (j - i) vals 0) emit) else nth j us zv.
Proof.
  induction vals as [|v vals IH]; intros i us L; cbn [enforce_loop].
  - cbn [fst snd List.length]. split; [auto|]. split.
    + rewrite Nat.add_0_r. now rewrite (proj2 (Nat.leb_le _ _) (Nat.le_max_l _ _)).
    + intros j. destruct (Nat.leb i j) eqn:E1; cbn [andb]; [|reflexivity].
      destruct (Nat.ltb j (i + 0)) eqn:E2; [|reflexivity]. apply Nat.leb_le in E1. apply Nat.ltb_lt in E2. lia.
  - destruct (nth_error Ds i) as [D|] eqn:En.
    + assert (Hi : (i < List.length Ds)%nat) by (apply nth_error_Some; congruence).
      set (us' := set_col i _ us). destruct (IH (S i) us') as (P1 & P2 & P3).
      { unfold us'. rewrite set_col_length. cbn in L. lia. }
      split; [rewrite P1; unfold us'; apply set_col_length|]. split.
      * rewrite P2. cbn [List.length]. replace (S i + List.length vals)%nat with (i + S (List.length vals))%nat by lia.
        replace (Nat.max (S i) (List.length Ds)) with (List.length Ds) by lia.
        replace (Nat.max i (List.length Ds)) with (List.length Ds) by lia. reflexivity.
      * intros j. rewrite P3. cbn [List.length] in *. unfold us'. rewrite set_col_nth by lia.
        destruct (Nat.leb (S i) j) eqn:E1; cbn [andb].
        -- apply Nat.leb_le in E1. replace (Nat.leb i j) with true by (symmetry; apply Nat.leb_le; lia). cbn [andb].
           replace (j <? i + S (List.length vals))%nat with (j <? S i + List.length vals)%nat by (f_equal; lia).
           replace (nth (j - i) (v :: vals) 0) with (nth (j - S i) vals 0) by (replace (j - i)%nat with (S (j - S i))%nat by lia; reflexivity).
           replace (Nat.eqb j i) with false by (symmetry; apply Nat.eqb_neq; lia). reflexivity.
        -- apply Nat.leb_gt in E1. destruct (Nat.eqb j i) eqn:E2.
           ++ apply Nat.eqb_eq in E2. subst j. rewrite Nat.leb_refl. cbn [andb].
              replace (i <? i + S (List.length vals))%nat with true by (symmetry; apply Nat.ltb_lt; lia).
              replace (i <? List.length Ds)%nat with true by (symmetry; apply Nat.ltb_lt; lia). cbn [andb].
              rewrite Nat.sub_diag. cbn [nth]. now rewrite (nth_error_nth _ _ [] En).
           ++ apply Nat.eqb_neq in E2. replace (Nat.leb i j) with false by (symmetry; apply Nat.leb_gt; lia). reflexivity.
    + apply nth_error_None in En. cbn [fst snd List.length]. split; [auto|]. split.
      * replace (Nat.leb _ _) with false; [reflexivity|]. symmetry. apply Nat.leb_gt. lia.
      * intros j. destruct (Nat.leb i j) eqn:E1; cbn [andb]; [|reflexivity]. apply Nat.leb_le in E1.
        replace (j <? List.length Ds)%nat with false by (symmetry; apply Nat.ltb_ge; lia). now rewrite andb_false_r.
Qed.
(* every load case gets its own nodes and its own value, also when the sets differ *)
Theorem C92_each_load_its_own_nodes n lu K emit Ds vals us us' : lu_exact n lu ->
  (forall D, In D Ds -> determined n K D) ->
  solve_scipy_heat_multi_enforce lu K emit Ds vals us = (us', Ok tt) ->
  List.length us' = List.length vals /\
  forall i, (i < List.length vals)%nat -> held_at n K emit (nth i Ds []) (nth i vals 0) (nth i us' zv).
Proof.
  intros Hlu HD H. unfold solve_scipy_heat_multi_enforce in H.
  destruct (Nat.eqb (List.length us) (List.length vals)) eqn:L; cbn [negb] in H; [|discriminate]. apply Nat.eqb_eq in L.
  destruct (loop_spec lu K emit Ds vals 0 us ltac:(cbn; lia)) as (P1 & P2 & P3). rewrite H in P1, P2, P3. cbn [fst snd] in *.
  destruct (Nat.leb (0 + List.length vals) (Nat.max 0 (List.length Ds))) eqn:E; [|discriminate]. apply Nat.leb_le in E.
  split; [lia|]. intros i Hi. rewrite P3. cbn [Nat.leb andb].
  replace (i <? 0 + List.length vals)%nat with true by (symmetry; apply Nat.ltb_lt; lia).
  replace (i <? List.length Ds)%nat with true by (symmetry; apply Nat.ltb_lt; lia). cbn [andb]. rewrite Nat.sub_0_r.
  apply solves_held, Hlu, determined_regular, HD, nth_In. lia.
Qed.
(* it succeeds exactly if there are enough node sets and u_all has one column per value;
   a missing node set is found only after the columns before it were written *)
Theorem C92_enforce_outcome lu K emit Ds vals us :
  let r := solve_scipy_heat_multi_enforce lu K emit Ds vals us in
  snd r = (if Nat.eqb (List.length us) (List.length vals)
           then if Nat.leb (List.length vals) (List.length Ds) then Ok tt else Err IndexError else Err AssertionError) /\
  (snd r = Err AssertionError -> fst r = us) /\
  (snd r = Err IndexError -> List.length (fst r) = List.length us /\
     (forall j, (j < List.length Ds)%nat -> nth j (fst r) zv = lu (enforceK (nth j Ds []) K) (enforceV (nth j Ds []) (nth j vals 0) emit)) /\
     (forall j, (List.length Ds <= j)%nat -> nth j (fst r) zv = nth j us zv)).
Proof.
  unfold solve_scipy_heat_multi_enforce. destruct (Nat.eqb (List.length us) (List.length vals)) eqn:L; cbn [negb].
  2: { cbn [fst snd]. split; [reflexivity|split; [reflexivity|discriminate]]. }
  apply Nat.eqb_eq in L. destruct (loop_spec lu K emit Ds vals 0 us ltac:(cbn; lia)) as (P1 & P2 & P3).
  cbn [Nat.add Nat.max] in P2. cbn zeta. rewrite P2. split; [reflexivity|].
  destruct (Nat.leb (List.length vals) (List.length Ds)) eqn:E; (split; [discriminate|]); [discriminate|]. intros _.
  apply Nat.leb_gt in E. split; [exact P1|]. split; intros j Hj; rewrite P3; cbn [Nat.leb andb Nat.add].
  - replace (j <? List.length vals)%nat with true by (symmetry; apply Nat.ltb_lt; lia).
    replace (j <? List.length Ds)%nat with true by (symmetry; apply Nat.ltb_lt; lia). cbn [andb]. now rewrite Nat.sub_0_r.
  - replace (j <? List.length Ds)%nat with false by (symmetry; apply Nat.ltb_ge; lia). now rewrite andb_false_r.
Qed.

(* ---- solve_scipy and solve_heat_system_multi ---- *)
(* with the same nodes in every load case the three solvers agree *)
Theorem C92_same_nodes_same_result n lu K emit D vals us : lu_exact n lu -> determined n K D ->
  List.length us = List.length vals -> vals <> [] ->
  let Ds := repeat D (List.length vals) in
  exists a b c, solve_scipy_heat_multi_enforce lu K emit Ds vals us = (a, Ok tt) /\
    solve_scipy lu K emit Ds vals us = (b, Ok tt) /\ solve_heat_system_multi lu K emit Ds vals us = (c, Ok tt) /\
    List.length a = List.length vals /\ b = c /\ List.length b = List.length vals /\
    forall i, (i < List.length vals)%nat -> held_at n K emit D (nth i vals 0) (nth i b zv) /\ agree n (nth i a zv) (nth i b zv).
Proof.
  intros Hlu HD L Hv Ds.
  destruct (C92_enforce_outcome lu K emit Ds vals us) as (O & _).
  assert (LD : List.length Ds = List.length vals) by apply repeat_length.
  rewrite L, Nat.eqb_refl, LD, Nat.leb_refl in O.
  destruct (solve_scipy_heat_multi_enforce lu K emit Ds vals us) as [a r] eqn:Ea. cbn [snd] in O. subst r.
  destruct (C92_each_load_its_own_nodes n lu K emit Ds vals us a Hlu) as (La & Ha).
  { intros D' HD'. apply repeat_spec in HD'. now subst. } { exact Ea. }
  set (b := map (lu (enforceK D K)) (stacked emit Ds vals)).
  assert (Lb : List.length b = List.length vals) by (unfold b, stacked; rewrite map_length, zipwith_len_min; lia).
  assert (Eb : assign_all us b = (b, Ok tt)) by (unfold assign_all; now rewrite Lb, L, Nat.eqb_refl).
  exists a, b, b. split; [reflexivity|].
  assert (Rb : solve_scipy lu K emit Ds vals us = (b, Ok tt)).
  { unfold solve_scipy. destruct vals as [|v vals]; [congruence|]. unfold Ds at 1. cbn [List.length repeat]. exact Eb. }
  split; [exact Rb|]. split.
  { unfold solve_heat_system_multi. unfold solve_scipy in Rb. destruct vals; [congruence|exact Rb]. }
  split; [exact La|]. split; [reflexivity|]. split; [exact Lb|].
  intros i Hi.
  assert (Hb : held_at n K emit D (nth i vals 0) (nth i b zv)).
  { unfold b. rewrite (nth_indep _ zv (lu (enforceK D K) zv)) by (fold b; lia). rewrite map_nth.
    unfold stacked. rewrite (zipwith_nth3 _ _ _ _ D 0) by lia. unfold Ds. rewrite nth_repeat.
    apply solves_held, Hlu, determined_regular, HD. }
  split; [exact Hb|]. specialize (Ha i Hi). unfold Ds in Ha.
  replace (nth i (repeat D (List.length vals)) []) with D in Ha by (symmetry; rewrite (nth_indep _ [] D) by (rewrite repeat_length; lia); apply nth_repeat).
  eapply held_unique; eauto.
Qed.
(* refuted for solve_scipy and solve_heat_system_multi: each load case its own nodes.
   The nodes of the first case are held in all of them, at the given emission rate
   where the case does not name them; the others are not held at all *)
Theorem C92_shared_matrix_refuted n lu K emit D0 Ds v0 vals us us' i : lu_exact n lu -> determined n K D0 ->
  List.length Ds = List.length vals -> List.length us = S (List.length vals) -> (i <= List.length vals)%nat ->
  (solve_scipy lu K emit (D0 :: Ds) (v0 :: vals) us = (us', Ok tt) \/ solve_heat_system_multi lu K emit (D0 :: Ds) (v0 :: vals) us = (us', Ok tt)) ->
  let D := nth i (D0 :: Ds) [] in let T := nth i us' zv in
  (forall j, (j < n)%nat -> In j D0 -> ~ In j D -> T j = emit j) /\
  (forall j, (j < n)%nat -> In j D -> ~ In j D0 -> mv n K T j = nth i (v0 :: vals) 0).
Proof.
  intros Hlu HD L Lu Hi H D T.
  assert (E : assign_all us (map (lu (enforceK D0 K)) (stacked emit (D0 :: Ds) (v0 :: vals))) = (us', Ok tt)) by (destruct H as [H|H]; exact H).
  set (b := map _ _) in E. assert (Lb : List.length b = S (List.length vals)).
  { unfold b, stacked. rewrite map_length, zipwith_len_min. cbn [List.length]. lia. }
  unfold assign_all in E. rewrite Lb, Lu, Nat.eqb_refl in E. apply (f_equal fst) in E. cbn [fst] in E.
  assert (S1 : solves n (enforceK D0 K) (enforceV D (nth i (v0 :: vals) 0) emit) T).
  { unfold T. rewrite <- E. unfold b. rewrite (nth_indep _ zv (lu (enforceK D0 K) zv)) by (fold b; lia). rewrite map_nth.
    unfold stacked. rewrite (zipwith_nth3 _ _ _ _ [] 0) by (cbn [List.length]; lia). apply Hlu, determined_regular, HD. }
  split; intros j Hj H1 H2; specialize (S1 j Hj); rewrite (enforced_row n K D0) in S1 by auto; unfold enforceV in S1;
    apply mem_in in H1; apply mem_false in H2; now rewrite H1, H2 in S1.
Qed.
(* no load: solve_scipy leaves the caller's array as it was, solve_heat_system_multi
   sets it to zero, solve_scipy_heat_multi_enforce accepts it only if it has no column *)
Theorem C92_no_load lu K emit Ds us :
  solve_scipy lu K emit Ds [] us = (us, Ok tt) /\
  solve_heat_system_multi lu K emit Ds [] us = (map (fun _ _ => 0) us, Ok tt) /\
  solve_scipy_heat_multi_enforce lu K emit Ds [] us = (us, if Nat.eqb (List.length us) 0 then Ok tt else Err AssertionError).
Proof.
  split; [reflexivity|]. split; [reflexivity|]. unfold solve_scipy_heat_multi_enforce. cbn [List.length]. now destruct (Nat.eqb (List.length us) 0).
Qed.
(* refuted: a missing node set is reported. The load cases are cut to the number of
   node sets; with one node set the first temperature field is stored for all cases *)
Theorem C92_missing_nodes_refuted n lu K emit D v0 v1 vals us : lu_exact n lu -> determined n K D ->
  List.length us = S (S (List.length vals)) ->
  exists us', solve_scipy lu K emit [D] (v0 :: v1 :: vals) us = (us', Ok tt) /\
    solve_heat_system_multi lu K emit [D] (v0 :: v1 :: vals) us = (us', Ok tt) /\
    List.length us' = List.length us /\ forall T, In T us' -> held_at n K emit D v0 T.
Proof.
  intros Hlu HD L. exists (map (fun _ => lu (enforceK D K) (enforceV D v0 emit)) us).
  assert (E : assign_all us (map (lu (enforceK D K)) (stacked emit [D] (v0 :: v1 :: vals))) =
    (map (fun _ => lu (enforceK D K) (enforceV D v0 emit)) us, Ok tt)).
  { unfold assign_all, stacked. cbn [zipwith map List.length]. rewrite L. reflexivity. }
  split; [exact E|split; [exact E|split; [apply map_length|]]].
  intros T HT. apply in_map_iff in HT. destruct HT as (x & <- & _). apply solves_held, Hlu, determined_regular, HD.
Qed.
(* failures leave the array alone *)
Theorem C92_failure_keeps_array lu K emit Ds vals us us' e :
  solve_scipy lu K emit Ds vals us = (us', Err e) \/ solve_heat_system_multi lu K emit Ds vals us = (us', Err e) ->
  us' = us /\ (e = IndexError /\ Ds = [] \/ e = ValueError /\ Nat.min (List.length Ds) (List.length vals) <> List.length us).
Proof.
  assert (A : forall b, List.length b = Nat.min (List.length Ds) (List.length vals) ->
    assign_all us b = (us', Err e) -> us' = us /\ (e = ValueError /\ Nat.min (List.length Ds) (List.length vals) <> List.length us)).
  { intros b Lb H. unfold assign_all in H. rewrite <- Lb. destruct (Nat.eqb (List.length b) (List.length us)) eqn:E; [discriminate|]. apply Nat.eqb_neq in E.
    destruct b as [|x [|y b]]; try discriminate; injection H as <- <-; auto. }
  assert (G : match vals with [] => (us, Ok tt) | _ => match Ds with [] => (us, Err IndexError) | D0 :: _ => assign_all us (map (lu (enforceK D0 K)) (stacked emit Ds vals)) end end = (us', Err e) ->
    us' = us /\ (e = IndexError /\ Ds = [] \/ e = ValueError /\ Nat.min (List.length Ds) (List.length vals) <> List.length us)).
  { intros H. destruct vals as [|v vals]; [discriminate|]. destruct Ds as [|D0 Ds].
    - injection H as <- <-. auto.
    - destruct (A (map (lu (enforceK D0 K)) (stacked emit (D0 :: Ds) (v :: vals)))) as (P & Q); auto.
      unfold stacked. now rewrite map_length, zipwith_len_min. }
  intros [H|H]; apply G; [exact H|]. unfold solve_heat_system_multi in H. destruct vals; [discriminate|exact H].
Qed.
Theorem C92_instance : exists lu K emit,
  lu_exact 2 lu /\ determined 2 K [0%nat] /\ determined 2 K [1%nat] /\
  exists a b, solve_scipy_heat_multi_enforce lu K emit [[0%nat]; [1%nat]] [5; 7] [zv; zv] = (a, Ok tt) /\
    solve_scipy lu K emit [[0%nat]; [1%nat]] [5; 7] [zv; zv] = (b, Ok tt) /\
    nth 1 a zv 1%nat = 7 /\ nth 1 b zv 1%nat <> 7.
Proof.
  exists cramer, (fun i j => if Nat.eqb i j then 2 else -1), (fun _ => 0).
  assert (HC : lu_exact 2 cramer).
  { intros A b HR. pose proof (cramer_exact A [b] HR) as F. now inversion F. }
  assert (HD0 : determined 2 (fun i j => if Nat.eqb i j then 2 else -1) [0%nat]).
  { intros u H1 H2. assert (Z : u 0%nat = 0) by (apply H1; [lia|now left]).
    pose proof (H2 1%nat ltac:(lia) ltac:(intros [E|[]]; discriminate)) as Q. unfold mv, sum in Q. cbn in Q.
    intros [|[|i]] Hi; [exact Z|lra|lia]. }
  assert (HD1 : determined 2 (fun i j => if Nat.eqb i j then 2 else -1) [1%nat]).
  { intros u H1 H2. assert (Z : u 1%nat = 0) by (apply H1; [lia|now left]).
    pose proof (H2 0%nat ltac:(lia) ltac:(intros [E|[]]; discriminate)) as Q. unfold mv, sum in Q. cbn in Q.
    intros [|[|i]] Hi; [lra|exact Z|lia]. }
  split; [exact HC|split; [exact HD0|split; [exact HD1|]]].
  eexists. eexists. split; [reflexivity|split; [reflexivity|]].
  set (K := fun i j : nat => if Nat.eqb i j then 2 else -1).
  set (a := nth 1 _ zv). set (b := nth 1 _ zv).
  destruct (C92_each_load_its_own_nodes 2 cramer K (fun _ => 0) [[0%nat]; [1%nat]] [5; 7] [zv; zv] _ HC
    ltac:(intros D [<-|[<-|[]]]; assumption) eq_refl) as (_ & P).
  destruct (C92_shared_matrix_refuted 2 cramer K (fun _ => 0) [0%nat] [[1%nat]] 5 [7] [zv; zv] _ 1 HC HD0 eq_refl eq_refl ltac:(cbn; lia) (or_introl eq_refl)) as (Q1 & Q2).
  split.
  - destruct (P 1%nat ltac:(cbn; lia)) as (P1 & _). apply (P1 1%nat); [lia|now left].
  - specialize (Q1 0%nat ltac:(lia) ltac:(now left) ltac:(cbn; intros [E|[]]; discriminate)).
    specialize (Q2 1%nat ltac:(lia) ltac:(now left) ltac:(cbn; intros [E|[]]; discriminate)).
    unfold mv, sum in Q2. cbn [seq map rsum fold_right] in Q2. fold b in Q1, Q2. unfold K in Q2. cbn [Nat.eqb nth] in Q2.
    change (nth 1 _ zv) with b in Q1, Q2. rewrite Q1 in Q2. lra.
Qed.
