(* C98: statistics and accessors of tasks, surface fluxes. *)
From Coq Require Import Lia Lra Sorting.Sorted Permutation.
From Verif Require Import Base Sums Mesh_model Mesh_spec Mesh_proofs Mesh_props OC_model Stats_model Stats_spec Stats_proofs.
From Verif Require Toy_model Toy_props Tags_model Tags_props.
Open Scope R_scope.
Open Scope list_scope.

Lemma vol_some vol l r : volume_at vol (Some l) = Ok r -> r = volume_of vol l /\ forall i, In i l -> (i < List.length vol)%nat.
Proof.
  cbn [volume_at]. destruct (forallb _ l) eqn:F; [|discriminate]. intros H. injection H as <-. split; [reflexivity|].
  intros i Hi. rewrite forallb_forall in F. specialize (F i Hi). now apply Nat.ltb_lt.
Qed.
Lemma vol_some_ok vol l : (forall i, In i l -> (i < List.length vol)%nat) -> volume_at vol (Some l) = Ok (volume_of vol l).
Proof.
  intros H. cbn [volume_at]. replace (forallb _ l) with true; [reflexivity|]. symmetry. apply forallb_forall.
  intros i Hi. apply Nat.ltb_lt. now apply H.
Qed.
Lemma stats_inv m vol d s : nodes_and_elements_stats m vol d = Ok s ->
  exists ln le, all_finite (nearest_dists (m_p m)) = Ok ln /\ all_finite (nearest_dists (element_centers m)) = Ok le /\
    st_nodes s = summarise ln /\ st_elements s = summarise le /\ st_all s = rsum vol /\
    volume_at vol (d_dirichlet d) = Ok (st_dirichlet s) /\ volume_at vol (d_neumann d) = Ok (st_force s) /\
    volume_at vol (Some (d_design d)) = Ok (st_design s).
Proof.
  unfold nodes_and_elements_stats. destruct (all_finite (nearest_dists (m_p m))) as [ln|]; cbn [bind]; [|discriminate].
  destruct (all_finite (nearest_dists (element_centers m))) as [le|]; cbn [bind]; [|discriminate].
  destruct (volume_at vol (Some (d_design d))) as [v1|]; cbn [bind]; [|discriminate].
  destruct (volume_at vol (d_dirichlet d)) as [v2|]; cbn [bind]; [|discriminate].
  destruct (volume_at vol (d_neumann d)) as [v3|]; cbn [bind]; [|discriminate].
  intros H. injection H as <-. exists ln, le. repeat split; reflexivity.
Qed.

(* the distances reported: for the nodes and for the element centres (the centroids of
   their nodes) the minimum, maximum, mean, median and standard deviation of the
   distances to the nearest other point *)
Theorem C98_distances m vol d s : nodes_and_elements_stats m vol d = Ok s -> m_p m <> [] ->
  m_t m <> [] -> (forall e, In e (m_t m) -> e <> []) ->
  exists centres ln le,
    (List.length centres = List.length (m_t m) /\
     forall i, (i < List.length (m_t m))%nat -> Toy_props.centroid (m_p m) (nth i (m_t m) []) (nth i centres (0, 0, 0))) /\
    nearest_list (m_p m) ln /\ nearest_list centres le /\
    (let a := st_nodes s in describes ln (s_min a) (s_max a) (s_mean a) (s_median a) (s_std a)) /\
    (let a := st_elements s in describes le (s_min a) (s_max a) (s_mean a) (s_median a) (s_std a)).
Proof.
  intros H NP NT NE. destruct (stats_inv _ _ _ _ H) as (ln & le & E1 & E2 & -> & -> & _).
  assert (NC : element_centers m <> []) by (unfold element_centers; destruct (m_t m); [contradiction|discriminate]).
  pose proof (nearest_ok_inv _ _ E1 NP) as N1. pose proof (nearest_ok_inv _ _ E2 NC) as N2.
  exists (element_centers m), ln, le. split; [|split; [exact N1|split; [exact N2|split]]].
  - unfold element_centers. rewrite map_length. split; [reflexivity|]. intros i Hi.
    rewrite (nth_indep _ (0, 0, 0) (Toy_model.midpoint (m_p m) [])) by (now rewrite map_length). rewrite map_nth.
    apply Toy_props.mid_centroid. apply NE. now apply nth_In.
  - apply summary_ok. intros ->. destruct N1 as [L _]. destruct (m_p m); [contradiction|discriminate].
  - apply summary_ok. intros ->. destruct N2 as [L _]. destruct (element_centers m); [contradiction|discriminate].
Qed.

(* the smallest node distance is 0 exactly when two nodes coincide *)
Theorem C98_zero_distance_means_duplicates m vol d s : nodes_and_elements_stats m vol d = Ok s -> m_p m <> [] ->
  0 <= s_min (st_nodes s) /\ (s_min (st_nodes s) = 0 <-> duplicate_points (m_p m)).
Proof.
  intros H NP. destruct (stats_inv _ _ _ _ H) as (ln & le & E1 & _ & -> & _). pose proof (nearest_ok_inv _ _ E1 NP) as [L N].
  assert (NL : ln <> []) by (intros ->; destruct (m_p m); [contradiction|discriminate]).
  destruct (ds_min _ _ _ _ _ _ (summary_ok ln NL)) as [I M]. cbn zeta in *.
  destruct (In_nth _ _ 0 I) as (i & Hi & Ei). rewrite L in Hi. pose proof (N i Hi) as Ni. rewrite Ei in Ni.
  destruct Ni as [(j & Hj & Hji & Ed) _]. split; [rewrite Ed; apply dist_nonneg|]. split.
  - intros Z. rewrite Z in Ed. exists i, j. repeat split; [exact Hi|exact Hj|congruence|]. now apply dist_zero.
  - intros (a & b & Ha & Hb & Hab & Eab). destruct (N a Ha) as [(k & _ & _ & Ek) Nle].
    assert (Q : nth a ln 0 <= 0).
    { pose proof (Nle b Hb ltac:(congruence)) as Q. rewrite Eab, dist_self in Q. exact Q. }
    assert (In (nth a ln 0) ln) by (apply nth_In; rewrite L; exact Ha). pose proof (M _ H0).
    rewrite Ed in *. pose proof (dist_nonneg (nth i (m_p m) (0, 0, 0)) (nth j (m_p m) (0, 0, 0))). lra.
Qed.

(* a mesh of one element has no nearest other centre: the histogram raises *)
Theorem C98_single_element_refused m e vol d : m_t m = [e] -> (2 <= List.length (m_p m))%nat ->
  nodes_and_elements_stats m vol d = Err ValueError.
Proof.
  intros Ht Hp. unfold nodes_and_elements_stats. destruct (nearest_ok _ Hp) as (l & -> & _). cbn [bind].
  unfold element_centers. rewrite Ht. cbn [map]. now rewrite nearest_single.
Qed.

(* when it succeeds: two nodes, two elements and element sets inside the mesh suffice *)
Theorem C98_succeeds m vol d : (2 <= List.length (m_p m))%nat -> (2 <= List.length (m_t m))%nat ->
  (forall i, In i (d_design d) \/ In i (olist (d_dirichlet d)) \/ In i (olist (d_neumann d)) -> (i < List.length vol)%nat) ->
  exists s, nodes_and_elements_stats m vol d = Ok s.
Proof.
  intros Hp Ht Hi. unfold nodes_and_elements_stats. destruct (nearest_ok _ Hp) as (l & -> & _). cbn [bind].
  destruct (nearest_ok (element_centers m)) as (l' & -> & _); [unfold element_centers; now rewrite map_length|]. cbn [bind].
  rewrite (vol_some_ok vol (d_design d)) by auto. cbn [bind].
  assert (V : forall o, (forall i, In i (olist o) -> (i < List.length vol)%nat) -> exists x, volume_at vol o = Ok x).
  { intros [l0|] Hl; [|eexists; reflexivity]. rewrite vol_some_ok by exact Hl. eauto. }
  destruct (V (d_dirichlet d)) as [x ->]; [auto|]. cbn [bind]. destruct (V (d_neumann d)) as [y ->]; [auto|]. cbn [bind]. eauto.
Qed.
Theorem C98_design_outside_mesh_refused m vol d i : (2 <= List.length (m_p m))%nat -> (2 <= List.length (m_t m))%nat ->
  In i (d_design d) -> (List.length vol <= i)%nat -> nodes_and_elements_stats m vol d = Err IndexError.
Proof.
  intros Hp Ht Hi Hle. unfold nodes_and_elements_stats. destruct (nearest_ok _ Hp) as (l & -> & _). cbn [bind].
  destruct (nearest_ok (element_centers m)) as (l' & -> & _); [unfold element_centers; now rewrite map_length|]. cbn [bind].
  cbn [volume_at]. destruct (forallb _ (d_design d)) eqn:F; [|reflexivity]. exfalso. rewrite forallb_forall in F.
  specialize (F i Hi). apply Nat.ltb_lt in F. lia.
Qed.

(* the bars: total volume, and the volumes of the supported, loaded and design elements -
   for the sets that are there *)
Theorem C98_bars_partial m vol d s : nodes_and_elements_stats m vol d = Ok s ->
  st_all s = rsum vol /\ st_design s = volume_of vol (d_design d) /\
  (forall l, d_dirichlet d = Some l -> st_dirichlet s = volume_of vol l) /\
  (forall l, d_neumann d = Some l -> st_force s = volume_of vol l).
Proof.
  intros H. destruct (stats_inv _ _ _ _ H) as (ln & le & _ & _ & _ & _ & E3 & E4 & E5 & E6).
  split; [exact E3|]. split; [now apply vol_some in E6|]. split; intros l El.
  - rewrite El in E4. now apply vol_some in E4. - rewrite El in E5. now apply vol_some in E5.
Qed.
(* refuted for the sets that are not there: without loaded (supported) elements the
   "force" ("dirichlet") bar shows the volume of the whole mesh *)
Theorem C98_absent_boundary_bar_refuted t ndofs dofs dirichlet neumann robin dr design d m vol s :
  from_nodes t ndofs dofs dirichlet neumann robin dr design = Ok d -> nodes_and_elements_stats m vol d = Ok s ->
  (neumann = None -> st_force s = st_all s) /\ (dirichlet = None -> st_dirichlet s = st_all s).
Proof.
  intros HB H. destruct (stats_inv _ _ _ _ H) as (ln & le & _ & _ & _ & _ & E3 & E4 & E5 & _). split.
  - intros ->. destruct (from_nodes_inv _ _ _ _ _ _ _ _ _ HB) as (_ & _ & _ & _ & _ & _ & _ & _ & [_ X]).
    rewrite (X eq_refl) in E5. cbn in E5. injection E5 as E5. congruence.
  - intros ->. unfold from_nodes in HB. cbn [dirichlet_elems bind] in HB.
    destruct (loaded_elems t neumann) as [ne|]; cbn [bind] in HB; [|discriminate].
    destruct (loaded_elems t robin) as [re|]; cbn [bind] in HB; [|discriminate].
    match type of HB with bind ?x _ = _ => destruct x as [ex|]; cbn [bind] in HB; [|discriminate] end.
    destruct (setdiff1d design ex); [discriminate|]. cbn [bind] in HB. injection HB as <-. cbn [d_dirichlet volume_at] in E4.
    injection E4 as E4. congruence.
Qed.

(* ---- the sets do not overlap ---- *)
Lemma rs_perm l l' : Permutation l l' -> rsum l = rsum l'.
Proof. induction 1; cbn [rsum fold_right]; try lra. all: unfold rsum in *; cbn [fold_right] in *; lra. Qed.
Lemma rsum_nth vol : rsum vol = rsum (map (fun i => nth i vol 0) (seq 0 (List.length vol))).
Proof.
  induction vol as [|x vol IH]; [reflexivity|]. cbn [List.length seq map]. rewrite <- seq_shift, map_map.
  change (rsum (x :: vol)) with (x + rsum vol). rewrite IH. reflexivity.
Qed.
Lemma sub_sum vol l : NoDup l -> (forall i, In i l -> (i < List.length vol)%nat) -> (forall i, 0 <= nth i vol 0) ->
  volume_of vol l <= rsum vol.
Proof.
  intros ND In_ NN. rewrite (rsum_nth vol). unfold volume_of.
  assert (P : Permutation l (filter (fun i => mem i l) (seq 0 (List.length vol)))).
  { apply NoDup_Permutation; [exact ND|apply NoDup_filter, seq_NoDup|]. intros i. rewrite filter_In, in_seq, mem_in. split.
    - intros Hi. split; [|exact Hi]. pose proof (In_ i Hi). lia. - tauto. }
  rewrite (rs_perm _ _ (Permutation_map (fun i => nth i vol 0) P)), rs_filter. apply rs_le. intros i _. destruct (mem i l); [lra|apply NN].
Qed.
Lemma from_nodes_neumann t ndofs dofs dirichlet neumann robin dr design d :
  from_nodes t ndofs dofs dirichlet neumann robin dr design = Ok d -> loaded_elems t neumann = Ok (d_neumann d).
Proof.
  unfold from_nodes. destruct (dirichlet_elems t dirichlet) as [de|]; cbn [bind]; [|discriminate].
  destruct (loaded_elems t neumann) as [ne|]; cbn [bind]; [|discriminate].
  destruct (loaded_elems t robin) as [re|]; cbn [bind]; [|discriminate].
  match goal with |- bind ?x _ = _ -> _ => destruct x as [ex|]; cbn [bind]; [|discriminate] end.
  destruct (setdiff1d design ex); [discriminate|].
  match goal with |- bind ?x _ = _ -> _ => destruct x as [dd|]; cbn [bind]; [|discriminate] end.
  intros H. injection H as <-. reflexivity.
Qed.
(* design and loaded volume together never exceed the total, when the design list given
   has no repetitions *)
Theorem C98_design_and_loaded_volume t ndofs dofs dirichlet neumann robin dr design d m vol s :
  from_nodes t ndofs dofs dirichlet neumann robin dr design = Ok d -> nodes_and_elements_stats m vol d = Ok s ->
  NoDup design -> (forall i, 0 <= nth i vol 0) ->
  st_design s <= st_all s /\ (neumann <> None -> st_design s + st_force s <= st_all s).
Proof.
  intros HB H ND NN. destruct (stats_inv _ _ _ _ H) as (ln & le & _ & _ & _ & _ & E3 & E4 & E5 & E6).
  destruct (from_nodes_inv _ _ _ _ _ _ _ _ _ HB) as ((f & Ef) & _ & _ & _ & Hd & Hn & _ & _ & Hnn).
  apply vol_some in E6. destruct E6 as [E6 R6]. rewrite E3, E6.
  assert (NDd : NoDup (d_design d)) by (rewrite Ef; now apply NoDup_filter).
  split; [now apply sub_sum|]. intros HN. destruct (d_neumann d) as [l|] eqn:El; [|exfalso; apply HN, Hnn; reflexivity].
  apply vol_some in E5. destruct E5 as [E5 R5]. rewrite E5.
  assert (NDl : NoDup l).
  { pose proof (from_nodes_neumann _ _ _ _ _ _ _ _ _ HB) as EL. rewrite El in EL.
    destruct (loaded_elems_ok _ _ _ EL) as [[_ X]|(a' & es & _ & X & Hes & _)]; [discriminate|]. injection X as ->. rewrite Hes.
    apply sorted_nodup, ebn_sorted. }
  assert (Dis : forall i, In i (d_design d) -> ~ In i l).
  { intros i Hi Hl. apply Hd in Hi. destruct Hi as [_ Hk]. apply Hk. left. apply Hn. exact Hl. }
  replace (volume_of vol (d_design d) + volume_of vol l) with (volume_of vol (d_design d ++ l)).
  - apply sub_sum; [|intros i Hi; apply in_app_iff in Hi; destruct Hi; auto|exact NN].
    clear -NDd NDl Dis. induction (d_design d) as [|a r IH]; [exact NDl|]. cbn [app]. apply NoDup_cons_iff in NDd.
    destruct NDd as [Na Nr]. constructor.
    + rewrite in_app_iff. intros [Hx|Hx]; [contradiction|]. apply (Dis a); [now left|exact Hx].
    + apply IH; [exact Nr|]. intros i Hi. apply Dis. now right.
  - unfold volume_of. rewrite map_app. clear. induction (map (fun i => nth i vol 0) (d_design d)) as [|x r IH]; cbn [app].
    + unfold rsum at 2. cbn [fold_right]. lra.
    + change (rsum (x :: r ++ map (fun i => nth i vol 0) l)) with (x + rsum (r ++ map (fun i => nth i vol 0) l)).
      change (rsum (x :: r)) with (x + rsum r). rewrite IH. lra.
Qed.
(* two tetrahedra, all supported by node 0: the figures are met; a repeated design
   element is counted twice, so the design bar can exceed the total *)
Definition ex_mesh : mesh3 := mkMesh [[0; 1; 2; 3]; [1; 2; 3; 4]]%nat [(0,0,0); (1,0,0); (0,1,0); (0,0,1); (1,1,1)].
Theorem C98_repeated_design_element_refuted : exists d s,
  from_nodes (m_t ex_mesh) 15 (fun l => l) (Some (Arr [0%nat])) (Some (Arr [4%nat])) None None [0; 0]%nat = Ok d /\
  nodes_and_elements_stats ex_mesh [1; 1 / 3] d = Ok s /\ st_all s = 4 / 3 /\ st_design s = 2 /\ st_force s = 1 / 3 /\ st_dirichlet s = 1.
Proof.
  eexists. destruct (C98_succeeds ex_mesh [1; 1 / 3] (mkDom 2 (Some [0%nat]) (Some [1%nat]) None [0; 0]%nat
    (setdiff1d (seq 0 15) [0%nat]) (elements_by_nodes (m_t ex_mesh) (setdiff1d (seq 0 15) [0%nat])) [1%nat] [0; 1]%nat)) as [s Hs].
  { cbn; lia. } { cbn; lia. } { cbn. intros i Hi. intuition lia. }
  exists s. split; [vm_compute; reflexivity|]. split; [exact Hs|].
  destruct (C98_bars_partial _ _ _ _ Hs) as (-> & -> & D & F). rewrite (D _ eq_refl), (F _ eq_refl).
  unfold volume_of. cbn [map nth d_design rsum fold_right]. repeat split; lra.
Qed.

(* scaling the task: the node distances are multiplied by |L|, the volumes stay *)
Lemma dist_scale L a b : dist3 (vscale L a) (vscale L b) = Rabs L * dist3 a b.
Proof.
  destruct a as [[x y] z], b as [[u v] w]. unfold vscale, vx, vy, vz, dist3. cbn [fst snd].
  replace ((x * L - u * L) ^ 2 + (y * L - v * L) ^ 2 + (z * L - w * L) ^ 2) with (Rsqr L * ((x - u) ^ 2 + (y - v) ^ 2 + (z - w) ^ 2))
    by (unfold Rsqr; ring).
  pose proof (pow2_ge_0 (x - u)). pose proof (pow2_ge_0 (y - v)). pose proof (pow2_ge_0 (z - w)).
  rewrite sqrt_mult; [|apply Rle_0_sqr|lra]. now rewrite sqrt_Rsqr_abs.
Qed.
Theorem C98_scaled_task L F k k' d s s' : scale L F k = Ok k' -> m_p (et_mesh k) <> [] ->
  nodes_and_elements_stats (et_mesh k) (et_vol k) d = Ok s -> nodes_and_elements_stats (et_mesh k') (et_vol k') d = Ok s' ->
  (forall ln ln', nearest_list (m_p (et_mesh k)) ln -> nearest_list (m_p (et_mesh k')) ln' -> ln' = map (Rmult (Rabs L)) ln) /\
  st_all s' = st_all s /\ st_design s' = st_design s /\ st_dirichlet s' = st_dirichlet s /\ st_force s' = st_force s.
Proof.
  intros HS NP H H'.
  assert (EV : et_vol k' = et_vol k /\ m_p (et_mesh k') = map (vscale L) (m_p (et_mesh k))).
  { unfold scale in HS. destruct (et_loads k) as [[|a [|b r]]|[|a [|b r]]]; try discriminate; injection HS as <-; split; reflexivity. }
  destruct EV as [EV EP]. split.
  - intros ln ln' [L1 N1] [L2 N2]. rewrite EP, map_length in L2. apply (nth_ext _ _ 0 0); [rewrite map_length; congruence|].
    intros i Hi. rewrite (nth_indep (map _ ln) 0 (Rabs L * 0)) by (rewrite map_length; congruence). rewrite map_nth.
    rewrite L2 in Hi. apply (nearest_unique (m_p (et_mesh k')) i); [apply N2; now rewrite EP, map_length|].
    destruct (N1 i Hi) as [(j & Hj & Hji & Ej) M]. rewrite EP.
    assert (D : forall j, (j < List.length (m_p (et_mesh k)))%nat -> dist3 (nth i (map (vscale L) (m_p (et_mesh k))) (0, 0, 0))
       (nth j (map (vscale L) (m_p (et_mesh k))) (0, 0, 0)) = Rabs L * dist3 (nth i (m_p (et_mesh k)) (0, 0, 0)) (nth j (m_p (et_mesh k)) (0, 0, 0))).
    { intros j' Hj'. rewrite !(nth_indep (map (vscale L) (m_p (et_mesh k))) (0, 0, 0) (vscale L (0, 0, 0))) by (now rewrite map_length).
      rewrite !map_nth. apply dist_scale. }
    split.
    + exists j. rewrite map_length. split; [exact Hj|]. split; [exact Hji|]. rewrite (D j Hj), Ej. reflexivity.
    + intros j' Hj' Hne. rewrite map_length in Hj'. rewrite (D j' Hj'). apply Rmult_le_compat_l; [apply Rabs_pos|now apply M].
  - destruct (stats_inv _ _ _ _ H) as (ln & le & _ & _ & _ & _ & E3 & E4 & E5 & E6).
    destruct (stats_inv _ _ _ _ H') as (ln' & le' & _ & _ & _ & _ & E3' & E4' & E5' & E6'). rewrite EV in *.
    rewrite E4 in E4'. rewrite E5 in E5'. rewrite E6 in E6'. injection E4' as ->. injection E5' as ->. injection E6' as ->.
    repeat split. congruence.
Qed.

(* ---- accessors ---- *)
Theorem C98_accessors k v : get_force_elements (set_force_elements k v) = v /\
  get_dirichlet_force_elements (set_dirichlet_force_elements k v) = v /\
  lf_neumann_nodes (set_force_nodes k v) = v /\
  get_force_elements (set_force_nodes k v) = get_force_elements k /\
  get_force_elements (set_dirichlet_force_elements k v) = get_force_elements k /\
  get_dirichlet_force_elements (set_force_elements k v) = get_dirichlet_force_elements k /\
  get_dirichlet_force_elements (set_force_nodes k v) = get_dirichlet_force_elements k /\
  lf_neumann_nodes (set_force_elements k v) = lf_neumann_nodes k.
Proof. destruct k. repeat split. Qed.
(* force_nodes does not return the nodes: reading it gives the loaded elements, whatever
   was assigned to it; force_elements_all always raises *)
Theorem C98_force_nodes_refuted k v : get_force_nodes (set_force_nodes k v) = get_force_elements k /\
  (get_force_nodes (set_force_nodes k v) = v <-> v = lf_neumann_elements k) /\
  get_force_elements_all k = Err AttributeError.
Proof. destruct k. cbn. repeat split; congruence. Qed.

(* ---- surface fluxes ---- *)
Definition regions (a : facets_arg) : list (list nat) := match a with FOne ids => [ids] | FMany l => l end.
Definition fluxes (a : value_arg) : list R := match a with VOne q => [q] | VMany l => l end.
Definition vectors (o : flux_out) : list (nat -> R) := match o with Bare h => [h] | Vectors l => l end.
Lemma asn_eq shape fa va : assemble_surface_neumann shape fa va =
  if Nat.eqb (List.length (regions fa)) (List.length (fluxes va)) then
    match zipwith (flux_vector shape) (regions fa) (fluxes va) with [h] => Ok (Bare h) | l => Ok (Vectors l) end else Err ValueError.
Proof. reflexivity. Qed.
Lemma zipwith_nth {A B C} (f : A -> B -> C) la lb i a b c : List.length la = List.length lb -> (i < List.length la)%nat ->
  nth i (zipwith f la lb) c = f (nth i la a) (nth i lb b).
Proof.
  revert lb i. induction la as [|x la IH]; intros [|y lb] i L Hi; cbn in *; try lia; try discriminate.
  destruct i as [|i]; [reflexivity|]. apply IH; lia.
Qed.
Lemma zipwith_len {A B C} (f : A -> B -> C) la lb : List.length la = List.length lb -> List.length (zipwith f la lb) = List.length la.
Proof. revert lb. induction la as [|x la IH]; intros [|y lb] L; cbn in *; try discriminate; [reflexivity|]. f_equal. apply IH. lia. Qed.
(* one flux vector per region: vector i spreads flux i over region i - zero at nodes
   outside the region, total heat = flux times area -, and a single region is returned
   bare; a different number of values and regions is refused *)
Theorem C98_surface_fluxes area shape N fa va :
  (List.length (regions fa) <> List.length (fluxes va) -> assemble_surface_neumann shape fa va = Err ValueError) /\
  (List.length (regions fa) = List.length (fluxes va) ->
   exists o, assemble_surface_neumann shape fa va = Ok o /\ List.length (vectors o) = List.length (regions fa) /\
     ((exists h, o = Bare h) <-> List.length (regions fa) = 1%nat) /\
     forall i, (i < List.length (regions fa))%nat ->
       (Forall (Tags_props.facet_ok area shape N) (nth i (regions fa) []) ->
        rsum (map (nth i (vectors o) (fun _ => 0)) (seq 0 N)) = nth i (fluxes va) 0 * rsum (map area (nth i (regions fa) []))) /\
       (forall n, (forall f w, In f (nth i (regions fa) []) -> ~ In (n, w) (shape f)) -> nth i (vectors o) (fun _ => 0) n = 0)).
Proof.
  rewrite asn_eq. split; intros L.
  - apply Nat.eqb_neq in L. now rewrite L.
  - pose proof L as L'. apply Nat.eqb_eq in L'. rewrite L'.
    set (z := zipwith (flux_vector shape) (regions fa) (fluxes va)).
    assert (Lz : List.length z = List.length (regions fa)) by now apply zipwith_len.
    assert (EX : exists o, match z with [h] => Ok (Bare h) | l => Ok (Vectors l) end = Ok o /\ vectors o = z /\
       ((exists h, o = Bare h) <-> List.length z = 1%nat)).
    { destruct z as [|a [|b r]]; eexists; (split; [reflexivity|]); (split; [reflexivity|]).
      - split; [intros [h Hh]; discriminate|discriminate].
      - split; [reflexivity|]. intros _. eauto.
      - split; [intros [h Hh]; discriminate|discriminate]. }
    destruct EX as (o & Eo & Ev & Eb). exists o. split; [clearbody z; destruct z as [|z1 [|z2 zr]]; exact Eo|]. rewrite Ev. split; [exact Lz|].
    split; [now rewrite <- Lz|]. intros i Hi. unfold z.
    rewrite (zipwith_nth (flux_vector shape) (regions fa) (fluxes va) i [] 0 (fun _ => 0) L Hi). unfold flux_vector. split.
    + intros HF. rewrite rs_scal. f_equal. exact (Tags_props.nodal_total area shape N _ HF).
    + intros n Hn. replace (Tags_model.nodal_integral shape (nth i (regions fa) []) n) with 0; [ring|].
      unfold Tags_model.nodal_integral. symmetry. apply rs_zero. intros f Hf. apply rs_zero. intros [m w] Hm. cbn [fst snd].
      destruct (Nat.eqb_spec m n) as [->|]; [|reflexivity]. exfalso. exact (Hn f w Hf Hm).
Qed.
