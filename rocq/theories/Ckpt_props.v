(* Property theorems about checkpoint files and restarts: C31-C33. *)
From Coq Require Import Ascii Permutation.
From Verif Require Import Base Driver_model Driver_spec Driver_proofs Driver_proofs2 Driver_props
  Ckpt_model Ckpt_proofs Session_spec Session_proofs.
Open Scope Z_scope.
Open Scope list_scope.

(* C32 *)
Theorem C32_name_round_trip_partial : forall i, 0 <= i < 10 ^ 6 -> match_iter (ckpt_name i) = Some i.
Proof. exact match_ckpt. Qed.
Print Assumptions C32_name_round_trip_partial.
Theorem C32_names_distinct : forall i j, 0 <= i -> 0 <= j -> ckpt_name i = ckpt_name j -> i = j.
Proof. exact ckpt_inj. Qed.
Print Assumptions C32_names_distinct.
(* What is missing: from iteration 1000000 on the name does not parse. *)
Theorem C32_seven_digits_not_recognised_refuted : forall i, 10 ^ 6 <= i -> match_iter (ckpt_name i) = None.
Proof. exact match_ckpt_big. Qed.
Print Assumptions C32_seven_digits_not_recognised_refuted.
Example C32_instance : ckpt_name 42 = lit "000042-rho.npz" /\ match_iter (lit "000042-rho.npz") = Some 42 /\
  ckpt_name 1000000 = lit "1000000-rho.npz" /\ match_iter (lit "1000000-rho.npz") = None.
Proof. vm_compute. auto. Qed.

(* C31 *)
(* the search itself, for every listing *)
Theorem C31_find_latest_is_the_newest : forall ls m f, find_latest ls = (m, f) ->
  match f with
  | Some g => In g ls /\ match_iter g = Some m /\
              forall h i, In h ls -> match_iter h = Some i -> i <= m
  | None => m = -1 /\ forall h i, In h ls -> match_iter h <> Some i
  end.
Proof. intros ls m f H. pose proof (find_latest_found ls) as Hf. rewrite H in Hf. exact Hf. Qed.
Print Assumptions C31_find_latest_is_the_newest.
Theorem C31_listing_order_irrelevant : forall l1 l2, Permutation l1 l2 ->
  fst (find_latest l1) = fst (find_latest l2).
Proof. exact find_latest_num_perm. Qed.
Print Assumptions C31_listing_order_irrelevant.

(* Any number of interrupted runs one after the other, each killed in an
   arbitrary iteration: the next restart, for every listing order, loads the
   newest checkpoint, which holds exactly the design densities of iteration j
   as executed, continues at j+1, and the last executed iteration k satisfies
   k < j + max_iters // record_times. *)
Theorem C31_restart_after_any_crashes_partial :
  forall (S A : Type) (rho_of : S -> A) rho_change kkt cfg cks b trace cks' k s_k,
  1 <= record_times cfg <= max_iters cfg -> max_iters cfg < 10 ^ 6 ->
  (check_convergence cfg = true -> forall s : S, kkt s <> KNone) ->
  sessions rho_of rho_change kkt cfg cks ->
  epoch rho_of rho_change kkt cfg cks b trace cks' ->
  (exists pre, trace = pre ++ [(k, s_k)]) ->
  forall ls, Permutation ls (map fst (data_of rho_of cks')) ->
  exists j s_j, restart_init (-1) ls (data_of rho_of cks') = Ok (rho_of s_j, j + 1) /\
    In (j, s_j) cks' /\ (forall e, In e cks' -> fst e <= j) /\
    j <= k < j + max_iters cfg / record_times cfg /\
    (In (j, s_j) trace \/ In (j, s_j) cks /\ j = b - 1).
Proof.
  intros S A rho_of rc kkt cfg cks b trace cks' k s_k Hrt Hmx Hk Hs He (pre & Htr) ls HPm.
  assert (1 <= max_iters cfg / record_times cfg) by (apply Z.div_le_lower_bound; lia).
  eapply epoch_restart; eauto; try lia. eapply sessions_good; eauto; lia.
Qed.
Print Assumptions C31_restart_after_any_crashes_partial.

(* restart_from = k > 0 loads exactly that checkpoint, or fails *)
Theorem C31_restart_from_explicit : forall (A : Type) k ls (cks : list (Z * A)),
  0 < k -> Forall (fun e => 0 <= fst e) cks ->
  restart_init k ls (save_all cks []) =
  match find (fun e => fst e =? k) (rev cks) with
  | Some e => Ok (snd e, k + 1)
  | None => Err FileNotFoundError
  end.
Proof.
  intros A k ls cks Hk HF. unfold restart_init. destruct (Z.ltb_spec 0 k); [|lia].
  unfold np_load. rewrite lookup_save_all by (auto; lia).
  destruct (find _ _) as [e|]; reflexivity.
Qed.
Print Assumptions C31_restart_from_explicit.

(* What is missing in C31: a crash while the checkpoint itself is being
   written.  The file name exists already, so the truncated file is the newest
   and every restart fails, although complete older checkpoints exist. *)
Theorem C31_torn_checkpoint_blocks_restart_refuted :
  forall (A : Type) (cks : list (Z * A)) k ls,
  Forall (fun e => 0 <= fst e < k) cks -> 0 <= k < 10 ^ 6 ->
  let d := write (ckpt_name k) Torn (save_all cks []) in
  Permutation ls (map fst d) -> restart_init (-1) ls d = Err BadZipFile.
Proof.
  intros A cks k ls HF Hk d HP. rewrite Forall_forall in HF.
  pose proof (find_latest_found ls) as Hf. unfold found in Hf.
  unfold restart_init. change (0 <? -1) with false. cbv iota.
  assert (Hnames : forall f, In f ls <-> f = ckpt_name k \/ exists e, In e cks /\ f = ckpt_name (fst e)).
  { intros f. assert (H1 : In f ls <-> In f (map fst d)).
    { split; [apply (Permutation_in _ HP)|apply (Permutation_in _ (Permutation_sym HP))]. }
    rewrite H1, <- lookup_in. unfold d. rewrite lookup_write.
    destruct (name_eqb f (ckpt_name k)) eqn:E.
    - apply name_eqb_true in E. split; eauto.
    - rewrite lookup_in, names_save_all. simpl. split.
      + intros [[]|H]; auto.
      + intros [->|H]; auto. assert (name_eqb (ckpt_name k) (ckpt_name k) = true) by now apply name_eqb_true. congruence. }
  assert (Hkm : match_iter (ckpt_name k) = Some k) by (apply match_ckpt; lia).
  destruct (find_latest ls) as [m [f|]]; cbn [fst snd] in Hf.
  - destruct Hf as (Hin & Hm & Hmax).
    assert (Hmk : k <= m) by (apply (Hmax (ckpt_name k)); auto; apply Hnames; auto).
    apply Hnames in Hin. destruct Hin as [->|(e & He & ->)].
    + unfold np_load, d. rewrite lookup_write.
      assert (name_eqb (ckpt_name k) (ckpt_name k) = true) as -> by now apply name_eqb_true. reflexivity.
    + exfalso. specialize (HF _ He). rewrite match_ckpt in Hm by lia. injection Hm as Hm. lia.
  - exfalso. destruct Hf as (_ & Hno). apply (Hno (ckpt_name k) k); auto. apply Hnames. auto.
Qed.
Print Assumptions C31_torn_checkpoint_blocks_restart_refuted.

(* ... and the search accepts any file whose name merely begins like a
   checkpoint, so a backup copy or a seven-digit file can be taken for one *)
Theorem C31_backup_file_taken_for_checkpoint_refuted :
  find_latest [lit "000007-rho.npz.bak"; lit "000007-rho.npz"] = (7, Some (lit "000007-rho.npz.bak")).
Proof. vm_compute. reflexivity. Qed.
Print Assumptions C31_backup_file_taken_for_checkpoint_refuted.
Theorem C31_empty_directory_restart_raises : forall (A : Type) ls (d : dir A),
  (forall f i, In f ls -> match_iter f <> Some i) -> restart_init (-1) ls d = Err TypeError.
Proof.
  intros A ls d H. unfold restart_init. change (0 <? -1) with false. cbv iota.
  pose proof (find_latest_found ls) as Hf. unfold found in Hf.
  destruct (find_latest ls) as [m [f|]]; [|reflexivity]. exfalso. cbn [fst snd] in Hf.
  destruct Hf as (Hin & Hm & _). eapply H; eauto.
Qed.
Print Assumptions C31_empty_directory_restart_raises.

(* a run of 10 iterations (period 2) killed in iteration 8: iteration 7 is
   lost, the restart continues with 7 from the densities of iteration 6 *)
Example C31_instance :
  let o := fst (optimize (toy 8) toy_change (fun _ => KVal 0) (Ok ([], 1)) (toy_cfg 10 5 false) (opt_new [])) in
  map fst (o_trace o) = [1;2;3;4;5;6;7] /\ map fst (o_disk o) = [1;2;4;6] /\
  restart_init (-1) (rev (map fst (data_of (fun s => s) (o_disk o)))) (data_of (fun s => s) (o_disk o))
    = Ok ([1;2;3;4;5;6], 7).
Proof. vm_compute. auto. Qed.
Example C31_instance_epoch :
  let o := fst (optimize (toy 8) toy_change (fun _ => KVal 0) (Ok ([], 1)) (toy_cfg 10 5 false) (opt_new [])) in
  epoch (fun s => s) toy_change (fun _ => KVal 0) (toy_cfg 10 5 false) [] 1 (o_trace o) (o_disk o).
Proof.
  intros o. constructor. exists (toy 8), (Ok ([], 1)), [], [], COptimize.
  exists (opt_new []), [], o, (Some RuntimeError). split; [reflexivity|]. split; [now left|]. split; [reflexivity|].
  split; [constructor|]. split; [vm_compute; reflexivity|]. split; reflexivity.
Qed.

(* C33 *)
(* restart=False keeps data/ (only mesh_rho/ is deleted, common_density.py:
   553-556).  [old]: checkpoints left there by an earlier run; [new]: those
   written by this run so far. *)
Theorem C33_resumes_own_checkpoint_partial :
  forall (A : Type) (old new : list (Z * A)) ls m,
  Forall (fun e => 0 <= fst e < 10 ^ 6) old -> Forall (fun e => 0 <= fst e < 10 ^ 6) new ->
  (exists a, In (m, a) new) -> (forall e, In e old -> fst e <= m) -> (forall e, In e new -> fst e <= m) ->
  Permutation ls (map fst (save_all new (save_all old []))) ->
  exists a, restart_init (-1) ls (save_all new (save_all old [])) = Ok (a, m + 1) /\ In (m, a) new.
Proof.
  intros A old new ls m Ho Hn (a0 & Hm) Hom Hnm HP. rewrite <- save_all_app in *.
  destruct (restart_newest (old ++ new) ls) as (m' & a & Hr & Hfind & Hin & Hle).
  - intros Hbad. apply app_eq_nil in Hbad. destruct Hbad as (_ & ->). easy.
  - apply Forall_app. split; auto.
  - exact HP.
  - assert (m' = m).
    { assert (m <= m') by (apply (Hle (m, a0)); apply in_or_app; auto).
      assert (m' <= m); [|lia]. apply in_app_or in Hin. destruct Hin as [Hin|Hin]; [apply (Hom _ Hin)|apply (Hnm _ Hin)]. }
    subst m'. exists a. split; auto.
    rewrite rev_app_distr in Hfind.
    assert (Hgen : forall l1 l2 : list (Z * A), (exists x, In x l1 /\ fst x = m) ->
      find (fun e => fst e =? m) (l1 ++ l2) = Some (m, a) -> In (m, a) l1).
    { clear. induction l1 as [|x l1 IH]; intros l2 (y & Hy & Hym) H; [easy|]. simpl in H.
      destruct (Z.eqb_spec (fst x) m).
      - injection H as ->. now left.
      - right. apply (IH l2); auto. destruct Hy as [->|Hy]; [easy|]. eauto. }
    apply in_rev. apply (Hgen _ _ (ex_intro _ (m, a0) (conj (proj1 (in_rev _ _) Hm) eq_refl)) Hfind).
Qed.
Print Assumptions C33_resumes_own_checkpoint_partial.

(* In general false: whenever the earlier run had got further than this one
   has, the restart resumes the earlier run. *)
Theorem C33_stale_checkpoint_wins_refuted :
  forall (A : Type) (old new : list (Z * A)) ls m,
  Forall (fun e => 0 <= fst e < 10 ^ 6) old -> Forall (fun e => 0 <= fst e < m) new ->
  (exists a, In (m, a) old) -> (forall e, In e old -> fst e <= m) ->
  Permutation ls (map fst (save_all new (save_all old []))) ->
  exists a, restart_init (-1) ls (save_all new (save_all old [])) = Ok (a, m + 1) /\ In (m, a) old.
Proof.
  intros A old new ls m Ho Hn (a0 & Hm) Hom HP. rewrite <- save_all_app in *.
  rewrite Forall_forall in Ho, Hn.
  destruct (restart_newest (old ++ new) ls) as (m' & a & Hr & Hfind & Hin & Hle).
  - intros Hbad. apply app_eq_nil in Hbad. destruct Hbad as (-> & _). easy.
  - apply Forall_forall. intros e He. apply in_app_or in He. unfold small. destruct He as [He|He]; [now apply Ho|].
    specialize (Hn _ He). specialize (Ho _ Hm). simpl in Ho. lia.
  - exact HP.
  - assert (m <= m') by (apply (Hle (m, a0)); apply in_or_app; auto).
    apply in_app_or in Hin. destruct Hin as [Hin|Hin].
    + assert (m' = m) by (specialize (Hom _ Hin); simpl in Hom; lia). subst m'. eauto.
    + specialize (Hn _ Hin). simpl in Hn. lia.
Qed.
Print Assumptions C33_stale_checkpoint_wins_refuted.
Example C33_instance : (* first run reached 200; the second was killed at 40 *)
  let d := save_all [(1, 10); (20, 11); (40, 12)] (save_all [(1, 0); (100, 1); (200, 2)] []) in
  restart_init (-1) (map fst d) d = Ok (2, 201).
Proof. vm_compute. reflexivity. Qed.
