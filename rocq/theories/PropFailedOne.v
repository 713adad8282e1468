(** Property C169, for a file that holds data: a failed commit of one operation is never half there. *)
From Verif Require Import Util PageModel PageSpec PageProofs PageOps TxnModel CursorModel TreeModel TreeSpec PropPage TreeProofs TreeOps TreeSplit TreePut TreeShape TreeOrder TxnInv DbModel SysModel DbSpec DbProofs DbCommit PropCommit PairInv PropPair PropFailedCommit.
Local Open Scope N_scope.

(** ** Specification *)
(** all keys read as in [E], or all as in the transaction [t] of [E1] *)
Definition old_or_new (E E1 : env) (t : txn) (E2 : env) : Prop :=
  (forall k, blen k < 65536 -> read_now E2 k = read_now E k) \/ (forall k, blen k < 65536 -> read_now E2 k = db_get E1 t k).

(** ** Proof *)
Lemma tail_all : forall l d, crash_tail d l (repeat true (length l)) = fold_left io_apply l d.
Proof. induction l as [|o l IH]; intro d; cbn [length repeat crash_tail fold_left]; auto. Qed.
Lemma crash_all d ops i : exists keep, crash_disk d ops i keep = fold_left io_apply (firstn i ops) d.
Proof.
  unfold crash_disk. destruct (after_sync (firstn i ops)) as [s tl] eqn:A. exists (repeat true (length tl)). rewrite tail_all, <- fold_left_app, <- (after_sync_parts _ _ _ A). reflexivity.
Qed.
Lemma same_file_reads E E' k : e_file E' = e_file E -> live_meta E' = live_meta E -> read_now E' k = read_now E k.
Proof.
  intros F L. unfold read_now, reader. rewrite L. apply db_get_view; [|reflexivity]. intro q. unfold get_page. cbn [t_rdonly]. rewrite F. reflexivity.
Qed.
Lemma cut_meta_file d W m b : d_file (fold_left io_apply (W ++ [Sync; WMeta b m]) d) = d_file (fold_left io_apply (W ++ [Sync]) d).
Proof. rewrite !fold_left_app. destruct b; reflexivity. Qed.

(** ** C169, one operation *)
(** The commit of a single put that fits, or of a single deletion, returns an error: this process
    reads all keys as before or all as in the transaction, and so does the next one. *)
Theorem failed_operation_partial : forall E E1 t o t' i E2 e,
  settled E -> healthy E -> file_ok (e_file E) -> begin_write E = Some (E1, t) ->
  fit_ops E1 t [o] -> do_op E1 t o = Ret tt t' -> t_last t + 1 < 2 ^ 64 ->
  N.of_nat (length (t_freed t')) < 8000 -> free_room E1 t' ->
  db_commit E1 t' (Some i) = (E2, Err e) ->
  old_or_new E E1 t' E2 /\ exists E3, env_open (disk_of E2) = Ok E3 /\ old_or_new E E1 t' E3.
Proof.
  intros E E1 t o t' i E2 e S HH FO B FI X Hl Hn FR H. pose proof (begin_fields _ _ _ B) as (EE & _).
  assert (DE : disk_of E1 = disk_of E) by (subst E1; reflexivity). assert (LE : live_meta E1 = live_meta E) by (subst E1; reflexivity).
  assert (S1 : settled E1) by (subst E1; exact S).
  unfold db_commit in H. destruct (t_dirty t') as [|d0 ds] eqn:HD; [discriminate|]. destruct (populate_free_db page_alloc E1 t') as [fr t1|e1 t1| |] eqn:P; try discriminate.
  2: { injection H as <- _. split.
       - left. intros k _. apply read_now_same; [exact DE|subst E1; reflexivity].
       - destruct (reopen_mix E1 (disk_of E1) S1 (fun b => eq_refl)) as (E3 & O & LM & F). exists E3. split; [exact O|]. left. intros k _. apply same_file_reads; [rewrite F, DE; reflexivity|congruence]. }
  destruct (over_meta t1) eqn:OM; [discriminate|]. cbv zeta in H. destruct (Nat.ltb i (length (commit_ios E1 t1 fr))) eqn:LI; [|discriminate]. apply Nat.ltb_lt in LI.
  injection H as <- _.
  assert (LN : length (commit_ios E1 t1 fr) = (length (t_dirty t1) + 3)%nat) by (rewrite ios_eq, app_length; unfold page_ios; rewrite map_length; reflexivity).
  (* the next process *)
  assert (NX : forall j, exists E3, env_open (fold_left io_apply (firstn j (commit_ios E1 t1 fr)) (disk_of E1)) = Ok E3 /\ old_or_new E E1 t' E3).
  { intro j. destruct (crash_all (disk_of E1) (commit_ios E1 t1 fr) j) as (keep & <-). rewrite DE.
    eapply (single_operation_crash_atomic_partial E E1 t o t' _ fr t1 j keep); eauto; [congruence|]. unfold db_commit. rewrite HD, P, OM. reflexivity. }
  (* this process, which reads through the old meta page *)
  assert (TH : forall j Ex, (j <= length (t_dirty t1) + 1)%nat -> e_file Ex = d_file (fold_left io_apply (firstn j (commit_ios E1 t1 fr)) (disk_of E1)) -> live_meta Ex = live_meta E1 -> old_or_new E E1 t' Ex).
  { intros j Ex Lj FE LM. destruct (NX j) as (E3 & O & ON). destruct (reopen_mix E1 _ S1 (fun b => prefix_meta E1 t1 fr j b Lj)) as (E3' & O' & LM' & F'). rewrite O in O'. injection O' as <-.
    assert (RR : forall k, read_now Ex k = read_now E3 k) by (intro k; apply same_file_reads; congruence).
    destruct ON as [ON|ON]; [left|right]; intros k Hk; rewrite RR; auto. }
  set (D := fold_left io_apply (firstn i _) _). set (Ex := mkEnv (d_file D) _ _ _ _ _).
  assert (DX : disk_of Ex = D) by (unfold disk_of, Ex; cbn [e_file e_meta0 e_meta1]; apply disk_eta).
  assert (LX : live_meta Ex = live_meta E1).
  { rewrite !live_meta_at, DX. change (e_live1 Ex) with (e_live1 E1). apply ios_other. apply Forall_forall. intros q Hq. apply firstn_In in Hq.
    revert q Hq. apply Forall_forall. apply ios_touch. }
  split; [|rewrite DX; apply NX].
  destruct (Nat.le_gt_cases i (length (t_dirty t1) + 1)) as [LI'|GT]; [exact (TH i Ex LI' eq_refl LX)|].
  apply (TH (length (t_dirty t1) + 1)%nat Ex); [lia| |exact LX]. change (e_file Ex) with (d_file D). unfold D. rewrite ios_eq.
  assert (LP : length (page_ios t1) = length (t_dirty t1)) by (unfold page_ios; apply map_length).
  replace i with (length (page_ios t1) + 2)%nat by lia. rewrite <- LP, !firstn_app_2. cbn [firstn]. apply cut_meta_file.
Qed.
Print Assumptions failed_operation_partial.

(** ** A concrete case *)
(** [single_operation_case] (C15): the second value of a key of a file with three pairs.  Its
    commit can fail. *)
Example failed_operation_case :
  let t' := ret_txn (do_op (set_locked E3 true) (begun E3) (Put [97] (fillb 1400 2))) in
  settled E3 /\ healthy E3 /\ fit_ops (set_locked E3 true) (begun E3) [Put [97] (fillb 1400 2)] /\ free_room (set_locked E3 true) t' /\
  is_ok (snd (db_commit (set_locked E3 true) t' (Some 1%nat))) = false.
Proof.
  cbv zeta. destruct single_operation_case as (A & B & _ & _ & C & _ & D & _). split; [exact A|]. split; [exact B|]. split; [exact C|]. split; [exact D|]. vm_compute. reflexivity.
Qed.
