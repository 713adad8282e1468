(** Properties C07 to C12 and C22: get, put, del and page allocation inside one
    transaction. *)
From Verif Require Import Util PageModel PageSpec PageOps TxnModel CursorModel TreeModel TreeSpec TreeProofs TreeOps TreeSplit TreePut TreeShape DbModel.
Local Open Scope N_scope.

(** ** A concrete starting point: the first write transaction of a new database *)
Definition first_txn : txn := match begin_write env_create with Some (_, t) => t | None => mkTxn true 0 0 0 [] 0 [] end.
Definition fill (n x : N) : bytes := repeat x (N.to_nat n).
Definition after (o : out unit) : txn := match o with Ret _ t => t | Fail _ t => t | _ => first_txn end.
Definition code {T} (o : out T) : option (option status) :=
  match o with Ret _ _ => Some None | Fail e _ => Some (Some e) | _ => None end.
Lemma ret_after (o : out unit) : code o = Some None -> o = Ret tt (after o).
Proof. destruct o as [[] ?| | |]; cbn; try discriminate. reflexivity. Qed.

Lemma fail_after (o : out unit) e : code o = Some (Some e) -> o = Fail e (after o).
Proof. destruct o; cbn; try discriminate. congruence. Qed.

(** ** get reads the pairs of the tree *)
Theorem get_reads_tree : forall b E t kvs, txn_holds b 32 E t kvs -> reads E t (fun k => lookup k kvs).
Proof. exact holds_reads. Qed.
Print Assumptions get_reads_tree.

(** ** C07 put is a map update *)
(** Without a split: on any tree of the right shape and whatever the Free DB holds,
    put succeeds (unless it refuses with EEXIST, see C10) and changes exactly the
    binding of [k]. *)
Theorem put_without_split_correct : forall E t k v,
  leaf_size k v < 65536 -> shaped E t -> t_root t <> 0 -> fits E t k v ->
  (leaf_is_dirty E t k /\ (exists v0, db_get E t k = Ok v0) /\ db_put E t k v = Fail EEXIST t) \/
  (~ (leaf_is_dirty E t k /\ (exists v0, db_get E t k = Ok v0)) /\
   exists t', db_put E t k v = Ret tt t' /\ shaped E t' /\
   forall k', blen k' < 65536 -> db_get E t' k' = if key_dec k' k then Ok v else db_get E t k').
Proof.
  intros E t k v Hs HS Hnz Hf. destruct (db_put_shape page_alloc E t k v Hs HS Hnz Hf) as [H|(H & t' & A & B & C & _ & D)]; [left; auto|right].
  split; auto. exists t'. auto.
Qed.
Print Assumptions put_without_split_correct.

(** With splits up to the root.  Missing for the full claim: [clean_put] (no page that
    must be split is unclean, and the key is not below the root's first separator)
    and an empty Free DB. *)
Theorem put_map_update_partial : forall E t kvs k v t',
  txn_holds true 32 E t kvs -> t_free_root t = 0 -> 1 <= t_last t -> t_last t + 40 < 2 ^ 64 ->
  leaf_size k v < 65536 -> t_root t = 0 \/ clean_put E t k v ->
  db_put E t k v = Ret tt t' ->
  db_get E t' k = Ok v /\
  (forall k', blen k' < 65536 -> k' <> k -> db_get E t' k' = db_get E t k') /\
  exists kvs', txn_holds true 32 E t' kvs' /\ t_free_root t' = 0.
Proof.
  intros E t kvs k v t' HT HQ H1 Hl Hs HC HR.
  pose proof (put_clean E t kvs k v HT HQ H1 Hl Hs HC) as P. rewrite HR in P.
  destruct P as (kvs' & HT' & HQ' & _ & _ & L). pose proof (holds_reads _ _ _ _ HT') as R'. pose proof (holds_reads _ _ _ _ HT) as R.
  splits.
  - rewrite R' by (eapply leaf_size_key; eauto). rewrite L. destruct (key_dec k k); congruence.
  - intros k' Hk' Hne. rewrite R', R by auto. rewrite L. destruct (key_dec k' k); congruence.
  - eauto.
Qed.
Print Assumptions put_map_update_partial.

(** put never runs into undefined behaviour there *)
Theorem put_no_ub_partial : forall E t kvs k v,
  txn_holds true 32 E t kvs -> t_free_root t = 0 -> 1 <= t_last t -> t_last t + 40 < 2 ^ 64 ->
  leaf_size k v < 65536 -> t_root t = 0 \/ clean_put E t k v ->
  db_put E t k v <> Bad /\ db_put E t k v <> NoFuel.
Proof.
  intros E t kvs k v HT HQ H1 Hl Hs HC. pose proof (put_clean E t kvs k v HT HQ H1 Hl Hs HC) as P.
  destruct (db_put E t k v); try tauto; split; discriminate.
Qed.
Print Assumptions put_no_ub_partial.

(** The full claim fails: after three successful puts (the third splits the leaf, and
    its key belongs between the two halves) the third key cannot be found. *)
Definition gap_ops : list op := [Put [97] (fill 1900 1); Put [99] (fill 1900 2); Put [98] (fill 1900 3)].
Theorem put_map_update_refuted : exists t,
  do_ops env_create first_txn gap_ops = Ret tt t /\ db_get env_create t [98] = Err NOTFOUND.
Proof.
  exists (after (do_ops env_create first_txn gap_ops)). split.
  - apply ret_after. vm_compute. reflexivity.
  - vm_compute. reflexivity.
Qed.
Print Assumptions put_map_update_refuted.

(** ** C08 del *)
Theorem del_correct : forall E t k data, blen k < 65536 -> shaped E t ->
  match db_get E t k with
  | Ok _ => exists t', db_del E t k data = Ret tt t' /\ shaped E t' /\
      db_get E t' k = Err NOTFOUND /\
      forall k', blen k' < 65536 -> k' <> k -> db_get E t' k' = db_get E t k'
  | Err e => e = NOTFOUND /\ db_del E t k data = Fail NOTFOUND t
  | UB | Fuel => False
  end.
Proof.
  intros E t k data Hk HS. pose proof (db_del_shape E t k data Hk HS) as D.
  destruct (db_get E t k); auto. destruct D as (t' & A & B & C & _ & G). exists t'. splits; auto.
  - rewrite G by auto. destruct (key_dec k k); congruence.
  - intros k' Hk' Hne. rewrite G by auto. destruct (key_dec k' k); congruence.
Qed.
Print Assumptions del_correct.

(** ** C09 a failed put *)
(** Missing for the full claim: a put whose entry does not fit its leaf. *)
Theorem failed_put_changes_nothing_partial : forall E t k v e t',
  leaf_size k v < 65536 -> shaped E t -> t_root t <> 0 -> fits E t k v ->
  db_put E t k v = Fail e t' -> t' = t /\ e = EEXIST.
Proof.
  intros E t k v e t' Hs HS Hnz Hf HR. destruct (put_without_split_correct E t k v Hs HS Hnz Hf) as [(_ & _ & H)|(_ & t2 & H & _)];
    rewrite HR in H; [|discriminate]. injection H as -> ->. auto.
Qed.
Print Assumptions failed_put_changes_nothing_partial.

(** A put that fails for lack of space in the middle of a split loses the upper half
    of the leaf. *)
Definition two_ops : list op := [Put [97] (fill 10 1); Put [98] (fill 10 2)].
Theorem failed_put_changes_nothing_refuted : exists t t',
  do_ops env_create first_txn two_ops = Ret tt t /\
  db_put env_create t [99] (fill 4090 3) = Fail ENOSPC t' /\
  db_get env_create t [98] = Ok (fill 10 2) /\ db_get env_create t' [98] = Err NOTFOUND.
Proof.
  exists (after (do_ops env_create first_txn two_ops)),
    (after (db_put env_create (after (do_ops env_create first_txn two_ops)) [99] (fill 4090 3))).
  splits.
  - apply ret_after. vm_compute. reflexivity.
  - apply fail_after. vm_compute. reflexivity.
  - vm_compute. reflexivity.
  - vm_compute. reflexivity.
Qed.
Print Assumptions failed_put_changes_nothing_refuted.

(** ** C10 put on an existing key *)
(** Missing for the full claim: a key whose leaf was already modified in this transaction. *)
Theorem put_updates_existing_partial : forall E t k v v0,
  leaf_size k v < 65536 -> shaped E t -> t_root t <> 0 -> fits E t k v ->
  db_get E t k = Ok v0 -> ~ leaf_is_dirty E t k ->
  exists t', db_put E t k v = Ret tt t' /\ db_get E t' k = Ok v /\
    forall k', blen k' < 65536 -> k' <> k -> db_get E t' k' = db_get E t k'.
Proof.
  intros E t k v v0 Hs HS Hnz Hf Hg Hd. destruct (put_without_split_correct E t k v Hs HS Hnz Hf) as [(H & _)|(_ & t' & A & B & G)]; [tauto|].
  exists t'. splits; auto.
  - rewrite G by (eapply leaf_size_key; eauto). destruct (key_dec k k); congruence.
  - intros k' Hk' Hne. rewrite G by auto. destruct (key_dec k' k); congruence.
Qed.
Print Assumptions put_updates_existing_partial.

(** The second put of a key in one transaction is refused; the first value stays. *)
Theorem put_updates_existing_refuted : exists t t',
  do_ops env_create first_txn [Put [97] [1]] = Ret tt t /\
  db_put env_create t [97] [2] = Fail EEXIST t' /\ db_get env_create t' [97] = Ok [1].
Proof.
  exists (after (do_ops env_create first_txn [Put [97] [1]])),
   (after (db_put env_create (after (do_ops env_create first_txn [Put [97] [1]])) [97] [2])).
  splits.
  - apply ret_after. vm_compute. reflexivity.
  - apply fail_after. vm_compute. reflexivity.
  - vm_compute. reflexivity.
Qed.
Print Assumptions put_updates_existing_refuted.

(** ** C11 conditional delete *)
(** The value argument is ignored: with NULL, or with the stored value, that is what is
    asked for.  Missing for the full claim: a different value must prevent the deletion. *)
Theorem conditional_del_partial : forall E t k v data, blen k < 65536 -> shaped E t ->
  db_get E t k = Ok v -> data = None \/ data = Some v ->
  exists t', db_del E t k data = Ret tt t' /\ db_get E t' k = Err NOTFOUND /\
    forall k', blen k' < 65536 -> k' <> k -> db_get E t' k' = db_get E t k'.
Proof.
  intros E t k v data Hk HS HG _. pose proof (del_correct E t k data Hk HS) as D. rewrite HG in D.
  destruct D as (t' & A & B & C & G). eauto.
Qed.
Print Assumptions conditional_del_partial.
Theorem conditional_del_refuted : exists t t',
  do_ops env_create first_txn [Put [97] [1]] = Ret tt t /\ db_get env_create t [97] = Ok [1] /\
  db_del env_create t [97] (Some [2]) = Ret tt t' /\ db_get env_create t' [97] = Err NOTFOUND.
Proof.
  exists (after (do_ops env_create first_txn [Put [97] [1]])),
   (after (db_del env_create (after (do_ops env_create first_txn [Put [97] [1]])) [97] (Some [2]))).
  splits; lazymatch goal with |- _ = Ret _ _ => apply ret_after | _ => idtac end; vm_compute; reflexivity.
Qed.
Print Assumptions conditional_del_refuted.

(** ** C12 sequences of operations *)
(** Any sequence of successful puts and dels is the same sequence of map updates.
    Missing for the full claim: [clean_ops] and the empty Free DB. *)
Theorem operations_are_map_updates_partial : forall E t kvs os t',
  txn_holds true 32 E t kvs -> t_free_root t = 0 -> 1 <= t_last t ->
  t_last t + 40 * (1 + N.of_nat (length os)) < 2 ^ 64 ->
  clean_ops E t os -> do_ops E t os = Ret tt t' ->
  reads E t' (fold_left map_op os (fun k => lookup k kvs)).
Proof.
  intros E t kvs os t' HT HQ H1 Hl HC HR. destruct (ops_clean E os t t' kvs HT HQ H1 Hl HC HR) as (kvs' & A & _ & _ & D).
  intros k Hk. rewrite (holds_reads _ _ _ _ A k Hk), D. reflexivity.
Qed.
Print Assumptions operations_are_map_updates_partial.

(** distinct keys, put in any order: all of them are retrievable *)
Theorem distinct_puts_retrievable_partial : forall E t kvs (l : list (bytes * bytes)) t',
  txn_holds true 32 E t kvs -> t_free_root t = 0 -> 1 <= t_last t ->
  t_last t + 40 * (1 + N.of_nat (length l)) < 2 ^ 64 -> NoDup (map fst l) ->
  clean_ops E t (map (fun e => Put (fst e) (snd e)) l) ->
  do_ops E t (map (fun e => Put (fst e) (snd e)) l) = Ret tt t' ->
  forall k v, In (k, v) l -> blen k < 65536 -> db_get E t' k = Ok v.
Proof.
  intros E t kvs l t' HT HQ H1 Hl ND HC HR k v Hi Hk.
  rewrite <- (map_length (fun e => Put (fst e) (snd e)) l) in Hl.
  rewrite (operations_are_map_updates_partial E t kvs _ t' HT HQ H1 Hl HC HR k Hk).
  assert (G : forall l (m : kmap), NoDup (map fst l) -> (In (k, v) l -> fold_left map_op (map (fun e => Put (fst e) (snd e)) l) m k = Some v) /\
     (~ In k (map fst l) -> fold_left map_op (map (fun e => Put (fst e) (snd e)) l) m k = m k)).
  { clear. induction l as [|[k1 v1] l IH]; intros m ND; cbn [map fold_left fst snd]; [split; [intros []|auto]|].
    inversion ND as [|? ? Hn ND']; subst. split.
    - intros [[= -> ->]|Hi].
      + destruct (IH (map_op m (Put k v)) ND') as [_ H]. rewrite H by auto. cbn. destruct (key_dec k k); congruence.
      + apply IH; auto.
    - intro Hni. destruct (IH (map_op m (Put k1 v1)) ND') as [_ H]. rewrite H by (intro; apply Hni; cbn; auto). cbn.
      destruct (key_dec k k1); auto. exfalso. apply Hni. cbn. auto. }
  destruct (G l (fun x => lookup x kvs) ND) as [H _]. rewrite H by auto. reflexivity.
Qed.
Print Assumptions distinct_puts_retrievable_partial.

(** The order matters: the same three pairs, in ascending order all retrievable, in the
    order of [gap_ops] not. *)
Definition ascending_ops : list op := [Put [97] (fill 1900 1); Put [98] (fill 1900 3); Put [99] (fill 1900 2)].
Theorem insertion_order_refuted : exists t t',
  do_ops env_create first_txn ascending_ops = Ret tt t /\ db_get env_create t [98] = Ok (fill 1900 3) /\
  do_ops env_create first_txn gap_ops = Ret tt t' /\ db_get env_create t' [98] = Err NOTFOUND.
Proof.
  exists (after (do_ops env_create first_txn ascending_ops)), (after (do_ops env_create first_txn gap_ops)).
  splits; lazymatch goal with |- _ = Ret _ _ => apply ret_after | _ => idtac end; vm_compute; reflexivity.
Qed.
Print Assumptions insertion_order_refuted.

(** ** The hypotheses are met by concrete databases *)
Example first_txn_holds : txn_holds true 32 env_create first_txn [].
Proof. split; [reflexivity|left; split; reflexivity]. Qed.
(** three puts, the last with a clean split *)
Definition split_txn : txn := after (do_ops env_create first_txn ascending_ops).
Example ascending_clean : clean_ops env_create first_txn ascending_ops.
Proof. apply clean_opsb_ok. vm_compute. reflexivity. Qed.
Example ascending_runs : do_ops env_create first_txn ascending_ops = Ret tt split_txn.
Proof. apply ret_after. vm_compute. reflexivity. Qed.
Example split_txn_height : height_of 33 (get_page env_create split_txn) (t_root split_txn) = 1%nat.
Proof. vm_compute. reflexivity. Qed.
Example split_txn_tree : exists kvs, txn_holds true 32 env_create split_txn kvs /\ t_free_root split_txn = 0 /\ t_last split_txn = 4 /\
  clean_put env_create split_txn [100] (fill 1900 4) /\ leaf_size [100] (fill 1900 4) < 65536.
Proof.
  destruct (ops_clean env_create ascending_ops first_txn split_txn []) as (kvs & A & B & _).
  - exact first_txn_holds. - reflexivity. - vm_compute. discriminate. - vm_compute. reflexivity.
  - exact ascending_clean. - exact ascending_runs.
  - exists kvs. splits; auto; try (vm_compute; reflexivity). apply clean_putb_ok. vm_compute. reflexivity.
Qed.
Example split_txn_shaped : shaped env_create split_txn /\ t_root split_txn <> 0.
Proof.
  destruct split_txn_tree as (kvs & (R & [[H _]|(h & Hh & Hnz & T & ND & PG & _)]) & _); [vm_compute in H; discriminate|].
  split; auto. split; auto. right. exists h. apply tree_shape in T. splits; auto.
  - pose proof (height_of_ok _ 33 h _ ltac:(lia) T) as E. rewrite split_txn_height in E. lia.
  - eapply Forall_impl; [|exact PG]. cbn. lia.
Qed.
Example split_txn_fits : fits env_create split_txn [98; 1] [7] /\ leaf_size [98; 1] [7] < 65536.
Proof.
  split; [|vm_compute; reflexivity]. intros h S.
  destruct split_txn_shaped as [(_ & [H0|(h1 & Hh & _ & S1 & _)]) Hnz]; [congruence|].
  pose proof (height_of_ok _ 33 h1 _ ltac:(lia) S1) as E. rewrite split_txn_height in E. subst h1.
  rewrite (shape_height _ _ _ _ S S1). vm_compute. discriminate.
Qed.
