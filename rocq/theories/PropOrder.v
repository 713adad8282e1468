(** Property C108 and parts of C07 and C12: puts in ascending order; operations beside a
    Free DB from which nothing may be reused yet. *)
From Verif Require Import Util PageModel PageSpec PageProofs PageOps TxnModel CursorModel TreeModel TreeSpec PropPage TreeProofs TreeOps TreeSplit TreePut TreeShape TreeOrder TxnInv DbModel SysModel DbSpec DbProofs CursorSpec CursorProofs DbCommit PropTree PropCursor PropCommit PropReuse.
From Verif Require PropCache.
Local Open Scope N_scope.

(** ** Specification *)
Definition puts (l : list (bytes * bytes)) : list op := map (fun e => Put (fst e) (snd e)) l.
(** strictly ascending keys, and any two pairs fit in one page: 18 bytes of header, 2 for
    each slot, 4 for the two lengths of each pair *)
Definition ascending (l : list (bytes * bytes)) : Prop :=
  StronglySorted klt (map fst l) /\ Forall (fun e => blen (fst e) + blen (snd e) <= 2033) l.
(** nothing of the Free DB may be reused by this transaction *)
Definition idle_free (E : env) (t : txn) : Prop :=
  t_free_root t = 0 \/
  exists h b, (h < 32)%nat /\ t_free_root t <> 0 /\ tree false (get_page E t) h (t_free_root t) None None /\
    (h = O \/ no_empty_leaf (get_page E t) h (t_free_root t)) /\
    Forall (fun q => q <= t_last t) (tree_pages (get_page E t) h (t_free_root t)) /\
    horizon E t b /\ N.of_nat (length (tree_kvs (get_page E t) h (t_free_root t))) < 65536 /\
    Forall (fun kv => ~ reclaimable b kv) (tree_kvs (get_page E t) h (t_free_root t)).
(** the data and the Free DB have no page in common *)
Definition apart (E : env) (t : txn) : Prop :=
  forall q, in_tree (get_page E t) (t_root t) q -> in_tree (get_page E t) (t_free_root t) q -> False.

(** ** C108 ascending puts *)
Lemma ascending_sizes l : ascending l -> Forall (fun e => leaf_size (fst e) (snd e) <= 2037) l.
Proof. intros (_ & F). eapply Forall_impl; [|exact F]. intros [k v]. cbn [fst snd]. unfold leaf_size, LEAF_BASE. lia. Qed.

Lemma grown_empty E F t : t_rdonly t = false -> t_root t = 0 -> grown E F t [].
Proof. intros Hr H0. split; [exact Hr|]. left. auto. Qed.

(** Exactly the pairs put are stored, in key order, in a tree of any height. *)
Theorem ascending_puts : forall E t l t',
  t_rdonly t = false -> t_root t = 0 -> t_free_root t = 0 -> 1 <= t_last t ->
  t_last t + 40 * (1 + N.of_nat (length l)) < 2 ^ 64 ->
  ascending l -> do_ops E t (puts l) = Ret tt t' ->
  txn_holds true 32 E t' l /\
  (forall k v, blen k < 65536 -> (db_get E t' k = Ok v <-> In (k, v) l)) /\
  (forall k, blen k < 65536 -> ~ In k (map fst l) -> db_get E t' k = Err NOTFOUND).
Proof.
  intros E t l t' Hr H0 HQ H1 Hl HA HR. pose proof (ascending_sizes l HA) as Hs. destruct HA as (S & _).
  destruct (puts_grown E (fun _ => False) (fun t => t_free_root t = 0) (Q_alloc0 E) (Q_stable0 E) l t t' []) as (G & _); auto.
  { apply grown_empty; auto. } { intros q []. }
  assert (HT : txn_holds true 32 E t' l).
  { destruct G as (Hr' & G). split; auto. destruct G as [[A B]|(h & Hh & (_ & A & B & C & D & K) & _)]; [left; auto|right].
    exists h. splits; auto. rewrite Forall_forall. intros q Hq. apply D; auto. }
  split; [exact HT|]. pose proof (holds_reads _ _ _ _ HT) as R. cbn [app] in *.
  assert (LI : forall k v, lookup k l = Some v <-> In (k, v) l).
  { clear -S. induction l as [|[k1 v1] l IH]; intros k v; cbn [lookup In map fst] in *; [split; [discriminate|intros []]|].
    apply sorted_cons_inv in S. destruct S as [S A]. specialize (IH S). destruct (key_dec k k1) as [->|Hne].
    - split; [intros [= ->]; auto|]. intros [[= ->]|Hi]; auto. exfalso. rewrite Forall_forall in A. apply (klt_irrefl k1). apply A.
      apply in_map_iff. exists (k1, v). auto.
    - rewrite IH. split; auto. intros [[= -> ->]|]; [congruence|auto]. }
  split.
  - intros k v Hk. rewrite (R k Hk), <- LI. destruct (lookup k l); split; congruence.
  - intros k Hk Hn. rewrite (R k Hk). destruct (lookup k l) as [v|] eqn:X; auto. exfalso. apply Hn. apply LI in X.
    apply in_map_iff. exists (k, v). auto.
Qed.
Print Assumptions ascending_puts.

(** The same from the outside: a database without keys, one transaction, and what every
    later reader finds. *)
Theorem ascending_committed : forall E l E',
  e_locked E = false -> file_ok (e_file E) -> m_root (live_meta E) = 0 -> m_free (live_meta E) = 0 -> 1 <= m_last (live_meta E) ->
  m_last (live_meta E) + 40 * (1 + N.of_nat (length l)) < 2 ^ 64 -> ascending l ->
  (forall t', do_ops (set_locked E true) (begun E) (puts l) = Ret tt t' -> N.of_nat (length (t_freed t')) < 8000 /\ t_last t' + 1 < 2 ^ 64) ->
  transact E (puts l) = Ok E' ->
  forall k, blen k < 65536 -> read_now E' k = match lookup k l with Some v => Ok v | None => Err NOTFOUND end.
Proof.
  intros E l E' HU FO H0 HQ H1 Hl HA HB H k Hk.
  pose proof (begun_is E HU) as B. pose proof (begin_fields _ _ _ B) as (_ & Et). set (t := begun E) in *.
  assert (TF : t_rdonly t = false /\ t_root t = 0 /\ t_free_root t = 0 /\ t_last t = m_last (live_meta E)) by (rewrite Et; cbn; auto).
  destruct TF as (Hr & H0' & HQ' & HL'). rewrite <- HL' in H1, Hl. clear H0 HQ.
  pose proof (ascending_sizes l HA) as Hs. pose proof HA as (S & HZ).
  assert (HT : txn_holds true 32 (set_locked E true) t []) by (split; [exact Hr|left; split; [exact H0'|reflexivity]]).
  assert (HC : clean_ops (set_locked E true) t (puts l)).
  { apply (ascending_clean_ops (set_locked E true) l t []); auto. apply grown_empty; auto. }
  assert (HL : t_last t + 40 * (1 + N.of_nat (length (puts l))) < 2 ^ 64) by (unfold puts; rewrite map_length; exact Hl).
  assert (HZ' : Forall (fun o => match o with Put k v => 10 + blen k + blen v < 65536 | Del _ => True end) (puts l)).
  { unfold puts. rewrite Forall_map. eapply Forall_impl; [|exact HZ]. intros [a b]. cbn [fst snd]. lia. }
  destruct (early_transaction_is_map_partial E _ t (puts l) E' [] B FO HT HQ' H1 HL HC HZ' HB H) as (R & _ & _).
  unfold read_now. rewrite (R k Hk).
  assert (G : forall l (m : kmap), ksorted (map fst l) -> fold_left map_op (puts l) m k = match lookup k l with Some v => Some v | None => m k end).
  { clear. unfold puts. induction l as [|[k1 v1] l IH]; intros m S; cbn [map fold_left fst snd lookup] in *; [reflexivity|].
    apply sorted_cons_inv in S. destruct S as [S A]. rewrite IH by auto. cbn [map_op]. destruct (key_dec k k1) as [->|Hne]; auto.
    rewrite lookup_above; auto. rewrite Forall_map in A. exact A. }
  rewrite G by auto. cbn [lookup]. destruct (lookup k l); reflexivity.
Qed.
Print Assumptions ascending_committed.

(** ** C109 room *)
(** In descending order the same three pairs are refused although two pages suffice: the left
    half of a split page keeps the gaps of the pairs that moved to the right. *)
Definition three (f : list N -> list N) : list (bytes * bytes) := map (fun i => ([i], fill 1900 i)) (f [97; 98; 99]).
Theorem put_room_refuted : exists t t',
  do_ops env_create first_txn (puts (three (fun l => l))) = Ret tt t /\
  do_ops env_create first_txn (puts (three (@rev N))) = Fail ENOSPC t'.
Proof.
  set (o := do_ops env_create first_txn (puts (three (@rev N)))).
  assert (X : (match o with Fail ENOSPC _ => true | _ => false end) = true) by (vm_compute; reflexivity).
  exists (after (do_ops env_create first_txn (puts (three (fun l => l))))), (match o with Fail _ t => t | _ => first_txn end).
  split; [apply ret_after; vm_compute; reflexivity|]. destruct o as [x u|[] u| |]; try discriminate. reflexivity.
Qed.
Print Assumptions put_room_refuted.

(** Ascending order does not help when the sizes differ: the upper half of the five pairs by
    number is not half of their bytes, and the pair put last finds no room beside it. *)
Definition uneven : list (bytes * bytes) := map (fun i => ([i], fill (if i <=? 98 then 5 else 1900) i)) [97; 98; 99; 100; 101].
Theorem put_room_uneven_refuted : ascending uneven /\ exists t', do_ops env_create first_txn (puts uneven) = Fail ENOSPC t'.
Proof.
  split.
  { split.
    - apply Sorted_StronglySorted; [intros x y z; apply klt_trans|]. unfold uneven. rewrite map_map. cbn [fst map].
      repeat (apply Sorted_cons; [|first [apply HdRel_cons; apply kltb_spec; vm_compute; reflexivity|apply HdRel_nil]]). apply Sorted_nil.
    - unfold uneven. rewrite Forall_map. repeat constructor; vm_compute; discriminate. }
  set (o := do_ops env_create first_txn (puts uneven)).
  assert (X : (match o with Fail ENOSPC _ => true | _ => false end) = true) by (vm_compute; reflexivity).
  exists (match o with Fail _ t => t | _ => first_txn end). destruct o as [x u|[] u| |]; try discriminate. reflexivity.
Qed.
Print Assumptions put_room_uneven_refuted.

(** A tree of more than 32 levels takes no more pairs, however much room there is; *)
Theorem deep_tree_refused : forall b E t h k v,
  t_rdonly t = false -> t_root t <> 0 -> tree b (get_page E t) h (t_root t) None None -> (32 <= h)%nat -> blen k < 65536 ->
  exists e, db_put E t k v = Fail e t.
Proof.
  intros b E t h k v Hr H0 T Hh Hk. destruct (find_path_too_deep b E t k Hk MAX_TREE_DEPTH h (t_root t) None None T Hh) as (e & X).
  exists e. unfold db_put, db_put_with. rewrite Hr. apply N.eqb_neq in H0. rewrite H0, X. reflexivity.
Qed.
Print Assumptions deep_tree_refused.
(** and with keys of which only two fit in a page every pair put in ascending order adds a
    level: five pairs stand on four levels. *)
Definition long_keys : list (bytes * bytes) := map (fun i => (N.of_nat i :: fill 1400 0, [1])) (seq 1 5).
Theorem tree_height_refuted : exists t, do_ops env_create first_txn (puts long_keys) = Ret tt t /\
  height_of 33 (get_page env_create t) (t_root t) = 3%nat.
Proof.
  set (o := do_ops env_create first_txn (puts long_keys)).
  assert (X : match o with Ret _ t => Nat.eqb (height_of 33 (get_page env_create t) (t_root t)) 3 | _ => false end = true) by (vm_compute; reflexivity).
  destruct o as [[] t| | |]; try discriminate. exists t. split; [reflexivity|]. apply Nat.eqb_eq. exact X.
Qed.
Print Assumptions tree_height_refuted.

(** ** C07 and C12 beside a Free DB *)
Section Idle.
Variables (E : env) (t0 : txn) (h : nat) (b : N).
Hypothesis Hh : (h < 32)%nat.
Hypothesis Hnz : t_free_root t0 <> 0.
Hypothesis T : tree false (get_page E t0) h (t_free_root t0) None None.
Hypothesis HN : h = O \/ no_empty_leaf (get_page E t0) h (t_free_root t0).
Hypothesis Hb : horizon E t0 b.
Hypothesis Hlen : N.of_nat (length (tree_kvs (get_page E t0) h (t_free_root t0))) < 65536.
Hypothesis HF : Forall (fun kv => ~ reclaimable b kv) (tree_kvs (get_page E t0) h (t_free_root t0)).
Definition idle_page (q : N) : Prop := In q (tree_pages (get_page E t0) h (t_free_root t0)).
Definition idle_state (t : txn) : Prop :=
  t_id t = t_id t0 /\ t_free_root t = t_free_root t0 /\ forall q, idle_page q -> get_page E t q = get_page E t0 q.

Lemma idle_none t : idle_state t -> no_reuse E t.
Proof.
  intros (A & B & C). right.
  assert (S : scannable E (free_view t)).
  { right. exists h. unfold free_view. cbn [set_root t_root]. rewrite B.
    change (get_page E (set_root t (t_free_root t0))) with (get_page E t). splits; auto.
    - eapply tree_frame; [|exact T]. exact C.
    - destruct HN as [|N]; auto. right. eapply PropCache.no_empty_frame; [|exact N]. exact C. }
  destruct (forward_scan_partial E (free_view t) S) as (l & BL & SC).
  assert (EL : l = tree_kvs (get_page E t0) h (t_free_root t0)).
  { assert (X : bindings E (free_view t) (tree_kvs (get_page E (free_view t)) h (t_root (free_view t)))).
    { apply tree_bindings; [lia|unfold free_view; cbn; congruence|]. unfold free_view. cbn [set_root t_root]. rewrite B.
      change (get_page E (set_root t (t_free_root t0))) with (get_page E t). eapply tree_frame; [|exact T]. exact C. }
    rewrite (bindings_unique E (free_view t) _ _ BL X). unfold free_view. cbn [set_root t_root]. rewrite B.
    change (get_page E (set_root t (t_free_root t0))) with (get_page E t). apply kvs_frame. exact C. }
  exists l, NOTFOUND, b. split; [unfold horizon in *; rewrite A; exact Hb|]. split; [exact SC|]. rewrite EL. auto.
Qed.
Lemma idle_alloc t : idle_state t -> t_rdonly t = false -> page_alloc E t = Ret (t_last t + 1) (set_last t (t_last t + 1)).
Proof.
  intros HQ Hr. unfold page_alloc, ALLOC_FUEL. cbn [alloc_fuel]. unfold alloc_with. rewrite Hr. cbn.
  rewrite (reclaim_none E t _ (idle_none t HQ)). reflexivity.
Qed.
Lemma idle_stable t t' : idle_state t -> t_rdonly t' = t_rdonly t -> t_id t' = t_id t -> t_free_root t' = t_free_root t ->
  (forall q, idle_page q -> get_page E t' q = get_page E t q) -> idle_state t'.
Proof. intros (A & B & C) _ I F V. unfold idle_state. splits; try congruence. intros q Hq. rewrite V by auto. auto. Qed.
End Idle.

(** Any sequence of successful, clean operations beside a Free DB from which nothing may be
    reused yet is the same sequence of map updates.
    Missing for the full claim: [clean_ops], and reuse of pages. *)
Theorem operations_beside_free_db_partial : forall E t kvs os t',
  txn_holds true 32 E t kvs -> idle_free E t -> apart E t -> 1 <= t_last t ->
  t_last t + 40 * (1 + N.of_nat (length os)) < 2 ^ 64 ->
  clean_ops E t os -> do_ops E t os = Ret tt t' ->
  reads E t' (fold_left map_op os (fun k => lookup k kvs)) /\ t_free_root t' = t_free_root t /\
  (forall q, in_tree (get_page E t) (t_free_root t) q -> get_page E t' q = get_page E t q).
Proof.
  intros E t kvs os t' HT HI HA H1 Hl HC HR. destruct HI as [Z|(h & b & Hh & Hnz & T & HN & PG & Hb & Hlen & HF)].
  - destruct (ops_clean E os t t' kvs HT Z H1 Hl HC HR) as (kvs' & A & B & _ & D). splits; [|congruence|].
    + intros k Hk. rewrite (holds_reads _ _ _ _ A k Hk), D. reflexivity.
    + intros q (X & _). congruence.
  - set (F := idle_page E t h). set (Q := idle_state E t h).
    assert (HQ : Q t) by (unfold Q, idle_state; auto).
    rewrite Forall_forall in PG.
    assert (HO : holds_off E F t kvs).
    { destruct HT as (Hr & HT). split; auto. destruct HT as [X|(h' & Hh' & A & B & C & D & K)]; [left; exact X|right].
      exists h'. split; auto. unfold sound. splits; auto. intros q Hq. rewrite Forall_forall in D. split; [apply D; auto|].
      intro HFq. apply (HA q).
      - split; auto. exists h'. split; [eapply tree_shape; eauto|exact Hq].
      - split; auto. exists h. split; [eapply tree_shape; eauto|exact HFq]. }
    destruct (ops_off E F Q (idle_alloc E t h b Hh Hnz T HN Hb Hlen HF) (idle_stable E t h) os t t' kvs HO HQ PG H1 Hl HC HR) as (kvs' & A & B & C & D & G & L).
    splits; auto.
    + assert (HT' : txn_holds true 32 E t' kvs').
      { destruct A as (Hr' & A). split; auto. destruct A as [X|(h' & Hh' & (_ & A & X & Y & Z & K))]; [left; exact X|right].
        exists h'. splits; auto. rewrite Forall_forall. intros q Hq. apply Z; auto. }
      intros k Hk. rewrite (holds_reads _ _ _ _ HT' k Hk), L. reflexivity.
    + intros q Hq. apply G. apply (in_tree_height _ h) in Hq; auto. eapply tree_shape; eauto.
Qed.
Print Assumptions operations_beside_free_db_partial.

(** ** The hypotheses are met *)
(** sixty pairs: thirty leaves, two levels *)
Definition sixty : list (bytes * bytes) := map (fun i => ([N.of_nat i], fill 1900 (N.of_nat i))) (seq 1 60).
Definition sixty_txn : txn := after (do_ops env_create first_txn (puts sixty)).
Example ascending_case : ascending sixty /\ do_ops env_create first_txn (puts sixty) = Ret tt sixty_txn /\
  height_of 33 (get_page env_create sixty_txn) (t_root sixty_txn) = 1%nat /\ t_root first_txn = 0 /\ t_free_root first_txn = 0 /\
  t_rdonly first_txn = false /\ 1 <= t_last first_txn.
Proof.
  split.
  { split.
    - apply Sorted_StronglySorted; [intros x y z; apply klt_trans|].
      unfold sixty. rewrite map_map. cbn [fst]. cbn [seq map].
      repeat (apply Sorted_cons; [|first [apply HdRel_cons; apply kltb_spec; vm_compute; reflexivity|apply HdRel_nil]]). apply Sorted_nil.
    - unfold sixty. rewrite Forall_map, Forall_forall. intros i _. cbn [fst snd]. vm_compute. discriminate. }
  split; [apply ret_after; vm_compute; reflexivity|]. splits; vm_compute; try reflexivity; discriminate.
Qed.
(** one transaction of three pairs on a fresh database *)
Definition E_three : env := get_env (transact env_create (puts (three (fun l => l)))).
Definition three_txn : txn := ret_txn (do_ops (set_locked env_create true) (begun env_create) (puts (three (fun l => l)))).
Example committed_case : forall k, blen k < 65536 ->
  read_now E_three k = match lookup k (three (fun l => l)) with Some v => Ok v | None => Err NOTFOUND end.
Proof.
  apply (ascending_committed env_create (three (fun l => l)) E_three).
  - reflexivity.
  - intro q. left. split; reflexivity.
  - reflexivity.
  - reflexivity.
  - vm_compute. discriminate.
  - vm_compute. reflexivity.
  - split.
    + apply Sorted_StronglySorted; [intros x y z; apply klt_trans|]. unfold three. rewrite map_map. cbn [fst map].
      repeat (apply Sorted_cons; [|first [apply HdRel_cons; apply kltb_spec; vm_compute; reflexivity|apply HdRel_nil]]). apply Sorted_nil.
    + unfold three. rewrite Forall_map, Forall_forall. intros i _. cbn [fst snd]. vm_compute. discriminate.
  - intros t' H. assert (X : t' = three_txn) by (unfold three_txn; rewrite H; reflexivity). subst t'. split; vm_compute; reflexivity.
  - apply ok_env. vm_compute. reflexivity.
Qed.

(** two transactions of one put each have left a Free DB of one entry; with a reader of
    transaction 2 registered it may not be reused; the third transaction splits the leaf *)
Definition E8 : env := get_env (transact env_create [Put [97] (fillb 1400 1)]).
Definition E9 : env := get_env (history E8 [[Put [98] (fillb 1400 2)]]).
Definition T9 : txn := begun E9.
Definition E9r : env := set_readers E9 [mkSlot 7 8 2].
Definition ops9 : list op := [Put [99] (fillb 1400 3); Del [98]].
Definition T8 : txn := ret_txn (do_ops (set_locked env_create true) (begun env_create) [Put [97] (fillb 1400 1)]).
Lemma healthy9 : healthy E9 /\ file_ok (e_file E9).
Proof.
  assert (HT : txn_holds true 32 (set_locked env_create true) (begun env_create) []) by (split; [reflexivity|left; split; reflexivity]).
  assert (HL : forall t', do_ops (set_locked env_create true) (begun env_create) [Put [97] (fillb 1400 1)] = Ret tt t' -> t' = T8)
    by (intros t' X; unfold T8; rewrite X; reflexivity).
  assert (HC : clean_ops (set_locked env_create true) (begun env_create) [Put [97] (fillb 1400 1)]) by (apply clean_opsb_ok; vm_compute; reflexivity).
  destruct (early_transaction_is_map_partial env_create (set_locked env_create true) (begun env_create) [Put [97] (fillb 1400 1)] E8 []) as (A & B & C).
  - apply begun_is. reflexivity.
  - intro q. left. split; reflexivity.
  - exact HT.
  - reflexivity.
  - vm_compute. discriminate.
  - vm_compute. reflexivity.
  - exact HC.
  - repeat constructor; vm_compute; reflexivity.
  - intros t' X. rewrite (HL t' X). split; vm_compute; reflexivity.
  - apply ok_env. vm_compute. reflexivity.
  - assert (H8 : healthy E8).
    { apply C. intros t' h X S.
      destruct (ops_clean _ [Put [97] (fillb 1400 1)] _ t' [] HT eq_refl ltac:(vm_compute; discriminate) ltac:(vm_compute; reflexivity) HC X) as (kvs' & (_ & [[Z _]|(h1 & Hh & _ & T & _)]) & _).
      + rewrite (HL t' X) in Z. vm_compute in Z. discriminate.
      + apply tree_shape in T. rewrite (shape_height _ _ _ _ S T). rewrite <- (height_of_ok _ 33 h1 _ ltac:(lia) T), (HL t' X).
        assert (V : height_of 33 (get_page (set_locked env_create true) T8) (t_root T8) = 0%nat) by (vm_compute; reflexivity).
        rewrite V. lia. }
    assert (F : fit_history E8 [[Put [98] (fillb 1400 2)]]) by (apply (fit_historyb_ok _ E8 _ H8 B A); vm_compute; reflexivity).
    assert (H : history E8 [[Put [98] (fillb 1400 2)]] = Ok E9) by (apply ok_env; vm_compute; reflexivity).
    pose proof (history_is_map_partial [[Put [98] (fillb 1400 2)]] E8 E9 _ H8 B F H A) as (_ & HH & FO). split; [exact HH|exact FO].
Qed.
Lemma beside_leaves E rs b : let t := begun E in let Er := set_readers E rs in
  healthy E -> (2 <=? t_root t) = true -> (t_free_root t =? 0) = false ->
  is_leaf (get_page Er t (t_root t)) = true -> is_leaf (get_page Er t (t_free_root t)) = true ->
  horizon Er t b -> forall fkvs, leaf_entries (get_page Er t (t_free_root t)) = fkvs -> N.of_nat (length fkvs) < 65536 ->
  Forall (fun kv => ~ reclaimable b kv) fkvs ->
  txn_holds true 32 Er t (leaf_entries (get_page Er t (t_root t))) /\ idle_free Er t /\ apart Er t.
Proof.
  intros t Er HH R2 R3 L2 L3 Hb fkvs EF Hlen HF. pose proof (begun_is E (proj1 HH)) as B. pose proof (proj2 HH _ _ B) as ((Hr & TD) & (_ & TF) & AP).
  fold t in B, TD, TF, AP. cbn [set_root t_root t_last] in TF. change (get_page (set_locked E true) (set_root t (t_free_root t))) with (get_page Er t) in TF.
  change (get_page (set_locked E true) t) with (get_page Er t) in TD, AP. apply N.leb_le in R2. apply N.eqb_neq in R3.
  assert (Z : forall h r, is_leaf (get_page Er t r) = true -> shape (get_page Er t) h r -> h = O).
  { intros [|h] r L S; auto. exfalso. cbn [shape] in S. destruct S as (_ & S & _). apply wf_is_leaf in S. congruence. }
  destruct TD as [X|(h1 & Hh1 & _ & S1 & ND & PG)]; [lia|]. destruct TF as [X|(h2 & Hh2 & _ & S2 & ND2 & PG2)]; [congruence|].
  pose proof (Z h1 _ L2 S1) as ->. pose proof (Z h2 _ L3 S2) as ->.
  assert (TR : forall b r, shape (get_page Er t) 0 r -> tree b (get_page Er t) 0 r None None).
  { intros c r S. cbn [tree shape] in *. destruct S as (A1 & A2 & A3). split; [exact A1|]. split; [exact A2|]. split; [exact A3|].
    rewrite Forall_forall. intros k _. split; exact I. }
  split; [|split; [|exact AP]].
  - split; [exact Hr|]. right. exists O. split; [lia|]. split; [lia|]. split; [apply TR; exact S1|]. split; [exact ND|].
    split; [|reflexivity]. cbn [tree_pages] in *. inversion PG; subst. repeat constructor; assumption.
  - right. exists O, b. split; [lia|]. split; [exact R3|]. split; [apply TR; exact S2|]. split; [left; reflexivity|].
    split; [exact PG2|]. split; [exact Hb|]. cbn [tree_kvs]. rewrite EF. auto.
Qed.
Example beside_case :
  txn_holds true 32 E9r T9 [([97], fillb 1400 1); ([98], fillb 1400 2)] /\ idle_free E9r T9 /\ apart E9r T9 /\
  t_free_root T9 <> 0 /\ 1 <= t_last T9 /\ clean_ops E9r T9 ops9 /\
  do_ops E9r T9 ops9 = Ret tt (after (do_ops E9r T9 ops9)) /\
  height_of 33 (get_page E9r (after (do_ops E9r T9 ops9))) (t_root (after (do_ops E9r T9 ops9))) = 1%nat.
Proof.
  destruct healthy9 as (HH & _).
  assert (K : leaf_entries (get_page E9r T9 (t_root T9)) = [([97], fillb 1400 1); ([98], fillb 1400 2)]) by (vm_compute; reflexivity).
  rewrite <- K.
  destruct (beside_leaves E9 [mkSlot 7 8 2] 2 HH ltac:(vm_compute; reflexivity) ltac:(vm_compute; reflexivity) ltac:(vm_compute; reflexivity) ltac:(vm_compute; reflexivity)) with
    (fkvs := [([3; 0; 0; 0; 0; 0; 0; 0], [2; 0; 0; 0; 0; 0; 0; 0])]) as (A & C & D).
  - right. split; [discriminate|]. split; [left; reflexivity|]. intros x [<-|[]]. cbn. lia.
  - vm_compute. reflexivity.
  - reflexivity.
  - repeat constructor. intros (_ & X & _). vm_compute in X. discriminate.
  - split; [exact A|]. split; [exact C|]. split; [exact D|]. split; [vm_compute; discriminate|]. split; [vm_compute; discriminate|].
    split; [apply clean_opsb_ok; vm_compute; reflexivity|]. split; [apply ret_after; vm_compute; reflexivity|vm_compute; reflexivity].
Qed.
