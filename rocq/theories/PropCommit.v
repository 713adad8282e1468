(** Properties C15, C17, C21 and C53: what commits, crashes and page reuse do to the
    stored bindings. *)
From Verif Require Import Util PageModel PageSpec PageProofs PageOps TxnModel CursorModel TreeModel TreeSpec TreeProofs TreeOps TreeSplit TreePut TreeShape TxnInv DbModel SysModel DbSpec DbProofs DbCommit.
Local Open Scope N_scope.

(** ** C53 a commit publishes what the transaction saw *)
(** Missing for the full claim: [free_room] (the Free DB leaf has room for the freed
    pages) and two disjoint trees to start with. *)
Theorem commit_publishes_partial : forall E t E',
  file_ok (e_file E) -> dirty_ok t -> two_trees E t -> t_last t + 1 < 2 ^ 64 ->
  N.of_nat (length (t_freed t)) < 8000 -> free_room E t -> t_dirty t <> [] ->
  db_commit E t None = (E', Ok tt) ->
  forall k, blen k < 65536 -> read_now E' k = db_get E t k.
Proof.
  intros E t E' FO DO TT Hl Hn FR D H k Hk. destruct (trees_cond E t TT) as (h & C).
  pose proof TT as ((Hr & _) & SF & _).
  destruct (commit_done E t E' FO Hr DO SF Hl Hn FR D H) as (fr & t1 & DN).
  exact (done_reads E t E' fr t1 h k DN C Hk).
Qed.
Print Assumptions commit_publishes_partial.

(** one transaction whose operations fit *)
Lemma op_fits E t o t' m : file_ok (e_file E) -> DI t -> two_trees E t ->
  match o with Put k v => 10 + blen k + blen v < 65536 /\ t_root t <> 0 /\ fits E t k v | Del k => blen k < 65536 end ->
  do_op E t o = Ret tt t' -> reads E t m ->
  same_ctl t t' /\ two_trees E t' /\ DI t' /\ reads E t' (map_op m o).
Proof.
  intros FO HD TT HF H HR. pose proof TT as (SM & _ & _). destruct o as [k v|k]; cbn [do_op] in H.
  - destruct HF as (Hs & Nz & Hf). assert (Hs' : leaf_size k v < 65536) by (unfold leaf_size, LEAF_BASE; lia).
    pose proof (put_iout E t k v FO HD Hs) as PI. rewrite H in PI.
    destruct (db_put_shape page_alloc E t k v Hs' SM Nz Hf) as [(_ & _ & X)|(_ & t2 & X & SC & SH & OL & G)].
    { unfold db_put in H. rewrite X in H. discriminate. }
    unfold db_put in H. rewrite X in H. injection H as ->. split; [exact SC|]. split; [eapply one_leaf_trees; eauto|]. split; [exact PI|].
    intros k' Hk'. rewrite (G k' Hk'). cbn [map_op]. destruct (key_dec k' k); [reflexivity|]. apply HR. exact Hk'.
  - pose proof (db_del_iout E FO t k None HD) as PI. rewrite H in PI.
    pose proof (db_del_shape E t k None HF SM) as DS. destruct (db_get E t k) as [v|e| |] eqn:G0; try destruct DS.
    + destruct H0 as (X & SC & SH & OL & G). rewrite X in H. injection H as ->. split; [exact SC|].
      assert (Nz : t_root t <> 0). { intro Z. unfold db_get in G0. rewrite Z in G0. discriminate. }
      split; [eapply one_leaf_trees; eauto|]. split; [exact PI|].
      intros k' Hk'. rewrite (G k' Hk'). cbn [map_op]. destruct (key_dec k' k); [reflexivity|]. apply HR. exact Hk'.
    + congruence.
Qed.

Lemma ops_fit E : forall os t t' m, file_ok (e_file E) -> DI t -> two_trees E t -> fit_ops E t os ->
  do_ops E t os = Ret tt t' -> reads E t m ->
  same_ctl t t' /\ two_trees E t' /\ DI t' /\ reads E t' (fold_left map_op os m).
Proof.
  induction os as [|o r IH]; intros t t' m FO HD TT HF H HR; cbn [do_ops fold_left] in *.
  - injection H as <-. split; [apply same_ctl_refl|]. auto.
  - destruct (do_op E t o) as [[] t1|e t1| |] eqn:X; try discriminate. cbn [bindo] in H. destruct HF as (H1 & H2).
    destruct (op_fits E t o t1 m FO HD TT H1 X HR) as (A & B & C & D).
    destruct (IH t1 t' (map_op m o) FO C B (H2 t1 X) H D) as (A' & B' & C' & D'). split; [eapply same_ctl_trans; eauto|]. auto.
Qed.

Lemma reader_reads_begin E E1 t m : begin_write E = Some (E1, t) -> (reads E (reader E) m <-> reads E1 t m).
Proof.
  intro B. apply begin_fields in B. destruct B as (-> & ->).
  assert (G : forall k, db_get E (reader E) k = db_get (set_locked E true)
    (mkTxn false (m_txnid (live_meta E) + 1) (m_root (live_meta E)) (m_free (live_meta E)) [] (m_last (live_meta E)) []) k).
  { intro k. apply db_get_view; reflexivity. }
  unfold reads. split; intros H k Hk; rewrite <- H by exact Hk; [symmetry|]; apply G.
Qed.

Lemma transact_fits E E' os m : healthy E -> file_ok (e_file E) ->
  (forall E1 t, begin_write E = Some (E1, t) ->
       fit_ops E1 t os /\ t_last t + 1 < 2 ^ 64 /\
       forall t', do_ops E1 t os = Ret tt t' -> free_room E1 t' /\ N.of_nat (length (t_freed t')) < 8000) ->
  transact E os = Ok E' -> reads E (reader E) m ->
  healthy E' /\ file_ok (e_file E') /\ reads E' (reader E') (fold_left map_op os m).
Proof.
  intros (HU & HH) FO HF H HR. unfold transact in H. destruct (begin_write E) as [(E1, t)|] eqn:B; [|discriminate].
  specialize (HH E1 t eq_refl). destruct (HF E1 t eq_refl) as (F1 & F2 & F3). clear HF.
  apply (reader_reads_begin E E1 t m B) in HR. pose proof (begin_fields _ _ _ B) as (EE & Et).
  assert (FO1 : file_ok (e_file E1)) by (subst E1; exact FO).
  assert (HD : DI t). { intros _. rewrite Et. constructor; cbn; [constructor|discriminate]. }
  destruct (do_ops E1 t os) as [[] t'|e t'| |] eqn:X; try discriminate.
  destruct (ops_fit E1 os t t' m FO1 HD HH F1 X HR) as (SC & TT & DI' & RR). destruct (F3 t' eq_refl) as (F4 & F5).
  assert (L' : t_last t' = t_last t) by apply SC.
  destruct (db_commit E1 t' None) as [E2 [[]|e| |]] eqn:C; try discriminate. injection H as ->.
  destruct (t_dirty t') as [|d0 dl] eqn:DT.
  - unfold db_commit in C. rewrite DT in C. injection C as <-. subst E1.
    assert (HE : healthy (set_locked (set_locked E true) false)).
    { split; [reflexivity|]. intros E3 t3 B3. apply begin_fields in B3. destruct B3 as (-> & ->). cbn. rewrite Et in HH. exact HH. }
    split; [exact HE|]. split; [exact FO|].
    intros k Hk. rewrite <- (RR k Hk). apply db_get_view.
    + intro q. unfold get_page. cbn. destruct SC as (-> & _). rewrite DT. rewrite Et. reflexivity.
    + destruct SC as (_ & _ & -> & _). rewrite Et. reflexivity.
  - assert (DN : t_dirty t' <> []) by (rewrite DT; discriminate).
    pose proof TT as ((Hr & _) & SF & _).
    destruct (commit_done E1 t' E' FO1 Hr ltac:(apply DI'; lia) SF ltac:(lia) F5 F4 DN C) as (fr & t1 & DD).
    split; [|split; [apply (dn_fileok _ _ _ _ _ DD)|]].
    + split; [apply (dn_unlocked _ _ _ _ _ DD)|]. intros E3 t3 B3. apply (done_trees _ _ _ _ _ _ _ DD TT B3).
    + destruct (trees_cond E1 t' TT) as (h & TC). intros k Hk. rewrite <- (RR k Hk). exact (done_reads E1 t' E' fr t1 h k DD TC Hk).
Qed.

(** Any history of transactions is the same sequence of map updates, as long as no
    page has to be split.  The database stays healthy, so histories can be chained. *)
Theorem history_is_map_partial : forall txns E E' m,
  healthy E -> file_ok (e_file E) -> fit_history E txns -> history E txns = Ok E' ->
  reads E (reader E) m ->
  reads E' (reader E') (fold_left map_op (concat txns) m) /\ healthy E' /\ file_ok (e_file E').
Proof.
  induction txns as [|os r IH]; intros E E' m HH FO HF H HR; cbn [history fit_history concat] in *.
  - injection H as <-. auto.
  - destruct HF as (HF1 & HF2). destruct (transact E os) as [E1|e| |] eqn:T; try discriminate.
    destruct (transact_fits E E1 os m HH FO HF1 T HR) as (A & B & C). rewrite fold_left_app. eapply IH; eauto.
Qed.
Print Assumptions history_is_map_partial.

Lemma holds_trees E t kvs : txn_holds true 32 E t kvs -> t_free_root t = 0 ->
  (forall h, shape (get_page E t) h (t_root t) -> (h < 32)%nat) -> two_trees E t.
Proof.
  intros (Hr & TC) HQ HB. split; [|split].
  - split; [exact Hr|]. destruct TC as [[Z _]|(h & Hh & Nz & T & ND & PG & _)]; [left; exact Z|]. right.
    apply tree_shape in T. exists h. splits; auto. eapply Forall_impl; [|exact PG]. cbn. lia.
  - split; [exact Hr|]. left. exact HQ.
  - intros q _ (Z & _). congruence.
Qed.

(** With splits, as long as there is no Free DB yet (the first two transactions that
    change a new database). *)
Theorem early_transaction_is_map_partial : forall E E1 t os E' kvs,
  begin_write E = Some (E1, t) -> file_ok (e_file E) -> txn_holds true 32 E1 t kvs ->
  t_free_root t = 0 -> 1 <= t_last t -> t_last t + 40 * (1 + N.of_nat (length os)) < 2 ^ 64 ->
  clean_ops E1 t os -> Forall (fun o => match o with Put k v => 10 + blen k + blen v < 65536 | Del _ => True end) os ->
  (forall t', do_ops E1 t os = Ret tt t' -> N.of_nat (length (t_freed t')) < 8000 /\ t_last t' + 1 < 2 ^ 64) ->
  transact E os = Ok E' ->
  reads E' (reader E') (fold_left map_op os (fun k => lookup k kvs)) /\ file_ok (e_file E') /\
  ((forall t' h, do_ops E1 t os = Ret tt t' -> shape (get_page E1 t') h (t_root t') -> (h < 32)%nat) -> healthy E').
Proof.
  intros E E1 t os E' kvs B FO HT HQ H1 Hl HC HS HB H. unfold transact in H. rewrite B in H.
  pose proof (begin_fields _ _ _ B) as (EE & Et). assert (FO1 : file_ok (e_file E1)) by (subst E1; exact FO).
  destruct (do_ops E1 t os) as [[] t'|e t'| |] eqn:X; try discriminate. destruct (HB t' eq_refl) as (B1 & B2).
  destruct (ops_clean E1 os t t' kvs HT HQ H1 Hl HC X) as (kvs' & HT' & HQ' & _ & L).
  assert (HDI : DI t').
  { assert (HD : DI t). { intros _. rewrite Et. constructor; cbn; [constructor|discriminate]. }
    clear -HD HS X FO1. revert t HD X. induction os as [|o r IH]; intros t HD X; cbn [do_ops] in X; [injection X as <-; exact HD|].
    inversion HS as [|? ? Ho HS']; subst. destruct (do_op E1 t o) as [[] t1|e t1| |] eqn:Y; try discriminate. cbn [bindo] in X. apply (IH HS' t1); auto.
    destruct o as [k v|k]; cbn [do_op] in Y.
    - pose proof (put_iout E1 t k v FO1 HD Ho) as P. rewrite Y in P. exact P.
    - pose proof (db_del_iout E1 FO1 t k None HD) as P. rewrite Y in P. exact P. }
  destruct (db_commit E1 t' None) as [E2 [[]|e| |]] eqn:C; try discriminate. injection H as ->.
  pose proof (holds_reads _ _ _ _ HT') as RR. pose proof HT' as (Hr & TC).
  destruct (t_dirty t') as [|d0 dl] eqn:DT.
  - unfold db_commit in C. rewrite DT in C. injection C as <-. subst E1.
    assert (RT : t' = t).
    { destruct os as [|o r]; cbn [do_ops] in X; [injection X as <-; reflexivity|]. exfalso.
      destruct (do_op (set_locked E true) t o) as [[] t1|e t1| |] eqn:Y; try discriminate. cbn [bindo] in X.
      assert (LL : forall os t0, lout t0 (do_ops (set_locked E true) t0 os)).
      { clear. induction os as [|o r IH]; intro t0; cbn [do_ops]; [apply later_refl|]. apply bind_lout; [destruct o; [apply put_later|apply db_del_lout]|]. intros; apply IH. }
      pose proof (LL r t1) as L1. rewrite X in L1. cbn [lout] in L1.
      assert (G : exists q, dget (t_dirty t1) q <> None).
      { destruct o as [k0 v0|k0]; cbn [do_op] in Y.
        - unfold db_put, db_put_with in Y. rewrite Et in Y. cbn [t_rdonly t_root] in Y. destruct (m_root (live_meta E) =? 0).
          + unfold new_root_leaf in Y. destruct (page_alloc _ _) as [n t2|e t2| |]; try discriminate. cbn [bindo] in Y.
            destruct (page_insert _ _ _ _ _) as [p| | |]; try discriminate. cbn [lift bindo] in Y. injection Y as <-. exists n. cbn [set_root t_dirty put_dirty set_dirty].
            unfold dset. cbn [dget]. rewrite N.eqb_refl. discriminate.
          + destruct (find_path _ _ _ _ _) as [[path leaf]|e| |]; try discriminate. cbn [lift bindo] in Y.
            destruct (page_search leaf k0) as [[fd i]|e| |]; try discriminate. cbn [lift bindo t_dirty dget] in Y. rewrite andb_false_r in Y.
            destruct (cow_path _ _ _) as [[] t3|e t3| |]; try discriminate. cbn [bindo] in Y.
            destruct (dget (t_dirty t3) _) as [p0|] eqn:D3; try discriminate.
            assert (Z : forall p1 t4, later t3 t4 -> match page_insert p1 i k0 (Some v0) 0 with
               | Ok p2 => Ret tt (put_dirty t4 (leaf_key (set_locked E true) (mkTxn false (m_txnid (live_meta E) + 1) (m_root (live_meta E)) (m_free (live_meta E)) [] (m_last (live_meta E)) []) (leaf_of path)) p2)
               | Err ENOSPC => run new, t5 <- leaf_split page_alloc (set_locked E true) t4 path (leaf_key (set_locked E true) (mkTxn false (m_txnid (live_meta E) + 1) (m_root (live_meta E)) (m_free (live_meta E)) [] (m_last (live_meta E)) []) (leaf_of path)) k0 v0 ;;
                               Ret tt (match new with Some r => set_root t5 r | None => t5 end)
               | Err e => Fail e t4 | UB => Bad | Fuel => NoFuel end = Ret tt t1 -> later t3 t1).
            { intros p1 t4 L4 Q. destruct (page_insert p1 i k0 (Some v0) 0) as [p2|[]| |]; try discriminate.
              - injection Q as <-. eapply later_trans; [exact L4|apply later_put].
              - pose proof (leaf_split_lout page_alloc page_alloc_lout (set_locked E true) t4 path
                  (leaf_key (set_locked E true) (mkTxn false (m_txnid (live_meta E) + 1) (m_root (live_meta E)) (m_free (live_meta E)) [] (m_last (live_meta E)) []) (leaf_of path)) k0 v0) as LS.
                destruct (leaf_split _ _ _ _ _ _ _) as [nw t5|? ?| |]; try discriminate. cbn [bindo lout] in *. injection Q as <-.
                eapply later_trans; [exact L4|]. eapply later_trans; [exact LS|]. destruct nw; [apply later_root|apply later_refl]. }
            eexists. apply (la_dirty t3 t1); [|rewrite D3; discriminate].
            destruct fd.
            * destruct (page_delete p0 i) as [p1| | |]; try discriminate. cbn [lift bindo] in Y. eapply Z; [|exact Y]. apply later_put.
            * cbn [bindo] in Y. eapply Z; [|exact Y]. apply later_refl.
        - unfold db_del in Y. destruct (t_rdonly t); [discriminate|]. destruct (t_root t =? 0); [discriminate|].
          destruct (find_path _ _ _ _ _) as [[path leaf]|e| |]; try discriminate. cbn [lift bindo] in Y.
          destruct (page_search leaf k0) as [[[] i]|e| |]; try discriminate. cbn [lift bindo] in Y.
          destruct (cow_path _ _ _) as [[] t3|e t3| |]; try discriminate. cbn [bindo] in Y.
          destruct (dget (t_dirty t3) _) as [p0|] eqn:D3; try discriminate.
          destruct (page_delete p0 i) as [p1| | |]; try discriminate. cbn [lift bindo] in Y. injection Y as <-.
          eexists. apply (la_dirty t3); [apply later_put|]. rewrite D3. discriminate. }
      destruct G as (q & G). apply (la_dirty _ _ L1) in G. rewrite DT in G. apply G. reflexivity. }
    split; [|split; [exact FO|]].
    + intros k Hk. rewrite <- L. rewrite <- (RR k Hk). apply db_get_view.
      * intro q. unfold get_page. cbn. rewrite Hr, DT. reflexivity.
      * rewrite RT, Et. reflexivity.
    + intro HB2. split; [reflexivity|]. intros E3 t3 B3. apply begin_fields in B3. destruct B3 as (-> & ->).
      pose proof (holds_trees _ t' kvs' HT' HQ' (fun h => HB2 t' h eq_refl)) as TT. rewrite RT, Et in TT. exact TT.
  - assert (DN : t_dirty t' <> []) by (rewrite DT; discriminate).
    assert (SF : shaped E1 (set_root t' (t_free_root t'))) by (split; [exact Hr|left; exact HQ']).
    destruct (commit_done E1 t' E' FO1 Hr ltac:(apply HDI; lia) SF B2 B1 ltac:(right; left; exact HQ') DN C) as (fr & t1 & DD).
    split; [|split; [apply (dn_fileok _ _ _ _ _ DD)|]].
    + intros k Hk. rewrite <- L. rewrite <- (RR k Hk). destruct TC as [[Z _]|(h & Hh & Nz & T & ND & PG & _)].
      * apply (done_reads E1 t' E' fr t1 0%nat k DD); auto.
      * apply (done_reads E1 t' E' fr t1 h k DD); [|exact Hk]. right. splits; auto; [lia|eapply tree_shape; eauto|].
        intros q Hq. rewrite Forall_forall in PG. split; [apply PG; exact Hq|]. intros (Z & _). congruence.
    + intro HB2. split; [apply (dn_unlocked _ _ _ _ _ DD)|]. intros E3 t3 B3.
      pose proof (holds_trees _ t' kvs' HT' HQ' (fun h => HB2 t' h eq_refl)) as TT. apply (done_trees _ _ _ _ _ _ _ DD TT B3).
Qed.
Print Assumptions early_transaction_is_map_partial.

(** ** C15 crash atomicity *)
(** the first data ever committed *)
Theorem crash_atomic_first_partial : forall E t E' fr t1 n keep,
  settled E -> file_ok (e_file E) -> t_rdonly t = false -> dirty_ok t -> shaped E (set_root t (t_free_root t)) ->
  t_last t + 1 < 2 ^ 64 -> N.of_nat (length (t_freed t)) < 8000 -> free_room E t -> t_dirty t <> [] ->
  m_root (live_meta E) = 0 -> t_id t = m_txnid (live_meta E) + 1 ->
  populate_free_db page_alloc E t = Ret fr t1 -> db_commit E t None = (E', Ok tt) ->
  exists E2, env_open (crash_disk (disk_of E) (commit_ios E t1 fr) n keep) = Ok E2 /\
    ((forall k, read_now E2 k = read_now E k) \/ (forall k, read_now E2 k = read_now E' k)).
Proof.
  intros E t E' fr t1 n keep S FO Hr DO SF Hl Hn FR D R0 Id P H.
  destruct (commit_done E t E' FO Hr DO SF Hl Hn FR D H) as (fr' & t1' & DD). pose proof (dn_pop _ _ _ _ _ DD) as P'. rewrite P in P'. injection P' as <- <-.
  destruct (crash_mix E t1 fr n keep (dn_ok _ _ _ _ _ DD) (dn_ro _ _ _ _ _ DD)) as [(M & F)|X].
  - destruct (reopen_mix E _ S M) as (E2 & O & LM & _). exists E2. split; [exact O|]. left.
    intro k. unfold read_now, reader, db_get. rewrite LM. cbn [t_root]. rewrite R0. reflexivity.
  - rewrite X, <- (dn_disk _ _ _ _ _ DD). destruct (reopen_done _ _ _ _ _ DD Id) as (E2 & O & A & B). exists E2. split; [exact O|]. right.
    intro k. apply read_now_same; assumption.
Qed.
Print Assumptions crash_atomic_first_partial.

(** A transaction that changed at most one page of the tree and did not move its root:
    whatever the crash leaves, reopening shows the old or the new bindings.  Missing for
    the full claim: transactions that change more than one page of the old tree. *)
Theorem crash_atomic_one_page_partial : forall E E1 t t' E' fr t1 n keep,
  settled E -> file_ok (e_file E) -> begin_write E = Some (E1, t) ->
  one_leaf E1 t t' -> t_root t' = t_root t -> t_root t <> 0 -> t_id t' = t_id t -> two_trees E1 t' -> dirty_ok t' ->
  t_last t' + 1 < 2 ^ 64 -> N.of_nat (length (t_freed t')) < 8000 -> free_room E1 t' -> t_dirty t' <> [] ->
  populate_free_db page_alloc E1 t' = Ret fr t1 -> db_commit E1 t' None = (E', Ok tt) ->
  exists E2, env_open (crash_disk (disk_of E) (commit_ios E1 t1 fr) n keep) = Ok E2 /\
    ((forall k, blen k < 65536 -> read_now E2 k = read_now E k) \/ (forall k, blen k < 65536 -> read_now E2 k = db_get E1 t' k)).
Proof.
  intros E E1 t t' E' fr t1 n keep S FO B (h & l & Hh & SH & SH' & PP & Il & OO) Rt Nz Id TT DO Hl Hn FR D P H.
  pose proof (begin_fields _ _ _ B) as (EE & Et). assert (FO1 : file_ok (e_file E1)) by (subst E1; exact FO).
  pose proof TT as ((Hr & _) & SF & DJ).
  destruct (commit_done E1 t' E' FO1 Hr DO SF Hl Hn FR D H) as (fr' & t1' & DD). pose proof (dn_pop _ _ _ _ _ DD) as P'. rewrite P in P'. injection P' as <- <-.
  assert (S1 : settled E1) by (subst E1; exact S).
  assert (DE : disk_of E = disk_of E1) by (subst E1; reflexivity). rewrite DE.
  assert (LME : live_meta E1 = live_meta E) by (subst E1; reflexivity).
  assert (VE : forall q, get_page E1 t q = e_file E1 q) by (intro q; subst t; reflexivity).
  assert (TP : forall q, In q (tree_pages (get_page E1 t) h (t_root t)) -> get_page E1 t1 q = get_page E1 t' q).
  { intros q Hq. assert (IT : in_tree (get_page E1 t') (t_root t') q). { rewrite Rt. apply (in_tree_height _ h); auto. rewrite PP. exact Hq. }
    apply (dn_frame _ _ _ _ _ DD); [|apply DJ; exact IT].
    destruct TT as ((_ & [Z|(h' & _ & _ & S' & _ & PG)]) & _); [rewrite Rt in Z; congruence|]. rewrite Forall_forall in PG. apply PG.
    apply (in_tree_height _ h') in IT; auto. rewrite Rt. exact Nz. }
  destruct (crash_mix E1 t1 fr n keep (dn_ok _ _ _ _ _ DD) (dn_ro _ _ _ _ _ DD)) as [(M & F)|X].
  - destruct (reopen_mix E1 _ S1 M) as (E2 & O & LM & FE). exists E2. split; [exact O|].
    set (f := d_file (crash_disk (disk_of E1) (commit_ios E1 t1 fr) n keep)) in *.
    assert (RR : t_root (reader E2) = t_root t). { unfold reader. cbn [t_root]. rewrite LM, LME. subst t. reflexivity. }
    assert (FQ : forall q, get_page E2 (reader E2) q = f q) by (intro q; unfold get_page, reader; cbn [t_rdonly]; rewrite FE; reflexivity).
    assert (EQ : forall q, In q (tree_pages (get_page E1 t) h (t_root t)) -> q <> l -> f q = get_page E1 t q /\ f q = get_page E1 t' q).
    { intros q Hq Ne. assert (Y : get_page E1 t1 q = get_page E1 t q) by (rewrite TP by exact Hq; apply OO; exact Ne).
      rewrite (OO q Ne). destruct (F q) as [Z|Z]; rewrite Z, ?VE, ?Y, ?VE; auto. }
    destruct (F l) as [Z|Z].
    + left. intros k Hk. transitivity (db_get E1 t k).
      * apply (get_frame E1 t E2 (reader E2) h k); auto; try lia. intros q Hq. rewrite FQ. destruct (N.eq_dec q l) as [->|Ne]; [fold f in Z; rewrite Z, VE; reflexivity|apply EQ; assumption].
      * unfold read_now. apply db_get_view; [|subst t; reflexivity]. intro q. rewrite VE. subst E1. reflexivity.
    + right. intros k Hk. apply (get_frame E1 t' E2 (reader E2) h k); auto; try lia; try congruence; rewrite ?Rt; auto.
      intros q Hq. rewrite FQ. rewrite PP in Hq. destruct (N.eq_dec q l) as [->|Ne]; [fold f in Z; rewrite Z; apply TP; exact Hq|apply EQ; assumption].
  - rewrite X, <- (dn_disk _ _ _ _ _ DD). destruct (reopen_done _ _ _ _ _ DD) as (E2 & O & A & Bb).
    { rewrite Id, LME. subst t. reflexivity. }
    exists E2. split; [exact O|]. right.
    intros k Hk. rewrite (read_now_same E' E2 k A Bb). destruct (trees_cond E1 t' TT) as (h' & C). exact (done_reads E1 t' E' fr t1 h' k DD C Hk).
Qed.
Print Assumptions crash_atomic_one_page_partial.

(** a single put that fits, or a single del, is such a transaction *)
Theorem single_operation_crash_atomic_partial : forall E E1 t o t' E' fr t1 n keep,
  settled E -> healthy E -> file_ok (e_file E) -> begin_write E = Some (E1, t) ->
  fit_ops E1 t [o] -> do_op E1 t o = Ret tt t' -> t_last t + 1 < 2 ^ 64 ->
  N.of_nat (length (t_freed t')) < 8000 -> free_room E1 t' -> t_dirty t' <> [] ->
  populate_free_db page_alloc E1 t' = Ret fr t1 -> db_commit E1 t' None = (E', Ok tt) ->
  exists E2, env_open (crash_disk (disk_of E) (commit_ios E1 t1 fr) n keep) = Ok E2 /\
    ((forall k, blen k < 65536 -> read_now E2 k = read_now E k) \/ (forall k, blen k < 65536 -> read_now E2 k = db_get E1 t' k)).
Proof.
  intros E E1 t o t' E' fr t1 n keep S (HU & HH) FO B (Ho & _) X Hl Hn FR D P H.
  pose proof (HH E1 t B) as TT. pose proof (begin_fields _ _ _ B) as (EE & Et). assert (FO1 : file_ok (e_file E1)) by (subst E1; exact FO).
  assert (HD : DI t). { intros _. rewrite Et. constructor; cbn; [constructor|discriminate]. }
  assert (G : same_ctl t t' /\ two_trees E1 t' /\ DI t' /\ one_leaf E1 t t' /\ t_root t <> 0).
  { pose proof TT as (SM & _ & _). destruct o as [k v|k]; cbn [do_op] in X.
    - destruct Ho as (Hs & Nz & Hf). assert (Hs' : leaf_size k v < 65536) by (unfold leaf_size, LEAF_BASE; lia).
      pose proof (put_iout E1 t k v FO1 HD Hs) as PI. rewrite X in PI.
      destruct (db_put_shape page_alloc E1 t k v Hs' SM Nz Hf) as [(_ & _ & Y)|(_ & t2 & Y & SC & SH & OL & G)];
        unfold db_put in X; rewrite Y in X; [discriminate|]. injection X as ->.
      split; [exact SC|]. split; [eapply one_leaf_trees; eauto|]. split; [exact PI|]. auto.
    - pose proof (db_del_iout E1 FO1 t k None HD) as PI. rewrite X in PI.
      pose proof (db_del_shape E1 t k None Ho SM) as DS. destruct (db_get E1 t k) as [v|e| |] eqn:G0; try destruct DS; [|congruence].
      destruct H0 as (Y & SC & SH & OL & G). rewrite Y in X. injection X as ->.
      assert (Nz : t_root t <> 0). { intro Z. unfold db_get in G0. rewrite Z in G0. discriminate. }
      split; [exact SC|]. split; [eapply one_leaf_trees; eauto|]. split; [exact PI|]. auto. }
  destruct G as ((C1 & C2 & C3 & C4 & C5) & TT' & DI' & OL & Nz).
  apply (crash_atomic_one_page_partial E E1 t t' E' fr t1 n keep); auto; try lia. apply DI'. lia.
Qed.
Print Assumptions single_operation_crash_atomic_partial.

(** ** C17 snapshots *)
(** The full claim needs every commit to leave the pages of the snapshot alone.  Commits
    that do so (in particular: no commit at all) keep every answer. *)
Theorem snapshot_stable_partial : forall s l s' h r k,
  reaches s l s' -> t_rdonly r = true -> t_root r <> 0 -> (h < 64)%nat -> blen k < 65536 ->
  shape (e_file (y_env s)) h (t_root r) ->
  spares (fun q => In q (tree_pages (e_file (y_env s)) h (t_root r))) s l ->
  db_get (y_env s') r k = db_get (y_env s) r k.
Proof.
  intros s l s' h r k R Hr Nz Hh Hk SH SP.
  assert (VV : forall E q, get_page E r q = e_file E q) by (intros E q; unfold get_page; rewrite Hr; reflexivity).
  assert (G : forall (P : N -> Prop) l s s', reaches s l s' -> spares P s l -> forall q, P q -> e_file (y_env s') q = e_file (y_env s) q).
  { clear. intros P l s s' R. induction R as [|s a s1 l s2 H R IH]; intros SP q Hq; [reflexivity|]. cbn [spares] in SP. destruct SP as (A & B).
    rewrite (IH (B s1 H) q Hq). destruct a as [h|h k v|h k d|h f|h|h pid tid|h];
      try (destruct (live_of_step _ _ _ H I) as (D & _); injection D as D _ _; rewrite D; reflexivity).
    cbn [step] in H. destruct (wget (y_writers s) h) as [t|] eqn:W; [|discriminate].
    assert (G : forall E' r, db_commit (y_env s) t f = (E', r) -> (exists x, r = Ok x) \/ (exists e, r = Err e) -> e_file E' q = e_file (y_env s) q).
    { intros E' r X Y. assert (C : commit_case (y_env s) t E' r) by (eapply commit_cases; [exact X|exact Y]).
      assert (WF : forall fr t1 l, populate_free_db page_alloc (y_env s) t = Ret fr t1 -> (exists m, l = firstn m (commit_ios (y_env s) t1 fr)) ->
         forall d, d_file (fold_left io_apply l d) q = d_file d q).
      { intros fr t1 l0 P0 (m & ->) d. assert (Q : forall o, In o (commit_ios (y_env s) t1 fr) -> match o with WPage pg _ => pg <> q | _ => True end).
        { intros o Ho. rewrite ios_eq in Ho. apply in_app_or in Ho. destruct Ho as [Ho|Ho].
          - apply in_map_iff in Ho. destruct Ho as ((a & p) & <- & Ho). cbn [snd]. intros <-. apply (A t fr t1 eq_refl P0 a p Ho). exact Hq.
          - destruct Ho as [<-|[<-|[<-|[]]]]; exact I. }
        assert (Q' : forall o, In o (firstn m (commit_ios (y_env s) t1 fr)) -> match o with WPage pg _ => pg <> q | _ => True end).
        { intros o Ho. apply Q. eapply firstn_In; exact Ho. }
        revert Q' d. generalize (firstn m (commit_ios (y_env s) t1 fr)). clear. induction l as [|o l IH]; intros Q d; [reflexivity|]. cbn [fold_left].
        rewrite IH by (intros o' Ho'; apply Q; right; exact Ho'). specialize (Q o (or_introl eq_refl)). destruct o as [pg p|[] m|]; try reflexivity.
        cbn [io_apply d_file]. destruct (N.eqb_spec q pg); congruence. }
      destruct C as [D|e D|m fr t1 E1 D P0 X1 X2 L Rd K|fr t1 E1 D P0 X1 L Rd K]; try reflexivity.
      - change (e_file E1 q) with (d_file (disk_of E1) q). rewrite X1. apply (WF fr t1 _ P0). eauto.
      - change (e_file E1 q) with (d_file (disk_of E1) q). rewrite X1. apply (WF fr t1 _ P0). exists (length (commit_ios (y_env s) t1 fr)). symmetry. apply firstn_all. }
    destruct (db_commit (y_env s) t f) as [E' [x|e| |]] eqn:Q; try discriminate; injection H as <-; cbn [y_env]; eapply G; eauto. }
  assert (FR : forall q, In q (tree_pages (e_file (y_env s)) h (t_root r)) -> e_file (y_env s') q = e_file (y_env s) q) by (apply (G _ l s s' R SP)).
  assert (TP : tree_pages (get_page (y_env s) r) h (t_root r) = tree_pages (e_file (y_env s)) h (t_root r)) by (apply kvs_frame; intros; apply VV).
  apply (get_frame (y_env s) r (y_env s') r h k); auto.
  - apply (shape_frame (e_file (y_env s)) _ h (t_root r)); auto.
  - intros q Hq. rewrite !VV. apply FR. rewrite <- TP. exact Hq.
Qed.
Print Assumptions snapshot_stable_partial.

(** runs without a commit spare every page *)
Lemma spares_uncommitted P : forall l s, Forall uncommitted l -> spares P s l.
Proof.
  induction l as [|a l IH]; intros s HF; cbn [spares]; [exact I|]. inversion HF; subst. split; [|intros; apply IH; assumption].
  destruct a; try exact I. contradiction.
Qed.

(** ** Counterexamples to the full claims *)
Definition fillb (n x : N) : bytes := repeat x (N.to_nat n).
Definition get_env (r : res env) : env := match r with Ok E => E | _ => env_create end.
Definition is_ok {T} (r : res T) : bool := match r with Ok _ => true | _ => false end.
Lemma ok_env r : is_ok r = true -> r = Ok (get_env r).
Proof. destruct r; [reflexivity|discriminate..]. Qed.
Definition ret_txn {T} (o : out T) : txn := match o with Ret _ t | Fail _ t => t | _ => mkTxn true 0 0 0 [] 0 [] end.
Definition ret_val (o : out N) : N := match o with Ret n _ => n | _ => 0 end.
Definition begun (E : env) : txn := match begin_write E with Some (_, t) => t | None => mkTxn true 0 0 0 [] 0 [] end.

Lemma ret_is o n : (match o with Ret m _ => m =? n | _ => false end) = true -> o = Ret n (ret_txn o).
Proof. destruct o; try discriminate. intro H. apply N.eqb_eq in H. subst. reflexivity. Qed.
Lemma ret_unit o : (match o with Ret _ _ => true | _ => false end) = true -> o = Ret tt (ret_txn o).
Proof. destruct o as [[] t| | |]; try discriminate. reflexivity. Qed.
Lemma begun_is E : e_locked E = false -> begin_write E = Some (set_locked E true, begun E).
Proof. unfold begun, begin_write. intros ->. reflexivity. Qed.

(** three values, two leaves under a root *)
Definition setup3 : res env := transact env_create [Put [97] (fillb 1400 1); Put [98] (fillb 1400 1); Put [99] (fillb 1400 1)].
Definition E3 : env := get_env setup3.
(** a transaction replacing the first and the last value *)
Definition T3 : txn := ret_txn (do_ops E3 (begun E3) [Put [97] (fillb 1400 2); Put [99] (fillb 1400 2)]).
Definition T3' : txn := ret_txn (populate_free_db page_alloc E3 T3).
Definition T3fr : N := ret_val (populate_free_db page_alloc E3 T3).
Definition crashed : res env := env_open (crash_disk (disk_of E3) (commit_ios E3 T3' T3fr) 3 [false; false; true]).

(** a crash in the middle of the page writes leaves one of the two new values *)
Theorem crash_atomic_refuted :
  setup3 = Ok E3 /\ crashed = Ok (get_env crashed) /\
  read_now E3 [97] = Ok (fillb 1400 1) /\ read_now E3 [99] = Ok (fillb 1400 1) /\
  db_get E3 T3 [97] = Ok (fillb 1400 2) /\ db_get E3 T3 [99] = Ok (fillb 1400 2) /\
  read_now (get_env crashed) [97] = Ok (fillb 1400 2) /\ read_now (get_env crashed) [99] = Ok (fillb 1400 1).
Proof.
  split; [apply ok_env; vm_compute; reflexivity|]. split; [apply ok_env; vm_compute; reflexivity|].
  repeat (split; [vm_compute; reflexivity|]). vm_compute. reflexivity.
Qed.
Print Assumptions crash_atomic_refuted.

(** a reader that was there first sees the value committed by a later writer *)
Definition E4 : env := get_env (transact E3 [Put [97] (fillb 1400 2)]).
Theorem snapshot_stable_refuted :
  transact E3 [Put [97] (fillb 1400 2)] = Ok E4 /\
  db_get E3 (reader E3) [97] = Ok (fillb 1400 1) /\ db_get E4 (reader E3) [97] = Ok (fillb 1400 2).
Proof. split; [apply ok_env; vm_compute; reflexivity|]. split; vm_compute; reflexivity. Qed.
Print Assumptions snapshot_stable_refuted.

(** two transactions of one put each; the third allocates the page that holds the data *)
Definition E5 : env := get_env (history env_create [[Put [97] (fillb 1900 1)]; [Put [99] (fillb 1900 1)]]).
Definition T5 : txn := begun E5.
Theorem page_reuse_refuted :
  history env_create [[Put [97] (fillb 1900 1)]; [Put [99] (fillb 1900 1)]] = Ok E5 /\
  begin_write E5 = Some (set_locked E5 true, T5) /\
  read_now E5 [97] = Ok (fillb 1900 1) /\
  (exists t', page_alloc E5 T5 = Ret (t_root T5) t') /\
  (exists t', db_put E5 T5 [98] (fillb 1900 9) = Ret tt t' /\ db_get E5 t' [97] = Err NOTFOUND).
Proof.
  split; [apply ok_env; vm_compute; reflexivity|].
  split; [apply begun_is; vm_compute; reflexivity|].
  split; [vm_compute; reflexivity|]. split.
  - exists (ret_txn (page_alloc E5 T5)). apply ret_is. vm_compute. reflexivity.
  - exists (ret_txn (db_put E5 T5 [98] (fillb 1900 9))). split; [|vm_compute; reflexivity]. apply ret_unit. vm_compute. reflexivity.
Qed.
Print Assumptions page_reuse_refuted.

(** ** The hypotheses are met by concrete databases *)
(** computable forms *)
Definition fitsb (E : env) (t : txn) (k v : bytes) : bool :=
  let V := get_page E t in
  leaf_size k v + 2 <=? leaf_avail (V (leaf_on V k (height_of 33 V (t_root t)) (t_root t))) k.
Fixpoint fit_opsb (E : env) (t : txn) (os : list op) : bool :=
  match os with
  | [] => true
  | o :: r =>
    (match o with
     | Put k v => (10 + blen k + blen v <? 65536) && negb (t_root t =? 0) && fitsb E t k v
     | Del k => blen k <? 65536
     end) &&
    (match do_op E t o with Ret _ t1 => fit_opsb E t1 r | _ => true end)
  end.
Definition free_roomb (E : env) (t : txn) : bool :=
  (match t_freed t with [] => true | _ => false end) || (t_free_root t =? 0) ||
  (let V := get_page E t in
   let leaf := V (leaf_on V (le_bytes 8 (t_id t)) (height_of 33 V (t_free_root t)) (t_free_root t)) in
   (match lookup (le_bytes 8 (t_id t)) (leaf_entries leaf) with None => true | Some _ => false end) &&
   (12 + 8 * N.of_nat (length (t_freed t)) + 2 <=? page_free leaf)).
Fixpoint fit_historyb (E : env) (txns : list (list op)) : bool :=
  match txns with
  | [] => true
  | os :: r =>
    (match begin_write E with
     | Some (E1, t) =>
       fit_opsb E1 t os && (t_last t + 1 <? 2 ^ 64) &&
       (match do_ops E1 t os with
        | Ret _ t' => free_roomb E1 t' && (N.of_nat (length (t_freed t')) <? 8000)
        | _ => true end)
     | None => true
     end) &&
    (match transact E os with Ok E' => fit_historyb E' r | _ => true end)
  end.

Lemma fit_opsb_ok E : forall os t m, file_ok (e_file E) -> DI t -> two_trees E t -> reads E t m -> fit_opsb E t os = true -> fit_ops E t os.
Proof.
  induction os as [|o r IH]; intros t m FO HD TT HR H; cbn [fit_ops fit_opsb] in *; [exact I|]. apply andb_prop in H. destruct H as (H1 & H2).
  assert (A : match o with Put k v => 10 + blen k + blen v < 65536 /\ t_root t <> 0 /\ fits E t k v | Del k => blen k < 65536 end).
  { destruct o as [k v|k]; [|apply N.ltb_lt; exact H1]. apply andb_prop in H1. destruct H1 as (H1 & H3). apply andb_prop in H1. destruct H1 as (H1 & H4).
    apply N.ltb_lt in H1. apply negb_true_iff, N.eqb_neq in H4. splits; auto. intros h S. pose proof TT as ((_ & [Z|(h1 & Hh & _ & S1 & _)]) & _); [congruence|].
    unfold fitsb in H3. rewrite (height_of_ok _ 33 h1 _ ltac:(lia) S1) in H3. rewrite (shape_height _ _ _ _ S S1). apply N.leb_le. exact H3. }
  split; [exact A|]. intros t1 X. rewrite X in H2. destruct (op_fits E t o t1 m FO HD TT A X HR) as (_ & B & C & D). exact (IH t1 _ FO C B D H2).
Qed.
Lemma free_roomb_ok E t : two_trees E t -> free_roomb E t = true -> free_room E t.
Proof.
  intros (_ & (_ & SF) & _) H. unfold free_roomb in H. unfold free_room. destruct (t_freed t) eqn:D; [left; reflexivity|].
  destruct (N.eqb_spec (t_free_root t) 0) as [Z|Nz]; [right; left; exact Z|]. right; right. intros h S. cbn [orb] in H.
  destruct SF as [Z|(h1 & Hh & _ & S1 & _)]; [cbn in Z; congruence|]. cbn [set_root t_root] in S1.
  change (get_page E (set_root t (t_free_root t))) with (get_page E t) in S1.
  rewrite (height_of_ok _ 33 h1 _ ltac:(lia) S1) in H. rewrite (shape_height _ _ _ _ S S1). apply andb_prop in H. destruct H as (H1 & H2).
  split; [|apply N.leb_le; exact H2]. destruct (lookup _ _); [discriminate|reflexivity].
Qed.
Lemma fit_historyb_ok : forall txns E m, healthy E -> file_ok (e_file E) -> reads E (reader E) m -> fit_historyb E txns = true -> fit_history E txns.
Proof.
  induction txns as [|os r IH]; intros E m HH FO HR H; cbn [fit_history fit_historyb] in *; [exact I|]. apply andb_prop in H. destruct H as (H1 & H2).
  assert (A : forall E1 t, begin_write E = Some (E1, t) ->
       fit_ops E1 t os /\ t_last t + 1 < 2 ^ 64 /\
       forall t', do_ops E1 t os = Ret tt t' -> free_room E1 t' /\ N.of_nat (length (t_freed t')) < 8000).
  { intros E1 t B. rewrite B in H1. apply andb_prop in H1. destruct H1 as (H1 & H3). apply andb_prop in H1. destruct H1 as (H1 & H4).
    pose proof (begin_fields _ _ _ B) as (EE & Et). assert (FO1 : file_ok (e_file E1)) by (subst E1; exact FO).
    assert (HD : DI t). { intros _. rewrite Et. constructor; cbn; [constructor|discriminate]. }
    pose proof (proj2 HH E1 t B) as TT. pose proof (proj1 (reader_reads_begin E E1 t m B) HR) as RR.
    pose proof (fit_opsb_ok E1 os t m FO1 HD TT RR H1) as F. split; [exact F|]. split; [apply N.ltb_lt; exact H4|].
    intros t' X. rewrite X in H3. apply andb_prop in H3. destruct H3 as (H3 & H5). destruct (ops_fit E1 os t t' m FO1 HD TT F X RR) as (_ & TT' & _).
    split; [apply free_roomb_ok; assumption|apply N.ltb_lt; exact H5]. }
  split; [exact A|]. intros E' T. rewrite T in H2. destruct (transact_fits E E' os m HH FO A T HR) as (B & C & D). exact (IH E' _ B C D H2).
Qed.

Lemma fit_begun E os m : healthy E -> file_ok (e_file E) -> reads E (reader E) m ->
  fit_opsb (set_locked E true) (begun E) os = true -> fit_ops (set_locked E true) (begun E) os.
Proof.
  intros HH FO HR H. pose proof (begun_is E (proj1 HH)) as B.
  assert (FO1 : file_ok (e_file (set_locked E true))) by exact FO.
  apply (fit_opsb_ok (set_locked E true) os (begun E) m FO1); [| |exact (proj1 (reader_reads_begin E _ _ m B) HR)|exact H].
  - intros _. pose proof (begin_fields _ _ _ B) as (_ & ->). constructor; cbn; [constructor|discriminate].
  - exact (proj2 HH _ _ B).
Qed.
(** the first transaction, with a split *)
Definition ops3 : list op := [Put [97] (fillb 1400 1); Put [98] (fillb 1400 1); Put [99] (fillb 1400 1)].
Example early_case :
  reads E3 (reader E3) (fold_left map_op ops3 (fun k => lookup k [])) /\ file_ok (e_file E3) /\ healthy E3.
Proof.
  assert (HL : forall t', do_ops (set_locked env_create true) (begun env_create) ops3 = Ret tt t' ->
     t' = ret_txn (do_ops (set_locked env_create true) (begun env_create) ops3)) by (intros t' ->; reflexivity).
  assert (HT : txn_holds true 32 (set_locked env_create true) (begun env_create) []).
  { split; [reflexivity|left; split; reflexivity]. }
  assert (HC : clean_ops (set_locked env_create true) (begun env_create) ops3) by (apply clean_opsb_ok; vm_compute; reflexivity).
  destruct (early_transaction_is_map_partial env_create (set_locked env_create true) (begun env_create) ops3 E3 []) as (A & B & C).
  - apply begun_is. reflexivity.
  - intro q. left. split; reflexivity.
  - exact HT.
  - reflexivity.
  - vm_compute. discriminate.
  - vm_compute. reflexivity.
  - exact HC.
  - repeat constructor; vm_compute; reflexivity.
  - intros t' X. rewrite (HL t' X). split; vm_compute; reflexivity.
  - apply ok_env. vm_compute. reflexivity.
  - split; [exact A|]. split; [exact B|]. apply C. intros t' h X S.
    destruct (ops_clean _ ops3 _ t' [] HT eq_refl ltac:(vm_compute; discriminate) ltac:(vm_compute; reflexivity) HC X) as (kvs' & (_ & [[Z _]|(h1 & Hh & _ & T & _)]) & _).
    + rewrite (HL t' X) in Z. vm_compute in Z. discriminate.
    + apply tree_shape in T. rewrite (shape_height _ _ _ _ S T). rewrite <- (height_of_ok _ 33 h1 _ ltac:(lia) T), (HL t' X).
      assert (V : height_of 33 (get_page (set_locked env_create true) (ret_txn (do_ops (set_locked env_create true) (begun env_create) ops3)))
        (t_root (ret_txn (do_ops (set_locked env_create true) (begun env_create) ops3))) = 1%nat) by (vm_compute; reflexivity).
      rewrite V. lia.
Qed.
(** then three transactions without a split: the second change creates the Free DB *)
Definition hist3 : list (list op) := [[Put [97] (fillb 1400 2)]; [Put [99] [7]; Del [98]]; [Put [98; 1] [8]]].
Definition E6 : env := get_env (history E3 hist3).
Example history_case : history E3 hist3 = Ok E6 /\ fit_history E3 hist3 /\
  read_now E6 [97] = Ok (fillb 1400 2) /\ read_now E6 [98] = Err NOTFOUND /\ read_now E6 [98; 1] = Ok [8] /\ m_free (live_meta E6) <> 0.
Proof.
  destruct early_case as (A & B & C). split; [apply ok_env; vm_compute; reflexivity|]. split; [|vm_compute; splits; try reflexivity; discriminate].
  apply (fit_historyb_ok hist3 E3 _ C B A). vm_compute. reflexivity.
Qed.
(** a single put on it satisfies the hypotheses of the crash theorem *)
Example single_operation_case :
  settled E3 /\ healthy E3 /\ file_ok (e_file E3) /\ begin_write E3 = Some (set_locked E3 true, begun E3) /\
  fit_ops (set_locked E3 true) (begun E3) [Put [97] (fillb 1400 2)] /\
  let o := do_op (set_locked E3 true) (begun E3) (Put [97] (fillb 1400 2)) in
  o = Ret tt (ret_txn o) /\ free_room (set_locked E3 true) (ret_txn o) /\
  t_dirty (ret_txn o) <> [] /\ is_ok (snd (db_commit (set_locked E3 true) (ret_txn o) None)) = true.
Proof.
  destruct early_case as (A & B & C). split; [vm_compute; reflexivity|]. split; [exact C|]. split; [exact B|].
  assert (BW : begin_write E3 = Some (set_locked E3 true, begun E3)) by (apply begun_is; vm_compute; reflexivity). split; [exact BW|].
  split; [apply (fit_begun E3 _ _ C B A); vm_compute; reflexivity|].
  cbv zeta. split; [apply ret_unit; vm_compute; reflexivity|]. split; [right; left; vm_compute; reflexivity|]. split; [|vm_compute; reflexivity].
    intro Z. assert (Y : match t_dirty (ret_txn (do_op (set_locked E3 true) (begun E3) (Put [97] (fillb 1400 2)))) with [] => false | _ => true end = true) by (vm_compute; reflexivity).
    rewrite Z in Y. discriminate.
Qed.
(** a reader of that database has such a tree *)
Example snapshot_case : exists h, shape (e_file E3) h (t_root (reader E3)) /\ (h < 64)%nat /\ t_root (reader E3) <> 0.
Proof.
  destruct early_case as (_ & _ & C).
  assert (G : forall E, healthy E -> (m_root (live_meta E) =? 0) = false -> exists h, shape (e_file E) h (t_root (reader E)) /\ (h < 64)%nat /\ t_root (reader E) <> 0).
  { clear. intros E HH R. pose proof (begun_is E (proj1 HH)) as B. pose proof (proj2 HH _ _ B) as ((_ & T) & _).
    pose proof (begin_fields _ _ _ B) as (_ & Et). apply N.eqb_neq in R. rewrite Et in T.
    destruct T as [Z|(h & Hh & Nz & S & _)]; [cbn in Z; congruence|]. exists h. splits; [exact S|lia|exact R]. }
  apply G; [exact C|vm_compute; reflexivity].
Qed.
