(** Property C171: after a commit that failed or was cut off, the database can still be updated. *)
From Coq Require Import Permutation.
From Verif Require Import Util PageModel PageSpec PageProofs PageOps PropPage TxnModel CursorModel TreeModel TreeSpec TreeProofs TreeOps TreeSplit TreePut TreeShape DbModel SysModel DbSpec DbProofs DbCommit PropEnds PropTiny.
Local Open Scope N_scope.

(** ** Specification *)
(** [E] holds exactly the pairs [l] *)
Definition holds_pairs (E : env) (l : list (bytes * bytes)) : Prop :=
  forall k, blen k < 65536 -> read_now E k = match lookup k l with Some v => Ok v | None => Err NOTFOUND end.
(** one attempt at a write transaction with the operations [os]: they succeed, and the commit
    returns [r] and leaves [E'] *)
Definition attempt (E : env) (os : list op) (fail : option nat) (E' : env) (r : res unit) : Prop :=
  exists E1 t t', begin_write E = Some (E1, t) /\ do_ops E1 t os = Ret tt t' /\ db_commit E1 t' fail = (E', r).
(** what a process and those after it can get to from [E], which holds [l], by transactions of
    any operations after which the pairs still fit in one page, without another failure *)
Inductive goes_on (l : list (bytes * bytes)) (E : env) : env -> Prop :=
| go_here : goes_on l E E
| go_try E1 os E2 r : goes_on l E E1 -> os <> [] -> tiny l os -> attempt E1 os None E2 r -> goes_on l E E2
| go_reopen E1 E2 : goes_on l E E1 -> env_open (disk_of E1) = Ok E2 -> goes_on l E E2.

(** ** Proof *)
(** two transactions and more are committed, and the Free DB has the entry of the next one *)
Definition stuck (n : nat) (E : env) (l : list (bytes * bytes)) : Prop :=
  e_locked E = false /\ live_meta E = mkMeta DB_MAGIC DB_VERSION (3 + N.of_nat n) 2 3 3 /\ e_file E 3 = fdb (S n) /\ one_page (e_file E 2) l.
(** one transaction is committed *)
Definition once (E : env) (l : list (bytes * bytes)) : Prop :=
  e_locked E = false /\ live_meta E = mkMeta DB_MAGIC DB_VERSION 2 2 2 0 /\ one_page (e_file E 2) l.

Lemma fdb_has n : (n < 184)%nat -> exists i, page_search (fdb (S n)) (le_bytes 8 (4 + N.of_nat n)) = Ok (true, i).
Proof.
  intro Hn. destruct (fdb_ok n ltac:(lia)) as (W & Pn & S & Fr & FA). set (k := le_bytes 8 (4 + N.of_nat n)). pose proof S as S'. rewrite <- leaf_entries_keys in S'.
  destruct (fdb_ok (Datatypes.S n) ltac:(lia)) as (W2 & _ & S2 & _). destruct (fdb_step n Hn) as (i & Q & IN). fold k in Q, IN.
  assert (Hk : blen k < 65536) by (change (blen k) with 8; lia). assert (LS : leaf_size k (le_bytes 8 2) = 20) by reflexivity.
  destruct (entries_split k (leaf_entries (fdb n)) S') as [(e1 & v0 & e2 & EE & F1 & F2)|(e1 & e2 & EE & F1 & F2)].
  - rewrite (leaf_search_found _ k v0 e1 e2 W Hk S EE) in Q. discriminate.
  - rewrite (leaf_search_absent (fdb n) k e1 e2 W Hk S EE F1 F2) in Q. injection Q as <-.
    destruct (leaf_insert_cases (fdb n) k (le_bytes 8 2) e1 e2 W ltac:(lia) EE) as [(X & _)|(_ & p' & I & _ & LE & _)]; [lia|].
    rewrite IN in I. injection I as <-. exists (N.of_nat (length e1)). exact (leaf_search_found _ k _ e1 e2 W2 Hk S2 LE).
Qed.
(** the transactions in such a state *)
Lemma stuck_ops n E l os E1 t t' : stuck n E l -> os <> [] -> tiny l os -> begin_write E = Some (E1, t) -> do_ops E1 t os = Ret tt t' ->
  E1 = set_locked E true /\ exists P, one_page P (fold_left list_op os l) /\ t' = mkTxn false (4 + N.of_nat n) 2 3 [(2, P)] 3 [2].
Proof.
  intros (LK & LM & F3 & HP) Ne HT B H. apply begin_fields in B. destruct B as (-> & ->). split; [reflexivity|]. rewrite LM in H. cbn [m_txnid m_root m_free m_last] in H.
  destruct (ops_tiny (set_locked E true) _ 3 3 ltac:(lia) os _ _ (e_file E 2) l t' (or_introl (conj eq_refl eq_refl)) HP HT H) as (d' & f' & -> & Z).
  destruct os as [|o os]; [congruence|]. destruct Z as (P2 & A & -> & ->). exists P2. split; [exact A|]. replace (3 + N.of_nat n + 1) with (4 + N.of_nat n) by lia. reflexivity.
Qed.
Lemma unlock_lock E : e_locked E = false -> set_locked (set_locked E true) false = E.
Proof. destruct E. cbn. intros ->. reflexivity. Qed.
Lemma stuck_attempt n E l os E' r : (n < 184)%nat -> stuck n E l -> os <> [] -> tiny l os -> attempt E os None E' r -> E' = E /\ r = Err EEXIST.
Proof.
  intros Hn HS Ne HT (E1 & t & t' & B & D & C). destruct (stuck_ops n E l os E1 t t' HS Ne HT B D) as (-> & P & A & ->).
  destruct HS as (LK & LM & F3 & HP). destruct (fdb_has n Hn) as (i & SE). destruct (fdb_ok (S n) ltac:(lia)) as (WF & _).
  unfold db_commit in C. cbn [t_dirty] in C. unfold populate_free_db in C. cbn [t_freed t_free_root t_id] in C. unfold max_pgno in C. cbn [t_rdonly t_last] in C.
  change ((3 =? 0) || (3 <? 3)) with false in C. cbv iota in C. unfold insert_into_free_db in C.
  assert (FP : forall k, find_path MAX_TREE_DEPTH (set_locked E true) (mkTxn false (4 + N.of_nat n) 2 3 [(2, P)] 3 [2]) 3 k = Ok ([3], fdb (S n))).
  { intro k. cbn [find_path MAX_TREE_DEPTH]. unfold max_pgno, get_page. cbn [t_rdonly t_last t_dirty dget]. change (3 <? 3) with false. change (2 =? 3) with false. cbv iota.
    change (e_file (set_locked E true) 3) with (e_file E 3). rewrite F3, (wf_is_leaf _ _ WF). reflexivity. }
  cbn [t_free_root] in C. rewrite FP, SE in C. cbn [lift bindo] in C. injection C as <- <-. split; [apply unlock_lock; exact LK|reflexivity].
Qed.
(** any number of them, with restarts *)
Lemma stuck_reopen n E l E2 : settled E -> stuck n E l -> env_open (disk_of E) = Ok E2 -> settled E2 /\ stuck n E2 l.
Proof.
  intros S (LK & LM & F3 & HP) O. unfold env_open in O. cbn [disk_of d_meta0 d_meta1 d_file] in O. rewrite S in O. cbn [bindr] in O. injection O as <-.
  split; [exact S|]. unfold stuck, live_meta in *. cbn [e_locked e_live1 e_meta0 e_meta1 e_file]. auto.
Qed.
Lemma stuck_goes_on n E l : (n < 184)%nat -> settled E -> stuck n E l -> forall E', goes_on l E E' -> settled E' /\ stuck n E' l.
Proof.
  intros Hn S HS E' G. induction G as [|E1 os E2 r G (S1 & HS1) Ne HT A|E1 E2 G (S1 & HS1) O]; [auto| |].
  - destruct (stuck_attempt n E1 l os E2 r Hn HS1 Ne HT A) as (-> & _). auto.
  - exact (stuck_reopen n E1 l E2 S1 HS1 O).
Qed.
(** the commit of a transaction in a state between transactions *)
Lemma next_populate n E1 P : (n < 184)%nat -> e_file E1 3 = fdb n ->
  exists f, populate_free_db page_alloc E1 (mkTxn false (4 + N.of_nat n) 2 3 [(2, P)] 3 [2]) = Ret 3 (mkTxn false (4 + N.of_nat n) 2 3 [(3, fdb (S n)); (2, P)] 3 f).
Proof.
  intros Hn F3. destruct (fdb_ok n ltac:(lia)) as (WF & Fn & _). destruct (fdb_step n Hn) as (i & SE & IN).
  exists [2; 3]. unfold populate_free_db. cbn [t_freed app t_free_root t_id]. unfold max_pgno at 1. cbn [t_rdonly t_last].
  change ((3 =? 0) || (3 <? 3)) with false. cbv iota. change (enc_pgnos [2]) with (le_bytes 8 2). unfold insert_into_free_db.
  assert (FP : forall k, find_path MAX_TREE_DEPTH E1 (mkTxn false (4 + N.of_nat n) 2 3 [(2, P)] 3 [2]) 3 k = Ok ([3], fdb n)).
  { intro k. cbn [find_path MAX_TREE_DEPTH]. unfold max_pgno, get_page. cbn [t_rdonly t_last t_dirty dget]. change (3 <? 3) with false. change (2 =? 3) with false. cbv iota.
    rewrite F3, (wf_is_leaf _ _ WF). reflexivity. }
  cbn [t_free_root]. rewrite FP. rewrite SE. cbn [lift bindo]. unfold leaf_key. cbn [leaf_of List.last t_dirty dget rev app cow_path]. unfold cow_page. cbn [t_dirty dget].
  change (2 =? 3) with false. cbv iota. rewrite F3, Fn. unfold get_writable. cbn [t_rdonly]. rewrite Fn. cbn [t_dirty dget].
  change (2 =? 3) with false. cbv iota. cbn [bindo]. unfold put_dirty, set_dirty, set_freed. cbn [t_rdonly t_id t_root t_free_root t_dirty t_last t_freed].
  change (dset [(2, P)] 3 (fdb n)) with [(3, fdb n); (2, P)]. cbn [dget]. change (3 =? 3) with true. cbv iota. rewrite IN. reflexivity.
Qed.
Lemma two_ios E id fr last F P f : wf_page true P -> pg_pgno P = 2 -> wf_page true F -> pg_pgno F = 3 ->
  commit_ios E (mkTxn false id 2 fr [(3, F); (2, P)] last f) 3 = [WPage 3 F; WPage 2 P; Sync; WMeta (negb (e_live1 E)) (mkMeta DB_MAGIC DB_VERSION id 2 last 3); Sync] /\
  over_meta (mkTxn false id 2 fr [(3, F); (2, P)] last f) = false.
Proof.
  intros W Pn WF Fn. unfold commit_ios, over_meta. cbn [t_dirty map fst snd pgno_map existsb t_id t_root t_last app]. rewrite !fix_leaf, Pn, Fn by assumption. split; reflexivity.
Qed.
(** the state that a failure leaves *)
Lemma fails_stuck n E l os i E2 r : (n < 184)%nat -> stage (S (S n)) E l -> os <> [] -> tiny l os -> (2 <= i <= 4)%nat -> attempt E os (Some i) E2 r ->
  r = Err EGENERAL /\ stuck n E2 (fold_left list_op os l).
Proof.
  intros Hn HS Ne HT Hi (E1 & t & t' & B & D & C). rewrite (stage_begin _ E l HS) in B. injection B as <- <-.
  destruct (stage_ops _ E l os t' HS Ne HT D) as (P & A & ->). pose proof A as (W & Pn & _). destruct (fdb_ok (S n) ltac:(lia)) as (WF & Fn & _).
  cbn [stage] in HS. destruct HS as (P0 & G & m0 & m1 & b & EE & ML & HP).
  assert (F3 : e_file (set_locked E true) 3 = fdb n) by (rewrite EE; reflexivity). destruct (next_populate n (set_locked E true) P Hn F3) as (f & PO).
  destruct (two_ios (set_locked E true) (4 + N.of_nat n) 3 3 (fdb (S n)) P f W Pn WF Fn) as (IO & OM).
  unfold db_commit in C. cbn [t_dirty] in C. rewrite PO, OM, IO in C. cbv zeta in C. cbn [length] in C.
  replace (Nat.ltb i 5) with true in C by (symmetry; apply Nat.ltb_lt; lia). injection C as <- <-. split; [reflexivity|].
  assert (J : (i = 2 \/ i = 3 \/ i = 4)%nat) by lia. rewrite EE. destruct J as [-> | [-> | ->]]; destruct b; cbn [set_locked e_live1 negb firstn fold_left io_apply disk_of e_file e_meta0 e_meta1 d_file d_meta0 d_meta1 e_readers];
    (split; [reflexivity|]; split; [unfold live_meta; cbn [e_live1 e_meta0 e_meta1]; exact ML|]; split; [reflexivity|exact A]).
Qed.
(** the state that a crash leaves *)
Lemma crash_stuck n E l os E1 t t' fr t1 E2 : (n < 184)%nat -> settled E -> stage (S (S n)) E l -> os <> [] -> tiny l os ->
  begin_write E = Some (E1, t) -> do_ops E1 t os = Ret tt t' -> populate_free_db page_alloc E1 t' = Ret fr t1 ->
  env_open (crash_disk (disk_of E1) (commit_ios E1 t1 fr) 3 []) = Ok E2 -> settled E2 /\ stuck n E2 (fold_left list_op os l).
Proof.
  intros Hn S HS Ne HT B D PP O. rewrite (stage_begin _ E l HS) in B. injection B as <- <-.
  destruct (stage_ops _ E l os t' HS Ne HT D) as (P & A & ->). pose proof A as (W & Pn & _). destruct (fdb_ok (Datatypes.S n) ltac:(lia)) as (WF & Fn & _).
  cbn [stage] in HS. destruct HS as (P0 & G & m0 & m1 & b & EE & ML & HP).
  assert (F3 : e_file (set_locked E true) 3 = fdb n) by (rewrite EE; reflexivity). destruct (next_populate n (set_locked E true) P Hn F3) as (f & PO). assert (X1 : fr = 3) by congruence.
  assert (X2 : t1 = mkTxn false (4 + N.of_nat n) 2 3 [(3, fdb (Datatypes.S n)); (2, P)] 3 f) by congruence. rewrite X1, X2 in O.
  destruct (two_ios (set_locked E true) (4 + N.of_nat n) 3 3 (fdb (Datatypes.S n)) P f W Pn WF Fn) as (IO & _). rewrite IO in O. unfold crash_disk in O. cbn [firstn after_sync crash_tail fold_left io_apply] in O.
  unfold settled in S. rewrite EE in S. cbn [e_meta0 e_meta1 e_live1] in S. unfold env_open in O. rewrite EE in O. cbn [set_locked disk_of e_file e_meta0 e_meta1 d_file d_meta0 d_meta1] in O.
  rewrite S in O. cbn [bindr] in O. injection O as <-. split; [exact S|]. split; [reflexivity|]. split; [unfold live_meta; cbn [e_live1 e_meta0 e_meta1]; exact ML|]. split; [reflexivity|exact A].
Qed.

(** ** C171 *)
(** The code violates the statement.  Take any small database that at least two transactions
    have made, and any further transaction [os].
    (1) Its commit fails after its pages are written: from then on this process can commit no
        transaction that puts or deletes anything, however often it tries.
    (2) A crash after its pages are written: from then on no process can, ever.
    The changes of [os] are there nevertheless. *)
Theorem update_after_failure_refuted : forall txns E os,
  (2 <= length txns <= 185)%nat -> Forall (fun os => os <> []) txns -> tiny [] (concat txns ++ os) -> os <> [] -> history env_create txns = Ok E ->
  let l := fold_left list_op (concat txns ++ os) [] in
  (forall i E2 r, (2 <= i <= 4)%nat -> attempt E os (Some i) E2 r ->
     r = Err EGENERAL /\ holds_pairs E2 l /\ forall os' E3 r', os' <> [] -> tiny l os' -> attempt E2 os' None E3 r' -> r' = Err EEXIST /\ E3 = E2) /\
  (forall E1 t t' fr t1 E2, settled E -> begin_write E = Some (E1, t) -> do_ops E1 t os = Ret tt t' -> populate_free_db page_alloc E1 t' = Ret fr t1 ->
     env_open (crash_disk (disk_of E1) (commit_ios E1 t1 fr) 3 []) = Ok E2 ->
     holds_pairs E2 l /\ forall E3, goes_on l E2 E3 -> holds_pairs E3 l /\
       forall os' E4 r', os' <> [] -> tiny l os' -> attempt E3 os' None E4 r' -> r' = Err EEXIST /\ E4 = E3).
Proof.
  intros txns E os Hn HF HT Ne H. cbv zeta. rewrite fold_left_app. apply tiny_app in HT. destruct HT as (T1 & T2).
  pose proof (stages txns 0 env_create E [] ltac:(lia) (conj eq_refl eq_refl) HF T1 H) as HS. cbn [Nat.add] in HS. destruct (length txns) as [|[|n]] eqn:LN; try lia.
  assert (RD : forall m E0 l0, stuck m E0 l0 -> holds_pairs E0 l0).
  { intros m E0 l0 (_ & LM & _ & HP). apply (one_reads E0 (e_file E0 2) l0 eq_refl); [rewrite LM; reflexivity|exact HP]. }
  split.
  - intros i E2 r Hi A. destruct (fails_stuck n E _ os i E2 r ltac:(lia) HS Ne T2 Hi A) as (-> & ST). split; [reflexivity|]. split; [exact (RD _ _ _ ST)|].
    intros os' E3 r' Ne' T' A'. destruct (stuck_attempt n E2 _ os' E3 r' ltac:(lia) ST Ne' T' A') as (-> & ->). auto.
  - intros E1 t t' fr t1 E2 S B D P O. destruct (crash_stuck n E _ os E1 t t' fr t1 E2 ltac:(lia) S HS Ne T2 B D P O) as (S2 & ST). split; [exact (RD _ _ _ ST)|].
    intros E3 G. destruct (stuck_goes_on n E2 _ ltac:(lia) S2 ST E3 G) as (_ & ST3). split; [exact (RD _ _ _ ST3)|].
    intros os' E4 r' Ne' T' A'. destruct (stuck_attempt n E3 _ os' E4 r' ltac:(lia) ST3 Ne' T' A') as (-> & ->). auto.
Qed.
Print Assumptions update_after_failure_refuted.

(** What holds: after the first transaction, the commit of the second may fail at any operation,
    and the process can still commit.  (Before the first: C170.) *)
Lemma once_ops E l os E1 t t' : once E l -> os <> [] -> tiny l os -> begin_write E = Some (E1, t) -> do_ops E1 t os = Ret tt t' ->
  E1 = set_locked E true /\ exists P, one_page P (fold_left list_op os l) /\ t' = mkTxn false 3 2 0 [(2, P)] 2 [2].
Proof.
  intros (LK & LM & HP) Ne HT B H. apply begin_fields in B. destruct B as (-> & ->). split; [reflexivity|]. rewrite LM in H. cbn [m_txnid m_root m_free m_last] in H.
  destruct (ops_tiny (set_locked E true) _ 0 2 ltac:(lia) os _ _ (e_file E 2) l t' (or_introl (conj eq_refl eq_refl)) HP HT H) as (d' & f' & -> & Z).
  destruct os as [|o os]; [congruence|]. destruct Z as (P2 & A & -> & ->). exists P2. split; [exact A|reflexivity].
Qed.
Lemma once_populate E P : populate_free_db page_alloc E (mkTxn false 3 2 0 [(2, P)] 2 [2]) = Ret 3 (mkTxn false 3 2 0 [(3, fdb 0); (2, P)] 3 [2]).
Proof. unfold populate_free_db. cbn [t_freed app t_free_root N.eqb orb]. unfold new_root_leaf. rewrite extend by reflexivity. cbn [bindo]. reflexivity. Qed.
Lemma once_commits E l os E2 r : once E l -> os <> [] -> tiny l os -> attempt E os None E2 r -> r = Ok tt /\ holds_pairs E2 (fold_left list_op os l).
Proof.
  intros HO Ne HT (E1 & t & t' & B & D & C). destruct (once_ops E l os E1 t t' HO Ne HT B D) as (-> & P & A & ->). pose proof A as (W & Pn & _). destruct (fdb_ok 0 ltac:(lia)) as (WF & Fn & _).
  rewrite (commit_two (set_locked E true) 3 3 P (fdb 0) 3) in C by (auto; try discriminate; exists [2]; left; apply once_populate). injection C as <- <-. split; [reflexivity|].
  apply (one_reads _ P); [reflexivity| |exact A]. unfold live_meta. cbn [e_live1 e_meta0 e_meta1]. change (e_live1 (set_locked E true)) with (e_live1 E). destruct (e_live1 E); reflexivity.
Qed.
Lemma once_fails E l os i E2 e : once E l -> os <> [] -> tiny l os -> attempt E os (Some i) E2 (Err e) -> once E2 l \/ once E2 (fold_left list_op os l).
Proof.
  intros HO Ne HT (E1 & t & t' & B & D & C). destruct (once_ops E l os E1 t t' HO Ne HT B D) as (-> & P & A & ->). pose proof A as (W & Pn & _). destruct (fdb_ok 0 ltac:(lia)) as (WF & Fn & _).
  destruct (two_ios (set_locked E true) 3 0 3 (fdb 0) P [2] W Pn WF Fn) as (IO & OM). unfold db_commit in C. cbn [t_dirty] in C. rewrite once_populate, OM, IO in C. cbv zeta in C. cbn [length] in C.
  destruct (Nat.ltb i 5) eqn:LI; [|discriminate]. apply Nat.ltb_lt in LI. injection C as <- _. destruct HO as (LK & LM & HP). unfold live_meta in LM.
  assert (J : (i = 0 \/ i = 1 \/ i = 2 \/ i = 3 \/ i = 4)%nat) by lia. change (e_live1 (set_locked E true)) with (e_live1 E).
  destruct J as [-> | [-> | [-> | [-> | ->]]]]; [left|left|right|right|right]; destruct (e_live1 E);
    cbn [set_locked e_live1 negb firstn fold_left io_apply disk_of e_file e_meta0 e_meta1 d_file d_meta0 d_meta1 e_readers];
    (split; [reflexivity|]; split; [unfold live_meta; cbn [e_live1 e_meta0 e_meta1]; exact LM|first [exact HP|exact A]]).
Qed.
Theorem update_after_failure_partial : forall os0 E os i E2 e, os0 <> [] -> tiny [] (os0 ++ os) -> transact env_create os0 = Ok E ->
  os <> [] -> attempt E os (Some i) E2 (Err e) ->
  exists l, (l = fold_left list_op os0 [] \/ l = fold_left list_op (os0 ++ os) []) /\ holds_pairs E2 l /\
    forall os' E3 r, os' <> [] -> tiny l os' -> attempt E2 os' None E3 r -> r = Ok tt /\ holds_pairs E3 (fold_left list_op os' l).
Proof.
  intros os0 E os i E2 e N0 HT H Ne A. apply tiny_app in HT. destruct HT as (T0 & T1). rewrite fold_left_app.
  pose proof (stage_step 0 env_create E [] os0 ltac:(lia) (conj eq_refl eq_refl) N0 T0 H) as HS. cbn [stage] in HS. destruct HS as (P & G & m0 & m1 & b & -> & ML & HP).
  set (E := mkEnv _ _ _ _ _ _) in *. assert (HO : once E (fold_left list_op os0 [])) by (split; [reflexivity|split; [exact ML|exact HP]]).
  assert (RD : forall E0 l0, once E0 l0 -> holds_pairs E0 l0).
  { intros E0 l0 (_ & LM & HP0). apply (one_reads E0 (e_file E0 2) l0 eq_refl); [rewrite LM; reflexivity|exact HP0]. }
  destruct (once_fails E _ os i E2 e HO Ne T1 A) as [O|O]; [exists (fold_left list_op os0 []); split; [auto|]|exists (fold_left list_op os (fold_left list_op os0 [])); split; [auto|]];
    (split; [exact (RD _ _ O)|]); intros os' E3 r Ne' T' A'; exact (once_commits _ _ _ _ _ O Ne' T' A').
Qed.
Print Assumptions update_after_failure_partial.

(** ** A concrete case *)
(** A key is given the values 1, 2 and 3; the commit of the third fails at the sync, or the
    machine stops there; every further value is refused, after a restart too.  With the first
    two only, all goes well. *)
Definition value (v : N) : list op := [Put [97] [v]].
Definition try_commit (E : env) (os : list op) (fail : option nat) : option (env * res unit) :=
  match begin_write E with
  | Some (E1, t) => match do_ops E1 t os with Ret tt t' => Some (db_commit E1 t' fail) | _ => None end
  | None => None
  end.
Lemma try_is E os fail E' r : try_commit E os fail = Some (E', r) -> attempt E os fail E' r.
Proof.
  unfold try_commit. destruct (begin_write E) as [[E1 t]|] eqn:B; [|discriminate]. destruct (do_ops E1 t os) as [[] t'|e t'| |] eqn:D; try discriminate.
  intro H. assert (X : db_commit E1 t' fail = (E', r)) by congruence. exists E1, t, t'. auto.
Qed.
Definition after (x : option (env * res unit)) : env := match x with Some (E, _) => E | None => env_create end.
Definition told (x : option (env * res unit)) : option (res unit) := match x with Some (_, r) => Some r | None => None end.
Definition twice : env := match history env_create [value 1; value 2] with Ok E => E | _ => env_create end.
Definition crashed (E : env) : env :=
  match begin_write E with
  | Some (E1, t) => match do_ops E1 t (value 3) with
                    | Ret tt t' => match populate_free_db page_alloc E1 t' with
                                   | Ret fr t1 => match env_open (crash_disk (disk_of E1) (commit_ios E1 t1 fr) 3 []) with Ok E2 => E2 | _ => env_create end
                                   | _ => env_create end
                    | _ => env_create end
  | None => env_create
  end.
Example stuck_case :
  tiny [] (concat [value 1; value 2] ++ value 3) /\ select_live (e_meta0 twice) (e_meta1 twice) = Ok (e_live1 twice) /\ read_now twice [97] = Ok [2] /\
  (let x := try_commit twice (value 3) (Some 2%nat) in let y := try_commit (after x) (value 4) None in let z := try_commit (after y) [Del [97]] None in
   told x = Some (Err EGENERAL) /\ told y = Some (Err EEXIST) /\ told z = Some (Err EEXIST) /\ read_now (after z) [97] = Ok [3]) /\
  (let E2 := crashed twice in let y := try_commit E2 (value 4) None in
   read_now E2 [97] = Ok [3] /\ told y = Some (Err EEXIST) /\ read_now (after y) [97] = Ok [3]) /\
  (let x := try_commit (after (try_commit env_create (value 1) None)) (value 2) (Some 2%nat) in let y := try_commit (after x) (value 3) None in
   told x = Some (Err EGENERAL) /\ told y = Some (Ok tt) /\ read_now (after y) [97] = Ok [3]).
Proof.
  split; [cbn; repeat split; vm_compute; discriminate|]. vm_compute. repeat split; reflexivity.
Qed.
