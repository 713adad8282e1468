(** Property C154: a small database can be updated any number of times. *)
From Coq Require Import Permutation.
From Verif Require Import Util PageModel PageSpec PageProofs PageOps PropPage TxnModel CursorModel TreeModel TreeSpec TreeProofs TreeOps TreeSplit TreePut TreeShape DbModel SysModel DbSpec DbProofs DbCommit PropEnds.
Local Open Scope N_scope.

(** ** Specification *)
(** A list of pairs, one for each key, and what a put and a delete make of it. *)
Definition without (k : bytes) (l : list (bytes * bytes)) : list (bytes * bytes) :=
  filter (fun e => if key_dec (fst e) k then false else true) l.
Definition list_op (l : list (bytes * bytes)) (o : op) : list (bytes * bytes) :=
  match o with Put k v => (k, v) :: without k l | Del k => without k l end.
(** The bytes the pairs take in a leaf page: two of the slot and four of the node head
    each, with the key and the value; napr_db_internal.h:109-125.  A page of 4096 bytes has a header of 18. *)
Definition weight (l : list (bytes * bytes)) : N := fold_right (fun e n => 6 + blen (fst e) + blen (snd e) + n) 0 l.
(** the pairs fit in one page at any time *)
Fixpoint tiny (l : list (bytes * bytes)) (os : list op) : Prop :=
  match os with
  | [] => True
  | o :: r => match o with Put _ _ => True | Del k => blen k < 65536 end /\ weight (list_op l o) <= 4096 - 18 /\ tiny (list_op l o) r
  end.

(** ** The only leaf *)
Definition one_page (P : page) (l : list (bytes * bytes)) : Prop :=
  wf_page true P /\ pg_pgno P = 2 /\ ksorted (page_keys true P) /\ Permutation (leaf_entries P) l /\ page_free P + weight l = 4078.

Lemma filter_perm {A} (f : A -> bool) l l' : Permutation l l' -> Permutation (filter f l) (filter f l').
Proof.
  induction 1 as [|x l l' H IH|x y l|l l1 l2 H1 IH1 H2 IH2]; cbn [filter]; auto.
  - destruct (f x); auto.
  - destruct (f x), (f y); auto. apply perm_swap.
  - eapply perm_trans; eauto.
Qed.
Lemma weight_cons e l : weight (e :: l) = leaf_size (fst e) (snd e) + 2 + weight l.
Proof. unfold weight. cbn [fold_right]. unfold leaf_size, LEAF_BASE. lia. Qed.
Lemma weight_app a b : weight (a ++ b) = weight a + weight b.
Proof. induction a as [|e r IH]; cbn [app]; rewrite ?weight_cons; [reflexivity|lia]. Qed.
Lemma weight_perm l l' : Permutation l l' -> weight l = weight l'.
Proof. induction 1; rewrite ?weight_cons; lia. Qed.
Lemma without_below k l : Forall (fun e => klt (fst e) k) l -> without k l = l.
Proof.
  induction 1 as [|e l H F IH]; cbn [without filter]; auto. fold (without k l). destruct (key_dec (fst e) k) as [Q|]; [rewrite Q in H; exfalso; eapply klt_irrefl; eauto|]. f_equal. exact IH.
Qed.
Lemma without_above k l : Forall (fun e => klt k (fst e)) l -> without k l = l.
Proof.
  induction 1 as [|e l H F IH]; cbn [without filter]; auto. fold (without k l). destruct (key_dec (fst e) k) as [Q|]; [rewrite Q in H; exfalso; eapply klt_irrefl; eauto|]. f_equal. exact IH.
Qed.
Lemma without_perm k l l' : Permutation l l' -> Permutation (without k l) (without k l').
Proof. apply filter_perm. Qed.
Lemma without_app k a b : without k (a ++ b) = without k a ++ without k b.
Proof. apply filter_app. Qed.
Lemma lookup_perm k l l' : NoDup (map fst l) -> Permutation l l' -> lookup k l = lookup k l'.
Proof.
  intros ND H. assert (ND' : NoDup (map fst l')). { eapply Permutation_NoDup; [|exact ND]. apply Permutation_map. exact H. }
  destruct (lookup k l') as [v|] eqn:L.
  - apply lookup_nth; auto. eapply Permutation_in; [apply Permutation_sym; exact H|]. clear -L.
    induction l' as [|[k' v'] l' IH]; cbn [lookup] in L; [discriminate|]. destruct (key_dec k k') as [->|]; [injection L as ->; left; auto|right; auto].
  - destruct (lookup k l) as [v|] eqn:M; auto. assert (X : In k (map fst l)) by (apply lookup_in_iff; congruence).
    assert (Y : In k (map fst l')) by (eapply Permutation_in; [apply Permutation_map; exact H|exact X]). apply lookup_in_iff in Y. congruence.
Qed.
Lemma one_page_nodup P l : one_page P l -> NoDup (map fst (leaf_entries P)).
Proof. intros (_ & _ & S & _). rewrite leaf_entries_keys. apply sorted_NoDup. exact S. Qed.

Lemma find_one E id fr last d f P k : 2 <= last -> is_leaf P = true -> (d = [] /\ e_file E 2 = P \/ d = [(2, P)]) ->
  find_path MAX_TREE_DEPTH E (mkTxn false id 2 fr d last f) 2 k = Ok ([2], P).
Proof.
  intros Hl Lf Hd. cbn [find_path MAX_TREE_DEPTH]. unfold max_pgno. cbn [t_rdonly t_last].
  destruct (N.ltb_spec last 2); [lia|]. unfold get_page. cbn [t_rdonly t_dirty].
  destruct Hd as [(-> & ->)| ->]; cbn [dget N.eqb Pos.eqb]; rewrite Lf; reflexivity.
Qed.
Lemma cow_one E id fr last d f P : (d = [] /\ e_file E 2 = P \/ d = [(2, P)]) -> pg_pgno P = 2 ->
  cow_path E (mkTxn false id 2 fr d last f) [2] = Ret tt (mkTxn false id 2 fr [(2, P)] last (match d with [] => f ++ [2] | _ => f end)) /\
  leaf_key E (mkTxn false id 2 fr d last f) 2 = 2.
Proof.
  intros [(-> & Ef)| ->] Pn; unfold leaf_key; cbn [cow_path]; unfold cow_page; cbn [t_dirty dget N.eqb Pos.eqb]; [|split; reflexivity].
  rewrite Ef. unfold get_writable. cbn [t_rdonly]. rewrite Pn. cbn [t_dirty dget]. split; reflexivity.
Qed.
Lemma op_tiny E id fr last d f P l o t' : 2 <= last -> (d = [] /\ e_file E 2 = P \/ d = [(2, P)]) -> one_page P l ->
  match o with Put _ _ => True | Del k => blen k < 65536 end -> weight (list_op l o) <= 4078 ->
  do_op E (mkTxn false id 2 fr d last f) o = Ret tt t' ->
  exists P', one_page P' (list_op l o) /\ t' = mkTxn false id 2 fr [(2, P')] last (match d with [] => f ++ [2] | _ => f end).
Proof.
  intros Hl Hd (W & Pn & S & Pm & Fr) Hk Hw H. pose proof (wf_is_leaf true _ W) as Lf.
  destruct (cow_one E id fr last d f P Hd Pn) as (CW & LK). destruct o as [k v|k]; cbn [do_op list_op] in *.
  - rewrite weight_cons in Hw. cbn [fst snd] in Hw. assert (Hk' : blen k < 65536) by (unfold leaf_size in Hw; lia).
    unfold db_put, db_put_with in H. cbn [t_rdonly t_root N.eqb] in H. rewrite (find_one E id fr last d f P k Hl Lf Hd) in H. cbn [lift bindo leaf_of List.last rev app] in H.
    pose proof S as S'. rewrite <- leaf_entries_keys in S'.
    destruct (entries_split k (leaf_entries P) S') as [(e1 & v0 & e2 & EE & F1 & F2)|(e1 & e2 & EE & F1 & F2)].
    + rewrite (leaf_search_found P k v0 e1 e2 W Hk' S EE) in H. cbn [lift bindo] in H.
      destruct (true && _); [discriminate|]. rewrite LK, CW in H. cbn [bindo t_dirty dget N.eqb Pos.eqb] in H.
      destruct (leaf_delete_ok P k v0 e1 e2 W EE) as (p1 & D & W1 & E1 & P1 & Fr1). rewrite D in H. cbn [lift bindo put_dirty set_dirty dset t_dirty] in H.
      assert (WW : weight (without k l) = weight (e1 ++ e2) /\ weight l = weight (e1 ++ e2) + leaf_size k v0 + 2).
      { rewrite <- (weight_perm _ _ Pm), EE. rewrite <- (weight_perm _ _ (without_perm k _ _ Pm)). rewrite EE, without_app.
        cbn [without filter fst]. destruct (key_dec k k); [|congruence]. fold (without k e2). rewrite without_below, without_above by auto.
        rewrite !weight_app, weight_cons. cbn [fst snd]. lia. }
      destruct WW as (WW1 & WW2).
      destruct (leaf_insert_cases p1 k v e1 e2 W1 ltac:(lia) E1) as [(X & _)|(_ & p2 & I & W2 & E2 & P2 & Fr2)]; [lia|].
      rewrite I in H. injection H as <-. exists p2. split; [|reflexivity]. unfold one_page. splits; auto; try congruence.
      * rewrite <- leaf_entries_keys, E2. apply sorted_mid; auto. rewrite EE in S'. eapply sorted_drop; eauto.
      * rewrite E2. eapply perm_trans; [apply Permutation_sym, Permutation_middle|]. constructor.
        eapply perm_trans; [|apply (without_perm k _ _ Pm)]. rewrite EE, without_app.
        cbn [without filter fst]. destruct (key_dec k k); [|congruence]. fold (without k e2). rewrite without_below, without_above by auto. apply Permutation_refl.
      * rewrite weight_cons. cbn [fst snd]. lia.
    + rewrite (leaf_search_absent P k e1 e2 W Hk' S EE F1 F2) in H. cbn [lift bindo andb] in H.
      rewrite LK, CW in H. cbn [bindo t_dirty dget N.eqb Pos.eqb] in H.
      assert (WW : without k (leaf_entries P) = leaf_entries P). { rewrite EE, without_app, without_below, without_above by auto. reflexivity. }
      assert (WP : Permutation (leaf_entries P) (without k l)). { rewrite <- WW at 1. apply (without_perm k _ _ Pm). }
      pose proof (weight_perm _ _ WP) as X1. pose proof (weight_perm _ _ Pm) as X2.
      destruct (leaf_insert_cases P k v e1 e2 W ltac:(lia) EE) as [(X & _)|(_ & p2 & I & W2 & E2 & P2 & Fr2)]; [lia|].
      rewrite I in H. injection H as <-. exists p2. split; [|reflexivity]. unfold one_page. splits; auto; try congruence.
      * rewrite <- leaf_entries_keys, E2. apply sorted_mid; auto. rewrite EE in S'. exact S'.
      * rewrite E2. eapply perm_trans; [apply Permutation_sym, Permutation_middle|]. constructor. rewrite <- EE. exact WP.
      * rewrite weight_cons. cbn [fst snd]. lia.
  - unfold db_del in H. cbn [t_rdonly t_root N.eqb] in H. rewrite (find_one E id fr last d f P k Hl Lf Hd) in H. cbn [lift bindo leaf_of List.last rev app] in H.
    pose proof S as S'. rewrite <- leaf_entries_keys in S'.
    destruct (entries_split k (leaf_entries P) S') as [(e1 & v0 & e2 & EE & F1 & F2)|(e1 & e2 & EE & F1 & F2)].
    + rewrite (leaf_search_found P k v0 e1 e2 W Hk S EE) in H. cbn [lift bindo] in H. rewrite CW in H. cbn [bindo t_dirty dget N.eqb Pos.eqb] in H.
      destruct (leaf_delete_ok P k v0 e1 e2 W EE) as (p1 & D & W1 & E1 & P1 & Fr1). rewrite D in H. cbn [lift bindo put_dirty set_dirty dset t_dirty] in H.
      assert (WP : Permutation (e1 ++ e2) (without k l)).
      { eapply perm_trans; [|apply (without_perm k _ _ Pm)]. rewrite EE, without_app.
        cbn [without filter fst]. destruct (key_dec k k); [|congruence]. fold (without k e2). rewrite without_below, without_above by auto. apply Permutation_refl. }
      pose proof (weight_perm _ _ WP) as X1. pose proof (weight_perm _ _ Pm) as X2. rewrite EE, weight_app, weight_cons in X2. rewrite weight_app in X1. cbn [fst snd] in X2.
      injection H as <-. exists p1. split; [|reflexivity]. unfold one_page. splits; auto; try congruence.
      * rewrite <- leaf_entries_keys, E1. rewrite EE in S'. eapply sorted_drop; eauto.
      * lia.
    + rewrite (leaf_search_absent P k e1 e2 W Hk S EE F1 F2) in H. discriminate.
Qed.
Lemma ops_tiny E id fr last : 2 <= last -> forall os d f P l t', (d = [] /\ e_file E 2 = P \/ d = [(2, P)]) -> one_page P l ->
  tiny l os -> do_ops E (mkTxn false id 2 fr d last f) os = Ret tt t' ->
  exists d' f', t' = mkTxn false id 2 fr d' last f' /\
    match os with
    | [] => d' = d /\ f' = f
    | _ => exists P', one_page P' (fold_left list_op os l) /\ d' = [(2, P')] /\ f' = match d with [] => f ++ [2] | _ => f end
    end.
Proof.
  intro Hl. induction os as [|o os IH]; intros d f P l t' Hd HP HT H; cbn [do_ops] in H.
  - injection H as <-. exists d, f. auto.
  - destruct HT as (T1 & T2 & T3). destruct (do_op E _ o) as [[] t1|e t1| |] eqn:X; try discriminate. cbn [bindo] in H.
    destruct (op_tiny E id fr last d f P l o t1 Hl Hd HP T1 T2 X) as (P1 & HP1 & ->).
    destruct (IH _ _ P1 _ t' (or_intror eq_refl) HP1 T3 H) as (d' & f' & -> & Z). exists d', f'. split; [reflexivity|]. cbn [fold_left].
    destruct os as [|o2 os]; [destruct Z as (-> & ->); exists P1; auto|exact Z].
Qed.

(** ** The Free DB *)
(** Its only leaf, page 3, after [n] further entries.  The key is the number of the
    transaction, the value the page it freed, which is always page 2. *)
Fixpoint fdb (n : nat) : page :=
  match n with
  | O => match page_insert (init_page 3 P_LEAF) 0 (le_bytes 8 3) (Some (le_bytes 8 2)) 0 with Ok p => p | _ => zero_page end
  | S n => let F := fdb n in
    match page_search F (le_bytes 8 (4 + N.of_nat n)) with
    | Ok (_, i) => match page_insert F i (le_bytes 8 (4 + N.of_nat n)) (Some (le_bytes 8 2)) 0 with Ok p => p | _ => zero_page end
    | _ => zero_page
    end
  end.
Lemma blen8 x : blen (le_bytes 8 x) = 8.
Proof. reflexivity. Qed.
Lemma le8_inj x y : x < 2 ^ 64 -> y < 2 ^ 64 -> le_bytes 8 x = le_bytes 8 y -> x = y.
Proof. intros Hx Hy H. apply (f_equal le_val) in H. rewrite !le_val_bytes in H. change (256 ^ N.of_nat 8) with (2 ^ 64) in H. rewrite !N.mod_small in H by auto. exact H. Qed.
Lemma fdb_ok : forall n, (n <= 184)%nat ->
  wf_page true (fdb n) /\ pg_pgno (fdb n) = 3 /\ ksorted (page_keys true (fdb n)) /\ page_free (fdb n) = 4056 - 22 * N.of_nat n /\
  Forall (fun k => exists i, i < 4 + N.of_nat n /\ k = le_bytes 8 i) (page_keys true (fdb n)).
Proof.
  assert (LS : forall x y, leaf_size (le_bytes 8 x) (le_bytes 8 y) = 20) by (intros; reflexivity).
  induction n as [|n IH]; intro Hn.
  - destruct (leaf_insert_cases (init_page 3 P_LEAF) (le_bytes 8 3) (le_bytes 8 2) [] [] (init_wf true 3) ltac:(rewrite LS; lia) ltac:(vm_compute; reflexivity))
      as [(X & _)|(_ & p' & I & W & E & Pn & Fr)]; [rewrite LS, init_free in X; unfold PAGE_SIZE, HDR in X; lia|].
    cbn [fdb]. change (N.of_nat (length (@nil (bytes * bytes)))) with 0 in I. rewrite I. rewrite <- leaf_entries_keys, E. split; [exact W|]. split; [rewrite Pn; reflexivity|]. splits.
    + repeat constructor.
    + rewrite Fr, LS, init_free. reflexivity.
    + constructor; [|constructor]. exists 3. split; [lia|reflexivity].
  - destruct (IH ltac:(lia)) as (W & Pn & S & Fr & FA). set (k := le_bytes 8 (4 + N.of_nat n)). pose proof S as S'. rewrite <- leaf_entries_keys in S'.
    destruct (entries_split k (leaf_entries (fdb n)) S') as [(e1 & v0 & e2 & EE & F1 & F2)|(e1 & e2 & EE & F1 & F2)].
    + exfalso. rewrite <- leaf_entries_keys, EE, map_app in FA. apply Forall_app in FA. destruct FA as (_ & FA). inversion FA as [|? ? (i & Hi & Q) _]; subst.
      cbn [fst] in Q. unfold k in Q. apply le8_inj in Q; lia.
    + assert (Hk : blen k < 65536) by (change (blen k) with 8; lia).
      cbn [fdb]. fold k. cbv zeta. rewrite (leaf_search_absent (fdb n) k e1 e2 W Hk S EE F1 F2).
      destruct (leaf_insert_cases (fdb n) k (le_bytes 8 2) e1 e2 W ltac:(unfold k; rewrite LS; lia) EE) as [(X & _)|(_ & p' & I & W' & E' & Pn' & Fr')]; [unfold k in X; rewrite LS in X; lia|].
      rewrite I. rewrite <- leaf_entries_keys, E'. splits; auto.
      * congruence.
      * apply sorted_mid; auto. rewrite EE in S'. exact S'.
      * rewrite Fr', Fr. unfold k. rewrite LS. lia.
      * rewrite <- leaf_entries_keys, EE in FA. rewrite map_app in *. apply Forall_app in FA. destruct FA as (A1 & A2). apply Forall_app. split.
        -- eapply Forall_impl; [|exact A1]. cbv beta. intros a (i & Hi & ->). exists i. split; [lia|reflexivity].
        -- cbn [map fst]. constructor; [exists (4 + N.of_nat n); split; [lia|reflexivity]|]. eapply Forall_impl; [|exact A2]. cbv beta. intros a (i & Hi & ->). exists i. split; [lia|reflexivity].
Qed.
Lemma fdb_step n : (n < 184)%nat -> exists i, page_search (fdb n) (le_bytes 8 (4 + N.of_nat n)) = Ok (false, i) /\
  page_insert (fdb n) i (le_bytes 8 (4 + N.of_nat n)) (Some (le_bytes 8 2)) 0 = Ok (fdb (S n)).
Proof.
  intro Hn. destruct (fdb_ok n ltac:(lia)) as (W & Pn & S & Fr & FA). set (k := le_bytes 8 (4 + N.of_nat n)). pose proof S as S'. rewrite <- leaf_entries_keys in S'.
  destruct (entries_split k (leaf_entries (fdb n)) S') as [(e1 & v0 & e2 & EE & F1 & F2)|(e1 & e2 & EE & F1 & F2)].
  - exfalso. rewrite <- leaf_entries_keys, EE, map_app in FA. apply Forall_app in FA. destruct FA as (_ & FA). inversion FA as [|? ? (i & Hi & Q) _]; subst.
    cbn [fst] in Q. unfold k in Q. apply le8_inj in Q; lia.
  - assert (Hk : blen k < 65536) by (change (blen k) with 8; lia).
    assert (LS : leaf_size k (le_bytes 8 2) = 20) by reflexivity.
    pose proof (leaf_search_absent (fdb n) k e1 e2 W Hk S EE F1 F2) as Q. exists (N.of_nat (length e1)). split; [exact Q|].
    destruct (leaf_insert_cases (fdb n) k (le_bytes 8 2) e1 e2 W ltac:(lia) EE) as [(X & _)|(_ & p' & I & _)]; [lia|].
    cbn [fdb]. fold k. cbv zeta. rewrite Q, I. reflexivity.
Qed.

(** ** The states between the transactions *)
Definition idle : list rslot := repeat (mkSlot 0 0 0) MAX_READERS.
Definition stage (n : nat) (E : env) (l : list (bytes * bytes)) : Prop :=
  match n with
  | O => E = env_create /\ l = []
  | 1%nat => exists P G m0 m1 b, E = mkEnv (fun q => if q =? 2 then P else G q) m0 m1 b idle false /\
      (if b then m1 else m0) = mkMeta DB_MAGIC DB_VERSION 2 2 2 0 /\ one_page P l
  | S (S n) => exists P G m0 m1 b, E = mkEnv (fun q => if q =? 2 then P else if q =? 3 then fdb n else G q) m0 m1 b idle false /\
      (if b then m1 else m0) = mkMeta DB_MAGIC DB_VERSION (3 + N.of_nat n) 2 3 3 /\ one_page P l
  end.

Lemma extend E t : t_free_root t = 0 -> t_rdonly t = false -> page_alloc E t = Ret (t_last t + 1) (set_last t (t_last t + 1)).
Proof.
  intros Z R. unfold page_alloc, ALLOC_FUEL. cbn [alloc_fuel]. unfold alloc_with at 1. rewrite R. cbn [N.eqb Pos.eqb orb]. unfold reclaim_with at 1. rewrite Z. reflexivity.
Qed.
Lemma first_put E o t' l : match o with Put _ _ => True | Del k => blen k < 65536 end -> weight (list_op [] o) <= 4078 ->
  do_op E (mkTxn false 2 0 0 [] 1 []) o = Ret tt t' -> l = list_op [] o ->
  exists P, one_page P l /\ t' = mkTxn false 2 2 0 [(2, P)] 2 [].
Proof.
  intros Hk Hw H ->. destruct o as [k v|k]; cbn [do_op list_op without filter] in *; [|discriminate].
  rewrite weight_cons in Hw. cbn [fst snd] in Hw. change (weight []) with 0 in Hw.
  unfold db_put, db_put_with in H. cbn [t_rdonly t_root N.eqb] in H. unfold new_root_leaf in H. rewrite extend in H by reflexivity. cbn [bindo t_last set_last] in H.
  change (1 + 1) with 2 in H.
  destruct (leaf_insert_cases (init_page 2 P_LEAF) k v [] [] (init_wf true 2) ltac:(lia) ltac:(vm_compute; reflexivity))
      as [(X & _)|(_ & p' & I & W & E' & Pn & Fr)]; [rewrite init_free in X; unfold PAGE_SIZE, HDR in X; lia|].
  change (N.of_nat (length (@nil (bytes * bytes)))) with 0 in I. rewrite I in H. cbn [lift bindo] in H. injection H as <-.
  exists p'. split; [|reflexivity]. unfold one_page. split; [exact W|]. split; [rewrite Pn; reflexivity|]. splits.
  - rewrite <- leaf_entries_keys, E'. repeat constructor.
  - rewrite E'. apply Permutation_refl.
  - rewrite Fr, init_free, weight_cons. cbn [fst snd weight fold_right]. unfold PAGE_SIZE, HDR. lia.
Qed.
Lemma fix_leaf m P : wf_page true P -> fix_page m P = P.
Proof. intro W. unfold fix_page. rewrite (wf_is_branch _ _ W). reflexivity. Qed.
(** a commit that changes nothing but the only leaf *)
Lemma commit_plain E id last P : wf_page true P -> pg_pgno P = 2 ->
  db_commit E (mkTxn false id 2 0 [(2, P)] last []) None =
  (mkEnv (fun q => if q =? 2 then P else e_file E q) (if e_live1 E then mkMeta DB_MAGIC DB_VERSION id 2 last 0 else e_meta0 E)
         (if e_live1 E then e_meta1 E else mkMeta DB_MAGIC DB_VERSION id 2 last 0) (negb (e_live1 E)) (e_readers E) false, Ok tt).
Proof.
  intros W Pn. unfold db_commit, populate_free_db, over_meta, commit_ios. cbn [t_dirty t_freed t_free_root existsb snd pgno_map map fst app t_id t_root t_last].
  rewrite Pn. cbn [N.ltb N.compare Pos.compare Pos.compare_cont orb]. rewrite fix_leaf by auto. destruct (e_live1 E) eqn:L; reflexivity.
Qed.
Lemma commit_two E id last P F fr t : wf_page true P -> pg_pgno P = 2 -> wf_page true F -> pg_pgno F = 3 -> t_dirty t <> [] ->
  (exists f, populate_free_db page_alloc E t = Ret fr (mkTxn false id 2 0 [(3, F); (2, P)] last f) \/
             populate_free_db page_alloc E t = Ret fr (mkTxn false id 2 3 [(3, F); (2, P)] last f)) ->
  db_commit E t None =
  (mkEnv (fun q => if q =? 2 then P else if q =? 3 then F else e_file E q) (if e_live1 E then mkMeta DB_MAGIC DB_VERSION id 2 last fr else e_meta0 E)
         (if e_live1 E then e_meta1 E else mkMeta DB_MAGIC DB_VERSION id 2 last fr) (negb (e_live1 E)) (e_readers E) false, Ok tt).
Proof.
  intros W Pn WF Fn D (f & HP). unfold db_commit. destruct (t_dirty t); [congruence|].
  destruct HP as [-> | ->]; unfold over_meta, commit_ios; cbn [t_dirty t_freed t_free_root existsb snd pgno_map map fst app t_id t_root t_last];
  rewrite Pn, Fn; cbn [N.ltb N.compare Pos.compare Pos.compare_cont orb]; rewrite !fix_leaf by auto; destruct (e_live1 E) eqn:L; reflexivity.
Qed.
(** the transaction begun in a stage *)
Definition stage_txn (n : nat) : txn :=
  match n with
  | O => mkTxn false 2 0 0 [] 1 []
  | 1%nat => mkTxn false 3 2 0 [] 2 []
  | S (S n) => mkTxn false (4 + N.of_nat n) 2 3 [] 3 []
  end.
Lemma stage_begin n E l : stage n E l -> begin_write E = Some (set_locked E true, stage_txn n).
Proof.
  intro HS. destruct n as [|[|n]]; cbn [stage] in HS.
  - destruct HS as (-> & _). reflexivity.
  - destruct HS as (P & G & m0 & m1 & b & -> & ML & _). unfold begin_write. cbn [e_locked]. unfold live_meta. cbn [e_live1 e_meta1 e_meta0]. rewrite ML. reflexivity.
  - destruct HS as (P & G & m0 & m1 & b & -> & ML & _). unfold begin_write. cbn [e_locked]. unfold live_meta. cbn [e_live1 e_meta1 e_meta0]. rewrite ML.
    cbn [m_txnid m_root m_free m_last stage_txn]. replace (3 + N.of_nat n + 1) with (4 + N.of_nat n) by lia. reflexivity.
Qed.
(** what the operations of a transaction make of it *)
Lemma stage_ops n E l os t' : stage n E l -> os <> [] -> tiny l os -> do_ops (set_locked E true) (stage_txn n) os = Ret tt t' ->
  exists P, one_page P (fold_left list_op os l) /\
    t' = match n with
         | O => mkTxn false 2 2 0 [(2, P)] 2 []
         | 1%nat => mkTxn false 3 2 0 [(2, P)] 2 [2]
         | S (S n) => mkTxn false (4 + N.of_nat n) 2 3 [(2, P)] 3 [2]
         end.
Proof.
  intros HS Ne HT H. destruct os as [|o os]; [congruence|]. destruct n as [|[|n]]; cbn [stage] in HS; cbn [stage_txn] in H.
  - destruct HS as (-> & ->). destruct HT as (T1 & T2 & T3). cbn [do_ops] in H.
    destruct (do_op _ _ o) as [[] t1|e t1| |] eqn:X; try discriminate. cbn [bindo] in H.
    destruct (first_put _ o t1 _ T1 T2 X eq_refl) as (P1 & HP1 & ->).
    destruct (ops_tiny _ 2 0 2 ltac:(lia) os _ _ P1 _ t' (or_intror eq_refl) HP1 T3 H) as (d' & f' & -> & Z). cbn [fold_left].
    destruct os; [destruct Z as (-> & ->); exists P1; auto|destruct Z as (P2 & A & -> & ->); exists P2; auto].
  - destruct HS as (P & G & m0 & m1 & b & -> & ML & HP).
    match type of H with do_ops ?E0 _ _ = _ => destruct (ops_tiny E0 3 0 2 ltac:(lia) (o :: os) _ _ P _ t' (or_introl (conj eq_refl eq_refl)) HP HT H) as (d' & f' & -> & P2 & A & -> & ->) end. exists P2. auto.
  - destruct HS as (P & G & m0 & m1 & b & -> & ML & HP).
    match type of H with do_ops ?E0 _ _ = _ => destruct (ops_tiny E0 (4 + N.of_nat n) 3 3 ltac:(lia) (o :: os) _ _ P _ t' (or_introl (conj eq_refl eq_refl)) HP HT H) as (d' & f' & -> & P2 & A & -> & ->) end. exists P2. auto.
Qed.
(** its commit *)
Lemma stage_commit n E l P l2 : (n < 186)%nat -> stage n E l -> one_page P l2 ->
  exists E', db_commit (set_locked E true) match n with
         | O => mkTxn false 2 2 0 [(2, P)] 2 []
         | 1%nat => mkTxn false 3 2 0 [(2, P)] 2 [2]
         | S (S n) => mkTxn false (4 + N.of_nat n) 2 3 [(2, P)] 3 [2]
         end None = (E', Ok tt) /\ stage (S n) E' l2.
Proof.
  intros Hn HS A. pose proof A as (W & Pn & _). destruct n as [|[|n]]; cbn [stage] in HS.
  - destruct HS as (-> & ->). rewrite commit_plain by auto. eexists. split; [reflexivity|]. cbn [stage]. exists P. do 4 eexists. split; [reflexivity|]. split; [reflexivity|exact A].
  - destruct HS as (P0 & G & m0 & m1 & b & -> & ML & HP). destruct (fdb_ok 0 ltac:(lia)) as (WF & Fn & _). set (E1 := set_locked _ true).
    rewrite (commit_two E1 3 3 P (fdb 0) 3) by (auto; try discriminate; exists [2]; left; unfold populate_free_db; cbn [t_freed app t_free_root N.eqb orb];
      unfold new_root_leaf; rewrite extend by reflexivity; cbn [bindo]; reflexivity).
    eexists. split; [reflexivity|]. cbn [stage]. exists P, (e_file E1). do 3 eexists. split; [reflexivity|]. split; [|exact A]. destruct b; reflexivity.
  - destruct HS as (P0 & G & m0 & m1 & b & -> & ML & HP). set (E1 := set_locked _ true).
    destruct (fdb_ok n ltac:(lia)) as (WF & Fn & _). destruct (fdb_ok (S n) ltac:(lia)) as (WF' & Fn' & _). destruct (fdb_step n ltac:(lia)) as (i & SE & IN).
    assert (PO : exists f, populate_free_db page_alloc E1 (mkTxn false (4 + N.of_nat n) 2 3 [(2, P)] 3 [2]) = Ret 3 (mkTxn false (4 + N.of_nat n) 2 3 [(3, fdb (S n)); (2, P)] 3 f)).
    { exists [2; 3]. unfold populate_free_db. cbn [t_freed app t_free_root t_id]. unfold max_pgno at 1. cbn [t_rdonly t_last].
      change ((3 =? 0) || (3 <? 3)) with false. cbv iota. change (enc_pgnos [2]) with (le_bytes 8 2). unfold insert_into_free_db.
      assert (FP : forall k, find_path MAX_TREE_DEPTH E1 (mkTxn false (4 + N.of_nat n) 2 3 [(2, P)] 3 [2]) 3 k = Ok ([3], fdb n)).
      { intro k. cbn [find_path MAX_TREE_DEPTH]. unfold max_pgno, get_page. cbn [t_rdonly t_last t_dirty dget]. change (3 <? 3) with false. change (2 =? 3) with false. cbv iota.
        change (e_file E1 3) with (fdb n). rewrite (wf_is_leaf _ _ WF). reflexivity. }
      cbn [t_free_root]. rewrite FP. rewrite SE. cbn [lift bindo]. unfold leaf_key. cbn [leaf_of List.last t_dirty dget rev app cow_path]. unfold cow_page. cbn [t_dirty dget].
      change (2 =? 3) with false. cbv iota. change (e_file E1 3) with (fdb n). rewrite Fn. unfold get_writable. cbn [t_rdonly]. rewrite Fn. cbn [t_dirty dget].
      change (2 =? 3) with false. cbv iota. cbn [bindo]. unfold put_dirty, set_dirty, set_freed. cbn [t_rdonly t_id t_root t_free_root t_dirty t_last t_freed].
      change (dset [(2, P)] 3 (fdb n)) with [(3, fdb n); (2, P)]. cbn [dget]. change (3 =? 3) with true. cbv iota. rewrite IN. reflexivity. }
    destruct PO as (f & PO).
    rewrite (commit_two E1 (4 + N.of_nat n) 3 P (fdb (S n)) 3) by (auto; try discriminate; exists f; right; exact PO).
    eexists. split; [reflexivity|]. cbn [stage]. exists P, (e_file E1). do 3 eexists. split; [reflexivity|]. split; [|exact A].
    replace (3 + N.of_nat (S n)) with (4 + N.of_nat n) by lia. destruct b; reflexivity.
Qed.
Lemma stage_step n E E' l os : (n < 186)%nat -> stage n E l -> os <> [] -> tiny l os -> transact E os = Ok E' -> stage (S n) E' (fold_left list_op os l).
Proof.
  intros Hn HS Ne HT H. unfold transact in H. rewrite (stage_begin n E l HS) in H. destruct (do_ops _ _ os) as [[] t'|e t'| |] eqn:X; try discriminate.
  destruct (stage_ops n E l os t' HS Ne HT X) as (P & A & ->). destruct (stage_commit n E l P _ Hn HS A) as (E2 & C & ST). rewrite C in H. injection H as <-. exact ST.
Qed.

Lemma tiny_app : forall a b l, tiny l (a ++ b) <-> tiny l a /\ tiny (fold_left list_op a l) b.
Proof. induction a as [|o a IH]; intros b l; cbn [app tiny fold_left]; [tauto|]. rewrite IH. tauto. Qed.
Lemma stages : forall txns n E E' l, (n + length txns <= 186)%nat -> stage n E l -> Forall (fun os => os <> []) txns -> tiny l (concat txns) ->
  history E txns = Ok E' -> stage (n + length txns) E' (fold_left list_op (concat txns) l).
Proof.
  induction txns as [|os r IH]; intros n E E' l Hn HS HF HT H; cbn [history concat length fold_left] in *.
  - injection H as <-. rewrite Nat.add_0_r. exact HS.
  - inversion HF as [|? ? F1 F2]; subst. apply tiny_app in HT. destruct HT as (T1 & T2). destruct (transact E os) as [E1|e| |] eqn:X; try discriminate.
    rewrite fold_left_app. replace (n + S (length r))%nat with (S n + length r)%nat by lia. eapply IH; eauto; [lia|]. eapply stage_step; eauto. lia.
Qed.
Lemma one_reads E P l : e_file E 2 = P -> m_root (live_meta E) = 2 -> one_page P l -> TreeSpec.reads E (reader E) (fun k => lookup k l).
Proof.
  intros EF MR HP k Hk. pose proof (one_page_nodup _ _ HP) as ND. destruct HP as (W & Pn & S & Pm & _).
  rewrite <- (lookup_perm k _ _ ND Pm). unfold db_get, reader. cbn [t_root]. rewrite MR. cbn [N.eqb]. cbn [find_leaf FIND_FUEL].
  unfold get_page. cbn [t_rdonly]. rewrite EF, (wf_is_leaf _ _ W). cbn [bindr]. apply leaf_lookup; auto.
Qed.

(** ** C154 *)
(** Any history of up to 186 transactions on a new database whose pairs fit in one page
    at any time leaves exactly the pairs that were put and not deleted.  Missing for the
    full claim: any further transaction; the next theorem says what it does. *)
Theorem small_database_updates_partial : forall txns E',
  (length txns <= 186)%nat -> Forall (fun os => os <> []) txns -> tiny [] (concat txns) ->
  history env_create txns = Ok E' ->
  forall k, blen k < 65536 ->
    read_now E' k = match lookup k (fold_left list_op (concat txns) []) with Some v => Ok v | None => Err NOTFOUND end.
Proof.
  intros txns E' Hn HF HT H. pose proof (stages txns 0 env_create E' [] Hn (conj eq_refl eq_refl) HF HT H) as HS. cbn [Nat.add] in HS.
  change (TreeSpec.reads E' (reader E') (fun k => lookup k (fold_left list_op (concat txns) []))).
  destruct (length txns) as [|[|n]]; cbn [stage] in HS.
  - destruct HS as (-> & ->). intros k Hk. reflexivity.
  - destruct HS as (P & G & m0 & m1 & b & -> & ML & HP). apply (one_reads _ P); [reflexivity| |exact HP]. unfold live_meta. cbn [e_live1 e_meta0 e_meta1]. rewrite ML. reflexivity.
  - destruct HS as (P & G & m0 & m1 & b & -> & ML & HP). apply (one_reads _ P); [reflexivity| |exact HP]. unfold live_meta. cbn [e_live1 e_meta0 e_meta1]. rewrite ML. reflexivity.
Qed.
Print Assumptions small_database_updates_partial.

(** ** The 187th transaction *)
Fixpoint apartb (l : list (N * N)) : bool :=
  match l with
  | [] => true
  | (a, n) :: r => forallb (fun e => (a + n <=? fst e) || (fst e + snd e <=? a)) r && apartb r
  end.
Definition wfb (leaf : bool) (p : page) : bool :=
  (pg_flags p =? (if leaf then P_LEAF else P_BRANCH)) && (pg_lower p =? HDR + 2 * pg_nkeys p) && (pg_lower p <=? pg_upper p) && (pg_upper p <=? PAGE_SIZE) &&
  (let u := pg_upper p in let s := map (fun o => (o, node_size leaf p o)) (slots p) in
   forallb (fun e => (u <=? fst e) && (fst e + snd e <=? PAGE_SIZE)) s && apartb s).
Lemma wfb_ok leaf p : wfb leaf p = true -> wf_page leaf p.
Proof.
  unfold wfb. rewrite !andb_true_iff. intros ((((A & B) & C) & D) & E1 & E2). cbv zeta in *.
  apply N.eqb_eq in A, B. apply N.leb_le in C, D. constructor; auto.
  - rewrite forallb_forall in E1. apply Forall_forall. intros o Ho. specialize (E1 (o, node_size leaf p o)). cbn [fst snd] in E1.
    rewrite in_map_iff in E1. specialize (E1 (ex_intro _ o (conj eq_refl Ho))). apply andb_prop in E1. destruct E1 as (X & Y). apply N.leb_le in X, Y. auto.
  - clear E1. revert E2. induction (slots p) as [|o r IH]; intro H; [constructor|]. cbn [map apartb] in H. apply andb_prop in H. destruct H as (H1 & H2). constructor; [|apply IH; exact H2].
    rewrite forallb_forall in H1. apply Forall_forall. intros q Hq. specialize (H1 (q, node_size leaf p q)). rewrite in_map_iff in H1. specialize (H1 (ex_intro _ q (conj eq_refl Hq))).
    cbn [fst snd] in H1. apply orb_prop in H1. unfold apart. destruct H1 as [X|X]; apply N.leb_le in X; auto.
Qed.
Fixpoint climbing (l : list bytes) : bool := match l with x :: (y :: _) as r => kltb x y && climbing r | _ => true end.
Lemma climbing_sorted l : climbing l = true -> ksorted l.
Proof.
  intro H. apply Sorted_StronglySorted; [intros x y z; apply klt_trans|].
  induction l as [|x [|y r] IH]; [constructor|repeat constructor|]. cbn [climbing] in H. apply andb_prop in H. destruct H as (A & B). constructor; [apply IH; exact B|].
  constructor. apply kltb_spec. exact A.
Qed.
(** page 2 is a branch whose children are page 2 and page 3; page 3 is a leaf of the Free DB *)
Definition ruined (f : N -> page) : bool :=
  let B := f 2 in let L := f 3 in
  wfb false B && (0 <? pg_nkeys B) && forallb (fun e => (snd e =? 2) || (snd e =? 3)) (branch_entries B) &&
  wfb true L && climbing (page_keys true L) &&
  forallb (fun e => (blen (fst e) =? 8) && (if key_dec (snd e) (le_bytes 8 2) then true else false)) (leaf_entries L).
Definition ruined_by (f : N -> page) (o : out N) : bool :=
  match o with
  | Ret _ t1 => negb (over_meta t1) && (mapped (pgno_map (t_dirty t1)) (t_root t1) =? 2) && match t_dirty t1 with [] => false | _ => true end &&
      ruined (d_file (fold_left io_apply (map (fun e => WPage (pg_pgno (snd e)) (fix_page (pgno_map (t_dirty t1)) (snd e))) (t_dirty t1)) (mkDisk f (init_meta 0) (init_meta 0))))
  | _ => false
  end.
Definition late_file (P F : page) (G : N -> page) : N -> page := fun q => if q =? 2 then P else if q =? 3 then F else G q.
Lemma last_populate P P2 G m0 m1 b :
  (fun F => ruined_by (late_file P F G) (populate_free_db page_alloc (mkEnv (late_file P F G) m0 m1 b idle true) (mkTxn false 188 2 3 [(2, P2)] 3 [2]))) (fdb 184) = true.
Proof. vm_cast_no_check (eq_refl true). Qed.
Lemma file_pages : forall l d d', d_file d = d_file d' -> Forall (fun o => match o with WPage _ _ => True | _ => False end) l ->
  d_file (fold_left io_apply l d) = d_file (fold_left io_apply l d').
Proof.
  induction l as [|o l IH]; intros d d' H F; cbn [fold_left]; [exact H|]. inversion F as [|? ? F1 F2]; subst. apply IH; auto. destruct o; [|destruct F1..].
  cbn [io_apply d_file]. rewrite H. reflexivity.
Qed.
Lemma last_commit E l P : stage 186 E l ->
  exists E', db_commit (set_locked E true) (mkTxn false 188 2 3 [(2, P)] 3 [2]) None = (E', Ok tt) /\ m_root (live_meta E') = 2 /\ ruined (e_file E') = true.
Proof.
  intros (P0 & G & m0 & m1 & b & -> & _). change (set_locked _ true) with (mkEnv (late_file P0 (fdb 184) G) m0 m1 b idle true).
  pose proof (last_populate P0 P G m0 m1 b) as H. cbv beta in H. generalize dependent (fdb 184). intros F H.
  unfold ruined_by in H. unfold db_commit. cbn [t_dirty]. destruct (populate_free_db _ _ _) as [fr t1|e t1| |]; try discriminate.
  apply andb_prop in H. destruct H as (H & R). apply andb_prop in H. destruct H as (H & _). apply andb_prop in H. destruct H as (OM & MR).
  apply negb_true_iff in OM. apply N.eqb_eq in MR. rewrite OM. eexists. split; [reflexivity|].
  cbv zeta. unfold commit_ios. rewrite MR. rewrite fold_left_app. cbn [fold_left]. unfold disk_of. cbn [e_file e_meta0 e_meta1 e_live1 e_readers io_apply].
  set (d := fold_left io_apply _ (mkDisk (late_file P0 F G) m0 m1)).
  assert (FD : d_file d = d_file (fold_left io_apply (map (fun e => WPage (pg_pgno (snd e)) (fix_page (pgno_map (t_dirty t1)) (snd e))) (t_dirty t1)) (mkDisk (late_file P0 F G) (init_meta 0) (init_meta 0)))).
  { apply file_pages; [reflexivity|]. apply Forall_forall. intros o Ho. apply in_map_iff in Ho. destruct Ho as (e & <- & _). exact I. }
  destruct b; cbn [negb d_file]; (split; [reflexivity|]; rewrite FD; exact R).
Qed.
Lemma ruined_reads E : m_root (live_meta E) = 2 -> ruined (e_file E) = true -> forall k, blen k < 65536 ->
  (forall n, find_leaf n E (reader E) (t_root (reader E)) k = Fuel) \/ read_now E k = Err NOTFOUND \/ (length k = 8%nat /\ read_now E k = Ok (le_bytes 8 2)).
Proof.
  intros MR H k Hk. unfold ruined in H. cbv zeta in H. rewrite !andb_true_iff in H. destruct H as (((((WB & NB) & CB) & WL) & SL) & VL).
  apply wfb_ok in WB. apply wfb_ok in WL. apply climbing_sorted in SL. apply N.ltb_lt in NB. rewrite forallb_forall in CB, VL.
  assert (GP : forall q, get_page E (reader E) q = e_file E q) by reflexivity.
  destruct (child_of_entry (e_file E 2) k WB NB) as (c & C & I). apply in_map_iff in I. destruct I as (e & <- & I). specialize (CB e I).
  unfold read_now, db_get. change (t_root (reader E)) with (m_root (live_meta E)). rewrite MR. cbn [N.eqb].
  apply orb_prop in CB. destruct CB as [Q|Q]; apply N.eqb_eq in Q; rewrite Q in C.
  - left. apply self_loop. split; [|split]; rewrite ?GP; [rewrite (wf_is_leaf _ _ WB)|rewrite (wf_is_branch _ _ WB)|exact C]; reflexivity.
  - right. unfold FIND_FUEL. cbn [find_leaf]. rewrite !GP, (wf_is_leaf _ _ WB), (wf_is_branch _ _ WB). cbn [negb]. rewrite C. cbn [bindr]. rewrite GP, (wf_is_leaf _ _ WL). cbn [bindr].
    rewrite (leaf_lookup _ k WL SL Hk). destruct (lookup k (leaf_entries (e_file E 3))) as [v|] eqn:L; [right|left; reflexivity].
    assert (J : In (k, v) (leaf_entries (e_file E 3))).
    { clear -L. induction (leaf_entries (e_file E 3)) as [|[k' v'] l IH]; cbn [lookup] in L; [discriminate|]. destruct (key_dec k k') as [->|]; [injection L as ->; left; auto|right; auto]. }
    specialize (VL _ J). cbn [fst snd] in VL. apply andb_prop in VL. destruct VL as (V1 & V2). apply N.eqb_eq in V1. destruct (key_dec v (le_bytes 8 2)) as [->|]; [|discriminate].
    split; [unfold blen in V1; lia|reflexivity].
Qed.
(** The 187th changing transaction destroys every small database, whatever its pairs are
    and whatever the transactions did.  It succeeds.  After it, a lookup never returns, or
    does not find its key, or returns the eight bytes of the number 2: no value of the
    user's is left.

    (The list of freed pages has grown by one entry with each transaction, all of them
    naming page 2, the page in use, since it is written in place.  Now this list has to be
    split, and the two new pages are taken from the list itself.) *)
Theorem small_database_updates_refuted : forall txns E',
  length txns = 187%nat -> Forall (fun os => os <> []) txns -> tiny [] (concat txns) ->
  history env_create txns = Ok E' ->
  forall k, blen k < 65536 ->
    (forall n, find_leaf n E' (reader E') (t_root (reader E')) k = Fuel) \/
    read_now E' k = Err NOTFOUND \/ (length k = 8%nat /\ read_now E' k = Ok (le_bytes 8 2)).
Proof.
  intros txns E' Hn HF HT H. destruct (exists_last (l := txns)) as (a & os & ->); [intros ->; discriminate|].
  rewrite app_length in Hn. cbn [length] in Hn. apply Forall_app in HF. destruct HF as (F1 & F2). inversion F2 as [|? ? F3 _]; subst.
  rewrite concat_app in HT. cbn [concat] in HT. rewrite app_nil_r in HT. apply tiny_app in HT. destruct HT as (T1 & T2).
  assert (HA : exists E1, history env_create a = Ok E1 /\ transact E1 os = Ok E').
  { clear -H. revert H. generalize env_create. induction a as [|x a IH]; intros E H; cbn [app history] in H.
    - destruct (transact E os) as [E1|e| |] eqn:X; try discriminate. exists E. split; [reflexivity|congruence].
    - cbn [history]. destruct (transact E x) as [E1|e| |]; try discriminate. exact (IH E1 H). }
  destruct HA as (E1 & H1 & H2). pose proof (stages a 0 env_create E1 [] ltac:(lia) (conj eq_refl eq_refl) F1 T1 H1) as HS. cbn [Nat.add] in HS.
  replace (length a) with 186%nat in HS by lia.
  unfold transact in H2. rewrite (stage_begin _ _ _ HS) in H2. destruct (do_ops _ _ os) as [[] t'|e t'| |] eqn:X; try discriminate.
  destruct (stage_ops _ _ _ _ _ HS F3 T2 X) as (P & A & Et). assert (Et' : t' = mkTxn false 188 2 3 [(2, P)] 3 [2]) by exact Et. clear Et. subst t'.
  destruct (last_commit E1 _ P HS) as (E2 & C & MR & R). rewrite C in H2. injection H2 as <-. apply ruined_reads; auto.
Qed.
Print Assumptions small_database_updates_refuted.

(** ** Cases *)
(** Putting one and the same key in every transaction succeeds. *)
Lemma put_clean E id fr last f P l k v : 2 <= last -> e_file E 2 = P -> one_page P l -> weight (list_op l (Put k v)) <= 4078 ->
  exists t', do_op E (mkTxn false id 2 fr [] last f) (Put k v) = Ret tt t'.
Proof.
  intros Hl EF (W & Pn & S & Pm & Fr) Hw. pose proof (wf_is_leaf true _ W) as Lf. assert (Hd : @nil (N * page) = [] /\ e_file E 2 = P \/ @nil (N * page) = [(2, P)]) by auto.
  destruct (cow_one E id fr last [] f P Hd Pn) as (CW & LK). cbn [do_op list_op] in *.
  rewrite weight_cons in Hw. cbn [fst snd] in Hw. assert (Hk' : blen k < 65536) by (unfold leaf_size in Hw; lia).
  unfold db_put, db_put_with. cbn [t_rdonly t_root N.eqb]. rewrite (find_one E id fr last [] f P k Hl Lf Hd). cbn [lift bindo leaf_of List.last rev app].
  pose proof S as S'. rewrite <- leaf_entries_keys in S'. pose proof (weight_perm _ _ Pm) as X2. pose proof (weight_perm _ _ (without_perm k _ _ Pm)) as X1.
  destruct (entries_split k (leaf_entries P) S') as [(e1 & v0 & e2 & EE & F1 & F2)|(e1 & e2 & EE & F1 & F2)].
  - rewrite (leaf_search_found P k v0 e1 e2 W Hk' S EE). cbn [lift bindo t_dirty dget andb]. rewrite LK, CW. cbn [bindo t_dirty dget N.eqb Pos.eqb].
    destruct (leaf_delete_ok P k v0 e1 e2 W EE) as (p1 & D & W1 & E1 & P1 & Fr1). rewrite D. cbn [lift bindo put_dirty set_dirty dset t_dirty].
    rewrite EE, without_app in X1. cbn [without filter fst] in X1. destruct (key_dec k k); [|congruence]. fold (without k e2) in X1. fold (without k l) in X1. rewrite without_below, without_above in X1 by auto.
    rewrite EE in X2. rewrite weight_app in X1, X2. rewrite weight_cons in X2. cbn [fst snd] in X2.
    destruct (leaf_insert_cases p1 k v e1 e2 W1 ltac:(lia) E1) as [(X & _)|(_ & p2 & I & _)]; [lia|]. rewrite I. eauto.
  - rewrite (leaf_search_absent P k e1 e2 W Hk' S EE F1 F2). cbn [lift bindo andb]. rewrite LK, CW. cbn [bindo t_dirty dget N.eqb Pos.eqb].
    rewrite EE, without_app, without_below, without_above, <- EE in X1 by auto.
    destruct (leaf_insert_cases P k v e1 e2 W ltac:(lia) EE) as [(X & _)|(_ & p2 & I & _)]; [lia|]. rewrite I. eauto.
Qed.
Definition again (k v : bytes) (n : nat) : list (list op) := repeat [Put k v] n.
Lemma again_op k v l : l = [] \/ l = [(k, v)] -> list_op l (Put k v) = [(k, v)].
Proof. intros [-> | ->]; cbn [list_op without filter fst]; [reflexivity|]. destruct (key_dec k k); [reflexivity|congruence]. Qed.
Lemma again_tiny k v n : weight [(k, v)] <= 4078 -> tiny [] (concat (again k v n)) /\ ((0 < n)%nat -> fold_left list_op (concat (again k v n)) [] = [(k, v)]).
Proof.
  intro HW. assert (G : forall n l, l = [] \/ l = [(k, v)] -> tiny l (concat (again k v n)) /\ fold_left list_op (concat (again k v n)) l = match n with O => l | _ => [(k, v)] end).
  { clear n. induction n as [|n IH]; intros l Hl; [split; [exact I|reflexivity]|]. cbn [again repeat concat app tiny fold_left]. fold (again k v n).
    rewrite (again_op k v l Hl). destruct (IH _ (or_intror eq_refl)) as (A & B). split; [|rewrite B; destruct n; reflexivity]. split; [exact I|]. split; [exact HW|exact A]. }
  destruct (G n [] (or_introl eq_refl)) as (A & B). split; [exact A|]. intro Hn. etransitivity; [exact B|]. destruct n; [lia|reflexivity].
Qed.
Lemma again_next k v : forall n E E1, history E (again k v n) = Ok E1 -> history E (again k v (S n)) = transact E1 [Put k v].
Proof.
  induction n as [|n IH]; intros E E1 H; cbn [again repeat history] in *.
  - injection H as ->. destruct (transact E1 _); reflexivity.
  - destruct (transact E [Put k v]) as [E2|e| |]; try discriminate. fold (again k v n) in *. exact (IH E2 E1 H).
Qed.
Lemma again_stage k v : weight [(k, v)] <= 4078 -> forall n, (n <= 186)%nat ->
  exists E, history env_create (again k v n) = Ok E /\ stage n E (match n with O => [] | _ => [(k, v)] end).
Proof.
  intro HW0. induction n as [|n IH]; intro Hn; [exists env_create; split; [reflexivity|split; reflexivity]|].
  destruct (IH ltac:(lia)) as (E & H & HS). rewrite (again_next k v n env_create E H). unfold transact. rewrite (stage_begin _ _ _ HS).
  set (l := match n with O => [] | _ => [(k, v)] end) in *. assert (Hl : list_op l (Put k v) = [(k, v)]) by (apply again_op; unfold l; destruct n; auto).
  assert (HW : weight (list_op l (Put k v)) <= 4078) by (rewrite Hl; exact HW0).
  assert (HO : exists t', do_ops (set_locked E true) (stage_txn n) [Put k v] = Ret tt t').
  { cbn [do_ops]. destruct n as [|[|n]]; cbn [stage_txn]; cbn [stage] in HS.
    - destruct HS as (-> & _). cbn [do_op]. unfold db_put, db_put_with. cbn [t_rdonly t_root N.eqb]. unfold new_root_leaf. rewrite extend by reflexivity. cbn [bindo t_last set_last].
      change (1 + 1) with 2. rewrite weight_cons in HW0. cbn [fst snd] in HW0. change (weight []) with 0 in HW0.
      destruct (leaf_insert_cases (init_page 2 P_LEAF) k v [] [] (init_wf true 2) ltac:(lia) ltac:(vm_compute; reflexivity))
        as [(X & _)|(_ & p' & J & _)]; [rewrite init_free in X; unfold PAGE_SIZE, HDR in X; lia|].
      change (N.of_nat (length (@nil (bytes * bytes)))) with 0 in J. rewrite J. cbn [lift bindo]. eauto.
    - destruct HS as (P & G & m0 & m1 & b & -> & ML & HP).
      match goal with |- context [do_op ?E0 ?t _] => destruct (put_clean E0 3 0 2 [] P l k v ltac:(lia) eq_refl HP HW) as (t' & Q) end. rewrite Q. cbn [bindo]. eauto.
    - destruct HS as (P & G & m0 & m1 & b & -> & ML & HP).
      match goal with |- context [do_op ?E0 ?t _] => destruct (put_clean E0 (4 + N.of_nat n) 3 3 [] P l k v ltac:(lia) eq_refl HP HW) as (t' & Q) end. rewrite Q. cbn [bindo]. eauto. }
  destruct HO as (t' & HO). rewrite HO. assert (TT : tiny l [Put k v]) by (split; [exact I|]; split; [exact HW|exact I]).
  assert (NN : [Put k v] <> []) by (clear; discriminate). destruct (stage_ops n E l _ t' HS NN TT HO) as (P & A & ->). destruct (stage_commit n E l P _ ltac:(lia) HS A) as (E2 & C & ST). rewrite C.
  exists E2. split; [reflexivity|]. cbn [fold_left] in ST. rewrite Hl in ST. exact ST.
Qed.
Lemma again_whole k v n : Forall (fun os : list op => os <> []) (again k v n).
Proof. apply Forall_forall. intros x Hx. apply repeat_spec in Hx. subst x. discriminate. Qed.
Lemma again_reads k v n : weight [(k, v)] <= 4078 -> (0 < n <= 186)%nat ->
  exists E, history env_create (again k v n) = Ok E /\ Forall (fun os => os <> []) (again k v n) /\ tiny [] (concat (again k v n)) /\ read_now E k = Ok v.
Proof.
  intros HW Hn. destruct (again_stage k v HW n ltac:(lia)) as (E & H & _). destruct (again_tiny k v n HW) as (T & L). specialize (L ltac:(lia)).
  exists E. split; [exact H|]. split; [apply again_whole|]. split; [exact T|].
  assert (LE : (length (again k v n) <= 186)%nat) by (unfold again; rewrite repeat_length; lia).
  assert (Hk : blen k < 65536) by (rewrite weight_cons in HW; unfold leaf_size in HW; cbn [fst snd] in HW; lia).
  pose proof (small_database_updates_partial (again k v n) E LE (again_whole k v n) T H k Hk) as R.
  assert (LK : lookup k (fold_left list_op (concat (again k v n)) []) = Some v) by (rewrite L; cbn [lookup]; destruct (key_dec k k); congruence).
  rewrite LK in R. exact R.
Qed.
Lemma again_more k v n : weight [(k, v)] <= 4078 -> n = 186%nat -> exists E, history env_create (again k v (S n)) = Ok E.
Proof.
  intros HW0 Hn. destruct (again_stage k v HW0 n ltac:(lia)) as (E & H & HS).
  rewrite (again_next k v n env_create E H). unfold transact. rewrite (stage_begin _ _ _ HS).
  assert (HS' : stage 186 E [(k, v)]) by (subst n; exact HS). clear HS. rewrite Hn. clear H Hn n.
  pose proof HS' as (P & G & m0 & m1 & b & Q & _ & HP).
  assert (HW : weight (list_op [(k, v)] (Put k v)) <= 4078) by (rewrite again_op by auto; exact HW0).
  assert (FP : e_file (set_locked E true) 2 = P). { rewrite Q. generalize (fdb 184). intro F. reflexivity. } clear Q.
  destruct (put_clean (set_locked E true) 188 3 3 [] P _ k v ltac:(lia) FP HP HW) as (t' & X).
  assert (ST : stage_txn 186 = mkTxn false 188 2 3 [] 3 []) by (vm_compute; reflexivity).
  assert (Y : do_ops (set_locked E true) (stage_txn 186) [Put k v] = Ret tt t') by (cbn [do_ops]; rewrite ST, X; reflexivity).
  assert (NN : [Put k v] <> []) by (clear; discriminate).
  rewrite Y. destruct (stage_ops 186 E [(k, v)] [Put k v] t' HS' NN ltac:(split; [exact I|]; split; [exact HW|exact I]) Y) as (P2 & A & Et).
  assert (Et' : t' = mkTxn false 188 2 3 [(2, P2)] 3 [2]) by exact Et. clear Et. subst t'. destruct (last_commit E _ P2 HS') as (E2 & C & _). rewrite C. eauto.
Qed.
Example small_case : exists E, history env_create (again [97] [1] 186) = Ok E /\ Forall (fun os => os <> []) (again [97] [1] 186) /\ tiny [] (concat (again [97] [1] 186)) /\ read_now E [97] = Ok [1].
Proof. apply again_reads; [vm_compute; discriminate|lia]. Qed.
(** One more transaction of the same kind succeeds, and the value is gone. *)
Lemma again_ruin k v n : weight [(k, v)] <= 4078 -> length k <> 8%nat -> n = 187%nat ->
  exists E, history env_create (again k v n) = Ok E /\ Forall (fun os => os <> []) (again k v n) /\ tiny [] (concat (again k v n)) /\ read_now E k <> Ok v.
Proof.
  intros HW Hl Hn. destruct (again_more k v 186 HW eq_refl) as (E2 & H2). rewrite <- Hn in H2. destruct (again_tiny k v n HW) as (T & _).
  exists E2. split; [exact H2|]. split; [apply again_whole|]. split; [exact T|].
  assert (LE : length (again k v n) = 187%nat) by (unfold again; rewrite repeat_length; exact Hn).
  assert (Hk : blen k < 65536) by (rewrite weight_cons in HW; unfold leaf_size in HW; cbn [fst snd] in HW; lia).
  destruct (small_database_updates_refuted (again k v n) E2 LE (again_whole _ _ _) T H2 k Hk) as [X|[X|(X & _)]].
  - unfold read_now, db_get. destruct (t_root (reader E2) =? 0); [discriminate|]. rewrite X. discriminate.
  - rewrite X. discriminate.
  - congruence.
Qed.
Example small_ruin : exists E, history env_create (again [97] [1] 187) = Ok E /\ Forall (fun os => os <> []) (again [97] [1] 187) /\ tiny [] (concat (again [97] [1] 187)) /\ read_now E [97] <> Ok [1].
Proof. apply again_ruin; [vm_compute; discriminate|discriminate|reflexivity]. Qed.
