(** Property C127: how long the pointers handed out by get and lookup stay good. *)
From Verif Require Import Util PageModel PageSpec PageProofs PageOps TxnModel CursorModel TreeModel TreeSpec PropPage TreeProofs TreeOps TreeSplit TreePut TreeShape TxnInv DbModel SysModel DbSpec DbProofs DbCommit CursorSpec CursorProofs PropTree PropCursor PropCommit CacheModel PropCache PtrModel.
Local Open Scope N_scope.

(** ** Specification *)
(** Operations that leave page [q] of the transaction's pool in peace: every put finds room in its
    leaf, every deletion is in another leaf. *)
Fixpoint gentle (q : N) (E : env) (t : txn) (os : list op) : Prop :=
  match os with
  | [] => True
  | o :: r =>
    (match o with
     | Put k v => leaf_size k v < 65536 /\ t_root t <> 0 /\ fits E t k v
     | Del k => blen k < 65536 /\ forall h, shape (get_page E t) h (t_root t) -> leaf_on (get_page E t) k h (t_root t) <> q
     end) /\ forall t', do_op E t o = Ret tt t' -> gentle q E t' r
  end.

(** ** A pointer is to the value *)
Lemma find_pg E t k : forall fuel pg, find_leaf fuel E t pg k = (do q <- find_leaf_pg fuel E t pg k ;; Ok (get_page E t q)).
Proof.
  induction fuel as [|f IH]; intros pg; cbn [find_leaf find_leaf_pg]; [reflexivity|]. destruct (is_leaf _); [reflexivity|].
  destruct (negb _); [reflexivity|]. destruct (child_of _ k); cbn [bindr]; auto.
Qed.
Lemma deref_place E t pg o n : deref E t (mkPtr (place_of E t pg) o n) = Some (readn (get_page E t pg) o (N.to_nat n)).
Proof. unfold deref, place_of, get_page. cbn [p_at p_off p_len]. destruct (t_rdonly t); [reflexivity|]. destruct (dget (t_dirty t) pg) eqn:D; [now rewrite D|reflexivity]. Qed.
(** What get returns is what is behind the pointer at that moment. *)
Theorem pointer_is_value : forall E t k,
  db_get E t k = (do p <- get_ptr E t k ;; match deref E t p with Some v => Ok v | None => UB end).
Proof.
  intros E t k. unfold db_get, get_ptr. destruct (t_root t =? 0); [reflexivity|]. rewrite find_pg.
  destruct (find_leaf_pg FIND_FUEL E t (t_root t) k) as [pg|e| |]; cbn [bindr]; try reflexivity.
  destruct (page_search (get_page E t pg) k) as [(found & i)|e| |]; cbn [bindr]; try reflexivity. destruct found; [|reflexivity].
  unfold leaf_value. destruct (_ && _ && _); [|reflexivity]. cbv zeta. cbn [bindr]. rewrite deref_place. reflexivity.
Qed.
Print Assumptions pointer_is_value.

(** ** Insertion leaves the stored nodes where they are *)
Lemma insert_high p i k v p' : wf_page true p -> i <= pg_nkeys p -> leaf_size k v < 65536 -> page_insert p i k (Some v) 0 = Ok p' ->
  pg_upper p' <= pg_upper p /\ forall a, pg_upper p <= a -> p' a = p a.
Proof.
  intros W Hi Hs H.
  assert (Hb : blen (leaf_node_bytes k v) < 65536) by (rewrite blen_leaf; exact Hs).
  pose proof (page_insert_ok true p i k (Some v) 0 (leaf_node_bytes k v) W Hi eq_refl Hb) as OK.
  destruct (page_free p <? blen (leaf_node_bytes k v) + 2) eqn:Fr; [congruence|].
  destruct OK as (q & E & _ & _ & _ & _ & _ & U). rewrite E in H. injection H as ->. split; [lia|].
  pose proof (wf_lower _ _ W) as WL. pose proof (wf_free _ _ W) as WF. pose proof (wf_upper _ _ W) as WU. unfold HDR, PAGE_SIZE in *.
  apply N.ltb_ge in Fr. unfold page_free in Fr. clear U.
  unfold page_insert in E. rewrite (wf_is_leaf _ _ W) in E. cbn [bindr] in E. fold (leaf_size k v) in E. rewrite <- blen_leaf, u16_small in E by exact Hb.
  set (r := leaf_node_bytes k v) in *. rewrite sub16_ge in E by lia.
  destruct (N.ltb_spec (pg_upper p - pg_lower p) (blen r + 2)); [discriminate|].
  destruct (slot_in_page _); [|discriminate]. rewrite sub16_ge in E by lia.
  destruct (_ <=? PAGE_SIZE); [|discriminate].
  assert (M : 2 * (pg_nkeys p - i) = 2 * pg_nkeys p - 2 * i) by lia. revert M E. generalize (2 * (pg_nkeys p - i)). intros m M E.
  injection E as <-. intros a Ha.
  rewrite !put16_out by (unfold slot_addr, HDR; lia). rewrite writeb_out by lia.
  destruct (N.ltb_spec i (pg_nkeys p)); [|reflexivity]. apply copyb_out. unfold slot_addr, HDR. lia.
Qed.
(** what happens to a page of the pool that is a leaf *)
Lemma put_keeps E t k v t' q P : leaf_size k v < 65536 -> shaped E t -> t_root t <> 0 -> fits E t k v -> db_put E t k v = Ret tt t' ->
  dget (t_dirty t) q = Some P -> wf_page true P ->
  exists P', dget (t_dirty t') q = Some P' /\ wf_page true P' /\ pg_upper P' <= pg_upper P /\ forall a, pg_upper P <= a -> P' a = P a.
Proof.
  intros Hs (Hr & [H0|(h & Hh & Hnz & S & ND & PG)]) Hne Hfit H Dq WP; [tauto|]. pose proof (leaf_size_key _ _ Hs) as Hk.
  specialize (Hfit h S). set (V := get_page E t) in *.
  destruct (shape_find E t k Hk h _ S) as [(path & R & EL & FP) _].
  assert (EP : find_path MAX_TREE_DEPTH E t (t_root t) k = Ok (path, V (leaf_of path))).
  { apply FP; [unfold MAX_TREE_DEPTH; lia|unfold max_pgno; rewrite Hr; rewrite Forall_forall in PG; auto]. }
  destruct (shape_leaf V k h _ S) as (Hl & Wl & Sl). fold V in EL; rewrite EL in Hl, Wl, Sl, Hfit. fold V in Hfit.
  set (lpg := leaf_of path) in *. fold V in R.
  assert (Pl : pg_pgno (V lpg) = lpg) by (apply (shape_pgno V h (t_root t) S); auto).
  pose proof Sl as Sl'. rewrite <- leaf_entries_keys in Sl'.
  destruct (cow_path_ok E (rev path) t Hr) as (t3 & EC & C3 & V3 & D3 & K3 & _).
  { intros x Hx. apply in_rev in Hx. eapply shape_pgno; eauto. eapply route_pages; eauto. }
  assert (Hin : In lpg (rev path)).
  { apply in_rev. rewrite rev_involutive. apply last_In. eapply route_nonempty; eauto. }
  assert (Hlk : leaf_key E t lpg = lpg).
  { unfold leaf_key. destruct (dget (t_dirty t) lpg) eqn:D; auto. unfold V, get_page in Pl. rewrite Hr, D in Pl. exact Pl. }
  unfold db_put, db_put_with in H. rewrite Hr in H. destruct (N.eqb_spec (t_root t) 0) as [|_]; [tauto|].
  rewrite EP in H. cbn [lift bindo] in H. fold lpg in H.
  destruct (entries_split k (leaf_entries (V lpg)) Sl') as [(e1 & v0 & e2 & EE & F1 & F2)|(e1 & e2 & EE & F1 & F2)].
  - rewrite (leaf_search_found _ k v0 e1 e2) in H by auto. cbn [lift bindo andb] in H.
    destruct (dget (t_dirty t) lpg) as [pd|] eqn:D; [discriminate|].
    rewrite Hlk, EC in H. cbn [bindo] in H. rewrite (D3 _ Hin) in H. fold V in H.
    destruct (leaf_delete_ok _ k v0 e1 e2 Wl EE) as (p' & ED & W' & E' & P' & F'). rewrite ED in H. cbn [lift bindo] in H.
    assert (Ne : lpg <> q) by congruence.
    destruct (leaf_insert_cases p' k v e1 e2 W' Hs E') as [[Hf _]|(Hf & p2 & X & W2 & E2 & P2 & _)].
    { exfalso. unfold leaf_avail in Hfit. rewrite EE, lookup_mid in Hfit by (rewrite <- lookup_in_iff, lookup_below by auto; tauto). lia. }
    rewrite X in H. injection H as <-. exists P. rewrite !dget_put. destruct (N.eqb_spec lpg q); [congruence|]. splits; auto. lia.
  - rewrite (leaf_search_absent _ k e1 e2) in H by auto. cbn [lift bindo andb] in H.
    rewrite Hlk, EC in H. cbn [bindo] in H. rewrite (D3 _ Hin) in H. fold V in H.
    destruct (leaf_insert_cases (V lpg) k v e1 e2 Wl Hs EE) as [[Hf _]|(Hf & p2 & X & W2 & E2 & P2 & _)].
    { exfalso. unfold leaf_avail in Hfit. rewrite EE, lookup_app, lookup_below, lookup_above in Hfit by auto. lia. }
    rewrite X in H. injection H as <-. rewrite !dget_put. destruct (N.eqb_spec lpg q) as [<-|Ne].
    + assert (EV : V lpg = P) by (unfold V, get_page; rewrite Hr, Dq; reflexivity). rewrite EV in *.
      exists p2. split; [reflexivity|]. split; [exact W2|]. apply (insert_high P (N.of_nat (length e1)) k v p2); auto.
      pose proof (leaf_entries_length P) as L. rewrite EE, app_length in L. lia.
    + exists P. splits; auto. lia.
Qed.
Lemma del_keeps E t k t' q P : blen k < 65536 -> shaped E t -> db_del E t k None = Ret tt t' -> dget (t_dirty t) q = Some P ->
  (forall h, shape (get_page E t) h (t_root t) -> leaf_on (get_page E t) k h (t_root t) <> q) -> dget (t_dirty t') q = Some P.
Proof.
  intros Hk (Hr & [H0|(h & Hh & Hnz & S & ND & PG)]) H Dq NQ; unfold db_del in H; rewrite Hr in H.
  { rewrite H0 in H. discriminate. }
  specialize (NQ h S). destruct (N.eqb_spec (t_root t) 0) as [|_]; [tauto|].
  destruct (shape_find E t k Hk h _ S) as [(path & R & EL & FP) _].
  rewrite FP in H; [|unfold MAX_TREE_DEPTH; lia|unfold max_pgno; rewrite Hr; rewrite Forall_forall in PG; auto].
  cbn [lift bindo] in H. destruct (shape_leaf _ k h _ S) as (Hl & Wl & Sl). rewrite EL in Hl, Wl, Sl, NQ.
  set (lpg := leaf_of path) in *. set (V := get_page E t) in *.
  pose proof Sl as Sl'. rewrite <- leaf_entries_keys in Sl'.
  destruct (entries_split k (leaf_entries (V lpg)) Sl') as [(e1 & v0 & e2 & EE & F1 & F2)|(e1 & e2 & EE & F1 & F2)].
  - rewrite (leaf_search_found _ k v0 e1 e2) in H by auto. cbn [bindo] in H.
    destruct (cow_path_ok E (rev path) t Hr) as (t3 & EC & C3 & V3 & D3 & K3 & _).
    { intros x Hx. apply in_rev in Hx. eapply shape_pgno; eauto. eapply route_pages; eauto. }
    rewrite EC in H. cbn [bindo] in H.
    assert (Hin : In lpg (rev path)).
    { apply in_rev. rewrite rev_involutive. apply last_In. eapply route_nonempty; eauto. }
    rewrite (D3 _ Hin) in H. fold V in H.
    destruct (leaf_delete_ok _ k v0 e1 e2 Wl EE) as (p' & ED & W' & E' & P' & F'). rewrite ED in H. cbn [lift bindo] in H. injection H as <-.
    rewrite dget_put. destruct (N.eqb_spec lpg q); [congruence|]. auto.
  - rewrite (leaf_search_absent _ k e1 e2) in H by auto. discriminate.
Qed.

(** the leaf in which the pointer lies *)
Lemma find_pg_shape E t k : blen k < 65536 -> forall h pg, shape (get_page E t) h pg -> forall fuel, (h < fuel)%nat ->
  find_leaf_pg fuel E t pg k = Ok (leaf_on (get_page E t) k h pg).
Proof.
  intros Hk. induction h as [|h IH]; intros pg S; cbn [shape] in S.
  - destruct S as (_ & W & _). intros [|f] Hf; [lia|]. cbn [find_leaf_pg]. rewrite (wf_is_leaf true _ W). reflexivity.
  - destruct S as (_ & W & S & Hne & F).
    destruct (child_of_ok _ k W S Hk Hne) as (pre & ki & c & post & Ee & _ & Ec & Hp & _ & Ho).
    assert (Sc : shape (get_page E t) h c).
    { rewrite Forall_forall in F. apply (F (ki, c)). rewrite Ee. apply in_app_iff; cbn; auto. }
    assert (ELO : leaf_on (get_page E t) k (Datatypes.S h) pg = leaf_on (get_page E t) k h c).
    { cbn [leaf_on]. rewrite (rank_route _ k pre ki c post S Ee Hp Ho), Ee, nth_error_mid. reflexivity. }
    intros [|f] Hf; [lia|]. cbn [find_leaf_pg]. rewrite (wf_is_leaf false _ W), (wf_is_branch false _ W). cbn [negb].
    rewrite Ec. cbn [bindr]. rewrite (IH c Sc) by lia. rewrite ELO. reflexivity.
Qed.
Lemma ptr_leaf E t k p q : blen k < 65536 -> shaped E t -> get_ptr E t k = Ok p -> p_at p = InPool q ->
  exists P, dget (t_dirty t) q = Some P /\ wf_page true P /\ pg_upper P <= p_off p.
Proof.
  intros Hk (Hr & [H0|(h & Hh & Hnz & S & ND & PG)]) H A; unfold get_ptr in H.
  { rewrite H0 in H. discriminate. }
  destruct (N.eqb_spec (t_root t) 0) as [|_]; [tauto|]. rewrite (find_pg_shape E t k Hk h _ S) in H by (unfold FIND_FUEL; lia). cbn [bindr] in H.
  destruct (shape_leaf _ k h _ S) as (Hl & Wl & Sl). set (l := leaf_on (get_page E t) k h (t_root t)) in *. pose proof Sl as Sl'. rewrite <- leaf_entries_keys in Sl'.
  destruct (entries_split k (leaf_entries (get_page E t l)) Sl') as [(e1 & v0 & e2 & EE & F1 & F2)|(e1 & e2 & EE & F1 & F2)].
  2:{ rewrite (leaf_search_absent _ k e1 e2) in H by auto. discriminate. }
  rewrite (leaf_search_found _ k v0 e1 e2) in H by auto. cbn [bindr] in H. destruct (_ && _ && _); [|discriminate]. injection H as <-. cbn [p_at p_off] in *.
  unfold place_of in A. rewrite Hr in A. destruct (dget (t_dirty t) l) as [P|] eqn:D; [|discriminate]. injection A as <-.
  assert (EV : get_page E t l = P) by (unfold get_page; rewrite Hr, D; reflexivity). rewrite EV in *.
  exists P. splits; auto. pose proof (wf_nodes _ _ Wl) as WN. rewrite Forall_forall in WN.
  assert (I : In (slot P (N.of_nat (length e1))) (slots P)).
  { unfold slots. apply in_map_iff. exists (length e1). split; [reflexivity|]. apply in_seq. pose proof (leaf_entries_length P) as L. rewrite EE, app_length in L. cbn [length] in L. lia. }
  apply WN in I. lia.
Qed.
Lemma readn_same (a b : page) n : forall o, (forall i, o <= i -> a i = b i) -> readn a o n = readn b o n.
Proof.
  intros o H. unfold readn. apply map_ext. intro i. apply H. lia.
Qed.
(** Inside a transaction for writing a pointer stays good as long as no leaf is split and nothing
    is deleted from its page.  Missing for the full claim: splits and deletions; see
    [pointer_after_delete_refuted] and [pointer_after_upsert_refuted]. *)
Theorem pointer_lasts_partial : forall os E t k p t',
  blen k < 65536 -> shaped E t -> get_ptr E t k = Ok p ->
  (forall q, p_at p = InPool q -> gentle q E t os) -> do_ops E t os = Ret tt t' -> deref E t' p = deref E t p.
Proof.
  intros os E t k p t' Hk SH H GE D. destruct (p_at p) as [q|q] eqn:A.
  { unfold deref. rewrite A. reflexivity. }
  destruct (ptr_leaf E t k p q Hk SH H A) as (P & DP & WP & UP). specialize (GE q eq_refl). clear H Hk.
  unfold deref. rewrite A, DP. revert t P t' SH GE D DP WP UP. induction os as [|o r IH]; intros t P t' SH GE D DP WP UP.
  { cbn [do_ops] in D. injection D as <-. rewrite DP. reflexivity. }
  cbn [do_ops] in D. destruct (do_op E t o) as [[] t1|e t1| |] eqn:O; cbn [bindo] in D; try discriminate. cbn [gentle] in GE. destruct GE as (G1 & G2).
  assert (N1 : shaped E t1 /\ exists P', dget (t_dirty t1) q = Some P' /\ wf_page true P' /\ pg_upper P' <= pg_upper P /\ forall a, pg_upper P <= a -> P' a = P a).
  { destruct o as [k' v'|k']; cbn [do_op] in O.
    - destruct G1 as (Hs & Nz & Fi). split; [|eapply put_keeps; eauto].
      destruct (db_put_shape page_alloc E t k' v' Hs SH Nz Fi) as [(_ & _ & Y)|(_ & t2 & Y & SC & SH2 & _)]; unfold db_put in O; rewrite Y in O; [discriminate|].
      injection O as <-. exact SH2.
    - destruct G1 as (Hk & NQ). split.
      + pose proof (db_del_shape E t k' None Hk SH) as DS. destruct (db_get E t k') as [v|e| |]; [|destruct DS as (_ & DS); congruence|destruct DS|destruct DS].
        destruct DS as (t2 & Y & _ & SH2 & _). rewrite Y in O. injection O as <-. exact SH2.
      + exists P. splits; auto; [|lia]. eapply del_keeps; eauto. }
  destruct N1 as (SH1 & P' & D1 & W1 & U1 & B1).
  rewrite (IH t1 P' t' SH1 (G2 t1 O) D D1 W1 ltac:(lia)). f_equal. apply readn_same. intros i Hi. apply B1. lia.
Qed.
Print Assumptions pointer_lasts_partial.

(** ** Readers *)
Lemma spared_pages : forall (P : N -> Prop) l s s', reaches s l s' -> spares P s l -> forall q, P q -> e_file (y_env s') q = e_file (y_env s) q.
Proof.
  intros P l s s' R. induction R as [|s a s1 l s2 H R IH]; intros SP q Hq; [reflexivity|]. cbn [spares] in SP. destruct SP as (A & B).
    rewrite (IH (B s1 H) q Hq). destruct a as [h|h k v|h k d|h f|h|h pid tid|h];
      try (destruct (live_of_step _ _ _ H I) as (D & _); injection D as D _ _; rewrite D; reflexivity).
    cbn [step] in H. destruct (wget (y_writers s) h) as [t|] eqn:W; [|discriminate].
    assert (G : forall E' r, db_commit (y_env s) t f = (E', r) -> (exists x, r = Ok x) \/ (exists e, r = Err e) -> e_file E' q = e_file (y_env s) q).
    { intros E' r X Y. assert (C : commit_case (y_env s) t E' r) by (eapply commit_cases; [exact X|exact Y]).
      assert (WF : forall fr t1 l, populate_free_db page_alloc (y_env s) t = Ret fr t1 -> (exists m, l = firstn m (commit_ios (y_env s) t1 fr)) ->
         forall d, d_file (fold_left io_apply l d) q = d_file d q).
      { intros fr t1 l0 P0 (m & ->) d. assert (Q : forall o, In o (commit_ios (y_env s) t1 fr) -> match o with WPage pg _ => pg <> q | _ => True end).
        { intros o Ho. rewrite ios_eq in Ho. apply in_app_or in Ho. destruct Ho as [Ho|Ho].
          - apply in_map_iff in Ho. destruct Ho as ((a & p) & <- & Ho). cbn [snd]. intros <-. apply (A t fr t1 eq_refl P0 a p Ho). exact Hq.
          - destruct Ho as [<-|[<-|[<-|[]]]]; exact I. }
        assert (Q' : forall o, In o (firstn m (commit_ios (y_env s) t1 fr)) -> match o with WPage pg _ => pg <> q | _ => True end).
        { intros o Ho. apply Q. eapply firstn_In; exact Ho. }
        revert Q' d. generalize (firstn m (commit_ios (y_env s) t1 fr)). clear. induction l as [|o l IH]; intros Q d; [reflexivity|]. cbn [fold_left].
        rewrite IH by (intros o' Ho'; apply Q; right; exact Ho'). specialize (Q o (or_introl eq_refl)). destruct o as [pg p|[] m|]; try reflexivity.
        cbn [io_apply d_file]. destruct (N.eqb_spec q pg); congruence. }
      destruct C as [D|e D|m fr t1 E1 D P0 X1 X2 L Rd K|fr t1 E1 D P0 X1 L Rd K]; try reflexivity.
      - change (e_file E1 q) with (d_file (disk_of E1) q). rewrite X1. apply (WF fr t1 _ P0). eauto.
      - change (e_file E1 q) with (d_file (disk_of E1) q). rewrite X1. apply (WF fr t1 _ P0). exists (length (commit_ios (y_env s) t1 fr)). symmetry. apply firstn_all. }
    destruct (db_commit (y_env s) t f) as [E' [x|e| |]] eqn:Q; try discriminate; injection H as <-; cbn [y_env]; eapply G; eauto.
Qed.
(** Inside a transaction for reading the pointer is to the map, and stays good as long as no commit
    writes that page.  Missing for the full claim: commits that write the page in place; see
    [read_pointer_refuted]. *)
Theorem read_pointer_lasts_partial : forall s l s' r k p,
  reaches s l s' -> t_rdonly r = true -> get_ptr (y_env s) r k = Ok p ->
  (forall q, p_at p = InMap q -> spares (fun x => x = q) s l) ->
  (exists q, p_at p = InMap q) /\ deref (y_env s') r p = deref (y_env s) r p.
Proof.
  intros s l s' r k p R Hr H SP.
  assert (A : exists q, p_at p = InMap q).
  { unfold get_ptr in H. destruct (t_root r =? 0); [discriminate|]. destruct (find_leaf_pg _ _ _ _ _) as [pg| | |]; cbn [bindr] in H; try discriminate.
    destruct (page_search _ k) as [(f & i)| | |]; cbn [bindr] in H; try discriminate. destruct f; [|discriminate]. destruct (_ && _ && _); [|discriminate].
    injection H as <-. cbn [p_at]. unfold place_of. rewrite Hr. eauto. }
  split; [exact A|]. destruct A as (q & A). unfold deref. rewrite A. do 2 f_equal. apply (spared_pages (fun x => x = q) l s s' R (SP q A) q eq_refl).
Qed.
Print Assumptions read_pointer_lasts_partial.

(** ** Pointers that do not last *)
(** a deletion moves the values of its page; what is put next is stored where the pointer points *)
Definition W0 : txn := ret_txn (do_ops env_create (begun env_create) [Put [97] [1; 2; 3]; Put [98] [4; 5; 6]]).
Definition W1 : txn := ret_txn (do_ops env_create W0 [Del [97]; Put [99] [7; 8; 9]]).
Definition Wp : ptr := mkPtr (InPool 2) 4085 3.
Theorem pointer_after_delete_refuted :
  do_ops env_create (begun env_create) [Put [97] [1; 2; 3]; Put [98] [4; 5; 6]] = Ret tt W0 /\
  get_ptr env_create W0 [98] = Ok Wp /\ deref env_create W0 Wp = Some [4; 5; 6] /\
  do_ops env_create W0 [Del [97]; Put [99] [7; 8; 9]] = Ret tt W1 /\
  db_get env_create W1 [98] = Ok [4; 5; 6] /\ deref env_create W1 Wp = Some [7; 8; 9].
Proof.
  split; [apply ret_unit; vm_compute; reflexivity|]. split; [vm_compute; reflexivity|]. split; [vm_compute; reflexivity|].
  split; [apply ret_unit; vm_compute; reflexivity|]. split; vm_compute; reflexivity.
Qed.
Print Assumptions pointer_after_delete_refuted.

(** the cache: an upsert that splits the leaf stores its entry where the pointer points *)
Definition path_of (c : N) : bytes := c :: fillb 1000 47.
Definition ent (x : N) : entry := mkEntry x x x x x.
Definition after_ups (c : cache) (l : list (bytes * entry)) : cache := fold_left (fun c pe => fst (cache_upsert c (fst pe) (snd pe))) l c.
Definition opened : cache := match cache_begin_write (mkCache env_create None []) with Some c => c | None => mkCache env_create None [] end.
Definition C0 : cache := after_ups opened [(path_of 97, ent 1); (path_of 99, ent 3); (path_of 100, ent 4)].
Definition C1 : cache := fst (cache_upsert C0 (path_of 96) (ent 2)).
Definition Cp : ptr := mkPtr (InPool 2) 3011 40.
Theorem pointer_after_upsert_refuted :
  lookup_ptr C0 (path_of 99) = Ok Cp /\ cache_lookup C0 (path_of 99) = Ok (ent 3) /\ entry_at C0 Cp = Some (ent 3) /\
  snd (cache_upsert C0 (path_of 96) (ent 2)) = Ok tt /\
  cache_lookup C1 (path_of 99) = Ok (ent 3) /\ entry_at C1 Cp = Some (ent 2).
Proof. repeat (split; [vm_compute; reflexivity|]). vm_compute. reflexivity. Qed.
Print Assumptions pointer_after_upsert_refuted.

(** a commit by another writer changes what a reader's pointer reads *)
Theorem read_pointer_refuted :
  transact E3 [Put [97] (fillb 1400 2)] = Ok E4 /\
  get_ptr E3 (reader E3) [97] = Ok (mkPtr (InMap 2) 2696 1400) /\
  deref E3 (reader E3) (mkPtr (InMap 2) 2696 1400) = Some (fillb 1400 1) /\
  deref E4 (reader E3) (mkPtr (InMap 2) 2696 1400) = Some (fillb 1400 2).
Proof.
  split; [apply ok_env; vm_compute; reflexivity|]. split; [vm_compute; reflexivity|]. split; vm_compute; reflexivity.
Qed.
Print Assumptions read_pointer_refuted.

(** ** The hypotheses are met *)
Fixpoint gentleb (q : N) (E : env) (t : txn) (os : list op) : bool :=
  match os with
  | [] => true
  | o :: r =>
    (match o with
     | Put k v => (leaf_size k v <? 65536) && negb (t_root t =? 0) && fitsb E t k v
     | Del k => (blen k <? 65536) && negb (t_root t =? 0) && negb (leaf_on (get_page E t) k (height_of 33 (get_page E t) (t_root t)) (t_root t) =? q)
     end) && (match do_op E t o with Ret _ t1 => gentleb q E t1 r | _ => true end)
  end.
Lemma gentleb_ok q E : forall os t, shaped E t -> gentleb q E t os = true -> gentle q E t os.
Proof.
  induction os as [|o r IH]; intros t SH H; cbn [gentle gentleb] in *; [exact I|]. apply andb_prop in H. destruct H as (H1 & H2).
  destruct o as [k v|k]; cbn [do_op] in *; apply andb_prop in H1; destruct H1 as (H1 & H3); apply andb_prop in H1; destruct H1 as (H1 & H4);
    apply N.ltb_lt in H1; apply negb_true_iff, N.eqb_neq in H4; (pose proof SH as (_ & [Z|(h1 & Hh & _ & S1 & _)]); [congruence|]).
  - assert (F : fits E t k v). { intros h S. unfold fitsb in H3. rewrite (height_of_ok _ 33 h1 _ ltac:(lia) S1) in H3. rewrite (shape_height _ _ _ _ S S1). apply N.leb_le. exact H3. }
    split; [splits; auto|]. intros t1 X. rewrite X in H2. apply IH; [|exact H2].
    destruct (db_put_shape page_alloc E t k v H1 SH H4 F) as [(_ & _ & Y)|(_ & t2 & Y & _ & SH2 & _)]; unfold db_put in X; rewrite Y in X; [discriminate|].
    injection X as <-. exact SH2.
  - split; [split; [exact H1|]|].
    + intros h S. apply negb_true_iff, N.eqb_neq in H3. rewrite (height_of_ok _ 33 h1 _ ltac:(lia) S1) in H3. rewrite (shape_height _ _ _ _ S S1). exact H3.
    + intros t1 X. rewrite X in H2. apply IH; [|exact H2]. pose proof (db_del_shape E t k None H1 SH) as DS.
      destruct (db_get E t k) as [v|e| |]; [|destruct DS as (_ & DS); congruence|destruct DS|destruct DS].
      destruct DS as (t2 & Y & _ & SH2 & _). rewrite Y in X. injection X as <-. exact SH2.
Qed.
(** a database of two leaves: a value is put beside the one pointed to, and one of the other leaf
    is deleted *)
Example lasts_case : exists p q t', shaped env_create split_txn /\ get_ptr env_create split_txn [98] = Ok p /\ p_at p = InPool q /\
  gentle q env_create split_txn [Put [98; 1] [7]; Del [97]] /\
  do_ops env_create split_txn [Put [98; 1] [7]; Del [97]] = Ret tt t' /\ p_len p = 1900.
Proof.
  destruct split_txn_shaped as (SH & _). eexists. eexists. exists (ret_txn (do_ops env_create split_txn [Put [98; 1] [7]; Del [97]])).
  split; [exact SH|]. split; [vm_compute; reflexivity|]. split; [reflexivity|]. split; [|split; [apply ret_unit; vm_compute; reflexivity|reflexivity]].
  apply gentleb_ok; [exact SH|]. vm_compute. reflexivity.
Qed.
