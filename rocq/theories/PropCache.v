(** Properties C27 and C28: the cache. *)
From Verif Require Import Util PageModel PageSpec PageProofs PageOps TxnModel CursorModel TreeModel TreeSpec PropPage TreeProofs TreeOps TreeSplit TreePut TreeShape TxnInv DbModel SysModel DbSpec DbProofs DbCommit CursorSpec CursorProofs PropTree PropCursor PropCommit CacheModel.
Local Open Scope N_scope.

(** ** Specification *)
(** the five numbers of an entry fit their fields *)
Definition entry_ok (e : entry) : Prop :=
  ce_mtime e < 2 ^ 64 /\ ce_ctime e < 2 ^ 64 /\ ce_size e < 2 ^ 64 /\ ce_hash_lo e < 2 ^ 64 /\ ce_hash_hi e < 2 ^ 64.
(** the keys of a list of pairs that are not marked *)
Definition unmarked (vis : list bytes) (l : list (bytes * bytes)) : list bytes :=
  filter (fun k => negb (visited vis k)) (map fst l).

(** ** Lemmas *)
Lemma entry_round e : entry_ok e -> entry_of (entry_bytes e) = e.
Proof.
  intros (A & B & C & D & F). destruct e as [a b c d f]. cbn [ce_mtime ce_ctime ce_size ce_hash_lo ce_hash_hi] in *.
  assert (R : forall v r, v < 2 ^ 64 -> le_val (firstn 8 (le_bytes 8 v ++ r)) = v).
  { intros v r H. rewrite firstn_app, le_length, Nat.sub_diag, firstn_O, app_nil_r.
    rewrite firstn_all2 by (rewrite le_length; lia). rewrite le_val_bytes. apply N.mod_small. exact H. }
  assert (K : forall v r i, skipn (8 * Datatypes.S i) (le_bytes 8 v ++ r) = skipn (8 * i) r).
  { intros v r i. replace (8 * Datatypes.S i)%nat with (length (le_bytes 8 v) + 8 * i)%nat by (rewrite le_length; lia).
    rewrite skipn_app. rewrite skipn_all2 by lia. cbn [app]. f_equal. lia. }
  unfold entry_of, entry_bytes. cbn [ce_mtime ce_ctime ce_size ce_hash_lo ce_hash_hi].
  rewrite <- (app_nil_r (le_bytes 8 f)). rewrite !K. change (8 * 0)%nat with 0%nat. rewrite !skipn_O. rewrite !R by assumption. reflexivity.
Qed.
Lemma entry_blen e : blen (entry_bytes e) = 40.
Proof. unfold blen, entry_bytes. rewrite !app_length, !le_length. reflexivity. Qed.
Lemma visited_in vis k : visited vis k = true <-> In k vis.
Proof.
  unfold visited. rewrite existsb_exists. split.
  - intros (x & I & H). destruct (list_eq_dec N.eq_dec k x); [subst; exact I|discriminate].
  - intro I. exists k. split; [exact I|]. destruct (list_eq_dec N.eq_dec k k); congruence.
Qed.

(** pages that hold a key smaller than every key of a subtree are not in the subtree *)
Lemma leaf_in_tree V : forall h pg l, shape V h pg -> wf_page true (V l) -> In l (tree_pages V h pg) -> incl (leaf_entries (V l)) (tree_kvs V h pg).
Proof.
  induction h as [|h IH]; intros pg l S W I; cbn [shape tree_pages tree_kvs] in *.
  - destruct I as [<-|[]]. apply incl_refl.
  - destruct S as (_ & Wp & _ & _ & F). destruct I as [<-|I].
    + apply wf_is_leaf in W, Wp. congruence.
    + apply in_flat_map in I. destruct I as (e & He & I). intros x Hx. apply in_flat_map. exists e. split; [exact He|].
      rewrite Forall_forall in F. apply (IH (snd e) l (F e He) W I x Hx).
Qed.
Lemma no_empty_frame V V' : forall h pg, (forall q, In q (tree_pages V h pg) -> V' q = V q) -> no_empty_leaf V h pg -> no_empty_leaf V' h pg.
Proof.
  induction h as [|h IH]; intros pg F N; cbn [no_empty_leaf tree_pages] in *.
  - rewrite F by (cbn; auto). exact N.
  - rewrite F by (cbn; auto). rewrite Forall_forall in *. intros e He. apply IH; auto.
    intros q Hq. apply F. right. apply in_flat_map. eauto.
Qed.
Section Frame.
Variables (V V' : view) (l : N) (k v : bytes).
Hypothesis OFF : forall q, q <> l -> V' q = V q.
Hypothesis W : wf_page true (V l).
Hypothesis IN : In (k, v) (leaf_entries (V l)).
Lemma good_frame h e : good V h e -> ~ In k (map fst (tree_kvs V h (snd e))) -> good V' h e /\ tree_kvs V' h (snd e) = tree_kvs V h (snd e).
Proof.
  intros (S & N) NI.
  assert (F : forall q, In q (tree_pages V h (snd e)) -> V' q = V q).
  { intros q Hq. apply OFF. intros ->. apply NI. apply (in_map fst _ (k, v)). apply (leaf_in_tree V h _ l S W Hq). exact IN. }
  split; [|apply kvs_frame; exact F]. split; [apply (shape_frame V V' h _ F S)|apply (no_empty_frame V V' h _ F N)].
Qed.
Lemma sub_frame h es : Forall (good V h) es -> ~ In k (map fst (sub_kvs V h es)) -> Forall (good V' h) es /\ sub_kvs V' h es = sub_kvs V h es.
Proof.
  induction es as [|e es IH]; intros G NI; [split; [constructor|reflexivity]|]. inversion G; subst.
  cbn [sub_kvs flat_map] in *. rewrite map_app, in_app_iff in NI. destruct (good_frame h e) as (A & B); auto.
  destruct IH as (C & D); auto. split; [constructor; auto|]. rewrite B. f_equal. exact D.
Qed.
Lemma zR_frame : forall st h R, zR V h st R -> ~ In k (map fst R) -> zR V' h st R.
Proof.
  induction st as [|(p, i) st IH]; intros h R Z NI; cbn [zR] in *; [exact Z|].
  destruct Z as (Wp & Hi & G & R' & Z & ER). subst R. rewrite map_app, in_app_iff in NI.
  destruct (sub_frame h _ G) as (G' & E'); [tauto|]. splits; auto. exists R'. split; [apply IH; tauto|]. rewrite E'. reflexivity.
Qed.
Lemma ahead_frame c kv post : ahead V c kv post -> ~ In k (map fst post) -> ahead V' c kv post.
Proof.
  intros (p & i & r & R & A & B & C & D & Z & ->) NI. exists p, i, r, R. splits; auto. apply zR_frame; auto.
  intro H. apply NI. rewrite map_app, in_app_iff. auto.
Qed.
End Frame.

(** a deletion changes the leaf that holds the key and nothing else *)
Lemma del_leaf E t t' k v : blen k < 65536 -> shaped E t -> db_get E t k = Ok v -> db_del E t k None = Ret tt t' ->
  exists l, wf_page true (get_page E t l) /\ In (k, v) (leaf_entries (get_page E t l)) /\ forall q, q <> l -> get_page E t' q = get_page E t q.
Proof.
  intros Hk (Hr & [H0|(h & Hh & Hnz & S & ND & PG)]) G H.
  { unfold db_get in G. rewrite H0 in G. discriminate. }
  rewrite (get_shape E t k h) in G by (auto; lia).
  unfold db_del in H. rewrite Hr in H. destruct (N.eqb_spec (t_root t) 0) as [|_]; [tauto|].
  destruct (shape_find E t k Hk h _ S) as [(path & R & EL & FP) _].
  rewrite FP in H; [|unfold MAX_TREE_DEPTH; lia|unfold max_pgno; rewrite Hr; rewrite Forall_forall in PG; auto].
  cbn [lift bindo] in H. destruct (shape_leaf _ k h _ S) as (Hl & Wl & Sl). rewrite EL in Hl, Wl, Sl, G.
  set (lpg := leaf_of path) in *. exists lpg. split; [exact Wl|].
  pose proof Sl as Sl'. rewrite <- leaf_entries_keys in Sl'.
  destruct (entries_split k (leaf_entries (get_page E t lpg)) Sl') as [(e1 & v0 & e2 & EE & F1 & F2)|(e1 & e2 & EE & F1 & F2)].
  - assert (L : lookup k (leaf_entries (get_page E t lpg)) = Some v0).
    { rewrite EE. apply lookup_mid. rewrite <- lookup_in_iff, lookup_below by auto. tauto. }
    rewrite L in G. injection G as ->. split; [rewrite EE; apply in_elt|].
    rewrite (leaf_search_found _ k v e1 e2) in H by auto. cbn [bindo] in H.
    destruct (cow_path_ok E (rev path) t Hr) as (t3 & EC & C3 & V3 & D3 & K3 & _).
    { intros q Hq. apply in_rev in Hq. eapply shape_pgno; eauto. eapply route_pages; eauto. }
    rewrite EC in H. cbn [bindo] in H.
    assert (Hin : In lpg (rev path)).
    { apply in_rev. rewrite rev_involutive. apply last_In. eapply route_nonempty; eauto. }
    rewrite (D3 _ Hin) in H.
    destruct (leaf_delete_ok _ k v e1 e2 Wl EE) as (p' & ED & _). rewrite ED in H. cbn [lift bindo] in H. injection H as <-.
    assert (Hr3 : t_rdonly t3 = false) by (destruct C3; congruence).
    intros q Hq. rewrite get_put by auto. rewrite V3. destruct (N.eqb_spec lpg q); congruence.
  - rewrite EE, lookup_app, lookup_below, lookup_above in G by auto. discriminate.
Qed.

(** the sweep deletes the unmarked keys in key order *)
Lemma sweep_ops E vis : forall post fuel t c kv, shaped E t -> ahead (get_page E t) c kv post ->
  ksorted (map fst (kv :: post)) -> Forall (fun e => blen (fst e) < 65536 /\ db_get E t (fst e) = Ok (snd e)) (kv :: post) ->
  (length post + 1 < fuel)%nat ->
  sweep_loop fuel E t vis (COk kv c) = do_ops E t (map Del (unmarked vis (kv :: post))).
Proof.
  induction post as [|kv' post IH]; intros [|fuel] t c (k, v) SH A SK F Hf; try lia; cbn [sweep_loop].
  - pose proof (Forall_inv F) as (Hk & G). cbn [fst snd] in Hk, G. unfold unmarked. cbn [map filter fst].
    destruct fuel as [|fuel]; [cbn [length] in Hf; lia|]. unfold cursor_get. destruct (visited vis k); cbn [negb].
    + destruct (next_ok E t c _ _ A) as (c' & X). rewrite X. reflexivity.
    + cbn [map do_ops do_op]. pose proof (db_del_shape E t k None Hk SH) as D. rewrite G in D. destruct D as (t' & X & _).
      rewrite X. cbn [bindo]. destruct (del_leaf E t t' k v Hk SH G X) as (l & W & I & OFF).
      pose proof (ahead_frame _ _ l k v OFF W I _ _ _ A ltac:(cbn; tauto)) as A'.
      destruct (next_ok E t' c _ _ A') as (c' & Y). rewrite Y. reflexivity.
  - pose proof (Forall_inv F) as (Hk & G). cbn [fst snd] in Hk, G. pose proof (Forall_inv_tail F) as F'.
    cbn [map] in SK. apply sorted_cons_inv in SK. destruct SK as (SK & FK).
    change (unmarked vis ((k, v) :: kv' :: post)) with (if negb (visited vis k) then k :: unmarked vis (kv' :: post) else unmarked vis (kv' :: post)).
    unfold cursor_get. destruct (visited vis k); cbn [negb].
    + destruct (next_ok E t c _ _ A) as (c' & X & A' & _). rewrite X, (fetch_ok _ _ _ _ A'). apply IH; auto. cbn [length] in Hf. lia.
    + cbn [map do_ops do_op]. pose proof (db_del_shape E t k None Hk SH) as D. rewrite G in D. destruct D as (t' & X & _ & SH' & _ & RD).
      rewrite X. cbn [bindo]. destruct (del_leaf E t t' k v Hk SH G X) as (l & W & I & OFF).
      assert (NI : ~ In k (map fst (kv' :: post))).
      { rewrite Forall_forall in FK. intro Hin. eapply klt_irrefl. apply FK. exact Hin. }
      pose proof (ahead_frame _ _ l k v OFF W I _ _ _ A NI) as A'.
      destruct (next_ok E t' c _ _ A') as (c' & Y & A'' & _). rewrite Y, (fetch_ok _ _ _ _ A''). apply IH; auto; [|cbn [length] in Hf; lia].
      rewrite Forall_forall in *. intros e He. destruct (F' e He) as (H1 & H2). split; [exact H1|]. rewrite RD by exact H1.
      destruct (key_dec (fst e) k) as [Ek|]; [|exact H2]. exfalso. apply NI. rewrite <- Ek. apply in_map. exact He.
Qed.

(** ** C27 sweep *)
Lemma do_dels_rdonly E : forall ks t t', do_ops E t (map Del ks) = Ret tt t' -> t_rdonly t' = t_rdonly t.
Proof.
  induction ks as [|k ks IH]; intros t t' H; cbn [map do_ops do_op] in H; [injection H as <-; reflexivity|].
  pose proof (db_del_lout E t k None) as L. destruct (db_del E t k None) as [x t1|e t1| |]; cbn [bindo] in H; try discriminate.
  rewrite (IH _ _ H). cbn [lout] in L. apply (la_ro _ _ L).
Qed.
Lemma do_dels_fail_rdonly E e : forall ks t t', do_ops E t (map Del ks) = Fail e t' -> t_rdonly t' = t_rdonly t.
Proof.
  induction ks as [|k ks IH]; intros t t' H; cbn [map do_ops do_op] in H; [discriminate|].
  pose proof (db_del_lout E t k None) as L. destruct (db_del E t k None) as [x t1|e1 t1| |]; cbn [bindo] in H; try discriminate; cbn [lout] in L.
  - rewrite (IH _ _ H). apply (la_ro _ _ L).
  - injection H as <- <-. apply (la_ro _ _ L).
Qed.
Lemma commit_err_env E t E2 e : db_commit E t None = (E2, Err e) -> E2 = set_locked E false.
Proof.
  unfold db_commit. destruct (t_dirty t); [discriminate|]. destruct (populate_free_db page_alloc E t) as [r t1|e1 t1| |]; try discriminate.
  - destruct (over_meta t1); discriminate.
  - intro H. injection H as <- _. reflexivity.
Qed.
Lemma lock_unlock E : e_locked E = false -> set_locked (set_locked E true) false = E.
Proof. destruct E. cbn. intros ->. reflexivity. Qed.
(** the sweep is the transaction that deletes the unmarked keys *)
Lemma sweep_transact fuel c l : healthy (c_env c) -> scannable (c_env c) (reader (c_env c)) -> bindings (c_env c) (reader (c_env c)) l ->
  (length l + 1 < fuel)%nat ->
  exists c1 r, cache_sweep fuel c = Some (c1, r) /\
    (forall E', r = Ok tt -> c_env c1 = E' -> transact (c_env c) (map Del (unmarked (c_visited c) l)) = Ok E' /\ c_visited c1 = [] /\ c_active c1 = None) /\
    (forall E', transact (c_env c) (map Del (unmarked (c_visited c) l)) = Ok E' -> r = Ok tt /\ c_env c1 = E') /\
    (forall e, transact (c_env c) (map Del (unmarked (c_visited c) l)) = Err e -> r = Err e /\ c1 = mkCache (c_env c) None (c_visited c)).
Proof.
  intros HH SC BL Hf. destruct c as [E act vis]. cbn [c_env c_visited c_active] in *.
  pose proof (begun_is E (proj1 HH)) as B. pose proof (proj2 HH _ _ B) as ((_ & SH) & _).
  pose proof (begin_fields _ _ _ B) as (_ & Et).
  assert (VW : forall q, get_page (set_locked E true) (begun E) q = get_page E (reader E) q) by (intro q; rewrite Et; reflexivity).
  assert (RR : t_root (begun E) = t_root (reader E)) by (rewrite Et; reflexivity).
  assert (SC1 : scannable (set_locked E true) (begun E)).
  { unfold scannable. rewrite RR. rewrite Et. exact SC. }
  assert (BL1 : bindings (set_locked E true) (begun E) l).
  { destruct BL as (B1 & B2 & B3). split; [exact B1|]. split; [exact B2|]. intros k v Hk. rewrite (B3 k v Hk).
    rewrite (db_get_view E (reader E) (set_locked E true) (begun E)); [reflexivity|intro q; rewrite Et; reflexivity|rewrite Et; reflexivity]. }
  unfold cache_sweep, cache_begin_write. cbn [c_env c_visited]. rewrite B. cbn [c_active c_env]. unfold transact. rewrite B.
  set (E1 := set_locked E true) in *. set (t := begun E) in *.
  assert (SHt : shaped E1 t) by (split; [rewrite Et; reflexivity|exact SH]).
  assert (L : sweep_loop fuel E1 t vis (cursor_get E1 t cursor_open FIRST) = do_ops E1 t (map Del (unmarked vis l))).
  { pose proof BL1 as (BS & BK & BI). assert (FA : Forall (fun e => blen (fst e) < 65536 /\ db_get E1 t (fst e) = Ok (snd e)) l).
    { rewrite Forall_forall in *. intros (k, v) He. pose proof (BK _ He) as Hk. cbn [fst snd] in *. split; [exact Hk|]. apply BI; auto. }
    destruct SC1 as [Z|(h & Hh & Nz & T & HN)].
    - pose proof (bindings_unique E1 t l [] BL1 (empty_bindings E1 t Z)). subst l. unfold cursor_get, cursor_seek. rewrite Z. cbn [N.eqb unmarked map filter do_ops].
      destruct fuel; [lia|]. reflexivity.
    - pose proof (tree_shape _ _ _ _ _ _ T) as S. pose proof (bindings_unique E1 t _ _ BL1 (tree_bindings E1 t h ltac:(lia) Nz T)) as EL.
      assert (C : no_empty_leaf (get_page E1 t) h (t_root t) \/ (h = 0%nat /\ leaf_entries (get_page E1 t (t_root t)) = [])).
      { destruct HN as [->|]; auto. cbn [no_empty_leaf]. destruct (leaf_entries (get_page E1 t (t_root t))); auto. left. discriminate. }
      unfold cursor_get. destruct C as [N|(-> & L)].
      + destruct (seek_first_ok E1 t h Nz Hh S N) as (c & kv & post & X & A & _ & EQ). rewrite X, (fetch_ok _ _ _ _ A).
        rewrite EQ in EL. subst l. apply sweep_ops; auto. cbn [length] in Hf. lia.
      + destruct (root_leaf_empty E1 t FIRST (or_introl eq_refl) Nz S L) as (c & X). rewrite X. cbn [tree_kvs] in EL. rewrite L in EL. subst l.
        destruct fuel; [lia|]. reflexivity. }
  rewrite L. destruct (do_ops E1 t (map Del (unmarked vis l))) as [[] t'|e t'| |] eqn:DO.
  - pose proof (do_dels_rdonly _ _ _ _ DO) as RD. rewrite Et in RD. cbn [t_rdonly] in RD.
    unfold cache_commit_write, commit_txn. cbn [set_active c_active c_env c_visited]. rewrite RD. destruct (db_commit E1 t' None) as [E2 [[]|e| |]] eqn:DC.
    + exists (mkCache E2 None []), (Ok tt). split; [reflexivity|]. split; [intros E' _ <-; auto|]. split; [|discriminate]. intros E' X. injection X as <-. auto.
    + exists (mkCache E2 None vis), (Err e). split; [reflexivity|]. split; [discriminate|]. split; [discriminate|]. intros e' X. injection X as <-.
      rewrite (commit_err_env _ _ _ _ DC). unfold E1. rewrite (lock_unlock E (proj1 HH)). auto.
    + exists (mkCache E2 None vis), UB. split; [reflexivity|]. split; [discriminate|]. split; discriminate.
    + exists (mkCache E2 None vis), Fuel. split; [reflexivity|]. split; [discriminate|]. split; discriminate.
  - pose proof (do_dels_fail_rdonly _ _ _ _ _ DO) as RD. rewrite Et in RD. cbn [t_rdonly] in RD.
    eexists _, (Err e). split; [reflexivity|]. split; [discriminate|]. split; [discriminate|]. intros e' X. injection X as <-. split; [reflexivity|].
    unfold cache_abort_write, abort_txn, abort_write. cbn [set_active c_active c_env c_visited fst]. rewrite RD. unfold E1. rewrite (lock_unlock E (proj1 HH)). reflexivity.
  - eexists _, UB. split; [reflexivity|]. split; [discriminate|]. split; discriminate.
  - eexists _, Fuel. split; [reflexivity|]. split; [discriminate|]. split; discriminate.
Qed.

Lemma dels_map : forall ks m k, fold_left map_op (map Del ks) m k = if in_dec key_dec k ks then None else m k.
Proof.
  induction ks as [|a ks IH]; intros m k; cbn [map fold_left]; [reflexivity|]. rewrite IH. cbn [map_op].
  destruct (in_dec key_dec k ks) as [I|I]; destruct (in_dec key_dec k (a :: ks)) as [J|J]; auto.
  - exfalso. apply J. right. exact I.
  - destruct (key_dec k a) as [|Ne]; auto. exfalso. destruct J as [->|J]; auto.
  - destruct (key_dec k a) as [->|]; auto. exfalso. apply J. left. reflexivity.
Qed.

(** A successful sweep keeps exactly the marked entries, with their values.  Missing for
    the full claim: trees with emptied leaves (the sweep stops there), and a Free DB
    leaf without room for the list of freed pages. *)
Theorem sweep_exact_partial : forall fuel c l, healthy (c_env c) -> file_ok (e_file (c_env c)) ->
  scannable (c_env c) (reader (c_env c)) -> bindings (c_env c) (reader (c_env c)) l -> (length l + 1 < fuel)%nat ->
  (forall E1 t, begin_write (c_env c) = Some (E1, t) -> t_last t + 1 < 2 ^ 64 /\
     forall t', do_ops E1 t (map Del (unmarked (c_visited c) l)) = Ret tt t' -> free_room E1 t' /\ N.of_nat (length (t_freed t')) < 8000) ->
  exists c' r, cache_sweep fuel c = Some (c', r) /\
    (r = Ok tt ->
       (forall path, blen path < 65536 -> read_now (c_env c') path =
          if in_dec key_dec path (c_visited c) then read_now (c_env c) path else Err NOTFOUND) /\
       c_visited c' = [] /\ c_active c' = None /\ healthy (c_env c') /\ file_ok (e_file (c_env c'))).
Proof.
  intros fuel c l HH FO SC BL Hf HR. destruct (sweep_transact fuel c l HH SC BL Hf) as (c' & r & X & Y & _). exists c', r. split; [exact X|].
  intro R. destruct (Y (c_env c') R eq_refl) as (T & CV & CA).
  pose proof BL as (_ & BK & BI).
  assert (GE : forall k, blen k < 65536 -> db_get (c_env c) (reader (c_env c)) k = match lookup k l with Some v => Ok v | None => Err NOTFOUND end).
  { intros k Hk. destruct (lookup k l) as [v|] eqn:L.
    - apply BI; [exact Hk|]. clear - L. induction l as [|(k', v') l IH]; cbn [lookup] in L; [discriminate|].
      destruct (key_dec k k') as [->|]; [injection L as ->; left; reflexivity|right; auto].
    - assert (G : forall v, db_get (c_env c) (reader (c_env c)) k <> Ok v).
      { intros v G. apply (BI k v Hk) in G. apply (in_map fst) in G. cbn [fst] in G. apply lookup_in_iff in G. congruence. }
      pose proof SC as SC0. destruct SC0 as [Z|(h & Hh & Nz & Tr & _)].
      + unfold db_get. rewrite Z. reflexivity.
      + pose proof (tree_shape _ _ _ _ _ _ Tr) as S. pose proof (get_shape _ _ k h Hk ltac:(lia) Nz S) as GS.
        destruct (lookup k (leaf_entries _)) as [v|]; [exfalso; apply (G v)|]; exact GS. }
  destruct (transact_fits (c_env c) (c_env c') (map Del (unmarked (c_visited c) l)) (fun k => lookup k l) HH FO) as (H1 & H2 & H3); auto.
  - intros E1 t B. destruct (HR E1 t B) as (A1 & A2). split; [|split; [exact A1|exact A2]].
    assert (FK : Forall (fun k => blen k < 65536) (unmarked (c_visited c) l)).
    { rewrite Forall_forall. intros k I. unfold unmarked in I. apply filter_In in I. destruct I as (I & _). apply in_map_iff in I.
      destruct I as (e & <- & I). rewrite Forall_forall in BK. apply (BK e I). }
    clear - FK. revert t. induction FK as [|k ks Hk FK IH]; intro t; cbn [map fit_ops]; [exact I|]. split; [exact Hk|]. auto.
  - splits; auto. intros path Hp. unfold read_now at 1. rewrite (H3 path Hp), dels_map.
    assert (IU : In path (unmarked (c_visited c) l) <-> In path (map fst l) /\ ~ In path (c_visited c)).
    { unfold unmarked. rewrite filter_In, negb_true_iff, <- not_true_iff_false, visited_in. reflexivity. }
    unfold read_now. rewrite (GE path Hp).
    destruct (in_dec key_dec path (unmarked (c_visited c) l)) as [I|I]; destruct (in_dec key_dec path (c_visited c)) as [J|J]; auto.
    + apply IU in I. tauto.
    + rewrite lookup_notin; [reflexivity|]. intro K. apply I. apply IU. auto.
Qed.
Print Assumptions sweep_exact_partial.

(** A sweep that empties the first leaf stops every later sweep: nothing is marked any
    more, the second sweep succeeds, and two entries stay. *)
Definition long_path (x : N) : bytes := x :: fillb 1500 47.
Definition some_entry (x : N) : entry := mkEntry x x x x x.
Definition filled : env := get_env (transact env_create
  [Put (long_path 97) (entry_bytes (some_entry 1)); Put (long_path 98) (entry_bytes (some_entry 2)); Put (long_path 99) (entry_bytes (some_entry 3))]).
Definition swept (c : cache) : cache := match cache_sweep 10 c with Some (c', _) => c' | None => c end.
Lemma swept_is c : (match cache_sweep 10 c with Some (_, Ok tt) => true | _ => false end) = true -> cache_sweep 10 c = Some (swept c, Ok tt).
Proof. unfold swept. destruct (cache_sweep 10 c) as [[c' [[]|e| |]]|]; try discriminate. reflexivity. Qed.
(** one evaluation for all the parts of an example *)
Definition reads (r : res bytes) (v : option bytes) : bool :=
  match r, v with Ok b, Some v => if key_dec b v then true else false | Err NOTFOUND, None => true | _, _ => false end.
Lemma reads_some r v : reads r (Some v) = true -> r = Ok v.
Proof. unfold reads. destruct r as [b|[]| |]; try discriminate. destruct (key_dec b v); [now subst|discriminate]. Qed.
Lemma reads_none r : reads r None = true -> r = Err NOTFOUND.
Proof. unfold reads. destruct r as [b|[]| |]; try discriminate. reflexivity. Qed.
Lemma two_sweeps c p v :
  match cache_sweep 10 c with
  | Some (c1, Ok tt) => match c_visited c1 with [] => true | _ => false end &&
      match cache_sweep 10 c1 with Some (c2, Ok tt) => reads (read_now (c_env c2) p) (Some v) | _ => false end
  | _ => false end = true ->
  cache_sweep 10 c = Some (swept c, Ok tt) /\ c_visited (swept c) = [] /\
  cache_sweep 10 (swept c) = Some (swept (swept c), Ok tt) /\ read_now (c_env (swept (swept c))) p = Ok v.
Proof.
  unfold swept. destruct (cache_sweep 10 c) as [[c1 [[]|e| |]]|] eqn:E1; try discriminate.
  destruct (c_visited c1) eqn:V; [|discriminate]. cbn [andb].
  destruct (cache_sweep 10 c1) as [[c2 [[]|e| |]]|] eqn:E2; try discriminate.
  intros R. apply reads_some in R. repeat split; assumption.
Qed.
Lemma one_sweep c p q v :
  match cache_sweep 10 c with
  | Some (c1, Ok tt) => reads (read_now (c_env c1) p) None && reads (read_now (c_env c1) q) (Some v)
  | _ => false end = true ->
  cache_sweep 10 c = Some (swept c, Ok tt) /\
  read_now (c_env (swept c)) p = Err NOTFOUND /\ read_now (c_env (swept c)) q = Ok v.
Proof.
  unfold swept. destruct (cache_sweep 10 c) as [[c1 [[]|e| |]]|]; try discriminate.
  intros R. apply andb_true_iff in R. destruct R as (A & B). apply reads_none in A. apply reads_some in B. auto.
Qed.
Definition marked : cache := cache_mark (cache_mark (mkCache filled None []) (long_path 98)) (long_path 99).
Theorem sweep_exact_refuted :
  cache_sweep 10 marked = Some (swept marked, Ok tt) /\ c_visited (swept marked) = [] /\
  cache_sweep 10 (swept marked) = Some (swept (swept marked), Ok tt) /\
  read_now (c_env (swept (swept marked))) (long_path 98) = Ok (entry_bytes (some_entry 2)).
Proof. apply two_sweeps. vm_compute. reflexivity. Qed.
Print Assumptions sweep_exact_refuted.

(** ** C28 lookup and upsert *)
(** What lookup answers, in any transaction: the entry stored under the path, "not
    found" for a path that is not bound, an error for a value of another size. *)
Theorem lookup_exact : forall c t path, c_active c = Some t -> blen path < 65536 -> readable (c_env c) t ->
  match db_get (c_env c) t path with
  | Ok v => (forall e, entry_ok e -> v = entry_bytes e -> cache_lookup c path = Ok e) /\
            (blen v <> 40 -> cache_lookup c path = Err EGENERAL)
  | Err e => e = NOTFOUND /\ cache_lookup c path = Err NOTFOUND
  | _ => False
  end.
Proof.
  intros c t path HA Hp RD. unfold cache_lookup. rewrite HA.
  assert (G : (exists v, db_get (c_env c) t path = Ok v) \/ db_get (c_env c) t path = Err NOTFOUND).
  { destruct RD as [Z|(h & Hh & Nz & S)].
    - right. unfold db_get. rewrite Z. reflexivity.
    - rewrite (get_shape _ _ path h Hp ltac:(lia) Nz S). destruct (lookup path (leaf_entries _)); eauto. }
  destruct G as [(v & ->)| ->]; [|auto]. cbn [bindr]. unfold ENTRY_SIZE. split.
  - intros e He ->. rewrite entry_blen, N.eqb_refl, (entry_round e He). reflexivity.
  - intro Hn. rewrite (proj2 (N.eqb_neq _ _) Hn). reflexivity.
Qed.
Print Assumptions lookup_exact.

(** After a successful upsert the path has exactly this entry and the other paths have
    what they had.  Missing for the full claim: transactions in which the upsert splits
    a page unfavourably ([clean_put] fails) or splits one while there is a Free DB. *)
Theorem upsert_then_lookup_partial : forall c t path e c', c_active c = Some t -> entry_ok e -> blen path < 65000 ->
  (shaped (c_env c) t /\ t_root t <> 0 /\ fits (c_env c) t path (entry_bytes e)) \/
  (exists kvs, txn_holds true 32 (c_env c) t kvs /\ t_free_root t = 0 /\ 1 <= t_last t /\ t_last t + 40 < 2 ^ 64 /\
     (t_root t = 0 \/ clean_put (c_env c) t path (entry_bytes e))) ->
  cache_upsert c path e = (c', Ok tt) ->
  cache_lookup c' path = Ok e /\
  forall path', blen path' < 65536 -> path' <> path -> cache_lookup c' path' = cache_lookup c path'.
Proof.
  intros c t path e c' HA He Hp HC H. unfold cache_upsert in H. rewrite HA in H.
  assert (Hs : leaf_size path (entry_bytes e) < 65536) by (unfold leaf_size, LEAF_BASE; rewrite entry_blen; lia).
  destruct (db_put (c_env c) t path (entry_bytes e)) as [[] t'|er t'| |] eqn:P; try discriminate. injection H as <-.
  assert (G : db_get (c_env c) t' path = Ok (entry_bytes e) /\ forall k', blen k' < 65536 -> k' <> path -> db_get (c_env c) t' k' = db_get (c_env c) t k').
  { destruct HC as [(SH & Nz & Hf)|(kvs & HT & HF & H1 & Hl & HC)].
    - destruct (put_without_split_correct _ t path _ Hs SH Nz Hf) as [(_ & _ & X)|(_ & t2 & X & _ & R)]; rewrite P in X; [discriminate|].
      injection X as <-. split.
      + rewrite R by lia. destruct (key_dec path path); congruence.
      + intros k' Hk' Hne. rewrite R by lia. destruct (key_dec k' path); congruence.
    - destruct (put_map_update_partial _ t kvs path _ t' HT HF H1 Hl Hs HC P) as (A & B & _). auto. }
  destruct G as (G1 & G2). unfold cache_lookup. cbn [set_active c_active c_env]. rewrite HA. split.
  - rewrite G1. cbn [bindr]. unfold ENTRY_SIZE. rewrite entry_blen, N.eqb_refl, (entry_round e He). reflexivity.
  - intros path' Hp' Hne. rewrite (G2 path' Hp' Hne). reflexivity.
Qed.
Print Assumptions upsert_then_lookup_partial.

(** The full claim fails: three successful upserts, the last of which cannot be found. *)
Definition upserts (c : cache) (l : list (bytes * entry)) : cache * bool :=
  fold_left (fun s pe => let (c', r) := cache_upsert (fst s) (fst pe) (snd pe) in (c', snd s && match r with Ok _ => true | _ => false end)) l (c, true).
Theorem upsert_then_lookup_refuted :
  let s := upserts (mkCache env_create (Some first_txn) [])
             [(97 :: fillb 1900 47, some_entry 1); (99 :: fillb 1900 47, some_entry 2); (98 :: fillb 1900 47, some_entry 3)] in
  snd s = true /\ cache_lookup (fst s) (98 :: fillb 1900 47) = Err NOTFOUND.
Proof. vm_compute. split; reflexivity. Qed.
Print Assumptions upsert_then_lookup_refuted.

(** ** C113 calls inside and outside a transaction *)
Inductive call := CUpsert (p : bytes) (e : entry) | CLookup (p : bytes) | CMark (p : bytes).
Definition call_do (c : cache) (a : call) : cache :=
  match a with CUpsert p e => fst (cache_upsert c p e) | CLookup _ => c | CMark p => cache_mark c p end.
(** the paths marked by some calls *)
Definition marks (l : list call) (p : bytes) : Prop := In (CMark p) l.
Lemma calls_inside : forall l c t, c_active c = Some t -> exists t', c_active (fold_left call_do l c) = Some t' /\ (t_rdonly t' = t_rdonly t /\ t_id t' = t_id t) /\ c_env (fold_left call_do l c) = c_env c /\
  forall p, In p (c_visited (fold_left call_do l c)) <-> In p (c_visited c) \/ marks l p.
Proof.
  induction l as [|a l IH]; intros c t HA; cbn [fold_left].
  { exists t. splits; auto. intros p. unfold marks. cbn [In]. tauto. }
  assert (X : exists t1, c_active (call_do c a) = Some t1 /\ (t_rdonly t1 = t_rdonly t /\ t_id t1 = t_id t) /\ c_env (call_do c a) = c_env c /\ forall p, In p (c_visited (call_do c a)) <-> In p (c_visited c) \/ a = CMark p).
  { destruct a as [p e|p|p]; cbn [call_do].
    - unfold cache_upsert. rewrite HA. pose proof (put_later (c_env c) t p (entry_bytes e)) as PL.
      destruct (db_put (c_env c) t p (entry_bytes e)) as [x t1|er t1| |]; cbn [fst set_active c_active c_env c_visited]; cbn [lout] in PL;
        try (pose proof (la_ro _ _ PL); apply la_id in PL); eexists; splits; eauto; intros q; (split; [auto|intros [I|I]; [exact I|discriminate]]).
    - exists t. splits; auto. intros q. split; [auto|intros [I|I]; [exact I|discriminate]].
    - cbn [cache_mark c_active c_env c_visited]. exists t. splits; auto. intros q. cbn [In]. split; [intros [->|I]; auto|intros [I|[= ->]]; auto]. }
  destruct X as (t1 & A & (R & R1) & B & C). destruct (IH _ t1 A) as (t' & A' & (R' & R1') & B' & C'). exists t'. split; [exact A'|]. split; [split; congruence|]. split; [congruence|].
  intros p. rewrite (C' p), (C p). unfold marks. cbn [In]. tauto.
Qed.
(** An aborted write transaction leaves no trace in the database, whatever was called in it
    and whatever failed; the marks stay. *)
Theorem cache_abort_exact : forall c c1 l pid tid c' r, cache_begin_write c = Some c1 ->
  cache_abort_write (fold_left call_do l c1) pid tid = (c', r) ->
  r = Ok tt /\ c_env c' = c_env c /\ c_active c' = None /\ (forall p, In p (c_visited c') <-> In p (c_visited c) \/ marks l p).
Proof.
  intros c c1 l pid tid c' r HB H. unfold cache_begin_write in HB. destruct (begin_write (c_env c)) as [(E, t)|] eqn:B; [|discriminate]. injection HB as <-.
  destruct (calls_inside l (mkCache E (Some t) (c_visited c)) t eq_refl) as (t' & A & (RD & _) & B' & C). unfold cache_abort_write, abort_txn in H. rewrite A, RD in H.
  pose proof (begin_fields _ _ _ B) as (_ & Et). rewrite Et in H at 1. cbn [t_rdonly] in H. injection H as <- <-.
  cbn [c_env c_active c_visited] in *. split; [reflexivity|]. split; [|split; [reflexivity|exact C]]. rewrite B'.
  pose proof (begin_fields _ _ _ B) as (-> & _). unfold abort_write. unfold begin_write in B. destruct (e_locked (c_env c)) eqn:LK; [discriminate|].
  destruct (c_env c) as [? ? ? ? ? ?]; cbn in *. subst. reflexivity.
Qed.
Print Assumptions cache_abort_exact.
(** [ended]: the calls that end a transaction, however they end *)
Inductive ended : cache -> cache -> Prop :=
| end_commit c c' r pid tid : cache_commit_write c pid tid = (c', r) -> ended c c'
| end_abort c c' r pid tid : cache_abort_write c pid tid = (c', r) -> ended c c'
| end_reading c c' pid tid : cache_end_read c pid tid = Ok c' -> ended c c'
| end_sweep fuel c c' : cache_sweep fuel c = Some (c', Ok tt) -> ended c c'.
(** After each of them every call that needs a transaction is refused and changes nothing,
    until the next begin. *)
Theorem cache_outside : forall c0 c l, ended c0 c ->
  let d := fold_left call_do l c in
  c_env d = c_env c /\ (forall p, In p (c_visited d) <-> In p (c_visited c) \/ marks l p) /\
  (forall p, cache_lookup d p = Err EINVAL) /\ (forall p e, cache_upsert d p e = (d, Err EINVAL)) /\
  forall pid tid, cache_commit_write d pid tid = (d, Err EINVAL) /\ cache_abort_write d pid tid = (d, Err EINVAL) /\ cache_end_read d pid tid = Err EINVAL.
Proof.
  intros c0 c l H.
  assert (N : c_active c = None).
  { destruct H as [c0 c r pid tid H|c0 c r pid tid H|c0 c pid tid H|fuel c0 c H].
    - unfold cache_commit_write in H. destruct (c_active c0) eqn:A; [|injection H as <- _; exact A]. destruct (commit_txn _ _ _ _) as [E r']. injection H as <- _. reflexivity.
    - unfold cache_abort_write in H. destruct (c_active c0) eqn:A; injection H as <- _; [reflexivity|exact A].
    - unfold cache_end_read in H. destruct (c_active c0); [|discriminate]. injection H as <-. reflexivity.
    - unfold cache_sweep in H. destruct (cache_begin_write c0) as [c1|]; [|discriminate]. destruct (c_active c1); [|discriminate].
      destruct (sweep_loop _ _ _ _ _) as [x t'|e t'| |]; try discriminate. destruct (cache_commit_write _ _ _) as [c2 [x'| | |]]; try discriminate. injection H as <-. reflexivity. }
  assert (G : forall l c, c_active c = None -> let d := fold_left call_do l c in c_active d = None /\ c_env d = c_env c /\ (forall p, In p (c_visited d) <-> In p (c_visited c) \/ marks l p)).
  { clear. induction l as [|a l IH]; intros c N; cbn [fold_left].
    { splits; auto. intros p. unfold marks. cbn [In]. tauto. }
    assert (X : c_active (call_do c a) = None /\ c_env (call_do c a) = c_env c /\ forall p, In p (c_visited (call_do c a)) <-> In p (c_visited c) \/ a = CMark p).
    { destruct a as [p e|p|p]; cbn [call_do].
      - unfold cache_upsert. rewrite N. cbn [fst]. splits; auto. intros q. split; [auto|intros [I|I]; [exact I|discriminate]].
      - splits; auto. intros q. split; [auto|intros [I|I]; [exact I|discriminate]].
      - cbn [cache_mark c_active c_env c_visited]. splits; auto. intros q. cbn [In]. split; [intros [->|I]; auto|intros [I|[= ->]]; auto]. }
    destruct X as (A & B & C). destruct (IH _ A) as (A' & B' & C'). split; [exact A'|]. split; [congruence|].
    intros p. rewrite (C' p), (C p). unfold marks. cbn [In]. tauto. }
  destruct (G l c N) as (A & B & C). intro d. fold d in A, B, C. split; [exact B|]. split; [exact C|].
  unfold cache_lookup, cache_upsert, cache_commit_write, cache_abort_write, cache_end_read. rewrite A. splits; try reflexivity. intros pid tid. auto.
Qed.
Print Assumptions cache_outside.

(** ** C126 endings *)
(** [by_any pid tid c c']: one of the three calls that end a transaction, made by thread [tid] of
    process [pid] *)
Inductive by_any (pid tid : N) (c c' : cache) : Prop :=
| any_commit r : cache_commit_write c pid tid = (c', r) -> (exists x, r = Ok x) \/ (exists e, r = Err e) -> by_any pid tid c c'
| any_abort r : cache_abort_write c pid tid = (c', r) -> by_any pid tid c c'
| any_read : cache_end_read c pid tid = Ok c' -> by_any pid tid c c'.
(** A write transaction is over after any of the three calls: the lock is free and the reader
    table unchanged.  Ended with end_read it is undone. *)
Theorem any_ending_write : forall c c1 l pid tid c', cache_begin_write c = Some c1 -> by_any pid tid (fold_left call_do l c1) c' ->
  e_locked (c_env c') = false /\ e_readers (c_env c') = e_readers (c_env c) /\ c_active c' = None /\
  (cache_end_read (fold_left call_do l c1) pid tid = Ok c' -> c_env c' = c_env c).
Proof.
  intros c c1 l pid tid c' HB H. pose proof HB as HB0. unfold cache_begin_write in HB. destruct (begin_write (c_env c)) as [(E, t)|] eqn:B; [|discriminate]. injection HB as <-.
  destruct (calls_inside l (mkCache E (Some t) (c_visited c)) t eq_refl) as (t' & A & (RD & _) & EE & _). pose proof (begin_fields _ _ _ B) as (EL & Et).
  assert (R0 : t_rdonly t' = false) by (rewrite RD, Et; reflexivity). cbn [c_env] in EE.
  assert (RR : e_readers E = e_readers (c_env c)) by (rewrite EL; reflexivity).
  assert (AB : abort_write E t' = c_env c).
  { destruct (cache_abort_write (fold_left call_do l (mkCache E (Some t) (c_visited c))) pid tid) as [c2 r2] eqn:X.
    pose proof (cache_abort_exact _ _ _ _ _ _ _ HB0 X) as (_ & Y & _). unfold cache_abort_write, abort_txn in X. rewrite A, R0, EE in X. injection X as <- _. exact Y. }
  assert (RE : forall c2, cache_end_read (fold_left call_do l (mkCache E (Some t) (c_visited c))) pid tid = Ok c2 -> c_env c2 = c_env c /\ c_active c2 = None).
  { intros c2 X. unfold cache_end_read, abort_txn in X. rewrite A, R0, EE in X. injection X as <-. auto. }
  assert (LK : e_locked (c_env c) = false) by (unfold begin_write in B; destruct (e_locked (c_env c)); [discriminate|reflexivity]).
  destruct H as [r H HR|r H|H].
  - unfold cache_commit_write, commit_txn in H. rewrite A, R0, EE in H. destruct (db_commit E t' None) as [E' r'] eqn:C. injection H as <- <-. cbn [c_env c_active].
    pose proof (commit_lock _ _ _ _ (commit_cases _ _ _ _ _ C HR)) as (L1 & L2 & _). splits; auto; [congruence|]. intros X. apply (RE _ X).
  - unfold cache_abort_write, abort_txn in H. rewrite A, R0, EE, AB in H. injection H as <- _. cbn [c_env c_active]. splits; auto.
  - destruct (RE _ H) as (-> & ->). splits; auto.
Qed.
Print Assumptions any_ending_write.
(** So is a read transaction, when the thread that began it ends it: its reader is unregistered
    and nothing else changes, even if it is ended with commit. *)
Theorem any_ending_read : forall c c1 l pid tid c', m_txnid (live_meta (c_env c)) <> 0 ->
  cache_begin_read c pid tid = Ok c1 -> by_any pid tid (fold_left call_do l c1) c' ->
  Permutation (registered (c_env c')) (registered (c_env c)) /\ c_active c' = None /\
  set_readers (c_env c') (e_readers (c_env c)) = c_env c.
Proof.
  intros c c1 l pid tid c' NZ B H. unfold cache_begin_read, begin_read in B. cbv zeta in B.
  destruct (fill_slot _ _ _ _) as [rs|] eqn:F; [|discriminate]. cbn [bindr fst snd] in B. injection B as <-.
  set (t := mkTxn true (m_txnid (live_meta (c_env c))) (m_root (live_meta (c_env c))) (m_free (live_meta (c_env c))) [] (m_last (live_meta (c_env c))) []) in *.
  destruct (calls_inside l (mkCache (set_readers (c_env c) rs) (Some t) (c_visited c)) t eq_refl) as (t' & A & (RD & ID) & EE & _).
  cbn [c_env] in EE. subst t. cbn [t_rdonly t_id] in RD, ID.
  assert (X : c_env c' = end_read (set_readers (c_env c) rs) t' pid tid /\ c_active c' = None).
  { destruct H as [r H _|r H|H].
    - unfold cache_commit_write, commit_txn in H. rewrite A, RD, EE in H. injection H as <- _. auto.
    - unfold cache_abort_write, abort_txn in H. rewrite A, RD, EE in H. injection H as <- _. auto.
    - unfold cache_end_read, abort_txn in H. rewrite A, RD, EE in H. injection H as <-. auto. }
  destruct X as (-> & ->). unfold end_read. rewrite ID. split; [|split; [reflexivity|destruct (c_env c); reflexivity]].
  unfold registered. cbn [set_readers e_readers]. destruct (fill_slot_some _ _ _ _ _ NZ F) as (P1 & _).
  assert (IN : In (mkSlot pid tid (m_txnid (live_meta (c_env c)))) rs).
  { clear - F. revert rs F. induction (e_readers (c_env c)) as [|s l IH]; intros rs F; cbn [fill_slot] in F; [discriminate|].
    destruct (s_txnid s =? 0); [injection F as <-; now left|]. destruct (fill_slot l _ _ _) as [r'|] eqn:G; [|discriminate]. injection F as <-. right. now apply IH. }
  destruct (clear_slot_perm rs pid tid _ NZ IN) as (P2 & _). rewrite P1 in P2. apply Permutation_cons_inv in P2. symmetry. exact P2.
Qed.
Print Assumptions any_ending_read.

(** ** The hypotheses are met *)
(** ordering of a concrete tree, by evaluation *)
Definition aboveb (lo : option bytes) (k : bytes) : bool := match lo with None => true | Some l => negb (kltb k l) end.
Definition belowb (hi : option bytes) (k : bytes) : bool := match hi with None => true | Some h => kltb k h end.
Fixpoint kidsb (T : N -> option bytes -> option bytes -> bool) (es : list (bytes * N)) (lo hi : option bytes) : bool :=
  match es with
  | [] => false
  | (k, c) :: rest =>
    match rest with
    | [] => T c lo hi
    | (k', _) :: _ => T c lo (Some k') && kltb k k' && aboveb lo k' && belowb hi k' && kidsb T rest (Some k') hi
    end
  end.
Fixpoint orderedb (V : view) (h : nat) (pg : N) (lo hi : option bytes) : bool :=
  match h with
  | O => forallb (fun k => aboveb lo k && belowb hi k) (page_keys true (V pg))
  | S h' => kidsb (orderedb V h') (branch_entries (V pg)) lo hi
  end.
Lemma aboveb_ok lo k : aboveb lo k = true -> above lo k.
Proof. destruct lo; cbn; [|auto]. rewrite negb_true_iff. apply kltb_false. Qed.
Lemma belowb_ok hi k : belowb hi k = true -> below hi k.
Proof. destruct hi; cbn; [|auto]. apply kltb_spec. Qed.
Lemma orderedb_ok V : forall h pg lo hi, shape V h pg -> orderedb V h pg lo hi = true -> tree false V h pg lo hi.
Proof.
  induction h as [|h IH]; intros pg lo hi S H; cbn [shape tree orderedb] in *.
  - destruct S as (A & B & C). splits; auto. rewrite Forall_forall. rewrite forallb_forall in H. intros k Hk. specialize (H k Hk).
    apply andb_true_iff in H. destruct H. split; [apply aboveb_ok|apply belowb_ok]; assumption.
  - destruct S as (A & B & C & D & F). splits; auto; [|discriminate]. clear B C D. revert lo H.
    induction (branch_entries (V pg)) as [|(k, c) es IHe]; intros lo H; cbn [kidsb kids] in *; [discriminate|].
    inversion F; subst. destruct es as [|(k', c') es]; [apply IH; auto|]. rewrite !andb_true_iff in H. destruct H as ((((Q1 & Q2) & Q3) & Q4) & Q5).
    splits; [apply IH; auto|apply kltb_spec; auto|apply aboveb_ok; auto|apply belowb_ok; auto|]. apply IHe; auto.
Qed.
Lemma healthy_scannable E : healthy E -> (m_root (live_meta E) =? 0) = false ->
  (let V := e_file E in let r := m_root (live_meta E) in let h := height_of 33 V r in orderedb V h r None None && no_empty_leafb V h r) = true ->
  scannable E (reader E).
Proof.
  intros HH R H. pose proof (begun_is E (proj1 HH)) as B. pose proof (proj2 HH _ _ B) as ((_ & T) & _).
  pose proof (begin_fields _ _ _ B) as (_ & Et). apply N.eqb_neq in R. rewrite Et in T. cbn [t_root t_last] in T.
  change (get_page (set_locked E true) (mkTxn false (m_txnid (live_meta E) + 1) (m_root (live_meta E)) (m_free (live_meta E)) [] (m_last (live_meta E)) [])) with (e_file E) in T.
  destruct T as [Z|(h & Hh & Nz & S & _)]; [congruence|]. right. exists h. cbv zeta in H.
  rewrite (height_of_ok _ 33 h _ ltac:(lia) S) in H. apply andb_true_iff in H. destruct H as (H1 & H2).
  split; [exact Hh|]. split; [exact R|]. change (get_page E (reader E)) with (e_file E). change (t_root (reader E)) with (m_root (live_meta E)).
  split; [apply orderedb_ok; assumption|]. right. apply no_empty_leafb_ok. exact H2.
Qed.
Lemma begun_inj E E1 t : e_locked E = false -> begin_write E = Some (E1, t) -> E1 = set_locked E true /\ t = begun E.
Proof. intros L B. rewrite (begun_is E L) in B. injection B as <- <-. auto. Qed.
(** a cache of three entries in two leaves, one of them marked *)
Definition cache3 : cache := cache_mark (mkCache E3 None []) [98].
Example sweep_case : healthy (c_env cache3) /\ file_ok (e_file (c_env cache3)) /\ scannable (c_env cache3) (reader (c_env cache3)) /\
  (exists l, bindings (c_env cache3) (reader (c_env cache3)) l /\ length l = 3%nat /\
     forall E1 t, begin_write (c_env cache3) = Some (E1, t) -> t_last t + 1 < 2 ^ 64 /\
       forall t', do_ops E1 t (map Del (unmarked (c_visited cache3) l)) = Ret tt t' -> free_room E1 t' /\ N.of_nat (length (t_freed t')) < 8000) /\
  cache_sweep 10 cache3 = Some (swept cache3, Ok tt) /\
  read_now (c_env (swept cache3)) [97] = Err NOTFOUND /\ read_now (c_env (swept cache3)) [98] = Ok (fillb 1400 1).
Proof.
  destruct early_case as (A & B & C). split; [exact C|]. split; [exact B|].
  assert (SC : scannable E3 (reader E3)) by (apply healthy_scannable; [exact C|vm_compute; reflexivity..]).
  split; [exact SC|]. split.
  - change (c_env cache3) with E3.
    assert (G : forall E, scannable E (reader E) -> (m_root (live_meta E) =? 0) = false -> exists l, bindings E (reader E) l /\ map fst l = map fst (tree_kvs (e_file E) (height_of 33 (e_file E) (m_root (live_meta E))) (m_root (live_meta E)))).
    { clear. intros E [Z|(h & Hh & Nz & T & _)] R; [cbn in Z; apply N.eqb_neq in R; congruence|].
      eexists. split; [apply (tree_bindings E (reader E) h); auto; lia|]. change (get_page E (reader E)) with (e_file E) in *.
      change (t_root (reader E)) with (m_root (live_meta E)) in *.
      rewrite (height_of_ok _ 33 h _ ltac:(lia) (tree_shape _ _ _ _ _ _ T)). reflexivity. }
    destruct (G E3 SC) as (l & BL & EL); [vm_compute; reflexivity|]. exists l. split; [exact BL|].
    assert (EL2 : map fst l = [[97]; [98]; [99]]) by (rewrite EL; vm_compute; reflexivity).
    split; [rewrite <- (map_length fst), EL2; reflexivity|]. intros E1 t BW.
    destruct (begun_inj E3 E1 t (proj1 C) BW) as (-> & ->). split; [vm_compute; reflexivity|].
    replace (unmarked (c_visited cache3) l) with [[97]; [99]] by (unfold unmarked; rewrite EL2; vm_compute; reflexivity).
    assert (HL : forall t', do_ops (set_locked E3 true) (begun E3) (map Del [[97]; [99]]) = Ret tt t' ->
      t' = ret_txn (do_ops (set_locked E3 true) (begun E3) (map Del [[97]; [99]]))) by (intros t' ->; reflexivity).
    intros t' X. rewrite (HL t' X). split; [right; left; vm_compute; reflexivity|vm_compute; reflexivity].
  - apply one_sweep. vm_compute. reflexivity.
Qed.
(** the first upsert into an empty cache, and a second one *)
Example upsert_case : forall path e, blen path < 65000 -> entry_ok e ->
  exists kvs, txn_holds true 32 env_create first_txn kvs /\ t_free_root first_txn = 0 /\ 1 <= t_last first_txn /\ t_last first_txn + 40 < 2 ^ 64 /\
     (t_root first_txn = 0 \/ clean_put env_create first_txn path (entry_bytes e)).
Proof. intros path e _ _. exists []. split; [exact first_txn_holds|]. splits; try reflexivity; try (vm_compute; discriminate). left. reflexivity. Qed.
Example upsert_runs : let s := upserts (mkCache env_create (Some first_txn) []) [([47; 97], some_entry 1); ([47; 98], some_entry 2)] in
  snd s = true /\ cache_lookup (fst s) [47; 97] = Ok (some_entry 1) /\ cache_lookup (fst s) [47; 98] = Ok (some_entry 2) /\ cache_lookup (fst s) [47; 99] = Err NOTFOUND.
Proof. vm_compute. splits; reflexivity. Qed.
(** an aborted update of an existing entry, with a failing upsert in it *)
Example abort_case : exists c1, cache_begin_write cache3 = Some c1 /\
  let l := [CUpsert [98] (some_entry 7); CUpsert (fillb 5000 1) (some_entry 8); CMark [97]] in
  cache_lookup (fold_left call_do l c1) [98] = Ok (some_entry 7) /\ snd (cache_upsert c1 (fillb 5000 1) (some_entry 8)) <> Ok tt /\
  read_now (c_env (fst (cache_abort_write (fold_left call_do l c1) 1 1))) [98] = Ok (fillb 1400 1) /\ c_visited (fst (cache_abort_write (fold_left call_do l c1) 1 1)) = [[97]; [98]].
Proof.
  exists (mkCache (set_locked E3 true) (Some (begun E3)) [[98]]). split.
  - unfold cache_begin_write. change (c_env cache3) with E3. rewrite (begun_is E3 (proj1 (proj2 (proj2 early_case)))). reflexivity.
  - cbv zeta. split; [vm_compute; reflexivity|]. split; [vm_compute; discriminate|]. split; vm_compute; reflexivity.
Qed.
(** a write transaction ended with end_read, a read transaction ended with commit *)
Example ending_case : (match cache_begin_write cache3 with
  | Some c1 => match cache_end_read (call_do c1 (CUpsert [98] (some_entry 7))) 10 1 with Ok c2 => (e_locked (c_env c1), e_locked (c_env c2), read_now (c_env c2) [98]) | _ => (false, true, UB) end
  | None => (false, true, UB) end) = (true, false, Ok (fillb 1400 1)) /\
  (match cache_begin_read cache3 10 1 with
  | Ok c1 => match cache_commit_write c1 10 1 with (c2, Ok tt) => (registered (c_env c1), registered (c_env c2)) | _ => ([], []) end
  | _ => ([], []) end) = ([mkSlot 10 1 2], []).
Proof. vm_compute. split; reflexivity. Qed.
