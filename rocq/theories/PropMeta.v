(** Property C133: a commit writes no tree page over a meta page. *)
From Verif Require Import Util PageModel PageSpec PageProofs PageOps TxnModel CursorModel TreeModel TreeSpec TreeProofs TreeOps TreeSplit TreePut TreeShape TxnInv DbModel SysModel DbSpec DbProofs DbCommit PropTree PropCommit.
Local Open Scope N_scope.

(** ** Specification *)
(** The file starts with the two meta pages; tree pages have the numbers 2, 3, ...  Both
    trees the transaction sees keep to that. *)
Definition clear_txn (E : env) (t : txn) : Prop :=
  1 <= t_last t /\ forall q, in_tree (get_page E t) (t_root t) q \/ in_tree (get_page E t) (t_free_root t) q -> 2 <= q.
Definition clear (E : env) : Prop := forall E1 t, begin_write E = Some (E1, t) -> clear_txn E1 t.

(** ** Which pages an operation makes dirty *)
(** an allocator that is never asked *)
Definition no_al : allocator := fun _ _ => Bad.
Lemma leaf_split_no E t path l k v x t' : leaf_split no_al E t path l k v = Ret x t' -> False.
Proof.
  unfold leaf_split, split_node. destruct (dget _ _) as [l0|]; [|discriminate]. destruct (negb _); [discriminate|].
  destruct (t_rdonly t); discriminate.
Qed.
Lemma put_keys E t k v t' h : blen k < 65536 -> t_rdonly t = false -> t_root t <> 0 -> (h < 32)%nat ->
  shape (get_page E t) h (t_root t) -> Forall (fun q => q <= t_last t) (tree_pages (get_page E t) h (t_root t)) ->
  db_put_with no_al E t k v = Ret tt t' ->
  db_put E t k v = Ret tt t' /\
  forall q, dget (t_dirty t') q <> None -> dget (t_dirty t) q <> None \/ In q (tree_pages (get_page E t) h (t_root t)).
Proof.
  intros Hk Hr Nz Hh S PG. destruct (shape_find E t k Hk h _ S) as [(path & R & EL & FP) _].
  specialize (FP MAX_TREE_DEPTH ltac:(unfold MAX_TREE_DEPTH; lia)).
  specialize (FP ltac:(unfold max_pgno; rewrite Hr; rewrite Forall_forall in PG; auto)).
  unfold db_put, db_put_with. rewrite Hr. apply N.eqb_neq in Nz. rewrite Nz, FP. cbn [lift bindo].
  destruct (page_search _ k) as [[found i]|e| |]; cbn [lift bindo]; try discriminate.
  destruct (found && _); [discriminate|].
  destruct (cow_path_ok E (rev path) t Hr) as (t3 & EC & C3 & V3 & D3 & K3 & N3).
  { intros q Hq. apply in_rev in Hq. eapply shape_pgno; eauto. eapply route_pages; eauto. }
  rewrite EC. cbn [bindo].
  assert (N3' : forall q, dget (t_dirty t3) q <> None -> dget (t_dirty t) q <> None \/ In q (tree_pages (get_page E t) h (t_root t))).
  { intros q Hq. destruct (N3 q Hq) as [X|X]; [left; exact X|right]. apply in_rev in X. eapply route_pages; eauto. }
  set (lk := leaf_key E t (leaf_of path)). destruct (dget (t_dirty t3) lk) as [p0|] eqn:D0; [|discriminate].
  assert (PK : forall t4 p q, (forall q, dget (t_dirty t4) q <> None -> dget (t_dirty t) q <> None \/ In q (tree_pages (get_page E t) h (t_root t))) ->
    dget (t_dirty (put_dirty t4 lk p)) q <> None -> dget (t_dirty t) q <> None \/ In q (tree_pages (get_page E t) h (t_root t))).
  { intros t4 p q K Hq. rewrite dget_put in Hq. destruct (N.eqb_spec lk q) as [Eq|]; [|apply K; exact Hq].
    apply N3'. rewrite <- Eq, D0. discriminate. }
  destruct found; cbn [lift bindo].
  - destruct (page_delete p0 i) as [p1|e| |]; cbn [lift bindo]; try discriminate.
    destruct (page_insert p1 i k (Some v) 0) as [p2|e| |]; try discriminate.
    + intro H. injection H as <-. split; [reflexivity|]. intros q Hq. apply (PK _ _ _ (fun q => PK t3 p1 q N3') Hq).
    + destruct e; try discriminate. intro H. exfalso. destruct (leaf_split no_al _ _ _ _ _ _) eqn:LS; cbn [bindo] in H; try discriminate.
      eapply leaf_split_no. exact LS.
  - destruct (page_insert p0 i k (Some v) 0) as [p2|e| |]; try discriminate.
    + intro H. injection H as <-. split; [reflexivity|]. intros q Hq. apply (PK _ _ _ N3' Hq).
    + destruct e; try discriminate. intro H. exfalso. destruct (leaf_split no_al _ _ _ _ _ _) eqn:LS; cbn [bindo] in H; try discriminate.
      eapply leaf_split_no. exact LS.
Qed.
Lemma del_keys E t k data t' h : blen k < 65536 -> t_rdonly t = false -> t_root t <> 0 -> (h < 32)%nat ->
  shape (get_page E t) h (t_root t) -> Forall (fun q => q <= t_last t) (tree_pages (get_page E t) h (t_root t)) ->
  db_del E t k data = Ret tt t' ->
  forall q, dget (t_dirty t') q <> None -> dget (t_dirty t) q <> None \/ In q (tree_pages (get_page E t) h (t_root t)).
Proof.
  intros Hk Hr Nz Hh S PG. destruct (shape_find E t k Hk h _ S) as [(path & R & EL & FP) _].
  specialize (FP MAX_TREE_DEPTH ltac:(unfold MAX_TREE_DEPTH; lia)).
  specialize (FP ltac:(unfold max_pgno; rewrite Hr; rewrite Forall_forall in PG; auto)).
  unfold db_del. rewrite Hr. apply N.eqb_neq in Nz. rewrite Nz, FP. cbn [lift bindo].
  destruct (page_search _ k) as [[[] i]|e| |]; cbn [bindo]; try discriminate.
  destruct (cow_path_ok E (rev path) t Hr) as (t3 & EC & C3 & V3 & D3 & K3 & N3).
  { intros q Hq. apply in_rev in Hq. eapply shape_pgno; eauto. eapply route_pages; eauto. }
  rewrite EC. cbn [bindo].
  assert (N3' : forall q, dget (t_dirty t3) q <> None -> dget (t_dirty t) q <> None \/ In q (tree_pages (get_page E t) h (t_root t))).
  { intros q Hq. destruct (N3 q Hq) as [X|X]; [left; exact X|right]. apply in_rev in X. eapply route_pages; eauto. }
  destruct (dget (t_dirty t3) (leaf_of path)) as [p0|] eqn:D0; [|discriminate].
  destruct (page_delete p0 i) as [p1|e| |]; cbn [lift bindo]; try discriminate. intro H. injection H as <-. intros q Hq.
  rewrite dget_put in Hq. destruct (N.eqb_spec (leaf_of path) q) as [Eq|]; [|apply N3'; exact Hq].
  apply N3'. rewrite <- Eq, D0. discriminate.
Qed.
Lemma free_keys E t k v r t' h : blen k < 65536 -> t_rdonly t = false -> (h < 32)%nat ->
  shape (get_page E t) h (t_free_root t) -> Forall (fun q => q <= t_last t) (tree_pages (get_page E t) h (t_free_root t)) ->
  insert_into_free_db no_al E t k v = Ret r t' ->
  insert_into_free_db page_alloc E t k v = Ret r t' /\
  forall q, dget (t_dirty t') q <> None -> dget (t_dirty t) q <> None \/ In q (tree_pages (get_page E t) h (t_free_root t)).
Proof.
  intros Hk Hr Hh S PG. destruct (shape_find E t k Hk h _ S) as [(path & R & EL & FP) _].
  specialize (FP MAX_TREE_DEPTH ltac:(unfold MAX_TREE_DEPTH; lia)).
  specialize (FP ltac:(unfold max_pgno; rewrite Hr; rewrite Forall_forall in PG; auto)).
  unfold insert_into_free_db. rewrite FP.
  destruct (page_search _ k) as [[found i]|e| |]; cbn [lift bindo]; try discriminate. destruct found; [discriminate|].
  destruct (cow_path_ok E (rev path) t Hr) as (t3 & EC & C3 & V3 & D3 & K3 & N3).
  { intros q Hq. apply in_rev in Hq. eapply shape_pgno; eauto. eapply route_pages; eauto. }
  rewrite EC. cbn [bindo].
  assert (N3' : forall q, dget (t_dirty t3) q <> None -> dget (t_dirty t) q <> None \/ In q (tree_pages (get_page E t) h (t_free_root t))).
  { intros q Hq. destruct (N3 q Hq) as [X|X]; [left; exact X|right]. apply in_rev in X. eapply route_pages; eauto. }
  set (lk := leaf_key E t (leaf_of path)). destruct (dget (t_dirty t3) lk) as [p0|] eqn:D0; [|discriminate].
  destruct (page_insert p0 i k (Some v) 0) as [p2|e| |]; try discriminate.
  - intro H. injection H as <- <-. split; [reflexivity|]. intros q Hq. rewrite dget_put in Hq. destruct (N.eqb_spec lk q) as [Eq|]; [|apply N3'; exact Hq].
    apply N3'. rewrite <- Eq, D0. discriminate.
  - destruct e; try discriminate. intro H. exfalso. destruct (leaf_split no_al _ _ _ _ _ _) eqn:LS; cbn [bindo] in H; try discriminate.
    eapply leaf_split_no. exact LS.
Qed.

(** an operation that fits: the tree keeps its pages and only they become dirty *)
Definition keys_in (P : N -> Prop) (t : txn) : Prop := forall q, dget (t_dirty t) q <> None -> P q.
Lemma op_keys E t o t' h P : two_trees E t ->
  match o with Put k v => 10 + blen k + blen v < 65536 /\ t_root t <> 0 /\ fits E t k v | Del k => blen k < 65536 end ->
  do_op E t o = Ret tt t' -> t_root t <> 0 -> shape (get_page E t) h (t_root t) ->
  keys_in P t -> (forall q, In q (tree_pages (get_page E t) h (t_root t)) -> P q) -> keys_in P t' /\ one_leaf E t t'.
Proof.
  intros TT HF H Nz S K T. pose proof TT as (SM & _ & _). pose proof SM as (Hr & [Z|(h' & Hh & _ & S' & ND & PG)]); [congruence|].
  rewrite (shape_height _ _ _ _ S S') in *. clear h S. destruct o as [k v|k]; cbn [do_op] in H.
  - destruct HF as (Hs & _ & Hf). assert (Hs' : leaf_size k v < 65536) by (unfold leaf_size, LEAF_BASE; lia).
    destruct (db_put_shape page_alloc E t k v Hs' SM Nz Hf) as [(_ & _ & X)|(ND2 & t2 & X & SC & SH & OL & G)].
    { unfold db_put in H. rewrite X in H. discriminate. }
    unfold db_put in H. rewrite X in H. injection H as ->.
    destruct (db_put_shape no_al E t k v Hs' SM Nz Hf) as [(Y1 & Y2 & _)|(_ & t2' & Y & _)]; [exfalso; apply ND2; auto|].
    destruct (put_keys E t k v t2' h' ltac:(lia) Hr Nz Hh S' PG Y) as (A & B). unfold db_put in A. rewrite X in A. injection A as ->.
    split; [|exact OL]. intros q Hq. destruct (B q Hq); auto.
  - pose proof (db_del_shape E t k None HF SM) as DS. destruct (db_get E t k) as [v|e| |] eqn:G0; try destruct DS.
    + pose proof H as H1. destruct H0 as (X & SC & SH & OL & G). rewrite X in H. injection H as ->. split; [|exact OL].
      intros q Hq. destruct (del_keys E t k None t' h' HF Hr Nz Hh S' PG X q Hq); auto.
    + congruence.
Qed.
Lemma ops_keys E : forall os t t' h P, file_ok (e_file E) -> DI t -> two_trees E t -> fit_ops E t os -> do_ops E t os = Ret tt t' ->
  t_root t <> 0 -> (h < 32)%nat -> shape (get_page E t) h (t_root t) ->
  keys_in P t -> (forall q, In q (tree_pages (get_page E t) h (t_root t)) -> P q) ->
  keys_in P t' /\ shape (get_page E t') h (t_root t) /\ tree_pages (get_page E t') h (t_root t) = tree_pages (get_page E t) h (t_root t) /\
  (forall q, ~ In q (tree_pages (get_page E t) h (t_root t)) -> get_page E t' q = get_page E t q).
Proof.
  induction os as [|o r IH]; intros t t' h P FO HD TT HF H Nz Hh S K T; cbn [do_ops] in H.
  { injection H as <-. auto. }
  destruct (do_op E t o) as [[] t1|e t1| |] eqn:X; try discriminate. cbn [bindo] in H. destruct HF as (H1 & H2).
  destruct (op_keys E t o t1 h P TT H1 X Nz S K T) as (K1 & OL).
  destruct (op_fits E t o t1 (fun k => match db_get E t k with Ok v => Some v | _ => None end) FO HD TT H1 X) as (SC & TT1 & DI1 & _).
  { intros k Hk. pose proof TT as (SM & _). pose proof SM as (Hr & [Z|(h' & Hh' & _ & S' & ND & PG)]); [congruence|].
    rewrite (get_shape E t k h') by (auto; lia). destruct (lookup k _); reflexivity. }
  destruct OL as (h2 & l & Hh2 & S2 & S2' & P2 & Il & O). rewrite (shape_height _ _ _ _ S2 S) in *. clear h2 S2.
  destruct SC as (C1 & C2 & C3 & C4 & C5). rewrite <- C3 in *.
  destruct (IH t1 t' h P FO DI1 TT1 (H2 t1 X) H Nz Hh S2' K1 ltac:(rewrite P2; exact T)) as (A & B & C & D).
  splits; auto; [congruence|]. intros q Hq. rewrite D by (rewrite P2; exact Hq). apply O. intros ->. contradiction.
Qed.

Lemma meta_step : forall E E1 t os t' fr t1,
  healthy E -> file_ok (e_file E) -> begin_write E = Some (E1, t) -> clear_txn E1 t -> t_last t + 1 < 2 ^ 64 -> t_root t <> 0 ->
  fit_ops E1 t os -> do_ops E1 t os = Ret tt t' -> free_room E1 t' -> N.of_nat (length (t_freed t')) < 8000 ->
  populate_free_db page_alloc E1 t' = Ret fr t1 ->
  (forall pg p, In (WPage pg p) (commit_ios E1 t1 fr) -> 2 <= pg) /\
  (t_dirty t' <> [] -> forall E' E2 t2, db_commit E1 t' None = (E', Ok tt) -> begin_write E' = Some (E2, t2) -> clear_txn E2 t2).
Proof.
  intros E E1 t os t' fr t1 (HU & HH) FO B (L1 & CL) Hl Nz HF H FR Hn P. specialize (HH E1 t B). pose proof (begin_fields _ _ _ B) as (EE & Et).
  assert (FO1 : file_ok (e_file E1)) by (subst E1; exact FO).
  assert (HD : DI t) by (intros _; rewrite Et; constructor; cbn; [constructor|discriminate]).
  pose proof HH as (SM & SF & DJ). pose proof SM as (Hr & [Z|(h & Hh & _ & S & ND & PG)]); [congruence|].
  assert (CM : forall q, In q (tree_pages (get_page E1 t) h (t_root t)) -> 2 <= q).
  { intros q Hq. apply CL. left. apply (in_tree_height _ h); auto. }
  destruct (ops_keys E1 os t t' h (fun q => 2 <= q) FO1 HD HH HF H Nz Hh S) as (K & S' & TP & OT); auto.
  { intros q Hq. rewrite Et in Hq. cbn in Hq. congruence. }
  destruct (ops_fit E1 os t t' (fun k => match db_get E1 t k with Ok v => Some v | _ => None end) FO1 HD HH HF H) as (SC & TT' & DI' & _).
  { intros k Hk. rewrite (get_shape E1 t k h) by (auto; lia). destruct (lookup k _); reflexivity. }
  destruct SC as (C1 & C2 & C3 & C4 & C5). pose proof TT' as (SM' & SF' & DJ').
  assert (Hl' : t_last t' + 1 < 2 ^ 64) by (rewrite C5; exact Hl). assert (Hr' : t_rdonly t' = false) by congruence.
  assert (DO' : dirty_ok t') by (apply DI'; lia).
  destruct (populate_frame E1 t' fr t1 Hr' SF' Hl' Hn FR P) as (R1 & R2 & R3 & R4 & R5).
  assert (DK : dirty_ok t1). { pose proof (populate_iout E1 t' FO1 Hr' DI' Hn) as X. rewrite P in X. cbn in X. apply X. lia. }
  (* the Free DB is the one the transaction began with *)
  assert (FT : forall q, in_tree (get_page E1 t') (t_free_root t') q -> 2 <= q).
  { intros q (Nf & hf & Sf & If). apply CL. right. rewrite C4 in Nf, Sf, If.
    destruct SF as (_ & [Z|(hf' & Hf' & _ & Sf' & NDf & PGf)]); [cbn [set_root t_root] in Z; congruence|]. cbn [set_root t_root] in Sf'.
    change (get_page E1 (set_root t (t_free_root t))) with (get_page E1 t) in Sf'.
    destruct (shape_frame (get_page E1 t) (get_page E1 t') hf' (t_free_root t)) as (Sf2 & Pf2 & _); auto.
    { intros x Hx. apply OT. intro Hx2. apply (DJ x); [apply (in_tree_height _ h); auto|apply (in_tree_height _ hf'); auto]. }
    rewrite (shape_height _ _ _ _ Sf Sf2), Pf2 in If. apply (in_tree_height _ hf'); auto. }
  assert (K1 : keys_in (fun q => 2 <= q) t1).
  { unfold populate_free_db in P. destruct (t_freed t') as [|x l] eqn:EF; [injection P as <- <-; exact K|]. rewrite <- EF in *. cbv zeta in P.
    assert (Hsz : leaf_size (le_bytes 8 (t_id t')) (enc_pgnos (t_freed t')) = 12 + 8 * N.of_nat (length (t_freed t'))).
    { unfold leaf_size, LEAF_BASE. rewrite blen_enc, blen_le. lia. }
    destruct (N.eqb_spec (t_free_root t') 0) as [Z|Nf].
    - cbn [orb] in P. unfold new_root_leaf in P. rewrite (Q_alloc0 E1 t' Z Hr') in P. cbn [bindo] in P.
      destruct (page_insert _ _ _ _ _) as [p|e| |]; cbn [lift bindo] in P; try discriminate. injection P as <- <-.
      intros q Hq. rewrite dget_put in Hq. destruct (N.eqb_spec (t_last t' + 1) q) as [Eq|]; [lia|]. apply K. exact Hq.
    - destruct SF' as (_ & [Z|(hf & Hf & _ & Sf & NDf & PGf)]); [cbn [set_root t_root] in Z; congruence|]. cbn [set_root t_root t_last] in *.
      change (get_page E1 (set_root t' (t_free_root t'))) with (get_page E1 t') in *.
      assert (Hm : max_pgno E1 t' <? t_free_root t' = false).
      { apply N.ltb_ge. unfold max_pgno. rewrite Hr'. rewrite Forall_forall in PGf. apply PGf. destruct hf; left; reflexivity. }
      rewrite Hm in P. cbn [orb] in P. destruct FR as [FR|[FR|FR]]; [congruence|congruence|]. destruct (FR hf Sf) as (HL & HF').
      destruct (insert_free_shape no_al E1 t' (le_bytes 8 (t_id t')) (enc_pgnos (t_freed t')) hf) as (t2 & Q & _); auto.
      { rewrite Hsz; lia. } { rewrite Hsz. exact HF'. }
      assert (Hk8 : blen (le_bytes 8 (t_id t')) < 65536) by (rewrite blen_le; lia).
      destruct (free_keys E1 t' _ _ _ _ hf Hk8 Hr' Hf Sf PGf Q) as (A & Bk). rewrite P in A. injection A as -> ->.
      intros q Hq. destruct (Bk q Hq) as [X|X]; [apply K; exact X|]. apply FT. apply (in_tree_height _ hf); auto. }
  split.
  - intros pg p I. rewrite ios_eq in I. apply in_app_or in I. destruct I as [I|I].
    + unfold page_ios in I. apply in_map_iff in I. destruct I as ([q0 p0] & I1 & I2). injection I1 as <- _. cbn [snd].
      rewrite (dirty_pgno t1 q0 p0 DK I2). apply K1. rewrite (in_dget _ q0 p0 (do_nodup _ DK) I2). discriminate.
    + destruct I as [I|[I|[I|[]]]]; discriminate.
  - intros D E' E2 t2 DC B2.
    destruct (commit_done E1 t' E' FO1 Hr' DO' SF' Hl' Hn FR D DC) as (fr0 & t0 & DN).
    pose proof (dn_pop _ _ _ _ _ DN) as P0. rewrite P in P0. injection P0 as <- <-.
    pose proof (begin_fields _ _ _ B2) as (-> & Et2). rewrite (dn_meta _ _ _ _ _ DN) in Et2. cbn in Et2. subst t2. set (t2 := mkTxn _ _ _ _ _ _ _).
    assert (V : forall q, get_page (set_locked E' true) t2 q = get_page E1 t1 q) by (intro q; apply (dn_file _ _ _ _ _ DN)).
    split; [cbn [t2 t_last]; lia|]. cbn [t2 t_root t_free_root]. fold t2. intros q [(Nq & hq & Sq & Iq)|(Nq & hq & Sq & Iq)].
    + assert (F : forall x, In x (tree_pages (get_page E1 t') h (t_root t')) -> get_page (set_locked E' true) t2 x = get_page E1 t' x).
      { rewrite C3, TP. intros x Hx. rewrite V. apply R4.
        - rewrite Forall_forall in PG. rewrite C5. apply PG. exact Hx.
        - intro Hf. apply (DJ' x); [|exact Hf]. apply (in_tree_height _ h); [congruence|rewrite C3; exact S'|rewrite C3, TP; exact Hx]. }
      destruct (shape_frame _ _ h _ F ltac:(rewrite C3; exact S')) as (S2 & P2 & _).
      rewrite (shape_height _ _ _ _ Sq S2), P2, C3, TP in Iq. apply CM. exact Iq.
    + destruct R5 as [Z|(hf & Hf & Nf & Sf & NDf & PGf & Qf)]; [congruence|].
      destruct (shape_frame (get_page E1 t1) (get_page (set_locked E' true) t2) hf fr ltac:(intros; apply V) Sf) as (S2 & P2 & _).
      rewrite (shape_height _ _ _ _ Sq S2), P2 in Iq. destruct (Qf q Iq) as [X|X]; [apply FT; exact X|lia].
Qed.

Lemma healthy_reads E : healthy E -> reads E (reader E) (fun k => match db_get E (reader E) k with Ok v => Some v | _ => None end).
Proof.
  intros (HU & HH). pose proof (begun_is E HU) as B. specialize (HH _ _ B).
  set (m := fun k => match db_get (set_locked E true) (begun E) k with Ok v => Some v | _ => None end).
  assert (R : reads (set_locked E true) (begun E) m).
  { intros k Hk. unfold m. destruct HH as (SM & _). pose proof SM as (Hr & [Z|(h & Hh & Nz & S & ND & PG)]).
    - unfold db_get. rewrite Z. reflexivity.
    - rewrite (get_shape (set_locked E true) (begun E) k h) by (auto; lia). destruct (lookup k _); reflexivity. }
  apply (reader_reads_begin E _ _ m B) in R. intros k Hk. rewrite (R k Hk). destruct (m k); reflexivity.
Qed.
Lemma no_root_ops E t os t' : t_rdonly t = false -> t_root t = 0 -> fit_ops E t os -> do_ops E t os = Ret tt t' -> t' = t.
Proof.
  intros Hr Z HF H. destruct os as [|o r]; [injection H as <-; reflexivity|]. destruct HF as (H1 & _). destruct o as [k v|k].
  - destruct H1 as (_ & X & _). congruence.
  - cbn [do_ops do_op] in H. unfold db_del in H. rewrite Hr, Z in H. discriminate.
Qed.
Lemma meta_step2 E E1 t os t' fr t1 : healthy E -> file_ok (e_file E) -> begin_write E = Some (E1, t) -> clear E -> t_last t + 1 < 2 ^ 64 ->
  fit_ops E1 t os -> do_ops E1 t os = Ret tt t' -> free_room E1 t' -> N.of_nat (length (t_freed t')) < 8000 ->
  (populate_free_db page_alloc E1 t' = Ret fr t1 -> t_dirty t' <> [] -> forall pg p, In (WPage pg p) (commit_ios E1 t1 fr) -> 2 <= pg) /\
  (forall E', db_commit E1 t' None = (E', Ok tt) -> clear E').
Proof.
  intros HH FO B C Hl HF H FR Hn. pose proof (begin_fields _ _ _ B) as (EE & Et).
  destruct (t_dirty t') as [|d0 dl] eqn:DT.
  { split; [congruence|]. intros E' X E2 t2 B2. unfold db_commit in X. rewrite DT in X. injection X as <-. apply begin_fields in B2. destruct B2 as (-> & ->).
    subst E1. specialize (C _ _ B). rewrite Et in C. exact C. }
  rewrite <- DT. assert (DN : t_dirty t' <> []) by (rewrite DT; discriminate).
  destruct (N.eq_dec (t_root t) 0) as [Z|Nz].
  { assert (t_rdonly t = false) as Hr by (rewrite Et; reflexivity). pose proof (no_root_ops _ _ _ _ Hr Z HF H) as ->. rewrite Et in DN. cbn in DN. congruence. }
  split.
  - intros P _. apply (meta_step E E1 t os t' fr t1 HH FO B (C _ _ B) Hl Nz HF H FR Hn P).
  - intros E' X E2 t2 B2.
    destruct (ops_fit E1 os t t' (fun k => match db_get E (reader E) k with Ok v => Some v | _ => None end)) as (SC & TT & DI' & _); auto.
    { subst E1. exact FO. } { intros _. rewrite Et. constructor; cbn; [constructor|discriminate]. } { apply HH. exact B. }
    { apply (reader_reads_begin E E1 t _ B). apply healthy_reads. exact HH. }
    pose proof TT as ((Hr & _) & SF & _). assert (L' : t_last t' = t_last t) by apply SC.
    destruct (commit_done E1 t' E') as (fr0 & t0 & DD); auto; try lia. { subst E1. exact FO. } { apply DI'. lia. }
    apply (meta_step E E1 t os t' fr0 t0 HH FO B (C _ _ B) Hl Nz HF H FR Hn (dn_pop _ _ _ _ _ DD)) with (E' := E'); auto.
Qed.

(** ** C133 *)
(** In any history of transactions of a database with two proper trees, as long as no
    page has to be split, every page every commit writes has a number of at least 2.
    Missing: histories that split pages and take pages from the Free DB. *)
Theorem meta_pages_safe_partial : forall a os E Ea E1 t t' fr t1,
  healthy E -> file_ok (e_file E) -> clear E -> fit_history E (a ++ [os]) -> history E a = Ok Ea ->
  begin_write Ea = Some (E1, t) -> do_ops E1 t os = Ret tt t' -> t_dirty t' <> [] -> populate_free_db page_alloc E1 t' = Ret fr t1 ->
  forall pg p, In (WPage pg p) (commit_ios E1 t1 fr) -> 2 <= pg.
Proof.
  induction a as [|o a IH]; intros os E Ea E1 t t' fr t1 HH FO C HF H B D DN P; cbn [app history fit_history] in *.
  - injection H as <-. destruct HF as (HF & _). destruct (HF _ _ B) as (F1 & F2 & F3). destruct (F3 _ D) as (F4 & F5).
    apply (meta_step2 E E1 t os t' fr t1 HH FO B C F2 F1 D F4 F5); auto.
  - destruct HF as (HF1 & HF2). destruct (transact E o) as [E2|e| |] eqn:T; try discriminate.
    destruct (transact_fits E E2 o _ HH FO HF1 T (healthy_reads E HH)) as (H2 & FO2 & _).
    assert (C2 : clear E2).
    { unfold transact in T. destruct (begin_write E) as [(E3, t3)|] eqn:B3; [|discriminate]. destruct (HF1 _ _ eq_refl) as (F1 & F2 & F3).
      destruct (do_ops E3 t3 o) as [[] t4|e t4| |] eqn:D4; try discriminate. destruct (F3 _ eq_refl) as (F4 & F5).
      destruct (db_commit E3 t4 None) as [E5 [[]|e| |]] eqn:X; try discriminate. injection T as ->.
      apply (meta_step2 E E3 t3 o t4 0 t4 HH FO B3 C F2 F1 D4 F4 F5). exact X. }
    eapply (IH os E2); eauto.
Qed.
Print Assumptions meta_pages_safe_partial.

(** A case: the database of [early_case], whose first transaction split its root, and the
    histories of [history_case]. *)
Lemma clear_case E : (match begin_write E with Some (E1, t) => (1 <=? t_last t) && (t_free_root t =? 0) &&
    negb (t_root t =? 0) && forallb (fun q => 2 <=? q) (tree_pages (get_page E1 t) (height_of 33 (get_page E1 t) (t_root t)) (t_root t))
  | None => false end) = true -> healthy E -> clear E.
Proof.
  intros H (HU & HH) E1 t B. rewrite B in H. apply andb_prop in H. destruct H as (H & H4). apply andb_prop in H. destruct H as (H & H3).
  apply andb_prop in H. destruct H as (H1 & H2). apply N.leb_le in H1. apply N.eqb_eq in H2. apply negb_true_iff, N.eqb_neq in H3.
  split; [exact H1|]. rewrite forallb_forall in H4. intros q [(_ & h & S & I)|(Z & _)]; [|congruence]. apply N.leb_le, H4.
  destruct (HH _ _ B) as ((_ & [Z|(h' & Hh & _ & S' & _)]) & _); [congruence|].
  rewrite (height_of_ok _ 33 h' _ ltac:(lia) S'), <- (shape_height _ _ _ _ S S'). exact I.
Qed.
Example meta_pages_safe_case : healthy E3 /\ file_ok (e_file E3) /\ clear E3 /\ fit_history E3 hist3 /\ history E3 hist3 = Ok E6.
Proof.
  destruct early_case as (A & B & C). destruct history_case as (H1 & H2 & _). split; [exact C|]. split; [exact B|]. split; [|split; assumption].
  apply clear_case; [vm_compute; reflexivity|exact C].
Qed.

(** ** Refutation of the full property *)
(** Six transactions on a new database.  The first stores eight zero bytes under the key
    [1;0;0;0;0;0;0;0].  The fourth is given the live page of the Free DB
    and puts data there; the sixth reads the user's pair as an
    entry of the Free DB, takes page 0 as a free page and its commit writes it over meta
    page 0, which is the live one. *)
Definition f13 (x : N) : bytes := fillb 1300 x.
Definition six : list (list op) :=
  [ [Put [0; 1] (f13 1); Put [1; 0; 0; 0; 0; 0; 0; 0] [0; 0; 0; 0; 0; 0; 0; 0]]; [Put [0; 2] (f13 2)]; [Put [0; 3] (f13 3); Put [0; 4] (f13 4)];
    [Put [0; 5] (f13 5); Put [0; 6] (f13 6); Put [0; 7] (f13 7)]; [Put [0; 8] (f13 8)] ].
Definition sixth : list op := [Put [0; 9] (f13 5); Put [0; 10] (f13 6); Put [0; 11] (f13 7)].
Definition E13 : env := get_env (history env_create six).
Definition E13' : env := set_locked E13 true.
Definition T13 : txn := ret_txn (do_ops E13' (begun E13) sixth).
Definition T14 : txn := ret_txn (populate_free_db page_alloc E13' T13).
Definition R14 : N := ret_val (populate_free_db page_alloc E13' T13).
Lemma writes_zero E t fr : existsb (fun w => match w with WPage 0 _ => true | _ => false end) (commit_ios E t fr) = true ->
  exists p, In (WPage 0 p) (commit_ios E t fr).
Proof. intro H. apply existsb_exists in H. destruct H as (w & I & H). destruct w as [[|q] p| |]; try discriminate. eauto. Qed.
Theorem meta_page_overwritten_refuted :
  history env_create six = Ok E13 /\ begin_write E13 = Some (E13', begun E13) /\
  do_ops E13' (begun E13) sixth = Ret tt T13 /\ populate_free_db page_alloc E13' T13 = Ret R14 T14 /\
  e_live1 E13' = false /\ exists p, In (WPage 0 p) (commit_ios E13' T14 R14).
Proof.
  split; [apply ok_env; vm_compute; reflexivity|]. split; [apply begun_is; vm_compute; reflexivity|].
  split; [apply ret_unit; vm_compute; reflexivity|]. split; [|split; [vm_compute; reflexivity|apply writes_zero; vm_compute; reflexivity]].
  assert (G : forall o : out N, (match o with Ret _ _ => true | _ => false end) = true -> o = Ret (ret_val o) (ret_txn o)) by (intros [ | | | ]; try discriminate; reflexivity).
  apply G. vm_compute. reflexivity.
Qed.
Print Assumptions meta_page_overwritten_refuted.
