(** What a commit makes visible: lemmas about the pages it writes. *)
From Verif Require Import Util PageModel PageSpec PageProofs PageOps TxnModel CursorModel TreeModel TreeSpec TreeProofs TreeOps TreeSplit TreePut TreeShape TxnInv DbModel SysModel DbSpec DbProofs.
Local Open Scope N_scope.

(** ** The pages on disk after a commit are the pages the transaction saw *)
Lemma mget_ok : forall d k v, (forall q p, In (q, p) d -> pg_pgno p = q) -> mget (pgno_map d) k = Some v -> v = k.
Proof.
  induction d as [|[k' p'] d IH]; intros k v H G; cbn [pgno_map map mget fst snd] in G; [discriminate|].
  destruct (N.eqb_spec k' k) as [->|Hn].
  - injection G as <-. apply (H k p'). left. reflexivity.
  - apply (IH k v); auto. intros q p Hq. apply H. right. exact Hq.
Qed.
Lemma in_dget : forall d q p, NoDup (map fst d) -> In (q, p) d -> dget d q = Some p.
Proof.
  induction d as [|[k' p'] d IH]; intros q p ND H; [destruct H|]. cbn [dget map fst] in *. inversion ND as [|? ? Hn ND']; subst.
  destruct H as [[= -> ->]|H]; [rewrite N.eqb_refl; reflexivity|].
  destruct (N.eqb_spec k' q) as [->|]; [|auto]. exfalso. apply Hn. apply in_map_iff. exists (q, p). auto.
Qed.
Lemma dget_in : forall d q p, dget d q = Some p -> In (q, p) d.
Proof.
  induction d as [|[k' p'] d IH]; intros q p H; cbn [dget] in H; [discriminate|].
  destruct (N.eqb_spec k' q) as [->|]; [injection H as ->; left; reflexivity|right; auto].
Qed.
Lemma dirty_pgno t q p : dirty_ok t -> In (q, p) (t_dirty t) -> pg_pgno p = q.
Proof. intros [ND P] H. apply (P q p). apply in_dget; auto. Qed.
Lemma mapped_id t c : dirty_ok t -> mapped (pgno_map (t_dirty t)) c = c.
Proof.
  intro D. unfold mapped. destruct (mget _ c) as [v|] eqn:G; [|reflexivity]. eapply mget_ok; [|exact G]. intros q p. apply dirty_pgno. exact D.
Qed.
Lemma fix_page_id t p : dirty_ok t -> fix_page (pgno_map (t_dirty t)) p = p.
Proof.
  intro D. unfold fix_page. destruct (is_branch p); [|reflexivity].
  generalize (seq 0 (N.to_nat (pg_nkeys p))). induction l as [|i l IH]; cbn [fold_left]; [reflexivity|].
  unfold fix_child at 2. cbv zeta. rewrite mapped_id, N.eqb_refl by exact D. exact IH.
Qed.

Lemma page_ios_plain t : dirty_ok t -> page_ios t = map (fun e => WPage (fst e) (snd e)) (t_dirty t).
Proof.
  intro D. unfold page_ios. apply map_ext_in. intros [q p] H. cbn [fst snd]. rewrite fix_page_id by exact D.
  rewrite (dirty_pgno t q p D H). reflexivity.
Qed.

Definition writes (l : list (N * page)) : list io := map (fun e => WPage (fst e) (snd e)) l.
Lemma writes_file : forall l d q, NoDup (map fst l) ->
  d_file (fold_left io_apply (writes l) d) q = match dget l q with Some p => p | None => d_file d q end.
Proof.
  induction l as [|[k p] l IH]; intros d q ND; [reflexivity|]. cbn [writes map fold_left fst snd]. fold (writes l).
  inversion ND as [|? ? Hn ND']; subst. rewrite IH by exact ND'. cbn [io_apply d_file dget].
  destruct (N.eqb_spec k q) as [->|Hk].
  - destruct (dget l q) eqn:G; [|rewrite N.eqb_refl; reflexivity]. exfalso. apply Hn. apply in_map_iff. exists (q, p0). split; auto. apply dget_in. exact G.
  - destruct (dget l q); [reflexivity|]. destruct (N.eqb_spec q k); [congruence|reflexivity].
Qed.

Lemma files_view E t q : dirty_ok t -> t_rdonly t = false -> files (disk_of E) t q = get_page E t q.
Proof.
  intros D R. unfold files. rewrite page_ios_plain by exact D. fold (writes (t_dirty t)). rewrite writes_file by apply D.
  unfold get_page. rewrite R. reflexivity.
Qed.

(** reading depends only on the pages and the root *)
Lemma find_leaf_view E t E' t' : forall f pg k, (forall q, get_page E t q = get_page E' t' q) -> find_leaf f E t pg k = find_leaf f E' t' pg k.
Proof.
  induction f as [|f IH]; intros pg k H; [reflexivity|]. cbn [find_leaf]. rewrite H. destruct (is_leaf _); [reflexivity|]. destruct (negb _); [reflexivity|].
  destruct (child_of _ k); cbn [bindr]; auto.
Qed.
Lemma db_get_view E t E' t' k : (forall q, get_page E t q = get_page E' t' q) -> t_root t = t_root t' -> db_get E t k = db_get E' t' k.
Proof. intros H R. unfold db_get. rewrite R. destruct (_ =? 0); [reflexivity|]. rewrite (find_leaf_view E t E' t') by exact H. reflexivity. Qed.

Lemma published E t E' : db_commit E t None = (E', Ok tt) -> t_dirty t <> [] ->
  exists fr t1, populate_free_db page_alloc E t = Ret fr t1 /\
    (t_rdonly t = false -> dirty_ok t1 -> (forall q, e_file E' q = get_page E t1 q) /\
      live_meta E' = mkMeta DB_MAGIC DB_VERSION (t_id t1) (t_root t1) (t_last t1) fr).
Proof.
  intros H D. assert (C : commit_case E t E' (Ok tt)) by (eapply commit_cases; [exact H|left; eauto]).
  inversion C as [X|e X|n fr t1 E1 X P X1 X2 L R K|fr t1 E1 X P X1 L R K]; subst; [congruence|].
  exists fr, t1. split; [exact P|]. intros Hr Dk. destruct (populate_id _ _ _ _ P) as (_ & La).
  pose proof (ios_all E t1 fr (disk_of E)) as I0. cbn zeta in I0. rewrite <- X1 in I0. destruct I0 as (A & B & _). split.
  - intro q. change (e_file E' q) with (d_file (disk_of E') q). rewrite A. apply files_view; [exact Dk|]. rewrite (la_ro _ _ La). exact Hr.
  - rewrite live_meta_at, L, B. unfold new_meta. rewrite mapped_id by exact Dk. reflexivity.
Qed.

(** ** Frame lemmas for shapes *)
Lemma shape_frame V V' : forall h pg, (forall q, In q (tree_pages V h pg) -> V' q = V q) -> shape V h pg ->
  shape V' h pg /\ tree_pages V' h pg = tree_pages V h pg /\ forall k, leaf_on V' k h pg = leaf_on V k h pg.
Proof.
  induction h as [|h IH]; intros pg Hq H; cbn [shape tree_pages leaf_on] in *.
  - rewrite !(Hq pg) by (cbn; auto). auto.
  - rewrite !(Hq pg) by (cbn; auto). destruct H as (A & W & S & Ne & F).
    assert (G : forall e, In e (branch_entries (V pg)) -> shape V' h (snd e) /\ tree_pages V' h (snd e) = tree_pages V h (snd e) /\ forall k, leaf_on V' k h (snd e) = leaf_on V k h (snd e)).
    { intros e He. apply IH; [|rewrite Forall_forall in F; auto]. intros q Hin. apply Hq. right. apply in_flat_map. eauto. }
    splits; auto.
    + rewrite Forall_forall. intros e He. apply (G e He).
    + f_equal. revert G. clear. induction (branch_entries (V pg)) as [|e l IHl]; intro G; cbn [flat_map]; [reflexivity|].
      rewrite IHl by (intros e' He'; apply G; right; exact He'). f_equal. apply (G e). left. reflexivity.
    + intro k. destruct (nth_error _ _) as [[ki c]|] eqn:En; [|reflexivity]. apply nth_error_In in En. apply (G _ En).
Qed.

Lemma in_tree_height V h r q : r <> 0 -> shape V h r -> in_tree V r q <-> In q (tree_pages V h r).
Proof.
  intros Hr S. split.
  - intros (_ & h' & S' & I). rewrite (shape_height _ _ _ _ S S'). exact I.
  - intro I. split; [exact Hr|]. eauto.
Qed.

(** db_get for any transaction with a shaped tree, in terms of the pages of that tree *)
Lemma get_frame E t E' t' h k : t_root t = t_root t' -> t_root t <> 0 -> (h < 64)%nat -> blen k < 65536 ->
  shape (get_page E t) h (t_root t) -> (forall q, In q (tree_pages (get_page E t) h (t_root t)) -> get_page E' t' q = get_page E t q) ->
  db_get E' t' k = db_get E t k.
Proof.
  intros R Nz Hh Hk S F. destruct (shape_frame _ _ h _ F S) as (S' & P' & L').
  rewrite (get_shape E t k h), (get_shape E' t' k h) by (auto; congruence). rewrite <- R, L'.
  destruct (shape_leaf _ k h _ S) as (I & _). rewrite (F _ I). reflexivity.
Qed.

(** the Free DB insertion when it fits *)
Lemma insert_free_shape al E t k v h : leaf_size k v < 65536 -> t_rdonly t = false ->
  shape (get_page E t) h (t_free_root t) -> NoDup (tree_pages (get_page E t) h (t_free_root t)) ->
  Forall (fun q => q <= t_last t) (tree_pages (get_page E t) h (t_free_root t)) -> (h < 32)%nat ->
  let l := leaf_on (get_page E t) k h (t_free_root t) in
  lookup k (leaf_entries (get_page E t l)) = None -> leaf_size k v + 2 <= page_free (get_page E t l) ->
  exists t', insert_into_free_db al E t k v = Ret (t_free_root t) t' /\ same_ctl t t' /\
    (forall q, q <> l -> get_page E t' q = get_page E t q) /\
    shape (get_page E t') h (t_free_root t) /\ tree_pages (get_page E t') h (t_free_root t) = tree_pages (get_page E t) h (t_free_root t).
Proof.
  intros Hs Hr S ND PG Hh l HL HF. pose proof (leaf_size_key _ _ Hs) as Hk. set (V := get_page E t) in *.
  destruct (shape_find E t k Hk h _ S) as [(path & R & EL & FP) _]. fold V in R, EL, FP.
  unfold insert_into_free_db. rewrite FP; [|unfold MAX_TREE_DEPTH; lia|unfold max_pgno; rewrite Hr; rewrite Forall_forall in PG; auto].
  destruct (shape_leaf V k h _ S) as (Hl & Wl & Sl). fold l in EL, Hl, Wl, Sl. rewrite <- EL.
  assert (Pl : pg_pgno (V l) = l) by (apply (shape_pgno V h (t_free_root t) S); auto).
  pose proof Sl as Sl'. rewrite <- leaf_entries_keys in Sl'.
  destruct (entries_split k (leaf_entries (V l)) Sl') as [(e1 & v0 & e2 & EE & F1 & F2)|(e1 & e2 & EE & F1 & F2)].
  { exfalso. rewrite EE, lookup_mid in HL; [discriminate|]. rewrite <- lookup_in_iff, lookup_below by auto. tauto. }
  rewrite (leaf_search_absent _ k e1 e2) by auto. cbn [lift bindo].
  destruct (cow_path_ok E (rev path) t Hr) as (t3 & EC & C3 & V3 & D3 & K3 & _).
  { intros q Hq. apply in_rev in Hq. eapply shape_pgno; eauto. eapply route_pages; eauto. }
  assert (Hin : In l (rev path)). { apply in_rev. rewrite rev_involutive, EL. apply last_In. eapply route_nonempty; eauto. }
  assert (Hr3 : t_rdonly t3 = false) by (destruct C3; congruence).
  assert (Hlk : leaf_key E t l = l).
  { unfold leaf_key. destruct (dget (t_dirty t) l) eqn:D; auto. unfold V, get_page in Pl. rewrite Hr, D in Pl. exact Pl. }
  rewrite Hlk, EC. cbn [bindo]. rewrite (D3 _ Hin). fold V.
  destruct (leaf_insert_cases (V l) k v e1 e2 Wl Hs EE) as [[Hf _]|(Hf & p2 & -> & W2 & E2 & P2 & _)]; [lia|].
  exists (put_dirty t3 l p2). rewrite (route_hd _ _ _ _ _ R).
  assert (HV : forall q, get_page E (put_dirty t3 l p2) q = if l =? q then p2 else V q).
  { intro q. rewrite get_put by auto. rewrite V3. reflexivity. }
  assert (HVl : get_page E (put_dirty t3 l p2) l = p2) by (rewrite HV, N.eqb_refl; reflexivity).
  assert (HO : forall q, q <> l -> get_page E (put_dirty t3 l p2) q = V q).
  { intros q Hq. rewrite HV. destruct (N.eqb_spec l q); congruence. }
  split; [reflexivity|]. split; [eapply same_ctl_trans; [exact C3|apply same_ctl_put]|]. split; [exact HO|].
  destruct (shape_update V (get_page E (put_dirty t3 l p2)) h (t_free_root t) l S ND Hl Wl) as (S' & P' & _); auto; rewrite ?HVl; auto; try congruence.
  rewrite <- leaf_entries_keys, E2. apply sorted_mid; auto. rewrite <- EE. exact Sl'.
Qed.

(** the Free DB update of a commit leaves the data tree alone and keeps two disjoint trees *)
Lemma enc_len l : blen (enc_pgnos l) = 8 * N.of_nat (length l). Proof. apply blen_enc. Qed.

Lemma populate_frame E t fr t1 : t_rdonly t = false -> shaped E (set_root t (t_free_root t)) -> t_last t + 1 < 2 ^ 64 ->
  N.of_nat (length (t_freed t)) < 8000 -> free_room E t -> populate_free_db page_alloc E t = Ret fr t1 ->
  t_root t1 = t_root t /\ t_rdonly t1 = false /\ t_last t <= t_last t1 <= t_last t + 1 /\
  (forall q, q <= t_last t -> (in_tree (get_page E t) (t_free_root t) q -> False) -> get_page E t1 q = get_page E t q) /\
  (fr = 0 \/ exists h, (h < 32)%nat /\ fr <> 0 /\ shape (get_page E t1) h fr /\ NoDup (tree_pages (get_page E t1) h fr) /\
     Forall (fun q => q <= t_last t1) (tree_pages (get_page E t1) h fr) /\
     forall q, In q (tree_pages (get_page E t1) h fr) -> in_tree (get_page E t) (t_free_root t) q \/ q = t_last t + 1).
Proof.
  intros Hr SF Hl Hn FR P. unfold populate_free_db in P. destruct SF as (_ & SF). cbn [set_root t_root t_last] in SF.
  change (get_page E (set_root t (t_free_root t))) with (get_page E t) in SF.
  destruct (t_freed t) as [|x l] eqn:EF.
  { injection P as <- <-. splits; auto; try lia. destruct SF as [->|(h & Hh & Nz & S & ND & PG)]; [left; reflexivity|right].
    exists h. splits; auto. intros q Hq. left. apply (in_tree_height _ h); auto. }
  rewrite <- EF in *. cbv zeta in P.
  assert (Hsz : leaf_size (le_bytes 8 (t_id t)) (enc_pgnos (t_freed t)) = 12 + 8 * N.of_nat (length (t_freed t))).
  { unfold leaf_size, LEAF_BASE. rewrite blen_enc, blen_le. lia. }
  destruct (N.eqb_spec (t_free_root t) 0) as [Z|Nz0].
  - cbn [orb] in P.
    pose proof (new_root_leaf_ok page_alloc E (fun _ => False) (fun t => t_free_root t = 0) (Q_alloc0 E) (Q_stable0 E) t (le_bytes 8 (t_id t)) (enc_pgnos (t_freed t)) Z Hr ltac:(rewrite Hsz; lia) Hl) as NR.
    specialize (NR ltac:(intros q [])). rewrite P in NR. destruct NR as (-> & FRM & L1 & P1 & W1 & E1 & R1 & O1 & _).
    destruct FRM as (B1 & B2 & B3 & B4 & B5). splits; auto; try congruence; try lia.
    + intros q Hq _. apply O1. lia.
    + right. exists 0%nat. cbn [shape tree_pages]. splits; auto; try lia.
      * rewrite <- leaf_entries_keys, E1. repeat constructor.
      * repeat constructor. intros [].
      * repeat constructor. lia.
      * intros q [<-|[]]. auto.
  - destruct SF as [Z|(h & Hh & _ & S & ND & PG)]; [congruence|].
    assert (Hm : max_pgno E t <? t_free_root t = false).
    { apply N.ltb_ge. unfold max_pgno. rewrite Hr. rewrite Forall_forall in PG. apply PG. destruct h; left; reflexivity. }
    rewrite Hm in P. cbn [orb] in P. destruct FR as [FR|[FR|FR]]; [congruence|congruence|]. destruct (FR h S) as (HL & HF).
    destruct (insert_free_shape page_alloc E t (le_bytes 8 (t_id t)) (enc_pgnos (t_freed t)) h) as (t' & Q & SC & O & S' & P'); auto.
    { rewrite Hsz; lia. } { rewrite Hsz. exact HF. }
    rewrite Q in P. injection P as <- <-. destruct SC as (C1 & C2 & C3 & C4 & C5).
    destruct (shape_leaf _ (le_bytes 8 (t_id t)) h _ S) as (Il & _).
    splits; auto; try congruence; try lia.
    + intros q Hq Hnt. apply O. intros ->. apply Hnt. apply (in_tree_height _ h); auto.
    + right. exists h. rewrite P', C5. splits; auto. intros q Hq. left. apply (in_tree_height _ h); auto.
Qed.

(** ** Commit and begin *)
Lemma begin_fields E E1 t : begin_write E = Some (E1, t) ->
  E1 = set_locked E true /\ t = mkTxn false (m_txnid (live_meta E) + 1) (m_root (live_meta E)) (m_free (live_meta E)) [] (m_last (live_meta E)) [].
Proof. unfold begin_write. destruct (e_locked E); [discriminate|]. intro H. injection H as <- <-. auto. Qed.

Record done (E : env) (t : txn) (E' : env) (fr : N) (t1 : txn) : Prop := {
  dn_pop : populate_free_db page_alloc E t = Ret fr t1;
  dn_ok : dirty_ok t1;
  dn_file : forall q, e_file E' q = get_page E t1 q;
  dn_meta : live_meta E' = mkMeta DB_MAGIC DB_VERSION (t_id t) (t_root t) (t_last t1) fr;
  dn_root : t_root t1 = t_root t;
  dn_ro : t_rdonly t1 = false;
  dn_last : t_last t <= t_last t1 <= t_last t + 1;
  dn_frame : forall q, q <= t_last t -> (in_tree (get_page E t) (t_free_root t) q -> False) -> get_page E t1 q = get_page E t q;
  dn_free : fr = 0 \/ exists h, (h < 32)%nat /\ fr <> 0 /\ shape (get_page E t1) h fr /\ NoDup (tree_pages (get_page E t1) h fr) /\
     Forall (fun q => q <= t_last t1) (tree_pages (get_page E t1) h fr) /\
     forall q, In q (tree_pages (get_page E t1) h fr) -> in_tree (get_page E t) (t_free_root t) q \/ q = t_last t + 1;
  dn_fileok : file_ok (e_file E');
  dn_unlocked : e_locked E' = false;
  dn_live : e_live1 E' = negb (e_live1 E);
  dn_disk : disk_of E' = fold_left io_apply (commit_ios E t1 fr) (disk_of E) }.

Lemma commit_done E t E' : file_ok (e_file E) -> t_rdonly t = false -> dirty_ok t -> shaped E (set_root t (t_free_root t)) ->
  t_last t + 1 < 2 ^ 64 -> N.of_nat (length (t_freed t)) < 8000 -> free_room E t -> t_dirty t <> [] ->
  db_commit E t None = (E', Ok tt) -> exists fr t1, done E t E' fr t1.
Proof.
  intros FO Hr DO SF Hl Hn FR D H. destruct (published E t E' H D) as (fr & t1 & P & G).
  destruct (populate_frame E t fr t1 Hr SF Hl Hn FR P) as (R1 & R2 & R3 & R4 & R5).
  assert (DK : dirty_ok t1).
  { pose proof (populate_iout E t FO Hr (fun _ => DO) Hn) as X. rewrite P in X. cbn in X. apply X. lia. }
  destruct (G Hr DK) as (G1 & G2). destruct (populate_id _ _ _ _ P) as (I1 & I2).
  assert (C : commit_case E t E' (Ok tt)) by (eapply commit_cases; [exact H|left; eauto]).
  inversion C as [X|e X|n fr0 t0 E1 X P0 X1 X2 L R K|fr0 t0 E1 X P0 X1 L R K]; subst; [congruence|]. rewrite P in P0. injection P0 as <- <-.
  exists fr, t1. constructor; auto.
  - rewrite G2, I1, R1. reflexivity.
  - intro q. rewrite G1. unfold get_page. rewrite R2. destruct (dget (t_dirty t1) q) as [p|] eqn:Dq; [right|apply FO]. apply (do_pages _ DK q p Dq).
Qed.

Lemma done_reads E t E' fr t1 h k : done E t E' fr t1 -> t_root t = 0 \/
    (t_root t <> 0 /\ (h < 64)%nat /\ shape (get_page E t) h (t_root t) /\
     forall q, In q (tree_pages (get_page E t) h (t_root t)) -> q <= t_last t /\ (in_tree (get_page E t) (t_free_root t) q -> False)) ->
  blen k < 65536 -> read_now E' k = db_get E t k.
Proof.
  intros D H Hk. unfold read_now. assert (RR : t_root (reader E') = t_root t) by (unfold reader; rewrite (dn_meta _ _ _ _ _ D); reflexivity).
  destruct H as [Z|(Nz & Hh & S & F)].
  - unfold db_get. rewrite RR, Z. reflexivity.
  - apply (get_frame E t E' (reader E') h k); auto.
    intros q Hq. unfold get_page at 1, reader. cbn [t_rdonly]. rewrite (dn_file _ _ _ _ _ D). apply (dn_frame _ _ _ _ _ D); apply F; exact Hq.
Qed.

Lemma trees_cond E t : two_trees E t -> exists h, t_root t = 0 \/
    (t_root t <> 0 /\ (h < 64)%nat /\ shape (get_page E t) h (t_root t) /\
     forall q, In q (tree_pages (get_page E t) h (t_root t)) -> q <= t_last t /\ (in_tree (get_page E t) (t_free_root t) q -> False)).
Proof.
  intros ((Hr & [Z|(h & Hh & Nz & S & ND & PG)]) & _ & DJ); [exists 0%nat; auto|]. exists h. right. splits; auto; [lia|].
  intros q Hq. split; [rewrite Forall_forall in PG; auto|]. apply DJ. apply (in_tree_height _ h); auto.
Qed.

(** the next transaction again sees two disjoint trees *)
Lemma done_trees E t E' fr t1 E2 t2 : done E t E' fr t1 -> two_trees E t -> begin_write E' = Some (E2, t2) ->
  two_trees E2 t2 /\ dirty_ok t2 /\ t_last t2 = t_last t1 /\ forall k, blen k < 65536 -> db_get E2 t2 k = db_get E t k.
Proof.
  intros D TT B. apply begin_fields in B. destruct B as (-> & B). rewrite (dn_meta _ _ _ _ _ D) in B. cbn in B. subst t2.
  set (t2 := mkTxn _ _ _ _ _ _ _). assert (V : forall q, get_page (set_locked E' true) t2 q = get_page E t1 q) by (intro q; apply (dn_file _ _ _ _ _ D)).
  pose proof (dn_last _ _ _ _ _ D) as LL. pose proof TT as ((Hr & SM) & _ & DJ).
  assert (TC : t_root t <> 0 -> exists h, (h < 32)%nat /\ shape (get_page E t) h (t_root t) /\ NoDup (tree_pages (get_page E t) h (t_root t)) /\
     Forall (fun q => q <= t_last t) (tree_pages (get_page E t) h (t_root t)) /\ shape (get_page (set_locked E' true) t2) h (t_root t) /\
     tree_pages (get_page (set_locked E' true) t2) h (t_root t) = tree_pages (get_page E t) h (t_root t) /\
     forall q, In q (tree_pages (get_page E t) h (t_root t)) -> get_page (set_locked E' true) t2 q = get_page E t q).
  { intro Nz. destruct SM as [Z|(h & Hh & _ & S & ND & PG)]; [congruence|]. exists h.
    assert (F : forall q, In q (tree_pages (get_page E t) h (t_root t)) -> get_page (set_locked E' true) t2 q = get_page E t q).
    { intros q Hq. rewrite V. apply (dn_frame _ _ _ _ _ D); [rewrite Forall_forall in PG; auto|]. apply DJ. apply (in_tree_height _ h); auto. }
    destruct (shape_frame _ _ h _ F S) as (S' & P' & _). splits; auto. }
  split; [|split; [|split]].
  - split; [|split].
    + split; [reflexivity|]. cbn [t2 t_root t_last]. destruct (N.eq_dec (t_root t) 0) as [Z|Nz]; [left; exact Z|right].
      destruct (TC Nz) as (h & Hh & S & ND & PG & S' & P' & _). exists h. fold t2. rewrite P'. splits; auto. eapply Forall_impl; [|exact PG]. cbn. lia.
    + split; [reflexivity|]. cbn [set_root t_root t_last t_free_root t2].
      destruct (dn_free _ _ _ _ _ D) as [Z|(h & Hh & Nz & S & ND & PG & _)]; [left; exact Z|right]. exists h.
      assert (F : forall q, In q (tree_pages (get_page E t1) h fr) -> get_page (set_locked E' true) t2 q = get_page E t1 q) by (intros; apply V).
      destruct (shape_frame _ _ h _ F S) as (S' & P' & _). fold t2. change (get_page (set_locked E' true) (set_root t2 fr)) with (get_page (set_locked E' true) t2).
      rewrite P'. splits; auto.
    + cbn [t2 t_root t_free_root]. fold t2. intros q (Nz & h & S & I) (Nz2 & h2 & S2 & I2).
      destruct (TC Nz) as (h' & Hh' & S0 & ND0 & PG0 & S' & P' & F'). rewrite <- (shape_height _ _ _ _ S' S) in I. rewrite P' in I.
      destruct (dn_free _ _ _ _ _ D) as [Z|(h3 & Hh3 & _ & S3 & ND3 & PG3 & Q3)]; [congruence|].
      assert (F : forall q, In q (tree_pages (get_page E t1) h3 fr) -> get_page (set_locked E' true) t2 q = get_page E t1 q) by (intros; apply V).
      destruct (shape_frame _ _ h3 _ F S3) as (S3' & P3' & _). rewrite <- (shape_height _ _ _ _ S3' S2), P3' in I2.
      destruct (Q3 q I2) as [X|X].
      * apply (DJ q); [apply (in_tree_height _ h'); auto|exact X].
      * rewrite Forall_forall in PG0. specialize (PG0 q I). lia.
  - constructor; cbn; [constructor|discriminate].
  - reflexivity.
  - intros k Hk. destruct (N.eq_dec (t_root t) 0) as [Z|Nz].
    + unfold db_get. cbn [t2 t_root]. rewrite Z. reflexivity.
    + destruct (TC Nz) as (h & Hh & S & ND & PG & S' & P' & F). apply (get_frame E t (set_locked E' true) t2 h k); auto. lia.
Qed.

(** ** Operations that fit keep the two trees *)
Lemma one_leaf_trees E t t' : two_trees E t -> same_ctl t t' -> shaped E t' -> one_leaf E t t' -> t_root t <> 0 -> two_trees E t'.
Proof.
  intros (SM & (_ & SF) & DJ) (C1 & C2 & C3 & C4 & C5) S' (h & l & Hh & S & S1 & P1 & Il & O) Nz. cbn [set_root t_root t_last] in SF.
  change (get_page E (set_root t (t_free_root t))) with (get_page E t) in SF.
  assert (FF : forall hf, t_free_root t <> 0 -> shape (get_page E t) hf (t_free_root t) -> forall q, In q (tree_pages (get_page E t) hf (t_free_root t)) -> get_page E t' q = get_page E t q).
  { intros hf Nf Sf q Hq. apply O. intros ->. apply (DJ l); [apply (in_tree_height _ h)|apply (in_tree_height _ hf)]; auto. }
  split; [exact S'|]. split.
  - split; [destruct S'; assumption|]. cbn [set_root t_root t_last]. change (get_page E (set_root t' (t_free_root t'))) with (get_page E t').
    rewrite C4. destruct SF as [Z|(hf & Hf & Nf & Sf & NDf & PGf)]; [left; exact Z|right]. exists hf.
    destruct (shape_frame _ _ hf _ (FF hf Nf Sf) Sf) as (Sf' & Pf' & _). rewrite Pf', C5. splits; auto.
  - rewrite C3, C4. intros q Q1 Q2. destruct SF as [Z|(hf & Hf & Nf & Sf & NDf & PGf)]; [destruct Q2; congruence|].
    destruct (shape_frame _ _ hf _ (FF hf Nf Sf) Sf) as (Sf' & Pf' & _).
    apply (in_tree_height _ h) in Q1; auto. apply (in_tree_height _ hf) in Q2; auto. rewrite P1 in Q1. rewrite Pf' in Q2.
    apply (DJ q); [apply (in_tree_height _ h)|apply (in_tree_height _ hf)]; auto.
Qed.

(** ** What a crash can leave *)
Lemma after_sync_none : forall l, Forall (fun o => o <> Sync) l -> after_sync l = ([], l).
Proof.
  induction l as [|o l IH]; intro F; [reflexivity|]. inversion F; subst. cbn [after_sync]. rewrite IH by assumption. destruct o; congruence.
Qed.
Lemma after_sync_mid l tl : Forall (fun o => o <> Sync) tl -> after_sync (l ++ Sync :: tl) = (l ++ [Sync], tl).
Proof.
  intro F. induction l as [|o l IH]; cbn [app after_sync].
  - rewrite after_sync_none by exact F. reflexivity.
  - rewrite IH. destruct (l ++ [Sync]) eqn:X; [destruct l; discriminate|reflexivity].
Qed.
Lemma tail_writes : forall l d keep, let D := crash_tail d (writes l) keep in
  (forall b, meta_at D b = meta_at d b) /\ forall q, d_file D q = d_file d q \/ exists p, In (q, p) l /\ d_file D q = p.
Proof.
  induction l as [|[k p] l IH]; intros d keep; cbn zeta; cbn [writes map crash_tail]; [auto|]. destruct keep as [|b ks]; [auto|].
  fold (writes l). destruct (IH (if b then io_apply d (WPage k p) else d) ks) as (A & B). cbn [fst snd] in *. split.
  - intro c. rewrite A. destruct b; reflexivity.
  - intro q. destruct (B q) as [H|(p' & H & H')].
    + destruct b; [|left; exact H]. cbn [io_apply d_file] in H. destruct (N.eqb_spec q k) as [Eq|]; [right; exists p; split; [left; congruence|exact H]|left; exact H].
    + right. exists p'. split; [right; exact H|exact H'].
Qed.

Lemma firstn_map' {A B} (f : A -> B) n : forall l, firstn n (map f l) = map f (firstn n l).
Proof. induction n as [|n IH]; intros [|x l]; cbn [firstn map]; f_equal; auto. Qed.
Lemma firstn_In {A} (x : A) n : forall l, In x (firstn n l) -> In x l.
Proof. induction n as [|n IH]; intros [|y l] H; cbn [firstn In] in *; try tauto. destruct H; [left|right]; auto. Qed.

Lemma crash_mix E t fr n keep : dirty_ok t -> t_rdonly t = false ->
  let D := crash_disk (disk_of E) (commit_ios E t fr) n keep in
  ((forall b, meta_at D b = meta_at (disk_of E) b) /\ forall q, d_file D q = e_file E q \/ d_file D q = get_page E t q) \/
  D = fold_left io_apply (commit_ios E t fr) (disk_of E).
Proof.
  intros DO Hr. cbn zeta. rewrite ios_eq, page_ios_plain by exact DO. fold (writes (t_dirty t)). set (W := writes (t_dirty t)).
  assert (NS : forall l, Forall (fun o => o <> Sync) (writes l)).
  { intro l. apply Forall_forall. intros o H. apply in_map_iff in H. destruct H as (e & <- & _). discriminate. }
  assert (All : let D := fold_left io_apply (W ++ [Sync]) (disk_of E) in (forall b, meta_at D b = meta_at (disk_of E) b) /\ forall q, d_file D q = get_page E t q).
  { cbn zeta. rewrite fold_left_app. cbn [fold_left io_apply]. split.
    - intro b. apply pages_meta. apply Forall_forall. intros o H. apply in_map_iff in H. destruct H as (e & <- & _). exact I.
    - intro q. unfold W. rewrite writes_file by apply DO. unfold get_page. rewrite Hr. reflexivity. }
  destruct (le_lt_dec n (length W)) as [L|L].
  - left. unfold crash_disk. rewrite firstn_app. replace (n - length W)%nat with 0%nat by lia. rewrite firstn_O, app_nil_r.
    unfold W, writes. rewrite firstn_map'. fold (writes (firstn n (t_dirty t))). rewrite after_sync_none by apply NS. cbn [fold_left].
    destruct (tail_writes (firstn n (t_dirty t)) (disk_of E) keep) as (A & B). split; [exact A|]. intro q. destruct (B q) as [H|(p & H & H')]; [left; exact H|right].
    rewrite H'. apply firstn_In in H. unfold get_page. rewrite Hr. rewrite (in_dget _ q p); [reflexivity|apply DO|exact H].
  - destruct (Nat.eq_dec n (length W + 1)) as [->|N1].
    + left. unfold crash_disk. rewrite firstn_app, firstn_all2 by lia. replace (length W + 1 - length W)%nat with 1%nat by lia. cbn [firstn].
      rewrite after_sync_app. cbn [crash_tail]. destruct All as (A & B). split; [exact A|]. intro q. right. apply B.
    + destruct (Nat.eq_dec n (length W + 2)) as [->|N2].
      * unfold crash_disk. rewrite firstn_app, firstn_all2 by lia. replace (length W + 2 - length W)%nat with 2%nat by lia. cbn [firstn].
        rewrite after_sync_mid by (repeat constructor; discriminate). destruct All as (A & B).
        destruct keep as [|[] ks]; cbn [crash_tail].
        -- left. split; [exact A|]. intro q. right. apply B.
        -- right. rewrite !fold_left_app. cbn [fold_left io_apply]. reflexivity.
        -- left. split; [exact A|]. intro q. right. apply B.
      * right. unfold crash_disk. rewrite firstn_all2 by (rewrite app_length; cbn [length]; lia).
        replace (W ++ [Sync; WMeta (negb (e_live1 E)) (new_meta t fr); Sync]) with ((W ++ [Sync; WMeta (negb (e_live1 E)) (new_meta t fr)]) ++ [Sync]) by (rewrite <- app_assoc; reflexivity).
        rewrite after_sync_app. reflexivity.
Qed.

(** reopening after a crash that left the old meta pages *)
Definition settled (E : env) : Prop := select_live (e_meta0 E) (e_meta1 E) = Ok (e_live1 E).
Lemma reopen_mix E D : settled E -> (forall b, meta_at D b = meta_at (disk_of E) b) ->
  exists E2, env_open D = Ok E2 /\ live_meta E2 = live_meta E /\ e_file E2 = d_file D.
Proof.
  intros S M. unfold env_open. pose proof (M false) as M0. pose proof (M true) as M1. cbn in M0, M1. rewrite M0, M1, S. cbn [bindr].
  eexists. split; [reflexivity|]. split; [|reflexivity]. unfold live_meta. cbn. destruct (e_live1 E); reflexivity.
Qed.
Lemma reopen_done E t E' fr t1 : done E t E' fr t1 -> t_id t = m_txnid (live_meta E) + 1 ->
  exists E2, env_open (disk_of E') = Ok E2 /\ disk_of E2 = disk_of E' /\ e_live1 E2 = e_live1 E'.
Proof.
  intros D I. apply reopen_newest.
  - rewrite (dn_meta _ _ _ _ _ D). split; reflexivity.
  - rewrite (dn_meta _ _ _ _ _ D). cbn [m_txnid]. rewrite (dn_live _ _ _ _ _ D), negb_involutive, (dn_disk _ _ _ _ _ D).
    rewrite (ios_other (e_live1 E)) by apply ios_touch. rewrite <- live_meta_at. lia.
Qed.
