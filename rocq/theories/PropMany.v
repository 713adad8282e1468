(** Property C145: how many committed pages one transaction can change. *)
From Verif Require Import Util PageModel PageSpec PageProofs PageOps PropPage TxnModel CursorModel TreeModel TreeSpec TreeProofs TreeOps TreeSplit TreePut TreeShape TxnInv PairInv DbModel SysModel DbSpec DbProofs CursorSpec DbCommit PropTree PropCommit PropMeta PropPair PropFileLife PropEnds PropLocal TreeTotal PropOrder PropTotal PropLoad PropCache.
From Coq Require Import Sorting.Sorted.
Local Open Scope N_scope.

(** ** Lemmas *)
Lemma most_free leaf p : wf_page leaf p -> page_free p <= 4078.
Proof.
  intros W. pose proof (wf_lower _ _ W) as A. pose proof (wf_upper _ _ W) as B. unfold page_free. unfold HDR, PAGE_SIZE in *. lia.
Qed.
(** what goes into a page is no larger than a page *)
Lemma insert_fits p i k v p' : wf_page true p -> i <= pg_nkeys p -> page_insert p i k (Some v) 0 = Ok p' -> leaf_size k v + 2 <= 4078.
Proof.
  intros W Hi HI. assert (Hs : leaf_size k v < 65536).
  { pose proof HI as X. unfold page_insert in X. rewrite (wf_is_leaf _ _ W) in X. cbn [bindr] in X. destruct (_ <? _); [discriminate|].
    destruct (slot_in_page _); [|discriminate]. cbv zeta in X. rewrite blen_leaf in X.
    destruct (N.leb_spec (sub16 (pg_upper p) (u16 (LEAF_BASE + blen k + blen v)) + leaf_size k v) PAGE_SIZE) as [Y|]; [|discriminate]. clear X. unfold PAGE_SIZE in Y. lia. }
  destruct (page_insert_leaf_correct p i k v 0 W Hi Hs) as [(_ & X)|(X & _)]; [congruence|].
  pose proof (most_free _ _ W). lia.
Qed.

Section Fits.
Variable E : env.
Hypothesis F : file_ok (e_file E).
Variables k v : bytes.

Lemma A1 : forall t0, DI t0 -> iout (page_alloc E t0).
Proof. intros t0 H0. apply (proj1 (alloc_fuel_iout E F ALLOC_FUEL t0 H0)). Qed.
Lemma A2 : forall t0 pg t', DI t0 -> page_alloc E t0 = Ret pg t' -> t_last t' < 2 ^ 64 -> pg < 2 ^ 64.
Proof. intros t0 pg t' H0 A. apply (proj2 (alloc_fuel_iout E F ALLOC_FUEL t0 H0) pg t' A). Qed.

Lemma root_fits t fr t1 : DI t -> new_root_leaf page_alloc E t k v = Ret fr t1 -> leaf_size k v + 2 <= 4078.
Proof.
  intros H. unfold new_root_leaf. destruct (page_alloc E t) as [new t2|e t2| |]; try discriminate. cbn [bindo].
  destruct (page_insert _ _ _ _ _) as [p|e| |] eqn:PI; try discriminate. intros _.
  pose proof (init_wf true new) as W. change (kind true) with P_LEAF in W. eapply insert_fits; [exact W| |exact PI]. lia.
Qed.
Lemma split_fits t lpg path new t5 : DI t -> leaf_split page_alloc E t path lpg k v = Ret new t5 -> t_last t5 < 2 ^ 64 -> leaf_size k v + 2 <= 4078.
Proof.
  intros H LS L. unfold leaf_split in LS.
  destruct (TxnInv.split_node_iout page_alloc E page_alloc_lout A1 A2 t true lpg H) as (SI & SN).
  pose proof (split_node_lout page_alloc page_alloc_lout E t true lpg) as SL.
  destruct (split_node page_alloc E t true lpg) as [[[[rpg l] r] d] t1|e t1| |] eqn:EN; try discriminate. cbn [bindo] in LS.
  destruct (insert_split t1 lpg rpg l r k (Some v) 0) as [[] t2|e t2| |] eqn:IS; try discriminate. cbn [bindo] in LS.
  assert (L1 : t_last t1 < 2 ^ 64).
  { pose proof (insert_split_lout t1 lpg rpg l r k (Some v) 0) as X1. rewrite IS in X1. pose proof (la_last _ _ X1).
    pose proof (propagate_lout page_alloc page_alloc_lout E (tl (rev path)) t2 d (pg_pgno r)) as X2.
    destruct (propagate page_alloc E t2 (tl (rev path)) d (pg_pgno r)) as [[[d' rpg']|] t3|e t3| |]; try discriminate; cbn [bindo] in LS; pose proof (la_last _ _ X2).
    - pose proof (root_split_lout page_alloc page_alloc_lout E t3 (hd 0 path) rpg' d') as X3.
      destruct (root_split page_alloc E t3 (hd 0 path) rpg' d') as [n t4|e t4| |]; try discriminate. cbn [bindo] in LS. injection LS as _ <-. pose proof (la_last _ _ X3). lia.
    - injection LS as _ <-. lia. }
  destruct (SN _ _ _ _ _ eq_refl L1) as (Wl & Wr & _). unfold insert_split in IS.
  destruct (page_search l k) as [[b i]|e| |] eqn:PS; try discriminate. cbn [lift bindo] in IS.
  pose proof (TxnInv.page_search_wfp _ _ _ _ (ex_intro _ _ Wl) PS) as Hi.
  destruct (negb b && (pg_nkeys l <=? i)).
  - destruct (page_search r k) as [[b2 j]|e| |] eqn:PS2; try discriminate. cbn [lift bindo] in IS.
    pose proof (TxnInv.page_search_wfp _ _ _ _ (ex_intro _ _ Wr) PS2) as Hj.
    destruct (page_insert r j k (Some v) 0) as [p|e| |] eqn:PI; try discriminate. eapply insert_fits; [| |exact PI]; assumption.
  - destruct (page_insert l i k (Some v) 0) as [p|e| |] eqn:PI; try discriminate. eapply insert_fits; [| |exact PI]; assumption.
Qed.
Lemma free_fits t fr t1 : t_rdonly t = false -> DI t -> insert_into_free_db page_alloc E t k v = Ret fr t1 -> t_last t1 < 2 ^ 64 -> leaf_size k v + 2 <= 4078.
Proof.
  intros Hr H IF L1. pose proof (insert_free_lout page_alloc E t k v page_alloc_lout) as LO. rewrite IF in LO. pose proof (la_last _ _ LO) as LL.
  assert (L : t_last t < 2 ^ 64) by lia. unfold insert_into_free_db in IF.
  destruct (find_path MAX_TREE_DEPTH E t (t_free_root t) k) as [[path leaf]|e| |] eqn:FP; try discriminate; [|eapply root_fits; eauto].
  destruct (find_path_seen E t Hr _ _ _ _ _ FP) as (S & EL & Hne & IL).
  destruct (page_search leaf k) as [[found i]|e| |] eqn:PS; cbn [lift bindo] in IF; try discriminate.
  destruct found; [discriminate|].
  pose proof (TxnInv.leaf_key_page E F t path leaf _ Hr H L Hne S EL IL eq_refl) as LP.
  pose proof (TxnInv.cow_path_iout E F (rev path) t H (fun q Hq => S q (proj2 (in_rev path q) Hq))) as CI.
  pose proof (cow_path_lout E (rev path) t) as CL.
  destruct (cow_path E t (rev path)) as [[] t3|e t3| |]; cbn [bindo iout lout] in *; try discriminate.
  destruct LP as [EK LP]. cbv zeta in IF. rewrite EK in IF. destruct (dget (t_dirty t3) (leaf_of path)) as [p0|] eqn:D0; [|discriminate].
  destruct (TxnInv.page_of_view E F t (leaf_of path) Hr (H L)) as [W P]; [left; congruence|]. rewrite <- EL in W, P.
  pose proof (TxnInv.page_search_wfp _ _ _ _ W PS) as Hi.
  destruct (page_insert p0 i k (Some v) 0) as [p2|e| |] eqn:PI; try discriminate.
  - injection IF as _ <-. cbn [put_dirty set_dirty t_last] in L1. specialize (LP L1). injection LP as ->.
    destruct W as [lf W]. assert (lf = true) as -> by (destruct lf; auto; rewrite (wf_is_leaf _ _ W) in IL; discriminate).
    eapply insert_fits; eauto.
  - destruct e; try discriminate. destruct (leaf_split page_alloc E t3 path (leaf_of path) k v) as [new t5|e t5| |] eqn:LS; try discriminate.
    cbn [bindo] in IF. injection IF as _ <-. eapply split_fits; eauto.
Qed.
End Fits.

Lemma populate_fits E t fr t1 : file_ok (e_file E) -> t_rdonly t = false -> DI t ->
  populate_free_db page_alloc E t = Ret fr t1 -> t_last t1 < 2 ^ 64 -> N.of_nat (length (t_freed t)) <= 508.
Proof.
  intros F Hr H P L. unfold populate_free_db in P. destruct (t_freed t) as [|x l] eqn:EF; [cbn; lia|]. cbv zeta in P. rewrite <- EF in *. clear EF.
  assert (B : leaf_size (le_bytes 8 (t_id t)) (enc_pgnos (t_freed t)) = 12 + 8 * N.of_nat (length (t_freed t))).
  { unfold leaf_size, LEAF_BASE. rewrite blen_enc, blen_le. lia. }
  assert (X : leaf_size (le_bytes 8 (t_id t)) (enc_pgnos (t_freed t)) + 2 <= 4078).
  { destruct (_ || _); [eapply root_fits|eapply free_fits]; eauto; lia. }
  lia.
Qed.

(** ** The list of freed pages
    As long as nothing is allocated, it names each copied page once. *)
Definition book (t : txn) : Prop := NoDup (t_freed t) /\ forall q, In q (t_freed t) <-> dget (t_dirty t) q <> None.
Definition bout {T} (o : out T) : Prop := match o with Ret _ t' | Fail _ t' => book t' | _ => True end.
Lemma nodup_snoc {T} (l : list T) x : NoDup l -> ~ In x l -> NoDup (l ++ [x]).
Proof.
  intros H N. induction H as [|y l Hy H IH]; cbn [app]; [repeat constructor; tauto|]. constructor.
  - rewrite in_app_iff. cbn. intros [X|[X|[]]]; [tauto|subst; apply N; now left].
  - apply IH. intro X. apply N. now right.
Qed.
Lemma put_same_book t q p : book t -> dget (t_dirty t) q <> None -> book (put_dirty t q p).
Proof.
  intros (A & B) D. split; [exact A|]. intro x. cbn [put_dirty set_dirty t_freed t_dirty]. rewrite dget_dset.
  destruct (N.eqb_spec q x) as [<-|]; [|apply B]. rewrite B. split; [discriminate|auto].
Qed.
Lemma cow_page_book E t pg : book t -> bout (cow_page E t pg).
Proof.
  intros (A & B). unfold cow_page. destruct (dget (t_dirty t) pg) eqn:D; [split; auto|]. unfold get_writable. destruct (t_rdonly t); [split; auto|].
  cbv zeta. set (n := pg_pgno (e_file E pg)). destruct (dget (t_dirty t) n) eqn:D2; [split; auto|]. cbn [bout]. split.
  - cbn [set_freed t_freed]. apply nodup_snoc; auto. intro X. apply B in X. congruence.
  - intro x. cbn [set_freed put_dirty set_dirty t_freed t_dirty]. rewrite dget_dset, in_app_iff, B. cbn [In].
    destruct (N.eqb_spec n x) as [<-|Ne]; split; try tauto; discriminate.
Qed.
Lemma cow_path_book E : forall l t, book t -> bout (cow_path E t l).
Proof.
  induction l as [|pg l IH]; intros t H; cbn [cow_path]; [exact H|]. pose proof (cow_page_book E t pg H) as X.
  destruct (cow_page E t pg); cbn [bindo bout] in *; auto.
Qed.
Lemma del_book E t k data : book t -> bout (db_del E t k data).
Proof.
  intro H. unfold db_del. destruct (t_rdonly t); [exact H|]. destruct (t_root t =? 0); [exact H|].
  destruct (find_path _ _ _ _ _) as [[path leaf]|e| |]; cbn [lift bindo]; try exact I; try exact H.
  destruct (page_search leaf k) as [[[] i]|e| |]; cbn [bindo]; try exact I; try exact H.
  pose proof (cow_path_book E (rev path) t H) as X. destruct (cow_path E t (rev path)) as [[] t3|e t3| |]; cbn [bindo bout] in *; try exact I; try exact X.
  destruct (dget (t_dirty t3) (leaf_of path)) eqn:D; [|exact X]. destruct (page_delete _ _); cbn [lift bindo bout]; try exact I; try exact X.
  apply put_same_book; auto. congruence.
Qed.

(** ** Deleting many keys *)
Lemma del_dirty E t k t' b h : blen k < 65536 -> (h < 32)%nat -> t_rdonly t = false -> t_root t <> 0 ->
  tree b (get_page E t) h (t_root t) None None -> Forall (fun q => 2 <= q <= t_last t) (tree_pages (get_page E t) h (t_root t)) ->
  db_del E t k None = Ret tt t' ->
  forall q, dget (t_dirty t') q <> None -> dget (t_dirty t) q <> None \/ In q (tree_pages (get_page E t) h (t_root t)).
Proof.
  intros Hk Hh Hr Nz T PG H. unfold db_del in H. rewrite Hr in H. destruct (N.eqb_spec (t_root t) 0) as [|_]; [tauto|].
  set (V := get_page E t) in *.
  assert (Hm : forall q, In q (tree_pages V h (t_root t)) -> q <= max_pgno E t).
  { unfold max_pgno. rewrite Hr. rewrite Forall_forall in PG. intros q Hq. apply PG in Hq. lia. }
  destruct (find_path_ok b E t k Hk h MAX_TREE_DEPTH (t_root t) None None ltac:(unfold MAX_TREE_DEPTH; lia) Hm T) as (path & FP & R).
  rewrite FP in H. fold V in R, H. cbn [lift bindo] in H.
  destruct (page_search (V (leaf_of path)) k) as [[[] i]|e| |]; cbn [bindo] in H; try discriminate.
  destruct (cow_path_ok E (rev path) t Hr) as (t3 & EC & C3 & V3 & D3 & _ & N3).
  { intros q Hq. apply in_rev in Hq. eapply tree_page_pgno; eauto. eapply route_pages; eauto. }
  rewrite EC in H. cbn [bindo] in H.
  assert (IN : forall q, In q (rev path) -> In q (tree_pages V h (t_root t))).
  { intros q Hq. apply in_rev in Hq. eapply route_pages; eauto. }
  destruct (dget (t_dirty t3) (leaf_of path)) as [p|] eqn:D; [|discriminate].
  destruct (page_delete p i) as [p'| | |]; cbn [lift bindo] in H; try discriminate. injection H as <-.
  intros q. cbn [put_dirty set_dirty t_dirty]. rewrite dget_dset.
  assert (X : dget (t_dirty t3) q <> None -> dget (t_dirty t) q <> None \/ In q (tree_pages V h (t_root t))).
  { intro Y. destruct (N3 q Y); auto. }
  destruct (N.eqb_spec (leaf_of path) q) as [<-|]; [intros _; apply X; congruence|exact X].
Qed.

Lemma dels_go E h : (h < 32)%nat -> forall ks t kvs, t_rdonly t = false -> t_root t <> 0 ->
  tree false (get_page E t) h (t_root t) None None -> NoDup (tree_pages (get_page E t) h (t_root t)) ->
  Forall (fun q => 2 <= q <= t_last t) (tree_pages (get_page E t) h (t_root t)) -> tree_kvs (get_page E t) h (t_root t) = kvs ->
  book t -> (forall q, In q (t_freed t) -> In q (tree_pages (get_page E t) h (t_root t))) ->
  NoDup ks -> (forall k, In k ks -> blen k < 65536 /\ lookup k kvs <> None) ->
  exists t', do_ops E t (map Del ks) = Ret tt t' /\ same_ctl t t' /\ tree false (get_page E t') h (t_root t) None None /\
    tree_pages (get_page E t') h (t_root t) = tree_pages (get_page E t) h (t_root t) /\
    book t' /\ (forall q, In q (t_freed t') -> In q (tree_pages (get_page E t) h (t_root t))) /\
    (forall k, lookup k (tree_kvs (get_page E t') h (t_root t)) = if in_dec key_dec k ks then None else lookup k kvs).
Proof.
  intros Hh. induction ks as [|k ks IH]; intros t kvs Hr Nz T ND PG EK BK FR NK IK.
  - exists t. cbn [map do_ops]. splits; auto; [apply same_ctl_refl|]. intro k. rewrite EK. destruct (in_dec key_dec k []) as [[]|]; reflexivity.
  - destruct (IK k (or_introl eq_refl)) as (Hk & Lk).
    assert (HT : txn_holds false h E t kvs) by (split; [exact Hr|right; exists h; splits; auto]).
    pose proof (db_del_ok false h E t kvs k None Hk Hh HT) as D. destruct (lookup k kvs) eqn:LK; [|congruence].
    destruct D as (t1 & kvs1 & D & C & _ & L1 & h' & Hh' & T0 & T1 & EK1 & P1 & _).
    assert (h' = h) as -> by (eapply shape_height; eapply tree_shape; [exact T0|exact T]).
    pose proof (del_book E t k None BK) as BK1. rewrite D in BK1. cbn [bout] in BK1.
    pose proof (del_dirty E t k t1 false h Hk Hh Hr Nz T PG D) as DD.
    destruct C as (C1 & C2 & C3 & C4 & C5).
    destruct (IH t1 kvs1) as (t' & DO & C' & T' & P' & B' & F' & L'); rewrite ?C3, ?C5; try congruence; auto.
    + intros q Hq. rewrite P1. apply BK1 in Hq. destruct (DD q Hq) as [X|X]; auto. apply FR. apply BK. exact X.
    + inversion NK; auto.
    + intros k' Hin. destruct (IK k' (or_intror Hin)) as (X1 & X2). split; [exact X1|]. rewrite L1. destruct (key_dec k' k) as [->|]; [inversion NK; tauto|exact X2].
    + exists t'. cbn [map do_ops do_op]. rewrite D. cbn [bindo]. splits; auto.
      * eapply same_ctl_trans; [|exact C']. repeat split; assumption.
      * rewrite <- C3. exact T'.
      * rewrite <- C3, P'. rewrite C3. exact P1.
      * intros q Hq. rewrite <- P1. rewrite <- C3. apply F'. exact Hq.
      * intro k'. rewrite <- C3. rewrite L', L1. destruct (in_dec key_dec k' ks) as [I|I]; destruct (in_dec key_dec k' (k :: ks)) as [J|J]; auto.
        -- exfalso. apply J. right. exact I.
        -- destruct (key_dec k' k) as [|Ne]; auto. exfalso. destruct J as [->|J]; auto.
        -- destruct (key_dec k' k) as [->|]; auto. exfalso. apply J. left. reflexivity.
Qed.

(** ** Counting leaves *)
Definition kcost (l : list (bytes * bytes)) : N := sumN (map (fun e => leaf_size (fst e) (snd e) + 2) l).
Lemma kcost_app a b : kcost (a ++ b) = kcost a + kcost b.
Proof. unfold kcost. rewrite map_app, sumN_app. reflexivity. Qed.
Lemma leaf_cost p : wf_page true p -> kcost (leaf_entries p) <= 4078.
Proof.
  intro W. pose proof (wf_raw_cost _ _ W) as C. unfold raw_cost, raws in C. unfold kcost, leaf_entries. rewrite map_map in *.
  rewrite (map_ext _ (fun o => blen (raw true p o) + 2)).
  - unfold HDR, PAGE_SIZE in C. lia.
  - intro o. cbn [fst snd]. rewrite raw_length. unfold leaf_size, node_size, blen, node_key, leaf_val, node_ksize. rewrite !readn_length. lia.
Qed.
Definition leaves (V : view) (h : nat) (pg : N) : list N := filter (fun q => is_leaf (V q)) (tree_pages V h pg).
Lemma kvs_leaves V : forall h pg, shape V h pg -> tree_kvs V h pg = flat_map (fun q => leaf_entries (V q)) (leaves V h pg).
Proof.
  unfold leaves. induction h as [|h IH]; intros pg S; cbn [shape tree_kvs tree_pages] in *.
  - destruct S as (_ & W & _). cbn [filter]. rewrite (wf_is_leaf _ _ W). cbn [flat_map]. now rewrite app_nil_r.
  - destruct S as (_ & W & _ & _ & F). cbn [filter]. rewrite (wf_is_leaf _ _ W).
    induction F as [|e es He F IHF]; cbn [flat_map]; [reflexivity|]. rewrite filter_app, flat_map_app, (IH _ He), IHF. reflexivity.
Qed.
Lemma leaf_page V : forall h pg q, shape V h pg -> In q (leaves V h pg) -> wf_page true (V q).
Proof.
  unfold leaves. intros h pg q S H. apply filter_In in H. destruct H as (H & L). revert pg S H.
  induction h as [|h IH]; intros pg S H; cbn [shape tree_pages] in *.
  - destruct H as [<-|[]]. apply S.
  - destruct S as (_ & W & _ & _ & F). destruct H as [<-|H]; [rewrite (wf_is_leaf _ _ W) in L; discriminate|].
    apply in_flat_map in H. destruct H as (e & H1 & H2). rewrite Forall_forall in F. eauto.
Qed.
Lemma bushy_leaf V : forall h pg q, shape V h pg -> bushy V h pg -> In q (leaves V h pg) -> leaf_entries (V q) <> [].
Proof.
  unfold leaves. intros h pg q S B H. apply filter_In in H. destruct H as (H & L). revert pg S B H.
  induction h as [|h IH]; intros pg S B H; cbn [shape bushy tree_pages] in *.
  - destruct H as [<-|[]]. exact B.
  - destruct S as (_ & W & _ & _ & F). destruct B as (_ & B). destruct H as [<-|H]; [rewrite (wf_is_leaf _ _ W) in L; discriminate|].
    apply in_flat_map in H. destruct H as (e & H1 & H2). rewrite Forall_forall in F, B. eauto.
Qed.
Lemma leaves_cost V h pg : shape V h pg -> kcost (tree_kvs V h pg) <= 4078 * N.of_nat (length (leaves V h pg)).
Proof.
  intro S. rewrite (kvs_leaves V h pg S). pose proof (leaf_page V h pg) as LP. induction (leaves V h pg) as [|q l IH]; cbn [flat_map length]; [cbn; lia|].
  rewrite kcost_app. pose proof (leaf_cost (V q) (LP q S (or_introl eq_refl))). specialize (IH (fun x Sx H => LP x Sx (or_intror H))). lia.
Qed.
Lemma bushy_pages V : forall h pg, bushy V h pg -> (length (tree_pages V h pg) + 1 <= 2 * length (tree_kvs V h pg))%nat.
Proof.
  induction h as [|h IH]; intros pg B; cbn [bushy tree_pages tree_kvs] in *.
  - destruct (leaf_entries (V pg)); [congruence|cbn [length]; lia].
  - destruct B as (A & B). assert (G : forall l, Forall (fun e : key * N => bushy V h (snd e)) l ->
      (length (flat_map (fun e => tree_pages V h (snd e)) l) + length l <= 2 * length (flat_map (fun e => tree_kvs V h (snd e)) l))%nat).
    { induction 1 as [|e l He _ IHl]; cbn [length flat_map]; [lia|]. rewrite !app_length. apply IH in He. lia. }
    apply G in B. cbn [length]. lia.
Qed.

(** ** The first commit that frees pages *)
Lemma commit_first E t : t_rdonly t = false -> t_free_root t = 0 -> t_freed t <> [] -> t_dirty t <> [] -> 1 <= t_last t -> t_last t + 1 < 2 ^ 64 ->
  over_meta t = false -> N.of_nat (length (t_freed t)) <= 8190 ->
  if N.of_nat (length (t_freed t)) <=? 508 then exists E', db_commit E t None = (E', Ok tt) else db_commit E t None = (set_locked E false, Err ENOSPC).
Proof.
  intros Hr Hz NF ND H1 Hl OM HN. set (n := N.of_nat (length (t_freed t))) in *.
  set (k := le_bytes 8 (t_id t)). set (v := enc_pgnos (t_freed t)).
  assert (SZ : leaf_size k v = 12 + 8 * n) by (unfold leaf_size, LEAF_BASE, k, v; rewrite blen_enc, blen_le; fold n; lia).
  assert (P : populate_free_db page_alloc E t = new_root_leaf page_alloc E t k v).
  { unfold populate_free_db. rewrite Hz. cbn [N.eqb orb]. destruct (t_freed t); [congruence|reflexivity]. }
  unfold new_root_leaf in P. rewrite (Q_alloc0 E t Hz Hr) in P. cbn [bindo] in P. set (t1 := set_last t (t_last t + 1)) in *.
  pose proof (init_wf true (t_last t + 1)) as W. change (kind true) with P_LEAF in W.
  unfold db_commit. destruct (t_dirty t) as [|d0 dl] eqn:DD; [congruence|]. rewrite P.
  destruct (page_insert_leaf_correct _ 0 k v 0 W ltac:(lia) ltac:(lia)) as [(X & ->)|(X & p & -> & Wp & _ & PN & _)];
    rewrite init_free in X; unfold PAGE_SIZE, HDR in X; cbn [lift bindo].
  - destruct (N.leb_spec n 508); [lia|reflexivity].
  - destruct (N.leb_spec n 508); [|lia]. assert (O : over_meta (put_dirty t1 (t_last t + 1) p) = false).
    { unfold over_meta. cbn [put_dirty set_dirty t_dirty]. unfold dset. cbn [existsb snd]. rewrite PN, init_pgno, N.mod_small by exact Hl.
      replace (t_last t + 1 <? 2) with false by (symmetry; apply N.ltb_ge; lia). cbn [orb]. apply not_true_iff_false. intro Y.
      apply existsb_exists in Y. destruct Y as (e & Y1 & Y2). apply filter_In in Y1. destruct Y1 as (Y1 & _). unfold over_meta in OM.
      apply not_true_iff_false in OM. apply OM. apply existsb_exists. exists e. split; [exact Y1|exact Y2]. }
    rewrite O. eexists. reflexivity.
Qed.

(** ** Deleting from a loaded database *)
Lemma dels_DI E : file_ok (e_file E) -> forall ks t t', DI t -> do_ops E t (map Del ks) = Ret tt t' -> DI t'.
Proof.
  intro F. induction ks as [|k ks IH]; intros t t' D H; cbn [map do_ops do_op] in H; [injection H as <-; exact D|].
  pose proof (TxnInv.db_del_iout E F t k None D) as X.
  destruct (db_del E t k None) as [[] t1|e t1| |]; cbn [bindo] in H; try discriminate. exact (IH _ _ X H).
Qed.

Definition dels (ks : list bytes) : list op := map Del ks.
Lemma laid_dels E l ks : laid E l -> Forall (fun e => blen (fst e) < 65536) l -> NoDup ks -> incl ks (map fst l) -> ks <> [] ->
  exists t', begin_write E = Some (set_locked E true, begun E) /\ do_ops (set_locked E true) (begun E) (dels ks) = Ret tt t' /\
    t_rdonly t' = false /\ t_free_root t' = 0 /\ t_freed t' <> [] /\ t_dirty t' <> [] /\ 1 <= t_last t' /\ t_last t' + 1 < 2 ^ 64 /\ over_meta t' = false /\
    (length (t_freed t') < 2 * length l)%nat /\ N.of_nat (length (t_freed t')) < m_last (live_meta E) /\
    (ks = map fst l -> kcost l <= 4078 * N.of_nat (length (t_freed t'))).
Proof.
  intros (LK & FO & MF & L1 & L2 & TR) BK NK IK NE.
  destruct TR as [(Z & ->)|(h & Hh & Nz & T & BU & ND & PG & EK)].
  { exfalso. destruct ks as [|k ks]; [congruence|]. apply (IK k). now left. }
  pose proof (begun_is E LK) as B. pose proof (begin_fields _ _ _ B) as (_ & Et). set (E1 := set_locked E true) in *. set (t := begun E) in *.
  assert (V : forall q, get_page E1 t q = e_file E q) by (intro q; rewrite Et; reflexivity).
  destruct (kvs_frame (e_file E) (get_page E1 t) h (m_root (live_meta E)) (fun q _ => V q)) as (K & KP).
  assert (F1 : t_rdonly t = false /\ t_root t = m_root (live_meta E) /\ t_last t = m_last (live_meta E) /\ t_free_root t = 0 /\ t_freed t = [] /\ t_dirty t = []).
  { rewrite Et. cbn. auto 10. }
  destruct F1 as (Hr & HR & HLa & HF & HFr & HD).
  assert (IK' : forall k, In k ks -> blen k < 65536 /\ lookup k l <> None).
  { intros k Hk. split; [|apply lookup_in_iff; auto]. apply IK in Hk. apply in_map_iff in Hk. destruct Hk as (e & <- & He). rewrite Forall_forall in BK. auto. }
  destruct (dels_go E1 h Hh ks t l) as (t' & DO & C & T' & P' & BK' & FR' & LU); rewrite ?HR, ?HLa, ?KP; auto.
  { eapply tree_frame; [intros q _; apply V|]. exact T. } { rewrite K. exact EK. }
  { split; rewrite HFr; [constructor|]. intro q. rewrite HD. cbn. tauto. } { rewrite HFr. intros q []. }
  rewrite HR in T', P', FR', LU. rewrite KP in P', FR'. destruct C as (C1 & C2 & C3 & C4 & C5).
  assert (Ro' : t_rdonly t' = false) by congruence.
  assert (VU : forall q, ~ In q (t_freed t') -> get_page E1 t' q = e_file E q).
  { intros q Nq. unfold get_page. rewrite Ro'. destruct (dget (t_dirty t') q) eqn:D; [|reflexivity]. exfalso. apply Nq. apply BK'. congruence. }
  assert (NF : t_freed t' <> []).
  { intro X. destruct ks as [|k ks']; [congruence|]. specialize (LU k). destruct (in_dec key_dec k (k :: ks')) as [_|Y]; [|exfalso; apply Y; now left].
    destruct (kvs_frame (e_file E) (get_page E1 t') h (m_root (live_meta E)) (fun q _ => VU q ltac:(rewrite X; exact (@in_nil _ q)))) as (K2 & _).
    rewrite K2, EK in LU. destruct (IK' k (or_introl eq_refl)) as (_ & Y). congruence. }
  exists t'. split; [exact B|]. splits; auto; try congruence; try lia.
  - intro X. destruct (t_freed t') as [|q fr] eqn:EF; [congruence|]. assert (Y : In q (t_freed t')) by (rewrite EF; now left). rewrite <- EF in *.
    apply BK' in Y. rewrite X in Y. cbn in Y. congruence.
  - assert (DK : dirty_ok t').
    { apply (dels_DI E1 FO ks t t'); auto; [intros _; rewrite Et; constructor; cbn; [constructor|discriminate]|]. lia. }
    apply not_true_iff_false. intro X. apply existsb_exists in X. destruct X as ([q p] & X1 & X2). cbn [snd] in X2.
    pose proof (in_dget _ _ _ (do_nodup _ DK) X1) as X3. destruct (do_pages _ DK _ _ X3) as (_ & X4).
    assert (X5 : In q (t_freed t')) by (apply BK'; congruence). apply FR' in X5. rewrite Forall_forall in PG. apply PG in X5. apply N.ltb_lt in X2. lia.
  - pose proof (NoDup_incl_length (proj1 BK') FR') as X. pose proof (bushy_pages _ _ _ BU) as Y. rewrite EK in Y. lia.
  - assert (X : incl (t_freed t') (map N.of_nat (seq 2 (N.to_nat (m_last (live_meta E)) - 1)))).
    { intros q Hq. apply FR' in Hq. rewrite Forall_forall in PG. apply PG in Hq. apply in_map_iff. exists (N.to_nat q). split; [lia|]. apply in_seq. lia. }
    apply (NoDup_incl_length (proj1 BK')) in X. rewrite map_length, seq_length in X. lia.
  - intros ->. pose proof (tree_shape _ _ _ _ _ _ T) as S. pose proof (leaves_cost _ _ _ S) as LC. rewrite EK in LC.
    assert (X : incl (leaves (e_file E) h (m_root (live_meta E))) (t_freed t')).
    { intros q Hq. destruct (in_dec N.eq_dec q (t_freed t')) as [|Nq]; [assumption|exfalso].
      pose proof (bushy_leaf _ _ _ _ S BU Hq) as NEq. destruct (leaf_entries (e_file E q)) as [|e es] eqn:LE; [congruence|].
      assert (IE : In e (tree_kvs (get_page E1 t') h (m_root (live_meta E)))).
      { rewrite (kvs_leaves _ _ _ (tree_shape _ _ _ _ _ _ T')). apply in_flat_map. exists q. split; [|rewrite (VU q Nq), LE; now left].
        unfold leaves in *. apply filter_In in Hq. destruct Hq as (Q1 & Q2). apply filter_In. rewrite P', (VU q Nq). auto. }
      apply (in_map fst) in IE. apply lookup_in_iff in IE. rewrite LU in IE.
      destruct (in_dec key_dec (fst e) (map fst l)) as [|Y]; [congruence|]. apply lookup_in_iff in IE. tauto. }
    assert (ND2 : NoDup (leaves (e_file E) h (m_root (live_meta E)))) by (apply NoDup_filter; exact ND).
    apply (NoDup_incl_length ND2) in X. lia.
Qed.

Lemma laid_healthy E l : laid E l -> healthy E /\ forall E1 t, begin_write E = Some (E1, t) -> t_free_root t = 0 /\ t_last t + 1 < 2 ^ 64.
Proof.
  intros (LK & FO & MF & L1 & L2 & TR). split; [split; [exact LK|]|]; intros E1 t B; destruct (begin_fields _ _ _ B) as (-> & ->); [|auto].
  unfold two_trees. cbn [t_free_root set_root t_root]. rewrite MF. split; [|split].
  - split; [reflexivity|]. cbn [t_root t_last]. destruct TR as [(Z & _)|(h & Hh & Nz & T & BU & ND & PG & EK)]; [left; exact Z|right].
    exists h. splits; auto; [eapply tree_shape; exact T|]. eapply Forall_impl; [|exact PG]. cbn. lia.
  - split; [reflexivity|]. left. reflexivity.
  - intros q _ (X & _). congruence.
Qed.

(** the outcome of the transaction that deletes the keys [ks] *)
Lemma laid_outcome E l ks : laid E l -> Forall (fun e => blen (fst e) < 65536) l -> TreeSpec.reads E (reader E) (fun k => lookup k l) ->
  NoDup ks -> incl ks (map fst l) ->
  (N.of_nat (length l) <= 254 \/ m_last (live_meta E) <= 509 -> exists E', transact E (dels ks) = Ok E' /\
     forall k, blen k < 65536 -> read_now E' k = if in_dec key_dec k ks then Err NOTFOUND else read_now E k) /\
  (N.of_nat (length l) <= 4095 \/ m_last (live_meta E) <= 8191 -> 508 * 4078 < kcost l -> ks = map fst l -> transact E (dels ks) = Err ENOSPC).
Proof.
  intros LD BK RD NK IK. pose proof LD as (LK & FO & _). destruct (laid_healthy E l LD) as (HH & HB).
  pose proof (begun_is E LK) as B. destruct ks as [|k0 ks0].
  { split.
    - intros _. exists E. split; [|intros k _; destruct (in_dec key_dec k []) as [[]|]; reflexivity].
      unfold transact, dels. rewrite B. cbn [map do_ops]. pose proof (begin_fields _ _ _ B) as (_ & Et).
      unfold db_commit. rewrite Et. cbn [t_dirty]. destruct E as [f a b c d lk]. cbn in LK. subst lk. reflexivity.
    - intros _ KC EQ. destruct l; [cbn in KC; lia|discriminate]. }
  set (ks := k0 :: ks0) in *. assert (NE : ks <> []) by (unfold ks; discriminate).
  destruct (laid_dels E l ks LD BK NK IK NE) as (t' & _ & DO & R1 & R2 & R3 & R4 & R5 & R6 & R7 & R8 & R9 & R10).
  pose proof (commit_first (set_locked E true) t' R1 R2 R3 R4 R5 R6 R7) as CF.
  assert (TR : transact E (dels ks) = match db_commit (set_locked E true) t' None with (E2, Ok _) => Ok E2 | (_, Err e) => Err e | (_, UB) => UB | (_, Fuel) => Fuel end).
  { unfold transact. rewrite B, DO. reflexivity. }
  split.
  - intros SM. specialize (CF ltac:(lia)). destruct (N.leb_spec (N.of_nat (length (t_freed t'))) 508); [|lia]. destruct CF as (E' & CF). rewrite CF in TR. exists E'. split; [exact TR|].
    assert (FK : Forall (fun k => blen k < 65536) ks).
    { apply Forall_forall. intros k Hk. apply IK in Hk. apply in_map_iff in Hk. destruct Hk as (e & <- & He). rewrite Forall_forall in BK. auto. }
    destruct (transact_fits E E' (dels ks) (fun k => lookup k l) HH FO) as (_ & _ & RD'); auto.
    + intros E1 t B1. rewrite B in B1. injection B1 as <- <-. split; [|split].
      * unfold dels. clear - FK. generalize (begun E). induction FK as [|k ks Hk FK IH]; intro t; cbn [map fit_ops]; [exact I|]. split; [exact Hk|]. auto.
      * apply (HB _ _ B).
      * intros t2 D2. rewrite DO in D2. injection D2 as <-. split; [right; left; exact R2|lia].
    + intros k Hk. unfold read_now. rewrite (RD' k Hk), (RD k Hk). unfold dels. rewrite dels_map. destruct (in_dec key_dec k ks); reflexivity.
  - intros HN KC EQ. specialize (R10 EQ). specialize (CF ltac:(lia)). destruct (N.leb_spec (N.of_nat (length (t_freed t'))) 508); [lia|]. rewrite CF in TR. exact TR.
Qed.

(** * C145 *)

(** A commit that succeeds has freed at most 508 pages. *)
Theorem commit_frees_few : forall puts s h t E', life puts s -> wget (y_writers s) h = Some t -> t_dirty t <> [] ->
  db_commit (y_env s) t None = (E', Ok tt) -> m_last (live_meta E') < 2 ^ 64 ->
  N.of_nat (length (t_freed t)) <= 508.
Proof.
  intros puts s h t E' HL G ND C HM.
  pose proof (life_inv (fun _ _ => True) (fun _ _ _ => I) puts s HL (fun _ _ _ => I)) as [F W _].
  destruct (W _ _ (PropPair.wget_in _ _ _ G)) as [Ro O].
  assert (FO : file_ok (e_file (y_env s))). { intro q. destruct (F q) as [X|([X _] & Y)]; auto. }
  assert (D : DI t). { intro L. apply (own_dirty_ok (fun _ _ => True)). auto. }
  destruct (published _ _ _ C ND) as (fr & t1 & P & PB). eapply populate_fits; eauto.
  unfold db_commit in C. destruct (t_dirty t) as [|d0 dl]; [congruence|]. rewrite P in C. destruct (over_meta t1); [discriminate|]. cbv zeta in C. injection C as C.
  destruct (N.ltb_spec (t_last t1) (2 ^ 64)) as [|Hge]; [assumption|exfalso].
  assert (LM : m_last (live_meta E') = t_last t1); [|lia]. rewrite <- C. clear.
  unfold commit_ios. rewrite fold_left_app. unfold live_meta. cbn [e_live1 e_meta0 e_meta1].
  cbn [fold_left io_apply]. destruct (e_live1 (y_env s)); reflexivity.
Qed.
Print Assumptions commit_frees_few.

(** After a load, any set of keys can be deleted in one transaction if the file has at most 509
    pages, or if there are at most 254 pairs.  Missing for the full claim: more pages (see below),
    and databases whose list of freed pages is not empty (C21). *)
Theorem delete_any_number_partial : forall E l ka kb sa sb ks,
  blank_db E (length l) -> N.of_nat (length l) < 2 ^ 32 -> StronglySorted klt (map fst l) -> even_sizes ka kb sa sb l ->
  NoDup ks -> incl ks (map fst l) ->
  exists E', transact E (puts l) = Ok E' /\
    (N.of_nat (length l) <= 254 \/ m_last (live_meta E') <= 509 ->
       exists E2, transact E' (map Del ks) = Ok E2 /\
         forall k, blen k < 65536 -> read_now E2 k = if in_dec key_dec k ks then Err NOTFOUND else read_now E' k).
Proof.
  intros E l ka kb sa sb ks HB HN HS SZ NK IK. destruct (loaded E l ka kb sa sb HB HN HS SZ) as (E' & TR & _ & (_ & BK & _) & LD).
  destruct (bulk_load E l ka kb sa sb HB HN HS SZ) as (E2 & TR2 & RD). rewrite TR in TR2. injection TR2 as <-.
  exists E'. split; [exact TR|]. apply (laid_outcome E' l ks LD BK RD NK IK).
Qed.
Print Assumptions delete_any_number_partial.

(** With more than 508 leaves, the transaction that deletes everything is refused at the end:
    all pairs stay.  (From 8192 pages on, the size of the list of freed pages is cut to 16 bits.)
    [kcost l] is the room the pairs take in leaves. *)
Theorem delete_all_refused : forall E l ka kb sa sb,
  blank_db E (length l) -> N.of_nat (length l) < 2 ^ 32 -> StronglySorted klt (map fst l) -> even_sizes ka kb sa sb l ->
  508 * 4078 < kcost l ->
  exists E', transact E (puts l) = Ok E' /\
    (N.of_nat (length l) <= 4095 \/ m_last (live_meta E') <= 8191 -> transact E' (map Del (map fst l)) = Err ENOSPC).
Proof.
  intros E l ka kb sa sb HB HN HS SZ KC. destruct (loaded E l ka kb sa sb HB HN HS SZ) as (E' & TR & _ & (_ & BK & _) & LD).
  destruct (bulk_load E l ka kb sa sb HB HN HS SZ) as (E2 & TR2 & RD). rewrite TR in TR2. injection TR2 as <-.
  exists E'. split; [exact TR|]. intro SM. apply (laid_outcome E' l (map fst l) LD BK RD); auto; [|apply incl_refl].
  clear - HS. induction HS as [|k ks HS IH F]; constructor; auto. intro X. rewrite Forall_forall in F. exact (klt_irrefl _ (F _ X)).
Qed.
Print Assumptions delete_all_refused.

(** ** Cases *)
(** pairs of 1902 bytes *)
Definition pile (n : nat) : list (bytes * bytes) := map (fun i => (digits i, fill 1900 1)) (seq 0 n).
Fixpoint rising (l : list bytes) : bool := match l with x :: (y :: _) as r => kltb x y && rising r | _ => true end.
Lemma rising_sorted l : rising l = true -> StronglySorted klt l.
Proof.
  intro H. apply Sorted_StronglySorted; [intros x y z; apply klt_trans|].
  induction l as [|x [|y r] IH]; [constructor|repeat constructor|]. cbn [rising] in H. apply andb_prop in H. destruct H as (A & Bq). constructor; [apply IH; exact Bq|].
  constructor. apply kltb_spec. exact A.
Qed.
Lemma pile_load n : N.of_nat n < 4000 -> rising (map digits (seq 0 n)) = true ->
  blank_db env_create (length (pile n)) /\ N.of_nat (length (pile n)) < 4000 /\ StronglySorted klt (map fst (pile n)) /\
  even_sizes 2 2 1902 1902 (pile n) /\ kcost (pile n) = 1908 * N.of_nat n.
Proof.
  intros Hn HR. assert (L : length (pile n) = n) by (unfold pile; rewrite map_length, seq_length; reflexivity). rewrite L.
  split.
  { assert (M : m_last (live_meta env_create) = 1) by (vm_compute; reflexivity). unfold blank_db. rewrite M.
    split; [vm_compute; reflexivity|]. split; [intro q; left; split; reflexivity|]. split; [vm_compute; reflexivity|]. split; [vm_compute; reflexivity|].
    split; [lia|]. clear - Hn. lia. }
  split; [exact Hn|]. split; [apply rising_sorted; unfold pile; rewrite map_map; exact HR|]. split.
  { split; [apply balanced_same; lia|]. split; [apply balanced_same; lia|]. split; [lia|].
    apply Forall_forall. intros e He. apply in_map_iff in He. destruct He as (i & <- & Hi). cbn [fst snd].
    unfold blen. unfold fill. rewrite !repeat_length. cbn [length digits]. lia. }
  unfold kcost, pile. rewrite map_map. rewrite (map_ext _ (fun _ => 1908)).
  - clear. generalize 0%nat. induction n as [|n IH]; intro a; [reflexivity|]. cbn [seq map]. change (sumN (1908 :: map (fun _ => 1908) (seq (S a) n))) with (1908 + sumN (map (fun _ => 1908) (seq (S a) n))). rewrite IH. lia.
  - intro i. cbn [fst snd]. unfold leaf_size, LEAF_BASE, blen, fill. rewrite repeat_length. reflexivity.
Qed.

Lemma pile_stays n : 1100 <= N.of_nat n < 4000 -> rising (map digits (seq 0 n)) = true ->
  exists E', transact env_create (puts (pile n)) = Ok E' /\ transact E' (map Del (map fst (pile n))) = Err ENOSPC.
Proof.
  intros Hn HR. destruct (pile_load n) as (A & B & C & D & F); [lia|exact HR|].
  destruct (delete_all_refused _ _ _ _ _ _ A ltac:(lia) C D) as (E' & TR & H); [rewrite F; lia|]. exists E'. split; [exact TR|]. apply H. left. lia.
Qed.
Lemma pile_goes n : (0 < n)%nat -> N.of_nat n <= 254 -> rising (map digits (seq 0 n)) = true ->
  exists E' E2, transact env_create (puts (pile n)) = Ok E' /\ transact E' (map Del (map fst (pile n))) = Ok E2 /\
    read_now E' [0; 0] = Ok (fill 1900 1) /\ read_now E2 [0; 0] = Err NOTFOUND.
Proof.
  intros Hp Hn HR. destruct (pile_load n) as (A & B & C & D & _); [lia|exact HR|].
  assert (ND : NoDup (map fst (pile n))).
  { clear - C. induction C as [|k ks HS IH F]; constructor; auto. intro X. rewrite Forall_forall in F. exact (klt_irrefl _ (F _ X)). }
  destruct (bulk_load env_create _ _ _ _ _ A ltac:(lia) C D) as (E' & TR & RD).
  destruct (delete_any_number_partial _ _ _ _ _ _ _ A ltac:(lia) C D ND (incl_refl _)) as (E1 & TR1 & H). rewrite TR in TR1. injection TR1 as <-.
  destruct H as (E2 & T2 & R2); [left; unfold pile; rewrite map_length, seq_length; exact Hn|]. exists E', E2. split; [exact TR|]. split; [exact T2|].
  destruct n as [|n]; [lia|]. split.
  - rewrite RD by reflexivity. unfold pile. cbn [seq map lookup]. destruct (key_dec [0; 0] (digits 0)) as [|X]; [reflexivity|]. exfalso. apply X. reflexivity.
  - rewrite R2 by reflexivity. destruct (in_dec key_dec [0; 0] (map fst (pile (S n)))) as [|X]; [reflexivity|].
    exfalso. apply X. unfold pile. cbn [seq map fst]. left. reflexivity.
Qed.

(** 1100 such pairs can be stored, but not deleted in one transaction *)
Theorem delete_any_number_refuted : exists n E', transact env_create (puts (pile n)) = Ok E' /\ transact E' (map Del (map fst (pile n))) = Err ENOSPC.
Proof. exists 1100%nat. apply pile_stays; [lia|vm_compute; reflexivity]. Qed.
Print Assumptions delete_any_number_refuted.

(** 250 can *)
Example delete_case : exists E' E2, transact env_create (puts (pile 250)) = Ok E' /\ transact E' (map Del (map fst (pile 250))) = Ok E2 /\
  read_now E' [0; 0] = Ok (fill 1900 1) /\ read_now E2 [0; 0] = Err NOTFOUND.
Proof. apply pile_goes; [lia|lia|vm_compute; reflexivity]. Qed.

(** a commit that frees two pages *)
Example frees_case : exists s t E', life (rev (flat_map asked (calls_local ++ [DelA 0 [4] None]))) s /\ wget (y_writers s) 0 = Some t /\
  length (t_freed t) = 2%nat /\ t_dirty t <> [] /\ db_commit (y_env s) t None = (E', Ok tt) /\ m_last (live_meta E') < 2 ^ 64.
Proof.
  destruct (writing_is (calls_local ++ [DelA 0 [4] None]) (fun E t => Nat.eqb (length (t_freed t)) 2 && Nat.ltb 0 (length (t_dirty t)) &&
     match db_commit E t None with (E', Ok tt) => m_last (live_meta E') <? 2 ^ 64 | _ => false end)) as (s & t & A & B & C & D); [vm_compute; reflexivity|].
  apply andb_prop in D. destruct D as (D & D3). apply andb_prop in D. destruct D as (D1 & D2).
  destruct (db_commit (y_env s) t None) as [E' [[]|e| |]] eqn:DC; try discriminate. exists s, t, E'. apply Nat.eqb_eq in D1.
  split; [exact A|]. split; [exact B|]. split; [exact D1|]. split; [|split; [exact DC|apply N.ltb_lt; exact D3]]. intro X. rewrite X in D2. discriminate.
Qed.
