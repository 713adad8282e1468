(** Properties C90 and C129: a page taken from the Free DB is struck off its list, no page
    is handed out twice, and the other free pages stay available. *)
From Verif Require Import Util PageModel PageSpec PageProofs PageOps TxnModel CursorModel TreeModel TreeSpec PropPage TreeProofs TreeOps TreeSplit TreePut TreeShape TxnInv DbModel SysModel DbSpec DbProofs CursorSpec CursorProofs DbCommit PropTree PropCursor PropCommit PropReuse FreeLeaf.
Local Open Scope N_scope.

(** ** Specification *)
(** the Free DB lists page [x] under transaction key [k] *)
Definition listed (E : env) (t : txn) (k : bytes) (x : N) : Prop :=
  exists l, Forall (fun n => n < 2 ^ 64) l /\ db_get E (free_view t) k = Ok (enc_pgnos l) /\ In x l.
(** every entry of the Free DB is an array of page numbers of the file under an 8 byte
    key, and no page number occurs twice in it *)
Definition lists_once (E : env) (t : txn) : Prop :=
  (forall k d, blen k < 65536 -> db_get E (free_view t) k = Ok d ->
     blen k = 8 /\ exists l, d = enc_pgnos l /\ NoDup l /\ Forall (fun x => x <= t_last t /\ x < 2 ^ 64) l) /\
  (forall k k' x, blen k < 65536 -> blen k' < 65536 -> listed E t k x -> listed E t k' x -> k = k').
(** there is no Free DB, or it is a single leaf page, made of bytes *)
Definition one_leaf_free (E : env) (t : txn) : Prop :=
  t_free_root t = 0 \/
  (is_leaf (get_page E t (t_free_root t)) = true /\ forall i, i < PAGE_SIZE -> get_page E t (t_free_root t) i < 256).
(** transaction numbers have not reached 2^32 *)
Definition young (E : env) (t : txn) : Prop := forall b, horizon E t b -> b <= 2 ^ 32.
(** the transaction has not changed a page of the Free DB, or no entry has more than one page *)
Definition strikable (E : env) (t : txn) : Prop :=
  (forall q, in_tree (get_page E t) (t_free_root t) q -> dget (t_dirty t) q = None) \/
  (forall k d, blen k < 65536 -> db_get E (free_view t) k = Ok d -> blen d = 8).

(** ** The page on which the scan stops belongs to the tree *)
Section Place.
Variables (E : env) (t : txn) (P : N -> Prop).
Fixpoint zT (h : nat) (st : list (page * N)) : Prop :=
  match st with
  | [] => True
  | (p, _) :: r => wf_page false p /\ zT (S h) r /\
      Forall (fun e => shape (get_page E t) h (snd e) /\ Forall P (tree_pages (get_page E t) h (snd e))) (branch_entries p)
  end.
Definition stands (c : cursor) : Prop := exists q i r, c_stack c = (get_page E t q, i) :: r /\ P q /\ (length r < 32)%nat /\ zT 0 r.

Lemma kids_on h pg : shape (get_page E t) (S h) pg -> Forall P (tree_pages (get_page E t) (S h) pg) ->
  P pg /\ Forall (fun e => shape (get_page E t) h (snd e) /\ Forall P (tree_pages (get_page E t) h (snd e))) (branch_entries (get_page E t pg)).
Proof.
  intros (_ & _ & _ & _ & F) H. cbn [tree_pages] in H. inversion H as [|? ? A B]; subst. split; [exact A|]. rewrite Forall_forall in *.
  intros e He. split; [auto|]. rewrite Forall_forall. intros q Hq. apply B. apply in_flat_map. eauto.
Qed.
Lemma child_on h p i c : wf_page false p -> i < pg_nkeys p -> child_at p i = Ok c ->
  Forall (fun e => shape (get_page E t) h (snd e) /\ Forall P (tree_pages (get_page E t) h (snd e))) (branch_entries p) ->
  shape (get_page E t) h c /\ Forall P (tree_pages (get_page E t) h c).
Proof.
  intros W Hi C F. pose proof (branch_entries_length p) as Q. destruct (nth_ex (branch_entries p) (N.to_nat i) ltac:(lia)) as ((k0, c0) & X0).
  rewrite (child_at_ok _ _ k0 c0 W X0) in C. injection C as <-. rewrite Forall_forall in F. apply nth_error_In in X0. exact (F _ X0).
Qed.
Lemma first_child h pg : shape (get_page E t) (S h) pg -> 0 < pg_nkeys (get_page E t pg).
Proof.
  intros (_ & _ & _ & Ne & _). pose proof (branch_entries_length (get_page E t pg)) as Q. destruct (branch_entries (get_page E t pg)); [congruence|].
  cbn [length] in Q. lia.
Qed.
Lemma seek_down_on : forall h pg st fuel c, shape (get_page E t) h pg -> Forall P (tree_pages (get_page E t) h pg) -> zT h st ->
  (length st + h < 32)%nat -> seek_down fuel E t FIRST pg st = COk tt c -> stands c.
Proof.
  induction h as [|h IH]; intros pg st [|f] c S F Z L H; cbn [seek_down] in H; try discriminate.
  - cbn [shape] in S. destruct S as (_ & W & _). rewrite (wf_is_leaf true _ W), push_ok in H by lia. injection H as <-.
    inversion F; subst. exists pg, 0, st. splits; auto. lia.
  - pose proof S as (_ & W & _). rewrite (wf_is_leaf false _ W) in H. destruct (negb _); [discriminate|].
    cbn [seek_index] in H. destruct (child_at _ 0) as [ch|e| |] eqn:C; try discriminate. rewrite push_ok in H by lia. destruct (kids_on h pg S F) as (Pp & K).
    destruct (child_on h _ 0 ch W (first_child h pg S) C K) as (Sc & Fc). eapply IH; [exact Sc|exact Fc| | |exact H].
    + cbn [zT]. auto.
    + cbn [length]. lia.
Qed.
Lemma descend_on : forall h pg st fuel c, shape (get_page E t) h pg -> Forall P (tree_pages (get_page E t) h pg) -> zT h st ->
  (length st + h < 32)%nat -> descend_left fuel E t pg st = COk tt c -> stands c.
Proof.
  induction h as [|h IH]; intros pg st [|f] c S F Z L H; cbn [descend_left] in H; try discriminate.
  - cbn [shape] in S. destruct S as (_ & W & _). rewrite (wf_is_leaf true _ W), push_ok in H by lia. destruct (_ =? 0); [discriminate|].
    injection H as <-. inversion F; subst. exists pg, 0, st. splits; auto. lia.
  - pose proof S as (_ & W & _). rewrite (wf_is_leaf false _ W), push_ok in H by lia.
    destruct (child_at _ 0) as [ch|e| |] eqn:C; try discriminate. destruct (kids_on h pg S F) as (Pp & K).
    destruct (child_on h _ 0 ch W (first_child h pg S) C K) as (Sc & Fc). eapply IH; [exact Sc|exact Fc| | |exact H].
    + cbn [zT]. auto.
    + cbn [length]. lia.
Qed.
Lemma ascend_on : forall st h c, zT h st -> (length st + h < 32)%nat -> ascend_next E t st = COk tt c -> stands c.
Proof.
  induction st as [|(p, i) st IH]; intros h c Z L H; cbn [ascend_next] in H; [discriminate|]. cbn [zT length] in Z, L. destruct Z as (W & Z & F).
  destruct (N.ltb_spec (u16 (i + 1)) (pg_nkeys p)) as [Hi|Hi].
  - destruct (child_at p (u16 (i + 1))) as [ch|e| |] eqn:C; try discriminate. destruct (child_on h _ _ ch W Hi C F) as (Sc & Fc).
    eapply descend_on; [exact Sc|exact Fc| | |exact H]; cbn [zT length]; auto.
  - eapply IH; [exact Z| |exact H]. lia.
Qed.
Lemma fetch_same c kv c' : cursor_fetch c = COk kv c' -> c' = c.
Proof.
  unfold cursor_fetch. destruct (c_stack c) as [|(p, i) r]; [discriminate|]. destruct (c_eof c); [discriminate|]. destruct (_ <=? i); [discriminate|].
  destruct (leaf_value p i); try discriminate. congruence.
Qed.
Lemma next_on c kv c' : stands c -> cursor_get E t c NEXT = COk kv c' -> stands c'.
Proof.
  intros (q & i & r & Ec & Pq & L & Z) H. unfold cursor_get, cursor_next in H. rewrite Ec in H. destruct (c_eof c); [discriminate|].
  destruct (_ <? _); [apply fetch_same in H; subst c'; exists q, (u16 (i + 1)), r; auto|].
  destruct r as [|x r]; [discriminate|]. destruct (ascend_next E t (x :: r)) as [[] c1|? ?| |] eqn:A; try discriminate.
  apply fetch_same in H. subst c'. eapply (ascend_on (x :: r) 0); eauto. lia.
Qed.
Lemma first_on h kv c : (h < 32)%nat -> shape (get_page E t) h (t_root t) -> Forall P (tree_pages (get_page E t) h (t_root t)) ->
  cursor_get E t cursor_open FIRST = COk kv c -> stands c.
Proof.
  intros Hh S F H. unfold cursor_get, cursor_seek in H. destruct (t_root t =? 0); [discriminate|].
  destruct (seek_down FIND_FUEL E t FIRST (t_root t) []) as [[] c1|? ?| |] eqn:D; try discriminate.
  apply (seek_down_on h) in D; auto; [|exact I]. destruct D as (q & i & r & Ec & Pq & L & Z). unfold seek_leaf in H. rewrite Ec in H.
  destruct (_ =? 0); [discriminate|]. apply fetch_same in H. subst c. exists q, 0, r. auto.
Qed.
Lemma scan_on b : forall fuel r k d c1, (forall kv c, r = COk kv c -> stands c) -> reclaim_scan fuel E t b r = Ok (k, d, c1) -> stands c1.
Proof.
  induction fuel as [|f IH]; intros r k d c1 S H; cbn [reclaim_scan] in H; [discriminate|]. destruct r as [(k1, d1) c|e c| |]; try discriminate.
  pose proof (S _ _ eq_refl) as Sc. destruct (_ && _); [injection H as _ _ <-; exact Sc|]. eapply IH; [|exact H]. intros kv c' X. eapply next_on; eauto.
Qed.
End Place.

(** ** Deleting leaves room *)
Lemma del_room E t k v0 : blen k < 65536 -> shaped E t -> db_get E t k = Ok v0 ->
  exists t', db_del E t k None = Ret tt t' /\ same_ctl t t' /\ shaped E t' /\ one_leaf E t t' /\
    leaf_size k v0 < 65536 /\ t_root t <> 0 /\
    (forall v, leaf_size k v <= leaf_size k v0 -> fits E t' k v) /\
    forall k', blen k' < 65536 -> db_get E t' k' = if key_dec k' k then Err NOTFOUND else db_get E t k'.
Proof.
  intros Hk Sh G. pose proof Sh as (Hr & [H0|(h & Hh & Hnz & S & ND & PG)]).
  { unfold db_get in G. rewrite H0 in G. discriminate. }
  pose proof (db_del_shape E t k None Hk Sh) as D. rewrite G in D.
  destruct D as (t' & ED & SC & S' & OL & GG). exists t'. split; [exact ED|]. split; [exact SC|]. split; [exact S'|]. split; [exact OL|].
  rewrite (get_shape E t k h) in G by (auto; lia).
  unfold db_del in ED. rewrite Hr in ED. destruct (N.eqb_spec (t_root t) 0) as [|_]; [tauto|].
  destruct (shape_find E t k Hk h _ S) as [(path & R & EL & FP) _].
  rewrite FP in ED; [|unfold MAX_TREE_DEPTH; lia|unfold max_pgno; rewrite Hr; rewrite Forall_forall in PG; auto].
  cbn [lift bindo] in ED. destruct (shape_leaf _ k h _ S) as (Hl & Wl & Sl). rewrite EL in Hl, Wl, Sl, G.
  set (lpg := leaf_of path) in *. set (V := get_page E t) in *.
  pose proof Sl as Sl'. rewrite <- leaf_entries_keys in Sl'.
  destruct (entries_split k (leaf_entries (V lpg)) Sl') as [(e1 & v1 & e2 & EE & F1 & F2)|(e1 & e2 & EE & F1 & F2)];
    [|rewrite EE, lookup_app, lookup_below, lookup_above in G by auto; discriminate].
  rewrite EE, lookup_mid in G by (rewrite <- lookup_in_iff, lookup_below by auto; tauto). injection G as ->.
  rewrite (leaf_search_found _ k v0 e1 e2) in ED by auto. cbn [bindo] in ED.
  destruct (cow_path_ok E (rev path) t Hr) as (t3 & EC & C3 & V3 & D3 & K3 & _).
  { intros q Hq. apply in_rev in Hq. eapply shape_pgno; eauto. eapply route_pages; eauto. }
  rewrite EC in ED. cbn [bindo] in ED.
  assert (Hin : In lpg (rev path)).
  { apply in_rev. rewrite rev_involutive. apply last_In. eapply route_nonempty; eauto. }
  rewrite (D3 _ Hin) in ED. fold V in ED.
  destruct (leaf_delete_ok _ k v0 e1 e2 Wl EE) as (p' & EP & W' & E' & P' & F'). rewrite EP in ED. cbn [lift bindo] in ED.
  assert (T' : t' = put_dirty t3 lpg p') by congruence. subst t'.
  assert (Hr3 : t_rdonly t3 = false) by (destruct C3; congruence).
  pose proof (wf_raw_cost true p' W') as WC. unfold PAGE_SIZE, HDR in WC.
  split; [unfold leaf_size in *; lia|]. split; [exact Hnz|]. split; [|exact GG].
  intros v Hv h' Sh'. destruct OL as (h1 & l1 & _ & O1 & O2 & _).
  pose proof SC as (_ & _ & CR & _). rewrite CR in Sh' |- *.
  pose proof (shape_height _ _ _ _ Sh' O2) as ->. pose proof (shape_height _ _ _ _ S O1) as <-.
  destruct (shape_update V (get_page E (put_dirty t3 lpg p')) h (t_root t) lpg S ND Hl Wl) as (_ & _ & L').
  { intros q _ Hq. rewrite get_put, V3 by auto. destruct (N.eqb_spec lpg q); [congruence|reflexivity]. }
  { rewrite get_put, N.eqb_refl by auto. rewrite P'. apply (shape_pgno V h (t_root t) S). auto. }
  { rewrite get_put, N.eqb_refl by auto. exact W'. }
  { rewrite get_put, N.eqb_refl by auto. rewrite <- leaf_entries_keys, E'. rewrite EE in Sl'. eapply sorted_drop; eauto. }
  rewrite L', EL, get_put, N.eqb_refl by auto. unfold leaf_avail. rewrite F'. lia.
Qed.

Lemma one_leaf_compose E t t1 t2 : t_root t1 = t_root t -> one_leaf E t t1 -> one_leaf E t1 t2 ->
  forall h, shape (get_page E t) h (t_root t) -> shape (get_page E t2) h (t_root t) /\
    forall q, ~ In q (tree_pages (get_page E t) h (t_root t)) -> get_page E t2 q = get_page E t q.
Proof.
  intros R (h1 & l1 & _ & A1 & B1 & C1 & D1 & F1) (h2 & l2 & _ & A2 & B2 & C2 & D2 & F2) h S. rewrite R in *.
  pose proof (shape_height _ _ _ _ S A1) as <-. pose proof (shape_height _ _ _ _ B1 A2) as <-. split; [exact B2|].
  intros q Hq. rewrite F2, F1; [reflexivity| |]; intros ->; apply Hq; [exact D1|rewrite <- C1; exact D2].
Qed.

(** the entry [k] with value [d] loses its first number *)
Lemma update_ok al E t k d pl : blen k = 8 -> shaped E t -> db_get E t k = Ok d -> blen d mod 8 = 0 -> 0 < blen d ->
  blen d = 8 \/ dget (t_dirty t) (fst pl) = None ->
  exists t', update_reclaimed (db_put_with al) E t k d pl = Ret tt t' /\ same_ctl t t' /\ shaped E t' /\
    (forall h, shape (get_page E t) h (t_root t) -> shape (get_page E t') h (t_root t) /\
       forall q, ~ In q (tree_pages (get_page E t) h (t_root t)) -> get_page E t' q = get_page E t q) /\
    forall k', blen k' < 65536 -> db_get E t' k' =
      if key_dec k' k then (if blen d =? 8 then Err NOTFOUND else Ok (skipn 8 d)) else db_get E t k'.
Proof.
  intros Hk Sh G M P Cl. destruct (del_room E t k d ltac:(lia) Sh G) as (t1 & ED & SC & S1 & OL & SZ & Nz & FT & GG).
  unfold update_reclaimed. assert (Q : blen d / 8 = 1 <-> blen d = 8).
  { pose proof (N.div_mod (blen d) 8 ltac:(lia)). split; intro; lia. }
  destruct (N.eqb_spec (blen d / 8) 1) as [Q1|Q1]; destruct (N.eqb_spec (blen d) 8) as [Q2|Q2]; try tauto.
  - exists t1. split; [exact ED|]. split; [exact SC|]. split; [exact S1|]. split; [|exact GG].
    destruct OL as (h1 & l1 & _ & A1 & B1 & C1 & D1 & F1). intros h S. pose proof (shape_height _ _ _ _ S A1) as <-.
    split; [exact B1|]. intros q Hq. apply F1. congruence.
  - destruct Cl as [Cl|Cl]; [tauto|]. rewrite ED. cbn [bindo]. rewrite Cl.
    assert (SL : leaf_size k (skipn 8 d) <= leaf_size k d).
    { unfold leaf_size, blen. rewrite skipn_length. lia. }
    pose proof SC as (C1 & C2 & C3 & C4 & C5).
    destruct (db_put_shape al E t1 k (skipn 8 d)) as [(_ & (v0 & X) & _)|(_ & t2 & EP & SC2 & S2 & OL2 & G2)].
    + lia.
    + exact S1.
    + rewrite C3. exact Nz.
    + apply FT. exact SL.
    + rewrite GG in X by lia. destruct (key_dec k k); congruence.
    + exists t2. split; [exact EP|]. split; [eapply same_ctl_trans; eauto|]. split; [exact S2|]. split.
      * eapply one_leaf_compose; eauto.
      * intros k' Hk'. rewrite G2, GG by auto. destruct (key_dec k' k); reflexivity.
Qed.

(** what the scan of the Free DB finds is one of its entries *)
Lemma scan_found E t b k d c1 : scannable E (free_view t) -> t_free_root t <> 0 ->
  reclaim_scan SCAN_FUEL E (free_view t) b (cursor_get E (free_view t) cursor_open FIRST) = Ok (k, d, c1) ->
  reclaimable b (k, d) /\ db_get E (free_view t) k = Ok d.
Proof.
  intros SC Nz RS. destruct SC as [Z|(h & Hh & _ & T & HN)]; [cbn in Z; congruence|]. assert (Nz' : t_root (free_view t) <> 0) by exact Nz.
  pose proof (tree_shape _ _ _ _ _ _ T) as S.
  assert (C : no_empty_leaf (get_page E (free_view t)) h (t_root (free_view t)) \/ (h = 0%nat /\ leaf_entries (get_page E (free_view t) (t_root (free_view t))) = [])).
  { destruct HN as [->|]; auto. cbn [no_empty_leaf]. destruct (leaf_entries (get_page E (free_view t) (t_root (free_view t)))); auto. left. discriminate. }
  unfold cursor_get in RS. destruct C as [N|(-> & L)].
  - destruct (seek_first_ok E (free_view t) h Nz' Hh S N) as (c & kv & post & Y & A & _ & EK). rewrite Y, (fetch_ok _ _ _ _ A) in RS.
    destruct (scan_some E (free_view t) b _ c kv post k d c1 A RS) as (I & Rc). split; [exact Rc|]. rewrite <- EK in I.
    destruct Rc as (R1 & _). cbn [fst] in R1.
    destruct (tree_bindings E (free_view t) h ltac:(lia) Nz' T) as (_ & _ & BB). apply BB; [lia|exact I].
  - destruct (root_leaf_empty E (free_view t) FIRST (or_introl eq_refl) Nz' S L) as (c & Y). rewrite Y in RS. unfold SCAN_FUEL in RS.
    destruct (N.to_nat 65536); discriminate.
Qed.
(** and the page it lies on belongs to the Free DB *)
Lemma scan_place E t b k d c1 : scannable E (free_view t) -> shaped E (free_view t) -> t_free_root t <> 0 -> strikable E t ->
  reclaim_scan SCAN_FUEL E (free_view t) b (cursor_get E (free_view t) cursor_open FIRST) = Ok (k, d, c1) ->
  blen d = 8 \/ dget (t_dirty (free_view t)) (fst (key_place c1)) = None.
Proof.
  intros SC SH Nz ST RS. destruct ST as [ST|ST].
  2:{ left. destruct (scan_found E t b k d c1 SC Nz RS) as ((K & _) & G). cbn [fst] in K. apply (ST k); [lia|exact G]. }
  right. destruct SH as (Hr & [Z|(h & Hh & _ & S & _)]); [cbn in Z; congruence|].
  assert (F : Forall (fun q => dget (t_dirty t) q = None /\ pg_pgno (get_page E t q) = q) (tree_pages (get_page E (free_view t)) h (t_root (free_view t)))).
  { rewrite Forall_forall. intros q Hq. split.
    - apply ST. split; [exact Nz|]. exists h. split; [exact S|exact Hq].
    - apply (shape_pgno _ _ _ S). exact Hq. }
  eapply (scan_on E (free_view t) _ b) in RS; [|intros kv c X; exact (first_on E (free_view t) _ h kv c Hh S F X)].
  destruct RS as (q & i & r & Ec & (P1 & P2) & _). unfold key_place. rewrite Ec. cbn [fst].
  change (get_page E (free_view t) q) with (get_page E t q). rewrite P2. exact P1.
Qed.

Lemma alloc_one E t pg t' : scannable E (free_view t) -> shaped E (free_view t) -> strikable E t ->
  db_page_alloc E t 1 = Ret pg t' ->
  t_root t' = t_root t /\ t_free_root t' = t_free_root t /\ t_rdonly t' = false /\ shaped E (free_view t') /\
  ((pg = t_last t + 1 /\ t_last t' = pg /\
    (forall q, get_page E t' q = get_page E t q) /\
    forall k, db_get E (free_view t') k = db_get E (free_view t) k) \/
   exists k d, blen k = 8 /\ db_get E (free_view t) k = Ok d /\ 8 <= blen d /\
     pg = le_val (firstn 8 d) mod 2 ^ 64 /\ t_last t' = t_last t /\
     (forall q, ~ in_tree (get_page E t) (t_free_root t) q -> get_page E t' q = get_page E t q) /\
     forall k', blen k' < 65536 -> db_get E (free_view t') k' =
       if key_dec k' k then (if blen d =? 8 then Err NOTFOUND else Ok (skipn 8 d)) else db_get E (free_view t) k').
Proof.
  intros SC SH ST H. destruct (horizon_ex E t) as (b & Hb). assert (Hr : t_rdonly t = false) by exact (proj1 SH).
  unfold db_page_alloc, alloc_with in H. rewrite Hr in H. cbn [orb] in H. replace (1 =? 0) with false in H by reflexivity.
  replace (1 =? 1) with true in H by reflexivity. cbn [orb] in H. set (al := page_alloc) in *.
  assert (FR : Ret (t_last t + 1) (set_last t (t_last t + 1)) = Ret pg t' ->
     t_root t' = t_root t /\ t_free_root t' = t_free_root t /\ t_rdonly t' = false /\ shaped E (free_view t') /\
     pg = t_last t + 1 /\ t_last t' = pg /\ (forall q, get_page E t' q = get_page E t q) /\
     forall k, db_get E (free_view t') k = db_get E (free_view t) k).
  { intro Y. injection Y as <- <-. splits; auto.
    destruct SH as (_ & [Z|(h & A1 & A2 & A3 & A4 & A5)]); (split; [exact Hr|]); [left; exact Z|]. right. exists h.
    split; [exact A1|]. split; [exact A2|]. split; [exact A3|]. split; [exact A4|]. eapply Forall_impl; [|exact A5]. cbn beta. intros q Hq.
    cbn [free_view set_root set_last t_last] in *. lia. }
  unfold reclaim_with in H. destruct (N.eqb_spec (t_free_root t) 0) as [|Nz].
  { destruct (FR H) as (F1 & F2 & F3 & F4 & F5 & F6 & F7 & F8). splits; auto. }
  rewrite (horizon_oldest E t b Hb) in H. change (set_root t (t_free_root t)) with (free_view t) in H.
  destruct (reclaim_scan SCAN_FUEL E (free_view t) b (cursor_get E (free_view t) cursor_open FIRST)) as [((k, d), c1)|e| |] eqn:RS; try discriminate.
  - pose proof (scan_place E t b k d c1 SC SH Nz ST RS) as PL.
    destruct (scan_found E t b k d c1 SC Nz RS) as ((R1 & R2 & R3 & R4) & G). cbn [fst snd] in *.
    destruct (update_ok al E (free_view t) k d (key_place c1) R1 SH G R3 R4 PL) as (t2 & EU & (C1 & C2 & C3 & C4 & C5) & S2 & OL & GG).
    rewrite EU in H. injection H as <- <-.
    assert (FV : free_view (set_root t2 (t_root t)) = t2).
    { unfold free_view. destruct t2; cbn in *. subst. reflexivity. }
    split; [reflexivity|]. split; [exact C4|]. split; [cbn in C1 |- *; congruence|]. rewrite FV. split; [exact S2|].
    right.
    exists k, d. split; [exact R1|]. split; [exact G|]. split; [pose proof (N.div_mod (blen d) 8 ltac:(lia)); lia|].
    split; [reflexivity|]. split; [exact C5|]. split; [|exact GG].
    intros q Hq. destruct SH as (_ & [Z|(h & A1 & A2 & A3 & A4 & A5)]); [cbn in Z; congruence|].
    destruct (OL h A3) as (_ & O). change (get_page E (set_root t2 (t_root t)) q) with (get_page E t2 q).
    change (get_page E t q) with (get_page E (free_view t) q). apply O. intro I. apply Hq. split; [exact Nz|]. exists h. split; [exact A3|exact I].
  - destruct (FR H) as (F1 & F2 & F3 & F4 & F5 & F6 & F7 & F8). splits; auto.
Qed.

(** ** C90, one allocation *)
(** A page is either the next one after the end of the file, and then only the end moves,
    or the first number of an entry of the Free DB, and then exactly that number is
    removed from exactly that entry, and pages outside the Free DB do not change.
    Missing for the full claim: a transaction that has changed the Free DB before, see
    [reused_page_struck_off_refuted]. *)
Theorem reused_page_struck_off_partial : forall E t pg t', scannable E (free_view t) -> shaped E (free_view t) -> strikable E t ->
  db_page_alloc E t 1 = Ret pg t' ->
  t_root t' = t_root t /\ t_free_root t' = t_free_root t /\ t_rdonly t' = false /\ shaped E (free_view t') /\
  ((pg = t_last t + 1 /\ t_last t' = pg /\
    (forall q, get_page E t' q = get_page E t q) /\
    forall k, db_get E (free_view t') k = db_get E (free_view t) k) \/
   exists k d, blen k = 8 /\ db_get E (free_view t) k = Ok d /\ 8 <= blen d /\
     pg = le_val (firstn 8 d) mod 2 ^ 64 /\ t_last t' = t_last t /\
     (forall q, ~ in_tree (get_page E t) (t_free_root t) q -> get_page E t' q = get_page E t q) /\
     forall k', blen k' < 65536 -> db_get E (free_view t') k' =
       if key_dec k' k then (if blen d =? 8 then Err NOTFOUND else Ok (skipn 8 d)) else db_get E (free_view t) k').
Proof. exact alloc_one. Qed.
Print Assumptions reused_page_struck_off_partial.

(** ** C90, one transaction *)
Lemma lists_of (n : N) : forall kvs : list (bytes * bytes),
  Forall (fun kv => blen (fst kv) = 8 /\ exists l, snd kv = enc_pgnos l /\ NoDup l /\ Forall (fun x => x <= n /\ x < 2 ^ 64) l) kvs ->
  ksorted (map fst kvs) ->
  (forall k k' l l' x, In (k, enc_pgnos l) kvs -> In (k', enc_pgnos l') kvs -> Forall (fun y => y < 2 ^ 64) l -> Forall (fun y => y < 2 ^ 64) l' ->
     In x l -> In x l' -> k = k') ->
  exists es, kvs = map entry es /\ StronglySorted kpre (map fst es) /\ Forall (fun e => blen (fst e) = 8) es /\
    Forall (fun x => x <= n /\ x < 2 ^ 64) (flat_map snd es) /\ NoDup (flat_map snd es).
Proof.
  induction kvs as [|(k, d) kvs IH]; intros F S U.
  - exists []. split; [reflexivity|]. repeat constructor.
  - inversion F as [|? ? (K8 & l & Ed & ND & FL) F']; subst. cbn [map fst snd] in *. subst d. inversion S as [|? ? S1 S2]; subst.
    destruct IH as (es & -> & I1 & I2 & I3 & I4); auto.
    { intros k1 k2 l1 l2 x A B. apply (U k1 k2 l1 l2 x); right; assumption. }
    rewrite map_map in S2. cbn [entry fst] in S2. exists ((k, l) :: es). split; [reflexivity|]. cbn [map flat_map fst snd].
    assert (FL2 : Forall (fun y => y < 2 ^ 64) l) by (eapply Forall_impl; [|exact FL]; cbn beta; tauto).
    split; [|split; [|split]].
    + constructor; [exact I1|]. rewrite Forall_map in S2 |- *. rewrite Forall_forall in S2, I2 |- *. intros e He. apply klt_kpre; auto.
    + constructor; auto.
    + apply Forall_app. auto.
    + apply NoDup_app_intro; auto. intros x Hx Hy. apply in_flat_map in Hy. destruct Hy as ((k', l') & He & Hy). cbn [snd] in Hy.
      assert (k = k').
      { apply (U k k' l l' x); auto.
        - left. reflexivity.
        - right. apply (in_map entry) in He. exact He.
        - rewrite Forall_forall in I3 |- *. intros y Hyy. apply I3. apply in_flat_map. exists (k', l'). auto. }
      subst k'. rewrite Forall_map, Forall_forall in S2. specialize (S2 (k, l') He). cbn [fst] in S2. exact (klt_irrefl k S2).
Qed.

(** the pages in the Free DB *)
Definition pool (E : env) (t : txn) (L : list N) : Prop :=
  t_rdonly t = false /\ ((t_free_root t = 0 /\ L = []) \/ exists es, leaf_txn E t es /\ L = flat_map snd es).

Lemma leaf_free_shape E t : one_leaf_free E t -> shaped E (free_view t) -> t_free_root t <> 0 ->
  shape (get_page E t) 0 (t_free_root t) /\ t_free_root t <= t_last t.
Proof.
  intros [Z|(L & _)] (Hr & SH) Nz; [congruence|]. destruct SH as [Z|(h & Hh & _ & S & _ & PG)]; [cbn in Z; congruence|]. destruct h as [|h].
  - split; [exact S|]. cbn [tree_pages] in PG. pose proof (Forall_inv PG) as Q. cbn beta in Q. cbn [free_view set_root t_root t_last] in Q. lia.
  - exfalso. cbn [shape] in S. destruct S as (_ & S & _). apply wf_is_leaf in S.
    change (get_page E (free_view t) (t_root (free_view t))) with (get_page E t (t_free_root t)) in S. congruence.
Qed.
Lemma leaf_tree E t : shape (get_page E t) 0 (t_free_root t) -> tree false (get_page E (free_view t)) 0 (t_root (free_view t)) None None.
Proof.
  intros (S1 & S2 & S3). cbn [tree]. split; [exact S1|]. split; [exact S2|]. split; [exact S3|]. rewrite Forall_forall. intros k _. split; exact I.
Qed.
Lemma single_kvs E t : one_leaf_free E t -> shaped E (free_view t) -> t_free_root t <> 0 ->
  bindings E (free_view t) (leaf_entries (get_page E t (t_free_root t))).
Proof.
  intros OL SH Nz. destruct (leaf_free_shape E t OL SH Nz) as (S & _). exact (tree_bindings E (free_view t) 0 ltac:(lia) Nz (leaf_tree E t S)).
Qed.
Lemma start_pool E t : one_leaf_free E t -> shaped E (free_view t) -> lists_once E t ->
  exists L, pool E t L /\ forall x, In x L -> exists k, blen k = 8 /\ listed E t k x.
Proof.
  intros OL SH (W & U). assert (Hr : t_rdonly t = false) by exact (proj1 SH).
  destruct (N.eq_dec (t_free_root t) 0) as [Z|Nz]; [exists []; split; [split; [exact Hr|left; auto]|intros x []]|].
  destruct (leaf_free_shape E t OL SH Nz) as ((S1 & S2 & S3) & R2). destruct (single_kvs E t OL SH Nz) as (_ & _ & BB).
  set (p := get_page E t (t_free_root t)) in *. set (kvs := leaf_entries p) in *.
  assert (KL : forall kv, In kv kvs -> blen (fst kv) < 65536).
  { intros kv Hkv. unfold kvs, leaf_entries in Hkv. apply in_map_iff in Hkv. destruct Hkv as (o & <- & _). cbn [fst]. unfold node_key, blen, readn.
    rewrite map_length, seq_length, N2Nat.id. cbn [node_ksize]. apply get16_lt. }
  assert (GE : forall kv, In kv kvs -> db_get E (free_view t) (fst kv) = Ok (snd kv)).
  { intros (k, d) Hkv. apply BB; [apply (KL _ Hkv)|exact Hkv]. }
  destruct (lists_of (t_last t) kvs) as (es & EK & A1 & A2 & A3 & A4).
  - rewrite Forall_forall. intros kv Hkv. apply W; auto.
  - unfold kvs. rewrite leaf_entries_keys. exact S3.
  - intros k k' l l' x A B Fl Fl' I I'. apply (U k k' x); [apply (KL _ A)|apply (KL _ B)| |].
    + exists l. split; [exact Fl|]. split; [exact (GE _ A)|exact I].
    + exists l'. split; [exact Fl'|]. split; [exact (GE _ B)|exact I'].
  - exists (flat_map snd es). split.
    + split; [exact Hr|]. right. exists es. split; [|reflexivity]. split; [exact Hr|]. split; [exact Nz|]. split; [exact R2|]. fold p.
      constructor; auto. destruct OL as [Z|(_ & B)]; [congruence|]. exact B.
    + intros x Hx. apply in_flat_map in Hx. destruct Hx as ((k, l) & He & Hx). cbn [snd] in Hx. exists k. rewrite Forall_forall in A2, A3.
      split; [exact (A2 _ He)|]. exists l. split.
      * rewrite Forall_forall. intros y Hy. apply A3. apply in_flat_map. exists (k, l). auto.
      * split; [|exact Hx]. apply (GE (entry (k, l))). rewrite EK. apply in_map. exact He.
Qed.
Lemma listed_pool E t L k x : pool E t L -> blen k < 65536 -> listed E t k x -> In x L.
Proof.
  intros (Hr & PL) Hk (l & Fl & G & I). unfold db_get in G. destruct PL as [(Z & ->)|(es & (_ & Nz & R2 & F) & ->)].
  - cbn [free_view set_root t_root] in G. rewrite Z in G. discriminate.
  - cbn [free_view set_root t_root] in G. destruct (N.eqb_spec (t_free_root t) 0); [congruence|].
    set (p := get_page E t (t_free_root t)) in *.
    assert (FL : find_leaf FIND_FUEL E (free_view t) (t_free_root t) k = Ok p).
    { unfold FIND_FUEL. cbn [find_leaf]. change (get_page E (free_view t) (t_free_root t)) with p. rewrite (wf_is_leaf true p (fl_wf _ _ _ _ F)). reflexivity. }
    rewrite FL in G. cbn [bindr] in G. destruct (page_search_safe true p k (fl_wf _ _ _ _ F)) as (b & i & S & _ & _). rewrite S in G. cbn [bindr] in G.
    destruct b; [|discriminate]. destruct (leaf_search p k true i (fl_wf _ _ _ _ F) Hk S) as (e1 & e2 & EE & Ei & v & e3 & ->).
    assert (Hn : nth_error (leaf_entries p) (N.to_nat i) = Some (k, v)) by (rewrite EE, Ei, Nat2N.id; apply nth_error_mid).
    destruct (leaf_value_ok p i k v (fl_wf _ _ _ _ F) Hn) as (LV & _). rewrite LV in G. injection G as ->.
    rewrite (fl_ent _ _ _ _ F), nth_error_map in Hn. destruct (nth_error es (N.to_nat i)) as [(k0, l0)|] eqn:Hn1; [|discriminate]. cbn [option_map] in Hn.
    unfold entry in Hn. cbn [fst snd] in Hn. assert (Q : enc_pgnos l0 = enc_pgnos l) by congruence.
    pose proof (nth_error_In _ _ Hn1) as He. apply in_flat_map. exists (k0, l0). split; [exact He|]. cbn [snd].
    assert (l0 = l) as ->; [|exact I]. apply enc_inj; auto. pose proof (fl_pages _ _ _ _ F) as FP. rewrite Forall_forall in FP |- *.
    intros y Hy. apply FP. apply in_flat_map. exists (k0, l0). auto.
Qed.
Lemma pool_step E t L pg t' : young E t -> pool E t L -> db_page_alloc E t 1 = Ret pg t' ->
  exists L', pool E t' L' /\ young E t' /\ t_last t <= t_last t' /\ pg <= t_last t' /\
    (pg = t_last t + 1 \/ In pg L) /\ ~ In pg L' /\ incl L' L.
Proof.
  intros Y (Hr & PL) H. destruct PL as [(Z & ->)|(es & LT & ->)].
  - unfold db_page_alloc, alloc_with, reclaim_with in H. rewrite Hr, Z in H. cbn in H. injection H as <- <-. exists [].
    split; [split; [exact Hr|left; auto]|]. cbn [set_last t_last]. split; [exact Y|]. splits; auto; try lia. apply incl_refl.
  - destruct (horizon_ex E t) as (b & Hb). destruct (alloc_leaf E t b es pg t' Hb (Y b Hb) LT H) as (es' & L' & Id & A1 & A2 & A3 & A4 & A5).
    exists (flat_map snd es'). split; [split; [exact (proj1 L')|right; eauto]|]. splits; auto.
    intros b' Hb'. apply Y. unfold horizon in *. rewrite <- Id. exact Hb'.
Qed.

(** In a transaction whose Free DB lists no page twice, successive allocations of one
    page hand out different pages, each fresh or listed at the start, and none of them is
    listed afterwards.  Missing for the full claim: the Free DB may list a page twice, see
    [no_page_twice_refuted]; and a Free DB of more than one leaf, in which an emptied leaf
    stops the scan. *)
Theorem no_page_twice_partial : forall E n t pgs t', one_leaf_free E t -> shaped E (free_view t) -> lists_once E t -> young E t ->
  alloc_all E t (repeat 1 n) = Ret pgs t' ->
  NoDup pgs /\ length pgs = n /\
  (forall pg, In pg pgs -> t_last t < pg \/ exists k, blen k = 8 /\ listed E t k pg) /\
  (forall pg k, In pg pgs -> blen k < 65536 -> ~ listed E t' k pg).
Proof.
  intros E n t pgs t' OL SH LO YO H. destruct (start_pool E t OL SH LO) as (L & PL & LL).
  assert (X : NoDup pgs /\ length pgs = n /\ (forall pg, In pg pgs -> t_last t < pg \/ In pg L) /\
    exists L', pool E t' L' /\ incl L' L /\ (forall pg, In pg pgs -> ~ In pg L') /\ (forall x, In x L' -> x <= t_last t)).
  { assert (LB : forall x, In x L -> x <= t_last t).
    { destruct PL as (_ & [(_ & ->)|(es & (_ & _ & _ & F) & ->)]); [intros x []|]. pose proof (fl_pages _ _ _ _ F) as FP. rewrite Forall_forall in FP.
      intros x Hx. apply FP. exact Hx. }
    clear OL SH LO LL. revert t L pgs t' YO PL LB H. induction n as [|n IH]; intros t L pgs t' YO PL LB H; cbn [repeat alloc_all] in H.
    - injection H as <- <-. split; [constructor|]. split; [reflexivity|]. split; [intros p []|]. exists L. split; [exact PL|]. split; [apply incl_refl|]. split; [intros p []|exact LB].
    - destruct (db_page_alloc E t 1) as [pg t1|e t1| |] eqn:A; try discriminate. cbn [bindo] in H.
      destruct (alloc_all E t1 (repeat 1 n)) as [l t2|e t2| |] eqn:B; try discriminate. cbn [bindo] in H. injection H as <- <-.
      destruct (pool_step E t L pg t1 YO PL A) as (L1 & P1 & Y1 & M1 & M2 & C1 & C2 & C3).
      assert (LB1 : forall x, In x L1 -> x <= t_last t1) by (intros x Hx; apply C3, LB in Hx; lia).
      destruct (IH t1 L1 l t2 Y1 P1 LB1 B) as (I1 & I2 & I3 & L2 & I4 & I5 & I6 & I7). split; [|split; [|split]].
      + constructor; [|exact I1]. intro I. destruct (I3 pg I) as [Q|Q]; [lia|exact (C2 Q)].
      + cbn [length]. congruence.
      + intros p [<-|I]; [destruct C1; [left; lia|auto]|]. destruct (I3 p I) as [Q|Q]; [left; lia|right; apply C3; exact Q].
      + exists L2. split; [exact I4|]. split; [eapply incl_tran; eauto|]. split.
        * intros p [<-|I]; [intro Q; apply C2, I5; exact Q|apply I6; exact I].
        * intros x Hx. apply LB, C3, I5. exact Hx. }
  destruct X as (X1 & X2 & X3 & L' & X4 & X5 & X6 & _). split; [exact X1|]. split; [exact X2|]. split.
  - intros pg I. destruct (X3 pg I) as [Q|Q]; [left; exact Q|right; apply LL; exact Q].
  - intros pg k I Hk Q. apply (X6 pg I). eapply listed_pool; eauto.
Qed.
Print Assumptions no_page_twice_partial.

(** ** C129 *)
Lemma scan_finds E t b : forall fuel c kv post, ahead (get_page E t) c kv post -> (length post < fuel)%nat -> Exists (reclaimable b) (kv :: post) ->
  exists k d c1, reclaim_scan fuel E t b (COk kv c) = Ok (k, d, c1).
Proof.
  induction fuel as [|fuel IH]; intros c (k1, d1) post A L X; [lia|]. cbn [reclaim_scan]. destruct (_ && _) eqn:T; [eauto|].
  assert (X' : Exists (reclaimable b) post).
  { inversion X as [? ? R|]; subst; auto. apply test_ok in R. congruence. }
  pose proof (next_ok E t c _ _ A) as N. unfold cursor_get. destruct post as [|kv' post]; [inversion X'|].
  destruct N as (c' & Y & A' & _). rewrite Y, (fetch_ok _ _ _ _ A'). apply (IH c' kv' post A'); [cbn [length] in L; lia|exact X'].
Qed.
(** As long as the transaction has not changed the Free DB, or its entries have one page
    each: if an entry is older than every reader then an allocation succeeds, takes a
    listed page and leaves the end of the file, and every other listed page stays listed
    under the same key.
    Missing for the full claim: a transaction that has changed the Free DB before, see
    [free_page_taken_refuted]; and a Free DB with an empty leaf or with more than 65535
    entries (the bound of the model). *)
Theorem free_page_taken_partial : forall E t b l k d, scannable E (free_view t) -> shaped E (free_view t) -> strikable E t ->
  horizon E t b -> bindings E (free_view t) l -> N.of_nat (length l) < 65536 ->
  blen k = 8 -> le_val k < b -> db_get E (free_view t) k = Ok d -> blen d mod 8 = 0 -> 0 < blen d ->
  exists pg t' k0 d0, db_page_alloc E t 1 = Ret pg t' /\ t_last t' = t_last t /\
    blen k0 = 8 /\ db_get E (free_view t) k0 = Ok d0 /\ pg = le_val (firstn 8 d0) mod 2 ^ 64 /\
    forall k' x, blen k' < 65536 -> listed E t k' x -> (k' = k0 /\ x = pg) \/ listed E t' k' x.
Proof.
  intros E t b l k d SC SH ST Hb BI Hl K8 Kb G M Pd. assert (Hr : t_rdonly t = false) by exact (proj1 SH).
  assert (Nz : t_free_root t <> 0).
  { intro Z. unfold db_get in G. cbn [free_view set_root t_root] in G. rewrite Z in G. discriminate. }
  assert (AL : exists pg t', db_page_alloc E t 1 = Ret pg t' /\ t_last t' = t_last t).
  { unfold db_page_alloc, alloc_with. rewrite Hr. replace (1 =? 0) with false by reflexivity. replace (1 =? 1) with true by reflexivity. cbn [orb].
    set (al := page_alloc). unfold reclaim_with. destruct (N.eqb_spec (t_free_root t) 0) as [|_]; [congruence|].
    rewrite (horizon_oldest E t b Hb). change (set_root t (t_free_root t)) with (free_view t).
    assert (RS : exists k d c1, reclaim_scan SCAN_FUEL E (free_view t) b (cursor_get E (free_view t) cursor_open FIRST) = Ok (k, d, c1)).
    { pose proof SC as [Z|(h & Hh & _ & T & HN)]; [cbn in Z; congruence|]. assert (Nz' : t_root (free_view t) <> 0) by exact Nz.
      pose proof (tree_shape _ _ _ _ _ _ T) as S. pose proof (tree_bindings E (free_view t) h ltac:(lia) Nz' T) as BT.
      assert (Q : l = tree_kvs (get_page E (free_view t)) h (t_root (free_view t))) by (eapply bindings_unique; eauto).
      assert (I : In (k, d) l) by (apply (proj2 (proj2 BI)); [lia|exact G]).
      assert (N : no_empty_leaf (get_page E (free_view t)) h (t_root (free_view t))).
      { destruct HN as [->|N]; [|exact N]. cbn [no_empty_leaf]. rewrite Q in I. cbn [tree_kvs] in I. destruct (leaf_entries _); [destruct I|discriminate]. }
      destruct (seek_first_ok E (free_view t) h Nz' Hh S N) as (c & kv & post & Y & A & _ & EK).
      unfold cursor_get. rewrite Y, (fetch_ok _ _ _ _ A). apply (scan_finds E (free_view t) b _ c kv post A).
      - rewrite Q, EK in Hl. cbn [length] in Hl. unfold SCAN_FUEL. lia.
      - rewrite <- EK, <- Q. apply Exists_exists. exists (k, d). split; [exact I|]. unfold reclaimable. cbn [fst snd]. auto. }
    destruct RS as (k1 & d1 & c1 & RS). rewrite RS.
    pose proof (scan_place E t b k1 d1 c1 SC SH Nz ST RS) as PL.
    destruct (scan_found E t b k1 d1 c1 SC Nz RS) as ((R1 & R2 & R3 & R4) & G1). cbn [fst snd] in *.
    destruct (update_ok al E (free_view t) k1 d1 (key_place c1) R1 SH G1 R3 R4 PL) as (t2 & EU & (C1 & C2 & C3 & C4 & C5) & _).
    rewrite EU. eexists. eexists. split; [reflexivity|]. exact C5. }
  destruct AL as (pg & t' & AL & LA). destruct (alloc_one E t pg t' SC SH ST AL) as (_ & _ & _ & _ & [(Q1 & Q2 & _)|(k0 & d0 & B1 & B2 & B3 & B4 & B5 & _ & B7)]); [lia|].
  exists pg, t', k0, d0. splits; auto. intros k' x Hk' (l' & Fl & G' & I).
  destruct (key_dec k' k0) as [->|Ne].
  - rewrite B2 in G'. injection G' as ->. rewrite enc_len in B3. destruct l' as [|y l']; [destruct I|]. inversion Fl; subst.
    destruct I as [->|I]; [left; split; [reflexivity|symmetry; apply enc_head; assumption]|right].
    exists l'. split; [assumption|]. split; [|exact I]. rewrite B7 by auto. destruct (key_dec k0 k0); [|congruence].
    destruct (N.eqb_spec (blen (enc_pgnos (y :: l'))) 8) as [L8|_]; [|rewrite enc_tail; reflexivity].
    rewrite enc_len in L8. destruct l'; [destruct I|cbn [length] in L8; lia].
  - right. exists l'. split; [exact Fl|]. split; [|exact I]. rewrite B7 by auto. destruct (key_dec k' k0); [congruence|exact G'].
Qed.
Print Assumptions free_page_taken_partial.

(** ** The hypotheses are met *)
(** the database of the commit examples after one transaction more: its Free DB has one
    entry, listing the pages 2 and 4 *)
Definition E4 : env := get_env (history E3 (firstn 1 hist3)).
Definition T4 : txn := begun E4.
Lemma E4_healthy : healthy E4.
Proof.
  destruct early_case as (A & B & C). assert (H : history E3 (firstn 1 hist3) = Ok E4) by (apply ok_env; vm_compute; reflexivity).
  assert (F : fit_history E3 (firstn 1 hist3)) by (apply (fit_historyb_ok (firstn 1 hist3) E3 _ C B A); vm_compute; reflexivity).
  exact (proj1 (proj2 (history_is_map_partial (firstn 1 hist3) E3 E4 _ C B F H A))).
Qed.
Lemma free_shaped E : healthy E -> shaped E (free_view (begun E)).
Proof. intros H. pose proof (proj2 H _ _ (begun_is E (proj1 H))) as (_ & SH & _). exact SH. Qed.
Lemma rets_is (o : out (list N)) l : match o with Ret m _ => Some m | _ => None end = Some l -> o = Ret l (ret_txn o).
Proof. destruct o; try discriminate. intros [= ->]. reflexivity. Qed.
Lemma ret_is (o : out N) x : match o with Ret m _ => Some m | _ => None end = Some x -> o = Ret x (ret_txn o).
Proof. destruct o; try discriminate. intros [= ->]. reflexivity. Qed.
Lemma page_bytes (p : page) : forallb (fun i => p (N.of_nat i) <? 256) (seq 0 (N.to_nat PAGE_SIZE)) = true -> forall i, i < PAGE_SIZE -> p i < 256.
Proof.
  intros F i Hi. rewrite forallb_forall in F. rewrite <- (N2Nat.id i). apply N.ltb_lt. apply F. apply in_seq. lia.
Qed.
Lemma T4_leaf : one_leaf_free E4 T4.
Proof. right. split; [vm_compute; reflexivity|]. apply page_bytes. vm_compute. reflexivity. Qed.
Lemma T4_entries : bindings E4 (free_view T4) [([3; 0; 0; 0; 0; 0; 0; 0], enc_pgnos [2; 4])].
Proof.
  assert (Nz : (t_free_root T4 =? 0) = false) by (vm_compute; reflexivity). apply N.eqb_neq in Nz.
  assert (V : leaf_entries (get_page E4 T4 (t_free_root T4)) = [([3; 0; 0; 0; 0; 0; 0; 0], enc_pgnos [2; 4])]) by (vm_compute; reflexivity).
  rewrite <- V. apply single_kvs; [exact T4_leaf|apply free_shaped; exact E4_healthy|exact Nz].
Qed.
Lemma T4_young : young E4 T4.
Proof. intros b Hb. rewrite <- (horizon_oldest _ _ _ Hb). vm_compute. discriminate. Qed.
Example no_page_twice_case : one_leaf_free E4 T4 /\ shaped E4 (free_view T4) /\ lists_once E4 T4 /\ young E4 T4 /\
  exists t', alloc_all E4 T4 (repeat 1 3) = Ret [2; 4; 6] t'.
Proof.
  split; [exact T4_leaf|]. split; [apply free_shaped; exact E4_healthy|]. split; [|split; [exact T4_young|]].
  - assert (X : forall k d, blen k < 65536 -> db_get E4 (free_view T4) k = Ok d -> k = [3; 0; 0; 0; 0; 0; 0; 0] /\ d = enc_pgnos [2; 4]).
    { intros k d Hk G. destruct T4_entries as (_ & _ & BB). apply (BB k d Hk) in G. destruct G as [G|[]]. injection G as <- <-. auto. }
    split.
    + intros k d Hk G. destruct (X k d Hk G) as (-> & ->). split; [reflexivity|]. exists [2; 4]. split; [reflexivity|]. split.
      * repeat constructor; cbn; intuition discriminate.
      * assert (L : t_last T4 = 5) by (vm_compute; reflexivity). rewrite L. repeat constructor; vm_compute; congruence.
    + intros k k' x Hk Hk' (l & _ & G & _) (l' & _ & G' & _). destruct (X k _ Hk G) as (-> & _). destruct (X k' _ Hk' G') as (-> & _). reflexivity.
  - exists (ret_txn (alloc_all E4 T4 (repeat 1 3))). apply rets_is. vm_compute. reflexivity.
Qed.
Example free_page_case : scannable E4 (free_view T4) /\ shaped E4 (free_view T4) /\ strikable E4 T4 /\
  (exists b l k d, horizon E4 T4 b /\ bindings E4 (free_view T4) l /\ N.of_nat (length l) < 65536 /\
     blen k = 8 /\ le_val k < b /\ db_get E4 (free_view T4) k = Ok d /\ blen d mod 8 = 0 /\ 0 < blen d) /\
  exists t', db_page_alloc E4 T4 1 = Ret 2 t' /\ db_get E4 (free_view t') [3; 0; 0; 0; 0; 0; 0; 0] = Ok (enc_pgnos [4]).
Proof.
  split; [apply free_leaf_scannable; [exact E4_healthy|vm_compute; reflexivity..]|]. split; [apply free_shaped; exact E4_healthy|].
  split; [left; intros q _; vm_compute; reflexivity|]. split.
  - destruct (horizon_ex E4 T4) as (b & Hb). assert (B : b = 4) by (rewrite <- (horizon_oldest _ _ _ Hb); vm_compute; reflexivity). subst b.
    exists 4, [([3; 0; 0; 0; 0; 0; 0; 0], enc_pgnos [2; 4])], [3; 0; 0; 0; 0; 0; 0; 0], (enc_pgnos [2; 4]).
    split; [exact Hb|]. split; [exact T4_entries|]. splits; vm_compute; reflexivity.
  - exists (ret_txn (db_page_alloc E4 T4 1)). split; [apply ret_is|]; vm_compute; reflexivity.
Qed.

(** ** Where the claims fail *)
(** After two transactions more the Free DB lists 2, 4 under transaction 3 and 3, 4 under
    transaction 4.  The third allocation of the next transaction takes page 3.  It is not
    struck off its list: the pointer to the key (napr_db.c:1047-1072) points into the page
    being changed, the entry is written back under a key made of half the old key and the
    sizes in the node, and page 4 is listed under a transaction number above 2^34. *)
Definition E5 : env := get_env (history E3 (firstn 2 hist3)).
Definition T5 : txn := begun E5.
Definition T5' : txn := ret_txn (alloc_all E5 T5 [1; 1]).
Definition T5'' : txn := ret_txn (db_page_alloc E5 T5' 1).
Lemma E5_healthy : healthy E5.
Proof.
  destruct early_case as (A & B & C). assert (H : history E3 (firstn 2 hist3) = Ok E5) by (apply ok_env; vm_compute; reflexivity).
  assert (F : fit_history E3 (firstn 2 hist3)) by (apply (fit_historyb_ok (firstn 2 hist3) E3 _ C B A); vm_compute; reflexivity).
  exact (proj1 (proj2 (history_is_map_partial (firstn 2 hist3) E3 E5 _ C B F H A))).
Qed.
Theorem reused_page_struck_off_refuted : exists E t0 t t' k k', healthy E /\ begin_write E = Some (set_locked E true, t0) /\
  alloc_all E t0 [1; 1] = Ret [2; 4] t /\ db_page_alloc E t 1 = Ret 3 t' /\
  le_val k = 4 /\ db_get E (free_view t) k = Ok (enc_pgnos [3; 4]) /\ db_get E (free_view t') k = Err NOTFOUND /\
  2 ^ 34 < le_val k' /\ db_get E (free_view t) k' = Err NOTFOUND /\ db_get E (free_view t') k' = Ok (enc_pgnos [4]).
Proof.
  exists E5, T5, T5', T5'', [4; 0; 0; 0; 0; 0; 0; 0], [4; 0; 0; 0; 8; 0; 8; 0].
  split; [exact E5_healthy|]. split; [apply begun_is; vm_compute; reflexivity|]. split; [apply rets_is; vm_compute; reflexivity|].
  split; [apply ret_is; vm_compute; reflexivity|]. splits; vm_compute; reflexivity.
Qed.
Print Assumptions reused_page_struck_off_refuted.

(** A key with one value, changed in three transactions: the Free DB lists page 2 three
    times, because every transaction records the pages it copies, and the copies keep
    their numbers.  Page 2 is handed out three times; it is the root page of the data. *)
Definition ops1 : list op := [Put [97] [1]].
Definition S1 : env := get_env (transact env_create ops1).
Definition hist1 : list (list op) := [[Put [97] [2]]; [Put [97] [3]]; [Put [97] [4]]].
Definition S4 : env := get_env (history S1 hist1).
Lemma S1_case : reads S1 (reader S1) (fold_left map_op ops1 (fun k => lookup k [])) /\ file_ok (e_file S1) /\ healthy S1.
Proof.
  assert (HL : forall t', do_ops (set_locked env_create true) (begun env_create) ops1 = Ret tt t' ->
     t' = ret_txn (do_ops (set_locked env_create true) (begun env_create) ops1)) by (intros t' ->; reflexivity).
  assert (HT : txn_holds true 32 (set_locked env_create true) (begun env_create) []).
  { split; [reflexivity|left; split; reflexivity]. }
  assert (HC : clean_ops (set_locked env_create true) (begun env_create) ops1) by (apply clean_opsb_ok; vm_compute; reflexivity).
  destruct (early_transaction_is_map_partial env_create (set_locked env_create true) (begun env_create) ops1 S1 []) as (A & B & C).
  - apply begun_is. reflexivity.
  - intro q. left. split; reflexivity.
  - exact HT.
  - reflexivity.
  - vm_compute. discriminate.
  - vm_compute. reflexivity.
  - exact HC.
  - repeat constructor; vm_compute; reflexivity.
  - intros t' X. rewrite (HL t' X). split; vm_compute; reflexivity.
  - apply ok_env. vm_compute. reflexivity.
  - split; [exact A|]. split; [exact B|]. apply C. intros t' h X S.
    destruct (ops_clean _ ops1 _ t' [] HT eq_refl ltac:(vm_compute; discriminate) ltac:(vm_compute; reflexivity) HC X) as (kvs' & (_ & [[Z _]|(h1 & Hh & _ & T & _)]) & _).
    + rewrite (HL t' X) in Z. vm_compute in Z. discriminate.
    + apply tree_shape in T. rewrite (shape_height _ _ _ _ S T). rewrite <- (height_of_ok _ 33 h1 _ ltac:(lia) T), (HL t' X).
      assert (V : height_of 33 (get_page (set_locked env_create true) (ret_txn (do_ops (set_locked env_create true) (begun env_create) ops1)))
        (t_root (ret_txn (do_ops (set_locked env_create true) (begun env_create) ops1))) = 0%nat) by (vm_compute; reflexivity).
      rewrite V. lia.
Qed.
Theorem no_page_twice_refuted : exists E t t', healthy E /\ begin_write E = Some (set_locked E true, t) /\
  alloc_all E t (repeat 1 4) = Ret [2; 2; 2; 4] t' /\ t_root t = 2 /\ t_last t = 3.
Proof.
  destruct S1_case as (A & B & C). assert (H : history S1 hist1 = Ok S4) by (apply ok_env; vm_compute; reflexivity).
  assert (F : fit_history S1 hist1) by (apply (fit_historyb_ok hist1 S1 _ C B A); vm_compute; reflexivity).
  pose proof (history_is_map_partial hist1 S1 S4 _ C B F H A) as (_ & HH & _).
  exists S4, (begun S4), (ret_txn (alloc_all S4 (begun S4) (repeat 1 4))). split; [exact HH|]. split; [apply begun_is; vm_compute; reflexivity|].
  split; [apply rets_is|split]; vm_compute; reflexivity.
Qed.
Print Assumptions no_page_twice_refuted.

(** After three transactions more, the third allocation of the next one finds the entry
    that lists 3 and 4 under transaction 4, deletes it, fails to write the rest of it back
    (the bytes the key pointer points to are the key of another entry by then), and takes
    a new page after the end of the file.  The entry is gone. *)
Definition T6' : txn := ret_txn (alloc_all E6 T6 [1; 1]).
Definition T6'' : txn := ret_txn (db_page_alloc E6 T6' 1).
Theorem free_page_taken_refuted : exists E t0 t t' k, healthy E /\ begin_write E = Some (set_locked E true, t0) /\
  alloc_all E t0 [1; 1] = Ret [2; 4] t /\ le_val k = 4 /\ horizon E t (t_id t) /\ 4 < t_id t /\
  db_get E (free_view t) k = Ok (enc_pgnos [3; 4]) /\
  db_page_alloc E t 1 = Ret (t_last t + 1) t' /\ db_get E (free_view t') k = Err NOTFOUND.
Proof.
  destruct early_case as (A & B & C). destruct history_case as (H & F & _).
  pose proof (history_is_map_partial hist3 E3 E6 _ C B F H A) as (_ & HH & _).
  exists E6, T6, T6', T6'', [4; 0; 0; 0; 0; 0; 0; 0]. split; [exact HH|]. split; [apply begun_is; vm_compute; reflexivity|].
  split; [apply rets_is; vm_compute; reflexivity|]. split; [vm_compute; reflexivity|]. split.
  { destruct (horizon_ex E6 T6') as (b & Hb). assert (Q : b = t_id T6') by (rewrite <- (horizon_oldest _ _ _ Hb); vm_compute; reflexivity).
    rewrite <- Q. exact Hb. }
  split; [vm_compute; reflexivity|]. split; [vm_compute; reflexivity|]. split; [apply ret_is|]; vm_compute; reflexivity.
Qed.
Print Assumptions free_page_taken_refuted.
