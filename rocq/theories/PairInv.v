(** An invariant of every transaction, beyond TxnInv: every pair in every leaf page is one
    the user put, or has a key of eight bytes as the entries of the Free DB have.  It is kept
    by every operation, successful or not, whatever the shape of the tree and of the Free DB.
    The proofs follow those of TxnInv. *)
From Verif Require Import Util PageModel PageSpec PageProofs PageOps PropPage TxnModel CursorModel TreeModel TreeSpec TreeProofs TreeOps TxnInv.
Local Open Scope N_scope.

Section Pairs.
Variable own_pair : bytes -> bytes -> Prop.
Hypothesis own8 : forall k v, blen k = 8 -> own_pair k v.

Definition own (p : page) : Prop := is_leaf p = true -> forall k v, In (k, v) (leaf_entries p) -> own_pair k v.
Definition gp (p : page) : Prop := wfp p /\ own p.
Definition file_own (f : N -> page) : Prop := forall q, blank (f q) \/ (gp (f q) /\ pg_pgno (f q) = q).
Record dirty_own (t : txn) : Prop := {
  dw_nodup : NoDup (map fst (t_dirty t));
  dw_pages : forall q p, dget (t_dirty t) q = Some p -> gp p /\ pg_pgno p = q
}.
Definition OI (t : txn) : Prop := t_last t < 2 ^ 64 -> dirty_own t.
Definition oout {T} (o : out T) : Prop :=
  match o with Ret _ t' | Fail _ t' => t_last t' < 2 ^ 64 -> dirty_own t' | _ => True end.
Definition mine (k : bytes) (data : option bytes) : Prop := match data with Some v => own_pair k v | None => True end.
Lemma own_raws p : is_leaf p = true -> (own p <-> forall r, In r (raws true p) -> own_pair (raw_key true r) (raw_val r)).
Proof.
  intro L. unfold own. rewrite leaf_entries_raws. split.
  - intros H r Hr. apply H; auto. apply in_map_iff. exists r. auto.
  - intros H _ k v Hi. apply in_map_iff in Hi. destruct Hi as (r & [= <- <-] & Hr). auto.
Qed.
Lemma own_sub leaf p p' : wf_page leaf p -> wf_page leaf p' -> own p -> (forall r, In r (raws leaf p') -> In r (raws leaf p)) -> own p'.
Proof.
  intros W W' H S. destruct leaf.
  - rewrite own_raws in * by (eapply wf_is_leaf; eauto). auto.
  - intro L. rewrite (wf_is_leaf _ _ W') in L. discriminate.
Qed.
Lemma insert_at_In {A} i (x : A) l y : In y (insert_at i x l) -> y = x \/ In y l.
Proof.
  unfold insert_at. rewrite in_app_iff. cbn [In]. intros [H|[H|H]]; auto; right; rewrite <- (firstn_skipn i l), in_app_iff; auto.
Qed.
Lemma remove_at_In {A} i (l : list A) y : In y (remove_at i l) -> In y l.
Proof.
  unfold remove_at. rewrite in_app_iff. intros [H|H].
  - rewrite <- (firstn_skipn i l), in_app_iff. auto.
  - rewrite <- (firstn_skipn (S i) l), in_app_iff. auto.
Qed.
Lemma page_insert_gp p i k data child p' : gp p -> i <= pg_nkeys p -> 10 + blen k + dsize data < 65536 -> mine k data ->
  page_insert p i k data child = Ok p' -> gp p' /\ pg_pgno p' = pg_pgno p /\ pg_nkeys p' = pg_nkeys p + 1.
Proof.
  intros [W O] Hi Hs M HI. destruct (page_insert_wfp p i k data child p' W Hi Hs HI) as (W' & A & B). splits; auto. split; auto.
  destruct W as [leaf W]. destruct (node_bytes leaf k data child) as [r|] eqn:NB.
  - pose proof (blen_node _ _ _ _ _ NB). pose proof (page_insert_ok leaf p i k data child r W Hi NB ltac:(lia)) as X.
    destruct (page_free p <? blen r + 2); [congruence|]. destruct X as (p2 & A2 & B2 & C2 & _).
    rewrite HI in A2. injection A2 as <-. intro L. rewrite (wf_is_leaf _ _ B2) in L. subst leaf.
    cbn [node_bytes] in NB. destruct data as [d|]; [|discriminate]. injection NB as <-. cbn [dsize mine] in *.
    apply own_raws; [eapply wf_is_leaf; eauto| |eapply wf_is_leaf; eauto]. intros r Hr. rewrite C2 in Hr. destruct (insert_at_In _ _ _ _ Hr) as [->|Hr'].
    + rewrite raw_key_leaf, raw_val_leaf by lia. exact M.
    + apply (proj1 (own_raws p (wf_is_leaf _ _ W)) O). exact Hr'.
  - destruct leaf; [|discriminate]. destruct data; [discriminate|]. unfold page_insert in HI.
    rewrite (wf_is_leaf _ _ W) in HI. discriminate.
Qed.
Lemma page_delete_gp p i p' : gp p -> page_delete p i = Ok p' -> gp p' /\ pg_pgno p' = pg_pgno p.
Proof.
  intros [W O] HD. destruct (page_delete_wfp p i p' W HD) as (W' & A). split; auto. split; auto.
  destruct W as [leaf W]. destruct (N.ltb_spec i (pg_nkeys p)) as [Hi|Hi].
  - destruct (page_delete_ok leaf p i W Hi) as (p2 & A2 & B & C & _). rewrite HD in A2. injection A2 as <-.
    apply (own_sub leaf p); auto. intros r Hr. rewrite C in Hr. eapply remove_at_In; eauto.
  - unfold page_delete in HD. rewrite (proj2 (N.leb_le _ _) Hi) in HD. discriminate.
Qed.
Lemma page_search_gp p k b i : gp p -> page_search p k = Ok (b, i) -> i <= pg_nkeys p.
Proof. intros [W _]. apply page_search_wfp. exact W. Qed.
Lemma split_page_gp leaf p rp l r : wf_page leaf p -> own p -> split_page leaf p rp = Ok (l, r) -> own l /\ own r.
Proof.
  intros W O H. destruct (split_page_ok leaf p rp W) as (l2 & r2 & A & B & C & D & F & _). rewrite H in A. injection A as <- <-. split.
  - apply (own_sub leaf p); auto. intros x Hx. rewrite D in Hx. rewrite <- (firstn_skipn (N.to_nat (pg_nkeys p / 2)) (raws leaf p)), in_app_iff. auto.
  - apply (own_sub leaf p); auto. intros x Hx. rewrite F in Hx. rewrite <- (firstn_skipn (N.to_nat (pg_nkeys p / 2)) (raws leaf p)), in_app_iff. auto.
Qed.
Lemma gp_leaf leaf p : wf_page leaf p -> own p -> gp p. Proof. intros W O. split; [exists leaf|]; auto. Qed.
Lemma init_own n f : own (init_page n f).
Proof. intros _ k v H. rewrite leaf_entries_raws, init_raws in H. destruct H. Qed.

(** ** the invariant *)
Lemma bind_oout {T U} t (o : out T) (k : T -> txn -> out U) :
  lout t o -> oout o ->
  (forall x t1, o = Ret x t1 -> lout t1 (k x t1)) ->
  (forall x t1, o = Ret x t1 -> later t t1 -> (t_last t1 < 2 ^ 64 -> dirty_own t1) -> oout (k x t1)) -> oout (bindo o k).
Proof.
  intros L I KL KI. destruct o as [x t1|e t1| |]; cbn [bindo lout oout] in *; auto.
Qed.
Lemma put_own t k p : dirty_own t -> gp p -> pg_pgno p = k -> dirty_own (put_dirty t k p).
Proof.
  intros [A B] W P. constructor.
  - cbn [put_dirty set_dirty t_dirty]. unfold dset. cbn [map fst]. constructor; [|apply nodup_filter; auto].
    intro Hi. apply in_map_iff in Hi. destruct Hi as ([k' p'] & E & He). cbn in E. apply filter_In in He. destruct He as [_ He].
    cbn [fst] in He. subst k'. rewrite N.eqb_refl in He. discriminate.
  - intros q p'. cbn [put_dirty set_dirty t_dirty]. rewrite dget_dset. destruct (N.eqb_spec k q) as [->|]; [|apply B].
    intros [= <-]. auto.
Qed.
Lemma put_OI t k p : OI t -> (t_last t < 2 ^ 64 -> gp p /\ pg_pgno p = k) -> OI (put_dirty t k p).
Proof. intros H P L. cbn [put_dirty set_dirty t_last] in L. destruct (P L). apply put_own; auto. Qed.
Lemma same_dirty_own t t' : t_dirty t' = t_dirty t -> dirty_own t -> dirty_own t'.
Proof. intros E [A B]. constructor; rewrite E; auto. Qed.

Lemma entry_size E t c op k d c' : cursor_get E t c op = COk (k, d) c' -> 4 + blen k + blen d <= 4096.
Proof.
  unfold cursor_get. destruct (match op with NEXT => _ | _ => _ end) as [[] c1| | |]; try discriminate. unfold cursor_fetch.
  destruct (c_stack c1) as [|[p i] st]; [discriminate|]. destruct (c_eof c1); [discriminate|]. destruct (_ <=? i); [discriminate|].
  unfold leaf_value. destruct (slot_in_page i && key_in_page true p (slot p i) && _) eqn:X; [|discriminate]. intros [= <- <- _].
  apply andb_true_iff in X. destruct X as [_ X]. apply N.leb_le in X. cbn [node_size] in X. unfold node_key, leaf_val, blen. rewrite !readn_length.
  cbn [node_ksize]. unfold LEAF_BASE, PAGE_SIZE in X. lia.
Qed.
Section Inv.
Variable al : allocator.
Variable E : env.
Hypothesis al_later : forall E t, lout t (al E t).
Hypothesis al_inv : forall t, OI t -> oout (al E t).
Hypothesis al_pg : forall t pg t', OI t -> al E t = Ret pg t' -> t_last t' < 2 ^ 64 -> pg < 2 ^ 64.
Hypothesis F : file_own (e_file E).

Lemma get_writable_oout t p : OI t -> (blank p -> False) -> gp p -> oout (get_writable t p).
Proof.
  intros H _ W. unfold get_writable. destruct (t_rdonly t); [exact H|]. cbv zeta. destruct (dget _ _); [exact H|].
  intro L. apply (same_dirty_own (put_dirty t (pg_pgno p) p)); auto. apply put_own; auto.
Qed.
Lemma cow_page_oout t pg : OI t -> seen E t pg -> oout (cow_page E t pg).
Proof.
  intros H S. unfold cow_page. destruct (dget (t_dirty t) pg) as [p|] eqn:D; [exact H|].
  destruct S as [S|S]; [congruence|]. apply get_writable_oout; auto. destruct (F pg) as [B|[W _]]; [tauto|exact W].
Qed.
Lemma cow_path_oout : forall l t, OI t -> (forall q, In q l -> seen E t q) -> oout (cow_path E t l).
Proof.
  induction l as [|pg l IH]; intros t H S; cbn [cow_path]; [exact H|].
  apply (bind_oout t).
  - apply cow_page_lout.
  - apply cow_page_oout; auto. apply S. left. auto.
  - intros x t1 _. apply cow_path_lout.
  - intros x t1 _ L D. apply IH; auto. intros q Hq. destruct (S q (or_intror Hq)) as [S1|S1]; [left; apply (la_dirty _ _ L); auto|right; auto].
Qed.
Lemma find_path_seen t : t_rdonly t = false -> forall f pg k path leaf, find_path f E t pg k = Ok (path, leaf) ->
  (forall q, In q path -> seen E t q) /\ leaf = get_page E t (leaf_of path) /\ path <> [] /\ is_leaf leaf = true.
Proof.
  intro Hr. induction f as [|f IH]; intros pg k path leaf H; cbn [find_path] in H; [discriminate|].
  destruct (max_pgno E t <? pg); [discriminate|].
  assert (X : is_leaf (get_page E t pg) = true \/ is_branch (get_page E t pg) = true -> seen E t pg).
  { unfold seen, get_page. rewrite Hr. destruct (dget (t_dirty t) pg); [left; discriminate|]. intros Y. right. intros [B1 B2]. destruct Y; congruence. }
  destruct (is_leaf (get_page E t pg)) eqn:L.
  - injection H as <- <-. splits; auto; try discriminate. intros q [<-|[]]. auto.
  - destruct (is_branch (get_page E t pg)) eqn:B; [|discriminate]. cbn [negb] in H.
    destruct (child_of (get_page E t pg) k) as [c| | |]; cbn [bindr] in H; try discriminate.
    destruct (find_path f E t c k) as [[path' leaf']| | |] eqn:FP; cbn [bindr] in H; try discriminate. injection H as <- <-.
    destruct (IH _ _ _ _ FP) as (A & A2 & A3 & A4). splits; auto; try discriminate.
    + intros q [<-|Hq]; auto.
    + rewrite A2. unfold leaf_of. destruct path'; [congruence|]. reflexivity.
Qed.
Lemma split_node_oout t leaf lpg : OI t -> oout (split_node al E t leaf lpg) /\
  forall rpg l r d t', split_node al E t leaf lpg = Ret (rpg, l, r, d) t' -> t_last t' < 2 ^ 64 ->
    wf_page leaf l /\ wf_page leaf r /\ pg_pgno l = lpg /\ pg_pgno r = rpg /\ blen d <= 4096 /\ own l /\ own r /\ dget (t_dirty t') rpg = Some r.
Proof.
  intro H. unfold split_node. destruct (dget (t_dirty t) lpg) as [l0|] eqn:D; [|split; [exact I|discriminate]].
  destruct (negb (if leaf then is_leaf l0 else is_branch l0)); [split; [exact H|discriminate]|].
  destruct (t_rdonly t); [split; [exact H|discriminate]|].
  pose proof (al_inv t H) as AI. pose proof (al_pg t) as AP. pose proof (al_later E t) as AL.
  destruct (al E t) as [rpg t1|e t1| |]; cbn [bindo oout lout] in *; try (split; [exact AI || exact I|discriminate]).
  destruct (dget (t_dirty t1) lpg) as [l1|] eqn:D1; [|split; [exact I|discriminate]].
  destruct (negb (if leaf then is_leaf l1 else is_branch l1)) eqn:EK; [split; [exact I|discriminate]|].
  assert (X : t_last t1 < 2 ^ 64 -> wf_page leaf l1 /\ pg_pgno l1 = lpg /\ rpg < 2 ^ 64 /\ own l1).
  { intro L. destruct (dw_pages _ (AI L) _ _ D1) as [[[lf W] O] P]. splits; auto; [|eapply AP; eauto].
    replace leaf with lf; auto. pose proof (wf_is_leaf _ _ W) as W1. pose proof (wf_is_branch _ _ W) as W2.
    destruct leaf; rewrite ?W1, ?W2 in EK; destruct lf; auto; discriminate. }
  destruct (split_page leaf l1 rpg) as [[l r]|e| |] eqn:SP; cbn [lift bindo]; try (split; [exact AI || exact I|discriminate]).
  assert (Y : t_last t1 < 2 ^ 64 -> wf_page leaf l /\ wf_page leaf r /\ pg_pgno l = lpg /\ pg_pgno r = rpg /\ own l /\ own r).
  { intro L. destruct (X L) as (W & P & B & O). destruct (split_page_gp leaf l1 rpg l r W O SP) as (O1 & O2). destruct (split_page_ok leaf l1 rpg W) as (l2 & r2 & A1 & A2 & A3 & _ & _ & _ & _ & A4 & A5 & _).
    rewrite SP in A1. injection A1 as <- <-. rewrite N.mod_small in A5 by auto. splits; auto; congruence. }
  assert (Z1 : OI (put_dirty t1 lpg l)).
  { apply put_OI; auto. intro L. destruct (Y L) as (A & B & C & D2 & O1 & O2). split; auto. eapply gp_leaf; eauto. }
  destruct (negb leaf && (pg_nkeys r =? 0)); [split; [exact Z1|discriminate]|].
  assert (Z2 : OI (put_dirty (put_dirty t1 lpg l) rpg r)).
  { apply put_OI; auto. intro L. destruct (Y L) as (A & B & C & D2 & O1 & O2). split; auto. eapply gp_leaf; eauto. }
  destruct (first_key leaf r) as [d|e| |] eqn:FK; cbn [lift bindo]; try (split; [exact Z2 || exact I|discriminate]).
  split; [exact Z2|]. intros rpg' l' r' d' t' [= <- <- <- <- <-] L. destruct (Y L) as (A & B & C & D2 & O1 & O2). splits; auto.
  - eapply first_key_wfp; eauto.
  - cbn [put_dirty set_dirty t_dirty]. rewrite dget_dset, N.eqb_refl. reflexivity.
Qed.
Lemma insert_split_oout t lpg rpg l r k data child : OI t -> 10 + blen k + dsize data < 65536 -> mine k data ->
  (t_last t < 2 ^ 64 -> gp l /\ gp r /\ pg_pgno l = lpg /\ pg_pgno r = rpg) -> oout (insert_split t lpg rpg l r k data child).
Proof.
  intros H Hs M X. unfold insert_split. destruct (page_search l k) as [[found i]|e| |] eqn:SL; cbn [lift bindo]; try exact I; try exact H.
  destruct (negb found && (pg_nkeys l <=? i)).
  - destruct (page_search r k) as [[? j]|e| |] eqn:SR; cbn [lift bindo]; try exact I; try exact H.
    destruct (page_insert r j k data child) as [r'|e| |] eqn:PI; cbn [lift bindo]; try exact I; try exact H.
    apply put_OI; auto. intro L. destruct (X L) as (A & B & C & D).
    destruct (page_insert_gp r j k data child r' B (page_search_gp _ _ _ _ B SR) Hs M PI) as (? & ? & _). split; [auto|congruence].
  - destruct (page_insert l i k data child) as [l'|e| |] eqn:PI; cbn [lift bindo]; try exact I; try exact H.
    cbn [oout]. destruct (lpg =? rpg); [exact H|]. apply put_OI; auto. intro L. destruct (X L) as (A & B & C & D).
    destruct (page_insert_gp l i k data child l' A (page_search_gp _ _ _ _ A SL) Hs M PI) as (? & ? & _). split; [auto|congruence].
Qed.
Lemma propagate_oout : forall ps t k rpg, OI t -> blen k <= 4096 -> oout (propagate al E t ps k rpg) /\
  forall k' r' t', propagate al E t ps k rpg = Ret (Some (k', r')) t' -> t_last t' < 2 ^ 64 -> blen k' <= 4096.
Proof.
  induction ps as [|pp ps IH]; intros t k rpg H Hk; cbn [propagate].
  { split; [exact H|]. intros k' r' t' [= <- <- <-] _. exact Hk. }
  destruct (dget (t_dirty t) pp) as [p|] eqn:D; [|split; [exact H|discriminate]].
  destruct (page_search p k) as [[? i]|e| |] eqn:SR; cbn [lift bindo]; try (split; [exact H || exact I|discriminate]).
  destruct (page_insert p i k None rpg) as [p'|e| |] eqn:PI; try (split; [exact I|discriminate]).
  - split; [|discriminate]. apply put_OI; auto. intro L. destruct (dw_pages _ (H L) _ _ D) as [W P].
    destruct (page_insert_gp p i k None rpg p' W (page_search_gp _ _ _ _ W SR) ltac:(cbn [dsize]; lia) I PI) as (? & ? & _). split; [auto|congruence].
  - destruct e; try (split; [exact H|discriminate]). destruct (split_node_oout t false pp H) as [SI SF].
    pose proof (split_node_lout al al_later E t false pp) as SL.
    destruct (split_node al E t false pp) as [[[[rpg2 l] r] d] t2|e t2| |]; cbn [bindo oout lout] in *; try (split; [exact SI || exact I|discriminate]).
    assert (X : t_last t2 < 2 ^ 64 -> gp l /\ gp r /\ pg_pgno l = pp /\ pg_pgno r = rpg2).
    { intro L. destruct (SF _ _ _ _ _ eq_refl L) as (A & B & C & D2 & _ & O1 & O2 & _). splits; auto; eapply gp_leaf; eauto. }
    pose proof (insert_split_oout t2 pp rpg2 l r k None rpg SI ltac:(cbn [dsize]; lia) I X) as II.
    pose proof (insert_split_lout t2 pp rpg2 l r k None rpg) as IL.
    destruct (insert_split t2 pp rpg2 l r k None rpg) as [[] t3|e t3| |]; cbn [bindo oout lout] in *; try (split; [exact II || exact I|discriminate]).
    destruct (N.ltb_spec (t_last t3) (2 ^ 64)) as [L3|L3].
    + assert (Hd : blen d <= 4096). { pose proof (la_last _ _ IL). destruct (SF _ _ _ _ _ eq_refl ltac:(lia)) as (_ & _ & _ & _ & Hd & _). exact Hd. }
      apply IH; auto.
    + pose proof (propagate_lout al al_later E ps t3 d (pg_pgno r)) as PL. split.
      * destruct (propagate al E t3 ps d (pg_pgno r)) as [x t'|x t'| |]; cbn [oout lout] in *; auto; intro; pose proof (la_last _ _ PL); lia.
      * intros k' r' t' HP L. rewrite HP in PL. cbn [lout] in PL. pose proof (la_last _ _ PL). lia.
Qed.
Lemma new_page_ok leaf pg : pg < 2 ^ 64 -> gp (init_page pg (kind leaf)) /\ pg_pgno (init_page pg (kind leaf)) = pg.
Proof. intro H. split; [apply (gp_leaf leaf); [apply init_wf|apply init_own]|]. rewrite init_pgno. apply N.mod_small. exact H. Qed.
Lemma root_split_oout t old rpg d : OI t -> (t_last t < 2 ^ 64 -> blen d <= 4096) -> oout (root_split al E t old rpg d).
Proof.
  intros H Hd. unfold root_split. pose proof (al_inv t H) as AI. pose proof (al_pg t) as AP. pose proof (al_later E t) as AL.
  destruct (al E t) as [new t1|e t1| |]; cbn [bindo oout lout] in *; try exact I; try exact AI.
  destruct (dget (t_dirty t1) old) as [p|]; [|exact AI].
  destruct (first_key (negb (is_branch p)) p) as [lk|e| |] eqn:FK; cbn [lift bindo]; try exact I; try exact AI.
  destruct (page_insert _ 0 lk None old) as [n1|e| |] eqn:P1; cbn [lift bindo]; try exact I; try exact AI.
  destruct (page_insert n1 1 d None rpg) as [n2|e| |] eqn:P2; cbn [lift bindo]; try exact I; try exact AI.
  cbn [oout]. apply put_OI; auto. intro L. pose proof (AP new t1 H eq_refl L) as Hn. pose proof (la_last _ _ AL).
  destruct (new_page_ok false new Hn) as [W P].
  apply first_key_wfp in FK.
  destruct (page_insert_gp _ 0 lk None old n1 W (N.le_0_l _) ltac:(cbn [dsize]; lia) I P1) as (W1 & Q1 & N1).
  assert (H1 : 1 <= pg_nkeys n1) by lia. specialize (Hd ltac:(lia)).
  destruct (page_insert_gp _ 1 d None rpg n2 W1 H1 ltac:(cbn [dsize]; lia) I P2) as (W2 & Q2 & _). split; [auto|congruence].
Qed.
Lemma leaf_split_oout t path lpg k v : OI t -> 10 + blen k + blen v < 65536 -> own_pair k v -> oout (leaf_split al E t path lpg k v).
Proof.
  intros H Hs M. unfold leaf_split. destruct (split_node_oout t true lpg H) as [SI SF].
  pose proof (split_node_lout al al_later E t true lpg) as SL.
  destruct (split_node al E t true lpg) as [[[[rpg l] r] d] t1|e t1| |]; cbn [bindo oout lout] in *; try exact I; try exact SI.
  assert (X : t_last t1 < 2 ^ 64 -> gp l /\ gp r /\ pg_pgno l = lpg /\ pg_pgno r = rpg).
  { intro L. destruct (SF _ _ _ _ _ eq_refl L) as (A & B & C & D2 & _ & O1 & O2 & _). splits; auto; eapply gp_leaf; eauto. }
  pose proof (insert_split_oout t1 lpg rpg l r k (Some v) 0 SI Hs M X) as II.
  pose proof (insert_split_lout t1 lpg rpg l r k (Some v) 0) as IL.
  destruct (insert_split t1 lpg rpg l r k (Some v) 0) as [[] t2|e t2| |]; cbn [bindo oout lout] in *; try exact I; try exact II.
  pose proof (propagate_lout al al_later E (tl (rev path)) t2 d (pg_pgno r)) as PL.
  destruct (N.ltb_spec (t_last t2) (2 ^ 64)) as [L2|L2].
  - assert (Hd : blen d <= 4096). { pose proof (la_last _ _ IL). destruct (SF _ _ _ _ _ eq_refl ltac:(lia)) as (_ & _ & _ & _ & Hd & _). exact Hd. }
    destruct (propagate_oout (tl (rev path)) t2 d (pg_pgno r) II Hd) as [PI PF].
    destruct (propagate al E t2 (tl (rev path)) d (pg_pgno r)) as [[[d' rpg']|] t3|e t3| |]; cbn [bindo oout lout] in *; try exact I; try exact PI.
    pose proof (root_split_oout t3 (hd 0 path) rpg' d' PI ltac:(intro; eapply PF; eauto)) as RI.
    destruct (root_split al E t3 (hd 0 path) rpg' d'); cbn [bindo oout] in *; try exact I; try exact RI.
  - destruct (propagate al E t2 (tl (rev path)) d (pg_pgno r)) as [[[d' rpg']|] t3|e t3| |]; cbn [bindo oout lout] in *; try exact I;
      try (intro; pose proof (la_last _ _ PL); lia).
    pose proof (root_split_lout al al_later E t3 (hd 0 path) rpg' d') as RL.
    destruct (root_split al E t3 (hd 0 path) rpg' d'); cbn [bindo oout lout] in *; try exact I;
      (intro; pose proof (la_last _ _ PL); pose proof (la_last _ _ RL); lia).
Qed.
Lemma new_root_leaf_oout t k v : OI t -> 10 + blen k + blen v < 65536 -> own_pair k v -> oout (new_root_leaf al E t k v).
Proof.
  intros H Hs M. unfold new_root_leaf. pose proof (al_inv t H) as AI. pose proof (al_pg t) as AP.
  destruct (al E t) as [new t1|e t1| |]; cbn [bindo oout lout] in *; try exact I; try exact AI.
  destruct (page_insert _ 0 k (Some v) 0) as [p|e| |] eqn:P1; cbn [lift bindo]; try exact I; try exact AI.
  cbn [oout]. apply put_OI; auto. intro L. pose proof (AP new t1 H eq_refl L) as Hn.
  destruct (new_page_ok true new Hn) as [W P].
  destruct (page_insert_gp _ 0 k (Some v) 0 p W (N.le_0_l _) Hs M P1) as (W1 & Q1 & _). split; [auto|congruence].
Qed.
Lemma leaf_key_page t path leaf i0 : t_rdonly t = false -> OI t -> t_last t < 2 ^ 64 -> path <> [] ->
  (forall q, In q path -> seen E t q) -> leaf = get_page E t (leaf_of path) -> is_leaf leaf = true ->
  cow_path E t (rev path) = i0 -> match i0 with
  | Ret _ t3 => leaf_key E t (leaf_of path) = leaf_of path /\ (t_last t3 < 2 ^ 64 -> dget (t_dirty t3) (leaf_of path) = Some leaf)
  | _ => True end.
Proof.
  intros Hr H L Hne S EL IL C. 
  assert (LK : leaf_key E t (leaf_of path) = leaf_of path).
  { unfold leaf_key. destruct (dget (t_dirty t) (leaf_of path)) eqn:D; auto.
    destruct (S (leaf_of path) (last_In _ _ Hne)) as [X|X]; [congruence|].
    destruct (F (leaf_of path)) as [B|[_ P]]; tauto. }
  destruct i0 as [[] t3| | |]; auto. split; auto.
  assert (G : forall l t t', t_rdonly t = false -> (forall q, In q l -> seen E t q) -> cow_path E t l = Ret tt t' ->
     forall q, (get_page E t' q = get_page E t q) /\ (In q l -> dget (t_dirty t') q <> None)).
  { clear - F. induction l as [|pg l IH]; intros t t' Hr S C q; cbn [cow_path] in C.
    - injection C as <-. split; [auto|intros []].
    - destruct (cow_page E t pg) as [x t1| | |] eqn:CP; cbn [bindo] in C; try discriminate.
      assert (X : later t t1 /\ (forall q, get_page E t1 q = get_page E t q) /\ dget (t_dirty t1) pg <> None).
      { pose proof (cow_page_lout E t pg) as L. rewrite CP in L. split; [exact L|].
        unfold cow_page in CP. destruct (dget (t_dirty t) pg) as [p|] eqn:D.
        - injection CP as <- <-. split; auto. congruence.
        - unfold get_writable in CP. rewrite Hr in CP.
          destruct (S pg (or_introl eq_refl)) as [Y|Y]; [congruence|]. destruct (F pg) as [B|[_ P]]; [tauto|]. rewrite P, D in CP.
          injection CP as <- <-. unfold get_page. cbn [set_freed put_dirty set_dirty t_dirty t_rdonly]. rewrite Hr. split.
          + intro q0. rewrite dget_dset. destruct (N.eqb_spec pg q0) as [->|]; auto. rewrite D. reflexivity.
          + rewrite dget_dset, N.eqb_refl. discriminate. }
      destruct X as (L & V & D). destruct (IH t1 t' ltac:(rewrite (la_ro _ _ L); auto)
         ltac:(intros q0 Hq; destruct (S q0 (or_intror Hq)) as [Y|Y]; [left; apply (la_dirty _ _ L); auto|right; auto]) C q) as [A B].
      split; [rewrite A; auto|]. intros [<-|Hq]; auto.
      pose proof (cow_path_lout E l t1) as L2. rewrite C in L2. apply (la_dirty _ _ L2). auto. }
  intros _. pose proof (cow_path_lout E (rev path) t) as CL. rewrite C in CL. cbn [lout] in CL.
  destruct (G _ _ _ Hr (fun q Hq => S q (proj2 (in_rev path q) Hq)) C (leaf_of path)) as [A B].
  specialize (B (proj1 (in_rev path _) (last_In _ _ Hne))).
  unfold get_page in A. rewrite (la_ro _ _ CL), Hr in A. unfold get_page in EL. rewrite Hr in EL.
  destruct (dget (t_dirty t3) (leaf_of path)); [|congruence]. congruence.
Qed.

(** a state past the last page number makes no claim *)
Lemma oout_over {T} t (o : out T) : lout t o -> 2 ^ 64 <= t_last t -> oout o.
Proof. intros L H. destruct o; cbn [lout oout] in *; auto; intro; pose proof (la_last _ _ L); lia. Qed.

Lemma page_of_view t pg : t_rdonly t = false -> dirty_own t -> is_leaf (get_page E t pg) = true \/ is_branch (get_page E t pg) = true ->
  gp (get_page E t pg) /\ pg_pgno (get_page E t pg) = pg.
Proof.
  intros Hr D X. unfold get_page in *. rewrite Hr in *. destruct (dget (t_dirty t) pg) as [p|] eqn:G; [eapply dw_pages; eauto|].
  destruct (F pg) as [[B1 B2]|Y]; [destruct X; congruence|exact Y].
Qed.

Lemma db_put_oout t k v : OI t -> 10 + blen k + blen v < 65536 -> own_pair k v -> oout (db_put_with al E t k v).
Proof.
  intros H Hs M. destruct (N.ltb_spec (t_last t) (2 ^ 64)) as [L|L]; [|eapply oout_over; eauto; apply db_put_lout; auto].
  unfold db_put_with. destruct (t_rdonly t) eqn:Hr; [exact H|]. destruct (t_root t =? 0).
  { pose proof (new_root_leaf_oout t k v H Hs M) as NI. destruct (new_root_leaf al E t k v) as [new t1|e t1| |]; cbn [bindo oout] in *; try exact I; try exact NI.
    intro L1. apply (same_dirty_own t1); auto. }
  destruct (find_path MAX_TREE_DEPTH E t (t_root t) k) as [[path leaf]|e| |] eqn:FP; cbn [lift bindo]; try exact I; try exact H.
  destruct (find_path_seen t Hr _ _ _ _ _ FP) as (S & EL & Hne & IL).
  destruct (page_search leaf k) as [[found i]|e| |] eqn:PS; cbn [lift bindo]; try exact I; try exact H.
  destruct (found && _); [exact H|].
  pose proof (leaf_key_page t path leaf _ Hr H L Hne S EL IL eq_refl) as LP.
  pose proof (cow_path_oout (rev path) t H (fun q Hq => S q (proj2 (in_rev path q) Hq))) as CI.
  pose proof (cow_path_lout E (rev path) t) as CL.
  destruct (cow_path E t (rev path)) as [[] t3|e t3| |]; cbn [bindo oout lout] in *; try exact I; try exact CI.
  destruct LP as [-> LP]. destruct (dget (t_dirty t3) (leaf_of path)) as [p0|] eqn:D0; [|exact I].
  destruct (page_of_view t (leaf_of path) Hr (H L)) as [W P]; [left; congruence|]. rewrite <- EL in W, P.
  destruct (N.ltb_spec (t_last t3) (2 ^ 64)) as [L3|L3].
  2: { match goal with |- oout ?o => assert (X : lout t3 o) end.
       { apply bind_lout; [destruct found; [|apply later_refl]; apply bind_lout; [apply lift_lout|]; intros p1 t4 _; apply later_put|].
         intros p1 t4 _. destruct (page_insert _ _ _ _ _) as [p2|e| |]; try exact I; [apply later_put|]. destruct e; try apply later_refl.
         apply bind_lout; [apply leaf_split_lout; auto|]. intros [r|] t5 _; [apply later_root|apply later_refl]. }
       eapply oout_over; eauto. }
  specialize (LP L3). injection LP as ->.
  pose proof (page_search_gp _ _ _ _ W PS) as Hi.
  assert (X : exists p1 t4, (if found then run p1, t4 <- lift t3 (page_delete leaf i) ;; Ret p1 (put_dirty t4 (leaf_of path) p1) else Ret leaf t3) = Ret p1 t4 /\
     gp p1 /\ pg_pgno p1 = leaf_of path /\ OI t4 /\ i <= pg_nkeys p1).
  { destruct found.
    - pose proof W as W0. destruct W as [[lf W] O]. destruct (page_search_safe lf leaf k W) as (b' & i' & A & B & B2). rewrite PS in A. injection A as <- <-.
      destruct (page_delete_ok lf leaf i W (B2 eq_refl)) as (p1 & C1 & C2 & _ & C3 & C4 & _). destruct (page_delete_gp _ _ _ W0 C1) as [G1 _]. rewrite C1. cbn [lift bindo].
      exists p1, (put_dirty t3 (leaf_of path) p1). splits; auto; [congruence| |].
      + apply put_OI; auto. intros _. split; [auto|congruence].
      + specialize (B2 eq_refl). lia.
    - exists leaf, t3. splits; auto. }
  destruct X as (p1 & t4 & -> & W1 & P1 & D4 & Hi1). cbn [bindo].
  destruct (page_insert p1 i k (Some v) 0) as [p2|e| |] eqn:PI; try exact I.
  - apply put_OI; auto. intros _. destruct (page_insert_gp _ i k (Some v) 0 p2 W1 Hi1 Hs M PI) as (A & B & _). split; [auto|congruence].
  - destruct e; try exact D4. pose proof (leaf_split_oout t4 path (leaf_of path) k v D4 Hs M) as SI.
    destruct (leaf_split al E t4 path (leaf_of path) k v) as [[r|] t5|e t5| |]; cbn [bindo oout] in *; try exact I; try exact SI.
    intro L5. apply (same_dirty_own t5); auto.
Qed.

Lemma db_del_oout t k data : OI t -> oout (db_del E t k data).
Proof.
  intros H. unfold db_del. destruct (t_rdonly t) eqn:Hr; [exact H|]. destruct (t_root t =? 0); [exact H|].
  destruct (find_path MAX_TREE_DEPTH E t (t_root t) k) as [[path leaf]|e| |] eqn:FP; cbn [lift bindo]; try exact I; try exact H.
  destruct (find_path_seen t Hr _ _ _ _ _ FP) as (S & EL & Hne & IL).
  destruct (page_search leaf k) as [[[] i]|e| |] eqn:PS; cbn [lift bindo]; try exact I; try exact H.
  pose proof (cow_path_oout (rev path) t H (fun q Hq => S q (proj2 (in_rev path q) Hq))) as CI.
  destruct (cow_path E t (rev path)) as [[] t3|e t3| |]; cbn [bindo oout] in *; try exact I; try exact CI.
  destruct (dget (t_dirty t3) (leaf_of path)) as [p|] eqn:D; [|exact CI].
  destruct (page_delete p i) as [p'|e| |] eqn:PD; cbn [lift bindo]; try exact I; try exact CI.
  apply put_OI; auto. intro L. destruct (dw_pages _ (CI L) _ _ D) as [W P]. destruct (page_delete_gp _ _ _ W PD). split; [auto|congruence].
Qed.


Lemma scan_key t o : forall f r k d c, reclaim_scan f E t o r = Ok (k, d, c) ->
  (forall k d c', r = COk (k, d) c' -> 4 + blen k + blen d <= 4096) -> 4 + blen k + blen d <= 4096 /\ blen k = 8.
Proof.
  induction f as [|f IH]; intros r k d c0 H HR; cbn [reclaim_scan] in H; [discriminate|].
  destruct r as [[k1 d1] c| | |]; try discriminate. destruct (_ && _) eqn:X in H.
  - injection H as <- <- _. split; [eapply HR; eauto|]. rewrite !andb_true_iff in X. apply N.eqb_eq. tauto.
  - eapply IH; eauto. intros. eapply entry_size; eauto.
Qed.
Lemma put_aliased_oout t q o v : OI t -> 18 + blen v < 65536 -> oout (put_aliased (db_put_with al) E t q o v).
Proof.
  intros H Hs. destruct (N.ltb_spec (t_last t) (2 ^ 64)) as [L|L]; [|eapply oout_over; eauto; apply put_aliased_lout; auto].
  assert (P : oout (db_put_with al E t (readn (match dget (t_dirty t) q with Some p => p | None => zero_page end) o 8) v)).
  { apply db_put_oout; auto. }
  unfold put_aliased. destruct (dget (t_dirty t) q) as [p|] eqn:D; [|exact I]. cbv zeta.
  destruct (t_rdonly t) eqn:Hr; [exact P|]. destruct (t_root t =? 0); [exact P|]. cbn [orb].
  destruct (find_path MAX_TREE_DEPTH E t (t_root t) _) as [[path leaf]|e| |] eqn:FP; try exact P.
  destruct (page_search leaf _) as [[[] i]| | |] eqn:PS; try exact P.
  destruct (N.eqb_spec (leaf_of path) q) as [LQ|]; [|exact P]. destruct (copy_overlaps _ _ _); [exact I|].
  destruct (page_insert p i _ _ _) as [p'| | |] eqn:PI; try exact P.
  destruct (find_path_seen t Hr _ _ _ _ _ FP) as (S & EL & Hne & IL).
  assert (leaf = p) as ->. { rewrite EL, LQ. unfold get_page. rewrite Hr, D. reflexivity. }
  pose proof (cow_path_oout (rev path) t H (fun q Hq => S q (proj2 (in_rev path q) Hq))) as CI.
  destruct (cow_path E t (rev path)) as [[] t3|e t3| |]; cbn [bindo oout] in *; try exact I; try exact CI.
  apply put_OI; auto. intros _. destruct (dw_pages _ (H L) _ _ D) as [W PQ].
  assert (B8 : blen (bytes_after_sizes p (blen v) o) = 8) by reflexivity.
  destruct (page_insert_gp _ i _ (Some v) 0 p' W (page_search_gp _ _ _ _ W PS) ltac:(rewrite B8; cbn [dsize]; lia) (own8 _ _ B8) PI) as (A & B & _). split; [auto|congruence].
Qed.
Lemma reclaim_oout t : OI t -> oout (reclaim_with (db_put_with al) E t) /\
  forall pg t', reclaim_with (db_put_with al) E t = Ret pg t' -> pg < 2 ^ 64.
Proof.
  intro H. unfold reclaim_with. destruct (t_free_root t =? 0); [split; [exact H|discriminate]|]. cbv zeta.
  set (tf := set_root t (t_free_root t)). assert (Hf : OI tf) by (intro L; apply (same_dirty_own t); auto).
  destruct (reclaim_scan _ _ _ _ _) as [[[k d] c]| | |] eqn:RS; try (split; [exact I || exact H|discriminate]).
  destruct (scan_key _ _ _ _ _ _ _ RS) as [Hs H8]. { intros. eapply entry_size; eauto. }
  assert (U : oout (update_reclaimed (db_put_with al) E tf k d (key_place c))).
  { unfold update_reclaimed. destruct (_ =? 1); [apply db_del_oout; auto|]. pose proof (db_del_oout tf k None Hf) as OIo.
    destruct (db_del E tf k None) as [x t1|e t1| |]; cbn [bindo oout] in *; try exact I; try exact OIo.
    assert (blen (skipn 8 d) <= blen d) by (unfold blen; rewrite skipn_length; lia).
    destruct (dget _ _); [apply put_aliased_oout|apply db_put_oout]; auto; lia. }
  destruct (update_reclaimed (db_put_with al) E tf k d (key_place c)) as [x t'|e t'| |]; cbn [oout] in *; try (split; [exact I|discriminate]).
  - split; [intro L; apply (same_dirty_own t'); auto|]. intros pg t2 [= <- <-]. apply N.mod_lt. discriminate.
  - split; [intro L; apply (same_dirty_own t'); auto|discriminate].
Qed.
Lemma alloc_with_oout n t : OI t -> oout (alloc_with (reclaim_with (db_put_with al)) E t n) /\
  forall pg t', alloc_with (reclaim_with (db_put_with al)) E t n = Ret pg t' -> t_last t' < 2 ^ 64 -> pg < 2 ^ 64.
Proof.
  intro H. unfold alloc_with. destruct (n =? 0) eqn:En; [cbn [orb]; split; [exact H|discriminate]|]. cbn [orb]. apply N.eqb_neq in En.
  destruct (t_rdonly t); [split; [exact H|discriminate]|]. cbv zeta.
  assert (X : forall t', OI t' -> oout (Ret (t_last t' + 1) (set_last t' (t_last t' + n))) /\
     forall pg t2, Ret (t_last t' + 1) (set_last t' (t_last t' + n)) = Ret pg t2 -> t_last t2 < 2 ^ 64 -> pg < 2 ^ 64).
  { intros t' H'. split; [intro L; cbn [set_last t_last] in L; apply (same_dirty_own t'); auto; apply H'; lia|].
    intros pg t2 [= <- <-] L. cbn [set_last t_last] in L. lia. }
  destruct (n =? 1); [|apply X; auto]. destruct (reclaim_oout t H) as [RI RP].
  destruct (reclaim_with (db_put_with al) E t) as [pg t'|e t'| |]; cbn [oout] in *; try (split; [exact I|discriminate]).
  - split; [exact RI|]. intros pg2 t2 [= <- <-] _. eapply RP; eauto.
  - apply X. exact RI.
Qed.
Lemma insert_free_oout t k v : t_rdonly t = false -> OI t -> 10 + blen k + blen v < 65536 -> own_pair k v -> oout (insert_into_free_db al E t k v).
Proof.
  intros Hr H Hs M. assert (LO : lout t (insert_into_free_db al E t k v)) by (apply insert_free_lout; auto).
  destruct (N.ltb_spec (t_last t) (2 ^ 64)) as [L|L]; [|eapply oout_over; eauto]. clear LO.
  unfold insert_into_free_db.
  destruct (find_path MAX_TREE_DEPTH E t (t_free_root t) k) as [[path leaf]|e| |] eqn:FP; try exact I; [|apply new_root_leaf_oout; auto].
  destruct (find_path_seen t Hr _ _ _ _ _ FP) as (S & EL & Hne & IL).
  destruct (page_search leaf k) as [[found i]|e| |] eqn:PS; cbn [lift bindo]; try exact I; try exact H.
  destruct found; [exact H|].
  pose proof (leaf_key_page t path leaf _ Hr H L Hne S EL IL eq_refl) as LP.
  pose proof (cow_path_oout (rev path) t H (fun q Hq => S q (proj2 (in_rev path q) Hq))) as CI.
  destruct (cow_path E t (rev path)) as [[] t3|e t3| |]; cbn [bindo oout] in *; try exact I; try exact CI.
  destruct LP as [-> LP]. destruct (dget (t_dirty t3) (leaf_of path)) as [p0|] eqn:D0; [|exact I].
  destruct (page_of_view t (leaf_of path) Hr (H L)) as [W P]; [left; congruence|]. rewrite <- EL in W, P.
  pose proof (page_search_gp _ _ _ _ W PS) as Hi.
  destruct (page_insert p0 i k (Some v) 0) as [p2|e| |] eqn:PI; try exact I.
  - apply put_OI; auto. intros L3. specialize (LP L3). injection LP as ->.
    destruct (page_insert_gp _ i k (Some v) 0 p2 W Hi Hs M PI) as (A & B & _). split; [auto|congruence].
  - destruct e; try exact CI. pose proof (leaf_split_oout t3 path (leaf_of path) k v CI Hs M) as SI.
    destruct (leaf_split al E t3 path (leaf_of path) k v) as [new t5|e t5| |]; cbn [bindo oout] in *; try exact I; try exact SI.
Qed.
End Inv.

Lemma alloc_fuel_oout E (F : file_own (e_file E)) f : forall t, OI t -> oout (alloc_fuel f E t) /\
  forall pg t', alloc_fuel f E t = Ret pg t' -> t_last t' < 2 ^ 64 -> pg < 2 ^ 64.
Proof.
  induction f as [|f IH]; intros t H; [split; [exact I|discriminate]|]. cbn [alloc_fuel].
  apply alloc_with_oout; auto.
  - apply alloc_fuel_lout.
  - intros t0 H0. apply IH; auto.
  - intros t0 pg t' H0 A. apply (proj2 (IH t0 H0) pg t' A).
Qed.

(** put, del and the Free DB update keep the invariant, whatever they return *)
Lemma put_oout E t k v : file_own (e_file E) -> OI t -> 10 + blen k + blen v < 65536 -> own_pair k v -> oout (db_put E t k v).
Proof.
  intros F H Hs M. apply db_put_oout; auto.
  - apply page_alloc_lout.
  - intros t0 H0. apply alloc_fuel_oout; auto.
  - intros t0 pg t' H0 A. apply (proj2 (alloc_fuel_oout E F ALLOC_FUEL t0 H0) pg t' A).
Qed.
Lemma populate_oout E t : file_own (e_file E) -> t_rdonly t = false -> OI t -> N.of_nat (length (t_freed t)) < 8000 -> oout (populate_free_db page_alloc E t).
Proof.
  intros F Hr H Hs. unfold populate_free_db. destruct (t_freed t) as [|x l] eqn:EF; [exact H|]. cbv zeta. rewrite <- EF in *.
  assert (A1 : forall t0, OI t0 -> oout (page_alloc E t0)) by (intros t0 H0; apply alloc_fuel_oout; auto).
  assert (A2 : forall t0 pg t', OI t0 -> page_alloc E t0 = Ret pg t' -> t_last t' < 2 ^ 64 -> pg < 2 ^ 64)
    by (intros t0 pg t' H0 A; apply (proj2 (alloc_fuel_oout E F ALLOC_FUEL t0 H0) pg t' A)).
  assert (B : 10 + blen (le_bytes 8 (t_id t)) + blen (enc_pgnos (t_freed t)) < 65536) by (rewrite blen_enc, blen_le; lia).
  destruct (_ || _).
  - apply new_root_leaf_oout; auto using page_alloc_lout.
  - apply insert_free_oout; auto using page_alloc_lout.
Qed.
End Pairs.
