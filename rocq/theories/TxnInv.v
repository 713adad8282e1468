(** An invariant of every transaction: its pages are well-formed slotted pages stored
    under their own page numbers.  It is kept by every operation, successful or not,
    whatever the shape of the tree and of the Free DB. *)
From Verif Require Import Util PageModel PageSpec PageProofs PageOps TxnModel CursorModel TreeModel TreeSpec TreeProofs TreeOps.
Local Open Scope N_scope.

(** a page that was never written *)
Definition blank (p : page) : Prop := is_leaf p = false /\ is_branch p = false.
Definition wfp (p : page) : Prop := exists leaf, wf_page leaf p.
(** every page of the file is blank, or well-formed and labelled with its number *)
Definition file_ok (f : N -> page) : Prop := forall q, blank (f q) \/ (wfp (f q) /\ pg_pgno (f q) = q).
Record dirty_ok (t : txn) : Prop := {
  do_nodup : NoDup (map fst (t_dirty t));
  do_pages : forall q p, dget (t_dirty t) q = Some p -> wfp p /\ pg_pgno p = q
}.
(** [t'] is a later state of the transaction [t] *)
Record later (t t' : txn) : Prop := {
  la_id : t_id t' = t_id t;
  la_ro : t_rdonly t' = t_rdonly t;
  la_free : t_free_root t' = t_free_root t;
  la_last : t_last t <= t_last t';
  la_dirty : forall q, dget (t_dirty t) q <> None -> dget (t_dirty t') q <> None
}.
Definition lout {T} (t : txn) (o : out T) : Prop :=
  match o with Ret _ t' | Fail _ t' => later t t' | _ => True end.
Definition iout {T} (o : out T) : Prop :=
  match o with Ret _ t' | Fail _ t' => t_last t' < 2 ^ 64 -> dirty_ok t' | _ => True end.

Lemma later_refl t : later t t. Proof. constructor; auto; lia. Qed.
Lemma later_trans a b c : later a b -> later b c -> later a c.
Proof. intros [A1 A2 A3 A4 A5] [B1 B2 B3 B4 B5]. constructor; try congruence; try lia; auto. Qed.
Lemma dget_dset d k p q : dget (dset d k p) q = if k =? q then Some p else dget d q.
Proof.
  unfold dset. cbn [dget]. destruct (N.eqb_spec k q) as [->|Hne]; auto.
  induction d as [|[k' p'] d IH]; cbn [filter dget fst]; auto.
  destruct (N.eqb_spec k' k) as [->|Hk]; cbn [negb].
  - destruct (N.eqb_spec k q); [congruence|]. exact IH.
  - cbn [dget]. destruct (k' =? q); auto.
Qed.
Lemma later_put t k p : later t (put_dirty t k p).
Proof.
  constructor; auto; try (cbn; lia). intros q H. unfold put_dirty, set_dirty. cbn [t_dirty].
  rewrite dget_dset. destruct (k =? q); congruence.
Qed.
Lemma later_root t r : later t (set_root t r). Proof. constructor; auto. cbn. lia. Qed.
Lemma later_freed t f : later t (set_freed t f). Proof. constructor; auto. cbn. lia. Qed.
Lemma later_last t n : t_last t <= n -> later t (set_last t n). Proof. constructor; auto. Qed.

Lemma bind_lout {T U} t (o : out T) (k : T -> txn -> out U) :
  lout t o -> (forall x t1, o = Ret x t1 -> lout t1 (k x t1)) -> lout t (bindo o k).
Proof.
  intros H K. destruct o as [x t1|e t1| |]; cbn [bindo lout] in *; auto. specialize (K x t1 eq_refl).
  destruct (k x t1); cbn [lout] in *; auto; eapply later_trans; eauto.
Qed.
Lemma lift_lout {T} t (r : res T) : lout t (lift t r).
Proof. destruct r; cbn; auto using later_refl. Qed.
Lemma bind_iout {T U} t (o : out T) (k : T -> txn -> out U) :
  lout t o -> iout o ->
  (forall x t1, o = Ret x t1 -> lout t1 (k x t1)) ->
  (forall x t1, o = Ret x t1 -> later t t1 -> (t_last t1 < 2 ^ 64 -> dirty_ok t1) -> iout (k x t1)) -> iout (bindo o k).
Proof.
  intros L I KL KI. destruct o as [x t1|e t1| |]; cbn [bindo lout iout] in *; auto.
Qed.
Lemma lift_iout {T} t (r : res T) : (t_last t < 2 ^ 64 -> dirty_ok t) -> iout (lift t r).
Proof. destruct r; cbn; auto. Qed.
Lemma lift_ret {T} t (r : res T) x t1 : lift t r = Ret x t1 -> r = Ok x /\ t1 = t.
Proof. destruct r; cbn; try discriminate. intros [= -> ->]. auto. Qed.

(** ** later: every operation only extends the transaction *)
Section Later.
Variable al : allocator.
Hypothesis al_later : forall E t, lout t (al E t).
Variable E : env.

Ltac bl := first [apply bind_lout; [|intros ? ? ?]].
Lemma get_writable_lout t p : lout t (get_writable t p).
Proof.
  unfold get_writable. destruct (t_rdonly t); [apply later_refl|]. destruct (dget _ _); [apply later_refl|].
  eapply later_trans; [apply later_put|apply later_freed].
Qed.
Lemma cow_page_lout t pg : lout t (cow_page E t pg).
Proof. unfold cow_page. destruct (dget _ _); [apply later_refl|apply get_writable_lout]. Qed.
Lemma cow_path_lout : forall l t, lout t (cow_path E t l).
Proof.
  induction l as [|pg l IH]; intro t; cbn [cow_path]; [apply later_refl|].
  apply bind_lout; [apply cow_page_lout|]. intros x t1 _. apply IH.
Qed.
Lemma split_node_lout t leaf lpg : lout t (split_node al E t leaf lpg).
Proof.
  unfold split_node. destruct (dget _ _) as [l0|]; [|exact I]. destruct (negb _); [apply later_refl|].
  destruct (t_rdonly t); [apply later_refl|]. apply bind_lout; [apply al_later|]. intros rpg t1 _.
  destruct (dget _ _) as [l1|]; [|exact I]. destruct (negb (if leaf then is_leaf l1 else is_branch l1)); [exact I|].
  apply bind_lout; [apply lift_lout|]. intros [l r] t2 _.
  destruct (negb leaf && _); [apply later_put|].
  pose proof (lift_lout (put_dirty (put_dirty t2 lpg l) rpg r) (first_key leaf r)) as L.
  assert (L2 : later t2 (put_dirty (put_dirty t2 lpg l) rpg r)) by (eapply later_trans; apply later_put).
  destruct (lift _ _) as [d t5|e t5| |]; cbn [bindo lout] in *; auto; eapply later_trans; eauto.
Qed.
Lemma insert_split_lout t lpg rpg l r k data child : lout t (insert_split t lpg rpg l r k data child).
Proof.
  unfold insert_split. apply bind_lout; [apply lift_lout|]. intros [found i] t1 _. destruct (negb found && _).
  - apply bind_lout; [apply lift_lout|]. intros [? j] t2 _. apply bind_lout; [apply lift_lout|]. intros r' t3 _. apply later_put.
  - apply bind_lout; [apply lift_lout|]. intros l' t2 _. cbn [lout]. destruct (lpg =? rpg); [apply later_refl|apply later_put].
Qed.
Lemma propagate_lout : forall ps t k rpg, lout t (propagate al E t ps k rpg).
Proof.
  induction ps as [|pp ps IH]; intros t k rpg; cbn [propagate]; [apply later_refl|].
  destruct (dget _ _) as [p|]; [|apply later_refl]. apply bind_lout; [apply lift_lout|]. intros [? i] t1 _.
  destruct (page_insert _ _ _ _ _) as [p'|e| |]; try exact I; [apply later_put|].
  destruct e; try apply later_refl. apply bind_lout; [apply split_node_lout|]. intros [[[rpg2 l] r] d] t2 _.
  apply bind_lout; [apply insert_split_lout|]. intros _ t3 _. apply IH.
Qed.
Lemma root_split_lout t old rpg d : lout t (root_split al E t old rpg d).
Proof.
  unfold root_split. apply bind_lout; [apply al_later|]. intros new t1 _. destruct (dget _ _) as [p|]; [|apply later_refl].
  apply bind_lout; [apply lift_lout|]. intros lk t2 _. apply bind_lout; [apply lift_lout|]. intros n1 t3 _.
  apply bind_lout; [apply lift_lout|]. intros n2 t4 _. apply later_put.
Qed.
Lemma leaf_split_lout t path lpg k v : lout t (leaf_split al E t path lpg k v).
Proof.
  unfold leaf_split. apply bind_lout; [apply split_node_lout|]. intros [[[rpg l] r] d] t1 _.
  apply bind_lout; [apply insert_split_lout|]. intros _ t2 _. apply bind_lout; [apply propagate_lout|]. intros [[d' rpg']|] t3 _.
  - apply bind_lout; [apply root_split_lout|]. intros new t4 _. apply later_refl.
  - apply later_refl.
Qed.
Lemma new_root_leaf_lout t k v : lout t (new_root_leaf al E t k v).
Proof.
  unfold new_root_leaf. apply bind_lout; [apply al_later|]. intros new t1 _. apply bind_lout; [apply lift_lout|].
  intros p t2 _. apply later_put.
Qed.
Lemma db_put_lout t k v : lout t (db_put_with al E t k v).
Proof.
  unfold db_put_with. destruct (t_rdonly t); [apply later_refl|]. destruct (t_root t =? 0).
  - apply bind_lout; [apply new_root_leaf_lout|]. intros new t1 _. apply later_root.
  - apply bind_lout; [apply lift_lout|]. intros [path leaf] t1 _. cbv zeta. apply bind_lout; [apply lift_lout|].
    intros [found i] t2 _. destruct (found && _); [apply later_refl|]. apply bind_lout; [apply cow_path_lout|]. intros _ t3 _.
    destruct (dget _ _) as [p0|]; [|exact I]. apply bind_lout.
    + destruct found; [|apply later_refl]. apply bind_lout; [apply lift_lout|]. intros p1 t4 _. apply later_put.
    + intros p1 t4 _. destruct (page_insert _ _ _ _ _) as [p2|e| |]; try exact I; [apply later_put|].
      destruct e; try apply later_refl. apply bind_lout; [apply leaf_split_lout|]. intros [r|] t5 _; [apply later_root|apply later_refl].
Qed.
Lemma db_del_lout t k data : lout t (db_del E t k data).
Proof.
  unfold db_del. destruct (t_rdonly t); [apply later_refl|]. destruct (t_root t =? 0); [apply later_refl|].
  apply bind_lout; [apply lift_lout|]. intros [path leaf] t1 _. apply bind_lout.
  - destruct (page_search leaf k) as [[[] i]| | |]; cbn; auto using later_refl.
  - intros [found i] t2 _. apply bind_lout; [apply cow_path_lout|]. intros _ t3 _. destruct (dget _ _) as [p|]; [|apply later_refl].
    apply bind_lout; [apply lift_lout|]. intros p' t4 _. apply later_put.
Qed.
Lemma put_aliased_lout t q o v : lout t (put_aliased (db_put_with al) E t q o v).
Proof.
  unfold put_aliased. destruct (dget _ _) as [p|]; [|exact I]. cbv zeta. destruct (_ || _); [apply db_put_lout|].
  destruct (find_path _ _ _ _ _) as [[path leaf]| | |]; try apply db_put_lout.
  destruct (page_search _ _) as [[[] i]| | |]; try apply db_put_lout.
  destruct (leaf_of path =? q); [|apply db_put_lout]. destruct (copy_overlaps _ _ _); [exact I|].
  destruct (page_insert _ _ _ _ _) as [p'| | |]; try apply db_put_lout.
  apply bind_lout; [apply cow_path_lout|]. intros _ t1 _. apply later_put.
Qed.
Lemma reclaim_lout t : lout t (reclaim_with (db_put_with al) E t).
Proof.
  unfold reclaim_with. destruct (t_free_root t =? 0); [apply later_refl|]. cbv zeta.
  destruct (reclaim_scan _ _ _ _ _) as [[[k d] c]| | |]; try exact I; [|apply later_refl].
  assert (L : lout (set_root t (t_free_root t)) (update_reclaimed (db_put_with al) E (set_root t (t_free_root t)) k d (key_place c))).
  { unfold update_reclaimed. destruct (_ =? 1); [apply db_del_lout|]. apply bind_lout; [apply db_del_lout|]. intros _ t1 _.
    destruct (dget _ _); [apply put_aliased_lout|apply db_put_lout]. }
  destruct (update_reclaimed _ _ _ _ _ _) as [x t'|e t'| |]; cbn [lout] in *; auto;
    (eapply later_trans; [apply later_root|eapply later_trans; [exact L|apply later_root]]).
Qed.
Lemma alloc_with_lout n t : lout t (alloc_with (reclaim_with (db_put_with al)) E t n).
Proof.
  unfold alloc_with. destruct (_ || _); [apply later_refl|]. cbv zeta.
  assert (X : forall t', later t' (set_last t' (t_last t' + n))) by (intro; apply later_last; lia).
  destruct (n =? 1); [|apply X]. pose proof (reclaim_lout t) as L.
  destruct (reclaim_with _ _ _); cbn [lout] in *; auto. eapply later_trans; eauto.
Qed.
End Later.

Lemma alloc_fuel_lout f : forall E t, lout t (alloc_fuel f E t).
Proof. induction f as [|f IH]; intros E t; [exact I|]. cbn [alloc_fuel]. apply alloc_with_lout. exact IH. Qed.
Lemma page_alloc_lout E t : lout t (page_alloc E t). Proof. apply alloc_fuel_lout. Qed.
Lemma put_later E t k v : lout t (db_put E t k v). Proof. apply db_put_lout. apply page_alloc_lout. Qed.
Lemma insert_free_lout al E t k v : (forall E t, lout t (al E t)) -> lout t (insert_into_free_db al E t k v).
Proof.
  intro A. unfold insert_into_free_db. destruct (find_path _ _ _ _ _) as [[path leaf]| | |]; try exact I; [|apply new_root_leaf_lout; auto].
  apply bind_lout; [apply lift_lout|]. intros [found i] t2 _. destruct found; [apply later_refl|]. cbv zeta.
  apply bind_lout; [apply cow_path_lout|]. intros _ t3 _. destruct (dget _ _) as [p|]; [|exact I].
  destruct (page_insert _ _ _ _ _) as [p'|e| |]; try exact I; [apply later_put|]. destruct e; try apply later_refl.
  apply bind_lout; [apply leaf_split_lout; auto|]. intros new t5 _. apply later_refl.
Qed.
Lemma populate_lout E t : lout t (populate_free_db page_alloc E t).
Proof.
  unfold populate_free_db. destruct (t_freed t); [apply later_refl|]. cbv zeta. destruct (_ || _).
  - apply new_root_leaf_lout. apply page_alloc_lout.
  - apply insert_free_lout. apply page_alloc_lout.
Qed.

(** ** page functions on any well-formed page *)
Definition dsize (data : option bytes) : N := match data with Some d => blen d | None => 0 end.
Lemma blen_node leaf k data child r : node_bytes leaf k data child = Some r -> blen r <= 10 + blen k + dsize data.
Proof.
  destruct leaf; cbn [node_bytes].
  - destruct data as [d|]; [|discriminate]. intros [= <-]. unfold leaf_node_bytes, dsize. rewrite !blen_app, !blen_le. lia.
  - intros [= <-]. unfold branch_node_bytes. rewrite !blen_app, !blen_le. lia.
Qed.
Lemma page_insert_wfp p i k data child p' : wfp p -> i <= pg_nkeys p -> 10 + blen k + dsize data < 65536 ->
  page_insert p i k data child = Ok p' -> wfp p' /\ pg_pgno p' = pg_pgno p /\ pg_nkeys p' = pg_nkeys p + 1.
Proof.
  intros [leaf W] Hi Hs HI. destruct (node_bytes leaf k data child) as [r|] eqn:NB.
  - pose proof (blen_node _ _ _ _ _ NB). pose proof (page_insert_ok leaf p i k data child r W Hi NB ltac:(lia)) as X.
    destruct (page_free p <? blen r + 2); [congruence|]. destruct X as (p2 & A & B & _ & N & C & _).
    rewrite HI in A. injection A as <-. splits; [exists leaf| |]; auto.
  - destruct leaf; [|discriminate]. destruct data; [discriminate|]. unfold page_insert in HI.
    rewrite (wf_is_leaf _ _ W) in HI. discriminate.
Qed.
Lemma page_delete_wfp p i p' : wfp p -> page_delete p i = Ok p' -> wfp p' /\ pg_pgno p' = pg_pgno p.
Proof.
  intros [leaf W] HD. destruct (N.ltb_spec i (pg_nkeys p)) as [Hi|Hi].
  - destruct (page_delete_ok leaf p i W Hi) as (p2 & A & B & _ & _ & C & _). rewrite HD in A. injection A as <-. split; [exists leaf|]; auto.
  - unfold page_delete in HD. rewrite (proj2 (N.leb_le _ _) Hi) in HD. discriminate.
Qed.
Lemma page_search_wfp p k b i : wfp p -> page_search p k = Ok (b, i) -> i <= pg_nkeys p.
Proof.
  intros [leaf W] H. destruct (page_search_safe leaf p k W) as (b' & i' & A & B & _). rewrite H in A. injection A as <- <-. exact B.
Qed.
Lemma first_key_wfp leaf p k : first_key leaf p = Ok k -> blen k <= 4096.
Proof.
  intros H. unfold first_key in H. destruct (key_in_page leaf p (slot p 0)) eqn:X; [|discriminate]. injection H as <-.
  unfold key_in_page in X. apply andb_true_iff in X. destruct X as [_ X]. apply N.leb_le in X. unfold node_key. unfold blen.
  rewrite readn_length. unfold PAGE_SIZE in X. lia.
Qed.

(** ** the invariant *)
Definition DI (t : txn) : Prop := t_last t < 2 ^ 64 -> dirty_ok t.
Lemma nodup_filter {T} (f : N * T -> bool) d : NoDup (map fst d) -> NoDup (map fst (filter f d)).
Proof.
  induction d as [|[k p] d IH]; cbn [map filter fst]; intro H; auto. inversion H as [|? ? Hn Hd]; subst.
  destruct (f (k, p)); cbn [map fst]; auto. constructor; auto. intro Hi. apply Hn.
  apply in_map_iff in Hi. destruct Hi as (e & <- & He). apply filter_In in He. apply in_map. tauto.
Qed.
Lemma put_ok t k p : dirty_ok t -> wfp p -> pg_pgno p = k -> dirty_ok (put_dirty t k p).
Proof.
  intros [A B] W P. constructor.
  - cbn [put_dirty set_dirty t_dirty]. unfold dset. cbn [map fst]. constructor; [|apply nodup_filter; auto].
    intro Hi. apply in_map_iff in Hi. destruct Hi as ([k' p'] & E & He). cbn in E. apply filter_In in He. destruct He as [_ He].
    cbn [fst] in He. subst k'. rewrite N.eqb_refl in He. discriminate.
  - intros q p'. cbn [put_dirty set_dirty t_dirty]. rewrite dget_dset. destruct (N.eqb_spec k q) as [->|]; [|apply B].
    intros [= <-]. auto.
Qed.
Lemma put_DI t k p : DI t -> (t_last t < 2 ^ 64 -> wfp p /\ pg_pgno p = k) -> DI (put_dirty t k p).
Proof. intros H P L. cbn [put_dirty set_dirty t_last] in L. destruct (P L). apply put_ok; auto. Qed.
Lemma same_dirty_ok t t' : t_dirty t' = t_dirty t -> dirty_ok t -> dirty_ok t'.
Proof. intros E [A B]. constructor; rewrite E; auto. Qed.

Section Inv.
Variable al : allocator.
Variable E : env.
Hypothesis al_later : forall E t, lout t (al E t).
Hypothesis al_inv : forall t, DI t -> iout (al E t).
Hypothesis al_pg : forall t pg t', DI t -> al E t = Ret pg t' -> t_last t' < 2 ^ 64 -> pg < 2 ^ 64.
Hypothesis F : file_ok (e_file E).

Lemma get_writable_iout t p : DI t -> (blank p -> False) -> wfp p -> iout (get_writable t p).
Proof.
  intros H _ W. unfold get_writable. destruct (t_rdonly t); [exact H|]. cbv zeta. destruct (dget _ _); [exact H|].
  intro L. apply (same_dirty_ok (put_dirty t (pg_pgno p) p)); auto. apply put_ok; auto.
Qed.
(** pages on the way are not blank *)
Definition seen (t : txn) (pg : N) : Prop := dget (t_dirty t) pg <> None \/ ~ blank (e_file E pg).
Lemma cow_page_iout t pg : DI t -> seen t pg -> iout (cow_page E t pg).
Proof.
  intros H S. unfold cow_page. destruct (dget (t_dirty t) pg) as [p|] eqn:D; [exact H|].
  destruct S as [S|S]; [congruence|]. apply get_writable_iout; auto. destruct (F pg) as [B|[W _]]; [tauto|exact W].
Qed.
Lemma cow_path_iout : forall l t, DI t -> (forall q, In q l -> seen t q) -> iout (cow_path E t l).
Proof.
  induction l as [|pg l IH]; intros t H S; cbn [cow_path]; [exact H|].
  apply (bind_iout t).
  - apply cow_page_lout.
  - apply cow_page_iout; auto. apply S. left. auto.
  - intros x t1 _. apply cow_path_lout.
  - intros x t1 _ L D. apply IH; auto. intros q Hq. destruct (S q (or_intror Hq)) as [S1|S1]; [left; apply (la_dirty _ _ L); auto|right; auto].
Qed.
Lemma find_path_seen t : t_rdonly t = false -> forall f pg k path leaf, find_path f E t pg k = Ok (path, leaf) ->
  (forall q, In q path -> seen t q) /\ leaf = get_page E t (leaf_of path) /\ path <> [] /\ is_leaf leaf = true.
Proof.
  intro Hr. induction f as [|f IH]; intros pg k path leaf H; cbn [find_path] in H; [discriminate|].
  destruct (max_pgno E t <? pg); [discriminate|].
  assert (X : is_leaf (get_page E t pg) = true \/ is_branch (get_page E t pg) = true -> seen t pg).
  { unfold seen, get_page. rewrite Hr. destruct (dget (t_dirty t) pg); [left; discriminate|]. intros Y. right. intros [B1 B2]. destruct Y; congruence. }
  destruct (is_leaf (get_page E t pg)) eqn:L.
  - injection H as <- <-. splits; auto; try discriminate. intros q [<-|[]]. auto.
  - destruct (is_branch (get_page E t pg)) eqn:B; [|discriminate]. cbn [negb] in H.
    destruct (child_of (get_page E t pg) k) as [c| | |]; cbn [bindr] in H; try discriminate.
    destruct (find_path f E t c k) as [[path' leaf']| | |] eqn:FP; cbn [bindr] in H; try discriminate. injection H as <- <-.
    destruct (IH _ _ _ _ FP) as (A & A2 & A3 & A4). splits; auto; try discriminate.
    + intros q [<-|Hq]; auto.
    + rewrite A2. unfold leaf_of. destruct path'; [congruence|]. reflexivity.
Qed.
Lemma split_node_iout t leaf lpg : DI t -> iout (split_node al E t leaf lpg) /\
  forall rpg l r d t', split_node al E t leaf lpg = Ret (rpg, l, r, d) t' -> t_last t' < 2 ^ 64 ->
    wf_page leaf l /\ wf_page leaf r /\ pg_pgno l = lpg /\ pg_pgno r = rpg /\ blen d <= 4096 /\ dget (t_dirty t') rpg = Some r.
Proof.
  intro H. unfold split_node. destruct (dget (t_dirty t) lpg) as [l0|] eqn:D; [|split; [exact I|discriminate]].
  destruct (negb (if leaf then is_leaf l0 else is_branch l0)); [split; [exact H|discriminate]|].
  destruct (t_rdonly t); [split; [exact H|discriminate]|].
  pose proof (al_inv t H) as AI. pose proof (al_pg t) as AP. pose proof (al_later E t) as AL.
  destruct (al E t) as [rpg t1|e t1| |]; cbn [bindo iout lout] in *; try (split; [exact AI || exact I|discriminate]).
  destruct (dget (t_dirty t1) lpg) as [l1|] eqn:D1; [|split; [exact I|discriminate]].
  destruct (negb (if leaf then is_leaf l1 else is_branch l1)) eqn:EK; [split; [exact I|discriminate]|].
  assert (X : t_last t1 < 2 ^ 64 -> wf_page leaf l1 /\ pg_pgno l1 = lpg /\ rpg < 2 ^ 64).
  { intro L. destruct (do_pages _ (AI L) _ _ D1) as [[lf W] P]. splits; auto; [|eapply AP; eauto].
    replace leaf with lf; auto. pose proof (wf_is_leaf _ _ W) as W1. pose proof (wf_is_branch _ _ W) as W2.
    destruct leaf; rewrite ?W1, ?W2 in EK; destruct lf; auto; discriminate. }
  destruct (split_page leaf l1 rpg) as [[l r]|e| |] eqn:SP; cbn [lift bindo]; try (split; [exact AI || exact I|discriminate]).
  assert (Y : t_last t1 < 2 ^ 64 -> wf_page leaf l /\ wf_page leaf r /\ pg_pgno l = lpg /\ pg_pgno r = rpg).
  { intro L. destruct (X L) as (W & P & B). destruct (split_page_ok leaf l1 rpg W) as (l2 & r2 & A1 & A2 & A3 & _ & _ & _ & _ & A4 & A5 & _).
    rewrite SP in A1. injection A1 as <- <-. rewrite N.mod_small in A5 by auto. splits; auto; congruence. }
  assert (Z1 : DI (put_dirty t1 lpg l)).
  { apply put_DI; auto. intro L. destruct (Y L) as (A & B & C & D2). split; auto. exists leaf; auto. }
  destruct (negb leaf && (pg_nkeys r =? 0)); [split; [exact Z1|discriminate]|].
  assert (Z2 : DI (put_dirty (put_dirty t1 lpg l) rpg r)).
  { apply put_DI; auto. intro L. destruct (Y L) as (A & B & C & D2). split; auto. exists leaf; auto. }
  destruct (first_key leaf r) as [d|e| |] eqn:FK; cbn [lift bindo]; try (split; [exact Z2 || exact I|discriminate]).
  split; [exact Z2|]. intros rpg' l' r' d' t' [= <- <- <- <- <-] L. destruct (Y L) as (A & B & C & D2). splits; auto.
  - eapply first_key_wfp; eauto.
  - cbn [put_dirty set_dirty t_dirty]. rewrite dget_dset, N.eqb_refl. reflexivity.
Qed.
Lemma insert_split_iout t lpg rpg l r k data child : DI t -> 10 + blen k + dsize data < 65536 ->
  (t_last t < 2 ^ 64 -> wfp l /\ wfp r /\ pg_pgno l = lpg /\ pg_pgno r = rpg) -> iout (insert_split t lpg rpg l r k data child).
Proof.
  intros H Hs X. unfold insert_split. destruct (page_search l k) as [[found i]|e| |] eqn:SL; cbn [lift bindo]; try exact I; try exact H.
  destruct (negb found && (pg_nkeys l <=? i)).
  - destruct (page_search r k) as [[? j]|e| |] eqn:SR; cbn [lift bindo]; try exact I; try exact H.
    destruct (page_insert r j k data child) as [r'|e| |] eqn:PI; cbn [lift bindo]; try exact I; try exact H.
    apply put_DI; auto. intro L. destruct (X L) as (A & B & C & D).
    destruct (page_insert_wfp r j k data child r' B (page_search_wfp _ _ _ _ B SR) Hs PI) as (? & ? & _). split; [auto|congruence].
  - destruct (page_insert l i k data child) as [l'|e| |] eqn:PI; cbn [lift bindo]; try exact I; try exact H.
    cbn [iout]. destruct (lpg =? rpg); [exact H|]. apply put_DI; auto. intro L. destruct (X L) as (A & B & C & D).
    destruct (page_insert_wfp l i k data child l' A (page_search_wfp _ _ _ _ A SL) Hs PI) as (? & ? & _). split; [auto|congruence].
Qed.
Lemma propagate_iout : forall ps t k rpg, DI t -> blen k <= 4096 -> iout (propagate al E t ps k rpg) /\
  forall k' r' t', propagate al E t ps k rpg = Ret (Some (k', r')) t' -> t_last t' < 2 ^ 64 -> blen k' <= 4096.
Proof.
  induction ps as [|pp ps IH]; intros t k rpg H Hk; cbn [propagate].
  { split; [exact H|]. intros k' r' t' [= <- <- <-] _. exact Hk. }
  destruct (dget (t_dirty t) pp) as [p|] eqn:D; [|split; [exact H|discriminate]].
  destruct (page_search p k) as [[? i]|e| |] eqn:SR; cbn [lift bindo]; try (split; [exact H || exact I|discriminate]).
  destruct (page_insert p i k None rpg) as [p'|e| |] eqn:PI; try (split; [exact I|discriminate]).
  - split; [|discriminate]. apply put_DI; auto. intro L. destruct (do_pages _ (H L) _ _ D) as [W P].
    destruct (page_insert_wfp p i k None rpg p' W (page_search_wfp _ _ _ _ W SR) ltac:(cbn [dsize]; lia) PI) as (? & ? & _). split; [auto|congruence].
  - destruct e; try (split; [exact H|discriminate]). destruct (split_node_iout t false pp H) as [SI SF].
    pose proof (split_node_lout al al_later E t false pp) as SL.
    destruct (split_node al E t false pp) as [[[[rpg2 l] r] d] t2|e t2| |]; cbn [bindo iout lout] in *; try (split; [exact SI || exact I|discriminate]).
    assert (X : t_last t2 < 2 ^ 64 -> wfp l /\ wfp r /\ pg_pgno l = pp /\ pg_pgno r = rpg2).
    { intro L. destruct (SF _ _ _ _ _ eq_refl L) as (A & B & C & D2 & _). splits; auto; exists false; auto. }
    pose proof (insert_split_iout t2 pp rpg2 l r k None rpg SI ltac:(cbn [dsize]; lia) X) as II.
    pose proof (insert_split_lout t2 pp rpg2 l r k None rpg) as IL.
    destruct (insert_split t2 pp rpg2 l r k None rpg) as [[] t3|e t3| |]; cbn [bindo iout lout] in *; try (split; [exact II || exact I|discriminate]).
    destruct (N.ltb_spec (t_last t3) (2 ^ 64)) as [L3|L3].
    + assert (Hd : blen d <= 4096). { pose proof (la_last _ _ IL). destruct (SF _ _ _ _ _ eq_refl ltac:(lia)) as (_ & _ & _ & _ & Hd & _). exact Hd. }
      apply IH; auto.
    + pose proof (propagate_lout al al_later E ps t3 d (pg_pgno r)) as PL. split.
      * destruct (propagate al E t3 ps d (pg_pgno r)) as [x t'|x t'| |]; cbn [iout lout] in *; auto; intro; pose proof (la_last _ _ PL); lia.
      * intros k' r' t' HP L. rewrite HP in PL. cbn [lout] in PL. pose proof (la_last _ _ PL). lia.
Qed.
Lemma new_page_ok leaf pg : pg < 2 ^ 64 -> wfp (init_page pg (kind leaf)) /\ pg_pgno (init_page pg (kind leaf)) = pg.
Proof. intro H. split; [exists leaf; apply init_wf|]. rewrite init_pgno. apply N.mod_small. exact H. Qed.
Lemma root_split_iout t old rpg d : DI t -> (t_last t < 2 ^ 64 -> blen d <= 4096) -> iout (root_split al E t old rpg d).
Proof.
  intros H Hd. unfold root_split. pose proof (al_inv t H) as AI. pose proof (al_pg t) as AP. pose proof (al_later E t) as AL.
  destruct (al E t) as [new t1|e t1| |]; cbn [bindo iout lout] in *; try exact I; try exact AI.
  destruct (dget (t_dirty t1) old) as [p|]; [|exact AI].
  destruct (first_key (negb (is_branch p)) p) as [lk|e| |] eqn:FK; cbn [lift bindo]; try exact I; try exact AI.
  destruct (page_insert _ 0 lk None old) as [n1|e| |] eqn:P1; cbn [lift bindo]; try exact I; try exact AI.
  destruct (page_insert n1 1 d None rpg) as [n2|e| |] eqn:P2; cbn [lift bindo]; try exact I; try exact AI.
  cbn [iout]. apply put_DI; auto. intro L. pose proof (AP new t1 H eq_refl L) as Hn. pose proof (la_last _ _ AL).
  destruct (new_page_ok false new Hn) as [W P].
  apply first_key_wfp in FK.
  destruct (page_insert_wfp _ 0 lk None old n1 W (N.le_0_l _) ltac:(cbn [dsize]; lia) P1) as (W1 & Q1 & N1).
  assert (H1 : 1 <= pg_nkeys n1) by lia. specialize (Hd ltac:(lia)).
  destruct (page_insert_wfp _ 1 d None rpg n2 W1 H1 ltac:(cbn [dsize]; lia) P2) as (W2 & Q2 & _). split; [auto|congruence].
Qed.
Lemma leaf_split_iout t path lpg k v : DI t -> 10 + blen k + blen v < 65536 -> iout (leaf_split al E t path lpg k v).
Proof.
  intros H Hs. unfold leaf_split. destruct (split_node_iout t true lpg H) as [SI SF].
  pose proof (split_node_lout al al_later E t true lpg) as SL.
  destruct (split_node al E t true lpg) as [[[[rpg l] r] d] t1|e t1| |]; cbn [bindo iout lout] in *; try exact I; try exact SI.
  assert (X : t_last t1 < 2 ^ 64 -> wfp l /\ wfp r /\ pg_pgno l = lpg /\ pg_pgno r = rpg).
  { intro L. destruct (SF _ _ _ _ _ eq_refl L) as (A & B & C & D2 & _). splits; auto; exists true; auto. }
  pose proof (insert_split_iout t1 lpg rpg l r k (Some v) 0 SI Hs X) as II.
  pose proof (insert_split_lout t1 lpg rpg l r k (Some v) 0) as IL.
  destruct (insert_split t1 lpg rpg l r k (Some v) 0) as [[] t2|e t2| |]; cbn [bindo iout lout] in *; try exact I; try exact II.
  pose proof (propagate_lout al al_later E (tl (rev path)) t2 d (pg_pgno r)) as PL.
  destruct (N.ltb_spec (t_last t2) (2 ^ 64)) as [L2|L2].
  - assert (Hd : blen d <= 4096). { pose proof (la_last _ _ IL). destruct (SF _ _ _ _ _ eq_refl ltac:(lia)) as (_ & _ & _ & _ & Hd & _). exact Hd. }
    destruct (propagate_iout (tl (rev path)) t2 d (pg_pgno r) II Hd) as [PI PF].
    destruct (propagate al E t2 (tl (rev path)) d (pg_pgno r)) as [[[d' rpg']|] t3|e t3| |]; cbn [bindo iout lout] in *; try exact I; try exact PI.
    pose proof (root_split_iout t3 (hd 0 path) rpg' d' PI ltac:(intro; eapply PF; eauto)) as RI.
    destruct (root_split al E t3 (hd 0 path) rpg' d'); cbn [bindo iout] in *; try exact I; try exact RI.
  - destruct (propagate al E t2 (tl (rev path)) d (pg_pgno r)) as [[[d' rpg']|] t3|e t3| |]; cbn [bindo iout lout] in *; try exact I;
      try (intro; pose proof (la_last _ _ PL); lia).
    pose proof (root_split_lout al al_later E t3 (hd 0 path) rpg' d') as RL.
    destruct (root_split al E t3 (hd 0 path) rpg' d'); cbn [bindo iout lout] in *; try exact I;
      (intro; pose proof (la_last _ _ PL); pose proof (la_last _ _ RL); lia).
Qed.
Lemma new_root_leaf_iout t k v : DI t -> 10 + blen k + blen v < 65536 -> iout (new_root_leaf al E t k v).
Proof.
  intros H Hs. unfold new_root_leaf. pose proof (al_inv t H) as AI. pose proof (al_pg t) as AP.
  destruct (al E t) as [new t1|e t1| |]; cbn [bindo iout lout] in *; try exact I; try exact AI.
  destruct (page_insert _ 0 k (Some v) 0) as [p|e| |] eqn:P1; cbn [lift bindo]; try exact I; try exact AI.
  cbn [iout]. apply put_DI; auto. intro L. pose proof (AP new t1 H eq_refl L) as Hn.
  destruct (new_page_ok true new Hn) as [W P].
  destruct (page_insert_wfp _ 0 k (Some v) 0 p W (N.le_0_l _) Hs P1) as (W1 & Q1 & _). split; [auto|congruence].
Qed.
Lemma leaf_key_page t path leaf i0 : t_rdonly t = false -> DI t -> t_last t < 2 ^ 64 -> path <> [] ->
  (forall q, In q path -> seen t q) -> leaf = get_page E t (leaf_of path) -> is_leaf leaf = true ->
  cow_path E t (rev path) = i0 -> match i0 with
  | Ret _ t3 => leaf_key E t (leaf_of path) = leaf_of path /\ (t_last t3 < 2 ^ 64 -> dget (t_dirty t3) (leaf_of path) = Some leaf)
  | _ => True end.
Proof.
  intros Hr H L Hne S EL IL C. 
  assert (LK : leaf_key E t (leaf_of path) = leaf_of path).
  { unfold leaf_key. destruct (dget (t_dirty t) (leaf_of path)) eqn:D; auto.
    destruct (S (leaf_of path) (last_In _ _ Hne)) as [X|X]; [congruence|].
    destruct (F (leaf_of path)) as [B|[_ P]]; tauto. }
  destruct i0 as [[] t3| | |]; auto. split; auto.
  assert (G : forall l t t', t_rdonly t = false -> (forall q, In q l -> seen t q) -> cow_path E t l = Ret tt t' ->
     forall q, (get_page E t' q = get_page E t q) /\ (In q l -> dget (t_dirty t') q <> None)).
  { clear - F. induction l as [|pg l IH]; intros t t' Hr S C q; cbn [cow_path] in C.
    - injection C as <-. split; [auto|intros []].
    - destruct (cow_page E t pg) as [x t1| | |] eqn:CP; cbn [bindo] in C; try discriminate.
      assert (X : later t t1 /\ (forall q, get_page E t1 q = get_page E t q) /\ dget (t_dirty t1) pg <> None).
      { pose proof (cow_page_lout E t pg) as L. rewrite CP in L. split; [exact L|].
        unfold cow_page in CP. destruct (dget (t_dirty t) pg) as [p|] eqn:D.
        - injection CP as <- <-. split; auto. congruence.
        - unfold get_writable in CP. rewrite Hr in CP.
          destruct (S pg (or_introl eq_refl)) as [Y|Y]; [congruence|]. destruct (F pg) as [B|[_ P]]; [tauto|]. rewrite P, D in CP.
          injection CP as <- <-. unfold get_page. cbn [set_freed put_dirty set_dirty t_dirty t_rdonly]. rewrite Hr. split.
          + intro q0. rewrite dget_dset. destruct (N.eqb_spec pg q0) as [->|]; auto. rewrite D. reflexivity.
          + rewrite dget_dset, N.eqb_refl. discriminate. }
      destruct X as (L & V & D). destruct (IH t1 t' ltac:(rewrite (la_ro _ _ L); auto)
         ltac:(intros q0 Hq; destruct (S q0 (or_intror Hq)) as [Y|Y]; [left; apply (la_dirty _ _ L); auto|right; auto]) C q) as [A B].
      split; [rewrite A; auto|]. intros [<-|Hq]; auto.
      pose proof (cow_path_lout E l t1) as L2. rewrite C in L2. apply (la_dirty _ _ L2). auto. }
  intros _. pose proof (cow_path_lout E (rev path) t) as CL. rewrite C in CL. cbn [lout] in CL.
  destruct (G _ _ _ Hr (fun q Hq => S q (proj2 (in_rev path q) Hq)) C (leaf_of path)) as [A B].
  specialize (B (proj1 (in_rev path _) (last_In _ _ Hne))).
  unfold get_page in A. rewrite (la_ro _ _ CL), Hr in A. unfold get_page in EL. rewrite Hr in EL.
  destruct (dget (t_dirty t3) (leaf_of path)); [|congruence]. congruence.
Qed.

(** a state past the last page number makes no claim *)
Lemma iout_over {T} t (o : out T) : lout t o -> 2 ^ 64 <= t_last t -> iout o.
Proof. intros L H. destruct o; cbn [lout iout] in *; auto; intro; pose proof (la_last _ _ L); lia. Qed.

Lemma page_of_view t pg : t_rdonly t = false -> dirty_ok t -> is_leaf (get_page E t pg) = true \/ is_branch (get_page E t pg) = true ->
  wfp (get_page E t pg) /\ pg_pgno (get_page E t pg) = pg.
Proof.
  intros Hr D X. unfold get_page in *. rewrite Hr in *. destruct (dget (t_dirty t) pg) as [p|] eqn:G; [eapply do_pages; eauto|].
  destruct (F pg) as [[B1 B2]|Y]; [destruct X; congruence|exact Y].
Qed.

Lemma db_put_iout t k v : DI t -> 10 + blen k + blen v < 65536 -> iout (db_put_with al E t k v).
Proof.
  intros H Hs. destruct (N.ltb_spec (t_last t) (2 ^ 64)) as [L|L]; [|eapply iout_over; eauto; apply db_put_lout; auto].
  unfold db_put_with. destruct (t_rdonly t) eqn:Hr; [exact H|]. destruct (t_root t =? 0).
  { pose proof (new_root_leaf_iout t k v H Hs) as NI. destruct (new_root_leaf al E t k v) as [new t1|e t1| |]; cbn [bindo iout] in *; try exact I; try exact NI.
    intro L1. apply (same_dirty_ok t1); auto. }
  destruct (find_path MAX_TREE_DEPTH E t (t_root t) k) as [[path leaf]|e| |] eqn:FP; cbn [lift bindo]; try exact I; try exact H.
  destruct (find_path_seen t Hr _ _ _ _ _ FP) as (S & EL & Hne & IL).
  destruct (page_search leaf k) as [[found i]|e| |] eqn:PS; cbn [lift bindo]; try exact I; try exact H.
  destruct (found && _); [exact H|].
  pose proof (leaf_key_page t path leaf _ Hr H L Hne S EL IL eq_refl) as LP.
  pose proof (cow_path_iout (rev path) t H (fun q Hq => S q (proj2 (in_rev path q) Hq))) as CI.
  pose proof (cow_path_lout E (rev path) t) as CL.
  destruct (cow_path E t (rev path)) as [[] t3|e t3| |]; cbn [bindo iout lout] in *; try exact I; try exact CI.
  destruct LP as [-> LP]. destruct (dget (t_dirty t3) (leaf_of path)) as [p0|] eqn:D0; [|exact I].
  destruct (page_of_view t (leaf_of path) Hr (H L)) as [W P]; [left; congruence|]. rewrite <- EL in W, P.
  destruct (N.ltb_spec (t_last t3) (2 ^ 64)) as [L3|L3].
  2: { match goal with |- iout ?o => assert (X : lout t3 o) end.
       { apply bind_lout; [destruct found; [|apply later_refl]; apply bind_lout; [apply lift_lout|]; intros p1 t4 _; apply later_put|].
         intros p1 t4 _. destruct (page_insert _ _ _ _ _) as [p2|e| |]; try exact I; [apply later_put|]. destruct e; try apply later_refl.
         apply bind_lout; [apply leaf_split_lout; auto|]. intros [r|] t5 _; [apply later_root|apply later_refl]. }
       eapply iout_over; eauto. }
  specialize (LP L3). injection LP as ->.
  pose proof (page_search_wfp _ _ _ _ W PS) as Hi.
  assert (X : exists p1 t4, (if found then run p1, t4 <- lift t3 (page_delete leaf i) ;; Ret p1 (put_dirty t4 (leaf_of path) p1) else Ret leaf t3) = Ret p1 t4 /\
     wfp p1 /\ pg_pgno p1 = leaf_of path /\ DI t4 /\ i <= pg_nkeys p1).
  { destruct found.
    - destruct W as [lf W]. destruct (page_search_safe lf leaf k W) as (b' & i' & A & B & B2). rewrite PS in A. injection A as <- <-.
      destruct (page_delete_ok lf leaf i W (B2 eq_refl)) as (p1 & C1 & C2 & _ & C3 & C4 & _). rewrite C1. cbn [lift bindo].
      exists p1, (put_dirty t3 (leaf_of path) p1). splits; auto; [exists lf; auto|congruence| |].
      + apply put_DI; auto. intros _. split; [exists lf; auto|congruence].
      + specialize (B2 eq_refl). lia.
    - exists leaf, t3. splits; auto. }
  destruct X as (p1 & t4 & -> & W1 & P1 & D4 & Hi1). cbn [bindo].
  destruct (page_insert p1 i k (Some v) 0) as [p2|e| |] eqn:PI; try exact I.
  - apply put_DI; auto. intros _. destruct (page_insert_wfp _ i k (Some v) 0 p2 W1 Hi1 Hs PI) as (A & B & _). split; [auto|congruence].
  - destruct e; try exact D4. pose proof (leaf_split_iout t4 path (leaf_of path) k v D4 Hs) as SI.
    destruct (leaf_split al E t4 path (leaf_of path) k v) as [[r|] t5|e t5| |]; cbn [bindo iout] in *; try exact I; try exact SI.
    intro L5. apply (same_dirty_ok t5); auto.
Qed.

Lemma db_del_iout t k data : DI t -> iout (db_del E t k data).
Proof.
  intros H. unfold db_del. destruct (t_rdonly t) eqn:Hr; [exact H|]. destruct (t_root t =? 0); [exact H|].
  destruct (find_path MAX_TREE_DEPTH E t (t_root t) k) as [[path leaf]|e| |] eqn:FP; cbn [lift bindo]; try exact I; try exact H.
  destruct (find_path_seen t Hr _ _ _ _ _ FP) as (S & EL & Hne & IL).
  destruct (page_search leaf k) as [[[] i]|e| |] eqn:PS; cbn [lift bindo]; try exact I; try exact H.
  pose proof (cow_path_iout (rev path) t H (fun q Hq => S q (proj2 (in_rev path q) Hq))) as CI.
  destruct (cow_path E t (rev path)) as [[] t3|e t3| |]; cbn [bindo iout] in *; try exact I; try exact CI.
  destruct (dget (t_dirty t3) (leaf_of path)) as [p|] eqn:D; [|exact CI].
  destruct (page_delete p i) as [p'|e| |] eqn:PD; cbn [lift bindo]; try exact I; try exact CI.
  apply put_DI; auto. intro L. destruct (do_pages _ (CI L) _ _ D) as [W P]. destruct (page_delete_wfp _ _ _ W PD). split; [auto|congruence].
Qed.


Lemma cursor_size t c op k d c' : cursor_get E t c op = COk (k, d) c' -> 4 + blen k + blen d <= 4096.
Proof.
  unfold cursor_get. destruct (match op with NEXT => _ | _ => _ end) as [[] c1| | |]; try discriminate. unfold cursor_fetch.
  destruct (c_stack c1) as [|[p i] st]; [discriminate|]. destruct (c_eof c1); [discriminate|]. destruct (_ <=? i); [discriminate|].
  unfold leaf_value. destruct (slot_in_page i && key_in_page true p (slot p i) && _) eqn:X; [|discriminate]. intros [= <- <- _].
  apply andb_true_iff in X. destruct X as [_ X]. apply N.leb_le in X. cbn [node_size] in X. unfold node_key, leaf_val, blen. rewrite !readn_length.
  cbn [node_ksize]. unfold LEAF_BASE, PAGE_SIZE in X. lia.
Qed.
Lemma scan_size t o : forall f r k d c, reclaim_scan f E t o r = Ok (k, d, c) ->
  (forall k d c', r = COk (k, d) c' -> 4 + blen k + blen d <= 4096) -> 4 + blen k + blen d <= 4096.
Proof.
  induction f as [|f IH]; intros r k d c0 H HR; cbn [reclaim_scan] in H; [discriminate|].
  destruct r as [[k1 d1] c| | |]; try discriminate. destruct (_ && _) in H.
  - injection H as <- <- _. eapply HR; eauto.
  - eapply IH; eauto. intros. eapply cursor_size; eauto.
Qed.
Lemma put_aliased_iout t q o v : DI t -> 18 + blen v < 65536 -> iout (put_aliased (db_put_with al) E t q o v).
Proof.
  intros H Hs. destruct (N.ltb_spec (t_last t) (2 ^ 64)) as [L|L]; [|eapply iout_over; eauto; apply put_aliased_lout; auto].
  assert (P : iout (db_put_with al E t (readn (match dget (t_dirty t) q with Some p => p | None => zero_page end) o 8) v)).
  { apply db_put_iout; auto. }
  unfold put_aliased. destruct (dget (t_dirty t) q) as [p|] eqn:D; [|exact I]. cbv zeta.
  destruct (t_rdonly t) eqn:Hr; [exact P|]. destruct (t_root t =? 0); [exact P|]. cbn [orb].
  destruct (find_path MAX_TREE_DEPTH E t (t_root t) _) as [[path leaf]|e| |] eqn:FP; try exact P.
  destruct (page_search leaf _) as [[[] i]| | |] eqn:PS; try exact P.
  destruct (N.eqb_spec (leaf_of path) q) as [LQ|]; [|exact P]. destruct (copy_overlaps _ _ _); [exact I|].
  destruct (page_insert p i _ _ _) as [p'| | |] eqn:PI; try exact P.
  destruct (find_path_seen t Hr _ _ _ _ _ FP) as (S & EL & Hne & IL).
  assert (leaf = p) as ->. { rewrite EL, LQ. unfold get_page. rewrite Hr, D. reflexivity. }
  pose proof (cow_path_iout (rev path) t H (fun q Hq => S q (proj2 (in_rev path q) Hq))) as CI.
  destruct (cow_path E t (rev path)) as [[] t3|e t3| |]; cbn [bindo iout] in *; try exact I; try exact CI.
  apply put_DI; auto. intros _. destruct (do_pages _ (H L) _ _ D) as [W PQ].
  assert (B8 : blen (bytes_after_sizes p (blen v) o) = 8) by reflexivity.
  destruct (page_insert_wfp _ i _ (Some v) 0 p' W (page_search_wfp _ _ _ _ W PS) ltac:(rewrite B8; cbn [dsize]; lia) PI) as (A & B & _). split; [auto|congruence].
Qed.
Lemma reclaim_iout t : DI t -> iout (reclaim_with (db_put_with al) E t) /\
  forall pg t', reclaim_with (db_put_with al) E t = Ret pg t' -> pg < 2 ^ 64.
Proof.
  intro H. unfold reclaim_with. destruct (t_free_root t =? 0); [split; [exact H|discriminate]|]. cbv zeta.
  set (tf := set_root t (t_free_root t)). assert (Hf : DI tf) by (intro L; apply (same_dirty_ok t); auto).
  destruct (reclaim_scan _ _ _ _ _) as [[[k d] c]| | |] eqn:RS; try (split; [exact I || exact H|discriminate]).
  assert (Hs : 4 + blen k + blen d <= 4096). { eapply scan_size; [exact RS|]. intros. eapply cursor_size; eauto. }
  assert (U : iout (update_reclaimed (db_put_with al) E tf k d (key_place c))).
  { unfold update_reclaimed. destruct (_ =? 1); [apply db_del_iout; auto|]. pose proof (db_del_iout tf k None Hf) as DIo.
    destruct (db_del E tf k None) as [x t1|e t1| |]; cbn [bindo iout] in *; try exact I; try exact DIo.
    assert (blen (skipn 8 d) <= blen d) by (unfold blen; rewrite skipn_length; lia).
    destruct (dget _ _); [apply put_aliased_iout|apply db_put_iout]; auto; lia. }
  destruct (update_reclaimed (db_put_with al) E tf k d (key_place c)) as [x t'|e t'| |]; cbn [iout] in *; try (split; [exact I|discriminate]).
  - split; [intro L; apply (same_dirty_ok t'); auto|]. intros pg t2 [= <- <-]. apply N.mod_lt. discriminate.
  - split; [intro L; apply (same_dirty_ok t'); auto|discriminate].
Qed.
Lemma alloc_with_iout n t : DI t -> iout (alloc_with (reclaim_with (db_put_with al)) E t n) /\
  forall pg t', alloc_with (reclaim_with (db_put_with al)) E t n = Ret pg t' -> t_last t' < 2 ^ 64 -> pg < 2 ^ 64.
Proof.
  intro H. unfold alloc_with. destruct (n =? 0) eqn:En; [cbn [orb]; split; [exact H|discriminate]|]. cbn [orb]. apply N.eqb_neq in En.
  destruct (t_rdonly t); [split; [exact H|discriminate]|]. cbv zeta.
  assert (X : forall t', DI t' -> iout (Ret (t_last t' + 1) (set_last t' (t_last t' + n))) /\
     forall pg t2, Ret (t_last t' + 1) (set_last t' (t_last t' + n)) = Ret pg t2 -> t_last t2 < 2 ^ 64 -> pg < 2 ^ 64).
  { intros t' H'. split; [intro L; cbn [set_last t_last] in L; apply (same_dirty_ok t'); auto; apply H'; lia|].
    intros pg t2 [= <- <-] L. cbn [set_last t_last] in L. lia. }
  destruct (n =? 1); [|apply X; auto]. destruct (reclaim_iout t H) as [RI RP].
  destruct (reclaim_with (db_put_with al) E t) as [pg t'|e t'| |]; cbn [iout] in *; try (split; [exact I|discriminate]).
  - split; [exact RI|]. intros pg2 t2 [= <- <-] _. eapply RP; eauto.
  - apply X. exact RI.
Qed.
Lemma insert_free_iout t k v : t_rdonly t = false -> DI t -> 10 + blen k + blen v < 65536 -> iout (insert_into_free_db al E t k v).
Proof.
  intros Hr H Hs. assert (LO : lout t (insert_into_free_db al E t k v)) by (apply insert_free_lout; auto).
  destruct (N.ltb_spec (t_last t) (2 ^ 64)) as [L|L]; [|eapply iout_over; eauto]. clear LO.
  unfold insert_into_free_db.
  destruct (find_path MAX_TREE_DEPTH E t (t_free_root t) k) as [[path leaf]|e| |] eqn:FP; try exact I; [|apply new_root_leaf_iout; auto].
  destruct (find_path_seen t Hr _ _ _ _ _ FP) as (S & EL & Hne & IL).
  destruct (page_search leaf k) as [[found i]|e| |] eqn:PS; cbn [lift bindo]; try exact I; try exact H.
  destruct found; [exact H|].
  pose proof (leaf_key_page t path leaf _ Hr H L Hne S EL IL eq_refl) as LP.
  pose proof (cow_path_iout (rev path) t H (fun q Hq => S q (proj2 (in_rev path q) Hq))) as CI.
  destruct (cow_path E t (rev path)) as [[] t3|e t3| |]; cbn [bindo iout] in *; try exact I; try exact CI.
  destruct LP as [-> LP]. destruct (dget (t_dirty t3) (leaf_of path)) as [p0|] eqn:D0; [|exact I].
  destruct (page_of_view t (leaf_of path) Hr (H L)) as [W P]; [left; congruence|]. rewrite <- EL in W, P.
  pose proof (page_search_wfp _ _ _ _ W PS) as Hi.
  destruct (page_insert p0 i k (Some v) 0) as [p2|e| |] eqn:PI; try exact I.
  - apply put_DI; auto. intros L3. specialize (LP L3). injection LP as ->.
    destruct (page_insert_wfp _ i k (Some v) 0 p2 W Hi Hs PI) as (A & B & _). split; [auto|congruence].
  - destruct e; try exact CI. pose proof (leaf_split_iout t3 path (leaf_of path) k v CI Hs) as SI.
    destruct (leaf_split al E t3 path (leaf_of path) k v) as [new t5|e t5| |]; cbn [bindo iout] in *; try exact I; try exact SI.
Qed.
End Inv.

Lemma alloc_fuel_iout E (F : file_ok (e_file E)) f : forall t, DI t -> iout (alloc_fuel f E t) /\
  forall pg t', alloc_fuel f E t = Ret pg t' -> t_last t' < 2 ^ 64 -> pg < 2 ^ 64.
Proof.
  induction f as [|f IH]; intros t H; [split; [exact I|discriminate]|]. cbn [alloc_fuel].
  apply alloc_with_iout; auto.
  - apply alloc_fuel_lout.
  - intros t0 H0. apply IH; auto.
  - intros t0 pg t' H0 A. apply (proj2 (IH t0 H0) pg t' A).
Qed.

(** put, del and the Free DB update keep the invariant, whatever they return *)
Lemma put_iout E t k v : file_ok (e_file E) -> DI t -> 10 + blen k + blen v < 65536 -> iout (db_put E t k v).
Proof.
  intros F H Hs. apply db_put_iout; auto.
  - apply page_alloc_lout.
  - intros t0 H0. apply alloc_fuel_iout; auto.
  - intros t0 pg t' H0 A. apply (proj2 (alloc_fuel_iout E F ALLOC_FUEL t0 H0) pg t' A).
Qed.
Lemma blen_enc l : blen (enc_pgnos l) = 8 * N.of_nat (length l).
Proof. induction l as [|x l IH]; cbn [enc_pgnos flat_map length]; [reflexivity|]. fold (enc_pgnos l). rewrite blen_app, blen_le, IH. lia. Qed.
Lemma populate_iout E t : file_ok (e_file E) -> t_rdonly t = false -> DI t -> N.of_nat (length (t_freed t)) < 8000 -> iout (populate_free_db page_alloc E t).
Proof.
  intros F Hr H Hs. unfold populate_free_db. destruct (t_freed t) as [|x l] eqn:EF; [exact H|]. cbv zeta. rewrite <- EF in *.
  assert (A1 : forall t0, DI t0 -> iout (page_alloc E t0)) by (intros t0 H0; apply alloc_fuel_iout; auto).
  assert (A2 : forall t0 pg t', DI t0 -> page_alloc E t0 = Ret pg t' -> t_last t' < 2 ^ 64 -> pg < 2 ^ 64)
    by (intros t0 pg t' H0 A; apply (proj2 (alloc_fuel_iout E F ALLOC_FUEL t0 H0) pg t' A)).
  assert (B : 10 + blen (le_bytes 8 (t_id t)) + blen (enc_pgnos (t_freed t)) < 65536) by (rewrite blen_enc, blen_le; lia).
  destruct (_ || _).
  - apply new_root_leaf_iout; auto using page_alloc_lout.
  - apply insert_free_iout; auto using page_alloc_lout.
Qed.
