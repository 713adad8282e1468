(** Properties C134 and C135: what is read was put, whatever has happened to the database. *)
From Verif Require Import Util PageModel PageSpec PageProofs PageOps PropPage TxnModel CursorModel TreeModel TreeSpec TreeProofs TreeOps TreeSplit TreePut TreeShape TxnInv PairInv DbModel SysModel DbSpec DbProofs DbCommit PropTree PropCommit PropMeta.
Local Open Scope N_scope.

(** ** Specification *)
(** the pair a call asks to store *)
Definition asked (a : act) : list (bytes * bytes) := match a with PutA _ k v => [(k, v)] | _ => [] end.
(** Limits of the file format: an entry is shorter than 64 KiB (also the list of the
    pages a transaction has freed, which is one entry), page numbers have 64 bits. *)
Definition in_limits (s : sys) (a : act) : Prop :=
  match a with
  | PutA _ k v => 10 + blen k + blen v < 65536
  | CommitW h _ => forall t, wget (y_writers s) h = Some t -> N.of_nat (length (t_freed t)) < 8000 /\
      forall fr t1, populate_free_db page_alloc (y_env s) t = Ret fr t1 -> t_last t1 < 2 ^ 64
  | _ => True
  end.
(** The life of a database file: [life puts s] if [s] is reached from a new file by calls
    of any threads in any order, whether they succeed or fail, by closing and opening the
    file, and by crashes: in a commit, after any of its file operations.  [puts] are the
    pairs given to put so far. *)
Inductive life : list (bytes * bytes) -> sys -> Prop :=
| life_new : life [] (start env_create)
| life_call puts s a s' : life puts s -> in_limits s a -> step s a = Some s' -> life (asked a ++ puts) s'
| life_reopen puts s E : life puts s -> env_open (disk_of (y_env s)) = Ok E -> life puts (start E)
| life_crash puts s h t fr t1 n keep E : life puts s -> in_limits s (CommitW h None) -> wget (y_writers s) h = Some t ->
    populate_free_db page_alloc (y_env s) t = Ret fr t1 -> over_meta t1 = false ->
    env_open (crash_disk (disk_of (y_env s)) (commit_ios (y_env s) t1 fr) n keep) = Ok E -> life puts (start E).
(** a transaction that is open *)
Definition open_txn (s : sys) (t : txn) : Prop :=
  (exists h, wget (y_writers s) h = Some t /\ t_last t < 2 ^ 64) \/ exists h who, rget (y_readers s) h = Some (who, t).
(** positions of a cursor after successful calls, in trees of fewer than 32 levels *)
Inductive cursor_at (E : env) (t : txn) : cursor -> Prop :=
| at_open : cursor_at E t cursor_open
| at_moved c op e c' : cursor_at E t c -> cursor_get E t c op = COk e c' -> (length (c_stack c') < 32)%nat -> cursor_at E t c'.

(** ** Reading *)
Lemma search_loop_found leaf p k : wf_page leaf p -> blen k < 65536 -> forall fuel l r i, r <= pg_nkeys p ->
  search_loop fuel p k l r = Ok (true, i) -> i < pg_nkeys p /\ keyat leaf p i = k.
Proof.
  intros W Hk. pose proof (wf_nkeys_small _ _ W) as Hn. unfold HDR, PAGE_SIZE in Hn.
  induction fuel as [|f IH]; intros l r i Hr E; [discriminate|].
  cbn [search_loop] in E. destruct (N.ltb_spec l r) as [Hlt|Hge]; [|discriminate].
  set (mid := u16 (l + (r - l) / 2)) in *.
  assert (Hm : l <= mid < r) by (unfold mid; rewrite u16_small by lia; lia).
  rewrite (wf_is_branch _ _ W), (wf_is_leaf _ _ W), negb_involutive in E.
  replace (negb leaf || leaf) with true in E by (destruct leaf; reflexivity).
  rewrite (wf_key_in_page leaf p mid W) in E by lia. rewrite key16_id in E by auto. fold (keyat leaf p mid) in E.
  pose proof (key_compare_spec k (keyat leaf p mid)) as C. destruct (key_compare k (keyat leaf p mid)).
  - injection E as <-. split; [lia|auto].
  - apply IH in E; auto. lia.
  - apply IH in E; auto.
Qed.
Lemma page_search_found leaf p k i : wf_page leaf p -> blen k < 65536 -> page_search p k = Ok (true, i) -> i < pg_nkeys p /\ keyat leaf p i = k.
Proof.
  intros W Hk H. unfold page_search in H. destruct (N.eqb_spec (pg_nkeys p) 0); [discriminate|].
  eapply search_loop_found; eauto. lia.
Qed.
Lemma entry_in p i : i < pg_nkeys p -> In (node_key true p (slot p i), leaf_val p (slot p i)) (leaf_entries p).
Proof. intro H. unfold leaf_entries. apply in_map_iff. exists (slot p i). split; [reflexivity|apply slots_in; exact H]. Qed.

Section Reads.
Variable P : bytes -> bytes -> Prop.
Hypothesis P8 : forall k v, blen k = 8 -> P k v.

(** the pages a transaction sees *)
Definition sees (E : env) (t : txn) : Prop := forall pg, is_leaf (get_page E t pg) = true -> gp P (get_page E t pg).
Lemma sees_reader E t : file_own P (e_file E) -> t_rdonly t = true -> sees E t.
Proof.
  intros F R pg. unfold get_page. rewrite R. destruct (F pg) as [[B _]|[G _]]; [congruence|auto].
Qed.
Lemma sees_writer E t : file_own P (e_file E) -> dirty_own P t -> sees E t.
Proof.
  intros F D pg. unfold get_page. destruct (t_rdonly t); [|destruct (dget (t_dirty t) pg) as [p|] eqn:G].
  - destruct (F pg) as [[B _]|[G _]]; [congruence|auto].
  - intros _. apply (dw_pages _ _ D _ _ G).
  - destruct (F pg) as [[B _]|[G' _]]; [congruence|auto].
Qed.
Lemma find_leaf_leaf E t : forall f pg k p, find_leaf f E t pg k = Ok p -> exists q, p = get_page E t q /\ is_leaf p = true.
Proof.
  induction f as [|f IH]; intros pg k p H; cbn [find_leaf] in H; [discriminate|].
  destruct (is_leaf (get_page E t pg)) eqn:L; [injection H as <-; eauto|]. destruct (negb _); [discriminate|].
  destruct (child_of _ k) as [c| | |]; cbn [bindr] in H; try discriminate. eauto.
Qed.
Lemma leaf_value_is p i v : leaf_value p i = Ok v -> v = leaf_val p (slot p i).
Proof. unfold leaf_value. destruct (_ && _); congruence. Qed.
Lemma get_own E t k v : sees E t -> blen k < 65536 -> db_get E t k = Ok v -> P k v.
Proof.
  intros S Hk H. unfold db_get in H. destruct (t_root t =? 0); [discriminate|].
  destruct (find_leaf _ E t (t_root t) k) as [leaf| | |] eqn:FL; cbn [bindr] in H; try discriminate.
  destruct (page_search leaf k) as [[found i]| | |] eqn:PS; cbn [bindr] in H; try discriminate. destruct found; [|discriminate].
  destruct (find_leaf_leaf _ _ _ _ _ _ FL) as (q & EQ & L). assert (G : gp P leaf) by (rewrite EQ; apply S; rewrite <- EQ; exact L).
  destruct G as [[lf W] O]. assert (lf = true) as -> by (rewrite <- (wf_is_leaf _ _ W); exact L).
  destruct (page_search_found true leaf k i W Hk PS) as (Hi & Ek). apply leaf_value_is in H. subst v.
  rewrite <- Ek. apply O; auto. apply entry_in. exact Hi.
Qed.

(** *** cursors *)
Definition top_ok (st : list (page * N)) : Prop := match st with (p, _) :: _ => own P p /\ is_leaf p = true | [] => True end.
Definition cur_ok (c : cursor) : Prop := (length (c_stack c) < 32)%nat -> top_ok (c_stack c).
Lemma push_len st p i : (length st <= length (push st p i))%nat.
Proof. unfold push. destruct (Nat.ltb _ _); cbn [length]; lia. Qed.
Lemma push_top st p i : own P p -> is_leaf p = true -> (length (push st p i) < 32)%nat -> top_ok (push st p i).
Proof.
  intros O L H. unfold push in *. destruct (Nat.ltb_spec (length st) MAX_TREE_DEPTH) as [X|X]; [split; auto|].
  unfold MAX_TREE_DEPTH in X. lia.
Qed.
Lemma seek_down_ok E t op : sees E t -> forall f pg st x c, seek_down f E t op pg st = COk x c -> cur_ok c.
Proof.
  intro S. induction f as [|f IH]; intros pg st x c H; cbn [seek_down] in H; [discriminate|].
  destruct (is_leaf (get_page E t pg)) eqn:L.
  - injection H as _ <-. intro Hl. cbn [c_stack] in *. apply push_top; auto. apply S. exact L.
  - destruct (negb _); [discriminate|]. destruct (seek_index _ op) as [i| | |]; try discriminate.
    destruct (child_at _ i) as [q| | |]; try discriminate. eapply IH; eauto.
Qed.
Lemma descend_left_ok E t : sees E t -> forall f pg st x c, descend_left f E t pg st = COk x c -> cur_ok c.
Proof.
  intro S. induction f as [|f IH]; intros pg st x c H; cbn [descend_left] in H; [discriminate|].
  destruct (is_leaf (get_page E t pg)) eqn:L.
  - destruct (pg_nkeys _ =? 0); [discriminate|]. injection H as _ <-. intro Hl. cbn [c_stack] in *. apply push_top; auto. apply S. exact L.
  - destruct (child_at _ 0) as [q| | |]; try discriminate. eapply IH; eauto.
Qed.
Lemma descend_right_ok E t : sees E t -> forall f pg st x c, descend_right f E t pg st = COk x c -> cur_ok c.
Proof.
  intro S. induction f as [|f IH]; intros pg st x c H; cbn [descend_right] in H; [discriminate|].
  destruct (pg_nkeys _ =? 0); [discriminate|]. destruct (is_leaf (get_page E t pg)) eqn:L.
  - injection H as _ <-. intro Hl. cbn [c_stack] in *. apply push_top; auto. apply S. exact L.
  - destruct (child_at _ _) as [q| | |]; try discriminate. eapply IH; eauto.
Qed.
Lemma ascend_next_ok E t : sees E t -> forall st x c, ascend_next E t st = COk x c -> cur_ok c.
Proof.
  intro S. induction st as [|[p i] st IH]; intros x c H; cbn [ascend_next] in H; [discriminate|].
  destruct (_ <? _); [|eauto]. destruct (child_at _ _) as [q| | |]; try discriminate. eapply descend_left_ok; eauto.
Qed.
Lemma ascend_prev_ok E t : sees E t -> forall st x c, ascend_prev E t st = COk x c -> cur_ok c.
Proof.
  intro S. induction st as [|[p i] st IH]; intros x c H; cbn [ascend_prev] in H; [discriminate|].
  destruct (_ <? _); [|eauto]. destruct (child_at _ _) as [q| | |]; try discriminate. eapply descend_right_ok; eauto.
Qed.
Lemma cursor_move_ok E t c op x c' : sees E t -> cur_ok c ->
  (match op with NEXT => cursor_next E t c | PREV => cursor_prev E t c | GET_CURRENT => COk tt c | _ => cursor_seek E t op end) = COk x c' -> cur_ok c'.
Proof.
  intros S C H.
  assert (K : forall op, cursor_seek E t op = COk x c' -> cur_ok c').
  { intros o Hk. unfold cursor_seek in Hk. destruct (t_root t =? 0); [discriminate|].
    destruct (seek_down _ _ _ _ _ _) as [y c1| | |] eqn:SD; try discriminate. pose proof (seek_down_ok _ _ _ S _ _ _ _ _ SD) as C1.
    unfold seek_leaf in Hk. unfold cur_ok in *. destruct (c_stack c1) as [|[p j] rest]; [discriminate|].
    destruct (match o with FIRST => _ | _ => _ end) as [i| | |]; try discriminate. destruct (pg_nkeys p =? 0); [discriminate|].
    injection Hk as _ <-. cbn [c_stack length] in *. exact C1. }
  destruct op; try (eapply K; eauto; fail).
  - unfold cursor_next, cur_ok in *. destruct (c_stack c) as [|[p j] rest]; [discriminate|]. destruct (c_eof c); [discriminate|].
    destruct (_ <? _); [injection H as _ <-; cbn [c_stack length] in *; exact C|]. destruct rest; [discriminate|].
    pose proof (ascend_next_ok _ _ S _ _ _ H) as X. exact X.
  - unfold cursor_prev, cur_ok in *. destruct (c_stack c) as [|[p j] rest]; [discriminate|]. destruct (c_eof c); [discriminate|].
    destruct (_ <? _); [injection H as _ <-; cbn [c_stack length] in *; exact C|]. destruct rest; [discriminate|].
    pose proof (ascend_prev_ok _ _ S _ _ _ H) as X. exact X.
  - injection H as _ <-. exact C.
Qed.
Lemma cursor_get_own E t c op k v c' : sees E t -> cur_ok c -> cursor_get E t c op = COk (k, v) c' ->
  cur_ok c' /\ ((length (c_stack c') < 32)%nat -> P k v).
Proof.
  intros S C H. unfold cursor_get in H.
  destruct (match op with NEXT => _ | _ => _ end) as [x c1| | |] eqn:M; try discriminate.
  pose proof (cursor_move_ok _ _ _ _ _ _ S C M) as C1. unfold cursor_fetch in H.
  destruct (c_stack c1) as [|[p i] rest] eqn:ST; [discriminate|]. destruct (c_eof c1); [discriminate|].
  destruct (N.leb_spec (pg_nkeys p) i) as [|Hi]; [discriminate|]. destruct (leaf_value p i) as [v'| | |] eqn:LV; try discriminate.
  injection H as <- <- <-. split; [exact C1|]. intro Hl. specialize (C1 Hl). rewrite ST in C1. destruct C1 as (O & L).
  apply leaf_value_is in LV. subst v'. apply O; auto. apply entry_in. exact Hi.
Qed.
Lemma cursor_at_ok E t c : sees E t -> cursor_at E t c -> cur_ok c.
Proof.
  intros S H. induction H as [|c op [k v] c' H IH G L].
  - intros _. exact I.
  - eapply cursor_get_own; eauto.
Qed.

(** ** The invariant of a run *)
Record inv (s : sys) : Prop := {
  iv_file : file_own P (e_file (y_env s));
  iv_writers : forall h t, In (h, t) (y_writers s) -> t_rdonly t = false /\ OI P t;
  iv_readers : forall h who t, In (h, who, t) (y_readers s) -> t_rdonly t = true
}.
Lemma own_dirty_ok t : dirty_own P t -> dirty_ok t.
Proof. intros [A B]. constructor; auto. intros q p H. destruct (B q p H) as [[W _] L]. auto. Qed.
Definition good_io (o : io) : Prop := match o with WPage q p => gp P p /\ pg_pgno p = q | _ => True end.
Lemma ios_good E t fr : dirty_own P t -> Forall good_io (commit_ios E t fr).
Proof.
  intro D. pose proof (own_dirty_ok t D) as DO. unfold commit_ios. cbv zeta. apply Forall_app. split; [|repeat constructor].
  apply Forall_forall. intros o Ho. apply in_map_iff in Ho. destruct Ho as ([q p] & <- & Hi). cbn [snd good_io].
  rewrite fix_page_id by exact DO. split; [|reflexivity]. apply (dw_pages _ _ D q p). apply in_dget; [apply D|exact Hi].
Qed.
Lemma io_own d o : file_own P (d_file d) -> good_io o -> file_own P (d_file (io_apply d o)).
Proof.
  intros F G. destruct o as [q p|[] m|]; cbn [io_apply d_file]; auto. intro x. destruct (N.eqb_spec x q) as [Eq|]; [|apply F].
  destruct G as [G L]. right. split; [exact G|congruence].
Qed.
Lemma ios_own : forall l d, file_own P (d_file d) -> Forall good_io l -> file_own P (d_file (fold_left io_apply l d)).
Proof.
  induction l as [|o l IH]; intros d F G; cbn [fold_left]; auto. inversion G; subst. apply IH; auto. apply io_own; auto.
Qed.
Lemma Forall_firstn' {T} (Q : T -> Prop) n l : Forall Q l -> Forall Q (firstn n l).
Proof. rewrite !Forall_forall. intros H x Hx. apply H. eapply firstn_In; eauto. Qed.
Lemma after_sync_parts : forall l a b, after_sync l = (a, b) -> l = a ++ b.
Proof.
  induction l as [|o l IH]; intros a b H; cbn [after_sync] in H; [injection H as <- <-; reflexivity|].
  destruct (after_sync l) as [a' b'] eqn:X. specialize (IH _ _ eq_refl). subst l. destruct a' as [|y a'].
  - destruct o; injection H as <- <-; reflexivity.
  - injection H as <- <-. reflexivity.
Qed.
Lemma crash_tail_own : forall l d keep, file_own P (d_file d) -> Forall good_io l -> file_own P (d_file (crash_tail d l keep)).
Proof.
  induction l as [|o l IH]; intros d keep F G; cbn [crash_tail]; auto. destruct keep as [|b ks]; auto.
  inversion G; subst. apply IH; auto. destruct b; auto. apply io_own; auto.
Qed.
Lemma crash_own d l n keep : file_own P (d_file d) -> Forall good_io l -> file_own P (d_file (crash_disk d l n keep)).
Proof.
  intros F G. unfold crash_disk. pose proof (Forall_firstn' _ n _ G) as G'.
  destruct (after_sync (firstn n l)) as [a b] eqn:X. apply after_sync_parts in X. rewrite X in G'. apply Forall_app in G'.
  apply crash_tail_own; [apply ios_own|]; tauto.
Qed.
Lemma env_open_file d E : env_open d = Ok E -> e_file E = d_file d.
Proof. unfold env_open. destruct (select_live _ _); cbn [bindr]; try discriminate. intros [= <-]. reflexivity. Qed.
Lemma start_inv E : file_own P (e_file E) -> inv (start E).
Proof. intro F. constructor; cbn [start y_env y_writers y_readers]; auto; intros; contradiction. Qed.
Lemma wget_in l h t : wget l h = Some t -> In (h, t) l.
Proof.
  induction l as [|[h' t'] l IH]; cbn [wget]; [discriminate|]. destruct (N.eqb_spec h' h) as [->|]; [intros [= ->]; left; auto|right; auto].
Qed.
Lemma rget_in l h who t : rget l h = Some (who, t) -> In (h, who, t) l.
Proof.
  induction l as [|[[h' w'] t'] l IH]; cbn [rget]; [discriminate|]. destruct (N.eqb_spec h' h) as [->|]; [intros [= -> ->]; left; auto|right; auto].
Qed.
Lemma wset_in l h t x y : In (x, y) (wset l h t) -> In (x, y) l \/ y = t.
Proof.
  unfold wset. intro H. apply in_map_iff in H. destruct H as ([a b] & E & H). cbn [fst] in E. destruct (a =? h); injection E as <- <-; auto.
Qed.
Lemma rdel_in l h e : In e (rdel l h) -> In e l.
Proof. induction l as [|a l IH]; cbn [rdel In]; auto. destruct (_ =? h); cbn [In]; tauto. Qed.
Lemma op_out (E : env) t (o : out unit) t' : t_rdonly t = false -> lout t o -> oout P o -> (o = Ret tt t' \/ exists e, o = Fail e t') ->
  t_rdonly t' = false /\ OI P t'.
Proof.
  intros R L O H. destruct H as [->|(e & ->)]; cbn [lout oout] in *; (split; [rewrite (la_ro _ _ L); exact R|exact O]).
Qed.
Lemma populated E t fr t1 : file_own P (e_file E) -> t_rdonly t = false -> OI P t -> N.of_nat (length (t_freed t)) < 8000 ->
  populate_free_db page_alloc E t = Ret fr t1 -> t_last t1 < 2 ^ 64 -> dirty_own P t1.
Proof.
  intros F R O L H B. pose proof (populate_oout P P8 E t F R O L) as X. rewrite H in X. exact (X B).
Qed.
Lemma commit_own E t fail E' r : file_own P (e_file E) -> t_rdonly t = false -> OI P t -> N.of_nat (length (t_freed t)) < 8000 ->
  (forall fr t1, populate_free_db page_alloc E t = Ret fr t1 -> t_last t1 < 2 ^ 64) ->
  db_commit E t fail = (E', r) -> file_own P (e_file E').
Proof.
  intros F R O L B H. unfold db_commit in H. destruct (t_dirty t); [injection H as <- _; exact F|].
  destruct (populate_free_db page_alloc E t) as [fr t1|e t1| |] eqn:PF; try (injection H as <- _; exact F).
  destruct (over_meta t1); [injection H as <- _; exact F|]. cbv zeta in H.
  pose proof (ios_good E t1 fr (populated E t fr t1 F R O L PF (B _ _ eq_refl))) as G.
  assert (A : forall l, Forall good_io l -> file_own P (d_file (fold_left io_apply l (disk_of E)))) by (intros l0 Hl; apply ios_own; auto).
  destruct fail as [n|]; [destruct (Nat.ltb n _)|]; injection H as <- _; cbn [e_file]; apply A; auto. apply Forall_firstn'. exact G.
Qed.
Lemma step_inv s a s' : inv s -> in_limits s a -> (forall k v, In (k, v) (asked a) -> P k v) -> step s a = Some s' -> inv s'.
Proof.
  intros [F W R] L A H. destruct s as [E ws rs]. cbn [y_env y_writers y_readers] in *. unfold step in H. cbn [y_env y_writers y_readers] in H.
  destruct a as [h|h k v|h k data|h fail|h|h pid tid|h]; cbn [in_limits asked y_writers y_env] in *.
  - destruct (wget ws h); [discriminate|]. unfold begin_write in H. destruct (e_locked E); [discriminate|]. injection H as <-.
    constructor; cbn [y_env y_writers y_readers set_locked e_file]; auto. intros h' t [[= <- <-]|Hi]; [|eauto]. split; [reflexivity|].
    intros _. constructor; cbn [t_dirty map]; [constructor|discriminate].
  - destruct (wget ws h) as [t|] eqn:G; [|discriminate]. destruct (W _ _ (wget_in _ _ _ G)) as [R0 O].
    pose proof (put_oout P P8 E t k v F O L (A k v (or_introl eq_refl))) as X. pose proof (put_later E t k v) as Y.
    assert (Z : exists t', (db_put E t k v = Ret tt t' \/ exists e, db_put E t k v = Fail e t') /\ s' = mkSys E (wset ws h t') rs).
    { destruct (db_put E t k v) as [[] t'|e t'| |]; try discriminate; injection H as <-; exists t'; eauto. }
    destruct Z as (t' & Z & ->). constructor; cbn [y_env y_writers y_readers]; auto.
    intros h' t2 Hi. destruct (wset_in _ _ _ _ _ Hi) as [Hi'| ->]; [eauto|]. eapply op_out; eauto.
  - destruct (wget ws h) as [t|] eqn:G; [|discriminate]. destruct (W _ _ (wget_in _ _ _ G)) as [R0 O].
    pose proof (db_del_oout P E F t k data O) as X. pose proof (db_del_lout E t k data) as Y.
    assert (Z : exists t', (db_del E t k data = Ret tt t' \/ exists e, db_del E t k data = Fail e t') /\ s' = mkSys E (wset ws h t') rs).
    { destruct (db_del E t k data) as [[] t'|e t'| |]; try discriminate; injection H as <-; exists t'; eauto. }
    destruct Z as (t' & Z & ->). constructor; cbn [y_env y_writers y_readers]; auto.
    intros h' t2 Hi. destruct (wset_in _ _ _ _ _ Hi) as [Hi'| ->]; [eauto|]. eapply op_out; eauto.
  - destruct (wget ws h) as [t|] eqn:G; [|discriminate]. destruct (W _ _ (wget_in _ _ _ G)) as [R0 O].
    destruct (L t eq_refl) as (L1 & L2). destruct (db_commit E t fail) as [E' r] eqn:C.
    pose proof (commit_own E t fail E' r F R0 O L1 L2 C) as F'.
    assert (s' = mkSys E' (wdel ws h) rs) as -> by (destruct r; congruence).
    constructor; cbn [y_env y_writers y_readers]; auto. intros h' t' Hi. apply filter_In in Hi. destruct Hi. eauto.
  - destruct (wget ws h) as [t|] eqn:G; [|discriminate]. injection H as <-.
    constructor; cbn [y_env y_writers y_readers]; auto. intros h' t' Hi. apply filter_In in Hi. destruct Hi. eauto.
  - destruct (rget rs h); [discriminate|]. unfold begin_read in H. destruct (fill_slot _ _ _ _); [|discriminate]. injection H as <-.
    constructor; cbn [y_env y_writers y_readers]; auto. intros h' who t [[= <- <- <-]|Hi]; [reflexivity|eauto].
  - destruct (rget rs h) as [[[pid tid] t]|] eqn:G; [|discriminate]. injection H as <-.
    constructor; cbn [y_env y_writers y_readers]; auto. intros h' who t' Hi. apply rdel_in in Hi. eauto.
Qed.
Lemma life_inv puts s : life puts s -> (forall k v, In (k, v) puts -> P k v) -> inv s.
Proof.
  intro H. induction H as [|puts s a s' H IH L S|puts s E H IH O|puts s h t fr t1 n keep E H IH L G PF OM O]; intro A.
  - apply start_inv. intro q. left. split; reflexivity.
  - eapply step_inv; eauto.
    + apply IH. intros k v Hi. apply A. apply in_app_iff. auto.
    + intros k v Hi. apply A. apply in_app_iff. auto.
  - apply start_inv. rewrite (env_open_file _ _ O). apply (IH A).
  - destruct (IH A) as [F W _]. destruct (W _ _ (wget_in _ _ _ G)) as [R0 D]. destruct (L t G) as (L1 & L2).
    apply start_inv. rewrite (env_open_file _ _ O). apply crash_own; [exact F|]. apply ios_good. eapply populated; eauto.
Qed.
Lemma open_sees s t : inv s -> open_txn s t -> sees (y_env s) t.
Proof.
  intros [F W R] [(h & G & L)|(h & who & G)].
  - destruct (W _ _ (wget_in _ _ _ G)) as [_ O]. apply sees_writer; auto.
  - apply sees_reader; auto. eapply R. eapply rget_in. exact G.
Qed.
End Reads.

(** ** C134 *)
Theorem only_what_was_put : forall puts s t, life puts s -> open_txn s t ->
  (forall k v, blen k < 65536 -> blen k <> 8 -> db_get (y_env s) t k = Ok v -> In (k, v) puts) /\
  (forall c op k v c', cursor_at (y_env s) t c -> cursor_get (y_env s) t c op = COk (k, v) c' -> (length (c_stack c') < 32)%nat ->
     blen k <> 8 -> In (k, v) puts).
Proof.
  intros puts s t HL HO. set (P := fun k v => blen k = 8 \/ In (k, v) puts).
  assert (P8 : forall k v, blen k = 8 -> P k v) by (intros; left; auto).
  assert (S : sees P (y_env s) t). { apply (open_sees P s t); auto. apply (life_inv P P8 puts s HL). intros. right. auto. }
  split.
  - intros k v Hk H8 H. destruct (get_own P (y_env s) t k v S Hk H); [contradiction|auto].
  - intros c op k v c' HC HG HLn H8. destruct (cursor_get_own P (y_env s) t c op k v c' S (cursor_at_ok P _ _ _ S HC) HG) as [_ X].
    destruct (X HLn); [contradiction|auto].
Qed.
Print Assumptions only_what_was_put.

(** *** A case *)
(** Runs of calls, with the limits checked. *)
Definition limitsb (s : sys) (a : act) : bool :=
  match a with
  | PutA _ k v => 10 + blen k + blen v <? 65536
  | CommitW h _ =>
    match wget (y_writers s) h with
    | None => true
    | Some t => (N.of_nat (length (t_freed t)) <? 8000) &&
        match populate_free_db page_alloc (y_env s) t with Ret _ t1 => t_last t1 <? 2 ^ 64 | _ => true end
    end
  | _ => true
  end.
Lemma limitsb_ok s a : limitsb s a = true -> in_limits s a.
Proof.
  destruct a as [h|h k v|h k data|h fail|h|h pid tid|h]; cbn [limitsb in_limits]; auto; [apply N.ltb_lt|].
  intros H t G. rewrite G in H. apply andb_prop in H. destruct H as (H1 & H2). split; [apply N.ltb_lt; exact H1|].
  intros fr t1 PF. rewrite PF in H2. apply N.ltb_lt. exact H2.
Qed.
Fixpoint calls (s : sys) (l : list act) : option sys :=
  match l with
  | [] => Some s
  | a :: r => if limitsb s a then match step s a with Some s1 => calls s1 r | None => None end else None
  end.
Lemma calls_life : forall l puts s s', life puts s -> calls s l = Some s' -> life (rev (flat_map asked l) ++ puts) s'.
Proof.
  induction l as [|a l IH]; intros puts s s' HL H; cbn [calls flat_map rev app] in *; [injection H as <-; exact HL|].
  destruct (limitsb s a) eqn:LB; [|discriminate]. destruct (step s a) as [s1|] eqn:S; [|discriminate].
  pose proof (IH _ _ _ (life_call _ _ _ _ HL (limitsb_ok _ _ LB) S) H) as X. rewrite rev_app_distr.
  assert (E : rev (asked a) = asked a) by (destruct a; reflexivity). rewrite E, <- app_assoc. exact X.
Qed.
Definition get_sys (o : option sys) : sys := match o with Some s => s | None => start env_create end.
Lemma some_calls (o : option sys) : (match o with Some _ => true | None => false end) = true -> o = Some (get_sys o).
Proof. destruct o; [reflexivity|discriminate]. Qed.

(** Two transactions of which the second splits a page and fails once, a third that is cut
    short by a crash after its first page is written, a restart, a reader. *)
Definition calls1 : list act :=
  [BeginW 0; PutA 0 [97] (fillb 1300 1); PutA 0 [98] (fillb 1300 2); CommitW 0 None;
   BeginW 1; PutA 1 [99] (fillb 1300 3); PutA 1 [99] (fillb 5000 4); DelA 1 [97] None; CommitW 1 None;
   BeginW 2; PutA 2 [97] [7]; DelA 2 [98] None].
Definition Y1 : sys := get_sys (calls (start env_create) calls1).
Definition TY : txn := match wget (y_writers Y1) 2 with Some t => t | None => first_txn end.
Definition TY1 : txn := ret_txn (populate_free_db page_alloc (y_env Y1) TY).
Definition FY1 : N := ret_val (populate_free_db page_alloc (y_env Y1) TY).
Definition Y2 : env := get_env (env_open (crash_disk (disk_of (y_env Y1)) (commit_ios (y_env Y1) TY1 FY1) 2 [true; false])).
Definition Y3 : sys := get_sys (calls (start Y2) [BeginR 5 100 7]).
Definition TR : txn := match rget (y_readers Y3) 5 with Some (_, t) => t | None => first_txn end.
Lemma wget_some l h : (match wget l h with Some _ => true | None => false end) = true -> wget l h = Some (match wget l h with Some t => t | None => first_txn end).
Proof. destruct (wget l h); [reflexivity|discriminate]. Qed.
Lemma rget_some l h : (match rget l h with Some _ => true | None => false end) = true ->
  exists who, rget l h = Some (who, match rget l h with Some (_, t) => t | None => first_txn end).
Proof. destruct (rget l h) as [[who t]|]; [eauto|discriminate]. Qed.
Lemma ret_some (o : out N) : (match o with Ret _ _ => true | _ => false end) = true -> o = Ret (ret_val o) (ret_txn o).
Proof. destruct o; try discriminate. reflexivity. Qed.
Lemma life_Y1 : life (rev (flat_map asked calls1)) Y1.
Proof.
  replace (rev (flat_map asked calls1)) with (rev (flat_map asked calls1) ++ []) by apply app_nil_r.
  apply (calls_life calls1 [] (start env_create)); [apply life_new|]. apply some_calls. vm_compute. reflexivity.
Qed.
Lemma life_Y2 : life (rev (flat_map asked calls1)) (start Y2).
Proof.
  apply (life_crash _ Y1 2 TY FY1 TY1 2 [true; false] Y2).
  - exact life_Y1.
  - apply limitsb_ok. vm_compute. reflexivity.
  - apply wget_some. vm_compute. reflexivity.
  - apply ret_some. vm_compute. reflexivity.
  - vm_compute. reflexivity.
  - apply ok_env. vm_compute. reflexivity.
Qed.
Example only_what_was_put_case : life (rev (flat_map asked calls1)) Y3 /\ open_txn Y3 TR /\
  (exists v, db_get (y_env Y3) TR [99] = Ok v) /\
  exists c k v c', cursor_at (y_env Y3) TR c /\ cursor_get (y_env Y3) TR c FIRST = COk (k, v) c' /\ (length (c_stack c') < 32)%nat /\ blen k = 1.
Proof.
  split; [|split; [|split]].
  - apply (calls_life [BeginR 5 100 7] _ (start Y2)); [exact life_Y2|]. apply some_calls. vm_compute. reflexivity.
  - right. destruct (rget_some (y_readers Y3) 5) as (who & H); [vm_compute; reflexivity|]. exists 5, who. exact H.
  - assert (G : forall r : res bytes, (match r with Ok _ => true | _ => false end) = true -> exists v, r = Ok v) by (intros [ | | | ]; try discriminate; eauto).
    apply G. vm_compute. reflexivity.
  - assert (G : forall r : cout (bytes * bytes), (match r with COk (k, _) c' => Nat.ltb (length (c_stack c')) 32 && (blen k =? 1) | _ => false end) = true ->
      exists k v c', r = COk (k, v) c' /\ (length (c_stack c') < 32)%nat /\ blen k = 1).
    { intros [[k v] c'| | |] H; try discriminate. apply andb_prop in H. destruct H as (H1 & H2). apply Nat.ltb_lt in H1. apply N.eqb_eq in H2. exists k, v, c'. auto. }
    destruct (G (cursor_get (y_env Y3) TR cursor_open FIRST)) as (k & v & c' & H); [vm_compute; reflexivity|].
    exists cursor_open, k, v, c'. split; [apply at_open|exact H].
Qed.

(** ** C135 keys of eight bytes *)
(** Keys of eight bytes are what the entries of the Free DB have.  Missing for the full
    claim: histories in which a page has to be split. *)
Theorem eight_byte_keys_partial : forall txns E E' m k v,
  healthy E -> file_ok (e_file E) -> fit_history E txns -> history E txns = Ok E' -> reads E (reader E) m ->
  blen k = 8 -> read_now E' k = Ok v -> m k = Some v \/ In (Put k v) (concat txns).
Proof.
  intros txns E E' m k v HH FO HF H HR H8 HV. destruct (history_is_map_partial txns E E' m HH FO HF H HR) as (A & _).
  pose proof (A k ltac:(lia)) as B. unfold read_now in HV. rewrite HV in B.
  assert (G : forall os (m : kmap), fold_left map_op os m k = Some v -> m k = Some v \/ In (Put k v) os).
  { clear. induction os as [|o os IH]; intros m0 X; cbn [fold_left In] in *; [auto|]. destruct (IH _ X) as [Y|Y]; [|auto].
    destruct o as [k1 v1|k1]; cbn [map_op] in Y; destruct (key_dec k k1) as [->|]; try discriminate; auto.
    injection Y as ->. auto. }
  apply G. destruct (fold_left map_op (concat txns) m k) as [v'|]; [congruence|discriminate].
Qed.
Print Assumptions eight_byte_keys_partial.
(** The database of [early_case] and a history that stores under a key of eight bytes. *)
Definition hist8 : list (list op) := [[Put (le_bytes 8 4) [1; 2]]; [Put [99] [7]]].
Definition E8h : env := get_env (history E3 hist8).
Example eight_byte_keys_case : healthy E3 /\ file_ok (e_file E3) /\ fit_history E3 hist8 /\ history E3 hist8 = Ok E8h /\
  read_now E8h (le_bytes 8 4) = Ok [1; 2] /\ m_free (live_meta E8h) <> 0.
Proof.
  destruct early_case as (A & B & C). split; [exact C|]. split; [exact B|]. split; [|split; [apply ok_env; vm_compute; reflexivity|split; vm_compute; [reflexivity|discriminate]]].
  apply (fit_historyb_ok hist8 E3 _ C B A). vm_compute. reflexivity.
Qed.
(** The history of [meta_page_overwritten_refuted]: after five transactions a reader finds
    a value under a key nobody ever used, a list of page numbers of the Free DB. *)
Theorem eight_byte_keys_refuted : history env_create six = Ok E13 /\
  (exists v, read_now E13 [6; 0; 0; 0; 0; 0; 0; 0] = Ok v /\ blen v = 24) /\
  forall v, ~ In (Put [6; 0; 0; 0; 0; 0; 0; 0] v) (concat six).
Proof.
  split; [apply ok_env; vm_compute; reflexivity|]. split.
  - assert (G : forall r : res bytes, (match r with Ok v => blen v =? 24 | _ => false end) = true -> exists v, r = Ok v /\ blen v = 24).
    { intros [v| | | ] H; try discriminate. exists v. split; auto. apply N.eqb_eq. exact H. }
    apply G. vm_compute. reflexivity.
  - intros v H. cbn [six concat app In] in H. repeat (destruct H as [H|H]; [discriminate|]). exact H.
Qed.
Print Assumptions eight_byte_keys_refuted.
