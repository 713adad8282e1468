(** Property C164: deleting the pairs a scan returns while it goes on. *)
From Verif Require Import Util PageModel PageSpec PageProofs PageOps TxnModel CursorModel TreeModel TreeSpec PropPage TreeProofs TreeOps TreeSplit TreePut TreeShape TxnInv DbModel SysModel DbSpec DbProofs DbCommit CursorSpec CursorProofs PropTree PropCursor PropCommit CacheModel PropCache PropScan TreeTotal PropOrder PropTotal PropLoad PropMany PtrModel LiveModel.
Local Open Scope N_scope.

(** ** Between two updates the cursor is that of CursorModel *)
(** what the pointers of a cursor show now *)
Definition look (E : env) (t : txn) (st : list (place * N)) : list (page * N) := map (fun wi => (page_at E t (fst wi), snd wi)) st.
Definition shows (E : env) (t : txn) (c : live) : cursor := mkCur (look E t (v_stack c)) (v_eof c).
Definition shown {T} (E : env) (t : txn) (r : lres T) : cout T :=
  match r with LOk x c => COk x (shows E t c) | LErr e c => CErr e (shows E t c) | LUB => CUB | LFuel => CFuel end.

Section Fixed.
Variables (E : env) (t : txn).
Notation V := (get_page E t).
Lemma page_here pg : page_at E t (place_of E t pg) = V pg.
Proof. unfold place_of, get_page. destruct (t_rdonly t); [reflexivity|]. destruct (dget (t_dirty t) pg) eqn:D; cbn [page_at]; [now rewrite D|reflexivity]. Qed.
Lemma look_push st w i : look E t (lpush st w i) = push (look E t st) (page_at E t w) i.
Proof. unfold lpush, push, look. rewrite map_length. destruct (Nat.ltb _ _); reflexivity. Qed.
Lemma seek_down_shown op : forall fuel pg st, shown E t (lseek_down fuel E t op pg st) = seek_down fuel E t op pg (look E t st).
Proof.
  induction fuel as [|f IH]; intros pg st; [reflexivity|]. cbn [lseek_down seek_down]. rewrite page_here.
  destruct (is_leaf (V pg)). { cbn [shown]. unfold shows. cbn [v_stack v_eof]. now rewrite look_push, page_here. }
  destruct (negb _); [reflexivity|]. destruct (seek_index (V pg) op); try reflexivity. destruct (child_at (V pg) x); try reflexivity.
  rewrite IH, look_push, page_here. reflexivity.
Qed.
Lemma seek_leaf_shown op c : shown E t (lseek_leaf E t op c) = seek_leaf op (shows E t c).
Proof.
  unfold lseek_leaf, seek_leaf, shows. cbn [c_stack c_eof]. destruct (v_stack c) as [|(w & j) rest] eqn:S; [reflexivity|].
  cbn [look map fst snd]. cbv zeta.
  match goal with |- shown E t (match ?a with _ => _ end) = match ?b with _ => _ end => change b with a; destruct a as [i|e| |] end;
    cbn [shown]; unfold shows; cbn [v_stack v_eof look map fst snd]; try rewrite S; try reflexivity.
  destruct (pg_nkeys _ =? 0); cbn [shown]; unfold shows; cbn [v_stack v_eof look map fst snd]; reflexivity.
Qed.
Lemma seek_shown op : shown E t (lseek E t op) = cursor_seek E t op.
Proof.
  unfold lseek, cursor_seek. destruct (t_root t =? 0); [reflexivity|]. pose proof (seek_down_shown op FIND_FUEL (t_root t) []) as X. cbn [look map] in X.
  rewrite <- X. destruct (lseek_down _ _ _ _ _ _); cbn [shown]; try reflexivity. apply seek_leaf_shown.
Qed.
Lemma descend_left_shown : forall fuel pg st, shown E t (ldescend_left fuel E t pg st) = descend_left fuel E t pg (look E t st).
Proof.
  induction fuel as [|f IH]; intros pg st; [reflexivity|]. cbn [ldescend_left descend_left]. rewrite page_here.
  assert (P : look E t (lpush st (place_of E t pg) 0) = push (look E t st) (V pg) 0) by (now rewrite look_push, page_here).
  destruct (is_leaf (V pg)). { destruct (_ =? 0); cbn [shown]; unfold shows; cbn [v_stack v_eof]; now rewrite P. }
  destruct (child_at (V pg) 0); try reflexivity. now rewrite IH, P.
Qed.
Lemma ascend_next_shown : forall st, shown E t (lascend_next E t st) = ascend_next E t (look E t st).
Proof.
  induction st as [|(w & i) st IH]; [reflexivity|]. cbn [lascend_next ascend_next look map fst snd].
  destruct (_ <? _); [|exact IH]. destruct (child_at _ _); try reflexivity. now rewrite descend_left_shown.
Qed.
Lemma next_shown c : shown E t (lnext E t c) = cursor_next E t (shows E t c).
Proof.
  unfold lnext, cursor_next, shows. cbn [c_stack c_eof]. destruct (v_stack c) as [|(w & i) rest] eqn:S; cbn [look map fst snd].
  { cbn [shown]. unfold shows. now rewrite S. }
  destruct (v_eof c) eqn:EF. { cbn [shown]. unfold shows. now rewrite S, EF. }
  destruct (_ <? _); [reflexivity|]. destruct rest as [|x rest]; [reflexivity|]. rewrite ascend_next_shown. reflexivity.
Qed.
Lemma descend_right_shown : forall fuel pg st, shown E t (ldescend_right fuel E t pg st) = descend_right fuel E t pg (look E t st).
Proof.
  induction fuel as [|f IH]; intros pg st; [reflexivity|]. cbn [ldescend_right descend_right]. rewrite page_here.
  destruct (_ =? 0); [reflexivity|]. cbv zeta.
  assert (P : look E t (lpush st (place_of E t pg) (pg_nkeys (V pg) - 1)) = push (look E t st) (V pg) (pg_nkeys (V pg) - 1)) by (now rewrite look_push, page_here).
  destruct (is_leaf (V pg)). { cbn [shown]; unfold shows; cbn [v_stack v_eof]; now rewrite P. }
  destruct (child_at (V pg) _); try reflexivity. now rewrite IH, P.
Qed.
Lemma ascend_prev_shown : forall st, shown E t (lascend_prev E t st) = ascend_prev E t (look E t st).
Proof.
  induction st as [|(w & i) st IH]; [reflexivity|]. cbn [lascend_prev ascend_prev look map fst snd].
  destruct (_ <? _); [|exact IH]. destruct (child_at _ _); try reflexivity. now rewrite descend_right_shown.
Qed.
Lemma prev_shown c : shown E t (lprev E t c) = cursor_prev E t (shows E t c).
Proof.
  unfold lprev, cursor_prev, shows. cbn [c_stack c_eof]. destruct (v_stack c) as [|(w & i) rest] eqn:S; cbn [look map fst snd].
  { cbn [shown]. unfold shows. now rewrite S. }
  destruct (v_eof c) eqn:EF. { cbn [shown]. unfold shows. now rewrite S, EF. }
  destruct (_ <? _); [reflexivity|]. destruct rest as [|x rest]; [reflexivity|]. rewrite ascend_prev_shown. reflexivity.
Qed.
Lemma fetch_shown c : shown E t (lfetch E t c) = cursor_fetch (shows E t c).
Proof.
  unfold lfetch, cursor_fetch, shows. cbn [c_stack c_eof]. destruct (v_stack c) as [|(w & i) rest] eqn:S; cbn [look map fst snd].
  { cbn [shown]. unfold shows. now rewrite S. }
  destruct (v_eof c) eqn:EF. { cbn [shown]. unfold shows. now rewrite S, EF. }
  destruct (_ <=? _). { cbn [shown]. unfold shows. now rewrite S, EF. }
  destruct (leaf_value _ i); try reflexivity. cbn [shown]. unfold shows. now rewrite S, EF.
Qed.
End Fixed.

(** Every call answers as the cursor of CursorModel whose stack has the present contents of the
    pages the pointers lead to. *)
Theorem live_same : forall E t c op, shown E t (live_get E t c op) = cursor_get E t (shows E t c) op.
Proof.
  intros E t c op. unfold live_get, cursor_get.
  assert (A : forall (a : lres unit) b, shown E t a = b -> shown E t (match a with LOk _ c' => lfetch E t c' | LErr e c' => LErr e c' | LUB => LUB | LFuel => LFuel end) =
    match b with COk _ c' => cursor_fetch c' | CErr e c' => CErr e c' | CUB => CUB | CFuel => CFuel end).
  { intros a b <-. destruct a; cbn [shown]; try reflexivity. apply fetch_shown. }
  destruct op as [| |k|k| | |]; [apply (A (lseek E t FIRST)), seek_shown|apply (A (lseek E t LAST)), seek_shown|apply (A (lseek E t (SET k))), seek_shown|apply (A (lseek E t (SET_RANGE k))), seek_shown|apply (A (lnext E t c)), next_shown|apply (A (lprev E t c)), prev_shown|apply fetch_shown].
Qed.
Print Assumptions live_same.

(** ** The leaves ahead of a cursor *)
Fixpoint leaf_pages (V : view) (h : nat) (pg : N) : list N :=
  match h with
  | O => [pg]
  | S h' => flat_map (fun e => leaf_pages V h' (snd e)) (branch_entries (V pg))
  end.
Definition sub_q (V : view) (h : nat) (l : list (bytes * N)) : list N := flat_map (fun e => leaf_pages V h (snd e)) l.
Fixpoint ahead (V : view) (h : nat) (st : list (page * N)) : list N :=
  match st with
  | [] => []
  | (p, i) :: r => sub_q V h (skipn (S (N.to_nat i)) (branch_entries p)) ++ ahead V (S h) r
  end.

Section Steps.
Variables (E : env) (t : txn).
Notation V := (get_page E t).
Notation LK := (look E t).
Lemma look_length st : length (LK st) = length st. Proof. apply map_length. Qed.
Lemma lpush_ok st w i : (length st < 32)%nat -> lpush st w i = (w, i) :: st.
Proof. intro H. unfold lpush, MAX_TREE_DEPTH. now rewrite (proj2 (Nat.ltb_lt _ _)). Qed.

Lemma descend_left_q : forall h pg st fuel c', shape V h pg -> (length st + h < 32)%nat -> (h < fuel)%nat ->
  ldescend_left fuel E t pg st = LOk tt c' ->
  exists q r, v_stack c' = (place_of E t q, 0) :: r /\ leaf_pages V h pg ++ ahead V h (LK st) = q :: ahead V 0 (LK r).
Proof.
  induction h as [|h IH]; intros pg st [|f] c' S Hl Hf H; try lia; cbn [ldescend_left] in H; rewrite page_here in H.
  - cbn [shape] in S. destruct S as (_ & W & _). rewrite (wf_is_leaf true _ W), lpush_ok in H by lia. destruct (_ =? 0); [discriminate|]. injection H as <-.
    exists pg, st. split; reflexivity.
  - cbn [shape] in S. destruct S as (Ep & W & SK & Hne & F). rewrite (wf_is_leaf false _ W), lpush_ok in H by lia. cbn [leaf_pages].
    destruct (branch_entries (V pg)) as [|(k0, c) es] eqn:B; [congruence|].
    assert (C : child_at (V pg) 0 = Ok c) by (apply (child_at_ok _ 0 k0 c W); rewrite B; reflexivity). rewrite C in H.
    inversion F as [|? ? Sc F']; subst. cbn [snd] in *. destruct (IH c ((place_of E t pg, 0) :: st) f c' Sc) as (q & r & A1 & A2); [cbn [length]; lia|lia|exact H|].
    exists q, r. split; [exact A1|]. rewrite <- A2. cbn [flat_map snd look map fst ahead]. rewrite page_here, B. cbn [N.to_nat skipn]. unfold sub_q, look. rewrite app_assoc. reflexivity.
Qed.
Lemma ascend_next_q : forall st h R c', zF V h (LK st) R -> (length st + h < 32)%nat -> lascend_next E t st = LOk tt c' ->
  exists q r, v_stack c' = (place_of E t q, 0) :: r /\ ahead V h (LK st) = q :: ahead V 0 (LK r).
Proof.
  induction st as [|(w, i) st IH]; intros h R c' Z Hl H; [discriminate|]. cbn [lascend_next] in H. cbn [look map zF fst snd ahead] in *.
  destruct Z as (W & Hi & G & R' & Z & ER). pose proof (branch_entries_length (page_at E t w)) as Q.
  pose proof (wf_nkeys_small _ _ W) as Sm. unfold HDR, PAGE_SIZE in Sm. rewrite (u16_small (i + 1)) in H by lia.
  destruct (N.ltb_spec (i + 1) (pg_nkeys (page_at E t w))) as [Hi'|Hi'].
  - destruct (nth_ex (branch_entries (page_at E t w)) (N.to_nat (i + 1)) ltac:(lia)) as ((k0, c0) & X0).
    rewrite (child_at_ok _ _ k0 c0 W X0) in H.
    replace (S (N.to_nat i)) with (N.to_nat (i + 1)) in * by lia. rewrite (skipn_nth _ _ _ X0) in G |- *.
    inversion G as [|? ? Sc G']; subst. unfold shaped_at in Sc. cbn [snd] in *.
    destruct (descend_left_q h c0 ((w, i + 1) :: st) FIND_FUEL c' Sc) as (q & r & A1 & A2); [cbn [length] in *; lia|unfold FIND_FUEL; cbn [length] in *; lia|exact H|].
    exists q, r. split; [exact A1|]. rewrite <- A2. unfold sub_q. cbn [flat_map snd look map fst ahead]. now rewrite <- app_assoc.
  - rewrite skipn_all2 by lia. cbn [sub_q flat_map app]. cbn [length] in Hl. apply (IH (S h) R' c' Z); [lia|exact H].
Qed.
Lemma first_down_q : forall h pg st fuel c', shape V h pg -> (length st + h < 32)%nat -> (h < fuel)%nat ->
  lseek_down fuel E t FIRST pg st = LOk tt c' ->
  exists q r, v_stack c' = (place_of E t q, 0) :: r /\ leaf_pages V h pg ++ ahead V h (LK st) = q :: ahead V 0 (LK r).
Proof.
  induction h as [|h IH]; intros pg st [|f] c' S Hl Hf H; try lia; cbn [lseek_down] in H; rewrite page_here in H.
  - cbn [shape] in S. destruct S as (_ & W & _). rewrite (wf_is_leaf true _ W), lpush_ok in H by lia. injection H as <-.
    exists pg, st. split; reflexivity.
  - cbn [shape] in S. destruct S as (Ep & W & SK & Hne & F). rewrite (wf_is_leaf false _ W), (wf_is_branch false _ W) in H. cbn [leaf_pages negb seek_index] in *.
    destruct (branch_entries (V pg)) as [|(k0, c) es] eqn:B; [congruence|].
    assert (C : child_at (V pg) 0 = Ok c) by (apply (child_at_ok _ 0 k0 c W); rewrite B; reflexivity). rewrite C, lpush_ok in H by lia.
    inversion F as [|? ? Sc F']; subst. cbn [snd] in *. destruct (IH c ((place_of E t pg, 0) :: st) f c' Sc) as (q & r & A1 & A2); [cbn [length]; lia|lia|exact H|].
    exists q, r. split; [exact A1|]. rewrite <- A2. cbn [flat_map snd look map fst ahead]. rewrite page_here, B. cbn [N.to_nat skipn]. unfold sub_q, look. rewrite app_assoc. reflexivity.
Qed.

(** the cursor stands on a page of the map, and so are the leaves ahead *)
Definition unspoilt (c : live) : Prop :=
  exists q i r, v_stack c = (InMap q, i) :: r /\ forall x, In x (ahead V 0 (LK r)) -> dget (t_dirty t) x = None.
Lemma clean_place q : dget (t_dirty t) q = None -> place_of E t q = InMap q.
Proof. intros D. unfold place_of. rewrite D. now destruct (t_rdonly t). Qed.
Lemma enter_unspoilt (l : list N) c q r i : (forall x, In x l -> dget (t_dirty t) x = None) -> v_stack c = (place_of E t q, i) :: r -> l = q :: ahead V 0 (LK r) -> unspoilt c.
Proof. intros C S ->. exists q, i, r. rewrite clean_place in S by (apply C; now left). split; [exact S|]. intros x I. apply C. now right. Qed.

Lemma next_unspoilt c kv es R c' : unspoilt c -> atF V (shows E t c) kv es R -> lnext E t c = LOk tt c' -> unspoilt c'.
Proof.
  intros (q & i & r & S & C) (p & j & st & EQ & W & Hl & Hn & Z & _) H. unfold shows in EQ. rewrite S in EQ. cbn [look map fst snd] in EQ. injection EQ as E1 E2 E3 E4. subst st.
  unfold lnext in H. rewrite S, E4 in H. destruct (_ <? _). { injection H as <-. exists q, (u16 (i + 1)), r. auto. }
  destruct r as [|x r]; [discriminate|]. destruct (ascend_next_q (x :: r) 0 R c' Z) as (q' & r' & A1 & A2); [fold (LK (x :: r)) in Hl; rewrite look_length in Hl; lia|exact H|].
  eapply enter_unspoilt; eauto.
Qed.
Lemma first_unspoilt h c' : (h < 32)%nat -> t_root t <> 0 -> shape V h (t_root t) -> (forall x, In x (leaf_pages V h (t_root t)) -> dget (t_dirty t) x = None) ->
  lseek E t FIRST = LOk tt c' -> unspoilt c'.
Proof.
  intros Hh Nz S C H. unfold lseek in H. destruct (N.eqb_spec (t_root t) 0); [congruence|].
  destruct (lseek_down FIND_FUEL E t FIRST (t_root t) []) as [[] c| | |] eqn:D; try discriminate.
  destruct (first_down_q h (t_root t) [] FIND_FUEL c S) as (q & r & A1 & A2); [cbn; lia|unfold FIND_FUEL; lia|exact D|].
  cbn [look map ahead] in A2. rewrite app_nil_r in A2. unfold lseek_leaf in H. rewrite A1 in H. destruct (_ =? 0); [discriminate|]. injection H as <-.
  eapply enter_unspoilt; [exact C|reflexivity|exact A2].
Qed.
Lemma fetch_same c kv c' : lfetch E t c = LOk kv c' -> c' = c.
Proof.
  unfold lfetch. destruct (v_stack c) as [|(w & i) r]; [discriminate|]. destruct (v_eof c); [discriminate|]. destruct (_ <=? _); [discriminate|].
  destruct (leaf_value _ i); try discriminate. now intros [= _ <-].
Qed.
End Steps.

(** ** A deletion *)
Lemma route_kind V k : forall h pg path, route V k h pg path -> shape V h pg -> forall q, In q path -> q = leaf_of path \/ wf_page false (V q).
Proof.
  induction 1 as [pg|h pg pre ki c post path B K P R IH]; intros S q I.
  - destruct I as [<-|[]]. now left.
  - cbn [shape] in S. destruct S as (_ & W & _ & _ & F). destruct I as [<-|I]; [now right|].
    assert (X : leaf_of (pg :: path) = leaf_of path). { unfold leaf_of. destruct path; [inversion R|reflexivity]. }
    rewrite X. apply IH; [|exact I]. rewrite Forall_forall in F. apply (F (ki, c)). rewrite B. apply in_elt.
Qed.
Lemma del_touches E t t' k v : blen k < 65536 -> shaped E t -> db_get E t k = Ok v -> db_del E t k None = Ret tt t' ->
  exists l, wf_page true (get_page E t l) /\ In (k, v) (leaf_entries (get_page E t l)) /\ (forall q, q <> l -> get_page E t' q = get_page E t q) /\
    t_rdonly t' = false /\ forall q, dget (t_dirty t') q <> None -> dget (t_dirty t) q <> None \/ q = l \/ wf_page false (get_page E t q).
Proof.
  intros Hk (Hr & [H0|(h & Hh & Hnz & S & ND & PG)]) G H.
  { unfold db_get in G. rewrite H0 in G. discriminate. }
  rewrite (get_shape E t k h) in G by (auto; lia).
  unfold db_del in H. rewrite Hr in H. destruct (N.eqb_spec (t_root t) 0) as [|_]; [tauto|].
  destruct (shape_find E t k Hk h _ S) as [(path & R & EL & FP) _].
  rewrite FP in H; [|unfold MAX_TREE_DEPTH; lia|unfold max_pgno; rewrite Hr; rewrite Forall_forall in PG; auto].
  cbn [lift bindo] in H. destruct (shape_leaf _ k h _ S) as (Hl & Wl & Sl). rewrite EL in Hl, Wl, Sl, G.
  pose proof (route_kind _ _ _ _ _ R S) as RK. set (lpg := leaf_of path) in *. exists lpg. split; [exact Wl|].
  pose proof Sl as Sl'. rewrite <- leaf_entries_keys in Sl'.
  destruct (entries_split k (leaf_entries (get_page E t lpg)) Sl') as [(e1 & v0 & e2 & EE & F1 & F2)|(e1 & e2 & EE & F1 & F2)].
  - assert (L : lookup k (leaf_entries (get_page E t lpg)) = Some v0).
    { rewrite EE. apply lookup_mid. rewrite <- lookup_in_iff, lookup_below by auto. tauto. }
    rewrite L in G. injection G as ->. split; [rewrite EE; apply in_elt|].
    rewrite (leaf_search_found _ k v e1 e2) in H by auto. cbn [bindo] in H.
    destruct (cow_path_ok E (rev path) t Hr) as (t3 & EC & C3 & V3 & D3 & K3 & N3).
    { intros q Hq. apply in_rev in Hq. eapply shape_pgno; eauto. eapply route_pages; eauto. }
    rewrite EC in H. cbn [bindo] in H.
    assert (Hin : In lpg (rev path)).
    { apply in_rev. rewrite rev_involutive. apply last_In. eapply route_nonempty; eauto. }
    rewrite (D3 _ Hin) in H.
    destruct (leaf_delete_ok _ k v e1 e2 Wl EE) as (p' & ED & _). rewrite ED in H. cbn [lift bindo] in H. injection H as <-.
    assert (Hr3 : t_rdonly t3 = false) by (destruct C3; congruence). split; [|split].
    + intros q Hq. rewrite get_put by auto. rewrite V3. destruct (N.eqb_spec lpg q); congruence.
    + exact Hr3.
    + intros q Dq. unfold put_dirty in Dq. cbn [set_dirty t_dirty] in Dq. rewrite dget_dset in Dq. destruct (N.eqb_spec lpg q) as [EQ|_]; [auto|].
      destruct (N3 q Dq) as [X|X]; [now left|]. right. apply in_rev in X. destruct (RK q X); auto.
  - rewrite EE, lookup_app, lookup_below, lookup_above in G by auto. discriminate.
Qed.

Section Frame.
Variables (V V' : view) (l : N) (k v : bytes).
Hypothesis OFF : forall q, q <> l -> V' q = V q.
Hypothesis W : wf_page true (V l).
Hypothesis IN : In (k, v) (leaf_entries (V l)).
Lemma leaf_pages_frame : forall h pg, (forall q, In q (tree_pages V h pg) -> V' q = V q) -> leaf_pages V' h pg = leaf_pages V h pg.
Proof.
  induction h as [|h IH]; intros pg F; cbn [leaf_pages tree_pages] in *; [reflexivity|].
  rewrite F by (cbn; auto). apply flat_map_ext_in. intros e He. apply IH. intros q Hq. apply F. right. apply in_flat_map. eauto.
Qed.
Lemma sub_q_frame h es : Forall (shaped_at V h) es -> ~ In k (map fst (concat (sub_ll V h es))) -> sub_q V' h es = sub_q V h es.
Proof.
  induction es as [|e es IH]; intros G NI; [reflexivity|]. inversion G as [|? ? Sc G']; subst.
  cbn [sub_ll sub_q flat_map] in *. rewrite concat_app, map_app, in_app_iff, concat_leaves in NI.
  assert (F : forall q, In q (tree_pages V h (snd e)) -> V' q = V q).
  { intros q Hq. apply OFF. intros ->. apply NI. left. apply (in_map fst _ (k, v)). apply (leaf_in_tree V h _ l Sc W Hq). exact IN. }
  rewrite (leaf_pages_frame _ _ F). f_equal. apply IH; [exact G'|tauto].
Qed.
Lemma ahead_frame : forall st h R, zF V h st R -> ~ In k (map fst (concat R)) -> ahead V' h st = ahead V h st.
Proof.
  induction st as [|(p, i) st IH]; intros h R Z NI; cbn [zF ahead] in *; [reflexivity|].
  destruct Z as (Wp & Hi & G & R' & Z & ER). subst R. rewrite concat_app, map_app, in_app_iff in NI.
  rewrite (sub_q_frame h _ G), (IH (S h) R' Z) by tauto. reflexivity.
Qed.
End Frame.
Lemma leaf_pages_kind V : forall h pg x, shape V h pg -> In x (leaf_pages V h pg) -> wf_page true (V x) /\ incl (leaf_entries (V x)) (concat (leaf_lists V h pg)).
Proof.
  induction h as [|h IH]; intros pg x S I; cbn [shape leaf_pages leaf_lists] in *.
  - destruct I as [<-|[]]. split; [tauto|]. cbn [concat]. rewrite app_nil_r. apply incl_refl.
  - destruct S as (_ & _ & _ & _ & F). apply in_flat_map in I as (e & He & I). rewrite Forall_forall in F. destruct (IH (snd e) x (F e He) I) as (A & B).
    split; [exact A|]. intros y Hy. apply B in Hy. apply in_concat in Hy as (z & Hz & Hy). apply in_concat. exists z. split; [|exact Hy]. apply in_flat_map. eauto.
Qed.
Lemma ahead_kind V : forall st h R x, zF V h st R -> In x (ahead V h st) -> wf_page true (V x) /\ incl (leaf_entries (V x)) (concat R).
Proof.
  induction st as [|(p, i) st IH]; intros h R x Z I; cbn [zF ahead] in *; [contradiction|].
  destruct Z as (Wp & Hi & G & R' & Z & ER). subst R. rewrite concat_app. apply in_app_iff in I as [I|I].
  - unfold sub_q in I. apply in_flat_map in I as (e & He & I). rewrite Forall_forall in G. destruct (leaf_pages_kind V h (snd e) x (G e He) I) as (A & B).
    split; [exact A|]. intros y Hy. apply in_app_iff. left. apply B in Hy. apply in_concat in Hy as (z & Hz & Hy). apply in_concat. exists z. split; [|exact Hy].
    unfold sub_ll. apply in_flat_map. eauto.
  - destruct (IH (S h) R' x Z I) as (A & B). split; [exact A|]. intros y Hy. apply in_app_iff. right. now apply B.
Qed.
Lemma zF_branches V : forall st h R, zF V h st R -> Forall (fun pi => wf_page false (fst pi)) st.
Proof.
  induction st as [|(p, i) st IH]; intros h R Z; cbn [zF] in Z; [constructor|]. destruct Z as (Wp & _ & _ & R' & Z & _). constructor; [exact Wp|eapply IH; eauto].
Qed.

Lemma del_keeps E t t' k v c es R : blen k < 65536 -> shaped E t -> db_get E t k = Ok v -> db_del E t k None = Ret tt t' ->
  atF (get_page E t) (shows E t c) (k, v) es R -> ~ In k (map fst (concat R)) -> unspoilt E t c ->
  shows E t' c = shows E t c /\ unspoilt E t' c.
Proof.
  intros Hk SH G X A NI (q & i & r & S & C). destruct (del_touches E t t' k v Hk SH G X) as (l & W & IN & OFF & RO & DT).
  destruct A as (p & j & st & EQ & Wp & Hl & Hn & Z & _). unfold shows in EQ. rewrite S in EQ. cbn [look map fst snd] in EQ. injection EQ as E1 E2 E3 E4. subst st. fold (look E t r) in Z, Hl.
  assert (LR : look E t' r = look E t r).
  { pose proof (zF_branches _ _ _ _ Z) as FB. unfold look. apply map_ext_in. intros (w, n) I. cbn [fst snd]. f_equal.
    rewrite Forall_forall in FB. specialize (FB (page_at E t w, n)). cbn [fst] in FB.
    assert (WB : wf_page false (page_at E t w)). { apply FB. apply in_map_iff. exists (w, n). auto. }
    destruct w as [x|x]; [reflexivity|].
    assert (P1 : page_at E t (InPool x) = get_page E t x) by (unfold get_page; now rewrite (proj1 SH)).
    assert (P2 : page_at E t' (InPool x) = get_page E t' x) by (unfold get_page; now rewrite RO).
    rewrite P1 in WB |- *. rewrite P2. apply OFF. intros ->. apply wf_is_leaf in W, WB. congruence. }
  split.
  - unfold shows. rewrite S. cbn [look map fst snd page_at]. f_equal. f_equal. exact LR.
  - exists q, i, r. split; [exact S|]. intros x I. rewrite LR, (ahead_frame _ _ l k v OFF W IN _ _ _ Z NI) in I.
    destruct (dget (t_dirty t') x) eqn:D; [|reflexivity]. exfalso. destruct (ahead_kind _ _ _ _ _ Z I) as (WX & IX).
    destruct (DT x) as [Y|[->|Y]]; [rewrite D; discriminate| | |].
    + apply Y. now apply C.
    + apply NI. apply (in_map fst _ (k, v)). now apply IX.
    + apply wf_is_leaf in WX, Y. congruence.
Qed.

(** ** The scan that deletes *)
Lemma sweep_shown E keep : forall fuel t c kv es R, shaped E t -> atF (get_page E t) (shows E t c) kv es R -> unspoilt E t c ->
  ksorted (map fst (kv :: es ++ concat R)) -> Forall (fun e => blen (fst e) < 65536 /\ db_get E t (fst e) = Ok (snd e)) (kv :: es ++ concat R) ->
  live_sweep fuel E t keep (LOk kv c) = sweep_loop fuel E t keep (COk kv (shows E t c)).
Proof.
  induction fuel as [|f IH]; intros t c (k, v) es R SH A U SK F; [reflexivity|]. cbn [live_sweep sweep_loop].
  cbn [map] in SK. apply sorted_cons_inv in SK. destruct SK as (SK & FK). pose proof (Forall_inv F) as (Hk & G). cbn [fst snd] in Hk, G. apply Forall_inv_tail in F.
  assert (STEP : forall t1, shaped E t1 -> atF (get_page E t1) (shows E t1 c) (k, v) es R -> unspoilt E t1 c ->
    Forall (fun e => blen (fst e) < 65536 /\ db_get E t1 (fst e) = Ok (snd e)) (es ++ concat R) ->
    live_sweep f E t1 keep (live_get E t1 c NEXT) = sweep_loop f E t1 keep (cursor_get E t1 (shows E t1 c) NEXT)).
  { intros t1 SH1 A1 U1 F1. pose proof (live_same E t1 c NEXT) as LS. rewrite <- LS.
    destruct (live_get E t1 c NEXT) as [kv' c'|e c'| |] eqn:LG; cbn [shown]; try (destruct f; reflexivity).
    unfold live_get in LG. destruct (lnext E t1 c) as [[] c1| | |] eqn:LN; try discriminate. pose proof (fetch_same _ _ _ _ _ LG). subst c'.
    pose proof (next_unspoilt E t1 c _ _ _ c1 U1 A1 LN) as U2. pose proof (next_shown E t1 c) as NS. rewrite LN in NS. cbn [shown] in NS.
    pose proof (next_f _ _ _ _ _ _ A1) as NF. rewrite <- NS in NF. pose proof (fetch_shown E t1 c1) as FS. rewrite LG in FS. cbn [shown] in FS.
    destruct es as [|kv2 es2].
    - destruct R as [|[|kv2 es2] R2]; cbn [enters] in NF; try (destruct NF as (? & NF); discriminate). destruct NF as (c2 & NF & A2). injection NF as <-.
      rewrite (fetch_f _ _ _ _ _ A2) in FS. injection FS as ->. cbn [app concat] in SK, F1. apply (IH t1 c1 kv2 es2 R2); auto.
    - destruct NF as (c2 & NF & A2). injection NF as <-. rewrite (fetch_f _ _ _ _ _ A2) in FS. injection FS as ->. apply (IH t1 c1 kv2 es2 R); auto. }
  destruct (visited keep k); [now apply STEP|].
  pose proof (db_del_shape E t k None Hk SH) as D. rewrite G in D. destruct D as (t' & X & _ & SH' & _ & RD). rewrite X. cbn [bindo].
  assert (NI : ~ In k (map fst (es ++ concat R))).
  { rewrite Forall_forall in FK. intro Hin. eapply klt_irrefl. apply FK. exact Hin. }
  assert (NR : ~ In k (map fst (concat R))) by (intro Hin; apply NI; rewrite map_app, in_app_iff; auto).
  destruct (del_keeps E t t' k v c es R Hk SH G X A NR U) as (SS & U').
  destruct (del_leaf E t t' k v Hk SH G X) as (l & W & I & OFF).
  rewrite STEP; auto; [now rewrite SS| |].
  - rewrite SS. exact (atF_frame _ _ l k v OFF W I _ _ _ _ A NR).
  - rewrite Forall_forall in *. intros e He. destruct (F e He) as (H1 & H2). split; [exact H1|]. rewrite RD by exact H1.
    destruct (key_dec (fst e) k) as [Ek|]; [|exact H2]. exfalso. apply NI. rewrite <- Ek. apply in_map. exact He.
Qed.

(** When no leaf has been changed by the transaction yet, the scan with pointers deletes what the
    one of CacheModel deletes. *)
Lemma live_sweep_same fuel E t keep l : shaped E t -> sorted_tree E t -> bindings E t l ->
  (forall h x, shape (get_page E t) h (t_root t) -> In x (leaf_pages (get_page E t) h (t_root t)) -> dget (t_dirty t) x = None) ->
  live_sweep fuel E t keep (live_get E t live_open FIRST) = sweep_loop fuel E t keep (cursor_get E t cursor_open FIRST).
Proof.
  intros SH ST BL CL. pose proof (live_same E t live_open FIRST) as LS. change (shows E t live_open) with cursor_open in LS. rewrite <- LS.
  destruct (live_get E t live_open FIRST) as [kv c|e c| |] eqn:LG; cbn [shown]; try (destruct fuel; reflexivity).
  unfold live_get in LG. destruct (lseek E t FIRST) as [[] c1| | |] eqn:LN; try discriminate. pose proof (fetch_same _ _ _ _ _ LG). subst c1.
  pose proof (seek_shown E t FIRST) as NS. rewrite LN in NS. cbn [shown] in NS.
  destruct ST as [Z|(h & Hh & Nz & T)]. { unfold lseek in LN. rewrite Z in LN. discriminate. }
  pose proof (tree_shape _ _ _ _ _ _ T) as S. pose proof (bindings_unique E t _ _ BL (tree_bindings E t h ltac:(lia) Nz T)) as EL.
  pose proof (first_f E t h Hh Nz S) as X. rewrite <- NS in X. rewrite <- concat_leaves in EL.
  destruct (leaf_lists (get_page E t) h (t_root t)) as [|[|kv2 es] R]; cbn [enters] in X; try (destruct X as (? & X); discriminate).
  destruct X as (c2 & X & A). injection X as <-. pose proof (fetch_shown E t c) as FS. rewrite LG in FS. cbn [shown] in FS.
  rewrite (fetch_f _ _ _ _ _ A) in FS. injection FS as ->. cbn [concat app] in EL. subst l. destruct BL as (SK & BK & BI).
  apply (sweep_shown E keep fuel t c kv2 es R SH A).
  - eapply first_unspoilt; eauto.
  - exact SK.
  - rewrite Forall_forall in *. intros (k, v) He. pose proof (BK _ He) as Hk. cbn [fst snd] in *. split; [exact Hk|]. apply BI; auto.
Qed.

(** ** C164 *)
Lemma scans_same E t op a l e : scans E t op a l e -> forall l' e', scans E t op a l' e' -> l = l' /\ e = e'.
Proof.
  induction 1 as [e c|kv c l e S IH]; intros l' e' S'; inversion S'; subst; [auto|]. destruct (IH _ _ H3) as (-> & ->). auto.
Qed.
Lemma clean_leaves E t : (forall q, is_leaf (get_page E t q) = true -> dget (t_dirty t) q = None) ->
  forall h x, shape (get_page E t) h (t_root t) -> In x (leaf_pages (get_page E t) h (t_root t)) -> dget (t_dirty t) x = None.
Proof. intros H h x S I. apply H. destruct (leaf_pages_kind _ _ _ _ S I) as (W & _). exact (wf_is_leaf true _ W). Qed.

(** In a transaction that has not changed a leaf yet, deleting each pair of a scan that is not to be
    kept, right after it was returned and before the next one is asked for: the scan goes on as if
    nothing had been deleted, every pair it returned is deleted or kept as asked for, and the rest is
    as before.  When no leaf is empty the scan returns all pairs.  Missing for the full claim: a
    transaction that has changed leaves before, see [delete_while_scanning_refuted]. *)
Theorem delete_while_scanning_partial : forall fuel E t keep l, shaped E t -> sorted_tree E t -> bindings E t l ->
  (forall q, is_leaf (get_page E t q) = true -> dget (t_dirty t) q = None) -> (length l + 1 < fuel)%nat ->
  exists pre post t', l = pre ++ post /\ scans E t NEXT (cursor_get E t cursor_open FIRST) pre NOTFOUND /\
    (scannable E t -> post = []) /\
    live_sweep fuel E t keep (live_get E t live_open FIRST) = Ret tt t' /\
    forall path, blen path < 65536 -> db_get E t' path =
      if in_dec key_dec path keep then db_get E t path
      else if in_dec key_dec path (map fst pre) then Err NOTFOUND else db_get E t path.
Proof.
  intros fuel E t keep l SH ST BL CL Hf. destruct (sweep_deletes fuel E t keep l SH ST BL Hf) as (pre & post & t' & EL & SC & SW & G).
  exists pre, post, t'. splits; auto.
  - intro SN. destruct (forward_scan_partial E t SN) as (l2 & B2 & S2). destruct (scans_same _ _ _ _ _ _ SC _ _ S2) as (-> & _).
    rewrite (bindings_unique E t _ _ BL B2) in EL. rewrite <- (app_nil_r l2) in EL at 1. apply app_inv_head in EL. auto.
  - rewrite (live_sweep_same fuel E t keep l SH ST BL (clean_leaves E t CL)). exact SW.
Qed.
Print Assumptions delete_while_scanning_partial.

(** The sweep of the cache runs in a transaction of its own, so this is its case: the loop with the
    pointers of the code ends in the same transaction as the loop the sweep is modelled with. *)
Theorem sweep_pointers : forall fuel E l E1 t keep, healthy E -> sorted_tree E (reader E) -> bindings E (reader E) l ->
  begin_write E = Some (E1, t) ->
  live_sweep fuel E1 t keep (live_get E1 t live_open FIRST) = sweep_loop fuel E1 t keep (cursor_get E1 t cursor_open FIRST).
Proof.
  intros fuel E l E1 t keep HH SC BL B. pose proof (proj2 HH _ _ B) as ((_ & SH) & _). destruct (begin_fields _ _ _ B) as (-> & Et).
  apply (live_sweep_same fuel _ _ keep l).
  - split; [rewrite Et; reflexivity|exact SH].
  - unfold sorted_tree, ordered. rewrite Et. exact SC.
  - destruct BL as (B1 & B2 & B3). split; [exact B1|]. split; [exact B2|]. intros k v Hk. rewrite (B3 k v Hk).
    rewrite (db_get_view E (reader E) (set_locked E true) t); [reflexivity|intro q; rewrite Et; reflexivity|rewrite Et; reflexivity].
  - intros. rewrite Et. reflexivity.
Qed.
Print Assumptions sweep_pointers.

(** Three pairs put and then deleted by a scan in the same transaction: the second one stays,
    because the leaf is changed in place under the cursor. *)
Definition three_put : txn := PropTree.after (do_ops env_create (begun env_create) [Put [97] [1]; Put [98] [2]; Put [99] [3]]).
Definition three_swept : txn := PropTree.after (live_sweep 10 env_create three_put [] (live_get env_create three_put live_open FIRST)).
Theorem delete_while_scanning_refuted :
  do_ops env_create (begun env_create) [Put [97] [1]; Put [98] [2]; Put [99] [3]] = Ret tt three_put /\
  live_sweep 10 env_create three_put [] (live_get env_create three_put live_open FIRST) = Ret tt three_swept /\
  db_get env_create three_swept [97] = Err NOTFOUND /\ db_get env_create three_swept [98] = Ok [2] /\ db_get env_create three_swept [99] = Err NOTFOUND.
Proof.
  split; [apply ret_after; vm_compute; reflexivity|]. split; [apply ret_after; vm_compute; reflexivity|].
  split; [vm_compute; reflexivity|]. split; vm_compute; reflexivity.
Qed.
Print Assumptions delete_while_scanning_refuted.

(** a thousand pairs loaded by another transaction, every one deleted by a scan but the first *)
Example delete_while_scanning_case : exists E' t', transact env_create (puts thousand) = Ok E' /\
  live_sweep 1002 (set_locked E' true) (begun E') (firstn 1 (map fst thousand)) (live_get (set_locked E' true) (begun E') live_open FIRST) = Ret tt t' /\
  forall path v, blen path < 65536 -> (db_get (set_locked E' true) t' path = Ok v <-> In (path, v) (firstn 1 thousand)).
Proof.
  destruct thousand_case as (A & B & C & D). destruct (loaded _ _ _ _ _ _ A B C D) as (E' & TR & SN & BL & LD). exists E'.
  destruct (laid_healthy _ _ LD) as (HH & _). pose proof (begun_is E' (proj1 HH)) as BW. pose proof (proj2 HH _ _ BW) as ((_ & SH) & _).
  destruct (begin_fields _ _ _ BW) as (_ & Et).
  assert (VW : forall k, db_get E' (reader E') k = db_get (set_locked E' true) (begun E') k).
  { intro k. apply db_get_view; [intro q; rewrite Et; reflexivity|rewrite Et; reflexivity]. }
  assert (BL1 : bindings (set_locked E' true) (begun E') thousand).
  { destruct BL as (B1 & B2 & B3). split; [exact B1|]. split; [exact B2|]. intros k v Hk. rewrite (B3 k v Hk), VW. reflexivity. }
  assert (SN1 : scannable (set_locked E' true) (begun E')) by (unfold scannable; rewrite Et; exact SN).
  assert (ST1 : sorted_tree (set_locked E' true) (begun E')).
  { destruct SN1 as [Z|(h & H1 & H2 & H3 & _)]; [left; exact Z|right; exists h; split; [exact H1|split; [exact H2|exact H3]]]. }
  destruct (delete_while_scanning_partial 1002 (set_locked E' true) (begun E') (firstn 1 (map fst thousand)) thousand) as (pre & post & t' & EL & SC & PO & SW & G).
  - split; [rewrite Et; reflexivity|exact SH].
  - exact ST1.
  - exact BL1.
  - intros q _. rewrite Et. reflexivity.
  - replace (length thousand) with 1000%nat by (unfold thousand; rewrite map_length, seq_length; reflexivity). apply Nat.ltb_lt. reflexivity.
  - exists t'. split; [exact TR|]. split; [exact SW|]. intros path v Hp. rewrite (G path Hp). specialize (PO SN1). subst post. rewrite app_nil_r in EL. subst pre.
    destruct BL1 as (SK & BK & BI). pose proof (sorted_NoDup _ SK) as ND. specialize (BI path v Hp).
    destruct thousand as [|(k0, v0) rest]; [cbn in *; rewrite <- BI; tauto|].
    cbn [firstn map fst] in *. destruct (in_dec key_dec path [k0]) as [[<-|[]]|N0].
    + rewrite <- BI. split; intros [X|X]; [left; exact X| |left; exact X|destruct X]. exfalso. inversion ND; subst. apply H1. change k0 with (fst (k0, v)). apply in_map. exact X.
    + destruct (in_dec key_dec path (k0 :: map fst rest)) as [I|NI].
      * split; [discriminate|]. intros [X|[]]. injection X as -> ->. exfalso. apply N0. left. reflexivity.
      * rewrite <- BI. split; intro X; exfalso; apply NI; [|destruct X as [X|[]]; injection X as -> ->; left; reflexivity].
        change path with (fst (path, v)). change (k0 :: map fst rest) with (map fst ((k0, v0) :: rest)). apply in_map. exact X.
Qed.
