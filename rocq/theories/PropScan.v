(** Properties C130, C131 and C132: what a scan returns, what a sweep deletes and what SET_RANGE finds on any ordered tree,
    emptied leaves included. *)
From Verif Require Import Util PageModel PageSpec PageProofs PageOps TxnModel CursorModel TreeModel TreeSpec PropPage TreeProofs TreeOps TreeSplit TreePut TreeShape TxnInv DbModel SysModel DbSpec DbProofs DbCommit CursorSpec CursorProofs PropTree PropCursor PropCommit CacheModel PropCache.
Local Open Scope N_scope.

(** ** Specification *)
(** the pairs of a tree, leaf by leaf, from the smallest to the largest *)
Fixpoint leaf_lists (V : view) (h : nat) (pg : N) : list (list (bytes * bytes)) :=
  match h with
  | O => [leaf_entries (V pg)]
  | S h' => flat_map (fun e => leaf_lists V h' (snd e)) (branch_entries (V pg))
  end.
(** everything before the first leaf that holds nothing *)
Fixpoint upto_empty (ls : list (list (bytes * bytes))) : list (bytes * bytes) :=
  match ls with
  | [] => []
  | [] :: _ => []
  | l :: r => l ++ upto_empty r
  end.

(** ** Forward *)
Definition sub_ll (W : view) (h : nat) (l : list (bytes * N)) : list (list (bytes * bytes)) := flat_map (fun e => leaf_lists W h (snd e)) l.
Definition shaped_at (W : view) (h : nat) (e : bytes * N) : Prop := shape W h (snd e).
Fixpoint zF (W : view) (h : nat) (st : list (page * N)) (R : list (list (bytes * bytes))) : Prop :=
  match st with
  | [] => R = []
  | (p, i) :: r =>
    wf_page false p /\ i < pg_nkeys p /\ Forall (shaped_at W h) (skipn (S (N.to_nat i)) (branch_entries p)) /\
    exists R', zF W (S h) r R' /\ R = sub_ll W h (skipn (S (N.to_nat i)) (branch_entries p)) ++ R'
  end.
(** the cursor stands on [kv]; [es] follows in its leaf, the leaves [R] follow that leaf *)
Definition atF (W : view) (c : cursor) (kv : bytes * bytes) (es : list (bytes * bytes)) (R : list (list (bytes * bytes))) : Prop :=
  exists p i r, c = mkCur ((p, i) :: r) false /\ wf_page true p /\ (length r < 32)%nat /\
    nth_error (leaf_entries p) (N.to_nat i) = Some kv /\ zF W 0 r R /\ es = skipn (S (N.to_nat i)) (leaf_entries p).
(** the first pair of a list of leaves is reached, or the first leaf is empty *)
Definition enters (W : view) (r : cout unit) (R : list (list (bytes * bytes))) : Prop :=
  match R with
  | (kv :: es) :: R' => exists c, r = COk tt c /\ atF W c kv es R'
  | _ => exists c, r = CErr NOTFOUND c
  end.

Lemma upto_cons l r : l <> [] -> upto_empty (l :: r) = l ++ upto_empty r.
Proof. destruct l; [congruence|reflexivity]. Qed.

Lemma descend_left_f E t : forall h pg st fuel R, shape (get_page E t) h pg -> (length st + h < 32)%nat -> (h < fuel)%nat ->
  zF (get_page E t) h st R ->
  enters (get_page E t) (descend_left fuel E t pg st) (leaf_lists (get_page E t) h pg ++ R).
Proof.
  induction h as [|h IH]; intros pg st [|f] R S Hl Hf Z; try lia; cbn [descend_left].
  - cbn [shape] in S. destruct S as (_ & W & _). rewrite (wf_is_leaf true _ W), push_ok by lia. cbn [leaf_lists app].
    pose proof (leaf_entries_length (get_page E t pg)) as Q.
    destruct (leaf_entries (get_page E t pg)) as [|kv es] eqn:LE; cbn [enters length] in *.
    + destruct (N.eqb_spec (pg_nkeys (get_page E t pg)) 0); [eauto|lia].
    + destruct (N.eqb_spec (pg_nkeys (get_page E t pg)) 0); [lia|]. eexists. split; [reflexivity|].
      exists (get_page E t pg), 0, st. rewrite LE. splits; auto. lia.
  - cbn [shape] in S. destruct S as (Ep & W & SK & Hne & F). rewrite (wf_is_leaf false _ W), push_ok by lia.
    pose proof (branch_entries_length (get_page E t pg)) as Q. cbn [leaf_lists].
    destruct (branch_entries (get_page E t pg)) as [|(k0, c) es] eqn:B; [congruence|]. cbn [length] in Q.
    assert (C : child_at (get_page E t pg) 0 = Ok c) by (apply (child_at_ok _ 0 k0 c W); rewrite B; reflexivity). rewrite C.
    inversion F as [|? ? Sc F']; subst. cbn [snd] in *. cbn [flat_map snd]. rewrite <- app_assoc.
    apply IH; auto; [cbn [length]; lia|lia|]. cbn [zF]. rewrite B. cbn [N.to_nat skipn]. splits; auto; [lia|]. exists R. auto.
Qed.

Lemma ascend_next_f E t : forall st h R, zF (get_page E t) h st R -> (length st + h < 32)%nat ->
  enters (get_page E t) (ascend_next E t st) R.
Proof.
  induction st as [|(p, i) st IH]; intros h R Z Hl; cbn [zF ascend_next] in *.
  - subst R. cbn. eauto.
  - destruct Z as (W & Hi & G & R' & Z & ER). pose proof (branch_entries_length p) as Q.
    pose proof (wf_nkeys_small _ _ W) as Sm. unfold HDR, PAGE_SIZE in Sm. rewrite (u16_small (i + 1)) by lia.
    destruct (N.ltb_spec (i + 1) (pg_nkeys p)) as [Hi'|Hi'].
    + destruct (nth_ex (branch_entries p) (N.to_nat (i + 1)) ltac:(lia)) as ((k0, c0) & X0).
      rewrite (child_at_ok _ _ k0 c0 W X0).
      replace (S (N.to_nat i)) with (N.to_nat (i + 1)) in * by lia. rewrite (skipn_nth _ _ _ X0) in G, ER.
      inversion G as [|? ? Sc G']; subst. unfold shaped_at in Sc. cbn [snd] in *.
      unfold sub_ll. cbn [flat_map snd]. rewrite <- app_assoc.
      apply descend_left_f; [exact Sc|cbn [length] in *; lia|unfold FIND_FUEL; cbn [length] in *; lia|].
      cbn [zF]. splits; auto. exists R'. auto.
    + rewrite skipn_all2 in ER by lia. cbn in ER. subst R'. cbn [length] in Hl. apply (IH (S h) R Z). lia.
Qed.

Lemma fetch_f W c kv es R : atF W c kv es R -> cursor_fetch c = COk kv c.
Proof.
  intros (p & i & r & -> & Wp & _ & Hn & _). unfold cursor_fetch. cbn [c_stack c_eof]. pose proof (leaf_entry_count _ _ _ Hn).
  destruct (N.leb_spec (pg_nkeys p) i); [lia|]. destruct kv as [k v]. destruct (leaf_value_ok p i k v Wp Hn) as (-> & ->). reflexivity.
Qed.

Lemma next_f E t c kv es R : atF (get_page E t) c kv es R ->
  match es with
  | kv' :: es' => exists c', cursor_next E t c = COk tt c' /\ atF (get_page E t) c' kv' es' R
  | [] => enters (get_page E t) (cursor_next E t c) R
  end.
Proof.
  intros (p & i & r & -> & W & Hl & Hn & Z & ->). unfold cursor_next. cbn [c_stack c_eof].
  pose proof (leaf_entry_count _ _ _ Hn) as Hi. pose proof (leaf_entries_length p) as Q.
  pose proof (wf_nkeys_small _ _ W) as Sm. unfold HDR, PAGE_SIZE in Sm. rewrite (u16_small (i + 1)) by lia.
  destruct (N.ltb_spec (i + 1) (pg_nkeys p)) as [Hi'|Hi'].
  - destruct (nth_ex (leaf_entries p) (N.to_nat (i + 1)) ltac:(lia)) as (kv1 & X0).
    replace (S (N.to_nat i)) with (N.to_nat (i + 1)) by lia. rewrite (skipn_nth _ _ _ X0). eexists. split; [reflexivity|].
    exists p, (i + 1), r. splits; auto.
  - rewrite skipn_all2 by lia.
    destruct r as [|top r].
    + cbn [zF] in Z. subst R. cbn. eauto.
    + apply (ascend_next_f E t (top :: r) 0 R Z). lia.
Qed.

(** one step of the remaining list *)
Lemma step_f E t c kv es R post : atF (get_page E t) c kv es R -> post = es ++ upto_empty R ->
  match post with
  | [] => exists c', cursor_next E t c = CErr NOTFOUND c'
  | kv' :: post' => exists c' es' R', cursor_next E t c = COk tt c' /\ atF (get_page E t) c' kv' es' R' /\ post' = es' ++ upto_empty R' /\
      es ++ concat R = kv' :: es' ++ concat R'
  end.
Proof.
  intros A ->. pose proof (next_f _ _ _ _ _ _ A) as X. destruct es as [|kv' es]; cbn [app].
  - destruct R as [|[|kv' es'] R']; cbn [upto_empty app enters] in *; auto. destruct X as (c' & X & A'). exists c', es', R'. auto.
  - destruct X as (c' & X & A'). exists c', es, R. auto.
Qed.

Lemma scan_next_f E t : forall post c kv es R, atF (get_page E t) c kv es R -> post = es ++ upto_empty R ->
  scans E t NEXT (COk kv c) (kv :: post) NOTFOUND.
Proof.
  induction post as [|kv' post IH]; intros c kv es R A EP; apply scans_step; pose proof (step_f E t c kv es R _ A EP) as X; unfold cursor_get.
  - destruct X as (c' & ->). constructor.
  - destruct X as (c' & es' & R' & -> & A' & EP' & _). rewrite (fetch_f _ _ _ _ _ A'). eapply IH; eauto.
Qed.

(** the descent of a FIRST *)
Lemma first_down_f E t : forall h pg st fuel R, shape (get_page E t) h pg -> (length st + h < 32)%nat -> (h < fuel)%nat ->
  zF (get_page E t) h st R ->
  exists pl r R', seek_down fuel E t FIRST pg st = COk tt (mkCur ((get_page E t pl, 0) :: r) false) /\ shape (get_page E t) 0 pl /\ (length r < 32)%nat /\
    zF (get_page E t) 0 r R' /\ leaf_lists (get_page E t) h pg ++ R = leaf_entries (get_page E t pl) :: R'.
Proof.
  induction h as [|h IH]; intros pg st [|f] R S Hl Hf Z; try lia; cbn [seek_down].
  - pose proof S as S0. cbn [shape] in S. destruct S as (_ & W & _). rewrite (wf_is_leaf true _ W), push_ok by lia.
    exists pg, st, R. splits; auto. lia.
  - cbn [shape] in S. destruct S as (Ep & W & SK & Hne & F). rewrite (wf_is_leaf false _ W), (wf_is_branch false _ W). cbn [negb seek_index].
    pose proof (branch_entries_length (get_page E t pg)) as Q. cbn [leaf_lists].
    destruct (branch_entries (get_page E t pg)) as [|(k0, c) es] eqn:B; [congruence|]. cbn [length] in Q.
    assert (C : child_at (get_page E t pg) 0 = Ok c) by (apply (child_at_ok _ 0 k0 c W); rewrite B; reflexivity). rewrite C, push_ok by lia.
    inversion F as [|? ? Sc F']; subst. cbn [snd] in *. cbn [flat_map snd]. rewrite <- app_assoc.
    apply IH; auto; [cbn [length]; lia|lia|]. cbn [zF]. rewrite B. cbn [N.to_nat skipn]. splits; auto; [lia|]. exists R. auto.
Qed.

Lemma first_f E t h : (h < 32)%nat -> t_root t <> 0 -> shape (get_page E t) h (t_root t) ->
  enters (get_page E t) (cursor_seek E t FIRST) (leaf_lists (get_page E t) h (t_root t)).
Proof.
  intros Hh Nz S. unfold cursor_seek. destruct (N.eqb_spec (t_root t) 0); [congruence|].
  destruct (first_down_f E t h (t_root t) [] FIND_FUEL [] S ltac:(cbn; lia) ltac:(unfold FIND_FUEL; lia) eq_refl) as (pl & r & R & -> & Sp & Lr & Z & EQ).
  rewrite app_nil_r in EQ. rewrite EQ. cbn [shape] in Sp. destruct Sp as (_ & W & _). unfold seek_leaf. cbn [c_stack].
  pose proof (leaf_entries_length (get_page E t pl)) as Q.
  destruct (leaf_entries (get_page E t pl)) as [|kv es] eqn:LE; cbn [enters length app] in *.
  - destruct (N.eqb_spec (pg_nkeys (get_page E t pl)) 0); [eauto|lia].
  - destruct (N.eqb_spec (pg_nkeys (get_page E t pl)) 0); [lia|]. eexists. split; [reflexivity|].
    exists (get_page E t pl), 0, r. rewrite LE. splits; auto.
Qed.
Lemma scan_forward_f E t h c0 : (h < 32)%nat -> t_root t <> 0 -> shape (get_page E t) h (t_root t) ->
  scans E t NEXT (cursor_get E t c0 FIRST) (upto_empty (leaf_lists (get_page E t) h (t_root t))) NOTFOUND.
Proof.
  intros Hh Nz S. pose proof (first_f E t h Hh Nz S) as X. unfold cursor_get.
  destruct (leaf_lists (get_page E t) h (t_root t)) as [|[|kv es] R]; cbn [enters upto_empty app] in *.
  - destruct X as (c & ->). constructor.
  - destruct X as (c & ->). constructor.
  - destruct X as (c & -> & A). rewrite (fetch_f _ _ _ _ _ A). eapply scan_next_f; eauto.
Qed.

(** ** Backward: the same with every list reversed *)
Fixpoint rleaf_lists (V : view) (h : nat) (pg : N) : list (list (bytes * bytes)) :=
  match h with
  | O => [rev (leaf_entries (V pg))]
  | S h' => flat_map (fun e => rleaf_lists V h' (snd e)) (rev (branch_entries (V pg)))
  end.
Lemma rleaf_rev V : forall h pg, rleaf_lists V h pg = map (@rev _) (rev (leaf_lists V h pg)).
Proof.
  induction h as [|h IH]; intro pg; cbn [rleaf_lists leaf_lists]; [reflexivity|].
  induction (branch_entries (V pg)) as [|e l IHl]; [reflexivity|]. cbn [rev flat_map].
  rewrite flat_map_app, rev_app_distr, map_app, IHl. cbn [flat_map]. rewrite app_nil_r, IH. reflexivity.
Qed.
Definition rsub (W : view) (h : nat) (l : list (bytes * N)) : list (list (bytes * bytes)) := flat_map (fun e => rleaf_lists W h (snd e)) (rev l).
Lemma rsub_last W h l e : rsub W h (l ++ [e]) = rleaf_lists W h (snd e) ++ rsub W h l.
Proof. unfold rsub. rewrite rev_app_distr. reflexivity. Qed.
Fixpoint zB (W : view) (h : nat) (st : list (page * N)) (R : list (list (bytes * bytes))) : Prop :=
  match st with
  | [] => R = []
  | (p, i) :: r =>
    wf_page false p /\ i < pg_nkeys p /\ Forall (shaped_at W h) (firstn (N.to_nat i) (branch_entries p)) /\
    exists R', zB W (S h) r R' /\ R = rsub W h (firstn (N.to_nat i) (branch_entries p)) ++ R'
  end.
Definition aheadB (W : view) (c : cursor) (kv : bytes * bytes) (post : list (bytes * bytes)) : Prop :=
  exists p i r R, c = mkCur ((p, i) :: r) false /\ wf_page true p /\ (length r < 32)%nat /\
    nth_error (leaf_entries p) (N.to_nat i) = Some kv /\ zB W 0 r R /\ post = rev (firstn (N.to_nat i) (leaf_entries p)) ++ upto_empty R.

Lemma leaf_last p kl es : leaf_entries p = es ++ [kl] -> 0 < pg_nkeys p /\ nth_error (leaf_entries p) (N.to_nat (pg_nkeys p - 1)) = Some kl /\
  firstn (N.to_nat (pg_nkeys p - 1)) (leaf_entries p) = es.
Proof.
  intro LE. pose proof (leaf_entries_length p) as Q. rewrite LE, app_length in Q. cbn [length] in Q. split; [lia|].
  replace (N.to_nat (pg_nkeys p - 1)) with (length es) by lia. rewrite LE. split.
  - rewrite nth_error_app2 by lia. rewrite Nat.sub_diag. reflexivity.
  - rewrite firstn_app, Nat.sub_diag, firstn_all. cbn. apply app_nil_r.
Qed.
Lemma branch_last p : branch_entries p <> [] -> exists es e, branch_entries p = es ++ [e] /\ 0 < pg_nkeys p /\
  nth_error (branch_entries p) (N.to_nat (pg_nkeys p - 1)) = Some e /\ firstn (N.to_nat (pg_nkeys p - 1)) (branch_entries p) = es.
Proof.
  intro Ne. destruct (exists_last Ne) as (es & e & LE). exists es, e. split; [exact LE|].
  pose proof (branch_entries_length p) as Q. rewrite LE, app_length in Q. cbn [length] in Q. split; [lia|].
  replace (N.to_nat (pg_nkeys p - 1)) with (length es) by lia. rewrite LE. split.
  - rewrite nth_error_app2 by lia. rewrite Nat.sub_diag. reflexivity.
  - rewrite firstn_app, Nat.sub_diag, firstn_all. cbn. apply app_nil_r.
Qed.

Lemma descend_right_f E t : forall h pg st fuel R, shape (get_page E t) h pg -> (length st + h < 32)%nat -> (h < fuel)%nat ->
  zB (get_page E t) h st R ->
  match upto_empty (rleaf_lists (get_page E t) h pg ++ R) with
  | [] => exists c, descend_right fuel E t pg st = CErr NOTFOUND c
  | kv :: post => exists c, descend_right fuel E t pg st = COk tt c /\ aheadB (get_page E t) c kv post
  end.
Proof.
  induction h as [|h IH]; intros pg st [|f] R S Hl Hf Z; try lia; cbn [descend_right].
  - cbn [shape] in S. destruct S as (_ & W & _). rewrite (wf_is_leaf true _ W), push_ok by lia. cbn [rleaf_lists app].
    destruct (leaf_entries (get_page E t pg)) as [|kv0 es0] eqn:LE.
    + pose proof (leaf_entries_length (get_page E t pg)) as Q. rewrite LE in Q. cbn [length] in Q. cbn [rev upto_empty].
      destruct (N.eqb_spec (pg_nkeys (get_page E t pg)) 0); [eauto|lia].
    + destruct (exists_last (l := leaf_entries (get_page E t pg)) ltac:(congruence)) as (es & kl & LL).
      destruct (leaf_last _ kl es LL) as (Pn & Hn & Hf').
      rewrite <- LE, LL, rev_app_distr. cbn [rev app upto_empty].
      destruct (N.eqb_spec (pg_nkeys (get_page E t pg)) 0); [lia|]. eexists. split; [reflexivity|].
      exists (get_page E t pg), (pg_nkeys (get_page E t pg) - 1), st, R. rewrite Hf'. splits; auto. lia.
  - cbn [shape] in S. destruct S as (Ep & W & SK & Hne & F). rewrite (wf_is_leaf false _ W).
    destruct (branch_last _ Hne) as (es & e & LL & Pn & Hn & Hf').
    destruct (N.eqb_spec (pg_nkeys (get_page E t pg)) 0); [lia|]. rewrite push_ok by lia.
    destruct e as (k0, c). rewrite (child_at_ok _ _ k0 c W Hn). cbn [rleaf_lists].
    fold (rsub (get_page E t) h (branch_entries (get_page E t pg))). rewrite LL, rsub_last, <- app_assoc. cbn [snd].
    rewrite LL in F. apply Forall_app in F. destruct F as (F & Fc). apply Forall_inv in Fc. cbn [snd] in *.
    apply IH; auto; [cbn [length]; lia|lia|]. cbn [zB]. rewrite Hf'. splits; auto; [lia|]. exists R. auto.
Qed.

Lemma ascend_prev_f E t : forall st h R, zB (get_page E t) h st R -> (length st + h < 32)%nat ->
  match upto_empty R with
  | [] => exists c, ascend_prev E t st = CErr NOTFOUND c
  | kv :: post => exists c, ascend_prev E t st = COk tt c /\ aheadB (get_page E t) c kv post
  end.
Proof.
  induction st as [|(p, i) st IH]; intros h R Z Hl; cbn [zB ascend_prev] in *.
  - subst R. cbn. eauto.
  - destruct Z as (W & Hi & G & R' & Z & ER). pose proof (branch_entries_length p) as Q.
    destruct (N.ltb_spec 0 i) as [Hi'|Hi'].
    + destruct (nth_ex (branch_entries p) (N.to_nat (i - 1)) ltac:(lia)) as ((k0, c0) & X0).
      rewrite (child_at_ok _ _ k0 c0 W X0).
      replace (N.to_nat i) with (S (N.to_nat (i - 1))) in * by lia. rewrite (firstn_nth _ _ _ X0) in G, ER.
      apply Forall_app in G. destruct G as (G & Gc). inversion Gc as [|? ? Sc _]; subst. unfold shaped_at in Sc. cbn [snd] in *.
      rewrite rsub_last, <- app_assoc. cbn [snd].
      apply descend_right_f; [exact Sc|cbn [length] in *; lia|unfold FIND_FUEL; cbn [length] in *; lia|].
      cbn [zB]. splits; auto; [lia|]. exists R'. auto.
    + assert (i = 0) by lia. subst i. cbn in ER. subst R'. cbn [length] in Hl. apply (IH (S h) R Z). lia.
Qed.

Lemma fetch_b W c kv post : aheadB W c kv post -> cursor_fetch c = COk kv c.
Proof.
  intros (p & i & r & R & -> & Wp & _ & Hn & _). unfold cursor_fetch. cbn [c_stack c_eof]. pose proof (leaf_entry_count _ _ _ Hn).
  destruct (N.leb_spec (pg_nkeys p) i); [lia|]. destruct kv as [k v]. destruct (leaf_value_ok p i k v Wp Hn) as (-> & ->). reflexivity.
Qed.

Lemma prev_f E t c kv post : aheadB (get_page E t) c kv post ->
  match post with
  | [] => exists c', cursor_prev E t c = CErr NOTFOUND c'
  | kv' :: post' => exists c', cursor_prev E t c = COk tt c' /\ aheadB (get_page E t) c' kv' post'
  end.
Proof.
  intros (p & i & r & R & -> & W & Hl & Hn & Z & ->). unfold cursor_prev. cbn [c_stack c_eof].
  pose proof (leaf_entry_count _ _ _ Hn) as Hi. pose proof (leaf_entries_length p) as Q.
  destruct (N.ltb_spec 0 i) as [Hi'|Hi'].
  - destruct (nth_ex (leaf_entries p) (N.to_nat (i - 1)) ltac:(lia)) as (kv1 & X0).
    replace (N.to_nat i) with (S (N.to_nat (i - 1))) by lia. rewrite (firstn_nth _ _ _ X0), rev_app_distr. cbn [rev app]. eexists. split; [reflexivity|].
    exists p, (i - 1), r, R. splits; auto.
  - assert (i = 0) by lia. subst i. cbn [N.to_nat firstn rev app].
    destruct r as [|top r].
    + cbn [zB] in Z. subst R. cbn. eauto.
    + apply (ascend_prev_f E t (top :: r) 0 R Z). lia.
Qed.

Lemma scan_prev_f E t : forall post c kv, aheadB (get_page E t) c kv post -> scans E t PREV (COk kv c) (kv :: post) NOTFOUND.
Proof.
  induction post as [|kv' post IH]; intros c kv A; apply scans_step; pose proof (prev_f E t c kv _ A) as N; unfold cursor_get.
  - destruct N as (c' & ->). constructor.
  - destruct N as (c' & -> & A'). rewrite (fetch_b _ _ _ _ A'). apply IH. exact A'.
Qed.

Lemma last_down_f E t : forall h pg st fuel R, shape (get_page E t) h pg -> (length st + h < 32)%nat -> (h < fuel)%nat ->
  zB (get_page E t) h st R ->
  exists pl r R', seek_down fuel E t LAST pg st = COk tt (mkCur ((get_page E t pl, 0) :: r) false) /\ shape (get_page E t) 0 pl /\ (length r < 32)%nat /\
    zB (get_page E t) 0 r R' /\ rleaf_lists (get_page E t) h pg ++ R = rev (leaf_entries (get_page E t pl)) :: R'.
Proof.
  induction h as [|h IH]; intros pg st [|f] R S Hl Hf Z; try lia; cbn [seek_down].
  - pose proof S as S0. cbn [shape] in S. destruct S as (_ & W & _). rewrite (wf_is_leaf true _ W), push_ok by lia.
    exists pg, st, R. splits; auto. lia.
  - cbn [shape] in S. destruct S as (Ep & W & SK & Hne & F). rewrite (wf_is_leaf false _ W), (wf_is_branch false _ W). cbn [negb seek_index].
    destruct (branch_last _ Hne) as (es & e & LL & Pn & Hn & Hf').
    pose proof (wf_nkeys_small _ _ W) as Sm. unfold HDR, PAGE_SIZE in Sm.
    rewrite sub16_ge by lia. destruct e as (k0, c). rewrite (child_at_ok _ _ k0 c W Hn), push_ok by lia. cbn [rleaf_lists].
    fold (rsub (get_page E t) h (branch_entries (get_page E t pg))). rewrite LL, rsub_last, <- app_assoc. cbn [snd].
    rewrite LL in F. apply Forall_app in F. destruct F as (F & Fc). apply Forall_inv in Fc. cbn [snd] in *.
    apply IH; auto; [cbn [length]; lia|lia|]. cbn [zB]. rewrite Hf'. splits; auto; [lia|]. exists R. auto.
Qed.

Lemma scan_backward_f E t h c0 : (h < 32)%nat -> t_root t <> 0 -> shape (get_page E t) h (t_root t) ->
  scans E t PREV (cursor_get E t c0 LAST) (upto_empty (rleaf_lists (get_page E t) h (t_root t))) NOTFOUND.
Proof.
  intros Hh Nz S. unfold cursor_get, cursor_seek. destruct (N.eqb_spec (t_root t) 0); [congruence|].
  destruct (last_down_f E t h (t_root t) [] FIND_FUEL [] S ltac:(cbn; lia) ltac:(unfold FIND_FUEL; lia) eq_refl) as (pl & r & R & -> & Sp & Lr & Z & EQ).
  rewrite app_nil_r in EQ. rewrite EQ. cbn [shape] in Sp. destruct Sp as (_ & W & _). unfold seek_leaf. cbn [c_stack].
  destruct (leaf_entries (get_page E t pl)) as [|kv0 es0] eqn:LE.
  - pose proof (leaf_entries_length (get_page E t pl)) as Q. rewrite LE in Q. cbn [length] in Q. cbn [rev upto_empty].
    destruct (N.eqb_spec (pg_nkeys (get_page E t pl)) 0); [constructor|lia].
  - destruct (exists_last (l := leaf_entries (get_page E t pl)) ltac:(congruence)) as (es & kl & LL).
    destruct (leaf_last _ kl es LL) as (Pn & Hn & Hf').
    rewrite <- LE, LL, rev_app_distr. cbn [rev app upto_empty].
    destruct (N.eqb_spec (pg_nkeys (get_page E t pl)) 0); [lia|]. destruct (N.ltb_spec 0 (pg_nkeys (get_page E t pl))); [|lia].
    assert (A : aheadB (get_page E t) (mkCur ((get_page E t pl, pg_nkeys (get_page E t pl) - 1) :: r) false) kl (rev es ++ upto_empty R)).
    { exists (get_page E t pl), (pg_nkeys (get_page E t pl) - 1), r, R. rewrite Hf'. splits; auto. }
    rewrite (fetch_b _ _ _ _ A). apply scan_prev_f. exact A.
Qed.

(** ** C130 *)
Lemma concat_leaves V : forall h pg, concat (leaf_lists V h pg) = tree_kvs V h pg.
Proof.
  induction h as [|h IH]; intro pg; cbn [leaf_lists tree_kvs]; [apply app_nil_r|].
  induction (branch_entries (V pg)) as [|e l IHl]; [reflexivity|]. cbn [flat_map]. rewrite concat_app, IH, IHl. reflexivity.
Qed.
Lemma upto_prefix ls : exists post, concat ls = upto_empty ls ++ post.
Proof.
  induction ls as [|[|kv l] ls (post & IH)]; [exists []; reflexivity|eexists; reflexivity|].
  exists post. cbn [concat upto_empty]. rewrite IH, app_assoc. reflexivity.
Qed.

(** there is no tree, or an ordered one: emptied leaves are allowed *)
Definition sorted_tree (E : env) (t : txn) : Prop := t_root t = 0 \/ exists h, ordered E t h.

(** On every ordered tree a forward scan and a backward scan end with NOTFOUND.  The pairs
    of the tree come leaf by leaf ([ls]); the forward scan returns, in order, exactly those
    before the first leaf that holds nothing, the backward scan exactly those behind the
    last one, in reverse order. *)
Theorem scan_exact : forall E t c0, sorted_tree E t -> exists ls, bindings E t (concat ls) /\
  scans E t NEXT (cursor_get E t c0 FIRST) (upto_empty ls) NOTFOUND /\
  scans E t PREV (cursor_get E t c0 LAST) (upto_empty (map (@rev _) (rev ls))) NOTFOUND.
Proof.
  intros E t c0 [Z|(h & Hh & Nz & T)].
  - exists []. split; [apply empty_bindings; auto|]. unfold cursor_get, cursor_seek. rewrite Z. cbn. split; constructor.
  - pose proof (tree_shape _ _ _ _ _ _ T) as S.
    exists (leaf_lists (get_page E t) h (t_root t)). rewrite concat_leaves, <- rleaf_rev. splits.
    + apply tree_bindings; auto. lia.
    + apply scan_forward_f; auto.
    + apply scan_backward_f; auto.
Qed.
Print Assumptions scan_exact.

(** The consequence a caller relies on: whatever is returned is stored, comes in strict
    order and nothing is skipped before the point where the scan ends. *)
Theorem scan_sound : forall E t c0 l, sorted_tree E t -> bindings E t l ->
  (exists pre post, l = pre ++ post /\ scans E t NEXT (cursor_get E t c0 FIRST) pre NOTFOUND) /\
  (exists pre post, l = pre ++ post /\ scans E t PREV (cursor_get E t c0 LAST) (rev post) NOTFOUND).
Proof.
  intros E t c0 l O BL. destruct (scan_exact E t c0 O) as (ls & B & F & R).
  rewrite (bindings_unique E t l (concat ls) BL B). split.
  - destruct (upto_prefix ls) as (post & Q). exists (upto_empty ls), post. auto.
  - destruct (upto_prefix (map (@rev _) (rev ls))) as (post & Q).
    assert (Z : concat (map (@rev _) (rev ls)) = rev (concat ls)).
    { clear. induction ls as [|x ls IH]; [reflexivity|]. cbn [rev concat]. rewrite map_app, concat_app, IH, rev_app_distr. cbn. rewrite app_nil_r. reflexivity. }
    rewrite Z in Q. exists (rev post), (rev (upto_empty (map (@rev _) (rev ls)))). rewrite rev_involutive. split; [|exact R].
    rewrite <- rev_app_distr, <- Q, rev_involutive. reflexivity.
Qed.
Print Assumptions scan_sound.

(** ** C132: SET_RANGE *)
(** A key returned by SET_RANGE is the smallest stored key not below the probe, with its
    value; the scan that goes on from it is not modelled here.  Otherwise the answer is
    NOTFOUND, and only if no stored key is equal to the probe. *)
Theorem set_range_sound : forall E t k c0 l, sorted_tree E t -> blen k < 65536 -> bindings E t l ->
  match cursor_get E t c0 (SET_RANGE k) with
  | COk kv _ => In kv l /\ kle k (fst kv) /\ forall e, In e l -> kle k (fst e) -> kle (fst kv) (fst e)
  | CErr e _ => e = NOTFOUND /\ ~ In k (map fst l)
  | _ => False
  end.
Proof.
  intros E t k c0 l [Z|(h & O)] Hk BL.
  - rewrite (bindings_unique E t l [] BL (empty_bindings E t Z)). unfold cursor_get, cursor_seek. rewrite Z. cbn. auto.
  - pose proof (set_range_partial E t h k c0 l O Hk BL) as P. destruct (cursor_get E t c0 (SET_RANGE k)) as [kv c|e c| |]; auto.
    destruct P as (He & P). split; [exact He|]. intro I. destruct O as (Hh & Nz & T).
    assert (G : exists v, db_get E t k = Ok v).
    { apply in_map_iff in I. destruct I as ((k', v) & <- & I). exists v. apply BL; auto. }
    destruct G as (v & G). pose proof (tree_shape _ _ _ _ _ _ T) as S. rewrite (get_shape _ _ k h Hk ltac:(lia) Nz S) in G.
    destruct (lookup k (leaf_entries _)) as [v'|] eqn:LK; [|discriminate].
    apply (klt_irrefl k). apply P. rewrite <- leaf_entries_keys. apply lookup_in_iff. congruence.
Qed.
Print Assumptions set_range_sound.

(** ** C131: the sweep *)
Section FrameF.
Variables (V V' : view) (l : N) (k v : bytes).
Hypothesis OFF : forall q, q <> l -> V' q = V q.
Hypothesis W : wf_page true (V l).
Hypothesis IN : In (k, v) (leaf_entries (V l)).
Lemma leaves_frame : forall h pg, (forall q, In q (tree_pages V h pg) -> V' q = V q) -> leaf_lists V' h pg = leaf_lists V h pg.
Proof.
  induction h as [|h IH]; intros pg F; cbn [leaf_lists tree_pages] in *.
  - rewrite F by (cbn; auto). reflexivity.
  - rewrite F by (cbn; auto). apply flat_map_ext_in. intros e He. apply IH. intros q Hq. apply F. right. apply in_flat_map. eauto.
Qed.
Lemma sub_frame_f h es : Forall (shaped_at V h) es -> ~ In k (map fst (concat (sub_ll V h es))) -> Forall (shaped_at V' h) es /\ sub_ll V' h es = sub_ll V h es.
Proof.
  induction es as [|e es IH]; intros G NI; [split; [constructor|reflexivity]|]. inversion G as [|? ? Sc G']; subst.
  cbn [sub_ll flat_map] in *. rewrite concat_app, map_app, in_app_iff, concat_leaves in NI.
  assert (F : forall q, In q (tree_pages V h (snd e)) -> V' q = V q).
  { intros q Hq. apply OFF. intros ->. apply NI. left. apply (in_map fst _ (k, v)). apply (leaf_in_tree V h _ l Sc W Hq). exact IN. }
  destruct IH as (C & D); [exact G'|tauto|]. split.
  - constructor; [apply (shape_frame V V' h _ F Sc)|exact C].
  - rewrite (leaves_frame _ _ F). f_equal. exact D.
Qed.
Lemma zF_frame : forall st h R, zF V h st R -> ~ In k (map fst (concat R)) -> zF V' h st R.
Proof.
  induction st as [|(p, i) st IH]; intros h R Z NI; cbn [zF] in *; [exact Z|].
  destruct Z as (Wp & Hi & G & R' & Z & ER). subst R. rewrite concat_app, map_app, in_app_iff in NI.
  destruct (sub_frame_f h _ G) as (G' & E'); [tauto|]. splits; auto. exists R'. split; [apply IH; tauto|]. rewrite E'. reflexivity.
Qed.
Lemma atF_frame c kv es R : atF V c kv es R -> ~ In k (map fst (concat R)) -> atF V' c kv es R.
Proof. intros (p & i & r & A & B & C & D & Z & ->) NI. exists p, i, r. splits; auto. apply zF_frame; auto. Qed.
End FrameF.

(** the sweep loop deletes the unmarked keys that the scan reaches, in key order *)
Lemma sweep_ops_f E vis : forall post fuel t c kv es R, shaped E t -> atF (get_page E t) c kv es R -> post = es ++ upto_empty R ->
  ksorted (map fst (kv :: es ++ concat R)) -> Forall (fun e => blen (fst e) < 65536 /\ db_get E t (fst e) = Ok (snd e)) (kv :: post) ->
  (length post + 1 < fuel)%nat ->
  sweep_loop fuel E t vis (COk kv c) = do_ops E t (map Del (unmarked vis (kv :: post))).
Proof.
  induction post as [|kv' post IH]; intros [|fuel] t c (k, v) es R SH A EP SK F Hf; try lia; cbn [sweep_loop].
  - pose proof (Forall_inv F) as (Hk & G). cbn [fst snd] in Hk, G. unfold unmarked. cbn [map filter fst].
    cbn [map] in SK. apply sorted_cons_inv in SK. destruct SK as (_ & FK).
    destruct fuel as [|fuel]; [cbn [length] in Hf; lia|]. unfold cursor_get. destruct (visited vis k); cbn [negb].
    + destruct (step_f E t c _ _ _ _ A EP) as (c' & X). rewrite X. reflexivity.
    + cbn [map do_ops do_op]. pose proof (db_del_shape E t k None Hk SH) as D. rewrite G in D. destruct D as (t' & X & _).
      rewrite X. cbn [bindo]. destruct (del_leaf E t t' k v Hk SH G X) as (l & W & I & OFF).
      assert (NI : ~ In k (map fst (concat R))).
      { rewrite Forall_forall in FK. intro Hin. eapply klt_irrefl. apply FK. rewrite map_app, in_app_iff. right. exact Hin. }
      pose proof (atF_frame _ _ l k v OFF W I _ _ _ _ A NI) as A'.
      destruct (step_f E t' c _ _ _ _ A' EP) as (c' & Y). rewrite Y. reflexivity.
  - pose proof (Forall_inv F) as (Hk & G). cbn [fst snd] in Hk, G. pose proof (Forall_inv_tail F) as F'.
    cbn [map] in SK. apply sorted_cons_inv in SK. destruct SK as (SK & FK).
    change (unmarked vis ((k, v) :: kv' :: post)) with (if negb (visited vis k) then k :: unmarked vis (kv' :: post) else unmarked vis (kv' :: post)).
    unfold cursor_get. destruct (visited vis k); cbn [negb].
    + destruct (step_f E t c _ _ _ _ A EP) as (c' & es' & R' & X & A' & EP' & EC). rewrite X, (fetch_f _ _ _ _ _ A').
      apply (IH _ _ _ _ es' R'); auto; [rewrite <- EC; exact SK|cbn [length] in Hf; lia].
    + cbn [map do_ops do_op]. pose proof (db_del_shape E t k None Hk SH) as D. rewrite G in D. destruct D as (t' & X & _ & SH' & _ & RD).
      rewrite X. cbn [bindo]. destruct (del_leaf E t t' k v Hk SH G X) as (l & W & I & OFF).
      assert (NI : ~ In k (map fst (es ++ concat R))).
      { rewrite Forall_forall in FK. intro Hin. eapply klt_irrefl. apply FK. exact Hin. }
      assert (NR : ~ In k (map fst (concat R))) by (intro Hin; apply NI; rewrite map_app, in_app_iff; auto).
      pose proof (atF_frame _ _ l k v OFF W I _ _ _ _ A NR) as A'.
      destruct (step_f E t' c _ _ _ _ A' EP) as (c' & es' & R' & Y & A'' & EP' & EC). rewrite Y, (fetch_f _ _ _ _ _ A'').
      apply (IH _ _ _ _ es' R'); auto; [rewrite <- EC; exact SK| |cbn [length] in Hf; lia].
      assert (NP : ~ In k (map fst (kv' :: post))).
      { intro Hin. apply NI. rewrite EC. rewrite EP' in Hin. cbn [map] in *. destruct Hin as [Hin|Hin]; [left; exact Hin|right].
        rewrite map_app, in_app_iff in *. destruct Hin as [Hin|Hin]; [left; exact Hin|right].
        destruct (upto_prefix R') as (x & ->). rewrite map_app, in_app_iff. auto. }
      rewrite Forall_forall in *. intros e He. destruct (F' e He) as (H1 & H2). split; [exact H1|]. rewrite RD by exact H1.
      destruct (key_dec (fst e) k) as [Ek|]; [|exact H2]. exfalso. apply NP. rewrite <- Ek. apply in_map. exact He.
Qed.

Lemma sweep_loop_f fuel E t vis l : shaped E t -> sorted_tree E t -> bindings E t l -> (length l + 1 < fuel)%nat ->
  exists pre post, l = pre ++ post /\
    (forall E2 t2, get_page E2 t2 = get_page E t -> t_root t2 = t_root t -> scans E2 t2 NEXT (cursor_get E2 t2 cursor_open FIRST) pre NOTFOUND) /\
    sweep_loop fuel E t vis (cursor_get E t cursor_open FIRST) = do_ops E t (map Del (unmarked vis pre)).
Proof.
  intros SH [Z|(h & Hh & Nz & T)] BL Hf.
  - pose proof (bindings_unique E t l [] BL (empty_bindings E t Z)). subst l. exists [], []. split; [reflexivity|].
    split; [intros E2 t2 _ Z2; unfold cursor_get, cursor_seek; rewrite Z2, Z; constructor|].
    unfold cursor_get, cursor_seek. rewrite Z. cbn [N.eqb unmarked map filter do_ops]. destruct fuel; [lia|]. reflexivity.
  - pose proof (tree_shape _ _ _ _ _ _ T) as S. pose proof (bindings_unique E t _ _ BL (tree_bindings E t h ltac:(lia) Nz T)) as EL.
    pose proof (first_f E t h Hh Nz S) as X.
    rewrite <- concat_leaves in EL. destruct (upto_prefix (leaf_lists (get_page E t) h (t_root t))) as (post & Q).
    exists (upto_empty (leaf_lists (get_page E t) h (t_root t))), post. split; [congruence|].
    split; [intros E2 t2 V2 R2; rewrite <- V2, <- R2; apply scan_forward_f; congruence|]. unfold cursor_get.
    destruct (leaf_lists (get_page E t) h (t_root t)) as [|[|kv es] R]; cbn [enters upto_empty app] in *.
    + destruct X as (c & ->). destruct fuel; [lia|]. reflexivity.
    + destruct X as (c & ->). destruct fuel; [lia|]. reflexivity.
    + destruct X as (c & -> & A). rewrite (fetch_f _ _ _ _ _ A). cbn [concat app] in EL.
      apply (sweep_ops_f E vis (es ++ upto_empty R) fuel t c kv es R); auto.
      * rewrite <- EL. apply BL.
      * destruct BL as (_ & BK & BI). assert (FA : Forall (fun e => blen (fst e) < 65536 /\ db_get E t (fst e) = Ok (snd e)) l).
        { rewrite Forall_forall in *. intros (k, v) He. pose proof (BK _ He) as Hk. cbn [fst snd] in *. split; [exact Hk|]. apply BI; auto. }
        rewrite EL in FA. cbn [concat app] in Q. rewrite Q in FA. change (kv :: (es ++ upto_empty R) ++ post) with ((kv :: es ++ upto_empty R) ++ post) in FA.
        apply Forall_app in FA. tauto.
      * rewrite EL in Hf. cbn [concat app] in Q. rewrite Q in Hf. cbn [length] in Hf. rewrite app_length in Hf. lia.
Qed.

Lemma dels_exact E : forall ks t, shaped E t -> NoDup ks -> Forall (fun k => blen k < 65536 /\ exists v, db_get E t k = Ok v) ks ->
  exists t', do_ops E t (map Del ks) = Ret tt t' /\
    forall k, blen k < 65536 -> db_get E t' k = if in_dec key_dec k ks then Err NOTFOUND else db_get E t k.
Proof.
  induction ks as [|a ks IH]; intros t SH ND F; cbn [map do_ops do_op].
  - exists t. split; [reflexivity|]. intros k _. destruct (in_dec key_dec k []) as [[]|]; reflexivity.
  - pose proof (Forall_inv F) as (Ha & v & G). apply Forall_inv_tail in F. inversion ND as [|? ? NI ND']; subst.
    pose proof (db_del_shape E t a None Ha SH) as D. rewrite G in D. destruct D as (t1 & X & _ & SH1 & _ & RD). rewrite X. cbn [bindo].
    destruct (IH t1 SH1 ND') as (t' & Y & R).
    { rewrite Forall_forall in *. intros k Hk. destruct (F k Hk) as (Hb & v' & G'). split; [exact Hb|]. exists v'. rewrite RD by exact Hb.
      destruct (key_dec k a) as [->|]; [tauto|exact G']. }
    exists t'. split; [exact Y|]. intros k Hk. rewrite (R k Hk), (RD k Hk).
    destruct (in_dec key_dec k ks) as [I|I]; destruct (in_dec key_dec k (a :: ks)) as [J|J]; auto.
    + exfalso. apply J. right. exact I.
    + destruct (key_dec k a) as [|Ne]; auto. exfalso. destruct J as [->|J]; auto.
    + destruct (key_dec k a) as [->|]; auto. exfalso. apply J. left. reflexivity.
Qed.

(** The loop of the sweep never fails.  It deletes exactly the paths that the scan reaches
    ([pre]) and that are not marked.  A marked path keeps its entry, and so does a path
    the scan does not reach. *)
Theorem sweep_deletes : forall fuel E t vis l, shaped E t -> sorted_tree E t -> bindings E t l -> (length l + 1 < fuel)%nat ->
  exists pre post t', l = pre ++ post /\ scans E t NEXT (cursor_get E t cursor_open FIRST) pre NOTFOUND /\
    sweep_loop fuel E t vis (cursor_get E t cursor_open FIRST) = Ret tt t' /\
    forall path, blen path < 65536 -> db_get E t' path =
      if in_dec key_dec path vis then db_get E t path
      else if in_dec key_dec path (map fst pre) then Err NOTFOUND else db_get E t path.
Proof.
  intros fuel E t vis l SH ST BL Hf. destruct (sweep_loop_f fuel E t vis l SH ST BL Hf) as (pre & post & EL & SC & X).
  destruct BL as (SK & BK & BI). pose proof (sorted_NoDup _ SK) as ND. rewrite EL, map_app in ND. apply NoDup_app_inv in ND. destruct ND as (ND & _).
  assert (IU : forall path, In path (unmarked vis pre) <-> In path (map fst pre) /\ ~ In path vis).
  { intro path. unfold unmarked. rewrite filter_In, negb_true_iff, <- not_true_iff_false, visited_in. reflexivity. }
  destruct (dels_exact E (unmarked vis pre) t SH) as (t' & Y & R).
  - unfold unmarked. apply NoDup_filter. exact ND.
  - rewrite Forall_forall. intros k I. apply IU in I. destruct I as (I & _). apply in_map_iff in I. destruct I as ((k', v) & <- & I).
    assert (I2 : In (k', v) l) by (rewrite EL; apply in_app_iff; auto). rewrite Forall_forall in BK. pose proof (BK _ I2) as Hk. cbn [fst] in *.
    split; [exact Hk|]. exists v. apply BI; auto.
  - exists pre, post, t'. rewrite X. splits; auto.
    intros path Hp. rewrite (R path Hp).
    destruct (in_dec key_dec path (unmarked vis pre)) as [I|I]; destruct (in_dec key_dec path vis) as [J|J]; auto.
    + apply IU in I. tauto.
    + apply IU in I. destruct (in_dec key_dec path (map fst pre)); tauto.
    + destruct (in_dec key_dec path (map fst pre)) as [K|K]; auto. exfalso. apply I. apply IU. auto.
Qed.
Print Assumptions sweep_deletes.

(** The same for the whole sweep, its commit included.  Missing for the full claim (C27): the
    entries behind an emptied leaf stay, and a Free DB leaf without room for the list of
    freed pages. *)
Theorem sweep_any_tree_partial : forall fuel c l, healthy (c_env c) -> file_ok (e_file (c_env c)) ->
  sorted_tree (c_env c) (reader (c_env c)) -> bindings (c_env c) (reader (c_env c)) l -> (length l + 1 < fuel)%nat ->
  (forall E1 t, begin_write (c_env c) = Some (E1, t) -> t_last t + 1 < 2 ^ 64 /\
     forall pre post t', l = pre ++ post -> do_ops E1 t (map Del (unmarked (c_visited c) pre)) = Ret tt t' ->
       free_room E1 t' /\ N.of_nat (length (t_freed t')) < 8000) ->
  exists pre post c' r, l = pre ++ post /\ scans (c_env c) (reader (c_env c)) NEXT (cursor_get (c_env c) (reader (c_env c)) cursor_open FIRST) pre NOTFOUND /\
    cache_sweep fuel c = Some (c', r) /\
    (r = Ok tt ->
       (forall path, blen path < 65536 -> read_now (c_env c') path =
          if in_dec key_dec path (c_visited c) then read_now (c_env c) path
          else if in_dec key_dec path (map fst pre) then Err NOTFOUND else read_now (c_env c) path) /\
       c_visited c' = [] /\ c_active c' = None /\ healthy (c_env c') /\ file_ok (e_file (c_env c'))).
Proof.
  intros fuel c l HH FO SC BL Hf HR. destruct c as [E act vis]. cbn [c_env c_visited c_active] in *.
  pose proof (begun_is E (proj1 HH)) as B. pose proof (proj2 HH _ _ B) as ((_ & SH) & _).
  pose proof (begin_fields _ _ _ B) as (_ & Et).
  assert (SC1 : sorted_tree (set_locked E true) (begun E)).
  { unfold sorted_tree, ordered. rewrite Et. exact SC. }
  assert (BL1 : bindings (set_locked E true) (begun E) l).
  { destruct BL as (B1 & B2 & B3). split; [exact B1|]. split; [exact B2|]. intros k v Hk. rewrite (B3 k v Hk).
    rewrite (db_get_view E (reader E) (set_locked E true) (begun E)); [reflexivity|intro q; rewrite Et; reflexivity|rewrite Et; reflexivity]. }
  assert (SHt : shaped (set_locked E true) (begun E)) by (split; [rewrite Et; reflexivity|exact SH]).
  destruct (sweep_loop_f fuel _ _ vis l SHt SC1 BL1 Hf) as (pre & post & EL & SCN & L). exists pre, post.
  assert (SCR : scans E (reader E) NEXT (cursor_get E (reader E) cursor_open FIRST) pre NOTFOUND).
  { apply SCN; rewrite Et; reflexivity. }
  assert (XX : exists c1 r, cache_sweep fuel (mkCache E act vis) = Some (c1, r) /\
    (r = Ok tt -> transact E (map Del (unmarked vis pre)) = Ok (c_env c1) /\ c_visited c1 = [] /\ c_active c1 = None)).
  { unfold cache_sweep, cache_begin_write. cbn [c_env c_visited]. rewrite B. cbn [c_active c_env]. unfold transact. rewrite B. rewrite L.
    destruct (do_ops (set_locked E true) (begun E) (map Del (unmarked vis pre))) as [[] t'|e t'| |] eqn:DO.
    - pose proof (do_dels_rdonly _ _ _ _ DO) as RD. rewrite Et in RD. cbn [t_rdonly] in RD.
      unfold cache_commit_write, commit_txn. cbn [set_active c_active c_env c_visited]. rewrite RD. destruct (db_commit (set_locked E true) t' None) as [E2 [[]|e| |]] eqn:DC.
      + exists (mkCache E2 None []), (Ok tt). split; [reflexivity|]. auto.
      + exists (mkCache E2 None vis), (Err e). split; [reflexivity|discriminate].
      + exists (mkCache E2 None vis), UB. split; [reflexivity|discriminate].
      + exists (mkCache E2 None vis), Fuel. split; [reflexivity|discriminate].
    - eexists _, (Err e). split; [reflexivity|discriminate].
    - eexists _, UB. split; [reflexivity|discriminate].
    - eexists _, Fuel. split; [reflexivity|discriminate]. }
  destruct XX as (c' & r & X & Y). exists c', r. splits; auto.
  intro R. destruct (Y R) as (T & CV & CA).
  pose proof BL as (_ & BK & BI).
  assert (GE : forall k, blen k < 65536 -> db_get E (reader E) k = match lookup k l with Some v => Ok v | None => Err NOTFOUND end).
  { intros k Hk. destruct (lookup k l) as [v|] eqn:LK.
    - apply BI; [exact Hk|]. clear - LK. induction l as [|(k', v') l IH]; cbn [lookup] in LK; [discriminate|].
      destruct (key_dec k k') as [->|]; [injection LK as ->; left; reflexivity|right; auto].
    - assert (G : forall v, db_get E (reader E) k <> Ok v).
      { intros v G. apply (BI k v Hk) in G. apply (in_map fst) in G. cbn [fst] in G. apply lookup_in_iff in G. congruence. }
      pose proof SC as SC0. destruct SC0 as [Z|(h & Hh & Nz & Tr)].
      + unfold db_get. rewrite Z. reflexivity.
      + pose proof (tree_shape _ _ _ _ _ _ Tr) as S. pose proof (get_shape _ _ k h Hk ltac:(lia) Nz S) as GS.
        destruct (lookup k (leaf_entries _)) as [v|]; [exfalso; apply (G v)|]; exact GS. }
  destruct (transact_fits E (c_env c') (map Del (unmarked vis pre)) (fun k => lookup k l) HH FO) as (H1 & H2 & H3); auto.
  - intros E1 t B'. destruct (HR E1 t B') as (A1 & A2). split; [|split; [exact A1|intros t'; apply (A2 pre post t' EL)]].
    assert (FK : Forall (fun k => blen k < 65536) (unmarked vis pre)).
    { rewrite Forall_forall. intros k I. unfold unmarked in I. apply filter_In in I. destruct I as (I & _). apply in_map_iff in I.
      destruct I as (e & <- & I). rewrite Forall_forall in BK. apply (BK e). rewrite EL. apply in_app_iff. auto. }
    clear - FK. revert t. induction FK as [|k ks Hk FK IH]; intro t; cbn [map fit_ops]; [exact I|]. split; [exact Hk|]. auto.
  - splits; auto. intros path Hp. unfold read_now at 1. rewrite (H3 path Hp), dels_map.
    assert (IU : In path (unmarked vis pre) <-> In path (map fst pre) /\ ~ In path vis).
    { unfold unmarked. rewrite filter_In, negb_true_iff, <- not_true_iff_false, visited_in. reflexivity. }
    unfold read_now. rewrite (GE path Hp).
    destruct (in_dec key_dec path (unmarked vis pre)) as [I|I]; destruct (in_dec key_dec path vis) as [J|J]; auto.
    + apply IU in I. tauto.
    + apply IU in I. destruct (in_dec key_dec path (map fst pre)); tauto.
    + destruct (in_dec key_dec path (map fst pre)) as [K|K]; auto. exfalso. apply I. apply IU. auto.
Qed.
Print Assumptions sweep_any_tree_partial.

(** ** A tree with an emptied leaf: [97] stays in the first leaf, the second one is empty *)
Definition hole1 : txn := PropTree.after (db_del env_create split_txn [98] None).
Definition hole : txn := PropTree.after (db_del env_create hole1 [99] None).
Lemma hole_shaped : shaped env_create hole.
Proof.
  pose proof (proj1 split_txn_shaped) as S0.
  pose proof (db_del_shape env_create split_txn [98] None ltac:(vm_compute; reflexivity) S0) as D.
  assert (G : db_get env_create split_txn [98] = Ok (fill 1900 3)) by (vm_compute; reflexivity). rewrite G in D. clear G.
  destruct D as (t1 & X & _ & S1 & _). assert (t1 = hole1) as -> by (unfold hole1; rewrite X; reflexivity). clear X S0.
  pose proof (db_del_shape env_create hole1 [99] None ltac:(vm_compute; reflexivity) S1) as D.
  assert (G : db_get env_create hole1 [99] = Ok (fill 1900 2)) by (vm_compute; reflexivity). rewrite G in D. clear G.
  destruct D as (t2 & X & _ & S2 & _). assert (t2 = hole) as -> by (unfold hole; rewrite X; reflexivity). exact S2.
Qed.
Lemma shaped_sorted E t : shaped E t -> (t_root t =? 0) = false ->
  (let V := get_page E t in let r := t_root t in orderedb V (height_of 33 V r) r None None) = true -> sorted_tree E t.
Proof.
  intros (_ & [Z|(h & Hh & Nz & S & _)]) R H; apply N.eqb_neq in R; [congruence|]. right. exists h. cbv zeta in H.
  rewrite (height_of_ok _ 33 h _ ltac:(lia) S) in H. split; [exact Hh|]. split; [exact Nz|]. apply orderedb_ok; assumption.
Qed.
Lemma sorted_scans E t ls : sorted_tree E t -> (t_root t =? 0) = false ->
  leaf_lists (get_page E t) (height_of 33 (get_page E t) (t_root t)) (t_root t) = ls ->
  scans E t NEXT (cursor_get E t cursor_open FIRST) (upto_empty ls) NOTFOUND /\
  scans E t PREV (cursor_get E t cursor_open LAST) (upto_empty (map (@rev _) (rev ls))) NOTFOUND.
Proof.
  intros [Z|(h & Hh & Nz & T)] R <-; apply N.eqb_neq in R; [congruence|]. pose proof (tree_shape _ _ _ _ _ _ T) as S.
  rewrite (height_of_ok _ 33 h _ ltac:(lia) S), <- rleaf_rev. split; [apply scan_forward_f|apply scan_backward_f]; assumption.
Qed.
Lemma hole_sorted : sorted_tree env_create hole.
Proof. apply shaped_sorted; [exact hole_shaped|vm_compute; reflexivity|vm_compute; reflexivity]. Qed.
Example hole_case : shaped env_create hole /\ sorted_tree env_create hole /\
  scans env_create hole NEXT (cursor_get env_create hole cursor_open FIRST) [([97], fill 1900 1)] NOTFOUND /\
  scans env_create hole PREV (cursor_get env_create hole cursor_open LAST) [] NOTFOUND.
Proof.
  split; [exact hole_shaped|]. split; [exact hole_sorted|].
  apply (sorted_scans env_create hole [[([97], fill 1900 1)]; []] hole_sorted); vm_compute; reflexivity.
Qed.
(** the sweep of that tree with nothing marked deletes [97] *)
Example hole_sweep : exists t', sweep_loop 10 env_create hole [] (cursor_get env_create hole cursor_open FIRST) = Ret tt t' /\
  db_get env_create t' [97] = Err NOTFOUND.
Proof.
  exists (PropTree.after (sweep_loop 10 env_create hole [] (cursor_get env_create hole cursor_open FIRST))). split; [apply ret_after; vm_compute; reflexivity|].
  vm_compute. reflexivity.
Qed.
Example hole_range : cres (cursor_get env_create hole cursor_open (SET_RANGE [96])) = Some (Some ([97], fill 1900 1), None) /\
  cres (cursor_get env_create hole cursor_open (SET_RANGE [98])) = Some (None, Some NOTFOUND).
Proof. split; vm_compute; reflexivity. Qed.
