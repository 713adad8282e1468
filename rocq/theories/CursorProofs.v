(** Cursor movements: the cursor is a zipper of the tree. *)
From Verif Require Import Util PageModel PageSpec PageProofs PageOps TxnModel CursorModel TreeModel TreeSpec PropPage TreeProofs TreeOps TreeSplit TreePut TreeShape CursorSpec.
Local Open Scope N_scope.

Definition good (W : view) (h : nat) (e : bytes * N) : Prop := shape W h (snd e) /\ no_empty_leaf W h (snd e).
Definition sub_kvs (W : view) (h : nat) (l : list (bytes * N)) : list (bytes * bytes) := flat_map (fun e => tree_kvs W h (snd e)) l.

(** what lies to the right of the page on which the stack stands *)
Fixpoint zR (W : view) (h : nat) (st : list (page * N)) (R : list (bytes * bytes)) : Prop :=
  match st with
  | [] => R = []
  | (p, i) :: r =>
    wf_page false p /\ i < pg_nkeys p /\ Forall (good W h) (skipn (S (N.to_nat i)) (branch_entries p)) /\
    exists R', zR W (S h) r R' /\ R = sub_kvs W h (skipn (S (N.to_nat i)) (branch_entries p)) ++ R'
  end.
(** what lies to the left of it *)
Fixpoint zL (W : view) (h : nat) (pg : N) (st : list (page * N)) (L : list (bytes * bytes)) : Prop :=
  match st with
  | [] => L = []
  | (p, i) :: r =>
    wf_page false p /\ Forall (good W h) (firstn (S (N.to_nat i)) (branch_entries p)) /\
    exists pg' ki L', p = W pg' /\ nth_error (branch_entries p) (N.to_nat i) = Some (ki, pg) /\
      zL W (S h) pg' r L' /\ L = L' ++ sub_kvs W h (firstn (N.to_nat i) (branch_entries p))
  end.

Definition ahead (W : view) (c : cursor) (kv : bytes * bytes) (post : list (bytes * bytes)) : Prop :=
  exists p i r R, c = mkCur ((p, i) :: r) false /\ wf_page true p /\ (length r < 32)%nat /\
    nth_error (leaf_entries p) (N.to_nat i) = Some kv /\ zR W 0 r R /\ post = skipn (S (N.to_nat i)) (leaf_entries p) ++ R.
Definition behind (W : view) (c : cursor) (kv : bytes * bytes) (pre : list (bytes * bytes)) : Prop :=
  exists p i r pg L, c = mkCur ((p, i) :: r) false /\ wf_page true p /\ (length r < 32)%nat /\ p = W pg /\
    nth_error (leaf_entries p) (N.to_nat i) = Some kv /\ zL W 0 pg r L /\ pre = L ++ firstn (N.to_nat i) (leaf_entries p).

Lemma sub_app W h a b : sub_kvs W h (a ++ b) = sub_kvs W h a ++ sub_kvs W h b.
Proof. apply flat_map_app. Qed.
Lemma sub_one W h e : sub_kvs W h [e] = tree_kvs W h (snd e).
Proof. unfold sub_kvs. cbn. apply app_nil_r. Qed.
Lemma firstn_nth {A} (l : list A) i x : nth_error l i = Some x -> firstn (S i) l = firstn i l ++ [x].
Proof. revert i; induction l as [|a l IH]; intros [|i] H; cbn in *; try discriminate; [congruence|]. f_equal. apply IH. exact H. Qed.
Lemma nth_ex {A} (l : list A) i : (i < length l)%nat -> exists x, nth_error l i = Some x.
Proof. intro H. destruct (nth_error l i) eqn:E; eauto. apply nth_error_None in E. lia. Qed.
Lemma push_ok st p i : (length st < 32)%nat -> push st p i = (p, i) :: st.
Proof. intro H. unfold push, MAX_TREE_DEPTH. rewrite (proj2 (Nat.ltb_lt _ _)); auto. Qed.
Lemma full_nonempty W : forall h pg, shape W h pg -> no_empty_leaf W h pg -> tree_kvs W h pg <> [].
Proof.
  induction h as [|h IH]; intros pg S N; cbn [shape no_empty_leaf tree_kvs] in *; auto.
  destruct S as (_ & _ & _ & Hne & F). destruct (branch_entries (W pg)) as [|e l]; [congruence|]. cbn [flat_map].
  inversion F; subst. inversion N; subst. intro H. apply app_eq_nil in H. destruct H as [H _]. eapply IH; eauto.
Qed.
Lemma good_child W h pg i e : shape W (S h) pg -> no_empty_leaf W (S h) pg -> nth_error (branch_entries (W pg)) i = Some e -> good W h e.
Proof.
  intros (_ & _ & _ & _ & F) N H. cbn [no_empty_leaf] in N. rewrite Forall_forall in F, N. apply nth_error_In in H. split; auto.
Qed.
Lemma good_all W h pg : shape W (S h) pg -> no_empty_leaf W (S h) pg -> Forall (good W h) (branch_entries (W pg)).
Proof. intros (_ & _ & _ & _ & F) N. cbn [no_empty_leaf] in N. rewrite Forall_forall in *. intros e H. split; auto. Qed.
Lemma Forall_skipn {A} (P : A -> Prop) n l : Forall P l -> Forall P (skipn n l).
Proof. intro F. rewrite <- (firstn_skipn n l) in F. apply Forall_app in F. tauto. Qed.
Lemma Forall_firstn {A} (P : A -> Prop) n l : Forall P l -> Forall P (firstn n l).
Proof. intro F. rewrite <- (firstn_skipn n l) in F. apply Forall_app in F. tauto. Qed.
Lemma leaf_entry_count p i kv : nth_error (leaf_entries p) (N.to_nat i) = Some kv -> i < pg_nkeys p.
Proof. intro H. apply nth_error_Some_lt in H. rewrite leaf_entries_length in H. lia. Qed.

Lemma nth_error_firstn' {A} (l : list A) : forall n i, (i < n)%nat -> nth_error (firstn n l) i = nth_error l i.
Proof. induction l as [|a l IH]; intros [|n] [|i] H; cbn; try lia; auto. apply IH. lia. Qed.

(** ** Descents *)
Lemma descend_left_ok E t : forall h pg st fuel, shape (get_page E t) h pg -> no_empty_leaf (get_page E t) h pg ->
  (length st + h < 32)%nat -> (h < fuel)%nat ->
  exists pl p r, descend_left fuel E t pg st = COk tt (mkCur ((p, 0) :: r) false) /\ wf_page true p /\ leaf_entries p <> [] /\
    (length r < 32)%nat /\ p = get_page E t pl /\
    (forall R, zR (get_page E t) h st R -> exists R0, zR (get_page E t) 0 r R0 /\ leaf_entries p ++ R0 = tree_kvs (get_page E t) h pg ++ R) /\
    (forall L, zL (get_page E t) h pg st L -> zL (get_page E t) 0 pl r L).
Proof.
  induction h as [|h IH]; intros pg st [|f] S N Hl Hf; try lia; cbn [descend_left].
  - cbn [shape no_empty_leaf] in *. destruct S as (_ & W & _). rewrite (wf_is_leaf true _ W). rewrite push_ok by lia.
    destruct (N.eqb_spec (pg_nkeys (get_page E t pg)) 0) as [Z|_].
    { exfalso. apply N. apply length_zero_iff_nil. rewrite leaf_entries_length. lia. }
    exists pg, (get_page E t pg), st. splits; auto; [lia|]. intros R H. exists R. auto.
  - pose proof S as S0. cbn [shape] in S. destruct S as (Ep & W & SK & Hne & F). rewrite (wf_is_leaf false _ W). rewrite push_ok by lia.
    destruct (branch_entries (get_page E t pg)) as [|(k0, c) es] eqn:B; [congruence|].
    assert (C : child_at (get_page E t pg) 0 = Ok c) by (apply (child_at_ok _ 0 k0 c W); rewrite B; reflexivity). rewrite C.
    destruct (good_child _ h pg 0 (k0, c) S0 N ltac:(rewrite B; reflexivity)) as (Sc & Nc). cbn [snd] in *.
    destruct (IH c ((get_page E t pg, 0) :: st) f Sc Nc ltac:(cbn [length]; lia) ltac:(lia)) as (pl & p & r & X & A1 & A2 & A3 & A4 & A5 & A6).
    exists pl, p, r. splits; auto.
    + intros R H. destruct (A5 (sub_kvs (get_page E t) h es ++ R)) as (R0 & Z & EQ).
      { cbn [zR]. rewrite B. cbn [N.to_nat skipn]. splits; auto.
        - pose proof (branch_entries_length (get_page E t pg)) as Q. rewrite B in Q. cbn [length] in Q. lia.
        - pose proof (good_all _ _ _ S0 N) as G. rewrite B in G. inversion G; auto.
        - exists R. auto. }
      exists R0. split; [exact Z|]. rewrite EQ. cbn [tree_kvs]. rewrite B. cbn [flat_map snd]. rewrite app_assoc. reflexivity.
    + intros L H. apply A6. cbn [zL]. rewrite B. cbn [N.to_nat firstn nth_error]. splits; auto.
      * pose proof (good_all _ _ _ S0 N) as G. rewrite B in G. inversion G; subst. constructor; auto.
      * exists pg, k0, L. splits; auto. cbn. rewrite app_nil_r. reflexivity.
Qed.

Lemma descend_right_ok E t : forall h pg st fuel, shape (get_page E t) h pg -> no_empty_leaf (get_page E t) h pg ->
  (length st + h < 32)%nat -> (h < fuel)%nat ->
  exists pl p r, descend_right fuel E t pg st = COk tt (mkCur ((p, pg_nkeys p - 1) :: r) false) /\ wf_page true p /\ leaf_entries p <> [] /\
    (length r < 32)%nat /\ p = get_page E t pl /\
    (forall R, zR (get_page E t) h st R -> zR (get_page E t) 0 r R) /\
    (forall L, zL (get_page E t) h pg st L -> exists L0, zL (get_page E t) 0 pl r L0 /\ L0 ++ leaf_entries p = L ++ tree_kvs (get_page E t) h pg).
Proof.
  induction h as [|h IH]; intros pg st [|f] S N Hl Hf; try lia; cbn [descend_right].
  - cbn [shape no_empty_leaf] in *. destruct S as (_ & W & _).
    destruct (N.eqb_spec (pg_nkeys (get_page E t pg)) 0) as [Z|_].
    { exfalso. apply N. apply length_zero_iff_nil. rewrite leaf_entries_length. lia. }
    rewrite (wf_is_leaf true _ W). rewrite push_ok by lia.
    exists pg, (get_page E t pg), st. splits; auto; [lia|]. intros L H. exists L. auto.
  - pose proof S as S0. cbn [shape] in S. destruct S as (Ep & W & SK & Hne & F).
    pose proof (branch_entries_length (get_page E t pg)) as Q.
    destruct (N.eqb_spec (pg_nkeys (get_page E t pg)) 0) as [Z|Z].
    { exfalso. apply Hne. apply length_zero_iff_nil. lia. }
    rewrite (wf_is_leaf false _ W). rewrite push_ok by lia.
    destruct (nth_ex (branch_entries (get_page E t pg)) (N.to_nat (pg_nkeys (get_page E t pg) - 1)) ltac:(lia)) as ((k0, c) & X0).
    rewrite (child_at_ok _ _ k0 c W X0).
    destruct (good_child _ h pg _ (k0, c) S0 N X0) as (Sc & Nc). cbn [snd] in *.
    destruct (IH c ((get_page E t pg, pg_nkeys (get_page E t pg) - 1) :: st) f Sc Nc ltac:(cbn [length]; lia) ltac:(lia)) as (pl & p & r & X & A1 & A2 & A3 & A4 & A5 & A6).
    exists pl, p, r. splits; auto.
    + intros R H. apply A5. cbn [zR]. rewrite skipn_all2 by lia. splits; auto; [lia|]. exists R. auto.
    + intros L H. destruct (A6 (L ++ sub_kvs (get_page E t) h (firstn (N.to_nat (pg_nkeys (get_page E t pg) - 1)) (branch_entries (get_page E t pg))))) as (L0 & Z0 & EQ).
      { cbn [zL]. splits; auto.
        - apply Forall_firstn, good_all; auto.
        - exists pg, k0, L. splits; auto. }
      exists L0. split; [exact Z0|]. rewrite EQ. rewrite <- app_assoc. f_equal. cbn [tree_kvs].
      change (flat_map (fun e => tree_kvs (get_page E t) h (snd e)) (branch_entries (get_page E t pg))) with (sub_kvs (get_page E t) h (branch_entries (get_page E t pg))).
      rewrite <- (firstn_all2 (n := Datatypes.S (N.to_nat (pg_nkeys (get_page E t pg) - 1))) (branch_entries (get_page E t pg))) at 2 by lia.
      rewrite (firstn_nth _ _ _ X0), sub_app, sub_one. reflexivity.
Qed.

(** ** Ascents *)
Lemma ascend_next_ok E t : forall st h R, zR (get_page E t) h st R -> (length st + h < 32)%nat ->
  match R with
  | [] => exists c, ascend_next E t st = CErr NOTFOUND c
  | kv :: post => exists c, ascend_next E t st = COk tt c /\ ahead (get_page E t) c kv post /\
      forall pg L, zL (get_page E t) h pg st L -> behind (get_page E t) c kv (L ++ tree_kvs (get_page E t) h pg)
  end.
Proof.
  induction st as [|(p, i) st IH]; intros h R Z Hl; cbn [zR ascend_next] in *.
  - subst R. eauto.
  - destruct Z as (W & Hi & G & R' & Z & ER). pose proof (branch_entries_length p) as Q.
    pose proof (wf_nkeys_small _ _ W) as Sm. unfold HDR, PAGE_SIZE in Sm. rewrite (u16_small (i + 1)) by lia.
    destruct (N.ltb_spec (i + 1) (pg_nkeys p)) as [Hi'|Hi'].
    + destruct (nth_ex (branch_entries p) (N.to_nat (i + 1)) ltac:(lia)) as ((k0, c0) & X0).
      rewrite (child_at_ok _ _ k0 c0 W X0).
      replace (S (N.to_nat i)) with (N.to_nat (i + 1)) in * by lia. rewrite (skipn_nth _ _ _ X0) in G, ER.
      inversion G as [|? ? (Sc & Nc) G']; subst. cbn [snd] in *.
      destruct (descend_left_ok E t h c0 ((p, i + 1) :: st) FIND_FUEL Sc Nc ltac:(cbn [length] in *; lia) ltac:(unfold FIND_FUEL; cbn [length] in *; lia))
        as (pl & q & r & X & A1 & A2 & A3 & A4 & A5 & A6).
      destruct (A5 (sub_kvs (get_page E t) h (skipn (S (N.to_nat (i + 1))) (branch_entries p)) ++ R')) as (R0 & Z0 & EQ).
      { cbn [zR]. splits; auto. exists R'. auto. }
      unfold sub_kvs at 1. cbn [flat_map snd]. fold (sub_kvs (get_page E t) h (skipn (S (N.to_nat (i + 1))) (branch_entries p))). rewrite <- app_assoc, <- EQ.
      destruct (leaf_entries q) as [|kv0 es] eqn:LE; [congruence|]. cbn [app]. eexists. split; [exact X|]. split.
      * exists q, 0, r, R0. rewrite LE. splits; auto.
      * intros pg L ZL. cbn [zL] in ZL. destruct ZL as (_ & GL & pg' & ki & L' & Ep & Ni & ZL & EL).
        exists q, 0, r, pl, (L ++ tree_kvs (get_page E t) h pg). rewrite LE. splits; auto; [|cbn; rewrite app_nil_r; reflexivity].
        apply A6. cbn [zL]. splits; auto.
        -- rewrite (firstn_nth _ _ _ X0). apply Forall_app. split; [|repeat constructor; auto]. replace (N.to_nat (i + 1)) with (S (N.to_nat i)) by lia. exact GL.
        -- exists pg', k0, L'. splits; auto. replace (N.to_nat (i + 1)) with (S (N.to_nat i)) by lia. rewrite (firstn_nth _ _ _ Ni), sub_app, sub_one, EL, <- app_assoc. reflexivity.
    + rewrite skipn_all2 in ER by lia. cbn in ER. subst R'. cbn [length] in Hl. specialize (IH (S h) R Z ltac:(lia)).
      destruct R as [|kv post]; [exact IH|]. destruct IH as (c & X & A & B). exists c. splits; auto.
      intros pg L ZL. cbn [zL] in ZL. destruct ZL as (_ & GL & pg' & ki & L' & Ep & Ni & ZL & EL). specialize (B pg' L' ZL).
      replace (L ++ tree_kvs (get_page E t) h pg) with (L' ++ tree_kvs (get_page E t) (S h) pg'); [exact B|].
      rewrite EL, <- app_assoc. f_equal. cbn [tree_kvs]. rewrite <- Ep.
      change (flat_map (fun e => tree_kvs (get_page E t) h (snd e)) (branch_entries p)) with (sub_kvs (get_page E t) h (branch_entries p)).
      rewrite <- (firstn_all2 (n := S (N.to_nat i)) (branch_entries p)) at 1 by lia. rewrite (firstn_nth _ _ _ Ni), sub_app, sub_one. reflexivity.
Qed.

Lemma ascend_prev_ok E t : forall st h pg L, zL (get_page E t) h pg st L -> (length st + h < 32)%nat ->
  (L = [] -> exists c, ascend_prev E t st = CErr NOTFOUND c) /\
  (forall pre kv, L = pre ++ [kv] -> exists c, ascend_prev E t st = COk tt c /\ behind (get_page E t) c kv pre /\
      forall R, zR (get_page E t) h st R -> ahead (get_page E t) c kv (tree_kvs (get_page E t) h pg ++ R)).
Proof.
  induction st as [|(p, i) st IH]; intros h pg L Z Hl; cbn [zL ascend_prev] in *.
  - subst L. split; [eauto|]. intros pre kv H. destruct pre; discriminate.
  - destruct Z as (W & G & pg' & ki & L' & Ep & Ni & Z & EL). pose proof (branch_entries_length p) as Q.
    destruct (N.ltb_spec 0 i) as [Hi|Hi].
    + pose proof (nth_error_Some_lt _ _ _ Ni) as Lt.
      destruct (nth_ex (branch_entries p) (N.to_nat (i - 1)) ltac:(lia)) as ((k0, c0) & X0).
      rewrite (child_at_ok _ _ k0 c0 W X0).
      assert (Gc : good (get_page E t) h (k0, c0)).
      { rewrite Forall_forall in G. apply G. apply (nth_error_In _ (N.to_nat (i - 1))). rewrite nth_error_firstn' by lia. exact X0. }
      destruct Gc as (Sc & Nc). cbn [snd] in *.
      destruct (descend_right_ok E t h c0 ((p, i - 1) :: st) FIND_FUEL Sc Nc ltac:(cbn [length] in *; lia) ltac:(unfold FIND_FUEL; cbn [length] in *; lia))
        as (pl & q & r & X & A1 & A2 & A3 & A4 & A5 & A6).
      destruct (A6 (L' ++ sub_kvs (get_page E t) h (firstn (N.to_nat (i - 1)) (branch_entries p)))) as (L0 & Z0 & EQ).
      { cbn [zL]. splits; auto.
        - replace (S (N.to_nat (i - 1))) with (N.to_nat i) by lia. rewrite Forall_forall in G |- *. intros e He. apply G.
          rewrite (firstn_nth _ _ _ Ni). apply in_app_iff. auto.
        - exists pg', k0, L'. auto. }
      assert (EL2 : L = L0 ++ leaf_entries q).
      { rewrite EQ, EL, <- app_assoc. f_equal. replace (N.to_nat i) with (S (N.to_nat (i - 1))) by lia.
        rewrite (firstn_nth _ _ _ X0), sub_app, sub_one. reflexivity. }
      destruct (exists_last A2) as (es & kl & LE). pose proof (leaf_entries_length q) as LQ. rewrite LE, app_length in LQ. cbn [length] in LQ.
      assert (NL : nth_error (leaf_entries q) (N.to_nat (pg_nkeys q - 1)) = Some kl).
      { rewrite LE. rewrite nth_error_app2 by lia. replace (N.to_nat (pg_nkeys q - 1) - length es)%nat with 0%nat by lia. reflexivity. }
      split.
      * intros ->. symmetry in EL2. apply app_eq_nil in EL2. destruct EL2; congruence.
      * intros pre kv E2. rewrite LE, app_assoc in EL2. rewrite E2 in EL2. apply app_inj_tail in EL2. destruct EL2 as (-> & ->).
        eexists. split; [exact X|]. split.
        -- exists q, (pg_nkeys q - 1), r, pl, L0. splits; auto. rewrite LE, firstn_app. replace (N.to_nat (pg_nkeys q - 1) - length es)%nat with 0%nat by lia.
           rewrite firstn_all2 by lia. cbn. rewrite app_nil_r. reflexivity.
        -- intros R ZR. cbn [zR] in ZR. destruct ZR as (_ & Hi2 & GR & R' & ZR & ER).
           exists q, (pg_nkeys q - 1), r, (tree_kvs (get_page E t) h pg ++ R). splits; auto.
           ++ apply A5. cbn [zR]. replace (S (N.to_nat (i - 1))) with (N.to_nat i) by lia. rewrite (skipn_nth _ _ _ Ni). splits; auto; [lia| |].
              ** constructor; auto. rewrite Forall_forall in G. apply G. rewrite (firstn_nth _ _ _ Ni). apply in_app_iff. cbn. auto.
              ** exists R'. split; auto. unfold sub_kvs at 1. cbn [flat_map snd]. rewrite <- app_assoc. f_equal. exact ER.
           ++ rewrite skipn_all2; [reflexivity|]. rewrite leaf_entries_length. lia.
    + assert (i = 0) by lia. subst i. cbn [N.to_nat firstn] in EL. unfold sub_kvs in EL. cbn in EL. rewrite app_nil_r in EL. subst L'. cbn [length] in Hl.
      destruct (IH (S h) pg' L Z ltac:(lia)) as (I1 & I2). split; [exact I1|]. intros pre kv E2. destruct (I2 pre kv E2) as (c & X & B & A). exists c. splits; auto.
      intros R ZR. cbn [zR] in ZR. destruct ZR as (_ & Hi2 & GR & R' & ZR & ER). specialize (A R' ZR).
      replace (tree_kvs (get_page E t) h pg ++ R) with (tree_kvs (get_page E t) (S h) pg' ++ R'); [exact A|].
      cbn [tree_kvs]. rewrite <- Ep. change (flat_map (fun e => tree_kvs (get_page E t) h (snd e)) (branch_entries p)) with (sub_kvs (get_page E t) h (branch_entries p)).
      rewrite ER, app_assoc. f_equal. cbn [N.to_nat] in *. rewrite <- (firstn_skipn 1 (branch_entries p)) at 1. rewrite sub_app. f_equal.
      rewrite (firstn_nth _ _ _ Ni). cbn [firstn app]. apply sub_one.
Qed.

(** ** Moves *)
Lemma fetch_ok W c kv post : ahead W c kv post -> cursor_fetch c = COk kv c.
Proof.
  intros (p & i & r & R & -> & Wp & _ & Hn & _). unfold cursor_fetch. cbn [c_stack c_eof]. pose proof (leaf_entry_count _ _ _ Hn).
  destruct (N.leb_spec (pg_nkeys p) i); [lia|]. destruct kv as [k v]. destruct (leaf_value_ok p i k v Wp Hn) as (-> & ->). reflexivity.
Qed.

Lemma next_ok E t c kv post : ahead (get_page E t) c kv post ->
  match post with
  | [] => exists c', cursor_next E t c = CErr NOTFOUND c'
  | kv' :: post' => exists c', cursor_next E t c = COk tt c' /\ ahead (get_page E t) c' kv' post' /\
      forall pre, behind (get_page E t) c kv pre -> behind (get_page E t) c' kv' (pre ++ [kv])
  end.
Proof.
  intros (p & i & r & R & -> & W & Hl & Hn & Z & ->). unfold cursor_next. cbn [c_stack c_eof].
  pose proof (leaf_entry_count _ _ _ Hn) as Hi. pose proof (leaf_entries_length p) as Q.
  pose proof (wf_nkeys_small _ _ W) as Sm. unfold HDR, PAGE_SIZE in Sm. rewrite (u16_small (i + 1)) by lia.
  destruct (N.ltb_spec (i + 1) (pg_nkeys p)) as [Hi'|Hi'].
  - destruct (nth_ex (leaf_entries p) (N.to_nat (i + 1)) ltac:(lia)) as (kv1 & X0).
    replace (S (N.to_nat i)) with (N.to_nat (i + 1)) by lia. rewrite (skipn_nth _ _ _ X0). cbn [app]. eexists. split; [reflexivity|]. split.
    + exists p, (i + 1), r, R. splits; auto.
    + intros pre (p' & i' & r' & pg & L & E1 & _ & _ & Ep & _ & ZL & ->). injection E1 as <- <- <-.
      exists p, (i + 1), r, pg, L. splits; auto. replace (N.to_nat (i + 1)) with (S (N.to_nat i)) by lia. rewrite (firstn_nth _ _ _ Hn), app_assoc. reflexivity.
  - rewrite skipn_all2 by lia. cbn [app].
    destruct r as [|top r].
    + cbn [zR] in Z. subst R. eauto.
    + pose proof (ascend_next_ok E t (top :: r) 0 R Z ltac:(lia)) as A. destruct R as [|kv1 R1]; [exact A|]. destruct A as (c & X & A & B). exists c. splits; auto.
      intros pre (p' & i' & r' & pg & L & E1 & _ & _ & Ep & _ & ZL & ->). injection E1 as <- <- <-. specialize (B pg L ZL).
      replace ((L ++ firstn (N.to_nat i) (leaf_entries p)) ++ [kv]) with (L ++ tree_kvs (get_page E t) 0 pg); [exact B|].
      rewrite <- app_assoc. f_equal. rewrite <- (firstn_nth _ _ _ Hn), firstn_all2 by lia. cbn [tree_kvs]. rewrite <- Ep. reflexivity.
Qed.

Lemma prev_ok E t c kv pre : behind (get_page E t) c kv pre ->
  (pre = [] -> exists c', cursor_prev E t c = CErr NOTFOUND c') /\
  (forall pre' kv', pre = pre' ++ [kv'] -> exists c', cursor_prev E t c = COk tt c' /\ behind (get_page E t) c' kv' pre' /\
      forall post, ahead (get_page E t) c kv post -> ahead (get_page E t) c' kv' (kv :: post)).
Proof.
  intros (p & i & r & pg & L & -> & W & Hl & Ep & Hn & Z & EP). unfold cursor_prev. cbn [c_stack c_eof].
  pose proof (leaf_entry_count _ _ _ Hn) as Hi. pose proof (leaf_entries_length p) as Q.
  destruct (N.ltb_spec 0 i) as [Hi'|Hi'].
  - destruct (nth_ex (leaf_entries p) (N.to_nat (i - 1)) ltac:(lia)) as (kv1 & X0).
    replace (N.to_nat i) with (S (N.to_nat (i - 1))) in EP by lia. rewrite (firstn_nth _ _ _ X0), app_assoc in EP. split.
    + intros ->. symmetry in EP. apply app_eq_nil in EP. destruct EP; discriminate.
    + intros pre' kv' E2. rewrite E2 in EP. apply app_inj_tail in EP. destruct EP as (-> & ->). eexists. split; [reflexivity|]. split.
      * exists p, (i - 1), r, pg, L. splits; auto.
      * intros post (p' & i' & r' & R & E1 & _ & _ & _ & ZR & ->). injection E1 as <- <- <-. exists p, (i - 1), r, R. splits; auto.
        replace (S (N.to_nat (i - 1))) with (N.to_nat i) by lia. rewrite (skipn_nth _ _ _ Hn). reflexivity.
  - assert (i = 0) by lia. subst i. cbn [N.to_nat firstn] in EP. rewrite app_nil_r in EP. subst L.
    destruct r as [|top r].
    + cbn [zL] in Z. subst pre. split; [eauto|]. intros pre' kv' E2. destruct pre'; discriminate.
    + destruct (ascend_prev_ok E t (top :: r) 0 pg pre Z ltac:(lia)) as (A & B). split; [exact A|]. intros pre' kv' E2.
      destruct (B pre' kv' E2) as (c & X & Bh & Ah). exists c. splits; auto.
      intros post (p' & i' & r' & R & E1 & _ & _ & _ & ZR & ->). injection E1 as <- <- <-. specialize (Ah R ZR).
      replace (kv :: skipn (S (N.to_nat 0)) (leaf_entries p) ++ R) with (tree_kvs (get_page E t) 0 pg ++ R); [exact Ah|].
      cbn [tree_kvs]. rewrite <- Ep. cbn [N.to_nat] in Hn |- *. rewrite <- (skipn_O (leaf_entries p)) at 1. rewrite (skipn_nth _ _ _ Hn). reflexivity.
Qed.

(** ** Seeks *)
Definition seek_op (op : cop) : Prop := match op with FIRST | LAST => True | SET k | SET_RANGE k => blen k < 65536 | _ => False end.
(** the child taken at a branch *)
Lemma seek_index_ok op p : seek_op op -> wf_page false p -> ksorted (page_keys false p) -> branch_entries p <> [] ->
  exists i ki c, seek_index p op = Ok i /\ nth_error (branch_entries p) (N.to_nat i) = Some (ki, c) /\
    match op with
    | FIRST => i = 0 | LAST => i = pg_nkeys p - 1
    | SET k | SET_RANGE k => child_of p k = Ok c
    | _ => True
    end.
Proof.
  intros So W S Hne. pose proof (branch_entries_length p) as Q. pose proof (wf_nkeys_small _ _ W) as Sm. unfold HDR, PAGE_SIZE in Sm.
  assert (0 < pg_nkeys p). { destruct (branch_entries p); [congruence|]. cbn [length] in Q. lia. }
  destruct op as [| |k|k| | |]; cbn [seek_index seek_op] in *; try contradiction.
  - destruct (nth_ex (branch_entries p) 0 ltac:(lia)) as ((ki, c) & X). exists 0, ki, c. auto.
  - destruct (nth_ex (branch_entries p) (N.to_nat (pg_nkeys p - 1)) ltac:(lia)) as ((ki, c) & X). exists (pg_nkeys p - 1), ki, c.
    rewrite sub16_ge by lia. auto.
  - destruct (child_of_ok _ k W S So Hne) as (pre & ki & c & post & Ee & Ei & Ec & _). exists (N.of_nat (length pre)), ki, c.
    rewrite Nat2N.id, Ee, nth_error_mid. auto.
  - destruct (child_of_ok _ k W S So Hne) as (pre & ki & c & post & Ee & Ei & Ec & _). exists (N.of_nat (length pre)), ki, c.
    rewrite Nat2N.id, Ee, nth_error_mid. auto.
Qed.

(** the leaf reached by a seek *)
Lemma seek_down_ok E t op : seek_op op -> forall h pg st fuel, shape (get_page E t) h pg -> (length st + h < 32)%nat -> (h < fuel)%nat ->
  exists pl r, seek_down fuel E t op pg st = COk tt (mkCur ((get_page E t pl, 0) :: r) false) /\ shape (get_page E t) 0 pl /\
    (length r < 32)%nat /\ (match op with SET k | SET_RANGE k => pl = leaf_on (get_page E t) k h pg | _ => True end) /\
    (no_empty_leaf (get_page E t) h pg -> forall L R, zL (get_page E t) h pg st L -> zR (get_page E t) h st R ->
       exists L' R', zL (get_page E t) 0 pl r L' /\ zR (get_page E t) 0 r R' /\ leaf_entries (get_page E t pl) <> [] /\
         L' ++ leaf_entries (get_page E t pl) ++ R' = L ++ tree_kvs (get_page E t) h pg ++ R /\
         match op with FIRST => L' = L | LAST => R' = R | _ => True end).
Proof.
  intros So. induction h as [|h IH]; intros pg st [|f] S Hl Hf; try lia; cbn [seek_down].
  - pose proof S as S0. cbn [shape] in S. destruct S as (_ & W & _). rewrite (wf_is_leaf true _ W), push_ok by lia. exists pg, st. splits; auto; [lia|destruct op; reflexivity|].
    intros N L R ZL ZR. exists L, R. splits; auto. destruct op; auto.
  - pose proof S as S0. cbn [shape] in S. destruct S as (Ep & W & SK & Hne & F). rewrite (wf_is_leaf false _ W), (wf_is_branch false _ W). cbn [negb].
    destruct (seek_index_ok op _ So W SK Hne) as (i & ki & c & Ei & Ni & Hop). rewrite Ei, (child_at_ok _ _ ki c W Ni), push_ok by lia.
    assert (Sc : shape (get_page E t) h c). { rewrite Forall_forall in F. apply (F (ki, c)). eapply nth_error_In; eauto. }
    destruct (IH c ((get_page E t pg, i) :: st) f Sc ltac:(cbn [length]; lia) ltac:(lia)) as (pl & r & X & A1 & A2 & A3 & A4).
    exists pl, r. splits; auto.
    + assert (G : forall k, blen k < 65536 -> child_of (get_page E t pg) k = Ok c -> leaf_on (get_page E t) k (Datatypes.S h) pg = leaf_on (get_page E t) k h c).
      { intros k Hk Hc. destruct (child_of_ok _ k W SK Hk Hne) as (pre & ki' & c' & post & Ee & _ & Ec & Hp & _ & Ho). rewrite Hc in Ec. injection Ec as <-.
        cbn [leaf_on]. rewrite (rank_route _ k pre ki' c post SK Ee Hp Ho), Ee, nth_error_mid. reflexivity. }
      destruct op; auto; rewrite A3; symmetry; apply G; auto.
    + intros N L R ZL ZR. pose proof (good_child _ h pg _ (ki, c) S0 N Ni) as (_ & Nc). cbn [snd] in Nc. pose proof (good_all _ _ _ S0 N) as GA.
      pose proof (nth_error_Some_lt _ _ _ Ni) as Lt. rewrite branch_entries_length in Lt.
      destruct (A4 Nc (L ++ sub_kvs (get_page E t) h (firstn (N.to_nat i) (branch_entries (get_page E t pg))))
                     (sub_kvs (get_page E t) h (skipn (Datatypes.S (N.to_nat i)) (branch_entries (get_page E t pg))) ++ R)) as (L' & R' & B1 & B2 & B3 & B4 & B5).
      * cbn [zL]. splits; auto; [apply Forall_firstn; auto|]. exists pg, ki, L. auto.
      * cbn [zR]. splits; auto; [lia|apply Forall_skipn; auto|]. exists R. auto.
      * exists L', R'. splits; auto.
        -- rewrite B4, <- app_assoc. f_equal. rewrite !app_assoc. f_equal. cbn [tree_kvs].
           change (flat_map (fun e => tree_kvs (get_page E t) h (snd e)) (branch_entries (get_page E t pg))) with (sub_kvs (get_page E t) h (branch_entries (get_page E t pg))).
           rewrite <- (firstn_skipn (N.to_nat i) (branch_entries (get_page E t pg))) at 3. rewrite sub_app, (skipn_nth _ _ _ Ni), <- app_assoc. f_equal.
        -- destruct op; auto.
           ++ subst i. cbn [N.to_nat firstn] in B5. unfold sub_kvs in B5. cbn [flat_map] in B5. rewrite app_nil_r in B5. exact B5.
           ++ subst i. rewrite skipn_all2 in B5 by (rewrite branch_entries_length; lia). exact B5.
Qed.

Lemma sorted_app_l (l1 l2 : list bytes) : ksorted (l1 ++ l2) -> ksorted l1 /\ ksorted l2.
Proof. intro H. apply sorted_app in H. tauto. Qed.

Lemma ahead_of W p i r R kv : wf_page true p -> (length r < 32)%nat -> nth_error (leaf_entries p) (N.to_nat i) = Some kv ->
  zR W 0 r R -> ahead W (mkCur ((p, i) :: r) false) kv (skipn (S (N.to_nat i)) (leaf_entries p) ++ R).
Proof. intros. exists p, i, r, R. splits; auto. Qed.
Lemma behind_of W p i r pg L kv : wf_page true p -> (length r < 32)%nat -> p = W pg -> nth_error (leaf_entries p) (N.to_nat i) = Some kv ->
  zL W 0 pg r L -> behind W (mkCur ((p, i) :: r) false) kv (L ++ firstn (N.to_nat i) (leaf_entries p)).
Proof. intros. exists p, i, r, pg, L. splits; auto. Qed.

(** a seek that finds position [i] of the leaf *)
Lemma seek_first_ok E t h : t_root t <> 0 -> (h < 32)%nat -> shape (get_page E t) h (t_root t) -> no_empty_leaf (get_page E t) h (t_root t) ->
  exists c kv post, cursor_seek E t FIRST = COk tt c /\ ahead (get_page E t) c kv post /\ behind (get_page E t) c kv [] /\
    tree_kvs (get_page E t) h (t_root t) = kv :: post.
Proof.
  intros Nz Hh S N. unfold cursor_seek. destruct (N.eqb_spec (t_root t) 0); [congruence|].
  destruct (seek_down_ok E t FIRST I h (t_root t) [] FIND_FUEL S ltac:(cbn; lia) ltac:(unfold FIND_FUEL; lia)) as (pl & r & -> & Sp & Lr & _ & G).
  destruct (G N [] [] eq_refl eq_refl) as (L' & R' & ZL & ZR & Ne & EQ & ->). cbn [app] in EQ. rewrite app_nil_r in EQ.
  cbn [shape] in Sp. destruct Sp as (_ & W & _). unfold seek_leaf. cbn [c_stack]. pose proof (leaf_entries_length (get_page E t pl)) as Q.
  destruct (leaf_entries (get_page E t pl)) as [|kv es] eqn:LE; [congruence|]. cbn [length] in Q.
  destruct (N.eqb_spec (pg_nkeys (get_page E t pl)) 0); [lia|].
  assert (Hn : nth_error (leaf_entries (get_page E t pl)) (N.to_nat 0) = Some kv) by (rewrite LE; reflexivity).
  eexists _, kv, (es ++ R'). split; [reflexivity|]. splits.
  - pose proof (ahead_of _ _ 0 r R' kv W Lr Hn ZR) as A. rewrite LE in A. exact A.
  - pose proof (behind_of _ _ 0 r pl [] kv W Lr eq_refl Hn ZL) as A. exact A.
  - rewrite <- EQ. reflexivity.
Qed.
Lemma seek_last_ok E t h : t_root t <> 0 -> (h < 32)%nat -> shape (get_page E t) h (t_root t) -> no_empty_leaf (get_page E t) h (t_root t) ->
  exists c kv pre, cursor_seek E t LAST = COk tt c /\ ahead (get_page E t) c kv [] /\ behind (get_page E t) c kv pre /\
    tree_kvs (get_page E t) h (t_root t) = pre ++ [kv].
Proof.
  intros Nz Hh S N. unfold cursor_seek. destruct (N.eqb_spec (t_root t) 0); [congruence|].
  destruct (seek_down_ok E t LAST I h (t_root t) [] FIND_FUEL S ltac:(cbn; lia) ltac:(unfold FIND_FUEL; lia)) as (pl & r & -> & Sp & Lr & _ & G).
  destruct (G N [] [] eq_refl eq_refl) as (L' & R' & ZL & ZR & Ne & EQ & ->). cbn [app] in EQ. rewrite !app_nil_r in EQ.
  cbn [shape] in Sp. destruct Sp as (_ & W & _). unfold seek_leaf. cbn [c_stack]. pose proof (leaf_entries_length (get_page E t pl)) as Q.
  destruct (exists_last Ne) as (es & kl & LE). rewrite LE, app_length in Q. cbn [length] in Q.
  destruct (N.ltb_spec 0 (pg_nkeys (get_page E t pl))); [|lia]. destruct (N.eqb_spec (pg_nkeys (get_page E t pl)) 0); [lia|].
  assert (Hn : nth_error (leaf_entries (get_page E t pl)) (N.to_nat (pg_nkeys (get_page E t pl) - 1)) = Some kl).
  { rewrite LE, nth_error_app2 by lia. replace (N.to_nat (pg_nkeys (get_page E t pl) - 1) - length es)%nat with 0%nat by lia. reflexivity. }
  eexists _, kl, (L' ++ es). split; [reflexivity|]. splits.
  - pose proof (ahead_of _ _ _ r [] kl W Lr Hn ZR) as A. rewrite skipn_all2 in A by (rewrite leaf_entries_length; lia). exact A.
  - pose proof (behind_of _ _ _ r pl L' kl W Lr eq_refl Hn ZL) as A. rewrite LE, firstn_app in A.
    replace (N.to_nat (pg_nkeys (get_page E t pl) - 1) - length es)%nat with 0%nat in A by lia.
    rewrite firstn_all2 in A by lia. cbn [firstn] in A. rewrite app_nil_r in A. exact A.
  - rewrite <- EQ, LE, app_assoc. reflexivity.
Qed.
