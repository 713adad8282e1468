(** Property C138: a lookup ends. *)
From Verif Require Import Util PageModel PageSpec PageProofs PageOps PropPage TxnModel CursorModel TreeModel TreeSpec TreeProofs TreeOps TreeSplit TreePut TreeShape TxnInv PairInv DbModel SysModel DbSpec DbProofs DbCommit PropTree PropCommit PropMeta PropPair PropFileLife.
Local Open Scope N_scope.

(** Looking for [k] in the branch page [pg] leads to page [q]. *)
Definition goes (E : env) (t : txn) (k : bytes) (pg q : N) : Prop :=
  is_leaf (get_page E t pg) = false /\ is_branch (get_page E t pg) = true /\ child_of (get_page E t pg) k = Ok q.
(** [q] is reached from [pg] in [n] such steps *)
Inductive goes_in (E : env) (t : txn) (k : bytes) : nat -> N -> N -> Prop :=
| goes_here pg : goes_in E t k 0 pg pg
| goes_on n pg q r : goes E t k pg q -> goes_in E t k n q r -> goes_in E t k (S n) pg r.

(** ** Finitely many pages have ever been written *)
Definition bounded (f : N -> page) : Prop := exists n, forall q, n <= q -> blank (f q).
Lemma io_bounded d o : bounded (d_file d) -> bounded (d_file (io_apply d o)).
Proof.
  intros (n & H). destruct o as [q p|b m|]; cbn [io_apply d_file]; try (exists n; exact H).
  - exists (N.max n (q + 1)). intros r Hr. repeat match goal with |- context [?a =? ?b] => destruct (N.eqb_spec a b); [lia|] end. apply H. lia.
  - destruct b; exists n; exact H.
Qed.
Lemma ios_bounded : forall l d, bounded (d_file d) -> bounded (d_file (fold_left io_apply l d)).
Proof. induction l as [|o l IH]; intros d H; cbn [fold_left]; auto using io_bounded. Qed.
Lemma tail_bounded : forall l d keep, bounded (d_file d) -> bounded (d_file (crash_tail d l keep)).
Proof. induction l as [|o l IH]; intros d keep H; cbn [crash_tail]; auto. destruct keep as [|[] ks]; auto using io_bounded. Qed.
Lemma crash_bounded d l n keep : bounded (d_file d) -> bounded (d_file (crash_disk d l n keep)).
Proof. intro H. unfold crash_disk. destruct (after_sync _). apply tail_bounded, ios_bounded, H. Qed.
Lemma commit_bounded E t fail E' r : bounded (e_file E) -> db_commit E t fail = (E', r) -> bounded (e_file E').
Proof.
  intros G H. unfold db_commit in H. destruct (t_dirty t); [injection H as <- _; exact G|].
  destruct (populate_free_db page_alloc E t) as [fr t1|e t1| |]; try (injection H as <- _; exact G).
  destruct (over_meta t1); [injection H as <- _; exact G|]. cbv zeta in H.
  pose proof (fun l => ios_bounded l (disk_of E) G) as A.
  destruct fail as [n|]; [destruct (Nat.ltb n _)|]; injection H as <- _; cbn [e_file]; apply A.
Qed.
Lemma step_bounded s a s' : bounded (e_file (y_env s)) -> step s a = Some s' -> bounded (e_file (y_env s')).
Proof.
  intros G H. destruct s as [E ws rs]. unfold step in H. cbn [y_env y_writers y_readers] in *.
  destruct a as [h|h k v|h k data|h fail|h|h pid tid|h].
  - destruct (wget ws h); [discriminate|]. unfold begin_write in H. destruct (e_locked E); [discriminate|]. injection H as <-. exact G.
  - destruct (wget ws h) as [t|]; [|discriminate]. destruct (db_put E t k v); try discriminate; injection H as <-; exact G.
  - destruct (wget ws h) as [t|]; [|discriminate]. destruct (db_del E t k data); try discriminate; injection H as <-; exact G.
  - destruct (wget ws h) as [t|]; [|discriminate]. destruct (db_commit E t fail) as [E' r] eqn:C.
    pose proof (commit_bounded E t fail E' r G C). destruct r; try discriminate; injection H as <-; auto.
  - destruct (wget ws h) as [t|]; [|discriminate]. injection H as <-. exact G.
  - destruct (rget rs h); [discriminate|]. unfold begin_read in H. destruct (fill_slot _ _ _ _); [|discriminate]. injection H as <-. exact G.
  - destruct (rget rs h) as [[[pid tid] t]|]; [|discriminate]. injection H as <-. exact G.
Qed.
Lemma life_bounded puts s : life puts s -> bounded (e_file (y_env s)).
Proof.
  intro H. induction H as [|puts s a s' H IH L S|puts s E H IH O|puts s h t fr t1 n keep E H IH L G PF OM O].
  - exists 0. intros q _. split; reflexivity.
  - eapply step_bounded; eauto.
  - cbn [start y_env]. change (e_file E) with (d_file (disk_of E)). rewrite (open_disk _ _ O). exact IH.
  - cbn [start y_env]. change (e_file E) with (d_file (disk_of E)). rewrite (open_disk _ _ O). apply crash_bounded. exact IH.
Qed.
Lemma view_bounded E t : bounded (e_file E) -> bounded (get_page E t).
Proof.
  intros (n & H). unfold get_page. destruct (t_rdonly t); [exists n; exact H|].
  induction (t_dirty t) as [|[q p] r IH]; [exists n; intros; cbn [dget]; auto|]. destruct IH as (m & IH).
  exists (N.max m (q + 1)). intros x Hx. cbn [dget]. repeat match goal with |- context [?a =? ?b] => destruct (N.eqb_spec a b); [lia|] end. apply IH. lia.
Qed.

(** ** A descent *)
Lemma goes_trans E t k : forall n m p q r, goes_in E t k n p q -> goes_in E t k m q r -> goes_in E t k (n + m) p r.
Proof. intros n m p q r H G. induction H; cbn [Nat.add]; [exact G|]. econstructor; eauto. Qed.
Lemma life_pages puts s t : life puts s -> open_txn s t -> forall pg, blank (get_page (y_env s) t pg) \/ wfp (get_page (y_env s) t pg).
Proof.
  intros HL HO. pose proof (life_inv (fun _ _ => True) (fun _ _ _ => I) puts s HL (fun _ _ _ => I)) as [F W R].
  destruct HO as [(h & G & L)|(h & who & G)].
  - destruct (W _ _ (wget_in _ _ _ G)) as [Ro O]. specialize (O L). intro pg. unfold get_page. rewrite Ro.
    destruct (dget (t_dirty t) pg) as [p|] eqn:D; [right; apply (dw_pages _ _ O _ _ D)|].
    destruct (F pg) as [B|[[W2 _] _]]; auto.
  - pose proof (R _ _ _ (rget_in _ _ _ _ G)) as Ro. intro pg. unfold get_page. rewrite Ro. destruct (F pg) as [B|[[W2 _] _]]; auto.
Qed.
(** the pages of a descent that has not ended after [n] steps *)
Lemma fuel_trace E t k : (forall pg, blank (get_page E t pg) \/ wfp (get_page E t pg)) -> forall n pg, find_leaf n E t pg k = Fuel ->
  exists l, length l = n /\ (forall i q, nth_error l i = Some q -> goes_in E t k i pg q /\ is_branch (get_page E t q) = true).
Proof.
  intro Pg. induction n as [|n IH]; intros pg H; cbn [find_leaf] in H.
  - exists []. split; auto. intros [|i] q X; discriminate.
  - destruct (is_leaf (get_page E t pg)) eqn:L; [discriminate|]. destruct (is_branch (get_page E t pg)) eqn:B; cbn [negb] in H; [|discriminate].
    destruct (child_of (get_page E t pg) k) as [c| | |] eqn:C; cbn [bindr] in H; try discriminate.
    + destruct (IH _ H) as (l & Hl & A). exists (pg :: l). split; [cbn; lia|]. intros [|i] q X; cbn [nth_error] in X.
      * injection X as <-. split; [constructor|exact B].
      * destruct (A i q X). split; auto. econstructor; eauto. split; auto.
    + exfalso. destruct (Pg pg) as [[_ B']|[lf W]]; [congruence|]. revert C. unfold child_of, child_index.
      destruct (page_search_safe lf _ k W) as (b & i & -> & _). cbn [bindr]. unfold child_at. destruct (_ && _); discriminate.
Qed.
Lemma goes_split E t k : forall i n p q, goes_in E t k (i + n) p q -> exists m, goes_in E t k i p m /\ goes_in E t k n m q.
Proof.
  induction i as [|i IH]; intros n p q H; cbn [Nat.add] in H; [exists p; split; [constructor|exact H]|].
  inversion H as [|n' pg' c r' G1 G2]; subst. destruct (IH _ _ _ G2) as (m & A & B). exists m. split; [econstructor; eauto|exact B].
Qed.
Lemma goes_det E t k : forall n p q q', goes_in E t k n p q -> goes_in E t k n p q' -> q = q'.
Proof.
  intros n p q q' H. revert q'. induction H as [pg|n pg q r G H IH]; intros q' X; inversion X as [|n' pg' c r' G1 G2]; subst; auto.
  assert (c = q) by (destruct G as (_ & _ & G), G1 as (_ & _ & G1); congruence). subst. auto.
Qed.

(** A lookup ends, unless its descent comes back to a page.  Missing for the full claim:
    that there are no such circles; the theorem below has one. *)
Theorem lookup_ends_partial : forall puts s t k, life puts s -> open_txn s t ->
  (exists n, find_leaf n (y_env s) t (t_root t) k <> Fuel) \/
  (exists i n q, goes_in (y_env s) t k i (t_root t) q /\ goes_in (y_env s) t k (S n) q q).
Proof.
  intros puts s t k HL HO. pose proof (life_pages puts s t HL HO) as Pg.
  destruct (view_bounded (y_env s) t (life_bounded puts s HL)) as (m & Hm). set (E := y_env s) in *.
  set (n := S (N.to_nat m)).
  destruct (find_leaf n E t (t_root t) k) eqn:F; try (left; exists n; rewrite F; discriminate). right.
  destruct (fuel_trace E t k Pg n _ F) as (l & Hl & A).
  assert (ND : ~ NoDup l).
  { intro ND. assert (L : (length l <= length (map N.of_nat (seq 0 (N.to_nat m))))%nat).
    { apply NoDup_incl_length; [exact ND|]. intros q Hq. apply In_nth_error in Hq. destruct Hq as (i & Hi). destruct (A i q Hi) as (_ & B).
      apply in_map_iff. exists (N.to_nat q). split; [lia|]. apply in_seq.
      destruct (N.le_gt_cases m q) as [Le|Gt]; [|lia]. destruct (Hm q Le) as (_ & B'). congruence. }
    rewrite map_length, seq_length in L. unfold n in Hl. lia. }
  assert (D : exists i j q, (i < j)%nat /\ nth_error l i = Some q /\ nth_error l j = Some q).
  { clear -ND. induction l as [|a l IH]; [exfalso; apply ND; constructor|].
    destruct (in_dec N.eq_dec a l) as [I|I].
    - apply In_nth_error in I. destruct I as (j & Hj). exists 0%nat, (S j), a. splits; auto. lia.
    - destruct IH as (i & j & q & Lt & X & Y); [intro N; apply ND; constructor; auto|]. exists (S i), (S j), q. splits; auto. lia. }
  destruct D as (i & j & q & Lt & X & Y). destruct (A _ _ X) as (GX & _). destruct (A _ _ Y) as (GY & _).
  exists i, (j - i - 1)%nat, q. split; [exact GX|]. replace j with (i + S (j - i - 1))%nat in GY by lia.
  apply goes_split in GY. destruct GY as (q' & G1 & G2). rewrite <- (goes_det _ _ _ _ _ _ _ GX G1) in G2. exact G2.
Qed.
Print Assumptions lookup_ends_partial.
(** A case of the first alternative: a database of two levels, where a lookup passes a
    branch page. *)
Definition calls_two : list act :=
  [BeginW 0; PutA 0 [1] (fillb 1300 1); PutA 0 [2] (fillb 1300 1); PutA 0 [3] (fillb 1300 1); PutA 0 [4] (fillb 1300 1); CommitW 0 None; BeginR 0 1 1].
Definition reading (l : list act) (f : env -> txn -> bool) : bool :=
  match calls (start env_create) l with
  | Some s => match rget (y_readers s) 0 with Some (_, t) => f (y_env s) t | None => false end
  | None => false
  end.
Lemma reading_is l f : reading l f = true -> exists s t, life (rev (flat_map asked l)) s /\ open_txn s t /\ f (y_env s) t = true.
Proof.
  intro H. unfold reading in H. destruct (calls (start env_create) l) as [s|] eqn:C; [|discriminate]. destruct (rget (y_readers s) 0) as [[who t]|] eqn:G; [|discriminate].
  exists s, t. split; [|split; [right; exists 0, who; exact G|exact H]].
  pose proof (calls_life l [] _ _ life_new C) as X. rewrite app_nil_r in X. exact X.
Qed.
Definition onb (E : env) (t : txn) (k : bytes) (pg : N) (ok : N -> bool) : bool :=
  negb (is_leaf (get_page E t pg)) && is_branch (get_page E t pg) && match child_of (get_page E t pg) k with Ok q => ok q | _ => false end.
Lemma onb_goes E t k pg ok : onb E t k pg ok = true -> exists q, goes E t k pg q /\ ok q = true.
Proof.
  unfold onb, goes. intro H. apply andb_prop in H. destruct H as (H & H3). apply andb_prop in H. destruct H as (H1 & H2).
  apply negb_true_iff in H1. destruct (child_of _ k) as [q| | |]; try discriminate. exists q. auto.
Qed.
Example lookup_ends_case : exists s t, life (rev (flat_map asked calls_two)) s /\ open_txn s t /\
  exists q, goes (y_env s) t [4] (t_root t) q /\ find_leaf 2 (y_env s) t (t_root t) [4] <> Fuel.
Proof.
  destruct (reading_is calls_two (fun E t => onb E t [4] (t_root t) (fun q => is_leaf (get_page E t q)))) as (s & t & A & B & C); [vm_compute; reflexivity|].
  exists s, t. split; [exact A|]. split; [exact B|]. apply onb_goes in C. destruct C as (q & (G1 & G2 & G3) & L). exists q.
  split; [split; auto|]. cbn [find_leaf]. rewrite G1, G2, G3. cbn [negb bindr]. rewrite L. discriminate.
Qed.
(** Six puts in four transactions, each of which commits.  The second and the third one
    change the only leaf, page 2, and list it as free although it is in use.  The last one
    splits the leaf: page 2 is handed out for the right half and again for the new root,
    whose children are then the root itself.  No lookup ends from then on. *)
Definition calls_loop : list act :=
  [BeginW 0; PutA 0 [1] (fillb 1300 1); PutA 0 [2] (fillb 1300 2); CommitW 0 None;
   BeginW 0; PutA 0 [3] [3]; CommitW 0 None; BeginW 0; PutA 0 [4] [4]; CommitW 0 None;
   BeginW 0; PutA 0 [5] (fillb 1300 5); PutA 0 [6] (fillb 1300 6); CommitW 0 None; BeginR 0 1 1].
Lemma self_loop E t k pg : goes E t k pg pg -> forall n, find_leaf n E t pg k = Fuel.
Proof. intros (A & B & C). induction n as [|n IH]; [reflexivity|]. cbn [find_leaf]. rewrite A, B, C. exact IH. Qed.
Lemma child_of_entry p k : wf_page false p -> 0 < pg_nkeys p -> exists c, child_of p k = Ok c /\ In c (map snd (branch_entries p)).
Proof.
  intros W N. unfold child_of, child_index. destruct (page_search_safe false p k W) as (b & i & -> & Hi & _). cbn [bindr].
  pose proof (wf_nkeys_small _ _ W) as Hn. unfold HDR, PAGE_SIZE in Hn. cbv zeta.
  set (j := if pg_nkeys p <=? _ then _ else _).
  assert (Hj : j < pg_nkeys p).
  { unfold j. destruct (N.leb_spec (pg_nkeys p) (if negb b && (0 <? i) then i - 1 else i)); [|auto]. rewrite sub16_ge by lia. lia. }
  destruct (nth_error (branch_entries p) (N.to_nat j)) as [[k0 c]|] eqn:E.
  - exists c. split; [eapply child_at_ok; eauto|]. apply nth_error_In in E. apply (in_map snd) in E. exact E.
  - apply nth_error_None in E. rewrite branch_entries_length in E. lia.
Qed.
(** [pg] is a branch page all of whose children are [pg] *)
Definition loopb (E : env) (t : txn) (pg : N) : bool :=
  negb (is_leaf (get_page E t pg)) && is_branch (get_page E t pg) && (0 <? pg_nkeys (get_page E t pg)) &&
  forallb (fun e => snd e =? pg) (branch_entries (get_page E t pg)).
Lemma loopb_goes E t pg : blank (get_page E t pg) \/ wfp (get_page E t pg) -> loopb E t pg = true -> forall k, goes E t k pg pg.
Proof.
  unfold loopb. intros Pg H k. apply andb_prop in H. destruct H as (H & H4). apply andb_prop in H. destruct H as (H & H3). apply andb_prop in H. destruct H as (H1 & H2).
  apply negb_true_iff in H1. apply N.ltb_lt in H3. destruct Pg as [[_ B]|[lf W]]; [congruence|]. pose proof H1 as L. rewrite (wf_is_leaf _ _ W) in L. subst lf.
  destruct (child_of_entry _ k W H3) as (c & C & I). apply in_map_iff in I. destruct I as (e & <- & I).
  rewrite forallb_forall in H4. specialize (H4 e I). apply N.eqb_eq in H4. rewrite H4 in C. split; auto.
Qed.
Theorem lookup_ends_refuted : exists s t, life (rev (flat_map asked calls_loop)) s /\ open_txn s t /\
  m_txnid (live_meta (y_env s)) = 4 + m_txnid (live_meta env_create) /\
  forall k n, find_leaf n (y_env s) t (t_root t) k = Fuel.
Proof.
  destruct (reading_is calls_loop (fun E t => (m_txnid (live_meta E) =? 4 + m_txnid (live_meta env_create)) && loopb E t (t_root t))) as (s & t & A & B & C); [vm_compute; reflexivity|].
  apply andb_prop in C. destruct C as (C1 & C2). apply N.eqb_eq in C1.
  exists s, t. split; [exact A|]. split; [exact B|]. split; [exact C1|]. intro k. apply self_loop.
  apply loopb_goes; [apply (life_pages _ _ _ A B)|exact C2].
Qed.
Print Assumptions lookup_ends_refuted.
