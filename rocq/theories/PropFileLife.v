(** Properties C136 and C137: more about the life of a database file. *)
From Verif Require Import Util PageModel PageSpec PageProofs PageOps PropPage TxnModel CursorModel TreeModel TreeSpec TreeProofs TreeOps TreeSplit TreePut TreeShape TxnInv PairInv DbModel SysModel DbSpec DbProofs DbCommit PropTree PropCommit PropMeta PropPair.
Local Open Scope N_scope.

(** ** C136 the file can always be opened *)
Definition good_metas (d : disk) : Prop := forall b, good_meta (meta_at d b).
(** [l] writes no meta page but [b], and there only [m] *)
Definition one_meta (b : bool) (m : meta) (o : io) : Prop := match o with WMeta b' m' => b' = b /\ m' = m | _ => True end.
Definition metas_of (d d' : disk) (b : bool) (m : meta) : Prop :=
  meta_at d' (negb b) = meta_at d (negb b) /\ (meta_at d' b = meta_at d b \/ meta_at d' b = m).
Lemma metas_refl d b m : metas_of d d b m. Proof. split; auto. Qed.
Lemma metas_trans d1 d2 d3 b m : metas_of d1 d2 b m -> metas_of d2 d3 b m -> metas_of d1 d3 b m.
Proof. intros (A & B) (C & D). split; [congruence|]. destruct D as [D|D]; [rewrite D; exact B|auto]. Qed.
Lemma io_metas d b m o : one_meta b m o -> metas_of d (io_apply d o) b m.
Proof.
  destruct o as [q p|b' m'|]; cbn [one_meta io_apply]; try (intros _; split; [|left]; destruct b; reflexivity).
  intros (-> & ->). split; destruct b; cbn; auto.
Qed.
Lemma ios_metas b m : forall l d, Forall (one_meta b m) l -> metas_of d (fold_left io_apply l d) b m.
Proof.
  induction l as [|o l IH]; intros d H; cbn [fold_left]; [apply metas_refl|]. inversion H; subst.
  eapply metas_trans; [apply io_metas; eauto|apply IH; auto].
Qed.
Lemma tail_metas b m : forall l d keep, Forall (one_meta b m) l -> metas_of d (crash_tail d l keep) b m.
Proof.
  induction l as [|o l IH]; intros d keep H; cbn [crash_tail]; [apply metas_refl|]. destruct keep as [|[] ks]; [apply metas_refl| |]; inversion H; subst.
  - eapply metas_trans; [apply io_metas; eauto|apply IH; auto].
  - apply IH; auto.
Qed.
Lemma crash_metas b m l d n keep : Forall (one_meta b m) l -> metas_of d (crash_disk d l n keep) b m.
Proof.
  intro G. unfold crash_disk. pose proof (Forall_firstn' _ n _ G) as G'. destruct (after_sync (firstn n l)) as [x y] eqn:X.
  apply after_sync_parts in X. rewrite X in G'. apply Forall_app in G'. destruct G' as (G1 & G2).
  eapply metas_trans; [apply ios_metas; exact G1|apply tail_metas; auto].
Qed.
Lemma commit_one_meta E t fr : Forall (one_meta (negb (e_live1 E)) (new_meta t fr)) (commit_ios E t fr).
Proof.
  unfold commit_ios. cbv zeta. apply Forall_app. split; [|repeat constructor].
  apply Forall_forall. intros o Ho. apply in_map_iff in Ho. destruct Ho as (e & <- & _). exact I.
Qed.
Lemma new_meta_good t fr : good_meta (new_meta t fr). Proof. split; reflexivity. Qed.
Lemma metas_good d d' b m : good_metas d -> good_meta m -> metas_of d d' b m -> good_metas d'.
Proof.
  intros G M (A & B) b'. destruct (Bool.bool_dec b' b) as [->|N].
  - destruct B as [-> | ->]; auto.
  - replace b' with (negb b) by (destruct b, b'; auto; congruence). rewrite A. apply G.
Qed.
Lemma open_good d : good_metas d -> exists E, env_open d = Ok E /\ disk_of E = d /\ (live_meta E = d_meta0 d \/ live_meta E = d_meta1 d) /\
  m_txnid (d_meta0 d) <= m_txnid (live_meta E) /\ m_txnid (d_meta1 d) <= m_txnid (live_meta E).
Proof.
  intro G. unfold env_open, select_live. pose proof (valid_good _ (G false)) as V0. pose proof (valid_good _ (G true)) as V1. cbn [meta_at] in V0, V1.
  rewrite V0, V1. cbn [bindr]. eexists. split; [reflexivity|]. split; [destruct d; reflexivity|].
  unfold live_meta. cbn [e_live1 e_meta0 e_meta1]. destruct (N.ltb_spec (m_txnid (d_meta1 d)) (m_txnid (d_meta0 d))); cbn [negb]; (split; [auto|lia]).
Qed.
Lemma commit_metas E t fail E' r : good_metas (disk_of E) -> db_commit E t fail = (E', r) -> good_metas (disk_of E').
Proof.
  intros G H. unfold db_commit in H. destruct (t_dirty t); [injection H as <- _; exact G|].
  destruct (populate_free_db page_alloc E t) as [fr t1|e t1| |]; try (injection H as <- _; exact G).
  destruct (over_meta t1); [injection H as <- _; exact G|]. cbv zeta in H. pose proof (commit_one_meta E t1 fr) as O.
  assert (A : forall l0, Forall (one_meta (negb (e_live1 E)) (new_meta t1 fr)) l0 -> good_metas (fold_left io_apply l0 (disk_of E))).
  { intros l0 Hl. eapply metas_good; [exact G|apply new_meta_good|apply ios_metas; exact Hl]. }
  destruct fail as [n|]; [destruct (Nat.ltb n _)|]; injection H as <- _; cbn [disk_of]; apply A; auto. apply Forall_firstn'. exact O.
Qed.
Lemma step_metas s a s' : good_metas (disk_of (y_env s)) -> step s a = Some s' -> good_metas (disk_of (y_env s')).
Proof.
  intros G H. destruct s as [E ws rs]. unfold step in H. cbn [y_env y_writers y_readers] in *.
  destruct a as [h|h k v|h k data|h fail|h|h pid tid|h].
  - destruct (wget ws h); [discriminate|]. unfold begin_write in H. destruct (e_locked E); [discriminate|]. injection H as <-. exact G.
  - destruct (wget ws h) as [t|]; [|discriminate]. destruct (db_put E t k v); try discriminate; injection H as <-; exact G.
  - destruct (wget ws h) as [t|]; [|discriminate]. destruct (db_del E t k data); try discriminate; injection H as <-; exact G.
  - destruct (wget ws h) as [t|]; [|discriminate]. destruct (db_commit E t fail) as [E' r] eqn:C.
    pose proof (commit_metas E t fail E' r G C). destruct r; try discriminate; injection H as <-; auto.
  - destruct (wget ws h) as [t|]; [|discriminate]. injection H as <-. exact G.
  - destruct (rget rs h); [discriminate|]. unfold begin_read in H. destruct (fill_slot _ _ _ _); [|discriminate]. injection H as <-. exact G.
  - destruct (rget rs h) as [[[pid tid] t]|]; [|discriminate]. injection H as <-. exact G.
Qed.
Lemma open_disk d E : env_open d = Ok E -> disk_of E = d.
Proof. unfold env_open. destruct (select_live _ _); cbn [bindr]; try discriminate. intros [= <-]. destruct d. reflexivity. Qed.
Lemma life_metas puts s : life puts s -> good_metas (disk_of (y_env s)).
Proof.
  intro H. induction H as [|puts s a s' H IH L S|puts s E H IH O|puts s h t fr t1 n keep E H IH L G PF OM O].
  - intros []; split; reflexivity.
  - eapply step_metas; eauto.
  - cbn [start y_env]. rewrite (open_disk _ _ O). exact IH.
  - cbn [start y_env]. rewrite (open_disk _ _ O). eapply metas_good; [exact IH|apply (new_meta_good t1 fr)|apply crash_metas; apply commit_one_meta].
Qed.
(** After a restart and after a crash at any point of a commit the file can be opened.  If
    the meta page that is not live was the older one, as it is after every successful
    commit and every opening, the database is then at the state last committed or at
    that of the interrupted commit. *)
Theorem file_always_opens : forall puts s, life puts s ->
  (exists E, env_open (disk_of (y_env s)) = Ok E) /\
  forall h t fr t1 n keep, wget (y_writers s) h = Some t -> populate_free_db page_alloc (y_env s) t = Ret fr t1 -> over_meta t1 = false ->
    exists E, env_open (crash_disk (disk_of (y_env s)) (commit_ios (y_env s) t1 fr) n keep) = Ok E /\
      (m_txnid (meta_at (disk_of (y_env s)) (negb (e_live1 (y_env s)))) < m_txnid (live_meta (y_env s)) ->
       live_meta E = live_meta (y_env s) \/
       (m_txnid (live_meta E) = t_id t1 /\ m_root (live_meta E) = mapped (pgno_map (t_dirty t1)) (t_root t1) /\
        m_free (live_meta E) = fr /\ m_last (live_meta E) = t_last t1)).
Proof.
  intros puts s HL. pose proof (life_metas puts s HL) as G. split.
  - destruct (open_good _ G) as (E & H & _). eauto.
  - intros h t fr t1 n keep HW PF OM. set (E0 := y_env s) in *.
    pose proof (crash_metas _ _ _ (disk_of E0) n keep (commit_one_meta E0 t1 fr)) as M.
    set (D := crash_disk (disk_of E0) (commit_ios E0 t1 fr) n keep) in *.
    destruct (open_good D (metas_good _ _ _ _ G (new_meta_good t1 fr) M)) as (E & HO & _ & HE & H0 & H1).
    exists E. split; [exact HO|]. intro New.
    assert (X : live_meta E = meta_at D (e_live1 E0) \/ live_meta E = meta_at D (negb (e_live1 E0))) by (destruct (e_live1 E0); cbn [meta_at negb]; tauto).
    assert (LE : m_txnid (meta_at D (e_live1 E0)) <= m_txnid (live_meta E)) by (destruct (e_live1 E0); cbn [meta_at]; auto).
    destruct M as (M1 & M2). rewrite negb_involutive in M1. rewrite M1 in X, LE. rewrite <- live_meta_at in X, LE.
    destruct X as [X|X]; [left; exact X|]. destruct M2 as [M2|M2].
    + rewrite M2 in X. rewrite X in LE. lia.
    + right. rewrite X, M2. splits; reflexivity.
Qed.
Print Assumptions file_always_opens.
(** A case: the crash of [only_what_was_put_case]; the hypothesis about the older meta
    page holds. *)
Example file_always_opens_case : life (rev (flat_map asked calls1)) Y1 /\ wget (y_writers Y1) 2 = Some TY /\
  populate_free_db page_alloc (y_env Y1) TY = Ret FY1 TY1 /\ over_meta TY1 = false /\
  m_txnid (meta_at (disk_of (y_env Y1)) (negb (e_live1 (y_env Y1)))) < m_txnid (live_meta (y_env Y1)).
Proof.
  split; [exact life_Y1|]. split; [apply wget_some; vm_compute; reflexivity|]. split; [apply ret_some; vm_compute; reflexivity|].
  split; vm_compute; reflexivity.
Qed.

(** ** C137 a lookup stays inside the pages *)
Lemma child_of_safe p k : wf_page false p -> 0 < pg_nkeys p -> exists c, child_of p k = Ok c.
Proof.
  intros W N. unfold child_of, child_index. destruct (page_search_safe false p k W) as (b & i & -> & Hi & _). cbn [bindr].
  pose proof (wf_nkeys_small _ _ W) as Hn. unfold HDR, PAGE_SIZE in Hn. cbv zeta.
  set (j := if pg_nkeys p <=? _ then _ else _).
  assert (Hj : j < pg_nkeys p).
  { unfold j. destruct (N.leb_spec (pg_nkeys p) (if negb b && (0 <? i) then i - 1 else i)); [|auto]. rewrite sub16_ge by lia. lia. }
  destruct (nth_error (branch_entries p) (N.to_nat j)) as [[k0 c]|] eqn:E.
  - exists c. eapply child_at_ok; eauto.
  - apply nth_error_None in E. rewrite branch_entries_length in E. lia.
Qed.
(** The only way to undefined behaviour is a branch page without entries.  Missing for the
    full claim: that there is no such page. *)
Theorem lookup_stays_inside_partial : forall puts s t k, life puts s -> open_txn s t ->
  db_get (y_env s) t k = UB ->
  exists q, is_branch (get_page (y_env s) t q) = true /\ pg_nkeys (get_page (y_env s) t q) = 0.
Proof.
  intros puts s t k HL HO H.
  pose proof (life_inv (fun _ _ => True) (fun _ _ _ => I) puts s HL (fun _ _ _ => I)) as IV.
  assert (S : forall pg, blank (get_page (y_env s) t pg) \/ wfp (get_page (y_env s) t pg)).
  { destruct IV as [F W R]. destruct HO as [(h & G & L)|(h & who & G)].
    - destruct (W _ _ (wget_in _ _ _ G)) as [Ro O]. specialize (O L). intro pg. unfold get_page. rewrite Ro.
      destruct (dget (t_dirty t) pg) as [p|] eqn:D; [right; apply (dw_pages _ _ O _ _ D)|].
      destruct (F pg) as [B|[[W2 _] _]]; auto.
    - pose proof (R _ _ _ (rget_in _ _ _ _ G)) as Ro. intro pg. unfold get_page. rewrite Ro. destruct (F pg) as [B|[[W2 _] _]]; auto. }
  unfold db_get in H. destruct (t_root t =? 0); [discriminate|].
  assert (FL : forall f pg, match find_leaf f (y_env s) t pg k with
    | Ok p => wf_page true p | UB => exists q, is_branch (get_page (y_env s) t q) = true /\ pg_nkeys (get_page (y_env s) t q) = 0 | _ => True end).
  { induction f as [|f IH]; intro pg; cbn [find_leaf]; [exact I|].
    destruct (is_leaf (get_page (y_env s) t pg)) eqn:L.
    - destruct (S pg) as [[B _]|[lf W]]; [congruence|]. rewrite (wf_is_leaf _ _ W) in L. subst lf. exact W.
    - destruct (is_branch (get_page (y_env s) t pg)) eqn:B; cbn [negb]; [|exact I].
      destruct (S pg) as [[_ B']|[lf W]]; [congruence|]. rewrite (wf_is_leaf _ _ W) in L. subst lf.
      destruct (N.eq_dec (pg_nkeys (get_page (y_env s) t pg)) 0) as [Z|Z].
      + assert (X : match (do c <- child_of (get_page (y_env s) t pg) k ;; find_leaf f (y_env s) t c k) with
           | Ok p => wf_page true p | _ => True end).
        { destruct (child_of _ k) as [c| | |]; cbn [bindr]; auto. specialize (IH c). destruct (find_leaf f _ _ _ _); auto. }
        revert X. match goal with |- (match ?r with _ => _ end) -> _ => destruct r end; auto. intros _. exists pg. auto.
      + destruct (child_of_safe _ k W ltac:(lia)) as (c & ->). cbn [bindr]. apply IH. }
  specialize (FL FIND_FUEL (t_root t)). destruct (find_leaf FIND_FUEL (y_env s) t (t_root t) k) as [leaf| | |]; cbn [bindr] in H; try discriminate; auto.
  exfalso. destruct (page_search_safe true leaf k FL) as (b & i & PS & Hi & Hb). rewrite PS in H. cbn [bindr] in H.
  destruct b; [|discriminate]. specialize (Hb eq_refl).
  destruct (nth_error (leaf_entries leaf) (N.to_nat i)) as [[k0 v0]|] eqn:NE.
  - destruct (leaf_value_ok leaf i k0 v0 FL NE) as (X & _). congruence.
  - apply nth_error_None in NE. rewrite leaf_entries_length in NE. lia.
Qed.
Print Assumptions lookup_stays_inside_partial.
(** Seven puts in one transaction.  The last one has to split a branch page with one entry:
    the entry moves to the new page, which is then not linked, and the lookup reads slot
    65535 of the page left behind. *)
Definition calls7 : list act :=
  [BeginW 0; PutA 0 (1 :: fillb 2499 1) []; PutA 0 [200] (fillb 1500 1); PutA 0 [201] (fillb 1500 1); PutA 0 (100 :: fillb 1562 1) []; PutA 0 [110] (fillb 1560 1);
   PutA 0 (50 :: fillb 1562 1) []; PutA 0 [60] (fillb 1560 1)].
Lemma ub_case l k : (match calls (start env_create) l with
    | Some s => match wget (y_writers s) 0 with
                | Some t => (t_last t <? 2 ^ 64) && match db_get (y_env s) t k with UB => true | _ => false end
                | None => false end
    | None => false end) = true ->
  exists s t, life (rev (flat_map asked l)) s /\ open_txn s t /\ db_get (y_env s) t k = UB.
Proof.
  intro H. destruct (calls (start env_create) l) as [s|] eqn:C; [|discriminate]. destruct (wget (y_writers s) 0) as [t|] eqn:G; [|discriminate].
  apply andb_prop in H. destruct H as (H1 & H2). apply N.ltb_lt in H1. exists s, t. split; [|split].
  - pose proof (calls_life l [] _ _ life_new C) as X. rewrite app_nil_r in X. exact X.
  - left. exists 0. auto.
  - destruct (db_get (y_env s) t k); try discriminate. reflexivity.
Qed.
Theorem lookup_stays_inside_refuted : exists s t, life (rev (flat_map asked calls7)) s /\ open_txn s t /\ db_get (y_env s) t [50] = UB.
Proof. apply ub_case. vm_compute. reflexivity. Qed.
Print Assumptions lookup_stays_inside_refuted.
