(** Property C139: the committed state never goes back. *)
From Verif Require Import Util PageModel PageSpec PageOps TxnModel CursorModel TreeModel TxnInv PairInv DbModel SysModel DbSpec DbProofs DbCommit PropTree PropCommit PropMeta PropPair PropFileLife PropEnds.
Local Open Scope N_scope.

(** What can happen to a database file: a call, a restart, a crash in a commit (the
    cases of [life]). *)
Inductive event : sys -> sys -> Prop :=
| ev_call s a s' : in_limits s a -> step s a = Some s' -> event s s'
| ev_reopen s E : env_open (disk_of (y_env s)) = Ok E -> event s (start E)
| ev_crash s h t fr t1 n keep E : in_limits s (CommitW h None) -> wget (y_writers s) h = Some t ->
    populate_free_db page_alloc (y_env s) t = Ret fr t1 -> over_meta t1 = false ->
    env_open (crash_disk (disk_of (y_env s)) (commit_ios (y_env s) t1 fr) n keep) = Ok E -> event s (start E).
Inductive events : sys -> sys -> Prop :=
| evs_none s : events s s
| evs_more s s1 s2 : event s s1 -> events s1 s2 -> events s s2.
(** the number of the committed state *)
Definition now (s : sys) : N := m_txnid (live_meta (y_env s)).
Definition spare (s : sys) : meta := meta_at (disk_of (y_env s)) (negb (e_live1 (y_env s))).
Definition shows (t : txn) (m : meta) : Prop :=
  t_id t = m_txnid m /\ t_root t = m_root m /\ t_free_root t = m_free m /\ t_last t = m_last m /\ t_dirty t = [].

Record tinv (s : sys) : Prop := {
  ti_inv : DbProofs.inv s;
  ti_good : good_metas (disk_of (y_env s));
  ti_spare : m_txnid (spare s) < now s \/ m_txnid (spare s) = now s + 1;
  ti_read : forall h who t, In (h, who, t) (y_readers s) -> t_id t < now s \/ shows t (live_meta (y_env s));
  ti_rdonly : forall h who t, In (h, who, t) (y_readers s) -> t_rdonly t = true }.

Lemma open_facts d E : good_metas d -> env_open d = Ok E -> opened E /\ disk_of E = d /\
  (live_meta E = d_meta0 d \/ live_meta E = d_meta1 d) /\ m_txnid (d_meta0 d) <= m_txnid (live_meta E) /\ m_txnid (d_meta1 d) <= m_txnid (live_meta E).
Proof.
  intros G H. destruct (open_good d G) as (E' & H' & R). rewrite H in H'. injection H' as <-. split; [right; eauto|exact R].
Qed.
Lemma start_tinv d E b : good_metas d -> env_open d = Ok E -> m_txnid (meta_at d (negb b)) < m_txnid (meta_at d b) ->
  tinv (start E) /\ live_meta E = meta_at d b.
Proof.
  intros G H L. destruct (open_facts d E G H) as (O & D & LM & A & B).
  assert (X : e_live1 E = b /\ live_meta E = meta_at d b).
  { rewrite live_meta_at, D in LM, A, B |- *. destruct (e_live1 E), b; cbn [meta_at negb] in *; auto; exfalso; lia. }
  destruct X as (X1 & X2). split; [|exact X2]. constructor.
  - apply DbProofs.start_inv. exact O.
  - cbn [start y_env]. rewrite D. exact G.
  - left. unfold spare, now. cbn [start y_env]. rewrite X2, X1, D. exact L.
  - intros h who t [].
  - intros h who t [].
Qed.
(** what one event does *)
Definition moved (s s' : sys) : Prop := now s <= now s' <= now s + 1 /\ (now s' = now s -> live_meta (y_env s') = live_meta (y_env s)).
Lemma moved_same s s' : live_meta (y_env s') = live_meta (y_env s) -> moved s s'.
Proof. intro H. unfold moved, now. rewrite H. split; [lia|auto]. Qed.
(** opening a disk whose live meta page is that of [s] and whose other one is the old one
    or one with the next number *)
Lemma open_moved s d E : tinv s -> good_metas d -> env_open d = Ok E ->
  meta_at d (e_live1 (y_env s)) = live_meta (y_env s) ->
  meta_at d (negb (e_live1 (y_env s))) = spare s \/ m_txnid (meta_at d (negb (e_live1 (y_env s)))) = now s + 1 ->
  tinv (start E) /\ moved s (start E).
Proof.
  intros T G O M1 M2. pose proof (ti_spare _ T) as SP.
  assert (C : m_txnid (meta_at d (negb (e_live1 (y_env s)))) < now s \/ m_txnid (meta_at d (negb (e_live1 (y_env s)))) = now s + 1)
    by (destruct M2 as [->|M2]; [exact SP|auto]).
  destruct C as [C|C].
  - destruct (start_tinv d E (e_live1 (y_env s)) G O) as (T' & L); [rewrite M1; exact C|]. split; [exact T'|]. apply moved_same. cbn [start y_env]. congruence.
  - destruct (start_tinv d E (negb (e_live1 (y_env s))) G O) as (T' & L); [rewrite negb_involutive, M1, C; unfold now; lia|]. split; [exact T'|].
    unfold moved. assert (N : now (start E) = now s + 1) by (unfold now at 1; cbn [start y_env]; rewrite L; exact C). rewrite N. split; [lia|lia].
Qed.
Lemma tinv_same E E' ws ws' rs rs' : tinv (mkSys E ws rs) -> DbProofs.inv (mkSys E' ws' rs') -> disk_of E' = disk_of E -> e_live1 E' = e_live1 E ->
  (forall h who t, In (h, who, t) rs' -> In (h, who, t) rs \/ shows t (live_meta E) /\ t_rdonly t = true) ->
  tinv (mkSys E' ws' rs') /\ moved (mkSys E ws rs) (mkSys E' ws' rs').
Proof.
  intros [I G S R RO] I' D L H. assert (LM : live_meta E' = live_meta E) by (rewrite !live_meta_at, D, L; reflexivity).
  split; [|apply moved_same; exact LM]. constructor; auto; unfold spare, now in *; cbn [y_env y_readers] in *.
  - rewrite D. exact G.
  - rewrite LM, D, L. exact S.
  - intros h who t X. rewrite LM. destruct (H _ _ _ X) as [Y|(Y & _)]; [eapply R; eauto|auto].
  - intros h who t X. destruct (H _ _ _ X) as [Y|(_ & Y)]; [eapply RO; eauto|exact Y].
Qed.
Lemma commit_tinv E ws rs h t fail E' r : tinv (mkSys E ws rs) -> wget ws h = Some t -> commit_case E t E' r -> db_commit E t fail = (E', r) ->
  DbProofs.inv (mkSys E' (wdel ws h) rs) -> tinv (mkSys E' (wdel ws h) rs) /\ moved (mkSys E ws rs) (mkSys E' (wdel ws h) rs).
Proof.
  intros T W C H I'. pose proof T as [I G S R RO]. destruct (DbProofs.iv_id _ I _ _ (DbProofs.wget_in _ _ _ W)) as (Id & _). cbn [y_env] in Id.
  pose proof (commit_metas E t fail E' r G H) as G'.
  pose proof (commit_lock _ _ _ _ C) as (_ & _ & M).
  destruct C as [D|e D|n fr t1 E' D P X Y L Rd K|fr t1 E' D P X L Rd K].
  - apply (tinv_same _ _ _ _ _ _ T I'); auto.
  - apply (tinv_same _ _ _ _ _ _ T I'); auto.
  - destruct (populate_id _ _ _ _ P) as (Id1 & _).
    pose proof (ios_metas _ (new_meta t1 fr) _ (disk_of E) (Forall_firstn' _ n _ (commit_one_meta E t1 fr))) as (_ & MM). rewrite <- X in MM.
    assert (LM : live_meta E' = live_meta E) by (rewrite (live_meta_at E'), L; exact M).
    split; [|apply moved_same; exact LM]. constructor; auto; unfold spare, now in *; cbn [y_env y_readers] in *.
    + rewrite LM, L. destruct MM as [-> | ->]; [exact S|]. right. cbn [new_meta m_txnid]. lia.
    + intros h' who t' Q. rewrite LM. eapply R; eauto.
  - destruct (populate_id _ _ _ _ P) as (Id1 & _). pose proof (ios_all E t1 fr (disk_of E)) as A. cbn zeta in A. rewrite <- X in A. destruct A as (_ & A & B).
    assert (LM : live_meta E' = new_meta t1 fr) by (rewrite live_meta_at, L; exact A).
    assert (Nw : m_txnid (live_meta E') = m_txnid (live_meta E) + 1) by (rewrite LM; cbn [new_meta m_txnid]; lia).
    split.
    + constructor; auto; unfold spare, now in *; cbn [y_env y_readers] in *.
      * left. rewrite L, negb_involutive, M, Nw. lia.
      * intros h' who t' Q. left. rewrite Nw. destruct (R _ _ _ Q) as [Z|(Z & _)]; lia.
    + unfold moved, now. cbn [y_env]. rewrite Nw. split; lia.
Qed.
Lemma event_tinv s s' : event s s' -> tinv s -> tinv s' /\ moved s s'.
Proof.
  intros H T. destruct H as [s a s' L H|s E O|s h t fr t1 n keep E L W P OM O].
  - pose proof (DbProofs.step_inv _ _ _ (ti_inv _ T) H) as I'. destruct s as [E ws rs]. pose proof H as H0. unfold step in H. cbn [y_env y_writers y_readers] in H.
    destruct a as [h|h k v|h k data|h fail|h|h pid tid|h].
    + destruct (wget ws h); [discriminate|]. unfold begin_write in H. destruct (e_locked E); [discriminate|]. injection H as <-. apply (tinv_same _ _ _ _ _ _ T I'); auto.
    + destruct (wget ws h) as [t|]; [|discriminate]. destruct (db_put E t k v); try discriminate; injection H as <-; apply (tinv_same _ _ _ _ _ _ T I'); auto.
    + destruct (wget ws h) as [t|]; [|discriminate]. destruct (db_del E t k data); try discriminate; injection H as <-; apply (tinv_same _ _ _ _ _ _ T I'); auto.
    + destruct (wget ws h) as [t|] eqn:W; [|discriminate]. destruct (db_commit E t fail) as [E' r] eqn:C.
      destruct r as [x|e| |]; try discriminate; injection H as <-; (eapply commit_tinv; [exact T|exact W|eapply commit_cases; [exact C|]|exact C|exact I']); [left|right]; eauto.
    + destruct (wget ws h) as [t|]; [|discriminate]. injection H as <-. apply (tinv_same _ _ _ _ _ _ T I'); auto.
    + destruct (rget rs h); [discriminate|]. unfold begin_read in H. destruct (fill_slot _ _ _ _); [|discriminate]. injection H as <-. apply (tinv_same _ _ _ _ _ _ T I'); auto.
      intros h' who t [X|X]; [|auto]. injection X as <- <- <-. right. repeat split.
    + destruct (rget rs h) as [[[pid tid] t]|]; [|discriminate]. injection H as <-. apply (tinv_same _ _ _ _ _ _ T I'); auto.
      intros h' who t' X. left. clear -X. induction rs as [|e rs IH]; cbn [rdel] in X; [destruct X|]. destruct (fst (fst e) =? h); [right; exact X|].
      destruct X as [X|X]; [left; exact X|right; apply IH; exact X].
  - apply (open_moved s _ E T (ti_good _ T) O); [symmetry; apply live_meta_at|left; reflexivity].
  - destruct (DbProofs.iv_id _ (ti_inv _ T) _ _ (DbProofs.wget_in _ _ _ W)) as (Id & _). destruct (populate_id _ _ _ _ P) as (Id1 & _).
    pose proof (crash_metas _ _ _ (disk_of (y_env s)) n keep (commit_one_meta (y_env s) t1 fr)) as M. pose proof M as (M1 & M2). rewrite negb_involutive in M1.
    apply (open_moved s _ E T (metas_good _ _ _ _ (ti_good _ T) (new_meta_good t1 fr) M) O).
    + rewrite M1. symmetry. apply live_meta_at.
    + destruct M2 as [-> | ->]; [left; reflexivity|right]. cbn [new_meta m_txnid]. unfold now. lia.
Qed.
Lemma new_tinv : tinv (start env_create).
Proof.
  constructor.
  - apply DbProofs.start_inv. left. reflexivity.
  - intros []; split; reflexivity.
  - left. reflexivity.
  - intros h who t [].
  - intros h who t [].
Qed.
Lemma life_tinv puts s : life puts s -> tinv s.
Proof.
  intro H. induction H as [|puts s a s' H IH L S|puts s E H IH O|puts s h t fr t1 n keep E H IH L G PF OM O]; [apply new_tinv| | |]; eapply event_tinv; try exact IH.
  - econstructor; eauto.
  - apply ev_reopen. exact O.
  - eapply ev_crash; eauto.
Qed.
(** The number of the committed state never gets smaller, whatever calls, restarts and
    crashes follow; one event moves it by at most one; and as long as it is the same, so is
    the committed state.  A reader shows the committed state or an older one. *)
Theorem never_goes_back : forall puts s s', life puts s -> events s s' ->
  now s <= now s' /\ (now s' = now s -> live_meta (y_env s') = live_meta (y_env s)) /\
  (forall s2, event s s2 -> now s2 <= now s + 1) /\
  (forall h who t, rget (y_readers s) h = Some (who, t) -> t_id t < now s \/ shows t (live_meta (y_env s))).
Proof.
  intros puts s s' HL HE. pose proof (life_tinv _ _ HL) as T. clear HL.
  assert (A : now s <= now s' /\ (now s' = now s -> live_meta (y_env s') = live_meta (y_env s))).
  { revert T. induction HE as [s|s s1 s2 H HE IH]; intro T; [split; [lia|auto]|].
    destruct (event_tinv _ _ H T) as (T1 & (M1 & M2)). destruct (IH T1) as (I1 & I2). split; [lia|]. intro X.
    rewrite I2 by lia. apply M2. lia. }
  destruct A as (A & B). split; [exact A|]. split; [exact B|]. split.
  - intros s2 H. destruct (event_tinv _ _ H T) as (_ & (M & _)). lia.
  - intros h who t G. apply (ti_read _ T h who t). apply (rget_in _ _ _ _ G).
Qed.
Print Assumptions never_goes_back.

(** ** C141: a read transaction changes nothing *)
Theorem reader_writes_nothing : forall puts s h who t, life puts s -> rget (y_readers s) h = Some (who, t) ->
  forall E, (forall k v, exists e, db_put E t k v = Fail e t) /\ (forall k data, exists e, db_del E t k data = Fail e t).
Proof.
  intros puts s h who t HL G E. pose proof (ti_rdonly _ (life_tinv _ _ HL) _ _ _ (rget_in _ _ _ _ G)) as R.
  split; intros; unfold db_put, db_put_with, db_del; rewrite R; eauto.
Qed.
Print Assumptions reader_writes_nothing.

(** A case: a transaction is committed and a reader begun; then a second transaction is
    committed, after which the reader shows an older state. *)
Definition first_calls : list act := [BeginW 0; PutA 0 [1] [7]; CommitW 0 None; BeginR 1 5 6].
Definition second_calls : list act := [BeginW 0; PutA 0 [1] [8]; CommitW 0 None].
Lemma calls_events : forall l s s', calls s l = Some s' -> events s s'.
Proof.
  induction l as [|a l IH]; intros s s' H; cbn [calls] in H; [injection H as <-; constructor|].
  destruct (limitsb s a) eqn:L; [|discriminate]. destruct (step s a) as [s1|] eqn:S; [|discriminate].
  eapply evs_more; [econstructor; [apply limitsb_ok; exact L|exact S]|auto].
Qed.
Example never_goes_back_case : exists s s' who t, life (rev (flat_map asked first_calls)) s /\ events s s' /\
  now s = 2 /\ now s' = 3 /\ rget (y_readers s') 1 = Some (who, t) /\ t_id t = 2.
Proof.
  assert (H : match calls (start env_create) first_calls with
    | Some s => match calls s second_calls with
      | Some s' => (now s =? 2) && (now s' =? 3) && match rget (y_readers s') 1 with Some (_, t) => t_id t =? 2 | None => false end
      | None => false end
    | None => false end = true) by (vm_compute; reflexivity).
  destruct (calls (start env_create) first_calls) as [s|] eqn:C; [|discriminate]. destruct (calls s second_calls) as [s'|] eqn:C2; [|discriminate].
  destruct (rget (y_readers s') 1) as [[who t]|] eqn:G; [|rewrite andb_false_r in H; discriminate].
  apply andb_prop in H. destruct H as (H & H3). apply andb_prop in H. destruct H as (H1 & H2). apply N.eqb_eq in H1, H2, H3.
  exists s, s', who, t. split; [pose proof (calls_life first_calls [] _ _ life_new C) as X; rewrite app_nil_r in X; exact X|].
  split; [apply (calls_events _ _ _ C2)|]. auto.
Qed.
