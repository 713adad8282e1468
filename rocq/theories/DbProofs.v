(** Lemmas about the transaction life cycle. *)
From Verif Require Import Util PageModel TxnModel CursorModel TreeModel TxnInv DbModel SysModel DbSpec.
From Coq Require Import Permutation.
Local Open Scope N_scope.

(** ** The file operations of a commit *)
Definition touches_only (b : bool) (o : io) : Prop := match o with WMeta b' _ => b' = b | _ => True end.

Lemma ios_touch E t fr : Forall (touches_only (negb (e_live1 E))) (commit_ios E t fr).
Proof.
  unfold commit_ios. apply Forall_app. split.
  - apply Forall_forall. intros o H. apply in_map_iff in H. destruct H as (e & <- & _). exact I.
  - repeat constructor.
Qed.

Lemma io_other b o d : touches_only (negb b) o -> meta_at (io_apply d o) b = meta_at d b.
Proof. destruct o as [pg p|b' m|]; cbn; intro H; [reflexivity| |reflexivity]. subst b'. destruct b; reflexivity. Qed.

Lemma ios_other b : forall l d, Forall (touches_only (negb b)) l -> meta_at (fold_left io_apply l d) b = meta_at d b.
Proof.
  induction l as [|o l IH]; intros d H; [reflexivity|]. inversion H; subst. cbn [fold_left].
  rewrite IH by assumption. apply io_other. assumption.
Qed.

Lemma Forall_firstn' {T} (P : T -> Prop) n : forall l, Forall P l -> Forall P (firstn n l).
Proof. induction n as [|n IH]; intros [|x l] H; cbn [firstn]; auto. inversion H; subst. constructor; auto. Qed.

Definition no_meta (o : io) : Prop := match o with WMeta _ _ => False | _ => True end.
Lemma pages_meta b : forall l d, Forall no_meta l -> meta_at (fold_left io_apply l d) b = meta_at d b.
Proof.
  intros l d H. apply ios_other. revert H. apply Forall_impl. intros [pg p|x m|]; cbn; tauto.
Qed.

Definition page_ios (t : txn) : list io :=
  map (fun e => WPage (pg_pgno (snd e)) (fix_page (pgno_map (t_dirty t)) (snd e))) (t_dirty t).
Definition new_meta (t : txn) (fr : N) : meta :=
  mkMeta DB_MAGIC DB_VERSION (t_id t) (mapped (pgno_map (t_dirty t)) (t_root t)) (t_last t) fr.
Lemma ios_eq E t fr : commit_ios E t fr = page_ios t ++ [Sync; WMeta (negb (e_live1 E)) (new_meta t fr); Sync].
Proof. reflexivity. Qed.
Lemma page_ios_no_meta t : Forall no_meta (page_ios t).
Proof. apply Forall_forall. intros o H. apply in_map_iff in H. destruct H as (e & <- & _). exact I. Qed.

Definition files (d : disk) (t : txn) : N -> page := d_file (fold_left io_apply (page_ios t) d).

Lemma ios_all E t fr d : let d' := fold_left io_apply (commit_ios E t fr) d in
  d_file d' = files d t /\ meta_at d' (negb (e_live1 E)) = new_meta t fr /\ meta_at d' (e_live1 E) = meta_at d (e_live1 E).
Proof.
  cbn zeta. split; [|split].
  - rewrite ios_eq, fold_left_app. cbn [fold_left io_apply]. destruct (negb _); reflexivity.
  - rewrite ios_eq, fold_left_app. cbn [fold_left io_apply]. destruct (negb _); reflexivity.
  - apply ios_other. apply ios_touch.
Qed.

Lemma live_meta_at E : live_meta E = meta_at (disk_of E) (e_live1 E).
Proof. unfold live_meta, meta_at. destruct (e_live1 E); reflexivity. Qed.

(** ** Commit *)
Inductive commit_case (E : env) (t : txn) : env -> res unit -> Prop :=
| cc_nothing : t_dirty t = [] -> commit_case E t (set_locked E false) (Ok tt)
| cc_free e : t_dirty t <> [] -> commit_case E t (set_locked E false) (Err e)
| cc_io n fr t1 E' : t_dirty t <> [] -> populate_free_db page_alloc E t = Ret fr t1 ->
    disk_of E' = fold_left io_apply (firstn n (commit_ios E t1 fr)) (disk_of E) ->
    (n < length (commit_ios E t1 fr))%nat ->
    e_live1 E' = e_live1 E -> e_readers E' = e_readers E -> e_locked E' = false ->
    commit_case E t E' (Err EGENERAL)
| cc_ok fr t1 E' : t_dirty t <> [] -> populate_free_db page_alloc E t = Ret fr t1 ->
    disk_of E' = fold_left io_apply (commit_ios E t1 fr) (disk_of E) ->
    e_live1 E' = negb (e_live1 E) -> e_readers E' = e_readers E -> e_locked E' = false ->
    commit_case E t E' (Ok tt).

Lemma disk_eta d : mkDisk (d_file d) (d_meta0 d) (d_meta1 d) = d. Proof. destruct d; reflexivity. Qed.

Lemma commit_cases E t f E' r : db_commit E t f = (E', r) -> (exists x, r = Ok x) \/ (exists e, r = Err e) -> commit_case E t E' r.
Proof.
  intros H Hr. unfold db_commit in H. destruct (t_dirty t) as [|e0 l0] eqn:D.
  { injection H as <- <-. constructor. exact D. }
  assert (D' : t_dirty t <> []) by (rewrite D; discriminate).
  destruct (populate_free_db page_alloc E t) as [fr t1|e t1| |] eqn:P.
  - destruct (over_meta t1). { injection H as <- <-. destruct Hr as [(x & Hr)|(e & Hr)]; discriminate. }
    assert (OK : forall E' r', (let d := fold_left io_apply (commit_ios E t1 fr) (disk_of E) in
      (mkEnv (d_file d) (d_meta0 d) (d_meta1 d) (negb (e_live1 E)) (e_readers E) false, Ok tt)) = (E', r') -> commit_case E t E' r').
    { cbn zeta. intros E2 r2 X. injection X as <- <-. eapply cc_ok; eauto. unfold disk_of at 1. cbn [e_file e_meta0 e_meta1]. apply disk_eta. }
    destruct f as [i|]; [|apply OK; exact H].
    destruct (Nat.ltb i (length (commit_ios E t1 fr))) eqn:L; [|apply OK; exact H].
    apply Nat.ltb_lt in L. injection H as <- <-. eapply cc_io with (n := i); eauto. unfold disk_of at 1. cbn [e_file e_meta0 e_meta1]. apply disk_eta.
  - injection H as <- <-. constructor. exact D'.
  - injection H as <- <-. destruct Hr as [(x & Hr)|(e & Hr)]; discriminate.
  - injection H as <- <-. destruct Hr as [(x & Hr)|(e & Hr)]; discriminate.
Qed.

Lemma commit_lock E t E' r : commit_case E t E' r -> e_locked E' = false /\ e_readers E' = e_readers E /\ meta_at (disk_of E') (e_live1 E) = live_meta E.
Proof.
  intro H. rewrite live_meta_at. destruct H as [D|e D|n fr t1 E' D P X Y L R K|fr t1 E' D P X L R K].
  - auto. - auto.
  - split; [|split]; auto. rewrite X. apply ios_other. apply Forall_firstn'. apply ios_touch.
  - split; [|split]; auto. rewrite X. apply ios_other. apply ios_touch.
Qed.

Lemma commit_live E t E' r : commit_case E t E' r -> live_meta E' = live_meta E \/
  exists fr t1, r = Ok tt /\ t_dirty t <> [] /\ populate_free_db page_alloc E t = Ret fr t1 /\ live_meta E' = new_meta t1 fr /\ e_live1 E' = negb (e_live1 E) /\
    e_file E' = files (disk_of E) t1.
Proof.
  intro H. pose proof (commit_lock _ _ _ _ H) as (_ & _ & M). destruct H as [D|e D|n fr t1 E' D P X Y L R K|fr t1 E' D P X L R K].
  - left. reflexivity. - left. reflexivity.
  - left. rewrite (live_meta_at E'), L. exact M.
  - right. exists fr, t1. pose proof (ios_all E t1 fr (disk_of E)) as I0. cbn zeta in I0. rewrite <- X in I0. destruct I0 as (A & B & _).
    repeat (split; [assumption || reflexivity|]). split; [|split; [exact L|exact A]]. rewrite live_meta_at, L. exact B.
Qed.

Lemma populate_id E t fr t1 : populate_free_db page_alloc E t = Ret fr t1 -> t_id t1 = t_id t /\ later t t1.
Proof. intro P. pose proof (populate_lout E t) as L. rewrite P in L. cbn in L. split; [apply la_id; exact L|exact L]. Qed.

(** ** The reader table *)
Definition used (rs : list rslot) : list rslot := filter (fun s => negb (s_txnid s =? 0)) rs.

Lemma fill_slot_some : forall rs pid tid x rs', x <> 0 -> fill_slot rs pid tid x = Some rs' ->
  Permutation (used rs') (mkSlot pid tid x :: used rs) /\ length rs' = length rs.
Proof.
  induction rs as [|s rs IH]; intros pid tid x rs' Hx H; cbn [fill_slot] in H; [discriminate|].
  destruct (s_txnid s =? 0) eqn:S0.
  - injection H as <-. unfold used. cbn [filter s_txnid length]. rewrite S0. destruct (x =? 0) eqn:X0; [apply N.eqb_eq in X0; lia|]. cbn [negb]. auto.
  - destruct (fill_slot rs pid tid x) as [r'|] eqn:F; [|discriminate]. injection H as <-.
    destruct (IH _ _ _ _ Hx F) as (P & L). unfold used in *. cbn [filter length]. rewrite S0. cbn [negb]. split; [|congruence].
    rewrite P. apply perm_swap.
Qed.

Lemma fill_slot_none : forall rs pid tid x, fill_slot rs pid tid x = None <-> used rs = rs.
Proof.
  induction rs as [|s rs IH]; intros pid tid x; cbn [fill_slot]; [split; auto|]. unfold used. cbn [filter].
  destruct (s_txnid s =? 0) eqn:S0; cbn [negb].
  - split; [discriminate|]. intro H. exfalso. assert (L : (length (filter (fun s => negb (s_txnid s =? 0)%N) rs) <= length rs)%nat).
    { clear. induction rs as [|a rs IH]; cbn [filter]; [lia|]. destruct (negb _); cbn [length]; lia. }
    rewrite H in L. cbn [length] in L. lia.
  - destruct (fill_slot rs pid tid x) as [r'|] eqn:F.
    + split; [discriminate|]. intro H. exfalso. injection H as H. apply (proj2 (IH pid tid x)) in H. congruence.
    + split; [|reflexivity]. intros _. f_equal. apply (proj1 (IH pid tid x)). exact F.
Qed.

Lemma clear_slot_perm : forall rs pid tid x, x <> 0 -> In (mkSlot pid tid x) rs ->
  Permutation (used rs) (mkSlot pid tid x :: used (clear_slot rs pid tid x)) /\ length (clear_slot rs pid tid x) = length rs.
Proof.
  induction rs as [|s rs IH]; intros pid tid x Hx H; [destruct H|]. cbn [clear_slot].
  destruct ((s_txnid s =? x) && (s_pid s =? pid) && (s_tid s =? tid)) eqn:C.
  - apply andb_true_iff in C. destruct C as (C & C3). apply andb_true_iff in C. destruct C as (C1 & C2).
    apply N.eqb_eq in C1, C2, C3. destruct s as [a b c]. cbn [s_txnid s_pid s_tid] in *. subst a b c. unfold used. cbn [filter s_txnid N.eqb negb length].
    destruct (x =? 0) eqn:X0; [apply N.eqb_eq in X0; lia|]. cbn [negb]. auto.
  - destruct H as [->|H]; [cbn [s_txnid s_pid s_tid] in C; rewrite !N.eqb_refl in C; discriminate|].
    destruct (IH pid tid x Hx H) as (P & L). unfold used in *. cbn [filter length]. split; [|congruence].
    destruct (negb (s_txnid s =? 0)); [|exact P]. rewrite P. apply perm_swap.
Qed.

Lemma oldest_fold : forall rs acc, 
  let r := fold_left (fun acc s => if (0 <? s_txnid s) && ((acc =? 0) || (s_txnid s <? acc)) then s_txnid s else acc) rs acc in
  (r = 0 -> acc = 0 /\ used rs = []) /\
  (r <> 0 -> (r = acc \/ In r (map s_txnid (used rs))) /\ (acc <> 0 -> r <= acc) /\ forall s, In s (used rs) -> r <= s_txnid s).
Proof.
  induction rs as [|s rs IH]; intros acc; cbn [fold_left]; cbn zeta.
  { split; intro H; [auto|]. split; [auto|]. split; [lia|]. intros s []. }
  specialize (IH (if (0 <? s_txnid s) && ((acc =? 0) || (s_txnid s <? acc)) then s_txnid s else acc)). cbn zeta in IH.
  set (r := fold_left _ rs _) in *. destruct IH as (A & B). unfold used in *. cbn [filter].
  destruct (N.ltb_spec 0 (s_txnid s)) as [P|P]; cbn [andb] in *.
  - replace (s_txnid s =? 0) with false in * by (symmetry; apply N.eqb_neq; lia). cbn [negb map In].
    destruct (N.eqb_spec acc 0) as [Z|Z]; cbn [orb] in *.
    + split; intro H; [destruct (A H); lia|]. destruct (B H) as (B1 & B2 & B3). split; [destruct B1; auto|]. split; [lia|].
      intros s' [<-|Hs]; [apply B2; lia|auto].
    + destruct (N.ltb_spec (s_txnid s) acc) as [Q|Q].
      * split; intro H; [destruct (A H); lia|]. destruct (B H) as (B1 & B2 & B3). split; [destruct B1; auto|]. split; [specialize (B2 ltac:(lia)); lia|].
        intros s' [<-|Hs]; [apply B2; lia|auto].
      * split; intro H; [destruct (A H); lia|]. destruct (B H) as (B1 & B2 & B3). split; [destruct B1; auto|]. split; [specialize (B2 ltac:(lia)); lia|].
        intros s' [<-|Hs]; [specialize (B2 ltac:(lia)); lia|auto].
  - replace (s_txnid s =? 0) with true in * by (symmetry; apply N.eqb_eq; lia). cbn [negb]. split; auto.
Qed.

(** ** The system invariant *)
Record inv (s : sys) : Prop := {
  iv_lock : e_locked (y_env s) = match y_writers s with [] => false | _ => true end;
  iv_one : (length (y_writers s) <= 1)%nat;
  iv_id : forall h t, In (h, t) (y_writers s) -> t_id t = m_txnid (live_meta (y_env s)) + 1 /\ t_rdonly t = false;
  iv_len : length (e_readers (y_env s)) = MAX_READERS;
  iv_good : good_meta (live_meta (y_env s)) }.

Definition rinv (s : sys) : Prop :=
  0 < m_txnid (live_meta (y_env s)) /\
  (forall r, In r (open_readers s) -> s_txnid r <> 0) /\
  Permutation (registered (y_env s)) (open_readers s).

Lemma wget_in : forall l h t, wget l h = Some t -> In (h, t) l.
Proof.
  induction l as [|[h' t'] l IH]; intros h t H; cbn [wget] in H; [discriminate|].
  destruct (N.eqb_spec h' h); [injection H as <-; subst; left; reflexivity|right; auto].
Qed.
Lemma wset_in l h t h' t' : In (h', t') (wset l h t) -> (h' = h /\ t' = t) \/ In (h', t') l.
Proof.
  unfold wset. intro H. apply in_map_iff in H. destruct H as ((a, b) & E & I). cbn [fst] in E.
  destruct (a =? h); injection E as <- <-; auto.
Qed.
Lemma wset_len l h t : length (wset l h t) = length l. Proof. apply map_length. Qed.
Lemma wset_nil l h t : wset l h t = [] <-> l = [].
Proof. destruct l; cbn; split; intro; try discriminate; reflexivity. Qed.
Lemma wdel_one l h t : wget l h = Some t -> (length l <= 1)%nat -> wdel l h = [].
Proof.
  destruct l as [|[h' t'] [|e l]]; cbn; intros H L; [discriminate| |lia]. destruct (h' =? h); [reflexivity|discriminate].
Qed.

Lemma rget_split : forall l h pid tid t, rget l h = Some (pid, tid, t) ->
  exists a b, l = a ++ (h, (pid, tid), t) :: b /\ rdel l h = a ++ b.
Proof.
  induction l as [|[[h' who] t'] l IH]; intros h pid tid t H; cbn [rget] in H; [discriminate|]. cbn [rdel fst].
  destruct (N.eqb_spec h' h) as [->|Hn].
  - injection H as -> <-. exists [], l. auto.
  - destruct (IH _ _ _ _ H) as (a & b & -> & E). exists ((h', who, t') :: a), b. rewrite E. auto.
Qed.

Definition keeps {T} (t : txn) (o : out T) : Prop :=
  match o with Ret _ t' | Fail _ t' => t_id t' = t_id t /\ t_rdonly t' = t_rdonly t | _ => True end.
Lemma lout_keeps {T} t (o : out T) : lout t o -> keeps t o.
Proof. destruct o; cbn; auto; intros []; auto. Qed.

Lemma inv_wset E ws rs h t t' : inv (mkSys E ws rs) -> wget ws h = Some t -> t_id t' = t_id t -> t_rdonly t' = t_rdonly t -> inv (mkSys E (wset ws h t') rs).
Proof.
  intros [A B C D F] W I R. constructor; cbn [y_env y_writers y_readers] in *; auto.
  - rewrite A. destruct ws; reflexivity.
  - rewrite wset_len. exact B.
  - intros h' t'' H. apply wset_in in H. destruct H as [(-> & ->)|H]; [|apply (C _ _ H)]. rewrite I, R. apply (C h t). apply wget_in. exact W.
Qed.

Lemma step_inv s a s' : inv s -> step s a = Some s' -> inv s'.
Proof.
  intros I H. pose proof I as [A B C D F]. destruct s as [E ws rs]. cbn [y_env y_writers y_readers] in *.
  destruct a as [h|h k v|h k data|h fail|h|h pid tid|h]; cbn [step y_env y_writers y_readers] in H.
  - destruct (wget ws h); [discriminate|]. unfold begin_write in H. destruct (e_locked E) eqn:L; [discriminate|].
    injection H as <-. destruct ws as [|w ws]; [|discriminate]. constructor; cbn; auto.
    intros h' t' [X|[]]. injection X as <- <-. auto.
  - destruct (wget ws h) as [t|] eqn:W; [|discriminate]. pose proof (lout_keeps _ _ (put_later E t k v)) as K.
    destruct (db_put E t k v) as [x t'|e t'| |]; try discriminate; injection H as <-; destruct K; eapply inv_wset; eauto.
  - destruct (wget ws h) as [t|] eqn:W; [|discriminate]. pose proof (lout_keeps _ _ (db_del_lout E t k data)) as K.
    destruct (db_del E t k data) as [x t'|e t'| |]; try discriminate; injection H as <-; destruct K; eapply inv_wset; eauto.
  - destruct (wget ws h) as [t|] eqn:W; [|discriminate].
    assert (G : forall E' r, db_commit E t fail = (E', r) -> (exists x, r = Ok x) \/ (exists e, r = Err e) -> inv (mkSys E' (wdel ws h) rs)).
    { intros E' r X Y. assert (Q : commit_case E t E' r). { eapply commit_cases; [exact X|exact Y]. }
      pose proof (commit_lock _ _ _ _ Q) as (LK & RD & _). rewrite (wdel_one _ _ _ W B). constructor; cbn [y_env y_writers y_readers length]; auto.
      - intros h' t' [].
      - rewrite RD. exact D.
      - destruct (commit_live _ _ _ _ Q) as [->|(fr & t1 & _ & _ & _ & -> & _)]; [exact F|]. split; reflexivity. }
    destruct (db_commit E t fail) as [E' [x|e| |]] eqn:Q; try discriminate; injection H as <-; eapply G; eauto.
  - destruct (wget ws h) as [t|] eqn:W; [|discriminate]. injection H as <-. rewrite (wdel_one _ _ _ W B).
    constructor; cbn; auto. intros h' t' [].
  - destruct (rget rs h); [discriminate|]. unfold begin_read in H.
    destruct (fill_slot (e_readers E) pid tid (m_txnid (live_meta E))) as [rs'|] eqn:FS; [|discriminate]. injection H as <-.
    constructor; cbn; auto. rewrite <- D. clear -FS. revert rs' FS. induction (e_readers E) as [|s l IH]; intros rs' FS; cbn [fill_slot] in FS; [discriminate|].
    destruct (s_txnid s =? 0); [injection FS as <-; reflexivity|]. destruct (fill_slot l _ _ _); [|discriminate]. injection FS as <-. cbn [length]. rewrite (IH _ eq_refl). reflexivity.
  - destruct (rget rs h) as [((pid, tid), t)|]; [|discriminate]. injection H as <-. constructor; cbn; auto. rewrite <- D. clear.
    induction (e_readers E) as [|s l IH]; cbn [clear_slot]; [reflexivity|]. destruct ((s_txnid s =? _) && _ && _); cbn [length]; auto.
Qed.

Lemma live_of_step s a s' : step s a = Some s' -> uncommitted a ->
  disk_of (y_env s') = disk_of (y_env s) /\ e_live1 (y_env s') = e_live1 (y_env s).
Proof.
  intros H U. destruct a as [h|h k v|h k data|h fail|h|h pid tid|h]; cbn [step] in H; try destruct U.
  - destruct (wget _ h); [discriminate|]. unfold begin_write in H. destruct (e_locked _); [discriminate|]. injection H as <-. auto.
  - destruct (wget _ h) as [t|]; [|discriminate]. destruct (db_put _ t k v); try discriminate; injection H as <-; auto.
  - destruct (wget _ h) as [t|]; [|discriminate]. destruct (db_del _ t k data); try discriminate; injection H as <-; auto.
  - destruct (wget _ h) as [t|]; [|discriminate]. injection H as <-. auto.
  - destruct (rget _ h); [discriminate|]. unfold begin_read in H. destruct (fill_slot _ _ _ _); [|discriminate]. injection H as <-. auto.
  - destruct (rget _ h) as [((pid, tid), t)|]; [|discriminate]. injection H as <-. auto.
Qed.

Lemma live_meta_same E E' : disk_of E' = disk_of E -> e_live1 E' = e_live1 E -> live_meta E' = live_meta E.
Proof. intros D L. rewrite !live_meta_at, D, L. reflexivity. Qed.

Lemma live_grows s a s' : inv s -> step s a = Some s' -> m_txnid (live_meta (y_env s)) <= m_txnid (live_meta (y_env s')).
Proof.
  intros I H. destruct a as [h|h k v|h k data|h fail|h|h pid tid|h];
    try (destruct (live_of_step _ _ _ H Logic.I) as (D & L); rewrite (live_meta_same _ _ D L); lia).
  cbn [step] in H. destruct (wget (y_writers s) h) as [t|] eqn:W; [|discriminate]. destruct (iv_id _ I _ _ (wget_in _ _ _ W)) as (Id & _).
  assert (G : forall E' r, db_commit (y_env s) t fail = (E', r) -> (exists x, r = Ok x) \/ (exists e, r = Err e) -> m_txnid (live_meta (y_env s)) <= m_txnid (live_meta E')).
  { intros E' r X Y. assert (Q : commit_case (y_env s) t E' r). { eapply commit_cases; [exact X|exact Y]. }
    destruct (commit_live _ _ _ _ Q) as [->|(fr & t1 & _ & _ & P & -> & _)]; [lia|]. cbn [new_meta m_txnid]. destruct (populate_id _ _ _ _ P) as (X1 & _). lia. }
  destruct (db_commit (y_env s) t fail) as [E' [x|e| |]] eqn:Q; try discriminate; injection H as <-; cbn [y_env]; eapply G; eauto.
Qed.

Lemma readers_of_commit s h f s' : step s (CommitW h f) = Some s' -> e_readers (y_env s') = e_readers (y_env s) /\ y_readers s' = y_readers s.
Proof.
  intro H. cbn [step] in H. destruct (wget (y_writers s) h) as [t|] eqn:W; [|discriminate].
  assert (G : forall E' r, db_commit (y_env s) t f = (E', r) -> (exists x, r = Ok x) \/ (exists e, r = Err e) -> e_readers E' = e_readers (y_env s)).
  { intros E' r X Y. assert (Q : commit_case (y_env s) t E' r). { eapply commit_cases; [exact X|exact Y]. }
    apply (commit_lock _ _ _ _ Q). }
  destruct (db_commit (y_env s) t f) as [E' [x|e| |]] eqn:Q; try discriminate; injection H as <-; cbn [y_env y_readers]; split; auto; eapply G; eauto.
Qed.

Lemma step_rinv s a s' : inv s -> rinv s -> step s a = Some s' -> rinv s'.
Proof.
  intros I (R1 & R2 & R3) H. pose proof (live_grows _ _ _ I H) as LG. unfold rinv. split; [lia|].
  assert (Same : e_readers (y_env s') = e_readers (y_env s) -> y_readers s' = y_readers s ->
     (forall r, In r (open_readers s') -> s_txnid r <> 0) /\ Permutation (registered (y_env s')) (open_readers s')).
  { intros A B. unfold open_readers, registered in *. rewrite A, B. auto. }
  destruct a as [h|h k v|h k data|h fail|h|h pid tid|h].
  - cbn [step] in H. destruct (wget _ h); [discriminate|]. unfold begin_write in H. destruct (e_locked _); [discriminate|]. injection H as <-. apply Same; reflexivity.
  - cbn [step] in H. destruct (wget _ h) as [t|]; [|discriminate]. destruct (db_put _ t k v); try discriminate; injection H as <-; apply Same; reflexivity.
  - cbn [step] in H. destruct (wget _ h) as [t|]; [|discriminate]. destruct (db_del _ t k data); try discriminate; injection H as <-; apply Same; reflexivity.
  - apply Same; apply (readers_of_commit _ _ _ _ H).
  - cbn [step] in H. destruct (wget _ h) as [t|]; [|discriminate]. injection H as <-. apply Same; reflexivity.
  - cbn [step] in H. destruct (rget _ h); [discriminate|]. unfold begin_read in H.
    destruct (fill_slot (e_readers (y_env s)) pid tid (m_txnid (live_meta (y_env s)))) as [rs'|] eqn:FS; [|discriminate]. injection H as <-.
    apply fill_slot_some in FS; [|lia]. destruct FS as (P & _). unfold open_readers, registered in *. cbn [y_env y_readers set_readers e_readers map fst snd t_id].
    split.
    + intros r [<-|Hr]; [cbn; lia|apply R2; exact Hr].
    + unfold used in P. rewrite P. apply perm_skip. exact R3.
  - cbn [step] in H. destruct (rget (y_readers s) h) as [((pid, tid), t)|] eqn:RG; [|discriminate]. injection H as <-.
    destruct (rget_split _ _ _ _ _ RG) as (a & b & Ea & Eb). unfold open_readers, registered in *. cbn [y_env y_readers end_read set_readers e_readers].
    rewrite Eb. rewrite Ea in R2, R3. rewrite map_app in R2, R3. cbn [map fst snd] in R2, R3. rewrite map_app.
    assert (In0 : In (mkSlot pid tid (t_id t)) (filter (fun s => negb (s_txnid s =? 0)) (e_readers (y_env s)))).
    { eapply Permutation_in; [apply Permutation_sym; exact R3|]. apply in_or_app. right. left. reflexivity. }
    assert (Nz : t_id t <> 0). { apply (R2 (mkSlot pid tid (t_id t))). apply in_or_app. right. left. reflexivity. }
    apply filter_In in In0. destruct In0 as (In0 & _). destruct (clear_slot_perm _ _ _ _ Nz In0) as (P & _). split.
    + intros r Hr. apply R2. apply in_app_or in Hr. apply in_or_app. destruct Hr; [left|right; right]; assumption.
    + unfold used in P. apply (Permutation_cons_inv (a := mkSlot pid tid (t_id t))). rewrite <- P. rewrite R3. symmetry. apply Permutation_middle.
Qed.

Lemma select_good m0 m1 b : select_live m0 m1 = Ok b -> good_meta (if b then m1 else m0).
Proof.
  assert (V : forall m, meta_valid m = true -> good_meta m).
  { intros m V. unfold meta_valid in V. apply andb_true_iff in V. destruct V as (A & B). apply N.eqb_eq in A, B. split; assumption. }
  unfold select_live. destruct (meta_valid m0) eqn:V0, (meta_valid m1) eqn:V1; intro H; try discriminate; injection H as <-; auto.
  destruct (negb _); auto.
Qed.

Lemma opened_good E : opened E -> good_meta (live_meta E) /\ length (e_readers E) = MAX_READERS /\ registered E = [] /\ e_locked E = false.
Proof.
  assert (R : length (repeat (mkSlot 0 0 0) MAX_READERS) = MAX_READERS) by (apply repeat_length).
  intros [->|(d & H)].
  - split; [split; reflexivity|]. split; [exact R|]. split; reflexivity.
  - unfold env_open in H. destruct (select_live (d_meta0 d) (d_meta1 d)) as [b|e| |] eqn:S0; try discriminate. cbn [bindr] in H. injection H as <-.
    split; [apply (select_good _ _ _ S0)|]. split; [exact R|]. split; reflexivity.
Qed.
Lemma start_inv E : opened E -> inv (start E).
Proof.
  intro O. destruct (opened_good E O) as (A & B & C & D). constructor; cbn [start y_env y_writers y_readers length]; auto. intros h t [].
Qed.
Lemma start_rinv E : opened E -> 0 < m_txnid (live_meta E) -> rinv (start E).
Proof.
  intros O P. destruct (opened_good E O) as (A & B & C & D). split; [exact P|]. split; [intros r []|]. unfold open_readers. cbn. rewrite C. constructor.
Qed.
Lemma reaches_inv s l s' : reaches s l s' -> inv s -> inv s'.
Proof. induction 1; intro I; [exact I|]. apply IHreaches. eapply step_inv; eauto. Qed.
Lemma reaches_rinv s l s' : reaches s l s' -> inv s -> rinv s -> rinv s'.
Proof. induction 1; intros I R; [exact R|]. apply IHreaches; [eapply step_inv|eapply step_rinv]; eauto. Qed.
Lemma reaches_quiet s l s' : reaches s l s' -> Forall uncommitted l ->
  disk_of (y_env s') = disk_of (y_env s) /\ e_live1 (y_env s') = e_live1 (y_env s).
Proof.
  induction 1 as [|s a s1 l s2 H R IH]; intro F; [auto|]. inversion F; subst. destruct (live_of_step _ _ _ H) as (A & B); [assumption|].
  destruct IH as (C & D); [assumption|]. split; congruence.
Qed.

(** reading depends only on the file, the root and the snapshot *)
Lemma find_leaf_same E E' t : forall f pg k, (forall q, get_page E t q = get_page E' t q) -> find_leaf f E t pg k = find_leaf f E' t pg k.
Proof.
  induction f as [|f IH]; intros pg k H; [reflexivity|]. cbn [find_leaf]. rewrite H. destruct (is_leaf _); [reflexivity|]. destruct (negb _); [reflexivity|].
  destruct (child_of _ k); cbn [bindr]; auto.
Qed.
Lemma read_now_same E E' k : disk_of E' = disk_of E -> e_live1 E' = e_live1 E -> read_now E' k = read_now E k.
Proof.
  intros D L. unfold read_now, reader. rewrite (live_meta_same _ _ D L). unfold db_get. cbn [t_root].
  destruct (m_root _ =? 0); [reflexivity|]. rewrite (find_leaf_same E E'); [reflexivity|].
  intro q. unfold get_page. cbn [t_rdonly]. injection D as D1 _ _. rewrite D1. reflexivity.
Qed.

(** ** Crashes *)
Lemma after_sync_app ops : after_sync (ops ++ [Sync]) = (ops ++ [Sync], []).
Proof.
  induction ops as [|o ops IH]; [reflexivity|]. cbn [app after_sync]. rewrite IH.
  destruct (ops ++ [Sync]) eqn:E; [destruct ops; discriminate|]. reflexivity.
Qed.
Lemma crash_all E t fr d n keep : (length (commit_ios E t fr) <= n)%nat ->
  crash_disk d (commit_ios E t fr) n keep = fold_left io_apply (commit_ios E t fr) d.
Proof.
  intro L. unfold crash_disk. rewrite firstn_all2 by exact L. rewrite ios_eq.
  replace (page_ios t ++ [Sync; WMeta (negb (e_live1 E)) (new_meta t fr); Sync]) with
     ((page_ios t ++ [Sync; WMeta (negb (e_live1 E)) (new_meta t fr)]) ++ [Sync]) by (rewrite <- app_assoc; reflexivity).
  rewrite after_sync_app. reflexivity.
Qed.

Lemma valid_good m : good_meta m -> meta_valid m = true.
Proof. intros (A & B). unfold meta_valid. rewrite A, B. reflexivity. Qed.

Lemma reopen_newest E : good_meta (live_meta E) -> m_txnid (meta_at (disk_of E) (negb (e_live1 E))) < m_txnid (live_meta E) ->
  exists E', env_open (disk_of E) = Ok E' /\ disk_of E' = disk_of E /\ e_live1 E' = e_live1 E.
Proof.
  intros G L. apply valid_good in G. rewrite live_meta_at in *. unfold env_open, select_live. cbn [disk_of d_file d_meta0 d_meta1].
  unfold meta_at in *. destruct (e_live1 E) eqn:X; cbn [negb disk_of d_meta0 d_meta1] in *; rewrite G.
  - destruct (meta_valid (e_meta0 E)); cbn [bindr].
    + replace (m_txnid (e_meta1 E) <? m_txnid (e_meta0 E)) with false by (symmetry; apply N.ltb_ge; lia). cbn [negb]. eexists. split; [reflexivity|]. auto.
    + eexists. split; [reflexivity|]. auto.
  - destruct (meta_valid (e_meta1 E)); cbn [bindr].
    + replace (m_txnid (e_meta1 E) <? m_txnid (e_meta0 E)) with true by (symmetry; apply N.ltb_lt; lia). cbn [negb]. eexists. split; [reflexivity|]. auto.
    + eexists. split; [reflexivity|]. auto.
Qed.
