(** Property C167: the first filling of a cache is all or nothing, and the next process finds it. *)
From Verif Require Import Util PageModel PageSpec PageProofs PageOps TxnModel CursorModel TreeModel TreeSpec PropPage TreeProofs TreeOps TreeSplit TreePut TreeShape TreeOrder TxnInv DbModel SysModel DbSpec DbProofs DbCommit PropCommit TreeTotal PropOrder PropTotal PropLoad CacheModel PropCache PropMany PropSweep PropRefresh PropFirst.
From Coq Require Import Sorting.Sorted.
Local Open Scope N_scope.

(** ** Specification *)
(** what a reader of the cache is answered: the entries [es] and no others *)
Definition entry_at (p : bytes) (es : list (bytes * entry)) : option entry :=
  match find (fun pe => if key_dec p (fst pe) then true else false) es with Some pe => Some (snd pe) | None => None end.
Definition holds (c : cache) (es : list (bytes * entry)) : Prop :=
  forall pid tid c1 p, blen p < 65536 -> cache_begin_read c pid tid = Ok c1 ->
    cache_lookup c1 p = match entry_at p es with Some e => Ok e | None => Err NOTFOUND end.
(** entries in path order; the lengths of the paths are from [a] to [b], close enough for pages
    to be split evenly (C114) *)
Definition fillable (a b : N) (es : list (bytes * entry)) : Prop :=
  N.of_nat (length es) < 2 ^ 32 /\ StronglySorted klt (map fst es) /\ Forall (fun pe => entry_ok (snd pe)) es /\
  balanced (46 + a) (46 + b) /\ balanced (12 + a) (12 + b) /\ b <= 1007 /\ Forall (fun pe => a <= blen (fst pe) <= b) es.
(** a handle of a process that has just opened the file *)
Definition opens (d : disk) (c : cache) : Prop := exists E, env_open d = Ok E /\ c = mkCache E None [].
(** [d] is what a crash at any moment of the filling of [c] can leave: before the commit the
    file is as it was, in the commit its writes are cut off *)
Definition cut_fill (c : cache) (es : list (bytes * entry)) (d : disk) : Prop :=
  d = disk_of (c_env c) \/
  exists c1 c2 t fr t1 n keep, cache_begin_write c = Some c1 /\ upserts c1 es = (c2, true) /\ c_active c2 = Some t /\ t_dirty t <> [] /\
    populate_free_db page_alloc (c_env c2) t = Ret fr t1 /\ d = crash_disk (disk_of (c_env c2)) (commit_ios (c_env c2) t1 fr) n keep.
(** processes that try to fill a new cache as long as it does not hold the entries, and crash *)
Inductive tries (es : list (bytes * entry)) : cache -> Prop :=
| tr_new : tries es (mkCache env_create None [])
| tr_next c d c' : tries es c -> ~ holds c es -> cut_fill c es d -> opens d c' -> tries es c'.

(** ** Proof *)
Lemma upserts_failed : forall es c, snd (fold_left (fun s pe => let (c', r) := cache_upsert (fst s) (fst pe) (snd pe) in (c', snd s && match r with Ok _ => true | _ => false end)) es (c, false)) = false.
Proof.
  induction es as [|pe es IH]; intro c; cbn [fold_left fst snd]; [reflexivity|]. destruct (cache_upsert c (fst pe) (snd pe)) as [c' r]. cbn [andb]. apply IH.
Qed.
Lemma upserts_inv : forall es E t vis c2, upserts (mkCache E (Some t) vis) es = (c2, true) ->
  exists t', do_ops E t (puts (stored es)) = Ret tt t' /\ c2 = mkCache E (Some t') vis.
Proof.
  unfold upserts. induction es as [|(p, e) es IH]; intros E t vis c2 H; cbn [stored puts map do_ops do_op fold_left fst snd] in *; [injection H as <-; eauto|].
  unfold cache_upsert in H at 2. cbn [c_active c_env] in H.
  destruct (db_put E t p (entry_bytes e)) as [[] t1|x t1| |]; cbn [bindo set_active c_env c_visited fst snd andb] in *.
  - apply IH. exact H.
  - apply (f_equal snd) in H. rewrite upserts_failed in H. discriminate.
  - apply (f_equal snd) in H. rewrite upserts_failed in H. discriminate.
  - apply (f_equal snd) in H. rewrite upserts_failed in H. discriminate.
Qed.
Lemma cut_crash_in c es d : cut_fill c es d -> d = disk_of (c_env c) \/ crash_in (c_env c) (puts (stored es)) d.
Proof.
  intros [->|(c1 & c2 & t & fr & t1 & n & keep & B & U & A & ND & P & ->)]; [left; reflexivity|right].
  unfold cache_begin_write in B. destruct (begin_write (c_env c)) as [(E, t0)|] eqn:BW; [|discriminate]. injection B as <-.
  destruct (upserts_inv es E t0 (c_visited c) c2 U) as (t' & DO & ->). cbn [c_active c_env] in *. injection A as <-.
  exists E, t0, t', fr, t1, n, keep. splits; auto.
Qed.
Lemma entry_lookup p es : lookup p (stored es) = match entry_at p es with Some e => Some (entry_bytes e) | None => None end.
Proof.
  unfold entry_at. induction es as [|(q, e) es IH]; cbn [stored map lookup find fst snd]; [reflexivity|]. fold (stored es).
  destruct (key_dec p q); [reflexivity|exact IH].
Qed.
Lemma entry_at_in p es e : entry_at p es = Some e -> In e (map snd es).
Proof.
  unfold entry_at. destruct (find _ es) as [pe|] eqn:F; [|discriminate]. intro H. injection H as <-. apply find_some in F. apply in_map, F.
Qed.
Lemma reads_hold E vis es : Forall (fun pe => entry_ok (snd pe)) es ->
  (forall k, blen k < 65536 -> read_now E k = match lookup k (stored es) with Some v => Ok v | None => Err NOTFOUND end) -> holds (mkCache E None vis) es.
Proof.
  intros OK R pid tid c1 p Hp B. rewrite (read_lookup _ pid tid c1 p B). cbn [c_env]. rewrite (R p Hp), entry_lookup.
  destruct (entry_at p es) as [e|] eqn:EA; [|reflexivity]. cbn [bindr]. rewrite entry_blen. change (40 =? ENTRY_SIZE) with true. cbn iota. rewrite entry_round; [reflexivity|].
  apply entry_at_in in EA. apply in_map_iff in EA as (pe & <- & I). rewrite Forall_forall in OK. apply OK, I.
Qed.
Lemma fillable_sizes a b es : fillable a b es -> N.of_nat (length (stored es)) < 2 ^ 32 /\ StronglySorted klt (map fst (stored es)) /\ even_sizes a b (40 + a) (40 + b) (stored es).
Proof.
  intros (HN & HS & _ & B1 & B2 & KB & F). split; [unfold stored; rewrite map_length; exact HN|]. split; [rewrite stored_keys; exact HS|].
  split; [replace (6 + (40 + a)) with (46 + a) by lia; replace (6 + (40 + b)) with (46 + b) by lia; exact B1|]. split; [exact B2|]. split; [exact KB|].
  unfold stored. rewrite Forall_forall in *. intros x Hx. apply in_map_iff in Hx. destruct Hx as (pe & <- & Hx). cbn [fst snd].
  rewrite entry_blen. specialize (F _ Hx). lia.
Qed.
Lemma fresh_reopen E n E2 : fresh E n -> env_open (disk_of E) = Ok E2 -> fresh E2 n.
Proof.
  intros ((HU & FO & H0 & HQ & H1 & Hl) & G & OL) O. assert (GL : good_meta (live_meta E)) by (rewrite live_meta_at; apply G).
  destruct (reopen_newest E GL OL) as (E' & O' & DD & LV). rewrite O in O'. injection O' as <-.
  assert (LM : live_meta E2 = live_meta E) by (apply live_meta_same; assumption).
  split; [|split; [rewrite DD; exact G|rewrite LM, LV, DD; exact OL]]. unfold blank_db. rewrite LM. splits; auto.
  - unfold env_open in O. destruct (select_live _ _); try discriminate. cbn [bindr] in O. injection O as <-. reflexivity.
  - change (e_file E2) with (d_file (disk_of E2)). rewrite DD. exact FO.
Qed.
Lemma loaded_reopens E l ka kb sa sb E' :
  fresh E (length l) -> N.of_nat (length l) < 2 ^ 32 -> StronglySorted klt (map fst l) -> even_sizes ka kb sa sb l -> transact E (puts l) = Ok E' ->
  exists E2, env_open (disk_of E') = Ok E2 /\ forall k, read_now E2 k = read_now E' k.
Proof.
  intros (HB & G & OL) Hc HS SZ TR. pose proof HB as (HU & FO & H0 & HQ & H1 & Hl). pose proof (begin_fields _ _ _ (begun_is E HU)) as (_ & Bt).
  assert (X : good_meta (live_meta E') /\ m_txnid (meta_at (disk_of E') (negb (e_live1 E'))) < m_txnid (live_meta E')).
  { unfold transact in TR. rewrite (begun_is E HU) in TR. destruct (do_ops _ _ (puts l)) as [[] t'| | |] eqn:O; try discriminate.
    destruct (load_facts E l ka kb sa sb t' HB Hc HS SZ O) as (F1 & F2 & F3 & F4).
    pose proof (PropLoad.ops_lout (set_locked E true) (puts l) (begun E)) as L. rewrite O in L. cbn [lout] in L. destruct L as [Li Lr Lf _ _].
    unfold db_commit in TR. destruct (t_dirty t') as [|d0 ds] eqn:EQ.
    { injection TR as <-. change (good_meta (live_meta E) /\ m_txnid (meta_at (disk_of E) (negb (e_live1 E))) < m_txnid (live_meta E)).
      split; [rewrite live_meta_at; apply G|exact OL]. }
    assert (P : populate_free_db page_alloc (set_locked E true) t' = Ret (t_free_root t') t') by (unfold populate_free_db; rewrite F1; reflexivity).
    rewrite P, F3 in TR. cbv zeta in TR. injection TR as TR.
    pose proof (ios_all (set_locked E true) t' (t_free_root t') (disk_of (set_locked E true))) as A. cbv zeta in A. cbn [set_locked e_live1] in A. destruct A as (_ & A1 & A2).
    assert (DE : disk_of E' = fold_left io_apply (commit_ios (set_locked E true) t' (t_free_root t')) (disk_of (set_locked E true)) /\ e_live1 E' = negb (e_live1 E)).
    { rewrite <- TR. split; [unfold disk_of at 1; cbn [e_file e_meta0 e_meta1]; apply disk_eta|reflexivity]. }
    destruct DE as (DE & LE). rewrite live_meta_at, DE, LE, A1, negb_involutive, A2. split; [split; reflexivity|].
    change (meta_at (disk_of (set_locked E true)) (e_live1 E)) with (meta_at (disk_of E) (e_live1 E)). rewrite <- live_meta_at. cbn [new_meta m_txnid]. rewrite Li, Bt. cbn [t_id]. lia. }
  destruct X as (X1 & X2). destruct (reopen_newest E' X1 X2) as (E2 & O2 & DD & LV). exists E2. split; [exact O2|]. intro k. apply read_now_same; assumption.
Qed.

(** However many attempts to fill a new cache are cut off, wherever: a process that opens it finds
    all entries or none; when it finds none it can fill the cache, and the next process finds all.
    Missing: paths that do not come in order (see below), and path lengths that differ much (C114). *)
Theorem first_fill_partial : forall a b es c, fillable a b es -> tries es c ->
  holds c es \/
  (holds c [] /\ forall pid tid, exists c3, fills c pid tid es c3 /\ holds c3 es /\
     (exists c4, opens (disk_of (c_env c3)) c4) /\ forall c4, opens (disk_of (c_env c3)) c4 -> holds c4 es).
Proof.
  intros a b es c FI T. destruct (fillable_sizes a b es FI) as (HN & HS & SZ). pose proof FI as (_ & _ & OK & _).
  assert (X : exists E, c = mkCache E None [] /\ (fresh E (length (stored es)) \/
    forall k, blen k < 65536 -> read_now E k = match lookup k (stored es) with Some v => Ok v | None => Err NOTFOUND end)).
  { induction T as [|c d c' T IH NH CU (E2 & O & ->)].
    - exists env_create. split; [reflexivity|]. left. split; [|split; [intros []; split; reflexivity|reflexivity]].
      unfold blank_db. splits; try reflexivity; [intro q; left; split; reflexivity|change (m_last (live_meta env_create)) with 1; lia].
    - exists E2. split; [reflexivity|]. destruct IH as (E & -> & [F|R]).
      + apply cut_crash_in in CU. cbn [c_env] in CU. destruct CU as [->|CR]; [left; eapply fresh_reopen; eauto|].
        destruct (load_crash E (stored es) a b (40 + a) (40 + b) d F HN HS SZ CR) as (E2' & O' & X). rewrite O in O'. injection O' as <-. exact X.
      + exfalso. apply NH. apply reads_hold; assumption. }
  destruct X as (E & -> & [F|R]); [|left; apply reads_hold; assumption]. right. pose proof F as (HB & _). pose proof HB as (_ & _ & H0 & _).
  split. { apply reads_hold; [constructor|]. intros k _. apply empty_reads. exact H0. }
  intros pid tid. destruct (filled (mkCache E None []) pid tid a b es) as (c3 & FL & CV & CA & TR & _ & _).
  { destruct FI as (N1 & N2 & N3 & N4 & N5 & N6 & N7). unfold fill_ok. cbn [c_visited c_env]. unfold stored in HB. rewrite map_length in HB. splits; auto. }
  exists c3. split; [exact FL|]. cbn [c_env] in TR. destruct (bulk_load E (stored es) a b (40 + a) (40 + b) HB HN HS SZ) as (E' & TR' & RD).
  rewrite TR in TR'. injection TR' as EE. destruct c3 as [E3 A3 V3]. cbn [c_env c_active c_visited] in *. subst E' A3 V3.
  split; [apply reads_hold; assumption|]. destruct (loaded_reopens E (stored es) a b (40 + a) (40 + b) E3 F HN HS SZ TR) as (E4 & O4 & R4).
  split; [exists (mkCache E4 None []), E4; auto|]. intros c4 (E5 & O5 & ->). rewrite O4 in O5. injection O5 as <-.
  apply reads_hold; [exact OK|]. intros k Hk. rewrite R4. apply RD. exact Hk.
Qed.
Print Assumptions first_fill_partial.

(** In another order an entry is lost in a filling in which every call succeeds:
    [upsert_then_lookup_refuted], C28. *)

(** ** A case: the filling of a new cache with two entries is cut off after the first
    page was written *)
Definition cut_at (c : cache) (es : list (bytes * entry)) (n : nat) : res env :=
  match cache_begin_write c with
  | Some c1 => match upserts c1 es with
               | (c2, true) => match c_active c2 with
                               | Some t => match populate_free_db page_alloc (c_env c2) t with
                                           | Ret fr t1 => match t_dirty t with [] => UB | _ => env_open (crash_disk (disk_of (c_env c2)) (commit_ios (c_env c2) t1 fr) n [true]) end
                                           | _ => UB end
                               | None => UB end
               | _ => UB end
  | None => UB
  end.
Lemma cut_at_fill c es n E : cut_at c es n = Ok E -> exists d, cut_fill c es d /\ opens d (mkCache E None []).
Proof.
  unfold cut_at. intro H. destruct (cache_begin_write c) as [c1|] eqn:B; [|discriminate]. destruct (upserts c1 es) as [c2 []] eqn:U; [|discriminate].
  destruct (c_active c2) as [t|] eqn:A; [|discriminate]. destruct (populate_free_db page_alloc (c_env c2) t) as [fr t1| | |] eqn:P; try discriminate.
  destruct (t_dirty t) as [|x l] eqn:Q; [discriminate|]. eexists. split; [right; exists c1, c2, t, fr, t1, n, [true]|exists E; eauto].
  splits; auto. rewrite Q. discriminate.
Qed.
Definition two : list (bytes * entry) := [([97], some_entry 1); ([98], some_entry 2)].
(** the number of keys in page 2, and the root of the tree *)
Definition cut_state (r : res env) : option (N * N) := match r with Ok E => Some (pg_nkeys (e_file E 2), m_root (live_meta E)) | _ => None end.
Lemma cut_state_ok r x : cut_state r = Some x -> exists E, r = Ok E /\ (pg_nkeys (e_file E 2), m_root (live_meta E)) = x.
Proof. destruct r as [E|e| |]; try discriminate. intro H. injection H as H. eauto. Qed.
Example fill_cut_case : fillable 1 1 two /\ exists E, tries two (mkCache E None []) /\ e_file E 2 <> e_file env_create 2 /\ m_root (live_meta E) = 0.
Proof.
  assert (FI : fillable 1 1 two).
  { unfold fillable. splits.
    - vm_compute. reflexivity.
    - cbn. repeat constructor.
    - repeat (apply Forall_cons; [vm_compute; repeat split; reflexivity|]). apply Forall_nil.
    - apply balanced_same. lia.
    - apply balanced_same. lia.
    - lia.
    - repeat (apply Forall_cons; [vm_compute; split; discriminate|]). apply Forall_nil. }
  split; [exact FI|].
  assert (NH : ~ holds new_cache two).
  { intro H. assert (B : exists c1, cache_begin_read new_cache 0 0 = Ok c1 /\ cache_lookup c1 [98] = Err NOTFOUND) by (eexists; split; [reflexivity|vm_compute; reflexivity]).
    destruct B as (c1 & B & L). specialize (H 0 0 c1 [98] ltac:(vm_compute; reflexivity) B). rewrite L in H. vm_compute in H. discriminate H. }
  assert (C : cut_state (cut_at new_cache two 1) = Some (2, 0)) by (vm_compute; reflexivity).
  destruct (cut_state_ok _ _ C) as (E & O & X). exists E. destruct (cut_at_fill new_cache two 1 E O) as (d & CF & OP).
  split; [eapply tr_next; [apply tr_new|exact NH|exact CF|exact OP]|]. split; [|congruence].
  intro H. rewrite H in X. vm_compute in X. discriminate X.
Qed.
