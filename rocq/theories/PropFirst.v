(** Property C156: the first transaction of a database is all or nothing, whatever crashes. *)
From Verif Require Import Util PageModel PageSpec PageProofs PageOps TxnModel CursorModel TreeModel TreeSpec PropPage TreeProofs TreeOps TreeSplit TreePut TreeShape TreeOrder TxnInv DbModel SysModel DbSpec DbProofs DbCommit PropCommit TreeTotal PropOrder PropTotal PropLoad PairInv PropPair PropFileLife PropTime.
From Coq Require Import Sorting.Sorted.
Local Open Scope N_scope.

(** ** Specification *)
(** The committed state is an empty one, and the other meta page is older: so it is in a new
    file and after every transaction that was aborted or cut off by a crash. *)
Definition empty_state (E : env) : Prop :=
  m_root (live_meta E) = 0 /\ m_txnid (meta_at (disk_of E) (negb (e_live1 E))) < m_txnid (live_meta E).
(** [D] is what a crash at any moment of the write transaction [ops] on [E] can leave *)
Definition crash_in (E : env) (ops : list op) (D : disk) : Prop :=
  exists E1 t t' fr t1 n keep, begin_write E = Some (E1, t) /\ do_ops E1 t ops = Ret tt t' /\ t_dirty t' <> [] /\ populate_free_db page_alloc E1 t' = Ret fr t1 /\
    D = crash_disk (disk_of E1) (commit_ios E1 t1 fr) n keep.
(** Someone tries to load [l] into [E] again and again, as long as a pair is missing, and every
    attempt is cut off by a crash, after which the file is opened again. *)
Inductive attempts (l : list (bytes * bytes)) (E : env) : env -> Prop :=
| at_first : attempts l E E
| at_next E1 D E2 : attempts l E E1 -> (exists k v, In (k, v) l /\ read_now E1 k <> Ok v) ->
    crash_in E1 (map (fun e => Put (fst e) (snd e)) l) D -> env_open D = Ok E2 -> attempts l E E2.

(** ** Proof *)
Lemma empty_reads E k : m_root (live_meta E) = 0 -> read_now E k = Err NOTFOUND.
Proof. intro R. unfold read_now, reader, db_get. cbn [t_root]. rewrite R. reflexivity. Qed.
Lemma older_settled E : good_metas (disk_of E) -> m_txnid (meta_at (disk_of E) (negb (e_live1 E))) < m_txnid (live_meta E) -> settled E.
Proof.
  intros G L. assert (GL : good_meta (live_meta E)) by (rewrite live_meta_at; apply G). destruct (reopen_newest E GL L) as (E' & O & _ & V).
  unfold env_open in O. cbn [disk_of d_meta0 d_meta1 d_file] in O. unfold settled. destruct (select_live (e_meta0 E) (e_meta1 E)) as [b| | |]; try discriminate. cbn [bindr] in O.
  injection O as <-. cbn [e_live1] in V. congruence.
Qed.
(** a crash in the commit of the first transaction *)
Lemma crash_first E t1 fr n keep : good_metas (disk_of E) -> empty_state E -> dirty_ok t1 -> t_rdonly t1 = false -> t_id t1 = m_txnid (live_meta E) + 1 ->
  let D := crash_disk (disk_of E) (commit_ios E t1 fr) n keep in
  let D' := fold_left io_apply (commit_ios E t1 fr) (disk_of E) in
  exists E2, env_open D = Ok E2 /\
    ((live_meta E2 = live_meta E /\ e_live1 E2 = e_live1 E /\ disk_of E2 = D /\ (forall b, meta_at D b = meta_at (disk_of E) b) /\ forall q, d_file D q = e_file E q \/ d_file D q = get_page E t1 q) \/
     (D = D' /\ disk_of E2 = D' /\ e_live1 E2 = negb (e_live1 E))).
Proof.
  intros G (R0 & L) DO Ro Id. pose proof (crash_mix E t1 fr n keep DO Ro) as C. cbv zeta in *. remember (crash_disk (disk_of E) (commit_ios E t1 fr) n keep) as D eqn:HDD. clear HDD. destruct C as [(M & F)|X].
  - pose proof (older_settled E G L) as S. destruct (reopen_mix E D S M) as (E2 & O & LM & EF). exists E2. split; [exact O|]. left.
    split; [exact LM|]. split; [|split; [apply open_disk; exact O|auto]]. unfold settled in S. unfold env_open in O. pose proof (M false) as M0. pose proof (M true) as M1. cbn in M0, M1.
    rewrite M0, M1, S in O. cbn [bindr] in O. injection O as <-. reflexivity.
  - pose proof (ios_all E t1 fr (disk_of E)) as A. cbn zeta in A. set (D' := fold_left _ _ _) in *. destruct A as (A1 & A2 & A3).
    set (E' := mkEnv (d_file D') (d_meta0 D') (d_meta1 D') (negb (e_live1 E)) (e_readers E) false).
    assert (DE : disk_of E' = D') by (unfold disk_of, E'; cbn [e_file e_meta0 e_meta1]; apply disk_eta).
    assert (LM : live_meta E' = new_meta t1 fr) by (rewrite live_meta_at, DE; exact A2).
    destruct (reopen_newest E') as (E2 & O & B & C).
    + rewrite LM. apply new_meta_good.
    + rewrite LM, DE. cbn [E' e_live1]. rewrite negb_involutive. cbn [new_meta m_txnid].
      assert (Y : meta_at D' (e_live1 E) = live_meta E) by (unfold D'; rewrite live_meta_at; apply ios_other; apply ios_touch). rewrite Y. lia.
    + exists E2. rewrite X. rewrite DE in O, B. split; [exact O|]. right. split; [reflexivity|]. split; [exact B|exact C].
Qed.

(** ** C156 *)
(** Whatever has happened to the file, if its committed state is still empty: a crash at any
    point of a commit leaves a file that can be opened, and it holds nothing, or all that the
    commit would have published. *)
Theorem first_commit_all_or_nothing : forall puts s h t fr t1 n keep, life puts s -> empty_state (y_env s) ->
  wget (y_writers s) h = Some t -> t_dirty t <> [] -> in_limits s (CommitW h None) ->
  populate_free_db page_alloc (y_env s) t = Ret fr t1 -> over_meta t1 = false ->
  exists E2 E', env_open (crash_disk (disk_of (y_env s)) (commit_ios (y_env s) t1 fr) n keep) = Ok E2 /\ db_commit (y_env s) t None = (E', Ok tt) /\
    ((empty_state E2 /\ live_meta E2 = live_meta (y_env s) /\ forall k, read_now E2 k = Err NOTFOUND) \/
     (live_meta E2 = live_meta E' /\ e_file E2 = e_file E' /\ forall k, read_now E2 k = read_now E' k)).
Proof.
  intros puts s h t fr t1 n keep HL ES HW HD LI P OM. pose proof (life_tinv _ _ HL) as T. destruct (LI t HW) as (L1 & L2). specialize (L2 fr t1 P).
  pose proof (life_inv (fun _ _ => True) (fun _ _ _ => I) puts s HL (fun _ _ _ => I)) as [F W _]. destruct (W _ _ (PropPair.wget_in _ _ _ HW)) as (Ro & O).
  pose proof (populate_oout (fun _ _ => True) (fun _ _ _ => I) (y_env s) t F Ro O L1) as Q. rewrite P in Q. cbn in Q. specialize (Q L2).
  destruct (populate_id _ _ _ _ P) as (Id1 & La). destruct (DbProofs.iv_id _ (ti_inv _ T) _ _ (DbProofs.wget_in _ _ _ HW)) as (Id & _).
  destruct (crash_first (y_env s) t1 fr n keep (ti_good _ T) ES (own_dirty_ok _ _ Q) ltac:(rewrite (la_ro _ _ La); exact Ro) ltac:(congruence)) as (E2 & HO & C).
  set (D' := fold_left io_apply (commit_ios (y_env s) t1 fr) (disk_of (y_env s))) in *.
  set (E' := mkEnv (d_file D') (d_meta0 D') (d_meta1 D') (negb (e_live1 (y_env s))) (e_readers (y_env s)) false).
  exists E2, E'. split; [exact HO|]. split; [unfold db_commit; rewrite P, OM; destruct (t_dirty t); [congruence|reflexivity]|].
  assert (DE : disk_of E' = D') by (unfold disk_of, E'; cbn [e_file e_meta0 e_meta1]; apply disk_eta).
  destruct C as [(LM & LV & DD & M & _)|(_ & DD & LV)].
  - left. destruct ES as (R0 & OL). split; [|split; [exact LM|intro k; apply empty_reads; congruence]]. split; [congruence|]. rewrite DD, LV, M, LM. exact OL.
  - right. assert (DD' : disk_of E2 = disk_of E') by congruence. split; [apply live_meta_same; assumption|]. split; [|intro k; apply read_now_same; assumption].
    change (d_file (disk_of E2) = d_file (disk_of E')). rewrite DD'. reflexivity.
Qed.
Print Assumptions first_commit_all_or_nothing.

(** ** Loading *)
Lemma load_facts E l ka kb sa sb t' :
  blank_db E (length l) -> N.of_nat (length l) < 2 ^ 32 -> StronglySorted klt (map fst l) -> even_sizes ka kb sa sb l ->
  do_ops (set_locked E true) (begun E) (puts l) = Ret tt t' -> t_freed t' = [] /\ t_last t' < 2 ^ 64 /\ over_meta t' = false /\ dirty_ok t'.
Proof.
  intros (HU & FO & H0 & HQ & H1 & Hl) Hc HS (BL & BB & KB & SZ) E2.
  assert (SS : 4 + sb <= 2037) by (destruct BL as (X & _); lia).
  assert (HA : ascending l).
  { split; auto. eapply Forall_impl; [|exact SZ]. intros [a b]. cbn [fst snd]. lia. }
  pose proof (begun_is E HU) as B. pose proof (begin_fields _ _ _ B) as (_ & Et). set (t := begun E) in *. set (E1 := set_locked E true) in *.
  assert (TF : t_rdonly t = false /\ t_root t = 0 /\ t_free_root t = 0 /\ t_last t = m_last (live_meta E) /\ t_freed t = []) by (rewrite Et; cbn; auto).
  destruct TF as (Hr & H0' & HQ' & HL' & HF').
  destruct (puts_fresh E1 (t_last t) l t t' []) as (X & Y & Z); auto; try lia.
  - apply grown_empty; auto.
  - split; auto.
  - apply ascending_sizes; exact HA.
  - split; [congruence|]. split; [lia|].
    assert (DT : dirty_ok t').
    { apply (puts_DI E1 l t t'); auto; [|apply ascending_sizes; exact HA|lia]. intros _. rewrite Et. constructor; cbn; [constructor|discriminate]. }
    split; [|exact DT]. apply not_true_iff_false. unfold over_meta. rewrite existsb_exists. intros ([q p] & I & L). cbn [snd] in L. apply N.ltb_lt in L.
    rewrite (dirty_pgno t' q p DT I) in L. destruct (Z q) as [D|D]; [rewrite (in_dget _ q p (do_nodup _ DT) I); discriminate| |lia].
    rewrite Et in D. cbn in D. congruence.
Qed.
(** an empty database that can be loaded *)
Definition fresh (E : env) (n : nat) : Prop := blank_db E n /\ good_metas (disk_of E) /\ m_txnid (meta_at (disk_of E) (negb (e_live1 E))) < m_txnid (live_meta E).
Lemma load_crash E l ka kb sa sb D :
  fresh E (length l) -> N.of_nat (length l) < 2 ^ 32 -> StronglySorted klt (map fst l) -> even_sizes ka kb sa sb l -> crash_in E (puts l) D ->
  exists E2, env_open D = Ok E2 /\
    (fresh E2 (length l) \/ forall k, blen k < 65536 -> read_now E2 k = match lookup k l with Some v => Ok v | None => Err NOTFOUND end).
Proof.
  intros (HB & G & OL) Hc HS SZ (E1 & t & t' & fr & t1 & n & keep & B & O & ND & P & ->). pose proof HB as (HU & FO & H0 & HQ & H1 & Hl).
  pose proof (begin_fields _ _ _ (begun_is E HU)) as (_ & Bt).
  rewrite (begun_is E HU) in B. injection B as <- <-. destruct (load_facts E l ka kb sa sb t' HB Hc HS SZ O) as (F1 & F2 & F3 & F4).
  pose proof (puts_rdonly_false := PropLoad.ops_lout (set_locked E true) (puts l) (begun E)). rewrite O in puts_rdonly_false. cbn in puts_rdonly_false. destruct puts_rdonly_false as [Li Lr Lf _ _].
  assert (PE : fr = t_free_root t' /\ t1 = t') by (unfold populate_free_db in P; rewrite F1 in P; injection P as <- <-; auto). destruct PE as (-> & ->).
  destruct (crash_first (set_locked E true) t' (t_free_root t') n keep G (conj H0 OL) F4 ltac:(rewrite Lr, Bt; reflexivity) ltac:(rewrite Li, Bt; reflexivity)) as (E2 & HO & C).
  exists E2. split; [exact HO|]. destruct C as [(LM & LV & DD & M & F)|(_ & DD & LV)].
  - left. unfold env_open in HO. destruct (select_live _ _) as [b| | |]; try discriminate. cbn [bindr] in HO. split; [|split].
    + unfold blank_db. rewrite LM. injection HO as <-. cbn [e_locked e_file]. splits; auto. intro q. destruct (F q) as [-> | ->]; [apply FO|].
      unfold get_page. rewrite Lr, Bt. cbn [t_rdonly]. destruct (dget (t_dirty t') q) as [p|] eqn:Dq; [right; apply (do_pages _ F4 _ _ Dq)|apply FO].
    + rewrite DD. intro b0. rewrite M. apply G.
    + rewrite DD, LV, LM, M. exact OL.
  - right. destruct (bulk_load E l ka kb sa sb HB Hc HS SZ) as (E' & TR & RD). intros k Hk. rewrite <- (RD k Hk).
    unfold transact in TR. rewrite (begun_is E HU), O in TR. unfold db_commit in TR. destruct (t_dirty t') as [|d0 ds] eqn:EQ; [congruence|]. rewrite P, F3 in TR. cbv zeta in TR. injection TR as <-.
    apply read_now_same; [|exact LV]. rewrite DD. unfold disk_of at 2. cbn [e_file e_meta0 e_meta1]. rewrite disk_eta. reflexivity.
Qed.
(** Loading pairs in key order into an empty database is all or nothing: however many attempts
    are cut off by a crash, wherever, the database holds nothing or exactly the pairs, and while
    it holds nothing the load can be made. *)
Theorem load_all_or_nothing : forall l ka kb sa sb E,
  N.of_nat (length l) < 2 ^ 32 -> StronglySorted klt (map fst l) -> even_sizes ka kb sa sb l ->
  attempts l env_create E ->
  (forall k, blen k < 65536 -> read_now E k = match lookup k l with Some v => Ok v | None => Err NOTFOUND end) \/
  ((forall k, read_now E k = Err NOTFOUND) /\ exists E', transact E (puts l) = Ok E' /\
     forall k, blen k < 65536 -> read_now E' k = match lookup k l with Some v => Ok v | None => Err NOTFOUND end).
Proof.
  intros l ka kb sa sb E Hc HS SZ H.
  assert (X : fresh E (length l) \/ forall k, blen k < 65536 -> read_now E k = match lookup k l with Some v => Ok v | None => Err NOTFOUND end).
  { induction H as [|E1 D E2 H IH (k & v & I & Q) C O].
    - left. split; [|split; [intros []; split; reflexivity|reflexivity]]. unfold blank_db. splits; try reflexivity; [intro q; left; split; reflexivity|change (m_last (live_meta env_create)) with 1; lia].
    - destruct IH as [F|R].
      + destruct (load_crash E1 l ka kb sa sb D F Hc HS SZ C) as (E2' & O' & X). rewrite O in O'. injection O' as <-. exact X.
      + exfalso. apply Q. destruct SZ as (BL & _ & KB & SZ). rewrite Forall_forall in SZ. pose proof (SZ _ I) as Y. cbn [fst] in Y. rewrite R by lia. rewrite (lookup_nth k v l (sorted_NoDup _ HS) I). reflexivity. }
  destruct X as [(B & _)|X]; [|left; exact X]. right. split; [intro k; apply empty_reads, B|]. exact (bulk_load E l ka kb sa sb B Hc HS SZ).
Qed.
Print Assumptions load_all_or_nothing.

(** A case: three pairs of 1900 bytes, the crash after the first page; the file holds nothing
    and the load is made again, cut off when all is written. *)
Definition three : list (bytes * bytes) := map (fun k => ([k], fillb 1900 k)) [97; 98; 99].
Definition three_ops : list op := map (fun e => Put (fst e) (snd e)) three.
Definition cut (E : env) (n : nat) : res env :=
  match begin_write E with
  | Some (E1, t) => match do_ops E1 t three_ops with
                    | Ret tt t' => match populate_free_db page_alloc E1 t' with
                                   | Ret fr t1 => env_open (crash_disk (disk_of E1) (commit_ios E1 t1 fr) n [true]) | _ => UB end
                    | _ => UB end
  | None => UB
  end.
Lemma cut_crash E n E2 : cut E n = Ok E2 -> (match begin_write E with Some (E1, t) => match do_ops E1 t three_ops with Ret tt t' => negb (match t_dirty t' with [] => true | _ => false end) | _ => true end | None => true end) = true ->
  exists D, crash_in E three_ops D /\ env_open D = Ok E2.
Proof.
  unfold cut. intros H N. destruct (begin_write E) as [[E1 t]|] eqn:B; [|discriminate]. destruct (do_ops E1 t three_ops) as [[] t'| | |] eqn:O; try discriminate.
  destruct (populate_free_db page_alloc E1 t') as [fr t1| | |] eqn:P; try discriminate. eexists. split; [|exact H].
  exists E1, t, t', fr, t1, n, [true]. splits; auto. intro X. rewrite X in N. discriminate.
Qed.
Definition second (E : env) : env := match cut E 1 with Ok E1 => E1 | _ => E end.
Definition third (E : env) : env := match cut E 9 with Ok E1 => E1 | _ => E end.
Lemma second_ok E : is_ok (cut E 1) = true -> cut E 1 = Ok (second E).
Proof. unfold second. destruct (cut E 1); try discriminate. reflexivity. Qed.
Lemma third_ok E : is_ok (cut E 9) = true -> cut E 9 = Ok (third E).
Proof. unfold third. destruct (cut E 9); try discriminate. reflexivity. Qed.
Example load_case : let E1 := second env_create in let E2 := third E1 in
  StronglySorted klt (map fst three) /\ even_sizes 1 1 1901 1901 three /\ attempts three env_create E1 /\ attempts three env_create E2 /\
  read_now E1 [98] = Err NOTFOUND /\ e_file E1 4 <> e_file env_create 4 /\ read_now E2 [98] = Ok (fillb 1900 98).
Proof.
  cbv zeta. assert (S1 : StronglySorted klt (map fst three)) by (cbn; repeat constructor).
  assert (B1 : balanced 1907 1907 /\ balanced 13 13) by (split; apply balanced_same; lia).
  assert (S2 : even_sizes 1 1 1901 1901 three).
  { split; [apply B1|]. split; [apply B1|]. split; [lia|]. unfold three. cbn [map]. repeat (apply Forall_cons; [vm_compute; repeat split; discriminate|]). apply Forall_nil. }
  assert (C1 : cut env_create 1 = Ok (second env_create)) by (apply second_ok; vm_compute; reflexivity).
  destruct (cut_crash _ _ _ C1 ltac:(vm_compute; reflexivity)) as (D1 & X1 & O1).
  assert (C2 : cut (second env_create) 9 = Ok (third (second env_create))) by (apply third_ok; vm_compute; reflexivity).
  destruct (cut_crash _ _ _ C2 ltac:(vm_compute; reflexivity)) as (D2 & X2 & O2).
  assert (A1 : attempts three env_create (second env_create)).
  { eapply at_next; [apply at_first| |exact X1|exact O1]. exists [98], (fillb 1900 98). split; [right; left; reflexivity|vm_compute; discriminate]. }
  split; [exact S1|]. split; [exact S2|]. split; [exact A1|]. split.
  { eapply at_next; [exact A1| |exact X2|exact O2]. exists [98], (fillb 1900 98). split; [right; left; reflexivity|vm_compute; discriminate]. }
  split; [vm_compute; reflexivity|]. split; [|vm_compute; reflexivity].
  intro H. apply (f_equal pg_nkeys) in H. vm_compute in H. discriminate H.
Qed.
