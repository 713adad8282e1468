(** Properties C142 and C143: what one put or deletion changes, in every life of a file,
    whatever earlier calls have done to the trees. *)
From Verif Require Import Util PageModel PageSpec PageProofs PageOps PropPage TxnModel CursorModel TreeModel TreeSpec TreeProofs TreeOps TreeSplit TreePut TreeShape TxnInv PairInv DbModel SysModel DbSpec DbProofs DbCommit PropTree PropCommit PropMeta PropPair PropFileLife PropEnds.
Local Open Scope N_scope.

(** * Specification *)

(** looking for [k] from the root leads to the leaf [pg] *)
Definition leads (E : env) (t : txn) (k : bytes) (pg : N) : Prop :=
  is_leaf (get_page E t pg) = true /\ exists n, goes_in E t k n (t_root t) pg.
(** the two transactions have the same number, roots and end of file, and see the same
    in all pages but [pg] *)
Definition same_but (E : env) (pg : N) (t t' : txn) : Prop :=
  t_id t' = t_id t /\ t_root t' = t_root t /\ t_free_root t' = t_free_root t /\ t_last t' = t_last t /\
  forall q, q <> pg -> get_page E t' q = get_page E t q.

(** * Proofs *)

Lemma writer_pages puts s h t : life puts s -> wget (y_writers s) h = Some t -> t_last t < 2 ^ 64 ->
  t_rdonly t = false /\
  forall pg, is_leaf (get_page (y_env s) t pg) = true \/ is_branch (get_page (y_env s) t pg) = true ->
    wfp (get_page (y_env s) t pg) /\ pg_pgno (get_page (y_env s) t pg) = pg.
Proof.
  intros HL G L. pose proof (life_inv (fun _ _ => True) (fun _ _ _ => I) puts s HL (fun _ _ _ => I)) as [F W _].
  destruct (W _ _ (wget_in _ _ _ G)) as [Ro O]. specialize (O L). split; [exact Ro|]. intros pg. unfold get_page. rewrite Ro.
  destruct (dget (t_dirty t) pg) as [p|] eqn:D.
  - intros _. destruct (dw_pages _ _ O _ _ D) as ([A _] & B). auto.
  - intros K. destruct (F pg) as [(B1 & B2)|([A _] & B)]; [destruct K; congruence|auto].
Qed.

Section View.
Variable E : env.
Variable t : txn.
Variable k : bytes.
Hypothesis Ro : t_rdonly t = false.
Hypothesis Pg : forall pg, is_leaf (get_page E t pg) = true \/ is_branch (get_page E t pg) = true ->
  wfp (get_page E t pg) /\ pg_pgno (get_page E t pg) = pg.

Lemma path_to : forall f n pg q, goes_in E t k n pg q -> is_leaf (get_page E t q) = true ->
  (exists e, find_path f E t pg k = Err e) \/
  exists path, find_path f E t pg k = Ok (path, get_page E t q) /\ leaf_of path = q /\ path <> [] /\ In q path /\
    forall x, In x path -> pg_pgno (get_page E t x) = x.
Proof.
  induction f as [|f IH]; intros n pg q G L; cbn [find_path]; [left; eauto|]. destruct (max_pgno E t <? pg); [left; eauto|].
  inversion G as [p|m p c r (GL & GB & GC) G2]; subst.
  - right. rewrite L. exists [q]. splits; auto; [discriminate|now left|]. intros x [<-|[]]. apply Pg. auto.
  - rewrite GL, GB. cbn [negb]. rewrite GC. cbn [bindr]. destruct (IH _ _ _ G2 L) as [(e & ->)|(path & -> & LP & NE & IN & PP)]; cbn [bindr]; [left; eauto|].
    right. exists (pg :: path). splits; auto; [|discriminate|now right|].
    + unfold leaf_of in *. destruct path; [congruence|exact LP].
    + intros x [<-|X]; [apply Pg; auto|auto].
Qed.

Lemma leaf_search q : is_leaf (get_page E t q) = true -> blen k < 65536 ->
  wf_page true (get_page E t q) /\ exists b i, page_search (get_page E t q) k = Ok (b, i) /\ i <= pg_nkeys (get_page E t q) /\
    (b = true -> i < pg_nkeys (get_page E t q) /\ keyat true (get_page E t q) i = k).
Proof.
  intros L K. destruct (Pg q (or_introl L)) as ([lf W] & _). assert (lf = true) by (destruct lf; auto; rewrite (wf_is_leaf _ _ W) in L; discriminate). subst lf.
  split; [exact W|]. destruct (page_search_safe true _ k W) as (b & i & S & I1 & I2). exists b, i. splits; auto. intros ->.
  exact (page_search_found true _ k i W K S).
Qed.

Lemma del_there pg data : leads E t k pg -> blen k < 65536 ->
  (exists e, db_del E t k data = Fail e t) \/
  (exists t' i v, db_del E t k data = Ret tt t' /\ same_but E pg t t' /\
     nth_error (leaf_entries (get_page E t pg)) i = Some (k, v) /\
     leaf_entries (get_page E t' pg) = remove_at i (leaf_entries (get_page E t pg))).
Proof.
  intros (L & n & G) K. unfold db_del. rewrite Ro. destruct (t_root t =? 0); [left; eauto|].
  destruct (path_to MAX_TREE_DEPTH n _ _ G L) as [(e & ->)|(path & -> & LP & NE & IN & PP)]; cbn [lift bindo]; [left; eauto|].
  destruct (leaf_search pg L K) as (W & b & i & -> & I1 & I2). destruct b; [|left; exists NOTFOUND; reflexivity]. destruct (I2 eq_refl) as (I3 & KA). cbn [bindo].
  destruct (cow_path_ok E (rev path) t Ro) as (t3 & -> & C & V & D & _); [intros q X; apply PP; now apply in_rev|]. cbn [bindo].
  rewrite LP. rewrite (D pg) by (rewrite <- in_rev; exact IN).
  destruct (page_delete_leaf_correct _ i W) as [(X & _)|(p' & k' & v & -> & W' & NT & LE & _)]; [lia|]. cbn [lift bindo].
  assert (Ro3 : t_rdonly t3 = false) by (destruct C as (C & _); congruence).
  right. exists (put_dirty t3 pg p'), (N.to_nat i), v. splits; auto.
  - destruct C as (_ & C1 & C2 & C3 & C4). unfold same_but. splits; auto. intros q NQ. rewrite get_put by auto. destruct (N.eqb_spec pg q); [congruence|]. apply V.
  - rewrite NT. unfold leaf_entries in NT. rewrite nth_error_map, slots_nth, N2Nat.id in NT by lia. cbn [option_map] in NT. unfold keyat in KA. congruence.
  - rewrite get_put, N.eqb_refl by auto. exact LE.
Qed.

Lemma put_there pg v : leads E t k pg -> t_root t <> 0 -> leaf_size k v < 65536 -> leaf_size k v + 2 <= page_free (get_page E t pg) ->
  (exists e, db_put E t k v = Fail e t) \/
  (exists t' i, db_put E t k v = Ret tt t' /\ same_but E pg t t' /\
     (leaf_entries (get_page E t' pg) = insert_at i (k, v) (leaf_entries (get_page E t pg)) \/
      exists v0, nth_error (leaf_entries (get_page E t pg)) i = Some (k, v0) /\
        leaf_entries (get_page E t' pg) = insert_at i (k, v) (remove_at i (leaf_entries (get_page E t pg))))).
Proof.
  intros (L & n & G) NZ LS RM. assert (K : blen k < 65536) by (eapply leaf_size_key; eauto).
  unfold db_put, db_put_with. rewrite Ro. destruct (N.eqb_spec (t_root t) 0); [congruence|].
  destruct (path_to MAX_TREE_DEPTH n _ _ G L) as [(e & ->)|(path & -> & LP & NE & IN & PP)]; cbn [lift bindo]; [left; eauto|].
  destruct (leaf_search pg L K) as (W & b & i & -> & I1 & I2). cbn [lift bindo]. rewrite LP.
  destruct (b && _) eqn:EX; [left; eauto|].
  assert (LK : leaf_key E t pg = pg).
  { unfold leaf_key. destruct (Pg pg (or_introl L)) as (_ & PN). unfold get_page in PN. rewrite Ro in PN. destruct (dget (t_dirty t) pg); auto. }
  cbv zeta. rewrite LK.
  destruct (cow_path_ok E (rev path) t Ro) as (t3 & -> & C & V & D & _); [intros q X; apply PP; now apply in_rev|]. cbn [bindo].
  rewrite (D pg) by (rewrite <- in_rev; exact IN).
  assert (Ro3 : t_rdonly t3 = false) by (destruct C as (C & _); congruence). destruct C as (_ & C1 & C2 & C3 & C4).
  right. destruct b.
  - destruct (I2 eq_refl) as (I3 & KA).
    destruct (page_delete_leaf_correct _ i W) as [(X & _)|(p1 & k' & v0 & -> & W1 & NT & LE & PN1 & F1)]; [lia|]. cbn [lift bindo].
    assert (N1 : pg_nkeys p1 = pg_nkeys (get_page E t pg) - 1).
    { assert (Y : length (leaf_entries p1) = length (remove_at (N.to_nat i) (leaf_entries (get_page E t pg)))) by now rewrite LE.
      revert Y. assert (Z : forall p, length (leaf_entries p) = N.to_nat (pg_nkeys p)). { intros p. unfold leaf_entries. rewrite map_length. apply slots_length. }
      rewrite Z. unfold remove_at. rewrite app_length, firstn_length, skipn_length, Z. lia. }
    destruct (page_insert_leaf_correct p1 i k v 0 W1 ltac:(lia) LS) as [(X & _)|(_ & p2 & -> & W2 & LE2 & _)]; [lia|].
    exists (put_dirty (put_dirty t3 pg p1) pg p2), (N.to_nat i). split; [reflexivity|]. split.
    + unfold same_but. splits; auto. intros q NQ. rewrite !get_put by auto. destruct (N.eqb_spec pg q); [congruence|]. apply V.
    + right. exists v0. split.
      * rewrite NT. unfold leaf_entries in NT. rewrite nth_error_map, slots_nth, N2Nat.id in NT by lia. cbn [option_map] in NT. unfold keyat in KA. congruence.
      * rewrite get_put, N.eqb_refl by auto. now rewrite LE2, LE.
  - cbn [bindo]. destruct (page_insert_leaf_correct (get_page E t pg) i k v 0 W I1 LS) as [(X & _)|(_ & p2 & -> & W2 & LE2 & _)]; [lia|].
    exists (put_dirty t3 pg p2), (N.to_nat i). split; [reflexivity|]. split.
    + unfold same_but. splits; auto. intros q NQ. rewrite get_put by auto. destruct (N.eqb_spec pg q); [congruence|]. apply V.
    + left. rewrite get_put, N.eqb_refl by auto. exact LE2.
Qed.

Lemma path_ends : forall f pg, find_path f E t pg k <> Fuel.
Proof.
  induction f as [|f IH]; intros pg; cbn [find_path]; [discriminate|]. destruct (max_pgno E t <? pg); [discriminate|].
  destruct (is_leaf (get_page E t pg)) eqn:L; [discriminate|]. destruct (is_branch (get_page E t pg)) eqn:B; cbn [negb]; [|discriminate].
  destruct (Pg pg (or_intror B)) as ([lf W] & _). unfold child_of, child_index. destruct (page_search_safe lf _ k W) as (b & i & -> & _). cbn [bindr].
  unfold child_at. match goal with |- context [if ?c then Ok _ else UB] => destruct c end; cbn [bindr]; [|discriminate].
  match goal with |- context [find_path f E t ?c k] => specialize (IH c); destruct (find_path f E t c k) as [[]| | |] end; cbn [bindr]; congruence.
Qed.
Lemma path_leaf : forall f pg path leaf, find_path f E t pg k = Ok (path, leaf) -> exists n q, goes_in E t k n pg q /\ is_leaf (get_page E t q) = true.
Proof.
  induction f as [|f IH]; intros pg path leaf H; cbn [find_path] in H; [discriminate|]. destruct (max_pgno E t <? pg); [discriminate|].
  destruct (is_leaf (get_page E t pg)) eqn:L; [exists 0%nat, pg; split; [constructor|exact L]|]. destruct (is_branch (get_page E t pg)) eqn:B; cbn [negb] in H; [|discriminate].
  destruct (child_of (get_page E t pg) k) as [c| | |] eqn:C; cbn [bindr] in H; try discriminate.
  destruct (find_path f E t c k) as [[path' leaf']| | |] eqn:FP; cbn [bindr] in H; try discriminate.
  destruct (IH _ _ _ FP) as (n & q & G & LQ). exists (S n), q. split; [|exact LQ]. econstructor; eauto. unfold goes. auto.
Qed.
End View.

(** ** C142: a deletion takes one pair out of one page and always ends *)
Theorem deletion_is_local : forall puts s h t k data pg, life puts s -> wget (y_writers s) h = Some t -> t_last t < 2 ^ 64 -> blen k < 65536 ->
  leads (y_env s) t k pg ->
  (exists e, db_del (y_env s) t k data = Fail e t) \/
  (exists t' i v, db_del (y_env s) t k data = Ret tt t' /\ same_but (y_env s) pg t t' /\
     nth_error (leaf_entries (get_page (y_env s) t pg)) i = Some (k, v) /\
     leaf_entries (get_page (y_env s) t' pg) = remove_at i (leaf_entries (get_page (y_env s) t pg))).
Proof.
  intros puts s h t k data pg HL G L K LD. destruct (writer_pages puts s h t HL G L) as (Ro & Pg). now apply del_there.
Qed.
(** when no leaf is reached, an error is returned and nothing is changed, or the code reads
    outside a page (C137) *)
Theorem deletion_ends : forall puts s h t k data, life puts s -> wget (y_writers s) h = Some t -> t_last t < 2 ^ 64 -> blen k < 65536 ->
  db_del (y_env s) t k data <> NoFuel /\
  ((forall pg, ~ leads (y_env s) t k pg) -> (exists e, db_del (y_env s) t k data = Fail e t) \/ db_del (y_env s) t k data = Bad).
Proof.
  intros puts s h t k data HL G L K. destruct (writer_pages puts s h t HL G L) as (Ro & Pg). set (E := y_env s) in *.
  assert (X : (exists pg, leads E t k pg) \/ (exists e, db_del E t k data = Fail e t) \/ db_del E t k data = Bad).
  { unfold db_del. rewrite Ro. destruct (t_root t =? 0); [eauto|]. pose proof (path_ends E t k Pg MAX_TREE_DEPTH (t_root t)) as NF.
    destruct (find_path MAX_TREE_DEPTH E t (t_root t) k) as [[path leaf]|e| |] eqn:FP; cbn [lift bindo]; eauto; [|congruence].
    left. destruct (path_leaf E t k _ _ _ _ FP) as (n & q & A & B). exists q. split; eauto. }
  split.
  - destruct X as [(pg & X)|[(e & ->)| ->]]; try discriminate. destruct (del_there E t k Ro Pg pg data X K) as [(e & ->)|(t' & i & v & -> & _)]; discriminate.
  - intros N. destruct X as [(pg & X)|X]; [exfalso; eapply N; eauto|exact X].
Qed.

(** ** C143: a put that finds room changes one page *)
Theorem put_is_local : forall puts s h t k v pg, life puts s -> wget (y_writers s) h = Some t -> t_last t < 2 ^ 64 ->
  t_root t <> 0 -> leaf_size k v < 65536 -> leads (y_env s) t k pg -> leaf_size k v + 2 <= page_free (get_page (y_env s) t pg) ->
  (exists e, db_put (y_env s) t k v = Fail e t) \/
  (exists t' i, db_put (y_env s) t k v = Ret tt t' /\ same_but (y_env s) pg t t' /\
     (leaf_entries (get_page (y_env s) t' pg) = insert_at i (k, v) (leaf_entries (get_page (y_env s) t pg)) \/
      exists v0, nth_error (leaf_entries (get_page (y_env s) t pg)) i = Some (k, v0) /\
        leaf_entries (get_page (y_env s) t' pg) = insert_at i (k, v) (remove_at i (leaf_entries (get_page (y_env s) t pg))))).
Proof.
  intros puts s h t k v pg HL G L NZ LS LD RM. destruct (writer_pages puts s h t HL G L) as (Ro & Pg). now apply put_there.
Qed.

(** A case for all three: a database of two levels written by a first transaction, and an
    open second one. *)
Definition calls_local : list act :=
  [BeginW 0; PutA 0 [1] (fillb 1300 1); PutA 0 [2] (fillb 1300 1); PutA 0 [3] (fillb 1300 1); PutA 0 [4] (fillb 1300 1); CommitW 0 None; BeginW 0].
Definition writing (l : list act) (f : env -> txn -> bool) : bool :=
  match calls (start env_create) l with
  | Some s => match wget (y_writers s) 0 with Some t => (t_last t <? 2 ^ 64) && f (y_env s) t | None => false end
  | None => false
  end.
Lemma writing_is l f : writing l f = true -> exists s t, life (rev (flat_map asked l)) s /\ wget (y_writers s) 0 = Some t /\ t_last t < 2 ^ 64 /\ f (y_env s) t = true.
Proof.
  intro H. unfold writing in H. destruct (calls (start env_create) l) as [s|] eqn:C; [|discriminate]. destruct (wget (y_writers s) 0) as [t|] eqn:G; [|discriminate].
  apply andb_prop in H. destruct H as (H1 & H2). exists s, t. split; [|split; [exact G|split; [lia|exact H2]]].
  pose proof (calls_life l [] _ _ life_new C) as X. rewrite app_nil_r in X. exact X.
Qed.
Example local_case : exists s t, life (rev (flat_map asked calls_local)) s /\ wget (y_writers s) 0 = Some t /\ t_last t < 2 ^ 64 /\ t_root t <> 0 /\
  exists pg, pg <> t_root t /\ leads (y_env s) t [4] pg /\ leaf_size [5] [6] + 2 <= page_free (get_page (y_env s) t pg) /\
    (exists t', db_del (y_env s) t [4] None = Ret tt t') /\ (exists t', db_put (y_env s) t [5] [6] = Ret tt t').
Proof.
  destruct (writing_is calls_local (fun E t => negb (t_root t =? 0) && onb E t [4] (t_root t) (fun q => negb (q =? t_root t) && is_leaf (get_page E t q) &&
      (leaf_size [5] [6] + 2 <=? page_free (get_page E t q)))
      && match db_del E t [4] None with Ret _ _ => true | _ => false end && match db_put E t [5] [6] with Ret _ _ => true | _ => false end)) as (s & t & A & B & C & D); [vm_compute; reflexivity|].
  apply andb_prop in D. destruct D as (D & D3). apply andb_prop in D. destruct D as (D & D2). apply andb_prop in D. destruct D as (D0 & D1).
  exists s, t. split; [exact A|]. split; [exact B|]. split; [exact C|]. split; [intros X; rewrite X in D0; discriminate|].
  destruct (onb_goes _ _ _ _ _ D1) as (q & G & OK). apply andb_prop in OK. destruct OK as (OK & O3). apply andb_prop in OK. destruct OK as (O1 & O2).
  exists q. split; [intros X; rewrite X, N.eqb_refl in O1; discriminate|]. split; [split; [exact O2|exists 1%nat; econstructor; [exact G|constructor]]|].
  split; [lia|]. split.
  - destruct (db_del (y_env s) t [4] None) as [[] t'| | |]; try discriminate. eauto.
  - destruct (db_put (y_env s) t [5] [6]) as [[] t'| | |]; try discriminate. eauto.
Qed.

Print Assumptions deletion_is_local.
Print Assumptions deletion_ends.
Print Assumptions put_is_local.
