(** Properties C21 and C22: where allocated pages come from. *)
From Verif Require Import Util PageModel PageSpec PageProofs PageOps TxnModel CursorModel TreeModel TreeSpec PropPage TreeProofs TreeOps TreeSplit TreePut TreeShape TxnInv DbModel SysModel DbSpec DbProofs CursorSpec CursorProofs DbCommit PropTree PropCursor PropCommit.
Local Open Scope N_scope.

(** ** Specification *)
(** entries of transactions below this id may be reused: the least id of a registered
    reader, or the writer's own id when there is no reader *)
Definition horizon (E : env) (t : txn) (b : N) : Prop :=
  (registered E = [] /\ b = t_id t) \/ (registered E <> [] /\ least (map s_txnid (registered E)) b).
(** a Free DB entry (transaction id, non-empty array of page numbers) below it *)
Definition reclaimable (b : N) (kv : bytes * bytes) : Prop :=
  blen (fst kv) = 8 /\ le_val (fst kv) < b /\ blen (snd kv) mod 8 = 0 /\ 0 < blen (snd kv).
(** the transaction looking at the Free DB *)
Definition free_view (t : txn) : txn := set_root t (t_free_root t).
(** nothing a scan of the Free DB meets is reclaimable *)
Definition no_reuse (E : env) (t : txn) : Prop :=
  t_free_root t = 0 \/
  exists l e b, horizon E t b /\ scans E (free_view t) NEXT (cursor_get E (free_view t) cursor_open FIRST) l e /\
    N.of_nat (length l) < 65536 /\ Forall (fun kv => ~ reclaimable b kv) l.

(** ** The cursor depends only on what the transaction sees *)
Section View.
Variables (E : env) (t t' : txn).
Hypothesis V : forall q, get_page E t q = get_page E t' q.
Hypothesis R : t_root t = t_root t'.
Lemma seek_down_view : forall f op pg st, seek_down f E t op pg st = seek_down f E t' op pg st.
Proof.
  induction f as [|f IH]; intros op pg st; cbn [seek_down]; [reflexivity|]. rewrite V. destruct (is_leaf _); [reflexivity|].
  destruct (negb _); [reflexivity|]. destruct (seek_index _ _) as [i|e| |]; try reflexivity. destruct (child_at _ _) as [c|e| |]; try reflexivity. apply IH.
Qed.
Lemma descend_left_view : forall f pg st, descend_left f E t pg st = descend_left f E t' pg st.
Proof.
  induction f as [|f IH]; intros pg st; cbn [descend_left]; [reflexivity|]. rewrite V. destruct (is_leaf _); [reflexivity|].
  destruct (child_at _ _) as [c|e| |]; try reflexivity. apply IH.
Qed.
Lemma descend_right_view : forall f pg st, descend_right f E t pg st = descend_right f E t' pg st.
Proof.
  induction f as [|f IH]; intros pg st; cbn [descend_right]; [reflexivity|]. rewrite V. destruct (_ =? 0); [reflexivity|]. destruct (is_leaf _); [reflexivity|].
  destruct (child_at _ _) as [c|e| |]; try reflexivity. apply IH.
Qed.
Lemma ascend_next_view : forall st, ascend_next E t st = ascend_next E t' st.
Proof.
  induction st as [|(p, i) st IH]; cbn [ascend_next]; [reflexivity|]. destruct (_ <? _); [|apply IH].
  destruct (child_at _ _) as [c|e| |]; try reflexivity. apply descend_left_view.
Qed.
Lemma ascend_prev_view : forall st, ascend_prev E t st = ascend_prev E t' st.
Proof.
  induction st as [|(p, i) st IH]; cbn [ascend_prev]; [reflexivity|]. destruct (_ <? _); [|apply IH].
  destruct (child_at _ _) as [c|e| |]; try reflexivity. apply descend_right_view.
Qed.
Lemma cursor_get_view c op : cursor_get E t c op = cursor_get E t' c op.
Proof.
  assert (S : forall op, cursor_seek E t op = cursor_seek E t' op).
  { intro o. unfold cursor_seek. rewrite R, seek_down_view. reflexivity. }
  assert (Nx : cursor_next E t c = cursor_next E t' c).
  { unfold cursor_next. destruct (c_stack c) as [|(p, i) r]; [reflexivity|]. rewrite ascend_next_view. reflexivity. }
  assert (Pv : cursor_prev E t c = cursor_prev E t' c).
  { unfold cursor_prev. destruct (c_stack c) as [|(p, i) r]; [reflexivity|]. rewrite ascend_prev_view. reflexivity. }
  unfold cursor_get. destruct op; rewrite ?Nx, ?Pv, ?S; reflexivity.
Qed.
Lemma scans_view op r l e : scans E t op r l e -> scans E t' op r l e.
Proof. induction 1; constructor. rewrite <- cursor_get_view. assumption. Qed.
End View.

(** ** The scan of the Free DB *)
Lemma horizon_oldest E t b : horizon E t b ->
  (if oldest_reader (e_readers E) =? 0 then t_id t else oldest_reader (e_readers E)) = b.
Proof.
  intro H. pose proof (oldest_fold (e_readers E) 0) as OF. cbv zeta in OF. fold (oldest_reader (e_readers E)) in OF. destruct OF as (A & B).
  change (used (e_readers E)) with (registered E) in *. destruct (N.eqb_spec (oldest_reader (e_readers E)) 0) as [Z|Nz].
  - destruct (A Z) as (_ & U). destruct H as [(_ & ->)|(X & _)]; [reflexivity|congruence].
  - destruct (B Nz) as (C & _ & D). destruct H as [(X & _)|(_ & (I & M))].
    + rewrite X in C. destruct C as [C|[]]. congruence.
    + destruct C as [C|C]; [congruence|]. apply N.le_antisymm; [|apply M; exact C].
      apply in_map_iff in I. destruct I as (s & <- & I). apply D. exact I.
Qed.
Lemma horizon_ex E t : exists b, horizon E t b.
Proof.
  pose proof (oldest_fold (e_readers E) 0) as OF. cbv zeta in OF. fold (oldest_reader (e_readers E)) in OF. destruct OF as (A & B).
  change (used (e_readers E)) with (registered E) in *. destruct (N.eq_dec (oldest_reader (e_readers E)) 0) as [Z|Nz].
  - exists (t_id t). left. split; [apply A; exact Z|reflexivity].
  - exists (oldest_reader (e_readers E)). right. destruct (B Nz) as (C & _ & D). destruct C as [C|C]; [congruence|]. split.
    + intro X. rewrite X in C. destruct C.
    + split; [exact C|]. intros x I. apply in_map_iff in I. destruct I as (s & <- & I). apply D. exact I.
Qed.
Lemma test_ok b k d : ((blen k =? 8) && (le_val k <? b) && (blen d mod 8 =? 0) && (0 <? blen d)) = true <-> reclaimable b (k, d).
Proof.
  unfold reclaimable. cbn [fst snd]. rewrite !andb_true_iff, !N.eqb_eq, !N.ltb_lt. tauto.
Qed.
Lemma scan_none E t b r l e : scans E t NEXT r l e -> Forall (fun kv => ~ reclaimable b kv) l ->
  forall fuel, (length l < fuel)%nat -> reclaim_scan fuel E t b r = Err NOTFOUND.
Proof.
  induction 1 as [e c|(k, d) c l e S IH]; intros F [|fuel] Hf; try (cbn [length] in Hf; lia); cbn [reclaim_scan]; [reflexivity|].
  inversion F as [|? ? F1 F2]; subst. destruct (_ && _) eqn:T; [apply test_ok in T; contradiction|]. apply IH; auto. cbn [length] in Hf. lia.
Qed.
Lemma scan_some E t b : forall fuel c kv post k d c1, ahead (get_page E t) c kv post -> reclaim_scan fuel E t b (COk kv c) = Ok (k, d, c1) ->
  In (k, d) (kv :: post) /\ reclaimable b (k, d).
Proof.
  induction fuel as [|fuel IH]; intros c (k1, d1) post k d c1 A H; cbn [reclaim_scan] in H; [discriminate|].
  destruct (_ && _) eqn:T.
  - injection H as <- <- _. split; [cbn; auto|]. apply test_ok. exact T.
  - pose proof (next_ok E t c _ _ A) as N. unfold cursor_get in H. destruct post as [|kv' post].
    + destruct N as (c' & X). rewrite X in H. destruct fuel; discriminate.
    + destruct N as (c' & X & A' & _). rewrite X, (fetch_ok _ _ _ _ A') in H. destruct (IH c' kv' post k d c1 A' H) as (I & Rc). split; [right; exact I|exact Rc].
Qed.
Lemma reclaim_none E t put : no_reuse E t -> reclaim_with put E t = Fail NOTFOUND t.
Proof.
  intros [Z|(l & e & b & Hb & S & Hl & F)]; unfold reclaim_with.
  - rewrite Z. reflexivity.
  - destruct (N.eqb_spec (t_free_root t) 0); [reflexivity|]. rewrite (horizon_oldest E t b Hb).
    rewrite (scan_none E (set_root t (t_free_root t)) b _ l e S F); [reflexivity|]. unfold SCAN_FUEL. lia.
Qed.
Lemma no_reuse_last E t n : no_reuse E t -> no_reuse E (set_last t n).
Proof.
  intros [Z|(l & e & b & Hb & S & Hl & F)]; [left; exact Z|]. right. exists l, e, b. split; [exact Hb|]. split; [|auto].
  rewrite <- (cursor_get_view E (free_view t) (free_view (set_last t n)) (fun q => eq_refl) eq_refl). apply (scans_view E (free_view t)); auto.
Qed.

(** ** C22 fresh allocation *)
(** allocate for each requested count in turn *)
Fixpoint alloc_all (E : env) (t : txn) (counts : list N) : out (list N) :=
  match counts with
  | [] => Ret [] t
  | n :: r => run pg, t1 <- db_page_alloc E t n ;; run l, t2 <- alloc_all E t1 r ;; Ret (pg :: l) t2
  end.
(** page numbers a, a+1, ..., a+n-1 *)
Fixpoint pages_from (a : N) (n : nat) : list N := match n with O => [] | Datatypes.S m => a :: pages_from (a + 1) m end.
(** all page numbers handed out: the [i]-th start covers the [i]-th count *)
Definition handed_out (starts counts : list N) : list N :=
  flat_map (fun p => pages_from (fst p) (N.to_nat (snd p))) (combine starts counts).
Definition nsum (l : list N) : N := fold_right N.add 0 l.

Lemma pages_from_app n : forall a m, pages_from a n ++ pages_from (a + N.of_nat n) m = pages_from a (n + m).
Proof.
  induction n as [|n IH]; intros a m; cbn [pages_from app Nat.add].
  - f_equal. lia.
  - rewrite <- IH. do 2 f_equal. f_equal. lia.
Qed.
Lemma pages_from_in n : forall a x, In x (pages_from a n) <-> a <= x < a + N.of_nat n.
Proof.
  induction n as [|n IH]; intros a x; cbn [pages_from In]; [lia|]. rewrite IH. lia.
Qed.
Lemma pages_from_nodup n : forall a, NoDup (pages_from a n).
Proof. induction n as [|n IH]; intro a; cbn [pages_from]; constructor; auto. rewrite pages_from_in. lia. Qed.

(** Requests that are not served from the Free DB: larger than one page, or nothing in
    the Free DB is reclaimable. *)
Theorem fresh_allocation : forall E counts t, t_rdonly t = false ->
  Forall (fun n => 1 <= n /\ (no_reuse E t \/ n <> 1)) counts ->
  exists starts t', alloc_all E t counts = Ret starts t' /\
    length starts = length counts /\
    t_last t' = t_last t + nsum counts /\
    NoDup (handed_out starts counts) /\
    forall pg, In pg (handed_out starts counts) <-> t_last t < pg <= t_last t'.
Proof.
  intros E counts t Hr HF.
  assert (G : exists starts t', alloc_all E t counts = Ret starts t' /\ length starts = length counts /\
     t_last t' = t_last t + nsum counts /\ handed_out starts counts = pages_from (t_last t + 1) (N.to_nat (nsum counts))).
  { revert t Hr HF. induction counts as [|n r IH]; intros t Hr HF.
    - exists [], t. cbn [alloc_all length nsum fold_right handed_out combine flat_map]. splits; auto. lia.
    - inversion HF as [|? ? [H1 HQ] HF']; subst.
      assert (A : db_page_alloc E t n = Ret (t_last t + 1) (set_last t (t_last t + n))).
      { unfold db_page_alloc, alloc_with. rewrite Hr. rewrite (proj2 (N.eqb_neq n 0)) by lia. cbn [orb].
        destruct (N.eqb_spec n 1) as [->|]; [|reflexivity]. destruct HQ as [HQ|HQ]; [|tauto].
        rewrite (reclaim_none E t _ HQ). reflexivity. }
      destruct (IH (set_last t (t_last t + n))) as (st & t' & B & C & D & F).
      { exact Hr. } { eapply Forall_impl; [|exact HF']. cbn beta. intros m [Hm [Hq|Hq]]; split; auto. left. apply no_reuse_last. exact Hq. }
      exists (t_last t + 1 :: st), t'. cbn [alloc_all]. rewrite A. cbn [bindo]. rewrite B. cbn [bindo]. splits.
      + reflexivity.
      + cbn [length]. congruence.
      + rewrite D. cbn [set_last t_last nsum fold_right]. fold (nsum r). lia.
      + cbn [handed_out combine flat_map]. unfold handed_out in F. cbn [combine flat_map fst snd]. rewrite F.
        cbn [set_last t_last nsum fold_right]. fold (nsum r). rewrite N2Nat.inj_add, <- pages_from_app. do 2 f_equal. lia. }
  destruct G as (st & t' & A & B & C & D). exists st, t'. splits; auto.
  - rewrite D. apply pages_from_nodup.
  - intro pg. rewrite D, pages_from_in, C. lia.
Qed.
Print Assumptions fresh_allocation.
Example fresh_allocation_case :
  match alloc_all env_create first_txn [1; 3; 1] with Ret s _ => s | _ => [] end = [2; 3; 6].
Proof. vm_compute. reflexivity. Qed.


(** ** C21 reuse *)
(** A page that is not fresh is the first one listed by a Free DB entry whose
    transaction id is below the writer's and below that of every registered reader.
    Missing for the full claim: that the pages listed there are not in use. *)
Theorem reuse_only_from_free_db_partial : forall E t pg t', scannable E (free_view t) -> t_rdonly t = false ->
  page_alloc E t = Ret pg t' ->
  t_last t < pg \/
  exists k d, db_get E (free_view t) k = Ok d /\ blen k = 8 /\ pg = le_val (firstn 8 d) mod 2 ^ 64 /\
    (registered E = [] -> le_val k < t_id t) /\ forall s, In s (registered E) -> le_val k < s_txnid s.
Proof.
  intros E t pg t' SC Hr H. destruct (horizon_ex E t) as (b & Hb). unfold page_alloc, ALLOC_FUEL in H.
  change (alloc_with (reclaim_with (db_put_with (alloc_fuel 15))) E t 1 = Ret pg t') in H.
  unfold alloc_with in H. rewrite Hr in H. cbn [orb] in H. replace (1 =? 0) with false in H by reflexivity. replace (1 =? 1) with true in H by reflexivity.
  cbn [orb] in H. set (al := alloc_fuel 15) in *.
  assert (LO : lout t (reclaim_with (db_put_with al) E t)) by (apply reclaim_lout; apply alloc_fuel_lout).
  destruct (reclaim_with (db_put_with al) E t) as [p t1|e t1| |] eqn:X; try discriminate.
  - injection H as -> <-. right. unfold reclaim_with in X. destruct (N.eqb_spec (t_free_root t) 0) as [|Nz]; [discriminate|].
    rewrite (horizon_oldest E t b Hb) in X. change (set_root t (t_free_root t)) with (free_view t) in X.
    destruct (reclaim_scan SCAN_FUEL E (free_view t) b (cursor_get E (free_view t) cursor_open FIRST)) as [((k, d), c0)|e| |] eqn:RS; try discriminate.
    destruct SC as [Z|(h & Hh & _ & T & HN)]; [cbn in Z; congruence|]. assert (Nz' : t_root (free_view t) <> 0) by exact Nz.
    pose proof (tree_shape _ _ _ _ _ _ T) as S.
    assert (C : no_empty_leaf (get_page E (free_view t)) h (t_root (free_view t)) \/ (h = 0%nat /\ leaf_entries (get_page E (free_view t) (t_root (free_view t))) = [])).
    { destruct HN as [->|]; auto. cbn [no_empty_leaf]. destruct (leaf_entries (get_page E (free_view t) (t_root (free_view t)))); auto. left. discriminate. }
    unfold cursor_get in RS. destruct C as [N|(-> & L)].
    + destruct (seek_first_ok E (free_view t) h Nz' Hh S N) as (c & kv & post & Y & A & _ & EK). rewrite Y, (fetch_ok _ _ _ _ A) in RS.
      destruct (scan_some E (free_view t) b _ c kv post k d c0 A RS) as (I & (R1 & R2 & R3 & R4)). cbn [fst snd] in *. rewrite <- EK in I.
      exists k, d. split; [|split; [exact R1|split]].
      * destruct (tree_bindings E (free_view t) h ltac:(lia) Nz' T) as (_ & _ & BB). apply BB; [lia|exact I].
      * destruct (update_reclaimed _ _ _ _ _ _) as [x t2|e t2| |]; try discriminate. injection X as <- _. reflexivity.
      * destruct Hb as [(U & ->)|(U & (I2 & M))].
        -- split; [auto|]. rewrite U. intros s [].
        -- split; [congruence|]. intros s Hs. eapply N.lt_le_trans; [exact R2|]. apply M. apply in_map. exact Hs.
    + destruct (root_leaf_empty E (free_view t) FIRST (or_introl eq_refl) Nz' S L) as (c & Y). rewrite Y in RS. unfold SCAN_FUEL in RS.
      destruct (N.to_nat 65536); discriminate.
  - injection H as <- <-. left. cbn [lout] in LO. pose proof (la_last _ _ LO). lia.
Qed.
Print Assumptions reuse_only_from_free_db_partial.

(** ** The hypotheses are met *)
Definition T6 : txn := begun E6.
Lemma free_leaf_scannable E : healthy E -> (m_free (live_meta E) =? 0) = false ->
  is_leaf (get_page E (begun E) (m_free (live_meta E))) = true -> scannable E (free_view (begun E)).
Proof.
  intros HH R L. pose proof (begun_is E (proj1 HH)) as B. pose proof (proj2 HH _ _ B) as (_ & (_ & T) & _).
  pose proof (begin_fields _ _ _ B) as (_ & Et). apply N.eqb_neq in R. right. exists 0%nat.
  change (set_root (begun E) (t_free_root (begun E))) with (free_view (begun E)) in T.
  assert (F : t_root (free_view (begun E)) = m_free (live_meta E)) by (rewrite Et; reflexivity). rewrite F in *.
  destruct T as [Z|(h & Hh & Nz & S & _)]; [congruence|]. split; [lia|]. split; [exact R|]. split; [|auto].
  change (get_page (set_locked E true) (free_view (begun E))) with (get_page E (free_view (begun E))) in S.
  destruct h as [|h].
  - cbn [tree shape] in *. destruct S as (S1 & S2 & S3). split; [exact S1|]. split; [exact S2|]. split; [exact S3|].
    rewrite Forall_forall. intros k _. split; exact I.
  - exfalso. cbn [shape] in S. destruct S as (_ & S & _). apply wf_is_leaf in S. change (get_page E (free_view (begun E))) with (get_page E (begun E)) in S. congruence.
Qed.
(** three transactions after the first have left three Free DB entries *)
Example reuse_case : scannable E6 (free_view T6) /\ t_rdonly T6 = false /\
  page_alloc E6 T6 = Ret 2 (ret_txn (page_alloc E6 T6)) /\ t_last T6 = 5.
Proof.
  destruct early_case as (A & B & C). destruct history_case as (H & F & _).
  pose proof (history_is_map_partial hist3 E3 E6 _ C B F H A) as (_ & HH & _).
  split; [apply free_leaf_scannable; [exact HH|vm_compute; reflexivity..]|].
  split; [vm_compute; reflexivity|]. split; [apply ret_is; vm_compute; reflexivity|vm_compute; reflexivity].
Qed.
(** with a reader of transaction 3 registered none of them may be reused *)
Fixpoint scan_list (fuel : nat) (E : env) (t : txn) (op : cop) (r : cout (bytes * bytes)) : option (list (bytes * bytes) * status) :=
  match fuel, r with
  | S f, CErr e _ => Some ([], e)
  | S f, COk kv c => match scan_list f E t op (cursor_get E t c op) with Some (l, e) => Some (kv :: l, e) | None => None end
  | _, _ => None
  end.
Lemma scan_list_ok E t op : forall fuel r l e, scan_list fuel E t op r = Some (l, e) -> scans E t op r l e.
Proof.
  induction fuel as [|f IH]; intros [kv c|e0 c| |] l e H; cbn [scan_list] in H; try discriminate.
  - destruct (scan_list f E t op _) as [(l', e')|] eqn:X; [|discriminate]. injection H as <- <-. constructor. apply IH. exact X.
  - injection H as <- <-. constructor.
Qed.
Definition E6r : env := set_readers E6 [mkSlot 7 8 3].
Example no_reuse_case : no_reuse E6r T6 /\ t_free_root T6 <> 0 /\ page_alloc E6r T6 = Ret 6 (ret_txn (page_alloc E6r T6)).
Proof.
  split; [|split; [vm_compute; discriminate|apply ret_is; vm_compute; reflexivity]]. right.
  exists [([3; 0; 0; 0; 0; 0; 0; 0], [2; 0; 0; 0; 0; 0; 0; 0; 4; 0; 0; 0; 0; 0; 0; 0]);
          ([4; 0; 0; 0; 0; 0; 0; 0], [3; 0; 0; 0; 0; 0; 0; 0; 4; 0; 0; 0; 0; 0; 0; 0]);
          ([5; 0; 0; 0; 0; 0; 0; 0], [3; 0; 0; 0; 0; 0; 0; 0; 4; 0; 0; 0; 0; 0; 0; 0])], NOTFOUND, 3.
  split; [right; split; [discriminate|]; split; [left; reflexivity|]; intros x [<-|[]]; cbn; lia|].
  split; [apply (scan_list_ok _ _ _ 5); vm_compute; reflexivity|]. split; [cbn; lia|].
  repeat constructor; intros (_ & X & _); vm_compute in X; discriminate.
Qed.
