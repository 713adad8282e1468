(** Proofs about the collection, hashing and reporting of files. *)
From Verif Require Import Util HeapModel HeapSpec HeapProofs CollectModel ProcessModel ReportSpec.
From Coq Require Import Sorting.Permutation Sorting.Sorted.
Local Open Scope Z_scope.

(** ** The heap of files *)
Lemma file_cmp_le a b : file_cmp a b <= 0 <-> f_size a <= f_size b.
Proof. unfold file_cmp. destruct (f_size a <? f_size b) eqn:E; [lia|]. destruct (f_size b <? f_size a) eqn:F; lia. Qed.

Lemma file_cmp_tp : total_preorder file_cmp.
Proof.
  split.
  - intros a b. unfold file_cmp.
    destruct (f_size a <? f_size b) eqn:E; destruct (f_size b <? f_size a) eqn:F; lia.
  - intros a b c. rewrite !file_cmp_le. lia.
Qed.

Definition hok (h : heap file) : Prop := hwf h /\ hord file_cmp (h_tree h).

Lemma hok_make : hok heap_make.
Proof. split; [apply hwf_make|apply hord_make]. Qed.

Lemma insert_ok h x : hok h ->
  exists h', heap_insert file_cmp h x = HOk h' /\ hok h' /\ Permutation (x :: h_tree h) (h_tree h').
Proof.
  intros [W O]. destruct (heap_insert_perm file_cmp h x W) as (h' & E & W' & P).
  exists h'. repeat split; auto. eapply heap_insert_ord; eauto using file_cmp_tp.
Qed.

(** [drains h l]: the elements extract returns, in order *)
Inductive drains : heap file -> list file -> Prop :=
| d_nil h h' : heap_extract file_cmp h = HOk (h', None) -> drains h []
| d_cons h h' x l : heap_extract file_cmp h = HOk (h', Some x) -> drains h' l -> drains h (x :: l).

Definition desc (a b : file) : Prop := f_size b <= f_size a.

Lemma drain_ok h : hok h ->
  exists l, drains h l /\ Permutation (h_tree h) l /\ StronglySorted desc l.
Proof.
  remember (length (h_tree h)) as n eqn:Hn. revert h Hn.
  induction n as [|n IH]; intros h Hn [W O];
    destruct (heap_extract_perm file_cmp h W) as (h' & r & E & W' & R); destruct r as [x|].
  - destruct R as [_ P]. apply Permutation_length in P. simpl in P. lia.
  - exists []. destruct R as [-> _]. repeat split; auto. econstructor; eauto. constructor.
  - destruct R as [R0 P].
    destruct (IH h') as (l & D & PL & SL).
    + apply Permutation_length in P. simpl in P. lia.
    + split; auto. eapply heap_extract_ord; eauto using file_cmp_tp.
    + exists (x :: l). repeat split.
      * econstructor; eauto.
      * now rewrite P, PL.
      * constructor; auto. apply Forall_forall. intros y Hy. unfold desc. apply file_cmp_le.
        eapply hord_max; eauto using file_cmp_tp. rewrite P. right. now rewrite PL.
  - destruct R as [R _]. rewrite R in Hn. discriminate.
Qed.

(** ** Tables *)
Definition keys (t : table) : list Z := map fs_val t.

Lemma tfind_val s t e : tfind s t = Some e -> fs_val e = s /\ In e t.
Proof.
  induction t as [|d t IH]; cbn [tfind]; [discriminate|].
  destruct (fs_val d =? s) eqn:E.
  - intros [= <-]. split; [lia|now left].
  - intros H. destruct (IH H). split; [auto|now right].
Qed.
Lemma tfind_keys s t : tfind s t = None <-> ~ In s (keys t).
Proof.
  induction t as [|d t IH]; cbn [tfind keys map]; [intuition|].
  destruct (fs_val d =? s) eqn:E.
  - split; [discriminate|]. intros H. destruct H. left. lia.
  - rewrite IH. cbn [In]. split; [intros H [F|F]; [lia|auto]|auto].
Qed.
Lemma keys_tupd e t : keys (tupd e t) = keys t.
Proof.
  induction t as [|d t IH]; cbn [tupd keys map]; auto.
  destruct (fs_val d =? fs_val e) eqn:E; cbn [map]; f_equal; auto. lia.
Qed.
Lemma tfind_tupd e t s : In (fs_val e) (keys t) ->
  tfind s (tupd e t) = if s =? fs_val e then Some e else tfind s t.
Proof.
  induction t as [|d t IH]; cbn [tupd keys map In tfind]; [intuition|].
  intros H. destruct (fs_val d =? fs_val e) eqn:E; cbn [tfind].
  - destruct (fs_val e =? s) eqn:F.
    + replace (s =? fs_val e) with true by lia. auto.
    + replace (s =? fs_val e) with false by lia. replace (fs_val d =? s) with false by lia. auto.
  - destruct H as [H|H]; [lia|]. destruct (fs_val d =? s) eqn:F.
    + replace (s =? fs_val e) with false by lia. auto.
    + now rewrite IH.
Qed.
Lemma keys_tremove s t : NoDup (keys t) -> forall x, In x (keys (tremove s t)) <-> In x (keys t) /\ x <> s.
Proof.
  induction t as [|d t IH]; cbn [tremove keys map In]; [intuition|].
  intros N x. inversion N as [|? ? N1 N2]; subst. destruct (fs_val d =? s) eqn:E; cbn [map In].
  - assert (fs_val d = s) by lia. subst. fold (keys t) in *. intuition congruence.
  - fold (keys (tremove s t)). fold (keys t) in *. rewrite (IH N2). intuition lia.
Qed.
Lemma nodup_tremove s t : NoDup (keys t) -> NoDup (keys (tremove s t)).
Proof.
  induction t as [|d t IH]; cbn [tremove keys map]; auto.
  intros N. inversion N as [|? ? N1 N2]; subst. destruct (fs_val d =? s) eqn:E; cbn [map]; auto.
  constructor; auto. intros H. apply (keys_tremove s t N2) in H. intuition.
Qed.
Lemma tfind_tremove s t x : NoDup (keys t) ->
  tfind x (tremove s t) = if x =? s then None else tfind x t.
Proof.
  induction t as [|d t IH]; cbn [tremove tfind keys map]; intros N.
  - now destruct (x =? s).
  - inversion N as [|? ? N1 N2]; subst. destruct (fs_val d =? s) eqn:E.
    + destruct (x =? s) eqn:F.
      * apply tfind_keys. assert (x = fs_val d) by lia. now subst.
      * replace (fs_val d =? x) with false by lia. auto.
    + cbn [tfind]. rewrite IH by auto. destruct (x =? s) eqn:F; [|auto].
      replace (fs_val d =? x) with false by lia. auto.
Qed.

(** ** Collection *)
Lemma of_size_perm s l l' : Permutation l l' -> Permutation (of_size s l) (of_size s l').
Proof.
  induction 1; cbn [of_size filter]; auto.
  - fold (of_size s l) (of_size s l'). destruct (f_size x =? s); auto.
  - fold (of_size s l). destruct (f_size y =? s), (f_size x =? s); auto. constructor.
  - etransitivity; eauto.
Qed.
Lemma of_size_app s l l' : of_size s (l ++ l') = of_size s l ++ of_size s l'.
Proof. apply filter_app. Qed.
Definition cnt (s : Z) (l : list file) : nat := length (of_size s l).
Lemma cnt_perm s l l' : Permutation l l' -> cnt s l = cnt s l'.
Proof. intros P. apply Permutation_length. now apply of_size_perm. Qed.
Lemma cnt_cons s f l : cnt s (f :: l) = if f_size f =? s then S (cnt s l) else cnt s l.
Proof. unfold cnt. cbn [of_size filter]. now destruct (f_size f =? s). Qed.
Lemma cnt_in f l : In f l -> (1 <= cnt (f_size f) l)%nat.
Proof.
  induction l as [|g l IH]; [contradiction|]. intros [->|H]; rewrite cnt_cons.
  - rewrite Z.eqb_refl. lia.
  - specialize (IH H). destruct (f_size g =? f_size f); lia.
Qed.

(** the state after the files [l] were collected *)
Definition collect_inv (l : list file) (st : coll) : Prop :=
  hok (co_heap st) /\ Permutation l (h_tree (co_heap st)) /\ NoDup (keys (co_sizes st)) /\
  forall s, tfind s (co_sizes st) = if (cnt s l =? 0)%nat then None else Some (mkFs s [] (cnt s l)).

Lemma collect_inv_empty : collect_inv [] coll_empty.
Proof.
  split; [apply hok_make|]. split; [constructor|]. split; [constructor|]. reflexivity.
Qed.

Lemma process_file_inv c p i l st : collect_inv l st ->
  exists st', process_file c p i st = HOk st' /\ collect_inv (rev (collected c [(p, i)]) ++ l) st'.
Proof.
  intros (H & P & N & T). unfold process_file, size_ok, collected. cbn [filter fst snd].
  destruct (_ && _); [|exists st; cbn; repeat split; auto; apply H].
  destruct (insert_ok (co_heap st) (mkFile p (i_size i) (prioritized c p)) H) as (h' & E & H' & P').
  rewrite E. set (f := mkFile p (i_size i) (prioritized c p)) in *.
  eexists. split; [reflexivity|]. cbn [map rev app fst snd]. fold f.
  split; [apply H'|]. split; [cbn [co_heap]; rewrite <- P'; now constructor|]. cbn [co_sizes].
  rewrite T. destruct (cnt (i_size i) l =? 0)%nat eqn:C.
  - split.
    + cbn [keys map fs_val]. constructor; auto. apply tfind_keys. rewrite T, C. auto.
    + intros s. cbn [tfind fs_val]. rewrite cnt_cons. cbn [f_size f]. destruct (i_size i =? s) eqn:F.
      * assert (i_size i = s) by lia. subst s. cbn [Nat.eqb]. f_equal. f_equal. lia.
      * apply T.
  - assert (K : In (i_size i) (keys (co_sizes st))).
    { destruct (in_dec Z.eq_dec (i_size i) (keys (co_sizes st))) as [I|I]; auto.
      apply tfind_keys in I. rewrite T, C in I. discriminate. }
    split.
    + now rewrite keys_tupd.
    + intros s. rewrite tfind_tupd by exact K. cbn [fs_val fs_arr fs_nb]. rewrite cnt_cons. cbn [f_size f].
      rewrite T. destruct (s =? i_size i) eqn:F.
      * replace (i_size i =? s) with true by lia. cbn [Nat.eqb].
        assert (i_size i = s) by lia. now subst s.
      * replace (i_size i =? s) with false by lia. auto.
Qed.

Lemma collected_cons c e l : collected c (e :: l) = collected c [e] ++ collected c l.
Proof. unfold collected. cbn [filter]. destruct (_ && _); reflexivity. Qed.

Lemma collect_inv_perm l l' st : Permutation l l' -> collect_inv l st -> collect_inv l' st.
Proof.
  intros P (H & Q & N & T). split; [auto|]. split; [now rewrite <- P|]. split; [auto|].
  intros s. now rewrite <- (cnt_perm s _ _ P).
Qed.

Lemma collect_files_inv c l : forall d st, collect_inv d st ->
  exists st', collect_files c l st = HOk st' /\ collect_inv (d ++ collected c l) st'.
Proof.
  induction l as [|[p i] l IH]; intros d st I; cbn [collect_files].
  - exists st. split; auto. cbn. now rewrite app_nil_r.
  - destruct (process_file_inv c p i d st I) as (st1 & E & I1). rewrite E.
    apply (collect_inv_perm _ (d ++ collected c [(p, i)])) in I1.
    2:{ rewrite Permutation_app_comm. apply Permutation_app_head. symmetry. apply Permutation_rev. }
    destruct (IH _ _ I1) as (st2 & E2 & I2). exists st2. split; auto.
    rewrite collected_cons, app_assoc. exact I2.
Qed.

(** ** Categorisation *)
Lemma cnt_app s l l' : cnt s (l ++ l') = (cnt s l + cnt s l')%nat.
Proof. unfold cnt. now rewrite of_size_app, app_length. Qed.
Definition direct (json : bool) (L : list file) (s : Z) : bool :=
  ((cnt s L =? 2)%nat || (s =? 0)) && negb json.
Lemma of_size_in s f L : In f (of_size s L) <-> In f L /\ f_size f = s.
Proof. unfold of_size. rewrite filter_In. intuition lia. Qed.
Lemma should_direct json L s arr : (2 <= cnt s L)%nat ->
  should_hash json (mkFs s arr (cnt s L)) = negb (direct json L s).
Proof.
  intros H. unfold should_hash, direct. cbn [fs_nb fs_val].
  destruct json; cbn [negb]; [rewrite andb_false_r; cbn [negb]; lia|].
  destruct (s =? 0); cbn [negb]; rewrite ?andb_true_r, ?andb_false_r, ?orb_true_r, ?orb_false_r; cbn [negb]; lia.
Qed.
Lemma filter_or_perm {A} (p q : A -> bool) l : (forall x, p x && q x = false) ->
  Permutation (filter (fun x => p x || q x) l) (filter p l ++ filter q l).
Proof.
  intros D. induction l as [|x l IH]; cbn [filter]; auto. specialize (D x).
  destruct (p x), (q x); cbn [orb andb] in *; try discriminate; cbn [app]; auto.
  rewrite IH. apply Permutation_middle.
Qed.
Lemma sizes_perm L ks : NoDup ks ->
  Permutation (flat_map (fun s => of_size s L) ks) (filter (fun f => existsb (Z.eqb (f_size f)) ks) L).
Proof.
  induction ks as [|s ks IH]; intros N; cbn [flat_map existsb].
  - clear. induction L; cbn; auto.
  - inversion N as [|? ? N1 N2]; subst. etransitivity; [apply Permutation_app_head, IH; auto|].
    symmetry. apply (filter_or_perm (fun f => f_size f =? s) (fun f => existsb (Z.eqb (f_size f)) ks)).
    intros f. destruct (f_size f =? s) eqn:E; auto. cbn [andb].
    destruct (existsb (Z.eqb (f_size f)) ks) eqn:X; auto.
    apply existsb_exists in X as (y & Iy & Ey). destruct N1. now replace s with y by lia.
Qed.
Definition cell_files (ks : list chk) : list file :=
  flat_map (fun k => match k_file k with Some f => [f] | None => [] end) ks.
Lemma insert_all_ok ks : forall th, hok th ->
  exists th', insert_all ks th = Some th' /\ hok th' /\ Permutation (cell_files ks ++ h_tree th) (h_tree th').
Proof.
  induction ks as [|k ks IH]; intros th H; cbn [insert_all].
  - exists th. auto.
  - destruct (k_file k) as [f|] eqn:K.
    + destruct (insert_ok th f H) as (th1 & E & H1 & P1). rewrite E.
      destruct (IH _ H1) as (th2 & E2 & H2 & P2). exists th2. split; auto. split; auto.
      unfold cell_files. cbn [flat_map]. rewrite K. cbn [app]. rewrite <- P2, <- P1. apply Permutation_middle.
    + destruct (IH _ H) as (th2 & E2 & H2 & P2). exists th2. split; auto. split; auto.
      unfold cell_files. cbn [flat_map]. rewrite K. exact P2.
Qed.
Definition contrib (json : bool) (e : fsize) : list file :=
  if should_hash json e then cell_files (fs_arr e) else [].
Lemma collect_ok json es : forall th, hok th ->
  exists th', collect json es th = Some th' /\ hok th' /\
    Permutation (flat_map (contrib json) es ++ h_tree th) (h_tree th').
Proof.
  induction es as [|e es IH]; intros th H; cbn [collect].
  - exists th. auto.
  - unfold contrib. cbn [flat_map]. destruct (should_hash json e).
    + destruct (insert_all_ok (fs_arr e) th H) as (th1 & E & H1 & P1). rewrite E.
      destruct (IH _ H1) as (th2 & E2 & H2 & P2). exists th2. split; auto. split; auto.
      rewrite <- P2, <- P1. rewrite !app_assoc. apply Permutation_app_tail. apply Permutation_app_comm.
    + destruct (IH _ H) as (th2 & E2 & H2 & P2). exists th2. auto.
Qed.

Section Pr.
Set Default Proof Using "All".
Variable hash_of : file -> option N.
Variable junk : file -> N.

(** cells of the files of [l] written before hashing ([L]: all the collected files) *)
Definition cell0 (json : bool) (L : list file) (f : file) : chk :=
  mkChk (if direct json L (f_size f) then 0%N else junk f) (Some f).
Definition entry0 (json : bool) (L d : list file) (s : Z) : option fsize :=
  if (cnt s L =? 0)%nat then None
  else if (cnt s L =? 1)%nat then (if (cnt s d =? 0)%nat then Some (mkFs s [] 1) else None)
  else Some (mkFs s (map (cell0 json L) (of_size s d)) (cnt s L)).
Definition is_direct (json : bool) (L : list file) (f : file) : bool :=
  (2 <=? cnt (f_size f) L)%nat && direct json L (f_size f).
Definition is_hashed (json : bool) (L : list file) (f : file) : bool :=
  (2 <=? cnt (f_size f) L)%nat && negb (direct json L (f_size f)).


Lemma categorize_ok json L r : forall d fuel h t th n,
  d ++ r = L -> (length r < fuel)%nat -> drains h r ->
  NoDup (keys t) -> (forall s, tfind s t = entry0 json L d s) ->
  hok th -> Permutation (filter (is_direct json L) d) (h_tree th) ->
  n = length (filter (is_hashed json L) d) ->
  exists t' th', categorize junk fuel json h t th n = (SOk, t', th', length (filter (is_hashed json L) L)) /\
    NoDup (keys t') /\ (forall s, tfind s t' = entry0 json L L s) /\ hok th' /\
    Permutation (filter (is_direct json L) L) (h_tree th').
Proof.
  induction r as [|f r IH]; intros d fuel h t th n EL F D N T HT PT Hn;
    (destruct fuel as [|fu]; [simpl in F; lia|]); cbn [categorize].
  - inversion D as [h0 h' E|]; subst h0. rewrite E. rewrite app_nil_r in EL. subst d n. eauto 10.
  - inversion D as [|h0 h' x l E D']; subst. rewrite E.
    set (L := d ++ f :: r) in *.
    assert (C1 : cnt (f_size f) L = (S (cnt (f_size f) d + cnt (f_size f) r))%nat).
    { unfold L. rewrite cnt_app, cnt_cons, Z.eqb_refl. lia. }
    assert (EL : (d ++ [f]) ++ r = L) by (unfold L; rewrite <- app_assoc; reflexivity).
    assert (CD : forall s, cnt s (d ++ [f]) = if f_size f =? s then S (cnt s d) else cnt s d).
    { intros s. rewrite cnt_app, cnt_cons. cbn. destruct (f_size f =? s); lia. }
    assert (F' : (length r < fu)%nat) by (simpl in F; lia).
    rewrite T. unfold entry0. rewrite C1. cbn [Nat.eqb].
    destruct (cnt (f_size f) d + cnt (f_size f) r =? 0)%nat eqn:C2.
    + replace (cnt (f_size f) d =? 0)%nat with true by lia. cbn [fs_nb Nat.eqb fs_val].
      eapply (IH (d ++ [f])); eauto.
      * now apply nodup_tremove.
      * intros s. rewrite tfind_tremove by auto. rewrite T. unfold entry0.
        rewrite CD. destruct (f_size f =? s) eqn:G.
        -- assert (f_size f = s) by lia. subst s. rewrite Z.eqb_refl, C1. cbn [Nat.eqb]. now rewrite C2.
        -- replace (s =? f_size f) with false by lia. rewrite of_size_app. cbn [of_size filter].
           rewrite G. now rewrite app_nil_r.
      * rewrite filter_app. cbn [filter]. unfold is_direct at 2. rewrite C1.
        replace (2 <=? S _)%nat with false by lia. cbn [andb]. now rewrite app_nil_r.
      * rewrite filter_app. cbn [filter]. unfold is_hashed at 3. rewrite C1.
        replace (2 <=? S _)%nat with false by lia. cbn [andb]. now rewrite app_nil_r.
    + cbn [fs_nb fs_val fs_arr]. unfold fs_ck. cbn [fs_arr]. rewrite map_length. fold (cnt (f_size f) d).
      replace (S (cnt (f_size f) d + cnt (f_size f) r) =? 1)%nat with false by lia.
      replace (S (cnt (f_size f) d + cnt (f_size f) r) <=? cnt (f_size f) d)%nat with false by lia.
      assert (K : In (f_size f) (keys t)).
      { destruct (in_dec Z.eq_dec (f_size f) (keys t)) as [I|I]; auto.
        apply tfind_keys in I. rewrite T in I. unfold entry0 in I. rewrite C1 in I.
        cbn [Nat.eqb] in I. rewrite C2 in I. discriminate. }
      rewrite <- C1. change (((cnt (f_size f) L =? 2)%nat || (f_size f =? 0)) && negb json) with (direct json L (f_size f)).
      assert (TT : forall hv, (hv = if direct json L (f_size f) then 0%N else junk f) -> forall s,
         tfind s (tupd (mkFs (f_size f) (map (cell0 json L) (of_size (f_size f) d) ++ [mkChk hv (Some f)]) (cnt (f_size f) L)) t)
         = entry0 json L (d ++ [f]) s).
      { intros hv -> s. rewrite tfind_tupd by exact K. cbn [fs_val]. rewrite T. unfold entry0.
        rewrite of_size_app, CD. cbn [of_size filter]. destruct (s =? f_size f) eqn:G.
        - assert (f_size f = s) by lia. subst s. rewrite Z.eqb_refl, C1. cbn [Nat.eqb]. rewrite C2.
          rewrite map_app. reflexivity.
        - replace (f_size f =? s) with false by lia. now rewrite app_nil_r. }
      destruct (direct json L (f_size f)) eqn:DI.
      * destruct (insert_ok th f HT) as (th' & ET & HT' & PT'). rewrite ET.
        eapply (IH (d ++ [f])); eauto.
        -- now rewrite keys_tupd.
        -- rewrite filter_app. cbn [filter]. unfold is_direct at 2. rewrite DI, C1.
           replace (2 <=? S _)%nat with true by lia. cbn [andb].
           rewrite <- PT', <- PT. symmetry. apply Permutation_cons_append.
        -- rewrite filter_app. cbn [filter]. unfold is_hashed at 3. rewrite DI. rewrite andb_false_r.
           now rewrite app_nil_r.
      * eapply (IH (d ++ [f])); eauto.
        -- now rewrite keys_tupd.
        -- rewrite filter_app. cbn [filter]. unfold is_direct at 2. rewrite DI, andb_false_r.
           now rewrite app_nil_r.
        -- rewrite filter_app, app_length. cbn [filter]. unfold is_hashed at 3. rewrite DI, C1.
           replace (2 <=? S _)%nat with true by lia. cbn. lia.
Qed.

(** ** Hashing *)
Definition hv_of (json : bool) (L : list file) (f : file) : N :=
  if direct json L (f_size f) then 0%N
  else match hash_of f with Some h => h | None => junk f end.
Definition cell (json : bool) (L : list file) (f : file) : chk := mkChk (hv_of json L f) (Some f).
Definition entry (json : bool) (L : list file) (s : Z) : option fsize :=
  if (2 <=? cnt s L)%nat then Some (mkFs s (map (cell json L) (of_size s L)) (cnt s L)) else None.
Definition disp1 (json : bool) (e : fsize) : fsize :=
  if should_hash json e then mkFs (fs_val e) (map (hash_cell hash_of) (fs_arr e)) (fs_nb e) else e.

Lemma disp1_val json e : fs_val (disp1 json e) = fs_val e.
Proof. unfold disp1. now destruct should_hash. Qed.
Lemma keys_dispatch json t : keys (dispatch hash_of json t) = keys t.
Proof.
  induction t as [|e t IH]; cbn [dispatch keys map]; auto. f_equal; [apply disp1_val|exact IH].
Qed.
Lemma tfind_dispatch json t s :
  tfind s (dispatch hash_of json t) = option_map (disp1 json) (tfind s t).
Proof.
  induction t as [|e t IH]; cbn [dispatch map tfind]; auto. fold (disp1 json e).
  rewrite disp1_val. destruct (fs_val e =? s); auto.
Qed.

Lemma entry0_full json L s : entry0 json L L s =
  if (2 <=? cnt s L)%nat then Some (mkFs s (map (cell0 json L) (of_size s L)) (cnt s L)) else None.
Proof.
  unfold entry0. destruct (cnt s L) as [|[|n]] eqn:E; reflexivity.
Qed.



Lemma dispatch_entry json L t : (forall s, tfind s t = entry0 json L L s) ->
  forall s, tfind s (dispatch hash_of json t) = entry json L s.
Proof.
  intros T s. rewrite tfind_dispatch, T, entry0_full. unfold entry.
  destruct (2 <=? cnt s L)%nat eqn:C; cbn [option_map]; auto. f_equal.
  unfold disp1. rewrite should_direct by lia. cbn [fs_val fs_arr fs_nb].
  destruct (direct json L s) eqn:D; cbn [negb]; f_equal; rewrite ?map_map; apply map_ext_in;
    intros f Hf; apply of_size_in in Hf as [_ <-]; unfold cell0, cell, hash_cell, hv_of; rewrite D.
  - reflexivity.
  - cbn [k_file]. now destruct (hash_of f).
Qed.

Lemma nodirect_entry json L : filter (is_hashed json L) L = [] ->
  forall s, entry0 json L L s = entry json L s.
Proof.
  intros F s. rewrite entry0_full. unfold entry. destruct (2 <=? cnt s L)%nat eqn:C; auto.
  f_equal. f_equal. apply map_ext_in. intros f Hf. apply of_size_in in Hf as [If <-].
  unfold cell0, cell, hv_of. destruct (direct json L (f_size f)) eqn:D; auto.
  assert (I : In f (filter (is_hashed json L) L)).
  { apply filter_In. split; auto. unfold is_hashed. rewrite C, D. reflexivity. }
  rewrite F in I. destruct I.
Qed.



Lemma cell_files_cells json L l : cell_files (map (cell json L) l) = l.
Proof. induction l as [|f l IH]; cbn; auto. unfold cell_files in IH. now rewrite IH. Qed.


Lemma contrib_keys json L t : NoDup (keys t) -> (forall s, tfind s t = entry json L s) ->
  Permutation (flat_map (contrib json) t) (filter (is_hashed json L) L).
Proof.
  intros N T.
  assert (K : forall s, In s (keys t) <-> (2 <= cnt s L)%nat).
  { intros s. destruct (tfind s t) eqn:E.
    - destruct (in_dec Z.eq_dec s (keys t)) as [I|I]; [|apply tfind_keys in I; congruence].
      rewrite T in E. unfold entry in E. destruct (2 <=? cnt s L)%nat eqn:C; [|discriminate]. split; auto. lia.
    - assert (I := E). apply tfind_keys in I. rewrite T in E. unfold entry in E.
      destruct (2 <=? cnt s L)%nat eqn:C; [discriminate|]. split; [intuition|lia]. }
  set (sh := fun s => negb (direct json L s)).
  assert (E : flat_map (contrib json) t = flat_map (fun s => of_size s L) (filter sh (keys t))).
  { assert (T' : forall e, In e t -> tfind (fs_val e) t = Some e).
    { clear -N. induction t as [|d t IH]; [contradiction|]. inversion N as [|? ? N1 N2]; subst.
      intros e [->|I]; cbn [tfind]; [now rewrite Z.eqb_refl|].
      destruct (fs_val d =? fs_val e) eqn:E; auto. destruct N1.
      replace (fs_val d) with (fs_val e) by lia. now apply in_map. }
    assert (TE : forall e, In e t -> Some e = entry json L (fs_val e)).
    { intros e I. now rewrite <- T, T'. }
    clear N T K T'. induction t as [|e t IH]; cbn [flat_map keys map filter]; auto.
    rewrite IH by (intros; apply TE; now right).
    assert (X := TE e (or_introl eq_refl)). unfold entry in X.
    destruct (2 <=? cnt (fs_val e) L)%nat eqn:C; [|discriminate]. injection X as X.
    assert (SE : should_hash json e = sh (fs_val e)).
    { rewrite X at 1. apply should_direct. lia. }
    unfold contrib. rewrite SE.
    destruct (sh (fs_val e)); cbn [flat_map]; auto. f_equal.
    replace (fs_arr e) with (map (cell json L) (of_size (fs_val e) L)) by (rewrite X; reflexivity).
    apply cell_files_cells. }
  rewrite E. rewrite sizes_perm by (apply NoDup_filter; exact N).
  erewrite filter_ext_in; [reflexivity|]. intros f If. unfold is_hashed.
  change (negb (direct json L (f_size f))) with (sh (f_size f)).
  destruct (existsb _ _) eqn:X.
  - apply existsb_exists in X as (y & Iy & Ey). apply filter_In in Iy as [Iy Sy].
    assert (f_size f = y) by lia. subst y. apply K in Iy. rewrite Sy. lia.
  - destruct (2 <=? cnt (f_size f) L)%nat eqn:C; auto. destruct (sh (f_size f)) eqn:S; auto.
    rewrite <- X. apply existsb_exists. exists (f_size f). split; [|lia].
    apply filter_In. split; auto. apply K. lia.
Qed.

(** the state after ft_process_files for the files [L] in the order the heap delivered *)
Definition multi (L : list file) : list file := filter (fun f => (2 <=? cnt (f_size f) L)%nat) L.
Definition processed (json : bool) (L : list file) (st : coll) : Prop :=
  hok (co_heap st) /\ Permutation (multi L) (h_tree (co_heap st)) /\ NoDup (keys (co_sizes st)) /\
  forall s, tfind s (co_sizes st) = entry json L s.

Variable iter : table -> table.
Hypothesis IT : visits_all iter.

Lemma process_files_ok json L l st : collect_inv L st -> drains (co_heap st) l ->
  Permutation L l ->
  exists st', process_files hash_of junk iter json st = (SOk, st') /\ processed json l st'.
Proof.
  intros (H & P & N & T) D PLl.
  assert (PL : Permutation (h_tree (co_heap st)) l) by (now rewrite <- P).
  destruct (categorize_ok json l l [] (S (length (h_tree (co_heap st)))) (co_heap st) (co_sizes st) heap_make 0)
    as (t & th & E & Nt & Tt & Ht & Pt).
  - reflexivity.
  - rewrite (Permutation_length PL). lia.
  - exact D.
  - exact N.
  - intros s. rewrite T, (cnt_perm s _ _ PLl). unfold entry0.
    destruct (cnt s l) as [|[|n]]; reflexivity.
  - apply hok_make.
  - constructor.
  - reflexivity.
  - unfold process_files. rewrite E.
    assert (M : Permutation (multi l) (filter (is_hashed json l) l ++ filter (is_direct json l) l)).
    { rewrite <- filter_or_perm.
      - unfold multi. erewrite filter_ext; [reflexivity|]. intros f. unfold is_hashed, is_direct.
        destruct (2 <=? cnt (f_size f) l)%nat; cbn; auto. now destruct direct.
      - intros f. unfold is_hashed, is_direct. destruct direct; cbn; now rewrite ?andb_false_r. }
    destruct (filter (is_hashed json l) l) as [|x xs] eqn:Fh; cbn [length].
    + exists (mkColl th t). repeat split; auto; cbn [co_heap co_sizes]; try apply Ht.
      * rewrite M. exact Pt.
      * intros s. rewrite Tt. now apply nodirect_entry.
    + destruct (collect_ok json (iter (dispatch hash_of json t)) th Ht) as (th' & Ec & Hc & Pc).
      rewrite Ec. exists (mkColl th' (dispatch hash_of json t)).
      assert (TD := dispatch_entry json l t Tt).
      repeat split; auto; cbn [co_heap co_sizes]; try apply Hc.
      * rewrite M, <- Pc. rewrite Pt. apply Permutation_app_tail.
        rewrite <- Fh, <- (contrib_keys json l (dispatch hash_of json t)); auto.
        -- apply Permutation_flat_map. apply IT.
        -- now rewrite keys_dispatch.
      * now rewrite keys_dispatch.
Qed.
End Pr.
