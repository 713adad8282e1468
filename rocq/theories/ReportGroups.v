(** Proofs about the report loops and the groups they print. *)
From Verif Require Import Util HeapModel HeapSpec HeapProofs CollectModel ProcessModel ReportSpec ReportProofs.
From Coq Require Import Sorting.Permutation Sorting.Sorted.
Local Open Scope Z_scope.

(** ** Consecutive sizes of a sorted list *)
Fixpoint size_seq (old : Z) (l : list file) : list Z :=
  match l with
  | [] => []
  | f :: r => if f_size f =? old then size_seq old r else f_size f :: size_seq (f_size f) r
  end.

Lemma size_seq_in l : forall old s, In s (size_seq old l) -> exists f, In f l /\ f_size f = s.
Proof.
  induction l as [|f l IH]; intros old s; cbn [size_seq]; [contradiction|].
  destruct (f_size f =? old).
  - intros H. destruct (IH _ _ H) as (g & I & E). exists g. split; auto. now right.
  - intros [<-|H]; [exists f; split; auto; now left|].
    destruct (IH _ _ H) as (g & I & E). exists g. split; auto. now right.
Qed.
Lemma size_seq_all l : forall old f, In f l -> f_size f <> old -> In (f_size f) (size_seq old l).
Proof.
  induction l as [|g l IH]; intros old f I NE; [contradiction|]. cbn [size_seq].
  destruct I as [->|I].
  - replace (f_size f =? old) with false by lia. now left.
  - destruct (f_size g =? old) eqn:E; [now apply IH|].
    destruct (Z.eq_dec (f_size f) (f_size g)) as [X|X]; [left; lia|right; now apply IH].
Qed.
Lemma size_seq_sorted l : forall old, StronglySorted desc l -> (forall f, In f l -> f_size f <= old) ->
  StronglySorted Z.gt (size_seq old l) /\ Forall (fun s => s < old) (size_seq old l).
Proof.
  induction l as [|f l IH]; intros old S B; cbn [size_seq]; [split; constructor|].
  inversion S as [|? ? S1 S2]; subst. destruct (f_size f =? old) eqn:E.
  - apply IH; auto. intros g I. apply B. now right.
  - rewrite Forall_forall in S2. destruct (IH (f_size f) S1) as [A C].
    + intros g I. apply (S2 _ I).
    + assert (f_size f <= old) by (apply B; now left). split.
      * constructor; auto. eapply Forall_impl; [|exact C]. cbn. lia.
      * constructor; [lia|]. eapply Forall_impl; [|exact C]. cbn. lia.
Qed.
Lemma size_seq_start l old old' : (forall f, In f l -> f_size f <> old) -> (forall f, In f l -> f_size f <> old') ->
  size_seq old l = size_seq old' l.
Proof.
  destruct l as [|f l]; cbn [size_seq]; auto. intros A B.
  assert (f_size f <> old) by (apply A; now left). assert (f_size f <> old') by (apply B; now left).
  replace (f_size f =? old) with false by lia. replace (f_size f =? old') with false by lia. auto.
Qed.

Lemma desc_unique (a : list Z) : forall b, StronglySorted Z.gt a -> StronglySorted Z.gt b ->
  (forall s, In s a <-> In s b) -> a = b.
Proof.
  induction a as [|x a IH]; intros [|y b] A B E; auto.
  - destruct (proj2 (E y)); now left.
  - destruct (proj1 (E x)); now left.
  - inversion A as [|? ? A1 A2]; inversion B as [|? ? B1 B2]; subst.
    rewrite Forall_forall in A2, B2.
    assert (x = y).
    { destruct (proj1 (E x)) as [|H]; [now left|auto|]. apply B2 in H.
      destruct (proj2 (E y)) as [|H']; [now left|auto|]. apply A2 in H'. lia. }
    subst y. f_equal. apply IH; auto. intros s. split; intros I.
    + destruct (proj1 (E s)) as [<-|]; auto; [now right|]. apply A2 in I. lia.
    + destruct (proj2 (E s)) as [<-|]; auto; [now right|]. apply B2 in I. lia.
Qed.

(** ** The loop over the heap is a loop over the sizes *)
Fixpoint fold_sizes {G} (one : Z -> list G * status) (ss : list Z) : list G * status :=
  match ss with
  | [] => ([], SOk)
  | s :: r => match one s with
              | (gs, SOk) => let '(gs', st) := fold_sizes one r in (gs ++ gs', st)
              | (gs, st) => (gs, st)
              end
  end.

Lemma multi_in L f : In f (multi L) <-> In f L /\ (2 <= cnt (f_size f) L)%nat.
Proof. unfold multi. rewrite filter_In. intuition lia. Qed.
Lemma cnt_multi L s : (2 <= cnt s L)%nat -> exists f, In f (multi L) /\ f_size f = s.
Proof.
  intros H. unfold cnt in H. destruct (of_size s L) as [|f r] eqn:E; [simpl in H; lia|].
  assert (I : In f (of_size s L)) by (rewrite E; now left).
  apply of_size_in in I as [I X]. exists f. split; [|exact X]. apply multi_in. split; [exact I|].
  rewrite X. unfold cnt. rewrite E. exact H.
Qed.
Lemma collected_nonneg c l : sizes_ok l -> forall f, In f (collected c l) -> 0 <= f_size f.
Proof.
  intros S f I. unfold collected in I. apply in_map_iff in I as (e & <- & I). apply filter_In in I as [I _].
  unfold sizes_ok in S. rewrite Forall_forall in S. now apply S.
Qed.
Lemma drains_fun h l : drains h l -> forall l', drains h l' -> l = l'.
Proof.
  induction 1 as [h h' E|h h' x l E D IH]; intros l' D'; inversion D'; subst; try congruence.
  rewrite E in H. injection H as <- <-. f_equal. now apply IH.
Qed.
(** the list of sizes reported, and the whole runs *)
Definition sizes_list (L : list file) (ss : list Z) : Prop :=
  StronglySorted Z.gt ss /\ forall s, In s ss <-> (2 <= cnt s L)%nat.

Section Gr.
Set Default Proof Using "All".
Variable hash_of : file -> option N.
Variable junk : file -> N.
Variable compare : file -> file -> cmpres.
Variable qsort : (chk -> chk -> Z) -> list chk -> list chk.
Variable iter : table -> table.

Definition the_entry (json : bool) (L : list file) (s : Z) : fsize :=
  mkFs s (map (cell hash_of junk json L) (of_size s L)) (cnt s L).

Lemma report_loop_sizes L l : forall fuel old h t,
  drains h l -> (length l < fuel)%nat -> StronglySorted desc l ->
  (forall f, In f l -> f_size f <= old) \/ (forall f, In f l -> f_size f <> old) ->
  (forall f, In f l -> f_size f <> old -> tfind (f_size f) t = Some (the_entry false L (f_size f))) ->
  report_loop compare qsort fuel old h t =
    fold_sizes (fun s => report_size compare qsort (the_entry false L s)) (size_seq old l).
Proof.
  induction l as [|f l IH]; intros fuel old h t D F S B T; (destruct fuel as [|fu]; [simpl in F; lia|]);
    cbn [report_loop size_seq].
  - inversion D as [? h' E|]; subst. now rewrite E.
  - inversion D as [|? h' ? ? E D']; subst. rewrite E.
    inversion S as [|? ? S1 S2]; subst. rewrite Forall_forall in S2.
    simpl in F. destruct (f_size f =? old) eqn:X.
    + apply IH; [exact D'|lia|exact S1| |].
      * destruct B as [B|B]; [left|right]; intros g I; apply B; now right.
      * intros g I NE. apply T; auto. now right.
    + rewrite T by (try (now left); lia). cbn [fold_sizes].
      destruct (report_size compare qsort (the_entry false L (f_size f))) as [gs st]; destruct st; auto.
      rewrite (IH fu _ h' _ D'); [reflexivity|lia|exact S1|left; exact S2|].
      intros g I NE. cbn [fs_val the_entry fs_nb]. rewrite tfind_tupd.
      * cbn [fs_val]. replace (f_size g =? f_size f) with false by lia. apply T; [now right|].
        destruct B as [B|B]; [|apply B; now right].
        apply S2 in I. unfold desc in I. specialize (B f (or_introl eq_refl)). lia.
      * cbn [fs_val]. destruct (in_dec Z.eq_dec (f_size f) (keys t)) as [K|K]; auto.
        apply tfind_keys in K. rewrite T in K; [discriminate|now left|lia].
Qed.
Lemma json_loop_sizes L l : forall fuel old h t,
  drains h l -> (length l < fuel)%nat -> StronglySorted desc l ->
  (forall f, In f l -> f_size f <= old) \/ (forall f, In f l -> f_size f <> old) ->
  (forall f, In f l -> f_size f <> old -> tfind (f_size f) t = Some (the_entry true L (f_size f))) ->
  json_loop compare qsort fuel old h t =
    fold_sizes (fun s => json_size compare qsort (the_entry true L s)) (size_seq old l).
Proof.
  induction l as [|f l IH]; intros fuel old h t D F S B T; (destruct fuel as [|fu]; [simpl in F; lia|]);
    cbn [json_loop size_seq].
  - inversion D as [? h' E|]; subst. now rewrite E.
  - inversion D as [|? h' ? ? E D']; subst. rewrite E.
    inversion S as [|? ? S1 S2]; subst. rewrite Forall_forall in S2.
    simpl in F. destruct (f_size f =? old) eqn:X.
    + apply IH; [exact D'|lia|exact S1| |].
      * destruct B as [B|B]; [left|right]; intros g I; apply B; now right.
      * intros g I NE. apply T; auto. now right.
    + rewrite T by (try (now left); lia). cbn [fold_sizes].
      destruct (json_size compare qsort (the_entry true L (f_size f))) as [gs st]; destruct st; auto.
      rewrite (IH fu _ h' _ D'); [reflexivity|lia|exact S1|left; exact S2|].
      intros g I NE. cbn [fs_val the_entry fs_nb]. rewrite tfind_tupd.
      * cbn [fs_val]. replace (f_size g =? f_size f) with false by lia. apply T; [now right|].
        destruct B as [B|B]; [|apply B; now right].
        apply S2 in I. unfold desc in I. specialize (B f (or_introl eq_refl)). lia.
      * cbn [fs_val]. destruct (in_dec Z.eq_dec (f_size f) (keys t)) as [K|K]; auto.
        apply tfind_keys in K. rewrite T in K; [discriminate|now left|lia].
Qed.

Hypothesis IT : visits_all iter.



Lemma processed_sizes json L st : processed hash_of junk json L st -> (forall f, In f L -> 0 <= f_size f) ->
  exists l ss, drains (co_heap st) l /\ StronglySorted desc l /\ Permutation (multi L) l /\
    (forall f, In f l -> 0 <= f_size f) /\
    (forall f, In f l -> tfind (f_size f) (co_sizes st) = Some (the_entry json L (f_size f))) /\
    ss = size_seq (-1) l /\ sizes_list L ss.
Proof.
  intros (H & P & N & T) NN. destruct (drain_ok _ H) as (l & D & PL & SL).
  assert (PM : Permutation (multi L) l) by (now rewrite P).
  assert (NL : forall f, In f l -> 0 <= f_size f).
  { intros f I. apply (Permutation_in f (Permutation_sym PM)) in I. apply multi_in in I. now apply NN. }
  exists l, (size_seq (-1) l). repeat split; auto.
  - intros f I. rewrite T. unfold entry.
    apply (Permutation_in f (Permutation_sym PM)) in I. apply multi_in in I.
    now replace (2 <=? cnt (f_size f) L)%nat with true by lia.
  - destruct l as [|f l]; [constructor|].
    rewrite (size_seq_start _ (-1) (f_size f + 1)).
    + apply size_seq_sorted; auto. intros g [->|I]; [lia|]. inversion SL as [|? ? S1 S2]; subst.
      rewrite Forall_forall in S2. apply S2 in I. unfold desc in I. lia.
    + intros g I. apply NL in I. lia.
    + intros g [->|I]; [lia|]. inversion SL as [|? ? S1 S2]; subst.
      rewrite Forall_forall in S2. apply S2 in I. unfold desc in I. lia.
  - intros I. apply size_seq_in in I as (f & I & <-).
    apply (Permutation_in f (Permutation_sym PM)) in I. now apply multi_in in I.
  - intros C. apply cnt_multi in C as (f & I & <-). apply (Permutation_in f PM) in I.
    apply size_seq_all; auto. apply NL in I. lia.
Qed.



(** what the text and the JSON run print, in terms of one and the same list [L] of the
    collected files *)
Lemma runs_ok c l : sizes_ok l -> collected c l <> [] ->
  exists L ss, Permutation (collected c l) L /\ sizes_list L ss /\
    run_text hash_of junk compare qsort iter c l =
      fold_sizes (fun s => report_size compare qsort (the_entry false L s)) ss /\
    run_json hash_of junk compare qsort iter c l =
      match fold_sizes (fun s => json_size compare qsort (the_entry true L s)) ss with
      | (gs, SOk) => (gs, SOk) | (_, s) => ([], s) end.
Proof.
  intros S NE. destruct (collect_files_inv c l [] _ collect_inv_empty) as (st & E & I). cbn [app] in I.
  assert (HI := I). destruct HI as (H & P & _ & _).
  destruct (drain_ok _ H) as (L & D & PL & SL).
  assert (PC : Permutation (collected c l) L) by (now rewrite P).
  assert (NN : forall f, In f L -> 0 <= f_size f).
  { intros f If. apply (Permutation_in f (Permutation_sym PC)) in If. eapply collected_nonneg; eauto. }
  destruct (process_files_ok hash_of junk iter IT false _ _ _ I D PC) as (s1 & E1 & P1).
  destruct (process_files_ok hash_of junk iter IT true _ _ _ I D PC) as (s2 & E2 & P2).
  destruct (processed_sizes _ _ _ P1 NN) as (l1 & ss1 & D1 & S1 & M1 & N1 & T1 & X1 & Z1).
  destruct (processed_sizes _ _ _ P2 NN) as (l2 & ss2 & D2 & S2 & M2 & N2 & T2 & X2 & Z2).
  assert (ss2 = ss1).
  { apply desc_unique; [apply Z2|apply Z1|]. intros s. rewrite (proj2 Z1), (proj2 Z2). reflexivity. }
  subst ss2. exists L, ss1. split; [auto|]. split; [auto|].
  assert (LN : (length (h_tree (co_heap st)) =? 0)%nat = false).
  { apply Permutation_length in P. rewrite <- P. destruct (collected c l); [congruence|reflexivity]. }
  unfold run_text, run_json. rewrite E, LN, E1, E2. split.
  - unfold report_text. rewrite (report_loop_sizes L l1); auto.
    + now rewrite X1.
    + destruct P1 as (_ & P1 & _). rewrite <- P1. rewrite (Permutation_length M1). lia.
    + right. intros f If. apply N1 in If. lia.
  - unfold report_json. rewrite (json_loop_sizes L l2); auto.
    + now rewrite H0.
    + destruct P2 as (_ & P2 & _). rewrite <- P2. rewrite (Permutation_length M2). lia.
    + right. intros f If. apply N2 in If. lia.
Qed.

Lemma runs_empty c l : collected c l = [] ->
  run_text hash_of junk compare qsort iter c l = ([], SErr) /\
  run_json hash_of junk compare qsort iter c l = ([], SErr).
Proof.
  intros NE. destruct (collect_files_inv c l [] _ collect_inv_empty) as (st & E & I). cbn [app] in I.
  destruct I as (H & P & _ & _). rewrite NE in P. apply Permutation_nil in P.
  unfold run_text, run_json. rewrite E, P. auto.
Qed.
End Gr.
