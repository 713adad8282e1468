(** Properties of file comparison and checksum (C42, C54). *)
From Verif Require Import Util FileModel.
Local Open Scope nat_scope.

(** no read fails *)
Definition readable (o : nat -> option nat) : Prop := forall i, o i <> None.
(** no read of the second file returns less than the read of the first file in the same
    round, so it stops short only at the end of the file *)
Definition not_shorter (huge : nat) (o1 o2 : nat -> option nat) : Prop :=
  forall i k1 k2, o1 i = Some k1 -> o2 i = Some k2 -> Nat.max 1 (Nat.min k1 huge) <= k2.

Lemma differ_spec a : forall b, length a = length b -> (differ a b = false <-> a = b).
Proof.
  induction a as [|x a IH]; intros [|y b] L; try discriminate L; cbn [differ]; [split; auto|].
  injection L as L. rewrite orb_false_iff, negb_false_iff, N.eqb_eq, IH by exact L.
  split; [intros [-> ->]; auto|intros E; injection E; auto].
Qed.

Lemma read_full huge o1 o2 i k1 k2 c1 c2 :
  0 < huge -> o1 i = Some k1 -> o2 i = Some k2 -> not_shorter huge o1 o2 -> length c1 = length c2 -> c1 <> [] ->
  exists m, 1 <= m <= length c1 /\
    file_read (o1 i) huge c1 = RData (firstn m c1) (skipn m c1) /\
    file_read (o2 i) (length (firstn m c1)) c2 = RData (firstn m c2) (skipn m c2).
Proof.
  intros H K1 K2 NS L NE. specialize (NS i k1 k2 K1 K2). rewrite K1, K2.
  assert (P : 0 < length c1) by (destruct c1; [congruence|cbn; lia]).
  remember (Nat.max 1 (Nat.min k1 huge)) as q eqn:Q.
  assert (R1 : file_read (Some k1) huge c1 = RData (firstn q c1) (skipn q c1)).
  { unfold file_read. destruct huge; [lia|]. destruct c1; [congruence|]. now rewrite Q. }
  exists (Nat.min q (length c1)).
  assert (F : forall c : list N, length c = length c1 -> firstn (Nat.min q (length c1)) c = firstn q c /\ skipn (Nat.min q (length c1)) c = skipn q c).
  { intros c LC. destruct (Nat.le_ge_cases q (length c1)) as [LE|GE]; [now rewrite Nat.min_l by lia|].
    rewrite Nat.min_r by lia. now rewrite !firstn_all2, !skipn_all2 by lia. }
  destruct (F c1 eq_refl) as [F1 F2]. destruct (F c2 (eq_sym L)) as [F3 F4].
  split; [lia|]. rewrite F1, F2, R1. split; [auto|].
  assert (LF : length (firstn q c1) = Nat.min q (length c1)) by apply firstn_length.
  rewrite LF. unfold file_read.
  destruct (Nat.min q (length c1)) as [|z] eqn:Z; [lia|].
  destruct c2 as [|b2 c2']; [cbn [length] in L; lia|].
  assert (M : Nat.max 1 (Nat.min k2 (S z)) = S z) by lia. rewrite M. rewrite F3, F4. reflexivity.
Qed.

Lemma firstn_skipn_eq {A} m (a b : list A) : a = b <-> firstn m a = firstn m b /\ skipn m a = skipn m b.
Proof.
  split; [intros ->; auto|]. intros [E F]. now rewrite <- (firstn_skipn m a), <- (firstn_skipn m b), E, F.
Qed.

Lemma big_loop_exact huge o1 o2 : 0 < huge -> readable o1 -> readable o2 -> not_shorter huge o1 o2 ->
  forall fuel i r c1 c2, length c1 < fuel -> length c1 = length c2 -> (c1 = [] -> r = false) ->
  exists d, big_loop huge fuel i o1 o2 r c1 c2 = FVal d /\ (d = false <-> c1 = c2).
Proof.
  intros H R1 R2 NS. induction fuel as [|fu IH]; intros i r c1 c2 F L Z; [lia|]. cbn [big_loop].
  destruct (o1 i) as [k1|] eqn:K1; [|destruct (R1 i K1)].
  destruct (o2 i) as [k2|] eqn:K2; [|destruct (R2 i K2)].
  destruct (list_eq_dec N.eq_dec c1 []) as [->|NE].
  - destruct c2; [|discriminate L]. unfold file_read. destruct huge; [lia|]. exists r. rewrite Z by auto. split; tauto.
  - destruct (read_full huge o1 o2 i k1 k2 c1 c2 H K1 K2 NS L NE) as (m & M & A & B).
    rewrite K1 in A. rewrite K2 in B. rewrite A, B.
    assert (E : length (firstn m c2) = length (firstn m c1)) by (rewrite !firstn_length; lia).
    rewrite E, Nat.eqb_refl.
    assert (D := differ_spec (firstn m c1) (firstn m c2) (eq_sym E)).
    destruct (differ (firstn m c1) (firstn m c2)).
    + exists true. split; auto. split; [discriminate|]. intros ->.
      discriminate (proj2 D eq_refl).
    + edestruct (IH (S i) false (skipn m c1) (skipn m c2)) as (d & -> & X).
      * rewrite skipn_length. lia.
      * rewrite !skipn_length. lia.
      * auto.
      * exists d. split; auto. rewrite X. rewrite (firstn_skipn_eq m c1 c2). tauto.
Qed.

Lemma big_exact huge o1 o2 r c1 c2 size : 0 < huge -> readable o1 -> readable o2 -> not_shorter huge o1 o2 ->
  N.of_nat (length c1) = size -> N.of_nat (length c2) = size ->
  exists d, big_filecmp huge o1 o2 r (Some c1) (Some c2) size = FVal d /\ (d = false <-> c1 = c2).
Proof.
  intros H R1 R2 NS L1 L2. unfold big_filecmp. destruct (N.eqb_spec size 0) as [Z|Z].
  - exists false. split; auto. destruct c1; [|cbn in L1; lia]. destruct c2; [|cbn in L2; lia]. tauto.
  - destruct (big_loop_exact huge o1 o2 H R1 R2 NS (S (length c1)) 0 r c1 c2) as (d & E & X); try lia.
    { intros ->. cbn in L1. lia. }
    exists d. auto.
Qed.

(** ** C42, the part that holds: both files still have the size recorded for them, no read
    fails and no read of the second file stops short.  Both strategies, any chunk size,
    maps may fail, the result cell may hold anything before the call. *)
Theorem filecmp_exact_partial : forall huge excess m1 m2 o1 o2 r0 (c1 c2 : bytes) size,
  0 < huge -> readable o1 -> readable o2 -> not_shorter huge o1 o2 ->
  N.of_nat (length c1) = size -> N.of_nat (length c2) = size ->
  exists d, filecmp huge excess m1 m2 o1 o2 r0 (Some c1) (Some c2) size = FVal d /\ (d = false <-> c1 = c2).
Proof.
  intros huge excess m1 m2 o1 o2 r0 c1 c2 size H R1 R2 NS L1 L2. unfold filecmp, small_filecmp.
  destruct (size <? excess)%N; [|now apply big_exact].
  destruct (N.eqb_spec size 0) as [Z|Z].
  - exists false. split; auto. destruct c1; [|cbn in L1; lia]. destruct c2; [|cbn in L2; lia]. tauto.
  - destruct m1; [|now apply big_exact]. destruct m2; [|now apply big_exact].
    unfold map_view. rewrite L1, L2, N.leb_refl. rewrite !firstn_all2 by lia.
    eexists. split; [reflexivity|]. apply differ_spec. lia.
Qed.

(** a difference reported is a difference of the files, for any sizes and any short reads
    and errors, when the result cell is 0 before the call and no map is used *)
Lemma big_loop_true huge o1 o2 : forall fuel i c1 c2,
  big_loop huge fuel i o1 o2 false c1 c2 = FVal true -> c1 <> c2.
Proof.
  induction fuel as [|fu IH]; intros i c1 c2 E; [discriminate E|]. cbn [big_loop] in E.
  destruct (file_read (o1 i) huge c1) as [d1 r1| |] eqn:A; try discriminate E.
  destruct (file_read (o2 i) (length d1) c2) as [d2 r2| |] eqn:B; try discriminate E.
  destruct (Nat.eqb_spec (length d2) (length d1)) as [L|L]; [|discriminate E].
  assert (S : forall o n c d r, file_read o n c = RData d r -> c = d ++ r).
  { intros o n c d r X. unfold file_read in X. destruct n; [injection X as <- <-; auto|].
    destruct o; [|discriminate X]. destruct c; [discriminate X|]. injection X as <- <-.
    symmetry. apply firstn_skipn. }
  apply S in A. apply S in B. intros EQ.
  assert (DE : d1 = d2 /\ r1 = r2).
  { assert (X : d1 ++ r1 = d2 ++ r2) by congruence. clear -X L. revert d2 X L.
    induction d1 as [|x d1 IH]; intros [|y d2] X L; try discriminate L; [auto|].
    cbn [app] in X. injection X as -> X. injection L as L. destruct (IH d2 X L) as [-> ->]. auto. }
  destruct DE as [-> ->]. destruct (differ d2 d2) eqn:D.
  - assert (D2 := proj2 (differ_spec d2 d2 eq_refl) eq_refl). congruence.
  - apply IH in E. now apply E.
Qed.
Theorem filecmp_true_partial : forall huge excess m1 m2 o1 o2 (c1 c2 : bytes) size,
  filecmp huge excess m1 m2 o1 o2 false (Some c1) (Some c2) size = FVal true -> c1 <> c2.
Proof.
  intros huge excess m1 m2 o1 o2 c1 c2 size E.
  assert (B : big_filecmp huge o1 o2 false (Some c1) (Some c2) size = FVal true -> c1 <> c2).
  { unfold big_filecmp. destruct (size =? 0)%N; [discriminate|]. apply big_loop_true. }
  unfold filecmp, small_filecmp in E. destruct (size <? excess)%N; auto.
  destruct (size =? 0)%N; [discriminate E|]. destruct m1; auto. destruct m2; auto.
  intros ->. destruct (map_view size c2) as [v|]; [|discriminate E].
  assert (D2 := proj2 (differ_spec v v eq_refl) eq_refl). congruence.
Qed.

(** ** C42 fails otherwise *)

(** a read error on the second file counts as equal *)
Theorem filecmp_read_error_refuted : forall huge, 0 < huge ->
  exists o1 o2 c1 c2 size, readable o1 /\ N.of_nat (length c1) = size /\ N.of_nat (length c2) = size /\ c1 <> c2 /\
    filecmp huge 0 true true o1 o2 false (Some c1) (Some c2) size = FVal false.
Proof.
  intros huge H. exists (fun _ => Some 1), (fun _ => None), [1%N], [2%N], 1%N.
  repeat split; try congruence. destruct huge; [lia|]. cbn. destruct huge; reflexivity.
Qed.
(** so does a short read on the second file *)
Theorem filecmp_short_read_refuted : forall huge, 2 <= huge ->
  exists o1 o2 c1 c2 size, readable o1 /\ readable o2 /\
    N.of_nat (length c1) = size /\ N.of_nat (length c2) = size /\ c1 <> c2 /\
    filecmp huge 0 true true o1 o2 false (Some c1) (Some c2) size = FVal false.
Proof.
  intros huge H. exists (fun _ => Some 2), (fun _ => Some 1), [1%N; 2%N], [3%N; 4%N], 2%N.
  repeat split; try congruence; try (intro; discriminate).
  destruct huge as [|[|n]]; [lia..|]. cbn. destruct n; reflexivity.
Qed.
(** a second file that became shorter or longer, or a first one that became shorter,
    counts as equal; every read returns all that is there *)
Theorem filecmp_resized_refuted : forall huge, 2 <= huge ->
  let o := fun _ : nat => Some huge in
  filecmp huge 0 true true o o false (Some [1%N; 2%N]) (Some [3%N]) 2 = FVal false /\
  filecmp huge 0 true true o o false (Some [1%N; 2%N]) (Some [1%N; 2%N; 3%N]) 2 = FVal false /\
  filecmp huge 0 true true o o false (Some [1%N]) (Some [1%N; 2%N]) 2 = FVal false /\
  filecmp huge 100 true true o o false (Some [1%N; 2%N]) (Some [1%N; 2%N; 3%N]) 2 = FVal false /\
  filecmp huge 100 true true o o false (Some [1%N]) (Some [1%N; 0%N]) 2 = FVal false /\
  (* the bytes missing in the map are zeros *)
  filecmp huge 100 true true o o false (Some [1%N]) (Some [1%N; 5%N]) 2 = FVal true.
Proof.
  intros huge H. destruct huge as [|[|n]]; [lia..|]. destruct n; cbn; auto 10.
Qed.
(** a mapped file that lost a page raises SIGBUS *)
Theorem filecmp_bus_refuted : exists c1 c2 o, readable o /\
  filecmp 1 100000 true true o o false (Some c1) (Some c2) 5000 = FBus.
Proof.
  exists [1%N], [1%N], (fun _ => Some 1). split; [intro; discriminate|]. vm_compute. reflexivity.
Qed.

Example filecmp_ex : 
  filecmp 2 0 true true (fun _ => Some 2) (fun _ => Some 2) true (Some [1;2;3]%N) (Some [1;2;3]%N) 3 = FVal false /\
  filecmp 2 0 true true (fun _ => Some 2) (fun _ => Some 2) false (Some [1;2;3]%N) (Some [1;2;4]%N) 3 = FVal true /\
  filecmp 2 10 true true (fun _ => Some 2) (fun _ => Some 2) false (Some [1;2;3]%N) (Some [1;2;4]%N) 3 = FVal true /\
  filecmp 2 10 true false (fun _ => Some 1) (fun _ => Some 2) false (Some [1;2;3]%N) (Some [5;2;3]%N) 3 = FVal true.
Proof. vm_compute. auto. Qed.
Example not_shorter_ex : not_shorter 2 (fun _ => Some 1) (fun _ => Some 2) /\ readable (fun _ => Some 2).
Proof. split; [intros i a b A B; injection A as <-; injection B as <-; cbn; lia|intro; discriminate]. Qed.

(** ** C54: the checksum of a file depends on its bytes only *)
Lemma sum_loop_exact huge xxh o : 0 < huge -> readable o ->
  forall fuel i acc c, length c < fuel -> sum_loop huge xxh fuel i o acc c = FVal (xxh (acc ++ c)).
Proof.
  intros H R. induction fuel as [|fu IH]; intros i acc c F; [lia|]. cbn [sum_loop].
  destruct (o i) as [k|] eqn:K; [|destruct (R i K)].
  unfold file_read. destruct huge as [|h]; [lia|].
  destruct c as [|b c]; [now rewrite app_nil_r|].
  remember (Nat.max 1 (Nat.min k (S h))) as m. rewrite IH.
  - now rewrite <- app_assoc, firstn_skipn.
  - rewrite skipn_length. cbn [length] in *. lia.
Qed.
Lemma sum_big_exact huge xxh o c : 0 < huge -> readable o -> checksum_big_file huge xxh o (Some c) = FVal (xxh c).
Proof. intros H R. unfold checksum_big_file. now rewrite sum_loop_exact by (auto; lia). Qed.

Theorem checksum_exact : forall huge xxh excess m o (c : bytes) size,
  0 < huge -> readable o -> N.of_nat (length c) = size ->
  checksum_file huge xxh excess m o (Some c) size = FVal (xxh c).
Proof.
  intros huge xxh excess m o c size H R L. unfold checksum_file, checksum_small_file.
  destruct (size <? excess)%N; [|now apply sum_big_exact].
  destruct (m && negb (size =? 0)%N); [|now apply sum_big_exact].
  unfold map_view. rewrite L, N.leb_refl, firstn_all2 by lia. reflexivity.
Qed.
Example checksum_ex : checksum_file 2 (fold_right N.add 0%N) 0 true (fun _ => Some 1) (Some [1;2;3]%N) 3 = FVal 6%N /\
  checksum_file 2 (fold_right N.add 0%N) 10 true (fun _ => None) (Some [1;2;3]%N) 3 = FVal 6%N.
Proof. vm_compute. auto. Qed.

Print Assumptions filecmp_exact_partial.
Print Assumptions filecmp_true_partial.
Print Assumptions filecmp_read_error_refuted.
Print Assumptions filecmp_short_read_refuted.
Print Assumptions filecmp_resized_refuted.
Print Assumptions filecmp_bus_refuted.
Print Assumptions checksum_exact.
