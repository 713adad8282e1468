(** A whole run over real file contents (C55): the parameters of ProcessModel are replaced
    by the functions of FileModel. *)
From Verif Require Import Util HeapModel CollectModel ProcessModel ReportSpec PropReport FileModel PropFile.
From Coq Require Import Sorting.Permutation.
Local Open Scope Z_scope.

(** how the system behaves while two files are compared: whether the maps can be made, the
    reads, and what the result cell holds before *)
Record sysbeh := mkBeh { y_m1 : bool; y_m2 : bool; y_o1 : nat -> option nat; y_o2 : nat -> option nat; y_r : bool }.

Section World.
Variable content : file -> bytes.
Variable xxh : bytes -> N.
Variable huge : nat.
Variable excess : N.
Variable beh : file -> file -> sysbeh.
Variable hbeh : file -> bool * (nat -> option nat).

(** filecmp as used by ft_report.c:237-253 and ft_report_json.c:104-116, without the archive
    option; SIGBUS is not a result, see [clean] *)
Definition compare_files (f g : file) : cmpres :=
  let y := beh f g in
  match filecmp huge excess (y_m1 y) (y_m2 y) (y_o1 y) (y_o2 y) (y_r y) (Some (content f)) (Some (content g)) (Z.to_N (f_size f)) with
  | FVal false => Equal
  | FVal true => Differ
  | _ => Failed
  end.
(** checksum_file as used by ft_process.c:61 *)
Definition hash_file (f : file) : option N :=
  match checksum_file huge xxh excess (fst (hbeh f)) (snd (hbeh f)) (Some (content f)) (Z.to_N (f_size f)) with
  | FVal h => Some h
  | _ => None
  end.

(** no read fails, and no read of the second file of a comparison stops short *)
Definition clean : Prop :=
  (0 < huge)%nat /\
  (forall f, readable (snd (hbeh f))) /\
  (forall f g, readable (y_o1 (beh f g)) /\ readable (y_o2 (beh f g)) /\ not_shorter huge (y_o1 (beh f g)) (y_o2 (beh f g))).

Lemma compare_files_exact l : clean -> sized content l -> exact_compare content compare_files l.
Proof.
  intros (H & _ & CB) SZ f g If Ig E. unfold compare_files. cbv zeta. destruct (CB f g) as (R1 & R2 & NS).
  assert (L1 : N.of_nat (length (content f)) = Z.to_N (f_size f)) by (rewrite <- (SZ f If); lia).
  assert (L2 : N.of_nat (length (content g)) = Z.to_N (f_size f)) by (rewrite E, <- (SZ g Ig); lia).
  destruct (filecmp_exact_partial huge excess (y_m1 (beh f g)) (y_m2 (beh f g)) _ _ (y_r (beh f g)) _ _ _ H R1 R2 NS L1 L2) as (d & -> & X).
  destruct d; split; auto.
  - intros C. apply X in C. discriminate C.
  - intros C. destruct C. now apply X.
Qed.
Lemma hash_file_exact l f : clean -> sized content l -> In f l -> hash_file f = Some (xxh (content f)).
Proof.
  intros (H & HB & _) SZ If. unfold hash_file. rewrite checksum_exact; auto. rewrite <- (SZ f If). lia.
Qed.
End World.

(** no two different contents met have the same 128-bit hash *)
Definition hash_injective (xxh : bytes -> N) (content : file -> bytes) (l : list file) : Prop :=
  forall f g, In f l -> In g l -> xxh (content f) = xxh (content g) -> content f = content g.

(** ** C55: the groups of a run are exactly the sets of two or more files with equal bytes *)
Definition exact_groups (content : file -> bytes) (coll : list file) (gs : list (list file)) : Prop :=
  forall f g, In f coll -> In g coll -> f <> g ->
    (content f = content g <-> exists grp, In grp gs /\ In f grp /\ In g grp).

Theorem duplicates_exact_partial : forall content xxh huge excess beh hbeh junk qsort iter c l,
  sorts qsort -> visits_all iter -> sizes_ok l -> collected c l <> [] ->
  sized content (collected c l) -> clean huge beh hbeh -> hash_injective xxh content (collected c l) ->
  let cmp := compare_files content huge excess beh in
  let hash := hash_file content xxh huge excess hbeh in
  exists gs js,
    run_text hash junk cmp qsort iter c l = (gs, SOk) /\ exact_groups content (collected c l) gs /\
    run_json hash junk cmp qsort iter c l = (js, SOk) /\ exact_groups content (collected c l) (map set_files js).
Proof.
  intros content xxh huge excess beh hbeh junk qsort iter c l Q IT SO NE SZ CL HI cmp hash.
  assert (EC : exact_compare content cmp (collected c l)) by (eapply compare_files_exact; eauto).
  assert (NC : no_collision content hash (collected c l)).
  { intros f g If Ig E. unfold hash. rewrite !(hash_file_exact content xxh huge excess beh hbeh (collected c l)) by auto.
    split; [eauto|]. split; [|congruence]. intros X. injection X as X. auto. }
  destruct (report_complete_partial hash junk cmp qsort iter content c l Q IT SO NE SZ EC NC) as [(gs & T & TC) (js & J & JC)].
  destruct (groups_sound hash junk cmp qsort iter content c l Q IT SO) as [TS JS].
  { intros f g If Ig E X. destruct (list_eq_dec N.eq_dec (content f) (content g)) as [C|C]; auto.
    apply (EC f g If Ig E) in C. congruence. }
  rewrite T in TS. rewrite J in JS. exists gs, js. repeat split; auto.
  - intros (grp & I & A & B). destruct (TS grp I) as (_ & _ & X). now apply X.
  - intros (grp & I & A & B). destruct (JS grp I) as (_ & _ & X). now apply X.
Qed.

(** without [clean]: files with different bytes end in one group when a read of the second
    one fails *)
Definition err_beh : file -> file -> sysbeh := fun _ _ => mkBeh true true (fun _ => Some 1%nat) (fun _ => None) false.
Definition ok_hbeh : file -> bool * (nat -> option nat) := fun _ => (true, fun _ => Some 1%nat).
Definition two_files : list (list N * finfo) := [([1%N], inf 2); ([2%N], inf 2)].
Definition two_content (f : file) : bytes := match f_path f with [1%N] => [7; 8]%N | _ => [7; 9]%N end.
Definition sum256 (b : bytes) : N := fold_left (fun a x => a * 256 + x)%N b 1%N.

Theorem duplicates_exact_refuted : exists content xxh huge excess beh hbeh junk qsort iter c l f g grp,
  sorts qsort /\ visits_all iter /\ sizes_ok l /\ sized content (collected c l) /\
  hash_injective xxh content (collected c l) /\ (forall a, readable (snd (hbeh a))) /\
  (forall a b, readable (y_o1 (beh a b))) /\
  In grp (fst (run_text (hash_file content xxh huge excess hbeh) junk (compare_files content huge excess beh) qsort iter c l)) /\
  In f grp /\ In g grp /\ content f <> content g.
Proof.
  exists two_content, sum256, 4%nat, 0%N, err_beh, ok_hbeh, ex_junk, isort, id_iter, cf0, two_files,
    (fil [1%N] 2), (fil [2%N] 2), [fil [1%N] 2; fil [2%N] 2].
  split; [exact isort_sorts|]. split; [exact id_iter_all|]. split; [repeat constructor; cbn; lia|].
  split. { intros a I. cbn in I. intuition (subst; reflexivity). }
  split. { intros a b Ia Ib. cbn in Ia, Ib. intuition (subst; cbn in *; try discriminate; try lia; try reflexivity). }
  split; [intros a i; discriminate|]. split; [intros a b i; discriminate|].
  split. { vm_compute. now left. }
  split; [now left|]. split; [right; now left|]. discriminate.
Qed.

(** the population of PropReport with its bytes, read in chunks of two bytes *)
Definition ok_beh : file -> file -> sysbeh :=
  fun f _ => mkBeh true (f_size f =? 1) (fun _ => Some 1%nat) (fun _ => Some 5%nat) true.
Example end_hyps : clean 2 ok_beh ok_hbeh /\ hash_injective sum256 ex_content (collected cf0 ex_files).
Proof.
  split.
  - split; [lia|]. split; [intros f i; discriminate|]. intros f g. split; [intro; discriminate|]. split; [intro; discriminate|].
    intros i a b A B. injection A as <-. injection B as <-. cbn. lia.
  - intros f g If Ig. cbn in If, Ig. intuition (subst; cbn in *; try discriminate; try lia; try reflexivity).
Qed.
Example end_run :
  run_text (hash_file ex_content sum256 2 2 ok_hbeh) ex_junk (compare_files ex_content 2 2 ok_beh) isort id_iter cf0 ex_files =
    ([[fil [1%N] 2; fil [6%N] 2]; [fil [5%N] 1; fil [2%N] 1]; [fil [7%N] 0; fil [8%N] 0]], SOk).
Proof. vm_compute. reflexivity. Qed.

Print Assumptions duplicates_exact_partial.
Print Assumptions duplicates_exact_refuted.
