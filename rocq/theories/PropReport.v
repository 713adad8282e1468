(** Properties of the duplicate reports (C37-C41, C43, C51). *)
From Verif Require Import Util HeapModel HeapProofs CollectModel ProcessModel ReportSpec ReportProofs ReportGroups ReportArrays ReportMain.
From Coq Require Import Sorting.Permutation Sorting.Sorted.
Local Open Scope Z_scope.

(** Throughout: [hash_of] and [junk] are arbitrary, so is [compare] unless restricted;
    [qsort] sorts; [iter] visits every entry; [l] is any list of regular files met by the
    walk, with their stat data. *)

Definition set_files (j : jset) : list file := snd j.

(** ** C37: files in one group have identical content *)
Definition sound_groups (content : file -> list N) (coll : list file) (gs : list (list file)) : Prop :=
  forall grp, In grp gs ->
    (2 <= length grp)%nat /\
    (forall f, In f grp -> In f coll) /\
    (forall f g, In f grp -> In g grp -> f_size f = f_size g /\ content f = content g).

Lemma printed_sound hash_of junk compare qsort content json c l L gs :
  sorts qsort ->
  (forall f g, In f (collected c l) -> In g (collected c l) -> f_size f = f_size g ->
    compare f g = Equal -> content f = content g) ->
  Permutation (collected c l) L -> printed hash_of junk compare qsort json L gs ->
  sound_groups content (collected c l) gs.
Proof.
  intros Q CE P [G _] grp I. destruct (G grp I) as (s & f & m & hv & -> & NE & FE & SS).
  assert (IN : forall x, In x (f :: m) -> In x L /\ f_size x = s).
  { intros x Ix. assert (J : In (mkChk hv (Some x)) (srt hash_of junk qsort json L s)).
    { eapply subseq_in; [exact SS|]. now apply (in_map (fun x => mkChk hv (Some x))). }
    apply srt_in in J as (y & E & J & Z); auto. unfold cell in E. injection E as _ <-. auto. }
  assert (CF : forall x, In x (f :: m) -> content f = content x).
  { assert (IC : forall x, In x (f :: m) -> In x (collected c l)).
    { intros x Ix. eapply Permutation_in; [symmetry; exact P|]. now apply IN. }
    rewrite Forall_forall in FE. intros x [<-|Ix]; auto. apply CE; auto; [apply IC; now left|apply IC; now right|].
    destruct (IN f (or_introl eq_refl)) as [_ ->]. now destruct (IN x (or_intror Ix)) as [_ ->]. }
  split; [|split].
  - destruct m; [congruence|cbn; lia].
  - intros x Ix. destruct (IN x Ix) as [J _]. eapply Permutation_in; [symmetry; exact P|exact J].
  - intros x y Ix Iy. split.
    + destruct (IN x Ix) as [_ ->]. now destruct (IN y Iy) as [_ ->].
    + now rewrite <- (CF x Ix), <- (CF y Iy).
Qed.

Theorem groups_sound : forall hash_of junk compare qsort iter content c l,
  sorts qsort -> visits_all iter -> sizes_ok l ->
  (forall f g, In f (collected c l) -> In g (collected c l) -> f_size f = f_size g ->
    compare f g = Equal -> content f = content g) ->
  sound_groups content (collected c l) (fst (run_text hash_of junk compare qsort iter c l)) /\
  sound_groups content (collected c l) (map set_files (fst (run_json hash_of junk compare qsort iter c l))).
Proof.
  intros hash_of junk compare qsort iter content c l Q IT S CE. split.
  - destruct (run_text hash_of junk compare qsort iter c l) as [gs st] eqn:E.
    destruct (run_text_printed _ _ _ _ _ Q IT _ _ _ _ S E) as (L & P & G). eapply printed_sound; eauto.
  - destruct (run_json hash_of junk compare qsort iter c l) as [js st] eqn:E.
    destruct (run_json_printed _ _ _ _ _ Q IT _ _ _ _ S E) as (L & P & G). eapply printed_sound; eauto.
Qed.

(** ** C39: no path is reported twice *)
Lemma printed_nodup hash_of junk compare qsort json c l L gs :
  NoDup (map fst l) ->
  Permutation (collected c l) L -> printed hash_of junk compare qsort json L gs ->
  NoDup (map f_path (concat gs)).
Proof.
  intros N P [_ (rest & R)].
  assert (NC : NoDup (map f_path (collected c l))).
  { unfold collected. rewrite map_map. cbn [f_path].
    clear -N. induction l as [|e l IH]; cbn [filter map]; [constructor|].
    cbn [map] in N. inversion N as [|? ? N1 N2]; subst. destruct (_ && _); [|now apply IH].
    cbn [map]. constructor; [|now apply IH]. intros I. apply N1.
    apply in_map_iff in I as (x & E & J). apply filter_In in J as [J _]. rewrite <- E. now apply in_map. }
  assert (NN : NoDup (map f_path (concat gs ++ rest))).
  { eapply Permutation_NoDup; [|exact NC]. apply Permutation_map. now rewrite P. }
  rewrite map_app in NN. clear -NN. induction (map f_path (concat gs)) as [|x xs IH]; [constructor|].
  cbn [app] in NN. inversion NN as [|? ? N1 N2]; subst. constructor; [|now apply IH].
  intros I. apply N1. apply in_app_iff. now left.
Qed.

Theorem reported_once : forall hash_of junk compare qsort iter c l,
  sorts qsort -> visits_all iter -> sizes_ok l -> NoDup (map fst l) ->
  NoDup (map f_path (concat (fst (run_text hash_of junk compare qsort iter c l)))) /\
  NoDup (map f_path (concat (map set_files (fst (run_json hash_of junk compare qsort iter c l))))).
Proof.
  intros hash_of junk compare qsort iter c l Q IT S N. split.
  - destruct (run_text hash_of junk compare qsort iter c l) as [gs st] eqn:E.
    destruct (run_text_printed _ _ _ _ _ Q IT _ _ _ _ S E) as (L & P & G). eapply printed_nodup; eauto.
  - destruct (run_json hash_of junk compare qsort iter c l) as [js st] eqn:E.
    destruct (run_json_printed _ _ _ _ _ Q IT _ _ _ _ S E) as (L & P & G). eapply printed_nodup; eauto.
Qed.

(** ** C41: prioritized files come first *)

(** [path] begins with the text [p], letter case ignored if [fold] *)
Definition fold_byte (fold : bool) (b : N) : N :=
  if fold then (if ((65 <=? b) && (b <=? 90))%N%bool then (b + 32)%N else b) else b.
Definition begins (fold : bool) (p path : list N) : Prop :=
  exists q rest, path = q ++ rest /\ map (fold_byte fold) q = map (fold_byte fold) p.
Definition first_then (P : list N -> Prop) (grp : list file) : Prop :=
  exists a b, grp = a ++ b /\ (forall f, In f a -> P (f_path f)) /\ (forall f, In f b -> ~ P (f_path f)).

Lemma same_prefix_begins fold p : forall path,
  same_prefix fold p path = true <-> begins fold p path.
Proof.
  induction p as [|a p IH]; intros path; cbn [same_prefix].
  - split; auto. intros _. exists [], path. auto.
  - destruct path as [|b path].
    + split; [discriminate|]. intros (q & rest & E & M). destruct q; [discriminate M|discriminate E].
    + rewrite andb_true_iff, IH.
      assert (X : (if fold then (lower a =? lower b)%N else (a =? b)%N) = true <-> fold_byte fold b = fold_byte fold a).
      { unfold fold_byte. destruct fold; [|lia]. unfold lower. rewrite N.eqb_eq. intuition. }
      rewrite X. split.
      * intros (A & q & rest & -> & M). exists (b :: q), rest. cbn [app map]. rewrite A, M. auto.
      * intros (q & rest & E & M). destruct q as [|b' q]; [discriminate M|]. cbn [app map] in *.
        injection E as -> ->. injection M as M1 M2. split; auto. exists q, rest. auto.
Qed.
Lemma prioritized_begins c p path : cf_ppath c = Some p ->
  (prioritized c path = true <-> begins (cf_icase c) p path).
Proof.
  intros E. unfold prioritized. rewrite E. rewrite andb_true_iff, same_prefix_begins. split; [tauto|].
  intros B. split; auto. destruct B as (q & rest & -> & M). apply (f_equal (@length N)) in M.
  rewrite !map_length in M. rewrite app_length. lia.
Qed.

Lemma printed_first hash_of junk compare qsort json c l L gs p :
  sorts qsort -> cf_ppath c = Some p ->
  Permutation (collected c l) L -> printed hash_of junk compare qsort json L gs ->
  forall grp, In grp gs -> first_then (begins (cf_icase c) p) grp.
Proof.
  intros Q PP P [G _] grp I. destruct (G grp I) as (s & f & m & hv & E0 & NE & FE & SS). clear E0.
  assert (S := srt_sorted hash_of junk qsort Q json L s).
  apply (subseq_sorted _ _ _ SS) in S.
  assert (IN : forall x, In x grp -> (f_prio x = true <-> begins (cf_icase c) p (f_path x))).
  { intros x Ix. assert (J : In (mkChk hv (Some x)) (srt hash_of junk qsort json L s)).
    { eapply subseq_in; [exact SS|]. now apply (in_map (fun x => mkChk hv (Some x))). }
    apply srt_in in J as (y & E & J & _); auto. unfold cell in E. injection E as _ <-.
    eapply Permutation_in in J; [|symmetry; exact P].
    unfold collected in J. apply in_map_iff in J as (e & <- & _). cbn [f_prio f_path].
    now apply prioritized_begins. }
  clear SS I NE FE. induction grp as [|x grp IH].
  - exists [], []. repeat split; intros ? [].
  - cbn [map] in S. inversion S as [|? ? S1 S2]; subst.
    destruct (IH S1) as (a & b & -> & A & B). { intros y Iy. apply IN. now right. }
    destruct (f_prio x) eqn:FX.
    + exists (x :: a), b. repeat split; auto. intros y [<-|Iy]; auto. apply IN; [now left|auto].
    + exists [], (x :: a ++ b). repeat split; [intros ? []|].
      intros y Iy Bg. apply IN in Bg; auto. destruct Iy as [<-|Iy]; [congruence|].
      rewrite Forall_forall in S2.
      assert (J : In (mkChk hv (Some y)) (map (fun x => mkChk hv (Some x)) (a ++ b))) by (now apply (in_map (fun x => mkChk hv (Some x)))).
      apply S2 in J. unfold chksum_cmp in J. cbn [k_hash k_file] in J. rewrite N.ltb_irrefl in J.
      unfold prio_val in J. rewrite FX, Bg in J. lia.
Qed.

(** Missing for the full claim: "under" is a textual prefix, so /a/b also takes in /a/bc;
    for a priority path written with a trailing slash this is the directory. *)
Theorem priority_first_partial : forall hash_of junk compare qsort iter c l p,
  sorts qsort -> visits_all iter -> sizes_ok l -> cf_ppath c = Some p ->
  (forall grp, In grp (fst (run_text hash_of junk compare qsort iter c l)) ->
     first_then (begins (cf_icase c) p) grp) /\
  (forall grp, In grp (map set_files (fst (run_json hash_of junk compare qsort iter c l))) ->
     first_then (begins (cf_icase c) p) grp).
Proof.
  intros hash_of junk compare qsort iter c l p Q IT S PP. split.
  - destruct (run_text hash_of junk compare qsort iter c l) as [gs st] eqn:E.
    destruct (run_text_printed _ _ _ _ _ Q IT _ _ _ _ S E) as (L & P & G). eapply printed_first; eauto.
  - destruct (run_json hash_of junk compare qsort iter c l) as [js st] eqn:E.
    destruct (run_json_printed _ _ _ _ _ Q IT _ _ _ _ S E) as (L & P & G). eapply printed_first; eauto.
Qed.

(** ** C38, C40: complete and without crash, if comparison and hash are exact *)

(** Missing: populations with a hash collision inside one size, and runs in which a file
    cannot be read. *)
Theorem report_complete_partial : forall hash_of junk compare qsort iter content c l,
  sorts qsort -> visits_all iter -> sizes_ok l -> collected c l <> [] ->
  sized content (collected c l) ->
  exact_compare content compare (collected c l) -> no_collision content hash_of (collected c l) ->
  (exists gs, run_text hash_of junk compare qsort iter c l = (gs, SOk) /\
     forall f g, In f (collected c l) -> In g (collected c l) -> f <> g -> content f = content g ->
       exists grp, In grp gs /\ In f grp /\ In g grp) /\
  (exists js, run_json hash_of junk compare qsort iter c l = (js, SOk) /\
     forall f g, In f (collected c l) -> In g (collected c l) -> f <> g -> content f = content g ->
       exists grp, In grp (map set_files js) /\ In f grp /\ In g grp).
Proof.
  intros. split.
  - now apply run_text_complete.
  - now apply run_json_complete.
Qed.


(** ** C51: the JSON report has the groups of the text report *)
Theorem json_text_agree : forall hash_of junk compare qsort iter content c l,
  sorts qsort -> natural qsort -> visits_all iter -> sizes_ok l -> collected c l <> [] ->
  sized content (collected c l) ->
  exact_compare content compare (collected c l) -> no_collision content hash_of (collected c l) ->
  exists js, run_json hash_of junk compare qsort iter c l = (js, SOk) /\
    run_text hash_of junk compare qsort iter c l = (map set_files js, SOk).
Proof. intros. eapply runs_agree; eauto. Qed.

(** ** C43: exactly the files of unique size are dropped before hashing *)
Theorem unique_sizes_dropped : forall hash_of junk iter json c l,
  visits_all iter ->
  exists st st',
    collect_files c l coll_empty = HOk st /\
    process_files hash_of junk iter json st = (SOk, st') /\
    (* the files that stay *)
    Permutation (h_tree (co_heap st'))
      (filter (fun f => (2 <=? length (of_size (f_size f) (collected c l)))%nat) (collected c l)) /\
    (* and the array of each size *)
    (forall s, (length (of_size s (collected c l)) < 2)%nat -> tfind s (co_sizes st') = None) /\
    (forall s, (2 <= length (of_size s (collected c l)))%nat ->
       exists e, tfind s (co_sizes st') = Some e /\ fs_nb e = length (of_size s (collected c l)) /\
         exists fs, Permutation fs (of_size s (collected c l)) /\ map k_file (fs_arr e) = map Some fs).
Proof.
  intros hash_of junk iter json c l IT.
  destruct (collect_files_inv c l [] _ collect_inv_empty) as (st & E & I). cbn [app] in I.
  assert (HI := I). destruct HI as (H & P & _ & _).
  destruct (drain_ok _ H) as (L & D & PL & SL).
  assert (PC : Permutation (collected c l) L) by (now rewrite P).
  destruct (process_files_ok hash_of junk iter IT json _ _ _ I D PC) as (st' & E' & (HO & PH & N & T)).
  exists st, st'. split; [auto|]. split; [auto|].
  assert (CN : forall s, cnt s L = length (of_size s (collected c l))).
  { intros s. symmetry. now apply cnt_perm. }
  split; [|split].
  - rewrite <- PH. unfold multi. transitivity (filter (fun f => (2 <=? cnt (f_size f) L)%nat) (collected c l)).
    + symmetry. clear -PC. set (p := fun f => (2 <=? cnt (f_size f) L)%nat). clearbody p.
      induction PC; cbn [filter]; auto.
      * destruct (p x); auto.
      * destruct (p y), (p x); auto. constructor.
      * etransitivity; eauto.
    + erewrite filter_ext; [reflexivity|]. intros f. now rewrite CN.
  - intros s C. rewrite T. unfold entry. rewrite CN. replace (2 <=? _)%nat with false by lia. auto.
  - intros s C. eexists. split.
    + rewrite T. unfold entry. rewrite CN. replace (2 <=? _)%nat with true by lia. reflexivity.
    + split; [reflexivity|]. exists (of_size s L). split.
      * symmetry. now apply of_size_perm.
      * cbn [fs_arr]. rewrite map_map. reflexivity.
Qed.

(** ** Examples: the hypotheses can be met, the counterexamples *)

(** insertion sort is a possible qsort *)
Fixpoint ins (cmp : chk -> chk -> Z) (x : chk) (l : list chk) : list chk :=
  match l with
  | [] => [x]
  | y :: r => if cmp x y <=? 0 then x :: l else y :: ins cmp x r
  end.
Definition isort (cmp : chk -> chk -> Z) (l : list chk) : list chk := fold_right (ins cmp) [] l.

Lemma ins_perm cmp x l : Permutation (x :: l) (ins cmp x l).
Proof.
  induction l as [|y l IH]; cbn [ins]; auto. destruct (_ <=? _); auto.
  rewrite <- IH. constructor.
Qed.
Lemma isort_perm cmp l : Permutation l (isort cmp l).
Proof. induction l as [|x l IH]; cbn; auto. rewrite <- ins_perm. now constructor. Qed.
Lemma ins_sorted cmp x l : 
  (forall a b, In a (x :: l) -> In b (x :: l) -> cmp a b <= 0 \/ cmp b a <= 0) ->
  (forall a b d, In a (x :: l) -> In b (x :: l) -> In d (x :: l) -> cmp a b <= 0 -> cmp b d <= 0 -> cmp a d <= 0) ->
  StronglySorted (fun a b => cmp a b <= 0) l -> StronglySorted (fun a b => cmp a b <= 0) (ins cmp x l).
Proof.
  induction l as [|y l IH]; intros T R S; cbn [ins].
  - constructor; auto.
  - inversion S as [|? ? S1 S2]; subst. rewrite Forall_forall in S2. destruct (cmp x y <=? 0) eqn:E.
    + constructor; auto. constructor; [lia|]. apply Forall_forall. intros z I.
      apply (R x y z); cbn; auto. lia.
    + constructor.
      * apply IH; auto.
        -- intros a b Ia Ib. apply T; cbn in *; intuition.
        -- intros a b d Ia Ib Id. apply R; cbn in *; intuition.
      * apply Forall_forall. intros z I. apply (Permutation_in z (Permutation_sym (ins_perm cmp x l))) in I.
        destruct I as [<-|I]; auto. destruct (T x y) as [|]; cbn; auto; lia.
Qed.
Lemma isort_sorts : sorts isort.
Proof.
  intros cmp l. split; [apply isort_perm|]. induction l as [|x l IH]; intros T R; cbn [isort fold_right]; [constructor|].
  assert (IN : forall a, In a (x :: isort cmp l) -> In a (x :: l)).
  { intros a [<-|I]; [now left|]. right. eapply Permutation_in; [symmetry; apply isort_perm|exact I]. }
  apply ins_sorted.
  - intros a b Ia Ib. apply T; now apply IN.
  - intros a b d Ia Ib Id. apply R; now apply IN.
  - apply IH.
    + intros a b Ia Ib. apply T; now right.
    + intros a b d Ia Ib Id. apply R; now right.
Qed.
Lemma ins_natural cmp g x l : (forall y, In y l -> cmp (g x) (g y) = cmp x y) -> ins cmp (g x) (map g l) = map g (ins cmp x l).
Proof.
  induction l as [|y l IH]; intros H; cbn [ins map]; auto. rewrite H by (now left).
  destruct (_ <=? _); auto. cbn [map]. f_equal. apply IH. intros z I. apply H. now right.
Qed.
Lemma isort_natural : natural isort.
Proof.
  intros cmp g l H. induction l as [|x l IH]; cbn [isort fold_right map]; auto.
  change (fold_right (ins cmp) [] (map g l)) with (isort cmp (map g l)).
  rewrite IH by (intros; apply H; now right). apply ins_natural. intros y I. apply H; [now left|].
  right. eapply Permutation_in; [symmetry; apply isort_perm|exact I].
Qed.
Definition id_iter (t : table) : table := t.
Lemma id_iter_all : visits_all id_iter.
Proof. intros t. apply Permutation_refl. Qed.

Definition cf0 := mkConf 0 0 0 [] None false false.
Definition inf (size : Z) := mkInfo TReg size 0 0 0.
Definition fil (path : list N) (size : Z) := mkFile path size false.

(** three files of size 2, two of size 1, a single one of size 5, two empty ones *)
Definition ex_files : list (list N * finfo) :=
  [([1%N], inf 2); ([2%N], inf 1); ([3%N], inf 2); ([4%N], inf 5); ([5%N], inf 1); ([6%N], inf 2); ([7%N], inf 0); ([8%N], inf 0)].
Definition ex_content (f : file) : list N :=
  match f_path f with
  | [1%N] => [7; 7]%N | [3%N] => [9; 9]%N | [6%N] => [7; 7]%N
  | [2%N] => [5]%N | [5%N] => [5]%N | [4%N] => [1; 2; 3; 4; 5]%N | _ => []
  end.
Definition ex_hash (f : file) : option N := Some (fold_left (fun a b => (a * 256 + b)%N) (ex_content f) 1%N).
Definition ex_compare (f g : file) : cmpres :=
  if list_eq_dec N.eq_dec (ex_content f) (ex_content g) then Equal else Differ.
Definition ex_junk (f : file) : N := 77.

Example ex_sizes_ok : sizes_ok ex_files.
Proof. repeat constructor; cbn; lia. Qed.
Example ex_hyps : collected cf0 ex_files <> [] /\ sized ex_content (collected cf0 ex_files) /\
  exact_compare ex_content ex_compare (collected cf0 ex_files) /\
  no_collision ex_content ex_hash (collected cf0 ex_files) /\ NoDup (map fst ex_files).
Proof.
  split; [discriminate|]. split; [|split; [|split]].
  - intros f I. cbn in I. intuition (subst; reflexivity).
  - intros f g _ _ _. unfold ex_compare. destruct (list_eq_dec _ _ _); intuition congruence.
  - intros f g If Ig Z. split; [unfold ex_hash; eauto|].
    cbn in If, Ig. intuition (subst; cbn in *; try discriminate; try lia; try reflexivity).
  - cbn. repeat constructor; cbn; intuition discriminate.
Qed.
Example ex_run :
  run_text ex_hash ex_junk ex_compare isort id_iter cf0 ex_files =
    ([[fil [1%N] 2; fil [6%N] 2]; [fil [5%N] 1; fil [2%N] 1]; [fil [7%N] 0; fil [8%N] 0]], SOk) /\
  map set_files (fst (run_json ex_hash ex_junk ex_compare isort id_iter cf0 ex_files)) =
    [[fil [1%N] 2; fil [6%N] 2]; [fil [5%N] 1; fil [2%N] 1]; [fil [7%N] 0; fil [8%N] 0]].
Proof. split; vm_compute; reflexivity. Qed.

(** a run with a priority path "A/": file 3 of the three equal ones is listed first *)
Definition cfp := mkConf 0 0 0 [] (Some [65; 47]%N) false false.
Definition prio_files : list (list N * finfo) :=
  [([1%N], inf 2); ([2%N], inf 2); ([65; 47; 3]%N, inf 2)].
Example prio_run :
  map (map f_path) (fst (run_text (fun _ => Some 1%N) ex_junk (fun _ _ => Equal) isort id_iter cfp prio_files))
  = [[[65; 47; 3]%N; [1%N]; [2%N]]].
Proof. vm_compute. reflexivity. Qed.

(** the directory reading of "under the priority path" *)
Definition under (dir path : list N) : Prop := exists rest, path = dir ++ 47%N :: rest.

Lemma begins_under dir path : begins false (dir ++ [47%N]) path <-> under dir path.
Proof.
  unfold begins, under, fold_byte. split.
  - intros (q & rest & -> & M). rewrite !map_id in M. subst q. exists rest. now rewrite <- app_assoc.
  - intros (rest & ->). exists (dir ++ [47%N]), rest. split; auto. now rewrite <- app_assoc.
Qed.
(** Missing: a priority path given without a trailing slash, see [priority_first_refuted]. *)
Theorem priority_dir_first_partial : forall hash_of junk compare qsort iter c l dir,
  sorts qsort -> visits_all iter -> sizes_ok l -> cf_ppath c = Some (dir ++ [47%N]) -> cf_icase c = false ->
  (forall grp, In grp (fst (run_text hash_of junk compare qsort iter c l)) -> first_then (under dir) grp) /\
  (forall grp, In grp (map set_files (fst (run_json hash_of junk compare qsort iter c l))) -> first_then (under dir) grp).
Proof.
  intros hash_of junk compare qsort iter c l dir Q IT S PP IC.
  destruct (priority_first_partial hash_of junk compare qsort iter c l _ Q IT S PP) as [A B]. rewrite IC in *.
  split; intros grp I; [specialize (A grp I)|specialize (B grp I); clear A; rename B into A];
    destruct A as (a & b & -> & X & Y); exists a, b; split; auto; split; intros f J;
    rewrite <- begins_under; auto.
Qed.
Example prio_dir_hyps : cf_ppath cfp = Some ([65%N] ++ [47%N]) /\ cf_icase cfp = false.
Proof. split; reflexivity. Qed.

(** With the priority path "A", the file "AB" counts as prioritized and is listed before
    "A/C", which is under the directory. *)
Theorem priority_first_refuted :
  exists hash_of junk compare qsort iter c l p grp,
    sorts qsort /\ visits_all iter /\ sizes_ok l /\ cf_ppath c = Some p /\
    In grp (fst (run_text hash_of junk compare qsort iter c l)) /\ ~ first_then (under p) grp.
Proof.
  exists (fun _ => Some 1%N), ex_junk, (fun _ _ => Equal), isort, id_iter,
    (mkConf 0 0 0 [] (Some [65]%N) false false), [([65; 66]%N, inf 2); ([65; 47; 67]%N, inf 2)], [65]%N,
    [mkFile [65; 66]%N 2 true; mkFile [65; 47; 67]%N 2 true].
  split; [apply isort_sorts|]. split; [apply id_iter_all|]. split; [repeat constructor; cbn; lia|].
  split; [reflexivity|]. split; [vm_compute; now left|].
  intros (a & b & E & A & B). destruct a as [|x a].
  - cbn [app] in E. subst b. apply (B (mkFile [65; 47; 67]%N 2 true)); [right; now left|].
    exists [67%N]. reflexivity.
  - cbn [app] in E. injection E as <- E. destruct (A (mkFile [65; 66]%N 2 true)) as (rest & R); [now left|].
    discriminate R.
Qed.

(** C40: three equal files of which the second cannot be opened any more when the reports
    are made: the comparison of the second with the third dereferences NULL. *)
Definition bad_compare (f g : file) : cmpres :=
  match f_path f, f_path g with [2%N], _ => Failed | _, [2%N] => Failed | _, _ => Equal end.
Definition three_files : list (list N * finfo) := [([1%N], inf 2); ([3%N], inf 2); ([2%N], inf 2)].
Theorem report_no_crash_refuted :
  exists hash_of junk compare qsort iter c l,
    sorts qsort /\ visits_all iter /\ sizes_ok l /\
    (forall f g, compare f g = Equal \/ compare f g = Failed) /\
    snd (run_text hash_of junk compare qsort iter c l) = SUB /\
    snd (run_json hash_of junk compare qsort iter c l) = SUB.
Proof.
  exists (fun _ => Some 1%N), ex_junk, bad_compare, isort, id_iter, cf0, three_files.
  split; [apply isort_sorts|]. split; [apply id_iter_all|]. split; [repeat constructor; cbn; lia|].
  split; [|split; vm_compute; reflexivity].
  intros f g. unfold bad_compare. destruct (f_path f) as [|a [|]]; destruct (f_path g) as [|b [|]];
    repeat match goal with |- context [match ?x with _ => _ end] => destruct x end; auto.
Qed.

(** C38: four files of one size with one hash value, contents X Y X Y: the run crashes
    after the first group, and the Y files are not reported. *)
Definition col_content (f : file) : list N :=
  match f_path f with [1%N] => [7; 7]%N | [3%N] => [7; 7]%N | _ => [8; 8]%N end.
Definition col_compare (f g : file) : cmpres :=
  if list_eq_dec N.eq_dec (col_content f) (col_content g) then Equal else Differ.
Definition col_files : list (list N * finfo) :=
  [([1%N], inf 2); ([4%N], inf 2); ([3%N], inf 2); ([2%N], inf 2)].
Theorem report_complete_refuted :
  exists hash_of junk compare qsort iter content c l f g,
    sorts qsort /\ visits_all iter /\ sizes_ok l /\
    sized content (collected c l) /\ exact_compare content compare (collected c l) /\
    In f (collected c l) /\ In g (collected c l) /\ f <> g /\ content f = content g /\
    forall grp, In grp (fst (run_text hash_of junk compare qsort iter c l)) -> ~ (In f grp /\ In g grp).
Proof.
  exists (fun _ => Some 1%N), ex_junk, col_compare, isort, id_iter, col_content, cf0, col_files,
    (fil [2%N] 2), (fil [4%N] 2).
  split; [apply isort_sorts|]. split; [apply id_iter_all|]. split; [repeat constructor; cbn; lia|].
  split. { intros f I. cbn in I. intuition (subst; reflexivity). }
  split. { intros f g _ _ _. unfold col_compare. destruct (list_eq_dec _ _ _); intuition congruence. }
  split; [cbn; tauto|]. split; [cbn; tauto|]. split; [discriminate|]. split; [reflexivity|].
  intros grp I [A B].
  assert (E : fst (run_text (fun _ => Some 1%N) ex_junk col_compare isort id_iter cf0 col_files) = [[fil [1%N] 2; fil [3%N] 2]])
    by (vm_compute; reflexivity).
  rewrite E in I. destruct I as [<-|[]]. cbn in A. intuition discriminate.
Qed.

Print Assumptions groups_sound.
Print Assumptions reported_once.
Print Assumptions priority_first_partial.
Print Assumptions priority_dir_first_partial.
Print Assumptions priority_first_refuted.
Print Assumptions report_complete_partial.
Print Assumptions report_complete_refuted.
Print Assumptions report_no_crash_refuted.
Print Assumptions json_text_agree.
Print Assumptions unique_sizes_dropped.
