(** Properties of the text output (C74 to C76). *)
From Coq Require Import String Ascii.
From Verif Require Import Util HeapModel HeapProofs CollectModel ProcessModel ReportSpec ReportProofs ReportGroups ReportArrays ReportMain
  PropReport IgnoreModel OutputModel PropIgnoreFile.
From Coq Require Import Sorting.Permutation Sorting.Sorted.
Local Open Scope list_scope.
Local Open Scope Z_scope.

(** * Specification *)

(** how a group is written: the size if asked for, the paths with the separator between
    them, an empty line *)
Section Group.
Variable human : Z -> str.
Variable y : style.
Definition head_text (size : Z) : str := if y_sized y then y_size y ++ lit "Size: " ++ human size ++ y_reset y ++ [10%N] else [].
Definition rest_text (m : list file) : str := concat (map (fun g => y_sep y :: y_path y ++ f_path g ++ y_reset y) m).
Definition group_text (size : Z) (g : list file) : str :=
  match g with
  | [] => []
  | f :: m => head_text size ++ (y_path y ++ f_path f ++ y_reset y) ++ rest_text m ++ [10%N; 10%N]
  end.
(** the size shown is that of the files *)
Definition sized_text (g : list file) : str := group_text (match g with f :: _ => f_size f | [] => 0 end) g.
End Group.

(** * Proofs *)

Section Run.
Variable hash_of : file -> option N.
Variable junk : file -> N.
Variable compare : file -> file -> cmpres.
Variable qsort : (chk -> chk -> Z) -> list chk -> list chk.
Variable iter : table -> table.
Variable human : Z -> str.
Variable y : style.
Notation pairs_text := (pairs_text compare human y).
Notation array_text := (array_text compare human y).
Notation size_text := (size_text compare qsort human y).
Notation loop_text := (loop_text compare qsort human y).
Notation the_entry := (the_entry hash_of junk).

Definition started (m : list file) : bool := match m with [] => false | _ => true end.
Lemma pairs_text_spec size hv f : forall cells pr r m s, pairs compare hv f cells = (r, m, s) ->
  pairs_text pr size hv f cells =
    (r, pr || started m, (if pr || negb (started m) then [] else head_text human y size ++ show y f) ++ rest_text y m, s).
Proof.
  induction cells as [|k cells IH]; intros pr r m s; cbn [pairs OutputModel.pairs_text].
  - intros X. injection X as <- <- <-. cbn [started negb rest_text map concat]. now rewrite orb_false_r, orb_true_r.
  - destruct (k_hash k =? hv)%N.
    2: { intros X. injection X as <- <- <-. cbn. now rewrite orb_false_r, orb_true_r. }
    destruct (k_file k) as [g|].
    2: { intros X. injection X as <- <- <-. cbn. now rewrite orb_false_r, orb_true_r. }
    destruct (compare f g).
    + intros X. injection X as <- <- <-. cbn. now rewrite orb_false_r, orb_true_r.
    + destruct (pairs compare hv f cells) as [[r1 m1] s1] eqn:E. intros X. injection X as <- <- <-.
      now rewrite (IH pr r1 m1 s1 eq_refl).
    + destruct (pairs compare hv f cells) as [[r1 m1] s1] eqn:E. intros X. injection X as <- <- <-.
      now rewrite (IH pr r1 m1 s1 eq_refl).
    + destruct (pairs compare hv f cells) as [[r1 m1] s1] eqn:E. intros X. injection X as <- <- <-.
      rewrite (IH true r1 m1 s1 eq_refl). cbn [orb started negb]. rewrite orb_true_r, orb_false_r.
      unfold head_text, rest_text. cbn [map concat app]. destruct pr; [reflexivity|].
      unfold show. rewrite <- !app_assoc. reflexivity.
Qed.

(** [t] is the text of the groups, except that the last empty line may be missing after an
    error *)
Definition shows {A} (text : A -> str) (gs : list A) (t : str) (s : status) : Prop :=
  exists tail, t ++ tail = concat (map text gs) /\ (tail = [] \/ tail = [10%N; 10%N] /\ s <> SOk).
Lemma shows_app {A} (text : A -> str) g1 t1 g2 t2 s : shows text g1 t1 SOk -> shows text g2 t2 s -> shows text (g1 ++ g2) (t1 ++ t2) s.
Proof.
  intros (tail1 & E1 & [-> |(_ & X)]) (tail & E & T); [|congruence]. rewrite app_nil_r in E1. exists tail.
  rewrite map_app, concat_app, <- E, <- E1, <- app_assoc. auto.
Qed.

Lemma array_text_spec size : forall fuel cells gs s, report_array compare fuel cells = (gs, s) ->
  exists t, array_text fuel size cells = (t, s) /\ shows (group_text human y size) gs t s.
Proof.
  assert (Z : forall s, shows (group_text human y size) [] [] s) by (intros s; exists []; auto).
  induction fuel as [|fu IH]; intros cells gs s; (destruct cells as [|k r]; cbn [report_array OutputModel.array_text];
    [intros X; injection X as <- <-; eauto|]).
  - intros X. injection X as <- <-. eauto.
  - destruct (k_file k) as [f|]; [|apply IH].
    destruct (pairs compare (k_hash k) f r) as [[r1 m] s1] eqn:P.
    rewrite (pairs_text_spec size _ _ _ false _ _ _ P). cbn [orb].
    destruct s1; try (intros X; injection X as <- <-; eexists; split; [reflexivity|];
      destruct m as [|g m]; [exact (Z _)|]; exists [10%N; 10%N]; cbn [started negb map concat group_text]; rewrite app_nil_r;
      unfold show; rewrite <- !app_assoc; split; [reflexivity|right; split; [reflexivity|discriminate]]).
    destruct (report_array compare fu r1) as [gs2 s2] eqn:R. intros X. injection X as <- <-.
    destruct (IH _ _ _ R) as (t2 & E2 & S2). rewrite E2. eexists. split; [reflexivity|].
    destruct m as [|g m]; [exact S2|]. rewrite app_assoc. apply shows_app; [|exact S2].
    exists []. rewrite app_nil_r. cbn [started negb map concat group_text]. rewrite app_nil_r. unfold show. rewrite <- !app_assoc. auto.
Qed.
Lemma size_text_spec e gs s : report_size compare qsort e = (gs, s) ->
  exists t, size_text e = (t, s) /\ shows (group_text human y (fs_val e)) gs t s.
Proof.
  unfold report_size, OutputModel.size_text.
  destruct (negb _); [intros X; injection X as <- <-; exists []; split; [auto|]; exists []; auto|].
  destruct (_ <? _)%nat; [intros X; injection X as <- <-; exists []; split; [auto|]; exists []; auto|].
  apply array_text_spec.
Qed.

Lemma loop_text_sizes L l : forall fuel old h t,
  drains h l -> (length l < fuel)%nat -> StronglySorted desc l ->
  (forall f, In f l -> f_size f <= old) \/ (forall f, In f l -> f_size f <> old) ->
  (forall f, In f l -> f_size f <> old -> tfind (f_size f) t = Some (the_entry false L (f_size f))) ->
  loop_text fuel old h t = fold_sizes (fun s => size_text (the_entry false L s)) (size_seq old l).
Proof.
  induction l as [|f l IH]; intros fuel old h t D F S B T; (destruct fuel as [|fu]; [simpl in F; lia|]);
    cbn [OutputModel.loop_text size_seq].
  - inversion D as [? h' E|]; subst. now rewrite E.
  - inversion D as [|? h' ? ? E D']; subst. rewrite E.
    inversion S as [|? ? S1 S2]; subst. rewrite Forall_forall in S2.
    simpl in F. destruct (f_size f =? old) eqn:X.
    + apply IH; [exact D'|lia|exact S1| |].
      * destruct B as [B|B]; [left|right]; intros g I; apply B; now right.
      * intros g I NE. apply T; auto. now right.
    + rewrite T by (try (now left); lia). cbn [fold_sizes].
      destruct (size_text (the_entry false L (f_size f))) as [gs st]; destruct st; auto.
      rewrite (IH fu _ h' _ D'); [reflexivity|lia|exact S1|left; exact S2|].
      intros g I NE. cbn [fs_val ReportGroups.the_entry fs_nb]. rewrite tfind_tupd.
      * cbn [fs_val]. replace (f_size g =? f_size f) with false by lia. apply T; [now right|].
        destruct B as [B|B]; [|apply B; now right].
        apply S2 in I. unfold desc in I. specialize (B f (or_introl eq_refl)). lia.
      * cbn [fs_val]. destruct (in_dec Z.eq_dec (f_size f) (keys t)) as [K|K]; auto.
        apply tfind_keys in K. rewrite T in K; [discriminate|now left|lia].
Qed.

Hypothesis Q : sorts qsort.
Hypothesis IT : visits_all iter.

Lemma run_output_sizes c l : sizes_ok l -> collected c l <> [] ->
  exists L ss, Permutation (collected c l) L /\ sizes_list L ss /\
    run_text hash_of junk compare qsort iter c l = fold_sizes (fun s => report_size compare qsort (the_entry false L s)) ss /\
    run_output hash_of junk compare qsort iter human y c l = fold_sizes (fun s => size_text (the_entry false L s)) ss.
Proof.
  intros S NE. destruct (collect_files_inv c l [] _ collect_inv_empty) as (st & E & I). cbn [app] in I.
  assert (HI := I). destruct HI as (H & P & _ & _).
  destruct (drain_ok _ H) as (L & D & PL & SL).
  assert (PC : Permutation (collected c l) L) by (now rewrite P).
  assert (NN : forall f, In f L -> 0 <= f_size f).
  { intros f If. apply (Permutation_in f (Permutation_sym PC)) in If. eapply collected_nonneg; eauto. }
  destruct (process_files_ok hash_of junk iter IT false _ _ _ I D PC) as (s1 & E1 & P1).
  destruct (processed_sizes hash_of junk compare qsort iter IT _ _ _ P1 NN) as (l1 & ss1 & D1 & S1 & M1 & N1 & T1 & X1 & Z1).
  exists L, ss1. split; [auto|]. split; [auto|].
  assert (LN : (length (h_tree (co_heap st)) =? 0)%nat = false).
  { apply Permutation_length in P. rewrite <- P. destruct (collected c l); [congruence|reflexivity]. }
  assert (FU : (length l1 < Datatypes.S (length (h_tree (co_heap s1))))%nat).
  { destruct P1 as (_ & P1 & _). rewrite <- P1. rewrite (Permutation_length M1). lia. }
  assert (OLD : (forall f, In f l1 -> f_size f <= -1) \/ (forall f, In f l1 -> f_size f <> -1)).
  { right. intros f If. apply N1 in If. lia. }
  unfold run_text, run_output. rewrite E, LN, E1. split.
  - unfold report_text. rewrite (report_loop_sizes hash_of junk compare qsort iter L l1); auto. now rewrite X1.
  - unfold output_text. rewrite (loop_text_sizes L l1); auto. now rewrite X1.
Qed.

(** groups of one size *)
Lemma size_groups L s gs st : report_size compare qsort (the_entry false L s) = (gs, st) ->
  forall g f, In g gs -> In f g -> f_size f = s.
Proof.
  intros E g f Ig If. rewrite (report_size_eq hash_of junk compare qsort L s) in E.
  apply report_array_inv in E as [E _]. rewrite Forall_forall in E. destruct (E g Ig) as (h & m & hv & -> & NE & FE & SS).
  assert (J : In (mkChk hv (Some f)) (srt hash_of junk qsort false L s)).
  { eapply subseq_in; [exact SS|]. now apply (in_map (fun x => mkChk hv (Some x))). }
  apply srt_in in J as (x & X & _ & Z); auto. unfold cell in X. injection X as _ <-. exact Z.
Qed.

Lemma run_output_shows c l gs s : sizes_ok l -> run_text hash_of junk compare qsort iter c l = (gs, s) ->
  exists t, run_output hash_of junk compare qsort iter human y c l = (t, s) /\ shows (sized_text human y) gs t s.
Proof.
  intros SO E. assert (D : collected c l = [] \/ collected c l <> []) by (destruct (collected c l); [now left|right; discriminate]).
  destruct D as [NE|NE].
  - destruct (runs_empty hash_of junk compare qsort iter IT c l NE) as [A _]. rewrite A in E. injection E as <- <-.
    destruct (collect_files_inv c l [] _ collect_inv_empty) as (st & EC & I). cbn [app] in I.
    destruct I as (H & P & _ & _). rewrite NE in P. apply Permutation_nil in P.
    exists []. split; [unfold run_output; now rewrite EC, P|]. exists []. auto.
  - destruct (run_output_sizes c l SO NE) as (L & ss & P & Z & A & ->). rewrite A in E. clear A Z P NE SO.
    revert gs s E. induction ss as [|v ss IH]; intros gs s; cbn [fold_sizes].
    + intros X. injection X as <- <-. exists []. split; [auto|]. exists []. auto.
    + destruct (report_size compare qsort (the_entry false L v)) as [g1 s1] eqn:R.
      destruct (size_text_spec _ _ _ R) as (t1 & -> & S1). cbn [fs_val ReportGroups.the_entry] in S1.
      assert (X1 : shows (sized_text human y) g1 t1 s1).
      { destruct S1 as (tail & T & C). exists tail. split; [|exact C]. rewrite T. f_equal. apply map_ext_in. intros g Ig.
        unfold sized_text. destruct g as [|f g]; [reflexivity|]. f_equal. symmetry. apply (size_groups L v g1 s1 R _ _ Ig). now left. }
      destruct s1; try (intros X; injection X as <- <-; now exists t1).
      destruct (fold_sizes (fun s => report_size compare qsort (the_entry false L s)) ss) as [g2 s2] eqn:F.
      intros X. injection X as <- <-. destruct (IH _ _ eq_refl) as (t2 & -> & S2). exists (t1 ++ t2). split; [reflexivity|].
      now apply shows_app.
Qed.
End Run.

(** ** C74: the printed text is exactly the groups, and the groups can be read back from it *)

(** a path that can be told apart from what surrounds it *)
Definition plain (sep : N) (p : str) : Prop := p <> [] /\ ~ In 10%N p /\ ~ In sep p.

Lemma cut_unique (stop : N -> Prop) : forall p p' c c' r r',
  (forall x, In x p -> ~ stop x) -> (forall x, In x p' -> ~ stop x) -> stop c -> stop c' ->
  p ++ c :: r = p' ++ c' :: r' -> p = p' /\ c = c' /\ r = r'.
Proof.
  induction p as [|x p IH]; intros [|x' p'] c c' r r' P P' C C' E; cbn [app] in E; injection E as E1 E2.
  - auto.
  - subst x'. exfalso. apply (P' c (or_introl eq_refl) C).
  - subst x. exfalso. apply (P c' (or_introl eq_refl) C').
  - subst x'. destruct (IH p' c c' r r') as (-> & -> & ->); auto; intros z I; [apply P|apply P']; now right.
Qed.

Section Read.
Variable sep : N.
Variable sized : bool.
Variable human : Z -> str.
Hypothesis HN : forall z, ~ In 10%N (human z).
Let y := style_of sep sized false.

Lemma rest_text_cons g m : rest_text y (g :: m) = sep :: f_path g ++ rest_text y m.
Proof. unfold rest_text. cbn [map concat y style_of y_sep y_path y_reset app]. now rewrite app_nil_r. Qed.
Lemma rest_starts m r : exists c q, rest_text y m ++ 10%N :: r = c :: q /\ (c = sep \/ c = 10%N).
Proof. destruct m as [|g m]; [now exists 10%N, r; auto|]. rewrite rest_text_cons. cbn [app]. eauto. Qed.
Lemma path_rest_unique p p' m m' r r' : plain sep p -> plain sep p' ->
  p ++ rest_text y m ++ 10%N :: r = p' ++ rest_text y m' ++ 10%N :: r' ->
  p = p' /\ rest_text y m ++ 10%N :: r = rest_text y m' ++ 10%N :: r'.
Proof.
  intros (_ & N & S) (_ & N' & S') E. destruct (rest_starts m r) as (c & q & X & C). destruct (rest_starts m' r') as (c' & q' & X' & C').
  rewrite X, X' in *. apply (cut_unique (fun x => x = sep \/ x = 10%N)) in E; auto.
  - destruct E as (-> & -> & ->). auto.
  - intros x I [-> | ->]; auto.
  - intros x I [-> | ->]; auto.
Qed.
Lemma rest_unique : forall m m' r r', Forall (fun f => plain sep (f_path f)) m -> Forall (fun f => plain sep (f_path f)) m' ->
  rest_text y m ++ 10%N :: 10%N :: r = rest_text y m' ++ 10%N :: 10%N :: r' -> map f_path m = map f_path m' /\ r = r'.
Proof.
  assert (X : forall g m r r', plain sep (f_path g) -> 10%N :: 10%N :: r <> sep :: f_path g ++ rest_text y m ++ 10%N :: r').
  { intros g m r r' (NE & N & S) E. injection E as E1 E2. destruct (f_path g) as [|c p]; [congruence|]. injection E2 as <- _. apply N. now left. }
  induction m as [|g m IH]; intros [|g' m'] r r' A A' E.
  - cbn in E. injection E as ->. auto.
  - exfalso. rewrite rest_text_cons in E. cbn [app] in E. change (rest_text y [] ++ 10%N :: 10%N :: r) with (10%N :: 10%N :: r) in E.
    rewrite <- app_assoc in E. inversion A'; subst. eapply X; eauto.
  - exfalso. rewrite rest_text_cons in E. cbn [app] in E. change (rest_text y [] ++ 10%N :: 10%N :: r') with (10%N :: 10%N :: r') in E.
    rewrite <- app_assoc in E. symmetry in E. inversion A; subst. eapply X; eauto.
  - rewrite !rest_text_cons in E. cbn [app] in E. injection E as E. rewrite <- !app_assoc in E.
    inversion A; subst. inversion A'; subst. apply path_rest_unique in E; auto. destruct E as [E1 E2].
    destruct (IH m' r r') as [E3 ->]; auto. cbn [map]. now rewrite E1, E3.
Qed.
Lemma head_text_unique a b r r' : head_text human y a ++ r = head_text human y b ++ r' -> r = r'.
Proof.
  unfold head_text. cbn [y style_of y_sized y_size y_reset app]. destruct sized; [|auto].
  rewrite <- !app_assoc. intros E. apply app_inv_head in E. cbn [app] in E.
  apply nl_unique in E; auto. tauto.
Qed.
Lemma texts_unique : forall gs gs',
  Forall (fun g => g <> [] /\ Forall (fun f => plain sep (f_path f)) g) gs ->
  Forall (fun g => g <> [] /\ Forall (fun f => plain sep (f_path f)) g) gs' ->
  concat (map (sized_text human y) gs) = concat (map (sized_text human y) gs') -> map (map f_path) gs = map (map f_path) gs'.
Proof.
  assert (X : forall s f m r, group_text human y s (f :: m) ++ r = head_text human y s ++ f_path f ++ rest_text y m ++ 10%N :: 10%N :: r).
  { intros. cbn [group_text y style_of y_path y_reset]. cbn [app]. rewrite app_nil_r, <- !app_assoc. reflexivity. }
  assert (Y : forall f m r, plain sep (f_path f) -> sized_text human y (f :: m) ++ r <> []).
  { intros f m r (NE & _) E. unfold sized_text in E. rewrite X in E. apply app_eq_nil in E as [_ E]. apply app_eq_nil in E as [E _]. auto. }
  induction gs as [|g gs IH]; intros [|g' gs'] A A' E; cbn [map concat] in E.
  - auto.
  - inversion A' as [|? ? (NE & P) A2]; subst. destruct g' as [|f' m']; [congruence|]. inversion P; subst. symmetry in E. exfalso. eapply Y; eauto.
  - inversion A as [|? ? (NE & P) A2]; subst. destruct g as [|f m]; [congruence|]. inversion P; subst. exfalso. eapply Y; eauto.
  - inversion A as [|? ? (NE & P) A2]; subst. inversion A' as [|? ? (NE' & P') A2']; subst.
    destruct g as [|f m]; [congruence|]. destruct g' as [|f' m']; [congruence|].
    inversion P; subst. inversion P'; subst. unfold sized_text in E at 1 3. rewrite !X in E.
    apply head_text_unique in E. apply path_rest_unique in E; auto. destruct E as [E1 E2].
    apply rest_unique in E2; auto. destruct E2 as [E2 E3]. cbn [map]. rewrite E1, E2. f_equal. now apply IH.
Qed.
End Read.

(** nothing but the groups is written, each of them once and in their order; after an error
    the last group may lack its empty line *)
Theorem text_exact : forall hash_of junk compare qsort iter human y c l gs s,
  sorts qsort -> visits_all iter -> sizes_ok l ->
  run_text hash_of junk compare qsort iter c l = (gs, s) ->
  exists t, run_output hash_of junk compare qsort iter human y c l = (t, s) /\
    exists tail, t ++ tail = concat (map (sized_text human y) gs) /\ (tail = [] \/ tail = [10%N; 10%N] /\ s <> SOk).
Proof. intros. eapply run_output_shows; eauto. Qed.

(** Missing: paths with a newline or the separator in them, and output to a terminal. *)
Theorem text_readable_partial : forall hash_of junk compare qsort iter human sep sized c l t,
  sorts qsort -> visits_all iter -> sizes_ok l -> (forall z, ~ In 10%N (human z)) ->
  Forall (fun e => plain sep (fst e)) l ->
  run_output hash_of junk compare qsort iter human (style_of sep sized false) c l = (t, SOk) ->
  forall gs', Forall (fun g => g <> [] /\ Forall (fun f => plain sep (f_path f)) g) gs' ->
    concat (map (sized_text human (style_of sep sized false)) gs') = t ->
    map (map f_path) gs' = map (map f_path) (fst (run_text hash_of junk compare qsort iter c l)).
Proof.
  intros hash_of junk compare qsort iter human sep sized c l t Q IT SO HN PL E gs' G' T.
  destruct (run_text hash_of junk compare qsort iter c l) as [gs s] eqn:R. cbn [fst].
  destruct (run_output_shows hash_of junk compare qsort iter human (style_of sep sized false) Q IT c l gs s SO R) as (t' & E' & tail & X & Y).
  rewrite E' in E. injection E as -> ->. destruct Y as [-> |(_ & Y)]; [|congruence]. rewrite app_nil_r in X. subst t.
  apply (texts_unique sep sized human HN) in X; auto.
  destruct (groups_sound hash_of junk compare qsort iter (fun _ => []) c l Q IT SO (fun _ _ _ _ _ _ => eq_refl)) as [GS _].
  rewrite R in GS. cbn [fst] in GS. apply Forall_forall. intros g Ig. destruct (GS g Ig) as (L & IN & _). split.
  - intros ->. cbn in L. lia.
  - apply Forall_forall. intros f If. apply IN in If. unfold collected in If. apply in_map_iff in If as (e & <- & If).
    apply filter_In in If as [If _]. rewrite Forall_forall in PL. now apply PL.
Qed.

(** ** C76: larger files first *)
Lemma fold_sizes_sorted (R : Z -> list (list file) * status) : forall ss gs s,
  StronglySorted Z.gt ss -> fold_sizes R ss = (gs, s) ->
  (forall v g f, In g (fst (R v)) -> In f g -> f_size f = v) ->
  StronglySorted (fun g g' => forall f f', In f g -> In f' g' -> f_size f' <= f_size f) gs /\
  (forall g f, In g gs -> In f g -> In (f_size f) ss).
Proof.
  assert (Same : forall v gs, (forall g f, In g gs -> In f g -> f_size f = v) ->
    StronglySorted (fun g g' => forall f f', In f g -> In f' g' -> f_size f' <= f_size f) gs).
  { induction gs as [|g gs IH]; intros H; constructor.
    - apply IH. intros h f I. apply H. now right.
    - apply Forall_forall. intros g' I f f' F F'. rewrite (H g f (or_introl eq_refl) F), (H g' f' (or_intror I) F'). lia. }
  induction ss as [|v ss IH]; intros gs s SS; cbn [fold_sizes].
  - intros X _. injection X as <- <-. split; [constructor|intros ? ? []].
  - inversion SS as [|? ? S1 S2]; subst. destruct (R v) as [g1 s1] eqn:E1. intros X H.
    assert (H1 : forall g f, In g g1 -> In f g -> f_size f = v) by (intros g f I F; apply (H v g f); [now rewrite E1|auto]).
    assert (K1 : StronglySorted (fun g g' => forall f f', In f g -> In f' g' -> f_size f' <= f_size f) g1) by eauto.
    assert (done : (g1, s1) = (gs, s) -> StronglySorted (fun g g' => forall f f', In f g -> In f' g' -> f_size f' <= f_size f) gs /\
      (forall g f, In g gs -> In f g -> In (f_size f) (v :: ss))).
    { intros Y. injection Y as <- <-. split; auto. intros g f I F. left. symmetry. eauto. }
    destruct s1; auto. destruct (fold_sizes R ss) as [g2 s2] eqn:E2. injection X as <- <-.
    destruct (IH g2 s2 S1 eq_refl H) as [A B]. split.
    + clear -K1 A B H1 S2. rewrite Forall_forall in S2. induction K1 as [|g g1 K IHK F]; [exact A|]. cbn [app]. constructor.
      * apply IHK. intros h f I. apply H1. now right.
      * rewrite Forall_forall in *. intros g' I. apply in_app_iff in I as [I|I]; [now apply F|]. intros f f' Fi Fi'.
        rewrite (H1 g f (or_introl eq_refl) Fi). specialize (S2 _ (B g' f' I Fi')). lia.
    + intros g f I F. apply in_app_iff in I as [I|I]; [left; symmetry; eauto|right; eauto].
Qed.
Theorem larger_first : forall hash_of junk compare qsort iter c l,
  sorts qsort -> visits_all iter -> sizes_ok l ->
  StronglySorted (fun g g' => forall f f', In f g -> In f' g' -> f_size f' <= f_size f) (fst (run_text hash_of junk compare qsort iter c l)) /\
  StronglySorted (fun g g' => forall f f', In f g -> In f' g' -> f_size f' <= f_size f)
    (map set_files (fst (run_json hash_of junk compare qsort iter c l))).
Proof.
  intros hash_of junk compare qsort iter c l Q IT SO.
  assert (D : collected c l = [] \/ collected c l <> []) by (destruct (collected c l); [now left|right; discriminate]).
  destruct D as [NE|NE].
  - destruct (runs_empty hash_of junk compare qsort iter IT c l NE) as [-> ->]. split; constructor.
  - destruct (runs_ok hash_of junk compare qsort iter IT c l SO NE) as (L & ss & P & Z & -> & ->).
    assert (G : forall json v g f, In g (fst (report_array compare (cnt v L) (srt hash_of junk qsort json L v))) -> In f g -> f_size f = v).
    { intros json v g f Ig If. destruct (report_array compare (cnt v L) (srt hash_of junk qsort json L v)) as [gs st] eqn:E. cbn [fst] in Ig.
      apply report_array_inv in E as [E _]. rewrite Forall_forall in E. destruct (E g Ig) as (h & m & hv & -> & NEm & FE & SS).
      assert (J : In (mkChk hv (Some f)) (srt hash_of junk qsort json L v)).
      { eapply subseq_in; [exact SS|]. now apply (in_map (fun x => mkChk hv (Some x))). }
      apply srt_in in J as (x & X & _ & W); auto. unfold cell in X. injection X as _ <-. exact W. }
    split.
    + rewrite fold_text_eq.
      destruct (fold_sizes (fun s => report_array compare (cnt s L) (srt hash_of junk qsort false L s)) ss) as [gs s] eqn:E.
      eapply fold_sizes_sorted in E; [apply E|apply Z|apply G].
    + destruct (fold_sizes (fun s => json_size compare qsort (the_entry hash_of junk true L s)) ss) as [js st] eqn:E.
      destruct st; cbn [fst map]; try constructor.
      apply json_as_text in E. eapply fold_sizes_sorted in E; [apply E|apply Z|apply G].
Qed.

(** ** C75: deleting what the README's pipeline deletes loses no content *)

(** [cut -d SEP -f 1 -s]: of each line with a separator, what precedes the first one *)
Definition removed (sep : N) (t p : str) : Prop :=
  exists ls k rest, has_lines t ls /\ In k ls /\ k = p ++ sep :: rest /\ ~ In sep p.

Lemma lines_tail : forall t ls, has_lines t ls -> exists ls', has_lines (t ++ [10%N; 10%N]) (ls ++ ls') /\ Forall (eq []) ls'.
Proof.
  assert (E1 : has_lines [10%N] [[]]) by (apply (lines_cons [] [] []); [intros []|constructor]).
  induction 1 as [|k NE NI|k t ls NI H (ls' & IH & F)].
  - exists [[]; []]. split; [|repeat constructor]. apply (lines_cons [] [10%N] [[]]); auto.
  - exists [[]]. split; [|repeat constructor]. cbn [app]. now apply (lines_cons k [10%N] [[]]).
  - exists ls'. split; auto. rewrite <- app_assoc. cbn [app]. now apply lines_cons.
Qed.

Section Clean.
Variable sep : N.
Hypothesis S10 : sep <> 10%N.
Variable human : Z -> str.
Let y := style_of sep false false.
Definition line_of (g : list file) : str := match g with [] => [] | f :: m => f_path f ++ rest_text y m end.
Lemma rest_no_nl : forall m, Forall (fun f => plain sep (f_path f)) m -> ~ In 10%N (rest_text y m).
Proof.
  induction m as [|g m IH]; intros F I; [destruct I|]. unfold y in I. rewrite rest_text_cons in I. fold y in I.
  inversion F as [|? ? (_ & NN & _) F2]; subst. destruct I as [I|I]; [congruence|]. apply in_app_iff in I as [I|I]; auto. now apply IH.
Qed.
Lemma lines_of_text : forall gs, Forall (fun g => g <> [] /\ Forall (fun f => plain sep (f_path f)) g) gs ->
  has_lines (concat (map (sized_text human y) gs)) (flat_map (fun g => [line_of g; []]) gs).
Proof.
  induction 1 as [|g gs (NE & F) _ IH]; cbn [map concat flat_map app]; [constructor|].
  destruct g as [|f m]; [congruence|]. inversion F as [|? ? (_ & NN & _) F2]; subst.
  unfold sized_text at 1. cbn [group_text y style_of head_text y_sized y_path y_reset app]. unfold head_text. cbn [y_sized].
  rewrite app_nil_r. cbn [app]. rewrite <- app_assoc. fold y.
  replace (f_path f ++ (rest_text y m ++ [10%N; 10%N]) ++ concat (map (sized_text human y) gs))
    with (line_of (f :: m) ++ 10%N :: [] ++ 10%N :: concat (map (sized_text human y) gs))
    by (cbn [line_of app]; rewrite <- !app_assoc; reflexivity).
  apply lines_cons; [|apply lines_cons; [intros []|exact IH]].
  cbn [line_of]. intros I. apply in_app_iff in I as [I|I]; auto. eapply rest_no_nl; eauto.
Qed.
Lemma removed_spec gs t tail p : t ++ tail = concat (map (sized_text human y) gs) -> tail = [] \/ tail = [10%N; 10%N] ->
  Forall (fun g => (2 <= length g)%nat /\ Forall (fun f => plain sep (f_path f)) g) gs ->
  (removed sep t p <-> exists f m, In (f :: m) gs /\ f_path f = p).
Proof.
  intros E T F.
  assert (HF := F). assert (X : forall ls, has_lines t ls -> exists ls', ls ++ ls' = flat_map (fun g => [line_of g; []]) gs /\ Forall (eq []) ls').
  { assert (HL : has_lines (concat (map (sized_text human y) gs)) (flat_map (fun g => [line_of g; []]) gs)).
    { apply lines_of_text. eapply Forall_impl; [|exact F]. intros g (L & P). split; auto. intros ->. cbn in L. lia. }
    intros ls H. destruct T as [-> | ->].
    - exists []. rewrite app_nil_r in *. rewrite <- E in HL. split; [|constructor]. eapply lines_unique; eauto.
    - destruct (lines_tail t ls H) as (ls' & H' & F'). exists ls'. split; auto. rewrite E in H'. eapply lines_unique; eauto. }
  rewrite Forall_forall in F. split.
  - intros (ls & k & rest & H & I & -> & NI). destruct (X ls H) as (ls' & Y & _).
    assert (J : In (p ++ sep :: rest) (flat_map (fun g => [line_of g; []]) gs)) by (rewrite <- Y; apply in_app_iff; now left).
    apply in_flat_map in J as (g & Ig & [J|[J|[]]]); [|destruct p; discriminate].
    destruct (F g Ig) as (L & P). destruct g as [|f [|f' m]]; cbn in L; [lia|lia|].
    exists f, (f' :: m). split; auto. cbn [line_of] in J. unfold y in J. rewrite rest_text_cons in J.
    inversion P as [|? ? (_ & _ & PS) _]; subst.
    apply (cut_unique (fun x => x = sep)) in J; [tauto| | |auto|auto]; intros x Ix ->; auto.
  - intros (f & m & Ig & <-). destruct (lines_exist t) as (ls & H). destruct (X ls H) as (ls' & Y & F').
    destruct (F _ Ig) as (L & P). destruct m as [|f' m]; [cbn in L; lia|].
    inversion P as [|? ? (_ & _ & PS) _]; subst.
    exists ls, (line_of (f :: f' :: m)), (f_path f' ++ rest_text y m). split; auto. split; [|split; auto].
    + assert (J : In (line_of (f :: f' :: m)) (ls ++ ls')) by (rewrite Y; apply in_flat_map; exists (f :: f' :: m); split; [auto|now left]).
      apply in_app_iff in J as [J|J]; auto. rewrite Forall_forall in F'. apply F' in J. exfalso.
      cbn [line_of] in J. unfold y in J. rewrite rest_text_cons in J. symmetry in J. apply app_eq_nil in J as [_ J]. discriminate.
    + cbn [line_of]. unfold y. now rewrite rest_text_cons.
Qed.
End Clean.

Lemma second_no_head {A B} (F : A -> B) : forall gs h g m h' m', NoDup (map F (concat gs)) ->
  In (h :: g :: m) gs -> In (h' :: m') gs -> F g <> F h'.
Proof.
  induction gs as [|x gs IH]; intros h g m h' m' ND I I' E; [destruct I|]. cbn [concat] in ND. rewrite map_app in ND.
  assert (K : forall z, In z (map F x) -> In z (map F (concat gs)) -> False).
  { clear -ND. induction (map F x) as [|a r IH]; intros z I J; [destruct I|]. cbn [app] in ND. inversion ND as [|? ? N1 N2]; subst.
    destruct I as [-> |I]; [apply N1; apply in_app_iff; now right|eauto]. }
  assert (ND2 : NoDup (map F (concat gs)) /\ NoDup (map F x)).
  { clear -ND. induction (map F x) as [|a r IH]; [split; [exact ND|constructor]|]. cbn [app] in ND. inversion ND as [|? ? N1 N2]; subst.
    destruct (IH N2) as [A1 A2]. split; auto. constructor; auto. intros J. apply N1. apply in_app_iff. now left. }
  destruct ND2 as [ND2 NDx]. destruct I as [-> |I], I' as [X|I'].
  - injection X as <- <-. cbn [map] in NDx. inversion NDx as [|? ? N1 N2]; subst. apply N1. left. exact E.
  - apply (K (F g)); [right; left; reflexivity|]. rewrite E. apply in_map. apply in_concat. exists (h' :: m'). split; [auto|now left].
  - subst x. apply (K (F h')); [now left|]. rewrite <- E. apply in_map. apply in_concat. exists (h :: g :: m). split; [auto|right; now left].
  - eapply IH; eauto.
Qed.

Lemma collected_nodup c l : NoDup (map fst l) -> NoDup (map f_path (collected c l)).
Proof.
  intros N. unfold collected. rewrite map_map. cbn [f_path]. induction l as [|e l IH]; cbn [filter map]; [constructor|].
  cbn [map] in N. inversion N as [|? ? N1 N2]; subst. destruct (_ && _); [|now apply IH].
  cbn [map]. constructor; [|now apply IH]. intros I. apply N1.
  apply in_map_iff in I as (x & E & J). apply filter_In in J as [J _]. rewrite <- E. now apply in_map.
Qed.
Lemma nodup_inj {A B} (F : A -> B) : forall l x x', NoDup (map F l) -> In x l -> In x' l -> F x = F x' -> x = x'.
Proof.
  induction l as [|a l IH]; intros x x' N I I' E; [destruct I|]. cbn [map] in N. inversion N as [|? ? N1 N2]; subst.
  destruct I as [-> |I], I' as [-> |I']; auto.
  - exfalso. apply N1. rewrite E. now apply in_map.
  - exfalso. apply N1. rewrite <- E. now apply in_map.
Qed.

(** the pipeline deletes the first file of each group and nothing else *)
Theorem cleanup_first_partial : forall hash_of junk compare qsort iter human sep c l gs s t s',
  sorts qsort -> visits_all iter -> sizes_ok l -> sep <> 10%N -> Forall (fun e => plain sep (fst e)) l ->
  run_text hash_of junk compare qsort iter c l = (gs, s) ->
  run_output hash_of junk compare qsort iter human (style_of sep false false) c l = (t, s') ->
  forall p, removed sep t p <-> exists f m, In (f :: m) gs /\ f_path f = p.
Proof.
  intros hash_of junk compare qsort iter human sep c l gs s t s' Q IT SO S10 PL R E p.
  destruct (run_output_shows hash_of junk compare qsort iter human (style_of sep false false) Q IT c l gs s SO R) as (t' & E' & tail & X & Y).
  rewrite E' in E. injection E as -> <-. apply (removed_spec sep S10 human gs t tail); auto; [tauto|].
  destruct (groups_sound hash_of junk compare qsort iter (fun _ => []) c l Q IT SO (fun _ _ _ _ _ _ => eq_refl)) as [GS _].
  rewrite R in GS. cbn [fst] in GS. apply Forall_forall. intros g Ig. destruct (GS g Ig) as (L & IN & _). split; auto.
  apply Forall_forall. intros f If. apply IN in If. unfold collected in If. apply in_map_iff in If as (e & <- & If).
  apply filter_In in If as [If _]. rewrite Forall_forall in PL. now apply PL.
Qed.

(** Missing: separators and newlines inside paths, and files met twice by the walk. *)
Theorem cleanup_safe_partial : forall hash_of junk compare qsort iter human (content : file -> list N) sep c l t s,
  sorts qsort -> visits_all iter -> sizes_ok l -> sep <> 10%N ->
  Forall (fun e => plain sep (fst e)) l -> NoDup (map fst l) ->
  (forall f g, In f (collected c l) -> In g (collected c l) -> f_size f = f_size g ->
    compare f g = Equal -> content f = content g) ->
  run_output hash_of junk compare qsort iter human (style_of sep false false) c l = (t, s) ->
  forall f, In f (collected c l) ->
    exists g, In g (collected c l) /\ content g = content f /\ ~ removed sep t (f_path g).
Proof.
  intros hash_of junk compare qsort iter human content sep c l t s Q IT SO S10 PL ND CE E f If.
  destruct (run_text hash_of junk compare qsort iter c l) as [gs s'] eqn:R.
  assert (RM := cleanup_first_partial hash_of junk compare qsort iter human sep c l gs s' t s Q IT SO S10 PL R E).
  destruct (groups_sound hash_of junk compare qsort iter content c l Q IT SO CE) as [GS _].
  destruct (reported_once hash_of junk compare qsort iter c l Q IT SO ND) as [RO _]. rewrite R in GS, RO. cbn [fst] in GS, RO.
  assert (D : (exists h m, In (h :: m) gs /\ f_path h = f_path f) \/ ~ exists h m, In (h :: m) gs /\ f_path h = f_path f).
  { clear. induction gs as [|g gs [ (h & m & I & E)|IH]].
    - right. intros (h & m & [] & _).
    - left. exists h, m. split; [now right|auto].
    - destruct g as [|h m]; [|destruct (list_eq_dec N.eq_dec (f_path h) (f_path f)) as [E|E]].
      + right. intros (h & m & [X|I] & E); [discriminate|eauto].
      + left. exists h, m. split; [now left|auto].
      + right. intros (h' & m' & [X|I] & E'); [injection X as -> ->; auto|eauto]. }
  destruct D as [(h & m & I & X)|D].
  - destruct (GS _ I) as (L & IN & C). destruct m as [|g m]; [cbn in L; lia|].
    assert (h = f). { apply (nodup_inj f_path (collected c l)); auto. now apply collected_nodup. apply IN. now left. } subst h.
    exists g. split; [apply IN; right; now left|]. split; [apply C; [right; now left|now left]|].
    rewrite RM. intros (h' & m' & I' & X'). symmetry in X'. revert X'. eapply second_no_head; eauto.
  - exists f. split; auto. split; auto. now rewrite RM.
Qed.

(** ** Examples *)
Definition ex_human (z : Z) : str := lit "2 B".
Definition fe (p : string) (size : Z) : list N * finfo := (lit p, inf size).
Definition all_equal (f g : file) : cmpres := Equal.
Definition one_hash (f : file) : option N := Some 1%N.
Definition out (sep : N) (sized : bool) l := run_output one_hash ex_junk all_equal isort id_iter ex_human (style_of sep sized false) cf0 l.

Definition o_files := [fe "a" 2; fe "b" 2; fe "d/e" 1; fe "f" 2; fe "g" 3; fe "h" 1].
Example o_plain : Forall (fun e => plain (chr ",") (fst e)) o_files /\ NoDup (map fst o_files) /\ sizes_ok o_files.
Proof.
  split; [|split].
  - repeat apply Forall_cons; try constructor; unfold plain, fe; cbn; intuition discriminate.
  - cbn. repeat constructor; cbn; intuition discriminate.
  - repeat constructor; cbn; lia.
Qed.
Example o_run : out (chr ",") true o_files =
  (lit "Size: 2 B" ++ [10%N] ++ lit "a,b,f" ++ [10%N; 10%N] ++ lit "Size: 2 B" ++ [10%N] ++ lit "d/e,h" ++ [10%N; 10%N], SOk).
Proof. vm_compute. reflexivity. Qed.

(** a newline in a name: two different results, one text *)
Definition nl_path : str := [97; 10; 98]%N.   (* a, newline, b *)
Theorem text_readable_refuted : exists hash_of junk compare qsort iter human sep c l1 l2 t,
  sorts qsort /\ visits_all iter /\ sizes_ok l1 /\ sizes_ok l2 /\ NoDup (map fst l1) /\ NoDup (map fst l2) /\
  run_output hash_of junk compare qsort iter human (style_of sep false false) c l1 = (t, SOk) /\
  run_output hash_of junk compare qsort iter human (style_of sep false false) c l2 = (t, SOk) /\
  map (map f_path) (fst (run_text hash_of junk compare qsort iter c l1)) = [[nl_path; lit "c"]] /\
  map (map f_path) (fst (run_text hash_of junk compare qsort iter c l2)) = [[lit "a"; lit "b"; lit "c"]].
Proof.
  exists one_hash, ex_junk, all_equal, isort, id_iter, ex_human, 10%N, cf0, [(nl_path, inf 2); fe "c" 2], [fe "a" 2; fe "c" 2; fe "b" 2].
  eexists. split; [exact isort_sorts|]. split; [exact id_iter_all|]. split; [repeat constructor; cbn; lia|]. split; [repeat constructor; cbn; lia|].
  split; [cbn; repeat constructor; cbn; intuition discriminate|]. split; [cbn; repeat constructor; cbn; intuition discriminate|].
  split; [vm_compute; reflexivity|]. split; [vm_compute; reflexivity|]. split; vm_compute; reflexivity.
Qed.

Example o_out : fst (out (chr ",") false o_files) = lit "a,b,f" ++ [10%N; 10%N] ++ lit "d/e,h" ++ [10%N; 10%N].
Proof. vm_compute. reflexivity. Qed.
Example o_removed : removed (chr ",") (lit "a,b,f" ++ [10%N; 10%N] ++ lit "d/e,h" ++ [10%N; 10%N]) (lit "d/e").
Proof.
  exists [lit "a,b,f"; []; lit "d/e,h"; []], (lit "d/e,h"), (lit "h"). split; [|split; [|split]].
  - apply (lines_cons (lit "a,b,f")); [cbn; intuition discriminate|]. apply (lines_cons []); [intros []|].
    apply (lines_cons (lit "d/e,h")); [cbn; intuition discriminate|]. apply (lines_cons []); [intros []|constructor].
  - right. right. now left.
  - reflexivity.
  - cbn. intuition discriminate.
Qed.

(** a separator in a name: the group of "a,b" and "c" makes the pipeline delete "a"; a file
    met twice: the pipeline deletes the only copy *)
Definition sc_files := [fe "a,b" 2; fe "c" 2; fe "a" 1].
Definition sc_content (f : file) : list N := if f_size f =? 2 then [7; 7]%N else [5%N].
Definition sc_compare (f g : file) : cmpres := if list_eq_dec N.eq_dec (sc_content f) (sc_content g) then Equal else Differ.
Theorem cleanup_safe_refuted :
  (exists hash_of junk compare qsort iter human content sep c l t,
    sorts qsort /\ visits_all iter /\ sizes_ok l /\ sep <> 10%N /\ NoDup (map fst l) /\
    exact_compare content compare (collected c l) /\
    run_output hash_of junk compare qsort iter human (style_of sep false false) c l = (t, SOk) /\
    exists f, In f (collected c l) /\
      forall g, In g (collected c l) -> content g = content f -> removed sep t (f_path g)) /\
  (exists hash_of junk compare qsort iter human content sep c l t,
    sorts qsort /\ visits_all iter /\ sizes_ok l /\ sep <> 10%N /\ Forall (fun e => plain sep (fst e)) l /\
    exact_compare content compare (collected c l) /\
    run_output hash_of junk compare qsort iter human (style_of sep false false) c l = (t, SOk) /\
    exists f, In f (collected c l) /\
      forall g, In g (collected c l) -> content g = content f -> removed sep t (f_path g)).
Proof.
  assert (EX : forall L, exact_compare sc_content sc_compare L).
  { intros L f g _ _ _. unfold sc_compare. destruct (list_eq_dec _ _ _); intuition congruence. }
  split.
  - exists one_hash, ex_junk, sc_compare, isort, id_iter, ex_human, sc_content, (chr ","), cf0, sc_files.
    eexists. split; [exact isort_sorts|]. split; [exact id_iter_all|]. split; [repeat constructor; cbn; lia|]. split; [discriminate|].
    split; [cbn; repeat constructor; cbn; intuition discriminate|]. split; [apply EX|]. split; [vm_compute; reflexivity|].
    exists (mkFile (lit "a") 1 false). split; [cbn; auto|].
    intros g I X. cbn in I. destruct I as [<-|[<-|[<-|[]]]]; try discriminate X.
    exists [lit "a,b,c"; []], (lit "a,b,c"), (lit "b,c"). split; [|split; [now left|split; [reflexivity|cbn; intuition discriminate]]].
    apply (lines_cons (lit "a,b,c")); [cbn; intuition discriminate|]. apply (lines_cons []); [intros []|constructor].
  - exists one_hash, ex_junk, sc_compare, isort, id_iter, ex_human, sc_content, (chr ","), cf0, [fe "a" 2; fe "a" 2].
    eexists. split; [exact isort_sorts|]. split; [exact id_iter_all|]. split; [repeat constructor; cbn; lia|]. split; [discriminate|].
    split; [repeat apply Forall_cons; try constructor; unfold plain, fe; cbn; intuition discriminate|].
    split; [apply EX|]. split; [vm_compute; reflexivity|].
    exists (mkFile (lit "a") 2 false). split; [cbn; auto|].
    intros g I _. cbn in I. destruct I as [<-|[<-|[]]];
    (exists [lit "a,a"; []], (lit "a,a"), (lit "a"); split; [|split; [now left|split; [reflexivity|cbn; intuition discriminate]]];
     apply (lines_cons (lit "a,a")); [cbn; intuition discriminate|]; apply (lines_cons []); [intros []|constructor]).
Qed.

Example larger_first_case : map (map f_size) (fst (run_text one_hash ex_junk all_equal isort id_iter cf0 o_files)) = [[2; 2; 2]; [1; 1]].
Proof. vm_compute. reflexivity. Qed.

Print Assumptions text_exact.
Print Assumptions text_readable_partial.
Print Assumptions text_readable_refuted.
Print Assumptions larger_first.
Print Assumptions cleanup_first_partial.
Print Assumptions cleanup_safe_partial.
Print Assumptions cleanup_safe_refuted.
