(** What could not be read is named on stderr (C162). *)
From Coq Require Import String Ascii.
From Coq Require Import Sorting.Permutation Sorting.Sorted.
From Verif Require Import Util HeapModel IgnoreModel CollectModel ProcessModel FileModel PropFile PropEnd WalkModel PropWalk
  ReportSpec ReportProofs ReportGroups ReportArrays ReportMain PropReport PropRun HumanModel FormatModel ConfigModel OutputModel PropOutput ImageModel JsonModel MainModel MsgModel.
Local Open Scope list_scope.

(** * Specification *)
Section Spec.
Context {R : Type}.
Variable compile : str -> option R.
Variable exec : R -> str -> bool.
(** the message names the place below the argument [a] where the walk cannot go on: a path without
    stat data, or a directory that is to be entered and cannot be opened *)
Inductive at_fault (c : wconf R) (f : fs) (a : path) : msg -> Prop :=
| fault_stat cs p : reached compile exec c f a cs p -> s_stat f p = None -> at_fault c f a (SaysStat p)
| fault_dir cs p i : reached compile exec c f a cs p -> s_stat f p = Some i -> i_type i = TDir -> passes exec c cs p i ->
    s_dir f p = None -> at_fault c f a (SaysDir p).
End Spec.
(** the message has the path [p] in it *)
Definition names (p : path) (m : msg) : Prop :=
  match m with
  | SaysStat q | SaysDir q | SaysResolve q | SaysRead q | SaysSkip q => q = p
  | SaysPairRead q r | SaysPair q r => q = p \/ r = p
  | _ => False
  end.

(** * The walk *)
Section Walk.
Variable R : Type.
Variable compile : str -> option R.
Variable exec : R -> str -> bool.
Implicit Types (c : wconf R) (f : fs) (cs : list (ctx R)).

Inductive fault c f cs0 p0 : msg -> Prop :=
| f_stat cs p : below R compile exec c f cs0 p0 cs p -> s_stat f p = None -> fault c f cs0 p0 (SaysStat p)
| f_dir cs p i : below R compile exec c f cs0 p0 cs p -> s_stat f p = Some i -> i_type i = TDir -> passes exec c cs p i ->
    s_dir f p = None -> fault c f cs0 p0 (SaysDir p).
Lemma fault_step c f cs0 p0 cs p m : below R compile exec c f cs0 p0 cs p -> fault c f cs p m -> fault c f cs0 p0 m.
Proof. intros B [cs' q B' S|cs' q i B' S T P D]; econstructor; eauto; eapply below_trans; eauto. Qed.

Definition explained c f cs p (w : wres) (ms : list msg) : Prop :=
  match w with
  | WOk _ => ms = []
  | WErr _ => exists m k, ms = m :: repeat SaysUp k /\ fault c f cs p m
  | _ => True
  end.
Lemma repeat_snoc {A} (x : A) k : repeat x k ++ [x] = repeat x (S k).
Proof. induction k as [|k IH]; [reflexivity|]. cbn [repeat app]. now rewrite IH. Qed.
Lemma entries_says_spec (w : path -> wres) (s : path -> list msg) c f cs d : 
  (forall n ty es, s_dir f d = Some es -> In (n, ty) es -> entry_ok c d n ty -> explained c f cs (join d n) (w (join d n)) (s (join d n))) ->
  forall es es0, s_dir f d = Some es0 -> incl es es0 ->
  match entries w c d es with
  | WOk _ => entries_says w s c d es = []
  | WErr _ => exists n ty m k, In (n, ty) es0 /\ entry_ok c d n ty /\ entries_says w s c d es = m :: repeat SaysUp k /\ fault c f cs (join d n) m
  | _ => True
  end.
Proof.
  intros H. induction es as [|(n, ty) es IH]; intros es0 D I; cbn [entries entries_says fst]; [reflexivity|].
  assert (I' : incl es es0) by (intros x Ix; apply I; now right).
  destruct (skip_entry c (n, ty)) eqn:S1; [now apply IH|]. destruct (skip_full c (join d n)) eqn:S2; [now apply IH|].
  assert (K : entry_ok c d n ty) by (apply skip_spec; auto).
  assert (J : In (n, ty) es0) by (apply I; now left).
  specialize (H n ty es0 D J K). unfold explained in H. destruct (w (join d n)) as [l|l| |]; auto.
  - rewrite H. cbn [app]. specialize (IH es0 D I'). destruct (entries w c d es); auto.
  - destruct H as (m & k & E & F). exists n, ty, m, (S k). split; [exact J|]. split; [exact K|]. split; [|exact F].
    rewrite E. cbn [app]. now rewrite repeat_snoc.
Qed.
Lemma walk_says_spec : forall fuel c f cs p,
  explained c f cs p (walk compile exec fuel c f cs p) (walk_says compile exec fuel c f cs p).
Proof.
  induction fuel as [|fuel IH]; intros c f cs p; [exact I|]. cbn [walk walk_says].
  destruct (s_stat f p) as [i|] eqn:S; [|destruct (cf_fsyml (w_conf c)); [exact I|]].
  2: { exists (SaysStat p), 0%nat. split; [reflexivity|]. econstructor; [constructor|exact S]. }
  destruct (ignored exec c cs p i) eqn:G; [reflexivity|].
  destruct (check_permissions (w_conf c) i) eqn:CP; cbn [negb]; [|reflexivity].
  assert (P : passes exec c cs p i) by (apply passes_spec; auto).
  destruct (i_type i) eqn:T; try reflexivity; [|destruct (cf_fsyml (w_conf c)); reflexivity].
  destruct (s_dir f p) as [es|] eqn:D.
  2: { exists (SaysDir p), 0%nat. split; [reflexivity|]. econstructor 2; eauto. constructor. }
  destruct (enter compile c f cs p) as [cs'|] eqn:E; [|exact I].
  pose proof (entries_says_spec (walk compile exec fuel c f cs') (walk_says compile exec fuel c f cs') c f cs' p) as X.
  specialize (X ltac:(intros; apply IH) es es D (incl_refl _)). unfold explained.
  destruct (entries (walk compile exec fuel c f cs') c p es); auto.
  destruct X as (n & ty & m & k & J & K & Y & F). exists m, k. split; [exact Y|].
  eapply fault_step; [|exact F]. econstructor; eauto. constructor.
Qed.
End Walk.

(** the walk of MsgModel is the walk of the program *)
Lemma args_walk_main R compile exec fuel (c : wconf R) f args :
  args_walk compile exec Some fuel c f args = walk_args compile exec fuel c f args.
Proof. induction args as [|a args IH]; cbn [args_walk walk_args]; [reflexivity|]. now rewrite IH. Qed.

Lemma args_says_spec R compile exec resolve fuel (c : wconf R) f : forall args,
  match args_walk compile exec resolve fuel c f args with
  | WOk _ => args_says compile exec resolve fuel c f args = []
  | WErr _ =>
      (exists a b m k, In a args /\ resolve a = Some b /\ at_fault compile exec c f b m /\
         args_says compile exec resolve fuel c f args = m :: repeat SaysUp k ++ [SaysArg]) \/
      (exists a, In a args /\ resolve a = None /\ args_says compile exec resolve fuel c f args = [SaysResolve a])
  | _ => True
  end.
Proof.
  induction args as [|a args IH]; cbn [args_walk args_says]; [reflexivity|].
  destruct (resolve a) as [b|] eqn:E.
  2: { right. exists a. split; [now left|auto]. }
  pose proof (walk_says_spec R compile exec fuel c f (w_global c) b) as W. unfold explained in W.
  destruct (walk compile exec fuel c f (w_global c) b) as [l|l| |]; auto.
  - rewrite W. cbn [app]. destruct (args_walk compile exec resolve fuel c f args) as [l'|l'| |]; auto.
    destruct IH as [(a' & b' & m & k & Ia & Q)|(a' & Ia & Q)]; [left; exists a', b', m, k|right; exists a']; split; auto; now right.
  - left. destruct W as (m & k & -> & F). exists a, b, m, k. split; [now left|]. split; [exact E|]. split; [|reflexivity].
    destruct F as [cs p B S|cs p i B S T P D].
    + apply fault_stat with cs; [apply reached_below; exact B|exact S].
    + apply fault_dir with cs i; auto. apply reached_below. exact B.
Qed.

(** * The files *)
Section Files.
Variable content : file -> option bytes.
Variable xxh : bytes -> N.
Variable huge : nat.
Variable excess : N.
Variable hbeh : file -> bool * (nat -> option nat).
Variable beh : file -> file -> sysbeh.
Notation checksum := (checksum content xxh huge excess hbeh).
Notation comparison := (comparison content huge excess beh).

Lemma sum_says_spec p o : forall fuel i acc c,
  (sum_loop huge xxh fuel i o acc c = FErr /\ sum_says huge p fuel i o c = [SaysRead p]) \/
  (sum_loop huge xxh fuel i o acc c <> FErr /\ sum_says huge p fuel i o c = []).
Proof.
  induction fuel as [|fuel IH]; intros i acc c; cbn [sum_loop sum_says]; [right; split; [discriminate|reflexivity]|].
  destruct (file_read (o i) huge c) as [d rest| |]; [apply IH|right; split; [discriminate|reflexivity]|left; auto].
Qed.
(** a file that can be opened and not be read is named at once *)
Lemma checksum_says_spec f : checksum_says huge excess (f_path f) (fst (hbeh f)) (snd (hbeh f)) (content f) (Z.to_N (f_size f)) =
  match content f, checksum f with Some _, FErr => [SaysRead (f_path f)] | _, _ => [] end.
Proof.
  unfold MsgModel.checksum, checksum_file, checksum_small_file, checksum_says, big_sum_says, checksum_big_file.
  destruct (content f) as [c|].
  - destruct (sum_says_spec (f_path f) (snd (hbeh f)) (S (length c)) 0 [] c) as [(E & S)|(E & S)]; rewrite S.
    + destruct (_ <? excess)%N; cbn [andb]; [|now rewrite E]. destruct (fst (hbeh f)); cbn [andb]; [|now rewrite E].
      destruct (negb _); cbn [andb]; [|now rewrite E]. destruct (map_view _ c); reflexivity.
    + replace (match (if (Z.to_N (f_size f) <? excess)%N then _ else _) with FErr => [SaysRead (f_path f)] | _ => [] end) with (@nil msg).
      * destruct (_ && _ && _); reflexivity.
      * destruct (_ <? excess)%N.
        -- destruct (fst (hbeh f) && negb _); [destruct (map_view _ c); reflexivity|]. destruct (sum_loop _ _ _ _ _ _ _); congruence.
        -- destruct (sum_loop _ _ _ _ _ _ _); congruence.
  - destruct (_ && _ && _); reflexivity.
Qed.
Lemma checksum_unopened f : content f = None -> checksum f = FErr.
Proof. unfold MsgModel.checksum, checksum_file, checksum_small_file, checksum_big_file. intros ->. now destruct (_ <? _)%N. Qed.
Lemma comparison_unopened f g : (content f = None \/ content g = None) -> (0 < f_size f)%Z -> comparison f g = FErr.
Proof.
  clear hbeh xxh. intros H Z. unfold MsgModel.comparison, filecmp, small_filecmp, big_filecmp. cbv zeta.
  replace (Z.to_N (f_size f) =? 0)%N with false by lia.
  destruct H as [->| ->].
  - now destruct (_ <? _)%N.
  - destruct (content f); [|now destruct (_ <? _)%N]. destruct (_ <? _)%N; [|reflexivity]. now destruct (y_m1 _).
Qed.
Lemma loop_says_names p q o1 o2 m : forall fuel i r c1 c2, In m (loop_says huge p q fuel i o1 o2 r c1 c2) -> m = SaysPairRead p q.
Proof.
  induction fuel as [|fuel IH]; intros i r c1 c2; cbn [loop_says]; [intros []|].
  assert (S : In m (if r then [] else [SaysPairRead p q]) -> m = SaysPairRead p q) by (destruct r; [intros []|intros [<-|[]]; reflexivity]).
  destruct (file_read (o1 i) huge c1); [|intros []|exact S].
  destruct (file_read (o2 i) _ c2); [|intros []|exact S].
  destruct (_ =? _)%nat; [|exact S]. destruct (differ _ _); [intros []|apply IH].
Qed.
End Files.

(** * The comparisons made *)
Section Made.
Variable compare : file -> file -> cmpres.

Lemma pairs_reach hv f g : forall r, hsorted r -> Forall (fun k => (hv <= k_hash k)%N) r -> In (mkChk hv (Some g)) r ->
  snd (pairs compare hv f r) = SOk -> In (f, g) (pairs_made compare hv f r).
Proof.
  induction r as [|k r IH]; intros S B I O; [contradiction|]. inversion S as [|? ? S1 S2]; inversion B as [|? ? B1 B2]; subst.
  cbn [pairs pairs_made] in *. rewrite Forall_forall in S2.
  assert (E : (k_hash k =? hv)%N = true).
  { apply N.eqb_eq. destruct I as [->|I]; [reflexivity|]. apply S2 in I. cbn [k_hash] in I. lia. }
  rewrite E in *. destruct (k_file k) as [x|] eqn:F; [|cbn in O; discriminate].
  destruct I as [->|I].
  - cbn [k_file] in F. injection F as ->. now left.
  - right. destruct (compare f x); [discriminate O| | |]; destruct (pairs compare hv f r) as [[r' m] s]; now apply IH.
Qed.
Lemma pairs_made_in hv f : forall r x y, In (x, y) (pairs_made compare hv f r) -> x = f /\ exists k, In k r /\ k_file k = Some y.
Proof.
  induction r as [|k r IH]; intros x y; cbn [pairs_made]; [intros []|].
  destruct (_ =? hv)%N; [|intros []]. destruct (k_file k) as [g|] eqn:F; [|intros []].
  intros [E|I].
  - injection E as <- <-. split; [reflexivity|]. exists k. split; [now left|exact F].
  - destruct (compare f g); [destruct I| | |]; destruct (IH _ _ I) as (A & k' & B & C); (split; [exact A|]); exists k'; (split; [now right|exact C]).
Qed.
Lemma pairs_other hv f : forall r r' m s k, pairs compare hv f r = (r', m, s) -> In k r -> k_hash k <> hv -> In k r'.
Proof.
  induction r as [|k0 r IH]; intros r' m s k; cbn [pairs]; [intros _ []|].
  destruct (_ =? hv)%N eqn:E; [|intros X; injection X as <- <- <-; auto].
  destruct (k_file k0) as [g|]; [|intros X; injection X as <- <- <-; auto].
  destruct (compare f g); [intros X; injection X as <- <- <-; auto| | |]; destruct (pairs compare hv f r) as [[r1 m1] s1] eqn:P;
    intros X; injection X as <- <- <-; (intros [->|I] NE; [apply N.eqb_eq in E; congruence|right; eapply IH; eauto]).
Qed.
Lemma array_made_in : forall fuel cells x y, In (x, y) (array_made compare fuel cells) ->
  (exists k, In k cells /\ k_file k = Some x) /\ (exists k, In k cells /\ k_file k = Some y).
Proof.
  induction fuel as [|fuel IH]; intros cells x y; cbn [array_made]; [intros []|]. destruct cells as [|k r]; [intros []|].
  destruct (k_file k) as [f|] eqn:F.
  2: { intros I. apply IH in I. destruct I as ((a & A1 & A2) & b & B1 & B2). split; [exists a|exists b]; split; auto; now right. }
  intros I. apply in_app_or in I. destruct I as [I|I].
  - apply pairs_made_in in I. destruct I as (-> & k' & I & E). split; [exists k|exists k']; split; auto; [now left|now right].
  - destruct (pairs compare (k_hash k) f r) as [[r' m] s] eqn:P. destruct s; try contradiction. apply IH in I.
    apply pairs_inv in P. destruct P as (M & _).
    assert (G : forall z, (exists j, In j r' /\ k_file j = Some z) -> exists j, In j (k :: r) /\ k_file j = Some z).
    { intros z (j & J & E). destruct (marked_in _ _ _ M J) as (j' & J' & [->|(_ & N)]); [exists j'; split; [now right|exact E]|congruence]. }
    destruct I as (A & B). auto.
Qed.
(** in a sorted array that is reported to its end, a file with the hash of another is compared *)
Lemma array_reach hv f g : f <> g -> forall fuel cells, (length cells <= fuel)%nat -> hsorted cells ->
  In (mkChk hv (Some f)) cells -> In (mkChk hv (Some g)) cells -> snd (report_array compare fuel cells) = SOk ->
  exists x, In (x, f) (array_made compare fuel cells) \/ In (f, x) (array_made compare fuel cells).
Proof.
  intros NE. induction fuel as [|fuel IH]; intros cells L S If Ig O; [destruct cells; [contradiction|cbn in L; lia]|].
  destruct cells as [|k r]; [contradiction|]. cbn [length] in L. inversion S as [|? ? S1 S2]; subst. cbn [report_array array_made] in *.
  destruct (k_file k) as [h|] eqn:F.
  2: { destruct If as [->|If]; [discriminate F|]. destruct Ig as [->|Ig]; [discriminate F|]. apply IH; auto. lia. }
  destruct (N.eq_dec (k_hash k) hv) as [E|E].
  - assert (OP : snd (pairs compare (k_hash k) h r) = SOk).
    { destruct (pairs compare (k_hash k) h r) as [[r' m] s]. destruct s; auto. }
    destruct If as [->|If].
    + cbn [k_file] in F. injection F as <-. destruct Ig as [Ig|Ig]; [injection Ig as Ig; congruence|]. exists g. right.
      apply in_or_app. left. cbn [k_hash] in *. now apply pairs_reach.
    + exists h. left. apply in_or_app. left. rewrite E in *. now apply pairs_reach.
  - destruct If as [->|If]; [now contradiction E|]. destruct Ig as [->|Ig]; [now contradiction E|].
    destruct (pairs compare (k_hash k) h r) as [[r' m] s] eqn:P. destruct s; try discriminate O.
    pose proof (pairs_inv _ _ _ _ _ _ _ P) as (M & _).
    destruct (IH r') as (x & X).
    + rewrite (marked_length _ _ M). lia.
    + eapply marked_hsorted; eauto.
    + eapply pairs_other; eauto.
    + eapply pairs_other; eauto.
    + destruct (report_array compare fuel r'). exact O.
    + exists x. destruct X as [X|X]; [left|right]; apply in_or_app; now right.
Qed.
(** an error ends the report only if a path cannot be made *)
Lemma pairs_status hv f : (forall g, compare f g <> NoPath) -> forall r, snd (pairs compare hv f r) = SOk \/ snd (pairs compare hv f r) = SUB.
Proof.
  intros NP. induction r as [|k r IH]; cbn [pairs]; [now left|]. destruct (_ =? hv)%N; [|now left]. destruct (k_file k) as [g|]; [|now right].
  specialize (NP g). destruct (compare f g); [congruence| | |]; destruct (pairs compare hv f r) as [[r' m] s]; exact IH.
Qed.
Lemma array_status : (forall f g, compare f g <> NoPath) -> forall fuel cells, snd (report_array compare fuel cells) <> SErr.
Proof.
  intros NP. induction fuel as [|fuel IH]; intros cells; cbn [report_array]; [destruct cells; discriminate|].
  destruct cells as [|k r]; [discriminate|]. destruct (k_file k) as [f|]; [|apply IH].
  pose proof (pairs_status (k_hash k) f (NP f) r) as P. destruct (pairs compare (k_hash k) f r) as [[r' m] s]. cbn [snd] in P.
  destruct P as [-> | ->]; [|discriminate]. specialize (IH r'). destruct (report_array compare fuel r'). exact IH.
Qed.
End Made.

(** * Whole runs *)
Section Run.
Variable content : file -> option bytes.
Variable xxh : bytes -> N.
Variable huge : nat.
Variable excess : N.
Variable hbeh : file -> bool * (nat -> option nat).
Variable beh : file -> file -> sysbeh.
Variable verbose : bool.
Variable junk : file -> N.
Variable qsort : (chk -> chk -> Z) -> list chk -> list chk.
Variable iter : table -> table.
Hypothesis Q : sorts qsort.
Hypothesis IT : visits_all iter.
Notation H := (hash content xxh huge excess hbeh).
Notation C := (compare content huge excess beh).
Notation task_says := (task_says content xxh huge excess hbeh verbose).
Notation pair_says := (pair_says content huge excess beh verbose).
Notation found_says := (found_says content xxh huge excess hbeh beh verbose junk qsort iter).
Notation found_status := (found_status content xxh huge excess hbeh beh junk qsort iter).

Fixpoint fold_made (json : bool) (L : list file) (ss : list Z) : list (file * file) :=
  match ss with
  | [] => []
  | s :: r => array_made C (cnt s L) (srt H junk qsort json L s) ++
      match snd (report_array C (cnt s L) (srt H junk qsort json L s)) with SOk => fold_made json L r | _ => [] end
  end.
Lemma report_size_any json L s : report_size C qsort (the_entry H junk json L s) = report_array C (cnt s L) (srt H junk qsort json L s).
Proof.
  unfold report_size, the_entry. cbn [fs_arr fs_nb]. rewrite all_set_cells by apply cells_set.
  unfold fs_ck. cbn [fs_arr]. rewrite map_length. fold (cnt s L). cbn [negb]. now rewrite Nat.ltb_irrefl.
Qed.
Lemma size_made_any json L s : size_made C qsort (the_entry H junk json L s) = array_made C (cnt s L) (srt H junk qsort json L s).
Proof.
  unfold size_made, the_entry. cbn [fs_arr fs_nb]. rewrite all_set_cells by apply cells_set.
  unfold fs_ck. cbn [fs_arr]. rewrite map_length. fold (cnt s L). cbn [negb]. now rewrite Nat.ltb_irrefl.
Qed.
Lemma loop_made_sizes json L l : forall fuel old h t,
  drains h l -> (length l < fuel)%nat -> StronglySorted desc l ->
  (forall f, In f l -> (f_size f <= old)%Z) \/ (forall f, In f l -> f_size f <> old) ->
  (forall f, In f l -> f_size f <> old -> tfind (f_size f) t = Some (the_entry H junk json L (f_size f))) ->
  loop_made C qsort fuel old h t = fold_made json L (size_seq old l).
Proof.
  induction l as [|f l IH]; intros fuel old h t D F S B T; (destruct fuel as [|fu]; [simpl in F; lia|]); cbn [loop_made size_seq].
  - inversion D as [? h' E|]; subst. now rewrite E.
  - inversion D as [|? h' ? ? E D']; subst. rewrite E.
    inversion S as [|? ? S1 S2]; subst. rewrite Forall_forall in S2.
    simpl in F. destruct (f_size f =? old)%Z eqn:X.
    + apply IH; [exact D'|lia|exact S1| |].
      * destruct B as [B|B]; [left|right]; intros g I; apply B; now right.
      * intros g I NE. apply T; auto. now right.
    + rewrite T by (try (now left); lia). cbn [fold_made]. rewrite size_made_any, report_size_any. f_equal.
      destruct (snd (report_array C (cnt (f_size f) L) _)); auto.
      apply IH; [exact D'|lia|exact S1|left; exact S2|].
      intros g I NE. cbn [fs_val the_entry fs_nb]. rewrite tfind_tupd.
      * cbn [fs_val]. replace (f_size g =? f_size f)%Z with false by lia. apply T; [now right|].
        destruct B as [B|B]; [|apply B; now right].
        apply S2 in I. unfold desc in I. specialize (B f (or_introl eq_refl)). lia.
      * cbn [fs_val]. destruct (in_dec Z.eq_dec (f_size f) (keys t)) as [K|K]; auto.
        apply tfind_keys in K. rewrite T in K; [discriminate|now left|lia].
Qed.
Lemma fold_snd {A B} (one : Z -> list A * status) (two : Z -> list B * status) ss : (forall s, snd (one s) = snd (two s)) ->
  snd (fold_sizes one ss) = snd (fold_sizes two ss).
Proof.
  intros E. induction ss as [|s ss IH]; [reflexivity|]. cbn [fold_sizes]. specialize (E s).
  destruct (one s) as [a x], (two s) as [b y]. cbn [snd] in E. subst y. destruct x; try reflexivity.
  destruct (fold_sizes one ss), (fold_sizes two ss). exact IH.
Qed.
Lemma found_ok json c l : sizes_ok l -> collected c l <> [] ->
  exists L ss ts, Permutation (collected c l) L /\ sizes_list L ss /\ Permutation ts (filter (is_hashed json L) L) /\
    found_says json c l = flat_map task_says ts ++ flat_map pair_says (fold_made json L ss) /\
    found_status json c l = snd (fold_sizes (fun s => report_array C (cnt s L) (srt H junk qsort json L s)) ss).
Proof.
  intros SO NE. destruct (collect_files_inv c l [] _ collect_inv_empty) as (st & E & I). cbn [app] in I.
  assert (HI := I). destruct HI as (HH & P & _ & _).
  destruct (drain_ok _ HH) as (L & D & PL & SL).
  assert (PC : Permutation (collected c l) L) by (now rewrite P).
  assert (NN : forall f, In f L -> (0 <= f_size f)%Z).
  { intros f If. apply (Permutation_in f (Permutation_sym PC)) in If. eapply collected_nonneg; [exact SO|exact If]. }
  destruct (process_files_ok H junk iter IT json _ _ _ I D PC) as (s1 & E1 & P1).
  destruct (processed_sizes H junk C qsort iter IT json L s1 P1 NN) as (l1 & ss & D1 & S1 & M1 & N1 & T1 & X1 & Z1).
  assert (LN : (length (h_tree (co_heap st)) =? 0)%nat = false).
  { apply Permutation_length in P. rewrite <- P. destruct (collected c l); [congruence|reflexivity]. }
  assert (LH : (length l1 < S (length (h_tree (co_heap s1))))%nat).
  { destruct P1 as (_ & P1 & _). rewrite <- P1. rewrite (Permutation_length M1). lia. }
  assert (NO : (forall f, In f l1 -> (f_size f <= -1)%Z) \/ (forall f, In f l1 -> f_size f <> (-1)%Z)).
  { right. intros f If. apply N1 in If. lia. }
  exists L, ss, (hash_tasks json (co_sizes s1)). split; [exact PC|]. split; [exact Z1|]. split; [|split].
  - destruct P1 as (_ & _ & K & T). apply (contrib_keys H junk); auto.
  - unfold MsgModel.found_says. rewrite E, LN, E1. f_equal. f_equal. rewrite (loop_made_sizes json L l1); auto. now rewrite X1.
  - unfold MsgModel.found_status. destruct json.
    + unfold run_json. rewrite E, LN, E1. unfold report_json. rewrite (json_loop_sizes H junk C qsort iter L l1); auto. rewrite <- X1.
      transitivity (snd (fold_sizes (fun s => json_size C qsort (the_entry H junk true L s)) ss)).
      { destruct (fold_sizes _ ss) as [gs x]. destruct x; reflexivity. }
      apply fold_snd. intros s. rewrite json_size_eq. apply json_array_eq.
    + unfold run_text. rewrite E, LN, E1. unfold report_text. rewrite (report_loop_sizes H junk C qsort iter L l1); auto. rewrite <- X1.
      apply fold_snd. intros s. now rewrite report_size_any.
Qed.
Lemma found_empty json c l : collected c l = [] -> found_says json c l = [SaysFew] /\ found_status json c l = SErr.
Proof.
  intros NE. destruct (runs_empty H junk C qsort iter IT c l NE) as (A & B). split.
  - destruct (collect_files_inv c l [] _ collect_inv_empty) as (st & E & I). cbn [app] in I.
    destruct I as (HH & P & _ & _). rewrite NE in P. apply Permutation_nil in P. unfold MsgModel.found_says. now rewrite E, P.
  - unfold MsgModel.found_status. destruct json; [now rewrite B|now rewrite A].
Qed.
Lemma fold_ok json L : forall ss, snd (fold_sizes (fun s => report_array C (cnt s L) (srt H junk qsort json L s)) ss) = SOk ->
  forall s, In s ss -> snd (report_array C (cnt s L) (srt H junk qsort json L s)) = SOk /\
    incl (array_made C (cnt s L) (srt H junk qsort json L s)) (fold_made json L ss).
Proof.
  induction ss as [|s0 ss IH]; intros O s; [intros []|]. cbn [fold_sizes fold_made] in *.
  destruct (report_array C (cnt s0 L) (srt H junk qsort json L s0)) as [gs x] eqn:E. destruct x; try discriminate O.
  destruct (fold_sizes _ ss) as [gs' y] eqn:F. cbn [snd] in *. intros [->|I].
  - rewrite E. split; [reflexivity|]. now apply incl_appl.
  - destruct (IH O s I) as (A & B). split; [exact A|]. now apply incl_appr.
Qed.
Lemma fold_made_in json L : forall ss x y, In (x, y) (fold_made json L ss) -> In x L /\ In y L /\ f_size x = f_size y.
Proof.
  induction ss as [|s ss IH]; intros x y; cbn [fold_made]; [intros []|]. intros I. apply in_app_or in I. destruct I as [I|I].
  - apply array_made_in in I. destruct I as ((k & K & Ek) & (k' & K' & Ek')).
    apply (srt_in H junk qsort Q) in K as (f & -> & If & Zf). apply (srt_in H junk qsort Q) in K' as (g & -> & Ig & Zg).
    unfold cell in Ek, Ek'. cbn [k_file] in Ek, Ek'. injection Ek as <-. injection Ek' as <-. split; [exact If|]. split; [exact Ig|congruence].
  - destruct (snd (report_array _ _ _)); try contradiction. auto.
Qed.
Lemma fold_status json L : forall ss, snd (fold_sizes (fun s => report_array C (cnt s L) (srt H junk qsort json L s)) ss) <> SErr.
Proof.
  induction ss as [|s ss IH]; cbn [fold_sizes]; [discriminate|].
  assert (NP : forall f g, C f g <> NoPath) by (intros f g; unfold compare; destruct (comparison _ _ _ _ _ _) as [[]| | |]; discriminate).
  pose proof (array_status C NP (cnt s L) (srt H junk qsort json L s)) as A.
  destruct (report_array C (cnt s L) _) as [gs x]. cbn [snd] in A. destruct x; try discriminate; [|congruence].
  destruct (fold_sizes _ ss). exact IH.
Qed.

(** the two ways a file is looked at *)
Lemma looked_at json c l f g : sizes_ok l -> found_status json c l = SOk ->
  In f (collected c l) -> In g (collected c l) -> f <> g -> f_size f = f_size g ->
  incl (task_says f) (found_says json c l) \/
  ((json = false /\ (exists x, f_size x = f_size f /\ (incl (pair_says (x, f)) (found_says json c l) \/ incl (pair_says (f, x)) (found_says json c l)))) /\
   (length (of_size (f_size f) (collected c l)) = 2%nat \/ f_size f = 0%Z)).
Proof.
  intros SO O If Ig NE Z. assert (NN : collected c l <> []) by (destruct (collected c l); [contradiction|discriminate]).
  destruct (found_ok json c l SO NN) as (L & ss & ts & P & (_ & SL) & PT & E & EO). rewrite EO in O.
  assert (If' : In f L) by (eapply Permutation_in; eauto). assert (Ig' : In g L) by (eapply Permutation_in; eauto).
  assert (C2 : (2 <= cnt (f_size f) L)%nat).
  { assert (A : In f (of_size (f_size f) L)) by (now apply of_size_in). assert (B : In g (of_size (f_size f) L)) by (apply of_size_in; auto).
    unfold cnt. destruct (of_size (f_size f) L) as [|a [|b r]]; [contradiction| |cbn; lia].
    destruct A as [A|[]], B as [B|[]]. congruence. }
  destruct (is_hashed json L f) eqn:HF.
  - left. rewrite E. intros m I. apply in_or_app. left. apply in_flat_map. exists f. split; [|exact I].
    eapply Permutation_in; [symmetry; exact PT|]. now apply filter_In.
  - right. unfold is_hashed in HF. replace (2 <=? cnt (f_size f) L)%nat with true in HF by lia. cbn [andb] in HF. apply negb_false_iff in HF.
    destruct (fold_ok json L ss O (f_size f)) as (A & B); [now apply SL|].
    assert (D := HF). unfold direct in D. apply andb_true_iff in D. destruct D as (D1 & D2). apply negb_true_iff in D2.
    split; [split; [exact D2|]|].
    + destruct (array_reach C 0 f g NE (cnt (f_size f) L) (srt H junk qsort json L (f_size f))) as (x & X).
      * rewrite <- (Permutation_length (srt_perm H junk qsort Q json L (f_size f))), map_length. apply le_n.
      * now apply srt_hsorted.
      * apply srt_in; auto. exists f. unfold cell, hv_of. now rewrite HF.
      * apply srt_in; auto. exists g. unfold cell, hv_of. rewrite <- Z, HF. auto.
      * exact A.
      * exists x. rewrite E. destruct X as [X|X]; apply B in X; split.
        -- symmetry. apply fold_made_in in X. symmetry. apply X.
        -- left. intros m I. apply in_or_app. right. apply in_flat_map. eauto.
        -- apply fold_made_in in X. symmetry. apply X.
        -- right. intros m I. apply in_or_app. right. apply in_flat_map. eauto.
    + apply orb_true_iff in D1. destruct D1 as [D1|D1]; [left|right; lia]. apply Nat.eqb_eq in D1. rewrite <- D1. fold (cnt (f_size f) (collected c l)). now apply cnt_perm.
Qed.
End Run.

(** * The theorems *)
Section Theorems.
Context {R : Type}.
Variable rcompile : str -> option R.
Variable rexec : R -> str -> bool.
Variable content : path -> option bytes.
Variable xxh : bytes -> N.
Variable huge : nat.
Variable excess : N.
Variable hbeh : file -> bool * (nat -> option nat).
Variable beh : file -> file -> sysbeh.
Variable verbose : bool.
Variable junk : file -> N.
Variable qsort : (chk -> chk -> Z) -> list chk -> list chk.
Variable iter : table -> table.
Variable resolve : path -> option path.
Variable fuel : nat.
Variable c : wconf R.
Variable f : fs.
Variable json : bool.
Variable args : list path.
Notation bytes_of := (fun x : file => content (f_path x)).
Notation run := (run_says bytes_of xxh huge excess hbeh beh verbose junk qsort iter rcompile rexec resolve fuel c f json args).

(** the file at [p], of size [s], is among those the run compares *)
Definition chosen (p : path) (s : Z) : Prop :=
  exists a b i cs, In a args /\ resolve a = Some b /\ taken rcompile rexec c f b p i cs /\ i_size i = s /\
    within (cf_minsize (w_conf c)) (cf_maxsize (w_conf c)) s.
(** as the report has it *)
Definition entry (p : path) (s : Z) : file := mkFile p s (prioritized (w_conf c) p).
(** no read and no open of a chosen file fails, and the files have the sizes they had for the walk *)
Definition all_readable : Prop :=
  clean huge beh hbeh /\ forall p s, chosen p s -> exists b, content p = Some b /\ Z.of_nat (length b) = s.

Lemma args_walk_some l : args_walk rcompile rexec resolve fuel c f args = WOk l <->
  exists bs, Forall2 (fun a b => resolve a = Some b) args bs /\ walk_args rcompile rexec fuel c f bs = WOk l.
Proof.
  revert l. induction args as [|a r IH]; intros l; cbn [args_walk].
  - split; [intros E; exists []; split; [constructor|exact E]|]. intros (bs & F & E). inversion F; subst. exact E.
  - split.
    + intros E. destruct (resolve a) as [b|] eqn:B; [|discriminate].
      destruct (walk _ _ _ _ _ _ b) as [l1| | |] eqn:W; try discriminate.
      destruct (args_walk _ _ resolve fuel c f r) as [l2| | |] eqn:T; try discriminate. injection E as <-.
      destruct (proj1 (IH l2) eq_refl) as (bs & F & X). exists (b :: bs). split; [now constructor|]. cbn [walk_args]. rewrite W, X. reflexivity.
    + intros (bs & F & E). inversion F as [|? b ? bs' B F']; subst. rewrite B. cbn [walk_args] in E.
      destruct (walk _ _ _ _ _ _ b) as [l1| | |] eqn:W; try discriminate.
      destruct (walk_args _ _ fuel c _ bs') as [l2| | |] eqn:T; try discriminate. injection E as <-.
      rewrite (proj2 (IH l2)); [reflexivity|]. exists bs'. auto.
Qed.
Lemma forall2_l {A B} (P : A -> B -> Prop) la lb a : Forall2 P la lb -> In a la -> exists b, In b lb /\ P a b.
Proof. induction 1 as [|x y la lb H1 F IH]; [intros []|]. intros [->|I]; [exists y; split; [now left|auto]|]. destruct (IH I) as (b & J & K). exists b. split; [now right|auto]. Qed.
Lemma collected_chosen l : args_walk rcompile rexec resolve fuel c f args = WOk l -> forall x,
  In x (collected (w_conf c) l) <-> chosen (f_path x) (f_size x) /\ x = entry (f_path x) (f_size x).
Proof.
  intros W x. apply args_walk_some in W. destruct W as (bs & F & W).
  rewrite (collected_in unit (fun _ => None) (fun _ _ => true) (fun _ => []) (fun _ => 0%N)). split.
  - intros (p & i & I & B & ->). cbn [f_path f_size]. split; [|reflexivity].
    apply (walk_exact _ _ _ _ _ _ _ _ W) in I. destruct I as (b & cs & Ib & T).
    destruct (Forall2_in_r _ _ _ _ F Ib) as (a & Ia & E). exists a, b, i, cs. auto.
  - intros ((a & b & i & cs & Ia & E & T & Z & B) & X). exists (f_path x), i. split; [|split].
    + apply (walk_exact _ _ _ _ _ _ _ _ W). destruct (forall2_l _ _ _ _ F Ia) as (b' & Ib & E'). exists b', cs. split; [exact Ib|congruence].
    + now rewrite Z.
    + rewrite Z. exact X.
Qed.
Lemma walk_sizes l : (forall q i, s_stat f q = Some i -> (0 <= i_size i)%Z) -> args_walk rcompile rexec resolve fuel c f args = WOk l -> sizes_ok l.
Proof.
  intros SN W. apply args_walk_some in W. destruct W as (bs & F & W). apply Forall_forall. intros (q & i) I. cbn [snd].
  apply (walk_exact _ _ _ _ _ _ _ _ W) in I. destruct I as (a & cs & _ & [_ S _ _]). eapply SN; eauto.
Qed.

(** A run that ends with a status other than 0 ends with -1 and has said where it could not go on:
    at which path below which argument, at which argument, or that there are no files. *)
Theorem failure_explained : forall z ms,
  sorts qsort -> visits_all iter -> (forall q i, s_stat f q = Some i -> (0 <= i_size i)%Z) ->
  run = (Some z, ms) -> z <> 0%Z ->
  z = (-1)%Z /\
  ((exists a b m k, In a args /\ resolve a = Some b /\ at_fault rcompile rexec c f b m /\ ms = m :: repeat SaysUp k ++ [SaysArg; SaysRun]) \/
   (exists a, In a args /\ resolve a = None /\ ms = [SaysResolve a; SaysRun]) \/
   ((forall p s, ~ chosen p s) /\ ms = [SaysFew; SaysRun])).
Proof.
  intros z ms Q IT SN E NZ. unfold run_says in E. pose proof (args_says_spec R rcompile rexec resolve fuel c f args) as A.
  destruct (args_walk rcompile rexec resolve fuel c f args) as [l|l| |] eqn:W; try discriminate.
  - rewrite A in E. cbn [app] in E.
    destruct (collected (w_conf c) l) as [|x r] eqn:CL.
    + destruct (found_empty bytes_of xxh huge excess hbeh beh verbose junk qsort iter IT json (w_conf c) l CL) as (B & O).
      rewrite B, O in E. injection E as <- <-. split; [reflexivity|]. right. right. split; [|reflexivity].
      intros p s H. assert (X : In (entry p s) (collected (w_conf c) l)) by (apply (collected_chosen l W); auto). rewrite CL in X. exact X.
    + destruct (found_ok bytes_of xxh huge excess hbeh beh verbose junk qsort iter IT json (w_conf c) l) as (L & ss & ts & _ & _ & _ & _ & O);
        [now apply walk_sizes|rewrite CL; discriminate|].
      pose proof (fold_status bytes_of xxh huge excess hbeh beh junk qsort json L ss) as N. rewrite <- O in N.
      destruct (found_status _ _ _ _ _ _ _ _ _ json (w_conf c) l); try discriminate; [injection E as <- _|]; congruence.
  - injection E as <- <-. split; [reflexivity|]. destruct A as [(a & b & m & k & Ia & Eb & F & ->)|(a & Ia & Eb & ->)].
    + left. exists a, b, m, k. split; [exact Ia|]. split; [exact Eb|]. split; [exact F|]. cbn [app]. now rewrite <- app_assoc.
    + right. left. exists a. auto.
Qed.

Lemma run_ok ms : run = (Some 0%Z, ms) -> exists l, args_walk rcompile rexec resolve fuel c f args = WOk l /\
  found_status bytes_of xxh huge excess hbeh beh junk qsort iter json (w_conf c) l = SOk /\
  ms = found_says bytes_of xxh huge excess hbeh beh verbose junk qsort iter json (w_conf c) l.
Proof.
  unfold run_says. pose proof (args_says_spec R rcompile rexec resolve fuel c f args) as A.
  destruct (args_walk rcompile rexec resolve fuel c f args) as [l|l| |] eqn:W; try discriminate.
  rewrite A. cbn [app]. intros E. exists l. split; [reflexivity|]. destruct (found_status _ _ _ _ _ _ _ _ _ _ _ l); try discriminate. injection E as <-. auto.
Qed.
Lemma two_entries p q s : p <> q -> entry p s <> entry q s.
Proof. intros NE E. injection E. intros. contradiction. Qed.

(** With -v, a file that cannot be opened is named, when the run compares another file of its
    size. *)
Theorem unreadable_named_partial : forall ms p q s,
  sorts qsort -> visits_all iter -> (forall q i, s_stat f q = Some i -> (0 <= i_size i)%Z) ->
  run = (Some 0%Z, ms) -> verbose = true ->
  chosen p s -> chosen q s -> p <> q -> (0 < s)%Z -> content p = None ->
  exists m, In m ms /\ names p m.
Proof.
  intros ms p q s Q IT SN E V Cp Cq NE Z N. destruct (run_ok ms E) as (l & W & O & ->).
  assert (Ip : In (entry p s) (collected (w_conf c) l)) by (apply (collected_chosen l W); auto).
  assert (Iq : In (entry q s) (collected (w_conf c) l)) by (apply (collected_chosen l W); auto).
  destruct (looked_at bytes_of xxh huge excess hbeh beh verbose junk qsort iter Q IT json (w_conf c) l (entry p s) (entry q s)
    (walk_sizes l SN W) O Ip Iq (two_entries _ _ _ NE) eq_refl) as [A|((_ & x & Zx & A) & _)].
  - exists (SaysSkip p). split; [|reflexivity]. apply A. unfold task_says. rewrite checksum_unopened by exact N. rewrite V. apply in_or_app. right. now left.
  - cbn [f_size entry] in Zx. destruct A as [A|A].
    + exists (SaysPair (f_path x) p). split; [|right; reflexivity]. apply A. unfold pair_says. cbv zeta. apply in_or_app. right.
      assert (X : comparison bytes_of huge excess beh x (entry p s) = FErr) by (apply comparison_unopened; [right; exact N|lia]).
      rewrite X, V. now left.
    + exists (SaysPair p (f_path x)). split; [|left; reflexivity]. apply A. unfold pair_says. cbv zeta. apply in_or_app. right.
      assert (X : comparison bytes_of huge excess beh (entry p s) x = FErr) by (apply comparison_unopened; [left; exact N|exact Z]).
      rewrite X, V. now left.
Qed.

(** A file that is opened and then cannot be read to be hashed is named with or without -v. *)
Theorem read_error_named : forall ms p q s,
  sorts qsort -> visits_all iter -> (forall q i, s_stat f q = Some i -> (0 <= i_size i)%Z) ->
  run = (Some 0%Z, ms) ->
  chosen p s -> chosen q s -> p <> q -> (0 < s)%Z ->
  (json = true \/ exists r, chosen r s /\ r <> p /\ r <> q) ->
  content p <> None ->
  checksum_file huge xxh excess (fst (hbeh (entry p s))) (snd (hbeh (entry p s))) (content p) (Z.to_N s) = FErr ->
  In (SaysRead p) ms.
Proof.
  intros ms p q s Q IT SN E Cp Cq NE Z J N X. destruct (run_ok ms E) as (l & W & O & ->).
  assert (I : forall p, chosen p s -> In (entry p s) (collected (w_conf c) l)) by (intros; apply (collected_chosen l W); auto).
  destruct (looked_at bytes_of xxh huge excess hbeh beh verbose junk qsort iter Q IT json (w_conf c) l (entry p s) (entry q s)
    (walk_sizes l SN W) O (I p Cp) (I q Cq) (two_entries _ _ _ NE) eq_refl) as [A|((JF & _) & B)].
  - apply A. unfold task_says. apply in_or_app. left. rewrite (checksum_says_spec bytes_of xxh huge excess hbeh). cbn [f_path entry].
    destruct (content p) eqn:EC; [|congruence]. change (f_path (entry p s)) with p.
    replace (checksum bytes_of xxh huge excess hbeh (entry p s)) with (@FErr BinNums.N); [now left|].
    symmetry. unfold checksum. cbn [f_path f_size entry]. rewrite EC. exact X.
  - exfalso. destruct J as [->|(r & Cr & N1 & N2)]; [discriminate|]. destruct B as [B|B]; [|cbn [f_size entry] in B; lia].
    cbn [f_size entry] in B.
    assert (G : forall p, chosen p s -> In (entry p s) (of_size s (collected (w_conf c) l))) by (intros t Ct; apply of_size_in; split; [now apply I|reflexivity]).
    assert (I3 : incl [entry p s; entry q s; entry r s] (of_size s (collected (w_conf c) l))).
    { intros y [<-|[<-|[<-|[]]]]; auto. }
    apply NoDup_incl_length in I3; [cbn [length] in I3; lia|].
    constructor; [cbn; intros [K|[K|[]]]; apply two_entries in K; auto|]. constructor; [cbn; intros [K|[]]; apply two_entries in K; auto|].
    constructor; [intros []|constructor].
Qed.

(** A run that ends with status 0 names only files it compares, and says only of a file whose
    hashing failed that it skips it, and of a pair whose comparison failed that it skips it. *)
Theorem only_failures_named : forall ms,
  sorts qsort -> visits_all iter -> (forall q i, s_stat f q = Some i -> (0 <= i_size i)%Z) ->
  run = (Some 0%Z, ms) -> forall m, In m ms ->
  exists p q s, chosen p s /\ chosen q s /\
    match m with
    | SaysRead x => x = p /\ content p <> None /\
        checksum_file huge xxh excess (fst (hbeh (entry p s))) (snd (hbeh (entry p s))) (content p) (Z.to_N s) = FErr
    | SaysSkip x => x = p /\ verbose = true /\
        checksum_file huge xxh excess (fst (hbeh (entry p s))) (snd (hbeh (entry p s))) (content p) (Z.to_N s) = FErr
    | SaysPairRead x y => x = p /\ y = q /\ content p <> None /\ content q <> None
    | SaysPair x y => x = p /\ y = q /\ verbose = true /\
        let y := beh (entry p s) (entry q s) in
        filecmp huge excess (y_m1 y) (y_m2 y) (y_o1 y) (y_o2 y) (y_r y) (content p) (content q) (Z.to_N s) = FErr
    | _ => False
    end.
Proof.
  intros ms Q IT SN E m I. destruct (run_ok ms E) as (l & W & O & ->).
  destruct (collected (w_conf c) l) as [|x0 r0] eqn:CL.
  { destruct (found_empty bytes_of xxh huge excess hbeh beh verbose junk qsort iter IT json (w_conf c) l CL) as (_ & O'). congruence. }
  destruct (found_ok bytes_of xxh huge excess hbeh beh verbose junk qsort iter IT json (w_conf c) l) as (L & ss & ts & P & _ & PT & EM & _);
    [now apply walk_sizes|rewrite CL; discriminate|].
  rewrite EM in I. assert (CH : forall x, In x L -> chosen (f_path x) (f_size x) /\ x = entry (f_path x) (f_size x)).
  { intros x Ix. apply (collected_chosen l W). eapply Permutation_in; [symmetry; exact P|exact Ix]. }
  apply in_app_or in I. destruct I as [I|I]; apply in_flat_map in I; destruct I as (x & Ix & I).
  - apply (Permutation_in _ PT) in Ix. apply filter_In in Ix. destruct Ix as (Ix & _). destruct (CH x Ix) as (Cx & Ex).
    exists (f_path x), (f_path x), (f_size x). split; [exact Cx|]. split; [exact Cx|]. rewrite <- Ex.
    unfold task_says in I. rewrite (checksum_says_spec bytes_of xxh huge excess hbeh) in I. unfold checksum in I.
    apply in_app_or in I. destruct I as [I|I].
    + destruct (content (f_path x)); [|contradiction]. destruct (checksum_file _ _ _ _ _ _ _); try contradiction. destruct I as [<-|[]]. split; [reflexivity|]. split; [discriminate|reflexivity].
    + destruct (checksum_file _ _ _ _ _ _ _); try contradiction. destruct verbose; [|contradiction]. destruct I as [<-|[]]. auto.
  - destruct x as (x, y). apply (fold_made_in bytes_of xxh huge excess hbeh beh junk qsort Q) in Ix. destruct Ix as (Ix & Iy & Z).
    destruct (CH x Ix) as (Cx & Ex). destruct (CH y Iy) as (Cy & Ey). exists (f_path x), (f_path y), (f_size x).
    split; [exact Cx|]. split; [now rewrite Z|]. rewrite <- Ex. replace (entry (f_path y) (f_size x)) with y by (rewrite Z; exact Ey).
    unfold pair_says in I. cbv zeta in I. apply in_app_or in I. destruct I as [I|I].
    + unfold cmp_says in I. destruct (_ && _ && _) in I; [contradiction|]. unfold big_cmp_says in I. destruct (_ =? 0)%N in I; [contradiction|].
      destruct (content (f_path x)), (content (f_path y)); try contradiction. apply loop_says_names in I. subst m.
      split; [reflexivity|]. split; [reflexivity|]. split; discriminate.
    + unfold comparison in I. cbv zeta in I. cbv zeta. destruct (filecmp _ _ _ _ _ _ _ _ _ _); try contradiction.
      destruct verbose; [|contradiction]. destruct I as [<-|[]]. auto.
Qed.

Lemma loop_says_quiet p q o1 o2 : (0 < huge)%nat -> readable o1 -> readable o2 -> not_shorter huge o1 o2 ->
  forall fu i r c1 c2, length c1 = length c2 -> loop_says huge p q fu i o1 o2 r c1 c2 = [].
Proof.
  intros H R1 R2 NS. induction fu as [|fu IH]; intros i r c1 c2 L; [reflexivity|]. cbn [loop_says]. cbv zeta.
  destruct (o1 i) as [k1|] eqn:K1; [|destruct (R1 i K1)].
  destruct (o2 i) as [k2|] eqn:K2; [|destruct (R2 i K2)].
  destruct (list_eq_dec N.eq_dec c1 []) as [->|NE].
  - destruct c2; [|discriminate L]. unfold file_read. destruct huge; [lia|]. reflexivity.
  - destruct (read_full huge o1 o2 i k1 k2 c1 c2 H K1 K2 NS L NE) as (m & M & E1 & E2). rewrite <- K1, <- K2, E1, E2.
    rewrite !firstn_length, <- L, Nat.eqb_refl. destruct (differ _ _); [reflexivity|]. apply IH. rewrite !skipn_length. lia.
Qed.
(** A run over files that can all be read says nothing. *)
Theorem quiet_when_readable : forall ms,
  sorts qsort -> visits_all iter -> (forall q i, s_stat f q = Some i -> (0 <= i_size i)%Z) ->
  run = (Some 0%Z, ms) -> all_readable -> ms = [].
Proof.
  intros ms Q IT SN E ((HG & HB & CB) & AR). destruct ms as [|m ms]; [reflexivity|exfalso].
  pose proof (only_failures_named _ Q IT SN E m (or_introl eq_refl)) as (p & q & s & Cp & Cq & X).
  assert (CK : forall t, chosen t s -> checksum_file huge xxh excess (fst (hbeh (entry t s))) (snd (hbeh (entry t s))) (content t) (Z.to_N s) <> FErr).
  { intros t Ct. destruct (AR t s Ct) as (b & -> & Lb). rewrite checksum_exact; [discriminate|exact HG|apply HB|lia]. }
  destruct m; try contradiction.
  - destruct X as (_ & _ & X). now apply (CK p Cp).
  - destruct X as (_ & _ & X). now apply (CK p Cp).
  - clear X. destruct (run_ok _ E) as (l & W & O & EM).
    destruct (collected (w_conf c) l) as [|x0 r0] eqn:CL.
    { destruct (found_empty bytes_of xxh huge excess hbeh beh verbose junk qsort iter IT json (w_conf c) l CL) as (_ & O'). congruence. }
    destruct (found_ok bytes_of xxh huge excess hbeh beh verbose junk qsort iter IT json (w_conf c) l) as (L & ss & ts & P & _ & PT & EF & _);
      [now apply walk_sizes|rewrite CL; discriminate|].
    rewrite EF in EM. assert (I : In (SaysPairRead p0 q0) (flat_map (task_says bytes_of xxh huge excess hbeh verbose) ts ++
      flat_map (pair_says bytes_of huge excess beh verbose) (fold_made bytes_of xxh huge excess hbeh beh junk qsort json L ss))) by (rewrite <- EM; now left).
    apply in_app_or in I. destruct I as [I|I]; apply in_flat_map in I; destruct I as (x & Ix & I).
    + unfold task_says in I. rewrite (checksum_says_spec bytes_of xxh huge excess hbeh) in I. unfold checksum in I.
      apply in_app_or in I. destruct I as [I|I].
      * destruct (content (f_path x)); [|contradiction]. destruct (checksum_file _ _ _ _ _ _ _); try contradiction. destruct I as [I|[]]. discriminate.
      * destruct (checksum_file _ _ _ _ _ _ _); try contradiction. destruct verbose; [|contradiction]. destruct I as [I|[]]. discriminate.
    + destruct x as (x, y). apply (fold_made_in bytes_of xxh huge excess hbeh beh junk qsort Q) in Ix. destruct Ix as (Ix & Iy & Z).
      assert (CH : forall x, In x L -> chosen (f_path x) (f_size x)).
      { intros z Iz. apply (collected_chosen l W). eapply Permutation_in; [symmetry; exact P|exact Iz]. }
      destruct (AR _ _ (CH x Ix)) as (b1 & E1 & L1). destruct (AR _ _ (CH y Iy)) as (b2 & E2 & L2).
      destruct (CB x y) as (R1 & R2 & NS).
      unfold pair_says in I. cbv zeta in I. apply in_app_or in I. destruct I as [I|I].
      * unfold cmp_says in I. destruct (_ && _ && _) in I; [contradiction|]. unfold big_cmp_says in I. destruct (_ =? 0)%N in I; [contradiction|].
        rewrite E1, E2 in I. rewrite loop_says_quiet in I; auto. lia.
      * destruct (comparison _ _ _ _ x y); try contradiction. destruct verbose; [|contradiction]. destruct I as [I|[]]. discriminate.
  - destruct X as (_ & _ & _ & X). cbv zeta in X. destruct (AR p s Cp) as (b1 & E1 & L1). destruct (AR q s Cq) as (b2 & E2 & L2).
    destruct (CB (entry p s) (entry q s)) as (R1 & R2 & NS). rewrite E1, E2 in X.
    destruct (filecmp_exact_partial huge excess (y_m1 (beh (entry p s) (entry q s))) (y_m2 (beh (entry p s) (entry q s))) _ _ (y_r (beh (entry p s) (entry q s))) b1 b2 (Z.to_N s) HG R1 R2 NS) as (d & D & _); [lia|lia|].
    rewrite D in X. discriminate.
Qed.
End Theorems.

(** ** The run is the run of MainModel
    The exit status here is the one there: no archive option and no image option, and no open
    fails, since MainModel has no failing opens. *)
Lemma traverse_same {R vec} (w : world R vec) fuel c (json : bool) : forall args,
  args_walk (o_compile w) (o_exec w) (fun a => if json then o_truename w a else Some a) fuel c (o_fs w (cf_fsyml (w_conf c))) args =
  traverse w fuel c json args.
Proof. induction args as [|a args IH]; cbn [args_walk traverse]; [reflexivity|]. now rewrite IH. Qed.
Theorem same_run : forall R vec (w : world R vec) fuel (u : setup R) verbose,
  let has := is_set (g_mask (u_cfg u)) in
  sorts (o_qsort w) -> visits_all (o_iter w) -> (forall b q i, s_stat (o_fs w b) q = Some i -> (0 <= i_size i)%Z) ->
  has OPTION_PUZZL = false -> has OPTION_UNTAR = false ->
  match processing w fuel u with Exit z _ => Some z | _ => None end =
  fst (run_says (fun x => Some (o_content w (f_path x))) (o_xxh w) (o_huge w) (Z.to_N (g_excess (u_cfg u))) (o_hbeh w) (o_beh w) verbose
         (o_junk w) (o_qsort w) (o_iter w) (o_compile w) (o_exec w)
         (fun a => if has OPTION_JSON then o_truename w a else Some a) fuel (u_conf u)
         (o_fs w (cf_fsyml (w_conf (u_conf u)))) (has OPTION_JSON) (u_args u)).
Proof.
  intros R vec w fuel u verbose has QS QI SN NP NU. unfold processing, run_says. cbv zeta. fold has. rewrite traverse_same, NU. cbn [andb].
  destruct (traverse w fuel (u_conf u) (has OPTION_JSON) (u_args u)) as [l|l| |] eqn:T; [|reflexivity..].
  assert (SO : sizes_ok l).
  { rewrite <- traverse_same in T. apply args_walk_some in T as (bs & F & W).
    apply Forall_forall. intros (q & i) I. cbn [snd]. apply (walk_exact _ _ _ _ _ _ _ _ W) in I. destruct I as (a & cs & _ & [_ S _ _]). eapply SN; eauto. }
  unfold report. cbv zeta. fold has. rewrite NP. unfold found_status.
  destruct (has OPTION_JSON).
  - match goal with |- match finish ?s _ with _ => _ end = fst (match ?s' with _ => _ end) => change s' with s; destruct s; reflexivity end.
  - destruct (run_text (MainModel.hash w (u_cfg u)) (o_junk w) (MainModel.compare w (u_cfg u)) (o_qsort w) (o_iter w) (w_conf (u_conf u)) l) as [gs s] eqn:E.
    destruct (run_output_shows _ _ _ _ _ format_human_size (style_of (g_sep (u_cfg u)) (has OPTION_SIZED) (o_tty w)) QS QI (w_conf (u_conf u)) l gs s SO E) as (t & -> & _).
    match goal with |- _ = fst (match ?s' with _ => _ end) => change s' with (snd (run_text (MainModel.hash w (u_cfg u)) (o_junk w) (MainModel.compare w (u_cfg u)) (o_qsort w) (o_iter w) (w_conf (u_conf u)) l)) end.
    rewrite E. cbn [snd]. destruct s; reflexivity.
Qed.

(** ** What is not named *)
(** three files of one size in one directory; the second cannot be opened, and the third is for
    others only *)
Definition msg_tree : list (path * node) :=
  [ (lit "d", NDir [(lit "a", TReg); (lit "b", TReg); (lit "z", TReg)]); (lit "d/a", NFile 2); (lit "d/b", NFile 2); (lit "d/z", NFile 2) ].
Definition msg_fs (mode : N) : fs :=
  let g := list_fs msg_tree [] in
  mkFS (fun p => if list_eq_dec N.eq_dec p (lit "d/z") then Some (mkInfo TReg 2 5 5 mode) else s_stat g p) (s_dir g) (s_gitignore g).
(** the entries of PropWalk belong to the user 5 *)
Definition msg_conf : wconf str := mkW (mkConf 0 0 5 [] None false false) true false default_names None None true [mkCtx (lit "/") []].
Definition msg_content (shut : path) (p : path) : option bytes :=
  if list_eq_dec N.eq_dec p shut then None else Some [7; 8]%N.
Definition msg_run (content : path -> option bytes) (hbeh : file -> bool * (nat -> option nat)) (beh : file -> file -> sysbeh)
    (verbose json : bool) (mode : N) : option Z * list msg :=
  run_says (fun x => content (f_path x)) sum256 2 1 hbeh beh verbose ex_junk isort id_iter (fun r => Some r) toy
    Some 9 msg_conf (msg_fs mode) json [lit "d"].
Lemma msg_sizes mode : forall q i, s_stat (msg_fs mode) q = Some i -> (0 <= i_size i)%Z.
Proof.
  intros q i. cbn [msg_fs s_stat list_fs]. destruct (list_eq_dec N.eq_dec q (lit "d/z")); [intros E; injection E as <-; cbn; lia|].
  cbn [msg_tree look]. repeat destruct (list_eq_dec _ _ _); intros E; try discriminate; injection E as <-; cbn; lia.
Qed.
Lemma chosen_in {R} rcompile rexec resolve fuel (c : wconf R) f args l p s pr :
  args_walk rcompile rexec resolve fuel c f args = WOk l -> In (mkFile p s pr) (collected (w_conf c) l) ->
  chosen rcompile rexec resolve c f args p s.
Proof. intros W I. apply (proj1 (collected_chosen rcompile rexec resolve fuel c f args l W _)) in I. apply I. Qed.
Definition msg_list (mode : N) : list (path * finfo) :=
  (lit "d/a", mkInfo TReg 2 5 5 0x0644) :: (lit "d/b", mkInfo TReg 2 5 5 0x0644) ::
  if (mode =? 0)%N then [] else [(lit "d/z", mkInfo TReg 2 5 5 0x0644)].
Lemma msg_walk mode : mode = 0%N \/ mode = 0x0644%N ->
  args_walk (fun r => Some r) toy Some 9 msg_conf (msg_fs mode) [lit "d"] = WOk (msg_list mode).
Proof. intros [-> | ->]; vm_compute; reflexivity. Qed.
Lemma msg_chosen mode p : mode = 0%N \/ mode = 0x0644%N -> In p [lit "d/a"; lit "d/b"] \/ (p = lit "d/z" /\ mode = 0x0644%N) ->
  chosen (fun r => Some r) toy Some msg_conf (msg_fs mode) [lit "d"] p 2.
Proof.
  intros M H. apply (chosen_in _ _ _ 9 _ _ _ _ _ _ false (msg_walk mode M)).
  destruct H as [[<-|[<-|[]]]|(-> & ->)]; [destruct M as [-> | ->]..|]; vm_compute; auto.
Qed.

(** Left out without a word, in runs that end with status 0: without -v, in text and JSON, a file
    that cannot be opened; with -v, a file the user may not read; with -v, a file whose first read
    fails while it is compared. *)
Theorem unreadable_named_refuted :
  (forall json, msg_run (msg_content (lit "d/b")) ok_hbeh ok_beh false json 0x0644 = (Some 0%Z, [])) /\
  msg_content (lit "d/b") (lit "d/b") = None /\
  (forall p, In p [lit "d/a"; lit "d/b"; lit "d/z"] -> chosen (fun r => Some r) toy Some msg_conf (msg_fs 0x0644) [lit "d"] p 2) /\
  msg_run (msg_content (lit "d/z")) ok_hbeh ok_beh true false 0 = (Some 0%Z, []) /\
  s_stat (msg_fs 0) (lit "d/z") = Some (mkInfo TReg 2 5 5 0) /\ check_permissions (w_conf msg_conf) (mkInfo TReg 2 5 5 0) = false /\
  (let beh := fun _ _ => mkBeh true true (fun _ => Some 2%nat) (fun _ => None) true in
   msg_run (msg_content []) ok_hbeh beh true false 0 = (Some 0%Z, [])).
Proof.
  split; [intros []; vm_compute; reflexivity|]. split; [reflexivity|].
  split. { intros p H. apply msg_chosen; [now right|]. destruct H as [<-|[<-|[<-|[]]]]; [left; now left|left; right; now left|right; auto]. }
  split; [vm_compute; reflexivity|]. split; [vm_compute; reflexivity|]. split; [vm_compute; reflexivity|]. vm_compute. reflexivity.
Qed.

(** ** Cases *)
(** hypotheses of the theorems: three files, the second cannot be opened, -v *)
Example unreadable_case :
  sorts isort /\ visits_all id_iter /\ (forall q i, s_stat (msg_fs 0x0644) q = Some i -> (0 <= i_size i)%Z) /\
  msg_run (msg_content (lit "d/b")) ok_hbeh ok_beh true false 0x0644 = (Some 0%Z, [SaysSkip (lit "d/b")]) /\
  msg_run (msg_content (lit "d/b")) ok_hbeh ok_beh true false 0 = (Some 0%Z, [SaysPair (lit "d/a") (lit "d/b")]).
Proof.
  split; [exact isort_sorts|]. split; [exact id_iter_all|]. split; [apply msg_sizes|]. split; vm_compute; reflexivity.
Qed.
(** the second read of [d/a] fails while it is hashed *)
Definition bad_hbeh : file -> bool * (nat -> option nat) :=
  fun x => (true, fun i => if list_eq_dec N.eq_dec (f_path x) (lit "d/a") then (if (i =? 0)%nat then Some 1%nat else None) else Some 1%nat).
Example read_error_case : forall json,
  msg_run (msg_content []) bad_hbeh ok_beh false json 0x0644 = (Some 0%Z, [SaysRead (lit "d/a")]) /\
  checksum_file 2 sum256 1 true (snd (bad_hbeh (entry msg_conf (lit "d/a") 2))) (msg_content [] (lit "d/a")) 2 = FErr.
Proof. intros []; split; vm_compute; reflexivity. Qed.
(** all can be read *)
Example quiet_case : forall json, msg_run (msg_content []) ok_hbeh ok_beh true json 0x0644 = (Some 0%Z, []) /\
  all_readable (fun r => Some r) toy (msg_content []) 2 ok_hbeh ok_beh Some msg_conf (msg_fs 0x0644) [lit "d"].
Proof.
  intros json. split; [destruct json; vm_compute; reflexivity|]. split; [exact (proj1 end_hyps)|].
  intros p s H. assert (I : In (entry msg_conf p s) (collected (w_conf msg_conf) (msg_list 0x0644))).
  { apply (proj2 (collected_chosen _ _ _ 9 _ _ _ _ (msg_walk 0x0644 (or_intror eq_refl)) _)). split; [exact H|reflexivity]. }
  vm_compute in I. destruct I as [I|[I|[I|[]]]]; injection I as <- <-; eexists; (split; [vm_compute; reflexivity|reflexivity]).
Qed.
(** the three ways to fail *)
Definition fail_run (f : fs) (resolve : path -> option path) (args : list path) : option Z * list msg :=
  run_says (fun x => Some []) sum256 2 1 ok_hbeh ok_beh false ex_junk isort id_iter (fun r => Some r) toy resolve 9 msg_conf f false args.
Definition deep_tree : list (path * node) :=
  [ (lit "d", NDir [(lit "a", TReg); (lit "s", TDir)]); (lit "d/a", NFile 3); (lit "d/s", NDir [(lit "locked", TDir)]); (lit "d/s/locked", NBad) ].
Example failure_case :
  fail_run (list_fs deep_tree []) Some [lit "d/a"; lit "d"] = (Some (-1)%Z, [SaysDir (lit "d/s/locked"); SaysUp; SaysUp; SaysArg; SaysRun]) /\
  fail_run (list_fs tree3 []) Some [lit "d"] = (Some (-1)%Z, [SaysStat (lit "d/gone"); SaysUp; SaysArg; SaysRun]) /\
  fail_run (list_fs tree3 []) (fun _ => None) [lit "d"] = (Some (-1)%Z, [SaysResolve (lit "d"); SaysRun]) /\
  fail_run (list_fs [(lit "d", NDir [])] []) Some [lit "d"] = (Some (-1)%Z, [SaysFew; SaysRun]).
Proof. split; [|split; [|split]]; vm_compute; reflexivity. Qed.

Print Assumptions failure_explained.
Print Assumptions unreadable_named_partial.
Print Assumptions read_error_named.
Print Assumptions only_failures_named.
Print Assumptions quiet_when_readable.
Print Assumptions same_run.
Print Assumptions unreadable_named_refuted.
