(** Files that cannot be opened do not disturb the report on the others; hash collisions (C163). *)
From Coq Require Import String Ascii.
From Coq Require Import Sorting.Permutation Sorting.Sorted.
From Verif Require Import Util HeapModel IgnoreModel CollectModel ProcessModel FileModel PropFile PropEnd WalkModel PropWalk
  ReportSpec ReportProofs ReportGroups ReportArrays ReportMain PropReport PropRun MsgModel PropMsg.
Local Open Scope list_scope.

(** * One array of cells *)
Section Array.
Variable compare : file -> file -> cmpres.
Variable P : file -> Prop.
Hypothesis SYM : forall f g, P f -> P g -> compare f g = Equal -> compare g f = Equal.
Hypothesis TRANS : forall f g h, P f -> P g -> P h -> compare f g = Equal -> compare g h = Equal -> compare f h = Equal.
Hypothesis NP : forall f g, compare f g <> NoPath.

(** a file with another file between it and a twin of it, all three with one hash value *)
Definition tangled (cells : list chk) : Prop :=
  exists hv f g h, subseq [mkChk hv (Some f); mkChk hv (Some g); mkChk hv (Some h)] cells /\
    compare f h = Equal /\ compare f g <> Equal.
(** a cell set to NULL behind one that is not *)
Definition holed (cells : list chk) : Prop :=
  exists hv f, subseq [mkChk hv (Some f); mkChk hv None] cells.

Definition mk (hv : N) (f : file) (k : chk) : chk :=
  if (k_hash k =? hv)%N then
    match k_file k with Some g => match compare f g with Equal => mkChk (k_hash k) None | _ => k end | None => k end
  else k.
Definition found (hv : N) (f : file) (r : list chk) : list file :=
  flat_map (fun k => if (k_hash k =? hv)%N then match k_file k with Some g => match compare f g with Equal => [g] | _ => [] end | None => [] end else []) r.
Lemma map_mk_id hv f r : Forall (fun k => k_hash k <> hv) r -> map (mk hv f) r = r /\ found hv f r = [].
Proof.
  induction 1 as [|k r N _ (A & B)]; [auto|]. cbn [map found flat_map]. unfold mk at 1. replace (k_hash k =? hv)%N with false by lia.
  fold (found hv f r). rewrite A, B. auto.
Qed.
Lemma pairs_ok hv f r : hsorted r -> Forall (fun k => (hv <= k_hash k)%N) r -> ~ In (mkChk hv None) r ->
  pairs compare hv f r = (map (mk hv f) r, found hv f r, SOk).
Proof.
  induction r as [|k r IH]; intros S B NN; [reflexivity|]. inversion S as [|? ? S1 S2]; inversion B as [|? ? B1 B2]; subst.
  cbn [pairs map found flat_map]. fold (found hv f r). unfold mk at 1. destruct (k_hash k =? hv)%N eqn:E.
  - destruct (k_file k) as [g|] eqn:K.
    2: { exfalso. apply NN. left. destruct k as [x y]. cbn [k_hash k_file] in *. subst y. f_equal. now apply N.eqb_eq in E. }
    rewrite IH; auto; [|intros I; apply NN; now right]. specialize (NP f g). destruct (compare f g); [congruence|reflexivity..].
  - assert (X : Forall (fun k => k_hash k <> hv) (k :: r)).
    { constructor; [lia|]. rewrite Forall_forall in *. intros y I. apply S2 in I. cbn in I. lia. }
    inversion X as [|? ? X1 X2]; subst. destruct (map_mk_id hv f r X2) as (-> & ->). reflexivity.
Qed.
Lemma pairs_hole hv f r : hsorted r -> Forall (fun k => (hv <= k_hash k)%N) r -> In (mkChk hv None) r ->
  snd (pairs compare hv f r) = SUB.
Proof.
  induction r as [|k r IH]; intros S B I; [contradiction|]. inversion S as [|? ? S1 S2]; inversion B as [|? ? B1 B2]; subst.
  cbn [pairs]. assert (E : (k_hash k =? hv)%N = true).
  { apply N.eqb_eq. destruct I as [->|I]; [reflexivity|]. rewrite Forall_forall in S2. apply S2 in I. cbn [k_hash] in I. lia. }
  rewrite E. destruct (k_file k) as [g|] eqn:K; [|reflexivity].
  destruct I as [->|I]; [discriminate K|]. specialize (IH S1 B2 I). specialize (NP f g).
  destruct (compare f g); [congruence|..]; destruct (pairs compare hv f r) as [[r' m] s]; exact IH.
Qed.
Lemma subseq_map_inv {A B} (g : A -> B) : forall l s, subseq s (map g l) -> exists s', s = map g s' /\ subseq s' l.
Proof.
  induction l as [|x l IH]; intros s H; cbn [map] in H; inversion H as [|y s' ? H1|y s' ? H1]; subst.
  - exists []. split; [reflexivity|constructor].
  - exists []. split; [reflexivity|constructor].
  - destruct (IH _ H1) as (t & -> & T). exists (x :: t). split; [reflexivity|now constructor].
  - destruct (IH _ H1) as (t & -> & T). exists t. split; [reflexivity|now constructor].
Qed.
Lemma subseq1 {A} (x : A) l : subseq [x] l <-> In x l.
Proof.
  split; [intros S; eapply subseq_in; [exact S|now left]|]. induction l as [|y l IH]; [intros []|].
  intros [->|I]; [apply sub_keep; constructor|apply sub_skip; auto].
Qed.
Lemma subseq_cons_inv {A} (x : A) s y l : subseq (x :: s) (y :: l) -> (x = y /\ subseq s l) \/ subseq (x :: s) l.
Proof. intros H. inversion H; subst; auto. Qed.
Lemma mk_some hv f k hv' g : mk hv f k = mkChk hv' (Some g) -> k = mkChk hv' (Some g) /\ (hv' = hv -> compare f g <> Equal).
Proof.
  unfold mk. destruct k as [kh kf]. cbn [k_hash k_file]. destruct (kh =? hv)%N eqn:E.
  - destruct kf as [x|]; [|discriminate]. destruct (compare f x) eqn:C; intros X; try discriminate; injection X as -> ->; split; auto; intros _; congruence.
  - intros X. injection X as -> ->. split; [reflexivity|]. intros ->. now rewrite N.eqb_refl in E.
Qed.
Lemma mk_none hv f k hv' : mk hv f k = mkChk hv' None -> k = mkChk hv' None \/ (hv' = hv /\ exists g, k = mkChk hv (Some g) /\ compare f g = Equal).
Proof.
  unfold mk. destruct k as [kh kf]. cbn [k_hash k_file]. destruct (kh =? hv)%N eqn:E; [|intros X; injection X as -> ->; now left].
  apply N.eqb_eq in E. subst kh. destruct kf as [x|]; [|intros X; injection X as ->; now left].
  destruct (compare f x) eqn:C; intros X; try discriminate. injection X as <-. right. split; [reflexivity|]. exists x. auto.
Qed.
Lemma mk_stays hv f hv' g : hv' <> hv \/ compare f g <> Equal -> mk hv f (mkChk hv' (Some g)) = mkChk hv' (Some g).
Proof.
  unfold mk. cbn [k_hash k_file]. intros H. destruct (hv' =? hv)%N eqn:E; [|reflexivity]. apply N.eqb_eq in E.
  destruct H as [H|H]; [congruence|]. destruct (compare f g); congruence.
Qed.
Lemma mk_goes hv f g : compare f g = Equal -> mk hv f (mkChk hv (Some g)) = mkChk hv None.
Proof. unfold mk. cbn [k_hash k_file]. rewrite N.eqb_refl. now intros ->. Qed.
Lemma mk_null hv f hv' : mk hv f (mkChk hv' None) = mkChk hv' None.
Proof. unfold mk. cbn [k_hash k_file]. now destruct (_ =? _)%N. Qed.
Lemma same_dec (a b : cmpres) : {a = b} + {a <> b}.
Proof. decide equality. Qed.

Definition known (cells : list chk) : Prop := forall hv f, In (mkChk hv (Some f)) cells -> P f.
Lemma known_mk hv f r : known r -> known (map (mk hv f) r).
Proof. intros K hv' g I. apply in_map_iff in I as (k & E & I). apply mk_some in E as (-> & _). eapply K; eauto. Qed.
(** marking the twins of the first file neither adds nor removes trouble *)
Lemma trouble_step hv f r : P f -> known r -> ~ In (mkChk hv None) r ->
  (tangled (map (mk hv f) r) \/ holed (map (mk hv f) r)) <-> (tangled (mkChk hv (Some f) :: r) \/ holed (mkChk hv (Some f) :: r)).
Proof.
  intros Pf K NN. split.
  - intros [(h & a & b & d & S & E1 & E2)|(h & a & S)].
    + left. apply subseq_map_inv in S as (s & E & S). destruct s as [|x [|y [|z [|? ?]]]]; try discriminate E. cbn [map] in E. injection E as X Y Z.
      symmetry in X, Y, Z. apply mk_some in X as (-> & _), Y as (-> & _), Z as (-> & _).
      exists h, a, b, d. split; [now apply sub_skip|auto].
    + apply subseq_map_inv in S as (s & E & S). destruct s as [|x [|y [|? ?]]]; try discriminate E. cbn [map] in E. injection E as X Y.
      symmetry in X, Y. apply mk_some in X as (-> & X). apply mk_none in Y as [->|(-> & g & -> & Y)].
      * right. exists h, a. now apply sub_skip.
      * left. exists hv, f, a, g. split; [now apply sub_keep|]. auto.
  - intros [(h & a & b & d & S & E1 & E2)|(h & a & S)].
    + apply subseq_cons_inv in S as [(X & S)|S].
      * injection X as -> ->. right. apply (subseq_map (mk hv f)) in S. cbn [map] in S. rewrite (mk_goes hv f d) in S by exact E1.
        rewrite (mk_stays hv f hv b) in S by (now right). exists hv, b. exact S.
      * assert (Pa : P a) by (apply (K h); eapply subseq_in; [exact S|now left]).
        assert (Pb : P b) by (apply (K h); eapply subseq_in; [exact S|right; now left]).
        assert (Pd : P d) by (apply (K h); eapply subseq_in; [exact S|right; right; now left]).
        apply (subseq_map (mk hv f)) in S. cbn [map] in S. destruct (N.eq_dec h hv) as [->|NE].
        2: { left. exists h, a, b, d. rewrite !mk_stays in S by (now left). auto. }
        destruct (same_dec (compare f a) Equal) as [Fa|Fa].
        -- right. exists hv, b. rewrite (mk_goes hv f a) in S by exact Fa.
           rewrite (mk_stays hv f hv b) in S. 2: { right. intros Fb. apply E2. apply (TRANS a f b); auto. }
           rewrite (mk_goes hv f d) in S by (apply (TRANS f a d); auto). eapply subseq_trans; [exact S|]. apply sub_skip. apply subseq_refl.
        -- assert (Fd : compare f d <> Equal) by (intros Fd; apply Fa; apply (TRANS f d a); auto).
           rewrite (mk_stays hv f hv a), (mk_stays hv f hv d) in S by (now right).
           destruct (same_dec (compare f b) Equal) as [Fb|Fb].
           ++ right. exists hv, a. rewrite mk_goes in S by exact Fb. eapply subseq_trans; [exact S|]. apply sub_keep, sub_keep. constructor.
           ++ left. exists hv, a, b, d. rewrite mk_stays in S by (now right). auto.
    + right. apply subseq_cons_inv in S as [(X & S)|S].
      * injection X as -> ->. exfalso. apply NN. now apply subseq1.
      * assert (NE : h <> hv) by (intros ->; apply NN; eapply subseq_in; [exact S|right; now left]).
        apply (subseq_map (mk hv f)) in S. cbn [map] in S. rewrite mk_null, mk_stays in S by (now left). exists h, a. exact S.
Qed.

(** how the report on an array ends *)
Lemma array_ends : forall fuel cells, (length cells <= fuel)%nat -> hsorted cells -> known cells ->
  (snd (report_array compare fuel cells) = SOk /\ ~ (tangled cells \/ holed cells)) \/
  (snd (report_array compare fuel cells) = SUB /\ (tangled cells \/ holed cells)).
Proof.
  induction fuel as [|fuel IH]; intros cells L S K.
  { destruct cells; [|cbn in L; lia]. left. split; [reflexivity|]. intros [(h & a & b & d & X & _)|(h & a & X)]; inversion X. }
  destruct cells as [|k r].
  { left. split; [reflexivity|]. intros [(h & a & b & d & X & _)|(h & a & X)]; inversion X. }
  cbn [length] in L. inversion S as [|? ? S1 S2]; subst. cbn [report_array].
  destruct k as [hv [f|]]; cbn [k_hash k_file] in *.
  - destruct (in_dec (fun x y : chk => ltac:(decide equality; [decide equality; decide equality; [apply Bool.bool_dec|apply Z.eq_dec|apply (list_eq_dec N.eq_dec)]|apply N.eq_dec])) (mkChk hv None) r) as [I|NN].
    + right. pose proof (pairs_hole hv f r S1 S2 I) as X. destruct (pairs compare hv f r) as [[r' m] s]. cbn [snd] in X. subst s. split; [reflexivity|].
      right. exists hv, f. apply sub_keep. now apply subseq1.
    + rewrite (pairs_ok hv f r S1 S2 NN).
      assert (Pf : P f) by (apply (K hv); now left). assert (Kr : known r) by (intros h g I; apply (K h); now right).
      destruct (IH (map (mk hv f) r)) as [(A & B)|(A & B)].
      * rewrite map_length. lia.
      * apply (marked_hsorted _ r); [|exact S1]. pose proof (pairs_inv compare hv f r _ _ _ (pairs_ok hv f r S1 S2 NN)) as (M & _). exact M.
      * now apply known_mk.
      * left. destruct (report_array compare fuel _) as [gs s]. split; [exact A|]. intros T. apply B. now apply trouble_step.
      * right. destruct (report_array compare fuel _) as [gs s]. split; [exact A|]. now apply trouble_step.
  - assert (Kr : known r) by (intros h g I; apply (K h); now right).
    assert (X : (tangled (mkChk hv None :: r) \/ holed (mkChk hv None :: r)) <-> (tangled r \/ holed r)).
    { split; (intros [(h & a & b & d & X & Y)|(h & a & X)]; [left; exists h, a, b, d; split; [|exact Y]|right; exists h, a]);
        try (now apply sub_skip); apply subseq_cons_inv in X as [(X & _)|X]; [discriminate X|exact X|discriminate X|exact X]. }
    destruct (IH r ltac:(lia) S1 Kr) as [(A & B)|(A & B)]; [left|right]; split; auto; [intros T; apply B|]; now apply X.
Qed.

(** what an array that is reported to its end gives *)
Lemma found_in hv f r g : In g (found hv f r) <-> In (mkChk hv (Some g)) r /\ compare f g = Equal.
Proof.
  unfold found. rewrite in_flat_map. split.
  - intros ([kh kf] & I & J). cbn [k_hash k_file] in J. destruct (kh =? hv)%N eqn:E; [|contradiction]. apply N.eqb_eq in E. subst kh.
    destruct kf as [x|]; [|contradiction]. destruct (compare f x) eqn:C; try contradiction. destruct J as [->|[]]. auto.
  - intros (I & C). exists (mkChk hv (Some g)). split; [exact I|]. cbn [k_hash k_file]. rewrite N.eqb_refl, C. now left.
Qed.
Lemma array_complete : forall fuel cells gs, hsorted cells -> known cells ->
  report_array compare fuel cells = (gs, SOk) -> forall hv f g, In (mkChk hv (Some f)) cells -> In (mkChk hv (Some g)) cells ->
  f <> g -> compare f g = Equal -> exists grp, In grp gs /\ In f grp /\ In g grp.
Proof.
  induction fuel as [|fuel IH]; intros cells gs S K E hv f g If Ig NE C; [destruct cells; [contradiction|discriminate E]|].
  destruct cells as [|k r]; [contradiction|]. inversion S as [|? ? S1 S2]; subst. cbn [report_array] in E.
  assert (Kr : known r) by (intros h x I; apply (K h); now right).
  destruct k as [h0 [f0|]]; cbn [k_hash k_file] in *.
  2: { destruct If as [If|If]; [discriminate|]. destruct Ig as [Ig|Ig]; [discriminate|]. eapply IH; eauto. }
  destruct (in_dec (fun x y : chk => ltac:(decide equality; [decide equality; decide equality; [apply Bool.bool_dec|apply Z.eq_dec|apply (list_eq_dec N.eq_dec)]|apply N.eq_dec])) (mkChk h0 None) r) as [I|NN].
  { pose proof (pairs_hole h0 f0 r S1 S2 I) as X. destruct (pairs compare h0 f0 r) as [[r' m] s]. cbn [snd] in X. subst s. discriminate E. }
  rewrite (pairs_ok h0 f0 r S1 S2 NN) in E.
  assert (S' : hsorted (map (mk h0 f0) r)).
  { apply (marked_hsorted _ r); [|exact S1]. pose proof (pairs_inv compare h0 f0 r _ _ _ (pairs_ok h0 f0 r S1 S2 NN)) as (M & _). exact M. }
  assert (P0 : P f0) by (apply (K h0); now left). assert (Pf : P f) by (apply (K hv); exact If). assert (Pg : P g) by (apply (K hv); exact Ig).
  destruct (report_array compare fuel (map (mk h0 f0) r)) as [gs' s'] eqn:R. injection E as <- ->.
  assert (G : forall x, In x (found h0 f0 r) -> In (f0 :: found h0 f0 r) ((if found h0 f0 r then [] else [f0 :: found h0 f0 r]) ++ gs')).
  { intros x I. destruct (found h0 f0 r); [contradiction|]. now left. }
  destruct If as [If|If]; [injection If as -> ->|].
  { destruct Ig as [Ig|Ig]; [injection Ig as ->; congruence|]. assert (I : In g (found hv f r)) by (now apply found_in).
    exists (f :: found hv f r). split; [now apply (G g)|]. split; [now left|now right]. }
  destruct Ig as [Ig|Ig]; [injection Ig as -> ->|].
  { assert (I : In f (found hv g r)) by (apply found_in; split; auto). exists (g :: found hv g r). split; [now apply (G f)|]. split; [now right|now left]. }
  assert (D : (h0 = hv /\ compare f0 f = Equal) \/ (hv <> h0 \/ compare f0 f <> Equal)).
  { destruct (N.eq_dec hv h0) as [->|]; [|now right; left]. destruct (same_dec (compare f0 f) Equal); [left; auto|right; now right]. }
  destruct D as [(-> & F)|D].
  - assert (I : In f (found hv f0 r)) by (now apply found_in). assert (J : In g (found hv f0 r)) by (apply found_in; split; [exact Ig|]; apply (TRANS f0 f g); auto).
    exists (f0 :: found hv f0 r). split; [now apply (G f)|]. split; now right.
  - assert (D' : hv <> h0 \/ compare f0 g <> Equal).
    { destruct D as [D|D]; [now left|]. right. intros F. apply D. apply (TRANS f0 g f); auto. }
    destruct (IH _ _ S' (known_mk _ _ _ Kr) R hv f g) as (grp & I & J); auto.
    + apply (in_map (mk h0 f0)) in If. now rewrite mk_stays in If.
    + apply (in_map (mk h0 f0)) in Ig. now rewrite mk_stays in Ig.
    + exists grp. split; [|exact J]. apply in_or_app. now right.
Qed.
End Array.

(** * Files with their contents *)
Section Files.
Variable content : file -> option bytes.
Variable xxh : bytes -> N.
Variable huge : nat.
Variable excess : N.
Variable hbeh : file -> bool * (nat -> option nat).
Variable beh : file -> file -> sysbeh.
Variable junk : file -> N.
Variable qsort : (chk -> chk -> Z) -> list chk -> list chk.
Variable iter : table -> table.
Hypothesis Q : sorts qsort.
Hypothesis IT : visits_all iter.
Hypothesis CL : clean huge beh hbeh.
Notation H := (hash content xxh huge excess hbeh).
Notation C := (compare content huge excess beh).

(** what a run in text or JSON prints, as lists of files, and how it ends *)
Definition groups (json : bool) (c : conf) (l : list (path * finfo)) : list (list file) * status :=
  if json then let '(js, s) := run_json H junk C qsort iter c l in (map snd js, s)
  else run_text H junk C qsort iter c l.
(** the hash value in the cell of a file *)
Definition hash_value (f : file) : N := match content f with Some b => xxh b | None => junk f end.
Definition right_sizes (L : list file) : Prop := forall f b, In f L -> content f = Some b -> Z.of_nat (length b) = f_size f.

Lemma compare_equal L f g : right_sizes L -> In f L -> In g L -> f_size f = f_size g -> (0 <= f_size f)%Z ->
  (C f g = Equal <-> f_size f = 0%Z \/ exists b, content f = Some b /\ content g = Some b).
Proof.
  clear Q IT. intros RS If Ig E NN. destruct CL as (HG & _ & CB). destruct (CB f g) as (R1 & R2 & NS).
  destruct (Z.eq_dec (f_size f) 0) as [Z0|NZ].
  - assert (X : C f g = Equal).
    { unfold compare, comparison, filecmp, small_filecmp, big_filecmp. cbv zeta. rewrite Z0. cbn [Z.to_N]. rewrite N.eqb_refl. now destruct (_ <? _)%N. }
    rewrite X. intuition.
  - destruct (content f) as [a|] eqn:Ca; destruct (content g) as [b|] eqn:Cb.
    2-4: unfold compare; rewrite comparison_unopened by (auto; lia); split; [discriminate|intros [?|(x & X & Y)]; [lia|congruence]].
    assert (La := RS f a If Ca). assert (Lb := RS g b Ig Cb).
    destruct (filecmp_exact_partial huge excess (y_m1 (beh f g)) (y_m2 (beh f g)) _ _ (y_r (beh f g)) a b (Z.to_N (f_size f)) HG R1 R2 NS) as (d & D & X); [lia|lia|].
    unfold compare, comparison. cbv zeta. rewrite Ca, Cb, D. destruct d.
    + split; [discriminate|]. intros [?|(x & Y & Z)]; [lia|]. injection Y as <-. injection Z as <-. discriminate (proj2 X eq_refl).
    + split; [|reflexivity]. intros _. right. exists a. split; [reflexivity|]. f_equal. symmetry. now apply X.
Qed.
Lemma no_path f g : C f g <> NoPath.
Proof. clear. unfold compare. destruct (comparison _ _ _ _ f g) as [[]| | |]; discriminate. Qed.
Lemma hash_some L f b : right_sizes L -> In f L -> content f = Some b -> H f = Some (xxh b).
Proof.
  clear Q IT. intros RS If E. destruct CL as (HG & HB & _). unfold hash, checksum. rewrite E.
  rewrite checksum_exact; [reflexivity|exact HG|apply HB|]. specialize (RS f b If E). lia.
Qed.
Lemma hash_cell L f : right_sizes L -> In f L -> match H f with Some h => h | None => junk f end = hash_value f.
Proof.
  clear Q IT. intros RS If. unfold hash_value. destruct (content f) as [b|] eqn:E; [now rewrite (hash_some L f b)|].
  unfold hash. now rewrite checksum_unopened.
Qed.

Section Sized.
Variable L : list file.
Hypothesis RS : right_sizes L.
Hypothesis NN : forall f, In f L -> (0 <= f_size f)%Z.
Definition of (s : Z) (f : file) : Prop := In f L /\ f_size f = s.
Lemma sym s f g : of s f -> of s g -> C f g = Equal -> C g f = Equal.
Proof.
  intros (If & Zf) (Ig & Zg). rewrite (compare_equal L f g RS If Ig), (compare_equal L g f RS Ig If) by (auto; congruence).
  intros [X|(b & X & Y)]; [left; congruence|right; eauto].
Qed.
Lemma trans s f g h : of s f -> of s g -> of s h -> C f g = Equal -> C g h = Equal -> C f h = Equal.
Proof.
  intros (If & Zf) (Ig & Zg) (Ih & Zh).
  rewrite (compare_equal L f g RS If Ig), (compare_equal L g h RS Ig Ih), (compare_equal L f h RS If Ih) by (auto; congruence).
  intros [X|(b & X & Y)]; [left; congruence|]. intros [X'|(b' & X' & Y')]; [left; congruence|]. right. exists b. split; congruence.
Qed.
Lemma srt_known json s : known (of s) (srt H junk qsort json L s).
Proof.
  intros hv f I. apply (srt_in H junk qsort Q) in I as (x & X & Ix & Zx). unfold cell in X. injection X as _ <-. now split.
Qed.
(** the report on one size that ends normally *)
Lemma size_sound json s gs st grp x y : report_array C (cnt s L) (srt H junk qsort json L s) = (gs, st) -> In grp gs -> In x grp -> In y grp ->
  of s x /\ of s y /\ (s = 0%Z \/ exists b, content x = Some b /\ content y = Some b).
Proof.
  intros E I Ix Iy. apply report_array_inv in E as (E & _). rewrite Forall_forall in E. destruct (E grp I) as (f & m & hv & -> & NE & FE & SS).
  assert (K : forall z, In z (f :: m) -> of s z).
  { intros z Iz. apply (srt_known json s hv). eapply subseq_in; [exact SS|]. now apply (in_map (fun x => mkChk hv (Some x))). }
  split; [now apply K|]. split; [now apply K|]. rewrite Forall_forall in FE.
  destruct (K f (or_introl eq_refl)) as (If & Zf).
  assert (Y : forall z, In z m -> s = 0%Z \/ exists b, content f = Some b /\ content z = Some b).
  { intros z Iz. specialize (FE z Iz). destruct (K z (or_intror Iz)) as (Jz & Zz).
    rewrite (compare_equal L f z RS If Jz) in FE by (auto; congruence). destruct FE as [FE|FE]; [left; congruence|now right]. }
  destruct m as [|z0 m]; [congruence|]. destruct (Y z0 (or_introl eq_refl)) as [Z0|(b & Cf & _)]; [now left|].
  assert (W : forall z, In z (f :: z0 :: m) -> s = 0%Z \/ content z = Some b).
  { intros z [<-|Iz]; [now right|]. destruct (Y z Iz) as [?|(b' & A & B)]; [now left|right; congruence]. }
  destruct (W x Ix) as [?|Cx]; [now left|]. destruct (W y Iy) as [?|Cy]; [now left|]. right. exists b. auto.
Qed.
Lemma size_finds json s gs f g : report_array C (cnt s L) (srt H junk qsort json L s) = (gs, SOk) ->
  of s f -> of s g -> f <> g -> (json = false /\ s = 0%Z) \/ (exists b, content f = Some b /\ content g = Some b) ->
  exists grp, In grp gs /\ In f grp /\ In g grp.
Proof.
  intros E (If & Zf) (Ig & Zg) NE D.
  apply (array_complete C (of s) (sym s) (trans s) no_path _ _ _ (srt_hsorted H junk qsort Q json L s) (srt_known json s) E (hv_of H junk json L f)).
  - apply (srt_in H junk qsort Q). exists f. unfold cell. auto.
  - apply (srt_in H junk qsort Q). exists g. unfold cell. split; [|auto]. f_equal. unfold hv_of. rewrite Zf, Zg.
    destruct (direct json L s) eqn:DI; [reflexivity|]. rewrite !(hash_cell L) by auto. unfold hash_value.
    destruct D as [(-> & ->)|(b & -> & ->)]; [|reflexivity]. unfold direct in DI. rewrite Z.eqb_refl, orb_true_r in DI. discriminate.
  - exact NE.
  - apply (compare_equal L); auto; [congruence|]. destruct D as [(_ & ->)|D]; [now left|now right].
Qed.
Lemma subseq_perm {A} (s l : list A) : subseq s l -> exists rest, Permutation l (s ++ rest).
Proof.
  induction 1 as [l|x s l S (rest & P)|x s l S (rest & P)].
  - exists l. reflexivity.
  - exists rest. now constructor.
  - exists (x :: rest). rewrite P. apply Permutation_middle.
Qed.
Lemma of_size_perm s : exists rest, Permutation L (of_size s L ++ rest).
Proof.
  clear. exists (filter (fun f => negb (f_size f =? s)%Z) L). unfold of_size. induction L as [|x l IH]; [constructor|]. cbn [filter].
  destruct (f_size x =? s)%Z; cbn [negb app]; [now constructor|]. rewrite IH at 1. apply Permutation_middle.
Qed.
(** three files of one size: two with the same bytes and one without, under one hash value *)
Definition confused (M : list file) : Prop :=
  exists f g h rest b, Permutation M (f :: g :: h :: rest) /\ f_size f = f_size g /\ f_size f = f_size h /\ (0 < f_size f)%Z /\
    content f = Some b /\ content h = Some b /\ content g <> Some b /\ hash_value g = xxh b.
Lemma size_ends json s : ~ confused L -> snd (report_array C (cnt s L) (srt H junk qsort json L s)) = SOk.
Proof.
  intros NC. destruct (array_ends C (of s) (sym s) (trans s) no_path (cnt s L) (srt H junk qsort json L s)) as [(A & _)|(_ & T)].
  - rewrite <- (Permutation_length (srt_perm H junk qsort Q json L s)), map_length. apply le_n.
  - now apply srt_hsorted.
  - apply srt_known.
  - exact A.
  - exfalso. destruct T as [(hv & f & g & h & S & E1 & E2)|(hv & f & S)].
    2: { assert (I : In (mkChk hv None) (srt H junk qsort json L s)) by (eapply subseq_in; [exact S|right; now left]).
         apply (srt_in H junk qsort Q) in I as (x & X & _). discriminate X. }
    apply NC.
    assert (I : forall z, In z [f; g; h] -> of s z /\ hv = hv_of H junk json L z).
    { intros z Iz. assert (J : In (mkChk hv (Some z)) (srt H junk qsort json L s)).
      { eapply subseq_in; [exact S|]. change [mkChk hv (Some f); mkChk hv (Some g); mkChk hv (Some h)] with (map (fun x => mkChk hv (Some x)) [f; g; h]).
        now apply (in_map (fun x => mkChk hv (Some x))). }
      split; [now apply (srt_known json s hv)|]. apply (srt_in H junk qsort Q) in J as (x & X & _). unfold cell in X. injection X as -> <-. reflexivity. }
    destruct (I f (or_introl eq_refl)) as ((If & Zf) & Hf). destruct (I g (or_intror (or_introl eq_refl))) as ((Ig & Zg) & Hg).
    destruct (I h (or_intror (or_intror (or_introl eq_refl)))) as ((Ih & Zh) & Hh).
    rewrite (compare_equal L f h RS If Ih) in E1 by (auto; congruence). rewrite (compare_equal L f g RS If Ig) in E2 by (auto; congruence).
    destruct E1 as [Z0|(b & Cf & Ch)]; [now contradiction E2; left|].
    assert (PF : exists rest, Permutation (of_size s L) (f :: g :: h :: rest)).
    { apply subseq_perm in S as (rest & S). exists (cell_files rest). rewrite (srt_files H junk qsort Q json L s).
      unfold cell_files. rewrite (Permutation_flat_map _ S). reflexivity. }
    destruct PF as (r1 & P1). destruct (of_size_perm s) as (r2 & P2).
    exists f, g, h, (r1 ++ r2), b. split; [rewrite P2 at 1; rewrite P1; reflexivity|]. split; [congruence|]. split; [congruence|].
    split. { specialize (NN f If). assert (f_size f <> 0%Z) by (intros X; apply E2; now left). lia. }
    split; [exact Cf|]. split; [exact Ch|]. split; [intros Cg; apply E2; right; eauto|].
    assert (DI : direct json L s = false).
    { unfold direct. apply andb_false_iff. left. apply orb_false_iff. split.
      - apply Nat.eqb_neq. unfold cnt. rewrite (Permutation_length P1). cbn. lia.
      - apply Z.eqb_neq. intros ->. apply E2. now left. }
    unfold hv_of in Hf, Hg. rewrite Zf, DI in Hf. rewrite Zg, DI in Hg. rewrite (hash_cell L) in Hf, Hg by auto.
    rewrite <- Hg, Hf. unfold hash_value. now rewrite Cf.
Qed.
End Sized.

Lemma groups_fold json c l : sizes_ok l -> collected c l <> [] ->
  exists L ss, Permutation (collected c l) L /\ sizes_list L ss /\
    let F := fold_sizes (fun s => report_array C (cnt s L) (srt H junk qsort json L s)) ss in
    snd (groups json c l) = snd F /\ (snd F = SOk -> fst (groups json c l) = fst F).
Proof.
  intros SO NE. destruct (runs_ok H junk C qsort iter IT c l SO NE) as (L & ss & P & Z & A & B).
  exists L, ss. split; [exact P|]. split; [exact Z|]. cbv zeta. unfold groups. destruct json.
  - rewrite B. clear A B.
    assert (E : snd (fold_sizes (fun s => json_size C qsort (the_entry H junk true L s)) ss) =
      snd (fold_sizes (fun s => report_array C (cnt s L) (srt H junk qsort true L s)) ss)).
    { apply fold_snd. intros s. rewrite json_size_eq. apply json_array_eq. }
    destruct (fold_sizes (fun s => json_size _ _ _) ss) as [js st] eqn:F. cbn [snd] in E.
    split; [destruct st; exact E|]. intros X. rewrite X in E. subst st.
    pose proof (json_as_text H junk C qsort L ss js F) as T. rewrite T. reflexivity.
  - rewrite A. clear A B. rewrite (fold_text_eq H junk C qsort L ss). auto.
Qed.
End Files.

(** * The theorems *)
Section Theorems.
Context {R : Type}.
Variable rcompile : str -> option R.
Variable rexec : R -> str -> bool.
Variable content : path -> option bytes.         (* [None]: the file cannot be opened *)
Variable xxh : bytes -> N.
Variable huge : nat.
Variable excess : N.
Variable hbeh : file -> bool * (nat -> option nat).
Variable beh : file -> file -> sysbeh.
Variable junk : file -> N.
Variable qsort : (chk -> chk -> Z) -> list chk -> list chk.
Variable iter : table -> table.
Variable resolve : path -> option path.
Variable fuel : nat.
Variable c : wconf R.
Variable f : fs.
Variable json : bool.
Variable args : list path.
Notation bytes_of := (fun x : file => content (f_path x)).
Notation chosen := (chosen rcompile rexec resolve c f args).

(** the run: the walk over the arguments, then the report on what was found *)
Definition reports (gs : list (list file)) (st : status) : Prop :=
  exists l, args_walk rcompile rexec resolve fuel c f args = WOk l /\
    groups bytes_of xxh huge excess hbeh beh junk qsort iter json (w_conf c) l = (gs, st).
(** reads of opened files succeed, and the files have the sizes they had for the walk *)
Definition steady : Prop :=
  clean huge beh hbeh /\ (forall q i, s_stat f q = Some i -> (0 <= i_size i)%Z) /\
  forall p s b, chosen p s -> content p = Some b -> Z.of_nat (length b) = s.

Lemma right_sizes_collected l : steady -> args_walk rcompile rexec resolve fuel c f args = WOk l ->
  right_sizes bytes_of (collected (w_conf c) l) /\ (forall x, In x (collected (w_conf c) l) -> (0 <= f_size x)%Z).
Proof.
  intros (_ & SN & RS) W. split.
  - intros x b I E. apply (collected_chosen rcompile rexec resolve fuel c f args l W) in I as (I & _). eapply RS; eauto.
  - intros x I. eapply collected_nonneg; [|exact I]. eapply walk_sizes; eauto.
Qed.
Lemma right_perm (content' : file -> option bytes) A B : Permutation A B -> right_sizes content' A -> right_sizes content' B.
Proof. intros P RS x b I. apply RS. eapply Permutation_in; [symmetry; exact P|exact I]. Qed.

(** A run that ends normally reports exactly the files with the same bytes among those that can be
    opened, whatever cannot be opened and whatever hash values collide.  Empty files count as
    equal without being opened; a JSON run hashes them all the same. *)
Theorem others_exact : forall gs,
  sorts qsort -> visits_all iter -> steady -> reports gs SOk -> forall p q, p <> q ->
  (together gs p q -> exists s, chosen p s /\ chosen q s /\ (s = 0%Z \/ exists b, content p = Some b /\ content q = Some b)) /\
  (forall s, chosen p s -> chosen q s -> (json = false /\ s = 0%Z) \/ (exists b, content p = Some b /\ content q = Some b) -> together gs p q).
Proof.
  intros gs Q IT ST (l & W & E) p q NE. destruct (right_sizes_collected l ST W) as (RS & NN). destruct ST as (CL & SN & _).
  destruct (collected (w_conf c) l) as [|x0 r0] eqn:CE.
  { exfalso. destruct (runs_empty (hash bytes_of xxh huge excess hbeh) junk (compare bytes_of huge excess beh) qsort iter IT (w_conf c) l CE) as (A & B).
    unfold groups in E. rewrite A, B in E. destruct json; discriminate E. }
  rewrite <- CE in RS, NN.
  destruct (groups_fold bytes_of xxh huge excess hbeh beh junk qsort iter IT json (w_conf c) l) as (L & ss & P & Z & S1 & S2);
    [eapply walk_sizes; eauto|rewrite CE; discriminate|]. rewrite E in S1, S2. cbn [fst snd] in S1, S2. specialize (S2 (eq_sym S1)).
  destruct (fold_sizes _ ss) as [gs' st'] eqn:F. cbn [fst snd] in *. subst st' gs'.
  assert (RL : right_sizes bytes_of L) by (eapply right_perm; eauto).
  assert (NL : forall x, In x L -> (0 <= f_size x)%Z) by (intros x I; apply NN; eapply Permutation_in; [symmetry; exact P|exact I]).
  assert (CH : forall x, In x L <-> chosen (f_path x) (f_size x) /\ x = entry c (f_path x) (f_size x)).
  { intros x. rewrite <- (collected_chosen rcompile rexec resolve fuel c f args l W). split; intros I; eapply Permutation_in; try exact I; [symmetry|]; exact P. }
  apply fold_sizes_ok_inv in F as (A & ->). split.
  - intros (grp & x & y & I & Ix & Iy & <- & <-). apply in_flat_map in I as (s & Is & I).
    destruct (report_array _ _ (srt _ _ _ _ _ s)) as [g1 t1] eqn:RA. cbn [fst] in I.
    destruct (size_sound bytes_of xxh huge excess hbeh beh junk qsort Q CL L RL NL json s g1 t1 grp x y RA I Ix Iy) as ((Jx & Zx) & (Jy & Zy) & D).
    exists s. apply CH in Jx as (Cx & _), Jy as (Cy & _). rewrite Zx in Cx. rewrite Zy in Cy. auto.
  - intros s Cp Cq D.
    assert (Ip : of L s (entry c p s)) by (split; [apply CH; auto|reflexivity]).
    assert (Iq : of L s (entry c q s)) by (split; [apply CH; auto|reflexivity]).
    assert (Is : In s ss).
    { apply Z. destruct Ip as (Ip & _), Iq as (Iq & _). unfold cnt.
      assert (A1 : In (entry c p s) (of_size s L)) by (now apply of_size_in). assert (A2 : In (entry c q s) (of_size s L)) by (now apply of_size_in).
      destruct (of_size s L) as [|x [|y r]]; [contradiction| |cbn; lia]. destruct A1 as [A1|[]], A2 as [A2|[]].
      exfalso. apply NE. assert (A3 : entry c p s = entry c q s) by congruence. now injection A3. }
    specialize (A s Is). destruct (report_array _ _ (srt _ _ _ _ _ s)) as [g1 t1] eqn:RA. cbn [snd] in A. subst t1.
    destruct (size_finds bytes_of xxh huge excess hbeh beh junk qsort Q CL L RL NL json s g1 (entry c p s) (entry c q s) RA Ip Iq) as (grp & I & J & K); [|exact D|].
    + intros X. injection X as X. contradiction.
    + exists grp, (entry c p s), (entry c q s). split; [|auto]. apply in_flat_map. exists s. split; [exact Is|]. now rewrite RA.
Qed.

(** No file is in two sets, or twice in one, when the walk meets no path twice. *)
Theorem others_apart : forall l gs st,
  sorts qsort -> visits_all iter -> steady -> args_walk rcompile rexec resolve fuel c f args = WOk l -> NoDup (map fst l) ->
  groups bytes_of xxh huge excess hbeh beh junk qsort iter json (w_conf c) l = (gs, st) ->
  NoDup (map f_path (concat gs)).
Proof.
  intros l gs st Q IT ST W ND E. destruct ST as (CL & SN & _).
  destruct (reported_once (hash bytes_of xxh huge excess hbeh) junk (compare bytes_of huge excess beh) qsort iter (w_conf c) l Q IT) as (A & B);
    [eapply walk_sizes; eauto|exact ND|].
  unfold groups in E. destruct json.
  - destruct (run_json _ _ _ _ _ _ _) as [js st']. cbn [fst] in B. injection E as <- _. exact B.
  - rewrite E in A. exact A.
Qed.

(** It ends normally unless, among three files of one size, two with the same bytes have the hash
    value of the third, which has other bytes or cannot be opened; the hash value of a file that
    cannot be opened is what its cell held before. *)
Theorem others_end_partial : forall l,
  sorts qsort -> visits_all iter -> steady -> args_walk rcompile rexec resolve fuel c f args = WOk l ->
  (exists p s, chosen p s) -> ~ confused bytes_of xxh junk (collected (w_conf c) l) ->
  exists gs, reports gs SOk.
Proof.
  intros l Q IT ST W (p & s & Cp) NC. destruct (right_sizes_collected l ST W) as (RS & NN). destruct ST as (CL & SN & _).
  assert (NE : collected (w_conf c) l <> []).
  { intros E. assert (I : In (entry c p s) (collected (w_conf c) l)) by (apply (collected_chosen rcompile rexec resolve fuel c f args l W); auto). rewrite E in I. exact I. }
  destruct (groups_fold bytes_of xxh huge excess hbeh beh junk qsort iter IT json (w_conf c) l) as (L & ss & P & Z & S1 & _);
    [eapply walk_sizes; eauto|exact NE|].
  assert (RL : right_sizes bytes_of L) by (eapply right_perm; eauto).
  assert (NL : forall x, In x L -> (0 <= f_size x)%Z) by (intros x I; apply NN; eapply Permutation_in; [symmetry; exact P|exact I]).
  exists (fst (groups bytes_of xxh huge excess hbeh beh junk qsort iter json (w_conf c) l)), l. split; [exact W|].
  rewrite (surjective_pairing (groups _ _ _ _ _ _ _ _ _ _ _ l)) at 1. f_equal. rewrite S1. rewrite fold_sizes_ok; [reflexivity|].
  intros z _. apply (size_ends bytes_of xxh huge excess hbeh beh junk qsort Q CL L RL NL).
  intros (a & g & h & rest & b & PP & X). apply NC. exists a, g, h, rest, b. split; [now rewrite P|exact X].
Qed.
End Theorems.

(** ** Without collisions and with other values in the cells of what cannot be opened, nothing is confused *)
Theorem not_confused : forall content xxh junk M,
  (forall f g a b, In f M -> In g M -> content f = Some a -> content g = Some b -> xxh a = xxh b -> a = b) ->
  (forall f g b, In f M -> In g M -> f_size f = f_size g -> content f = Some b -> content g = None -> junk g <> xxh b) ->
  ~ confused content xxh junk M.
Proof.
  intros content xxh junk M A B (f & g & h & rest & b & P & E1 & E2 & Z & Cf & Ch & Cg & HV).
  assert (If : In f M) by (eapply Permutation_in; [symmetry; exact P|now left]).
  assert (Ig : In g M) by (eapply Permutation_in; [symmetry; exact P|right; now left]).
  unfold hash_value in HV. destruct (content g) as [d|] eqn:D.
  - apply Cg. f_equal. exact (A g f d b Ig If D Cf HV).
  - exact (B f g b If Ig E1 Cf D HV).
Qed.

(** ** A case, and a run that does not end normally *)
(** d/a, d/b and d/z of PropMsg; d/b cannot be opened *)
Notation oth_run content junk json := (groups (fun x : file => content (f_path x)) sum256 2 1 ok_hbeh ok_beh junk isort id_iter json (w_conf msg_conf) (msg_list 0x0644)).
Lemma msg_steady shut : steady (fun r => Some r) toy (msg_content shut) 2 ok_hbeh ok_beh Some msg_conf (msg_fs 0x0644) [lit "d"].
Proof.
  split; [exact (proj1 end_hyps)|]. split; [apply msg_sizes|]. intros p s b H E.
  assert (I : In (entry msg_conf p s) (collected (w_conf msg_conf) (msg_list 0x0644))).
  { apply (proj2 (collected_chosen _ _ _ 9 _ _ _ _ (msg_walk 0x0644 (or_intror eq_refl)) _)). split; [exact H|reflexivity]. }
  unfold msg_content in E. destruct (list_eq_dec N.eq_dec p shut); [discriminate|]. injection E as <-.
  vm_compute in I. destruct I as [I|[I|[I|[]]]]; injection I as <- <-; reflexivity.
Qed.
Example others_case : forall json,
  reports (fun r => Some r) toy (msg_content (lit "d/b")) sum256 2 1 ok_hbeh ok_beh ex_junk isort id_iter Some 9 msg_conf (msg_fs 0x0644) json [lit "d"]
    (fst (oth_run (msg_content (lit "d/b")) ex_junk json)) SOk /\
  NoDup (map fst (msg_list 0x0644)) /\
  map (map f_path) (fst (oth_run (msg_content (lit "d/b")) ex_junk json)) = [[lit "d/a"; lit "d/z"]] /\
  ~ confused (fun x : file => msg_content (lit "d/b") (f_path x)) sum256 ex_junk (collected (w_conf msg_conf) (msg_list 0x0644)).
Proof.
  intros json. split; [|split; [|split]].
  - exists (msg_list 0x0644). split; [apply msg_walk; now right|]. destruct json; vm_compute; reflexivity.
  - vm_compute. repeat constructor; cbn; intuition discriminate.
  - destruct json; vm_compute; reflexivity.
  - apply not_confused.
    + intros f g a b _ _. unfold msg_content. destruct (list_eq_dec _ _ _); [discriminate|]. destruct (list_eq_dec _ _ _); [discriminate|]. congruence.
    + intros f g b _ _ _. unfold msg_content. destruct (list_eq_dec _ (f_path f) _); [discriminate|]. intros E. injection E as <-. intros _. vm_compute. discriminate.
Qed.
(** d/z cannot be opened and its cell holds the hash value of d/a and d/b; the sort puts it between them *)
Theorem others_end_refuted : exists content xxh junk qsort iter l,
  sorts qsort /\ visits_all iter /\
  steady (fun r => Some r) toy content 2 ok_hbeh ok_beh Some msg_conf (msg_fs 0x0644) [lit "d"] /\
  args_walk (fun r => Some r) toy Some 9 msg_conf (msg_fs 0x0644) [lit "d"] = WOk l /\
  forall json, snd (groups (fun x : file => content (f_path x)) xxh 2 1 ok_hbeh ok_beh junk qsort iter json (w_conf msg_conf) l) = SUB.
Proof.
  exists (msg_content (lit "d/z")), sum256, (fun _ => sum256 [7; 8]%N), isort, id_iter, (msg_list 0x0644).
  split; [exact isort_sorts|]. split; [exact id_iter_all|]. split; [apply msg_steady|]. split; [apply msg_walk; now right|].
  intros []; vm_compute; reflexivity.
Qed.

Print Assumptions others_exact.
Print Assumptions others_apart.
Print Assumptions others_end_partial.
Print Assumptions not_confused.
Print Assumptions others_end_refuted.
