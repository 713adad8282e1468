(** Properties of ignore files as a whole (C72, C73). *)
From Coq Require Import String Ascii.
From Verif Require Import Util IgnoreModel PcreSpec IgnoreSpec IgnoreProofs PropIgnore.
Local Open Scope list_scope.
Local Open Scope N_scope.

(** * Specification *)

(** the lines of a text: what lies between newlines; nothing behind the last newline is no
    line *)
Inductive has_lines : str -> list str -> Prop :=
| lines_nil : has_lines [] []
| lines_last l : l <> [] -> ~ In 10 l -> has_lines l [l]
| lines_cons l s ls : ~ In 10 l -> has_lines s ls -> has_lines (l ++ 10 :: s) (l :: ls).

(** [k] is the line [l] without one carriage return at its end *)
Definition without_cr (l k : str) : Prop := l = k ++ [13] \/ l = k /\ last l 0 <> 13.
(** [k] is [l] without the white space at its beginning *)
Definition trimmed (l k : str) : Prop :=
  exists w, l = w ++ k /\ Forall (fun c => isspace c = true) w /\ (forall c t, k = c :: t -> isspace c = false).

Section Lines.
Variable R : Type.
Variable compile : str -> option R.
(** the pattern a line stands for: none if it is blank, a comment or not an expression *)
Inductive line_gives (l : str) : list (pat R) -> Prop :=
| gives_blank k : without_cr l k -> trimmed k [] -> line_gives l []
| gives_comment k t : without_cr l k -> trimmed k (chr "#" :: t) -> line_gives l []
| gives_bad k p f re : without_cr l k -> trimmed k p -> p <> [] -> hd 0 p <> chr "#" ->
    glob_to_pcre p = GOk f re -> compile re = None -> line_gives l []
| gives_pat k p f re r : without_cr l k -> trimmed k p -> p <> [] -> hd 0 p <> chr "#" ->
    glob_to_pcre p = GOk f re -> compile re = Some r -> line_gives l [mkPat r f].
End Lines.
Arguments line_gives {R}.

(** * Proofs *)

Lemma get_line_nl : forall l n s, ~ In 10 l -> (length l < n)%nat -> get_line n (l ++ 10 :: s) = (l ++ [10], s).
Proof.
  induction l as [|c l IH]; intros n s NI L; (destruct n as [|n]; [cbn [length] in L; lia|]); cbn [app get_line].
  - reflexivity.
  - destruct (N.eqb_spec c 10) as [->|]; [exfalso; apply NI; now left|].
    rewrite IH; [reflexivity|intros I; apply NI; now right|cbn [length] in L; lia].
Qed.
Lemma get_line_end : forall l n, ~ In 10 l -> (length l <= n)%nat -> get_line n l = (l, []).
Proof.
  induction l as [|c l IH]; intros n NI L; (destruct n as [|n]; [cbn [length] in L; auto; lia|]); cbn [get_line]; auto.
  destruct (N.eqb_spec c 10) as [->|]; [exfalso; apply NI; now left|].
  rewrite IH; [reflexivity|intros I; apply NI; now right|cbn [length] in L; lia].
Qed.
Lemma until_nul_id : forall s, ~ In 0 s -> until_nul s = s.
Proof.
  induction s as [|c s IH]; intros NI; cbn [until_nul]; auto.
  destruct (N.eqb_spec c 0) as [->|]; [exfalso; apply NI; now left|]. f_equal. apply IH. intros I. apply NI. now right.
Qed.
Lemma chop_snoc c l : chop c (l ++ [c]) = l.
Proof. unfold chop. rewrite rev_app_distr. cbn [rev app]. rewrite N.eqb_refl. apply rev_involutive. Qed.
Lemma chop_other c l : last l (c + 1) <> c -> chop c l = l.
Proof.
  intros H. destruct l as [|x l] using rev_ind; [reflexivity|]. clear IHl. rewrite last_last in H. unfold chop. rewrite rev_app_distr. cbn [rev app].
  apply N.eqb_neq in H. now rewrite H.
Qed.
Lemma chop_notin c l : ~ In c l -> chop c l = l.
Proof.
  intros NI. apply chop_other. destruct l as [|x l] using rev_ind; [cbn; lia|]. clear IHl. rewrite last_last. intros ->.
  apply NI. apply in_app_iff. right. now left.
Qed.
Lemma chop_cr l k : without_cr l k -> chop 13 l = k.
Proof.
  intros [-> |(-> & H)]; [apply chop_snoc|]. apply chop_other. destruct k as [|x k] using rev_ind; [cbn; lia|].
  clear IHk. now rewrite last_last in *.
Qed.
Lemma without_cr_chop l : without_cr l (chop 13 l).
Proof.
  unfold without_cr. destruct l as [|x l] using rev_ind; [right; split; [reflexivity|discriminate]|]. clear IHl.
  destruct (N.eq_dec x 13) as [-> |NE]; [left; now rewrite chop_snoc|]. right. rewrite last_last. split; [|exact NE].
  symmetry. apply chop_other. now rewrite last_last.
Qed.
Lemma trimmed_skip : forall l, trimmed l (skip_spaces l).
Proof.
  induction l as [|c l IH]; cbn [skip_spaces].
  - exists []. split; [reflexivity|]. split; [constructor|discriminate].
  - destruct (isspace c) eqn:E.
    + destruct IH as (w & Q & F & H). exists (c :: w). split; [cbn [app]; now rewrite <- Q|]. split; [now constructor|exact H].
    + exists []. split; [reflexivity|]. split; [constructor|]. intros x t X. now injection X as <- <-.
Qed.
Lemma skip_trimmed l k : trimmed l k -> skip_spaces l = k.
Proof.
  intros (w & -> & F & H). induction F as [|c w E F IH]; cbn [app skip_spaces].
  - destruct k as [|c k]; auto. cbn [skip_spaces]. now rewrite (H c k eq_refl).
  - now rewrite E.
Qed.

Section Proofs.
Context {R : Type} (compile : str -> option R).

Lemma add_line c l ps : line_gives compile l ps ->
  add_pattern R compile c (chop 13 l) = Some (mkCtx (c_base c) (c_pats c ++ ps)).
Proof.
  assert (E0 : Some c = Some (mkCtx (c_base c) (c_pats c ++ []))) by (destruct c; cbn; now rewrite app_nil_r).
  unfold add_pattern. intros [k W T|k t W T|k p f re W T NE H G C|k p f re r W T NE H G C];
    rewrite (chop_cr l k W), (skip_trimmed k _ T).
  - exact E0.
  - now rewrite N.eqb_refl.
  - destruct p as [|h t]; [congruence|]. cbn [hd] in H. apply N.eqb_neq in H. now rewrite H, G, C.
  - destruct p as [|h t]; [congruence|]. cbn [hd] in H. apply N.eqb_neq in H. now rewrite H, G, C.
Qed.
(** every line that does not overrun the buffer stands for something *)
Lemma line_total c c' l : add_pattern R compile c (chop 13 l) = Some c' -> exists ps, line_gives compile l ps.
Proof.
  unfold add_pattern. pose proof (trimmed_skip (chop 13 l)) as T. pose proof (without_cr_chop l) as W.
  destruct (skip_spaces (chop 13 l)) as [|h t] eqn:S; [intros _; exists []; now apply (gives_blank R compile l _ W)|].
  destruct (N.eqb_spec h (chr "#")) as [-> |NE]; [intros _; exists []; now apply (gives_comment R compile l _ t W)|].
  destruct (glob_to_pcre (h :: t)) as [f re| |] eqn:G; try discriminate.
  destruct (compile re) as [r|] eqn:C; intros _.
  - exists [mkPat r f]. eapply gives_pat; eauto; discriminate.
  - exists []. eapply gives_bad; eauto; discriminate.
Qed.

Lemma load_cons fu n c l s ls_ps : ~ In 0 l -> ~ In 10 l -> (length l < n)%nat -> line_gives compile l ls_ps ->
  load_lines R compile (S fu) n c (l ++ 10 :: s) = load_lines R compile fu n (mkCtx (c_base c) (c_pats c ++ ls_ps)) s.
Proof.
  intros Z NL L G. cbn [load_lines]. rewrite get_line_nl by auto. rewrite until_nul_id.
  2: { rewrite in_app_iff. intros [I|[I|[]]]; [auto|discriminate]. }
  rewrite chop_snoc, (add_line c l ls_ps G). now destruct l.
Qed.

Lemma load_spec n : forall s ls, has_lines s ls -> ~ In 0 s -> Forall (fun l => (length l < n)%nat) ls ->
  forall fu c pss, (length s <= fu)%nat -> Forall2 (line_gives compile) ls pss ->
  load_lines R compile fu n c s = Some (mkCtx (c_base c) (c_pats c ++ concat pss)).
Proof.
  induction 1 as [|l NE NL|l s ls NL H IH]; intros Z SH fu c pss F G.
  - inversion G; subst. destruct c. cbn. rewrite app_nil_r. now destruct fu.
  - inversion G as [|a ps b bs Gl G']; subst. inversion G'; subst. apply Forall_inv in SH.
    destruct fu as [|fu]; [destruct l; [congruence|cbn [length] in F; lia]|].
    destruct l as [|x l]; [congruence|]. cbn [load_lines]. rewrite get_line_end by (auto; lia).
    rewrite until_nul_id, (chop_notin 10), (add_line c _ ps Gl) by auto. cbn [concat]. rewrite app_nil_r.
    now destruct fu.
  - inversion G as [|a ps b bs Gl G']; subst. pose proof (Forall_inv SH) as SL. apply Forall_inv_tail in SH.
    rewrite app_length in F. cbn [length] in F. destruct fu as [|fu]; [lia|].
    rewrite (load_cons fu n c l s ps) by (auto; intros I; apply Z, in_app_iff; auto).
    rewrite (IH) with (pss := bs); [| |exact SH|lia|exact G'].
    + cbn [c_base c_pats concat]. now rewrite app_assoc.
    + intros I. apply Z, in_app_iff. right. now right.
Qed.
Lemma load_inv n : forall s ls, has_lines s ls -> ~ In 0 s -> Forall (fun l => (length l < n)%nat) ls ->
  forall fu c c', (length s <= fu)%nat -> load_lines R compile fu n c s = Some c' ->
  exists pss, Forall2 (line_gives compile) ls pss.
Proof.
  induction 1 as [|l NE NL|l s ls NL H IH]; intros Z SH fu c c' F L.
  - exists []. constructor.
  - apply Forall_inv in SH.
    destruct fu as [|fu]; [destruct l; [congruence|cbn [length] in F; lia]|].
    destruct l as [|x l]; [congruence|]. cbn [load_lines] in L. rewrite get_line_end in L by (auto; lia).
    rewrite until_nul_id, (chop_notin 10) in L by auto.
    destruct (add_pattern _ _ _ _) as [c1|] eqn:A; [|discriminate].
    destruct (line_total _ _ _ A) as (ps & G). exists [ps]. repeat constructor. exact G.
  - pose proof (Forall_inv SH) as SL. apply Forall_inv_tail in SH.
    rewrite app_length in F. cbn [length] in F. destruct fu as [|fu]; [lia|].
    cbn [load_lines] in L. rewrite get_line_nl in L by auto. rewrite until_nul_id in L.
    2: { rewrite in_app_iff. intros [I|[I|[]]]; [apply Z, in_app_iff; auto|discriminate]. }
    rewrite chop_snoc in L. destruct (add_pattern R compile c (chop 13 l)) as [c1|] eqn:A.
    2: { now destruct l. }
    destruct (line_total _ _ _ A) as (ps & G). destruct (IH) with (fu := fu) (c := c1) (c' := c') as (pss & Q); auto; try lia.
    + intros I. apply Z, in_app_iff. right. now right.
    + now destruct l.
    + exists (ps :: pss). now constructor.
Qed.
End Proofs.

(** ** C72: each line of an ignore file is one pattern.  Missing: files with NUL bytes or with
    lines of 4095 bytes or more, see below. *)
Theorem gitignore_lines_partial : forall R (compile : str -> option R) base s ls c,
  has_lines s ls -> ~ In 0 s -> Forall (fun l => (length l < 4095)%nat) ls ->
  (load_file R compile 4095 (mkCtx base []) s = Some c
   <-> c_base c = base /\ exists pss, Forall2 (line_gives compile) ls pss /\ c_pats c = concat pss).
Proof.
  intros R compile base s ls c H Z SH. unfold load_file. split.
  - intros L. destruct (load_inv compile _ _ _ H Z SH _ _ _ (Nat.le_refl _) L) as (pss & G).
    rewrite (load_spec compile _ _ _ H Z SH _ _ pss (Nat.le_refl _) G) in L. injection L as <-. cbn [c_base c_pats app]. eauto.
  - intros (<- & pss & G & E). rewrite (load_spec compile _ _ _ H Z SH _ _ pss (Nat.le_refl _) G). cbn [c_base c_pats app].
    rewrite <- E. now destruct c.
Qed.

Lemma first_nl s : In 10 s -> exists a b, s = a ++ 10 :: b /\ ~ In 10 a.
Proof.
  induction s as [|c s IH]; intros I; [destruct I|]. destruct (N.eq_dec c 10) as [-> |NE].
  - exists [], s. split; [reflexivity|intros []].
  - destruct I as [I|I]; [congruence|]. destruct (IH I) as (a & b & -> & NI). exists (c :: a), b. split; [reflexivity|].
    intros [X|X]; auto.
Qed.
(** every text is made of lines, in one way only *)
Theorem lines_exist : forall s, exists ls, has_lines s ls.
Proof.
  intros s. enough (H : forall n s, (length s <= n)%nat -> exists ls, has_lines s ls) by eauto.
  clear s. induction n as [|n IH]; intros s L.
  - destruct s; [exists []; constructor|cbn [length] in L; lia].
  - destruct (in_dec N.eq_dec 10 s) as [I|NI].
    + apply first_nl in I. destruct I as (a & b & -> & NI).
      rewrite app_length in L. cbn [length] in L. destruct (IH b) as (ls & H); [lia|]. exists (a :: ls). now constructor.
    + destruct s as [|x s]; [exists []; constructor|]. exists [x :: s]. constructor; [discriminate|exact NI].
Qed.
Lemma nl_unique : forall l1 l2 s1 s2, ~ In 10 l1 -> ~ In 10 l2 -> l1 ++ 10 :: s1 = l2 ++ 10 :: s2 -> l1 = l2 /\ s1 = s2.
Proof.
  induction l1 as [|x l1 IH]; intros [|y l2] s1 s2 N1 N2 E; cbn [app] in E; injection E; intros; subst.
  - auto.
  - exfalso. apply N2. now left.
  - exfalso. apply N1. now left.
  - destruct (IH l2 s1 s2) as (-> & ->); auto; intros I; [apply N1|apply N2]; now right.
Qed.
Theorem lines_unique : forall s l1 l2, has_lines s l1 -> has_lines s l2 -> l1 = l2.
Proof.
  intros s l1 l2 H. revert l2. induction H as [|l NE NL|l s ls NL H IH]; intros l2 H2.
  - inversion H2 as [|l' NE' NL' E|l' s' ls' NL' H' E]; auto; [congruence|]. destruct l'; discriminate.
  - inversion H2 as [E|l' NE' NL' E|l' s' ls' NL' H' E]; subst; auto; [congruence|].
    exfalso. apply NL, in_app_iff. right. now left.
  - inversion H2 as [E|l' NE' NL' E|l' s' ls' NL' H' E]; subst.
    + destruct l; discriminate.
    + exfalso. apply NL', in_app_iff. right. now left.
    + apply nl_unique in E; auto. destruct E as (-> & ->). f_equal. now apply IH.
Qed.

(** the rest of a comment that does not fit the buffer becomes a pattern; what follows a NUL
    byte is lost *)
Theorem gitignore_lines_refuted :
  (exists s l c, has_lines s [l] /\ hd 0 l = chr "#" /\ line_gives pcre_read l [] /\
     load_file re pcre_read 4095 (mkCtx [] []) s = Some c /\ length (c_pats c) = 1%nat)
  /\ (exists s l ps c, has_lines s [l] /\ line_gives pcre_read l ps /\ load_file re pcre_read 4095 (mkCtx [] []) s = Some c /\
       length ps = 1%nat /\ length (c_pats c) = 0%nat).
Proof.
  split.
  - set (l := chr "#" :: repeat (chr "x") 4094 ++ lit "*.c"). assert (NL : ~ In 10 l).
    { unfold l. intros [X|X]; [discriminate|]. apply in_app_iff in X. destruct X as [X|X].
      - apply repeat_spec in X. discriminate.
      - cbn in X. intuition discriminate. }
    exists l, l. eexists. split; [constructor; [discriminate|exact NL]|]. split; [reflexivity|].
    split; [eapply (gives_comment _ _ _ l)|].
    + right. split; [reflexivity|]. unfold l. rewrite app_comm_cons. change (lit "*.c") with (lit "*." ++ [chr "c"]).
      rewrite app_assoc, last_last. discriminate.
    + exists []. split; [reflexivity|]. split; [constructor|]. intros c t X. injection X as <- _. reflexivity.
    + split; [vm_compute; reflexivity|reflexivity].
  - exists (0 :: lit "a"), (0 :: lit "a"). eexists. eexists. split; [constructor; [discriminate|cbn; intuition discriminate]|].
    split; [eapply (gives_pat _ _ _ (0 :: lit "a") (0 :: lit "a"))|].
    + right. split; [reflexivity|discriminate].
    + exists []. split; [reflexivity|]. split; [constructor|]. intros c t X. injection X as <- _. reflexivity.
    + discriminate.
    + discriminate.
    + vm_compute. reflexivity.
    + vm_compute. reflexivity.
    + split; [vm_compute; reflexivity|]. split; reflexivity.
Qed.

(** ** C73: the whole ignore file *)

(** a line that says nothing, or a pattern *)
Inductive source := Nothing | Pattern (neg anchored dir : bool) (ts : list tok).
Definition white (w : str) : Prop := Forall (fun c => isspace c = true) w.
(** how it is written: white space before, a carriage return behind *)
Inductive written : str -> source -> Prop :=
| written_blank w : white w -> written w Nothing
| written_comment w t : white w -> written (w ++ chr "#" :: t) Nothing
| written_pattern w cr neg anch dir ts : white w -> cr = [] \/ cr = [13] ->
    toks_ok ts -> start_ok neg anch ts -> end_ok dir ts -> (length (line neg anch dir ts) <= 817)%nat ->
    written (w ++ line neg anch dir ts ++ cr) (Pattern neg anch dir ts).
Definition hit_by (s : source) (rel : str) (is_dir : bool) : Prop :=
  match s with
  | Nothing => False
  | Pattern _ anch dir ts => (dir = true -> is_dir = true) /\ hits anch dir ts rel
  end.
(** the last line that hits says: keep ([neg]) or ignore *)
Definition last_hit (srcs : list source) (rel : str) (is_dir neg : bool) : Prop :=
  exists a b anch dir ts, srcs = a ++ Pattern neg anch dir ts :: b /\ hit_by (Pattern neg anch dir ts) rel is_dir /\
    Forall (fun s => ~ hit_by s rel is_dir) b.

(** a pattern and its line *)
Definition same (s : source) (ps : list (pat re)) : Prop :=
  match s with
  | Nothing => ps = []
  | Pattern neg anch dir ts => exists r, ps = [mkPat r (mkGf neg dir)] /\ forall path, ~ In 10 path -> (found r path <-> hits anch dir ts path)
  end.

Lemma line_first neg anch dir ts : start_ok neg anch ts -> exists c t, line neg anch dir ts = c :: t /\ isspace c = false /\ c <> chr "#".
Proof.
  intros (c & t & E & H). unfold line. rewrite E.
  destruct neg; [exists (chr "!"); eexists; split; [reflexivity|]; split; [reflexivity|discriminate]|].
  destruct anch; [exists (chr "/"); eexists; split; [reflexivity|]; split; [reflexivity|discriminate]|].
  exists c. eexists. split; [reflexivity|]. destruct (H eq_refl) as (A & _ & B). split; [exact A|now apply B].
Qed.
Lemma line_last neg anch dir ts : end_ok dir ts -> exists t c, line neg anch dir ts = t ++ [c] /\ isspace c = false.
Proof.
  unfold line. intros E. destruct dir; cbn [end_ok] in E.
  - exists ((if neg then lit "!" else []) ++ (if anch then lit "/" else []) ++ src ts), (chr "/"). now rewrite <- !app_assoc.
  - destruct E as (t & c & E & A & _). rewrite E. exists ((if neg then lit "!" else []) ++ (if anch then lit "/" else []) ++ t), c.
    now rewrite app_nil_r, <- !app_assoc.
Qed.
Lemma white_app a b : white (a ++ b) <-> white a /\ white b.
Proof. apply Forall_app. Qed.

Lemma written_gives l s : written l s -> exists ps, line_gives pcre_read l ps /\ same s ps.
Proof.
  intros [w W|w t W|w cr neg anch dir ts W CR OK ST EN LEN].
  - exists []. split; [|reflexivity]. pose proof (without_cr_chop w) as C. apply (gives_blank _ _ _ _ C).
    exists (chop 13 w). rewrite app_nil_r. split; [reflexivity|]. split; [|discriminate].
    destruct C as [E|(E & _)]; [rewrite E in W; now apply white_app in W|now rewrite <- E].
  - exists []. split; [|reflexivity]. pose proof (without_cr_chop (w ++ chr "#" :: t)) as C.
    assert (X : exists t', chop 13 (w ++ chr "#" :: t) = w ++ chr "#" :: t').
    { destruct C as [E|(E & _)]; [|rewrite <- E; eauto]. destruct t as [|x t] using rev_ind.
      - change (w ++ [chr "#"]) with (w ++ [chr "#"] ++ []) in E. rewrite app_nil_r in E. apply app_inj_tail in E. destruct E. discriminate.
      - exists t. change (w ++ chr "#" :: t ++ [x]) with (w ++ (chr "#" :: t) ++ [x]) in E |- *. rewrite app_assoc in E |- *.
        apply app_inj_tail in E. destruct E as (<- & ->). reflexivity. }
    destruct X as (t' & X). apply (gives_comment _ _ _ _ t' C). rewrite X. exists w. split; [reflexivity|]. split; [exact W|].
    intros c u Y. injection Y as <- _. reflexivity.
  - destruct (glob_buffer_partial _ LEN) as (f0 & text0 & G0 & _).
    destruct (glob_translation_partial neg anch dir ts OK ST EN) as (text & r & G & P & H); [rewrite G0; discriminate|].
    exists [mkPat r (mkGf neg dir)]. split; [|exists r; auto].
    destruct (line_first neg anch dir ts ST) as (c & t & E1 & E2 & E3).
    destruct (line_last neg anch dir ts EN) as (t' & c' & F1 & F2).
    apply (gives_pat _ _ _ (w ++ line neg anch dir ts) (line neg anch dir ts) (mkGf neg dir) text r); auto.
    + destruct CR as [-> | ->]; [right|left; now rewrite app_assoc]. rewrite app_nil_r. split; [reflexivity|].
      rewrite F1, app_assoc, last_last. intros ->. discriminate.
    + exists w. split; [reflexivity|]. split; [exact W|]. intros x y X. rewrite E1 in X. now injection X as <- _.
    + rewrite E1. discriminate.
    + rewrite E1. exact E3.
Qed.

Section Whole.
Variable exec : re -> str -> bool.
Variables (rel : str) (is_dir : bool).
Hypothesis NL : ~ In 10 rel.

Lemma same_applies s p : same s [p] -> (exec (p_re p) rel = true <-> found (p_re p) rel) -> (applies re exec p rel is_dir <-> hit_by s rel is_dir).
Proof.
  destruct s as [|neg anch dir ts]; [discriminate|]. intros (r & E & H) X. injection E as ->. unfold applies, hit_by. cbn [p_flags g_dir p_re] in *.
  rewrite X, (H rel NL). tauto.
Qed.
Lemma none_hits : forall srcs pss, Forall2 same srcs pss ->
  (forall p, In p (concat pss) -> (exec (p_re p) rel = true <-> found (p_re p) rel)) ->
  (Forall (fun s => ~ hit_by s rel is_dir) srcs <-> Forall (fun p => ~ applies re exec p rel is_dir) (concat pss)).
Proof.
  induction 1 as [|s ps srcs pss S F IH]; intros X; cbn [concat]; [split; constructor|].
  rewrite Forall_cons_iff, Forall_app, IH by (intros p I; apply X, in_app_iff; auto).
  apply and_iff_compat_r. destruct s as [|neg anch dir ts].
  - cbn [same] in S. subst ps. split; [constructor|]. intros _ [].
  - pose proof S as (r & -> & _). rewrite Forall_cons_iff. rewrite (same_applies _ _ S) by (apply X, in_app_iff; left; now left).
    split; [intros N; split; [exact N|constructor]|tauto].
Qed.
Lemma last_hits : forall srcs pss, Forall2 same srcs pss ->
  (forall p, In p (concat pss) -> (exec (p_re p) rel = true <-> found (p_re p) rel)) -> forall neg,
  (last_hit srcs rel is_dir neg <-> exists p, last_applying re exec (concat pss) rel is_dir p /\ g_neg (p_flags p) = neg).
Proof.
  induction 1 as [|s ps srcs pss S F IH]; intros X neg; cbn [concat].
  - split.
    + intros (a & b & anch & dir & ts & E & _). destruct a; discriminate.
    + intros (p & (a & b & E & _) & _). destruct a; discriminate.
  - assert (Xr : forall p, In p (concat pss) -> (exec (p_re p) rel = true <-> found (p_re p) rel)) by (intros p I; apply X, in_app_iff; auto).
    pose proof (none_hits srcs pss F Xr) as NH. specialize (IH Xr neg). split.
    + intros (a & b & anch & dir & ts & E & H & N). destruct a as [|s' a]; cbn [app] in E; injection E as E0 E.
      * subst s srcs. pose proof S as (r & -> & _). exists (mkPat r (mkGf neg dir)). split; [|reflexivity].
        exists [], (concat pss). split; [reflexivity|]. split; [|now apply NH].
        apply (same_applies _ _ S); [apply X; now left|exact H].
      * destruct (proj1 IH) as (p & (a1 & b1 & E1 & A) & G); [exists a, b, anch, dir, ts; auto|].
        exists p. split; [|exact G]. exists (ps ++ a1), b1. rewrite E1, app_assoc. auto.
    + intros (p & L & G).
      assert (D : last_applying re exec (concat pss) rel is_dir p \/ (Forall (fun p => ~ applies re exec p rel is_dir) (concat pss) /\ In p ps /\ applies re exec p rel is_dir)).
      { destruct L as (a & b & E & A & N). apply app_eq_app in E. destruct E as (m & [(E1 & E2)|(E1 & E2)]).
        - destruct m as [|x m].
          + left. cbn [app] in E2. exists [], b. auto.
          + right. cbn [app] in E2. injection E2 as <- ->. apply Forall_app in N. split; [apply N|]. split; [|exact A].
            rewrite E1. apply in_app_iff. right. now left.
        - left. exists m, b. auto. }
      destruct D as [D|(N & I & A)].
      * destruct (proj2 IH) as (a & b & anch & dir & ts & E & Q); [eauto|]. exists (s :: a), b, anch, dir, ts. rewrite E. auto.
      * destruct s as [|neg' anch dir ts]; [cbn [same] in S; subst; destruct I|]. pose proof S as (r & E & _). rewrite E in I, S, X.
        destruct I as [<- |[]]. cbn [p_flags g_neg] in G. subst neg'.
        exists [], srcs, anch, dir, ts. split; [reflexivity|]. split; [|now apply NH].
        apply (same_applies _ _ S); [apply X; now left|exact A].
Qed.
End Whole.

(** Missing from C73: lines outside the syntax of IgnoreSpec (see the refutations of C48),
    longer lines, NUL bytes, paths with newlines. *)
Theorem gitignore_meaning_partial : forall (exec : re -> str -> bool) base s ls srcs path rel is_dir,
  has_lines s ls -> Forall2 written ls srcs -> ~ In 0 s -> Forall (fun l => (length l < 4095)%nat) ls ->
  relative base path rel -> ~ In 10 rel ->
  exists c, load_file re pcre_read 4095 (mkCtx base []) s = Some c /\
    ((forall p, In p (c_pats c) -> (exec (p_re p) rel = true <-> found (p_re p) rel)) ->
     (ignore_match re exec [c] path is_dir = MIgnored <-> last_hit srcs rel is_dir false) /\
     (ignore_match re exec [c] path is_dir = MWhite <-> last_hit srcs rel is_dir true) /\
     (ignore_match re exec [c] path is_dir = MNone <-> forall x, In x srcs -> ~ hit_by x rel is_dir)).
Proof.
  intros exec base s ls srcs path rel d HL W Z SH RL NL.
  assert (P : exists pss, Forall2 (line_gives pcre_read) ls pss /\ Forall2 same srcs pss).
  { clear -W. induction W as [|l x ls srcs Wl W (pss & A & B)]; [exists []; split; constructor|].
    destruct (written_gives l x Wl) as (ps & G & S). exists (ps :: pss). split; constructor; auto. }
  destruct P as (pss & G & S). exists (mkCtx base (concat pss)). split.
  { apply (gitignore_lines_partial re pcre_read base s ls _ HL Z SH). eauto. }
  cbn [c_pats]. intros X. destruct (last_match_decides re exec base (concat pss) path rel d RL) as (A & B & C).
  rewrite A, B, C. rewrite !(last_hits exec rel d NL srcs pss S X). split; [tauto|]. split; [tauto|].
  rewrite <- !Forall_forall. symmetry. now apply none_hits.
Qed.

(** ** The theorems apply *)
Definition file1 : str := lit "# objects" ++ [13; 10] ++ lit "*.o" ++ [13; 10; 10] ++ lit "  !keep.o" ++ [10] ++ lit "/s/**/b?/".
Definition lines1 : list str := [lit "# objects" ++ [13]; lit "*.o" ++ [13]; []; lit "  !keep.o"; lit "/s/**/b?/"].
Definition sources1 : list source :=
  [Nothing; Pattern false false false ex_star; Nothing; Pattern true false false (map GLit (lit "keep.o")); Pattern false true true ex_deep].
Ltac notin := cbn; intuition discriminate.
Example file1_lines : has_lines file1 lines1.
Proof.
  unfold file1, lines1. apply (lines_cons (lit "# objects" ++ [13]) _ _); [notin|]. apply (lines_cons (lit "*.o" ++ [13]) _ _); [notin|].
  apply (lines_cons [] _ _); [notin|]. apply (lines_cons (lit "  !keep.o") _ _); [notin|]. apply lines_last; [discriminate|notin].
Qed.
Example file1_sources : Forall2 written lines1 sources1.
Proof.
  destruct glob_hyps as ((A1 & A2 & A3) & (B1 & B2 & B3) & _).
  repeat apply Forall2_cons; [| | | | |constructor].
  - apply (written_comment []). constructor.
  - apply (written_pattern [] [13] false false false ex_star); auto; [constructor|cbn; lia].
  - apply written_blank. constructor.
  - apply (written_pattern (lit "  ") [] true false false (map GLit (lit "keep.o"))); auto; [repeat constructor| | | |cbn; lia].
    + repeat split; notin.
    + exists 107, (lit "eep.o"). split; auto. repeat split; discriminate.
    + exists (lit "keep."), 111. repeat split; discriminate.
  - apply (written_pattern [] [] false true true ex_deep); auto; [constructor|cbn; lia].
Qed.
Example file1_small : ~ In 0 file1 /\ Forall (fun l => (length l < 4095)%nat) lines1 /\ relative (lit "/w") (lit "/w/d/x.o") (lit "d/x.o").
Proof. split; [notin|]. split; [repeat (apply Forall_cons; [cbn [length lit app map list_ascii_of_string]; lia|]); constructor|]. exists 1%nat. split; [reflexivity|discriminate]. Qed.
Example file1_hit : last_hit sources1 (lit "d/x.o") false false.
Proof.
  exists [Nothing], [Nothing; Pattern true false false (map GLit (lit "keep.o")); Pattern false true true ex_deep], false, false, ex_star.
  split; [reflexivity|]. split.
  - split; [discriminate|]. exists (lit "x.o"). split; [right; split; [auto|exists (lit "d"); reflexivity]|].
    exists (lit "x"), (lit ".o"). split; auto. split; [notin|]. exists [46], [111]. split; auto. split; [reflexivity|]. exists [111], []. repeat split.
  - repeat constructor; cbn [hit_by]; [tauto| |intros (D & _); discriminate (D eq_refl)].
    intros (_ & t & T & M). apply means_lits in M. subst t. destruct T as [T|(_ & b & T)]; [discriminate T|].
    apply (f_equal (@rev N)) in T. rewrite rev_app_distr in T. cbn in T. discriminate T.
Qed.

Print Assumptions gitignore_lines_partial. Print Assumptions gitignore_lines_refuted.
Print Assumptions lines_exist. Print Assumptions lines_unique. Print Assumptions gitignore_meaning_partial.
