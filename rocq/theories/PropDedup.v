(** Property C168: deleting all but one file of every reported set leaves every content exactly once. *)
From Coq Require Import String Ascii Sorting.Permutation.
From Verif Require Import Util HeapModel IgnoreModel HumanModel CollectModel ProcessModel ReportSpec ReportProofs ReportGroups PropReport FileModel PropFile PropEnd WalkModel PropWalk PropIgnore PropIgnoreFile PropRun
  ConfigModel PropConfig OutputModel PropOutput ImageModel PropImage FormatModel JsonModel PropJson MainModel PropMain PropWhole PropChange.
Local Open Scope list_scope.
Local Open Scope Z_scope.

(** ** Specification *)
(** [w'] is [w] after the paths in [D] were deleted *)
Definition deleted {R vec} (D : path -> Prop) (w w' : world R vec) : Prop :=
  changed_in D w w' /\ forall b p, D p -> s_stat (o_fs w' b) p = None.
(** of the files compared, only such are deleted as stand in a reported set another file of which is kept *)
Definition keeps_one {R vec} (w : world R vec) (u : setup R) (bs : list path) (gs : list (list path)) (D : path -> Prop) : Prop :=
  forall p, D p -> compared w u bs p -> exists q, grouped gs p q /\ ~ D q.
(** of any two files of one reported set one is deleted *)
Definition keeps_only_one (gs : list (list path)) (D : path -> Prop) : Prop :=
  forall p q, p <> q -> grouped gs p q -> D p \/ D q.

(** ** Proof *)
(** One run, then deletions, then a second run.  What the second reports are the pairs of the
    first that are left.  When every reported set is thinned out to one file, every content that was
    there is there exactly once and the second run reports nothing.  Missing: hash collisions,
    failing reads, -t and -I. *)
Theorem dedup_partial : forall R vec (w : world R vec) fuel os e args u bs o,
  plain_run os -> accepted w os e args u -> resolved w os args bs -> quiet w u bs ->
  (given os "J" -> forall p, compared w u bs p -> unicode p) ->
  ftwin_main w fuel os e args = Exit 0 o ->
  exists gs, shows w (u_cfg u) o gs /\
    forall D w' e' u', deleted D w w' -> (forall p, D p \/ ~ D p) -> accepted w' os e' args u' -> quiet w' u' bs ->
      (keeps_one w u bs gs D -> keeps_only_one gs D ->
         forall p, compared w u bs p -> exists! q, compared w' u' bs q /\ o_content w' q = o_content w p) /\
      forall fuel' o', ftwin_main w' fuel' os e' args = Exit 0 o' ->
        exists gs', shows w' (u_cfg u') o' gs' /\
          (forall p q, p <> q -> (grouped gs' p q <-> grouped gs p q /\ ~ D p /\ ~ D q)) /\
          (keeps_only_one gs D -> forall p q, p <> q -> ~ grouped gs' p q).
Proof.
  intros R vec w fuel os e args u bs o PR A RS Q UJ E.
  destruct (exit_zero_complete_partial R vec w fuel os e args u bs o PR A RS Q UJ E) as (gs & S & _ & G).
  exists gs. split; [exact S|]. intros D w' e' u' (CH & GO) DD A' Q'. pose proof (changed_sym _ _ _ CH) as CH'.
  assert (C1 : forall p, ~ D p -> compared w u bs p -> compared w' u' bs p) by (eapply (change_compared D w w' CH os os); eauto; reflexivity).
  assert (C2 : forall p, ~ D p -> compared w' u' bs p -> compared w u bs p) by (eapply (change_compared D w' w CH' os os); eauto; reflexivity).
  assert (C3 : forall p, compared w' u' bs p -> ~ D p).
  { intros p (a & cs & i & _ & [_ T _ _] & _) Dp. unfold files in T. rewrite (GO _ _ Dp) in T. discriminate. }
  assert (RS' : resolved w' os args bs).
  { destruct RS as (RJ & RN). split; [|exact RN]. intros J. specialize (RJ J). clear - RJ CH. induction RJ as [|a b l l' X F IH]; constructor; auto.
    rewrite <- (ch_true _ _ _ CH). exact X. }
  split.
  - intros K1 K2 p C.
    assert (X : exists q, ~ D q /\ compared w u bs q /\ o_content w q = o_content w p).
    { destruct (DD p) as [Dp|Np]; [|exists p; auto]. destruct (K1 p Dp C) as (q & Gq & Nq). exists q. split; [exact Nq|].
      assert (NE : p <> q) by (intros ->; auto). apply (G p q NE) in Gq. destruct Gq as (_ & Y & Z). auto. }
    destruct X as (q & Nq & Cq & EQ). exists q. split.
    + split; [auto|]. rewrite <- (ch_content _ _ _ CH q Nq). exact EQ.
    + intros r (Cr & ER). pose proof (C3 r Cr) as Nr. destruct (list_eq_dec N.eq_dec q r) as [H|NE]; [exact H|]. exfalso.
      rewrite <- (ch_content _ _ _ CH r Nr) in ER. destruct (K2 q r NE); [|tauto|tauto]. apply (G q r NE). split; [exact Cq|]. split; [auto|congruence].
  - intros fuel' o' E'.
    assert (UJ' : given os "J" -> forall p, compared w' u' bs p -> unicode p) by (intros J p C; apply UJ; auto).
    destruct (exit_zero_complete_partial R vec w' fuel' os e' args u' bs o' PR A' RS' Q' UJ' E') as (gs' & S' & _ & G').
    exists gs'. split; [exact S'|].
    assert (X : forall p q, p <> q -> (grouped gs' p q <-> grouped gs p q /\ ~ D p /\ ~ D q)).
    { intros p q NE. rewrite (G p q NE), (G' p q NE). split.
      - intros (X & Y & Z). pose proof (C3 p X) as Np. pose proof (C3 q Y) as Nq. rewrite <- (ch_content _ _ _ CH p Np), <- (ch_content _ _ _ CH q Nq) in Z. auto.
      - intros ((X & Y & Z) & Np & Nq). rewrite <- (ch_content _ _ _ CH p Np), <- (ch_content _ _ _ CH q Nq). auto. }
    split; [exact X|]. intros K2 p q NE H. apply (X p q NE) in H. destruct H as (H & Np & Nq). destruct (K2 p q NE H); tauto.
Qed.
Print Assumptions dedup_partial.

(** A file that cannot be read is left out and the status is 0: nothing is reported, so nothing is
    deleted, and yet a content is there twice. *)
Theorem dedup_refuted : exists (w : world str unit) u o p,
  sorts (o_qsort w) /\ visits_all (o_iter w) /\ sizes_true (o_content w) (files w u) /\
  accepted w [] GEof [lit "/d"] u /\ ftwin_main w 9 [] GEof [lit "/d"] = Exit 0 o /\ shows w (u_cfg u) o [] /\
  keeps_one w u [lit "/d"] [] (fun _ => False) /\ keeps_only_one [] (fun _ => False) /\
  compared w u [lit "/d"] p /\ ~ exists! q, compared w u [lit "/d"] q /\ o_content w q = o_content w p.
Proof.
  destruct exit_zero_complete_refuted as (w & u & p & q & S & I & Z & A & Cp & Cq & NE & EC & E). exists w, u, (OText []), p.
  split; [exact S|]. split; [exact I|]. split; [exact Z|]. split; [exact A|]. split; [exact E|]. split; [exact (shows_text w (u_cfg u) [])|].
  split; [intros x []|]. split; [intros x y _ (grp & [] & _)|]. split; [exact Cp|].
  intros (r & (_ & _) & U). apply NE. rewrite <- (U p (conj Cp eq_refl)). symmetry. rewrite (U q (conj Cq (eq_sym EC))) at 1. reflexivity.
Qed.
Print Assumptions dedup_refuted.

(** ** A case: two pairs, of each of which one file is deleted *)
Definition thinned_tree : list (path * node) :=
  [ (lit "/d", NDir [(lit "b", TReg); (lit "x", TReg)]); (lit "/d/x", NFile 5); (lit "/d/b", NFile 3) ].
Definition thinned (p : path) : Prop := under (lit "/d/a") p \/ under (lit "/d/y") p.
Lemma thinned_quiet : forall u bs, quiet (moment thinned_tree before_content) u bs.
Proof.
  intros u bs. constructor.
  - exact isort_sorts.
  - exact id_iter_all.
  - apply end_hyps.
  - intros p i S. unfold files, moment, list_fs in S. cbn [o_fs s_stat] in S. destruct (look thinned_tree p) as [n|] eqn:L; [|discriminate].
    apply look_in in L. cbn [thinned_tree In] in L.
    destruct L as [L|[L|[L|[]]]]; injection L as <- <-; injection S as <-; try (right; reflexivity); left; vm_compute; reflexivity.
  - apply doc_hyps.
  - intros p q _ _. cbn [o_xxh o_content moment]. unfold before_content.
    destruct (in_dec (list_eq_dec N.eq_dec) p _), (in_dec (list_eq_dec N.eq_dec) q _); intros E; try reflexivity; vm_compute in E; discriminate.
Qed.
Definition two_sets : list (list path) := [[lit "/d/x"; lit "/d/y"]; [lit "/d/a"; lit "/d/b"]].
Example dedup_case : exists u u' o, plain_run [] /\ accepted (moment before_tree before_content) [] GEof [lit "/d"] u /\
  resolved (moment before_tree before_content) [] [lit "/d"] [lit "/d"] /\ quiet (moment before_tree before_content) u [lit "/d"] /\
  ftwin_main (moment before_tree before_content) 9 [] GEof [lit "/d"] = Exit 0 o /\ shows (moment before_tree before_content) (u_cfg u) o two_sets /\
  deleted thinned (moment before_tree before_content) (moment thinned_tree before_content) /\
  accepted (moment thinned_tree before_content) [] GEof [lit "/d"] u' /\ quiet (moment thinned_tree before_content) u' [lit "/d"] /\
  keeps_one (moment before_tree before_content) u [lit "/d"] two_sets thinned /\ keeps_only_one two_sets thinned /\
  ftwin_main (moment thinned_tree before_content) 9 [] GEof [lit "/d"] = Exit 0 (OText []).
Proof.
  destruct (moment_accepted before_tree before_content) as (u & A). destruct (moment_accepted thinned_tree before_content) as (u' & A').
  exists u, u', (OText (lit "/d/x" ++ [10%N] ++ lit "/d/y" ++ [10; 10]%N ++ lit "/d/a" ++ [10%N] ++ lit "/d/b" ++ [10; 10]%N)).
  assert (TA : thinned (lit "/d/a")) by (left; exists []; reflexivity). assert (TY : thinned (lit "/d/y")) by (right; exists []; reflexivity).
  split; [unfold plain_run, given; repeat split; intros (a & [])|]. split; [exact A|].
  split; [split; [intros (a & [])|reflexivity]|]. split; [apply moment_quiet|]. split; [vm_compute; reflexivity|]. split.
  { assert (C : u_cfg u = cfg_create 4) by (destruct (accepted_cfg _ _ _ _ _ A) as (P & _); cbn in P; congruence).
    pose proof (shows_text (moment before_tree before_content) (u_cfg u) [[mkFile (lit "/d/x") 5 false; mkFile (lit "/d/y") 5 false]; [mkFile (lit "/d/a") 3 false; mkFile (lit "/d/b") 3 false]]) as S.
    rewrite C in S |- *. exact S. }
  split.
  { assert (L : forall p, p <> lit "/d" -> ~ thinned p -> look before_tree p = look thinned_tree p).
    { intros p N1 N2. unfold before_tree, thinned_tree. cbn [look].
      destruct (list_eq_dec N.eq_dec (lit "/d") p); [congruence|]. destruct (list_eq_dec N.eq_dec (lit "/d/x") p); [reflexivity|].
      destruct (list_eq_dec N.eq_dec (lit "/d/y") p); [subst; tauto|]. destruct (list_eq_dec N.eq_dec (lit "/d/a") p); [subst; tauto|reflexivity]. }
    split.
    - constructor; try reflexivity.
      + intros d n [X|X]; [left|right]; now apply under_join.
      + intros f p N. destruct (list_eq_dec N.eq_dec (lit "/d") p) as [<-|NE]; [reflexivity|].
        unfold moment, list_fs. cbn [o_fs s_stat]. rewrite (L p) by (auto; congruence). reflexivity.
      + intros f p N. unfold moment, list_fs. cbn [o_fs s_dir]. destruct (list_eq_dec N.eq_dec (lit "/d") p) as [<-|NE].
        * assert (X : look before_tree (lit "/d") = Some (NDir [(lit "a", TReg); (lit "b", TReg); (lit "x", TReg); (lit "y", TReg)])) by reflexivity.
          assert (Y : look thinned_tree (lit "/d") = Some (NDir [(lit "b", TReg); (lit "x", TReg)])) by reflexivity.
          rewrite X, Y. intros n ty NT. cbn [In]. split; intros H; repeat (destruct H as [H|H]; [|]); try tauto; exfalso; apply NT; injection H as <- _; assumption.
        * rewrite (L p) by (auto; congruence). destruct (look thinned_tree p) as [[l| |]|]; try exact I. reflexivity.
    - intros b p Dp. unfold moment, list_fs. cbn [o_fs s_stat]. destruct (look thinned_tree p) as [n|] eqn:K; [|reflexivity]. exfalso.
      apply look_in in K. cbn [thinned_tree In] in K. destruct K as [K|[K|[K|[]]]]; injection K as <- _; destruct Dp as [X|X]; revert X; apply not_under; vm_compute; discriminate. }
  split; [exact A'|]. split; [apply thinned_quiet|]. split; [|split].
  - intros p Dp C. assert (P : p = lit "/d/a" \/ p = lit "/d/y").
    { destruct C as (a & cs & i & _ & [_ T _ _] & _). unfold files, moment, list_fs in T. cbn [o_fs s_stat] in T. destruct (look before_tree p) as [n|] eqn:K; [|discriminate].
      apply look_in in K. cbn [before_tree In] in K.
      destruct K as [K|[K|[K|[K|[K|[]]]]]]; injection K as <- _; auto; exfalso; destruct Dp as [X|X]; revert X; apply not_under; vm_compute; discriminate. }
    destruct P as [->| ->].
    + exists (lit "/d/b"). split; [|intros [X|X]; revert X; apply not_under; vm_compute; discriminate].
      exists [lit "/d/a"; lit "/d/b"]. split; [right; now left|]. split; [now left|right; now left].
    + exists (lit "/d/x"). split; [|intros [X|X]; revert X; apply not_under; vm_compute; discriminate].
      exists [lit "/d/x"; lit "/d/y"]. split; [now left|]. split; [right; now left|now left].
  - intros p q NE (grp & [<-|[<-|[]]] & [<-|[<-|[]]] & [<-|[<-|[]]]); try congruence; auto.
  - vm_compute. reflexivity.
Qed.
