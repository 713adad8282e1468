(** Properties of the image mode (C77, C78). *)
From Coq Require Import String Ascii.
From Verif Require Import Util HeapModel HeapProofs CollectModel ProcessModel ReportSpec ReportProofs PropReport IgnoreModel
  OutputModel PropIgnoreFile PropOutput ImageModel.
From Coq Require Import Sorting.Permutation Sorting.Sorted Relations.
Local Open Scope list_scope.
Local Open Scope Z_scope.

(** * Specification *)

(** both files are images and their vectors are close *)
Definition similar {vec} (decode : file -> option vec) (close : vec -> vec -> bool) (f g : file) : Prop :=
  exists v w, decode f = Some v /\ decode g = Some w /\ close v w = true.

(** the pairs a report names: the first file of a group with each of the others *)
Definition named (gs : list (list file)) : list (file * file) :=
  flat_map (fun g => match g with f :: m => map (pair f) m | [] => [] end) gs.

(** * Proofs *)

Section Image.
Variable vec : Type.
Variable decode : file -> option vec.
Variable close : vec -> vec -> bool.
Variable sep : N.
Variable human : Z -> str.
Let y := style_of sep false false.
Notation similar := (similar decode close).
Notation row := (row vec decode close sep).
Notation image_loop := (image_loop vec decode close sep).
Notation run_image := (run_image vec decode close sep).

Definition simb (f g : file) : bool :=
  match decode f, decode g with Some v, Some w => close v w | _, _ => false end.
Lemma simb_similar f g : simb f g = true <-> similar f g.
Proof.
  unfold simb. split.
  - destruct (decode f) as [v|] eqn:A; [|discriminate]. destruct (decode g) as [w|] eqn:B; [|discriminate]. intros C. exists v, w. auto.
  - intros (v & w & -> & -> & C). exact C.
Qed.

Lemma row_spec f v : decode f = Some v -> forall tree pr,
  row pr f v tree = (filter (simb f) tree, pr || started (filter (simb f) tree),
    (if pr || negb (started (filter (simb f) tree)) then [] else f_path f) ++ rest_text y (filter (simb f) tree)).
Proof.
  intros D. induction tree as [|g r IH]; intros pr; cbn [ImageModel.row filter].
  - cbn. now rewrite orb_false_r, orb_true_r.
  - assert (X : simb f g = match decode g with Some w => close v w | None => false end) by (unfold simb; now rewrite D).
    rewrite X. destruct (decode g) as [w|]; [|apply IH]. destruct (close v w); [|apply IH].
    rewrite IH. cbn [orb started negb app]. rewrite orb_true_r, orb_false_r. unfold y. rewrite rest_text_cons. fold y.
    destruct pr; cbn [app]; [reflexivity|]. rewrite <- app_assoc. reflexivity.
Qed.

(** [rows L gs]: the groups when the files come out of the heap in the order [L] *)
Inductive rows : list file -> list (list file) -> Prop :=
| rows_nil : rows [] []
| rows_none x L gs : (forall y, ~ similar x y) -> rows L gs -> rows (x :: L) gs
| rows_some x L ms gs : Permutation ms (filter (simb x) L) -> rows L gs ->
    rows (x :: L) ((if ms then [] else [x :: ms]) ++ gs).

Lemma image_loop_ok : forall n h fuel, hok h -> length (h_tree h) = n -> (n < fuel)%nat ->
  exists L gs, Permutation (h_tree h) L /\ StronglySorted desc L /\ rows L gs /\
    image_loop fuel h = (gs, concat (map (sized_text human y) gs), SOk).
Proof.
  induction n as [|n IH]; intros h fuel [W O] Hn F; (destruct fuel as [|fu]; [lia|]); cbn [ImageModel.image_loop];
    destruct (heap_extract_perm file_cmp h W) as (h' & r & E & W' & R); rewrite E; destruct r as [x|].
  - destruct R as [_ P]. apply Permutation_length in P. simpl in P. lia.
  - exists [], []. destruct R as [-> _]. split; [auto|]. split; [constructor|]. split; [constructor|auto].
  - destruct R as [R0 P]. destruct (IH h' fu) as (L & gs & PL & SL & RL & EL).
    + split; auto. eapply heap_extract_ord; eauto using file_cmp_tp.
    + apply Permutation_length in P. simpl in P. lia.
    + lia.
    + assert (S : StronglySorted desc (x :: L)).
      { constructor; auto. apply Forall_forall. intros z Hz. unfold desc. apply file_cmp_le.
        eapply hord_max; eauto using file_cmp_tp. rewrite P. right. now rewrite PL. }
      assert (PX : Permutation (h_tree h) (x :: L)) by (now rewrite P, PL).
      destruct (decode x) as [v|] eqn:D.
      * rewrite (row_spec x v D). rewrite EL. cbn [orb].
        exists (x :: L), ((if filter (simb x) (h_tree h') then [] else [x :: filter (simb x) (h_tree h')]) ++ gs).
        split; [auto|]. split; [auto|]. split.
        { apply rows_some; auto. clear -PL. induction PL; cbn [filter]; auto.
          - destruct (simb x _); auto.
          - destruct (simb x _), (simb x _); auto. constructor.
          - etransitivity; eauto. }
        destruct (filter (simb x) (h_tree h')) as [|g m] eqn:FE; cbn [started negb app]; [reflexivity|].
        f_equal. f_equal. cbn [map concat]. unfold sized_text at 2. cbn [group_text]. unfold head_text.
        cbn [y style_of y_sized y_path y_reset app]. rewrite app_nil_r, <- !app_assoc. reflexivity.
      * exists (x :: L), gs. split; [auto|]. split; [auto|]. split; [|exact EL]. apply rows_none; auto.
        intros z (v & w & X & _). congruence.
  - destruct R as [R _]. rewrite R in Hn. discriminate.
Qed.

Lemma run_image_ok c l : collected c l <> [] ->
  exists L gs, Permutation (collected c l) L /\ StronglySorted desc L /\ rows L gs /\
    run_image c l = (gs, concat (map (sized_text human y) gs), SOk).
Proof.
  intros NE. destruct (collect_files_inv c l [] _ collect_inv_empty) as (st & E & I). cbn [app] in I. destruct I as (H & P & _ & _).
  unfold ImageModel.run_image. rewrite E.
  assert (LN : (length (h_tree (co_heap st)) =? 0)%nat = false).
  { apply Permutation_length in P. rewrite <- P. destruct (collected c l); [congruence|reflexivity]. }
  rewrite LN. destruct (image_loop_ok _ (co_heap st) (Datatypes.S (length (h_tree (co_heap st)))) H eq_refl) as (L & gs & PL & SL & RL & EL); [lia|].
  exists L, gs. split; [now rewrite P|]. auto.
Qed.

Lemma rows_in L gs : rows L gs -> forall f m, In (f :: m) gs -> In f L /\ m <> [] /\ forall g, In g m -> In g L /\ similar f g.
Proof.
  induction 1 as [|x L gs NS _ IH|x L ms gs P _ IH]; intros f m I.
  - destruct I.
  - destruct (IH f m I) as (A & B & C). split; [now right|]. split; auto. intros g G. destruct (C g G). split; [now right|auto].
  - apply in_app_iff in I as [I|I].
    + destruct ms as [|m1 ms]; [destruct I|]. destruct I as [X|[]]. injection X as <- <-. split; [now left|]. split; [discriminate|].
      intros g G. apply (Permutation_in g P) in G. apply filter_In in G as [G S]. split; [now right|]. now apply simb_similar.
    + destruct (IH f m I) as (A & B & C). split; [now right|]. split; auto. intros g G. destruct (C g G). split; [now right|auto].
Qed.
Lemma rows_nonempty L gs : rows L gs -> forall g, In g gs -> exists f m, g = f :: m.
Proof.
  induction 1 as [|x L gs NS _ IH|x L ms gs P _ IH]; intros g I; [destruct I|auto|].
  apply in_app_iff in I as [I|I]; auto. destruct ms; [destruct I|]. destruct I as [<-|[]]. eauto.
Qed.

(** all pairs of positions *)
Fixpoint ordered_pairs (L : list file) : list (file * file) :=
  match L with [] => [] | x :: r => map (pair x) r ++ ordered_pairs r end.
Lemma rows_named L gs : rows L gs -> Permutation (named gs) (filter (fun p => simb (fst p) (snd p)) (ordered_pairs L)).
Proof.
  assert (FM : forall x r, filter (fun p => simb (fst p) (snd p)) (map (pair x) r) = map (pair x) (filter (simb x) r)).
  { intros x r. induction r as [|z r IH]; cbn [map filter fst snd]; auto. destruct (simb x z); cbn [map]; now rewrite IH. }
  assert (FA : forall (p : file * file -> bool) a b, filter p (a ++ b) = filter p a ++ filter p b).
  { intros p a b. induction a as [|z a IH]; cbn [app filter]; auto. destruct (p z); cbn [app]; now rewrite IH. }
  induction 1 as [|x L gs NS _ IH|x L ms gs P _ IH]; cbn [ordered_pairs].
  - constructor.
  - rewrite FA, FM. replace (filter (simb x) L) with (@nil file); [exact IH|].
    symmetry. clear -NS. induction L as [|z L IH]; cbn [filter]; auto. destruct (simb x z) eqn:E; auto. apply simb_similar in E. now apply NS in E.
  - rewrite FA, FM. unfold named. rewrite flat_map_app. apply Permutation_app; [|exact IH].
    apply (Permutation_map (pair x)) in P. destruct ms as [|m ms]; cbn [flat_map]; [exact P|rewrite app_nil_r; exact P].
Qed.
End Image.

(** ** C77: every pair of similar images is named exactly once *)

(** in terms of the order in which the files leave the heap, larger files first: each file
    is named with exactly those similar ones that come later; and nothing else is written *)
Theorem image_pairs_exact : forall vec (decode : file -> option vec) close sep human c l,
  collected c l <> [] ->
  exists L gs, Permutation (collected c l) L /\ StronglySorted (fun a b => f_size b <= f_size a) L /\
    run_image vec decode close sep c l = (gs, concat (map (sized_text human (style_of sep false false)) gs), SOk) /\
    (forall g, In g gs -> (2 <= length g)%nat) /\
    exists p, (forall a b, p (a, b) = true <-> similar decode close a b) /\
      Permutation (named gs) (filter p (ordered_pairs L)).
Proof.
  intros vec decode close sep human c l NE. destruct (run_image_ok vec decode close sep human c l NE) as (L & gs & P & S & R & E).
  exists L, gs. split; auto. split; auto. split; auto. split.
  - intros g I. destruct (rows_nonempty _ _ _ _ _ R g I) as (f & m & ->). destruct (rows_in _ _ _ _ _ R f m I) as (_ & NM & _).
    destruct m; [congruence|cbn; lia].
  - exists (fun p => simb vec decode close (fst p) (snd p)). split; [intros a b; apply simb_similar|]. now apply rows_named.
Qed.

Lemma ordered_pairs_in : forall L a b, In (a, b) (ordered_pairs L) -> In a L /\ In b L.
Proof.
  induction L as [|x L IH]; cbn [ordered_pairs]; intros a b I; [destruct I|]. apply in_app_iff in I as [I|I].
  - apply in_map_iff in I as (z & X & I). injection X as <- <-. split; [now left|now right].
  - destruct (IH a b I). split; now right.
Qed.
Lemma ordered_pairs_split : forall L a b, In a L -> In b L -> a <> b -> In (a, b) (ordered_pairs L) \/ In (b, a) (ordered_pairs L).
Proof.
  induction L as [|x L IH]; cbn [ordered_pairs]; intros a b A B NE; [destruct A|]. destruct A as [-> |A], B as [-> |B]; try congruence.
  - left. apply in_app_iff. left. now apply in_map.
  - right. apply in_app_iff. left. now apply in_map.
  - destruct (IH a b A B NE); [left|right]; apply in_app_iff; now right.
Qed.
Lemma ordered_pairs_once : forall L, NoDup L -> NoDup (ordered_pairs L) /\
  forall a b, In (a, b) (ordered_pairs L) -> a <> b /\ ~ In (b, a) (ordered_pairs L).
Proof.
  induction 1 as [|x L NI ND (IH1 & IH2)]; cbn [ordered_pairs].
  - split; [constructor|]. intros a b [].
  - split.
    + clear IH2. assert (D : forall q, In q (map (pair x) L) -> ~ In q (ordered_pairs L)).
      { intros q I J. apply in_map_iff in I as (z & <- & I). apply ordered_pairs_in in J as [J _]. auto. }
      assert (N : NoDup (map (pair x) L)).
      { clear -ND. induction ND as [|z r NI ND IH]; cbn [map]; constructor; auto. intros I. apply in_map_iff in I as (w & X & I). injection X as ->. auto. }
      induction N as [|q r NI' ND' IH]; cbn [app]; auto. constructor.
      * intros I. apply in_app_iff in I as [I|I]; auto. apply (D q); [now left|auto].
      * apply IH. intros q' I. apply D. now right.
    + intros a b I. apply in_app_iff in I as [I|I].
      * apply in_map_iff in I as (z & X & I). injection X as <- <-. split; [congruence|]. intros J. apply in_app_iff in J as [J|J].
        -- apply in_map_iff in J as (w & X & J). injection X as -> ->. auto.
        -- apply ordered_pairs_in in J as [_ J]. auto.
      * destruct (IH2 a b I) as (NE & NB). split; auto. intros J. apply in_app_iff in J as [J|J]; auto.
        apply in_map_iff in J as (w & X & J). injection X as -> ->. apply ordered_pairs_in in I as [_ I]. auto.
Qed.

(** for the user, when similarity does not depend on the order *)
Theorem image_twins : forall vec (decode : file -> option vec) close sep c l gs t s,
  (forall v w, close v w = close w v) -> NoDup (map fst l) ->
  run_image vec decode close sep c l = (gs, t, s) -> collected c l <> [] ->
  s = SOk /\ NoDup (named gs) /\
  (forall f g, In (f, g) (named gs) ->
     In f (collected c l) /\ In g (collected c l) /\ f <> g /\ similar decode close f g /\ ~ In (g, f) (named gs)) /\
  (forall f g, In f (collected c l) -> In g (collected c l) -> f <> g -> similar decode close f g ->
     In (f, g) (named gs) \/ In (g, f) (named gs)).
Proof.
  intros vec decode close sep c l gs t s SY ND E NE.
  destruct (image_pairs_exact vec decode close sep (fun _ => []) c l NE) as (L & gs' & P & S & E' & G & p & HP & N).
  rewrite E' in E. injection E as -> _ <-. split; auto.
  assert (NL : NoDup L).
  { apply (Permutation_NoDup P). assert (H := collected_nodup c l ND). clear -H. remember (collected c l) as x. clear Heqx.
    induction x as [|a x IH]; [constructor|]. cbn [map] in H. inversion H as [|? ? H1 H2]; subst. constructor; auto.
    intros I. apply H1. now apply in_map. }
  destruct (ordered_pairs_once L NL) as (O1 & O2).
  assert (X : forall f g, In (f, g) (named gs) <-> In (f, g) (ordered_pairs L) /\ similar decode close f g).
  { intros f g. rewrite <- HP. rewrite <- filter_In. split; apply Permutation_in; [exact N|now symmetry]. }
  split.
  - apply (Permutation_NoDup (Permutation_sym N)). clear -O1. induction O1 as [|q r NI ND IH]; cbn [filter]; [constructor|].
    destruct (p q); auto. constructor; auto. intros I. apply filter_In in I as [I _]. auto.
  - split.
    + intros f g I. apply X in I as [I SM]. destruct (O2 f g I) as (NEQ & NB). destruct (ordered_pairs_in L f g I) as [A B].
      split; [eapply Permutation_in; [symmetry; exact P|auto]|]. split; [eapply Permutation_in; [symmetry; exact P|auto]|].
      split; auto. split; auto. rewrite X. tauto.
    + intros f g If Ig NEQ SM. destruct (ordered_pairs_split L f g) as [I|I]; auto; try (eapply Permutation_in; eauto).
      * left. apply X. auto.
      * right. apply X. split; auto. destruct SM as (v & w & A & B & C). exists w, v. rewrite SY. auto.
Qed.

(** ** C78: deleting the first of every group *)

(** Missing: a kept image that is itself similar.  Deleting the first file of every line
    leaves for each image one that is linked to it by a chain of similar images. *)
Theorem image_cleanup_partial : forall vec (decode : file -> option vec) close sep c l gs t s,
  sep <> 10%N -> Forall (fun e => plain sep (fst e)) l -> NoDup (map fst l) -> collected c l <> [] ->
  run_image vec decode close sep c l = (gs, t, s) ->
  forall f, In f (collected c l) ->
    exists g, In g (collected c l) /\ clos_refl_trans _ (similar decode close) f g /\ ~ removed sep t (f_path g).
Proof.
  intros vec decode close sep c l gs t s S10 PL ND NE E f If.
  destruct (run_image_ok vec decode close sep (fun _ => []) c l NE) as (L & gs' & P & SS & R & E').
  rewrite E' in E. injection E as -> <- _.
  assert (RM : forall p, removed sep (concat (map (sized_text (fun _ => []) (style_of sep false false)) gs)) p <->
    exists f m, In (f :: m) gs /\ f_path f = p).
  { intros p. apply (removed_spec sep S10 (fun _ => []) gs _ [] p); auto; [now rewrite app_nil_r|].
    apply Forall_forall. intros g Ig. destruct (rows_nonempty _ _ _ _ _ R g Ig) as (h & m & ->).
    destruct (rows_in _ _ _ _ _ R h m Ig) as (Ih & NM & Im). split; [destruct m; [congruence|cbn; lia]|].
    apply Forall_forall. intros x Ix. assert (IL : In x L) by (destruct Ix as [<-|Ix]; [auto|now apply Im]).
    apply (Permutation_in x (Permutation_sym P)) in IL. unfold collected in IL. apply in_map_iff in IL as (e & <- & IL).
    apply filter_In in IL as [IL _]. rewrite Forall_forall in PL. now apply PL. }
  assert (NL : NoDup (map f_path L)).
  { apply (Permutation_NoDup (Permutation_map f_path P)). now apply collected_nodup. }
  assert (K : forall x, In x L -> exists g, In g L /\ clos_refl_trans _ (similar decode close) x g /\ ~ exists f m, In (f :: m) gs /\ f_path f = f_path g).
  { clear -R NL. induction R as [|x L gs NS R IH|x L ms gs Pm R IH]; intros z Iz; [destruct Iz| |];
      cbn [map] in NL; inversion NL as [|? ? NI NL']; subst.
    - destruct Iz as [<-|Iz].
      + exists x. split; [now left|]. split; [apply rt_refl|]. intros (h & m & I & X). apply (rows_in _ _ _ _ _ R) in I as (I & _).
        apply NI. rewrite <- X. now apply in_map.
      + destruct (IH NL' z Iz) as (g & A & B & C). exists g. split; [now right|auto].
    - assert (TAIL : forall z, In z L -> exists g, In g (x :: L) /\ clos_refl_trans _ (similar decode close) z g /\
        ~ exists f m, In (f :: m) ((if ms then [] else [x :: ms]) ++ gs) /\ f_path f = f_path g).
      { intros z' I'. destruct (IH NL' z' I') as (g & A & B & C). exists g. split; [now right|]. split; auto.
        intros (h & m & I & X). apply in_app_iff in I as [I|I]; [|apply C; eauto].
        destruct ms; [destruct I|]. destruct I as [Y|[]]. injection Y as <- <-. apply NI. rewrite X. now apply in_map. }
      destruct Iz as [<-|Iz]; [|now apply TAIL].
      destruct ms as [|m1 ms].
      + exists x. split; [now left|]. split; [apply rt_refl|]. intros (h & m & I & X). cbn [app] in I. apply (rows_in _ _ _ _ _ R) in I as (I & _).
        apply NI. rewrite <- X. now apply in_map.
      + assert (IM : In m1 (filter (simb vec decode close x) L)) by (apply (Permutation_in m1 Pm); now left).
        apply filter_In in IM as [IM SM]. apply simb_similar in SM.
        destruct (TAIL m1 IM) as (g & A & B & C). exists g. split; auto. split; auto.
        eapply rt_trans; [apply rt_step; exact SM|exact B]. }
  destruct (K f (Permutation_in f P If)) as (g & A & B & C). exists g.
  split; [eapply Permutation_in; [symmetry; exact P|exact A]|]. split; auto. now rewrite RM.
Qed.

(** ** Examples *)
Definition near (v w : Z) : bool := Z.abs (v - w) <? 2.
Definition pic (f : file) : option Z := match f_path f with [112%N] => None | _ => Some (f_size f) end.
(** c (3) is similar to b (2), b to a (1); d (9) to none; p is no image *)
Definition pics := [fe "a" 1; fe "b" 2; fe "c" 3; fe "d" 9; fe "p" 2].
Example pics_run : run_image Z pic near (chr ",") cf0 pics =
  ([[mkFile (lit "c") 3 false; mkFile (lit "b") 2 false]; [mkFile (lit "b") 2 false; mkFile (lit "a") 1 false]],
   lit "c,b" ++ [10%N; 10%N] ++ lit "b,a" ++ [10%N; 10%N], SOk).
Proof. vm_compute. reflexivity. Qed.
Example pics_hyps : (forall v w, near v w = near w v) /\ NoDup (map fst pics) /\ collected cf0 pics <> [] /\
  Forall (fun e => plain (chr ",") (fst e)) pics.
Proof.
  split; [intros v w; unfold near; now rewrite <- (Z.abs_opp (v - w)), Z.opp_sub_distr, Z.add_comm|].
  split; [cbn; repeat constructor; cbn; intuition discriminate|]. split; [discriminate|].
  repeat apply Forall_cons; try constructor; unfold plain, fe; cbn; intuition discriminate.
Qed.

(** the clean-up deletes c and b; of c no similar image is left *)
Theorem image_cleanup_refuted : exists vec (decode : file -> option vec) close sep c l gs t f,
  (forall v w, close v w = close w v) /\ sep <> 10%N /\ Forall (fun e => plain sep (fst e)) l /\ NoDup (map fst l) /\
  run_image vec decode close sep c l = (gs, t, SOk) /\ In f (collected c l) /\ removed sep t (f_path f) /\
  forall g, In g (collected c l) -> similar decode close f g -> removed sep t (f_path g).
Proof.
  exists Z, pic, near, (chr ","), cf0, pics, [[mkFile (lit "c") 3 false; mkFile (lit "b") 2 false]; [mkFile (lit "b") 2 false; mkFile (lit "a") 1 false]],
    (lit "c,b" ++ [10%N; 10%N] ++ lit "b,a" ++ [10%N; 10%N]), (mkFile (lit "c") 3 false).
  destruct pics_hyps as (H1 & H2 & H3 & H4). split; [exact H1|]. split; [discriminate|]. split; [exact H4|]. split; [exact H2|].
  split; [exact pics_run|]. split; [cbn; auto|].
  assert (HL : has_lines (lit "c,b" ++ [10%N; 10%N] ++ lit "b,a" ++ [10%N; 10%N]) [lit "c,b"; []; lit "b,a"; []]).
  { apply (lines_cons (lit "c,b")); [cbn; intuition discriminate|]. apply (lines_cons []); [intros []|].
    apply (lines_cons (lit "b,a")); [cbn; intuition discriminate|]. apply (lines_cons []); [intros []|constructor]. }
  assert (C : removed (chr ",") (lit "c,b" ++ [10%N; 10%N] ++ lit "b,a" ++ [10%N; 10%N]) (lit "c")).
  { exists [lit "c,b"; []; lit "b,a"; []], (lit "c,b"), (lit "b"). split; [exact HL|]. split; [now left|].
    split; [reflexivity|cbn; intuition discriminate]. }
  assert (B : removed (chr ",") (lit "c,b" ++ [10%N; 10%N] ++ lit "b,a" ++ [10%N; 10%N]) (lit "b")).
  { exists [lit "c,b"; []; lit "b,a"; []], (lit "b,a"), (lit "a"). split; [exact HL|]. split; [right; right; now left|].
    split; [reflexivity|cbn; intuition discriminate]. }
  split; [exact C|]. intros g I (v & w & V & W & X). cbn in I.
  destruct I as [<-|[<-|[<-|[<-|[<-|[]]]]]]; cbn in V, W; try discriminate W; injection V as <-; injection W as <-; try discriminate X; auto.
Qed.

Print Assumptions image_pairs_exact.
Print Assumptions image_twins.
Print Assumptions image_cleanup_partial.
Print Assumptions image_cleanup_refuted.
