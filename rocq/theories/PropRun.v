(** A whole run, from the arguments through the walk to the groups printed (C64, C65). *)
From Coq Require Import String Ascii Sorting.Permutation.
From Verif Require Import Util HeapModel IgnoreModel CollectModel ProcessModel ReportSpec PropReport FileModel PropFile PropEnd WalkModel PropWalk.
Local Open Scope list_scope.
Local Open Scope Z_scope.

Section Run.
Variable R : Type.
Variable compile : str -> option R.
Variable exec : R -> str -> bool.
Variable content : path -> bytes.
Variable xxh : bytes -> N.
Variables (huge : nat) (excess : N).
Variable beh : file -> file -> sysbeh.
Variable hbeh : file -> bool * (nat -> option nat).
Variable junk : file -> N.
Variable qsort : (chk -> chk -> Z) -> list chk -> list chk.
Variable iter : table -> table.

Definition file_content (f : file) : bytes := content (f_path f).

(** run_ftwin_processing, ftwin.c:72-134, without the image option: the groups printed and
    the status.  [fuel] bounds the depth of the walk. *)
Definition whole_run (fuel : nat) (c : wconf R) (f : fs) (args : list path) : list (list file) * status :=
  match walk_args compile exec fuel c f args with
  | WOk l => run_text (hash_file file_content xxh huge excess hbeh) junk (compare_files file_content huge excess beh) qsort iter (w_conf c) l
  | WErr _ => ([], SErr)
  | WUB => ([], SUB)
  | WFuel => ([], SFuel)
  end.

(** a file that takes part in the comparison *)
Definition selected (c : wconf R) (f : fs) (args : list path) (p : path) : Prop :=
  exists a cs i, In a args /\ taken compile exec c f a p i cs /\ within (cf_minsize (w_conf c)) (cf_maxsize (w_conf c)) (i_size i).
(** two paths are printed in one group *)
Definition together (gs : list (list file)) (p q : path) : Prop :=
  exists grp x y, In grp gs /\ In x grp /\ In y grp /\ f_path x = p /\ f_path y = q.

Definition sizes_true (f : fs) : Prop := forall p i, s_stat f p = Some i -> Z.of_nat (length (content p)) = i_size i \/ i_type i = TDir.

Lemma collected_in c l x : In x (collected c l) <->
  exists p i, In (p, i) l /\ within (cf_minsize c) (cf_maxsize c) (i_size i) /\ x = mkFile p (i_size i) (prioritized c p).
Proof.
  unfold collected. rewrite in_map_iff. unfold within. split.
  - intros ((p & i) & <- & I). apply filter_In in I. destruct I as (I & B). cbn [fst snd] in *. exists p, i. split; [exact I|]. split; [lia|reflexivity].
  - intros (p & i & I & B & ->). exists (p, i). split; [reflexivity|]. apply filter_In. split; [exact I|]. cbn [fst snd]. lia.
Qed.

Lemma whole_run_exact fuel c f args l :
  sorts qsort -> visits_all iter -> sizes_true f -> clean huge beh hbeh ->
  walk_args compile exec fuel c f args = WOk l ->
  (exists p, selected c f args p) ->
  (forall p q, selected c f args p -> selected c f args q -> xxh (content p) = xxh (content q) -> content p = content q) ->
  exists gs, whole_run fuel c f args = (gs, SOk) /\
    forall p q, p <> q -> (together gs p q <-> selected c f args p /\ selected c f args q /\ content p = content q).
Proof.
  intros Q IT ST CL W (p0 & S0) HI. unfold whole_run. rewrite W.
  pose proof (walk_exact _ _ _ _ _ _ _ _ W) as WE.
  assert (Sel : forall p, selected c f args p <-> exists x, In x (collected (w_conf c) l) /\ f_path x = p).
  { intros p. split.
    - intros (a & cs & i & Ia & T & B). exists (mkFile p (i_size i) (prioritized (w_conf c) p)). split; [|reflexivity].
      apply collected_in. exists p, i. split; [apply WE; eauto|]. auto.
    - intros (x & I & <-). apply collected_in in I. destruct I as (q & i & I & B & ->). cbn [f_path].
      apply WE in I. destruct I as (a & cs & Ia & T). exists a, cs, i. auto. }
  assert (Uniq : forall x y, In x (collected (w_conf c) l) -> In y (collected (w_conf c) l) -> f_path x = f_path y -> x = y).
  { intros x y Ix Iy E. apply collected_in in Ix, Iy. destruct Ix as (p & i & Ip & _ & ->), Iy as (q & j & Iq & _ & ->).
    cbn [f_path] in E. subst q. apply WE in Ip, Iq. destruct Ip as (a & cs & _ & [_ S1 _ _]), Iq as (a' & cs' & _ & [_ S2 _ _]). congruence. }
  assert (SZ : sized file_content (collected (w_conf c) l)).
  { intros x I. apply collected_in in I. destruct I as (p & i & I & _ & ->). unfold file_content. cbn [f_path f_size].
    apply WE in I. destruct I as (a & cs & _ & [_ S _ T]). destruct (ST p i S) as [E|E]; [exact E|]. rewrite E in T. destruct T as [T|(T & _)]; discriminate. }
  assert (SO : sizes_ok l).
  { apply Forall_forall. intros (p & i) I. cbn [snd]. apply WE in I. destruct I as (a & cs & _ & [_ S _ T]).
    destruct (ST p i S) as [E|E]; [lia|]. rewrite E in T. destruct T as [T|(T & _)]; discriminate. }
  assert (NE : collected (w_conf c) l <> []).
  { apply Sel in S0. destruct S0 as (x & I & _). intros E. rewrite E in I. destruct I. }
  assert (HJ : hash_injective xxh file_content (collected (w_conf c) l)).
  { intros x y Ix Iy E. unfold file_content in *. apply HI; auto; apply Sel; eauto. }
  destruct (duplicates_exact_partial file_content xxh huge excess beh hbeh junk qsort iter (w_conf c) l Q IT SO NE SZ CL HJ) as (gs & _ & G & EG & _).
  exists gs. split; [exact G|]. intros p q NEpq.
  assert (CE := compare_files_exact file_content huge excess beh hbeh _ CL SZ).
  destruct (groups_sound (hash_file file_content xxh huge excess hbeh) junk (compare_files file_content huge excess beh) qsort iter file_content (w_conf c) l Q IT SO) as [TS _].
  { intros x y Ix Iy E X. destruct (list_eq_dec N.eq_dec (file_content x) (file_content y)) as [C|C]; auto.
    apply (CE x y Ix Iy E) in C. congruence. }
  rewrite G in TS. cbn [fst] in TS. split.
  - intros (grp & x & y & I & Ix & Iy & <- & <-). destruct (TS grp I) as (_ & M & X). split; [apply Sel; eauto|]. split; [apply Sel; eauto|].
    now apply X.
  - intros (Sp & Sq & C). apply Sel in Sp, Sq. destruct Sp as (x & Ix & <-), Sq as (y & Iy & <-).
    destruct (proj1 (EG x y Ix Iy ltac:(congruence)) C) as (grp & I & A & B). exists grp, x, y. auto.
Qed.
End Run.

(** ** C64: for a run whose walk succeeds, two paths are printed together exactly when both
    are selected and have the same bytes.  Missing: disturbed walks (C60), failing or short
    reads (C42), hash collisions (C38). *)
Theorem run_exact_partial : forall R compile exec content xxh huge excess beh hbeh junk qsort iter fuel (c : wconf R) f args l,
  sorts qsort -> visits_all iter -> sizes_true content f -> clean huge beh hbeh ->
  walk_args compile exec fuel c f args = WOk l ->
  (exists p, selected R compile exec c f args p) ->
  (forall p q, selected R compile exec c f args p -> selected R compile exec c f args q ->
     xxh (content p) = xxh (content q) -> content p = content q) ->
  exists gs, whole_run R compile exec content xxh huge excess beh hbeh junk qsort iter fuel c f args = (gs, SOk) /\
    forall p q, p <> q -> (together gs p q <-> selected R compile exec c f args p /\ selected R compile exec c f args q /\ content p = content q).
Proof. intros. eapply whole_run_exact; eauto. Qed.

(** ** C65: a file is not reported as its own duplicate, when no argument lies under another *)
Theorem no_self_twin_partial : forall R compile exec content xxh huge excess beh hbeh junk qsort iter fuel (c : wconf R) f args,
  sorts qsort -> visits_all iter -> sizes_true content f -> names_ok f -> ForallOrdPairs apart args ->
  NoDup (map f_path (concat (fst (whole_run R compile exec content xxh huge excess beh hbeh junk qsort iter fuel c f args)))).
Proof.
  intros R compile exec content xxh huge excess beh hbeh junk qsort iter fuel c f args Q IT ST NO AP. unfold whole_run.
  destruct (walk_args compile exec fuel c f args) as [l| | |] eqn:W; try constructor.
  apply reported_once; auto; [|eapply walk_once_partial; eauto].
  apply Forall_forall. intros (p & i) I. cbn [snd]. apply (walk_exact _ _ _ _ _ _ _ _ W) in I. destruct I as (a & cs & _ & [_ S _ T]).
  destruct (ST p i S) as [E|E]; [lia|]. rewrite E in T. destruct T as [T|(T & _)]; discriminate.
Qed.

(** * The hypotheses hold, and overlapping arguments *)

Definition content1 (p : path) : bytes :=
  if list_eq_dec N.eq_dec p (lit "d/gone") then lit "four" else if in_dec (list_eq_dec N.eq_dec) p [lit "d"; lit "d/sub"] then [] else lit "abc".
Definition run1 args := whole_run str (fun r => Some r) toy content1 sum256 2 2 ok_beh ok_hbeh ex_junk isort id_iter 5 (wbase false) fs1 args.

Example sizes_true_ex : sizes_true content1 fs1.
Proof.
  intros p i S. unfold fs1, list_fs in S. cbn [s_stat] in S. destruct (look tree1 p) as [n|] eqn:L; [|discriminate].
  apply look_in in L. cbn [tree1 In] in L.
  destruct L as [L|[L|[L|[L|[L|[L|[L|[]]]]]]]]; injection L as <- <-; injection S as <-; try (right; reflexivity); left; vm_compute; reflexivity.
Qed.
Example run1_result : run1 [lit "d"] = ([[mkFile (lit "d/a") 3 false; mkFile (lit "d/sub/b") 3 false]], SOk).
Proof. vm_compute. reflexivity. Qed.
Example selected_ex : selected str (fun r => Some r) toy (wbase false) fs1 [lit "d"] (lit "d/sub/b").
Proof.
  destruct taken_ex as (i & cs & T). exists (lit "d"), cs, i. split; [now left|]. split; [exact T|].
  destruct T as [_ S _ _]. vm_compute in S. injection S as <-. unfold within. cbn. lia.
Qed.

(** the file d/a, given once by name and once through its directory, is reported as a
    duplicate of itself *)
Theorem no_self_twin_refuted : exists args grp,
  NoDup args /\ names_ok fs1 /\ sizes_true content1 fs1 /\
  In grp (fst (run1 args)) /\ ~ NoDup (map f_path grp).
Proof.
  exists [lit "d/a"; lit "d"], [mkFile (lit "d/a") 3 false; mkFile (lit "d/sub/b") 3 false; mkFile (lit "d/a") 3 false].
  split; [repeat constructor; cbn; intuition discriminate|]. split; [exact names_ok_ex|]. split; [exact sizes_true_ex|].
  split; [vm_compute; now left|]. intros N. inversion N as [|x y NI _]; subst. apply NI. right. now left.
Qed.

Print Assumptions run_exact_partial.
Print Assumptions no_self_twin_partial.
Print Assumptions no_self_twin_refuted.
