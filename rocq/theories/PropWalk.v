(** Properties of the directory walk (C58 to C63). *)
From Coq Require Import String Ascii.
From Verif Require Import Util IgnoreModel CollectModel WalkModel.
Local Open Scope list_scope.
Local Open Scope N_scope.

(** * Specification *)

Section Spec.
Variable R : Type.
Variable compile : str -> option R.
Variable exec : R -> str -> bool.
Implicit Types (c : wconf R) (f : fs) (cs : list (ctx R)) (d p a n : path).

(** a name in a directory is looked at *)
Record name_ok c n : Prop := {
  nk_list : ~ In n (w_names c);
  nk_hidden : w_hidden c = true \/ hd_error n <> Some (chr ".") }.
(** the entry [n] of directory [d], of type [ty], is looked at *)
Record entry_ok c d n (ty : ftype) : Prop := {
  ek_name : name_ok c n;
  ek_recurse : ty = TDir -> w_recurse c = true;
  ek_ig : forall g, w_ig c = Some g -> g (join d n) = false;
  ek_wl : forall g, w_wl c = Some g -> g (join d n) = true }.
(** neither a .gitignore nor the permissions exclude [p] *)
Record passes c cs p (i : finfo) : Prop := {
  ps_git : w_git c = true -> cs <> [] ->
           ignore_match R exec cs p (match i_type i with TDir => true | _ => false end) <> MIgnored;
  ps_perm : check_permissions (w_conf c) i = true }.

(** the ignore files in force inside directory [d], innermost first, when [cs] are those for
    [d] itself; C72 says what is read from an ignore file *)
Inductive in_force c f cs d : list (ctx R) -> Prop :=
| force_off : w_git c = false -> in_force c f cs d cs
| force_none : s_gitignore f d = None -> in_force c f cs d cs
| force_file s x : w_git c = true -> s_gitignore f d = Some s -> load_file R compile 4095 (mkCtx d []) s = Some x ->
    in_force c f cs d (x :: cs).

(** [p] is met on the way down from the argument [a]; [cs] are the ignore files in force *)
Inductive reached c f a : list (ctx R) -> path -> Prop :=
| reached_arg : reached c f a (w_global c) a
| reached_entry cs cs' d i es n ty :
    reached c f a cs d -> s_stat f d = Some i -> i_type i = TDir -> passes c cs d i ->
    s_dir f d = Some es -> in_force c f cs d cs' ->
    In (n, ty) es -> entry_ok c d n ty ->
    reached c f a cs' (join d n).

(** [p] is a file to be compared *)
Record taken c f a p (i : finfo) cs : Prop := {
  tk_reached : reached c f a cs p;
  tk_stat : s_stat f p = Some i;
  tk_passes : passes c cs p i;
  tk_type : i_type i = TReg \/ i_type i = TLnk /\ cf_fsyml (w_conf c) = true }.

(** * Proofs *)

(** the same, starting anywhere *)
Inductive below c f cs0 p0 : list (ctx R) -> path -> Prop :=
| below_refl : below c f cs0 p0 cs0 p0
| below_step cs cs' d i es n ty :
    below c f cs0 p0 cs d -> s_stat f d = Some i -> i_type i = TDir -> passes c cs d i ->
    s_dir f d = Some es -> enter compile c f cs d = Some cs' ->
    In (n, ty) es -> entry_ok c d n ty ->
    below c f cs0 p0 cs' (join d n).

Lemma enter_spec c f cs d cs' : enter compile c f cs d = Some cs' <-> in_force c f cs d cs'.
Proof.
  unfold enter. split.
  - destruct (w_git c) eqn:G; [|intros X; injection X as <-; now constructor].
    destruct (s_gitignore f d) as [s|] eqn:E; [|intros X; injection X as <-; now constructor 2].
    destruct (load_file _ _ _ _ _) eqn:L; [|discriminate]. intros X. injection X as <-. econstructor 3; eauto.
  - intros [G|E|s x G E L]; [now rewrite G|rewrite E; now destruct (w_git c)|]. now rewrite G, E, L.
Qed.
Lemma reached_below c f a cs p : reached c f a cs p <-> below c f (w_global c) a cs p.
Proof. split; induction 1; econstructor; eauto; now apply enter_spec. Qed.

Lemma below_trans c f cs0 p0 cs1 p1 cs p :
  below c f cs0 p0 cs1 p1 -> below c f cs1 p1 cs p -> below c f cs0 p0 cs p.
Proof. intros H. induction 1; [exact H|]. econstructor; eauto. Qed.

(** first step instead of last step *)
Lemma below_inv c f cs0 p0 cs p : below c f cs0 p0 cs p ->
  (cs = cs0 /\ p = p0) \/
  exists i es cs1 n ty, s_stat f p0 = Some i /\ i_type i = TDir /\ passes c cs0 p0 i /\ s_dir f p0 = Some es
    /\ enter compile c f cs0 p0 = Some cs1 /\ In (n, ty) es /\ entry_ok c p0 n ty /\ below c f cs1 (join p0 n) cs p.
Proof.
  induction 1 as [|cs cs' d i es n ty B IH S T P D E I K]; [now left|right].
  destruct IH as [(-> & ->)|(i0 & es0 & cs1 & n0 & ty0 & A1 & A2 & A3 & A4 & A5 & A6 & A7 & A8)].
  - exists i, es, cs', n, ty. do 7 (split; [assumption|]). constructor.
  - exists i0, es0, cs1, n0, ty0. do 7 (split; [assumption|]). econstructor; eauto.
Qed.

Lemma skip_name_spec c n : skip_name c n = false <-> name_ok c n.
Proof.
  unfold skip_name. rewrite orb_false_iff. split.
  - intros (A & B). split.
    + intros I. apply not_true_iff_false in A. apply A. apply existsb_exists. exists n. split; [exact I|].
      destruct (list_eq_dec N.eq_dec n n); congruence.
    + destruct n as [|h t]; [right; discriminate|]. cbn [hd_error]. apply andb_false_iff in B. destruct B as [B|B].
      * right. intros X. injection X as ->. now rewrite N.eqb_refl in B.
      * left. now apply negb_false_iff.
  - intros [A B]. split.
    + apply not_true_iff_false. intros X. apply existsb_exists in X. destruct X as (x & I & E).
      destruct (list_eq_dec N.eq_dec n x); [subst; auto|discriminate].
    + destruct n as [|h t]; [reflexivity|]. destruct B as [B|B].
      * rewrite B. apply andb_false_r.
      * destruct (N.eqb_spec h (chr ".")); [subst; now contradiction B|reflexivity].
Qed.

Lemma skip_spec c d n ty : skip_entry c (n, ty) = false /\ skip_full c (join d n) = false <-> entry_ok c d n ty.
Proof.
  unfold skip_entry, skip_full. cbn [fst snd]. rewrite !orb_false_iff, skip_name_spec. split.
  - intros ((A & B) & C & D). split.
    + exact A.
    + intros ->. now destruct (w_recurse c).
    + intros g E. now rewrite E in C.
    + intros g E. rewrite E in D. now apply negb_false_iff.
  - intros [A B C D]. split; split.
    + exact A.
    + destruct ty; try reflexivity. now rewrite B.
    + destruct (w_ig c); [now apply C|reflexivity].
    + destruct (w_wl c) as [g|]; [|reflexivity]. now rewrite (D g eq_refl).
Qed.

Lemma passes_spec c cs p i :
  ignored exec c cs p i = false /\ check_permissions (w_conf c) i = true <-> passes c cs p i.
Proof.
  unfold ignored. split.
  - intros (A & B). split; [|exact B]. intros G NE X. rewrite G, X in A. destruct cs; [congruence|]. discriminate A.
  - intros [A B]. split; [|exact B]. destruct (w_git c); [|reflexivity]. destruct cs as [|x cs]; [reflexivity|].
    specialize (A eq_refl). cbn [andb]. destruct (ignore_match _ _ _ _ _); auto. exfalso. apply A; [discriminate|reflexivity].
Qed.

Lemma entries_ok (w : path -> wres) c d : forall es l, entries w c d es = WOk l ->
  (forall n ty, In (n, ty) es -> entry_ok c d n ty -> exists l1, w (join d n) = WOk l1 /\ incl l1 l)
  /\ (forall x, In x l -> exists n ty l1, In (n, ty) es /\ entry_ok c d n ty /\ w (join d n) = WOk l1 /\ In x l1).
Proof.
  induction es as [|(n0, ty0) es IH]; intros l; cbn [entries fst].
  - intros X. injection X as <-. split; [intros n ty []|intros x []].
  - destruct (skip_entry c (n0, ty0)) eqn:S1; [|destruct (skip_full c (join d n0)) eqn:S2].
    + intros X. destruct (IH l X) as (A & B). split.
      * intros n ty [E|I] K; [|eauto]. injection E as -> ->. apply skip_spec in K. destruct K; congruence.
      * intros x I. destruct (B x I) as (n & ty & l1 & J & Q). exists n, ty, l1. split; [now right|exact Q].
    + intros X. destruct (IH l X) as (A & B). split.
      * intros n ty [E|I] K; [|eauto]. injection E as -> ->. apply skip_spec in K. destruct K; congruence.
      * intros x I. destruct (B x I) as (n & ty & l1 & J & Q). exists n, ty, l1. split; [now right|exact Q].
    + destruct (w (join d n0)) as [l0| | |] eqn:W; try discriminate.
      destruct (entries w c d es) as [l'| | |] eqn:X; try discriminate. intros Y. injection Y as <-.
      destruct (IH l' eq_refl) as (A & B). split.
      * intros n ty [E|I] K.
        -- injection E as -> ->. exists l0. split; [exact W|]. now apply incl_appl.
        -- destruct (A n ty I K) as (l1 & E & J). exists l1. split; [exact E|]. now apply incl_appr.
      * intros x I. apply in_app_iff in I. destruct I as [I|I].
        -- exists n0, ty0, l0. split; [now left|]. split; [now apply skip_spec|]. auto.
        -- destruct (B x I) as (n & ty & l1 & J & Q). exists n, ty, l1. split; [now right|exact Q].
Qed.

(** a successful walk met no obstacle and returns exactly the files below *)
Lemma walk_ok : forall fuel c f cs0 p0 l, walk compile exec fuel c f cs0 p0 = WOk l ->
  (forall cs p, below c f cs0 p0 cs p ->
     exists i, s_stat f p = Some i /\ (i_type i = TDir -> passes c cs p i ->
       exists es cs', s_dir f p = Some es /\ enter compile c f cs p = Some cs'))
  /\ (forall p i, In (p, i) l <-> exists cs, below c f cs0 p0 cs p /\ s_stat f p = Some i /\ passes c cs p i
        /\ (i_type i = TReg \/ i_type i = TLnk /\ cf_fsyml (w_conf c) = true)).
Proof.
  induction fuel as [|fuel IH]; intros c f cs0 p0 l; cbn [walk]; [discriminate|].
  destruct (s_stat f p0) as [i0|] eqn:S0; [|destruct (cf_fsyml _); discriminate].
  (* when the walk ends here *)
  assert (Leaf : forall l0, (passes c cs0 p0 i0 -> i_type i0 <> TDir) ->
            (forall p i, In (p, i) l0 <-> p = p0 /\ i = i0 /\ passes c cs0 p0 i0 /\
               (i_type i0 = TReg \/ i_type i0 = TLnk /\ cf_fsyml (w_conf c) = true)) ->
            l = l0 ->
     (forall cs p, below c f cs0 p0 cs p ->
       exists i, s_stat f p = Some i /\ (i_type i = TDir -> passes c cs p i ->
         exists es cs', s_dir f p = Some es /\ enter compile c f cs p = Some cs'))
    /\ (forall p i, In (p, i) l <-> exists cs, below c f cs0 p0 cs p /\ s_stat f p = Some i /\ passes c cs p i
        /\ (i_type i = TReg \/ i_type i = TLnk /\ cf_fsyml (w_conf c) = true))).
  { intros l0 ND L ->. assert (B1 : forall cs p, below c f cs0 p0 cs p -> cs = cs0 /\ p = p0).
    { intros cs p B. apply below_inv in B. destruct B as [B|(i & es & cs1 & n & ty & A1 & A2 & A3 & _)]; [exact B|].
      rewrite S0 in A1. injection A1 as <-. now apply ND in A3. }
    split.
    - intros cs p B. destruct (B1 cs p B) as (-> & ->). exists i0. split; [exact S0|]. intros T P. now apply ND in P.
    - intros p i. rewrite L. split.
      + intros (-> & -> & P & T). exists cs0. repeat split; auto; try constructor; apply P.
      + intros (cs & B & S & P & T). destruct (B1 cs p B) as (-> & ->). rewrite S0 in S. injection S as <-. auto. }
  destruct (ignored exec c cs0 p0 i0) eqn:G.
  { intros X. injection X as X. apply (Leaf []); [| |auto].
    - intros P. apply passes_spec in P. destruct P; congruence.
    - intros p i. split; [intros []|]. intros (_ & _ & P & _). apply passes_spec in P. destruct P; congruence. }
  destruct (check_permissions (w_conf c) i0) eqn:CP; cbn [negb].
  2: { intros X. injection X as X. apply (Leaf []); [| |auto].
       - intros P. apply passes_spec in P. destruct P; congruence.
       - intros p i. split; [intros []|]. intros (_ & _ & P & _). apply passes_spec in P. destruct P; congruence. }
  assert (P0 : passes c cs0 p0 i0) by now apply passes_spec.
  destruct (i_type i0) eqn:T0.
  - intros X. injection X as X. apply (Leaf [(p0, i0)]); [discriminate| |auto].
    intros p i. cbn. split; [intros [E|[]]; injection E as <- <-; auto|intros (-> & -> & _); now left].
  - destruct (s_dir f p0) as [es|] eqn:D0; [|discriminate].
    destruct (enter compile c f cs0 p0) as [cs1|] eqn:E0; [|discriminate].
    intros X. destruct (entries_ok _ _ _ _ _ X) as (EA & EB). split.
    + intros cs p B. apply below_inv in B.
      destruct B as [(-> & ->)|(i & es' & cs1' & n & ty & A1 & A2 & A3 & A4 & A5 & A6 & A7 & A8)].
      * exists i0. split; [exact S0|]. intros _ _. exists es, cs1. auto.
      * rewrite S0 in A1. injection A1 as <-. rewrite D0 in A4. injection A4 as <-. rewrite E0 in A5. injection A5 as <-.
        destruct (EA n ty A6 A7) as (l1 & W & _). now apply (IH _ _ _ _ _ W).
    + intros p i. split.
      * intros I. destruct (EB _ I) as (n & ty & l1 & A6 & A7 & W & I1).
        apply (IH _ _ _ _ _ W) in I1. destruct I1 as (cs & B & Q). exists cs. split; [|exact Q].
        eapply below_trans; [|exact B]. econstructor; eauto. constructor.
      * intros (cs & B & S & P & T). apply below_inv in B.
        destruct B as [(-> & ->)|(i' & es' & cs1' & n & ty & A1 & A2 & A3 & A4 & A5 & A6 & A7 & A8)].
        -- rewrite S0 in S. injection S as <-. rewrite T0 in T. destruct T as [T|(T & _)]; discriminate.
        -- rewrite S0 in A1. injection A1 as <-. rewrite D0 in A4. injection A4 as <-. rewrite E0 in A5. injection A5 as <-.
           destruct (EA n ty A6 A7) as (l1 & W & J). apply J. apply (IH _ _ _ _ _ W). exists cs. auto.
  - destruct (cf_fsyml (w_conf c)) eqn:F; intros X; injection X as X.
    + apply (Leaf [(p0, i0)]); [discriminate| |auto].
      intros p i. cbn. split; [|intros (-> & -> & _); now left].
      intros [E|[]]; injection E as <- <-. split; [auto|]. split; [auto|]. split; [auto|]. right. auto.
    + apply (Leaf []); [discriminate| |auto]. intros p i. cbn. split; [intros []|]. intros (_ & _ & _ & [H|(_ & H)]); discriminate.
  - intros X. injection X as X. apply (Leaf []); [discriminate| |auto].
    intros p i. cbn. split; [intros []|]. intros (_ & _ & _ & [H|(H & _)]); discriminate.
Qed.

Lemma walk_args_ok : forall fuel c f args l, walk_args compile exec fuel c f args = WOk l ->
  exists ls, l = concat ls /\ Forall2 (fun a l1 => walk compile exec fuel c f (w_global c) a = WOk l1) args ls.
Proof.
  intros fuel c f. induction args as [|a args IH]; intros l; cbn [walk_args].
  - intros X. injection X as <-. exists []. split; [reflexivity|constructor].
  - destruct (walk compile exec fuel c f (w_global c) a) as [l1| | |] eqn:W; try discriminate.
    destruct (walk_args compile exec fuel c f args) as [l'| | |] eqn:X; try discriminate.
    intros Y. injection Y as <-. destruct (IH l' eq_refl) as (ls & -> & F). exists (l1 :: ls). split; [reflexivity|].
    now constructor.
Qed.

Lemma Forall2_in_l {A B} (P : A -> B -> Prop) l1 l2 x : Forall2 P l1 l2 -> In x l1 -> exists y, In y l2 /\ P x y.
Proof.
  induction 1 as [|a b l1 l2 H F IH]; intros []; [subst; exists b; split; [now left|exact H]|].
  destruct (IH H0) as (y & I & Q). exists y. split; [now right|exact Q].
Qed.
Lemma Forall2_in_r {A B} (P : A -> B -> Prop) l1 l2 y : Forall2 P l1 l2 -> In y l2 -> exists x, In x l1 /\ P x y.
Proof.
  induction 1 as [|a b l1 l2 H F IH]; intros []; [subst; exists a; split; [now left|exact H]|].
  destruct (IH H0) as (x & I & Q). exists x. split; [now right|exact Q].
Qed.
End Spec.
Arguments in_force {R}. Arguments reached {R}. Arguments taken {R}. Arguments passes {R}. Arguments entry_ok {R}. Arguments name_ok {R}.

(** ** C58: a walk that succeeds hands over exactly the files that are reached through
    directories and names that are not excluded *)
Theorem walk_exact : forall R compile exec fuel (c : wconf R) f args l,
  walk_args compile exec fuel c f args = WOk l ->
  forall p i, In (p, i) l <-> exists a cs, In a args /\ taken compile exec c f a p i cs.
Proof.
  intros R compile exec fuel c f args l H p i.
  destruct (walk_args_ok R compile exec _ _ _ _ _ H) as (ls & -> & F). rewrite in_concat. split.
  - intros (l1 & I1 & I). destruct (Forall2_in_r _ _ _ _ F I1) as (a & Ia & W).
    apply (walk_ok R compile exec) in W. destruct W as (_ & W). apply W in I. destruct I as (cs & B & S & P & T).
    exists a, cs. split; [exact Ia|]. split; auto. now apply reached_below.
  - intros (a & cs & Ia & [Rc S P T]). destruct (Forall2_in_l _ _ _ _ F Ia) as (l1 & I1 & W).
    exists l1. split; [exact I1|]. apply (walk_ok R compile exec) in W. destruct W as (_ & W). apply W.
    exists cs. split; [now apply reached_below|]. auto.
Qed.

(** ** C59: no path is handed over twice *)

(** directories list each name once; names are not empty and have no slash *)
Definition names_ok (f : fs) : Prop := forall d es, s_dir f d = Some es ->
  NoDup (map fst es) /\ Forall (fun n => n <> [] /\ ~ In (chr "/") n) (map fst es).

(** [p] is [d] or lies under it *)
Definition extends (d p : path) : Prop := exists r, p = d ++ r /\ (r = [] \/ hd_error r = Some (chr "/") \/ last d 0 = chr "/").

Lemma join_form d n : exists s, join d n = d ++ s ++ n /\ (s = [] \/ s = [chr "/"])
  /\ (s = [] -> last d 0 = chr "/").
Proof.
  unfold join. destruct (N.eqb_spec (last d 0) (chr "/")) as [E|E].
  - exists []. auto.
  - exists [chr "/"]. split; [reflexivity|]. split; [auto|]. discriminate.
Qed.
Lemma extends_join d n p : extends (join d n) p -> extends d p.
Proof.
  intros (r & -> & _). destruct (join_form d n) as (s & -> & Hs & Hd). rewrite <- !app_assoc.
  exists (s ++ n ++ r). split; [reflexivity|]. destruct Hs as [-> | ->]; [right; right; auto|right; left; reflexivity].
Qed.
Lemma last_app_ne {A} (l1 l2 : list A) x : l2 <> [] -> last (l1 ++ l2) x = last l2 x.
Proof.
  intros H. induction l1 as [|a l1 IH]; [reflexivity|]. cbn [app]. rewrite <- IH.
  destruct (l1 ++ l2) eqn:E; [apply app_eq_nil in E; tauto|reflexivity].
Qed.
Lemma last_In {A} (l : list A) x : l <> [] -> In (last l x) l.
Proof.
  induction l as [|a l IH]; [congruence|]. intros _. destruct l as [|b l]; [now left|]. right. now apply IH.
Qed.
(** two names without slash in front of nothing or a slash *)
Lemma name_split n1 n2 r1 r2 : ~ In (chr "/") n1 -> ~ In (chr "/") n2 ->
  (r1 = [] \/ hd_error r1 = Some (chr "/")) -> (r2 = [] \/ hd_error r2 = Some (chr "/")) ->
  n1 ++ r1 = n2 ++ r2 -> n1 = n2.
Proof.
  revert n2. induction n1 as [|x n1 IH]; intros [|y n2] H1 H2 R1 R2 E; [reflexivity| | |].
  - cbn [app] in E. subst r1. destruct R1 as [R1|R1]; [discriminate|]. injection R1 as ->. exfalso. apply H2. now left.
  - cbn [app] in E. subst r2. destruct R2 as [R2|R2]; [discriminate|]. injection R2 as ->. exfalso. apply H1. now left.
  - cbn [app] in E. injection E as -> E. f_equal. apply (IH n2); auto; intros I; [apply H1|apply H2]; now right.
Qed.
Lemma join_disjoint d n1 n2 p : n1 <> [] -> n2 <> [] -> ~ In (chr "/") n1 -> ~ In (chr "/") n2 ->
  extends (join d n1) p -> extends (join d n2) p -> n1 = n2.
Proof.
  intros N1 N2 S1 S2 (r1 & E1 & H1) (r2 & E2 & H2).
  assert (L : forall n, n <> [] -> ~ In (chr "/") n -> last (join d n) 0 <> chr "/").
  { intros n Nn Sn. unfold join. rewrite app_assoc, last_app_ne by exact Nn. intros X. apply Sn. rewrite <- X. now apply last_In. }
  assert (C1 : r1 = [] \/ hd_error r1 = Some (chr "/")) by (destruct H1 as [H1|[H1|H1]]; auto; now apply L in H1).
  assert (C2 : r2 = [] \/ hd_error r2 = Some (chr "/")) by (destruct H2 as [H2|[H2|H2]]; auto; now apply L in H2).
  subst p. unfold join in E2. rewrite <- !app_assoc in E2. apply app_inv_head in E2. apply app_inv_head in E2.
  now apply (name_split n1 n2 r1 r2).
Qed.

Lemma NoDup_app_intro {A} (l1 l2 : list A) : NoDup l1 -> NoDup l2 -> (forall x, In x l1 -> ~ In x l2) -> NoDup (l1 ++ l2).
Proof.
  induction 1 as [|x l1 NI N1 IH]; intros N2 D; [exact N2|]. cbn [app]. constructor.
  - rewrite in_app_iff. intros [I|I]; [auto|]. apply (D x); [now left|exact I].
  - apply IH; [exact N2|]. intros y I. apply D. now right.
Qed.

Lemma walk_extends R compile exec fuel (c : wconf R) f cs p0 l : walk compile exec fuel c f cs p0 = WOk l ->
  forall p i, In (p, i) l -> extends p0 p.
Proof.
  intros W p i I. apply (walk_ok R compile exec) in W. destruct W as (_ & W). apply W in I. destruct I as (cs' & B & _).
  clear W. enough (X : forall q, extends p q -> extends p0 q).
  { apply X. exists []. rewrite app_nil_r. auto. }
  clear - B. induction B as [|cs1 cs2 d i0 es n ty B IH]; auto. intros q X. apply IH. eapply extends_join, X.
Qed.

Lemma walk_nodup R compile exec : forall fuel (c : wconf R) f cs p0 l, names_ok f ->
  walk compile exec fuel c f cs p0 = WOk l -> NoDup (map fst l).
Proof.
  induction fuel as [|fuel IH]; intros c f cs p0 l NO; cbn [walk]; [discriminate|].
  destruct (s_stat f p0) as [i0|]; [|destruct (cf_fsyml _); discriminate].
  destruct (ignored _ _ _ _ _); [intros X; injection X as <-; constructor|].
  destruct (check_permissions _ _); cbn [negb]; [|intros X; injection X as <-; constructor].
  assert (One : forall x : path * finfo, NoDup (map fst [x])) by (intros x; constructor; [intros []|constructor]).
  destruct (i_type i0).
  - intros X. injection X as <-. apply One.
  - destruct (s_dir f p0) as [es|] eqn:D; [|discriminate]. destruct (enter compile c f cs p0) as [cs1|]; [|discriminate].
    destruct (NO _ _ D) as (ND & NF). clear D. revert l ND NF. induction es as [|(n, ty) es IHe]; intros l ND NF; cbn [entries fst].
    + intros X. injection X as <-. constructor.
    + cbn [map fst] in ND, NF. apply NoDup_cons_iff in ND. destruct ND as (NI & ND). apply Forall_cons_iff in NF. destruct NF as ((Nn & Sn) & NF).
      destruct (skip_entry c (n, ty)); [now apply IHe|]. destruct (skip_full c (join p0 n)); [now apply IHe|].
      destruct (walk compile exec fuel c f cs1 (join p0 n)) as [l1| | |] eqn:W; try discriminate.
      destruct (entries _ c p0 es) as [l2| | |] eqn:X; try discriminate. intros Y. injection Y as <-.
      rewrite map_app. apply NoDup_app_intro; [eapply IH; eauto|now apply IHe|].
      intros p I1 I2. apply in_map_iff in I1, I2. destruct I1 as ((p1 & i1) & <- & I1), I2 as ((p2 & i2) & E & I2).
      cbn [fst] in E |- *. subst p2. apply (entries_ok R) in X. destruct X as (_ & X).
      destruct (X _ I2) as (n2 & ty2 & l3 & J & _ & W2 & I3).
      assert (In2 : In n2 (map fst es)) by (apply in_map_iff; exists (n2, ty2); auto).
      rewrite Forall_forall in NF. destruct (NF n2 In2) as (Nn2 & Sn2).
      apply NI. replace n with n2; [exact In2|]. symmetry. cbn [fst]. apply (join_disjoint p0 n n2 p1); auto.
      * eapply walk_extends; eauto.
      * eapply walk_extends; eauto.
  - destruct (cf_fsyml _); intros X; injection X as <-; [apply One|constructor].
  - intros X. injection X as <-. constructor.
Qed.

(** two arguments neither of which lies under the other *)
Definition apart (a b : path) : Prop := forall p, extends a p -> ~ extends b p.

Theorem walk_once_partial : forall R compile exec fuel (c : wconf R) f args l,
  names_ok f -> ForallOrdPairs apart args ->
  walk_args compile exec fuel c f args = WOk l -> NoDup (map fst l).
Proof.
  intros R compile exec fuel c f args l NO AP H.
  destruct (walk_args_ok R compile exec _ _ _ _ _ H) as (ls & -> & F). clear H.
  induction F as [|a l1 args ls W F IH]; [constructor|]. inversion AP as [|x y A AP']; subst.
  cbn [concat]. rewrite map_app. apply NoDup_app_intro; [eapply walk_nodup; eauto|now apply IH|].
  intros p I1 I2. apply in_map_iff in I1, I2. destruct I1 as ((p1 & i1) & <- & I1), I2 as ((p2 & i2) & E & I2).
  cbn [fst] in E |- *. subst p2. apply in_concat in I2. destruct I2 as (l2 & J & I2).
  destruct (Forall2_in_r _ _ _ _ F J) as (b & Jb & W2). rewrite Forall_forall in A.
  apply (A b Jb p1); eapply walk_extends; eauto.
Qed.

(** ** C60: which walks succeed *)

(** nothing that is met fails: every path has a status, every directory can be opened and
    its .gitignore can be converted *)
Definition undisturbed {R} compile exec (c : wconf R) f a : Prop :=
  forall cs p, reached compile exec c f a cs p ->
    exists i, s_stat f p = Some i /\ (i_type i = TDir -> passes exec c cs p i ->
      exists es cs', s_dir f p = Some es /\ in_force compile c f cs p cs').
(** the directory tree is finite: [depth] decreases from a directory to its entries *)
Definition finite_tree {R} (c : wconf R) f (depth : path -> nat) : Prop :=
  forall d es n ty, s_dir f d = Some es -> In (n, ty) es -> entry_ok c d n ty -> (depth (join d n) < depth d)%nat.

Lemma walk_total R compile exec (c : wconf R) f depth a : finite_tree c f depth -> undisturbed compile exec c f a ->
  forall fuel cs p, reached compile exec c f a cs p -> (depth p < fuel)%nat ->
  exists l, walk compile exec fuel c f cs p = WOk l.
Proof.
  intros FT U. induction fuel as [|fuel IH]; intros cs p Rc D; [lia|]. cbn [walk].
  destruct (U cs p Rc) as (i & S & Dr). rewrite S.
  destruct (ignored exec c cs p i) eqn:G; [eauto|]. destruct (check_permissions (w_conf c) i) eqn:CP; cbn [negb]; [|eauto].
  assert (P : passes exec c cs p i) by now apply passes_spec.
  destruct (i_type i) eqn:T; eauto; [|destruct (cf_fsyml _); eauto].
  destruct (Dr eq_refl P) as (es & cs' & E1 & E2). pose proof E2 as E3. apply enter_spec in E3. rewrite E1, E3.
  assert (Sub : forall n ty, In (n, ty) es -> entry_ok c p n ty -> exists l, walk compile exec fuel c f cs' (join p n) = WOk l).
  { intros n ty I K. apply IH; [|specialize (FT p es n ty E1 I K); lia]. econstructor; eauto. }
  clear E1 E2 E3 IH. induction es as [|(n, ty) es IHe]; cbn [entries fst]; [eauto|].
  destruct IHe as (l' & E'); [intros n' ty' I; apply (Sub n' ty'); now right|]. rewrite E'.
  destruct (skip_entry c (n, ty)) eqn:S1; [eauto|]. destruct (skip_full c (join p n)) eqn:S2; [eauto|].
  destruct (Sub n ty) as (l1 & E); [now left|now apply skip_spec|]. rewrite E. eauto.
Qed.

(** on a finite tree a run gets through iff nothing it meets fails *)
Theorem walk_succeeds_partial : forall R compile exec (c : wconf R) f depth args,
  finite_tree c f depth ->
  ((exists fuel l, walk_args compile exec fuel c f args = WOk l)
   <-> forall a, In a args -> undisturbed compile exec c f a).
Proof.
  intros R compile exec c f depth args FT. split.
  - intros (fuel & l & H) a Ia cs p Rc. destruct (walk_args_ok R compile exec _ _ _ _ _ H) as (ls & _ & F).
    destruct (Forall2_in_l _ _ _ _ F Ia) as (l1 & _ & W). apply (walk_ok R compile exec) in W. destruct W as (W & _).
    apply reached_below in Rc. destruct (W cs p Rc) as (i & S & D). exists i. split; [exact S|]. intros T P.
    destruct (D T P) as (es & cs' & E & N). exists es, cs'. split; [exact E|now apply enter_spec].
  - intros U. exists (S (list_max (map depth args))).
    assert (M : forall a, In a args -> (depth a < S (list_max (map depth args)))%nat).
    { intros a I. apply Nat.lt_succ_r. pose proof (proj1 (list_max_le (map depth args) _) (Nat.le_refl _)) as L.
      rewrite Forall_forall in L. apply L. now apply in_map. }
    remember (S (list_max (map depth args))) as fuel. clear Heqfuel.
    induction args as [|a args IH]; cbn [walk_args]; [eauto|].
    destruct (walk_total R compile exec c f depth a FT (U a (or_introl eq_refl)) fuel (w_global c) a) as (l1 & E);
      [constructor|apply M; now left|]. rewrite E.
    destruct IH as (l' & E'); [intros b I; apply U; now right|intros b I; apply M; now right|]. rewrite E'. eauto.
Qed.

(** ** C61, C62, C63: names, recursion, regular expressions *)

(** what was given by name or found in a directory by names that are not excluded *)
Theorem hidden_skipped : forall R compile exec (c : wconf R) f a cs p,
  reached compile exec c f a cs p ->
  exists ns, p = fold_left join ns a /\
    Forall (fun n => ~ In n (w_names c) /\ (w_hidden c = false -> hd_error n <> Some (chr "."))) ns.
Proof.
  intros R compile exec c f a cs p. induction 1 as [|cs cs' d i es n ty Rc (ns & -> & F) S T P D E I K].
  - exists []. split; [reflexivity|constructor].
  - exists (ns ++ [n]). split; [now rewrite fold_left_app|]. apply Forall_app. split; [exact F|].
    constructor; [|constructor]. destruct K as [[K1 K2] _ _ _]. split; [exact K1|].
    intros H. destruct K2 as [K2|K2]; [congruence|exact K2].
Qed.

(** the type found in the directory is the type of the thing itself; this is what not following
    symbolic links gives *)
Definition types_agree (f : fs) : Prop := forall d es n ty i,
  s_dir f d = Some es -> In (n, ty) es -> s_stat f (join d n) = Some i -> i_type i = TDir -> ty = TDir.

Theorem no_recurse_partial : forall R compile exec (c : wconf R) f a cs p,
  w_recurse c = false -> types_agree f -> reached compile exec c f a cs p ->
  p = a \/ exists n, p = join a n.
Proof.
  intros R compile exec c f a cs p NR TA H. destruct H as [|cs cs' d i es n ty Rc S T P D E I K]; [now left|].
  right. exists n. f_equal. destruct Rc as [|cs0 cs0' d0 i0 es0 n0 ty0 Rc0 S0 T0 P0 D0 E0 I0 K0]; [reflexivity|].
  exfalso. pose proof (TA d0 es0 n0 ty0 i D0 I0 S T) as ->. destruct K0 as [_ K0 _ _]. specialize (K0 eq_refl). congruence.
Qed.

(** every file that is compared matches the whitelist and does not match the ignore
    expression, unless it was given as an argument *)
Theorem regex_filter_partial : forall R compile exec (c : wconf R) f a p i cs,
  taken compile exec c f a p i cs ->
  p = a \/ ((forall g, w_wl c = Some g -> g p = true) /\ (forall g, w_ig c = Some g -> g p = false)).
Proof.
  intros R compile exec c f a p i cs [H _ _ _]. destruct H as [|cs cs' d i0 es n ty Rc S T P D E I K]; [now left|].
  right. destruct K as [_ _ K1 K2]. auto.
Qed.

(** * Witnesses *)

(** a file system given by a list: directories with their entries, files with their size *)
Inductive node := NDir (es : list (path * ftype)) | NBad | NFile (size : Z).
Fixpoint look (l : list (path * node)) (p : path) : option node :=
  match l with [] => None | (q, n) :: r => if list_eq_dec N.eq_dec q p then Some n else look r p end.
Definition list_fs (l : list (path * node)) (git : list (path * str)) : fs :=
  mkFS (fun p => match look l p with
                 | Some (NFile s) => Some (mkInfo TReg s 5 5 0x0644)
                 | Some _ => Some (mkInfo TDir 0 5 5 0x0755)
                 | None => None
                 end)
       (fun p => match look l p with Some (NDir es) => Some es | _ => None end)
       (fun p => match find (fun e => if list_eq_dec N.eq_dec (fst e) p then true else false) git with
                 | Some (_, s) => Some s | None => None end).
(** a toy matcher: one expression, one text *)
Definition toy (r s : str) : bool :=
  if list_eq_dec N.eq_dec r (lit "(^|/)junk$") then (if list_eq_dec N.eq_dec s (lit "junk") then true else false) else false.
Definition wbase (follow : bool) : wconf str :=
  mkW (mkConf 0 0 7 [] None false follow) true false default_names None None true [mkCtx (lit "/") []].

Definition tree1 : list (path * node) :=
  [ (lit "d", NDir [(lit ".", TDir); (lit "..", TDir); (lit ".x", TReg); (lit "a", TReg); (lit "junk", TReg); (lit "sub", TDir); (lit "gone", TLnk)]);
    (lit "d/a", NFile 3); (lit "d/.x", NFile 3); (lit "d/junk", NFile 3); (lit "d/gone", NFile 4);
    (lit "d/sub", NDir [(lit "b", TReg); (lit ".gitignore", TReg)]); (lit "d/sub/b", NFile 3) ].
Definition fs1 := list_fs tree1 [(lit "d", lit "# rules" ++ [10] ++ lit "junk" ++ [10])].

Example walk_ex :
  match walk_args (fun r => Some r) toy 5 (wbase false) fs1 [lit "d"] with
  | WOk l => map fst l | _ => []
  end = [lit "d/a"; lit "d/sub/b"; lit "d/gone"].
Proof. vm_compute. reflexivity. Qed.

Lemma look_in l p n : look l p = Some n -> In (p, n) l.
Proof.
  induction l as [|(q, m) l IH]; cbn [look]; [discriminate|].
  destruct (list_eq_dec N.eq_dec q p) as [->|NE]; [intros E; injection E as ->; now left|]. right. auto.
Qed.
(** [names_ok] for such a file system, by computation *)
Fixpoint nodupb (l : list path) : bool :=
  match l with [] => true | x :: r => (if in_dec (list_eq_dec N.eq_dec) x r then false else true) && nodupb r end.
Lemma nodupb_ok l : nodupb l = true -> NoDup l.
Proof.
  induction l as [|x l IH]; cbn [nodupb]; [constructor|]. intros H. apply andb_true_iff in H. destruct H as (A & B).
  constructor; [now destruct (in_dec (list_eq_dec N.eq_dec) x l)|auto].
Qed.
Definition names_okb (es : list (path * ftype)) : bool :=
  nodupb (map fst es)
  && forallb (fun n => match n with [] => false | _ => negb (existsb (N.eqb (chr "/")) n) end) (map fst es).
Lemma names_okb_ok l git : forallb (fun e => match snd e with NDir es => names_okb es | _ => true end) l = true ->
  names_ok (list_fs l git).
Proof.
  intros H d es E. cbn in E. destruct (look l d) as [[es'| |]|] eqn:L; try discriminate. injection E as ->.
  apply look_in in L. rewrite forallb_forall in H. specialize (H _ L). cbn [snd] in H. unfold names_okb in H.
  apply andb_true_iff in H. destruct H as (H1 & H2). split.
  - now apply nodupb_ok.
  - apply Forall_forall. intros n I. rewrite forallb_forall in H2. specialize (H2 n I). destruct n as [|x n]; [discriminate|].
    split; [discriminate|]. intros J. apply negb_true_iff in H2. apply not_true_iff_false in H2. apply H2.
    apply existsb_exists. exists (chr "/"). split; [exact J|apply N.eqb_refl].
Qed.
Example names_ok_ex : names_ok fs1.
Proof. apply names_okb_ok. vm_compute. reflexivity. Qed.

(** C59: the same file is handed over twice when the arguments overlap *)
Theorem walk_once_refuted : exists (c : wconf str) f args l,
  names_ok f /\ NoDup args /\ walk_args (fun r => Some r) toy 5 c f args = WOk l /\ ~ NoDup (map fst l).
Proof.
  exists (wbase false), fs1, [lit "d/a"; lit "d"],
    [(lit "d/a", mkInfo TReg 3 5 5 0x0644); (lit "d/a", mkInfo TReg 3 5 5 0x0644);
     (lit "d/sub/b", mkInfo TReg 3 5 5 0x0644); (lit "d/gone", mkInfo TReg 4 5 5 0x0644)].
  split; [exact names_ok_ex|]. split; [repeat constructor; cbn; intuition discriminate|].
  split; [vm_compute; reflexivity|]. intros N. inversion N as [|x y NI _]. apply NI. now left.
Qed.

(** C60: one directory that cannot be opened, or one entry that has vanished since its
    directory was read, ends the whole run *)
Definition tree2 : list (path * node) :=
  [ (lit "d", NDir [(lit "a", TReg); (lit "locked", TDir); (lit "z", TReg)]); (lit "d/a", NFile 3); (lit "d/locked", NBad); (lit "d/z", NFile 3) ].
Definition tree3 : list (path * node) :=
  [ (lit "d", NDir [(lit "a", TReg); (lit "gone", TReg); (lit "z", TReg)]); (lit "d/a", NFile 3); (lit "d/z", NFile 3) ].
Theorem walk_succeeds_refuted :
  (exists l, walk_args (fun r => Some r) toy 9 (wbase false) (list_fs tree2 []) [lit "d"] = WErr l)
  /\ (exists l, walk_args (fun r => Some r) toy 9 (wbase false) (list_fs tree3 []) [lit "d"] = WErr l)
  /\ walk_args (fun r => Some r) toy 9 (wbase true) (list_fs tree3 []) [lit "d"] = WUB.
Proof. split; [|split]; [eexists; vm_compute; reflexivity|eexists; vm_compute; reflexivity|vm_compute; reflexivity]. Qed.

(** C60: a link to its own directory is followed without end *)
Definition loop_fs : fs :=
  mkFS (fun _ => Some (mkInfo TDir 0 5 5 0x0755)) (fun _ => Some [(lit "l", TLnk)]) (fun _ => None).
Theorem walk_loop_refuted : forall fuel, walk_args (fun r : str => Some r) toy fuel (wbase true) loop_fs [lit "/d"] = WFuel.
Proof.
  assert (H : forall fuel p, walk (fun r : str => Some r) toy fuel (wbase true) loop_fs [mkCtx (lit "/") []] p = WFuel).
  { induction fuel as [|fuel IH]; intros p; [reflexivity|]. cbn [walk loop_fs s_stat].
    assert (G : ignored toy (wbase true) [mkCtx (lit "/") []] p (mkInfo TDir 0 5 5 0x0755) = false).
    { unfold ignored, ignore_match. cbn [match_chain]. destruct (after_base _ _); reflexivity. }
    rewrite G. replace (check_permissions (w_conf (wbase true)) (mkInfo TDir 0 5 5 0x0755)) with true by reflexivity.
    cbn [negb i_type]. change (s_dir loop_fs p) with (Some [(lit "l", TLnk)]).
    replace (enter (fun r : str => Some r) (wbase true) loop_fs [mkCtx (lit "/") []] p) with (Some [mkCtx (R := str) (lit "/") []]) by reflexivity.
    cbn [entries fst]. replace (skip_entry (wbase true) (lit "l", TLnk)) with false by reflexivity.
    replace (skip_full (wbase true) (join p (lit "l"))) with false by reflexivity. now rewrite IH. }
  intros fuel. cbn [walk_args w_global wbase]. now rewrite H.
Qed.

(** C62: without recursion, a link to a directory is followed all the same *)
Definition tree4 : list (path * node) :=
  [ (lit "d", NDir [(lit "lnk", TLnk); (lit "sub", TDir)]); (lit "d/lnk", NDir [(lit "a", TReg)]); (lit "d/lnk/a", NFile 3) ].
Theorem no_recurse_refuted :
  let c := mkW (mkConf 0 0 7 [] None false true) false false default_names None None true [] in
  exists i, walk_args (fun r : str => Some r) toy 9 c (list_fs tree4 []) [lit "d"] = WOk [(lit "d/lnk/a", i)].
Proof. eexists. vm_compute. reflexivity. Qed.

(** C63: the whitelist is applied to directories as well: a file that matches it is left out
    because its directory does not *)
Definition ends_c (p : path) : bool := match rev p with a :: b :: _ => (a =? chr "c") && (b =? chr ".") | _ => false end.
Definition tree5 : list (path * node) :=
  [ (lit "d", NDir [(lit "src", TDir); (lit "m.c", TReg)]); (lit "d/m.c", NFile 3); (lit "d/src", NDir [(lit "a.c", TReg)]); (lit "d/src/a.c", NFile 3) ].
Theorem regex_filter_refuted :
  let c wl := mkW (mkConf 0 0 7 [] None false false) true false default_names None wl true [] in
  let run wl := match walk_args (fun r : str => Some r) toy 9 (c wl) (list_fs tree5 []) [lit "d"] with WOk l => map fst l | _ => [] end in
  run None = [lit "d/src/a.c"; lit "d/m.c"] /\ ends_c (lit "d/src/a.c") = true /\ run (Some ends_c) = [lit "d/m.c"].
Proof. vm_compute. auto. Qed.

(** the hypotheses of the theorems above, on the first tree *)
Definition depth1 (p : path) : nat := 9 - length (filter (N.eqb (chr "/")) p).
Lemma forallb_dirs {R} (c : wconf R) l git (depth : path -> nat) :
  forallb (fun e => match snd e with
    | NDir es => forallb (fun x => skip_entry c x || Nat.ltb (depth (join (fst e) (fst x))) (depth (fst e))) es
    | _ => true end) l = true -> finite_tree c (list_fs l git) depth.
Proof.
  intros H d es n ty D I K. cbn in D. destruct (look l d) as [[es'| |]|] eqn:L; try discriminate. injection D as ->.
  apply look_in in L. rewrite forallb_forall in H. specialize (H _ L). cbn [snd fst] in H. rewrite forallb_forall in H.
  specialize (H _ I). cbn [fst] in H. apply skip_spec in K. destruct K as (K & _). rewrite K in H. cbn [orb] in H.
  now apply Nat.ltb_lt in H.
Qed.
Example finite_ex : finite_tree (wbase false) fs1 depth1.
Proof. apply forallb_dirs. vm_compute. reflexivity. Qed.
Example undisturbed_ex : undisturbed (fun r => Some r) toy (wbase false) fs1 (lit "d").
Proof.
  apply (proj1 (walk_succeeds_partial str (fun r => Some r) toy (wbase false) fs1 depth1 [lit "d"] finite_ex)); [|now left].
  eexists 5%nat, _. vm_compute. reflexivity.
Qed.
Example apart_ex : ForallOrdPairs apart [lit "d/a"; lit "e"].
Proof.
  constructor; [|constructor; [constructor|constructor]]. constructor; [|constructor].
  intros p (r & -> & _) (r' & E & _). discriminate E.
Qed.
Example taken_ex : exists i cs, taken (fun r => Some r) toy (wbase false) fs1 (lit "d") (lit "d/sub/b") i cs.
Proof.
  assert (W : exists l i, walk_args (fun r => Some r) toy 5 (wbase false) fs1 [lit "d"] = WOk l /\ In (lit "d/sub/b", i) l).
  { eexists _, _. split; [vm_compute; reflexivity|]. right. left. reflexivity. }
  destruct W as (l & i & W & I). apply (walk_exact _ _ _ _ _ _ _ _ W) in I. destruct I as (a & cs & [<-|[]] & T). eauto.
Qed.
Example types_agree_ex : types_agree (list_fs tree5 []).
Proof.
  intros d es n ty i D I S T. unfold list_fs in D. cbn [s_dir] in D. destruct (look tree5 d) as [[es'| |]|] eqn:L; try discriminate. injection D as ->.
  apply look_in in L. cbn [tree5 In] in L. destruct L as [L|[L|[L|[L|[]]]]]; try discriminate L; injection L as <- <-.
  - destruct I as [I|[I|[]]]; injection I as <- <-; [reflexivity|]. vm_compute in S. injection S as <-. discriminate.
  - destruct I as [I|[]]; injection I as <- <-. vm_compute in S. injection S as <-. discriminate.
Qed.

Print Assumptions walk_exact.
Print Assumptions walk_once_partial.
Print Assumptions walk_once_refuted.
Print Assumptions walk_succeeds_partial.
Print Assumptions walk_succeeds_refuted.
Print Assumptions walk_loop_refuted.
Print Assumptions hidden_skipped.
Print Assumptions no_recurse_partial.
Print Assumptions no_recurse_refuted.
Print Assumptions regex_filter_partial.
Print Assumptions regex_filter_refuted.
