(** Property C158: cleaning up an import with a priority path, as the README shows. *)
From Coq Require Import String Ascii Sorting.Permutation.
From Verif Require Import Util HeapModel IgnoreModel HumanModel CollectModel ProcessModel ReportSpec ReportProofs ReportGroups PropReport FileModel PropFile PropEnd PcreSpec IgnoreSpec WalkModel PropWalk PropIgnore PropIgnoreFile PropRun
  ConfigModel PropConfig OutputModel PropOutput ImageModel PropImage FormatModel JsonModel PropJson MainModel PropMain PropWhole PropRounds.
Local Open Scope list_scope.
Local Open Scope Z_scope.

(** ** Specification *)
(** [-p P] is the last option [-p] of the command line *)
Definition priority (os : list opt) (P : str) : Prop := exists l r, os = l ++ (chr "p", P) :: r /\ ~ given r "p".
(** the path begins with the text [P], letter case ignored with [-c] *)
Definition imported (os : list opt) (P : str) (p : path) : Prop :=
  (given os "c" /\ begins true P p) \/ (~ given os "c" /\ begins false P p).
(** [n] rounds of running the program and removing, of what [cut] puts out, the lines that [grep]
    lets through ([K]) *)
Inductive cleanings {R vec} (os : list opt) (e : getopt_end) (args : list path) (u : setup R) (K : path -> Prop) : nat -> world R vec -> world R vec -> Prop :=
| cleanings_none w : cleanings os e args u K 0 w w
| cleanings_more n w w1 w' fuel t : steady w os e args u -> ftwin_main w fuel os e args = Exit 0 (OText t) ->
    o_content w1 = o_content w ->
    (forall p, compared w1 u args p <-> compared w u args p /\ ~ (removed (g_sep (u_cfg u)) t p /\ K p)) ->
    cleanings os e args u K n w1 w' -> cleanings os e args u K (S n) w w'.
(** [l] lists the compared files with the content [c] that are in [K], each once *)
Definition copies_in {R vec} (w : world R vec) (u : setup R) (args : list path) (c : bytes) (K : path -> Prop) (l : list path) : Prop :=
  NoDup l /\ forall p, In p l <-> compared w u args p /\ o_content w p = c /\ K p.

(** ** Proof *)
Lemma last_p_unique : forall (l : list opt) x r l' P r', l ++ x :: r = l' ++ (chr "p", P) :: r' -> fst x = chr "p" ->
  (forall y v, In y r -> ~ sets_str "p" y v) -> ~ given r' "p" -> x = (chr "p", P).
Proof.
  induction l as [|a l IH]; intros x r l' P r' E FX N N'.
  - destruct l' as [|b l']; cbn in E; [injection E as -> _; reflexivity|]. injection E as -> ->. exfalso.
    apply (N (chr "p", P) (Some P)); [apply in_app_iff; right; now left|split; reflexivity].
  - destruct l' as [|b l']; cbn in E.
    + injection E as -> <-. exfalso. apply N'. exists (snd x). apply in_app_iff. right. left. rewrite <- FX. now destruct x.
    + injection E as -> E. eauto.
Qed.
Lemma priority_conf {R vec} (w : world R vec) os e args u P : accepted w os e args u -> plain_run os -> priority os P ->
  cf_ppath (w_conf (u_conf u)) = Some P /\ forall p, begins (cf_icase (w_conf (u_conf u))) P p <-> imported os P p.
Proof.
  intros A (_ & _ & _ & NI) (l & r & EO & NR). destruct (accepted_cfg w os e args u A) as (PO & _). destruct (settings_exact _ _ _ PO).
  assert (C : cf_ppath (w_conf (u_conf u)) = g_prio (u_cfg u) /\ cf_icase (w_conf (u_conf u)) = is_set (g_mask (u_cfg u)) OPTION_ICASE).
  { clear -A. unfold accepted, parse_args in A. destruct (parse_opts _ os) as [g| | |] eqn:P; try discriminate.
    destruct args as [|a args]; [discriminate|]. destruct (fill_gids _ _); [|discriminate]. destruct (global_ignores _); [|discriminate].
    destruct (compile_opt _ _ (g_ig g)); [|discriminate]. destruct (compile_opt _ _ (g_wl g)); [|discriminate].
    destruct (compile_opt _ _ (g_ar g)); [|discriminate]. injection A as <-. split; reflexivity. }
  destruct C as (C1 & C2). rewrite C1, C2. split.
  - destruct se_prio as [(l0 & x & r0 & E0 & (FX & V) & N)|(_ & N)].
    + rewrite V. f_equal. rewrite EO in E0. rewrite (last_p_unique l0 x r0 l P r (eq_sym E0) FX N NR). reflexivity.
    + exfalso. apply (N (chr "p", P) (Some P)); [rewrite EO; apply in_app_iff; right; now left|split; reflexivity].
  - intro p. unfold imported. destruct (is_set (g_mask (u_cfg u)) OPTION_ICASE).
    + assert (G : given os "c") by (destruct (proj1 se_icase eq_refl); tauto). tauto.
    + assert (G : ~ given os "c") by (intro G; assert (false = true) by (apply se_icase; now left); discriminate). tauto.
Qed.

(** ** C158 *)
(** One run puts an imported copy first wherever there is one: of every content that an imported
    and another compared file have, exactly one file is removed, and it is an imported one. *)
Theorem import_round_partial : forall R vec (w : world R vec) fuel os e args u t P, steady w os e args u -> priority os P -> ftwin_main w fuel os e args = Exit 0 (OText t) ->
  forall p q, compared w u args p -> compared w u args q -> p <> q -> o_content w p = o_content w q -> imported os P p ->
    exists r, compared w u args r /\ o_content w r = o_content w p /\ imported os P r /\ removed (g_sep (u_cfg u)) t r /\
       forall r', o_content w r' = o_content w p -> removed (g_sep (u_cfg u)) t r' -> r' = r.
Proof.
  intros R vec w fuel os e args u t P ST PR E p q Cp Cq N EQ IP.
  destruct (one_round_partial R vec w fuel os e args u t ST E p Cp) as (S & _). destruct S as (r & Cr & Er & Rr & U). { exists q. repeat split; auto. }
  exists r. split; [exact Cr|]. split; [exact Er|]. split; [|split; [exact Rr|exact U]].
  destruct (list_eq_dec N.eq_dec r p) as [->|Nr]; [exact IP|].
  destruct (run_groups w fuel os e args u t ST E) as (gs & RM & L2 & ND & _ & EX & FT).
  destruct (priority_conf w os e args u P (proj1 (st_args _ _ _ _ _ ST)) (proj1 (st_opts _ _ _ _ _ ST)) PR) as (HP & HB).
  destruct (proj2 (EX r p Nr) (conj Cr (conj Cp Er))) as (g & x & y & I & Ix & Iy & Ex & Ey).
  apply RM in Rr. destruct Rr as (f & m & I' & Ef).
  assert (X : g = f :: m). { apply (same_group f_path gs g (f :: m) r); auto; [rewrite <- Ex; apply in_map; exact Ix|left; exact Ef]. }
  subst g. destruct (FT P HP _ I) as (a & b & AB & HA & HN). destruct a as [|z a].
  - cbn [app] in AB. subst b. exfalso. apply (HN y Iy). apply HB. rewrite Ey. exact IP.
  - cbn [app] in AB. injection AB as <- AB. rewrite <- Ef. apply HB. apply HA. now left.
Qed.
Print Assumptions import_round_partial.

Lemma clean_one {R vec} (w w1 : world R vec) fuel os e args u t P K c li lo : steady w os e args u -> priority os P -> ftwin_main w fuel os e args = Exit 0 (OText t) ->
  (forall p, compared w u args p -> (K p <-> imported os P p)) ->
  o_content w1 = o_content w -> (forall p, compared w1 u args p <-> compared w u args p /\ ~ (removed (g_sep (u_cfg u)) t p /\ K p)) ->
  copies_in w u args c K li -> copies_in w u args c (fun p => ~ K p) lo ->
  copies_in w1 u args c (fun p => ~ K p) lo /\
  exists l1, copies_in w1 u args c K l1 /\ incl l1 li /\ length l1 = Nat.max (match lo with [] => Nat.min 1 (length li) | _ => 0 end) (length li - 1).
Proof.
  intros ST PR E HK EC CM (ND & HL) (NDo & HO). split.
  { split; [exact NDo|]. intro p. rewrite CM, EC, HO. tauto. }
  assert (ONE : forall p q, In p li -> compared w u args q -> o_content w q = c -> p <> q -> exists r, In r li /\ removed (g_sep (u_cfg u)) t r /\
      forall r', o_content w r' = c -> removed (g_sep (u_cfg u)) t r' -> r' = r).
  { intros p q Ip Cq Xq N. apply HL in Ip. destruct Ip as (Cp & Xp & Kp).
    destruct (import_round_partial R vec w fuel os e args u t P ST PR E p q Cp Cq N ltac:(congruence) (proj1 (HK p Cp) Kp)) as (r & Cr & Xr & Ir & Rr & U).
    exists r. split; [apply HL; split; [exact Cr|]; split; [congruence|apply HK; auto]|]. split; [exact Rr|]. intros r' X' R'. apply U; congruence. }
  assert (DROP : forall r, In r li -> removed (g_sep (u_cfg u)) t r -> (forall r', o_content w r' = c -> removed (g_sep (u_cfg u)) t r' -> r' = r) ->
      exists l1, copies_in w1 u args c K l1 /\ incl l1 li /\ length li = S (length l1)).
  { intros r Ir Rr U. assert (Kr : K r) by (apply HL; exact Ir). destruct (in_split r _ Ir) as (a & b & EL). rewrite EL in *.
    assert (N : ~ In r (a ++ b)) by (apply NoDup_remove_2; exact ND).
    exists (a ++ b). split; [split; [eapply NoDup_remove_1; exact ND|]|split].
    + intro x. rewrite CM, EC. split.
      * intro Ix. assert (Iy : In x (a ++ r :: b)) by (apply in_app_iff; apply in_app_iff in Ix; destruct Ix; [auto|right; now right]). apply HL in Iy. destruct Iy as (Cx & Xx & Kx).
        split; [split; [exact Cx|]|split; [exact Xx|exact Kx]]. intros (Rx & _). apply N. rewrite (U x Xx Rx) in Ix. exact Ix.
      * intros ((Cx & Nx) & Xx & Kx). assert (Iy : In x (a ++ r :: b)) by (apply HL; auto). apply in_app_iff. apply in_app_iff in Iy. destruct Iy as [|[<-|]]; auto. tauto.
    + intros x Ix. apply in_app_iff. apply in_app_iff in Ix. destruct Ix; [auto|right; now right].
    + rewrite !app_length. cbn. lia. }
  destruct li as [|p li].
  { exists []. split; [split; [constructor|]|split; [intros x []|destruct lo; reflexivity]]. intro p. split; [intros []|]. rewrite CM, EC. intros ((C & _) & X & Kp). apply HL. auto. }
  destruct lo as [|o lo].
  - destruct li as [|q li].
    + exists [p]. split; [split; [exact ND|]|split; [intro; auto|reflexivity]]. assert (Ip : In p [p]) by now left. apply HL in Ip. destruct Ip as (Cp & Xp & Kp).
      assert (NK : forall q, compared w u args q -> o_content w q = c -> q = p).
      { intros q Cq Xq. destruct (list_eq_dec N.eq_dec q p) as [|N]; [assumption|]. destruct (ONE p q ltac:(now left) Cq Xq ltac:(congruence)) as (r & _ & Rr & U).
        assert (D : K q \/ ~ K q).
        { rewrite (HK q Cq). destruct (priority_conf w os e args u P (proj1 (st_args _ _ _ _ _ ST)) (proj1 (st_opts _ _ _ _ _ ST)) PR) as (_ & HB).
          rewrite <- HB, <- same_prefix_begins. destruct (same_prefix _ P q); [now left|now right]. }
        destruct D as [D|D]; [|exfalso; apply (proj2 (HO q)); auto]. assert (Iq : In q [p]) by (apply HL; auto). destruct Iq as [|[]]; auto. }
      destruct (one_round_partial R vec w fuel os e args u t ST E p Cp) as (_ & U).
      assert (NR : ~ removed (g_sep (u_cfg u)) t p) by (apply U; intros q Cq Xq; apply NK; congruence).
      intro x. rewrite CM, EC. split.
      * intros [<-|[]]. tauto.
      * intros ((Cx & _) & Xx & _). left. symmetry. auto.
    + assert (Iq : In q (p :: q :: li)) by (right; now left). apply HL in Iq. destruct Iq as (Cq & Xq & _).
      destruct (ONE p q ltac:(now left) Cq Xq) as (r & Ir & Rr & U). { intro X. subst. inversion ND as [|? ? N1 _]. apply N1. now left. }
      destruct (DROP r Ir Rr U) as (l1 & H1 & I1 & L1). exists l1. split; [exact H1|]. split; [exact I1|]. cbn [length] in *. lia.
  - assert (Io : In o (o :: lo)) by now left. apply HO in Io. destruct Io as (Co & Xo & Ko).
    destruct (ONE p o ltac:(now left) Co Xo) as (r & Ir & Rr & U). { intros ->. apply Ko. apply (HL o). now left. }
    destruct (DROP r Ir Rr U) as (l1 & H1 & I1 & L1). exists l1. split; [exact H1|]. split; [exact I1|]. lia.
Qed.
(** Files outside the import stay. Of a content that is also found outside, [n] rounds take away
    up to [n] imported files; of a content found in the import only, one is left. *)
Theorem import_cleaned_partial : forall R vec os e args u P K n (w w' : world R vec) c li lo,
  priority os P -> (forall p, compared w u args p -> (K p <-> imported os P p)) -> cleanings os e args u K n w w' ->
  copies_in w u args c K li -> copies_in w u args c (fun p => ~ K p) lo ->
  copies_in w' u args c (fun p => ~ K p) lo /\
  exists l', copies_in w' u args c K l' /\ incl l' li /\ length l' = Nat.max (match lo with [] => Nat.min 1 (length li) | _ => 0 end) (length li - n).
Proof.
  intros R vec os e args u P K n w w' c li lo PR HK H. revert li HK. induction H as [w|n w w1 w' fuel t ST E EC CM H IH]; intros li HK HI HO.
  - split; [exact HO|]. exists li. split; [exact HI|]. split; [apply incl_refl|]. destruct lo; lia.
  - destruct (clean_one w w1 fuel os e args u t P K c li lo ST PR E HK EC CM HI HO) as (O1 & l1 & H1 & I1 & L1).
    destruct (IH l1) as (O' & l' & H' & I' & L'); auto. { intros p C. apply HK. apply CM. exact C. }
    split; [exact O'|]. exists l'. split; [exact H'|]. split; [eapply incl_tran; eauto|]. rewrite L', L1. destruct lo; lia.
Qed.
Print Assumptions import_cleaned_partial.

(** A case: [ftwin -s , -p /d/sub/ /d] prints [/d/sub/b,/d/a]; the imported file is removed and
    [/d/a] stays. *)
Definition opt_import (P : str) : list opt := [(chr "s", lit ","); (chr "p", P)].
Definition old_entries : list (path * ftype) := [(lit "a", TReg); (lit "c", TReg)].
Definition world_old := main_world 4 (main_fs old_entries) ok_hbeh.
Lemma old_names : names_ok (main_fs old_entries).
Proof. apply names_okb_ok. vm_compute. reflexivity. Qed.
Lemma import_opts P : plain_run (opt_import P) /\ ~ given (opt_import P) "J" /\ ~ given (opt_import P) "d" /\ ~ given (opt_import P) "c" /\ priority (opt_import P) P.
Proof.
  unfold plain_run, given. repeat split; try (intros (a & [X|[X|[]]]); discriminate X).
  exists [(chr "s", lit ",")], []. split; [reflexivity|]. intros (a & []).
Qed.
Lemma import_text t : t = lit "/d/sub/b,/d/a" ++ [10; 10]%N -> removed (chr ",") t (lit "/d/sub/b").
Proof.
  intros ->. exists [lit "/d/sub/b,/d/a"; []], (lit "/d/sub/b,/d/a"), (lit "/d/a"). split; [|split; [now left|split; [reflexivity|cbn; intuition discriminate]]].
  apply (lines_cons (lit "/d/sub/b,/d/a") [10%N] [[]]); [cbn; intuition discriminate|]. apply (lines_cons [] [] []); [intros []|constructor].
Qed.
Example import_case : let os := opt_import (lit "/d/sub/") in let K := imported os (lit "/d/sub/") in
  exists u t, priority os (lit "/d/sub/") /\ ftwin_main world1 9 os GEof [lit "/d"] = Exit 0 (OText t) /\ removed (g_sep (u_cfg u)) t (lit "/d/sub/b") /\
  cleanings os GEof [lit "/d"] u K 1 world1 world_old /\
  copies_in world1 u [lit "/d"] (lit "abc") K [lit "/d/sub/b"] /\ copies_in world1 u [lit "/d"] (lit "abc") (fun p => ~ K p) [lit "/d/a"] /\
  copies_in world_old u [lit "/d"] (lit "abc") K [] /\ copies_in world_old u [lit "/d"] (lit "abc") (fun p => ~ K p) [lit "/d/a"].
Proof.
  cbv zeta. set (os := opt_import (lit "/d/sub/")). destruct (import_opts (lit "/d/sub/")) as (PR & NJ & Nd & Nc & PP). fold os in PR, NJ, Nd, Nc, PP.
  destruct (main_accepted 4 main_entries ok_hbeh os) as (u & A); [eexists; vm_compute; reflexivity|].
  assert (W : g_sep (u_cfg u) = chr "," /\ (exists l, walk_args (fun r => Some r) toy 9 (u_conf u) (main_fs main_entries) [lit "/d"] = WOk l /\
      map fst l = [lit "/d/a"; lit "/d/c"; lit "/d/sub/b"] /\ map f_path (collected (w_conf (u_conf u)) l) = [lit "/d/a"; lit "/d/c"; lit "/d/sub/b"]) /\
    exists l, walk_args (fun r => Some r) toy 9 (u_conf u) (main_fs old_entries) [lit "/d"] = WOk l /\
      map fst l = [lit "/d/a"; lit "/d/c"] /\ map f_path (collected (w_conf (u_conf u)) l) = [lit "/d/a"; lit "/d/c"]).
  { unfold accepted in A. vm_compute in A. injection A as <-. split; [reflexivity|]. split; (eexists; split; [vm_compute; reflexivity|]; split; vm_compute; reflexivity). }
  destruct W as (SP & (l & W & LP & CP) & (l' & W' & LP' & CP')).
  assert (PA : Forall (plain (chr ",")) [lit "/d/a"; lit "/d/c"; lit "/d/sub/b"]).
  { unfold plain. repeat (apply Forall_cons; [split; [discriminate|]; split; cbn; intuition discriminate|]). apply Forall_nil. }
  assert (PA' : Forall (plain (chr ",")) [lit "/d/a"; lit "/d/c"]).
  { unfold plain. repeat (apply Forall_cons; [split; [discriminate|]; split; cbn; intuition discriminate|]). apply Forall_nil. }
  destruct (steady_by main_entries os u l _ PR NJ Nd A main_names W LP CP PA SP) as (S1 & C1).
  destruct (steady_by old_entries os u l' _ PR NJ Nd A old_names W' LP' CP' PA' SP) as (S2 & C2). fold world_old in S2, C2. fold world1 in S1, C1.
  set (t := lit "/d/sub/b,/d/a" ++ [10; 10]%N).
  assert (E : ftwin_main world1 9 os GEof [lit "/d"] = Exit 0 (OText t)) by (vm_compute; reflexivity).
  assert (RB : removed (g_sep (u_cfg u)) t (lit "/d/sub/b")) by (rewrite SP; apply import_text; reflexivity).
  assert (K : forall p, imported os (lit "/d/sub/") p <-> same_prefix false (lit "/d/sub/") p = true).
  { intro p. unfold imported. rewrite same_prefix_begins. tauto. }
  exists u, t. split; [exact PP|]. split; [exact E|]. split; [exact RB|].
  split; [|split; [|split; [|split]]].
  - apply (cleanings_more _ _ _ _ _ 0%nat world1 world_old world_old 9%nat t); [exact S1|exact E|reflexivity| |apply cleanings_none].
    intro p. rewrite C2, C1, K. split.
    + intros [<-|[<-|[]]]; (split; [cbn [In]; tauto|intros (_ & X); vm_compute in X; discriminate X]).
    + intros ([<-|[<-|[<-|[]]]] & N); [now left|right; now left|exfalso; apply N; split; [exact RB|reflexivity]].
  - split; [repeat constructor; intros []|]. intro p. rewrite C1, K. split.
    + intros [<-|[]]. split; [cbn [In]; tauto|split; reflexivity].
    + intros ([<-|[<-|[<-|[]]]] & X & Y); [vm_compute in Y; discriminate Y|vm_compute in X; discriminate X|now left].
  - split; [repeat constructor; intros []|]. intro p. rewrite C1, K. split.
    + intros [<-|[]]. split; [cbn [In]; tauto|split; [reflexivity|intro X; vm_compute in X; discriminate X]].
    + intros ([<-|[<-|[<-|[]]]] & X & Y); [now left|vm_compute in X; discriminate X|exfalso; apply Y; reflexivity].
  - split; [constructor|]. intro p. rewrite C2, K. split; [intros []|].
    intros ([<-|[<-|[]]] & X & Y); [vm_compute in Y; discriminate Y|vm_compute in X; discriminate X].
  - split; [repeat constructor; intros []|]. intro p. rewrite C2, K. split.
    + intros [<-|[]]. split; [cbn [In]; tauto|split; [reflexivity|intro X; vm_compute in X; discriminate X]].
    + intros ([<-|[<-|[]]] & X & Y); [now left|vm_compute in X; discriminate X].
Qed.

(** Read as a directory the claim fails: with [-p /d/su] the file [/d/sub/b], which is not in that
    directory, is listed first; [grep /d/su] lets it through and it is removed. *)
Theorem import_cleaned_refuted : exists (w : world str unit) os e args u t P r,
  steady w os e args u /\ priority os P /\ ftwin_main w 9 os e args = Exit 0 (OText t) /\
  compared w u args r /\ removed (g_sep (u_cfg u)) t r /\ begins false P r /\ ~ under P r.
Proof.
  set (os := opt_import (lit "/d/su")). destruct (import_opts (lit "/d/su")) as (PR & NJ & Nd & Nc & PP). fold os in PR, NJ, Nd, Nc, PP.
  destruct (main_accepted 4 main_entries ok_hbeh os) as (u & A); [eexists; vm_compute; reflexivity|].
  assert (W : g_sep (u_cfg u) = chr "," /\ (exists l, walk_args (fun r => Some r) toy 9 (u_conf u) (main_fs main_entries) [lit "/d"] = WOk l /\
      map fst l = [lit "/d/a"; lit "/d/c"; lit "/d/sub/b"] /\ map f_path (collected (w_conf (u_conf u)) l) = [lit "/d/a"; lit "/d/c"; lit "/d/sub/b"])).
  { unfold accepted in A. vm_compute in A. injection A as <-. split; [reflexivity|]. eexists; split; [vm_compute; reflexivity|]; split; vm_compute; reflexivity. }
  destruct W as (SP & (l & W & LP & CP)).
  assert (PA : Forall (plain (chr ",")) [lit "/d/a"; lit "/d/c"; lit "/d/sub/b"]).
  { unfold plain. repeat (apply Forall_cons; [split; [discriminate|]; split; cbn; intuition discriminate|]). apply Forall_nil. }
  destruct (steady_by main_entries os u l _ PR NJ Nd A main_names W LP CP PA SP) as (S1 & C1).
  exists world1, os, GEof, [lit "/d"], u, (lit "/d/sub/b,/d/a" ++ [10; 10]%N), (lit "/d/su"), (lit "/d/sub/b").
  split; [exact S1|]. split; [exact PP|]. split; [vm_compute; reflexivity|]. split; [apply C1; right; right; now left|]. split; [rewrite SP; apply import_text; reflexivity|].
  split; [exists (lit "/d/su"), (lit "b/b"); split; reflexivity|]. intros (rest & X). cbn in X. discriminate X.
Qed.
Print Assumptions import_cleaned_refuted.
