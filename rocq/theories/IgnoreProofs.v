(** Proofs about the translation of ignore patterns. *)
From Coq Require Import String Ascii.
From Verif Require Import Util IgnoreModel PcreSpec IgnoreSpec.
Local Open Scope list_scope.
Local Open Scope N_scope.

(** text produced for a token *)
Definition tok_out (t : tok) : str :=
  match t with
  | GLit c => if metachar c then [chr "\"; c] else [c]
  | GEsc c => [chr "\"; c]
  | GOne => lit "[^/]"
  | GStar => lit "[^/]*"
  | GDeep => lit ".*"
  | GDirs => lit "(.*/)?"
  | GSet l => tok_src (GSet l)
  end.
Definition outs (ts : list tok) : str := concat (map tok_out ts).

Lemma lod_range c : letter_or_digit c -> 48 <= c <= 122 /\ c <> 91 /\ c <> 92 /\ c <> 93 /\ c <> 94 /\ c <> 45 /\ c <> 33.
Proof. unfold letter_or_digit. lia. Qed.
Lemma lod_alnum c : letter_or_digit c <-> alnum c = true.
Proof. unfold letter_or_digit, alnum. lia. Qed.

Lemma class_body_items l rest :
  Forall (fun i => letter_or_digit (fst i) /\ letter_or_digit (snd i) /\ fst i <= snd i) l ->
  class_body (concat (map item_text l) ++ chr "]" :: rest) = (concat (map item_text l), chr "]" :: rest).
Proof.
  assert (P : forall c s o r, c <> 93 -> c <> 92 -> class_body s = (o, r) -> class_body (c :: s) = (c :: o, r)).
  { intros c s o r A B E. cbn [class_body]. change (chr "]") with 93. change (chr "\") with 92.
    rewrite (proj2 (N.eqb_neq c 93)), (proj2 (N.eqb_neq c 92)) by lia.
    destruct s as [|d s]; [cbn in E; injection E as <- <-; reflexivity|]. now rewrite E. }
  intros F. induction F as [|[lo hi] l (A & B & LE) F IH].
  - reflexivity.
  - cbn [map concat]. unfold item_text at 1 3. cbn [fst snd] in *.
    apply lod_range in A. apply lod_range in B.
    destruct (lo =? hi).
    + cbn [app]. apply P; auto; lia.
    + cbn [app]. change (chr "-") with 45. apply P; [lia|lia|]. apply P; [lia|lia|]. apply P; auto; lia.
Qed.

Lemma char_class_items l rest : l <> [] ->
  Forall (fun i => letter_or_digit (fst i) /\ letter_or_digit (snd i) /\ fst i <= snd i) l ->
  char_class (concat (map item_text l) ++ chr "]" :: rest) = (tok_src (GSet l), rest).
Proof.
  intros NE F. unfold char_class. pose proof (class_body_items l rest F) as CB.
  destruct l as [|[lo hi] l]; [congruence|]. inversion F as [|? ? (A & _) _]; subst. cbn [fst snd] in A.
  apply lod_range in A.
  assert (E : exists s, concat (map item_text ((lo, hi) :: l)) ++ chr "]" :: rest = lo :: s).
  { cbn [map concat]. unfold item_text. cbn [fst snd]. destruct (lo =? hi); cbn [app]; eauto. }
  destruct E as (s & E). rewrite E in *. change (chr "!") with 33. change (chr "^") with 94.
  rewrite (proj2 (N.eqb_neq lo 33)), (proj2 (N.eqb_neq lo 94)) by lia. cbn [orb].
  rewrite CB. reflexivity.
Qed.

(** first character of the text of a token *)
Lemma src_first t : tok_ok t -> exists c s, tok_src t = c :: s /\
  (c = 42 <-> match t with GStar | GDeep | GDirs => True | _ => False end).
Proof.
  destruct t; cbn [tok_ok tok_src]; intros H; try (eexists; eexists; split; [reflexivity|]; cbn; split; [lia|tauto]).
  - exists c, []. split; auto. split; [|tauto]. intros ->. apply H. cbn. auto.
Qed.

Lemma convert_toks dir : forall ts fuel,
  toks_ok ts -> (dir = true -> last ts GOne <> GDeep) ->
  (length (src ts ++ if dir then lit "/" else []) <= fuel)%nat ->
  convert_body fuel dir (src ts ++ if dir then lit "/" else []) = Some (outs ts).
Proof.
  induction ts as [|t ts IH]; intros fuel OK L F.
  - cbn [src map concat outs app]. destruct dir.
    + destruct fuel; [cbn in F; lia|]. reflexivity.
    + destruct fuel; reflexivity.
  - cbn [toks_ok] in OK. destruct OK as (T & AP & OK).
    remember (if dir return list N then lit "/" else []) as tl eqn:TL.
    assert (L' : dir = true -> last ts GOne <> GDeep).
    { intros D. specialize (L D). destruct ts; [discriminate|exact L]. }
    unfold src in *. cbn [map concat] in *. unfold outs. cbn [map concat]. rewrite <- app_assoc in *.
    fold (src ts) in *. fold (outs ts).
    assert (NIL : src ts ++ tl = [] -> ts = []).
    { destruct ts as [|u ts']; auto. cbn [toks_ok] in OK. destruct OK as (U & _).
      destruct (src_first u U) as (c & s & E & _). unfold src. cbn [map concat]. rewrite E. discriminate. }
    (* what follows a star or two stars *)
    assert (NX : forall d s, src ts ++ tl = d :: s ->
      (t = GStar -> d <> 42) /\ (t = GDeep -> d <> 47)).
    { intros d s E. destruct ts as [|u ts'].
      - rewrite TL in E. destruct dir; [|discriminate E]. cbn in E. injection E as <- <-. split; [discriminate|].
        intros ->. now destruct (L eq_refl).
      - cbn [toks_ok] in OK. destruct OK as (U & _). destruct (src_first u U) as (c & s' & E' & X).
        unfold src in E. cbn [map concat] in E. rewrite E' in E. cbn [app] in E. injection E as <- _.
        split; intros ->; cbn [apart] in AP.
        + intros ->. destruct u; cbn in AP; tauto.
        + intros ->. destruct u; cbn in E'; injection E' as E1 E2; try discriminate.
          now subst. }
    assert (STEP : forall fu o, (length (src ts ++ tl) <= fu)%nat ->
       option_map (app o) (convert_body fu dir (src ts ++ tl)) = Some (o ++ outs ts)).
    { intros fu o LE. rewrite IH by auto. reflexivity. }
    assert (LF : (length (tok_src t) + length (src ts ++ tl) <= fuel)%nat).
    { rewrite app_length in F. exact F. }
    clear IH F.
    destruct fuel as [|fu]. { exfalso. destruct (src_first t T) as (c & s & E & _). rewrite E in LF. cbn in LF. lia. }
    destruct t; cbn [tok_src tok_out tok_ok] in *.
    + (* literal *)
      cbn [app]. cbn [convert_body].
      assert (NC : c <> 42 /\ c <> 63 /\ c <> 91 /\ c <> 92).
      { cbn in T. intuition. }
      destruct NC as (N1 & N2 & N3 & N4).
      change (chr "*") with 42. change (chr "?") with 63. change (chr "[") with 91. change (chr "\") with 92.
      rewrite (proj2 (N.eqb_neq c 42)), (proj2 (N.eqb_neq c 63)), (proj2 (N.eqb_neq c 91)), (proj2 (N.eqb_neq c 92)) by auto.
      cbn [length] in LF. rewrite andb_false_l.
      assert (BR : (c =? chr "/") && dir && match src ts ++ tl with [] => true | _ :: _ => false end = false).
      { destruct (src ts ++ tl) eqn:E; [|now rewrite andb_false_r].
        rewrite TL in E. destruct dir; [|now rewrite andb_false_r]. destruct (src ts); discriminate E. }
      rewrite BR. destruct (metachar c); apply STEP; lia.
    + (* escape *)
      cbn [app]. cbn [convert_body]. cbn [N.eqb andb chr N_of_ascii].
      change (chr "\" =? chr "/") with false. change (chr "\" =? chr "\") with true. cbn [andb].
      apply STEP. cbn [length] in LF. lia.
    + (* ? *)
      change (lit "?" ++ src ts ++ tl) with (63 :: src ts ++ tl).
      cbn [convert_body]. change (63 =? chr "/") with false. change (63 =? chr "\") with false.
      change (63 =? chr "*") with false. change (63 =? chr "?") with true. cbn [andb].
      apply STEP. cbn [length] in LF. cbn in LF. lia.
    + (* * *)
      change (lit "*" ++ src ts ++ tl) with (42 :: src ts ++ tl).
      cbn [convert_body]. change (42 =? chr "/") with false. change (42 =? chr "\") with false.
      change (42 =? chr "*") with true. cbn [andb].
      change (length (lit "*")) with 1%nat in LF.
      destruct (src ts ++ tl) as [|d s] eqn:E.
      * apply STEP. cbn. lia.
      * destruct (NX d s eq_refl) as [N1 _]. change (chr "*") with 42.
        rewrite (proj2 (N.eqb_neq d 42)) by auto. apply STEP. lia.
    + (* ** *)
      change (lit "**" ++ src ts ++ tl) with (42 :: 42 :: src ts ++ tl).
      cbn [convert_body]. change (42 =? chr "/") with false. change (42 =? chr "\") with false.
      change (42 =? chr "*") with true. cbn [andb].
      change (length (lit "**")) with 2%nat in LF.
      destruct (src ts ++ tl) as [|d s] eqn:E.
      * apply STEP. cbn. lia.
      * destruct (NX d s eq_refl) as [_ N1]. change (chr "/") with 47.
        rewrite (proj2 (N.eqb_neq d 47)) by auto. apply STEP. lia.
    + (* **/ *)
      change (lit "**/" ++ src ts ++ tl) with (42 :: 42 :: 47 :: src ts ++ tl).
      cbn [convert_body]. change (42 =? chr "/") with false. change (42 =? chr "\") with false.
      change (42 =? chr "*") with true. change (47 =? chr "/") with true. cbn [andb].
      change (length (lit "**/")) with 3%nat in LF. apply STEP. lia.
    + (* [..] *)
      destruct T as [NE FA].
      change (lit "[") with [91] in *. change (lit "]") with [93] in *. 
      rewrite <- !app_assoc. cbn [app]. cbn [convert_body].
      change (91 =? chr "/") with false. change (91 =? chr "\") with false. change (91 =? chr "*") with false.
      change (91 =? chr "?") with false. change (91 =? chr "[") with true. cbn [andb].
      change 93 with (chr "]"). rewrite char_class_items by auto.
      rewrite STEP. { cbn [tok_src]. change (lit "[") with [91]. change (lit "]") with [chr "]"].
        rewrite <- !app_assoc. reflexivity. }
      rewrite app_length in LF. cbn [length] in LF. lia.
Qed.

(** ** Prefix and flags *)
Lemma skip_spaces_nonspace c s : isspace c = false -> skip_spaces (c :: s) = c :: s.
Proof. intros H. cbn [skip_spaces]. now rewrite H. Qed.
Lemma last_char_app c s d : isspace d = false -> last_char c (s ++ [d]) = d.
Proof. intros H. unfold last_char. rewrite fold_left_app. cbn. now rewrite H. Qed.
Lemma handle_prefix_line neg anch dir ts : start_ok neg anch ts -> end_ok dir ts ->
  handle_prefix (line neg anch dir ts) = (mkGf neg dir, anch, src ts ++ if dir then lit "/" else []).
Proof.
  intros (c & s & E & ST) EN. unfold line.
  assert (DIR : match src ts ++ (if dir then lit "/" else []) with [] => anch | x :: t => last_char x t =? chr "/" end = dir).
  { rewrite E. cbn [app]. destruct dir.
    - change (lit "/") with [chr "/"]. rewrite last_char_app; reflexivity.
    - rewrite app_nil_r. cbn [end_ok] in EN. destruct EN as (u & d & E2 & SP & NS). rewrite E in E2.
      apply N.eqb_neq. destruct u as [|x u]; cbn [app] in E2; injection E2 as -> ->; [exact NS|].
      now rewrite last_char_app. }
  assert (HB : anch = false -> exists c s, src ts ++ (if dir then lit "/" else []) = c :: s /\ isspace c = false /\
     (c =? chr "/") = false /\ (neg = false -> (c =? chr "!") = false)).
  { intros A. destruct (ST A) as (S1 & S2 & S3). rewrite E. cbn [app]. eexists. eexists. split; [reflexivity|].
    split; auto. split; [now apply N.eqb_neq|]. intros NG. apply N.eqb_neq. now apply S3. }
  remember (src ts ++ (if dir then lit "/" else [])) as b eqn:EB. clear EB E ST EN.
  change (lit "!") with [33]. change (lit "/") with [47]. unfold handle_prefix. destruct neg, anch; cbn [app].
  - change (33 =? chr "!") with true. change (skip_spaces (47 :: b)) with (47 :: b). cbv beta iota zeta.
    change (47 =? chr "/") with true. cbv beta iota zeta. rewrite DIR. reflexivity.
  - change (33 =? chr "!") with true. destruct (HB eq_refl) as (x & t & -> & S1 & S2 & _).
    rewrite skip_spaces_nonspace by auto. cbv beta iota zeta. rewrite S2. cbv beta iota zeta. rewrite DIR. reflexivity.
  - change (47 =? chr "!") with false. cbv beta iota zeta. change (47 =? chr "/") with true. cbv beta iota zeta. rewrite DIR. reflexivity.
  - destruct (HB eq_refl) as (x & t & -> & S1 & S2 & S3). rewrite (S3 eq_refl). cbv beta iota zeta. rewrite S2. cbv beta iota zeta. rewrite DIR. reflexivity.
Qed.

(** ** Reading the produced text *)
Definition no_quant (s : str) : Prop := match s with c :: _ => quant_char c = false | [] => True end.
Definition tok_re (t : tok) : re :=
  match t with
  | GLit c | GEsc c => Chr c
  | GOne => Set_ true [(47, 47)]
  | GStar => Star (Set_ true [(47, 47)])
  | GDeep => Star Any
  | GDirs => Opt (Seq (Star Any) (Seq (Chr 47) Eps))
  | GSet l => Set_ false l
  end.

Lemma read_quant_none a s : no_quant s -> read_quant a s = Some (a, s).
Proof. destruct s as [|c s]; cbn; auto. now intros ->. Qed.

Lemma metachar_spec c : metachar c = false -> ~ In c (lit "*?[\") ->
  (c =? 124) = false /\ (c =? 41) = false /\ (c =? 40) = false /\ (c =? 91) = false /\ (c =? 46) = false /\
  (c =? 94) = false /\ (c =? 36) = false /\ (c =? 92) = false /\ quant_char c = false.
Proof.
  intros M I. unfold metachar in M. cbn in M, I. unfold quant_char. cbn.
  repeat (apply orb_false_iff in M as [?H M]). lia.
Qed.

Lemma read_set_items l rest : Forall (fun i => letter_or_digit (fst i) /\ letter_or_digit (snd i) /\ fst i <= snd i) l ->
  forall fuel first, (length l < fuel)%nat -> (l <> [] \/ first = false) ->
  read_set fuel first (concat (map item_text l) ++ chr "]" :: rest) = Some (l, rest).
Proof.
  intros F. induction F as [|[lo hi] l (A & B & LE) F IH]; intros fuel first LT NE.
  - destruct NE as [NE| ->]; [congruence|]. destruct fuel; [cbn in LT; lia|]. reflexivity.
  - cbn [map concat fst snd] in *. destruct fuel as [|fu]; [cbn in LT; lia|]. cbn [length] in LT.
    assert (A' := lod_range _ A). assert (B' := lod_range _ B).
    assert (IH' : read_set fu false (concat (map item_text l) ++ chr "]" :: rest) = Some (l, rest)) by (apply IH; [lia|auto]).
    clear IH. unfold item_text at 1. cbn [fst snd].
    destruct (N.eqb_spec lo hi) as [<-|NEQ].
    + cbn [app]. cbn [read_set]. change (chr "]") with 93 in *. change (chr "[") with 91. change (chr "\") with 92.
      rewrite (proj2 (N.eqb_neq lo 93)), (proj2 (N.eqb_neq lo 91)), (proj2 (N.eqb_neq lo 92)) by lia. cbn [andb].
      (* what follows is not a hyphen *)
      assert (NH : match concat (map item_text l) ++ 93 :: rest with m :: _ => m <> 45 | [] => False end).
      { destruct l as [|[lo2 hi2] l]; [cbn; lia|]. inversion F as [|? ? (A2 & _) _]; subst. cbn [fst snd] in A2.
        apply lod_range in A2. cbn [map concat]. unfold item_text. cbn [fst snd]. destruct (lo2 =? hi2); cbn; lia. }
      destruct (concat (map item_text l) ++ 93 :: rest) as [|m [|h t2]] eqn:EQ; [destruct NH| |].
      * rewrite IH'. reflexivity.
      * change (chr "-") with 45. rewrite (proj2 (N.eqb_neq m 45)) by auto. cbn [andb]. rewrite IH'. reflexivity.
    + cbn [app]. cbn [read_set]. change (chr "]") with 93 in *. change (chr "[") with 91. change (chr "\") with 92. change (chr "-") with 45.
      rewrite (proj2 (N.eqb_neq lo 93)), (proj2 (N.eqb_neq lo 91)), (proj2 (N.eqb_neq lo 92)) by lia. cbn [andb].
      rewrite N.eqb_refl. rewrite (proj2 (N.eqb_neq hi 93)), (proj2 (N.eqb_neq hi 91)), (proj2 (N.eqb_neq hi 92)) by lia. cbn [andb negb orb].
      rewrite (proj2 (N.ltb_ge hi lo)) by lia. rewrite IH'. reflexivity.
Qed.

Definition cont (q : re) (x : option (re * str)) : option (re * str) :=
  match x with Some (r, v) => Some (Seq q r, v) | None => None end.

Lemma branch_step fu c s a t q u :
  (c =? 124) = false -> (c =? 41) = false -> read_atom fu (c :: s) = Some (a, t) -> read_quant a t = Some (q, u) ->
  read_branch (S fu) (c :: s) = cont q (read_branch fu u).
Proof.
  intros A B C D. cbn [read_branch]. change (chr "|") with 124. change (chr ")") with 41.
  rewrite A, B, C. cbn [orb]. rewrite D. reflexivity.
Qed.
Lemma read_escape fu c s : alnum c = false -> read_atom (S fu) (92 :: c :: s) = Some (Chr c, s).
Proof.
  intros A. assert (D : (c =? 100) = false) by (apply N.eqb_neq; intros ->; discriminate A).
  cbn -[N.eqb alnum]. change (92 =? chr "(") with false. cbn -[N.eqb alnum]. 
  change (92 =? 91) with false. change (92 =? 46) with false. change (92 =? 94) with false. change (92 =? 36) with false. change (92 =? 92) with true.
  cbv iota. rewrite D, A. reflexivity.
Qed.
Lemma star_quant a rest : no_quant rest -> read_quant a (42 :: rest) = Some (Star a, rest).
Proof.
  intros NQ. unfold read_quant. change (quant_char 42) with true. cbv iota.
  destruct rest as [|d rest]; [reflexivity|]. cbn [no_quant] in NQ. rewrite NQ. reflexivity.
Qed.
Lemma opt_quant a rest : no_quant rest -> read_quant a (63 :: rest) = Some (Opt a, rest).
Proof.
  intros NQ. unfold read_quant. change (quant_char 63) with true. cbv iota.
  destruct rest as [|d rest]; [reflexivity|]. cbn [no_quant] in NQ. rewrite NQ. reflexivity.
Qed.

Lemma read_tok t fu rest : tok_ok t -> no_quant rest -> (10 + length (tok_out t) <= fu)%nat ->
  read_branch (S fu) (tok_out t ++ rest) = cont (tok_re t) (read_branch fu rest).
Proof.
  intros T NQ F.
  assert (F10 : exists fv, fu = (10 + fv)%nat) by (exists (fu - 10)%nat; lia). destruct F10 as (fv & EF).
  destruct t; cbn [tok_out tok_re tok_ok] in *.
  - destruct (metachar c) eqn:M.
    + cbn [app]. eapply branch_step; [reflexivity|reflexivity| |now apply read_quant_none].
      rewrite EF. apply read_escape. unfold metachar in M. cbn in M. unfold alnum. lia.
    + destruct (metachar_spec c M T) as (M1 & M2 & M3 & M4 & M5 & M6 & M7 & M8 & M9).
      cbn [app]. eapply branch_step; auto; [|now apply read_quant_none].
      rewrite EF. cbn [Nat.add read_atom].
      change (chr "(") with 40. change (chr "[") with 91.
      change (chr ".") with 46. change (chr "^") with 94. change (chr "$") with 36. change (chr "\") with 92.
      rewrite M3, M4, M5, M6, M7, M8, M9. reflexivity.
  - cbn [app]. eapply branch_step; [reflexivity|reflexivity| |now apply read_quant_none].
    rewrite EF. apply read_escape. destruct (alnum c) eqn:AL; auto. apply lod_alnum in AL. tauto.
  - change (lit "[^/]" ++ rest) with (91 :: 94 :: 47 :: 93 :: rest).
    eapply branch_step; [reflexivity|reflexivity| |now apply read_quant_none]. rewrite EF. destruct rest; reflexivity.
  - change (lit "[^/]*" ++ rest) with (91 :: 94 :: 47 :: 93 :: 42 :: rest).
    eapply branch_step; [reflexivity|reflexivity| |now apply star_quant]. rewrite EF. reflexivity.
  - change (lit ".*" ++ rest) with (46 :: 42 :: rest).
    eapply branch_step; [reflexivity|reflexivity| |now apply star_quant]. rewrite EF. reflexivity.
  - change (lit "(.*/)?" ++ rest) with (40 :: 46 :: 42 :: 47 :: 41 :: 63 :: rest).
    eapply branch_step; [reflexivity|reflexivity| |now apply opt_quant]. rewrite EF. reflexivity.
  - destruct T as [NE FA].
    assert (X : read_atom fu (tok_src (GSet l) ++ rest) = Some (Set_ false l, rest)).
    { cbn [tok_src] in *. change (lit "[") with [91] in *. change (lit "]") with [chr "]"] in *. 
      rewrite <- !app_assoc. cbn [app]. rewrite !app_length in F. cbn [length] in F.
      assert (LL : (length l <= length (concat (map item_text l)))%nat).
      { clear. induction l as [|i l IH]; cbn [map concat length]; [lia|]. rewrite app_length.
        unfold item_text at 1. destruct (_ =? _); cbn [length]; lia. }
      destruct fu as [|fw]; [lia|]. cbn [read_atom].
      change (91 =? chr "(") with false. change (91 =? chr "[") with true. cbv iota.
      assert (LW : (length l < fw)%nat) by (clear -LL F; cbn [length] in F; lia).
      pose proof (read_set_items l rest FA fw true LW (or_introl NE)) as RS.
      destruct l as [|[lo hi] l]; [congruence|]. inversion FA as [|? ? (A2 & _) _]; subst. cbn [fst snd] in A2.
      apply lod_range in A2.
      assert (E : exists s, concat (map item_text ((lo, hi) :: l)) ++ chr "]" :: rest = lo :: s).
      { cbn [map concat]. unfold item_text. cbn [fst snd]. destruct (lo =? hi); cbn [app]; eauto. }
      destruct E as (s & E). rewrite E in *. change (chr "^") with 94. rewrite (proj2 (N.eqb_neq lo 94)) by lia.
      rewrite RS. reflexivity. }
    change (tok_src (GSet l) ++ rest) with (91 :: (concat (map item_text l) ++ lit "]") ++ rest) in X |- *.
    eapply branch_step; [reflexivity|reflexivity|exact X|now apply read_quant_none].
Qed.

Lemma out_no_quant t : tok_ok t -> exists c s, tok_out t = c :: s /\ quant_char c = false.
Proof.
  destruct t; cbn [tok_out tok_ok]; intros T; try (eexists; eexists; split; reflexivity).
  destruct (metachar c) eqn:M; [eexists; eexists; split; reflexivity|].
  exists c, []. split; auto. now apply (metachar_spec c M T).
Qed.

(** the rest of a branch behind the tokens *)
Fixpoint seqs (ts : list tok) (r : re) : re :=
  match ts with [] => r | t :: ts' => Seq (tok_re t) (seqs ts' r) end.
Lemma read_toks ts rest r v : toks_ok ts -> no_quant rest ->
  forall fu k, (length ts + k <= fu)%nat -> (length (outs ts) + 10 <= k)%nat ->
  (forall fv, (k <= fv)%nat -> read_branch fv rest = Some (r, v)) ->
  read_branch fu (outs ts ++ rest) = Some (seqs ts r, v).
Proof.
  intros OK NQ. induction ts as [|t ts IH]; intros fu k LE K RD.
  - cbn [outs map concat app seqs]. apply RD. cbn in LE. lia.
  - cbn [toks_ok] in OK. destruct OK as (T & _ & OK). unfold outs in *. cbn [map concat] in *. fold (outs ts) in *.
    rewrite <- app_assoc. rewrite app_length in K. cbn [length] in LE. destruct fu as [|fu]; [lia|].
    rewrite read_tok; auto.
    + assert (L1 : (length ts + k <= fu)%nat) by lia. assert (L2 : (length (outs ts) + 10 <= k)%nat) by lia.
      rewrite (IH OK fu k L1 L2 RD). reflexivity.
    + destruct ts as [|u ts']; [exact NQ|]. cbn [toks_ok] in OK. destruct OK as (U & _).
      destruct (out_no_quant u U) as (c & s & E & Q). unfold outs. cbn [map concat]. rewrite E. exact Q.
    + lia.
Qed.

Lemma toks_len ts : toks_ok ts -> (length ts <= length (outs ts))%nat.
Proof.
  induction ts as [|t ts IH]; cbn [toks_ok length outs map concat]; [lia|]. intros (T & _ & OK).
  destruct (out_no_quant t T) as (c & s & E & _). unfold outs. cbn [map concat]. rewrite app_length, E. cbn [length]. specialize (IH OK).
  unfold outs in IH. lia.
Qed.

Definition head_re (anch : bool) : re := if anch then Bol else Alt (Seq Bol Eps) (Seq (Chr 47) Eps).
Definition end_re (dir : bool) : re := if dir then Seq (Alt (Seq (Chr 47) Eps) (Seq Eol Eps)) Eps else Seq Eol Eps.

Lemma read_whole (anch dir : bool) ts : toks_ok ts ->
  pcre_read ((if anch then lit "^" else lit "(^|/)") ++ outs ts ++ (if dir then lit "(/|$)" else lit "$"))
  = Some (Seq (head_re anch) (seqs ts (end_re dir))).
Proof.
  intros OK. unfold pcre_read.
  remember ((if anch then lit "^" else lit "(^|/)") ++ outs ts ++ (if dir then lit "(/|$)" else lit "$")) as text eqn:TX.
  assert (TL := toks_len ts OK).
  assert (LEN : (length (outs ts) + 1 <= length text)%nat).
  { rewrite TX, !app_length. destruct anch; cbn [lit list_ascii_of_string map length]; lia. }
  assert (RB : forall fu, (length text + length ts + 12 <= fu)%nat ->
     read_branch fu (outs ts ++ (if dir then lit "(/|$)" else lit "$")) = Some (seqs ts (end_re dir), [])).
  { intros fu LE. eapply read_toks with (k := (length (outs ts) + 10)%nat); auto.
    - destruct dir; reflexivity.
    - lia.
    - intros fv LV. assert (E : exists fw, fv = (10 + fw)%nat) by (exists (fv - 10)%nat; lia).
      destruct E as (fw & ->). destruct dir; reflexivity. }
  assert (FU : exists fw, (16 + 2 * length text = S (S (10 + fw)))%nat /\ (length text + length ts + 12 <= 10 + fw)%nat).
  { exists (4 + 2 * length text)%nat. lia. }
  destruct FU as (fw & -> & LF). cbn [read_alts].
  assert (NQ : no_quant (outs ts ++ (if dir then lit "(/|$)" else lit "$"))).
  { destruct ts as [|u ts']; [destruct dir; reflexivity|]. cbn [toks_ok] in OK. destruct OK as (U & _).
    destruct (out_no_quant u U) as (c & s & E & Q). unfold outs. cbn [map concat]. rewrite E. exact Q. }
  assert (B : read_branch (S (10 + fw)) text = Some (Seq (head_re anch) (seqs ts (end_re dir)), [])).
  { rewrite TX. destruct anch.
    - change (lit "^" ++ outs ts ++ (if dir then lit "(/|$)" else lit "$")) with (94 :: outs ts ++ (if dir then lit "(/|$)" else lit "$")).
      remember (outs ts ++ (if dir then lit "(/|$)" else lit "$")) as b. cbn [read_branch].
      assert (X : read_atom (10 + fw) (94 :: b) = Some (Bol, b)) by reflexivity.
      rewrite X. change (94 =? chr "|") with false. change (94 =? chr ")") with false. cbn [orb].
      rewrite read_quant_none by auto.
      rewrite RB; [reflexivity|]. lia.
    - change (lit "(^|/)" ++ outs ts ++ (if dir then lit "(/|$)" else lit "$")) with (40 :: 94 :: 124 :: 47 :: 41 :: outs ts ++ (if dir then lit "(/|$)" else lit "$")).
      remember (outs ts ++ (if dir then lit "(/|$)" else lit "$")) as b. cbn [read_branch].
      assert (X : read_atom (10 + fw) (40 :: 94 :: 124 :: 47 :: 41 :: b) = Some (Alt (Seq Bol Eps) (Seq (Chr 47) Eps), b)) by reflexivity.
      rewrite X. change (40 =? chr "|") with false. change (40 =? chr ")") with false. cbn [orb].
      rewrite read_quant_none by auto.
      rewrite RB; [reflexivity|]. lia. }
  rewrite B. reflexivity.
Qed.

(** ** Meaning of the produced expression *)
Lemma star_each (P : N -> Prop) r (H : forall b x a, matches r b x a <-> exists c, x = [c] /\ P c) :
  forall x b a, star (matches r) b x a <-> Forall P x.
Proof.
  intros x b a. split.
  - intros S. induction S as [b a|b x y a M S IH]; [constructor|].
    apply H in M as (c & -> & PC). constructor; auto.
  - revert b. induction x as [|c x IH]; intros b F; [constructor|].
    inversion F; subst. apply (star_cons _ b [c] x a); [apply H; eauto|]. now apply IH.
Qed.
Lemma star_any x b a : star (matches Any) b x a <-> ~ In 10 x.
Proof.
  rewrite (star_each (fun c => c <> 10)); [|intros; reflexivity]. rewrite Forall_forall. split.
  - intros F I. now apply (F 10 I).
  - intros N c I ->. auto.
Qed.
Lemma star_noslash x b a : star (matches (Set_ true [(47, 47)])) b x a <-> ~ In 47 x.
Proof.
  rewrite (star_each (fun c => c <> 47)).
  - rewrite Forall_forall. split; [intros F I; now apply (F 47 I)|intros N c I ->; auto].
  - intros b0 x0 a0. cbn [matches]. split; intros (c & -> & I); exists c; split; auto.
    + intros ->. apply I. exists 47, 47. split; [now left|lia].
    + intros (lo & hi & [E|[]] & R). injection E as <- <-. lia.
Qed.

Lemma tok_matches t b x a : ~ In 10 x -> (matches (tok_re t) b x a <-> tok_means t x).
Proof.
  intros NL. destruct t; cbn [tok_re tok_means].
  - reflexivity.
  - reflexivity.
  - cbn [matches]. split; intros (c & -> & I); exists c; split; auto.
    + intros ->. apply I. exists 47, 47. split; [now left|cbn; lia].
    + intros (lo & hi & [E|[]] & R). injection E as <- <-. apply I. change (chr "/") with 47. lia.
  - cbn [matches]. apply star_noslash.
  - cbn [matches]. rewrite star_any. tauto.
  - cbn [matches]. split.
    + intros [->|(u & v & -> & S & w & z & -> & -> & ->)]; [now left|]. right. exists u. now rewrite app_nil_r.
    + intros [->|(d & ->)]; [now left|]. right. exists d, [47]. split; auto.
      split; [apply star_any; rewrite in_app_iff in NL; tauto|]. exists [47], []. auto.
  - cbn [matches]. split.
    + intros (c & -> & lo & hi & I & R). exists c, lo, hi. auto.
    + intros (c & lo & hi & -> & I & R). exists c. split; auto. exists lo, hi. auto.
Qed.

Lemma seqs_matches ts r : forall b mid a, ~ In 10 mid ->
  (matches (seqs ts r) b mid a <-> exists x y, mid = x ++ y /\ means ts x /\ matches r (b ++ x) y a).
Proof.
  induction ts as [|t ts IH]; intros b mid a NL.
  - cbn [seqs means]. split.
    + intros M. exists [], mid. rewrite app_nil_r. auto.
    + intros (x & y & -> & -> & M). rewrite app_nil_r in M. exact M.
  - cbn [seqs matches means]. split.
    + intros (x & y & -> & M1 & M2). rewrite in_app_iff in NL.
      apply IH in M2 as (u & v & -> & G & M); [|tauto]. apply tok_matches in M1; [|tauto].
      exists (x ++ u), v. rewrite !app_assoc in *. repeat split; auto. exists x, u. auto.
    + intros (w & v & -> & (x & u & -> & T & G) & M). rewrite !in_app_iff in NL.
      exists x, (u ++ v). rewrite <- app_assoc. split; auto. split; [apply tok_matches; tauto|].
      apply IH; [rewrite in_app_iff; tauto|]. exists u, v. rewrite <- app_assoc. auto.
Qed.

Lemma found_hits anch dir ts path : ~ In 10 path ->
  (found (Seq (head_re anch) (seqs ts (end_re dir))) path <-> hits anch dir ts path).
Proof.
  intros NL.
  (* what the end of the expression says *)
  assert (END : forall b y a, ~ In 10 a -> (matches (end_re dir) b y a <->
     if dir then (y = [47] \/ y = [] /\ a = []) else y = [] /\ a = [])).
  { intros b y a NA. destruct dir; cbn [end_re matches].
    - split.
      + intros (u & v & -> & [(w & z & -> & -> & ->)|(w & z & -> & (-> & E) & ->)] & ->).
        * now left.
        * right. split; auto. cbn [app] in E. destruct E as [E|E]; auto. subst a. destruct NA. now left.
      + intros [->|[-> ->]].
        * exists [47], []. repeat split. left. exists [47], []. auto.
        * exists [], []. repeat split. right. exists [], []. auto.
    - split.
      + intros (u & v & -> & (-> & E) & ->). split; auto. cbn [app] in E. destruct E as [E|E]; auto. subst a. destruct NA. now left.
      + intros [-> ->]. exists [], []. auto. }
  unfold found, hits. split.
  - intros (before & mid & after & -> & M). cbn [matches] in M. destruct M as (h & m & -> & MH & MB).
    rewrite !in_app_iff in NL. apply seqs_matches in MB as (x & y & -> & G & ME); [|tauto].
    rewrite !in_app_iff in NL. apply END in ME; [|tauto].
    assert (T : tail_of anch (before ++ (h ++ x ++ y) ++ after) (x ++ y ++ after)).
    { unfold tail_of. destruct anch; cbn [head_re matches] in MH.
      - destruct MH as [-> ->]. left. cbn [app]. now rewrite <- app_assoc.
      - destruct MH as [(u & v & -> & [-> ->] & ->)|(u & v & -> & -> & ->)].
        + left. cbn [app]. now rewrite <- app_assoc.
        + right. split; auto. exists before. cbn [app]. now rewrite <- app_assoc. }
    exists (x ++ y ++ after). split; [exact T|]. destruct dir.
    + exists x, (y ++ after). repeat split; auto. destruct ME as [->|[-> ->]]; [right; cbn; eauto|now left].
    + destruct ME as [-> ->]. now rewrite !app_nil_r.
  - intros (t & T & H).
    assert (TB : exists before h, path = before ++ h ++ t /\ forall y, matches (head_re anch) before h y).
    { destruct T as [->|(-> & b & ->)].
      - exists [], []. split; auto. intros y. destruct anch; cbn; auto. left. exists [], []. auto.
      - exists b, [47]. split; auto. intros y. cbn. right. exists [47], []. auto. }
    destruct TB as (before & h & EP & MH). rewrite EP in NL. rewrite !in_app_iff in NL.
    destruct dir.
    + destruct H as (x & y & -> & G & Y). rewrite !in_app_iff in NL. destruct Y as [->|(z & ->)].
      * exists before, (h ++ x), []. rewrite !app_nil_r in *. split; auto. exists h, x. split; auto. split; [apply MH|].
        apply seqs_matches; [tauto|]. exists x, []. rewrite app_nil_r. split; auto. split; auto. apply END; auto.
      * change (chr "/") with 47 in *. cbn [In] in NL.
        exists before, (h ++ x ++ [47]), z. split. { rewrite EP. now rewrite <- !app_assoc. }
        exists h, (x ++ [47]). split; auto. split; [apply MH|]. apply seqs_matches.
        { rewrite in_app_iff. cbn [In]. intros [I|[E|[]]]; [tauto|discriminate E]. }
        exists x, [47]. split; auto. split; auto. apply END; [tauto|]. now left.
    + exists before, (h ++ t), []. rewrite app_nil_r. split; auto. exists h, t. split; auto. split; [apply MH|].
      apply seqs_matches; [tauto|]. exists t, []. rewrite app_nil_r. split; auto. split; auto. apply END; auto.
Qed.

(** ** Length of the produced text *)
Lemma class_body_len s : (length (fst (class_body s)) + length (snd (class_body s)) = length s)%nat.
Proof.
  assert (H : forall n s, (length s <= n)%nat -> (length (fst (class_body s)) + length (snd (class_body s)) = length s)%nat).
  { induction n as [|n IH]; intros [|c t] L; auto; [cbn in L; lia|]. cbn [class_body length] in *.
    destruct (c =? chr "]"); [cbn; lia|]. destruct t as [|d t']; [reflexivity|]. destruct (c =? chr "\").
    - assert (X := IH t' ltac:(cbn in L; lia)). destruct (class_body t') as [o r]. cbn [fst snd length] in *. lia.
    - assert (X := IH (d :: t') ltac:(cbn in *; lia)). destruct (class_body (d :: t')) as [o r]. cbn [fst snd length] in *. lia. }
  now apply (H (length s)).
Qed.
Lemma char_class_len s : (length (snd (char_class s)) <= length s /\
  length (fst (char_class s)) + length (snd (char_class s)) <= length s + 2)%nat.
Proof.
  unfold char_class.
  assert (G : forall hd s1, (length hd + length s1 <= length s + 1)%nat -> (length s1 <= length s)%nat ->
    let (o, r) := class_body s1 in
    (length (snd (match r with _ :: r' => (hd ++ o ++ lit "]", r') | [] => (hd ++ o, []) end)) <= length s)%nat /\
    (length (fst (match r with _ :: r' => (hd ++ o ++ lit "]", r') | [] => (hd ++ o, []) end)) +
     length (snd (match r with _ :: r' => (hd ++ o ++ lit "]", r') | [] => (hd ++ o, []) end)) <= length s + 2)%nat).
  { intros hd s1 L1 L2. assert (X := class_body_len s1). destruct (class_body s1) as [o r]. cbn [fst snd] in *.
    destruct r as [|x r]; cbn [fst snd length] in *; rewrite ?app_length; [lia|].
    change (length (lit "]")) with 1%nat. lia. }
  destruct s as [|c t].
  - specialize (G (lit "[") [] ltac:(cbn; lia) ltac:(cbn; lia)). cbn in *. exact G.
  - destruct ((c =? chr "!") || (c =? chr "^")).
    + specialize (G (lit "[^") t ltac:(cbn; lia) ltac:(cbn; lia)). destruct (class_body t). exact G.
    + specialize (G (lit "[") (c :: t) ltac:(cbn; lia) ltac:(cbn; lia)). destruct (class_body (c :: t)). exact G.
Qed.

(** never more than five characters for one *)
Lemma convert_len dir : forall fuel s, (length s <= fuel)%nat ->
  exists o, convert_body fuel dir s = Some o /\ (length o <= 5 * length s)%nat.
Proof.
  induction fuel as [|fu IH]; intros s L.
  - destruct s; [|cbn in L; lia]. exists []. split; auto.
  - destruct s as [|c t]; [exists []; split; auto|]. cbn [length] in L. cbn [convert_body].
    assert (EM : forall o r, (length r <= fu)%nat -> (length o + 5 * length r <= 5 * length (c :: t))%nat ->
      exists o', option_map (app o) (convert_body fu dir r) = Some o' /\ (length o' <= 5 * length (c :: t))%nat).
    { intros o r LR LO. destruct (IH r LR) as (o' & -> & LO'). eexists. split; [reflexivity|]. rewrite app_length. lia. }
    cbn [length] in *.
    destruct ((c =? chr "/") && dir && match t with [] => true | _ :: _ => false end); [exists []; split; auto; cbn; lia|].
    destruct ((c =? chr "\") && match t with [] => false | _ :: _ => true end) eqn:BS.
    { destruct t as [|d t']; [rewrite andb_false_r in BS; discriminate|]. apply EM; cbn [length] in *; lia. }
    destruct (c =? chr "*").
    { destruct t as [|d t1]; [apply EM; cbn; lia|]. destruct (d =? chr "*").
      - destruct t1 as [|e t2]; [apply EM; cbn; lia|]. destruct (e =? chr "/"); apply EM; cbn in *; lia.
      - apply EM; cbn in *; lia. }
    destruct (c =? chr "?"). { apply EM; cbn in *; lia. }
    destruct (c =? chr "["). { assert (X := char_class_len t). destruct (char_class t) as [o r]. cbn [fst snd] in X. apply EM; lia. }
    destruct (metachar c); apply EM; cbn in *; lia.
Qed.
Lemma prefix_len p : (length (snd (handle_prefix p)) <= length p)%nat.
Proof.
  assert (SK : forall s, (length (skip_spaces s) <= length s)%nat).
  { induction s as [|c s IH]; cbn [skip_spaces]; auto. destruct (isspace c); cbn [length]; lia. }
  unfold handle_prefix.
  assert (A : forall p1 : str, (length p1 <= length p)%nat -> forall neg,
    (length (snd (let (anch, p2) := match p1 with c :: t => if (c =? chr "/")%N then (true, t) else (false, p1) | [] => (false, []) end in
       let dir := match p2 with [] => anch | c :: t => (last_char c t =? chr "/")%N end in (mkGf neg dir, anch, p2))) <= length p)%nat).
  { intros p1 L neg. destruct p1 as [|c t]; [cbn; lia|]. destruct (c =? chr "/"); cbn [snd length] in *; lia. }
  destruct p as [|c t]; [auto|]. destruct (c =? chr "!").
  - refine (A (skip_spaces t) _ true). specialize (SK t). cbn [length]. lia.
  - exact (A (c :: t) (le_n _) false).
Qed.
