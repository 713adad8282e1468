(** What the colours of the text report change (C140). *)
From Coq Require Import String Ascii.
From Verif Require Import Util HeapModel CollectModel ProcessModel ReportSpec ReportMain PropReport IgnoreModel OutputModel PropOutput FormatModel.
Local Open Scope list_scope.
Local Open Scope Z_scope.

(** * Specification *)

Definition ESC : N := 27%N.
(** the switches: bold, blue, cyan, back to normal *)
Definition switch (e : str) : Prop := In e [ESC :: lit "[1m"; ESC :: lit "[34m"; ESC :: lit "[36m"; ESC :: lit "[0m"].
(** [a] is [b] with switches put in between *)
Inductive coloured : str -> str -> Prop :=
| coloured_nil : coloured [] []
| coloured_char : forall x a b, coloured a b -> coloured (x :: a) (x :: b)
| coloured_switch : forall e a b, switch e -> coloured a b -> coloured (e ++ a) b.

(** what a terminal does with a text: each character is drawn in the current colour and
    weight; ESC [ number m changes them: 0 back to normal, 1 bold, 30 to 37 the colours.
    The result is what has been drawn, the colour and the weight at the end. *)
Inductive mode := Plain | Escape | Number (n : N).
Definition look := (N * bool)%type.      (* colour, 39: normal; bold *)
Definition normal : look := (39%N, false).
Definition select (n : N) (a : look) : look :=
  if (n =? 0)%N then normal else if (n =? 1)%N then (fst a, true)
  else if ((30 <=? n) && (n <=? 37))%N then (n, snd a) else a.
Fixpoint terminal (m : mode) (a : look) (s : str) : list (N * look) * look :=
  match s with
  | [] => ([], a)
  | c :: r =>
    match m with
    | Plain => if (c =? ESC)%N then terminal Escape a r else let (cs, e) := terminal Plain a r in ((c, a) :: cs, e)
    | Escape => if (c =? 91)%N then terminal (Number 0) a r else terminal Plain a r
    | Number n => if (c =? 109)%N then terminal Plain (select n a) r
                  else if ((48 <=? c) && (c <=? 57))%N then terminal (Number (10 * n + (c - 48))) a r else terminal Plain a r
    end
  end.

(** a group as it is to be drawn: the size in bold blue, the paths in bold cyan, separators
    and ends of line as usual *)
Definition draw (a : look) (s : str) : list (N * look) := map (fun c => (c, a)) s.
Definition blue : look := (34%N, true).
Definition cyan : look := (36%N, true).
Definition drawn_group (sep : N) (sized : bool) (g : list file) : list (N * look) :=
  match g with
  | [] => []
  | f :: m => (if sized then draw blue (lit "Size: " ++ format_human_size (f_size f)) ++ draw normal [10%N] else []) ++
              draw cyan (f_path f) ++ concat (map (fun h => draw normal [sep] ++ draw cyan (f_path h)) m) ++ draw normal [10%N; 10%N]
  end.

(** * Proofs *)

Lemma coloured_refl s : coloured s s.
Proof. induction s; constructor; auto. Qed.
Lemma coloured_app a b a' b' : coloured a b -> coloured a' b' -> coloured (a ++ a') (b ++ b').
Proof.
  induction 1; intros H'; cbn [app]; auto; [constructor; auto|]. rewrite <- app_assoc. apply coloured_switch; auto.
Qed.
Lemma coloured_esc e : switch e -> coloured e [].
Proof. intros S. rewrite <- (app_nil_r e). apply coloured_switch; auto. constructor. Qed.
Lemma switches sep sized : let y := style_of sep sized true in coloured (y_path y) [] /\ coloured (y_size y) [] /\ coloured (y_reset y) [].
Proof.
  cbv zeta. cbn [style_of y_path y_size y_reset]. repeat split.
  - apply (coloured_switch (ESC :: lit "[36m")); [cbn; tauto|]. apply coloured_esc. cbn; tauto.
  - apply (coloured_switch (ESC :: lit "[34m")); [cbn; tauto|]. apply coloured_esc. cbn; tauto.
  - apply coloured_esc. cbn; tauto.
Qed.
Lemma coloured_group human sep sized g : coloured (sized_text human (style_of sep sized true) g) (sized_text human (style_of sep sized false) g).
Proof.
  destruct (switches sep sized) as (P & S & R). unfold sized_text. destruct g as [|f m]; [constructor|]. cbn [group_text].
  apply coloured_app; [|apply coloured_app; [|apply coloured_app; [|apply coloured_refl]]].
  - unfold head_text. cbn [style_of y_sized]. destruct sized; [|constructor].
    apply coloured_app; [exact S|]. apply coloured_app; [apply coloured_refl|]. apply coloured_app; [apply coloured_refl|].
    apply coloured_app; [exact R|apply coloured_refl].
  - apply coloured_app; [exact P|]. apply coloured_app; [apply coloured_refl|exact R].
  - unfold rest_text. induction m as [|h m IH]; [constructor|]. cbn [map concat]. apply coloured_app; [|exact IH].
    constructor. apply coloured_app; [exact P|]. apply coloured_app; [apply coloured_refl|exact R].
Qed.

(** for every run that ends well, whatever the paths *)
Theorem colours_only : forall hash_of junk compare qsort iter sep sized c l t,
  sorts qsort -> visits_all iter -> sizes_ok l ->
  run_output hash_of junk compare qsort iter format_human_size (style_of sep sized true) c l = (t, SOk) ->
  exists t', run_output hash_of junk compare qsort iter format_human_size (style_of sep sized false) c l = (t', SOk) /\ coloured t t'.
Proof.
  intros hash_of junk compare qsort iter sep sized c l t Q IT SO E.
  destruct (run_text hash_of junk compare qsort iter c l) as [gs s] eqn:R.
  destruct (text_exact hash_of junk compare qsort iter format_human_size (style_of sep sized true) c l gs s Q IT SO R) as (t1 & E1 & tl1 & X1 & Y1).
  destruct (text_exact hash_of junk compare qsort iter format_human_size (style_of sep sized false) c l gs s Q IT SO R) as (t2 & E2 & tl2 & X2 & Y2).
  rewrite E1 in E. injection E as -> ->.
  destruct Y1 as [-> |[_ Y]]; [|congruence]. destruct Y2 as [-> |[_ Y]]; [|congruence].
  rewrite app_nil_r in X1, X2. exists t2. split; [exact E2|]. subst t t2. clear.
  induction gs as [|g gs IH]; [constructor|]. cbn [map concat]. apply coloured_app; [apply coloured_group|exact IH].
Qed.
(** the status does not depend on the colours *)
Theorem colours_status : forall hash_of junk compare qsort iter sep sized c l,
  sorts qsort -> visits_all iter -> sizes_ok l ->
  snd (run_output hash_of junk compare qsort iter format_human_size (style_of sep sized true) c l) =
  snd (run_output hash_of junk compare qsort iter format_human_size (style_of sep sized false) c l).
Proof.
  intros hash_of junk compare qsort iter sep sized c l Q IT SO.
  destruct (run_text hash_of junk compare qsort iter c l) as [gs s] eqn:R.
  destruct (text_exact hash_of junk compare qsort iter format_human_size (style_of sep sized true) c l gs s Q IT SO R) as (t1 & E1 & _).
  destruct (text_exact hash_of junk compare qsort iter format_human_size (style_of sep sized false) c l gs s Q IT SO R) as (t2 & E2 & _).
  now rewrite E1, E2.
Qed.

(** ** The terminal *)
Definition draws (a : look) (s : str) (cs : list (N * look)) (a' : look) : Prop :=
  forall rest, terminal Plain a (s ++ rest) = let (r, e) := terminal Plain a' rest in (cs ++ r, e).
Lemma draws_nil a : draws a [] [] a.
Proof. intros rest. cbn [app]. now destruct (terminal Plain a rest). Qed.
Lemma draws_app a s cs a' s' cs' a'' : draws a s cs a' -> draws a' s' cs' a'' -> draws a (s ++ s') (cs ++ cs') a''.
Proof.
  intros H H' rest. rewrite <- app_assoc, H, H'. destruct (terminal Plain a'' rest). now rewrite app_assoc.
Qed.
Lemma draws_text a s : ~ In ESC s -> draws a s (draw a s) a.
Proof.
  induction s as [|c s IH]; intros H rest; cbn [app draw map].
  - now destruct (terminal Plain a rest).
  - cbn [terminal]. destruct (N.eqb_spec c ESC) as [->|_]; [exfalso; apply H; now left|].
    rewrite IH by (intros X; apply H; now right). destruct (terminal Plain a rest). reflexivity.
Qed.
Lemma draws_codes sep sized a : let y := style_of sep sized true in
  draws a (y_path y) [] cyan /\ draws a (y_size y) [] blue /\ draws a (y_reset y) [] normal.
Proof.
  cbv zeta. repeat split; intros rest.
  - transitivity (terminal Plain cyan rest); [reflexivity|]. now destruct (terminal Plain cyan rest).
  - transitivity (terminal Plain blue rest); [reflexivity|]. now destruct (terminal Plain blue rest).
  - transitivity (terminal Plain normal rest); [reflexivity|]. now destruct (terminal Plain normal rest).
Qed.
Lemma human_printable z : ~ In ESC (format_human_size z).
Proof.
  assert (D : forall fuel n acc, ~ In ESC acc -> ~ In ESC (dec fuel n acc)).
  { induction fuel as [|fu IH]; intros n acc A; cbn [dec]; auto. cbv zeta. pose proof (Z.mod_pos_bound n 10 ltac:(lia)).
    assert (B : ~ In ESC ((Z.to_N (n mod 10) + 48)%N :: acc)). { intros [X|X]; auto. unfold ESC in X. lia. }
    destruct (n <? 10); auto. }
  assert (U : forall k, ~ In ESC (lit (nth k units ""%string))).
  { intros k X. assert (B : forallb (fun c => negb (c =? ESC)%N) (lit (nth k units ""%string)) = true) by (do 8 (destruct k as [|k]; [reflexivity|]); reflexivity).
    rewrite forallb_forall in B. specialize (B _ X). discriminate B. }
  unfold format_human_size. cbv zeta.
  destruct (unit_loop 6 (double_of z) 0 =? 0); intros X;
    repeat (apply in_app_or in X as [X|X]; [solve [revert X; apply D; intros [] | revert X; cbn; unfold ESC; intuition discriminate]|]);
    eapply U; eauto.
Qed.

Lemma draws_group sep sized g : sep <> ESC -> Forall (fun f => ~ In ESC (f_path f)) g ->
  draws normal (sized_text format_human_size (style_of sep sized true) g) (drawn_group sep sized g) normal.
Proof.
  intros S F. unfold sized_text. destruct g as [|f m]; [apply draws_nil|]. inversion F as [|? ? F1 F2]; subst. cbn [group_text drawn_group].
  assert (P : forall h a, ~ In ESC (f_path h) -> draws a (y_path (style_of sep sized true) ++ f_path h ++ y_reset (style_of sep sized true)) (draw cyan (f_path h)) normal).
  { intros h a H. change (draw cyan (f_path h)) with ([] ++ draw cyan (f_path h)). eapply draws_app; [apply draws_codes|].
    rewrite <- (app_nil_r (draw cyan (f_path h))). eapply draws_app; [apply draws_text; auto|apply draws_codes]. }
  eapply draws_app; [|eapply draws_app; [apply P; auto|eapply draws_app; [|apply draws_text; cbn; unfold ESC; intuition discriminate]]].
  - unfold head_text. cbn [style_of y_sized]. destruct sized; [|apply draws_nil].
    change (draw blue (lit "Size: " ++ format_human_size (f_size f)) ++ draw normal [10%N])
      with ([] ++ draw blue (lit "Size: " ++ format_human_size (f_size f)) ++ draw normal [10%N]).
    eapply draws_app; [apply (draws_codes sep true)|]. rewrite app_assoc. eapply draws_app.
    + apply draws_text. rewrite in_app_iff. intros [X|X]; [cbn in X; unfold ESC in X; intuition discriminate|]. eapply human_printable; eauto.
    + change (draw normal [10%N]) with ([] ++ draw normal [10%N]). eapply draws_app; [apply (draws_codes sep true)|]. apply draws_text. cbn. intuition discriminate.
  - clear F1 F. unfold rest_text. induction m as [|h m IH]; [apply draws_nil|]. inversion F2; subst. cbn [map concat].
    eapply draws_app; [|apply IH; auto]. change (y_sep (style_of sep sized true) :: y_path (style_of sep sized true) ++ f_path h ++ y_reset (style_of sep sized true))
      with ([sep] ++ y_path (style_of sep sized true) ++ f_path h ++ y_reset (style_of sep sized true)).
    eapply draws_app; [|apply P; auto]. apply draws_text. intros [X|[]]. congruence.
Qed.
Lemma drawn_text sep sized g : map fst (drawn_group sep sized g) = sized_text format_human_size (style_of sep sized false) g.
Proof.
  assert (D : forall a s, map fst (draw a s) = s). { intros a s. unfold draw. rewrite map_map. cbn [fst]. apply map_id. }
  unfold sized_text. destruct g as [|f m]; [reflexivity|]. cbn [group_text drawn_group]. rewrite !map_app, !D. f_equal; [|f_equal].
  - unfold head_text. cbn [style_of y_sized y_size y_reset app]. destruct sized; [|reflexivity]. now rewrite !map_app, !D, <- app_assoc.
  - cbn. now rewrite app_nil_r.
  - f_equal. unfold rest_text. induction m as [|h m IH]; [reflexivity|]. cbn [map concat]. rewrite !map_app, !D, IH.
    cbn [style_of y_sep y_path y_reset app]. now rewrite app_nil_r.
Qed.

(** what a terminal shows: the text that goes to a file, the sizes in blue, the paths in
    cyan, and the terminal is back to normal at the end *)
Theorem terminal_shows : forall hash_of junk compare qsort iter sep sized c l t,
  sorts qsort -> visits_all iter -> sizes_ok l -> sep <> ESC -> Forall (fun e => ~ In ESC (fst e)) l ->
  run_output hash_of junk compare qsort iter format_human_size (style_of sep sized true) c l = (t, SOk) ->
  terminal Plain normal t = (concat (map (drawn_group sep sized) (fst (run_text hash_of junk compare qsort iter c l))), normal) /\
  run_output hash_of junk compare qsort iter format_human_size (style_of sep sized false) c l = (map fst (fst (terminal Plain normal t)), SOk).
Proof.
  intros hash_of junk compare qsort iter sep sized c l t Q IT SO S PL E.
  destruct (run_text hash_of junk compare qsort iter c l) as [gs s] eqn:R. cbn [fst].
  destruct (text_exact hash_of junk compare qsort iter format_human_size (style_of sep sized true) c l gs s Q IT SO R) as (t1 & E1 & tl1 & X1 & Y1).
  destruct (text_exact hash_of junk compare qsort iter format_human_size (style_of sep sized false) c l gs s Q IT SO R) as (t2 & E2 & tl2 & X2 & Y2).
  rewrite E1 in E. injection E as -> ->.
  destruct Y1 as [-> |[_ Y]]; [|congruence]. destruct Y2 as [-> |[_ Y]]; [|congruence].
  rewrite app_nil_r in X1, X2.
  assert (G : Forall (Forall (fun f => ~ In ESC (f_path f))) gs).
  { destruct (groups_sound hash_of junk compare qsort iter (fun _ => []) c l Q IT SO (fun _ _ _ _ _ _ => eq_refl)) as [GS _].
    rewrite R in GS. cbn [fst] in GS. apply Forall_forall. intros g Ig. destruct (GS g Ig) as (_ & IN & _).
    apply Forall_forall. intros f If. apply IN in If. unfold collected in If. apply in_map_iff in If as (e & <- & If).
    apply filter_In in If as [If _]. rewrite Forall_forall in PL. now apply PL. }
  assert (D : draws normal t (concat (map (drawn_group sep sized) gs)) normal).
  { rewrite X1. clear - G S. induction G as [|g gs A _ IH]; [apply draws_nil|]. cbn [map concat].
    eapply draws_app; [apply draws_group; auto|exact IH]. }
  specialize (D []). rewrite app_nil_r in D. cbn [terminal] in D. rewrite app_nil_r in D. rewrite D. split; [reflexivity|].
  rewrite E2, X2. f_equal. cbn [fst]. rewrite concat_map, map_map. f_equal. apply map_ext. intros g. symmetry. apply drawn_text.
Qed.

Example colours_case : let c := run_output one_hash ex_junk all_equal isort id_iter format_human_size (style_of (chr ",") true true) cf0 [fe "a" 2; fe "b" 2] in
  c = (ESC :: lit "[34m" ++ ESC :: lit "[1mSize: 2 B" ++ ESC :: lit "[0m" ++ [10%N] ++
       ESC :: lit "[36m" ++ ESC :: lit "[1ma" ++ ESC :: lit "[0m," ++ ESC :: lit "[36m" ++ ESC :: lit "[1mb" ++ ESC :: lit "[0m" ++ [10%N; 10%N], SOk) /\
  terminal Plain normal (fst c) = (draw blue (lit "Size: 2 B") ++ draw normal [10%N] ++ draw cyan (lit "a") ++ draw normal (lit ",") ++
                                    draw cyan (lit "b") ++ draw normal [10%N; 10%N], normal).
Proof. vm_compute. split; reflexivity. Qed.
Example colours_files : sizes_ok [fe "a" 2; fe "b" 2] /\ Forall (fun e => ~ In ESC (fst e)) [fe "a" 2; fe "b" 2].
Proof. split; repeat constructor; cbn; try lia; intuition discriminate. Qed.

Print Assumptions colours_only.
Print Assumptions colours_status.
Print Assumptions terminal_shows.
