(** The command line: what the options set and which command lines are accepted
    (C66 to C71). *)
From Coq Require Import String Ascii.
From Verif Require Import Util IgnoreModel HumanModel PropHuman CollectModel WalkModel ConfigModel.
Local Open Scope list_scope.
Local Open Scope N_scope.

(** * Specification *)

(** the option [c] is on the command line *)
Definition given (os : list opt) (c : ascii) : Prop := exists arg, In (chr c, arg) os.
(** [v] is the value set by the last option that sets one ([sets x v]: option [x] asks for
    the value [v]), or the default *)
Definition lastly {A} (sets : opt -> A -> Prop) (os : list opt) (default v : A) : Prop :=
  (exists l x r, os = l ++ x :: r /\ sets x v /\ forall y w, In y r -> ~ sets y w)
  \/ (v = default /\ forall y w, In y os -> ~ sets y w).

(** [n] is one of the names in a comma-separated list *)
Definition comma : N := chr ",".
Definition listed (arg n : str) : Prop := exists l r, arg = l ++ n ++ r /\ ~ In comma n
  /\ (l = [] \/ exists l', l = l' ++ [comma]) /\ (r = [] \/ exists r', r = comma :: r').

(** a decimal integer without minus sign: spaces, an optional plus sign, digits *)
Definition plain_integer (s : str) (z : Z) : Prop := exists w sg ds,
  s = w ++ sg ++ ds /\ Forall space w /\ (sg = [] \/ sg = lit "+") /\ ds <> [] /\ Forall digit ds /\ z = number ds.

Definition sets_flag (on off : ascii) (x : opt) (v : bool) : Prop :=
  if v then fst x = chr on else fst x = chr off.
Definition sets_str (c : ascii) (x : opt) (v : option str) : Prop := fst x = chr c /\ v = Some (snd x).
Definition sets_wl (x : opt) (v : option str) : Prop := sets_str "w" x v \/ fst x = chr "I" /\ v = Some image_regex.
Definition sets_ar (x : opt) (v : option str) : Prop := fst x = chr "t" /\ v = Some archive_regex.
Definition sets_size (c : ascii) (x : opt) (v : Z) : Prop := fst x = chr c /\ parse_human_size (snd x) = PVal v.
Definition sets_threads (x : opt) (v : Z) : Prop := fst x = chr "j" /\ plain_integer (snd x) v.
Definition sets_sep (x : opt) (v : N) : Prop := fst x = chr "s" /\ v = hd 0 (snd x).
Definition sets_level (x : opt) (v : N) : Prop := fst x = chr "T" /\ hd 0 (snd x) = chr "0" + v.

(** the argument of an option is acceptable, and the option does not ask for help *)
Definition acceptable (x : opt) : Prop :=
  fst x <> chr "h" /\ fst x <> chr "V"
  /\ (fst x = chr "j" -> exists z, plain_integer (snd x) z /\ (1 <= z <= 256)%Z)
  /\ (In (fst x) (lit "mMx") -> exists z, parse_human_size (snd x) = PVal z /\ (0 <= z)%Z)
  /\ (fst x = chr "T" -> In (hd 0 (snd x)) (lit "12345")).

(** * Flags *)

Lemma is_set_pow m k : is_set m (2 ^ k) = N.testbit m k.
Proof.
  unfold is_set. destruct (N.testbit m k) eqn:E.
  - apply N.eqb_eq. apply N.bits_inj. intros i. rewrite N.land_spec, N.pow2_bits_eqb.
    destruct (N.eqb_spec k i) as [<-|]; [now rewrite E|apply andb_false_r].
  - apply N.eqb_neq. intros X. assert (Y : N.testbit (N.land m (2 ^ k)) k = true) by (rewrite X; apply N.pow2_bits_true).
    rewrite N.land_spec, E in Y. discriminate.
Qed.
Definition flag (f : N) : Prop := f = 2 ^ N.log2 f.
Lemma is_set_set_pow m a b v : is_set (set_option m (2 ^ a) v) (2 ^ b) = if a =? b then v else is_set m (2 ^ b).
Proof.
  rewrite !is_set_pow. unfold set_option. destruct v; [rewrite N.lor_spec|rewrite N.ldiff_spec]; rewrite N.pow2_bits_eqb;
    destruct (a =? b), (N.testbit m b); reflexivity.
Qed.
Lemma is_set_set m f g v : flag f -> flag g -> is_set (set_option m f v) g = if f =? g then v else is_set m g.
Proof.
  unfold flag. intros F G. pose proof (is_set_set_pow m (N.log2 f) (N.log2 g) v) as X. rewrite <- F, <- G in X. rewrite X.
  replace (N.log2 f =? N.log2 g) with (f =? g); [reflexivity|].
  destruct (N.eqb_spec f g) as [E|D]; [now rewrite E, N.eqb_refl|]. symmetry. apply N.eqb_neq. intros E. apply D. congruence.
Qed.

(** * Splitting at commas *)

Lemma cut_first (c : N) : forall a t l u, ~ In c a -> a ++ c :: t = l ++ c :: u ->
  (l = a /\ u = t) \/ exists k, l = a ++ c :: k /\ t = k ++ c :: u.
Proof.
  induction a as [|x a IH]; intros t l u NI E; cbn [app] in E.
  - destruct l as [|y l]; cbn [app] in E; injection E; intros; [left|right]; subst; [auto|]. exists l. auto.
  - destruct l as [|y l]; cbn [app] in E.
    + injection E as -> _. exfalso. apply NI. now left.
    + injection E as -> E. destruct (IH t l u ltac:(intros I; apply NI; now right) E) as [(-> & ->)|(k & -> & ->)]; [now left|].
      right. exists k. auto.
Qed.
Lemma listed_plain a n : ~ In comma a -> n <> [] -> (listed a n <-> n = a).
Proof.
  intros NI NE. split.
  - intros (l & r & -> & Nn & [-> |(l' & ->)] & [-> |(r' & ->)]).
    + now rewrite app_nil_r.
    + exfalso. apply NI. cbn [app]. rewrite !in_app_iff. right. now left.
    + exfalso. apply NI. rewrite !in_app_iff. left. right. now left.
    + exfalso. apply NI. rewrite !in_app_iff. left. right. now left.
  - intros ->. exists [], []. rewrite app_nil_r. auto.
Qed.
Lemma listed_comma a t n : ~ In comma a -> n <> [] -> (listed (a ++ comma :: t) n <-> n = a \/ listed t n).
Proof.
  intros NI NE. split.
  - intros (l & r & E & Nn & L & Rr). destruct L as [-> |(l' & ->)].
    + cbn [app] in E. destruct Rr as [-> |(r' & ->)].
      * exfalso. apply Nn. rewrite app_nil_r in E. rewrite <- E, in_app_iff. right. now left.
      * apply cut_first in E; [|exact NI]. destruct E as [(-> & _)|(k & -> & _)]; [now left|].
        exfalso. apply Nn. rewrite in_app_iff. right. now left.
    + rewrite <- app_assoc in E. cbn [app] in E. apply cut_first in E; [|exact NI]. right.
      destruct E as [(-> & E)|(k & -> & ->)].
      * exists [], r. rewrite <- E. auto.
      * exists (k ++ [comma]), r. rewrite <- app_assoc. cbn [app]. split; [reflexivity|]. split; [exact Nn|]. split; [|exact Rr]. right. now exists k.
  - intros [-> |(l & r & -> & Nn & L & Rr)].
    + exists [], (comma :: t). split; [reflexivity|]. split; [exact NI|]. split; [now left|]. right. now exists t.
    + exists (a ++ comma :: l), r. split; [rewrite <- app_assoc; reflexivity|]. split; [exact Nn|]. split; [|exact Rr].
      right. destruct L as [-> |(l' & ->)]; [now exists a|]. exists (a ++ comma :: l'). now rewrite <- app_assoc.
Qed.
Lemma split_listed n : n <> [] -> forall s cur, ~ In comma cur -> (In n (split_commas s cur) <-> listed (cur ++ s) n).
Proof.
  intros NE. induction s as [|c t IH]; intros cur NI; cbn [split_commas].
  - rewrite app_nil_r, (listed_plain cur n NI NE). cbn [In]. intuition congruence.
  - destruct (N.eqb_spec c (chr ",")) as [-> |D].
    + rewrite (listed_comma cur t n NI NE). destruct t as [|x t].
      * rewrite (listed_plain [] n) by (auto; intros []). cbn [In]. intuition congruence.
      * specialize (IH [] (fun x => x)). cbn [app] in IH. cbn [In]. rewrite IH. intuition congruence.
    + rewrite IH.
      * now rewrite <- app_assoc.
      * rewrite in_app_iff. intros [I|[I|[]]]; [exact (NI I)|]. now apply D.
Qed.
Lemma add_names_exact l arg n : n <> [] -> (In n (add_names l arg) <-> In n l \/ listed arg n).
Proof.
  intros NE. unfold add_names. rewrite in_app_iff, <- in_rev, (split_listed n NE arg [] (fun x => x)). cbn [app]. tauto.
Qed.

(** * Integers *)

Lemma digits_inv s : exists ds r, s = ds ++ r /\ Forall digit ds /\ stops r.
Proof.
  induction s as [|c t (ds & r & -> & D & S)].
  - exists [], []. repeat split; constructor.
  - destruct (isdigit c) eqn:E.
    + exists (c :: ds), r. split; [reflexivity|]. split; [|exact S]. constructor; [now apply digit_b|exact D].
    + exists [], (c :: ds ++ r). split; [reflexivity|]. split; [constructor|]. now apply digit_bf.
Qed.
Lemma spaces_inv s : exists w t, s = w ++ t /\ Forall space w /\ skip_spaces s = t /\ match t with c :: _ => ~ space c | [] => True end.
Proof.
  induction s as [|c s (w & t & -> & W & E & N)].
  - exists [], []. repeat split; constructor.
  - destruct (isspace c) eqn:X.
    + exists (c :: w), t. split; [reflexivity|]. split; [constructor; [now apply space_b|exact W]|]. cbn [app skip_spaces]. rewrite X. auto.
    + exists [], (c :: w ++ t). split; [reflexivity|]. split; [constructor|]. cbn [app skip_spaces]. rewrite X. split; [reflexivity|].
      intros Y. apply space_b in Y. congruence.
Qed.
Lemma digit_sign c : digit c -> (c =? chr "-") = false /\ (c =? chr "+") = false.
Proof. unfold digit. intros H. split; apply N.eqb_neq; cbn; lia. Qed.

Lemma strtol_plain s z : plain_integer s z -> strtol s = (clamp z, []).
Proof.
  intros (w & sg & ds & -> & W & SG & NE & D & ->). unfold strtol. rewrite (skip_spaces_app w _ W).
  assert (X : digits ds 0 0 = (number ds, length ds, [])).
  { pose proof (digits_app ds [] D I 0%Z 0%nat) as X. rewrite app_nil_r in X. exact X. }
  assert (L : (length ds =? 0)%nat = false) by (destruct ds; [congruence|reflexivity]).
  destruct SG as [-> | ->].
  - cbn [app]. destruct ds as [|c ds]; [congruence|]. pose proof (Forall_inv D) as C. cbv beta in C.
    rewrite (skip_spaces_no c) by now apply digit_not_space. destruct (digit_sign c C) as (E1 & E2). rewrite E1, E2, X, L. reflexivity.
  - change (lit "+" ++ ds) with (chr "+" :: ds). rewrite skip_spaces_no by (cbn; lia).
    change (chr "+" =? chr "-") with false. change (chr "+" =? chr "+") with true. cbv beta iota. now rewrite X, L.
Qed.
Lemma strtol_inv s z : strtol s = (z, []) -> (1 <= z < 2 ^ 63 - 1)%Z -> plain_integer s z.
Proof.
  intros H Z. unfold strtol in H. destruct (spaces_inv s) as (w & t & -> & W & E & NS). rewrite E in H.
  assert (G : forall (neg : bool) u, (let '(a, n, r) := digits u 0 0 in if (n =? 0)%nat then (0%Z, w ++ t) else (clamp (if neg then - a else a), r)) = (z, []) ->
              neg = false /\ u <> [] /\ Forall digit u /\ z = number u).
  { intros neg u. destruct (digits_inv u) as (ds & r & -> & D & S). rewrite (digits_app ds r D S). fold (number ds).
    cbn [Nat.add]. destruct ds as [|c ds]; cbn [length Nat.eqb]; intros X; [injection X; lia|].
    injection X as <- ->. pose proof (number_nonneg (c :: ds)) as P. unfold clamp in Z |- *. rewrite app_nil_r.
    destruct neg; [exfalso; lia|]. split; [reflexivity|]. split; [discriminate|]. split; [exact D|]. lia. }
  destruct t as [|c t].
  - apply (G false []) in H. destruct H as (_ & N & _). congruence.
  - destruct (N.eqb_spec c (chr "-")) as [-> |D1]; [|destruct (N.eqb_spec c (chr "+")) as [-> |D2]].
    + apply (G true t) in H. destruct H; discriminate.
    + apply (G false t) in H. destruct H as (_ & NE & D & ->). exists w, (lit "+"), t. split; [reflexivity|]. auto.
    + apply (G false (c :: t)) in H. destruct H as (_ & NE & D & ->). exists w, [], (c :: t). split; [reflexivity|]. auto 6.
Qed.
Lemma number_small s z : plain_integer s z -> (1 <= fst (strtol s) <= 256)%Z -> fst (strtol s) = z.
Proof. intros P. rewrite (strtol_plain s z P). cbn [fst]. unfold clamp. lia. Qed.

(** * One option *)

Definition letters : str := lit "acdnforRveipswjmMxhVITJt".
Record step (g : cfg) (x : opt) (g' : cfg) : Prop := {
  st_hidden : is_set (g_mask g') OPTION_SHOW_HIDDEN = is_set (g_mask g) OPTION_SHOW_HIDDEN || (fst x =? chr "a");
  st_icase : is_set (g_mask g') OPTION_ICASE = is_set (g_mask g) OPTION_ICASE || (fst x =? chr "c") || (fst x =? chr "I");
  st_sized : is_set (g_mask g') OPTION_SIZED = is_set (g_mask g) OPTION_SIZED || (fst x =? chr "d");
  st_dry : is_set (g_mask g') OPTION_DRY_RUN = is_set (g_mask g) OPTION_DRY_RUN || (fst x =? chr "n");
  st_fsyml : is_set (g_mask g') OPTION_FSYML = is_set (g_mask g) OPTION_FSYML || (fst x =? chr "f");
  st_opmem : is_set (g_mask g') OPTION_OPMEM = is_set (g_mask g) OPTION_OPMEM || (fst x =? chr "o");
  st_puzzl : is_set (g_mask g') OPTION_PUZZL = is_set (g_mask g) OPTION_PUZZL || (fst x =? chr "I");
  st_untar : is_set (g_mask g') OPTION_UNTAR = is_set (g_mask g) OPTION_UNTAR || (fst x =? chr "t");
  st_json : is_set (g_mask g') OPTION_JSON = is_set (g_mask g) OPTION_JSON || (fst x =? chr "J");
  st_verbo : is_set (g_mask g') OPTION_VERBO =
    if fst x =? chr "J" then false else is_set (g_mask g) OPTION_VERBO || (fst x =? chr "v") && negb (is_set (g_mask g) OPTION_JSON);
  st_recsd : is_set (g_mask g') OPTION_RECSD =
    if fst x =? chr "r" then true else if fst x =? chr "R" then false else is_set (g_mask g) OPTION_RECSD;
  st_names : g_names g' = if fst x =? chr "i" then add_names (g_names g) (snd x) else g_names g;
  st_ig : g_ig g' = if fst x =? chr "e" then Some (snd x) else g_ig g;
  st_wl : g_wl g' = if fst x =? chr "w" then Some (snd x) else if fst x =? chr "I" then Some image_regex else g_wl g;
  st_ar : g_ar g' = if fst x =? chr "t" then Some archive_regex else g_ar g;
  st_prio : g_prio g' = if fst x =? chr "p" then Some (snd x) else g_prio g;
  st_sep : g_sep g' = if fst x =? chr "s" then hd 0 (snd x) else g_sep g;
  st_threads : if fst x =? chr "j" then plain_integer (snd x) (g_threads g') /\ (1 <= g_threads g' <= 256)%Z else g_threads g' = g_threads g;
  st_min : if fst x =? chr "m" then parse_human_size (snd x) = PVal (g_min g') /\ (0 <= g_min g')%Z else g_min g' = g_min g;
  st_max : if fst x =? chr "M" then parse_human_size (snd x) = PVal (g_max g') /\ (0 <= g_max g')%Z else g_max g' = g_max g;
  st_excess : if fst x =? chr "x" then parse_human_size (snd x) = PVal (g_excess g') /\ (0 <= g_excess g')%Z else g_excess g' = g_excess g;
  st_level : if fst x =? chr "T" then hd 0 (snd x) = chr "0" + g_level g' /\ 1 <= g_level g' <= 5 else g_level g' = g_level g }.

Ltac flags := repeat rewrite is_set_set by reflexivity.
Lemma step_refl_other g o arg : ~ In o letters -> step g (o, arg) g.
Proof.
  intros NI. assert (E : forall c, In (chr c) letters -> (o =? chr c) = false).
  { intros c I. apply N.eqb_neq. intros ->. exact (NI I). }
  constructor; cbn [fst snd];
    repeat match goal with |- context [o =? chr ?c] => rewrite (E c) by (vm_compute; tauto) end;
    rewrite ?orb_false_r; reflexivity.
Qed.
Lemma other_ok g o arg : ~ In o letters -> process_option g (o, arg) = POk g.
Proof.
  intros NI. unfold process_option.
  assert (E : forall s, incl (lit s) letters -> existsb (N.eqb o) (lit s) = false).
  { intros s I. apply not_true_is_false. rewrite existsb_eqb. intros J. exact (NI (I _ J)). }
  rewrite !E; [reflexivity| | | |]; intros y J; vm_compute in J |- *; tauto.
Qed.

Local Arguments set_option : simpl never.
Local Arguments is_set : simpl never.
Local Arguments parse_human_size : simpl never.
Local Arguments strtol : simpl never.
Local Arguments add_names : simpl never.
Local Arguments plain_integer : simpl never.
Ltac fields := constructor; cbn; flags; cbn; rewrite ?orb_false_r, ?orb_true_r; try reflexivity.
Lemma process_step g x g' : process_option g x = POk g' -> step g x g'.
Proof.
  destruct x as (o & arg). destruct (in_dec N.eq_dec o letters) as [I|NI].
  2:{ rewrite (other_ok g o arg NI). intros X. injection X as <-. now apply step_refl_other. }
  unfold letters in I. cbn in I.
  repeat (destruct I as [<- |I]; [intros H; cbn in H|]); [..|destruct I];
    try discriminate H;
    try (injection H as <-; fields; fail).
  - destruct (is_set (g_mask g) OPTION_JSON) eqn:J; cbn [negb] in H; injection H as <-; fields; rewrite ?J, ?orb_false_r, ?orb_true_r; reflexivity.
  - destruct (strtol arg) as (z & rest) eqn:S. destruct rest as [|c rest]; [|discriminate H]. cbn [negb orb] in H.
    destruct (Z.ltb_spec z 1); [discriminate H|]. destruct (Z.ltb_spec MAX_THREADS z); [discriminate H|]. unfold MAX_THREADS in *.
    injection H as <-. fields. split; [apply strtol_inv; auto; lia|lia].
  - unfold handle_size in H. destruct (parse_human_size arg) as [z| |] eqn:S; try discriminate H.
    destruct (Z.ltb_spec z 0); [discriminate H|]. injection H as <-. fields. auto.
  - unfold handle_size in H. destruct (parse_human_size arg) as [z| |] eqn:S; try discriminate H.
    destruct (Z.ltb_spec z 0); [discriminate H|]. injection H as <-. fields. auto.
  - unfold handle_size in H. destruct (parse_human_size arg) as [z| |] eqn:S; try discriminate H.
    destruct (Z.ltb_spec z 0); [discriminate H|]. injection H as <-. fields. auto.
  - destruct (N.leb_spec 49 (hd 0 arg)); [|discriminate H]. destruct (N.leb_spec (hd 0 arg) 53); [|discriminate H].
    assert (L : hd 0 arg = chr "0" + (hd 0 arg - chr "0") /\ 1 <= hd 0 arg - chr "0" <= 5) by (change (chr "0") with 48; lia).
    injection H as <-. fields. exact L.
  - destruct (is_set (set_option (g_mask g) OPTION_JSON true) OPTION_VERBO) eqn:J; rewrite is_set_set in J by reflexivity; cbn in J;
      injection H as <-; fields; exact J.
Qed.

Lemma parse_app g os os' : parse_opts g (os ++ os') = match parse_opts g os with POk g' => parse_opts g' os' | e => e end.
Proof. revert g. induction os as [|x os IH]; intros g; [reflexivity|]. cbn [app parse_opts]. destruct (process_option g x); auto. Qed.
Lemma parse_snoc g os x g' : parse_opts g (os ++ [x]) = POk g' ->
  exists g1, parse_opts g os = POk g1 /\ step g1 x g'.
Proof.
  rewrite parse_app. destruct (parse_opts g os) as [g1| | |]; try discriminate. cbn [parse_opts]. intros H. exists g1. split; [reflexivity|].
  apply process_step. now destruct (process_option g1 x).
Qed.

Section Lastly.
Context {A : Type} (sets : opt -> A -> Prop).
Lemma lastly_nil d : lastly sets [] d d.
Proof. right. split; [reflexivity|]. intros y w []. Qed.
Lemma lastly_set os x d v : sets x v -> lastly sets (os ++ [x]) d v.
Proof. intros H. left. exists os, x, []. split; [reflexivity|]. split; [exact H|]. intros y w []. Qed.
Lemma lastly_keep os x d v : (forall w, ~ sets x w) -> lastly sets os d v -> lastly sets (os ++ [x]) d v.
Proof.
  intros NS [(l & y & r & -> & S & N)|(-> & N)].
  - left. exists l, y, (r ++ [x]). split; [now rewrite <- app_assoc|]. split; [exact S|].
    intros z w I. apply in_app_iff in I. destruct I as [I|[<- |[]]]; auto.
  - right. split; [reflexivity|]. intros z w I. apply in_app_iff in I. destruct I as [I|[<- |[]]]; auto.
Qed.
End Lastly.
Lemma given_nil c : ~ given [] c.
Proof. intros (arg & []). Qed.
Lemma given_snoc os x c : given (os ++ [x]) c <-> given os c \/ fst x = chr c.
Proof.
  unfold given. destruct x as (o & a). cbn [fst]. setoid_rewrite in_app_iff. cbn [In]. split.
  - intros (arg & [I|[E|[]]]); [left; eauto|]. injection E as -> ->. now right.
  - intros [(arg & I)| ->]; [exists arg; auto|exists a; auto].
Qed.

(** ** C66: every option sets what it stands for; of options for the same setting the last
    one counts *)
Record settings (cpus : Z) (os : list opt) (g : cfg) : Prop := {
  se_hidden : is_set (g_mask g) OPTION_SHOW_HIDDEN = true <-> given os "a";
  se_icase : is_set (g_mask g) OPTION_ICASE = true <-> given os "c" \/ given os "I";
  se_sized : is_set (g_mask g) OPTION_SIZED = true <-> given os "d";
  se_dry : is_set (g_mask g) OPTION_DRY_RUN = true <-> given os "n";
  se_fsyml : is_set (g_mask g) OPTION_FSYML = true <-> given os "f";
  se_opmem : is_set (g_mask g) OPTION_OPMEM = true <-> given os "o";
  se_puzzl : is_set (g_mask g) OPTION_PUZZL = true <-> given os "I";
  se_untar : is_set (g_mask g) OPTION_UNTAR = true <-> given os "t";
  se_json : is_set (g_mask g) OPTION_JSON = true <-> given os "J";
  se_verbo : is_set (g_mask g) OPTION_VERBO = true <-> given os "v" /\ ~ given os "J";
  se_recsd : lastly (sets_flag "r" "R") os true (is_set (g_mask g) OPTION_RECSD);
  se_names : forall n, n <> [] -> (In n (g_names g) <-> In n [lit "."; lit ".."] \/ exists arg, In (chr "i", arg) os /\ listed arg n);
  se_ig : lastly (sets_str "e") os None (g_ig g);
  se_wl : lastly sets_wl os None (g_wl g);
  se_ar : lastly sets_ar os None (g_ar g);
  se_prio : lastly (sets_str "p") os None (g_prio g);
  se_sep : lastly sets_sep os 10 (g_sep g);
  se_threads : lastly sets_threads os cpus (g_threads g);
  se_min : lastly (sets_size "m") os 0%Z (g_min g);
  se_max : lastly (sets_size "M") os 0%Z (g_max g);
  se_excess : lastly (sets_size "x") os (50 * 1024 * 1024)%Z (g_excess g);
  se_level : lastly sets_level os 1 (g_level g) }.

Theorem settings_exact : forall cpus os g, parse_opts (cfg_create cpus) os = POk g -> settings cpus os g.
Proof.
  intros cpus os. induction os as [|x os IH] using rev_ind; intros g H.
  - cbn [parse_opts] in H. injection H as <-.
    assert (G : forall c, given [] c <-> False) by (intros c; split; [apply given_nil|tauto]).
    constructor; rewrite ?G; try (cbn; intuition discriminate); try apply lastly_nil.
    intros n NE. cbn [g_names cfg_create default_names]. split; [now left|]. intros [I|(arg & [] & _)]. exact I.
  - destruct (parse_snoc _ _ _ _ H) as (g1 & P & S). specialize (IH g1 P). destruct S, IH.
    constructor; rewrite ?given_snoc; 
      try match goal with
          | A : is_set (g_mask g) ?F = _, B : is_set (g_mask g1) ?F = true <-> _ |- is_set (g_mask g) ?F = true <-> given os ?c \/ _ =>
              rewrite A, orb_true_iff, N.eqb_eq, B; tauto
          end.
    + rewrite st_icase0, !orb_true_iff, !N.eqb_eq, se_icase0. tauto.
    + rewrite st_verbo0. destruct (N.eqb_spec (fst x) (chr "J")) as [E|E]; [split; [discriminate|tauto]|].
      rewrite orb_true_iff, andb_true_iff, negb_true_iff, <- not_true_iff_false, N.eqb_eq, se_verbo0, se_json0. tauto.
    + rewrite st_recsd0. destruct (N.eqb_spec (fst x) (chr "r")) as [E|E]; [now apply lastly_set|].
      destruct (N.eqb_spec (fst x) (chr "R")) as [F|F]; [now apply lastly_set|]. apply lastly_keep; [|assumption]. now intros [].
    + intros n NE. rewrite st_names0. destruct x as (o & a). cbn [fst snd]. destruct (N.eqb_spec o (chr "i")) as [-> |E].
      * rewrite (add_names_exact _ _ _ NE), (se_names0 n NE). split.
        -- intros [[I|(arg & I & L)]|L]; [now left|right; exists arg|right; exists a]; (split; [apply in_app_iff; cbn [In]; auto|exact L]).
        -- intros [I|(arg & I & L)]; [now left; left|]. apply in_app_iff in I. destruct I as [I|[I|[]]]; [left; right; eauto|].
           injection I as <-. now right.
      * rewrite (se_names0 n NE). split; (intros [I|(arg & I & L)]; [now left|]); right; exists arg; (split; [|exact L]).
        -- apply in_app_iff. now left.
        -- apply in_app_iff in I. destruct I as [I|[I|[]]]; [exact I|]. congruence.
    + rewrite st_ig0. destruct (N.eqb_spec (fst x) (chr "e")) as [E|E]; [now apply lastly_set|]. apply lastly_keep; [|assumption]. intros w (X & _); auto.
    + rewrite st_wl0. destruct (N.eqb_spec (fst x) (chr "w")) as [E|E]; [apply lastly_set; left; now split|].
      destruct (N.eqb_spec (fst x) (chr "I")) as [F|F]; [apply lastly_set; right; now split|]. apply lastly_keep; [|assumption]. intros w [(X & _)|(X & _)]; auto.
    + rewrite st_ar0. destruct (N.eqb_spec (fst x) (chr "t")) as [E|E]; [now apply lastly_set|]. apply lastly_keep; [|assumption]. intros w (X & _); auto.
    + rewrite st_prio0. destruct (N.eqb_spec (fst x) (chr "p")) as [E|E]; [now apply lastly_set|]. apply lastly_keep; [|assumption]. intros w (X & _); auto.
    + rewrite st_sep0. destruct (N.eqb_spec (fst x) (chr "s")) as [E|E]; [now apply lastly_set|]. apply lastly_keep; [|assumption]. intros w (X & _); auto.
    + destruct (N.eqb_spec (fst x) (chr "j")) as [E|E]; [apply lastly_set; now split|]. rewrite st_threads0. apply lastly_keep; [|assumption]. intros w (X & _); auto.
    + destruct (N.eqb_spec (fst x) (chr "m")) as [E|E]; [apply lastly_set; now split|]. rewrite st_min0. apply lastly_keep; [|assumption]. intros w (X & _); auto.
    + destruct (N.eqb_spec (fst x) (chr "M")) as [E|E]; [apply lastly_set; now split|]. rewrite st_max0. apply lastly_keep; [|assumption]. intros w (X & _); auto.
    + destruct (N.eqb_spec (fst x) (chr "x")) as [E|E]; [apply lastly_set; now split|]. rewrite st_excess0. apply lastly_keep; [|assumption]. intros w (X & _); auto.
    + destruct (N.eqb_spec (fst x) (chr "T")) as [E|E]; [apply lastly_set; now split|]. rewrite st_level0. apply lastly_keep; [|assumption]. intros w (X & _); auto.
Qed.

(** The same for what the walk, the comparison and the report get. *)
Definition compiled {A} (pcre : bool -> str -> option A) (icase : bool) (re : option str) (f : option A) : Prop :=
  match re with Some s => f <> None /\ pcre icase s = f | None => f = None end.
Record setup_ok {R} (pcre : bool -> str -> option (path -> bool)) (os : list opt) (args : list path) (uid : N) (u : setup R) : Prop := {
  so_args : u_args u = args /\ args <> [];
  so_hidden : w_hidden (u_conf u) = true <-> given os "a";
  so_recurse : lastly (sets_flag "r" "R") os true (w_recurse (u_conf u));
  so_links : cf_fsyml (w_conf (u_conf u)) = true <-> given os "f";
  so_icase : cf_icase (w_conf (u_conf u)) = true <-> given os "c" \/ given os "I";
  so_names : forall n, n <> [] -> (In n (w_names (u_conf u)) <-> n = lit "." \/ n = lit ".." \/ exists arg, In (chr "i", arg) os /\ listed arg n);
  so_ig : exists re, lastly (sets_str "e") os None re /\ compiled pcre (cf_icase (w_conf (u_conf u))) re (w_ig (u_conf u));
  so_wl : exists re, lastly sets_wl os None re /\ compiled pcre (cf_icase (w_conf (u_conf u))) re (w_wl (u_conf u));
  so_min : lastly (sets_size "m") os 0%Z (cf_minsize (w_conf (u_conf u)));
  so_max : lastly (sets_size "M") os 0%Z (cf_maxsize (w_conf (u_conf u)));
  so_prio : lastly (sets_str "p") os None (cf_ppath (w_conf (u_conf u)));
  so_user : cf_userid (w_conf (u_conf u)) = uid;
  so_git : w_git (u_conf u) = true }.

Lemma compile_opt_spec pcre ic re f : compile_opt pcre ic re = Some f -> compiled pcre ic re f.
Proof.
  destruct re as [s|]; cbn [compile_opt compiled].
  - destruct (pcre ic s); [|discriminate]. intros X. injection X as <-. split; [discriminate|reflexivity].
  - intros X. now injection X as <-.
Qed.

Theorem setup_exact : forall R (compile : str -> option R) pcre cpus os e args uid groups egid u,
  parse_args compile pcre cpus os e args uid groups egid = SetOk u -> setup_ok pcre os args uid u.
Proof.
  intros R compile pcre cpus os e args uid groups egid u H. unfold parse_args in H.
  destruct (parse_opts (cfg_create cpus) os) as [g| | |] eqn:P; try discriminate.
  destruct args as [|a args]; [discriminate|]. destruct (fill_gids groups egid); [|discriminate].
  destruct (global_ignores compile); [|discriminate].
  destruct (compile_opt pcre _ (g_ig g)) eqn:E1; [|discriminate]. destruct (compile_opt pcre _ (g_wl g)) eqn:E2; [|discriminate].
  destruct (compile_opt pcre _ (g_ar g)); [|discriminate]. injection H as <-.
  destruct (settings_exact _ _ _ P). apply compile_opt_spec in E1, E2.
  constructor; cbn [u_args u_conf w_hidden w_recurse w_conf w_names w_ig w_wl w_git cf_fsyml cf_icase cf_minsize cf_maxsize cf_ppath cf_userid];
    auto; try (now split); eauto.
  intros n NE. rewrite (se_names0 n NE). cbn [In]. intuition congruence.
Qed.

(** ** C67: which command lines are accepted *)

Lemma accept_threads arg (k : Z -> cfg) :
  (exists g', (let (z, rest) := strtol arg in
     if negb (match rest with [] => true | _ => false end) || (z <? 1)%Z || (MAX_THREADS <? z)%Z then PErr else POk (k z)) = POk g')
  <-> exists z, plain_integer arg z /\ (1 <= z <= 256)%Z.
Proof.
  unfold MAX_THREADS. split.
  - intros (g' & H). destruct (strtol arg) as (z & [|c rest]) eqn:S; cbn [negb orb] in H; [|discriminate].
    destruct (Z.ltb_spec z 1); [discriminate|]. destruct (Z.ltb_spec 256 z); [discriminate|]. exists z. split; [apply strtol_inv; auto|]; lia.
  - intros (z & P & Z). rewrite (strtol_plain arg z P). cbn [negb orb]. replace (clamp z) with z by (unfold clamp; lia).
    destruct (Z.ltb_spec z 1); [lia|]. destruct (Z.ltb_spec 256 z); [lia|]. eexists. reflexivity.
Qed.
Lemma accept_size arg k : (exists g', handle_size arg k = POk g') <-> exists z, parse_human_size arg = PVal z /\ (0 <= z)%Z.
Proof.
  unfold handle_size. destruct (parse_human_size arg) as [z| |].
  - destruct (Z.ltb_spec z 0); split.
    + intros (? & ?); discriminate.
    + intros (? & E & ?). injection E as <-. lia.
    + intros _. exists z. auto.
    + intros _. eexists. reflexivity.
  - split; intros (? & E); [discriminate|destruct E; discriminate].
  - split; intros (? & E); [discriminate|destruct E; discriminate].
Qed.

Lemma accept_one g x : (exists g', process_option g x = POk g') <-> acceptable x.
Proof.
  destruct x as (o & arg). unfold acceptable. cbn [fst snd]. destruct (in_dec N.eq_dec o letters) as [I|NI].
  2:{ split; [intros _|intros _; exists g; now apply other_ok].
      assert (E : forall c, In c letters -> o <> c) by (intros c Ic ->; exact (NI Ic)).
      split; [apply E; vm_compute; tauto|]. split; [apply E; vm_compute; tauto|]. split; [|split].
      - intros X. contradict X. apply E. vm_compute; tauto.
      - intros X. contradict NI. revert X. vm_compute. tauto.
      - intros X. contradict X. apply E. vm_compute; tauto. }
  unfold letters in I. cbn in I.
  repeat (destruct I as [<- |I]; [cbn; split|]); [..|destruct I]; try (intros (g' & H); discriminate H);
    try (intros (A & B & _); exfalso; ((now apply A) || (now apply B)));
    try (intros _; split; [discriminate|]; split; [discriminate|]; split; [discriminate|]; split; [intuition discriminate|discriminate]);
    try (intros _; eexists; reflexivity).
  - intros H%accept_threads. split; [discriminate|]. split; [discriminate|]. split; [auto|]. split; [intuition discriminate|discriminate].
  - intros (_ & _ & H & _). apply accept_threads. auto.
  - intros H%accept_size. split; [discriminate|]. split; [discriminate|]. split; [discriminate|]. split; [auto|discriminate].
  - intros (_ & _ & _ & H & _). apply accept_size. auto.
  - intros H%accept_size. split; [discriminate|]. split; [discriminate|]. split; [discriminate|]. split; [auto|discriminate].
  - intros (_ & _ & _ & H & _). apply accept_size. auto.
  - intros H%accept_size. split; [discriminate|]. split; [discriminate|]. split; [discriminate|]. split; [auto|discriminate].
  - intros (_ & _ & _ & H & _). apply accept_size. auto.
  - intros (g' & H). split; [discriminate|]. split; [discriminate|]. split; [discriminate|]. split; [intuition discriminate|]. intros _.
    destruct (N.leb_spec 49 (hd 0 arg)); [|discriminate H]. destruct (N.leb_spec (hd 0 arg) 53); [|discriminate H]. lia.
  - intros (_ & _ & _ & _ & H). specialize (H eq_refl).
    destruct (N.leb_spec 49 (hd 0 arg)); [|lia]. destruct (N.leb_spec (hd 0 arg) 53); [|lia]. eexists. reflexivity.
Qed.

(** the options are accepted exactly if every one of them is acceptable.  Missing from C67:
    what apr_getopt_long rejects, and rubbish behind a number or a level, see below. *)
Theorem accepted_exact_partial : forall cpus os,
  (exists g, parse_opts (cfg_create cpus) os = POk g) <-> Forall acceptable os.
Proof.
  intros cpus os. generalize (cfg_create cpus). induction os as [|x os IH]; intros g; cbn [parse_opts].
  - split; [constructor|]. intros _. now exists g.
  - rewrite Forall_cons_iff. destruct (process_option g x) as [g1| | |] eqn:P.
    + rewrite IH. assert (A : acceptable x) by (apply (accept_one g); eauto). tauto.
    + split; [intros (? & ?); discriminate|]. intros (A & _). apply (accept_one g) in A. rewrite P in A. exact A.
    + split; [intros (? & ?); discriminate|]. intros (A & _). apply (accept_one g) in A. rewrite P in A. exact A.
    + split; [intros (? & ?); discriminate|]. intros (A & _). apply (accept_one g) in A. rewrite P in A. exact A.
Qed.

(** an option that apr_getopt_long does not know, or whose argument is missing, only ends
    the loop; a level or a size followed by rubbish is taken *)
Theorem accepted_exact_refuted :
  (forall R (compile : str -> option R) pcre cpus os args uid groups egid,
     parse_args compile pcre cpus os GBad args uid groups egid = parse_args compile pcre cpus os GEof args uid groups egid)
  /\ (exists u, parse_args (fun r => Some r) (fun _ _ => None) 4 [(chr "R", [])] GBad [lit "dir"] 0 [] 0 = SetOk u)
  /\ (exists g, parse_opts (cfg_create 4) [(chr "T", lit "12")] = POk g)
  /\ (exists g, parse_opts (cfg_create 4) [(chr "m", lit "1Kbogus")] = POk g).
Proof.
  split; [reflexivity|]. split; [eexists; vm_compute; reflexivity|]. split; eexists; vm_compute; reflexivity.
Qed.

(** ** C68: names to ignore *)
Theorem ignore_names_exact : forall cpus os g n, parse_opts (cfg_create cpus) os = POk g -> n <> [] ->
  (In n (g_names g) <-> n = lit "." \/ n = lit ".." \/ exists arg, In (chr "i", arg) os /\ listed arg n).
Proof.
  intros cpus os g n H NE. destruct (settings_exact _ _ _ H) as [? ? ? ? ? ? ? ? ? ? ? S]. rewrite (S n NE). cbn [In]. intuition congruence.
Qed.

(** ** C69: number of threads *)
Theorem threads_exact : forall g arg z,
  (exists g', process_option g (chr "j", arg) = POk g' /\ g_threads g' = z) <-> plain_integer arg z /\ (1 <= z <= 256)%Z.
Proof.
  intros g arg z. split.
  - intros (g' & P & <-). apply process_step in P. destruct P. exact st_threads0.
  - intros (P & Z). destruct (proj2 (accept_one g (chr "j", arg))) as (g' & E).
    { unfold acceptable. cbn [fst snd]. split; [discriminate|]. split; [discriminate|]. split; [eauto|]. split; [cbn; intuition discriminate|discriminate]. }
    exists g'. split; [exact E|]. cbn in E. rewrite (strtol_plain arg z P) in E. cbn [negb orb] in E.
    replace (clamp z) with z in E by (unfold clamp; lia).
    destruct (Z.ltb_spec z 1); [lia|]. destruct (Z.ltb_spec MAX_THREADS z); [unfold MAX_THREADS in *; lia|]. now injection E as <-.
Qed.

(** ** C70: JSON output is never mixed with the progress display *)
Theorem json_not_verbose : forall cpus os g, parse_opts (cfg_create cpus) os = POk g ->
  is_set (g_mask g) OPTION_JSON = true -> is_set (g_mask g) OPTION_VERBO = false.
Proof.
  intros cpus os g H J. destruct (settings_exact _ _ _ H) as [? ? ? ? ? ? ? ? SJ SV]. apply not_true_is_false. intros V. tauto.
Qed.

(** ** C71: the groups of the user *)

(** [x] is one of the groups the process runs with *)
Definition of_process (groups : list N) (egid x : N) : Prop := x = egid \/ In x groups.

Theorem groups_exact_partial : forall groups egid l, fill_gids groups egid = Some l ->
  (length groups < 256)%nat \/ In egid groups -> forall x, In x l <-> of_process groups egid x.
Proof.
  intros groups egid l H C x. unfold fill_gids in H. change MAX_GIDS with 256%nat in H. unfold of_process.
  destruct (Nat.leb_spec (length groups) 256); [|discriminate]. injection H as <-.
  rewrite in_app_iff. destruct (Nat.ltb_spec (length groups) 256).
  - cbn [In]. intuition congruence.
  - destruct C as [C|C]; [lia|]. cbn [In]. split; [tauto|]. intros [-> |I]; auto.
Qed.
(** with 256 groups the effective one is left out, with more the program stops *)
Theorem groups_exact_refuted :
  (exists groups egid l, fill_gids groups egid = Some l /\ ~ In egid l)
  /\ (exists groups egid, fill_gids groups egid = None).
Proof.
  split.
  - exists (repeat 1 256), 2, (repeat 1 256). split; [vm_compute; reflexivity|]. intros I. apply repeat_spec in I. discriminate.
  - exists (repeat 1 257), 2. vm_compute. reflexivity.
Qed.

(** * The theorems apply *)

Definition line1 : list opt :=
  [(chr "v", []); (chr "R", []); (chr "m", lit "8K"); (chr "i", lit "core,a.out,"); (chr "J", []); (chr "r", []); (chr "j", lit " +12"); (chr "m", lit "1.5M")].
Example line1_ok : exists g, parse_opts (cfg_create 4) line1 = POk g /\ g_min g = 1572864%Z /\ g_threads g = 12%Z
  /\ is_set (g_mask g) OPTION_RECSD = true /\ is_set (g_mask g) OPTION_VERBO = false /\ is_set (g_mask g) OPTION_JSON = true
  /\ In (lit "core") (g_names g) /\ In (lit "a.out") (g_names g).
Proof. eexists. split; [vm_compute; reflexivity|]. vm_compute. intuition auto 20. Qed.
Example plain_ex : plain_integer (lit " +12") 12.
Proof. exists (lit " "), (lit "+"), (lit "12"). repeat split; try (repeat constructor; unfold space, digit; cbn; lia); auto; discriminate. Qed.
Example listed_ex : listed (lit "core,a.out,") (lit "a.out").
Proof.
  exists (lit "core,"), (lit ","). split; [reflexivity|]. split; [vm_compute; intuition discriminate|].
  split; right; [exists (lit "core")|exists []]; reflexivity.
Qed.
Example setup_ex : exists u, parse_args (fun r => Some r) (fun _ _ => Some (fun _ => true)) 4 ((chr "e", lit "x$") :: line1) GEof [lit "dir"] 1000 [100] 1000 = SetOk u
  /\ w_ig (u_conf u) <> None /\ cf_minsize (w_conf (u_conf u)) = 1572864%Z /\ length (c_pats (hd (mkCtx [] []) (w_global (u_conf u)))) = 21%nat.
Proof. eexists. split; [vm_compute; reflexivity|]. vm_compute. split; [discriminate|]. auto. Qed.
Example groups_ex : fill_gids [100; 4; 24] 1000 = Some [100; 4; 24; 1000].
Proof. reflexivity. Qed.
Example rejected_ex : parse_opts (cfg_create 4) [(chr "j", lit "0x10")] = PErr /\ parse_opts (cfg_create 4) [(chr "M", lit "-5")] = PErr.
Proof. vm_compute. auto. Qed.

Print Assumptions settings_exact.
Print Assumptions setup_exact.
Print Assumptions accepted_exact_partial.
Print Assumptions accepted_exact_refuted.
Print Assumptions ignore_names_exact.
Print Assumptions threads_exact.
Print Assumptions json_not_verbose.
Print Assumptions groups_exact_partial.
Print Assumptions groups_exact_refuted.
