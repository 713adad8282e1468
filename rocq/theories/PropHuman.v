(** Human-readable sizes: what parse_human_size accepts and what it answers. *)
From Coq Require Import String Ascii.
From Verif Require Import Util IgnoreModel HumanModel.
Local Open Scope list_scope.
Local Open Scope Z_scope.

(** * Specification *)

Definition digit (c : N) : Prop := (48 <= c <= 57)%N.
Definition space (c : N) : Prop := In c [9; 10; 11; 12; 13; 32]%N.
(** the number a digit string denotes *)
Definition number (ds : str) : Z := fold_left (fun v c => 10 * v + Z.of_N (c - 48)) ds 0.
(** unit suffixes and the power of two they stand for *)
Inductive unit_of : str -> Z -> Prop :=
| UNone : unit_of [] 0
| UKilo c : In c (lit "Kk") -> unit_of [c] 10
| UMega c : In c (lit "Mm") -> unit_of [c] 20
| UGiga c : In c (lit "Gg") -> unit_of [c] 30
| UTera c : In c (lit "Tt") -> unit_of [c] 40.

(** * Lexing *)

Lemma space_b c : isspace c = true <-> space c.
Proof.
  unfold isspace, space. cbn [In]. rewrite orb_true_iff, andb_true_iff, !N.leb_le, N.eqb_eq. lia.
Qed.
Lemma digit_b c : isdigit c = true <-> digit c.
Proof. unfold isdigit, digit. rewrite andb_true_iff, !N.leb_le. lia. Qed.
Lemma digit_bf c : isdigit c = false <-> ~ digit c.
Proof. rewrite <- digit_b. destruct (isdigit c); split; congruence. Qed.

Lemma skip_spaces_app w s : Forall space w -> skip_spaces (w ++ s) = skip_spaces s.
Proof.
  induction 1 as [|c w Hc Hw IH]; [reflexivity|]. cbn [app skip_spaces].
  apply space_b in Hc. now rewrite Hc.
Qed.
Lemma skip_spaces_no c s : ~ space c -> skip_spaces (c :: s) = c :: s.
Proof. intros H. cbn [skip_spaces]. destruct (isspace c) eqn:E; [|reflexivity]. now apply space_b in E. Qed.
Lemma digit_not_space c : digit c -> ~ space c.
Proof. unfold digit, space. cbn [In]. lia. Qed.

Definition stops (s : str) : Prop := match s with c :: _ => ~ digit c | [] => True end.
Lemma digits_stop s a n : stops s -> digits s a n = (a, n, s).
Proof. destruct s; [reflexivity|]. cbn. intros H%digit_bf. now rewrite H. Qed.
Lemma digits_app ds s : Forall digit ds -> stops s -> forall a n,
  digits (ds ++ s) a n = (fold_left (fun v c => 10 * v + Z.of_N (c - 48)) ds a, (n + length ds)%nat, s).
Proof.
  intros H Hs. induction H as [|c ds Hc Hd IH]; intros a n.
  - cbn [app fold_left length]. rewrite Nat.add_0_r. now apply digits_stop.
  - cbn [app digits fold_left length]. apply digit_b in Hc. rewrite Hc, IH. do 2 f_equal. lia.
Qed.
Lemma number_nonneg ds : 0 <= number ds.
Proof.
  unfold number. assert (H : forall l a, 0 <= a -> 0 <= fold_left (fun v c => 10 * v + Z.of_N (c - 48)) l a).
  { induction l as [|c l IH]; intros a Ha; cbn [fold_left]; [lia|]. apply IH. lia. }
  apply H. lia.
Qed.

(** what may follow a number: no digit, no decimal point, no letter that makes strtod read
    an exponent or a hexadecimal number *)
Definition after (s : str) : Prop :=
  match s with c :: _ => ~ digit c /\ ~ In c (lit ".eExX") | [] => True end.

Lemma chr_neq (x y : ascii) : x <> y -> (chr x =? chr y)%N = false.
Proof.
  intros H. apply N.eqb_neq. unfold chr. intros E. apply H.
  rewrite <- (ascii_N_embedding x), <- (ascii_N_embedding y). now rewrite E.
Qed.

Lemma existsb_eqb c l : existsb (N.eqb c) l = true <-> In c l.
Proof.
  rewrite existsb_exists. split.
  - intros (x & Hx & E). apply N.eqb_eq in E. now subst.
  - intros H. exists c. split; [exact H|apply N.eqb_refl].
Qed.

Lemma after_facts s : after s ->
  stops s /\ exponent s = false /\ is_char s (lit "xX") = false
  /\ match s with c :: _ => (c =? chr ".")%N = false | [] => True end.
Proof.
  destruct s as [|c t]; [now split; [|split; [|split]]|]. intros (Hd & Hn).
  split; [exact Hd|].
  assert (E1 : existsb (N.eqb c) (lit "eE") = false).
  { apply not_true_is_false. rewrite existsb_eqb. intros H. apply Hn. cbn in H |- *. tauto. }
  assert (E2 : existsb (N.eqb c) (lit "xX") = false).
  { apply not_true_is_false. rewrite existsb_eqb. intros H. apply Hn. cbn in H |- *. tauto. }
  split; [|split].
  - unfold exponent. destruct t as [|d t]; [reflexivity|]. now rewrite E1.
  - exact E2.
  - apply N.eqb_neq. intros E. apply Hn. cbn. now left.
Qed.

Lemma strtod_int w ds s : Forall space w -> Forall digit ds -> ds <> [] -> after s ->
  strtod (w ++ ds ++ s) = SDVal false (number ds) 0 s.
Proof.
  intros Hw Hd Hne Ha. destruct (after_facts s Ha) as (A1 & A2 & A3 & A4).
  unfold strtod. rewrite (skip_spaces_app w _ Hw).
  destruct ds as [|c ds]; [congruence|]. pose proof (Forall_inv Hd) as Hc. cbv beta in Hc.
  rewrite <- app_comm_cons, (skip_spaces_no c) by now apply digit_not_space.
  assert (E1 : (c =? chr "-")%N = false). { apply N.eqb_neq. unfold digit in Hc. cbn. lia. }
  assert (E2 : (c =? chr "+")%N = false). { apply N.eqb_neq. unfold digit in Hc. cbn. lia. }
  rewrite E1, E2. cbv beta iota.
  rewrite app_comm_cons, (digits_app (c :: ds) s Hd A1 0 0). cbv beta iota.
  fold (number (c :: ds)).
  assert (Em : match s with
               | c0 :: t => if (c0 =? chr ".")%N then digits t (number (c :: ds)) 0 else (number (c :: ds), O, s)
               | [] => (number (c :: ds), O, s)
               end = (number (c :: ds), O, s)).
  { destruct s as [|x t]; [reflexivity|]. now rewrite A4. }
  rewrite Em. cbv beta iota. rewrite A3, A2, andb_false_r. cbn [length Nat.add Nat.eqb]. reflexivity.
Qed.

Lemma strtod_frac w ds fs s : Forall space w -> Forall digit ds -> Forall digit fs -> ds ++ fs <> [] -> after s ->
  strtod (w ++ ds ++ lit "." ++ fs ++ s) = SDVal false (number (ds ++ fs)) (length fs) s.
Proof.
  intros Hw Hd Hf Hne Ha. destruct (after_facts s Ha) as (A1 & A2 & A3 & A4).
  unfold strtod. rewrite (skip_spaces_app w _ Hw).
  assert (Hpt : stops (lit "." ++ fs ++ s)). { cbn. unfold digit. lia. }
  remember (ds ++ lit "." ++ fs ++ s) as u eqn:Eu.
  assert (Hu : exists c t, u = c :: t /\ ~ space c /\ (c =? chr "-")%N = false /\ (c =? chr "+")%N = false).
  { destruct ds as [|c ds].
    - exists (chr "."), (fs ++ s). subst u. split; [reflexivity|].
      split; [unfold space; cbn; lia|]. split; reflexivity.
    - exists c, (ds ++ lit "." ++ fs ++ s). subst u. split; [reflexivity|].
      pose proof (Forall_inv Hd) as Hc. cbv beta in Hc. split; [now apply digit_not_space|].
      split; apply N.eqb_neq; unfold digit in Hc; cbn; lia. }
  destruct Hu as (c & t & Ec & Hs & E1 & E2).
  rewrite Ec, (skip_spaces_no c t Hs), E1, E2. cbv beta iota. rewrite <- Ec, Eu.
  rewrite (digits_app ds _ Hd Hpt 0 0). cbv beta iota.
  change (lit "." ++ fs ++ s) with (chr "." :: (fs ++ s)). cbv beta iota. rewrite N.eqb_refl. cbv beta iota.
  rewrite (digits_app fs s Hf A1 _ 0). cbv beta iota.
  rewrite <- fold_left_app. fold (number (ds ++ fs)).
  replace (is_char (chr "." :: fs ++ s) (lit "xX")) with false by reflexivity.
  rewrite andb_false_r, A2.
  destruct (Nat.eqb_spec (0 + length ds + (0 + length fs)) 0) as [E|E]; [|reflexivity].
  destruct ds, fs; cbn in E; try lia. now contradiction Hne.
Qed.

(** * Rounding *)

Lemma rne_exact q d : 0 < d -> rne (q * d) d = q.
Proof.
  intros Hd. unfold rne. rewrite Z.div_mul, Z.mod_mul by lia.
  destruct (Z.ltb_spec (2 * 0) d); [reflexivity|lia].
Qed.
Lemma rne_near n d : 0 < d -> 2 * (rne n d * d) <= 2 * n + d /\ 2 * n - d <= 2 * (rne n d * d).
Proof.
  intros Hd. unfold rne. pose proof (Z.div_mod n d ltac:(lia)). pose proof (Z.mod_pos_bound n d Hd).
  remember (n / d) as q. remember (n mod d) as r.
  destruct (Z.ltb_spec (2 * r) d); [nia|]. destruct (Z.ltb_spec d (2 * r)); [nia|]. destruct (Z.even q); nia.
Qed.

Lemma pow_pos n : 0 < 2 ^ n \/ n < 0.
Proof. destruct (Z.lt_ge_cases n 0); [now right|left]. apply Z.pow_pos_nonneg; lia. Qed.

(** the normalised fraction lies in [2^52, 2^53) *)
Lemma to_double_norm a b : 0 < a -> 0 < b ->
  exists e n d, to_double a b = (rne n d, e) /\ scaled a b e = (n, d) /\ 0 < d /\ 2 ^ 52 * d <= n < 2 ^ 53 * d.
Proof.
  intros Ha Hb. unfold to_double. destruct (Z.eqb_spec a 0); [lia|].
  pose proof (Z.log2_spec a Ha) as La. pose proof (Z.log2_spec b Hb) as Lb.
  pose proof (Z.log2_nonneg a) as Pa. pose proof (Z.log2_nonneg b) as Pb.
  remember (Z.log2 a) as la. remember (Z.log2 b) as lb. cbv zeta.
  rewrite Z.pow_succ_r in La, Lb by lia.
  remember (la - lb - 53) as e0 eqn:Ee0.
  assert (Hs : exists n0 d0, scaled a b e0 = (n0, d0) /\ 0 < d0 /\ 2 ^ 52 * d0 < n0 /\ n0 < 2 ^ 54 * d0).
  { unfold scaled. destruct (Z.leb_spec 0 e0).
    - eexists _, _. split; [reflexivity|]. pose proof (Z.pow_pos_nonneg 2 e0 ltac:(lia) ltac:(lia)).
      assert (Ela : 2 ^ la = 2 ^ e0 * 2 ^ lb * 2 ^ 53) by (rewrite <- !Z.pow_add_r by lia; f_equal; lia).
      split; [nia|]. rewrite Ela in La.
      change (2 ^ 53) with (2 * 2 ^ 52) in La. change (2 ^ 54) with (4 * 2 ^ 52).
      remember (2 ^ 52) as P. assert (0 < P) by (subst P; reflexivity). clear HeqP.
      remember (2 ^ e0) as E. remember (2 ^ lb) as B.
      assert (b * E * P < 2 * B * E * P) by nia. assert (B * E * P <= b * E * P) by nia. split; nia.
    - eexists _, _. split; [reflexivity|]. split; [lia|].
      pose proof (Z.pow_pos_nonneg 2 (- e0) ltac:(lia) ltac:(lia)).
      assert (Ela : 2 ^ la * 2 ^ (- e0) = 2 ^ lb * 2 ^ 53) by (rewrite <- !Z.pow_add_r by lia; f_equal; lia).
      change (2 ^ 53) with (2 * 2 ^ 52) in Ela. change (2 ^ 54) with (4 * 2 ^ 52).
      remember (2 ^ 52) as P. assert (0 < P) by (subst P; reflexivity). clear HeqP.
      remember (2 ^ (- e0)) as E. remember (2 ^ lb) as B. remember (2 ^ la) as A.
      assert (A * E <= a * E) by nia. assert (a * E < 2 * A * E) by nia. split; nia. }
  destruct Hs as (n0 & d0 & Es & Hd0 & Hlo & Hhi). rewrite Es. cbv beta iota.
  destruct (Z.leb_spec (2 ^ 53 * d0) n0) as [Hge|Hlt].
  - assert (Hn : exists n d, scaled a b (e0 + 1) = (n, d) /\ 0 < d /\ 2 ^ 52 * d <= n < 2 ^ 53 * d).
    { unfold scaled in Es |- *. destruct (Z.leb_spec 0 e0).
      - destruct (Z.leb_spec 0 (e0 + 1)); [|lia]. injection Es as <- <-.
        eexists _, _. split; [reflexivity|]. rewrite Z.pow_add_r by lia. change (2 ^ 1) with 2.
        replace (b * (2 ^ e0 * 2)) with (2 * (b * 2 ^ e0)) by ring. lia.
      - injection Es as <- <-. destruct (Z.leb_spec 0 (e0 + 1)).
        + assert (e0 = -1) as -> by lia. eexists _, _. split; [reflexivity|].
          change (2 ^ (-1 + 1)) with 1. change (2 ^ (- (-1))) with 2 in Hge, Hhi. nia.
        + eexists _, _. split; [reflexivity|].
          assert (E2 : 2 ^ (- e0) = 2 * 2 ^ (- (e0 + 1))).
          { change 2 with (2 ^ 1) at 2. rewrite <- Z.pow_add_r by lia. f_equal. lia. }
          rewrite E2 in Hge, Hhi. nia. }
    destruct Hn as (n1 & d & En & Hd & Hr). exists (e0 + 1), n1, d. rewrite En. auto.
  - exists e0, n0, d0. rewrite Es. split; [reflexivity|]. split; [reflexivity|]. lia.
Qed.

(** integers below 2^53 are represented exactly *)
Lemma int_part_int a m : 0 <= a < 2 ^ 53 -> 0 <= m -> int_part (to_double a 1) m = a * 2 ^ m.
Proof.
  intros Ha Hm. destruct (Z.eq_dec a 0) as [->|Hne].
  { cbn [to_double Z.eqb int_part]. destruct (Z.leb_spec 0 (0 + m)); [lia|lia]. }
  destruct (to_double_norm a 1 ltac:(lia) ltac:(lia)) as (e & n & d & E & Es & Hd & Hr).
  rewrite E. unfold scaled in Es. destruct (Z.leb_spec 0 e) as [He|He].
  - rewrite Z.mul_1_l in Es. injection Es as <- <-. pose proof (Z.pow_pos_nonneg 2 e ltac:(lia) ltac:(lia)).
    assert (e = 0) as ->.
    { destruct (Z.eq_dec e 0); [assumption|exfalso].
      assert (2 <= 2 ^ e). { change 2 with (2 ^ 1) at 1. apply Z.pow_le_mono_r; lia. }
      change (2 ^ 53) with (2 * 2 ^ 52) in Ha. remember (2 ^ 52) as P. assert (0 < P) by (subst P; reflexivity). nia. }
    change (2 ^ 0) with 1. replace (rne a 1) with a by (rewrite <- (Z.mul_1_r a) at 2; now rewrite rne_exact).
    unfold int_part. destruct (Z.leb_spec 0 (0 + m)); [|lia]. now rewrite Z.add_0_l.
  - injection Es as <- <-. replace (rne (a * 2 ^ (- e)) 1) with (a * 2 ^ (- e))
      by (rewrite <- (Z.mul_1_r (a * 2 ^ (- e))) at 2; now rewrite rne_exact).
    unfold int_part. destruct (Z.leb_spec 0 (e + m)).
    + rewrite <- Z.mul_assoc, <- Z.pow_add_r by lia. do 2 f_equal. lia.
    + replace (- e) with (m + - (e + m)) by lia. rewrite Z.pow_add_r, Z.mul_assoc by lia.
      apply Z.div_mul. pose proof (Z.pow_pos_nonneg 2 (- (e + m)) ltac:(lia) ltac:(lia)). lia.
Qed.

(** the integer part survives the rounding when the number is small enough for its digits *)
Lemma int_part_frac a k m : 0 <= a -> 1 <= k -> 0 <= m -> a * 2 ^ m < 2 ^ 53 * 2 ^ (Z.min m k) ->
  int_part (to_double a (10 ^ k)) m = a * 2 ^ m / 10 ^ k.
Proof.
  intros Ha Hk Hm Hlim. destruct (Z.eq_dec a 0) as [->|Hne].
  { cbn [to_double Z.eqb int_part]. destruct (Z.leb_spec 0 (0 + m)); [now rewrite Z.div_0_l by (apply Z.pow_nonzero; lia)|lia]. }
  pose proof (Z.pow_pos_nonneg 10 k ltac:(lia) ltac:(lia)) as Hb.
  destruct (to_double_norm a (10 ^ k) ltac:(lia) Hb) as (e & n & d & E & Es & Hd & Hr).
  rewrite E. remember (Z.min m k) as g eqn:Eg.
  pose proof (Z.pow_pos_nonneg 2 g ltac:(lia) ltac:(lia)) as Hg.
  assert (Ebg : exists u, 10 ^ k = u * 2 ^ g /\ 5 <= u).
  { exists (5 ^ k * 2 ^ (k - g)). split.
    - rewrite <- Z.mul_assoc, <- Z.pow_add_r by lia. replace (k - g + g) with k by lia.
      rewrite <- Z.pow_mul_l. reflexivity.
    - assert (5 ^ 1 <= 5 ^ k) by (apply Z.pow_le_mono_r; lia). change (5 ^ 1) with 5 in *.
      pose proof (Z.pow_pos_nonneg 2 (k - g) ltac:(lia) ltac:(lia)). nia. }
  destruct Ebg as (u & Eu & Hu).
  assert (Emg : exists v, 2 ^ m = v * 2 ^ g).
  { exists (2 ^ (m - g)). rewrite <- Z.pow_add_r by lia. f_equal. lia. }
  destruct Emg as (v & Ev).
  (* the value is below 2^52, hence the fraction has bits behind the point *)
  assert (Hneg : e + m < 0).
  { destruct (Z.lt_ge_cases (e + m) 0) as [|Hge]; [assumption|exfalso].
    assert (Hv : 2 ^ 52 * 10 ^ k <= a * 2 ^ m).
    { unfold scaled in Es. destruct (Z.leb_spec 0 e) as [He|He].
      - injection Es as <- <-. pose proof (Z.pow_pos_nonneg 2 e ltac:(lia) ltac:(lia)).
        pose proof (Z.pow_pos_nonneg 2 m ltac:(lia) ltac:(lia)).
        assert (2 ^ 52 * 10 ^ k <= 2 ^ 52 * (10 ^ k * 2 ^ e)) by nia. nia.
      - injection Es as <- <-. assert (2 ^ (- e) <= 2 ^ m) by (apply Z.pow_le_mono_r; lia). nia. }
    rewrite Eu in Hv. change (2 ^ 53) with (2 * 2 ^ 52) in Hlim.
    remember (2 ^ 52) as P. assert (0 < P) by (subst P; reflexivity). clear HeqP. nia. }
  unfold scaled in Es. destruct (Z.leb_spec 0 e) as [He|He]; [lia|]. injection Es as En Ed. symmetry in Ed. subst d.
  unfold int_part. destruct (Z.leb_spec 0 (e + m)); [lia|].
  remember (- (e + m)) as s eqn:Es'. assert (Hs : 0 < s) by lia.
  assert (En' : n = a * 2 ^ m * 2 ^ s).
  { rewrite <- Z.mul_assoc, <- Z.pow_add_r by lia. rewrite <- En. do 2 f_equal. lia. }
  clear En. pose proof (Z.pow_pos_nonneg 2 s ltac:(lia) ltac:(lia)) as Hps.
  pose proof (rne_near n (10 ^ k) Hd) as (R1 & R2). remember (rne n (10 ^ k)) as q. clear Heqq E.
  pose proof (Z.div_mod (a * 2 ^ m) (10 ^ k) ltac:(lia)) as Hdm.
  pose proof (Z.mod_pos_bound (a * 2 ^ m) (10 ^ k) Hb) as Hmb.
  remember (a * 2 ^ m / 10 ^ k) as N0. remember ((a * 2 ^ m) mod 10 ^ k) as r.
  (* the remainder keeps a distance of 2^g from the next integer *)
  assert (Hdist : r + 2 ^ g <= 10 ^ k).
  { assert (Er : 10 ^ k - r = (u + N0 * u - a * v) * 2 ^ g).
    { assert (Ex : a * 2 ^ m = a * v * 2 ^ g) by (rewrite Ev; ring). rewrite Ex in Hdm. rewrite Eu in Hdm |- *. lia. }
    remember (u + N0 * u - a * v) as w. assert (0 < w) by nia. nia. }
  assert (Hlarge : 10 ^ k < 2 * 2 ^ g * 2 ^ s).
  { destruct Hr as (Hr & _). rewrite En' in Hr. change (2 ^ 53) with (2 * 2 ^ 52) in Hlim.
    remember (2 ^ 52) as P. assert (0 < P) by (subst P; reflexivity). clear HeqP.
    remember (a * 2 ^ m) as X. remember (10 ^ k) as b. remember (2 ^ s) as S0. remember (2 ^ g) as G.
    assert (X * S0 < P * (2 * G * S0)) by nia. nia. }
  rewrite En', Hdm in R1, R2. symmetry. remember (10 ^ k) as b. remember (2 ^ s) as S0. remember (2 ^ g) as G.
  apply (Z.div_unique q S0 N0 (q - S0 * N0)); [|lia]. left.
  assert (HU : 0 <= r * S0) by (apply Z.mul_nonneg_nonneg; lia).
  assert (HW : r * S0 + G * S0 <= b * S0) by (clear - Hdist Hps; nia).
  assert (L : (N0 * S0 - 1) * b < q * b) by lia.
  assert (L2 : q * b < ((N0 + 1) * S0) * b) by lia.
  apply Z.mul_lt_mono_pos_r in L; [|exact Hb]. apply Z.mul_lt_mono_pos_r in L2; [|exact Hb]. lia.
Qed.

(** * What parse_human_size answers *)

Lemma unit_after w u m : Forall space w -> unit_of u m -> after (w ++ u).
Proof.
  intros [|c t Hc Ht] Hu.
  - destruct Hu as [|c H|c H|c H|c H]; [exact I| | | |]; cbn in H |- *; unfold digit; lia.
  - cbn. unfold space in Hc. cbn in Hc. unfold digit. lia.
Qed.

(** the suffix selects its multiplier *)
Lemma parse_unit s neg a k w u m : strtod s = SDVal neg a k (w ++ u) -> Forall space w -> unit_of u m ->
  parse_human_size s =
    (let z := int_part (to_double a (10 ^ Z.of_nat k)) m in
     let z := if neg then - z else z in
     if (- 2 ^ 63 <=? z) && (z <? 2 ^ 63) then PVal z else PUB).
Proof.
  intros E Hw Hu. unfold parse_human_size. rewrite E, (skip_spaces_app w u Hw).
  destruct Hu as [|c H|c H|c H|c H]; [reflexivity| | | |];
    cbn in H; destruct H as [<-|[<-|[]]]; reflexivity.
Qed.

(** C50: a decimal integer with optional blanks and suffix is the integer times 1024^i, as
    long as the digits fit a double and the result fits 64 bits.  Missing for the full
    statement: larger numbers and text that is not of this form; see the witnesses. *)
Theorem size_integer_partial : forall w0 ds w1 u m,
  Forall space w0 -> Forall digit ds -> ds <> [] -> Forall space w1 -> unit_of u m ->
  number ds < 2 ^ 53 -> number ds * 2 ^ m < 2 ^ 63 ->
  parse_human_size (w0 ++ ds ++ w1 ++ u) = PVal (number ds * 2 ^ m).
Proof.
  intros w0 ds w1 u m H0 Hd Hne H1 Hu Hlt Hmax.
  pose proof (strtod_int w0 ds (w1 ++ u) H0 Hd Hne (unit_after _ _ _ H1 Hu)) as E.
  rewrite (parse_unit _ _ _ _ _ _ _ E H1 Hu). cbv zeta. change (10 ^ Z.of_nat 0) with 1.
  pose proof (number_nonneg ds).
  assert (Hm : 0 <= m) by (destruct Hu; lia).
  rewrite (int_part_int (number ds) m) by lia.
  pose proof (Z.pow_pos_nonneg 2 m ltac:(lia) Hm).
  destruct (Z.leb_spec (- 2 ^ 63) (number ds * 2 ^ m)); [|nia].
  destruct (Z.ltb_spec (number ds * 2 ^ m) (2 ^ 63)); [reflexivity|lia].
Qed.

(** a sign is taken into account; a minus gives a negative size *)
Theorem size_sign : forall w0 sg sign ds w1 u m,
  Forall space w0 -> (sg = lit "+" /\ sign = 1 \/ sg = lit "-" /\ sign = -1) ->
  Forall digit ds -> ds <> [] -> Forall space w1 -> unit_of u m ->
  number ds < 2 ^ 53 -> number ds * 2 ^ m < 2 ^ 63 ->
  parse_human_size (w0 ++ sg ++ ds ++ w1 ++ u) = PVal (sign * (number ds * 2 ^ m)).
Proof.
  intros w0 sg sign ds w1 u m H0 Hs Hd Hne H1 Hu Hlt Hmax.
  assert (E : strtod (w0 ++ sg ++ ds ++ w1 ++ u) = SDVal (sign <? 0) (number ds) 0 (w1 ++ u)).
  { pose proof (strtod_int [] ds (w1 ++ u) (Forall_nil _) Hd Hne (unit_after _ _ _ H1 Hu)) as E.
    cbn [app] in E. unfold strtod in *. rewrite (skip_spaces_app w0 _ H0).
    destruct ds as [|c ds]; [congruence|]. pose proof (Forall_inv Hd) as Hc. cbv beta in Hc.
    rewrite <- app_comm_cons, (skip_spaces_no c) in E by now apply digit_not_space.
    assert (E1 : (c =? chr "-")%N = false). { apply N.eqb_neq. unfold digit in Hc. cbn. lia. }
    assert (E2 : (c =? chr "+")%N = false). { apply N.eqb_neq. unfold digit in Hc. cbn. lia. }
    rewrite E1, E2 in E. cbv beta iota in E.
    destruct Hs as [[-> ->] | [-> ->]];
      [change (skip_spaces (lit "+" ++ (c :: ds) ++ w1 ++ u)) with (chr "+" :: c :: ds ++ w1 ++ u)
      |change (skip_spaces (lit "-" ++ (c :: ds) ++ w1 ++ u)) with (chr "-" :: c :: ds ++ w1 ++ u)];
      cbv beta iota; [change ((chr "+" =? chr "-")%N) with false; change ((chr "+" =? chr "+")%N) with true
                     |change ((chr "-" =? chr "-")%N) with true]; cbv beta iota;
      destruct (digits (c :: ds ++ w1 ++ u) 0 0) as [[a1 n1] r1];
      destruct (match r1 with
                | c0 :: t => if (c0 =? chr ".")%N then digits t a1 0 else (a1, O, r1)
                | [] => (a1, O, r1)
                end) as [[a2 n2] r2];
      (destruct (n1 + n2 =? 0)%nat; [destruct (is_char _ _); discriminate E|]);
      (destruct ((n1 =? 1)%nat && (a1 =? 0) && is_char r1 (lit "xX")); [discriminate E|]);
      (destruct (exponent r2); [discriminate E|]); injection E as -> -> ->; reflexivity. }
  rewrite (parse_unit _ _ _ _ _ _ _ E H1 Hu). cbv zeta. change (10 ^ Z.of_nat 0) with 1.
  pose proof (number_nonneg ds).
  assert (Hm : 0 <= m) by (destruct Hu; lia).
  rewrite (int_part_int (number ds) m) by lia.
  pose proof (Z.pow_pos_nonneg 2 m ltac:(lia) Hm).
  assert (0 <= number ds * 2 ^ m) by nia.
  destruct Hs as [[_ ->] | [_ ->]]; cbn [Z.ltb Z.compare].
  - destruct (Z.leb_spec (- 2 ^ 63) (number ds * 2 ^ m)); [|lia].
    destruct (Z.ltb_spec (number ds * 2 ^ m) (2 ^ 63)); [|lia]. cbn [andb]. f_equal. lia.
  - destruct (Z.leb_spec (- 2 ^ 63) (- (number ds * 2 ^ m))); [|lia].
    destruct (Z.ltb_spec (- (number ds * 2 ^ m)) (2 ^ 63)); [|lia]. cbn [andb]. reflexivity.
Qed.

(** C50: text in which no number starts is rejected *)
Theorem size_no_number : forall w s, Forall space w ->
  match s with c :: _ => ~ space c /\ ~ digit c /\ ~ In c (lit "+-.iInN") | [] => True end ->
  parse_human_size (w ++ s) = PVal (-1).
Proof.
  intros w s Hw Hs. unfold parse_human_size.
  assert (E : strtod (w ++ s) = SDNone).
  { unfold strtod. rewrite (skip_spaces_app w s Hw). destruct s as [|c t]; [reflexivity|].
    destruct Hs as (H1 & H2 & H3). rewrite (skip_spaces_no c t H1).
    assert (E1 : (c =? chr "-")%N = false). { apply N.eqb_neq. intros E. apply H3. cbn. auto. }
    assert (E2 : (c =? chr "+")%N = false). { apply N.eqb_neq. intros E. apply H3. cbn. auto. }
    assert (E3 : (c =? chr ".")%N = false). { apply N.eqb_neq. intros E. apply H3. cbn. auto. }
    rewrite E1, E2. cbv beta iota. rewrite digits_stop by exact H2. cbv beta iota. rewrite E3. cbv beta iota.
    cbn [Nat.add Nat.eqb]. cbn [is_char].
    replace (existsb (N.eqb c) (lit "iInN")) with false; [reflexivity|]. symmetry.
    apply not_true_is_false. rewrite existsb_eqb. intros H. apply H3. cbn in H |- *. tauto. }
  now rewrite E.
Qed.

(** C50: a number followed by anything but a unit is rejected *)
Theorem size_bad_unit : forall w0 ds w1 c t,
  Forall space w0 -> Forall digit ds -> ds <> [] -> Forall space w1 ->
  ~ space c -> ~ digit c -> ~ In c (lit ".eExXKkMmGgTt") ->
  parse_human_size (w0 ++ ds ++ w1 ++ c :: t) = PVal (-1).
Proof.
  intros w0 ds w1 c t H0 Hd Hne H1 Hs Hc Hu.
  assert (Ha : after (w1 ++ c :: t)).
  { destruct H1 as [|x w Hx Hw]; cbn.
    - split; [exact Hc|]. intros H. apply Hu. cbn. tauto.
    - unfold space in Hx. cbn in Hx. unfold digit. lia. }
  unfold parse_human_size. rewrite (strtod_int w0 ds _ H0 Hd Hne Ha), (skip_spaces_app w1 _ H1), (skip_spaces_no c t Hs).
  cbv zeta. unfold toupper.
  assert (Hv : Forall (fun x => c <> x) (lit "KkMmGgTt")).
  { apply Forall_forall. intros x Hx E. apply Hu. subst x. cbn in Hx |- *. tauto. }
  cbn in Hv. repeat match goal with H : Forall _ (_ :: _) |- _ => apply Forall_cons_iff in H; destruct H as (? & H) end.
  assert (Hup : forall x, In x [75; 77; 71; 84]%N ->
           ((if ((97 <=? c) && (c <=? 122))%N then (c - 32)%N else c) =? x)%N = false).
  { intros x Hx. apply N.eqb_neq. cbn in Hx.
    destruct (N.leb_spec 97 c), (N.leb_spec c 122); cbn [andb]; lia. }
  change (chr "T") with 84%N. change (chr "G") with 71%N. change (chr "M") with 77%N. change (chr "K") with 75%N.
  rewrite !Hup by (cbn; tauto). reflexivity.
Qed.

(** C50 fails beyond that: text behind the suffix is ignored, numbers above 2^53 are rounded,
    and results from 2^63 on are undefined behaviour. *)
Theorem size_exact_refuted :
  parse_human_size (lit "1Kbogus") = PVal 1024
  /\ parse_human_size (lit "9007199254740993") = PVal 9007199254740992
  /\ parse_human_size (lit "8388608T") = PUB
  /\ parse_human_size (lit "-5") = PVal (-5).
Proof. vm_compute. auto. Qed.

(** C57: fractions: [ds.fs] with a unit is the integer part of the exact product *)
Theorem size_fraction_partial : forall w0 ds fs w1 u m,
  Forall space w0 -> Forall digit ds -> Forall digit fs -> fs <> [] -> Forall space w1 -> unit_of u m ->
  number (ds ++ fs) * 2 ^ m < 2 ^ 53 * 2 ^ Z.min m (Z.of_nat (length fs)) ->
  parse_human_size (w0 ++ ds ++ lit "." ++ fs ++ w1 ++ u)
  = PVal (number (ds ++ fs) * 2 ^ m / 10 ^ Z.of_nat (length fs)).
Proof.
  intros w0 ds fs w1 u m H0 Hd Hf Hne H1 Hu Hlim.
  assert (Hne' : ds ++ fs <> []) by (destruct ds; [exact Hne|discriminate]).
  pose proof (strtod_frac w0 ds fs (w1 ++ u) H0 Hd Hf Hne' (unit_after _ _ _ H1 Hu)) as E.
  rewrite (parse_unit _ _ _ _ _ _ _ E H1 Hu). cbv zeta.
  pose proof (number_nonneg (ds ++ fs)).
  assert (Hm : 0 <= m) by (destruct Hu; lia).
  assert (Hk : 1 <= Z.of_nat (length fs)) by (destruct fs; [congruence|cbn [length]; lia]).
  rewrite (int_part_frac (number (ds ++ fs)) (Z.of_nat (length fs)) m) by lia.
  remember (Z.of_nat (length fs)) as k. remember (number (ds ++ fs)) as a.
  pose proof (Z.pow_pos_nonneg 10 k ltac:(lia) ltac:(lia)).
  pose proof (Z.pow_pos_nonneg 2 m ltac:(lia) ltac:(lia)).
  assert (Hle : 2 ^ Z.min m k <= 10 ^ k).
  { transitivity (2 ^ k); [apply Z.pow_le_mono_r; lia|]. apply Z.pow_le_mono_l. lia. }
  assert (Hz : 0 <= a * 2 ^ m / 10 ^ k) by (apply Z.div_pos; [apply Z.mul_nonneg_nonneg; lia|lia]).
  assert (Hz2 : a * 2 ^ m / 10 ^ k < 2 ^ 53).
  { apply Z.div_lt_upper_bound; [lia|]. rewrite (Z.mul_comm (10 ^ k)).
    eapply Z.lt_le_trans; [exact Hlim|]. apply Z.mul_le_mono_nonneg_l; [|exact Hle]. discriminate. }
  assert (2 ^ 53 < 2 ^ 63) by reflexivity.
  destruct (Z.leb_spec (- 2 ^ 63) (a * 2 ^ m / 10 ^ k)); [|lia].
  destruct (Z.ltb_spec (a * 2 ^ m / 10 ^ k) (2 ^ 63)); [reflexivity|lia].
Qed.

(** C57 fails for long fractions: the value is rounded up to the next integer before it is
    truncated. *)
Theorem size_fraction_refuted :
  parse_human_size (lit "0.99999999999999999") = PVal 1
  /\ number (lit "099999999999999999") / 10 ^ 17 = 0.
Proof. vm_compute. auto. Qed.

(** * The theorems apply *)

Example size_sign_applies : parse_human_size (lit " -5 k") = PVal (- 5120).
Proof. reflexivity. Qed.
Example size_integer_applies : parse_human_size (lit "  512 M") = PVal (512 * 1024 * 1024).
Proof.
  apply (size_integer_partial (lit "  ") (lit "512") (lit " ") (lit "M") 20);
    try (repeat constructor; unfold space, digit; cbn; lia); try discriminate; try reflexivity.
Qed.
Example size_fraction_applies : parse_human_size (lit "1.44m") = PVal 1509949.
Proof.
  apply (size_fraction_partial [] (lit "1") (lit "44") [] (lit "m") 20);
    try (repeat constructor; unfold space, digit; cbn; lia); try discriminate; try reflexivity.
Qed.
Example size_no_number_applies : parse_human_size (lit " ten") = PVal (-1).
Proof.
  apply (size_no_number (lit " ") (lit "ten")); [repeat constructor; unfold space; cbn; lia|].
  unfold space, digit. cbn. lia.
Qed.
Example size_bad_unit_applies : parse_human_size (lit "10 bytes") = PVal (-1).
Proof.
  apply (size_bad_unit [] (lit "10") (lit " ") (chr "b") (lit "ytes"));
    try (repeat constructor; unfold space, digit; cbn; lia); try discriminate;
    unfold space, digit; cbn; lia.
Qed.

Print Assumptions size_integer_partial.
Print Assumptions size_sign.
Print Assumptions size_no_number.
Print Assumptions size_bad_unit.
Print Assumptions size_exact_refuted.
Print Assumptions size_fraction_partial.
Print Assumptions size_fraction_refuted.
