(** Sizes as shown with --display-size (C79) and typed back (C80). *)
From Coq Require Import String Ascii.
From Verif Require Import Util IgnoreModel HumanModel PropHuman FormatModel.
Local Open Scope list_scope.
Local Open Scope Z_scope.

(** * Specification *)

(** [ds] is [z] in decimal, without superfluous zeros *)
Definition decimal (ds : str) (z : Z) : Prop :=
  ds <> [] /\ Forall digit ds /\ number ds = z /\ (hd 0%N ds = 48%N -> z = 0 /\ ds = [48%N]).
(** the name of the unit 1024^u *)
Definition unit_name (u : Z) (name : str) : Prop :=
  In (u, name) [(1, lit "KiB"); (2, lit "MiB"); (3, lit "GiB"); (4, lit "TiB"); (5, lit "PiB"); (6, lit "EiB")].

(** * Proofs *)

Lemma dec_fold : forall fuel z acc, 0 <= z < 10 ^ Z.of_nat fuel -> (0 < fuel)%nat -> Forall digit acc ->
  Forall digit (dec fuel z acc) /\ dec fuel z acc <> [] /\
  fold_left (fun v c => 10 * v + Z.of_N (c - 48)) (dec fuel z acc) 0 = fold_left (fun v c => 10 * v + Z.of_N (c - 48)) acc z /\
  (hd 0%N (dec fuel z acc) = 48%N -> z = 0 /\ dec fuel z acc = 48%N :: acc).
Proof.
  induction fuel as [|fu IH]; intros z acc Z F A; [lia|]. cbn [dec]. pose proof (Z.mod_pos_bound z 10 ltac:(lia)) as M.
  assert (D : digit (Z.to_N (z mod 10) + 48)) by (unfold digit; lia).
  destruct (Z.ltb_spec z 10).
  - split; [now constructor|]. split; [discriminate|]. split.
    + cbn [fold_left]. f_equal. rewrite Z.mod_small by lia. lia.
    + cbn [hd]. intros H0. rewrite Z.mod_small in * by lia. assert (z = 0) by lia. subst z. auto.
  - rewrite Nat2Z.inj_succ, Z.pow_succ_r in Z by lia.
    assert (Z0 : 1 <= z / 10 < 10 ^ Z.of_nat fu).
    { split; [apply Z.div_le_lower_bound; lia|apply Z.div_lt_upper_bound; lia]. }
    assert (F' : (0 < fu)%nat). { destruct fu; [cbn in Z0; lia|lia]. }
    destruct (IH (z / 10) ((Z.to_N (z mod 10) + 48)%N :: acc)) as (A1 & A2 & A3 & A4); [lia|auto|now constructor|].
    split; auto. split; auto. split.
    + rewrite A3. cbn [fold_left]. f_equal. pose proof (Z.div_mod z 10 ltac:(lia)). lia.
    + intros X. destruct (A4 X) as (Y & _). lia.
Qed.
Lemma dec_decimal z : 0 <= z < 10 ^ 20 -> decimal (dec 20 z []) z.
Proof.
  intros Z. destruct (dec_fold 20 z []) as (A1 & A2 & A3 & A4); [exact Z|lia|constructor|].
  split; [exact A2|]. split; [exact A1|]. split; [exact A3|exact A4].
Qed.
Lemma dec_small z : 0 <= z < 10 -> dec 20 z [] = [(Z.to_N z + 48)%N].
Proof. intros Z. cbn [dec]. destruct (Z.ltb_spec z 10); [|lia]. now rewrite Z.mod_small by lia. Qed.

Lemma double_exact z : 0 <= z < 2 ^ 53 -> double_of z = z.
Proof. intros Z. unfold double_of. rewrite int_part_int by lia. rewrite Z.pow_0_r. lia. Qed.

Lemma unit_loop_spec : forall n x u, 0 <= u -> 1024 ^ u <= x \/ u = 0 ->
  let r := unit_loop n x u in
  u <= r <= u + Z.of_nat n /\ (1024 ^ r <= x \/ r = 0) /\ (x < 1024 ^ (r + 1) \/ r = u + Z.of_nat n).
Proof.
  induction n as [|n IH]; intros x u U L; cbn [unit_loop]; cbv zeta.
  - split; [lia|]. split; [auto|]. right. lia.
  - destruct (Z.leb_spec (1024 ^ (u + 1)) x).
    + destruct (IH x (u + 1)) as (A & B & C); [lia|auto|]. split; [lia|]. split; [auto|]. destruct C; [now left|right; lia].
    + split; [lia|]. split; [auto|]. left. lia.
Qed.

Lemma tenths_near x u : 0 <= u -> 0 <= x ->
  let t := tenths x u in 0 <= t /\ 2 * Z.abs (t * 1024 ^ u - 10 * x) <= 1024 ^ u.
Proof.
  intros U X. unfold tenths. pose proof (Z.pow_pos_nonneg 1024 u ltac:(lia) U) as P. remember (1024 ^ u) as k eqn:K. clear K.
  pose proof (Z.div_mod (10 * x) k ltac:(lia)) as E. pose proof (Z.mod_pos_bound (10 * x) k P) as B.
  remember (10 * x / k) as q eqn:Q. remember ((10 * x) mod k) as r eqn:R.
  assert (Q0 : 0 <= q) by (subst q; apply Z.div_pos; lia). clear Q R.
  assert (E2 : 100 * x / k = 10 * q + 10 * r / k).
  { replace (100 * x) with (10 * r + (10 * q) * k) by lia. rewrite Z.div_add by lia. lia. }
  rewrite E2. assert (S : 0 <= 10 * r / k < 10). { split; [apply Z.div_pos; lia|apply Z.div_lt_upper_bound; lia]. }
  replace ((10 * q + 10 * r / k) mod 10) with (10 * r / k) by (rewrite Z.add_comm, (Z.mul_comm 10 q), Z.mod_add, Z.mod_small by lia; lia).
  pose proof (Z.div_mod (10 * r) k ltac:(lia)) as E3. pose proof (Z.mod_pos_bound (10 * r) k P) as B3.
  remember (10 * r / k) as d. cbv zeta. destruct (Z.leb_spec 5 d); split; try nia.
Qed.

(** Missing: sizes from 2^53 on, which are rounded to a double first. *)
Theorem size_shown_partial : forall z, 0 <= z < 2 ^ 53 ->
  (z < 1024 /\ exists ds, decimal ds z /\ format_human_size z = ds ++ lit " B") \/
  (exists u name ds n f, unit_name u name /\ 1024 ^ u <= z < 1024 ^ (u + 1) /\ decimal ds n /\ 0 <= f < 10 /\
     format_human_size z = ds ++ lit "." ++ [(48 + Z.to_N f)%N] ++ lit " " ++ name /\
     2 * Z.abs ((10 * n + f) * 1024 ^ u - 10 * z) <= 1024 ^ u).
Proof.
  intros z Z. unfold format_human_size. rewrite (double_exact z Z).
  destruct (unit_loop_spec 6 z 0) as (A & B & C); [lia|now right|]. cbv zeta in A, B, C.
  remember (unit_loop 6 z 0) as u eqn:U. clear U. cbv zeta. destruct (Z.eqb_spec u 0) as [->|NU].
  - left. destruct C as [C|C]; [|cbn in C; lia]. split; [exact C|]. exists (dec 20 z []). split; [|reflexivity]. apply dec_decimal.
    split; [lia|]. eapply Z.lt_trans; [apply Z|]. reflexivity.
  - right. assert (B' : 1024 ^ u <= z) by tauto. assert (C' : z < 1024 ^ (u + 1)).
    { destruct C as [C|C]; auto. exfalso. assert (u = 6) by lia. subst u. assert (2 ^ 53 < 1024 ^ 6) by reflexivity. lia. }
    destruct (tenths_near z u) as (T1 & T2); [lia|lia|]. cbv zeta in T2. remember (tenths z u) as t eqn:T. clear T.
    pose proof (Z.mod_pos_bound t 10 ltac:(lia)) as M. pose proof (Z.div_mod t 10 ltac:(lia)) as E.
    exists u, (lit (nth (Z.to_nat u) units ""%string)), (dec 20 (t / 10) []), (t / 10), (t mod 10).
    split; [assert (X : u = 1 \/ u = 2 \/ u = 3 \/ u = 4 \/ u = 5 \/ u = 6) by lia;
            destruct X as [-> |[-> |[-> |[-> |[-> | ->]]]]]; cbn; tauto|].
    split; [auto|]. split.
    { apply dec_decimal. split; [apply Z.div_pos; lia|]. apply Z.div_lt_upper_bound; [lia|].
      pose proof (Z.pow_pos_nonneg 1024 u ltac:(lia) ltac:(lia)) as P. clear - T2 P Z T1.
      assert (X : 2 * (t * 1024 ^ u) <= 20 * z + 1024 ^ u) by lia. remember (2 ^ 53) as h eqn:Hh.
      assert (1 <= 1024 ^ u) by lia. assert (t <= 10 * z + 1) by nia. assert (h < 10 ^ 18) by (subst h; reflexivity). lia. }
    split; [auto|]. split.
    + rewrite (dec_small (t mod 10) M). rewrite (N.add_comm _ 48). reflexivity.
    + rewrite <- E. exact T2.
Qed.
(** the number shown can reach 1024; from 2^53 on the tenth can be the wrong one *)
Theorem size_shown_refuted :
  format_human_size 1048575 = lit "1024.0 KiB" /\
  (let z := 65 * 2 ^ 48 - 1 in format_human_size z = lit "16.3 PiB" /\ 2 * Z.abs (163 * 1024 ^ 5 - 10 * z) > 1024 ^ 5).
Proof. vm_compute. auto. Qed.

(** ** C80 *)
Lemma parse_unit_tail s a k c r m : strtod s = SDVal false a k (lit " " ++ c :: r) -> unit_of [c] m ->
  parse_human_size s =
    (let z := int_part (to_double a (10 ^ Z.of_nat k)) m in
     if (- 2 ^ 63 <=? z) && (z <? 2 ^ 63) then PVal z else PUB).
Proof.
  intros E Hu. unfold parse_human_size. rewrite E.
  inversion Hu as [|? H|? H|? H|? H]; subst; cbn in H; destruct H as [<-|[<-|[]]]; reflexivity.
Qed.
Lemma number_snoc ds f : number (ds ++ [f]) = 10 * number ds + Z.of_N (f - 48).
Proof. unfold number. rewrite fold_left_app. reflexivity. Qed.

(** Missing: sizes shown in bytes and those from 1 PiB on, which are rejected. *)
Theorem size_round_trip_partial : forall z, 1024 <= z < 2 ^ 50 ->
  exists z' u, parse_human_size (format_human_size z) = PVal z' /\ 1024 ^ u <= z < 1024 ^ (u + 1) /\
    2 * Z.abs (10 * (z' - z)) <= 1024 ^ u + 20.
Proof.
  intros z Z. destruct (size_shown_partial z) as [(X & _)|(u & name & ds & n & f & NM & RG & (NE & DD & NB & _) & F & -> & NR)]; [lia|lia|].
  assert (U : 1 <= u <= 4).
  { unfold unit_name in NM. cbn [In] in NM. assert (1024 ^ 5 = 2 ^ 50) by reflexivity.
    destruct NM as [X|[X|[X|[X|[X|[X|[]]]]]]]; injection X as <- <-; try lia. }
  assert (C : exists c r, name = c :: r /\ unit_of [c] (10 * u)).
  { unfold unit_name in NM. cbn [In] in NM.
    destruct NM as [X|[X|[X|[X|[X|[X|[]]]]]]]; injection X as <- <-; try lia; eexists _, _; (split; [reflexivity|]);
      [apply UKilo|apply UMega|apply UGiga|apply UTera]; now left. }
  destruct C as (c & r & -> & HU).
  assert (DF : digit (48 + Z.to_N f)) by (unfold digit; lia).
  pose proof (strtod_frac [] ds [(48 + Z.to_N f)%N] (lit " " ++ c :: r)) as E.
  cbn [app] in E. change (lit "." ++ (48 + Z.to_N f)%N :: lit " " ++ c :: r) with (lit "." ++ [(48 + Z.to_N f)%N] ++ lit " " ++ c :: r) in E.
  rewrite (parse_unit_tail _ _ _ _ _ _ (E ltac:(constructor) DD ltac:(constructor; [exact DF|constructor]) ltac:(now destruct ds) ltac:(cbn; unfold digit; lia)) HU).
  rewrite number_snoc, NB. replace (Z.of_N (48 + Z.to_N f - 48)) with f by lia. cbn [length]. change (Z.of_nat 1) with 1.
  assert (P2 : 1024 ^ u = 2 ^ (10 * u)). { rewrite Z.pow_mul_r by lia. reflexivity. }
  assert (LIM : (10 * n + f) * 2 ^ (10 * u) < 2 ^ 54).
  { rewrite <- P2. assert (2 ^ 54 = 16 * 2 ^ 50) by reflexivity. lia. }
  assert (N0 : 0 <= n) by (rewrite <- NB; apply number_nonneg).
  rewrite int_part_frac; [|lia|lia|lia|rewrite Z.min_r by lia; rewrite <- Z.pow_add_r by lia; exact LIM].
  change (10 ^ 1) with 10. rewrite <- P2. remember (1024 ^ u) as k eqn:K.
  assert (KP : 0 < k). { subst k. apply Z.pow_pos_nonneg; lia. }
  pose proof (Z.div_mod ((10 * n + f) * k) 10 ltac:(lia)) as DM. pose proof (Z.mod_pos_bound ((10 * n + f) * k) 10 ltac:(lia)) as MB.
  assert (POS : 0 <= (10 * n + f) * k) by nia.
  remember ((10 * n + f) * k / 10) as z' eqn:Z'. clear Z'. rewrite <- P2 in LIM.
  exists z', u. rewrite <- K. split; [|split; [auto|lia]].
  cbv zeta. assert (H54 : 2 ^ 54 < 2 ^ 63) by reflexivity. remember (2 ^ 54) as h54. remember (2 ^ 63) as h63.
  destruct (Z.leb_spec (- h63) z'); [|lia]. destruct (Z.ltb_spec z' h63); [reflexivity|lia].
Qed.
Theorem size_round_trip_refuted :
  format_human_size 5 = lit "5 B" /\ parse_human_size (lit "5 B") = PVal (-1) /\
  format_human_size (2 ^ 50) = lit "1.0 PiB" /\ parse_human_size (lit "1.0 PiB") = PVal (-1).
Proof. vm_compute. auto. Qed.

Example format_cases : format_human_size 0 = lit "0 B" /\ format_human_size 1023 = lit "1023 B" /\ format_human_size 1024 = lit "1.0 KiB" /\
  format_human_size 1536 = lit "1.5 KiB" /\ format_human_size 1587 = lit "1.5 KiB" /\ format_human_size 1588 = lit "1.6 KiB" /\ format_human_size (5 * 1024 ^ 3) = lit "5.0 GiB".
Proof. vm_compute. auto 10. Qed.
Example round_trip_case : parse_human_size (format_human_size 1600) = PVal 1638.
Proof. vm_compute. reflexivity. Qed.

Print Assumptions size_shown_partial.
Print Assumptions size_shown_refuted.
Print Assumptions size_round_trip_partial.
Print Assumptions size_round_trip_refuted.
