(** The JSON document (C83) and the times in it (C84). *)
From Coq Require Import String Ascii Sorting.Permutation Sorting.Sorted.
From Verif Require Import Util HeapModel IgnoreModel CollectModel ProcessModel ReportSpec ReportProofs ReportGroups ReportArrays ReportMain PropReport FileModel PropFile PropEnd PageSpec JsonModel.
Local Open Scope list_scope.
Local Open Scope Z_scope.

(** * Specification *)

(** UTF-8 as in RFC 3629: the encoding of a scalar value *)
Definition scalar (u : Z) : Prop := 0 <= u < 0xD800 \/ 0xE000 <= u < 0x110000.
Definition encode (u : Z) : str :=
  map Z.to_N
    (if u <? 0x80 then [u]
     else if u <? 0x800 then [192 + u / 64; 128 + u mod 64]
     else if u <? 0x10000 then [224 + u / 4096; 128 + u / 64 mod 64; 128 + u mod 64]
     else [240 + u / 262144; 128 + u / 4096 mod 64; 128 + u / 64 mod 64; 128 + u mod 64]).
Definition unicode (s : str) : Prop := exists us, Forall scalar us /\ s = concat (map encode us).

(** the value of a member of an object *)
Fixpoint find_member (m : list (str * json)) (k : str) : option json :=
  match m with
  | [] => None
  | (k', v) :: r => if list_eq_dec N.eq_dec k k' then Some v else find_member r k
  end.
Definition member (o : json) (k : string) : option json :=
  match o with JObj m => find_member m (lit k) | _ => None end.

(** lower-case hexadecimal digits and their value *)
Definition hexval (c : N) : option Z :=
  if ((48 <=? c) && (c <=? 57))%N then Some (Z.of_N c - 48)
  else if ((97 <=? c) && (c <=? 102))%N then Some (Z.of_N c - 87) else None.
Fixpoint hex_number (acc : Z) (s : str) : option Z :=
  match s with
  | [] => Some acc
  | c :: r => match hexval c with Some d => hex_number (16 * acc + d) r | None => None end
  end.

(** what a reader of the document finds for a file and for a set *)
Definition describes_file (time : Z -> str) (mtime : file -> Z) (f : file) (o : json) : Prop :=
  member o "path" = Some (JStr (f_path f)) /\
  member o "mtime_utc" = Some (JStr (time (mtime f))) /\
  member o "prioritized" = Some (JBool (f_prio f)).
Definition describes_set (time : Z -> str) (mtime : file -> Z) (j : jset) (o : json) : Prop :=
  let '(size, h, fs) := j in
  member o "size_bytes" = Some (JInt size) /\
  (exists t, member o "hash_xxh128" = Some (JStr t) /\ length t = 32%nat /\ hex_number 0 t = Some (Z.of_N h)) /\
  (exists l, member o "duplicates" = Some (JArr l) /\ Forall2 (describes_file time mtime) fs l).

(** the paths a set of the document names *)
Definition path_in (x : json) : list str := match member x "path" with Some (JStr p) => [p] | _ => [] end.
Definition paths_of (o : json) : list str :=
  match member o "duplicates" with Some (JArr l) => concat (map path_in l) | _ => [] end.

(** * UTF-8 *)
Lemma encode_ne u : scalar u -> encode u <> [].
Proof. unfold encode. repeat (destruct (_ <? _)); discriminate. Qed.

Lemma utf8_encode u s : scalar u -> utf8 s = true -> utf8 (encode u ++ s) = true.
Proof.
  intros S T. unfold encode, scalar in *.
  pose proof (Z.mod_pos_bound u 64 ltac:(lia)). pose proof (Z.mod_pos_bound (u / 64) 64 ltac:(lia)). pose proof (Z.mod_pos_bound (u / 4096) 64 ltac:(lia)).
  destruct (Z.ltb_spec u 128).
  - cbn [map app utf8]. replace (Z.to_N u <? 128)%N with true by lia. exact T.
  - destruct (Z.ltb_spec u 2048).
    + cbn [map app utf8]. rewrite T. unfold cont.
      assert (2 <= u / 64 < 32) by (split; [apply Z.div_le_lower_bound|apply Z.div_lt_upper_bound]; lia).
      replace (Z.to_N (192 + u / 64) <? 128)%N with false by lia.
      replace ((194 <=? Z.to_N (192 + u / 64)) && (Z.to_N (192 + u / 64) <=? 223))%N with true by lia. lia.
    + destruct (Z.ltb_spec u 65536).
      * cbn [map app utf8]. rewrite T. unfold cont.
        assert (0 <= u / 4096 < 16) by (split; [apply Z.div_le_lower_bound|apply Z.div_lt_upper_bound]; lia).
        set (a := u / 4096) in *. set (b := u / 64 mod 64) in *. set (c := u mod 64) in *.
        assert (E : u = 4096 * a + 64 * b + c).
        { unfold a, b, c. pose proof (Z.div_mod u 64 ltac:(lia)). pose proof (Z.div_mod (u / 64) 64 ltac:(lia)).
          rewrite Z.div_div in * by lia. change (64 * 64) with 4096 in *. lia. }
        replace (Z.to_N (224 + a) <? 128)%N with false by lia.
        replace ((194 <=? Z.to_N (224 + a)) && (Z.to_N (224 + a) <=? 223))%N with false by lia.
        replace ((224 <=? Z.to_N (224 + a)) && (Z.to_N (224 + a) <=? 239))%N with true by lia.
        lia.
      * cbn [map app utf8]. rewrite T. unfold cont.
        assert (0 <= u / 262144 < 5) by (split; [apply Z.div_le_lower_bound|apply Z.div_lt_upper_bound]; lia).
        set (a := u / 262144) in *. set (b := u / 4096 mod 64) in *. set (c := u / 64 mod 64) in *. set (d := u mod 64) in *.
        assert (E : u = 262144 * a + 4096 * b + 64 * c + d).
        { unfold a, b, c, d. pose proof (Z.div_mod u 64 ltac:(lia)). pose proof (Z.div_mod (u / 64) 64 ltac:(lia)).
          pose proof (Z.div_mod (u / 4096) 64 ltac:(lia)).
          rewrite Z.div_div in * by lia. change (64 * 64) with 4096 in *. change (4096 * 64) with 262144 in *. lia. }
        replace (Z.to_N (240 + a) <? 128)%N with false by lia.
        replace ((194 <=? Z.to_N (240 + a)) && (Z.to_N (240 + a) <=? 223))%N with false by lia.
        replace ((224 <=? Z.to_N (240 + a)) && (Z.to_N (240 + a) <=? 239))%N with false by lia.
        lia.
Qed.

Lemma unicode_utf8 s : unicode s -> utf8 s = true.
Proof.
  intros (us & F & ->). induction F as [|u us S F IH]; [reflexivity|]. cbn [map concat]. now apply utf8_encode.
Qed.

Lemma unicode_cons u s : scalar u -> unicode s -> unicode (encode u ++ s).
Proof. intros S (us & F & ->). exists (u :: us). split; [now constructor|reflexivity]. Qed.

Lemma utf8_unicode : forall n s, (length s <= n)%nat -> utf8 s = true -> unicode s.
Proof.
  induction n as [|n IH]; intros s L U.
  { destruct s; [|cbn in L; lia]. exists []. split; [constructor|reflexivity]. }
  destruct s as [|a t]; [exists []; split; [constructor|reflexivity]|]. cbn [utf8] in U. cbn [length] in L.
  destruct (N.ltb_spec a 128).
  { replace (a :: t) with (encode (Z.of_N a) ++ t); [apply unicode_cons; [unfold scalar; lia|apply IH; [lia|auto]]|].
    unfold encode. replace (Z.of_N a <? 128) with true by lia. cbn [map app]. now rewrite N2Z.id. }
  destruct t as [|b t1]; [discriminate|]. cbn [length] in L.
  destruct ((194 <=? a) && (a <=? 223))%N eqn:A2.
  { unfold cont in U. assert (B : (128 <= b <= 191)%N /\ utf8 t1 = true) by lia. destruct B as [B T].
    set (u := 64 * (Z.of_N a - 192) + (Z.of_N b - 128)).
    assert (D : u / 64 = Z.of_N a - 192 /\ u mod 64 = Z.of_N b - 128).
    { unfold u. split; [symmetry; apply Z.div_unique with (r := Z.of_N b - 128)|symmetry; apply Z.mod_unique with (q := Z.of_N a - 192)]; lia. }
    replace (a :: b :: t1) with (encode u ++ t1); [apply unicode_cons; [unfold scalar; lia|apply IH; [lia|auto]]|].
    unfold encode. destruct D as [-> ->]. replace (u <? 128) with false by lia. replace (u <? 2048) with true by lia.
    cbn [map app]. f_equal; [lia|]. f_equal. lia. }
  destruct t1 as [|c t2]; [discriminate|]. cbn [length] in L.
  destruct ((224 <=? a) && (a <=? 239))%N eqn:A3.
  { unfold cont in U. assert (T : utf8 t2 = true) by lia. rewrite T in U.
    assert (B : (128 <= b <= 191)%N /\ (128 <= c <= 191)%N) by lia. destruct B as [B C].
    set (u := 4096 * (Z.of_N a - 224) + 64 * (Z.of_N b - 128) + (Z.of_N c - 128)).
    assert (D1 : u / 64 = 64 * (Z.of_N a - 224) + (Z.of_N b - 128)).
    { symmetry. apply Z.div_unique with (r := Z.of_N c - 128); unfold u; lia. }
    assert (D0 : u mod 64 = Z.of_N c - 128).
    { symmetry. apply Z.mod_unique with (q := 64 * (Z.of_N a - 224) + (Z.of_N b - 128)); unfold u; lia. }
    assert (D2 : u / 64 mod 64 = Z.of_N b - 128).
    { rewrite D1. symmetry. apply Z.mod_unique with (q := Z.of_N a - 224); lia. }
    assert (D3 : u / 4096 = Z.of_N a - 224).
    { symmetry. apply Z.div_unique with (r := 64 * (Z.of_N b - 128) + (Z.of_N c - 128)); unfold u; lia. }
    replace (a :: b :: c :: t2) with (encode u ++ t2); [apply unicode_cons; [unfold scalar, u; lia|apply IH; [lia|auto]]|].
    unfold encode. rewrite D0, D2, D3. replace (u <? 128) with false by lia. replace (u <? 2048) with false by lia.
    replace (u <? 65536) with true by lia. cbn [map app]. f_equal; [lia|]. f_equal; [lia|]. f_equal. lia. }
  destruct t2 as [|d t3]; [discriminate|]. cbn [length] in L. unfold cont in U.
  assert (T : utf8 t3 = true) by lia. rewrite T in U.
  assert (B : (240 <= a <= 244)%N /\ (128 <= b <= 191)%N /\ (128 <= c <= 191)%N /\ (128 <= d <= 191)%N) by lia. destruct B as (A & B & C & D).
  set (u := 262144 * (Z.of_N a - 240) + 4096 * (Z.of_N b - 128) + 64 * (Z.of_N c - 128) + (Z.of_N d - 128)).
  assert (D1 : u / 64 = 4096 * (Z.of_N a - 240) + 64 * (Z.of_N b - 128) + (Z.of_N c - 128)).
  { symmetry. apply Z.div_unique with (r := Z.of_N d - 128); unfold u; lia. }
  assert (D0 : u mod 64 = Z.of_N d - 128).
  { symmetry. apply Z.mod_unique with (q := 4096 * (Z.of_N a - 240) + 64 * (Z.of_N b - 128) + (Z.of_N c - 128)); unfold u; lia. }
  assert (D2 : u / 64 mod 64 = Z.of_N c - 128).
  { rewrite D1. symmetry. apply Z.mod_unique with (q := 64 * (Z.of_N a - 240) + (Z.of_N b - 128)); lia. }
  assert (D3 : u / 4096 = 64 * (Z.of_N a - 240) + (Z.of_N b - 128)).
  { symmetry. apply Z.div_unique with (r := 64 * (Z.of_N c - 128) + (Z.of_N d - 128)); unfold u; lia. }
  assert (D4 : u / 4096 mod 64 = Z.of_N b - 128).
  { rewrite D3. symmetry. apply Z.mod_unique with (q := Z.of_N a - 240); lia. }
  assert (D5 : u / 262144 = Z.of_N a - 240).
  { symmetry. apply Z.div_unique with (r := 4096 * (Z.of_N b - 128) + 64 * (Z.of_N c - 128) + (Z.of_N d - 128)); unfold u; lia. }
  replace (a :: b :: c :: d :: t3) with (encode u ++ t3); [apply unicode_cons; [unfold scalar, u; lia|apply IH; [lia|auto]]|].
  unfold encode. rewrite D0, D2, D4, D5. replace (u <? 128) with false by lia. replace (u <? 2048) with false by lia.
  replace (u <? 65536) with false by lia. cbn [map app]. f_equal; [lia|]. f_equal; [lia|]. f_equal; [lia|]. f_equal. lia.
Qed.

(** the check of the library model is exactly well-formed UTF-8 *)
Lemma utf8_exact s : utf8 s = true <-> unicode s.
Proof. split; [now apply (utf8_unicode (length s))|apply unicode_utf8]. Qed.

Lemma utf8_ascii s : Forall (fun c => (c < 128)%N) s -> utf8 s = true.
Proof. induction 1 as [|c s C F IH]; [reflexivity|]. cbn [utf8]. now replace (c <? 128)%N with true by lia. Qed.

(** * Numbers with leading zeros *)

(** the [w] lowest digits of [z] in base [b] *)
Fixpoint low_digits (w : nat) (b z : Z) : str :=
  match w with O => [] | S w' => low_digits w' b (z / b) ++ [digit_char (z mod b)] end.
Lemma low_digits_length w b : forall z, length (low_digits w b z) = w.
Proof. induction w as [|w IH]; intros z; [reflexivity|]. cbn [low_digits]. rewrite app_length, IH. cbn. lia. Qed.
Lemma low_digits_zero w b : 2 <= b -> low_digits w b 0 = repeat 48%N w.
Proof.
  intros B. induction w as [|w IH]; [reflexivity|]. cbn [low_digits]. rewrite Z.div_0_l, Z.mod_0_l by lia. rewrite IH.
  change [digit_char 0] with (repeat 48%N 1). rewrite <- repeat_app. f_equal. lia.
Qed.
Lemma digits_of_low : forall fuel w b z acc, 2 <= b -> 0 <= z < b ^ Z.of_nat w -> (w <= fuel)%nat -> (1 <= w)%nat ->
  repeat 48%N (w - (length (digits_of fuel b z acc) - length acc)) ++ digits_of fuel b z acc = low_digits w b z ++ acc /\
  (length acc < length (digits_of fuel b z acc) <= length acc + w)%nat.
Proof.
  induction fuel as [|fu IH]; intros w b z acc B Z F W; [lia|]. cbn [digits_of]. destruct w as [|w]; [lia|].
  rewrite Nat2Z.inj_succ, Z.pow_succ_r in Z by lia.
  destruct (Z.ltb_spec z b).
  - cbn [length low_digits]. rewrite (Z.div_small z b) by lia. rewrite low_digits_zero by lia. split; [|lia].
    replace (S w - (S (length acc) - length acc))%nat with w by lia. rewrite <- app_assoc. reflexivity.
  - assert (Z1 : 1 <= z / b < b ^ Z.of_nat w) by (split; [apply Z.div_le_lower_bound; lia|apply Z.div_lt_upper_bound; lia]).
    assert (W1 : (1 <= w)%nat) by (destruct w; [cbn in Z1; lia|lia]).
    destruct (IH w b (z / b) (digit_char (z mod b) :: acc)) as (E & L); [lia|lia|lia|lia|].
    cbn [length] in *. cbn [low_digits]. split; [|lia]. rewrite <- app_assoc. cbn [app]. rewrite <- E. f_equal. f_equal. lia.
Qed.
Lemma padded_low b w z : 2 <= b -> 0 <= z < b ^ Z.of_nat w -> (1 <= w <= 20)%nat -> padded b w z = low_digits w b z.
Proof.
  intros B Z W. unfold padded. destruct (digits_of_low 20 w b z [] B Z) as (E & L); [lia|lia|]. cbn [length] in E.
  rewrite Nat.sub_0_r, app_nil_r in E. exact E.
Qed.

Lemma digit_char_hex d : 0 <= d < 16 -> hexval (digit_char d) = Some d /\ (digit_char d < 128)%N.
Proof.
  intros D. unfold digit_char, hexval. destruct (Z.ltb_spec d 10).
  - replace ((48 <=? Z.to_N (d + 48)) && (Z.to_N (d + 48) <=? 57))%N with true by lia. split; [f_equal|]; lia.
  - replace ((48 <=? Z.to_N (d + 87)) && (Z.to_N (d + 87) <=? 57))%N with false by lia.
    replace ((97 <=? Z.to_N (d + 87)) && (Z.to_N (d + 87) <=? 102))%N with true by lia. split; [f_equal|]; lia.
Qed.
Lemma hex_number_app : forall s acc t, hex_number acc (s ++ t) = match hex_number acc s with Some a => hex_number a t | None => None end.
Proof. induction s as [|c s IH]; intros acc t; [reflexivity|]. cbn [app hex_number]. destruct (hexval c); auto. Qed.
Lemma hex_low : forall w z acc, 0 <= z < 16 ^ Z.of_nat w -> hex_number acc (low_digits w 16 z) = Some (acc * 16 ^ Z.of_nat w + z).
Proof.
  induction w as [|w IH]; intros z acc Z.
  - cbn in *. f_equal. lia.
  - cbn [low_digits]. rewrite Nat2Z.inj_succ, Z.pow_succ_r in * by lia. rewrite hex_number_app, IH.
    + cbn [hex_number]. pose proof (Z.mod_pos_bound z 16 ltac:(lia)) as M. destruct (digit_char_hex _ M) as [-> _]. f_equal.
      pose proof (Z.div_mod z 16 ltac:(lia)). lia.
    + split; [apply Z.div_pos; lia|apply Z.div_lt_upper_bound; lia].
Qed.
Lemma low_ascii b : 2 <= b <= 16 -> forall w z, Forall (fun c => (c < 128)%N) (low_digits w b z).
Proof.
  intros B. induction w as [|w IH]; intros z; [constructor|]. cbn [low_digits]. apply Forall_app. split; [apply IH|]. constructor; [|constructor].
  pose proof (Z.mod_pos_bound z b ltac:(lia)). apply digit_char_hex. lia.
Qed.

(** ft_hash_to_hex *)
Lemma hash_text_ok h : (h < 2 ^ 128)%N ->
  length (hash_text h) = 32%nat /\ hex_number 0 (hash_text h) = Some (Z.of_N h) /\ utf8 (hash_text h) = true.
Proof.
  intros H. unfold hash_text.
  assert (A : 0 <= Z.of_N (h / 2 ^ 64) < 16 ^ Z.of_nat 16).
  { change (16 ^ Z.of_nat 16) with (Z.of_N (2 ^ 64)). split; [lia|]. apply N2Z.inj_lt. apply N.div_lt_upper_bound; [lia|]. exact H. }
  assert (B : 0 <= Z.of_N (h mod 2 ^ 64) < 16 ^ Z.of_nat 16).
  { change (16 ^ Z.of_nat 16) with (Z.of_N (2 ^ 64)). split; [lia|]. apply N2Z.inj_lt. apply N.mod_lt. lia. }
  rewrite !padded_low by (auto; lia). split; [rewrite app_length, !low_digits_length; reflexivity|]. split.
  - rewrite hex_number_app, hex_low by auto. rewrite hex_low by auto. f_equal.
    pose proof (N.div_mod h (2 ^ 64) ltac:(lia)) as D. apply (f_equal Z.of_N) in D. rewrite N2Z.inj_add, N2Z.inj_mul in D.
    change (16 ^ Z.of_nat 16) with (Z.of_N (2 ^ 64)). lia.
  - apply utf8_ascii. apply Forall_app. split; apply low_ascii; lia.
Qed.

(** * The document *)
Lemma fold_append {A} (g : A -> json) : forall l acc, fold_left (fun a x => append_new a (g x)) l (JArr acc) = JArr (acc ++ map g l).
Proof.
  induction l as [|x l IH]; intros acc; cbn [fold_left map]; [now rewrite app_nil_r|]. cbn [append_new]. rewrite IH, <- app_assoc. reflexivity.
Qed.

Section D.
Variable gmt : Z -> option exploded.
Variable mtime : file -> Z.
Hypothesis time_ascii : forall t, utf8 (time_text gmt t) = true.

Lemma file_object_ok f : unicode (f_path f) -> describes_file (time_text gmt) mtime f (file_object gmt mtime f).
Proof.
  intros U. apply utf8_exact in U. unfold file_object, json_string. rewrite U, time_ascii. repeat split.
Qed.
Lemma set_object_ok s h fs : (h < 2 ^ 128)%N -> Forall (fun f => unicode (f_path f)) fs ->
  describes_set (time_text gmt) mtime (s, h, fs) (set_object gmt mtime (s, h, fs)).
Proof.
  intros H F. unfold describes_set, set_object. rewrite fold_append. destruct (hash_text_ok h H) as (L & X & U).
  unfold json_string. rewrite U. split; [reflexivity|]. split; [exists (hash_text h); auto|].
  exists (map (file_object gmt mtime) fs). split; [reflexivity|]. clear -F time_ascii. induction F; cbn [map]; constructor; auto. now apply file_object_ok.
Qed.
Lemma document_ok js : Forall (fun j => (snd (fst j) < 2 ^ 128)%N /\ Forall (fun f => unicode (f_path f)) (snd j)) js ->
  exists sets, document gmt mtime js = JArr sets /\ Forall2 (describes_set (time_text gmt) mtime) js sets.
Proof.
  intros F. unfold document. rewrite fold_append. exists (map (set_object gmt mtime) js). split; [reflexivity|].
  induction F as [|((s & h) & fs) js (H & U) F IH]; cbn [map]; constructor; auto. now apply set_object_ok.
Qed.
End D.

(** the size and the hash of a set are those of its files *)
Lemma json_pairs_cells compare hv f : forall cells r m s, json_pairs compare hv f cells = (r, m, s) ->
  Forall (fun g => In (mkChk hv (Some g)) cells) m /\ (forall k, In k r -> In k cells \/ k_file k = None).
Proof.
  induction cells as [|k cells IH]; intros r m s E; cbn [json_pairs] in E.
  { injection E as <- <- <-. split; [constructor|intros k []]. }
  destruct (N.eqb_spec hv (k_hash k)) as [Hk|]; [|injection E as <- <- <-; split; [constructor|auto]].
  destruct (k_file k) as [g|] eqn:K; [|injection E as <- <- <-; split; [constructor|auto]].
  assert (Step : forall r' m' s', json_pairs compare hv f cells = (r', m', s') ->
     Forall (fun g => In (mkChk hv (Some g)) (k :: cells)) m' /\ (forall x, In x r' -> In x (k :: cells) \/ k_file x = None)).
  { intros r' m' s' E'. destruct (IH _ _ _ E') as [A B]. split.
    - eapply Forall_impl; [|exact A]. intros x. cbn. auto.
    - intros x I. destruct (B x I); cbn; auto. }
  destruct (compare f g).
  - injection E as <- <- <-. split; [constructor|auto].
  - destruct (json_pairs compare hv f cells) as ((r' & m') & s') eqn:E'. injection E as <- <- <-. destruct (Step _ _ _ eq_refl) as [A B].
    split; [exact A|]. intros x [<-|I]; [cbn; auto|auto].
  - destruct (json_pairs compare hv f cells) as ((r' & m') & s') eqn:E'. injection E as <- <- <-. destruct (Step _ _ _ eq_refl) as [A B].
    split; [exact A|]. intros x [<-|I]; [cbn; auto|auto].
  - destruct (json_pairs compare hv f cells) as ((r' & m') & s') eqn:E'. injection E as <- <- <-. destruct (Step _ _ _ eq_refl) as [A B].
    split.
    + constructor; [|exact A]. left. destruct k. cbn in *. congruence.
    + intros x [<-|I]; [now right|auto].
Qed.
Lemma json_array_cells compare size : forall fuel cells s h fs,
  In (s, h, fs) (fst (json_array compare fuel size cells)) -> s = size /\ forall f, In f fs -> In (mkChk h (Some f)) cells.
Proof.
  induction fuel as [|fu IH]; intros cells s h fs I; cbn [json_array] in I.
  { destruct cells; destruct I. }
  destruct cells as [|k cells]; [destruct I|].
  destruct (k_file k) as [f|] eqn:K.
  - destruct (json_pairs compare (k_hash k) f cells) as ((r & m) & st) eqn:E. destruct (json_pairs_cells _ _ _ _ _ _ _ E) as [A B].
    destruct st; try (destruct I; fail).
    destruct (json_array compare fu size r) as [gs st'] eqn:G. cbn [fst] in I. apply in_app_iff in I. destruct I as [I|I].
    + destruct m as [|g m]; [destruct I|]. destruct I as [I|[]]. injection I as <- <- <-. split; [reflexivity|].
      intros x [<-|Ix]; [left; destruct k; cbn in *; congruence|]. right. rewrite Forall_forall in A. now apply A.
    + specialize (IH r s h fs). rewrite G in IH. destruct (IH I) as [-> C]. split; [reflexivity|]. intros x Ix.
      destruct (B _ (C x Ix)) as [D|D]; [now right|discriminate].
  - specialize (IH cells s h fs I). destruct IH as [-> C]. split; [reflexivity|]. intros x Ix. right. auto.
Qed.

Lemma run_json_sets hash_of junk compare qsort iter c l js : sorts qsort -> visits_all iter -> sizes_ok l ->
  run_json hash_of junk compare qsort iter c l = (js, SOk) ->
  forall s h fs, In (s, h, fs) js -> forall f, In f fs ->
    In f (collected c l) /\ f_size f = s /\ h = match hash_of f with Some x => x | None => junk f end.
Proof.
  intros Q IT SO E s h fs I f If. destruct (collected c l) as [|f0 r0] eqn:C.
  { destruct (runs_empty hash_of junk compare qsort iter IT c l C) as [_ A]. rewrite A in E. discriminate. }
  destruct (runs_ok hash_of junk compare qsort iter IT c l SO) as (L & ss & P & Z & _ & A); [congruence|].
  rewrite A in E. destruct (fold_sizes _ ss) as [js1 st1] eqn:F.
  assert (D : st1 = SOk /\ js1 = js) by (destruct st1; try discriminate; injection E as <-; auto). destruct D as [-> ->].
  destruct (fold_sizes_in _ _ _ _ F _ I) as (z & Iz & J). rewrite json_size_eq in J by auto.
  destruct (json_array_cells _ _ _ _ _ _ _ J) as [-> Cl]. specialize (Cl f If).
  apply srt_in in Cl as (g & Eg & Ig & Zg); auto. unfold cell in Eg. injection Eg as Eh <-.
  split; [rewrite <- C; eapply Permutation_in; [symmetry; exact P|exact Ig]|]. split; [exact Zg|].
  rewrite Eh. unfold hv_of. destruct (direct true L (f_size f)) eqn:Dd; [|reflexivity].
  exfalso. unfold direct in Dd. rewrite andb_false_r in Dd. discriminate.
Qed.

(** ** C83: the document *)
Lemma digits_of_ascii b : 2 <= b <= 16 -> forall fuel z acc, Forall (fun c => (c < 128)%N) acc -> Forall (fun c => (c < 128)%N) (digits_of fuel b z acc).
Proof.
  intros B. induction fuel as [|fu IH]; intros z acc F; cbn [digits_of]; auto.
  assert (F' : Forall (fun c => (c < 128)%N) (digit_char (z mod b) :: acc)).
  { constructor; auto. pose proof (Z.mod_pos_bound z b ltac:(lia)). apply digit_char_hex. lia. }
  destruct (z <? b); auto.
Qed.
Lemma padded_ascii b w z : 2 <= b <= 16 -> Forall (fun c => (c < 128)%N) (padded b w z).
Proof.
  intros B. unfold padded. cbv zeta. apply Forall_app. split; [|apply digits_of_ascii; auto]. apply Forall_forall. intros c I. apply repeat_spec in I. lia.
Qed.
Lemma time_text_utf8 gmt t : utf8 (time_text gmt t) = true.
Proof.
  assert (LA : forall s, forallb (fun c => (c <? 128)%N) s = true -> Forall (fun c => (c < 128)%N) s).
  { intros s F. apply Forall_forall. intros c I. rewrite forallb_forall in F. specialize (F c I). lia. }
  apply utf8_ascii. unfold time_text. destruct (gmt t) as [e|].
  - assert (A : forall w z, Forall (fun c => (c < 128)%N) (padded 10 w z)) by (intros; apply padded_ascii; lia).
    rewrite !Forall_app. repeat (split; [first [apply A|apply LA; reflexivity]|]). apply LA; reflexivity.
  - apply LA; reflexivity.
Qed.

Lemma described_paths time mtime : forall fs l, Forall2 (describes_file time mtime) fs l -> concat (map path_in l) = map f_path fs.
Proof.
  induction 1 as [|f x fs l (P & _) F IH]; [reflexivity|]. cbn [map concat]. rewrite IH. unfold path_in. rewrite P. reflexivity.
Qed.
Lemma set_paths time mtime j o : describes_set time mtime j o -> paths_of o = map f_path (set_files j).
Proof.
  destruct j as ((s & h) & fs). intros (_ & _ & l & D & F). unfold paths_of. rewrite D. exact (described_paths _ _ _ _ F).
Qed.
Lemma sets_paths time mtime js sets : Forall2 (describes_set time mtime) js sets ->
  concat (map paths_of sets) = map f_path (concat (map set_files js)).
Proof.
  induction 1 as [|j o js sets D F IH]; [reflexivity|]. cbn [map concat]. rewrite map_app, IH. f_equal. eapply set_paths; eauto.
Qed.
Lemma Forall2_in_r {A B} (R : A -> B -> Prop) : forall l l', Forall2 R l l' -> forall y, In y l' -> exists x, In x l /\ R x y.
Proof.
  induction 1 as [|a b l l' Hab F IH]; intros y []; [subst; exists a; split; [now left|auto]|]. destruct (IH y H) as (x & I & X). exists x. split; [now right|auto].
Qed.
Lemma Forall2_in_l {A B} (R : A -> B -> Prop) : forall l l', Forall2 R l l' -> forall x, In x l -> exists y, In y l' /\ R x y.
Proof.
  induction 1 as [|a b l l' Hab F IH]; intros y []; [subst; exists b; split; [now left|auto]|]. destruct (IH y H) as (x & I & X). exists x. split; [now right|auto].
Qed.
Lemma Forall2_len {A B} (R : A -> B -> Prop) : forall l l', Forall2 R l l' -> length l = length l'.
Proof. induction 1; cbn [length]; congruence. Qed.

(** With readable files, a hash without collisions and paths that are text: the document is
    an array of sets; each set gives the common size and hash of its files and describes
    each of them; no path comes twice; two files are in one set exactly when they have the
    same bytes. *)
Theorem json_document_exact_partial : forall gmt mtime content xxh huge excess beh hbeh junk qsort iter c l,
  let bytes_of f := content (f_path f) in
  sorts qsort -> visits_all iter -> sizes_ok l -> collected c l <> [] ->
  sized bytes_of (collected c l) -> clean huge beh hbeh -> hash_injective xxh bytes_of (collected c l) ->
  (forall b, (xxh b < 2 ^ 128)%N) -> (forall f, In f (collected c l) -> unicode (f_path f)) ->
  exists sets,
    run_document gmt mtime (hash_file bytes_of xxh huge excess hbeh) junk (compare_files bytes_of huge excess beh) qsort iter c l
      = Some (JArr sets) /\
    (forall o, In o sets -> exists b t fl,
       member o "size_bytes" = Some (JInt (Z.of_nat (length b))) /\
       member o "hash_xxh128" = Some (JStr t) /\ length t = 32%nat /\ hex_number 0 t = Some (Z.of_N (xxh b)) /\
       member o "duplicates" = Some (JArr fl) /\ (2 <= length fl)%nat /\
       forall x, In x fl -> exists f, In f (collected c l) /\ bytes_of f = b /\ describes_file (time_text gmt) mtime f x) /\
    (NoDup (map fst l) -> NoDup (concat (map paths_of sets))) /\
    (forall f g, In f (collected c l) -> In g (collected c l) -> f_path f <> f_path g ->
       (bytes_of f = bytes_of g <-> exists o, In o sets /\ In (f_path f) (paths_of o) /\ In (f_path g) (paths_of o))).
Proof.
  intros gmt mtime content xxh huge excess beh hbeh junk qsort iter c l bytes_of Q IT SO NE SZ CL HI HB PU.
  set (hash := hash_file bytes_of xxh huge excess hbeh). set (cmp := compare_files bytes_of huge excess beh).
  destruct (duplicates_exact_partial bytes_of xxh huge excess beh hbeh junk qsort iter c l Q IT SO NE SZ CL HI) as (gs & js & _ & _ & J & EX).
  fold hash cmp in J.
  assert (HF : forall f, In f (collected c l) -> hash f = Some (xxh (bytes_of f))) by (intros f If; eapply hash_file_exact; eauto).
  pose proof (run_json_sets hash junk cmp qsort iter c l js Q IT SO J) as RS.
  assert (SG : sound_groups bytes_of (collected c l) (map set_files js)).
  { destruct (groups_sound hash junk cmp qsort iter bytes_of c l Q IT SO) as [_ JS]; [|rewrite J in JS; exact JS].
    intros f g If Ig E X. pose proof (compare_files_exact bytes_of huge excess beh hbeh _ CL SZ f g If Ig E) as [_ D].
    destruct (list_eq_dec N.eq_dec (bytes_of f) (bytes_of g)) as [C|C]; auto. apply D in C. fold cmp in C. congruence. }
  assert (HV : forall s h fs, In (s, h, fs) js -> exists f, In f fs /\ In f (collected c l) /\ s = Z.of_nat (length (bytes_of f)) /\ h = xxh (bytes_of f)).
  { intros s h fs I. destruct (SG fs) as (L2 & _); [apply (in_map set_files) in I; exact I|]. destruct fs as [|f fs]; [cbn in L2; lia|].
    exists f. split; [now left|]. destruct (RS s h _ I f ltac:(now left)) as (If & Zf & Hf). split; [exact If|]. rewrite (HF f If) in Hf.
    split; [|exact Hf]. rewrite (SZ f If). auto. }
  destruct (document_ok gmt mtime (time_text_utf8 gmt) js) as (sets & DE & DS).
  { apply Forall_forall. intros ((s & h) & fs) I. cbn [fst snd]. destruct (HV s h fs I) as (f & _ & _ & _ & ->). split; [apply HB|].
    apply Forall_forall. intros g Ig. apply PU. eapply RS; eauto. }
  exists sets. split; [unfold run_document; rewrite J, DE; reflexivity|]. split; [|split].
  - intros o Io. destruct (Forall2_in_r _ _ _ DS o Io) as (((s & h) & fs) & I & M1 & (t & M2 & L32 & X) & (fl & M3 & F)).
    destruct (HV s h fs I) as (f & Iff & If & -> & ->). exists (bytes_of f), t, fl. split; [exact M1|]. split; [exact M2|]. split; [exact L32|].
    split; [exact X|]. split; [exact M3|].
    destruct (SG fs) as (L2 & SC & SB); [apply (in_map set_files) in I; exact I|]. split; [rewrite <- (Forall2_len _ _ _ F); exact L2|].
    intros x Ix. destruct (Forall2_in_r _ _ _ F x Ix) as (g & Ig & Dg). exists g. split; [apply SC; exact Ig|]. split; [|exact Dg]. now apply SB.
  - intros ND. rewrite (sets_paths _ _ _ _ DS). destruct (reported_once hash junk cmp qsort iter c l Q IT SO ND) as [_ R]. rewrite J in R. exact R.
  - intros f g If Ig P. split.
    + intros B. destruct (EX f g If Ig) as [E _]; [congruence|]. destruct (E B) as (grp & I & A1 & A2). apply in_map_iff in I as (j & <- & I).
      destruct (Forall2_in_l _ _ _ DS j I) as (o & Io & D). exists o. rewrite (set_paths _ _ _ _ D). split; [exact Io|]. split; now apply in_map.
    + intros (o & Io & A1 & A2). destruct (Forall2_in_r _ _ _ DS o Io) as (j & I & D). rewrite (set_paths _ _ _ _ D) in A1, A2.
      apply in_map_iff in A1 as (f' & Pf & A1). apply in_map_iff in A2 as (g' & Pg & A2).
      destruct (SG (set_files j)) as (_ & _ & SB); [now apply in_map|]. destruct (SB f' g' A1 A2) as [_ B]. unfold bytes_of in *. congruence.
Qed.

(** * Times *)

(** the Gregorian calendar: leap years, days of a month, days before a year and a month *)
Definition leap (y : Z) : bool := (y mod 4 =? 0) && (negb (y mod 100 =? 0) || (y mod 400 =? 0)).
Definition month_days (y m : Z) : Z :=
  if m =? 2 then (if leap y then 29 else 28)
  else if (m =? 4) || (m =? 6) || (m =? 9) || (m =? 11) then 30 else 31.
Definition before_year (y : Z) : Z := 365 * y + (y + 3) / 4 - (y + 99) / 100 + (y + 399) / 400.
Fixpoint before_month (y : Z) (n : nat) : Z :=
  match n with O => 0 | S n' => before_month y n' + month_days y (Z.of_nat n) end.
(** seconds from the beginning of the year 0 *)
Definition seconds (y m d hh mm ss : Z) : Z :=
  ((before_year y + before_month y (Z.to_nat (m - 1)) + (d - 1)) * 24 + hh) * 3600 + mm * 60 + ss.
Definition epoch : Z := seconds 1970 1 1 0 0 0.
Definition valid (y m d hh mm ss : Z) : Prop :=
  0 <= y /\ 1 <= m <= 12 /\ 1 <= d <= month_days y m /\ 0 <= hh < 24 /\ 0 <= mm < 60 /\ 0 <= ss < 60.

(** apr_time_exp_gmt, for microseconds from 1970 up to the end of the year 9999 *)
Definition year_10000 : Z := (seconds 10000 1 1 0 0 0 - epoch) * 1000000.
Definition gmt_ok (gmt : Z -> option exploded) : Prop := forall t, 0 <= t < year_10000 ->
  exists e, gmt t = Some e /\
    valid (tm_year e + 1900) (tm_mon e + 1) (tm_mday e) (tm_hour e) (tm_min e) (tm_sec e) /\
    seconds (tm_year e + 1900) (tm_mon e + 1) (tm_mday e) (tm_hour e) (tm_min e) (tm_sec e) - epoch = t / 1000000.

(** ** the calendar is ordered *)
Lemma year_step y : before_year (y + 1) = before_year y + 365 + (if leap y then 1 else 0).
Proof.
  unfold before_year, leap.
  assert (A : (y + 1 + 3) / 4 = (y + 3) / 4 + (if y mod 4 =? 0 then 1 else 0)) by (destruct (Z.eqb_spec (y mod 4) 0); Z.to_euclidean_division_equations; lia).
  assert (B : (y + 1 + 99) / 100 = (y + 99) / 100 + (if y mod 100 =? 0 then 1 else 0)) by (destruct (Z.eqb_spec (y mod 100) 0); Z.to_euclidean_division_equations; lia).
  assert (C : (y + 1 + 399) / 400 = (y + 399) / 400 + (if y mod 400 =? 0 then 1 else 0)) by (destruct (Z.eqb_spec (y mod 400) 0); Z.to_euclidean_division_equations; lia).
  assert (D : y mod 400 = 0 -> y mod 100 = 0) by (Z.to_euclidean_division_equations; lia).
  assert (F : y mod 100 = 0 -> y mod 4 = 0) by (Z.to_euclidean_division_equations; lia).
  rewrite A, B, C.
  destruct (Z.eqb_spec (y mod 4) 0), (Z.eqb_spec (y mod 100) 0), (Z.eqb_spec (y mod 400) 0); cbn [andb orb negb]; lia.
Qed.
Lemma before_year_mono : forall n y, before_year y + 365 * Z.of_nat n <= before_year (y + Z.of_nat n).
Proof.
  induction n as [|n IH]; intros y; [replace (y + Z.of_nat 0) with y by lia; lia|]. rewrite Nat2Z.inj_succ. replace (y + Z.succ (Z.of_nat n)) with (y + Z.of_nat n + 1) by lia.
  rewrite year_step. specialize (IH y). destruct (leap _); lia.
Qed.
Lemma month_days_pos y m : 28 <= month_days y m <= 31.
Proof. unfold month_days. repeat (destruct (_ =? _); cbn [orb]); try destruct (leap y); lia. Qed.
Lemma before_month_mono y : forall k n, (n <= k)%nat -> before_month y n + 28 * Z.of_nat (k - n) <= before_month y k.
Proof.
  induction k as [|k IH]; intros n L; [replace n with 0%nat by lia; cbn; lia|].
  destruct (Nat.eq_dec n (S k)) as [->|]; [rewrite Nat.sub_diag; lia|].
  cbn [before_month]. pose proof (month_days_pos y (Z.of_nat (S k))). specialize (IH n ltac:(lia)). lia.
Qed.
Lemma year_length y : before_month y 12 = 365 + (if leap y then 1 else 0).
Proof. cbn [before_month]. unfold month_days. cbn. destruct (leap y); lia. Qed.

(** day of the year *)
Lemma day_in_year y m d : 1 <= m <= 12 -> 1 <= d <= month_days y m ->
  0 <= before_month y (Z.to_nat (m - 1)) + (d - 1) < 365 + (if leap y then 1 else 0).
Proof.
  intros M D. pose proof (before_month_mono y (Z.to_nat (m - 1)) 0 ltac:(lia)) as A. cbn [before_month] in A.
  pose proof (before_month_mono y 12 (Z.to_nat m) ltac:(lia)) as B. rewrite year_length in B.
  replace (Z.to_nat m) with (S (Z.to_nat (m - 1))) in B by lia. cbn [before_month] in B.
  replace (Z.of_nat (S (Z.to_nat (m - 1)))) with m in B by lia. lia.
Qed.

Definition earlier (y m d hh mm ss y' m' d' hh' mm' ss' : Z) : Prop :=
  y < y' \/ (y = y' /\ (m < m' \/ (m = m' /\ (d < d' \/ (d = d' /\ (hh < hh' \/ (hh = hh' /\ (mm < mm' \/ (mm = mm' /\ ss < ss'))))))))).
Lemma earlier_seconds y m d hh mm ss y' m' d' hh' mm' ss' :
  valid y m d hh mm ss -> valid y' m' d' hh' mm' ss' ->
  earlier y m d hh mm ss y' m' d' hh' mm' ss' -> seconds y m d hh mm ss < seconds y' m' d' hh' mm' ss'.
Proof.
  intros (Y & M & D & H1 & H2 & H3) (Y' & M' & D' & H1' & H2' & H3') L. unfold seconds.
  pose proof (day_in_year y m d M D) as DY. pose proof (day_in_year y' m' d' M' D') as DY'.
  destruct L as [L|(-> & [L|(-> & L)])].
  - pose proof (before_year_mono (Z.to_nat (y' - y - 1)) (y + 1)) as B. rewrite year_step in B.
    replace (y + 1 + Z.of_nat (Z.to_nat (y' - y - 1))) with y' in B by lia.
    assert (before_year y + before_month y (Z.to_nat (m - 1)) + (d - 1) < before_year y' + before_month y' (Z.to_nat (m' - 1)) + (d' - 1)) by lia. lia.
  - pose proof (before_month_mono y' (Z.to_nat (m' - 1)) (Z.to_nat m) ltac:(lia)) as B.
    replace (Z.to_nat m) with (S (Z.to_nat (m - 1))) in B by lia. cbn [before_month] in B.
    replace (Z.of_nat (S (Z.to_nat (m - 1)))) with m in B by lia. lia.
  - lia.
Qed.
Lemma seconds_order y m d hh mm ss y' m' d' hh' mm' ss' :
  valid y m d hh mm ss -> valid y' m' d' hh' mm' ss' ->
  (seconds y m d hh mm ss < seconds y' m' d' hh' mm' ss' <-> earlier y m d hh mm ss y' m' d' hh' mm' ss') /\
  (seconds y m d hh mm ss = seconds y' m' d' hh' mm' ss' -> y = y' /\ m = m' /\ d = d' /\ hh = hh' /\ mm = mm' /\ ss = ss').
Proof.
  intros V V'.
  assert (T : earlier y m d hh mm ss y' m' d' hh' mm' ss' \/ earlier y' m' d' hh' mm' ss' y m d hh mm ss \/
              (y = y' /\ m = m' /\ d = d' /\ hh = hh' /\ mm = mm' /\ ss = ss')) by (unfold earlier; lia).
  destruct T as [T|[T|T]].
  - pose proof (earlier_seconds _ _ _ _ _ _ _ _ _ _ _ _ V V' T). split; [tauto|lia].
  - pose proof (earlier_seconds _ _ _ _ _ _ _ _ _ _ _ _ V' V T). split; [|lia]. split; [lia|]. unfold earlier in *. lia.
  - destruct T as (-> & -> & -> & -> & -> & ->). split; [|auto 10]. split; [lia|]. unfold earlier. lia.
Qed.

(** ** fixed width numbers are ordered like their text *)
Lemma klt_app : forall a b x y, length a = length b -> (klt (a ++ x) (b ++ y) <-> klt a b \/ (a = b /\ klt x y)).
Proof.
  induction a as [|c a IH]; intros [|e b] x y L; try discriminate.
  - cbn [app]. split; [auto|]. intros [K|(_ & K)]; [inversion K|exact K].
  - cbn [app]. injection L as L. specialize (IH b x y L). split.
    + intros K. inversion K; subst; [left; now constructor|]. apply IH in H0. destruct H0 as [H0|(-> & H0)]; [left; now constructor|auto].
    + intros [K|(E & K)]; [inversion K; subst; [now constructor|]|injection E as <- <-]; apply klt_tail, IH; auto.
Qed.
Lemma klt_one a b : klt [a] [b] <-> (a < b)%N.
Proof. split; [intros K; inversion K; subst; auto; inversion H0|now constructor]. Qed.
Lemma low_digits_eq : forall w z z', 0 <= z < 10 ^ Z.of_nat w -> 0 <= z' < 10 ^ Z.of_nat w ->
  (low_digits w 10 z = low_digits w 10 z' <-> z = z') /\ (klt (low_digits w 10 z) (low_digits w 10 z') <-> z < z').
Proof.
  induction w as [|w IH]; intros z z' Z Z'.
  - cbn in *. split; [split; [lia|auto]|]. split; [intros K; inversion K|lia].
  - rewrite Nat2Z.inj_succ, Z.pow_succ_r in * by lia. cbn [low_digits].
    pose proof (Z.mod_pos_bound z 10 ltac:(lia)) as M. pose proof (Z.mod_pos_bound z' 10 ltac:(lia)) as M'.
    pose proof (Z.div_mod z 10 ltac:(lia)) as D. pose proof (Z.div_mod z' 10 ltac:(lia)) as D'.
    destruct (IH (z / 10) (z' / 10)) as [E O]; [split; [apply Z.div_pos; lia|apply Z.div_lt_upper_bound; lia]|split; [apply Z.div_pos; lia|apply Z.div_lt_upper_bound; lia]|].
    assert (C : digit_char (z mod 10) = Z.to_N (z mod 10 + 48) /\ digit_char (z' mod 10) = Z.to_N (z' mod 10 + 48)).
    { unfold digit_char. replace (z mod 10 <? 10) with true by lia. replace (z' mod 10 <? 10) with true by lia. auto. }
    destruct C as [-> ->]. split.
    + split; [|intros ->; reflexivity]. intros X. apply app_inj_tail in X. destruct X as [X Y]. apply E in X. lia.
    + rewrite klt_app by (now rewrite !low_digits_length). rewrite klt_one, E, O. lia.
Qed.

(** the text for given fields *)
Definition stamp (y m d hh mm ss : Z) : str :=
  low_digits 4 10 y ++ lit "-" ++ low_digits 2 10 m ++ lit "-" ++ low_digits 2 10 d
  ++ lit "T" ++ low_digits 2 10 hh ++ lit ":" ++ low_digits 2 10 mm ++ lit ":" ++ low_digits 2 10 ss ++ lit "Z".
Lemma stamp_order y m d hh mm ss y' m' d' hh' mm' ss' :
  valid y m d hh mm ss -> valid y' m' d' hh' mm' ss' -> y < 10000 -> y' < 10000 ->
  (klt (stamp y m d hh mm ss) (stamp y' m' d' hh' mm' ss') <-> earlier y m d hh mm ss y' m' d' hh' mm' ss') /\
  (stamp y m d hh mm ss = stamp y' m' d' hh' mm' ss' -> y = y' /\ m = m' /\ d = d' /\ hh = hh' /\ mm = mm' /\ ss = ss').
Proof.
  intros (Y & M & D & H1 & H2 & H3) (Y' & M' & D' & H1' & H2' & H3') L L'.
  pose proof (month_days_pos y m). pose proof (month_days_pos y' m').
  pose proof (low_digits_eq 4 y y' ltac:(cbn; lia) ltac:(cbn; lia)) as [Ey Ky].
  pose proof (low_digits_eq 2 m m' ltac:(cbn; lia) ltac:(cbn; lia)) as [Em Km].
  pose proof (low_digits_eq 2 d d' ltac:(cbn; lia) ltac:(cbn; lia)) as [Ed Kd].
  pose proof (low_digits_eq 2 hh hh' ltac:(cbn; lia) ltac:(cbn; lia)) as [Eh Kh].
  pose proof (low_digits_eq 2 mm mm' ltac:(cbn; lia) ltac:(cbn; lia)) as [En Kn].
  pose proof (low_digits_eq 2 ss ss' ltac:(cbn; lia) ltac:(cbn; lia)) as [Es Ks].
  assert (NL : forall s : str, ~ klt s s).
  { intros s K. assert (G : forall a b : str, klt a b -> a <> b) by (induction 1; [discriminate|intros X; injection X as -> _; lia|intros X; injection X as X; auto]).
    now apply G in K. }
  unfold stamp, earlier. split.
  - do 11 (rewrite klt_app by (rewrite ?low_digits_length; reflexivity)).
    rewrite Ky, Km, Kd, Kh, Kn, Ks, Ey, Em, Ed, Eh, En, Es.
    pose proof (NL (lit "-")). pose proof (NL (lit "T")). pose proof (NL (lit ":")). pose proof (NL (lit "Z")). tauto.
  - intros X.
    assert (AI : forall a b x y : str, length a = length b -> a ++ x = b ++ y -> a = b /\ x = y).
    { clear. induction a as [|c a IH]; intros [|e b] x y L E; try discriminate; [auto|]. injection L as L. injection E as -> E.
      destruct (IH b x y L E) as [-> ->]. auto. }
    apply AI in X; [|now rewrite !low_digits_length]. destruct X as [X1 X]. apply AI in X; [|reflexivity]. destruct X as [_ X].
    apply AI in X; [|now rewrite !low_digits_length]. destruct X as [X2 X]. apply AI in X; [|reflexivity]. destruct X as [_ X].
    apply AI in X; [|now rewrite !low_digits_length]. destruct X as [X3 X]. apply AI in X; [|reflexivity]. destruct X as [_ X].
    apply AI in X; [|now rewrite !low_digits_length]. destruct X as [X4 X]. apply AI in X; [|reflexivity]. destruct X as [_ X].
    apply AI in X; [|now rewrite !low_digits_length]. destruct X as [X5 X]. apply AI in X; [|reflexivity]. destruct X as [_ X].
    apply AI in X; [|now rewrite !low_digits_length]. destruct X as [X6 _]. tauto.
Qed.

Lemma time_stamp gmt t : gmt_ok gmt -> 0 <= t < year_10000 -> exists y m d hh mm ss,
  valid y m d hh mm ss /\ y < 10000 /\ seconds y m d hh mm ss - epoch = t / 1000000 /\ time_text gmt t = stamp y m d hh mm ss.
Proof.
  intros G T. destruct (G t T) as (e & E & V & S).
  assert (Y : tm_year e + 1900 < 10000).
  { destruct (Z.lt_ge_cases (tm_year e + 1900) 10000) as [|X]; auto. exfalso.
    assert (Q : t / 1000000 < seconds 10000 1 1 0 0 0 - epoch).
    { unfold year_10000 in T. remember (seconds 10000 1 1 0 0 0 - epoch) as q. apply Z.div_lt_upper_bound; lia. }
    assert (V0 : valid 10000 1 1 0 0 0) by (unfold valid; cbn; lia).
    destruct (seconds_order _ _ _ _ _ _ _ _ _ _ _ _ V V0) as [[A _] _]. specialize (A ltac:(lia)).
    destruct V as (_ & V1 & V2 & V3 & V4 & V5). unfold earlier in A. lia. }
  exists (tm_year e + 1900), (tm_mon e + 1), (tm_mday e), (tm_hour e), (tm_min e), (tm_sec e). split; [exact V|]. split; [exact Y|]. split; [exact S|].
  unfold time_text. rewrite E. destruct V as (V0 & V1 & V2 & V3 & V4 & V5). pose proof (month_days_pos (tm_year e + 1900) (tm_mon e + 1)).
  rewrite !padded_low by (cbn; lia). reflexivity.
Qed.

(** ** C84: the texts of two modification times compare, byte by byte, as the seconds do,
    for times from 1970 to the end of the year 9999. *)
Theorem json_time_order_partial : forall gmt t u, gmt_ok gmt -> 0 <= t < year_10000 -> 0 <= u < year_10000 ->
  length (time_text gmt t) = 20%nat /\
  (klt (time_text gmt t) (time_text gmt u) <-> t / 1000000 < u / 1000000) /\
  (time_text gmt t = time_text gmt u <-> t / 1000000 = u / 1000000).
Proof.
  intros gmt t u G T U. destruct (time_stamp gmt t G T) as (y & m & d & hh & mm & ss & V & Y & S & ->).
  destruct (time_stamp gmt u G U) as (y' & m' & d' & hh' & mm' & ss' & V' & Y' & S' & ->).
  destruct (stamp_order _ _ _ _ _ _ _ _ _ _ _ _ V V' Y Y') as [A B].
  destruct (seconds_order _ _ _ _ _ _ _ _ _ _ _ _ V V') as [C D]. split; [|split].
  - unfold stamp. rewrite !app_length, !low_digits_length. reflexivity.
  - rewrite A, <- C. lia.
  - split.
    + intros X. destruct (B X) as (-> & -> & -> & -> & -> & ->). lia.
    + intros X. destruct (D ltac:(lia)) as (-> & -> & -> & -> & -> & ->). reflexivity.
Qed.

(** * Examples *)

(** a calendar: years and months are counted off one by one *)
Fixpoint find_year (fuel : nat) (y d : Z) : Z * Z :=
  match fuel with
  | O => (y, d)
  | S fu => let n := 365 + (if leap y then 1 else 0) in if d <? n then (y, d) else find_year fu (y + 1) (d - n)
  end.
Fixpoint find_month (fuel : nat) (y m d : Z) : Z * Z :=
  match fuel with
  | O => (m, d)
  | S fu => if d <? month_days y m then (m, d) else find_month fu y (m + 1) (d - month_days y m)
  end.
Definition calendar (t : Z) : option exploded :=
  let s := t / 1000000 in
  let '(y, d) := find_year (Z.to_nat (s / 86400 / 365) + 1) 1970 (s / 86400) in
  let '(m, d) := find_month 11 y 1 d in
  Some (mkExp (y - 1900) (m - 1) (d + 1) (s mod 86400 / 3600) (s mod 3600 / 60) (s mod 60)).

Lemma find_year_ok : forall fuel y d y' d', 0 <= d < 365 * Z.of_nat fuel -> find_year fuel y d = (y', d') ->
  before_year y + d = before_year y' + d' /\ 0 <= d' < 365 + (if leap y' then 1 else 0) /\ y <= y'.
Proof.
  induction fuel as [|fu IH]; intros y d y' d' D E; [lia|]. cbn [find_year] in E. cbv zeta in E.
  destruct (Z.ltb_spec d (365 + (if leap y then 1 else 0))) as [L|L].
  - injection E as <- <-. lia.
  - apply IH in E; [|destruct (leap y); lia]. rewrite year_step in E. lia.
Qed.
Lemma find_month_ok y : forall fuel m d m' d', 1 <= m -> m + Z.of_nat fuel = 12 -> 0 <= d ->
  before_month y (Z.to_nat (m - 1)) + d < before_month y 12 -> find_month fuel y m d = (m', d') ->
  before_month y (Z.to_nat (m - 1)) + d = before_month y (Z.to_nat (m' - 1)) + d' /\ 0 <= d' < month_days y m' /\ 1 <= m' <= 12.
Proof.
  induction fuel as [|fu IH]; intros m d m' d' M F D L E; cbn [find_month] in E.
  - injection E as <- <-. replace m with 12 in * by lia. change (Z.to_nat (12 - 1)) with 11%nat in *. cbn [before_month] in L. change (Z.of_nat 12) with 12 in L. lia.
  - assert (B : before_month y (Z.to_nat (m + 1 - 1)) = before_month y (Z.to_nat (m - 1)) + month_days y m).
    { replace (Z.to_nat (m + 1 - 1)) with (S (Z.to_nat (m - 1))) by lia. cbn [before_month]. f_equal. f_equal. lia. }
    destruct (Z.ltb_spec d (month_days y m)).
    + injection E as <- <-. lia.
    + apply IH in E; lia.
Qed.
Lemma calendar_ok t : 0 <= t -> exists e, calendar t = Some e /\
    valid (tm_year e + 1900) (tm_mon e + 1) (tm_mday e) (tm_hour e) (tm_min e) (tm_sec e) /\
    seconds (tm_year e + 1900) (tm_mon e + 1) (tm_mday e) (tm_hour e) (tm_min e) (tm_sec e) - epoch = t / 1000000.
Proof.
  intros T. unfold calendar. cbv zeta. assert (S : 0 <= t / 1000000) by (apply Z.div_pos; lia). set (s := t / 1000000) in *. clearbody s.
  assert (D0 : 0 <= s / 86400) by (apply Z.div_pos; lia).
  destruct (find_year _ _ _) as [y d] eqn:FY. apply find_year_ok in FY.
  2:{ split; [lia|]. pose proof (Z.div_mod (s / 86400) 365 ltac:(lia)). pose proof (Z.mod_pos_bound (s / 86400) 365 ltac:(lia)).
      assert (0 <= s / 86400 / 365) by (apply Z.div_pos; lia). lia. }
  destruct FY as (BY & D & Y). destruct (find_month _ _ _ _) as [m d'] eqn:FM. apply find_month_ok in FM; [|lia|lia|lia|].
  2:{ rewrite year_length. change (Z.to_nat (1 - 1)) with 0%nat. cbn [before_month]. lia. }
  destruct FM as (BM & D' & M). change (Z.to_nat (1 - 1)) with 0%nat in BM. cbn [before_month] in BM.
  eexists. split; [reflexivity|]. cbn [tm_year tm_mon tm_mday tm_hour tm_min tm_sec].
  replace (y - 1900 + 1900) with y by lia. replace (m - 1 + 1) with m by lia.
  assert (H1 : 0 <= s mod 86400 / 3600 < 24) by (Z.to_euclidean_division_equations; lia).
  assert (H2 : 0 <= s mod 3600 / 60 < 60) by (Z.to_euclidean_division_equations; lia).
  assert (H3 : 0 <= s mod 60 < 60) by (apply Z.mod_pos_bound; lia).
  assert (HS : s = s / 86400 * 86400 + s mod 86400 / 3600 * 3600 + s mod 3600 / 60 * 60 + s mod 60).
  { clear. Z.to_euclidean_division_equations. lia. }
  split; [unfold valid; lia|]. unfold epoch, seconds. change (before_month 1970 (Z.to_nat (1 - 1))) with 0. replace (d' + 1 - 1) with d' by lia. lia.
Qed.
Example calendar_gmt : gmt_ok calendar.
Proof. intros t T. apply calendar_ok. lia. Qed.
Example some_times : time_text calendar 0 = lit "1970-01-01T00:00:00Z" /\ time_text calendar 951782400123456 = lit "2000-02-29T00:00:00Z" /\
  time_text calendar 1731715199000000 = lit "2024-11-15T23:59:59Z".
Proof. vm_compute. auto. Qed.

(** the texts of later years have one more digit, and sort before *)
Theorem json_time_order_refuted : exists gmt t u,
  (forall v, 0 <= v -> exists e, gmt v = Some e /\
    valid (tm_year e + 1900) (tm_mon e + 1) (tm_mday e) (tm_hour e) (tm_min e) (tm_sec e) /\
    seconds (tm_year e + 1900) (tm_mon e + 1) (tm_mday e) (tm_hour e) (tm_min e) (tm_sec e) - epoch = v / 1000000) /\
  0 <= t < u /\ t / 1000000 < u / 1000000 /\ klt (time_text gmt u) (time_text gmt t).
Proof.
  exists calendar, (year_10000 - 1000000), year_10000. split; [exact calendar_ok|]. split; [vm_compute; split; congruence|]. split; [vm_compute; reflexivity|].
  vm_compute. now constructor.
Qed.

(** a run over three files, one with an accent in its name *)
Definition doc_files : list (list N * finfo) := [([195; 169]%N, inf 2); ([97]%N, inf 2); ([98]%N, inf 2)].
Definition doc_content (p : list N) : bytes := match p with [98%N] => [7; 9]%N | _ => [7; 8]%N end.
Definition capped (b : bytes) : N := (sum256 b mod 2 ^ 128)%N.
Definition doc_mtime (f : file) : Z := 951782400123456.
Definition doc_run (l : list (list N * finfo)) : option json :=
  let bytes_of f := doc_content (f_path f) in
  run_document calendar doc_mtime (hash_file bytes_of capped 2 2 ok_hbeh) ex_junk (compare_files bytes_of 2 2 ok_beh) isort id_iter cf0 l.
Example doc_hyps : collected cf0 doc_files <> [] /\ sized (fun f => doc_content (f_path f)) (collected cf0 doc_files) /\
  hash_injective capped (fun f => doc_content (f_path f)) (collected cf0 doc_files) /\
  (forall b, (capped b < 2 ^ 128)%N) /\ (forall f, In f (collected cf0 doc_files) -> unicode (f_path f)) /\
  NoDup (map fst doc_files) /\ sizes_ok doc_files.
Proof.
  split; [discriminate|]. split; [intros f I; cbn in I; intuition (subst; reflexivity)|].
  split; [intros f g If Ig; cbn in If, Ig; intuition (subst; vm_compute in *; try discriminate; try reflexivity)|].
  split; [intros b; apply N.mod_lt; lia|]. split; [intros f I; apply utf8_exact; cbn in I; intuition (subst; reflexivity)|].
  split; [repeat constructor; cbn; intuition discriminate|repeat constructor; cbn; lia].
Qed.
Example doc_written : doc_run doc_files = Some (JArr [JObj
  [(lit "size_bytes", JInt 2); (lit "hash_xxh128", JStr (lit "00000000000000000000000000010708"));
   (lit "duplicates", JArr
     [JObj [(lit "path", JStr [195; 169]%N); (lit "mtime_utc", JStr (lit "2000-02-29T00:00:00Z")); (lit "prioritized", JBool false)];
      JObj [(lit "path", JStr [97]%N); (lit "mtime_utc", JStr (lit "2000-02-29T00:00:00Z")); (lit "prioritized", JBool false)]])]]).
Proof. vm_compute. reflexivity. Qed.

(** names that are not text: the set is there, but says nothing about which files it means *)
Theorem json_path_lost_refuted : exists gmt mtime content xxh huge excess beh hbeh junk qsort iter c l sets o fl,
  let bytes_of f := content (f_path f) in
  sorts qsort /\ visits_all iter /\ sizes_ok l /\ NoDup (map fst l) /\
  sized bytes_of (collected c l) /\ clean huge beh hbeh /\ hash_injective xxh bytes_of (collected c l) /\
  run_document gmt mtime (hash_file bytes_of xxh huge excess hbeh) junk (compare_files bytes_of huge excess beh) qsort iter c l
    = Some (JArr sets) /\
  In o sets /\ member o "duplicates" = Some (JArr fl) /\ fl <> [] /\ (forall x, In x fl -> member x "path" = None).
Proof.
  exists calendar, doc_mtime, doc_content, capped, 2%nat, 2%N, ok_beh, ok_hbeh, ex_junk, isort, id_iter, cf0, [([255; 1]%N, inf 2); ([255; 2]%N, inf 2)].
  do 3 eexists. cbv zeta. split; [exact isort_sorts|]. split; [exact id_iter_all|]. split; [repeat constructor; cbn; lia|].
  split; [repeat constructor; cbn; intuition discriminate|]. split; [intros f I; cbn in I; intuition (subst; reflexivity)|].
  split; [apply end_hyps|]. split; [intros f g If Ig; cbn in If, Ig; intuition (subst; reflexivity)|].
  split; [vm_compute; reflexivity|]. split; [now left|]. split; [vm_compute; reflexivity|]. split; [discriminate|].
  intros x I. cbn in I. intuition (subst; vm_compute; reflexivity).
Qed.

Print Assumptions json_document_exact_partial.
Print Assumptions json_path_lost_refuted.
Print Assumptions json_time_order_partial.
Print Assumptions json_time_order_refuted.
