(** Model of parse_human_size, /repo/src/human_size.c:37-71, on decimal numbers.

    strtod is modelled for an optional sign, digits, an optional decimal point and more
    digits in the C locale: the value rounded to the nearest double, ties to even (glibc).
    Exponents, hexadecimal numbers, infinities and NaN are recognised but not modelled.
    Doubles are pairs (q, e) for q * 2^e with |q| <= 2^53; overflow and subnormal numbers
    are left out.  For format_human_size see FormatModel. *)
From Coq Require Import String Ascii.
From Verif Require Import Util IgnoreModel.
Local Open Scope list_scope.
Local Open Scope Z_scope.

(** the integer nearest to n / d, ties to even *)
Definition rne (n d : Z) : Z :=
  let q := n / d in let r := n mod d in
  if 2 * r <? d then q else if d <? 2 * r then q + 1 else if Z.even q then q else q + 1.
(** (a / b) / 2^e as a fraction *)
Definition scaled (a b e : Z) : Z * Z := if 0 <=? e then (a, b * 2 ^ e) else (a * 2 ^ (- e), b).
(** the double nearest to a / b *)
Definition to_double (a b : Z) : Z * Z :=
  if a =? 0 then (0, 0)
  else
    let e0 := Z.log2 a - Z.log2 b - 53 in
    let (n0, d0) := scaled a b e0 in
    let e := if 2 ^ 53 * d0 <=? n0 then e0 + 1 else e0 in
    let (n, d) := scaled a b e in
    (rne n d, e).
(** the integer part of (q * 2^e) * 2^m; the product with a power of two is exact *)
Definition int_part (x : Z * Z) (m : Z) : Z :=
  let (q, e) := x in if 0 <=? e + m then q * 2 ^ (e + m) else q / 2 ^ (- (e + m)).

Definition isdigit (c : N) : bool := ((48 <=? c) && (c <=? 57))%N.
(** value and number of leading digits, text behind *)
Fixpoint digits (s : str) (acc : Z) (n : nat) : Z * nat * str :=
  match s with
  | c :: t => if isdigit c then digits t (10 * acc + Z.of_N (c - 48)) (S n) else (acc, n, s)
  | [] => (acc, n, [])
  end.

(** no conversion; (-1)^neg * a / 10^k and the text behind; other *)
Inductive sd := SDNone | SDVal (neg : bool) (a : Z) (k : nat) (rest : str) | SDOther.
Definition is_char (s : str) (l : str) : bool := match s with c :: _ => existsb (N.eqb c) l | [] => false end.
Definition exponent (s : str) : bool :=
  match s with
  | c :: d :: t => existsb (N.eqb c) (lit "eE") && (isdigit d || existsb (N.eqb d) (lit "+-") && match t with x :: _ => isdigit x | [] => false end)
  | _ => false
  end.
Definition strtod (s : str) : sd :=
  let s1 := skip_spaces s in
  let (neg, s2) := match s1 with
                   | c :: t => if (c =? chr "-")%N then (true, t) else if (c =? chr "+")%N then (false, t) else (false, s1)
                   | [] => (false, [])
                   end in
  let '(a1, n1, r1) := digits s2 0 0 in
  let '(a2, n2, r2) := match r1 with
                       | c :: t => if (c =? chr ".")%N then digits t a1 0 else (a1, O, r1)
                       | [] => (a1, O, r1)
                       end in
  if (n1 + n2 =? 0)%nat then (if is_char s2 (lit "iInN") then SDOther else SDNone)
  else if (n1 =? 1)%nat && (a1 =? 0) && is_char r1 (lit "xX") then SDOther
  else if exponent r2 then SDOther
  else SDVal neg a2 n2 r2.

(** result of parse_human_size; [PUB]: the conversion of the double to apr_off_t is
    undefined *)
Inductive hres := PVal (z : Z) | PUB | POther.

Definition toupper (c : N) : N := if ((97 <=? c) && (c <=? 122))%N then (c - 32)%N else c.
(** human_size.c:37-71 *)
Definition parse_human_size (s : str) : hres :=
  match strtod s with
  | SDNone => PVal (-1)
  | SDOther => POther
  | SDVal neg a k rest =>
    let fin (m : Z) :=
      let z := int_part (to_double a (10 ^ Z.of_nat k)) m in
      let z := if neg then - z else z in
      if (- 2 ^ 63 <=? z) && (z <? 2 ^ 63) then PVal z else PUB in
    match skip_spaces rest with
    | [] => fin 0
    | c :: _ =>
      let u := toupper c in
      if (u =? chr "T")%N then fin 40 else if (u =? chr "G")%N then fin 30
      else if (u =? chr "M")%N then fin 20 else if (u =? chr "K")%N then fin 10
      else PVal (-1)
    end
  end.
