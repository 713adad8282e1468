(** Model of format_human_size, /repo/src/human_size.c:19-35, for sizes from 0 to 2^63 - 1.

    The conversion to double rounds to the nearest, ties to even; the divisions by 1024.0
    are exact, so the double is kept as the integer [x] and the number [u] of divisions.
    apr_psprintf is modelled as in APR: "%d" prints the decimal digits, "%.1f" cuts the
    value after the second decimal digit and rounds that digit half up (apr_cvt).  The
    multiplications by ten inside apr_cvt are exact below 1 EiB; above, they are taken as
    exact too (simplification). *)
From Coq Require Import String Ascii.
From Verif Require Import Util IgnoreModel HumanModel.
Local Open Scope list_scope.
Local Open Scope Z_scope.

(** (double) size, line 23 *)
Definition double_of (size : Z) : Z := int_part (to_double size 1) 0.
(** the loop, lines 25-28; [n]: how often unit_index can still grow *)
Fixpoint unit_loop (n : nat) (x u : Z) : Z :=
  match n with
  | O => u
  | S n' => if 1024 ^ (u + 1) <=? x then unit_loop n' x (u + 1) else u
  end.
(** line 21 *)
Definition units : list string := ["B"; "KiB"; "MiB"; "GiB"; "TiB"; "PiB"; "EiB"]%string.
(** decimal digits *)
Fixpoint dec (fuel : nat) (z : Z) (acc : str) : str :=
  match fuel with
  | O => acc
  | S fu => let acc' := (Z.to_N (z mod 10) + 48)%N :: acc in if z <? 10 then acc' else dec fu (z / 10) acc'
  end.
(** ten times the value x / 1024^u as "%.1f" prints it *)
Definition tenths (x u : Z) : Z :=
  let t := 10 * x / 1024 ^ u in
  if 5 <=? (100 * x / 1024 ^ u) mod 10 then t + 1 else t.
(** human_size.c:19-35 *)
Definition format_human_size (size : Z) : str :=
  let x := double_of size in
  let u := unit_loop 6 x 0 in
  let name := lit (nth (Z.to_nat u) units ""%string) in
  if u =? 0 then dec 20 x [] ++ lit " " ++ name
  else dec 20 (tenths x u / 10) [] ++ lit "." ++ dec 20 (tenths x u mod 10) [] ++ lit " " ++ name.
