(** Model of /repo/src/ft_file.c: comparison of two files and checksum of a file.

    A file is its bytes at the time of the call, [None] if it cannot be opened.  The
    result of memcmp is reduced to a flag: [true] for different.  Closing files and
    deleting maps succeed; the leaks on the error paths are left out. *)
From Verif Require Import Util.
Local Open Scope nat_scope.

Definition bytes := list N.
(** result of an operation that reads files: its value, a status other than APR_SUCCESS,
    an access outside the file (SIGBUS), the bound of a loop of the model reached *)
Inductive fres (A : Type) := FVal (a : A) | FErr | FBus | FFuel.
Arguments FVal {A}. Arguments FErr {A}. Arguments FBus {A}. Arguments FFuel {A}.

(** memcmp(a, b, n) != 0 for two ranges of n bytes *)
Fixpoint differ (a b : bytes) : bool :=
  match a, b with
  | x :: a', y :: b' => negb (x =? y)%N || differ a' b'
  | _, _ => false
  end.

(** apr_file_read on an unbuffered file: one read(2), which returns at least one byte and
    at most the number asked for, or end of file, or an error.  [o] is the choice of the
    system: how many bytes, or [None] for an error.  A read of zero bytes succeeds. *)
Inductive rd := RData (d rest : bytes) | REof | RErr.
Definition file_read (o : option nat) (n : nat) (c : bytes) : rd :=
  match n with
  | O => RData [] c
  | S _ =>
    match o with
    | None => RErr
    | Some k =>
      match c with
      | [] => REof
      | _ => let m := Nat.max 1 (Nat.min k n) in RData (firstn m c) (skipn m c)
      end
    end
  end.

(** apr_mmap_create over the first [size] bytes and the bytes then seen through the map:
    the rest of the last page reads as zero, a page behind the end of the file raises
    SIGBUS.  [ok = false]: the call fails; it fails for a size of zero. *)
Definition PAGE : N := 4096.
Definition map_view (size : N) (c : bytes) : option bytes :=
  let len := N.of_nat (length c) in
  if (size <=? len)%N then Some (firstn (N.to_nat size) c)
  else if (size <=? (len + (PAGE - 1)) / PAGE * PAGE)%N then Some (c ++ repeat 0%N (N.to_nat (size - len)))
  else None.

Section File.
Variable huge : nat.   (* HUGE_LEN, ft_file.c:43 *)

(** The loop of big_filecmp, ft_file.c:250-258.  [o1 i], [o2 i]: the reads of round [i];
    [r]: *result_out.  After the loop: lines 260-264 return status1, an error unless
    status1 is APR_SUCCESS (then the unequal byte counts ended the loop). *)
Fixpoint big_loop (fuel i : nat) (o1 o2 : nat -> option nat) (r : bool) (c1 c2 : bytes) : fres bool :=
  match fuel with
  | O => FFuel
  | S fu =>
    match file_read (o1 i) huge c1 with
    | RData d1 r1 =>
      match file_read (o2 i) (length d1) c2 with
      | RData d2 r2 =>
          if length d2 =? length d1 then
            let res := differ d1 d2 in
            if res then FVal true else big_loop fu (S i) o1 o2 res r1 r2
          else FVal r          (* both read, counts differ: status1 is APR_SUCCESS *)
      | REof => FVal r
      | RErr => FVal r         (* status1 is APR_SUCCESS in any case *)
      end
    | REof =>
      (* rbytes1 is 0: the second read asks for nothing and succeeds *)
      FVal r
    | RErr =>
      (* rbytes1 is 0 as well (apr_file_read clears it); status2 is APR_SUCCESS *)
      if r then FVal r else FErr
    end
  end.

(** big_filecmp, ft_file.c:220-283.  [r0]: value of *result_out before the call *)
Definition big_filecmp (o1 o2 : nat -> option nat) (r0 : bool) (f1 f2 : option bytes) (size : N) : fres bool :=
  if (size =? 0)%N then FVal false
  else match f1, f2 with
       | Some c1, Some c2 => big_loop (S (length c1)) 0 o1 o2 r0 c1 c2
       | _, _ => FErr
       end.

(** small_filecmp, ft_file.c:146-218.  [m1], [m2]: whether the two maps can be made *)
Definition small_filecmp (m1 m2 : bool) (o1 o2 : nat -> option nat) (r0 : bool) (f1 f2 : option bytes) (size : N) : fres bool :=
  if (size =? 0)%N then FVal false
  else match f1 with
       | None => FErr
       | Some c1 =>
         if m1 then
           match f2 with
           | None => FErr
           | Some c2 =>
             if m2 then
               match map_view size c1, map_view size c2 with
               | Some a, Some b => FVal (differ a b)
               | _, _ => FBus
               end
             else big_filecmp o1 o2 r0 f1 f2 size
           end
         else big_filecmp o1 o2 r0 f1 f2 size
       end.

(** filecmp, ft_file.c:285-292 *)
Definition filecmp (excess : N) (m1 m2 : bool) (o1 o2 : nat -> option nat) (r0 : bool) (f1 f2 : option bytes) (size : N) : fres bool :=
  if (size <? excess)%N then small_filecmp m1 m2 o1 o2 r0 f1 f2 size
  else big_filecmp o1 o2 r0 f1 f2 size.

(** XXH3_128bits is a parameter; XXH3_128bits_update and _digest are taken to hash the
    concatenation of the chunks. *)
Variable xxh : bytes -> N.

(** the loop of checksum_big_file, ft_file.c:104-115 *)
Fixpoint sum_loop (fuel i : nat) (o : nat -> option nat) (acc c : bytes) : fres N :=
  match fuel with
  | O => FFuel
  | S fu =>
    match file_read (o i) huge c with
    | RData d rest => sum_loop fu (S i) o (acc ++ d) rest
    | REof => FVal (xxh acc)
    | RErr => FErr
    end
  end.
(** checksum_big_file, ft_file.c:82-135 *)
Definition checksum_big_file (o : nat -> option nat) (f : option bytes) : fres N :=
  match f with
  | None => FErr
  | Some c => sum_loop (S (length c)) 0 o [] c
  end.
(** checksum_small_file, ft_file.c:45-80; mapping zero bytes fails *)
Definition checksum_small_file (m : bool) (o : nat -> option nat) (f : option bytes) (size : N) : fres N :=
  match f with
  | None => FErr
  | Some c =>
    if m && negb (size =? 0)%N then
      match map_view size c with Some v => FVal (xxh v) | None => FBus end
    else checksum_big_file o f
  end.
(** checksum_file, ft_file.c:137-144 *)
Definition checksum_file (excess : N) (m : bool) (o : nat -> option nat) (f : option bytes) (size : N) : fres N :=
  if (size <? excess)%N then checksum_small_file m o f size else checksum_big_file o f.
End File.

(** HUGE_LEN, ft_file.c:43 *)
Definition HUGE_LEN : N := 64 * 1024.
