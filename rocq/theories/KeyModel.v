(** Model of the callbacks that the program hands to its hash tables (/repo/src/key_hash.c,
    /repo/src/ftwin.c:60-72, /repo/src/napr_hash.c:37-60) and of the hash function behind them
    (/repo/src/vendor/xxhash/xxhash.h:2560-2806).  apr_off_t is a signed 64-bit number, gid_t an
    unsigned 32-bit one; the machine is little-endian. *)
From Verif Require Import Util HeapModel PageModel HashModel.
Local Open Scope N_scope.

(** * XXH32 *)

(** xxhash.h:2560-2564 *)
Definition P1 : N := 2654435761.
Definition P2 : N := 2246822519.
Definition P3 : N := 3266489917.
Definition P4 : N := 668265263.
Definition P5 : N := 374761393.
(** arithmetic of xxh_u32 and XXH_rotl32 *)
Definition add32 (a b : N) : N := (a + b) mod 2 ^ 32.
Definition mul32 (a b : N) : N := (a * b) mod 2 ^ 32.
Definition rotl32 (x r : N) : N := N.lor (N.shiftl x r mod 2 ^ 32) (N.shiftr x (32 - r)).
Definition xorshift (x k : N) : N := N.lxor x (N.shiftr x k).

(** XXH32_round, xxhash.h:2585-2590 *)
Definition round32 (acc input : N) : N := mul32 (rotl32 (add32 acc (mul32 input P2)) 13) P1.
(** XXH32_avalanche, xxhash.h:2642-2650 *)
Definition avalanche (h : N) : N :=
  xorshift (mul32 (xorshift (mul32 (xorshift h 15) P2) 13) P3) 16.
(** XXH_PROCESS1 and XXH_PROCESS4, xxhash.h:2672-2681 *)
Definition process1 (h b : N) : N := mul32 (rotl32 (add32 h (mul32 b P5)) 11) P1.
Definition process4 (h w : N) : N := mul32 (rotl32 (add32 h (mul32 w P3)) 17) P4.
(** XXH32_finalize, xxhash.h:2670-2740 *)
Fixpoint finalize (h : N) (b : bytes) : N :=
  match b with
  | b0 :: b1 :: b2 :: b3 :: r => finalize (process4 h (le_val [b0; b1; b2; b3])) r
  | _ => avalanche (fold_left process1 b h)
  end.
(** the loop of XXH32_endian_align, xxhash.h:2773-2778; [n] rounds of 16 bytes *)
Fixpoint stripes (n : nat) (v : N * N * N * N) (b : bytes) : N * N * N * N * bytes :=
  match n with
  | O => (v, b)
  | S m =>
    let '(v1, v2, v3, v4) := v in
    let w i := le_val (firstn 4 (skipn (4 * i) b)) in
    stripes m (round32 v1 (w 0%nat), round32 v2 (w 1%nat), round32 v3 (w 2%nat), round32 v4 (w 3%nat)) (skipn 16 b)
  end.
(** XXH32 with seed 0, xxhash.h:2758-2806 *)
Definition xxh32 (b : bytes) : N :=
  let len := blen b mod 2 ^ 32 in
  if Nat.leb 16 (length b) then
    let '(v1, v2, v3, v4, r) := stripes (length b / 16) (add32 P1 P2, P2, 0, 2 ^ 32 - P1) b in
    finalize (add32 (add32 (add32 (add32 (rotl32 v1 1) (rotl32 v2 7)) (rotl32 v3 12)) (rotl32 v4 18)) len) r
  else finalize (add32 P5 len) b.

(** * File sizes *)

(** the eight bytes of an apr_off_t *)
Definition off_bytes (x : Z) : bytes := le_bytes 8 (Z.to_N (x mod 2 ^ 64)).
(** apr_off_t_key_hash, key_hash.c:14-18 *)
Definition off_hash (x : Z) : N := xxh32 (off_bytes x).
(** apr_off_t_key_cmp, key_hash.c:20-31 *)
Definition off_cmp (x y : Z) : Z := if (x =? y)%Z then 0%Z else if (x <? y)%Z then (-1)%Z else 1%Z.
(** the test of napr_hash.c:197-198 with ft_fsize_get_key_len, key_hash.c:9-12: both lengths are 8 *)
Definition off_keq (x y : Z) : bool := (8 =? 8) && (off_cmp x y =? 0)%Z.
(** ft_fsize_t and ft_fsize_get_key, ftwin.c:60-65: the key is the field val; the rest of the
    structure is the second component *)
Definition fsize := (Z * N)%type.
Definition fsize_key (x : fsize) : Z := fst x.
(** conf->sizes, ft_config.c:219-220, 232-241 *)
Definition sizes_make : htab fsize := hash_make 4096 8.
Definition sizes_run (fuel : nat) := @hash_run fsize Z fsize_key off_keq off_hash fuel.

(** * Groups *)

(** gid_t_key_hash, gid_t_key_cmp, key_hash.c:40-57 *)
Definition gid_hash (g : N) : N := xxh32 (le_bytes 4 g).
Definition gid_cmp (x y : N) : Z := if x =? y then 0%Z else if x <? y then (-1)%Z else 1%Z.
(** with ft_gid_get_key_len, key_hash.c:35-38 *)
Definition gid_keq (x y : N) : bool := (4 =? 4) && (gid_cmp x y =? 0)%Z.
(** ft_gid_t and ft_gids_get_key, ftwin.c:67-72; conf->gids, ft_config.c:243-247 *)
Definition gids_make : htab N := hash_make 4096 8.
Definition gids_run (fuel : nat) := @hash_run N N (fun g => g) gid_keq gid_hash fuel.

(** * Names *)

(** memcmp: the sign of the first difference within [n] bytes *)
Fixpoint memcmp (n : nat) (a b : bytes) : Z :=
  match n, a, b with
  | S m, x :: a', y :: b' => if x =? y then memcmp m a' b' else if x <? y then (-1)%Z else 1%Z
  | _, _, _ => 0%Z
  end.
(** str_get_key, str_get_key_len, str_key_cmp, str_hash, napr_hash.c:37-60, with the test of
    napr_hash.c:197-198; a name is the bytes before the terminating zero *)
Definition str_keq (a b : bytes) : bool := Nat.eqb (length a) (length b) && (memcmp (length a) a b =? 0)%Z.
Definition str_hash (a : bytes) : N := xxh32 a.
(** napr_hash_str_make, napr_hash.c:101-113, as called at ft_config.c:230 *)
Definition names_make : htab bytes := hash_make 32 8.
Definition names_run (fuel : nat) := @hash_run bytes bytes (fun s => s) str_keq str_hash fuel.
