(** Byte-level model of one database page and of the page functions of
    /repo/src/napr_db_tree.c.  A page is its 4096 bytes, given as a function from
    byte offset to byte; every access of the C code outside [0, 4096) is the
    distinct outcome [UB].  Numbers are [N]; the C [uint16_t] wrap is explicit
    ([u16]). *)
From Verif Require Import Util.
Local Open Scope N_scope.

(** APR status codes used by the modelled functions. *)
Inductive status := NOTFOUND | EINVAL | ENOSPC | EEXIST | EGENERAL | EACCES | ENOMEM | INCOMPLETE.

(** Outcome of a call: a value, an error status, undefined behaviour
    (out-of-page access), or an exhausted loop bound. *)
Inductive res (T : Type) : Type := Ok (x : T) | Err (e : status) | UB | Fuel.
Arguments Ok {T} x. Arguments Err {T} e. Arguments UB {T}. Arguments Fuel {T}.

Definition bindr {T U} (r : res T) (k : T -> res U) : res U :=
  match r with Ok x => k x | Err e => Err e | UB => UB | Fuel => Fuel end.
Notation "'do' x <- r ;; k" := (bindr r (fun x => k)) (at level 200, x pattern, right associativity).

(** ** Bytes *)
Definition bytes := list N.
Definition page := N -> N.                       (* offset -> byte *)

Definition PAGE_SIZE : N := 4096.                (* napr_db_internal.h:128 *)
Definition HDR : N := 18.                        (* sizeof(DB_PageHeader), napr_db_internal.h:89, 180-191 *)
Definition LEAF_BASE : N := 4.                   (* napr_db_internal.h:115 *)
Definition BRANCH_BASE : N := 10.                (* napr_db_internal.h:109 *)
Definition P_BRANCH : N := 1.                    (* napr_db_internal.h:141 *)
Definition P_LEAF : N := 2.                      (* napr_db_internal.h:144 *)

Definition u16 (x : N) : N := x mod 65536.       (* conversion to uint16_t *)
Definition sub16 (x y : N) : N := (x + 65536 - y mod 65536) mod 65536.   (* uint16_t subtraction *)

Definition blen (b : bytes) : N := N.of_nat (length b).

(** little-endian encoding, napr_db_internal.h:156 *)
Fixpoint le_bytes (n : nat) (v : N) : bytes :=
  match n with O => [] | S m => v mod 256 :: le_bytes m (v / 256) end.
Fixpoint le_val (b : bytes) : N :=
  match b with [] => 0 | x :: t => x mod 256 + 256 * le_val t end.

(** memory read, write, and memcpy/memmove of [n] bytes *)
Definition readn (p : page) (o : N) (n : nat) : bytes := map (fun i => p (o + N.of_nat i)) (seq 0 n).
Definition writeb (p : page) (o : N) (b : bytes) : page :=
  fun i => if (o <=? i) && (i <? o + blen b) then nth (N.to_nat (i - o)) b 0 else p i.
Definition copyb (dst : page) (doff : N) (src : page) (soff n : N) : page :=
  fun i => if (doff <=? i) && (i <? doff + n) then src (i - doff + soff) else dst i.

Definition get16 (p : page) (o : N) : N := le_val (readn p o 2).
Definition put16 (p : page) (o v : N) : page := writeb p o (le_bytes 2 v).
Definition get64 (p : page) (o : N) : N := le_val (readn p o 8).
Definition put64 (p : page) (o v : N) : page := writeb p o (le_bytes 8 v).

(** ** Header fields, napr_db_internal.h:180-191 *)
Definition pg_pgno (p : page) : N := get64 p 0.
Definition pg_flags (p : page) : N := get16 p 8.
Definition pg_nkeys (p : page) : N := get16 p 10.
Definition pg_lower (p : page) : N := get16 p 12.
Definition pg_upper (p : page) : N := get16 p 14.
Definition is_leaf (p : page) : bool := negb (N.land (pg_flags p) P_LEAF =? 0).
Definition is_branch (p : page) : bool := negb (N.land (pg_flags p) P_BRANCH =? 0).

(** slot array, napr_db_internal.h:378-394 *)
Definition slot_addr (i : N) : N := HDR + 2 * i.
Definition slot (p : page) (i : N) : N := get16 p (slot_addr i).

(** page buffer fresh from apr_pcalloc, then initialised as in
    napr_db_tree.c:591-596, 722-727 and napr_db.c:1406-1410, 1653-1657 *)
Definition zero_page : page := fun _ => 0.
Definition init_page (pgno flags : N) : page :=
  put16 (put16 (put16 (put64 zero_page 0 pgno) 8 flags) 12 HDR) 14 PAGE_SIZE.

(** ** Nodes *)
(** napr_db_internal.h:202-266: raw bytes of a leaf and of a branch node *)
Definition leaf_node_bytes (k v : bytes) : bytes := le_bytes 2 (blen k) ++ le_bytes 2 (blen v) ++ k ++ v.
Definition branch_node_bytes (k : bytes) (child : N) : bytes := le_bytes 8 child ++ le_bytes 2 (blen k) ++ k.

(** size of the node at offset [o], napr_db_tree.c:498, 502, 607, 742 (before the uint16_t cast) *)
Definition node_size (leaf : bool) (p : page) (o : N) : N :=
  if leaf then LEAF_BASE + get16 p o + get16 p (o + 2) else BRANCH_BASE + get16 p (o + 8).
Definition node_base (leaf : bool) : N := if leaf then LEAF_BASE else BRANCH_BASE.
(** key of the node at offset [o] (db_leaf_node_key / db_branch_node_key, key_size field) *)
Definition node_ksize (leaf : bool) (p : page) (o : N) : N := if leaf then get16 p o else get16 p (o + 8).
Definition node_key (leaf : bool) (p : page) (o : N) : bytes :=
  readn p (o + node_base leaf) (N.to_nat (node_ksize leaf p o)).
Definition leaf_val (p : page) (o : N) : bytes :=
  readn p (o + LEAF_BASE + get16 p o) (N.to_nat (get16 p (o + 2))).
Definition branch_child (p : page) (o : N) : N := get64 p o.

(** header and key of a node inside the page? *)
Definition key_in_page (leaf : bool) (p : page) (o : N) : bool :=
  (o + node_base leaf <=? PAGE_SIZE) && (o + node_base leaf + node_ksize leaf p o <=? PAGE_SIZE).
Definition slot_in_page (i : N) : bool := slot_addr i + 2 <=? PAGE_SIZE.

(** ** db_key_compare, napr_db_tree.c:25-44 *)
(** memcmp on the first [n] bytes *)
Fixpoint memcmp (n : nat) (a b : bytes) : comparison :=
  match n, a, b with
  | S m, x :: a', y :: b' => match x ?= y with Eq => memcmp m a' b' | c => c end
  | _, _, _ => Eq
  end.
Definition key_compare (k1 k2 : bytes) : comparison :=
  let min_size := if Nat.ltb (length k1) (length k2) then length k1 else length k2 in
  match memcmp min_size k1 k2 with
  | Eq => if Nat.ltb (length k1) (length k2) then Lt
          else if Nat.ltb (length k2) (length k1) then Gt else Eq
  | c => c
  end.

(** [(uint16_t) key->size] bytes of the caller's key, napr_db_tree.c:94, 100 *)
Definition key16 (k : bytes) : bytes := firstn (N.to_nat (u16 (blen k))) k.

(** ** db_page_search, napr_db_tree.c:67-131 *)
Fixpoint search_loop (fuel : nat) (p : page) (k : bytes) (left right : N) : res (bool * N) :=
  match fuel with
  | O => Fuel
  | S f =>
    if left <? right then
      let mid := u16 (left + (right - left) / 2) in
      if is_branch p || is_leaf p then
        let leaf := negb (is_branch p) in       (* P_BRANCH is tested first, line 90 *)
        if slot_in_page mid && key_in_page leaf p (slot p mid) then
          match key_compare (key16 k) (node_key leaf p (slot p mid)) with
          | Eq => Ok (true, mid)
          | Lt => search_loop f p k left mid
          | Gt => search_loop f p k (u16 (mid + 1)) right
          end
        else UB
      else Err EINVAL
    else Ok (false, left)
  end.

(** [Ok (true, i)] is APR_SUCCESS with *index_out = i; [Ok (false, i)] is APR_NOTFOUND. *)
Definition page_search (p : page) (k : bytes) : res (bool * N) :=
  if pg_nkeys p =? 0 then Ok (false, 0)
  else search_loop (S (N.to_nat (pg_nkeys p))) p k 0 (pg_nkeys p).

(** ** db_page_insert, napr_db_tree.c:398-467 *)
Definition page_insert (p : page) (index : N) (k : bytes) (data : option bytes) (child : N) : res page :=
  do node <- (if is_leaf p then
                match data with
                | None => Err EINVAL                                  (* line 413 *)
                | Some d => Ok (leaf_node_bytes k d, u16 (LEAF_BASE + blen k + blen d))
                end
              else if is_branch p then Ok (branch_node_bytes k child, u16 (BRANCH_BASE + blen k))
              else Err EINVAL) ;;
  let '(raw, size) := node in
  let nk := pg_nkeys p in
  let free := sub16 (pg_upper p) (pg_lower p) in                      (* line 427 *)
  if free <? size + 2 then Err ENOSPC
  else
    (* lines 436-438: slots [index, nk) move up by one; highest slot written below *)
    if slot_in_page (N.max nk index) then
      let p1 := if index <? nk
                then copyb p (slot_addr (index + 1)) p (slot_addr index) (2 * (nk - index))
                else p in
      let off := sub16 (pg_upper p) size in                           (* line 441 *)
      (* lines 444-456: the true (not wrapped) number of bytes is stored *)
      if off + blen raw <=? PAGE_SIZE then
        let p2 := writeb p1 off raw in
        let p3 := put16 p2 (slot_addr index) off in                   (* line 459 *)
        let p4 := put16 p3 10 (u16 (nk + 1)) in                       (* lines 462-464 *)
        let p5 := put16 p4 12 (u16 (pg_lower p + 2)) in
        Ok (put16 p5 14 off)
      else UB
    else UB.

(** ** db_page_delete, napr_db_tree.c:481-535 *)
(** loop of lines 522-526 *)
Fixpoint adjust_slots (n : nat) (p : page) (off size : N) : page :=
  match n with
  | O => p
  | S m =>
    let p' := adjust_slots m p off size in
    let s := slot p' (N.of_nat m) in
    if s <? off then put16 p' (slot_addr (N.of_nat m)) (u16 (s + size)) else p'
  end.

Definition page_delete (p : page) (index : N) : res page :=
  let nk := pg_nkeys p in
  if nk <=? index then Err EINVAL
  else if is_leaf p || is_branch p then
    let leaf := is_leaf p in
    if slot_in_page (nk - 1) && (slot p index + node_base leaf <=? PAGE_SIZE) then
      let off := slot p index in
      let size := u16 (node_size leaf p off) in
      let upper := pg_upper p in
      (* lines 509-511: slots (index, nk) move down by one *)
      let p1 := copyb p (slot_addr index) p (slot_addr (index + 1)) (2 * (nk - 1 - index)) in
      do p2 <- (if upper <? off then
                  (* lines 516-526 *)
                  let mv := off - upper in
                  if upper + size + mv <=? PAGE_SIZE then
                    Ok (adjust_slots (N.to_nat (nk - 1)) (copyb p1 (upper + size) p1 upper mv) off size)
                  else UB
                else Ok p1) ;;
      let p3 := put16 p2 10 (u16 (nk - 1)) in
      let p4 := put16 p3 12 (sub16 (pg_lower p) 2) in
      Ok (put16 p4 14 (u16 (upper + size)))
    else UB
  else Err EINVAL.

(** ** The page part of db_split_leaf / db_split_branch, napr_db_tree.c:598-647, 729-794 *)
(** loop of lines 605-626 / 740-761: [n] entries starting at index [idx] are
    appended to the right page (right_idx counts up from [ri]) *)
Fixpoint split_copy (n : nat) (leaf : bool) (left right : page) (idx ri : N) : res page :=
  match n with
  | O => Ok right
  | S m =>
    if slot_in_page idx && (slot left idx + node_base leaf <=? PAGE_SIZE) then
      let src := slot left idx in
      let size := u16 (node_size leaf left src) in
      let off := sub16 (pg_upper right) size in
      if (src + size <=? PAGE_SIZE) && (off + size <=? PAGE_SIZE) && slot_in_page ri then
        let r1 := copyb right off left src size in
        let r2 := put16 r1 (slot_addr ri) off in
        let r3 := put16 r2 10 (u16 (pg_nkeys right + 1)) in
        let r4 := put16 r3 12 (u16 (pg_lower right + 2)) in
        let r5 := put16 r4 14 off in
        split_copy m leaf left r5 (idx + 1) (ri + 1)
      else UB
    else UB
  end.

(** loop of lines 639-646 / 782-789 *)
Fixpoint min_offset (n : nat) (p : page) : N :=
  match n with
  | O => PAGE_SIZE
  | S m => N.min (min_offset m p) (slot p (N.of_nat m))
  end.

(** returns the shrunk left page and the new right page *)
Definition split_page (leaf : bool) (left : page) (right_pgno : N) : res (page * page) :=
  let nk := pg_nkeys left in
  let sp := nk / 2 in
  do r <- split_copy (N.to_nat (nk - sp)) leaf left
                (init_page right_pgno (if leaf then P_LEAF else P_BRANCH)) sp 0 ;;
  let l1 := put16 left 10 sp in
  let l2 := put16 l1 12 (u16 (HDR + 2 * sp)) in
  Ok (put16 l2 14 (min_offset (N.to_nat sp) left), r).

(** key of entry 0, as read for the divider (lines 658-660, 800-802) and for
    left_min_key (napr_db.c:1664-1673) *)
Definition first_key (leaf : bool) (p : page) : res bytes :=
  if key_in_page leaf p (slot p 0) then Ok (node_key leaf p (slot p 0)) else UB.
