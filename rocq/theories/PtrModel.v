(** The pointers napr_db_get and napr_cache_lookup_in_txn hand out ("zero-copy",
    /repo/src/napr_db.c:1329-1370, /repo/src/napr_cache.c:291-329): where a value was found, to be
    read again later.  TxnModel.db_get and CacheModel.cache_lookup read the value at once.

    A page of the memory map is read through the map, so a commit that writes the page changes
    what is read.  A writable copy is a block of the transaction's pool.  The table dirty_pages is
    taken to keep the block that was stored first under a page number; this is so unless the
    allocator hands out a page number twice. *)
From Verif Require Import Util PageModel TxnModel CursorModel TreeModel DbModel CacheModel.
Local Open Scope N_scope.

Inductive place := InMap (pg : N) | InPool (pg : N).
(** napr_db_val_t with the address split into block and offset, napr_db.h:25-36 *)
Record ptr := mkPtr { p_at : place; p_off : N; p_len : N }.

(** db_get_page, napr_db_tree.c:143-157: which block holds page [pg] *)
Definition place_of (E : env) (t : txn) (pg : N) : place :=
  if t_rdonly t then InMap pg else match dget (t_dirty t) pg with Some _ => InPool pg | None => InMap pg end.

(** db_find_leaf_page_in_tree, napr_db_tree.c:172-238, with the page number as result *)
Fixpoint find_leaf_pg (fuel : nat) (E : env) (t : txn) (pg : N) (k : bytes) : res N :=
  match fuel with
  | O => Fuel
  | S f =>
    let p := get_page E t pg in
    if is_leaf p then Ok pg
    else if negb (is_branch p) then Err EINVAL
    else do c <- child_of p k ;; find_leaf_pg f E t c k
  end.

(** napr_db_get, napr_db.c:1329-1370 *)
Definition get_ptr (E : env) (t : txn) (k : bytes) : res ptr :=
  if t_root t =? 0 then Err NOTFOUND
  else
    do pg <- find_leaf_pg FIND_FUEL E t (t_root t) k ;;
    let leaf := get_page E t pg in
    do (found, i) <- page_search leaf k ;;
    if found then
      if slot_in_page i && key_in_page true leaf (slot leaf i) && (slot leaf i + node_size true leaf (slot leaf i) <=? PAGE_SIZE)
      then let o := slot leaf i in Ok (mkPtr (place_of E t pg) (o + LEAF_BASE + get16 leaf o) (get16 leaf (o + 2)))
      else UB
    else Err NOTFOUND.

(** the bytes behind the pointer, now; [None]: no such block *)
Definition deref (E : env) (t : txn) (p : ptr) : option bytes :=
  match p_at p with
  | InMap pg => Some (readn (e_file E pg) (p_off p) (N.to_nat (p_len p)))
  | InPool pg => match dget (t_dirty t) pg with Some P => Some (readn P (p_off p) (N.to_nat (p_len p))) | None => None end
  end.

(** napr_cache_lookup_in_txn, napr_cache.c:291-329: the pointer, and the structure read through it *)
Definition lookup_ptr (c : cache) (path : bytes) : res ptr :=
  match c_active c with
  | None => Err EINVAL
  | Some t => do p <- get_ptr (c_env c) t path ;; if p_len p =? ENTRY_SIZE then Ok p else Err EGENERAL
  end.
Definition entry_at (c : cache) (p : ptr) : option entry :=
  match c_active c with
  | Some t => match deref (c_env c) t p with Some b => Some (entry_of b) | None => None end
  | None => None
  end.
