(** Model of page allocation, copy-on-write, put, del and the Free DB functions of
    /repo/src/napr_db_tree.c and /repo/src/napr_db.c.  Allocation failure of the
    APR pools (APR_ENOMEM) is not modelled. *)
From Verif Require Import Util PageModel TxnModel CursorModel.
Local Open Scope N_scope.

(** Outcome of an operation on a transaction: the transaction is kept on failure,
    because the C code leaves its partial effects in place. *)
Inductive out (T : Type) := Ret (x : T) (t : txn) | Fail (e : status) (t : txn) | Bad | NoFuel.
Arguments Ret {T} x t. Arguments Fail {T} e t. Arguments Bad {T}. Arguments NoFuel {T}.

Definition bindo {T U} (o : out T) (k : T -> txn -> out U) : out U :=
  match o with Ret x t => k x t | Fail e t => Fail e t | Bad => Bad | NoFuel => NoFuel end.
Notation "'run' x , t <- o ;; k" := (bindo o (fun x t => k)) (at level 200, x pattern, t name, right associativity).
(** a computation that does not change the transaction *)
Definition lift {T} (t : txn) (r : res T) : out T :=
  match r with Ok x => Ret x t | Err e => Fail e t | UB => Bad | Fuel => NoFuel end.

(** db_page_get_writable, napr_db_tree.c:320-376; returns the dirty_pages key of
    the writable copy.  The page number comes from the page's own header. *)
Definition get_writable (t : txn) (p : page) : out N :=
  if t_rdonly t then Fail EINVAL t
  else
    let pg := pg_pgno p in
    match dget (t_dirty t) pg with
    | Some _ => Ret pg t
    | None => Ret pg (set_freed (put_dirty t pg p) (t_freed t ++ [pg]))
    end.

(** one round of the CoW loop, napr_db.c:1484-1500, 859-872, 1888-1905 *)
Definition cow_page (E : env) (t : txn) (pg : N) : out N :=
  match dget (t_dirty t) pg with
  | Some _ => Ret pg t
  | None => get_writable t (e_file E pg)
  end.

(** the CoW loop, leaf first: the argument is the path from leaf to root *)
Fixpoint cow_path (E : env) (t : txn) (rpath : list N) : out unit :=
  match rpath with
  | [] => Ret tt t
  | pg :: r => run _, t1 <- cow_page E t pg ;; cow_path E t1 r
  end.

(** path[path_len - 1], the leaf *)
Definition leaf_of (path : list N) : N := last path 0.

(** page allocator, as used by everything below *)
Definition allocator := env -> txn -> out N.

(** db_split_leaf (napr_db_tree.c:553-666) / db_split_branch (684-821) on the dirty
    page stored under [lpg].  Returns the page number of the right page, the left
    and right pages, and the divider key.  The right page is stored after the left
    one: if the allocator handed out [lpg] itself, the table keeps the right page. *)
Definition split_node (al : allocator) (E : env) (t : txn) (leaf : bool) (lpg : N)
  : out (N * page * page * bytes) :=
  match dget (t_dirty t) lpg with
  | None => Bad
  | Some l0 =>
    if negb (if leaf then is_leaf l0 else is_branch l0) then Fail EINVAL t
    else if t_rdonly t then Fail EINVAL t
    else
      run rpg, t1 <- al E t ;;
      match dget (t_dirty t1) lpg with
      | None => Bad
      | Some l1 =>
        (* the allocator may have replaced the page: then the C code goes on with a
           buffer that is no longer in the table; not modelled *)
        if negb (if leaf then is_leaf l1 else is_branch l1) then Bad else
        run (l, r), t2 <- lift t1 (split_page leaf l1 rpg) ;;
        let t3 := put_dirty t2 lpg l in
        if negb leaf && (pg_nkeys r =? 0) then Fail EGENERAL t3          (* lines 804-807 *)
        else
          let t4 := put_dirty t3 rpg r in
          run d, t5 <- lift t4 (first_key leaf r) ;;
          Ret (rpg, l, r, d) t5
      end
  end.

(** insertion after a split, napr_db.c:1556-1565, 1609-1616 (and 895-902, 1742-1749):
    the entry goes to the right page iff the search ends behind the left page's last key.
    A write to the left page reaches the table unless its entry was replaced. *)
Definition insert_split (t : txn) (lpg rpg : N) (l r : page) (k : bytes) (data : option bytes) (child : N)
  : out unit :=
  run (found, i), t1 <- lift t (page_search l k) ;;
  if negb found && (pg_nkeys l <=? i) then
    run (_, j), t2 <- lift t1 (page_search r k) ;;
    run r', t3 <- lift t2 (page_insert r j k data child) ;;
    Ret tt (put_dirty t3 rpg r')
  else
    run l', t2 <- lift t1 (page_insert l i k data child) ;;
    Ret tt (if lpg =? rpg then t2 else put_dirty t2 lpg l').

(** propagate_split_up_tree, napr_db.c:1582-1633 (propagate_split_up_tree_in_tree,
    1710-1761, has the same body).  The argument lists the parents from the leaf's
    parent up to the root.  [None]: absorbed (APR_INCOMPLETE); [Some (k, r)]: the
    root itself was split, [r] being the new right page. *)
Fixpoint propagate (al : allocator) (E : env) (t : txn) (parents : list N) (k : bytes) (rpg : N)
  : out (option (bytes * N)) :=
  match parents with
  | [] => Ret (Some (k, rpg)) t
  | pp :: rest =>
    match dget (t_dirty t) pp with
    | None => Fail EGENERAL t
    | Some p =>
      run (_, i), t1 <- lift t (page_search p k) ;;
      match page_insert p i k None rpg with
      | Ok p' => Ret None (put_dirty t1 pp p')
      | Err ENOSPC =>
        run (rpg2, l, r, d), t2 <- split_node al E t1 false pp ;;
        run _, t3 <- insert_split t2 pp rpg2 l r k None rpg ;;
        propagate al E t3 rest d (pg_pgno r)
      | Err e => Fail e t1
      | UB => Bad
      | Fuel => NoFuel
      end
    end
  end.

(** handle_root_split, napr_db.c:1635-1695 (handle_root_split_in_tree, 1776-1837).
    Returns the new root; the caller stores it. *)
Definition root_split (al : allocator) (E : env) (t : txn) (old_root rpg : N) (d : bytes) : out N :=
  run new, t1 <- al E t ;;
  match dget (t_dirty t1) old_root with
  | None => Fail EGENERAL t1
  | Some p =>
    run lk, t2 <- lift t1 (first_key (negb (is_branch p)) p) ;;
    run n1, t3 <- lift t2 (page_insert (init_page new P_BRANCH) 0 lk None old_root) ;;
    run n2, t4 <- lift t3 (page_insert n1 1 d None rpg) ;;
    Ret new (put_dirty t4 new n2)
  end.

(** handle_page_split, napr_db.c:1542-1580, and its copy in insert_into_free_db,
    887-920.  Returns the new root, if the root was split. *)
Definition leaf_split (al : allocator) (E : env) (t : txn) (path : list N) (lpg : N) (k v : bytes)
  : out (option N) :=
  run (rpg, l, r, d), t1 <- split_node al E t true lpg ;;
  run _, t2 <- insert_split t1 lpg rpg l r k (Some v) 0 ;;
  run up, t3 <- propagate al E t2 (tl (rev path)) d (pg_pgno r) ;;
  match up with
  | None => Ret None t3
  | Some (d', rpg') => run new, t4 <- root_split al E t3 (hd 0 path) rpg' d' ;; Ret (Some new) t4
  end.

(** handle_empty_tree_put, napr_db.c:1387-1430, and initialize_empty_free_db,
    794-835: a new root leaf with one entry.  Returns its page number. *)
Definition new_root_leaf (al : allocator) (E : env) (t : txn) (k v : bytes) : out N :=
  run new, t1 <- al E t ;;
  run p, t2 <- lift t1 (page_insert (init_page new P_LEAF) 0 k (Some v) 0) ;;
  Ret new (put_dirty t2 new p).

(** key under which the writable copy of the leaf is stored after the CoW loop *)
Definition leaf_key (E : env) (t : txn) (lpg : N) : N :=
  match dget (t_dirty t) lpg with Some _ => lpg | None => pg_pgno (e_file E lpg) end.

(** napr_db_put, napr_db.c:1436-1540 *)
Definition db_put_with (al : allocator) (E : env) (t : txn) (k v : bytes) : out unit :=
  if t_rdonly t then Fail EACCES t
  else if t_root t =? 0 then
    run new, t1 <- new_root_leaf al E t k v ;; Ret tt (set_root t1 new)
  else
    run (path, leaf), t1 <- lift t (find_path MAX_TREE_DEPTH E t (t_root t) k) ;;
    let lpg := leaf_of path in
    run (found, i), t2 <- lift t1 (page_search leaf k) ;;
    if found && (match dget (t_dirty t2) lpg with Some _ => true | None => false end)
    then Fail EEXIST t2                                                   (* lines 1480-1487 *)
    else
      let lkey := leaf_key E t2 lpg in
      run _, t3 <- cow_path E t2 (rev path) ;;
      match dget (t_dirty t3) lkey with
      | None => Bad
      | Some p0 =>
        run p1, t4 <- (if found then
                         run p1, t4 <- lift t3 (page_delete p0 i) ;; Ret p1 (put_dirty t4 lkey p1)
                       else Ret p0 t3) ;;
        match page_insert p1 i k (Some v) 0 with
        | Ok p2 => Ret tt (put_dirty t4 lkey p2)
        | Err ENOSPC =>
          run new, t5 <- leaf_split al E t4 path lkey k v ;;
          Ret tt (match new with Some r => set_root t5 r | None => t5 end)
        | Err e => Fail e t4
        | UB => Bad
        | Fuel => NoFuel
        end
      end.

(** napr_db_del, napr_db.c:1856-1921; the [data] argument is ignored by the code *)
Definition db_del (E : env) (t : txn) (k : bytes) (data : option bytes) : out unit :=
  if t_rdonly t then Fail EINVAL t
  else if t_root t =? 0 then Fail NOTFOUND t
  else
    run (path, leaf), t1 <- lift t (find_path MAX_TREE_DEPTH E t (t_root t) k) ;;
    run (found, i), t2 <- (match page_search leaf k with
                           | Ok (true, i) => Ret (true, i) t1
                           | Ok (false, _) | Err _ => Fail NOTFOUND t1
                           | UB => Bad
                           | Fuel => NoFuel
                           end) ;;
    run _, t3 <- cow_path E t2 (rev path) ;;
    match dget (t_dirty t3) (leaf_of path) with
    | None => Fail EGENERAL t3
    | Some p => run p', t4 <- lift t3 (page_delete p i) ;; Ret tt (put_dirty t4 (leaf_of path) p')
    end.

(** db_get_oldest_reader_txnid, napr_db.c:450-479 *)
Definition oldest_reader (rs : list rslot) : N :=
  fold_left (fun acc s => if (0 <? s_txnid s) && ((acc =? 0) || (s_txnid s <? acc)) then s_txnid s else acc)
            rs 0.

(** 8-byte arrays of page numbers as stored in the Free DB (little endian) *)
Definition enc_pgnos (l : list N) : bytes := flat_map (le_bytes 8) l.

(** find_reclaimable_entry, napr_db.c:1019-1044; the cursor is returned too, since key
    and data are pointers into the page it stands on *)
Fixpoint reclaim_scan (fuel : nat) (E : env) (t : txn) (oldest : N) (r : cout (bytes * bytes))
  : res (bytes * bytes * cursor) :=
  match fuel with
  | O => Fuel
  | S f =>
    match r with
    | COk (k, d) c =>
      if (blen k =? 8) && (le_val k <? oldest) && (blen d mod 8 =? 0) && (0 <? blen d)
      then Ok (k, d, c)
      else reclaim_scan f E t oldest (cursor_get E t c NEXT)
    | CErr _ _ => Err NOTFOUND
    | CUB => UB
    | CFuel => Fuel
    end
  end.
Definition SCAN_FUEL : nat := N.to_nat 65536.

(** where the key found by the scan lies: page (named by the number in its header) and
    offset, napr_db_cursor.c:430-434 *)
Definition key_place (c : cursor) : N * N :=
  match c_stack c with (p, i) :: _ => (pg_pgno p, slot p i + LEAF_BASE) | [] => (0, 0) end.

(** The 8 bytes at offset [o] after db_page_insert has written the two size fields of a
    new leaf node with a value of [n] bytes, napr_db_tree.c:441-447.  (The slots it moves
    before that lie below the node data.) *)
Definition new_node_at (p : page) (n : N) : N := sub16 (pg_upper p) (u16 (LEAF_BASE + 8 + n)).
Definition bytes_after_sizes (p : page) (n o : N) : bytes :=
  readn (writeb p (new_node_at p n) (le_bytes 2 8 ++ le_bytes 2 n)) o 8.
(** does the memcpy of the key, napr_db_tree.c:448, have overlapping source and target? *)
Definition copy_overlaps (p : page) (n o : N) : bool :=
  (o <? new_node_at p n + LEAF_BASE + 8) && (new_node_at p n + LEAF_BASE <? o + 8).

(** napr_db_put, napr_db.c:1436-1540, with a key pointer that leads to offset [o] of the
    dirty page [q].  The key is whatever these 8 bytes are when they are read: the search
    reads them as the call begins, db_page_insert again after it has written the size
    fields of the new node.  If the entry goes to another page, or that page has to be
    split, the key is taken by value. *)
Definition put_aliased (put : env -> txn -> bytes -> bytes -> out unit)
    (E : env) (t : txn) (q o : N) (v : bytes) : out unit :=
  match dget (t_dirty t) q with
  | None => Bad
  | Some p =>
    let k := readn p o 8 in
    if t_rdonly t || (t_root t =? 0) then put E t k v
    else match find_path MAX_TREE_DEPTH E t (t_root t) k with
    | Ok (path, leaf) =>
      match page_search leaf k with
      | Ok (false, i) =>
        if leaf_of path =? q then
          if copy_overlaps p (blen v) o then Bad
          else match page_insert p i (bytes_after_sizes p (blen v) o) (Some v) 0 with
               | Ok p' => run _, t1 <- cow_path E t (rev path) ;; Ret tt (put_dirty t1 q p')
               | _ => put E t k v
               end
        else put E t k v
      | _ => put E t k v
      end
    | _ => put E t k v
    end
  end.

(** update_or_delete_reclaimed_entry, napr_db.c:1047-1072.  [place]: where the key lies.
    A page that was not dirty is copied by the deletion, and the pointer still leads to
    the map; a dirty page is edited in place, under the pointer. *)
Definition update_reclaimed (put : env -> txn -> bytes -> bytes -> out unit)
    (E : env) (t : txn) (k d : bytes) (place : N * N) : out unit :=
  if blen d / 8 =? 1 then db_del E t k None
  else
    run _, t1 <- db_del E t k None ;;
    match dget (t_dirty t) (fst place) with
    | None => put E t1 k (skipn 8 d)
    | Some _ => put_aliased put E t1 (fst place) (snd place) (skipn 8 d)
    end.

(** db_reclaim_page_from_free_db, napr_db.c:1084-1127 *)
Definition reclaim_with (put : env -> txn -> bytes -> bytes -> out unit) (E : env) (t : txn) : out N :=
  if t_free_root t =? 0 then Fail NOTFOUND t
  else
    let old := oldest_reader (e_readers E) in
    let oldest := if old =? 0 then t_id t else old in
    let tf := set_root t (t_free_root t) in
    match reclaim_scan SCAN_FUEL E tf oldest (cursor_get E tf cursor_open FIRST) with
    | Ok (k, d, c) =>
      let pg := le_val (firstn 8 d) mod 2 ^ 64 in                 (* pgno_t is 64 bits wide *)
      match update_reclaimed put E tf k d (key_place c) with
      | Ret _ t' => Ret pg (set_root t' (t_root t))
      | Fail e t' => Fail e (set_root t' (t_root t))
      | Bad => Bad
      | NoFuel => NoFuel
      end
    | Err e => Fail e t
    | UB => Bad
    | Fuel => NoFuel
    end.

(** db_page_alloc, napr_db_tree.c:272-302 *)
Definition alloc_with (reclaim : env -> txn -> out N) (E : env) (t : txn) (count : N) : out N :=
  if (count =? 0) || t_rdonly t then Fail EINVAL t
  else
    let extend t' := Ret (t_last t' + 1) (set_last t' (t_last t' + count)) in
    if count =? 1 then
      match reclaim E t with
      | Ret pg t' => Ret pg t'
      | Fail _ t' => extend t'
      | Bad => Bad
      | NoFuel => NoFuel
      end
    else extend t.

(** alloc -> reclaim -> put -> alloc is recursive in C; [fuel] bounds the nesting *)
Fixpoint alloc_fuel (fuel : nat) (E : env) (t : txn) : out N :=
  match fuel with
  | O => NoFuel
  | S f => alloc_with (reclaim_with (db_put_with (alloc_fuel f))) E t 1
  end.
Definition ALLOC_FUEL : nat := 16.
Definition page_alloc : allocator := alloc_fuel ALLOC_FUEL.
Definition db_put : env -> txn -> bytes -> bytes -> out unit := db_put_with page_alloc.

(** insert_into_free_db, napr_db.c:837-921; returns the new Free DB root *)
Definition insert_into_free_db (al : allocator) (E : env) (t : txn) (k v : bytes) : out N :=
  match find_path MAX_TREE_DEPTH E t (t_free_root t) k with
  | Err _ => new_root_leaf al E t k v
  | UB => Bad
  | Fuel => NoFuel
  | Ok (path, leaf) =>
    run (found, i), t2 <- lift t (page_search leaf k) ;;
    if found then Fail EEXIST t2
    else
      let lkey := leaf_key E t2 (leaf_of path) in
      run _, t3 <- cow_path E t2 (rev path) ;;
      match dget (t_dirty t3) lkey with
      | None => Bad
      | Some p =>
        match page_insert p i k (Some v) 0 with
        | Ok p' => Ret (hd 0 path) (put_dirty t3 lkey p')
        | Err ENOSPC =>
          run new, t5 <- leaf_split al E t3 path lkey k v ;;
          Ret (match new with Some r => r | None => hd 0 path end) t5
        | Err e => Fail e t3
        | UB => Bad
        | Fuel => NoFuel
        end
      end
  end.

(** populate_free_db, napr_db.c:923-950 *)
Definition populate_free_db (al : allocator) (E : env) (t : txn) : out N :=
  match t_freed t with
  | [] => Ret (t_free_root t) t
  | _ =>
    let k := le_bytes 8 (t_id t) in
    let v := enc_pgnos (t_freed t) in
    if (t_free_root t =? 0) || (max_pgno E t <? t_free_root t) then new_root_leaf al E t k v
    else insert_into_free_db al E t k v
  end.

(** db_page_alloc with any count, napr_db_tree.c:272-302 *)
Definition db_page_alloc (E : env) (t : txn) (count : N) : out N :=
  alloc_with (reclaim_with (db_put_with page_alloc)) E t count.
