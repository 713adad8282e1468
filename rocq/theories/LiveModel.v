(** The cursor of /repo/src/napr_db_cursor.c with the page pointers the C stack keeps
    (napr_db_internal.h:344-359).  CursorModel keeps the contents a page had when the cursor
    stepped on it; here every look at a page of the stack reads the page as it is then, so updates
    of the same transaction between two calls are seen where the C code sees them.  The places are
    those of PtrModel. *)
From Verif Require Import Util PageModel TxnModel CursorModel TreeModel DbModel CacheModel PtrModel.
Local Open Scope N_scope.

(** napr_db_cursor_t, napr_db_internal.h:344-359; head of the list = stack[top-1] *)
Record live := mkLive { v_stack : list (place * N); v_eof : bool }.
(** result of an operation that moves the cursor *)
Inductive lres (T : Type) := LOk (x : T) (c : live) | LErr (e : status) (c : live) | LUB | LFuel.
Arguments LOk {T} x c. Arguments LErr {T} e c. Arguments LUB {T}. Arguments LFuel {T}.

(** the page behind a pointer, now.  A page of the map is never written by the transaction itself
    (before its commit); a block of the pool is the one dirty_pages has for its number. *)
Definition page_at (E : env) (t : txn) (w : place) : page :=
  match w with
  | InMap pg => e_file E pg
  | InPool pg => match dget (t_dirty t) pg with Some p => p | None => e_file E pg end
  end.

(** napr_db_cursor_open, napr_db_cursor.c:36-66 *)
Definition live_open : live := mkLive [] false.
(** cursor_push, napr_db_cursor.c:83-90 *)
Definition lpush (st : list (place * N)) (w : place) (i : N) : list (place * N) :=
  if Nat.ltb (length st) MAX_TREE_DEPTH then (w, i) :: st else st.

(** descent loop of db_cursor_seek, napr_db_cursor.c:111-154 *)
Fixpoint lseek_down (fuel : nat) (E : env) (t : txn) (op : cop) (pg : N) (st : list (place * N)) : lres unit :=
  match fuel with
  | O => LFuel
  | S f =>
    let w := place_of E t pg in
    let p := page_at E t w in
    if is_leaf p then LOk tt (mkLive (lpush st w 0) false)
    else if negb (is_branch p) then LErr EGENERAL (mkLive st false)
    else match seek_index p op with
         | Ok i =>
           match child_at p i with
           | Ok c => lseek_down f E t op c (lpush st w i)
           | Err e => LErr e (mkLive st false)
           | UB => LUB
           | Fuel => LFuel
           end
         | Err e => LErr e (mkLive st false)
         | UB => LUB
         | Fuel => LFuel
         end
  end.

(** leaf part of db_cursor_seek, napr_db_cursor.c:156-192 *)
Definition lseek_leaf (E : env) (t : txn) (op : cop) (c : live) : lres unit :=
  match v_stack c with
  | [] => LUB
  | (w, _) :: rest =>
    let p := page_at E t w in
    let idx :=
      match op with
      | FIRST => Ok 0
      | LAST => Ok (if 0 <? pg_nkeys p then pg_nkeys p - 1 else 0)
      | SET k => do (found, i) <- page_search p k ;; if found then Ok i else Err NOTFOUND
      | SET_RANGE k =>
        do (_, i) <- page_search p k ;; if pg_nkeys p <=? i then Err NOTFOUND else Ok i
      | _ => Err EINVAL
      end in
    match idx with
    | Ok i => if pg_nkeys p =? 0 then LErr NOTFOUND (mkLive (v_stack c) true)
              else LOk tt (mkLive ((w, i) :: rest) false)
    | Err e => LErr e c
    | UB => LUB
    | Fuel => LFuel
    end
  end.

(** db_cursor_seek, napr_db_cursor.c:95-193 *)
Definition lseek (E : env) (t : txn) (op : cop) : lres unit :=
  if t_root t =? 0 then LErr NOTFOUND (mkLive [] true)
  else match lseek_down FIND_FUEL E t op (t_root t) [] with
       | LOk _ c => lseek_leaf E t op c
       | r => r
       end.

(** leftmost descent of db_cursor_next, napr_db_cursor.c:259-279 *)
Fixpoint ldescend_left (fuel : nat) (E : env) (t : txn) (pg : N) (st : list (place * N)) : lres unit :=
  match fuel with
  | O => LFuel
  | S f =>
    let w := place_of E t pg in
    let p := page_at E t w in
    let st' := lpush st w 0 in
    if is_leaf p then
      if pg_nkeys p =? 0 then LErr NOTFOUND (mkLive st' true) else LOk tt (mkLive st' false)
    else match child_at p 0 with
         | Ok c => ldescend_left f E t c st'
         | _ => LUB
         end
  end.

(** ascent of db_cursor_next, napr_db_cursor.c:246-288 *)
Fixpoint lascend_next (E : env) (t : txn) (st : list (place * N)) : lres unit :=
  match st with
  | [] => LErr NOTFOUND (mkLive [] true)
  | (w, i) :: rest =>
    let p := page_at E t w in
    let i' := u16 (i + 1) in
    if i' <? pg_nkeys p then
      match child_at p i' with
      | Ok c => ldescend_left FIND_FUEL E t c ((w, i') :: rest)
      | _ => LUB
      end
    else lascend_next E t rest
  end.

(** db_cursor_next, napr_db_cursor.c:213-289 *)
Definition lnext (E : env) (t : txn) (c : live) : lres unit :=
  match v_stack c with
  | [] => LErr NOTFOUND c
  | (w, i) :: rest =>
    if v_eof c then LErr NOTFOUND c
    else
      let p := page_at E t w in
      let i' := u16 (i + 1) in
      if i' <? pg_nkeys p then LOk tt (mkLive ((w, i') :: rest) false)
      else match rest with
           | [] => LErr NOTFOUND (mkLive [] true)
           | _ => lascend_next E t rest
           end
  end.

(** descend_rightmost, napr_db_cursor.c:309-336 *)
Fixpoint ldescend_right (fuel : nat) (E : env) (t : txn) (pg : N) (st : list (place * N)) : lres unit :=
  match fuel with
  | O => LFuel
  | S f =>
    let w := place_of E t pg in
    let p := page_at E t w in
    if pg_nkeys p =? 0 then LErr NOTFOUND (mkLive st true)
    else
      let i := pg_nkeys p - 1 in
      let st' := lpush st w i in
      if is_leaf p then LOk tt (mkLive st' false)
      else match child_at p i with
           | Ok c => ldescend_right f E t c st'
           | _ => LUB
           end
  end.

(** ascent of db_cursor_prev, napr_db_cursor.c:362-376 *)
Fixpoint lascend_prev (E : env) (t : txn) (st : list (place * N)) : lres unit :=
  match st with
  | [] => LErr NOTFOUND (mkLive [] true)
  | (w, i) :: rest =>
    let p := page_at E t w in
    if 0 <? i then
      match child_at p (i - 1) with
      | Ok c => ldescend_right FIND_FUEL E t c ((w, i - 1) :: rest)
      | _ => LUB
      end
    else lascend_prev E t rest
  end.

(** db_cursor_prev, napr_db_cursor.c:338-377 *)
Definition lprev (E : env) (t : txn) (c : live) : lres unit :=
  match v_stack c with
  | [] => LErr NOTFOUND c
  | (w, i) :: rest =>
    if v_eof c then LErr NOTFOUND c
    else if 0 <? i then LOk tt (mkLive ((w, i - 1) :: rest) false)
    else match rest with
         | [] => LErr NOTFOUND (mkLive [] true)
         | _ => lascend_prev E t rest
         end
  end.

(** napr_db_cursor_get, napr_db_cursor.c:382-443 *)
Definition lfetch (E : env) (t : txn) (c : live) : lres (bytes * bytes) :=
  match v_stack c with
  | [] => LErr NOTFOUND c
  | (w, i) :: _ =>
    let p := page_at E t w in
    if v_eof c then LErr NOTFOUND c
    else if pg_nkeys p <=? i then LErr NOTFOUND c
    else match leaf_value p i with
         | Ok v => LOk (node_key true p (slot p i), v) c
         | _ => LUB
         end
  end.
Definition live_get (E : env) (t : txn) (c : live) (op : cop) : lres (bytes * bytes) :=
  let moved :=
    match op with
    | NEXT => lnext E t c
    | PREV => lprev E t c
    | GET_CURRENT => LOk tt c
    | _ => lseek E t op
    end in
  match moved with
  | LOk _ c' => lfetch E t c'
  | LErr e c' => LErr e c'
  | LUB => LUB
  | LFuel => LFuel
  end.

(** A scan in which the pairs just returned are deleted unless they are in [keep]: the loop of
    napr_cache_sweep, napr_cache.c:437-473, where [keep] is the visited set.  The key handed to
    napr_db_del points into the page; napr_db_del does not use it after it has begun to change
    pages (napr_db.c:1856-1921).  [fuel]: number of iterations *)
Fixpoint live_sweep (fuel : nat) (E : env) (t : txn) (keep : list bytes) (r : lres (bytes * bytes)) : out unit :=
  match fuel with
  | O => NoFuel
  | S f =>
    match r with
    | LOk (k, _) c =>
      if visited keep k then live_sweep f E t keep (live_get E t c NEXT)
      else run _, t1 <- db_del E t k None ;; live_sweep f E t1 keep (live_get E t1 c NEXT)
    | LErr NOTFOUND _ => Ret tt t
    | LErr e _ => Fail e t
    | LUB => Bad
    | LFuel => NoFuel
    end
  end.
