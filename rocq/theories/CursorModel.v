(** Model of /repo/src/napr_db_cursor.c.  The cursor stack keeps page contents
    (the C stack keeps page pointers): pages reached through the map do not change
    while the transaction lives, so this is exact as long as the transaction does
    not modify a page that was already dirty when the cursor stepped on it. *)
From Verif Require Import Util PageModel TxnModel.
Local Open Scope N_scope.

(** napr_db_cursor_t, napr_db_internal.h:344-359; head of the list = stack[top-1] *)
Record cursor := mkCur { c_stack : list (page * N); c_eof : bool }.

(** result of an operation that moves the cursor *)
Inductive cout (T : Type) := COk (x : T) (c : cursor) | CErr (e : status) (c : cursor) | CUB | CFuel.
Arguments COk {T} x c. Arguments CErr {T} e c. Arguments CUB {T}. Arguments CFuel {T}.

(** napr_db_cursor_op_t *)
Inductive cop := FIRST | LAST | SET (k : bytes) | SET_RANGE (k : bytes) | NEXT | PREV | GET_CURRENT.

(** napr_db_cursor_open, napr_db_cursor.c:36-66 *)
Definition cursor_open : cursor := mkCur [] false.

(** cursor_push, napr_db_cursor.c:83-90 *)
Definition push (st : list (page * N)) (p : page) (i : N) : list (page * N) :=
  if Nat.ltb (length st) MAX_TREE_DEPTH then (p, i) :: st else st.

(** branch part of db_cursor_seek, napr_db_cursor.c:127-150 *)
Definition seek_index (p : page) (op : cop) : res N :=
  match op with
  | FIRST => Ok 0
  | LAST => Ok (sub16 (pg_nkeys p) 1)
  | SET k | SET_RANGE k => child_index p k
  | _ => Err EINVAL
  end.

(** descent loop of db_cursor_seek, napr_db_cursor.c:111-154 *)
Fixpoint seek_down (fuel : nat) (E : env) (t : txn) (op : cop) (pg : N) (st : list (page * N))
  : cout unit :=
  match fuel with
  | O => CFuel
  | S f =>
    let p := get_page E t pg in
    if is_leaf p then COk tt (mkCur (push st p 0) false)
    else if negb (is_branch p) then CErr EGENERAL (mkCur st false)
    else match seek_index p op with
         | Ok i =>
           match child_at p i with
           | Ok c => seek_down f E t op c (push st p i)
           | Err e => CErr e (mkCur st false)
           | UB => CUB
           | Fuel => CFuel
           end
         | Err e => CErr e (mkCur st false)
         | UB => CUB
         | Fuel => CFuel
         end
  end.

(** leaf part of db_cursor_seek, napr_db_cursor.c:156-192 *)
Definition seek_leaf (op : cop) (c : cursor) : cout unit :=
  match c_stack c with
  | [] => CUB                                    (* stack[top-1] with top = 0 *)
  | (p, _) :: rest =>
    let idx :=
      match op with
      | FIRST => Ok 0
      | LAST => Ok (if 0 <? pg_nkeys p then pg_nkeys p - 1 else 0)
      | SET k => do (found, i) <- page_search p k ;; if found then Ok i else Err NOTFOUND
      | SET_RANGE k =>
        do (_, i) <- page_search p k ;; if pg_nkeys p <=? i then Err NOTFOUND else Ok i
      | _ => Err EINVAL
      end in
    match idx with
    | Ok i => if pg_nkeys p =? 0 then CErr NOTFOUND (mkCur (c_stack c) true)
              else COk tt (mkCur ((p, i) :: rest) false)
    | Err e => CErr e c
    | UB => CUB
    | Fuel => CFuel
    end
  end.

(** db_cursor_seek, napr_db_cursor.c:95-193 *)
Definition cursor_seek (E : env) (t : txn) (op : cop) : cout unit :=
  if t_root t =? 0 then CErr NOTFOUND (mkCur [] true)
  else match seek_down FIND_FUEL E t op (t_root t) [] with
       | COk _ c => seek_leaf op c
       | r => r
       end.

(** leftmost descent of db_cursor_next, napr_db_cursor.c:259-279 *)
Fixpoint descend_left (fuel : nat) (E : env) (t : txn) (pg : N) (st : list (page * N)) : cout unit :=
  match fuel with
  | O => CFuel
  | S f =>
    let p := get_page E t pg in
    let st' := push st p 0 in
    if is_leaf p then
      if pg_nkeys p =? 0 then CErr NOTFOUND (mkCur st' true) else COk tt (mkCur st' false)
    else match child_at p 0 with
         | Ok c => descend_left f E t c st'
         | _ => CUB
         end
  end.

(** ascent of db_cursor_next, napr_db_cursor.c:246-288 *)
Fixpoint ascend_next (E : env) (t : txn) (st : list (page * N)) : cout unit :=
  match st with
  | [] => CErr NOTFOUND (mkCur [] true)
  | (p, i) :: rest =>
    let i' := u16 (i + 1) in
    if i' <? pg_nkeys p then
      match child_at p i' with
      | Ok c => descend_left FIND_FUEL E t c ((p, i') :: rest)
      | _ => CUB
      end
    else ascend_next E t rest
  end.

(** db_cursor_next, napr_db_cursor.c:213-289 *)
Definition cursor_next (E : env) (t : txn) (c : cursor) : cout unit :=
  match c_stack c with
  | [] => CErr NOTFOUND c
  | (p, i) :: rest =>
    if c_eof c then CErr NOTFOUND c
    else
      let i' := u16 (i + 1) in
      if i' <? pg_nkeys p then COk tt (mkCur ((p, i') :: rest) false)
      else match rest with
           | [] => CErr NOTFOUND (mkCur [] true)
           | _ => ascend_next E t rest
           end
  end.

(** descend_rightmost, napr_db_cursor.c:309-336 *)
Fixpoint descend_right (fuel : nat) (E : env) (t : txn) (pg : N) (st : list (page * N)) : cout unit :=
  match fuel with
  | O => CFuel
  | S f =>
    let p := get_page E t pg in
    if pg_nkeys p =? 0 then CErr NOTFOUND (mkCur st true)
    else
      let i := pg_nkeys p - 1 in
      let st' := push st p i in
      if is_leaf p then COk tt (mkCur st' false)
      else match child_at p i with
           | Ok c => descend_right f E t c st'
           | _ => CUB
           end
  end.

(** ascent of db_cursor_prev, napr_db_cursor.c:362-376 *)
Fixpoint ascend_prev (E : env) (t : txn) (st : list (page * N)) : cout unit :=
  match st with
  | [] => CErr NOTFOUND (mkCur [] true)
  | (p, i) :: rest =>
    if 0 <? i then
      match child_at p (i - 1) with
      | Ok c => descend_right FIND_FUEL E t c ((p, i - 1) :: rest)
      | _ => CUB
      end
    else ascend_prev E t rest
  end.

(** db_cursor_prev, napr_db_cursor.c:338-377 *)
Definition cursor_prev (E : env) (t : txn) (c : cursor) : cout unit :=
  match c_stack c with
  | [] => CErr NOTFOUND c
  | (p, i) :: rest =>
    if c_eof c then CErr NOTFOUND c
    else if 0 <? i then COk tt (mkCur ((p, i - 1) :: rest) false)
    else match rest with
         | [] => CErr NOTFOUND (mkCur [] true)
         | _ => ascend_prev E t rest
         end
  end.

(** napr_db_cursor_get, napr_db_cursor.c:382-443: returns the key and the value *)
Definition cursor_fetch (c : cursor) : cout (bytes * bytes) :=
  match c_stack c with
  | [] => CErr NOTFOUND c
  | (p, i) :: _ =>
    if c_eof c then CErr NOTFOUND c
    else if pg_nkeys p <=? i then CErr NOTFOUND c
    else match leaf_value p i with
         | Ok v => COk (node_key true p (slot p i), v) c
         | _ => CUB
         end
  end.
Definition cursor_get (E : env) (t : txn) (c : cursor) (op : cop) : cout (bytes * bytes) :=
  let moved :=
    match op with
    | NEXT => cursor_next E t c
    | PREV => cursor_prev E t c
    | GET_CURRENT => COk tt c
    | _ => cursor_seek E t op
    end in
  match moved with
  | COk _ c' => cursor_fetch c'
  | CErr e c' => CErr e c'
  | CUB => CUB
  | CFuel => CFuel
  end.
