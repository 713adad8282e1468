(** The look-up of the pages a transaction gave up, read_from_free_db of /repo/src/napr_db.c. *)
From Verif Require Import Util PageModel TxnModel TreeModel.
Local Open Scope N_scope.

(** [n] page numbers of eight bytes, little endian: the array the C code makes of the value by a
    cast, napr_db.c:1014 *)
Fixpoint pgnos_of (n : nat) (b : bytes) : list N :=
  match n with
  | O => []
  | S m => le_val (firstn 8 b) :: pgnos_of m (skipn 8 b)
  end.

(** read_from_free_db, napr_db.c:966-1017, with the two outputs as one list; the checks for NULL
    arguments (napr_db.c:974-976) are left out.  A failing search of the leaf is NOTFOUND whatever
    it failed with (napr_db.c:999-1001). *)
Definition read_freed (E : env) (t : txn) (id : N) : res (list N) :=
  if t_free_root t =? 0 then Err NOTFOUND
  else
    let k := le_bytes 8 id in
    do leaf <- find_leaf FIND_FUEL E t (t_free_root t) k ;;
    match page_search leaf k with
    | Ok (true, i) =>
      do v <- leaf_value leaf i ;;
      if blen v mod 8 =? 0 then Ok (pgnos_of (N.to_nat (blen v / 8)) v) else Err EGENERAL
    | Ok (false, _) => Err NOTFOUND
    | Err _ => Err NOTFOUND
    | UB => UB
    | Fuel => Fuel
    end.
