(** Model of the collection of files, /repo/src/ft_traverse.c: permission check, size
    limits, priority flag, and the two structures filled by process_file.  The directory
    walk itself is in WalkModel. *)
From Verif Require Import Util HeapModel.
Local Open Scope Z_scope.

(** struct ft_file_t, ft_types.h:57-66.  [f_prio] is the one-bit signed bit-field
    (line 65) as a flag; mtime, subpath and the image fields are left out. *)
Record file := mkFile { f_path : list N; f_size : Z; f_prio : bool }.
(** the value read back from the signed bit-field: storing 1 gives -1 *)
Definition prio_val (f : file) : Z := if f_prio f then -1 else 0.

(** ft_file_cmp, ft_config.c:45-58 *)
Definition file_cmp (a b : file) : Z :=
  if f_size a <? f_size b then -1 else if f_size b <? f_size a then 1 else 0.

(** struct ft_chksum_t, ft_types.h:68-72.  [k_file = None] is NULL.  The 16 bytes of the
    hash compared with memcmp are one number. *)
Record chk := mkChk { k_hash : N; k_file : option file }.
(** struct ft_fsize_t, ft_types.h:74-80.  [fs_arr] holds the first nb_checksumed cells of
    chksum_array, the only ones ever written; the counters do not wrap. *)
Record fsize := mkFs { fs_val : Z; fs_arr : list chk; fs_nb : nat }.
Definition fs_ck (s : fsize) : nat := length (fs_arr s).

(** conf->sizes is a napr_hash table keyed by size (C31 shows such a table to be a map);
    here an association list.  napr_hash_search, _set on an absent key, _remove. *)
Definition table := list fsize.
Fixpoint tfind (s : Z) (t : table) : option fsize :=
  match t with
  | [] => None
  | e :: t' => if fs_val e =? s then Some e else tfind s t'
  end.
Fixpoint tupd (e : fsize) (t : table) : table :=
  match t with
  | [] => []
  | d :: t' => if fs_val d =? fs_val e then e :: t' else d :: tupd e t'
  end.
Fixpoint tremove (s : Z) (t : table) : table :=
  match t with
  | [] => []
  | d :: t' => if fs_val d =? s then t' else d :: tremove s t'
  end.

(** the fields of apr_finfo_t that are used, and the options of ft_conf_t; [a_group] and
    the like number users and groups *)
Inductive ftype := TReg | TDir | TLnk | TOther.
Record finfo := mkInfo { i_type : ftype; i_size : Z; i_user : N; i_group : N; i_prot : N }.
Record conf := mkConf {
  cf_minsize : Z; cf_maxsize : Z;
  cf_userid : N; cf_gids : list N;          (* conf->gids, a hash set of group ids *)
  cf_ppath : option (list N); cf_icase : bool; cf_fsyml : bool }.

(** APR_UREAD .. APR_WEXECUTE, apr_file_info.h *)
Definition UREAD : N := 0x0400. Definition UEXEC : N := 0x0100.
Definition GREAD : N := 0x0040. Definition GEXEC : N := 0x0010.
Definition WREAD : N := 0x0004. Definition WEXEC : N := 0x0001.

(** check_permissions, ft_traverse.c:39-62; [true] is APR_SUCCESS *)
Definition check_permissions (c : conf) (i : finfo) : bool :=
  let pick d r := match i_type i with TDir => d | _ => r end in
  if (cf_userid c =? 0)%N then true
  else if (i_user i =? cf_userid c)%N then negb (N.land (pick UEXEC UREAD) (i_prot i) =? 0)%N
  else if existsb (N.eqb (i_group i)) (cf_gids c) then negb (N.land (pick GEXEC GREAD) (i_prot i) =? 0)%N
  else negb (N.land (pick WEXEC WREAD) (i_prot i) =? 0)%N.

(** strncasecmp and memcmp over the first strlen(p_path) bytes, ft_traverse.c:71-73 *)
Definition lower (b : N) : N := if ((65 <=? b) && (b <=? 90))%N%bool then (b + 32)%N else b.
Fixpoint same_prefix (fold : bool) (p s : list N) : bool :=
  match p, s with
  | [], _ => true
  | _, [] => false
  | a :: p', b :: s' =>
      (if fold then (lower a =? lower b)%N else (a =? b)%N) && same_prefix fold p' s'
  end.
Definition prioritized (c : conf) (path : list N) : bool :=
  match cf_ppath c with
  | None => false
  | Some p => (length p <=? length path)%nat && same_prefix (cf_icase c) p path
  end.

(** what process_file fills: conf->heap and conf->sizes *)
Record coll := mkColl { co_heap : heap file; co_sizes : table }.

(** process_file, ft_traverse.c:64-90 *)
Definition size_ok (c : conf) (size : Z) : bool :=
  (cf_minsize c <=? size) && ((cf_maxsize c =? 0) || (size <=? cf_maxsize c)).
Definition process_file (c : conf) (path : list N) (i : finfo) (st : coll) : hres coll :=
  if size_ok c (i_size i) then
    match heap_insert file_cmp (co_heap st) (mkFile path (i_size i) (prioritized c path)) with
    | HOk h =>
        HOk (mkColl h
          match tfind (i_size i) (co_sizes st) with
          | None => mkFs (i_size i) [] 1 :: co_sizes st
          | Some e => tupd (mkFs (fs_val e) (fs_arr e) (S (fs_nb e))) (co_sizes st)
          end)
    | HUB => HUB
    | HFuel => HFuel
    end
  else HOk st.

(** ft_config_create, ft_config.c:229-241 *)
Definition coll_empty : coll := mkColl heap_make [].

(** the regular files met by the walk, in order *)
Fixpoint collect_files (c : conf) (l : list (list N * finfo)) (st : coll) : hres coll :=
  match l with
  | [] => HOk st
  | (path, i) :: r =>
    match process_file c path i st with
    | HOk st' => collect_files c r st'
    | HUB => HUB
    | HFuel => HFuel
    end
  end.
