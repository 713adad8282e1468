(** Model of /repo/src/ft_process.c (grouping by size and hashing), ft_report.c (text
    report) and ft_report_json.c (JSON report).

    Hashing a file and comparing two files are parameters, see the section variables;
    FileModel has the comparison itself.  Error messages, colours and the progress line
    are left out.  The archive option is left out except for the possible failure of
    get_comparison_paths. *)
From Verif Require Import Util HeapModel CollectModel.
Local Open Scope Z_scope.

(** APR_SUCCESS; another status; undefined behaviour (a NULL pointer is dereferenced or a
    cell outside an array is used); a loop bound of the model exhausted *)
Inductive status := SOk | SErr | SUB | SFuel.

(** result of compare_and_report_pair up to filecmp: get_comparison_paths fails; filecmp
    fails; filecmp says different; equal *)
Inductive cmpres := NoPath | Failed | Differ | Equal.

Section Process.
Variable hash_of : file -> option N.   (* result of checksum_file, None if it fails *)
Variable junk : file -> N.             (* contents of the cell of a file before it is hashed:
                                          the array is not initialised, ft_process.c:147 *)
Variable compare : file -> file -> cmpres.
Variable qsort : (chk -> chk -> Z) -> list chk -> list chk.
Variable iter : table -> table.        (* order in which napr_hash_first/next visit a table *)

(** categorize_files, ft_process.c:133-169.  [th]: tmp_heap, [n]: total_hash_tasks *)
Fixpoint categorize (fuel : nat) (json : bool) (h : heap file) (t : table) (th : heap file) (n : nat)
  : status * table * heap file * nat :=
  match fuel with
  | O => (SFuel, t, th, n)
  | S fu =>
    match heap_extract file_cmp h with
    | HOk (h', None) => (SOk, t, th, n)
    | HOk (h', Some f) =>
      match tfind (f_size f) t with
      | None => (SErr, t, th, n)
      | Some e =>
        if (fs_nb e =? 1)%nat then categorize fu json h' (tremove (fs_val e) t) th n
        else if (fs_nb e <=? fs_ck e)%nat then (SUB, t, th, n)
        else
          let e' hv := mkFs (fs_val e) (fs_arr e ++ [mkChk hv (Some f)]) (fs_nb e) in
          if ((fs_nb e =? 2)%nat || (fs_val e =? 0)) && negb json then
            match heap_insert file_cmp th f with
            | HOk th' => categorize fu json h' (tupd (e' 0%N) t) th' n
            | _ => (SUB, t, th, n)
            end
          else categorize fu json h' (tupd (e' (junk f)) t) th (S n)
      end
    | HUB => (SUB, t, th, n)
    | HFuel => (SFuel, t, th, n)
    end
  end.

(** ft_process.c:200-203 and 251-254 *)
Definition should_hash (json : bool) (e : fsize) : bool :=
  if json then (2 <=? fs_nb e)%nat else (2 <? fs_nb e)%nat && negb (fs_val e =? 0).

(** dispatch_hashing_tasks, ft_process.c:171-241: one task per cell of the chosen arrays,
    each task (hashing_worker_callback, lines 20-80) writes the hash of its own cell; by
    C34 every task runs exactly once, so the result does not depend on the schedule. *)
Definition hash_cell (k : chk) : chk :=
  match k_file k with
  | Some f => match hash_of f with Some hv => mkChk hv (Some f) | None => k end
  | None => k
  end.
Definition dispatch (json : bool) (t : table) : table :=
  map (fun e => if should_hash json e then mkFs (fs_val e) (map hash_cell (fs_arr e)) (fs_nb e) else e) t.

(** collect_hashing_results, ft_process.c:243-265 *)
Fixpoint insert_all (ks : list chk) (th : heap file) : option (heap file) :=
  match ks with
  | [] => Some th
  | k :: r =>
    match k_file k with
    | None => insert_all r th
    | Some f => match heap_insert file_cmp th f with HOk th' => insert_all r th' | _ => None end
    end
  end.
Fixpoint collect (json : bool) (es : table) (th : heap file) : option (heap file) :=
  match es with
  | [] => Some th
  | e :: r => if should_hash json e
              then match insert_all (fs_arr e) th with Some th' => collect json r th' | None => None end
              else collect json r th
  end.

(** ft_process_files, ft_process.c:87-131 *)
Definition process_files (json : bool) (st : coll) : status * coll :=
  match categorize (S (length (h_tree (co_heap st)))) json (co_heap st) (co_sizes st) heap_make 0 with
  | (SOk, t, th, O) => (SOk, mkColl th t)
  | (SOk, t, th, S _) =>
      let t' := dispatch json t in
      match collect json (iter t') th with
      | Some th' => (SOk, mkColl th' t')
      | None => (SUB, st)
      end
  | (s, _, _, _) => (s, st)
  end.

(** ft_chksum_cmp, ft_report.c:41-54, on cells whose file is not NULL *)
Definition chksum_cmp (a b : chk) : Z :=
  if (k_hash a <? k_hash b)%N then -1 else if (k_hash b <? k_hash a)%N then 1
  else match k_file a, k_file b with
       | Some f, Some g => prio_val f - prio_val g
       | _, _ => 0
       end.

(** The loop of process_and_report_duplicates_for_file (ft_report.c:83-94) for the file
    [f] with hash [hv] over the cells behind it, with compare_and_report_pair
    (ft_report.c:225-273).  Result: the cells with the twins set to NULL, the twins
    printed, the status. *)
Fixpoint pairs (hv : N) (f : file) (cells : list chk) : list chk * list file * status :=
  match cells with
  | [] => ([], [], SOk)
  | k :: r =>
    if (k_hash k =? hv)%N then
      match k_file k with
      | None => (cells, [], SUB)                    (* file2->path with file2 NULL *)
      | Some g =>
        match compare f g with
        | NoPath => (cells, [], SErr)
        | Failed | Differ => let '(r', m, s) := pairs hv f r in (k :: r', m, s)
        | Equal => let '(r', m, s) := pairs hv f r in (mkChk (k_hash k) None :: r', g :: m, s)
        end
      end
    else (cells, [], SOk)
  end.

(** the for loop of ft_report_duplicates (ft_report.c:133-137); a group is printed when
    it has a twin (lines 256-263) *)
Fixpoint report_array (fuel : nat) (cells : list chk) : list (list file) * status :=
  match fuel, cells with
  | _, [] => ([], SOk)
  | O, _ => ([], SFuel)
  | S fu, k :: r =>
    match k_file k with
    | None => report_array fu r
    | Some f =>
      match pairs (k_hash k) f r with
      | (r', m, SOk) => let '(gs, s) := report_array fu r' in
                        ((if m then [] else [f :: m]) ++ gs, s)
      | (_, m, s) => ((if m then [] else [f :: m]), s)
      end
    end
  end.

(** one size: ft_report.c:130-137.  qsort calls ft_chksum_cmp, which reads file of every
    cell.  The loop runs over nb_files cells; those beyond nb_checksumed were never
    written. *)
Definition all_set (ks : list chk) : bool := forallb (fun k => match k_file k with Some _ => true | None => false end) ks.
Definition report_size (e : fsize) : list (list file) * status :=
  if negb (all_set (fs_arr e)) then ([], SUB)
  else if (fs_ck e <? fs_nb e)%nat then ([], SUB)
  else report_array (fs_nb e) (qsort chksum_cmp (fs_arr e)).

(** ft_report_duplicates, ft_report.c:103-146.  The twins set to NULL in the array of a
    size matter only if the same size is processed again. *)
Fixpoint report_loop (fuel : nat) (old : Z) (h : heap file) (t : table) : list (list file) * status :=
  match fuel with
  | O => ([], SFuel)
  | S fu =>
    match heap_extract file_cmp h with
    | HOk (h', None) => ([], SOk)
    | HOk (h', Some f) =>
      if f_size f =? old then report_loop fu old h' t
      else
        match tfind (f_size f) t with
        | None => ([], SErr)
        | Some e =>
          match report_size e with
          | (gs, SOk) =>
              (* the array of this size now has NULL cells: mark it unusable *)
              let t' := tupd (mkFs (fs_val e) [mkChk 0 None] (fs_nb e)) t in
              let '(gs', s) := report_loop fu (f_size f) h' t' in (gs ++ gs', s)
          | (gs, s) => (gs, s)
          end
        end
    | HUB => ([], SUB)
    | HFuel => ([], SFuel)
    end
  end.
Definition report_text (st : coll) : list (list file) * status :=
  report_loop (S (length (h_tree (co_heap st)))) (-1) (co_heap st) (co_sizes st).

(** perform_file_comparison and the inner loop of find_and_report_duplicates,
    ft_report_json.c:91-117 and 146-165 *)
Fixpoint json_pairs (hv : N) (f : file) (cells : list chk) : list chk * list file * status :=
  match cells with
  | [] => ([], [], SOk)
  | k :: r =>
    if (hv =? k_hash k)%N then
      match k_file k with
      | None => (cells, [], SUB)
      | Some g =>
        match compare f g with
        | NoPath => (cells, [], SErr)
        | Equal => let '(r', m, s) := json_pairs hv f r in (mkChk (k_hash k) None :: r', g :: m, s)
        | _ => let '(r', m, s) := json_pairs hv f r in (k :: r', m, s)
        end
      end
    else (cells, [], SOk)
  end.
(** find_and_report_duplicates, ft_report_json.c:133-172: a set holds the size, the hash
    and the files *)
Definition jset := (Z * N * list file)%type.
Fixpoint json_array (fuel : nat) (size : Z) (cells : list chk) : list jset * status :=
  match fuel, cells with
  | _, [] => ([], SOk)
  | O, _ => ([], SFuel)
  | S fu, k :: r =>
    match k_file k with
    | None => json_array fu size r
    | Some f =>
      match json_pairs (k_hash k) f r with
      | (r', m, SOk) => let '(gs, s) := json_array fu size r' in
                        ((if m then [] else [(size, k_hash k, f :: m)]) ++ gs, s)
      | (_, _, s) => ([], s)
      end
    end
  end.
(** process_file_group, ft_report_json.c:174-191 *)
Definition json_size (e : fsize) : list jset * status :=
  if negb (all_set (fs_arr e)) then ([], SUB)
  else if (fs_ck e <? fs_nb e)%nat then ([], SUB)
  else json_array (fs_nb e) (fs_val e) (qsort chksum_cmp (fs_arr e)).
(** the loop of ft_report_json, ft_report_json.c:204-210 *)
Fixpoint json_loop (fuel : nat) (old : Z) (h : heap file) (t : table) : list jset * status :=
  match fuel with
  | O => ([], SFuel)
  | S fu =>
    match heap_extract file_cmp h with
    | HOk (h', None) => ([], SOk)
    | HOk (h', Some f) =>
      if f_size f =? old then json_loop fu old h' t
      else
        match tfind (f_size f) t with
        | None => ([], SErr)
        | Some e =>
          match json_size e with
          | (gs, SOk) =>
              let t' := tupd (mkFs (fs_val e) [mkChk 0 None] (fs_nb e)) t in
              let '(gs', s) := json_loop fu (f_size f) h' t' in (gs ++ gs', s)
          | (gs, s) => (gs, s)
          end
        end
    | HUB => ([], SUB)
    | HFuel => ([], SFuel)
    end
  end.
(** ft_report_json, ft_report_json.c:193-224: nothing is written after an error; writing
    to stdout succeeds *)
Definition report_json (st : coll) : list jset * status :=
  match json_loop (S (length (h_tree (co_heap st)))) (-1) (co_heap st) (co_sizes st) with
  | (gs, SOk) => (gs, SOk)
  | (_, s) => ([], s)
  end.

(** run_ftwin_processing, ftwin.c:104-128, without the image option, after the walk has
    met the entries [l] *)
Definition run_text (c : conf) (l : list (list N * finfo)) : list (list file) * status :=
  match collect_files c l coll_empty with
  | HOk st =>
      if (length (h_tree (co_heap st)) =? 0)%nat then ([], SErr)
      else match process_files false st with
           | (SOk, st') => report_text st'
           | (s, _) => ([], s)
           end
  | HUB => ([], SUB)
  | HFuel => ([], SFuel)
  end.
Definition run_json (c : conf) (l : list (list N * finfo)) : list jset * status :=
  match collect_files c l coll_empty with
  | HOk st =>
      if (length (h_tree (co_heap st)) =? 0)%nat then ([], SErr)
      else match process_files true st with
           | (SOk, st') => report_json st'
           | (s, _) => ([], s)
           end
  | HUB => ([], SUB)
  | HFuel => ([], SFuel)
  end.
End Process.
