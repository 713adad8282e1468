(** Model of what a text or JSON run writes to stderr about things it could not read: messages of
    /repo/src/ft_traverse.c, ft_process.c, ft_file.c, ft_report.c, ft_report_json.c and ftwin.c.
    A message is its kind and the paths in it; the progress lines are in ProgModel, the headings
    of -v and the lines of a dry run are left out, as are the messages about archives, about
    failing closes and unmaps, and about an inconsistent table of sizes, which does not occur
    ([process_files_ok]).  The functions follow those of WalkModel, MainModel, FileModel and
    ProcessModel, which they call to know how the code goes on. *)
From Coq Require Import String Ascii.
From Verif Require Import Util HeapModel IgnoreModel CollectModel ProcessModel FileModel PropEnd WalkModel.
Local Open Scope list_scope.

Inductive msg :=
| SaysStat (p : path)             (* "error calling apr_stat on filename p", ft_traverse.c:34 *)
| SaysDir (p : path)              (* "error calling apr_dir_open(p)", ft_traverse.c:119 *)
| SaysUp                          (* "error recursively calling traverse_recursive", ft_traverse.c:107 *)
| SaysResolve (a : path)          (* "Error resolving absolute path for argument a", ftwin.c:92 *)
| SaysArg                         (* "error calling ft_traverse_path", ftwin.c:99 *)
| SaysFew                         (* "Please submit at least two files...", ftwin.c:125 *)
| SaysRun                         (* "error during ftwin processing", ftwin.c:169 *)
| SaysRead (p : path)             (* "unable to read(p, O_RDONLY), skipping", ft_file.c:119 *)
| SaysSkip (p : path)             (* "skipping p because", ft_process.c:73 *)
| SaysPairRead (p q : path)       (* "1:unable to read p", "2:unable to read q", ft_file.c:264-265 *)
| SaysPair (p q : path).          (* "skipping p and q comparison because", ft_report.c:246, ft_report_json.c:109 *)

Section Walk.
Variable R : Type.
Variable compile : str -> option R.
Variable exec : R -> str -> bool.
Implicit Types (c : wconf R) (f : fs) (cs : list (ctx R)).

(** process_directory_entry and the loop over the entries, ft_traverse.c:92-110 and 134-147 *)
Fixpoint entries_says (walk : path -> wres) (says : path -> list msg) c (d : path) (es : list (path * ftype)) : list msg :=
  match es with
  | [] => []
  | e :: r =>
    let p := join d (fst e) in
    if skip_entry c e then entries_says walk says c d r
    else if skip_full c p then entries_says walk says c d r
    else says p ++ match walk p with
                   | WOk _ => entries_says walk says c d r
                   | WErr _ => [SaysUp]
                   | _ => []
                   end
  end.
(** traverse_recursive with get_file_info and process_directory, ft_traverse.c:18-37 and 112-176 *)
Fixpoint walk_says (fuel : nat) c f cs (p : path) : list msg :=
  match fuel with
  | O => []
  | S fu =>
    match s_stat f p with
    | None => if cf_fsyml (w_conf c) then [] else [SaysStat p]
    | Some i =>
      if ignored exec c cs p i then []
      else if negb (check_permissions (w_conf c) i) then []
      else match i_type i with
           | TDir =>
             match s_dir f p with
             | None => [SaysDir p]
             | Some es => match enter compile c f cs p with
                          | Some cs' => entries_says (walk compile exec fu c f cs') (walk_says fu c f cs') c p es
                          | None => []
                          end
             end
           | _ => []
           end
    end
  end.
(** the loop over the arguments, ftwin.c:85-102; [resolve]: apr_filepath_merge in JSON runs, the
    argument itself otherwise *)
Fixpoint args_walk (resolve : path -> option path) (fuel : nat) c f (args : list path) : wres :=
  match args with
  | [] => WOk []
  | a :: r =>
    match resolve a with
    | None => WErr []
    | Some b =>
      match walk compile exec fuel c f (w_global c) b with
      | WOk l => match args_walk resolve fuel c f r with WOk l' => WOk (l ++ l') | WErr l' => WErr (l ++ l') | x => x end
      | x => x
      end
    end
  end.
Fixpoint args_says (resolve : path -> option path) (fuel : nat) c f (args : list path) : list msg :=
  match args with
  | [] => []
  | a :: r =>
    match resolve a with
    | None => [SaysResolve a]
    | Some b =>
      walk_says fuel c f (w_global c) b ++
      match walk compile exec fuel c f (w_global c) b with
      | WOk _ => args_says resolve fuel c f r
      | WErr _ => [SaysArg]
      | _ => []
      end
    end
  end.
End Walk.
Arguments entries_says {R}. Arguments walk_says {R}. Arguments args_walk {R}. Arguments args_says {R}.

Section Files.
Variable content : file -> option bytes.       (* [None]: apr_file_open fails *)
Variable xxh : bytes -> N.
Variable huge : nat.
Variable excess : N.
Variable hbeh : file -> bool * (nat -> option nat).    (* as in MainModel *)
Variable beh : file -> file -> sysbeh.
Variable verbose : bool.                       (* OPTION_VERBO *)

(** the loop of checksum_big_file and its end, ft_file.c:104-123 *)
Fixpoint sum_says (p : path) (fuel i : nat) (o : nat -> option nat) (c : bytes) : list msg :=
  match fuel with
  | O => []
  | S fu =>
    match file_read (o i) huge c with
    | RData d rest => sum_says p fu (S i) o rest
    | REof => []
    | RErr => [SaysRead p]
    end
  end.
(** checksum_big_file, ft_file.c:82-135; a file that cannot be opened: lines 98-102 *)
Definition big_sum_says (p : path) (o : nat -> option nat) (f : option bytes) : list msg :=
  match f with None => [] | Some c => sum_says p (S (length c)) 0 o c end.
(** checksum_file with checksum_small_file, ft_file.c:45-80 and 137-144 *)
Definition checksum_says (p : path) (m : bool) (o : nat -> option nat) (f : option bytes) (size : N) : list msg :=
  if (size <? excess)%N && m && negb (size =? 0)%N then [] else big_sum_says p o f.

(** the call of checksum_file, ft_process.c:51; and what the cell gets *)
Definition checksum (f : file) : fres N :=
  checksum_file huge xxh excess (fst (hbeh f)) (snd (hbeh f)) (content f) (Z.to_N (f_size f)).
Definition hash (f : file) : option N := match checksum f with FVal h => Some h | _ => None end.
(** hashing_worker_callback, ft_process.c:51-74, for one file *)
Definition task_says (f : file) : list msg :=
  checksum_says (f_path f) (fst (hbeh f)) (snd (hbeh f)) (content f) (Z.to_N (f_size f)) ++
  match checksum f with FErr => if verbose then [SaysSkip (f_path f)] else [] | _ => [] end.

(** the loop of big_filecmp and lines 260-266, ft_file.c:250-266 *)
Fixpoint loop_says (p q : path) (fuel i : nat) (o1 o2 : nat -> option nat) (r : bool) (c1 c2 : bytes) : list msg :=
  let say := if r then [] else [SaysPairRead p q] in
  match fuel with
  | O => []
  | S fu =>
    match file_read (o1 i) huge c1 with
    | RData d1 r1 =>
      match file_read (o2 i) (length d1) c2 with
      | RData d2 r2 =>
          if length d2 =? length d1 then (if differ d1 d2 then [] else loop_says p q fu (S i) o1 o2 false r1 r2)
          else say
      | REof => []
      | RErr => say
      end
    | REof => []
    | RErr => say
    end
  end.
Definition big_cmp_says (p q : path) (o1 o2 : nat -> option nat) (r0 : bool) (f1 f2 : option bytes) (size : N) : list msg :=
  if (size =? 0)%N then []
  else match f1, f2 with Some c1, Some c2 => loop_says p q (S (length c1)) 0 o1 o2 r0 c1 c2 | _, _ => [] end.
(** filecmp with small_filecmp, ft_file.c:146-218 and 285-292 *)
Definition cmp_says (p q : path) (m1 m2 : bool) (o1 o2 : nat -> option nat) (r0 : bool) (f1 f2 : option bytes) (size : N) : list msg :=
  if (size <? excess)%N && m1 && (m2 || match f2 with None => true | _ => false end) then [] else big_cmp_says p q o1 o2 r0 f1 f2 size.

(** the call of filecmp, ft_report.c:240 and ft_report_json.c:103 *)
Definition comparison (f g : file) : fres bool :=
  let y := beh f g in
  filecmp huge excess (y_m1 y) (y_m2 y) (y_o1 y) (y_o2 y) (y_r y) (content f) (content g) (Z.to_N (f_size f)).
Definition compare (f g : file) : cmpres :=
  match comparison f g with FVal false => Equal | FVal true => Differ | _ => Failed end.
(** compare_and_report_pair, ft_report.c:240-249, and perform_file_comparison,
    ft_report_json.c:103-112 *)
Definition pair_says (fg : file * file) : list msg :=
  let (f, g) := fg in
  let y := beh f g in
  cmp_says (f_path f) (f_path g) (y_m1 y) (y_m2 y) (y_o1 y) (y_o2 y) (y_r y) (content f) (content g) (Z.to_N (f_size f)) ++
  match comparison f g with FErr => if verbose then [SaysPair (f_path f) (f_path g)] else [] | _ => [] end.
End Files.

(** ** The comparisons made *)
Section Made.
Variable compare : file -> file -> cmpres.
Variable qsort : (chk -> chk -> Z) -> list chk -> list chk.
(** the pairs handed to filecmp by the loop of [pairs], ft_report.c:83-94; the JSON report has the
    same loop, ft_report_json.c:146-165 *)
Fixpoint pairs_made (hv : N) (f : file) (cells : list chk) : list (file * file) :=
  match cells with
  | [] => []
  | k :: r =>
    if (k_hash k =? hv)%N then
      match k_file k with
      | None => []
      | Some g => (f, g) :: match compare f g with NoPath => [] | _ => pairs_made hv f r end
      end
    else []
  end.
(** ft_report.c:133-137, ft_report_json.c:138-171 *)
Fixpoint array_made (fuel : nat) (cells : list chk) : list (file * file) :=
  match fuel, cells with
  | S fu, k :: r =>
    match k_file k with
    | None => array_made fu r
    | Some f => pairs_made (k_hash k) f r ++
                match pairs compare (k_hash k) f r with (r', _, SOk) => array_made fu r' | _ => [] end
    end
  | _, _ => []
  end.
(** ft_report.c:130-137, ft_report_json.c:184-188 *)
Definition size_made (e : fsize) : list (file * file) :=
  if negb (all_set (fs_arr e)) then []
  else if (fs_ck e <? fs_nb e)%nat then []
  else array_made (fs_nb e) (qsort chksum_cmp (fs_arr e)).
(** the loop over the heap, ft_report.c:122-143 and ft_report_json.c:174-210; whether the loop
    goes on after a size is the same in both *)
Fixpoint loop_made (fuel : nat) (old : Z) (h : heap file) (t : table) : list (file * file) :=
  match fuel with
  | O => []
  | S fu =>
    match heap_extract file_cmp h with
    | HOk (h', Some f) =>
      if (f_size f =? old)%Z then loop_made fu old h' t
      else
        match tfind (f_size f) t with
        | None => []
        | Some e => size_made e ++
            match snd (report_size compare qsort e) with
            | SOk => loop_made fu (f_size f) h' (tupd (mkFs (fs_val e) [mkChk 0 None] (fs_nb e)) t)
            | _ => []
            end
        end
    | _ => []
    end
  end.
End Made.

(** the files handed to the workers, ft_process.c:196-220 *)
Definition hash_tasks (json : bool) (t : table) : list file :=
  flat_map (fun e => if should_hash json e then flat_map (fun k => match k_file k with Some f => [f] | None => [] end) (fs_arr e) else []) t.

Section Run.
Variable content : file -> option bytes.
Variable xxh : bytes -> N.
Variable huge : nat.
Variable excess : N.
Variable hbeh : file -> bool * (nat -> option nat).
Variable beh : file -> file -> sysbeh.
Variable verbose : bool.
Variable junk : file -> N.
Variable qsort : (chk -> chk -> Z) -> list chk -> list chk.
Variable iter : table -> table.
(** ftwin.c:104-128, after the walk has met the entries [l], without the image option.  The
    messages of the workers come in the order of the table; their real order is not fixed. *)
Definition found_says (json : bool) (c : conf) (l : list (path * finfo)) : list msg :=
  match collect_files c l coll_empty with
  | HOk st =>
      if (length (h_tree (co_heap st)) =? 0)%nat then [SaysFew]
      else match process_files (hash content xxh huge excess hbeh) junk iter json st with
           | (SOk, st') =>
               flat_map (task_says content xxh huge excess hbeh verbose) (hash_tasks json (co_sizes st')) ++
               flat_map (pair_says content huge excess beh verbose)
                 (loop_made (compare content huge excess beh) qsort (S (length (h_tree (co_heap st')))) (-1) (co_heap st') (co_sizes st'))
           | _ => []
           end
  | _ => []
  end.
(** the status of the same, as in [run_text] and [run_json] *)
Definition found_status (json : bool) (c : conf) (l : list (path * finfo)) : status :=
  if json then snd (run_json (hash content xxh huge excess hbeh) junk (compare content huge excess beh) qsort iter c l)
  else snd (run_text (hash content xxh huge excess hbeh) junk (compare content huge excess beh) qsort iter c l).

Context {R : Type}.
Variable rcompile : str -> option R.
Variable rexec : R -> str -> bool.
(** run_ftwin_processing and the end of ftwin_main, ftwin.c:74-131 and 167-174: the exit status
    ([None]: undefined, or the fuel is exhausted) and the messages *)
Definition run_says (resolve : path -> option path) (fuel : nat) (c : wconf R) (f : fs) (json : bool) (args : list path) : option Z * list msg :=
  let m := args_says rcompile rexec resolve fuel c f args in
  match args_walk rcompile rexec resolve fuel c f args with
  | WOk l =>
      let m' := m ++ found_says json (w_conf c) l in
      match found_status json (w_conf c) l with
      | SOk => (Some 0%Z, m')
      | SErr => (Some (-1)%Z, m' ++ [SaysRun])
      | _ => (None, m')
      end
  | WErr _ => (Some (-1)%Z, m ++ [SaysRun])
  | _ => (None, m)
  end.
End Run.
