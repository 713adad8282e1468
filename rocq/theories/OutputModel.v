(** Model of the text written by /repo/src/ft_report.c: the loops of ProcessModel again, with
    the bytes sent to stdout instead of the groups.  Archives (OPTION_UNTAR) are left out, as
    are the messages on stderr. *)
From Coq Require Import String Ascii.
From Verif Require Import Util HeapModel CollectModel ProcessModel IgnoreModel.
Local Open Scope list_scope.
Local Open Scope Z_scope.

(** conf->sep, OPTION_SIZED and reporting_colors_t (ft_report.h) *)
Record style := mkStyle { y_sep : N; y_sized : bool; y_path : str; y_size : str; y_reset : str }.
(** ft_report.c:111-116 with ft_types.h:50-53; [tty]: isatty(STDOUT_FILENO) *)
Definition style_of (sep : N) (sized tty : bool) : style :=
  mkStyle sep sized (if tty then 27%N :: lit "[36m" ++ 27%N :: lit "[1m" else [])
                    (if tty then 27%N :: lit "[34m" ++ 27%N :: lit "[1m" else [])
                    (if tty then 27%N :: lit "[0m" else []).

Section Text.
Variable compare : file -> file -> cmpres.
Variable qsort : (chk -> chk -> Z) -> list chk -> list chk.
Variable human : Z -> str.               (* format_human_size *)
Variable y : style.

(** format_and_print_duplicate, ft_report.c:215-223 *)
Definition show (f : file) : str := y_path y ++ f_path f ++ y_reset y.

(** The loop of process_and_report_duplicates_for_file (ft_report.c:83-94) with
    compare_and_report_pair (225-273).  [printed]: already_printed.  Result: the cells,
    already_printed, the text, the status. *)
Fixpoint pairs_text (printed : bool) (size : Z) (hv : N) (f : file) (cells : list chk) : list chk * bool * str * status :=
  match cells with
  | [] => ([], printed, [], SOk)
  | k :: r =>
    if (k_hash k =? hv)%N then
      match k_file k with
      | None => (cells, printed, [], SUB)
      | Some g =>
        match compare f g with
        | NoPath => (cells, printed, [], SErr)
        | Failed | Differ => let '(r', p, t, s) := pairs_text printed size hv f r in (k :: r', p, t, s)
        | Equal =>
          let head := if printed then []
                      else (if y_sized y then y_size y ++ lit "Size: " ++ human size ++ y_reset y ++ [10%N] else []) ++ show f in
          let '(r', p, t, s) := pairs_text true size hv f r in
          (mkChk (k_hash k) None :: r', p, head ++ [y_sep y] ++ show g ++ t, s)
        end
      end
    else (cells, printed, [], SOk)
  end.

(** the for loop of ft_report_duplicates (ft_report.c:133-137); lines 96-98 *)
Fixpoint array_text (fuel : nat) (size : Z) (cells : list chk) : str * status :=
  match fuel, cells with
  | _, [] => ([], SOk)
  | O, _ => ([], SFuel)
  | S fu, k :: r =>
    match k_file k with
    | None => array_text fu size r
    | Some f =>
      match pairs_text false size (k_hash k) f r with
      | (r', p, t, SOk) => let '(t', s) := array_text fu size r' in (t ++ (if p then [10%N; 10%N] else []) ++ t', s)
      | (_, _, t, s) => (t, s)
      end
    end
  end.

(** one size: ft_report.c:130-137 *)
Definition size_text (e : fsize) : str * status :=
  if negb (all_set (fs_arr e)) then ([], SUB)
  else if (fs_ck e <? fs_nb e)%nat then ([], SUB)
  else array_text (fs_nb e) (fs_val e) (qsort chksum_cmp (fs_arr e)).

(** ft_report_duplicates, ft_report.c:103-146 *)
Fixpoint loop_text (fuel : nat) (old : Z) (h : heap file) (t : table) : str * status :=
  match fuel with
  | O => ([], SFuel)
  | S fu =>
    match heap_extract file_cmp h with
    | HOk (h', None) => ([], SOk)
    | HOk (h', Some f) =>
      if f_size f =? old then loop_text fu old h' t
      else
        match tfind (f_size f) t with
        | None => ([], SErr)
        | Some e =>
          match size_text e with
          | (x, SOk) =>
              let t' := tupd (mkFs (fs_val e) [mkChk 0 None] (fs_nb e)) t in
              let '(x', s) := loop_text fu (f_size f) h' t' in (x ++ x', s)
          | (x, s) => (x, s)
          end
        end
    | HUB => ([], SUB)
    | HFuel => ([], SFuel)
    end
  end.
Definition output_text (st : coll) : str * status :=
  loop_text (S (length (h_tree (co_heap st)))) (-1) (co_heap st) (co_sizes st).
End Text.

(** run_ftwin_processing, ftwin.c:104-128, without the image and JSON options *)
Definition run_output (hash_of : file -> option N) (junk : file -> N) (compare : file -> file -> cmpres)
    (qsort : (chk -> chk -> Z) -> list chk -> list chk) (iter : table -> table)
    (human : Z -> str) (y : style) (c : conf) (l : list (list N * finfo)) : str * status :=
  match collect_files c l coll_empty with
  | HOk st =>
      if (length (h_tree (co_heap st)) =? 0)%nat then ([], SErr)
      else match process_files hash_of junk iter false st with
           | (SOk, st') => output_text compare qsort human y st'
           | (s, _) => ([], s)
           end
  | HUB => ([], SUB)
  | HFuel => ([], SFuel)
  end.
