(** Model of the directory walk, /repo/src/ft_traverse.c:92-195, and of the loop over the
    command line arguments, /repo/src/ftwin.c:74-102.

    The file system is a set of answers that stay the same during the walk: apr_stat,
    reading a directory, reading a .gitignore.  The walk only hands files to process_file,
    which always succeeds and does not influence the walk, so the model returns the files in
    the order in which they are handed over; CollectModel says what becomes of them. *)
From Coq Require Import String Ascii.
From Verif Require Import Util IgnoreModel CollectModel.
Local Open Scope list_scope.
Local Open Scope N_scope.

Definition path := list N.

Record fs := mkFS {
  s_stat : path -> option finfo;             (* apr_stat; symbolic links followed or not as configured *)
  s_dir : path -> option (list (path * ftype));   (* names and types as given by apr_dir_read, [None]: apr_dir_open fails *)
  s_gitignore : path -> option str           (* contents of the regular, readable file .gitignore of a directory *)
}.

Section Walk.
Variable R : Type.
Variable compile : str -> option R.
Variable exec : R -> str -> bool.

(** the options used by the walk; ig_regex and wl_regex as tests on the path *)
Record wconf := mkW {
  w_conf : conf; w_recurse : bool; w_hidden : bool; w_names : list path;      (* conf->ig_files *)
  w_ig : option (path -> bool); w_wl : option (path -> bool);
  w_git : bool; w_global : list (ctx R) }.                                    (* respect_gitignore, global_ignores *)

(** files handed over; the status is an error; undefined behaviour; out of fuel *)
Inductive wres := WOk (l : list (path * finfo)) | WErr (l : list (path * finfo)) | WUB | WFuel.

(** apr_pstrcat(filename, "/" unless it ends in one, name), ft_traverse.c:142; the empty path
    does not get here, its apr_stat fails *)
Definition join (d n : path) : path := d ++ (if (last d 0 =? chr "/") then [] else [chr "/"]) ++ n.

(** ft_traverse.c:135-140 *)
Definition skip_name (c : wconf) (n : path) : bool :=
  existsb (fun x => if list_eq_dec N.eq_dec n x then true else false) (w_names c)
  || match n with h :: _ => (h =? chr ".") && negb (w_hidden c) | [] => false end.
Definition skip_entry (c : wconf) (e : path * ftype) : bool :=
  skip_name c (fst e) || (match snd e with TDir => true | _ => false end && negb (w_recurse c)).
(** ft_traverse.c:95-98 *)
Definition skip_full (c : wconf) (p : path) : bool :=
  match w_ig c with Some f => f p | None => false end || match w_wl c with Some f => negb (f p) | None => false end.

(** ft_traverse.c:124-132: the context for the entries of a directory; [None]: the conversion
    of a pattern overruns its buffer.  4095 is sizeof(line) - 1. *)
Definition enter (c : wconf) (f : fs) (cs : list (ctx R)) (d : path) : option (list (ctx R)) :=
  if w_git c then
    match s_gitignore f d with
    | None => Some cs
    | Some s => match load_file R compile 4095 (mkCtx d []) s with Some x => Some (x :: cs) | None => None end
    end
  else Some cs.

(** ft_traverse.c:161-163; [cs] is not empty: parent_ctx is not NULL *)
Definition ignored (c : wconf) (cs : list (ctx R)) (p : path) (i : finfo) : bool :=
  w_git c && match cs with [] => false | _ => true end
  && match ignore_match R exec cs p (match i_type i with TDir => true | _ => false end) with MIgnored => true | _ => false end.

(** the loop over the entries, ft_traverse.c:134-147; [walk]: the recursive call *)
Fixpoint entries (walk : path -> wres) (c : wconf) (d : path) (es : list (path * ftype)) : wres :=
  match es with
  | [] => WOk []
  | e :: r =>
    let p := join d (fst e) in
    if skip_entry c e then entries walk c d r
    else if skip_full c p then entries walk c d r
    else match walk p with
         | WOk l => match entries walk c d r with
                    | WOk l' => WOk (l ++ l') | WErr l' => WErr (l ++ l') | x => x
                    end
         | x => x
         end
  end.

(** traverse_recursive, ft_traverse.c:153-176, with get_file_info (18-37).  When apr_stat
    fails while links are followed, the code looks at the file type in the structure that
    apr_stat did not fill (line 28): undefined. *)
Fixpoint walk (fuel : nat) (c : wconf) (f : fs) (cs : list (ctx R)) (p : path) : wres :=
  match fuel with
  | O => WFuel
  | S fu =>
    match s_stat f p with
    | None => if cf_fsyml (w_conf c) then WUB else WErr []
    | Some i =>
      if ignored c cs p i then WOk []
      else if negb (check_permissions (w_conf c) i) then WOk []
      else match i_type i with
           | TDir =>
             match s_dir f p with
             | None => WErr []
             | Some es => match enter c f cs p with
                          | Some cs' => entries (walk fu c f cs') c p es
                          | None => WUB
                          end
             end
           | TReg => WOk [(p, i)]
           | TLnk => if cf_fsyml (w_conf c) then WOk [(p, i)] else WOk []
           | TOther => WOk []
           end
    end
  end.

(** the loop over the arguments, ftwin.c:85-102; the arguments of JSON runs are made absolute
    before (lines 89-95), which is left out *)
Fixpoint walk_args (fuel : nat) (c : wconf) (f : fs) (args : list path) : wres :=
  match args with
  | [] => WOk []
  | a :: r =>
    match walk fuel c f (w_global c) a with
    | WOk l => match walk_args fuel c f r with
               | WOk l' => WOk (l ++ l') | WErr l' => WErr (l ++ l') | x => x
               end
    | x => x
    end
  end.
End Walk.
Arguments mkW {R}. Arguments w_conf {R}. Arguments w_recurse {R}. Arguments w_hidden {R}. Arguments w_names {R}.
Arguments w_ig {R}. Arguments w_wl {R}. Arguments w_git {R}. Arguments w_global {R}.
Arguments skip_name {R}. Arguments skip_entry {R}. Arguments skip_full {R}.
Arguments entries {R}. Arguments enter {R}. Arguments ignored {R}. Arguments walk {R}. Arguments walk_args {R}.

(** ft_config_create, ft_config.c:249-253: "." and ".." are in ig_files *)
Definition default_names : list path := [lit "."; lit ".."].
(** ft_hash_add_ignore_list, ft_config.c:140-165: the parts between commas; the loop also
    ends at a comma that is the last character.  The table is a list. *)
Fixpoint split_commas (s cur : path) : list path :=
  match s with
  | [] => [cur]
  | c :: t => if c =? chr "," then cur :: match t with [] => [] | _ => split_commas t [] end
              else split_commas t (cur ++ [c])
  end.
Definition add_names (l : list path) (arg : path) : list path := rev (split_commas arg []) ++ l.
