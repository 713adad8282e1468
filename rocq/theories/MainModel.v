(** Model of /repo/src/ftwin.c: a run of the program from the command line to its exit status
    and what it has written to standard output.  Everything is put together from the other
    models.  Messages on stderr, the failure of apr_initialize and apr_pool_create are left
    out.  Of archive mode (-t) only the first read of ft_file_t.subpath is modelled, see
    [UndefSubpath]. *)
From Coq Require Import String Ascii.
From Verif Require Import Util HeapModel IgnoreModel HumanModel CollectModel ProcessModel FileModel PropFile PropEnd WalkModel
  ConfigModel OutputModel ImageModel FormatModel JsonModel.
Local Open Scope list_scope.
Local Open Scope Z_scope.

(** what the run finds around it *)
Record world (R vec : Type) := mkWorld {
  o_compile : str -> option R;                        (* pcre for ignore patterns *)
  o_exec : R -> str -> bool;
  o_pcre : bool -> str -> option (path -> bool);      (* pcre for -e, -w, -I *)
  o_cpus : Z; o_uid : N; o_groups : list N; o_egid : N;
  o_fs : bool -> fs;                                  (* the files; true: links are followed *)
  o_truename : path -> option path;                   (* apr_filepath_merge(&p, NULL, arg, APR_FILEPATH_TRUENAME) *)
  o_content : path -> bytes; o_mtime : file -> Z;
  o_xxh : bytes -> N; o_huge : nat;                   (* hash function; size of a read buffer *)
  o_beh : file -> file -> sysbeh; o_hbeh : file -> bool * (nat -> option nat);   (* reads while comparing, hashing *)
  o_junk : file -> N;                                 (* memory that is not initialised *)
  o_qsort : (chk -> chk -> Z) -> list chk -> list chk; o_iter : table -> table;
  o_tty : bool; o_gmt : Z -> option exploded;
  o_decode : file -> option vec; o_close : N -> vec -> vec -> bool }.            (* libpuzzle; distance below the threshold of a level *)
Arguments mkWorld {R vec}.
Arguments o_compile {R vec}. Arguments o_exec {R vec}. Arguments o_pcre {R vec}. Arguments o_cpus {R vec}. Arguments o_uid {R vec}.
Arguments o_groups {R vec}. Arguments o_egid {R vec}. Arguments o_fs {R vec}. Arguments o_truename {R vec}. Arguments o_content {R vec}.
Arguments o_mtime {R vec}. Arguments o_xxh {R vec}. Arguments o_huge {R vec}. Arguments o_beh {R vec}. Arguments o_hbeh {R vec}.
Arguments o_junk {R vec}. Arguments o_qsort {R vec}. Arguments o_iter {R vec}. Arguments o_tty {R vec}. Arguments o_gmt {R vec}.
Arguments o_decode {R vec}. Arguments o_close {R vec}.

(** standard output: nothing, the usage or version text, the text report, the report on
    images, the JSON document *)
Inductive output := ONothing | OInfo | OText (s : str) | OImages (s : str) | ODoc (j : json).
(** how a run ends: exit status and standard output; undefined behaviour; undefined behaviour
    from reading ft_file_t.subpath, which process_file (ft_traverse.c:64-90) does not set; a
    number outside HumanModel; fuel of the walk exhausted *)
Inductive ending := Exit (code : Z) (o : output) | Undef | UndefSubpath | Unmodelled | NoFuel.

(** -h or -V is reached while the options are handled: handle_informational_option,
    ft_config.c:527-540, ends the program *)
Fixpoint asks_info (g : cfg) (os : list opt) : bool :=
  match os with
  | [] => false
  | x :: r => if (fst x =? chr "h")%N || (fst x =? chr "V")%N then true
              else match process_option g x with POk g' => asks_info g' r | _ => false end
  end.
(** print_usage_and_exit, ft_config.c:206-215, against the return of an error status and
    ftwin.c:160-165: the text of the usage goes to standard output.  [None]: options and
    number of arguments are fine. *)
Definition usage_error (cpus : Z) (os : list opt) (args : list path) : bool :=
  match parse_opts (cfg_create cpus) os with
  | PErr => true
  | POk _ => match args with [] => true | _ => false end
  | _ => false
  end.

Section Main.
Context {R vec : Type}.
Variable w : world R vec.

(** the loop over the arguments, ftwin.c:85-102, with the resolution of the path in JSON
    runs *)
Fixpoint traverse (fuel : nat) (c : wconf R) (json : bool) (args : list path) : wres :=
  match args with
  | [] => WOk []
  | a :: r =>
    match (if json then o_truename w a else Some a) with
    | None => WErr []
    | Some b =>
      match walk (o_compile w) (o_exec w) fuel c (o_fs w (cf_fsyml (w_conf c))) (w_global c) b with
      | WOk l => match traverse fuel c json r with
                 | WOk l' => WOk (l ++ l') | WErr l' => WErr (l ++ l') | x => x
                 end
      | x => x
      end
    end
  end.

Definition bytes_of (f : file) : bytes := o_content w (f_path f).
Definition hash (g : cfg) : file -> option N := hash_file bytes_of (o_xxh w) (o_huge w) (Z.to_N (g_excess g)) (o_hbeh w).
Definition compare (g : cfg) : file -> file -> cmpres := compare_files bytes_of (o_huge w) (Z.to_N (g_excess g)) (o_beh w).

(** ftwin.c:129-130 and 167-179 *)
Definition finish (s : status) (o : output) : ending :=
  match s with
  | SOk => Exit 0 o
  | SErr => Exit (-1) o
  | SUB => Undef
  | SFuel => NoFuel
  end.
(** ftwin.c:104-128 *)
Definition report (g : cfg) (c : conf) (l : list (path * finfo)) : ending :=
  let has := is_set (g_mask g) in
  if has OPTION_PUZZL then
    let '(_, t, s) := run_image vec (o_decode w) (o_close w (g_level g)) (g_sep g) c l in finish s (OImages t)
  else if has OPTION_JSON then
    let s := snd (run_json (hash g) (o_junk w) (compare g) (o_qsort w) (o_iter w) c l) in
    finish s (match run_document (o_gmt w) (o_mtime w) (hash g) (o_junk w) (compare g) (o_qsort w) (o_iter w) c l with
              | Some d => ODoc d | None => ONothing end)
  else
    let '(t, s) := run_output (hash g) (o_junk w) (compare g) (o_qsort w) (o_iter w) format_human_size
                     (style_of (g_sep g) (has OPTION_SIZED) (o_tty w)) c l in finish s (OText t).

(** a file is hashed or compared: some size occurs twice.  Only then is subpath read
    (ft_process.c:38, ft_report.c:161, ft_report_json.c:97). *)
Definition size_twice (c : conf) (l : list (path * finfo)) : bool :=
  let sizes := map (fun e => i_size (snd e)) (filter (fun e => (cf_minsize c <=? i_size (snd e)) && ((cf_maxsize c =? 0) || (i_size (snd e) <=? cf_maxsize c))) l) in
  negb (if (length (nodup Z.eq_dec sizes) =? length sizes)%nat then true else false).

(** run_ftwin_processing and the end of ftwin_main, ftwin.c:74-131 and 167-179 *)
Definition processing (fuel : nat) (u : setup R) : ending :=
  let g := u_cfg u in
  let c := w_conf (u_conf u) in
  match traverse fuel (u_conf u) (is_set (g_mask g) OPTION_JSON) (u_args u) with
  | WOk l =>
      if is_set (g_mask g) OPTION_UNTAR && negb (is_set (g_mask g) OPTION_PUZZL) && size_twice c l then UndefSubpath
      else report g c l
  | WErr _ => Exit (-1) ONothing
  | WUB => Undef
  | WFuel => NoFuel
  end.

(** ftwin_main, ftwin.c:133-180; [e] is how apr_getopt_long ended *)
Definition ftwin_main (fuel : nat) (os : list opt) (e : getopt_end) (args : list path) : ending :=
  if asks_info (cfg_create (o_cpus w)) os then Exit 0 OInfo
  else if usage_error (o_cpus w) os args then Exit 1 OInfo
  else match parse_args (o_compile w) (o_pcre w) (o_cpus w) os e args (o_uid w) (o_groups w) (o_egid w) with
       | SetOk u => processing fuel u
       | SetErr => Exit (-1) ONothing
       | SetUndef => Undef
       | SetNum => Unmodelled
       end.
End Main.
