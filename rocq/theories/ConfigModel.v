(** Model of /repo/src/ft_config.c: the configuration built from the command line.

    apr_getopt_long is part of APR: the model starts from the options it returns one after
    the other, the status that ends its loop and the arguments left.  Long option names,
    usage, version and error messages are left out.  The options are those of a build with
    HAVE_JANSSON. *)
From Coq Require Import String Ascii.
From Verif Require Import Util IgnoreModel HumanModel CollectModel WalkModel.
Local Open Scope list_scope.
Local Open Scope N_scope.

(** ft_types.h:36-47 *)
Definition OPTION_ICASE : N := 0x0001. Definition OPTION_FSYML : N := 0x0002.
Definition OPTION_RECSD : N := 0x0004. Definition OPTION_VERBO : N := 0x0008.
Definition OPTION_OPMEM : N := 0x0010. Definition OPTION_SIZED : N := 0x0040.
Definition OPTION_SHOW_HIDDEN : N := 0x0080. Definition OPTION_PUZZL : N := 0x0100.
Definition OPTION_UNTAR : N := 0x0200. Definition OPTION_DRY_RUN : N := 0x0400.
Definition OPTION_JSON : N := 0x0800.

(** is_option_set and set_option, ft_types.h:26-34, on the unsigned short conf->mask *)
Definition is_set (mask option : N) : bool := N.land mask option =? option.
Definition set_option (mask option : N) (on : bool) : N := if on then N.lor mask option else N.ldiff mask option.

(** The fields of struct ft_conf_t (ft_config.h:92-117) set by options, and the three
    expressions kept in local variables (ft_config.c:595-597).  [g_level]: the threshold as
    the level given to -T; the level of ft_config_create is 1. *)
Record cfg := mkCfg {
  g_mask : N; g_names : list path; g_ig : option str; g_wl : option str; g_ar : option str;
  g_prio : option path; g_sep : N; g_threads : Z; g_min : Z; g_max : Z; g_excess : Z; g_level : N }.
Definition with_mask (g : cfg) (m : N) : cfg :=
  mkCfg m (g_names g) (g_ig g) (g_wl g) (g_ar g) (g_prio g) (g_sep g) (g_threads g) (g_min g) (g_max g) (g_excess g) (g_level g).

(** ft_config_create, ft_config.c:223-272; [cpus]: ft_get_cpu_cores() *)
Definition cfg_create (cpus : Z) : cfg :=
  mkCfg OPTION_RECSD default_names None None None None 10 cpus 0 0 (50 * 1024 * 1024) 1.

(** an option as returned by apr_getopt_long; the argument is [] for options without one *)
Definition opt := (N * str)%type.
(** configuration; APR_EGENERAL (or exit); undefined behaviour; a number outside the model *)
Inductive pres := POk (g : cfg) | PErr | PUndef | PNum.

(** flag_mappings, ft_config.c:390-399 *)
Definition flag_mappings : list (N * N * bool) :=
  [(chr "a", OPTION_SHOW_HIDDEN, true); (chr "c", OPTION_ICASE, true); (chr "d", OPTION_SIZED, true);
   (chr "n", OPTION_DRY_RUN, true); (chr "f", OPTION_FSYML, true); (chr "o", OPTION_OPMEM, true);
   (chr "r", OPTION_RECSD, true); (chr "R", OPTION_RECSD, false)].
(** handle_flag_option, ft_config.c:401-416 *)
Fixpoint map_flag (l : list (N * N * bool)) (o : N) : option (N * bool) :=
  match l with
  | [] => None
  | (c, f, v) :: r => if c =? o then Some (f, v) else map_flag r o
  end.
Definition handle_flag (g : cfg) (o : N) : cfg :=
  match map_flag flag_mappings o with
  | Some (f, v) => with_mask g (set_option (g_mask g) f v)
  | None => if (o =? chr "v") && negb (is_set (g_mask g) OPTION_JSON)
            then with_mask g (set_option (g_mask g) OPTION_VERBO true) else g
  end.

(** handle_string_option, ft_config.c:418-441 *)
Definition handle_string (g : cfg) (o : N) (arg : str) : cfg :=
  if o =? chr "e" then mkCfg (g_mask g) (g_names g) (Some arg) (g_wl g) (g_ar g) (g_prio g) (g_sep g) (g_threads g) (g_min g) (g_max g) (g_excess g) (g_level g)
  else if o =? chr "i" then mkCfg (g_mask g) (add_names (g_names g) arg) (g_ig g) (g_wl g) (g_ar g) (g_prio g) (g_sep g) (g_threads g) (g_min g) (g_max g) (g_excess g) (g_level g)
  else if o =? chr "p" then mkCfg (g_mask g) (g_names g) (g_ig g) (g_wl g) (g_ar g) (Some arg) (g_sep g) (g_threads g) (g_min g) (g_max g) (g_excess g) (g_level g)
  else if o =? chr "s" then mkCfg (g_mask g) (g_names g) (g_ig g) (g_wl g) (g_ar g) (g_prio g) (hd 0 arg) (g_threads g) (g_min g) (g_max g) (g_excess g) (g_level g)
  else if o =? chr "w" then mkCfg (g_mask g) (g_names g) (g_ig g) (Some arg) (g_ar g) (g_prio g) (g_sep g) (g_threads g) (g_min g) (g_max g) (g_excess g) (g_level g)
  else g.

(** strtol with base 10: value, clamped to the range of long, and the text behind; without a
    number the value is 0 and nothing is consumed *)
Definition clamp (z : Z) : Z := Z.max (- 2 ^ 63) (Z.min (2 ^ 63 - 1) z).
Definition strtol (s : str) : Z * str :=
  let s1 := skip_spaces s in
  let (neg, s2) := match s1 with
                   | c :: t => if c =? chr "-" then (true, t) else if c =? chr "+" then (false, t) else (false, s1)
                   | [] => (false, [])
                   end in
  let '(a, n, r) := digits s2 0 0 in
  if (n =? 0)%nat then (0%Z, s) else (clamp (if neg then - a else a)%Z, r).

(** MAX_THREADS, ft_config.h:85 *)
Definition MAX_THREADS : Z := 256.
(** handle_numeric_option, ft_config.c:443-482 *)
Definition handle_size (arg : str) (k : Z -> cfg) : pres :=
  match parse_human_size arg with
  | PVal z => if (z <? 0)%Z then PErr else POk (k z)
  | PUB => PUndef
  | POther => PNum
  end.
Definition handle_numeric (g : cfg) (o : N) (arg : str) : pres :=
  if o =? chr "j" then
    let (z, rest) := strtol arg in
    if negb (match rest with [] => true | _ => false end) || (z <? 1)%Z || (MAX_THREADS <? z)%Z then PErr
    else POk (mkCfg (g_mask g) (g_names g) (g_ig g) (g_wl g) (g_ar g) (g_prio g) (g_sep g) z (g_min g) (g_max g) (g_excess g) (g_level g))
  else if o =? chr "m" then handle_size arg (fun z => mkCfg (g_mask g) (g_names g) (g_ig g) (g_wl g) (g_ar g) (g_prio g) (g_sep g) (g_threads g) z (g_max g) (g_excess g) (g_level g))
  else if o =? chr "M" then handle_size arg (fun z => mkCfg (g_mask g) (g_names g) (g_ig g) (g_wl g) (g_ar g) (g_prio g) (g_sep g) (g_threads g) (g_min g) z (g_excess g) (g_level g))
  else if o =? chr "x" then handle_size arg (fun z => mkCfg (g_mask g) (g_names g) (g_ig g) (g_wl g) (g_ar g) (g_prio g) (g_sep g) (g_threads g) (g_min g) (g_max g) z (g_level g))
  else POk g.

(** ft_config.c:496 and 563 *)
Definition image_regex : str := lit ".*\.(gif|png|jpe?g)$".
Definition archive_regex : str := lit ".*\.(tar\.gz|tgz|tar\.bz2|tbz2|tar\.xz|txz|zip|rar|7z|tar)$".
(** handle_special_option, ft_config.c:566-590, with handle_image_options (490-525),
    handle_informational_option (527-540), handle_json_option (546-553) and
    handle_archive_option (560-564) *)
Definition handle_special (g : cfg) (o : N) (arg : str) : pres :=
  if (o =? chr "h") || (o =? chr "V") then PErr
  else if o =? chr "I" then
    POk (mkCfg (set_option (set_option (g_mask g) OPTION_ICASE true) OPTION_PUZZL true) (g_names g) (g_ig g) (Some image_regex) (g_ar g)
               (g_prio g) (g_sep g) (g_threads g) (g_min g) (g_max g) (g_excess g) (g_level g))
  else if o =? chr "T" then
    let c := hd 0 arg in
    if (chr "1" <=? c) && (c <=? chr "5")
    then POk (mkCfg (g_mask g) (g_names g) (g_ig g) (g_wl g) (g_ar g) (g_prio g) (g_sep g) (g_threads g) (g_min g) (g_max g) (g_excess g) (c - chr "0"))
    else PErr
  else if o =? chr "J" then
    let m := set_option (g_mask g) OPTION_JSON true in
    POk (with_mask g (if is_set m OPTION_VERBO then set_option m OPTION_VERBO false else m))
  else if o =? chr "t" then
    POk (mkCfg (set_option (g_mask g) OPTION_UNTAR true) (g_names g) (g_ig g) (g_wl g) (Some archive_regex)
               (g_prio g) (g_sep g) (g_threads g) (g_min g) (g_max g) (g_excess g) (g_level g))
  else POk g.

(** process_options, ft_config.c:337-388 *)
Definition process_option (g : cfg) (x : opt) : pres :=
  let (o, arg) := x in
  if existsb (N.eqb o) (lit "acdnforRv") then POk (handle_flag g o)
  else if existsb (N.eqb o) (lit "eipsw") then POk (handle_string g o arg)
  else if existsb (N.eqb o) (lit "jmMx") then handle_numeric g o arg
  else if existsb (N.eqb o) (lit "hVITJt") then handle_special g o arg
  else POk g.

(** the loop, ft_config.c:611-620 *)
Fixpoint parse_opts (g : cfg) (os : list opt) : pres :=
  match os with
  | [] => POk g
  | x :: r => match process_option g x with POk g' => parse_opts g' r | e => e end
  end.

(** fill_gids_ht, ft_config.c:103-138: [groups] are the groups of the process for getgroups,
    which fails when they do not fit; the table is a list *)
Definition MAX_GIDS : nat := 256.
Definition fill_gids (groups : list N) (egid : N) : option (list N) :=
  if (length groups <=? MAX_GIDS)%nat
  then Some (groups ++ if (length groups <? MAX_GIDS)%nat then [egid] else [])
  else None.

(** how the loop over the options ends: APR_EOF; APR_BADCH or APR_BADARG *)
Inductive getopt_end := GEof | GBad.

Section Parse.
Variable R : Type.
Variable compile : str -> option R.                  (* pcre_compile of an ignore pattern *)
Variable pcre : bool -> str -> option (path -> bool).  (* ft_pcre_compile (ft_config.c:80-101) and pcre_exec >= 0; caseless first *)

(** ft_load_defaults, ft_config.c:167-172, into the context created in line 266 *)
Definition global_ignores : option (ctx R) :=
  fold_left (fun c p => match c with Some x => add_pattern R compile x p | None => None end)
            default_ignores (Some (mkCtx (lit "/") [])).

(** what the rest of the program gets *)
Record setup := mkSetup { u_cfg : cfg; u_conf : wconf R; u_args : list path }.
Inductive sres := SetOk (u : setup) | SetErr | SetUndef | SetNum.

Definition compile_opt (icase : bool) (r : option str) : option (option (path -> bool)) :=
  match r with
  | None => Some None
  | Some s => match pcre icase s with Some f => Some (Some f) | None => None end
  end.
(** ft_config_parse_args, ft_config.c:592-672.  The status that ends the loop is not looked
    at.  [uid]: apr_uid_current; apr_uid_name_get succeeds. *)
Definition parse_args (cpus : Z) (os : list opt) (e : getopt_end) (args : list path) (uid : N) (groups : list N) (egid : N) : sres :=
  match parse_opts (cfg_create cpus) os with
  | POk g =>
    match args with
    | [] => SetErr
    | _ =>
      match fill_gids groups egid, global_ignores with
      | Some gids, Some gl =>
        let icase := is_set (g_mask g) OPTION_ICASE in
        match compile_opt icase (g_ig g), compile_opt icase (g_wl g), compile_opt icase (g_ar g) with
        | Some ig, Some wl, Some _ =>
          SetOk (mkSetup g
            (mkW (mkConf (g_min g) (g_max g) uid gids (g_prio g) icase (is_set (g_mask g) OPTION_FSYML))
                 (is_set (g_mask g) OPTION_RECSD) (is_set (g_mask g) OPTION_SHOW_HIDDEN) (g_names g) ig wl true [gl]) args)
        | _, _, _ => SetErr
        end
      | None, _ => SetErr
      | _, None => SetUndef
      end
    end
  | PErr => SetErr
  | PUndef => SetUndef
  | PNum => SetNum
  end.
End Parse.
Arguments parse_args {R}. Arguments global_ignores {R}. Arguments SetOk {R}. Arguments mkSetup {R}.
Arguments u_cfg {R}. Arguments u_conf {R}. Arguments u_args {R}. Arguments SetErr {R}. Arguments SetUndef {R}. Arguments SetNum {R}.
