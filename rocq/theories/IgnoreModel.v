(** Model of /repo/src/ft_ignore.c: ignore patterns.

    A C string is the list of its bytes before the terminating NUL.  pcre_compile and
    pcre_exec are parameters of the part on patterns and contexts; PcreSpec says what PCRE
    does with the expressions the translation produces. *)
From Coq Require Import String Ascii.
From Verif Require Import Util.
Local Open Scope list_scope.
Local Open Scope N_scope.

Definition str := list N.
Definition lit (s : string) : str := map N_of_ascii (list_ascii_of_string s).
Definition chr (a : ascii) : N := N_of_ascii a.

(** isspace of the C locale *)
Definition isspace (c : N) : bool := ((9 <=? c) && (c <=? 13)) || (c =? 32).
Fixpoint skip_spaces (s : str) : str :=
  match s with
  | c :: t => if isspace c then skip_spaces t else s
  | [] => []
  end.

Record gflags := mkGf { g_neg : bool; g_dir : bool }.

(** handle_negation_and_slashes, ft_ignore.c:63-96: flags, starts_with_slash, cursor.  The
    backward scan from the last character stops at the first one; when nothing is left it
    looks at the character before the cursor, which is a slash only if one was skipped. *)
Definition last_char (c : N) (t : str) : N := fold_left (fun a x => if isspace x then a else x) t c.
Definition handle_prefix (p : str) : gflags * bool * str :=
  let (neg, p1) := match p with
                   | c :: t => if c =? chr "!" then (true, skip_spaces t) else (false, p)
                   | [] => (false, [])
                   end in
  let (anch, p2) := match p1 with
                    | c :: t => if c =? chr "/" then (true, t) else (false, p1)
                    | [] => (false, [])
                    end in
  let dir := match p2 with
             | [] => anch
             | c :: t => last_char c t =? chr "/"
             end in
  (mkGf neg dir, anch, p2).

(** the loop of handle_char_class, ft_ignore.c:207-213: text copied, text left *)
Fixpoint class_body (s : str) : str * str :=
  match s with
  | [] => ([], [])
  | c :: t =>
    if c =? chr "]" then ([], s)
    else match t with
         | d :: t' => if c =? chr "\" then let (o, r) := class_body t' in (c :: d :: o, r)
                      else let (o, r) := class_body t in (c :: o, r)
         | [] => ([c], [])
         end
  end.
(** handle_char_class, ft_ignore.c:196-221; [s]: the text behind the bracket *)
Definition char_class (s : str) : str * str :=
  let (hd, s1) := match s with
                  | c :: t => if (c =? chr "!") || (c =? chr "^") then (lit "[^", t) else (lit "[", s)
                  | [] => (lit "[", [])
                  end in
  let (o, r) := class_body s1 in
  match r with
  | _ :: r' => (hd ++ o ++ lit "]", r')
  | [] => (hd ++ o, [])
  end.

(** strchr(".^$+{}()|", c) *)
Definition metachar (c : N) : bool := existsb (N.eqb c) (lit ".^$+{}()|").

(** convert_glob_body_to_pcre, ft_ignore.c:234-272, with handle_star (156-176) and
    handle_question_mark (184-188).  [None]: loop bound of the model reached, never with
    the length of the pattern as bound. *)
Fixpoint convert_body (fuel : nat) (dir : bool) (s : str) : option str :=
  match fuel with
  | O => match s with [] => Some [] | _ => None end
  | S fu =>
    let emit (o : str) (r : str) := option_map (app o) (convert_body fu dir r) in
    match s with
    | [] => Some []
    | c :: t =>
      if (c =? chr "/") && dir && match t with [] => true | _ => false end then Some []
      else if (c =? chr "\") && match t with [] => false | _ => true end then
        match t with d :: t' => emit [chr "\"; d] t' | [] => None end
      else if c =? chr "*" then
        match t with
        | d :: t1 => if d =? chr "*" then
                       match t1 with
                       | e :: t2 => if e =? chr "/" then emit (lit "(.*/)?") t2 else emit (lit ".*") t1
                       | [] => emit (lit ".*") []
                       end
                     else emit (lit "[^/]*") t
        | [] => emit (lit "[^/]*") []
        end
      else if c =? chr "?" then emit (lit "[^/]") t
      else if c =? chr "[" then let (o, r) := char_class t in emit o r
      else if metachar c then emit [chr "\"; c] t
      else emit [c] t
    end
  end.

(** MAX_PATTERN_LEN, ft_ignore.c:40 *)
Definition MAX_PATTERN_LEN : N := 4096.

(** ft_glob_to_pcre, ft_ignore.c:274-301, with set_pcre_anchors (134-147).  The characters
    are written one behind the other and a NUL behind the last, so the buffer is overrun
    when they do not fit: [GOver]. *)
Inductive gres := GOk (f : gflags) (re : str) | GOver | GFuel.
Definition glob_to_pcre (p : str) : gres :=
  let '(f, anch, cur) := handle_prefix p in
  match convert_body (length cur) (g_dir f) cur with
  | None => GFuel
  | Some b =>
    let re := (if anch then lit "^" else lit "(^|/)") ++ b ++ (if g_dir f then lit "(/|$)" else lit "$") in
    if N.of_nat (length re) <? MAX_PATTERN_LEN then GOk f re else GOver
  end.

Section Patterns.
Variable R : Type.
Variable compile : str -> option R.       (* pcre_compile, None if it fails *)
Variable exec : R -> str -> bool.         (* pcre_exec >= 0 *)

Record pat := mkPat { p_re : R; p_flags : gflags }.
Record ctx := mkCtx { c_base : str; c_pats : list pat }.

(** ft_ignore_add_pattern_str, ft_ignore.c:316-357; [None]: buffer overrun.  The status is
    ignored by both callers (ft_config.c:170, ft_ignore.c:381). *)
Definition add_pattern (c : ctx) (line : str) : option ctx :=
  match skip_spaces line with
  | [] => Some c
  | h :: t =>
    if h =? chr "#" then Some c
    else match glob_to_pcre (h :: t) with
         | GOk f re => match compile re with
                       | None => Some c
                       | Some r => Some (mkCtx (c_base c) (c_pats c ++ [mkPat r f]))
                       end
         | _ => None
         end
  end.

(** apr_file_gets into a buffer of [n] + 1 bytes: at most [n] bytes, through the newline *)
Fixpoint get_line (n : nat) (s : str) : str * str :=
  match n, s with
  | S n', c :: t => if c =? 10 then ([c], t) else let (l, r) := get_line n' t in (c :: l, r)
  | _, _ => ([], s)
  end.
(** the bytes before the first NUL *)
Fixpoint until_nul (s : str) : str :=
  match s with c :: t => if c =? 0 then [] else c :: until_nul t | [] => [] end.
Definition chop (c : N) (l : str) : str :=
  match rev l with d :: r => if d =? c then rev r else l | [] => l end.
(** ft_ignore_load_file, ft_ignore.c:359-386, for a file that can be opened; [n] is
    sizeof(line) - 1.  Read errors end the loop like the end of the file. *)
Fixpoint load_lines (fuel n : nat) (c : ctx) (s : str) : option ctx :=
  match fuel, s with
  | _, [] => Some c
  | O, _ => None
  | S fu, _ =>
    let (l, r) := get_line n s in
    match add_pattern c (chop 13 (chop 10 (until_nul l))) with
    | Some c' => load_lines fu n c' r
    | None => None
    end
  end.
Definition load_file (n : nat) (c : ctx) (s : str) : option ctx := load_lines (length s) n c s.

(** ft_ignore_match_result_t, ft_ignore.h *)
Inductive mres := MNone | MIgnored | MWhite.

(** strncmp(path, base, strlen(base)) == 0, and the text behind *)
Fixpoint after_base (base path : str) : option str :=
  match base, path with
  | [], _ => Some path
  | b :: base', x :: path' => if b =? x then after_base base' path' else None
  | _, [] => None
  end.
Fixpoint skip_slashes (s : str) : str :=
  match s with c :: t => if c =? chr "/" then skip_slashes t else s | [] => [] end.

(** the loop over the patterns of one context, ft_ignore.c:416-438 *)
Fixpoint match_pats (ps : list pat) (rel : str) (is_dir : bool) (res : mres) : mres :=
  match ps with
  | [] => res
  | p :: r =>
    if g_dir (p_flags p) && negb is_dir then match_pats r rel is_dir res
    else if exec (p_re p) rel then match_pats r rel is_dir (if g_neg (p_flags p) then MWhite else MIgnored)
    else match_pats r rel is_dir res
  end.
(** ft_ignore_match, ft_ignore.c:388-442; the context and its parents, innermost first *)
Fixpoint match_chain (cs : list ctx) (path : str) (is_dir : bool) (res : mres) : mres :=
  match cs with
  | [] => res
  | c :: r =>
    match after_base (c_base c) path with
    | Some rel => match_chain r path is_dir (match_pats (c_pats c) (skip_slashes rel) is_dir res)
    | None => match_chain r path is_dir res
    end
  end.
Definition ignore_match (cs : list ctx) (path : str) (is_dir : bool) : mres := match_chain cs path is_dir MNone.
End Patterns.
Arguments mkPat {R}. Arguments p_re {R}. Arguments p_flags {R}.
Arguments mkCtx {R}. Arguments c_base {R}. Arguments c_pats {R}.

(** default_ignores, ft_config.c:60-71 *)
Definition default_ignores : list str := map lit
  [".git/"; ".hg/"; ".svn/"; "build/"; "dist/"; "out/"; "target/"; "bin/"; "*.o"; "*.class"; "*.pyc"; "*.pyo";
   "node_modules/"; "vendor/"; ".venv/"; ".DS_Store"; "Thumbs.db"; "*.swp"; "*~"; ".idea/"; ".vscode/"]%string.
