(** Specification of ignore patterns, independent of the translation: a pattern is a list of
    tokens, its text and its meaning are given token by token. *)
From Coq Require Import String Ascii.
From Verif Require Import Util IgnoreModel.
Local Open Scope list_scope.
Local Open Scope N_scope.

Inductive tok :=
| GLit (c : N)                    (* a character that stands for itself *)
| GEsc (c : N)                    (* backslash and a character *)
| GOne                            (* ? *)
| GStar                           (* * *)
| GDeep                           (* ** *)
| GDirs                           (* ** and a slash *)
| GSet (l : list (N * N)).        (* [..] with ranges or single characters *)

(** how a token is written *)
Definition item_text (i : N * N) : str := if fst i =? snd i then [fst i] else [fst i; chr "-"; snd i].
Definition tok_src (t : tok) : str :=
  match t with
  | GLit c => [c]
  | GEsc c => [chr "\"; c]
  | GOne => lit "?"
  | GStar => lit "*"
  | GDeep => lit "**"
  | GDirs => lit "**/"
  | GSet l => lit "[" ++ concat (map item_text l) ++ lit "]"
  end.
Definition src (ts : list tok) : str := concat (map tok_src ts).

(** what a token stands for: part of a path *)
Definition tok_means (t : tok) (x : str) : Prop :=
  match t with
  | GLit c | GEsc c => x = [c]
  | GOne => exists c, x = [c] /\ c <> chr "/"
  | GStar => ~ In (chr "/") x
  | GDeep => True
  | GDirs => x = [] \/ exists d, x = d ++ [chr "/"]     (* zero or more directories *)
  | GSet l => exists c lo hi, x = [c] /\ In (lo, hi) l /\ lo <= c <= hi
  end.
Fixpoint means (ts : list tok) (s : str) : Prop :=
  match ts with
  | [] => s = []
  | t :: ts' => exists x y, s = x ++ y /\ tok_means t x /\ means ts' y
  end.

(** [t] is the path or, unless anchored, what follows one of its slashes *)
Definition tail_of (anchored : bool) (path t : str) : Prop :=
  t = path \/ anchored = false /\ exists b, path = b ++ chr "/" :: t.
(** the pattern hits the path; a pattern for directories also what lies below *)
Definition hits (anchored dir : bool) (ts : list tok) (path : str) : Prop :=
  exists t, tail_of anchored path t /\
    if dir then exists x y, t = x ++ y /\ means ts x /\ (y = [] \/ exists z, y = chr "/" :: z)
    else means ts t.

(** ** Patterns covered *)
Definition letter_or_digit (c : N) : Prop := 48 <= c <= 57 \/ 65 <= c <= 90 \/ 97 <= c <= 122.
Definition tok_ok (t : tok) : Prop :=
  match t with
  | GLit c => ~ In c (lit "*?[\")
  | GEsc c => ~ letter_or_digit c
  | GSet l => l <> [] /\ Forall (fun i => letter_or_digit (fst i) /\ letter_or_digit (snd i) /\ fst i <= snd i) l
  | _ => True
  end.
(** two tokens whose texts do not run together *)
Definition apart (t u : tok) : Prop :=
  match t with
  | GStar => match u with GStar | GDeep | GDirs => False | _ => True end
  | GDeep => u <> GLit (chr "/")
  | _ => True
  end.
Fixpoint toks_ok (ts : list tok) : Prop :=
  match ts with
  | [] => True
  | t :: ts' => tok_ok t /\ (match ts' with u :: _ => apart t u | [] => True end) /\ toks_ok ts'
  end.

(** a line of an ignore file: optional !, optional leading slash, tokens, optional
    trailing slash *)
Definition line (neg anchored dir : bool) (ts : list tok) : str :=
  (if neg then lit "!" else []) ++ (if anchored then lit "/" else []) ++ src ts ++ (if dir then lit "/" else []).
(** the first character is not one of the optional ones, a comment sign or white space; the
    last one is not a slash or white space; two stars are not followed by the final slash *)
Definition start_ok (neg anchored : bool) (ts : list tok) : Prop :=
  exists c s, src ts = c :: s /\
    (anchored = false -> isspace c = false /\ c <> chr "/" /\ (neg = false -> c <> chr "!" /\ c <> chr "#")).
Definition end_ok (dir : bool) (ts : list tok) : Prop :=
  if dir then last ts GOne <> GDeep
  else exists s c, src ts = s ++ [c] /\ isspace c = false /\ c <> chr "/".

(** ** Decisions *)
Section Decide.
Variable R : Type.
Variable exec : R -> str -> bool.
(** the pattern applies to the path, given relative to the directory of the ignore file *)
Definition applies (p : pat R) (rel : str) (is_dir : bool) : Prop :=
  (g_dir (p_flags p) = true -> is_dir = true) /\ exec (p_re p) rel = true.
(** [p] is the last pattern of the list that applies *)
Definition last_applying (ps : list (pat R)) (rel : str) (is_dir : bool) (p : pat R) : Prop :=
  exists a b, ps = a ++ p :: b /\ applies p rel is_dir /\ Forall (fun q => ~ applies q rel is_dir) b.
(** [rel] is the path relative to [base] *)
Definition relative (base path rel : str) : Prop :=
  exists k, path = base ++ repeat (chr "/") k ++ rel /\ hd 0 rel <> chr "/".
End Decide.
