(** What PCRE (pcrepattern(3), options 0, bytes, newline = LF) does with the regular
    expressions that the translation of ignore patterns produces: a reader for a subset of
    the syntax and the meaning of an expression.  Part of the trusted base: this is a
    specification of a library, not a model of code in /repo.  Constructs outside the
    subset (back references, lazy and possessive quantifiers, repetition counts, escapes of
    letters and digits other than \d, POSIX classes) are rejected by the reader. *)
From Coq Require Import String Ascii.
From Verif Require Import Util IgnoreModel.
Local Open Scope list_scope.
Local Open Scope N_scope.

Inductive re :=
| Eps
| Chr (c : N)                            (* this byte *)
| Any                                    (* dot: any byte except newline *)
| Set_ (neg : bool) (l : list (N * N))   (* bracket expression, a list of ranges *)
| Bol                                    (* circumflex: start of the subject *)
| Eol                                    (* dollar: end, or before a newline at the end *)
| Seq (a b : re) | Alt (a b : re) | Star (a : re) | Opt (a : re).

Definition alnum (c : N) : bool :=
  ((48 <=? c) && (c <=? 57)) || ((65 <=? c) && (c <=? 90)) || ((97 <=? c) && (c <=? 122)).

(** ** Reading *)
(** items of a bracket expression up to the closing bracket; [first]: at its beginning,
    where a closing bracket is an ordinary character *)
Fixpoint read_set (fuel : nat) (first : bool) (s : str) : option (list (N * N) * str) :=
  match fuel with
  | O => None
  | S fu =>
    match s with
    | [] => None
    | c :: t =>
      if (c =? chr "]") && negb first then Some ([], t)
      else if c =? chr "[" then None                    (* could begin a POSIX class *)
      else
        (* one character, possibly escaped *)
        match (if c =? chr "\" then match t with d :: t' => if alnum d then None else Some (d, t') | [] => None end
               else Some (c, t)) with
        | None => None
        | Some (lo, t1) =>
          match t1 with
          | m :: h :: t2 =>
            if (m =? chr "-") && negb (h =? chr "]") then
              if (h =? chr "\") || (h =? chr "[") || (h <? lo) then None
              else match read_set fu false t2 with Some (l, r) => Some ((lo, h) :: l, r) | None => None end
            else match read_set fu false t1 with Some (l, r) => Some ((lo, lo) :: l, r) | None => None end
          | _ => match read_set fu false t1 with Some (l, r) => Some ((lo, lo) :: l, r) | None => None end
          end
        end
    end
  end.

Definition quant_char (c : N) : bool := existsb (N.eqb c) (lit "*?+{").
(** a quantifier behind an atom *)
Definition read_quant (a : re) (s : str) : option (re * str) :=
  match s with
  | c :: t =>
    if quant_char c then
      match t with
      | d :: _ => if quant_char d then None
                  else if c =? chr "*" then Some (Star a, t) else if c =? chr "?" then Some (Opt a, t)
                  else if c =? chr "+" then Some (Seq a (Star a), t) else None
      | [] => if c =? chr "*" then Some (Star a, t) else if c =? chr "?" then Some (Opt a, t)
              else if c =? chr "+" then Some (Seq a (Star a), t) else None
      end
    else Some (a, s)
  | [] => Some (a, [])
  end.

Fixpoint read_alts (fuel : nat) (s : str) : option (re * str) :=
  match fuel with
  | O => None
  | S fu =>
    match read_branch fu s with
    | Some (r, c :: t) =>
      if c =? chr "|" then match read_alts fu t with Some (r2, u) => Some (Alt r r2, u) | None => None end
      else Some (r, c :: t)
    | x => x
    end
  end
with read_branch (fuel : nat) (s : str) : option (re * str) :=
  match fuel with
  | O => None
  | S fu =>
    match s with
    | [] => Some (Eps, [])
    | c :: _ =>
      if (c =? chr "|") || (c =? chr ")") then Some (Eps, s)
      else match read_atom fu s with
           | None => None
           | Some (a, t) =>
             match read_quant a t with
             | None => None
             | Some (q, u) => match read_branch fu u with Some (r, v) => Some (Seq q r, v) | None => None end
             end
           end
    end
  end
with read_atom (fuel : nat) (s : str) : option (re * str) :=
  match fuel with
  | O => None
  | S fu =>
    match s with
    | [] => None
    | c :: t =>
      if c =? chr "(" then
        match read_alts fu t with
        | Some (r, d :: u) => if d =? chr ")" then Some (r, u) else None
        | _ => None
        end
      else if c =? chr "[" then
        match t with
        | d :: t' =>
          if d =? chr "^" then match read_set fu true t' with Some (l, u) => Some (Set_ true l, u) | None => None end
          else match read_set fu true t with Some (l, u) => Some (Set_ false l, u) | None => None end
        | [] => None
        end
      else if c =? chr "." then Some (Any, t)
      else if c =? chr "^" then Some (Bol, t)
      else if c =? chr "$" then Some (Eol, t)
      else if c =? chr "\" then
        match t with
        | d :: t' => if d =? chr "d" then Some (Set_ false [(48, 57)], t')
                     else if alnum d then None else Some (Chr d, t')
        | [] => None
        end
      else if quant_char c then None
      else Some (Chr c, t)
    end
  end.
(** the expression denoted by a text *)
Definition pcre_read (s : str) : option re :=
  match read_alts (16 + 2 * length s) s with
  | Some (r, []) => Some r
  | _ => None
  end.

(** ** Meaning: [matches r before mid after] says that [r] matches [mid] inside the subject
    [before ++ mid ++ after] *)
Inductive star (P : str -> str -> str -> Prop) : str -> str -> str -> Prop :=
| star_nil before after : star P before [] after
| star_cons before x y after : P before x (y ++ after) -> star P (before ++ x) y after -> star P before (x ++ y) after.
Definition in_set (l : list (N * N)) (c : N) : Prop := exists lo hi, In (lo, hi) l /\ lo <= c <= hi.
Fixpoint matches (r : re) (before mid after : str) : Prop :=
  match r with
  | Eps => mid = []
  | Chr c => mid = [c]
  | Any => exists c, mid = [c] /\ c <> 10
  | Set_ neg l => exists c, mid = [c] /\ if neg then ~ in_set l c else in_set l c
  | Bol => mid = [] /\ before = []
  | Eol => mid = [] /\ (after = [] \/ after = [10])
  | Seq a b => exists x y, mid = x ++ y /\ matches a before x (y ++ after) /\ matches b (before ++ x) y after
  | Alt a b => matches a before mid after \/ matches b before mid after
  | Star a => star (matches a) before mid after
  | Opt a => mid = [] \/ matches a before mid after
  end.
(** pcre_exec finds a match somewhere in the subject (its limits are not reached) *)
Definition found (r : re) (subject : str) : Prop :=
  exists before mid after, subject = before ++ mid ++ after /\ matches r before mid after.
