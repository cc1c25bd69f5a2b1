(** Python's string operations used in the pre-processing, for ASCII strings.
    Definitions only. *)
From Coq Require Import List Arith Bool String Ascii.
Import ListNotations.
Open Scope string_scope.

(** [p in s] *)
Fixpoint contains (p s : string) : bool :=
  prefix p s || match s with EmptyString => false | String _ r => contains p r end.

(** [s.startswith(p)] is [prefix p s]; [s.endswith(p)] *)
Fixpoint endswith (p s : string) : bool :=
  String.eqb p s || match s with EmptyString => false | String _ r => endswith p r end.

(** [s.replace(p, q)] for a non-empty [p]: occurrences from the left, without overlap.
    [skip] is the number of characters of the current occurrence which are left. *)
Fixpoint replace_from (p q : string) (skip : nat) (s : string) : string :=
  match s with
  | EmptyString => EmptyString
  | String c r =>
      match skip with
      | S k => replace_from p q k r
      | O => if prefix p s then q ++ replace_from p q (String.length p - 1) r
             else String c (replace_from p q 0 r)
      end
  end.
Definition replace (p q s : string) : string := replace_from p q 0 s.

(** Character classes of regular expressions. *)
Definition between (lo hi c : ascii) : bool :=
  Nat.leb (nat_of_ascii lo) (nat_of_ascii c) && Nat.leb (nat_of_ascii c) (nat_of_ascii hi).
Definition is_lower (c : ascii) : bool := between "a" "z" c.
Definition is_upper (c : ascii) : bool := between "A" "Z" c.
Definition is_letter (c : ascii) : bool := is_lower c || is_upper c.
Definition is_digit (c : ascii) : bool := between "0" "9" c.
(** [\w] *)
Definition is_word (c : ascii) : bool := is_letter c || is_digit c || Ascii.eqb c "_".
(** [[A-Za-z_]] *)
Definition is_name (c : ascii) : bool := is_letter c || Ascii.eqb c "_".

(** [s.lower()] and [s.title()]: the first letter of each sequence of letters in upper
    case, all others in lower case. *)
Definition to_lower (c : ascii) : ascii :=
  if is_upper c then ascii_of_nat (nat_of_ascii c + 32) else c.
Definition to_upper (c : ascii) : ascii :=
  if is_lower c then ascii_of_nat (nat_of_ascii c - 32) else c.
Fixpoint lower (s : string) : string :=
  match s with EmptyString => EmptyString | String c r => String (to_lower c) (lower r) end.
Fixpoint title_from (in_word : bool) (s : string) : string :=
  match s with
  | EmptyString => EmptyString
  | String c r => String (if in_word then to_lower c else to_upper c) (title_from (is_letter c) r)
  end.
Definition title (s : string) : string := title_from false s.

(** The longest prefix of [s] of characters in [cls], and the rest. *)
Fixpoint span (cls : ascii -> bool) (s : string) : string * string :=
  match s with
  | EmptyString => (EmptyString, EmptyString)
  | String c r => if cls c then let '(a, b) := span cls r in (String c a, b) else (EmptyString, s)
  end.

(** A word ends before [s] if it follows a word character. *)
Definition word_ends (s : string) : bool :=
  match s with EmptyString => true | String c _ => negb (is_word c) end.

(** The part of [s] after the prefix [p]. *)
Fixpoint after_prefix (p s : string) : option string :=
  match p, s with
  | EmptyString, _ => Some s
  | String a p', String b s' => if Ascii.eqb a b then after_prefix p' s' else None
  | String _ _, EmptyString => None
  end.

(** Match of the regular expression [p([cls]+)\b] at the beginning of [s]: the group and
    the rest.  All characters in [cls] are word characters, so a shorter match of the group
    does not end a word. *)
Definition match_here (p : string) (cls : ascii -> bool) (s : string) : option (string * string) :=
  match after_prefix p s with
  | None => None
  | Some r => let '(g, rest) := span cls r in
              if negb (String.eqb g EmptyString) && word_ends rest then Some (g, rest) else None
  end.

(** [re.findall(r"\bp([cls]+)\b", s)] where [p] begins with a word character; [in_word]
    tells whether the previous character is a word character, [skip] is the number of
    characters of the current match which are left. *)
Fixpoint findall_from (p : string) (cls : ascii -> bool) (in_word : bool) (skip : nat) (s : string)
  : list string :=
  match s with
  | EmptyString => []
  | String c r =>
      match skip with
      | S k => findall_from p cls (is_word c) k r
      | O => match (if in_word then None else match_here p cls s) with
             | Some (g, _) =>
                 g :: findall_from p cls (is_word c) (String.length p + String.length g - 1) r
             | None => findall_from p cls (is_word c) 0 r
             end
      end
  end.
Definition findall (p : string) (cls : ascii -> bool) (s : string) : list string :=
  findall_from p cls false 0 s.
(** [.str.extract(r"\bp([cls]+)\b")]: the first match. *)
Definition extract (p : string) (cls : ascii -> bool) (s : string) : option string :=
  hd_error (findall p cls s).
