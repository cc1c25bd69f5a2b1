(** What is claimed about names of choices, labels and columns. *)
From Coq Require Import List Arith Bool String Ascii Sorted.
From Verif Require Import Base Model_Strings Model_Cache Model_Choices.
Import ListNotations.
Open Scope string_scope.

Fixpoint all_chars (cls : ascii -> bool) (s : string) : bool :=
  match s with EmptyString => true | String c r => cls c && all_chars cls r end.

(** Words: letters, digits and underscores.  Names of choices that are recognised: letters
    and underscores, at least one. *)
Definition word (s : string) : Prop := all_chars is_word s = true.
Definition well_named (c : string) : Prop := c <> "" /\ all_chars is_name c = true.

(** [s] is used as a word of [text]: what is before does not end, what is after does not
    begin with a word character. *)
Definition word_of (s text : string) : Prop :=
  exists a b, text = a ++ s ++ b /\
    (a = "" \/ exists a' x, a = a' ++ String x "" /\ is_word x = false) /\
    (b = "" \/ exists x b', b = String x b' /\ is_word x = false).

(** The specification of a model has wage parameters, non-pecuniary parameters, or uses
    experience in the choice [c]: in the name of a parameter or in the formula of a
    covariate that is a parameter. *)
Definition has_wage (idx : index) (c : string) : Prop :=
  well_named c /\ In ("wage_" ++ c) (map fst idx).
Definition has_nonpec (idx : index) (c : string) : Prop :=
  well_named c /\ In ("nonpec_" ++ c) (map fst idx).
Definition uses_experience (idx : index) (covariates : list (string * string)) (c : string) : Prop :=
  well_named c /\
  ((exists name, In name (map snd idx) /\ word_of ("exp_" ++ c) name) \/
   (exists name formula, In (name, formula) covariates /\ In name (map snd idx) /\
      word_of ("exp_" ++ c) formula)).

(** Strictly increasing in the order of strings. *)
Definition alphabetical (l : list string) : Prop :=
  StronglySorted (fun a b => String.compare a b = Lt) l.

(** [l] lists exactly the strings with [P], in alphabetical order. *)
Definition lists_alphabetically (l : list string) (P : string -> Prop) : Prop :=
  alphabetical l /\ forall c, In c l <-> P c.

(** ** Formulas as text and quoted labels *)

Inductive segment :=
| Text (s : string)
| Quoted (single : bool) (label : string).
Definition quote (single : bool) : string := if single then single_quote else double_quote.
Definition render_segment (g : segment) : string :=
  match g with Text s => s | Quoted q l => quote q ++ l ++ quote q end.
Fixpoint render (f : list segment) : string :=
  match f with [] => "" | g :: r => render_segment g ++ render r end.

Definition is_quote (c : ascii) : bool :=
  Ascii.eqb c (ascii_of_nat 39) || Ascii.eqb c (ascii_of_nat 34).
Definition without_quotes (s : string) : Prop := all_chars (fun c => negb (is_quote c)) s = true.

(** Texts contain no quotes, labels consist of characters in [cls] (none of them a quote),
    and between two quoted labels there is a character, such as an operator, which is not
    in [cls].  [need]: such a character is still to come. *)
Fixpoint separated (cls : ascii -> bool) (need : bool) (f : list segment) : Prop :=
  match f with
  | [] => True
  | Text s :: r => without_quotes s /\ separated cls (need && all_chars cls s) r
  | Quoted _ l :: r => need = false /\ all_chars cls l = true /\ separated cls true r
  end.

(** The code a label is replaced with: the position in the list of choices or else in the
    levels of the first observable with that level. *)
Fixpoint position (l : string) (ls : list string) (i : nat) : option nat :=
  match ls with
  | [] => None
  | x :: r => if String.eqb l x then Some i else position l r (S i)
  end.
Fixpoint level_position (l : string) (ls : list level) (i : nat) : option nat :=
  match ls with
  | [] => None
  | Label x :: r => if String.eqb l x then Some i else level_position l r (S i)
  | Number _ :: r => level_position l r (S i)
  end.
Fixpoint observable_code (l : string) (observables : list (string * list level)) : option nat :=
  match observables with
  | [] => None
  | o :: r => match level_position l (snd o) 0 with Some i => Some i | None => observable_code l r end
  end.
Definition formula_code (choices : list string) (observables : list (string * list level))
  (l : string) : option nat :=
  match position l choices 0 with Some i => Some i | None => observable_code l observables end.

(** The formula with every known label replaced. *)
Definition coded (code : string -> option nat) (g : segment) : segment :=
  match g with
  | Text s => Text s
  | Quoted q l => match code l with Some i => Text (dec i) | None => Quoted q l end
  end.

(** All labels that can be replaced. *)
Definition labels_of (choices : list string) (observables : list (string * list level)) : list string :=
  choices ++ flat_map (fun o => flat_map (fun l => match l with Label s => [s] | Number _ => [] end)
                                  (snd o)) observables.

(** ** Columns *)
Definition no_upper (s : string) : Prop := all_chars (fun c => negb (is_upper c)) s = true.
(** Every occurrence of "exp" is at the beginning of a sequence of letters. *)
Definition exp_starts_words (s : string) : Prop :=
  forall a b, s = a ++ "exp" ++ b ->
    a = "" \/ exists a' x, a = a' ++ String x "" /\ is_letter x = false.
