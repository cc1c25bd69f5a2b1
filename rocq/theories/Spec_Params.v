(** What is claimed about the parsing of parameters. *)
From Coq Require Import List Arith Bool String Ascii Reals Sorted.
From Verif Require Import Base Model_Strings Model_Choices Spec_Choices Spec_Solve Model_Params.
Import ListNotations.
Open Scope string_scope.

(** The parameter [p] belongs to the group and describes the level written as [s]. *)
Definition describes (ext : string -> option string) (params : list param) (p : param) (s : string) : Prop :=
  In p params /\ ext (p_category p) = Some s.

(** Levels are numbers if all levels of the group are written with digits only. *)
Definition numeric_levels (ext : string -> option string) (params : list param) : Prop :=
  forall p s, describes ext params p s -> all_digits s = true.
Inductive level_of (ext : string -> option string) (params : list param) (s : string) : level -> Prop :=
| level_number : numeric_levels ext params -> level_of ext params s (Number (digits_value 0 s))
| level_label : ~ numeric_levels ext params -> level_of ext params s (Label s).

(** No two parameters of the group describe the same level. *)
Definition distinct_levels (ext : string -> option string) (params : list param) : Prop :=
  forall i j p q s t l, nth_error params i = Some p -> nth_error params j = Some q ->
    ext (p_category p) = Some s -> ext (p_category q) = Some t ->
    level_of ext params s l -> level_of ext params t l -> i = j.

(** The sum of the values of the group. *)
Definition group_total (ext : string -> option string) (params : list param) : R :=
  rsum (map snd (filter (fun p => match ext (p_category p) with Some _ => true | None => false end) params)).

Definition level_lt (x y : level) : Prop := level_leb x y = true /\ x <> y.

(** Multinomial logit probabilities if all covariates but the constant are zero. *)
Definition logit_index (rows : list (string * R)) : R :=
  rsum (map snd (filter (fun r => String.eqb (fst r) "constant") rows)).
Definition logit_probability (c : container) (l : level) : R :=
  match dict_get level_eq_dec l c with
  | Some rows => (exp (logit_index rows) / rsum (map (fun lr => exp (logit_index (snd lr))) c))%R
  | None => 0%R
  end.

(** ** Types *)

(** [i] is the number of a type in the name of a parameter. *)
Definition type_named (params : list param) (i : nat) : Prop :=
  exists p d, In p params /\ p_name p = "type_" ++ d /\ all_digits d = true /\ digits_value 0 d = i.

(** ** Lagged choices *)

(** The formula mentions the lagged choice with number [i]. *)
Definition mentions_lag (formula : string) (i : nat) : Prop :=
  exists a d b, formula = a ++ "lagged_choice_" ++ d ++ b /\ all_digits d = true /\ digits_value 0 d = i /\
    match b with String c _ => is_digit c = false | EmptyString => True end.

(** ** Names of observables *)

(** A category of an observable: name and level. *)
Definition observable_category (keyword : string) (nl : string * string) : string :=
  keyword ++ "_" ++ fst nl ++ "_" ++ snd nl.
Definition substring (a b : string) : Prop := exists x y, b = x ++ a ++ y.
Definition proper_name (n : string) : Prop := n <> "" /\ ~ exists m, n = m ++ "_".
(** Each of the rows is a name, which has at least two rows, and a level without
    underscore. *)
Definition simple_rows (rows : list (string * string)) : Prop :=
  forall n l, In (n, l) rows ->
    proper_name n /\ ~ substring "_" l /\ (2 <= count_occ string_dec (map fst rows) n)%nat.

(** ** Shocks and measurement errors *)

Definition kind_name (k : shock_kind) : string :=
  match k with Sdcorr => "sdcorr" | Cov => "cov" | Chol => "chol" end.
(** All parameters that mention a matrix of shocks are of the kind [k], and there are some. *)
Definition shocks_of_kind (params : list param) (k : shock_kind) : Prop :=
  (exists p, In p params /\ p_category p = "shocks_" ++ kind_name k) /\
  forall p k', In p params ->
    substring ("shocks_" ++ kind_name k') (p_category p) \/ substring ("shocks_" ++ kind_name k') (p_name p) ->
    p_category p = "shocks_" ++ kind_name k.
(** The names of the parameters of the shocks in the order of the parameters. *)
Definition shock_names (params : list param) (k : shock_kind) : list string :=
  map p_name (filter (fun p => String.eqb (p_category p) ("shocks_" ++ kind_name k)) params).

(** Number of entries before row [i] in the lower triangle, without and with the diagonal. *)
Fixpoint entries_below (i : nat) : nat := match i with O => O | S j => (entries_below j + j)%nat end.
Fixpoint entries_until (i : nat) : nat := match i with O => O | S j => (entries_until j + S j)%nat end.

(** [names] are standard deviations, then correlations row by row; or all entries of the
    lower triangle row by row. *)
Definition sd_corr_order (choices names : list string) : Prop :=
  (List.length names = List.length choices + entries_below (List.length choices) /\
  (forall i c, nth_error choices i = Some c -> nth_error names i = Some ("sd_" ++ c)%string) /\
  (forall i j c d, j < i -> nth_error choices i = Some c -> nth_error choices j = Some d ->
     nth_error names (List.length choices + entries_below i + j) = Some ("corr_" ++ c ++ "_" ++ d)%string))%nat.
Definition triangle_order (on_diagonal below : string) (choices names : list string) : Prop :=
  (List.length names = entries_until (List.length choices) /\
  (forall i c, nth_error choices i = Some c ->
     nth_error names (entries_until i + i) = Some (on_diagonal ++ "_" ++ c)%string) /\
  (forall i j c d, j < i -> nth_error choices i = Some c -> nth_error choices j = Some d ->
     nth_error names (entries_until i + j) = Some (below ++ "_" ++ c ++ "_" ++ d)%string))%nat.
Definition required_order (k : shock_kind) : list string -> list string -> Prop :=
  match k with
  | Sdcorr => sd_corr_order
  | Cov => triangle_order "var" "cov"
  | Chol => triangle_order "chol" "chol"
  end.

(** The only value of a parameter. *)
Definition value_is (params : list param) (category name : string) (v : R) : Prop :=
  In (category, name, v) params /\ forall w, In (category, name, w) params -> w = v.
