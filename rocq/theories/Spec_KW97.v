(** What is claimed about the preparation of the data of Keane and Wolpin. *)
From Coq Require Import List ZArith Bool String Reals.
From Verif Require Import Base Model_Data Model_KW97.
Import ListNotations.
Open Scope string_scope.
Open Scope Z_scope.

(** The meaning of the codes of choices. *)
Definition stands_for (code choice : string) : Prop :=
  (code = "1" /\ choice = "school") \/ (code = "2" /\ choice = "home") \/ (code = "3" /\ choice = "white_collar") \/
  (code = "4" /\ choice = "blue_collar") \/ (code = "5" /\ choice = "military").
Definition chose (w : raw) (choice : string) : Prop := exists code, w_code w = Some code /\ stands_for code choice.
(** The choice in a column of the table; [None] is a missing value. *)
Definition is_choice_of (w : raw) (c : option string) : Prop := forall choice, c = Some choice <-> chose w choice.

(** There are at most 65536 individuals. *)
Definition few_people (file : list raw) : Prop := forall ids, NoDup ids ->
  (forall i, In i ids -> exists w, In w file /\ w_id w = i) -> (Z.of_nat (List.length ids) <= 65536).

(** [n] years before row [k] in which the individual of the row made the choice. *)
Definition years_before (file : list raw) (k : nat) (choice : string) (n : nat) : Prop :=
  exists w years, nth_error file k = Some w /\ NoDup years /\ List.length years = n /\
    forall j, In j years <-> (j < k)%nat /\ exists v, nth_error file j = Some v /\ w_id v = w_id w /\ chose v choice.
(** The last row before row [k] with the same individual. *)
Definition row_before (file : list raw) (k : nat) (v : raw) : Prop :=
  exists w j, nth_error file k = Some w /\ (j < k)%nat /\ nth_error file j = Some v /\ w_id v = w_id w /\
    forall i u, (j < i < k)%nat -> nth_error file i = Some u -> w_id u <> w_id w.
(** The number of individuals with a smaller identifier. *)
Definition smaller_identifiers (file : list raw) (i : Z) (n : nat) : Prop :=
  exists ids, NoDup ids /\ List.length ids = n /\
    forall j, In j ids <-> j < i /\ exists w, In w file /\ w_id w = j.

(** [r] is the prepared version of row [k] of the file. *)
Record prepared (wage_choices exp_choices : list string) (n_lags : nat) (file : list raw) (k : nat) (r : row) : Prop := {
  prep_row : exists w, nth_error file k = Some w /\ r_period r = w_age w - 16 /\ is_choice_of w (r_choice r) /\ r_wage r = w_wage w /\
    (exists n, r_id r = Z.of_nat n /\ smaller_identifiers file (w_id w) n) /\
    (forall j, nth_error exp_choices j = Some "school" -> ~ In "school" wage_choices -> nth_error (r_exps r) j = Some (Some (w_school w)));
  prep_exp : forall j c, nth_error exp_choices j = Some c -> In c wage_choices ->
    exists n, nth_error (r_exps r) j = Some (Some (Z.of_nat n)) /\ years_before file k c n;
  prep_exps : List.length (r_exps r) = List.length exp_choices;
  prep_lags : List.length (r_lags r) = n_lags;
  prep_lag : n_lags = 1%nat -> forall v, row_before file k v -> exists c, r_lags r = [c] /\ is_choice_of v c;
  prep_first : n_lags = 1%nat -> (forall v, ~ row_before file k v) -> r_lags r = [None];
  prep_obs : r_obs r = []
}.
(** The rows of the file from the age of 16 on, in their order. *)
Definition from_sixteen (file : list raw) : list nat :=
  filter (fun k => match nth_error file k with Some w => Z.leb 16 (w_age w) | None => false end) (seq 0 (List.length file)).

(** Choices of the model: wages are paid in at most the three occupations, and experience is collected in these and in school. *)
Definition occupations : list string := ["white_collar"; "blue_collar"; "military"].
Definition usual_choices (wage_choices exp_choices : list string) : Prop :=
  incl wage_choices occupations /\ incl exp_choices (wage_choices ++ ["school"]).

(** A file without gaps for a model. *)
Record regular_file (m : info) (file : list raw) : Prop := {
  file_people : few_people file;
  (* Rows are ordered by individual and age. *)
  file_ordered : forall a b v w, (a < b)%nat -> nth_error file a = Some v -> nth_error file b = Some w ->
    w_id v < w_id w \/ (w_id v = w_id w /\ w_age v < w_age w);
  (* Everybody is observed at the age of 16, and afterwards without gaps. *)
  file_sixteen : forall w, In w file -> exists v, In v file /\ w_id v = w_id w /\ w_age v = 16;
  file_gaps : forall w, In w file -> 16 < w_age w -> exists v, In v file /\ w_id v = w_id w /\ w_age v = w_age w - 1;
  file_ages : forall w, In w file -> w_age w <= 15 + i_periods m;
  (* With lagged choices, everybody is observed at the age of 15. *)
  file_fifteen : (0 < i_lags m)%nat -> forall w, In w file -> exists v, In v file /\ w_id v = w_id w /\ w_age v = 15;
  file_choices : forall w, In w file -> exists c, In c (i_choices m) /\ chose w c;
  file_wages : forall w x, In w file -> w_wage w = Some x -> (0 < x)%R;
  (* A year of schooling counts. *)
  file_school : In "school" (i_exp_choices m) -> forall v w, In v file -> In w file -> w_id v = w_id w -> 16 <= w_age v ->
    w_age w = w_age v + 1 ->
    (chose v "school" -> w_school w = w_school v + 1) /\ (~ chose v "school" -> w_school w = w_school v)
}.
