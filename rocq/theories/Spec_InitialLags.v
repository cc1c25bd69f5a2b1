(** Independent specification: the distribution of lagged choices in the first period. *)
From Coq Require Import List Arith Bool String Ascii Reals.
From Verif Require Import Base Model_Strings Model_Choices Spec_Choices Spec_Solve Model_Params Spec_Params Model_Cache.
Import ListNotations.
Open Scope string_scope.

(** The category of the parameters for the choice [c] as lagged choice [k]. *)
Definition lag_category (k : nat) (c : string) : string := "lagged_choice_" ++ dec k ++ "_" ++ c.

(** Categories either have nothing to do with lagged choices or are of this form. *)
Definition plain_name (c : string) : Prop := well_named c /\ ~ substring "lagged_choice_" c.
Definition proper_lags (params : list param) : Prop := forall p, In p params ->
  ~ substring "lagged_choice_" (p_category p) \/ exists k c, plain_name c /\ p_category p = lag_category k c.

Definition listed (params : list param) (k : nat) (c : string) : bool :=
  existsb (fun p => String.eqb (p_category p) (lag_category k c)) params.

(** The sum of the values of all parameters for lagged choice [k]. *)
Definition lag_total (choices : list string) (params : list param) (k : nat) : R :=
  rsum (map snd (filter (fun p => existsb (fun c => String.eqb (p_category p) (lag_category k c)) choices) params)).

(** Each choice has at most one parameter, which is a probability that is not too small
    compared with the sum. *)
Record lag_probabilities (choices : list string) (params : list param) (k : nat) : Prop := {
  lp_probability : forall p c, In p params -> plain_name c -> p_category p = lag_category k c ->
     In c choices /\ p_name p = "probability" /\ (lag_total choices params k / 10 ^ 200 <= snd p)%R;
  lp_once : forall i j p q c, nth_error params i = Some p -> nth_error params j = Some q ->
     p_category p = lag_category k c -> p_category q = lag_category k c -> i = j;
  lp_total : (0 < lag_total choices params k)%R
}.
