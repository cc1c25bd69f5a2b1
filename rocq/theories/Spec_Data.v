(** What is claimed about data sets. *)
From Coq Require Import List ZArith Bool String Reals.
From Verif Require Import Base Model_Choices Model_Data.
Import ListNotations.
Open Scope Z_scope.

(** Every individual 0, ..., n-1 is observed in the periods 0, ..., k without repetition, and
    the model has these periods. *)
Definition complete_panel (m : info) (data : list row) : Prop :=
  (exists n, forall i, (exists r, In r data /\ r_id r = i) <-> 0 <= i < n) /\
  (forall r, In r data -> exists k, k < i_periods m /\
     forall t, (exists q, In q data /\ r_id q = r_id r /\ r_period q = t) <-> 0 <= t <= k) /\
  (forall a b r q, nth_error data a = Some r -> nth_error data b = Some q ->
     r_id r = r_id q -> r_period r = r_period q -> a = b).

(** The rows of an individual are in the order of periods. *)
Definition in_order (data : list row) : Prop :=
  forall a b r q, (a < b)%nat -> nth_error data a = Some r -> nth_error data b = Some q ->
    r_id r = r_id q -> r_period r < r_period q.
(** Individuals are in the order of their identifiers. *)
Definition individuals_in_order (data : list row) : Prop :=
  forall a b r q, (a < b)%nat -> nth_error data a = Some r -> nth_error data b = Some q -> r_id r <= r_id q.

(** [q] is the observation of the individual of [r] in the next period. *)
Definition next_period (data : list row) (r q : row) : Prop :=
  In r data /\ In q data /\ r_id q = r_id r /\ r_period q = r_period r + 1.

(** Experience increases by one if the choice was made and does not change otherwise. *)
Definition experience_follows (m : info) (data : list row) : Prop :=
  forall r q j c, next_period data r q -> nth_error (i_exp_choices m) j = Some c ->
    exists e, nth_error (r_exps r) j = Some (Some e) /\
      ((r_choice r = Some c -> nth_error (r_exps q) j = Some (Some (e + 1))) /\
       (r_choice r <> Some c -> nth_error (r_exps q) j = Some (Some e))).
(** The first lagged choice is the previous choice. *)
Definition first_lag_follows (data : list row) : Prop :=
  forall r q, next_period data r q -> choice_column 1 q = r_choice r.

(** All lagged choices are earlier choices. *)
Definition lags_follow (m : info) (data : list row) : Prop :=
  forall r q i, next_period data r q -> (i < i_lags m)%nat -> choice_column (S i) q = choice_column i r.

(** Values of columns. *)
Definition values_ok (m : info) (data : list row) : Prop :=
  (forall r, In r data ->
    (exists c, In c (i_choices m) /\ r_choice r = Some c) /\
    (forall w, r_wage r = Some w -> (0 < w)%R) /\
    (forall i, (1 <= i <= i_lags m)%nat -> exists c, In c (i_choices m) /\ choice_column i r = Some c) /\
    (forall j, (j < List.length (i_exp_choices m))%nat -> exists e, nth_error (r_exps r) j = Some (Some e)) /\
    (forall j, (j < List.length (i_levels m))%nat -> exists l, nth_error (r_obs r) j = Some (Some l))) /\
  (forall j n, nth_error (i_levels m) j = Some n -> forall levels, NoDup levels ->
     (forall l, In l levels -> exists r, In r data /\ nth_error (r_obs r) j = Some (Some l)) ->
     (List.length levels <= n)%nat).

(** The type is the same for all observations of an individual, and wages are observed if
    and only if the individual works. *)
Definition types_ok (m : info) (data : list row) : Prop :=
  2 <= i_types m ->
    (forall r, In r data -> exists t, r_type r = Some t /\ t < i_types m) /\
    (forall r q, In r data -> In q data -> r_id r = r_id q -> r_type r = r_type q).
Definition wages_ok (m : info) (data : list row) : Prop :=
  forall r, In r data -> (exists w, r_wage r = Some w) <-> (exists c, In c (i_wage_choices m) /\ r_choice r = Some c).

(** Number of earlier rows of the individual of row [k] with the choice. *)
Definition earlier_choices (rows : list (Z * option string)) (choice : string) (k : nat) : nat :=
  match nth_error rows k with
  | Some r => List.length (filter (fun q => Z.eqb (fst q) (fst r) && match snd q with Some c => String.eqb c choice | None => false end)
                                  (firstn k rows))
  | None => 0
  end.

(** All values of the column are values of the type. *)
Definition fits (d : dtype) (values : list Z) : Prop := forall x, In x values -> d_min d <= x <= d_max d.
Definition is_type (d : dtype) : Prop := In (d_bits d) sizes.
