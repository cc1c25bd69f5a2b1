(** What is claimed about initial experience, covariates of types, shocks, the check of the
    solution and initial experience in the data. *)
From Coq Require Import List Arith Bool String Ascii Reals ZArith Sorted.
From Verif Require Import Base Model_Strings Model_Choices Spec_Choices Model_CoreStateSpace Spec_CoreStateSpace
  Model_StateSpace Spec_Solve Model_Params Spec_Params Model_Processing.
Import ListNotations.
Local Open Scope nat_scope.
Open Scope string_scope.

(** A parameter declares [k] as a level of initial experience in [choice]. *)
Definition declares_level (params : list param) (choice : string) (k : nat) : Prop :=
  exists p d, In p params /\ p_category p = "initial_exp_" ++ choice ++ "_" ++ d /\
              all_digits d = true /\ digits_value 0 d = k.
(** The levels of initial experience: the declared ones or, if there are none, zero. *)
Definition initial_level (params : list param) (choice : string) (k : nat) : Prop :=
  declares_level params choice k \/ (k = 0 /\ forall j, ~ declares_level params choice j).

(** The maximum of experience: the declared one, rounded towards zero; otherwise what can be
    reached in [n] periods from the highest initial level. *)
Definition maximum_of (n : nat) (params : list param) (choice : string) (m : Z) : Prop :=
  (forall v, value_is params "maximum_exp" choice v -> (0 <= v)%R -> (IZR m <= v < IZR m + 1)%R) /\
  ((forall v, ~ In ("maximum_exp", choice, v) params) ->
   exists top, initial_level params choice top /\ (forall k, initial_level params choice k -> k <= top) /\
     m = (Z.of_nat top + Z.of_nat n - 1)%Z).

(** [v] is the value of a parameter of the shocks. *)
Definition shock_parameter (params : list param) (k : shock_kind) (name : string) (v : R) : Prop :=
  In ("shocks_" ++ kind_name k, name, v) params.
(** [M] is the matrix of the shocks of [choices] given by the parameters: covariances from
    standard deviations and correlations, covariances, or a lower triangular factor. *)
Definition matrix_of (k : shock_kind) (params : list param) (choices : list string) (M : nat -> nat -> R) : Prop :=
  (forall i c, nth_error choices i = Some c ->
     exists v, match k with
               | Sdcorr => shock_parameter params k ("sd_" ++ c) v /\ M i i = (v * v)%R
               | Cov => shock_parameter params k ("var_" ++ c) v /\ M i i = v
               | Chol => shock_parameter params k ("chol_" ++ c) v /\ M i i = v
               end) /\
  (forall i j c d, j < i -> nth_error choices i = Some c -> nth_error choices j = Some d ->
     match k with
     | Sdcorr => exists s t r, shock_parameter params k ("sd_" ++ c) s /\ shock_parameter params k ("sd_" ++ d) t /\
                   shock_parameter params k ("corr_" ++ c ++ "_" ++ d) r /\
                   M i j = (s * r * t)%R /\ M j i = (s * r * t)%R
     | Cov => exists v, shock_parameter params k ("cov_" ++ c ++ "_" ++ d) v /\ M i j = v /\ M j i = v
     | Chol => exists v, shock_parameter params k ("chol_" ++ c ++ "_" ++ d) v /\ M i j = v /\ M j i = 0%R
     end).

(** The dense variables of an observation are a combination of the grid. *)
Definition dense_known (grid : list (list nat)) (dense : list nat) : Prop :=
  grid = [] \/ In dense grid.

(** ** Check of the solution *)

(** What the check of a solution requires of the core states, the number of indices and the
    remaining numbers. *)
Record sound_solution (sp : core_spec) (core : list core_state) (indices : nat) (finite : bool) : Prop := {
  so_period : forall s, In s core -> cs_period s < sp_nperiods sp;
  so_time : forall s, In s core ->
    list_sum (cs_exp s) <= cs_period s + list_sum (map list_max_nat (sp_starts sp));
  so_maximum : forall s i m e, In s core -> nth_error (sp_max sp) i = Some m -> nth_error (cs_exp s) i = Some e -> e <= m;
  so_lags : forall s, In s core -> complete_lags (sp_nlags sp) (sp_nchoices sp) (cs_lag s);
  so_distinct : NoDup core;
  so_indices : List.length core = indices;
  so_finite : finite = true
}.

(** ** Data *)

(** The levels of the i-th experience in the first period of the data. *)
Definition observed_level (data : list observation) (i k : nat) : Prop :=
  exists s dense, In (s, dense) data /\ cs_period s = 0 /\ nth_error (cs_exp s) i = Some k.
