(** What is claimed about initial conditions and the data sets of simulations. *)
From Coq Require Import List Arith ZArith Bool String Reals.
From Verif Require Import Base Model_CoreStateSpace Spec_CoreStateSpace Model_StateSpace Spec_StateSpace
  Model_Choices Model_Processing Model_Parallel Spec_Parallel Model_Solve Spec_Solve Model_Simulate Spec_Simulate Model_Dataset.
From Verif Require Model_Data.
Import ListNotations.
Open Scope nat_scope.

(** ** Initial conditions *)

(** The distributions belong to the model: the levels of experience are the initial levels,
    lagged choices have one level per choice, every observable has a level, and the dense
    grid is that of the observables and types; all codes fit into one byte. *)
Record declared (sp : core_spec) (grid : list (list nat)) (ic : initial_conditions) : Prop := {
  de_start : sp_starts sp = map (map fst) (ic_start ic);
  de_lags : List.length (ic_lags ic) = sp_nlags sp;
  de_choices : forall l, In l (ic_lags ic) -> List.length l = sp_nchoices sp;
  de_some_choice : 0 < sp_nchoices sp <= 256;
  de_observables : forall l, In l (ic_observables ic) -> 0 < List.length l <= 256;
  de_types : List.length (ic_types ic) <= 256;
  de_grid : grid = dense_state_space_grid (map (@List.length _) (ic_observables ic)) (List.length (ic_types ic)) }.

(** Initial experience never exceeds the maximum. *)
Definition starts_below_maximum (sp : core_spec) : Prop :=
  forall i levels m x, nth_error (sp_starts sp) i = Some levels -> nth_error (sp_max sp) i = Some m -> In x levels -> x <= m.

(** No filter holds in the first period, when no experience has been gained. *)
Definition filters_keep_start (sp : core_spec) : Prop :=
  forall f lags, In f (sp_filters sp) -> complete_lags (sp_nlags sp) (sp_nchoices sp) lags ->
    f (mkState 0 (repeat 0 (List.length (sp_starts sp))) lags) = false.

(** Values which are present in the data are values of the model. *)
Record given_ok (sp : core_spec) (ic : initial_conditions) (g : partial_row) : Prop := {
  gi_obs : forall i v l, nth_error (pt_obs g) i = Some (Some v) -> nth_error (ic_observables ic) i = Some l -> v < List.length l;
  gi_exp : forall i v l, nth_error (pt_exp g) i = Some (Some v) -> nth_error (sp_starts sp) i = Some l -> In v l;
  gi_lag : forall i v, nth_error (pt_lag g) i = Some (Some v) -> v < sp_nchoices sp;
  gi_type : forall v, pt_type g = Some v -> v < List.length (ic_types ic) }.
(** They are not changed. *)
Record kept (g : partial_row) (ic : initial_conditions) (x : individual) : Prop := {
  ke_obs : forall i v, i < List.length (ic_observables ic) -> nth_error (pt_obs g) i = Some (Some v) -> nth_error (i_dense x) i = Some v;
  ke_exp : forall i v, i < List.length (ic_start ic) -> nth_error (pt_exp g) i = Some (Some v) -> nth_error (cs_exp (i_core x)) i = Some v;
  ke_lag : forall i v, i < List.length (ic_lags ic) -> nth_error (pt_lag g) i = Some (Some v) -> nth_error (cs_lag (i_core x)) i = Some (Some v);
  ke_type : forall v, 2 <= List.length (ic_types ic) -> pt_type g = Some v ->
    nth_error (i_dense x) (List.length (ic_observables ic)) = Some v }.

Definition uniform (u : characteristic -> R) : Prop := forall c, (0 <= u c < 1)%R.
(** All characteristics are sampled. *)
Definition nothing_given : partial_row := mkPartial [] [] [] None.

(** The initial conditions of [n] individuals, with covariates [x k] and draws [u k]. *)
Definition sampled_individuals (ic : initial_conditions) (x : nat -> characteristic -> nat -> R)
  (u : nat -> characteristic -> R) (n : nat) : result (frame individual) :=
  result_all (map (fun k => result_bind (extend_row ic (x k) (u k) nothing_given) (fun i => Ok ((k, 0), i))) (seq 0 n)).

(** ** Data sets *)

(** The labels belong to the model with [nw] choices with wages. *)
Record labelled (sp : core_spec) (grid : list (list nat)) (nw : nat) (lb : labels) : Prop := {
  la_periods : lb_periods lb = sp_nperiods sp;
  la_names : NoDup (lb_choices lb);
  la_choices : List.length (lb_choices lb) = sp_nchoices sp;
  la_few : sp_nchoices sp <= 256;
  la_wages : lb_nwages lb = nw;
  la_exp : lb_nexp lb = List.length (sp_max sp);
  la_lags : lb_nlags lb = sp_nlags sp;
  la_levels : forall l, In l (lb_observables lb) -> NoDup l /\ 0 < List.length l <= 256;
  la_grid : grid = dense_state_space_grid (map (@List.length _) (lb_observables lb)) (lb_ntypes lb) }.

(** The observation which belongs to a row of a panel: the core state, the codes of the
    observables, the code of the choice and the wage. *)
Definition observation_of (lb : labels) (r : index * outcome) : index * coded :=
  (fst r, mkCoded (i_core (o_ind (snd r))) (firstn (List.length (lb_observables lb)) (i_dense (o_ind (snd r))))
                  (o_choice (snd r)) (o_wage (snd r))).

(** The type of an individual; a model with one type has type 0. *)
Definition type_of (lb : labels) (x : individual) : nat :=
  if Nat.leb 2 (lb_ntypes lb) then nth (List.length (lb_observables lb)) (i_dense x) 0 else 0.

(** ** Data for the estimation *)

(** Choices and levels have different labels and their codes fit into one byte. *)
Record proper_labels (lb : labels) : Prop := {
  pl_choices : NoDup (lb_choices lb) /\ List.length (lb_choices lb) <= 256;
  pl_levels : forall l, In l (lb_observables lb) -> NoDup l /\ List.length l <= 256 }.

(** The numbers in columns of observables are levels of the observable. *)
Definition numbers_are_levels (lb : labels) (r : Model_Data.row) : Prop :=
  forall i levels n, nth_error (lb_observables lb) i = Some levels ->
    nth i (Model_Data.r_obs r) None = Some (Number n) -> In (Number n) levels.

(** An observation with codes means the same as a row of the data. *)
Record same_meaning (lb : labels) (r : Model_Data.row) (c : index * coded) : Prop := {
  me_id : Model_Data.r_id r = Z.of_nat (fst (fst c));
  me_period : Model_Data.r_period r = Z.of_nat (snd (fst c)) /\ cs_period (cd_core (snd c)) = snd (fst c);
  me_choice : exists name, Model_Data.r_choice r = Some name /\ nth_error (lb_choices lb) (cd_choice (snd c)) = Some name;
  me_lags : List.length (cs_lag (cd_core (snd c))) = lb_nlags lb /\
    forall i, i < lb_nlags lb -> exists name code, nth i (Model_Data.r_lags r) None = Some name /\
      nth_error (cs_lag (cd_core (snd c))) i = Some (Some code) /\ nth_error (lb_choices lb) code = Some name;
  me_exps : List.length (cs_exp (cd_core (snd c))) = lb_nexp lb /\
    forall i, i < lb_nexp lb -> exists e, nth_error (cs_exp (cd_core (snd c))) i = Some e /\
      nth i (Model_Data.r_exps r) None = Some (Z.of_nat e);
  me_obs : List.length (cd_obs (snd c)) = List.length (lb_observables lb) /\
    forall i levels, nth_error (lb_observables lb) i = Some levels ->
      exists l code, nth i (Model_Data.r_obs r) None = Some l /\ nth_error (cd_obs (snd c)) i = Some code /\
        nth_error levels code = Some l;
  me_wage : cd_wage (snd c) = Model_Data.r_wage r }.

(** A row without a meaning: a choice is missing or unknown, a number is negative or missing. *)
Definition meaningless (lb : labels) (r : Model_Data.row) : Prop :=
  Model_Data.r_choice r = None \/
  (exists c, Model_Data.r_choice r = Some c /\ ~ In c (lb_choices lb)) \/
  (Model_Data.r_id r < 0)%Z \/ (Model_Data.r_period r < 0)%Z \/
  (exists i e, i < lb_nexp lb /\ nth i (Model_Data.r_exps r) None = Some e /\ (e < 0)%Z) \/
  (exists i, i < lb_nexp lb /\ nth i (Model_Data.r_exps r) None = None) \/
  (exists i, i < lb_nlags lb /\ nth i (Model_Data.r_lags r) None = None) \/
  (exists i levels, nth_error (lb_observables lb) i = Some levels /\ nth i (Model_Data.r_obs r) None = None).
