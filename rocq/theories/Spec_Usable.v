(** What is claimed about the data sets with which a model can be estimated. *)
From Coq Require Import List Arith ZArith Bool String Reals.
From Verif Require Import Base Model_CoreStateSpace Model_Choices Model_Dataset.
From Verif Require Import Model_Data.
Import ListNotations.

(** The experiences of the row are declared initial levels of the model. *)
Definition declared_start (sp : core_spec) (r : row) : Prop :=
  forall j levels, nth_error (sp_starts sp) j = Some levels ->
    exists e, In e levels /\ nth_error (r_exps r) j = Some (Some (Z.of_nat e)).
(** The experiences of the row do not exceed the maxima of the model. *)
Definition below_maximum (sp : core_spec) (r : row) : Prop :=
  forall j m, nth_error (sp_max sp) j = Some m ->
    exists e, nth_error (r_exps r) j = Some (Some e) /\ (e <= Z.of_nat m)%Z.
(** The values of observables are levels of the model. *)
Definition known_levels (lb : labels) (r : row) : Prop :=
  forall i levels, nth_error (lb_observables lb) i = Some levels ->
    exists l, In l levels /\ nth_error (r_obs r) i = Some (Some l).
