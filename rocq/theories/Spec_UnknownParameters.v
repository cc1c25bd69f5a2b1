(** Independent specification: parameters without a meaning, and parameters of rewards. *)
From Coq Require Import List Bool String Reals.
From Verif Require Import Base Model_Params Spec_Params.
Import ListNotations.
Open Scope string_scope.

(** The category mentions none of the keywords of the package, the name mentions neither
    experience nor types, nor does the definition of a covariate with this name mention
    experience. *)
Record unknown_parameter (covariates : list (string * string)) (p : param) : Prop := {
  un_keywords : forall k, In k ["wage_"; "nonpec_"; "initial_exp_"; "type_"; "lagged_choice_"; "exogenous_process_"; "observable_";
                                "shocks_sdcorr"; "shocks_cov"; "shocks_chol"] -> ~ substring k (p_category p);
  un_categories : ~ In (p_category p) ["delta"; "beta"; "meas_error"; "maximum_exp"];
  un_name : forall k, In k ["exp_"; "type_"; "shocks_sdcorr"; "shocks_cov"; "shocks_chol"] -> ~ substring k (p_name p);
  un_covariates : forall f, In (p_name p, f) covariates -> ~ substring "exp_" f
}.

(** The coefficients are those parameters of the category, in the order of parameters. *)
Definition coefficients_from (params : list param) (category : string) (found : option (list (string * R))) : Prop :=
  match found with
  | Some l => l <> [] /\ (forall n v, In (n, v) l <-> In (category, n, v) params)
  | None => forall n v, ~ In (category, n, v) params
  end.
