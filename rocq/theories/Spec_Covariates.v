(** What is claimed about covariates. *)
From Coq Require Import List Bool String Ascii.
From Verif Require Import Base Model_Strings Model_Choices Spec_Choices Model_Covariates.
Import ListNotations.
Open Scope string_scope.

(** [x] occurs somewhere in the formula, possibly as a part of another name; [word_of]
    (Spec_Choices.v) is an occurrence as a whole name. *)
Definition occurs (x formula : string) : Prop := exists a b, formula = a ++ x ++ b.

(** A set of covariates that has all those named by parameters and all those which occur in
    the formula of one of its members. *)
Definition closed (covs : covariates) (names : list string) (S : string -> Prop) : Prop :=
  (forall c f, In (c, f) covs -> In c names -> S c) /\
  (forall c f d g, In (c, f) covs -> In (d, g) covs -> S d -> occurs c g -> S c).

(** [x] is one of the variables [base] or a covariate whose formula contains the name of
    something which is built from them. *)
Inductive built_from (covs : covariates) (base : list string) : string -> Prop :=
| built_base : forall x, In x base -> built_from covs base x
| built_cov : forall c f x, In (c, f) covs -> built_from covs base x -> occurs x f -> built_from covs base c.

(** ** Evaluation *)
Section Derives.
  Variable V : Type.
  Variable eval : string -> (string -> option V) -> result V.
  Variable no_nans : V -> bool.
  Variable check_nans : bool.
  Variable defs : list (string * definition).
  Variable df : frame V.

  (** [x] has the value [v]: it is a column or index level, or a covariate which is
      evaluated in an environment [e] in which everything it depends on has its value. *)
  Inductive derives : string -> V -> Prop :=
  | derives_given : forall x v, lookup V df x = Some v -> derives x v
  | derives_formula : forall c f deps e v, lookup V df c = None -> In (c, (f, deps)) defs ->
      (forall d, In d deps -> e d <> None) ->
      (forall d w, In d deps -> e d = Some w -> derives d w) ->
      (forall d w, In d deps -> e d = Some w -> check_nans = true -> no_nans w = true) ->
      eval f e = Ok v -> derives c v.

  (** The dependencies say which variables a formula uses: its value depends on nothing
      else, and it can be evaluated if they are present. *)
  Definition dependencies_complete : Prop :=
    (forall c f deps e1 e2, In (c, (f, deps)) defs -> (forall d, In d deps -> e1 d = e2 d) ->
       eval f e1 = eval f e2) /\
    (forall c f deps e, In (c, (f, deps)) defs -> (forall d, In d deps -> e d <> None) ->
       exists v, eval f e = Ok v).
End Derives.

(** ** Necessary covariates *)
(** [d] is requested or one of the dependencies of something that is needed. *)
Inductive reachable (definitions : list (string * list string)) (requested : list string) : string -> Prop :=
| reach_requested : forall d, In d requested -> reachable definitions requested d
| reach_dependency : forall c deps d, reachable definitions requested c ->
    dict_get string_dec c definitions = Some deps -> In d deps -> reachable definitions requested d.
Definition has_dependencies (definitions : list (string * list string)) (c : string) : Prop :=
  exists d deps, dict_get string_dec c definitions = Some (d :: deps).
