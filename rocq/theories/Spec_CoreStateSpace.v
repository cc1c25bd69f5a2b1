(** Independent specification of the core state space. *)
From Coq Require Import List Arith Bool Lia.
From Verif Require Import Base Model_CoreStateSpace.
Import ListNotations.

(** Componentwise sum of two vectors. *)
Definition vec_add (a b : list nat) : list nat :=
  map (fun p => fst p + snd p) (combine a b).

(** Admissible model specifications: one list of initial levels and one maximum per
    choice with experience, every list of initial levels non-empty, all levels fit into
    one byte (the code stores them as uint8), and the choices with experience are among
    the choices. *)
Definition wf_spec (sp : core_spec) : Prop :=
  length (sp_starts sp) = length (sp_max sp) /\
  length (sp_starts sp) <= sp_nchoices sp /\
  (forall l, In l (sp_starts sp) -> l <> []) /\
  (forall l x, In l (sp_starts sp) -> In x l -> x < 256) /\
  (forall m, In m (sp_max sp) -> m < 256).

(** The complete lag vectors of a model with [nlags] lags and [n] choices. *)
Definition complete_lags (nlags n : nat) (lags : list (option nat)) : Prop :=
  length lags = nlags /\ forall x, In x lags -> exists c, x = Some c /\ c < n.

(** A state is feasible if its experiences are some declared initial levels plus
    non-negative gains that sum to at most the number of elapsed periods, respect the
    maxima, its lagged choices are choices, and no filter holds.  Filters are applied
    by the code to the experience *gained* (see C63). *)
Definition feasible (sp : core_spec) (s : core_state) : Prop :=
  cs_period s < sp_nperiods sp /\
  complete_lags (sp_nlags sp) (sp_nchoices sp) (cs_lag s) /\
  exists init gain,
    Forall2 (fun x levels => In x levels) init (sp_starts sp) /\
    length gain = length (sp_starts sp) /\
    list_sum gain <= cs_period s /\
    cs_exp s = vec_add init gain /\
    Forall2 le (cs_exp s) (sp_max sp) /\
    (forall f, In f (sp_filters sp) -> f (mkState (cs_period s) gain (cs_lag s)) = false).

(** The options are processed when the solve function is created and again in every
    call; [process k] is the negative choice set after [k] passes. *)
Fixpoint process (sp : core_spec) (k : nat) (neg : neg_set) : neg_set :=
  match k with
  | 0 => neg
  | S k' => add_default_is_inadmissible sp (process sp k' neg)
  end.

(** The user's formulas of choice [c] exclude the choice in state [s]. *)
Definition excluded_by_user (neg : neg_set) (ctx : option (list nat)) (s : core_state)
  (c : nat) : Prop :=
  exists fs f g, neg c = Some fs /\ In f fs /\ f ctx = Some g /\ g s = true.

(** The experience of choice [c] is exhausted: it equals a maximum that can be reached
    within the horizon. *)
Definition exhausted (sp : core_spec) (s : core_state) (c : nat) : Prop :=
  exists e m levels,
    nth_error (cs_exp s) c = Some e /\ nth_error (sp_max sp) c = Some m /\
    nth_error (sp_starts sp) c = Some levels /\
    e = m /\ exists x, In x levels /\ m < sp_nperiods sp - 1 + x.

(** Following a sequence of choices, first choice first. *)
Definition follow (cs : list nat) (s : core_state) : core_state :=
  fold_left (fun s c => law_of_motion c s) cs s.

(** States that can be reached from a period-0 state with declared initial experience by
    taking choices that are available. *)
Inductive reachable (sp : core_spec) (neg : neg_set) (ctx : option (list nat))
  : core_state -> Prop :=
| reach_init : forall init lags,
    0 < sp_nperiods sp ->
    Forall2 (fun x levels => In x levels) init (sp_starts sp) ->
    Forall2 le init (sp_max sp) ->
    complete_lags (sp_nlags sp) (sp_nchoices sp) lags ->
    reachable sp neg ctx (mkState 0 init lags)
| reach_step : forall s c,
    reachable sp neg ctx s ->
    S (cs_period s) < sp_nperiods sp ->
    nth_error (choice_set_of sp neg ctx s) c = Some true ->
    reachable sp neg ctx (law_of_motion c s).

(** Decides well-formedness of concrete specifications (for examples). *)
Ltac solve_wf :=
  unfold wf_spec; simpl; split; [reflexivity|split; [lia|split; [|split]]];
  [ let l := fresh in let H := fresh in intros l H;
    repeat (destruct H as [<-|H]; [discriminate|]); destruct H
  | let l := fresh in let x := fresh in let H := fresh in let Hx := fresh in
    intros l x H Hx; repeat (destruct H as [<-|H]; [simpl in Hx; lia|]); destruct H
  | let m := fresh in let H := fresh in intros m H; lia ].
