(** Independent specification: what simulated individuals get on average. *)
From Coq Require Import List Arith Bool Reals.
From Verif Require Import Base Model_CoreStateSpace Spec_CoreStateSpace Model_StateSpace Spec_StateSpace Model_Solve Spec_Solve
  Model_Parallel Spec_Parallel Model_Simulate Spec_Simulate Spec_Paths.
Import ListNotations.
Local Open Scope nat_scope.

(** All sequences of [n] numbers smaller than [D]. *)
Fixpoint sequences (D n : nat) : list (list nat) :=
  match n with
  | O => [[]]
  | S m => flat_map (fun i => map (cons i) (sequences D m)) (seq 0 D)
  end.

(** A population in which each sequence of draws occurs once: in period [t] the [D] draws
    [B t 0], [B t 1], ... are possible, these are the draws of the solution, restricted to the
    available choices, and the individual in position [p] gets the [p]-th sequence. All
    individuals start as [x]. *)
Record every_sequence (sp : core_spec) (neg : neg_set) (k : nat) (grid : list (list nat)) (inp : inputs)
  (B : nat -> nat -> list R) (D n : nat) (ids : list nat) (base : list (list R)) (df : frame individual) (x : individual) : Prop := {
  es_some : 0 < D;
  es_length : forall t i, length (B t i) = sp_nchoices sp;
  es_solution : forall s, In s (create_core_state_space sp) ->
    let cs := choice_set_of sp (process sp (S k) neg) (context grid x) s in
    in_base inp (count_true cs) (cs_period s) = map (fun i => compress cs (B (cs_period s) i)) (seq 0 D);
  es_ids : length ids = length (sequences D n);
  es_draws : forall p q t, nth_error (sequences D n) p = Some q -> t < n ->
    own_draws (length ids) base p t = Some (B t (nth t q 0));
  es_start : forall i y, In (i, y) df -> y = x
}.

Local Open Scope R_scope.

(** What an individual gets in one period: wage with shock and non-pecuniary reward of the
    recorded choice. *)
Definition utility (sp : core_spec) (neg : neg_set) (k : nat) (grid : list (list nat)) (inp : inputs) (o : outcome) : R :=
  flow_of inp (choices_of sp neg k grid (o_ind o)) (context grid (o_ind o)) (i_core (o_ind o)) (o_shocks o) (o_choice o).

(** Discounted utilities of an individual over [n] periods. *)
Definition lifetime_utility (sp : core_spec) (neg : neg_set) (k : nat) (grid : list (list nat)) (inp : inputs)
  (panel : frame outcome) (n id : nat) : R :=
  rsum (map (fun t => p_delta (in_params inp) ^ t *
               match find (fun r => Nat.eqb (fst (fst r)) id && Nat.eqb (snd (fst r)) t) panel with
               | Some r => utility sp neg k grid inp (snd r)
               | None => 0
               end) (seq 0 n)).

(** In all states and for all draws of the solution, some choice has a non-negative value. *)
Definition some_choice_pays (sp : core_spec) (neg : neg_set) (k : nat) (inp : inputs) (ctx : option (list nat)) : Prop :=
  forall s u, In s (create_core_state_space sp) -> In u (pb_flows (problem_of sp neg k inp ctx) s) ->
    exists v, In v (alternatives (problem_of sp neg k inp ctx) (p_delta (in_params inp)) (sp_nperiods sp - S (cs_period s)) s u) /\ 0 <= v.
