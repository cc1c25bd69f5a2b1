(** Independent specification of the solution: the recursive expected value function. *)
From Coq Require Import List Arith Bool Reals.
From Verif Require Import Base Model_CoreStateSpace Model_StateSpace Model_Solve.
Import ListNotations.
Open Scope R_scope.

Definition rsum (l : list R) : R := fold_right Rplus 0 l.
Definition mean (l : list R) : R := rsum l / INR (length l).
(** Maximum of zero and the entries. *)
Definition max0 (l : list R) : R := fold_right Rmax 0 l.

(** Linear index of a parameter series. *)
Definition linear_index (x : nat -> R) (beta : list (nat * R)) : R :=
  rsum (map (fun p => x (fst p) * snd p) beta).

(** Wage and non-pecuniary reward of choice [c] for covariates [x]. *)
Definition wage_of (p : params) (x : nat -> R) (c : nat) : R :=
  match p_wage p c with Some b => exp (linear_index x b) | None => 1 end.
Definition nonpec_of (p : params) (x : nat -> R) (c : nat) : R :=
  match p_nonpec p c with Some b => linear_index x b | None => 0 end.

(** A decision problem: for each state the available choices with successor state, and
    for each state the list of shock realisations, each a list of flow utilities, one
    per available choice. *)
Record problem (S : Type) := mkProblem {
  pb_moves : S -> list S;               (* successor per available choice *)
  pb_flows : S -> list (list R)         (* flow utilities per draw and choice *)
}.
Arguments pb_moves {S} _ _.
Arguments pb_flows {S} _ _.

(** Expected value function with [n] periods to go. *)
Fixpoint value {S} (pb : problem S) (delta : R) (n : nat) (s : S) : R :=
  match n with
  | O => 0
  | S m =>
      mean (map (fun u =>
        max0 (map (fun p => fst p + delta * value pb delta m (snd p))
                  (combine u (pb_moves pb s)))) (pb_flows pb s))
  end.

(** The decision problem described by a model: flow utility = wage * shock + non-pecuniary
    reward; successors by the law of motion; the shocks of a state are the transformed
    base draws of its period and choice set. *)
Definition model_problem (csf : cs_fun) (inp : inputs) (ctx : option (list nat))
  : problem core_state :=
  mkProblem core_state
    (fun s => map (fun c => law_of_motion c s) (positions (csf ctx s)))
    (fun s =>
       let cs := csf ctx s in
       let draws := transform_draws (in_base inp (count_true cs) (cs_period s)) cs (in_params inp) in
       map (fun e => map (fun p => wage_of (in_params inp) (in_cov inp ctx s) (fst p) * snd p
                                   + nonpec_of (in_params inp) (in_cov inp ctx s) (fst p))
                         (combine (positions cs) e)) draws).

(** Well-formed inputs: the choices are named by their codes, the choice sets have the
    right length, the Cholesky factor has a row per choice. *)
Definition wf_inputs (nchoices : nat) (csf : cs_fun) (inp : inputs) : Prop :=
  in_choices inp = seq 0 nchoices /\
  (forall ctx s, length (csf ctx s) = nchoices) /\
  length (p_chol (in_params inp)) = nchoices.

(** A decision rule: given the history (states and numbers of the shock realisations of
    earlier periods), the current state and the current shock realisation, the number of
    the chosen alternative among the available ones, or [None]: opt out with value zero. *)
Definition rule (S : Type) := list (S * nat) -> S -> nat -> option nat.

(** Expected discounted payoff of a rule with [n] periods to go after history [h]; each
    shock realisation of a state is equally likely. *)
Fixpoint payoff {S} (pb : problem S) (delta : R) (pi : rule S) (n : nat)
  (h : list (S * nat)) (s : S) : R :=
  match n with
  | O => 0
  | S m =>
      mean (map (fun iu =>
        match pi h s (fst iu) with
        | None => 0
        | Some j =>
            match nth_error (combine (snd iu) (pb_moves pb s)) j with
            | None => 0
            | Some (f, s') => f + delta * payoff pb delta pi m (h ++ [(s, fst iu)]) s'
            end
        end) (enumerate (pb_flows pb s)))
  end.

(** Values of the alternatives in a state with [S m] periods to go for the flow utilities
    [u]. *)
Definition alternatives {S} (pb : problem S) (delta : R) (m : nat) (s : S) (u : list R)
  : list R :=
  map (fun p => fst p + delta * value pb delta m (snd p)) (combine u (pb_moves pb s)).

(** [c] is a best decision among [vals] and opting out. *)
Definition best (vals : list R) (c : option nat) : Prop :=
  match c with
  | None => forall v, In v vals -> v <= 0
  | Some j => exists w, nth_error vals j = Some w /\ 0 <= w /\ forall v, In v vals -> v <= w
  end.

(** A rule for a problem with [n] periods which takes the best decision each period. *)
Definition greedy {S} (pb : problem S) (delta : R) (n : nat) (pi : rule S) : Prop :=
  forall h s i u m, nth_error (pb_flows pb s) i = Some u -> n = (length h + 1 + m)%nat ->
    best (alternatives pb delta m s u) (pi h s i).

(** In each state and shock realisation some alternative has a non-negative value. *)
Definition never_negative {S} (pb : problem S) (delta : R) (n : nat) : Prop :=
  forall s u m, In u (pb_flows pb s) -> (m < n)%nat ->
    exists v, In v (alternatives pb delta m s u) /\ 0 <= v.

(** [l] is pointwise at most [l']. *)
Definition list_le (l l' : list R) : Prop := Forall2 Rle l l'.

(** The two models have pointwise ordered rewards: same choices, covariates and shocks;
    wages of choices with a wage shock and all non-pecuniary rewards are weakly higher in
    the second; the factor on the shock of the other choices is the same. *)
Definition rewards_ordered (inp inp' : inputs) : Prop :=
  in_choices inp = in_choices inp' /\ in_base inp = in_base inp' /\
  p_chol (in_params inp) = p_chol (in_params inp') /\
  p_nwages (in_params inp) = p_nwages (in_params inp') /\
  (forall ctx s c, (c < p_nwages (in_params inp))%nat ->
     wage_of (in_params inp) (in_cov inp ctx s) c <= wage_of (in_params inp') (in_cov inp' ctx s) c) /\
  (forall ctx s c, (p_nwages (in_params inp) <= c)%nat ->
     wage_of (in_params inp) (in_cov inp ctx s) c = wage_of (in_params inp') (in_cov inp' ctx s) c) /\
  (forall ctx s c, nonpec_of (in_params inp) (in_cov inp ctx s) c <=
                   nonpec_of (in_params inp') (in_cov inp' ctx s) c).

(** The flow utilities of two problems differ by at most [eps]. *)
Definition flows_within {S} (eps : R) (pb pb' : problem S) : Prop :=
  (forall s, pb_moves pb s = pb_moves pb' s) /\
  forall s, Forall2 (Forall2 (fun x y => Rabs (x - y) <= eps)) (pb_flows pb s) (pb_flows pb' s).

(** 1 + delta + ... + delta^(n-1). *)
Fixpoint geometric (delta : R) (n : nat) : R :=
  match n with O => 0 | S m => 1 + delta * geometric delta m end.

(** Covariance of [L e] for independent standard normal [e]: L L'. *)
Definition mat (L : list (list R)) (i j : nat) : R := nth j (nth i L []) 0.
Definition cov_entry (L : list (list R)) (i j : nat) : R :=
  dotp (nth i L []) (nth j L []).

(** A square matrix of size [n]. *)
Definition square (n : nat) (L : list (list R)) : Prop :=
  length L = n /\ forall row, In row L -> length row = n.
Definition lower_triangular (L : list (list R)) : Prop :=
  forall i j, (i < j)%nat -> mat L i j = 0.
Definition available (cs : list bool) (c : nat) : Prop := nth_error cs c = Some true.
Definition unavailable (cs : list bool) (c : nat) : Prop := nth_error cs c = Some false.

(** The shocks of the available choices have the covariance given by the factor. *)
Definition right_covariance (L : list (list R)) (cs : list bool) : Prop :=
  forall a b i j, nth_error (positions cs) a = Some i -> nth_error (positions cs) b = Some j ->
    cov_entry (subset_cholesky L cs) a b = cov_entry L i j.

(** Correlated normal draw of choice [c] from the base draw: the [i]-th entry of the base
    draw belongs to the [i]-th available choice. *)
Definition correlated (L : list (list R)) (cs : list bool) (draw : list R) (c : nat) : R :=
  rsum (map (fun p => fst p * mat L c (snd p)) (combine draw (positions cs))).

(** Maximum of a list. *)
Definition maximum (l : list R) : R :=
  match l with [] => 0 | x :: r => fold_right Rmax x r end.

(** Values of the choices of one state for the shocks [e]. *)
Definition choice_values (wages nonpecs conts : list R) (delta : R) (e : list R) : list R :=
  map (fun j => nth j wages 0 * nth j e 0 + nth j nonpecs 0 + delta * nth j conts 0)
      (seq 0 (length wages)).

(** Rows of matching length. *)
Definition same_lengths (wages nonpecs conts : list R) (draws : list (list R)) : Prop :=
  length nonpecs = length wages /\ length conts = length wages /\
  forall e, In e draws -> length e = length wages.

(** A model as in C01 with its state space; admissible choices lead to states (by C02 there
    is nothing to show without filters, by C90 not with the usual filters); the inputs have
    the right format, and the number of interpolation points is such that no period is
    interpolated. *)
From Verif Require Import Spec_CoreStateSpace Spec_StateSpace.
(** The keys of a period, and the number of its states. *)
Definition keys_in (ss : state_space) (p : nat) : list nat :=
  filter (fun k => match nth_error (ss_dpc ss) k with
                   | Some (cx, _) => Nat.eqb (cx_period cx) p | None => false end)
         (seq 0 (length (ss_dpc ss))).
Definition key_size (ss : state_space) (k : nat) : nat :=
  match dense_key_to_core_indices ss k with Some l => length l | None => 0%nat end.
Definition states_in (ss : state_space) (p : nat) : nat :=
  list_sum (map (key_size ss) (keys_in ss p)).

(** All states of period [p] are solved by simulation: there are enough points for all
    states, or not even two for each key. *)
Definition solved_exactly (ss : state_space) (points p : nat) : Prop :=
  (states_in ss p <= points \/ points < 2 * length (keys_in ss p))%nat.

Record standard_model (sp : core_spec) (neg : neg_set) (k : nat) (grid : list (list nat))
  (ss : state_space) (inp : inputs) : Prop := {
  sm_wf : wf_spec sp;
  sm_lags : (sp_nlags sp <= 1)%nat;
  sm_closed : closed_under_choices (sp_nperiods sp) (create_core_state_space sp)
                (choice_set_of sp (process sp (S k) neg));
  sm_collisions : collision_free (create_core_state_space sp)
                    (choice_set_of sp (process sp (S k) neg)) grid;
  sm_created : create_state_space (sp_nperiods sp) (create_core_state_space sp)
                 (choice_set_of sp (process sp (S k) neg)) grid = Ok ss;
  sm_choices : in_choices inp = seq 0 (sp_nchoices sp);
  sm_chol : square (sp_nchoices sp) (p_chol (in_params inp));
  sm_points : forall p, solved_exactly ss (in_points inp) p
}.

(** The decision problem of a standard model in dense combination [ctx]. *)
Definition problem_of (sp : core_spec) (neg : neg_set) (k : nat) (inp : inputs)
  (ctx : option (list nat)) : problem core_state :=
  model_problem (choice_set_of sp (process sp (S k) neg)) inp ctx.
