(** Independent specification of exogenous processes. *)
From Coq Require Import List Arith Bool Reals.
From Verif Require Import Base Model_CoreStateSpace Model_StateSpace Spec_StateSpace Model_Solve Spec_Solve.
Import ListNotations.
Open Scope R_scope.

(** [e] assigns a level to each process. *)
Definition combination (levels e : list nat) : Prop := Forall2 (fun l v => (v < l)%nat) levels e.

(** All combinations of levels. *)
Fixpoint combinations (levels : list nat) : list (list nat) :=
  match levels with
  | [] => [[]]
  | l :: r => flat_map (fun v => map (cons v) (combinations r)) (seq 0 l)
  end.

(** Logit probability of level [l] of a process for covariates [x]; [params]: the
    parameters of each level. *)
Definition logit (params : list (list (nat * R))) (x : nat -> R) (l : nat) : R :=
  exp (linear_index x (nth l params [])) / rsum (map (fun b => exp (linear_index x b)) params).

(** Joint probability of the levels [e] of independent processes. *)
Definition joint (procs : list (list (list (nat * R)))) (x : nat -> R) (e : list nat) : R :=
  fold_right Rmult 1 (map (fun p => logit (fst p) x (snd p)) (combine procs e)).

(** Every point of the grid consists of a static and an exogenous part, and the exogenous
    part can be exchanged for every other combination. *)
Definition exogenous_layout (grid : list (list nat)) (levels : list nat) : Prop :=
  NoDup grid /\
  forall vec, In vec grid -> exists static e, vec = static ++ e /\ combination levels e /\
    forall e', combination levels e' -> In (static ++ e') grid.

(** The static part. *)
Definition static_part (n : nat) (vec : list nat) : list nat := firstn (length vec - n) vec.

(** Expected value function with [n] periods to go of a decision problem in which the
    exogenous part of the dense variables is drawn anew each period. *)
Fixpoint expected_value (csf : cs_fun) (inp : inputs) (procs : list (list (list (nat * R))))
  (n : nat) (vec : list nat) (s : core_state) : R :=
  match n with
  | O => 0
  | S m =>
      let pb := model_problem csf inp (Some vec) in
      let next s' :=
        rsum (map (fun e => joint procs (in_cov inp (Some vec) s) e *
                            expected_value csf inp procs m (static_part (length procs) vec ++ e) s')
                  (combinations (map (fun p => length p) procs))) in
      mean (map (fun u =>
        max0 (map (fun p => fst p + p_delta (in_params inp) * next (snd p))
                  (combine u (pb_moves pb s)))) (pb_flows pb s))
  end.

(** [v] is the stored value of state [s] in the dense combination [vec]. *)
Definition value_in (ss : state_space) (ev : list (list R)) (vec : list nat) (s : core_state)
  (v : R) : Prop :=
  exists d, nth_error (ss_grid ss) d = Some vec /\ value_at ss ev s (Some d) v.

(** A model as in C01 with exogenous processes and its state space. *)
From Verif Require Import Spec_CoreStateSpace Model_Exogenous.
Record exogenous_model (sp : core_spec) (neg : neg_set) (k : nat) (grid : list (list nat))
  (procs : processes) (sx : state_space) (inp : inputs) : Prop := {
  em_wf : wf_spec sp;
  em_lags : (sp_nlags sp <= 1)%nat;
  em_closed : closed_under_choices (sp_nperiods sp) (create_core_state_space sp)
                (choice_set_of sp (process sp (S k) neg));
  em_inhabited : create_core_state_space sp <> [];
  em_grid : NoDup grid;
  em_procs : procs <> [];
  em_collisions : collision_free (create_core_state_space sp)
                    (choice_set_of sp (process sp (S k) neg)) grid;
  em_created : create_state_space_exog (sp_nperiods sp) (create_core_state_space sp)
                 (choice_set_of sp (process sp (S k) neg)) grid (levels_of procs) = Ok sx;
  em_choices : in_choices inp = seq 0 (sp_nchoices sp);
  em_chol : square (sp_nchoices sp) (p_chol (in_params inp));
  em_points : forall p, solved_exactly sx (in_points inp) p
}.
