(** Independent specification of changes of the units and of the level of rewards. *)
From Coq Require Import List Arith Bool Reals.
From Verif Require Import Base Model_CoreStateSpace Model_StateSpace Model_Solve Spec_Solve
  Model_Parallel Model_Simulate.
Import ListNotations.
Open Scope R_scope.

(** The second model is the first one in other units: wages and non-pecuniary rewards are
    multiplied by [lam]; the shocks of choices without wage are additive and have a standard
    deviation multiplied by [lam], those of choices with wage are multiplicative and stay the
    same. *)
Definition rewards_scaled (lam : R) (inp inp' : inputs) : Prop :=
  in_base inp' = in_base inp /\
  p_delta (in_params inp') = p_delta (in_params inp) /\
  p_nwages (in_params inp') = p_nwages (in_params inp) /\
  (forall ctx s c, wage_of (in_params inp') (in_cov inp' ctx s) c =
     (if Nat.ltb c (p_nwages (in_params inp)) then lam else 1) * wage_of (in_params inp) (in_cov inp ctx s) c) /\
  (forall ctx s c, nonpec_of (in_params inp') (in_cov inp' ctx s) c =
                   lam * nonpec_of (in_params inp) (in_cov inp ctx s) c) /\
  (forall c j, mat (p_chol (in_params inp')) c j =
     (if Nat.ltb c (p_nwages (in_params inp)) then 1 else lam) * mat (p_chol (in_params inp)) c j).

(** The second model has the non-pecuniary rewards of all choices increased by [kappa]. *)
Definition rewards_shifted (kappa : R) (inp inp' : inputs) : Prop :=
  in_base inp' = in_base inp /\
  p_delta (in_params inp') = p_delta (in_params inp) /\
  p_nwages (in_params inp') = p_nwages (in_params inp) /\
  p_chol (in_params inp') = p_chol (in_params inp) /\
  (forall ctx s c, wage_of (in_params inp') (in_cov inp' ctx s) c =
                   wage_of (in_params inp) (in_cov inp ctx s) c) /\
  (forall ctx s c, nonpec_of (in_params inp') (in_cov inp' ctx s) c =
                   nonpec_of (in_params inp) (in_cov inp ctx s) c + kappa).

(** The change of parameters which changes the units: [ln lam] is added to the coefficient
    of the covariate [const] in each wage equation, the non-pecuniary coefficients and the
    rows of the factor of choices without wage are multiplied by [lam]. *)
Definition change_units (lam : R) (const : nat) (p : params) : params :=
  mkParams
    (fun c => option_map (map (fun b => if Nat.eqb (fst b) const then (fst b, snd b + ln lam) else b)) (p_wage p c))
    (fun c => option_map (map (fun b => (fst b, lam * snd b))) (p_nonpec p c))
    (p_delta p)
    (map (fun r => if Nat.ltb (fst r) (p_nwages p) then snd r else map (Rmult lam) (snd r)) (enumerate (p_chol p)))
    (p_nwages p).

(** Each wage equation has the covariate [const] exactly once. *)
Definition has_constant (const : nat) (p : params) : Prop :=
  forall c b, p_wage p c = Some b -> count_occ Nat.eq_dec (map fst b) const = 1%nat.
(** The first choices are those with a wage. *)
Definition wages_first (p : params) : Prop :=
  forall c, p_wage p c <> None <-> (c < p_nwages p)%nat.

(** In each state of the model and for each draw some choice has a non-negative value. *)
Definition some_nonnegative (core : list core_state) (nperiods : nat) (pb : problem core_state) (delta : R) : Prop :=
  forall s u, In s core -> In u (pb_flows pb s) ->
    exists v, In v (alternatives pb delta (nperiods - S (cs_period s)) s u) /\ 0 <= v.

(** The settings of two simulations differ in the parameters only. *)
Definition same_but_params (si si' : sim_spec) : Prop :=
  si_choices si' = si_choices si /\ si_beta si' = si_beta si /\ si_meas si' = si_meas si.

(** The values of all choices of a state are multiplied by [lam] for each draw. *)
Definition values_scaled (lam : R) (wages wages' nonpec nonpec' cont cont' : list R) (draws draws' : list (list R)) : Prop :=
  length wages' = length wages /\ length nonpec' = length nonpec /\ length cont' = length cont /\
  (forall j, nth j nonpec' 0 = lam * nth j nonpec 0) /\ (forall j, nth j cont' 0 = lam * nth j cont 0) /\
  Forall2 (fun e e' => length e' = length e /\
             forall j, nth j wages' 0 * nth j e' 0 = lam * (nth j wages 0 * nth j e 0)) draws draws'.
