(** Independent specification: a model with one more choice, which is never available. *)
From Coq Require Import List Arith Bool Reals.
From Verif Require Import Base Model_CoreStateSpace Spec_CoreStateSpace Model_StateSpace Model_Solve Spec_Solve.
Import ListNotations.
Local Open Scope nat_scope.

Fixpoint insert_at {A} (j : nat) (x : A) (l : list A) : list A :=
  match j, l with
  | S i, y :: r => y :: insert_at i x r
  | _, _ => x :: l
  end.
Fixpoint remove_at {A} (j : nat) (l : list A) : list A :=
  match j, l with
  | _, [] => []
  | 0, _ :: r => r
  | S i, y :: r => y :: remove_at i r
  end.

(** The code which choice [c] has after another choice gets the code [j]. *)
Definition new_code (j c : nat) : nat := if Nat.ltb c j then c else S c.

(** The same state in the larger model; [e] is the level of experience in the new choice if
    it has experience. *)
Definition widen (j : nat) (e : option nat) (s : core_state) : core_state :=
  mkState (cs_period s)
    match e with Some x => insert_at j x (cs_exp s) | None => cs_exp s end
    (map (option_map (new_code j)) (cs_lag s)).

(** The model with choice sets [csf'] and inputs [inp'] has the choices of the other one and
    choice [j]. The choice is not available in the states in which its experience is [e], and
    the other choices are available as before, with the same rewards and shocks. *)
Record one_more_choice (core : list core_state) (n_exp j : nat) (e : option nat)
  (csf : cs_fun) (inp : inputs) (ctx : option (list nat)) (csf' : cs_fun) (inp' : inputs) (ctx' : option (list nat)) : Prop := {
  om_experience : match e with Some _ => j <= n_exp | None => n_exp <= j end;
  om_delta : p_delta (in_params inp) = p_delta (in_params inp');
  om_chol : p_chol (in_params inp) = map (remove_at j) (remove_at j (p_chol (in_params inp')));
  om_nwages : p_nwages (in_params inp') = if Nat.ltb j (p_nwages (in_params inp')) then S (p_nwages (in_params inp)) else p_nwages (in_params inp);
  om_draws : forall n p, in_base inp n p = in_base inp' n p;
  om_choices : forall s, In s core -> csf' ctx' (widen j e s) = insert_at j false (csf ctx s);
  om_wages : forall s c, In s core -> nth_error (csf ctx s) c = Some true ->
     wage_of (in_params inp) (in_cov inp ctx s) c = wage_of (in_params inp') (in_cov inp' ctx' (widen j e s)) (new_code j c);
  om_nonpecs : forall s c, In s core -> nth_error (csf ctx s) c = Some true ->
     nonpec_of (in_params inp) (in_cov inp ctx s) c = nonpec_of (in_params inp') (in_cov inp' ctx' (widen j e s)) (new_code j c)
}.
