(** What is claimed about the curvature of the solution. *)
From Coq Require Import List Arith Reals.
From Verif Require Import Base Model_CoreStateSpace Model_Solve Spec_Solve.
Import ListNotations.
Open Scope R_scope.

(** The coefficients [b''] are a weighted average of [b] and [b'], which belong to the same
    covariates. *)
Definition mixed_coefficients (l : R) (b b' b'' : list (nat * R)) : Prop :=
  map fst b' = map fst b /\
  b'' = map (fun p => (fst (fst p), l * snd (fst p) + (1 - l) * snd (snd p))) (combine b b').
Definition mixed_option (l : R) (o o' o'' : option (list (nat * R))) : Prop :=
  match o, o', o'' with
  | Some b, Some b', Some b'' => mixed_coefficients l b b' b''
  | None, None, None => True
  | _, _, _ => False
  end.

(** Everything but the coefficients of wages and non-pecuniary rewards is the same. *)
Definition same_but_coefficients (inp inp' : inputs) : Prop :=
  in_choices inp' = in_choices inp /\ in_base inp' = in_base inp /\ in_cov inp' = in_cov inp /\
  p_chol (in_params inp') = p_chol (in_params inp) /\ p_nwages (in_params inp') = p_nwages (in_params inp) /\
  p_delta (in_params inp') = p_delta (in_params inp).

(** The coefficients of the third model are a weighted average of those of the others; only
    the first choices have wages. *)
Definition mixed_models (l : R) (inp inp' inp'' : inputs) : Prop :=
  same_but_coefficients inp inp' /\ same_but_coefficients inp inp'' /\
  (forall c, mixed_option l (p_wage (in_params inp) c) (p_wage (in_params inp') c) (p_wage (in_params inp'') c)) /\
  (forall c, mixed_option l (p_nonpec (in_params inp) c) (p_nonpec (in_params inp') c) (p_nonpec (in_params inp'') c)) /\
  (forall c, (p_nwages (in_params inp) <= c)%nat -> p_wage (in_params inp) c = None).

(** The problem in which the utility of each choice is the average over all shocks. *)
Definition average_problem {S} (pb : problem S) : problem S :=
  mkProblem S (pb_moves pb)
    (fun s => [map (fun j => mean (map (fun u => nth j u 0) (pb_flows pb s))) (seq 0 (length (pb_moves pb s)))]).
