(** Model of the criterion of the maximum likelihood estimation as a whole: from the data and
    the solved model to the value of the likelihood. *)
From Coq Require Import String List Arith ZArith Bool Reals.
From Verif Require Import Base Model_CoreStateSpace Model_StateSpace Model_Choices Model_Parallel Model_Solve Model_Simulate
  Model_Draws Model_ConditionalDraws Model_Likelihood Model_Dataset.
From Verif Require Model_Data.
Import ListNotations.
Open Scope list_scope.
Open Scope nat_scope.

(** likelihood.py:222-240: the choice sets, wages, non-pecuniary rewards and continuation
    values of the state space by dense key.  Each key belongs to one period, so merging the
    dictionaries of the periods gives the continuation values of that period.  Simplified:
    a key or a row which does not exist has no entries. *)
Definition likelihood_env (ss : state_space) (inp : inputs) (ev : list (list R))
  (draws : nat -> nat -> list (list R)) : like_env :=
  mkLikeEnv
    (fun k => match dense_key_to_complex ss k with Some cx => cx_choice_set cx | None => [] end)
    (fun k i => match rewards_of ss inp k with Ok wn => nth i (fst wn) [] | _ => [] end)
    (fun k i => match rewards_of ss inp k with Ok wn => nth i (snd wn) [] | _ => [] end)
    (fun k i => match dense_key_to_complex ss k with
                | Some cx => match get_continuation_values 0%R ss ev (fst (fst cx)) k with
                             | Ok m => nth i m [] | _ => [] end
                | None => [] end)
    draws.

(** Position of an index among the rows. *)
Fixpoint row_number (idx : index) (l : list index) : option nat :=
  match l with
  | [] => None
  | i :: l => if Nat.eqb (fst i) (fst idx) && Nat.eqb (snd i) (snd idx) then Some 0
              else option_map S (row_number idx l)
  end.

(** likelihood.py:527-532: the rows of the data are repeated for each type, one type after
    the other, and their locations are stored in two columns. *)
Definition stored_location (df : frame coded) (locations : list (nat * nat)) (idx : index) (_ : obs) (t : nat)
  : result (nat * nat) :=
  match row_number idx (map fst df) with
  | Some j => match nth_error locations (t * List.length df + j) with Some kr => Ok kr | None => OtherError end
  | None => OtherError
  end.

(** likelihood.py:534-536: the choice and the wage of a row. *)
Definition observed (df : frame coded) : frame obs :=
  map (fun r => (fst r, mkObs (cd_choice (snd r)) (cd_wage (snd r)))) df.

(** likelihood.py:94-176 (get_log_like_func and log_like): the data are checked, processed and
    mapped to states; the criterion is evaluated with the solved model [inp], [ev]. *)
Definition criterion (robust_cholesky qr : nat -> matrix -> matrix) (lk : like_spec) (lb : labels) (sp : core_spec)
  (csf : cs_fun) (grid : list (list nat)) (ss : state_space) (inp : inputs) (ev : list (list R))
  (draws : nat -> nat -> list (list R)) (params : list (list (nat * R))) (x : nat -> nat -> nat -> R)
  (order_rows : list (lrow * (R * R)) -> list (lrow * (R * R))) (order_types : list nat -> list nat)
  (categories : nat -> list string) (data : list Model_Data.row) : result (R * list R) :=
  result_bind (prepare_estimation lb sp csf grid categories data) (fun p =>
  log_like robust_cholesky qr lk (stored_location (fst p) (snd p)) (likelihood_env ss inp ev draws)
    (lb_ntypes lb) params x order_rows order_types (observed (fst p))).
