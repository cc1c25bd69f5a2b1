(** The likelihood of all histories of choices. *)
From Coq Require Import List Arith Bool Reals Lra Lia Sorting.Permutation.
From Verif Require Import Base Model_Parallel Model_CoreStateSpace Model_StateSpace Model_Solve Spec_Solve
  Model_ConditionalDraws Spec_ConditionalDraws Proof_Matrix Proof_ConditionalDraws Model_Likelihood Spec_Likelihood
  Examples_Likelihood Spec_Histories Proof_Histories Examples_Histories.
Import ListNotations.
Open Scope R_scope.

(** ** C119 *)
Theorem C119_likelihoods_of_histories_sum_to_one :
  forall rc qr lk env n_types params x order_rows order_types place choice_set n,
  (1 <= n_types)%nat -> length params = n_types -> (1 <= n)%nat -> lk_tau lk <> 0 ->
  (forall l, Permutation (order_rows l) l) -> (forall l, Permutation (order_types l) l) ->
  proper_tree lk env n_types place choice_set n ->
  (forall p, In p (logits (type_indices params (x 0%nat))) -> - 10 ^ 200 <= ln p) ->
  let options past := positions (choice_set past) in
  let log_likelihood path :=
    log_like rc qr lk (locate_along place path) env n_types params x order_rows order_types (panel path) in
  (forall path, In path (histories options n []) -> exists v cs, log_likelihood path = Ok (v, cs)) /\
  ((forall past t c j lc lw, In past (histories options (length past) []) -> (length past < n)%nat ->
      (t < n_types)%nat -> In c (options past) ->
      let k := fst (place past t) in let pos := snd (place past t) in
      row_loglikes rc qr lk (le_choice_set env k) (le_wages env k pos) (le_nonpec env k pos) (le_cont env k pos)
        (le_draws env k j) c None = Ok (lc, lw) ->
      - 10 ^ 200 < INR n * lc) ->
   rsum (map (fun path => match log_likelihood path with Ok (v, _) => exp v | _ => 0 end)
             (histories options n [])) = 1).
Proof. exact all_histories. Qed.
Print Assumptions C119_likelihoods_of_histories_sum_to_one.

(** Three histories of two choices and two types. *)
Example C119_example :
  histories (fun past => positions (eh_choice_set past)) 2 [] = [[0; 0]; [0; 1]; [1; 0]]%nat /\
  proper_tree eh_lk eh_env 2 eh_place eh_choice_set 2 /\
  (forall p, In p (logits (type_indices ex_params (ex_x 0))) -> - 10 ^ 200 <= ln p) /\
  forall past t c j lc lw, (t < 2)%nat -> In c (positions (eh_choice_set past)) ->
    let k := fst (eh_place past t) in let pos := snd (eh_place past t) in
    row_loglikes cholesky lazy_qr eh_lk (le_choice_set eh_env k) (le_wages eh_env k pos) (le_nonpec eh_env k pos)
      (le_cont eh_env k pos) (le_draws eh_env k j) c None = Ok (lc, lw) -> - 10 ^ 200 < INR 2 * lc.
Proof.
  split; [exact eh_histories|]. split; [exact eh_tree|]. split; [exact eh_probabilities|exact eh_unclipped].
Qed.
