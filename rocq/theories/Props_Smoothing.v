(** The smoothing parameter of the likelihood: C92. *)
From Coq Require Import List Arith Bool Reals Lra Lia.
From Verif Require Import Base Model_Solve Spec_Solve Model_Likelihood Spec_Likelihood Spec_Smoothing
  Proof_Smoothing.
Import ListNotations.
Open Scope R_scope.

(** ** C92 *)
Theorem C92_no_smoothing_in_the_limit : forall wages nonpecs conts draws delta c eps,
  same_lengths wages nonpecs conts draws -> (c < length wages)%nat -> draws <> [] -> 0 < eps ->
  exists t0, 0 < t0 /\ forall tau, 0 < tau < t0 ->
    exists lp, simulate_log_probability wages nonpecs conts draws delta c tau = Ok lp /\
      Rabs (exp lp - frequency wages nonpecs conts delta draws c) < eps.
Proof. exact smoothing_limit. Qed.
Print Assumptions C92_no_smoothing_in_the_limit.

(** The error is at most proportional to the smoothing parameter. *)
Theorem C92_error_of_smoothing : forall wages nonpecs conts draws delta c,
  same_lengths wages nonpecs conts draws -> (c < length wages)%nat -> draws <> [] ->
  exists K, 0 <= K /\ forall tau, 0 < tau ->
    exists lp, simulate_log_probability wages nonpecs conts draws delta c tau = Ok lp /\
      Rabs (exp lp - frequency wages nonpecs conts delta draws c) <= K * tau.
Proof. exact smoothing_vanishes. Qed.
Print Assumptions C92_error_of_smoothing.

(** With much smoothing all choices are equally likely. *)
Theorem C92_much_smoothing : forall wages nonpecs conts draws delta c,
  same_lengths wages nonpecs conts draws -> (c < length wages)%nat -> draws <> [] ->
  exists K, 0 <= K /\ forall tau, 0 < tau ->
    exists lp, simulate_log_probability wages nonpecs conts draws delta c tau = Ok lp /\
      Rabs (exp lp - / INR (length wages)) <= K / tau.
Proof. exact smoothing_uniform. Qed.
Print Assumptions C92_much_smoothing.

Theorem C92_better_choices_are_more_likely : forall wages nonpecs conts draws delta c d tau lc ld,
  same_lengths wages nonpecs conts draws -> (c < length wages)%nat -> (d < length wages)%nat ->
  draws <> [] -> 0 < tau ->
  (forall e, In e draws -> nth d (choice_values wages nonpecs conts delta e) 0
                        <= nth c (choice_values wages nonpecs conts delta e) 0) ->
  simulate_log_probability wages nonpecs conts draws delta c tau = Ok lc ->
  simulate_log_probability wages nonpecs conts draws delta d tau = Ok ld -> ld <= lc.
Proof. exact smoothing_order. Qed.
Print Assumptions C92_better_choices_are_more_likely.

(** Two choices; the first is better in one of two draws, in the other both are equally
    good: the share is three quarters. *)
Example C92_example :
  same_lengths [1; 1] [0; 2] [0; 0] [[3; 0]; [2; 0]] /\
  frequency [1; 1] [0; 2] [0; 0] 1 [[3; 0]; [2; 0]] 0 = 3 / 4.
Proof.
  split.
  - split; [reflexivity|]. split; [reflexivity|]. intros e [<-|[<-|[]]]; reflexivity.
  - unfold frequency, best_share, n_best, mean, choice_values, maximum, rsum. cbn.
    replace (1 * 3 + 0 + 1 * 0) with 3 by ring. replace (1 * 0 + 2 + 1 * 0) with 2 by ring.
    replace (1 * 2 + 0 + 1 * 0) with 2 by ring.
    rewrite (Rmax_right 2 3), (Rmax_left 2 2) by lra.
    destruct (Req_EM_T 3 3) as [_|N]; [|lra]. destruct (Req_EM_T 2 3) as [N|_]; [lra|].
    destruct (Req_EM_T 2 2) as [_|N]; [|lra]. cbn. field.
Qed.
