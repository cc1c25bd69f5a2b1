(** Property theorems: formulas of the negative choice set that have no effect. *)
From Coq Require Import List Arith Bool Lia.
From Verif Require Import Base Model_CoreStateSpace Spec_CoreStateSpace Proof_CoreStateSpace Proof_Restrictions.
Import ListNotations.

(** Two negative choice sets with the same formulas that can be evaluated, in whatever
    order, lead to the same choice sets.  Formulas with unknown variables and formulas for
    unknown choices have no effect. *)
Theorem C07_ignored_restrictions : forall sp neg neg' ctx s k k',
  wf_spec sp ->
  (forall c f g, c < sp_nchoices sp -> f ctx = Some g ->
     ((exists fs, neg c = Some fs /\ In f fs) <-> (exists fs, neg' c = Some fs /\ In f fs))) ->
  choice_set_of sp (process sp (S k) neg) ctx s = choice_set_of sp (process sp (S k') neg') ctx s.
Proof. exact ignored_restrictions. Qed.
Print Assumptions C07_ignored_restrictions.

(** Further restrictions never make a choice available. *)
Theorem C07_more_restrictions : forall sp neg neg' ctx s k k',
  wf_spec sp ->
  (forall c fs f g, c < sp_nchoices sp -> neg c = Some fs -> In f fs -> f ctx = Some g ->
     exists fs', neg' c = Some fs' /\ In f fs') ->
  forall c, nth_error (choice_set_of sp (process sp (S k') neg') ctx s) c = Some true ->
    nth_error (choice_set_of sp (process sp (S k) neg) ctx s) c = Some true.
Proof. exact more_restrictions. Qed.
Print Assumptions C07_more_restrictions.

(** Three choices; a formula with an unknown variable for the third, one for a choice that
    does not exist, and a proper restriction of the first in the second period. *)
Definition ex_misspelled : neg_set := fun c =>
  if Nat.eqb c 2 then Some [fun _ => None] else if Nat.eqb c 7 then Some [fun _ => Some (fun _ => true)] else None.
Definition ex_proper : neg_set := fun c =>
  if Nat.eqb c 0 then Some [fun _ => Some (fun s => Nat.eqb (cs_period s) 1)] else ex_misspelled c.
Example C07_example_restrictions :
  let sp := mkSpec 4 [[0; 2]; [0]] [5; 2] 3 1 [] in let s := mkState 1 [0; 1] [Some 1] in
  wf_spec sp /\
  choice_set_of sp (process sp 1 ex_misspelled) None s = choice_set_of sp (process sp 1 (fun _ => None)) None s /\
  choice_set_of sp (process sp 1 ex_proper) None s = [false; true; true].
Proof. split; [unfold wf_spec; cbn; solve_wf|]. vm_compute. auto. Qed.
