(** C129: missing values in the data for simulations. *)
From Coq Require Import String List Arith.
From Verif Require Import Base Model_Choices Model_Parallel Model_SimulationInput Spec_SimulationInput Proof_SimulationInput Examples_SimulationInput.
Import ListNotations.
Open Scope list_scope.
Open Scope string_scope.

(** Data for simulations of many periods are processed exactly if, for every individual to be
    simulated, each column with labels in the data has a valid value; a missing experience,
    type or column stays missing (and is sampled later), with a warning. *)
Theorem C129_n_step_ahead_with_data : forall nm agents d, proper_names nm -> unique_data d ->
  let rows := map (fun k => (k, 0)) (seq 0 agents) in
  (labels_complete nm rows d -> exists w out, input_n_step nm agents d = Ok (w, out) /\ processed nm rows d out /\
     (w = true <-> exists name i, In name (state_columns nm) /\ name <> "type" /\ In i rows /\ forall v, ~ holds d name i v)) /\
  (~ labels_complete nm rows d -> input_n_step nm agents d = ValueError).
Proof. exact n_step_input. Qed.
Print Assumptions C129_n_step_ahead_with_data.

(** Data for one-step-ahead simulations must not have missing values except for types. *)
Theorem C129_one_step_ahead : forall nm rows d, proper_names nm -> unique_data d ->
  let complete := forall name i, In name (state_columns nm) -> name <> "type" -> In i rows -> exists v, holds d name i v in
  (labels_complete nm rows d -> complete -> exists out, input_one_step nm rows d = Ok out /\ processed nm rows d out) /\
  (~ labels_complete nm rows d \/ ~ complete -> input_one_step nm rows d = ValueError).
Proof. exact one_step_input. Qed.
Print Assumptions C129_one_step_ahead.

(** It is not true that every missing value in the first period is replaced. *)
Theorem C129_missing_values_are_replaced_refuted : exists nm agents d d' out, proper_names nm /\ unique_data d /\ unique_data d' /\
  sd_index d' = sd_index d /\ (exists more, sd_columns d' = (sd_columns d ++ more)%list) /\
  input_n_step nm agents d = Ok (true, out) /\ input_n_step nm agents d' = ValueError.
Proof.
  exists two, 2, some_data, with_lag. eexists. split; [|split; [|split; [|split; [|split; [|split]]]]].
  - unfold proper_names. cbv. repeat constructor; cbv; intuition discriminate.
  - split; cbv; repeat constructor; cbv; intuition discriminate.
  - split; cbv; repeat constructor; cbv; intuition discriminate.
  - reflexivity.
  - eexists. reflexivity.
  - vm_compute. reflexivity.
  - vm_compute. reflexivity.
Qed.
Print Assumptions C129_missing_values_are_replaced_refuted.

Example C129_example : proper_names two /\ unique_data some_data /\ labels_complete two (map (fun k => (k, 0)) (seq 0 2)) some_data /\
  input_n_step two 2 some_data = Ok (true,
    [("exp_a", [Some (Number 3); None]); ("lagged_choice_1", [None; None]); ("sex", [Some (Number 1); Some (Number 0)]); ("type", [None; None])]) /\
  input_one_step two [(0, 0); (1, 0)] some_data = ValueError.
Proof.
  split; [|split; [|split; [|split]]].
  - unfold proper_names. cbv. repeat constructor; cbv; intuition discriminate.
  - split; cbv; repeat constructor; cbv; intuition discriminate.
  - intros name levels i I P Hi. cbv in I, P. destruct I as [I|[I|[I|[]]]]; injection I as <- <-; cbv in P;
      try (destruct P as [P|[P|[]]]; discriminate).
    destruct Hi as [<-|[<-|[]]]; [exists (Label "m")|exists (Label "f")]; (split; [|left; cbn; auto]);
      [exists "Sex", [Some (Label "m"); Some (Label "f")], 0|exists "Sex", [Some (Label "m"); Some (Label "f")], 1];
      repeat split; right; left; reflexivity.
  - vm_compute. reflexivity.
  - vm_compute. reflexivity.
Qed.
