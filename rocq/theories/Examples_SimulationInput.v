(** Data used in the examples of C129: an individual without experience, and additionally
    without lagged choice. *)
From Coq Require Import String List Arith.
From Verif Require Import Base Model_Choices Model_Parallel Model_SimulationInput.
Import ListNotations.
Open Scope list_scope.
Open Scope string_scope.

Definition two : names := mkNames ["a"; "b"] ["a"] 1 [("sex", [Label "f"; Label "m"])] 2.
Definition some_data : sim_data :=
  mkSimData [(0, 0); (1, 0)] [("Experience_A", [Some (Number 3); None]); ("Sex", [Some (Label "m"); Some (Label "f")])].
Definition with_lag : sim_data :=
  mkSimData [(0, 0); (1, 0)] (sd_columns some_data ++ [("Lagged_Choice_1", [Some (Label "b"); None])])%list.
