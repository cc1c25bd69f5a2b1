(** Property theorems: the columns and the index of data. *)
From Coq Require Import String List Arith Bool.
From Verif Require Import Base Model_Choices Model_UserData Spec_UserData Proof_UserData.
Import ListNotations.
Open Scope list_scope.
Open Scope string_scope.

(** ** C128 *)
(** Data with identifiers and periods in the index. *)
Theorem C128_indexed_data : forall A B C check process value exps n_lags obs (f : user_frame A) ids periods v,
  indexed f ids periods ->
  (forall n, In n (data_columns exps n_lags obs) -> column_of f n = Some (v n)) ->
  @evaluate_criterion A B C check process value exps n_lags obs f =
    result_bind (check (ids :: periods :: map v (data_columns exps n_lags obs))) (fun _ =>
    result_bind (process periods (map v (data_columns exps n_lags obs))) (fun b => value b ids)).
Proof. exact indexed_data. Qed.
Print Assumptions C128_indexed_data.

(** Other columns and the order of columns do not matter. *)
Theorem C128_other_columns : forall A B C check process value exps n_lags obs (f g : user_frame A) ids periods,
  indexed f ids periods -> indexed g ids periods ->
  ~ In "Identifier" (data_columns exps n_lags obs) -> ~ In "Period" (data_columns exps n_lags obs) ->
  (forall n, In n (data_columns exps n_lags obs) -> column_of f n = column_of g n) ->
  @evaluate_criterion A B C check process value exps n_lags obs f = evaluate_criterion check process value exps n_lags obs g.
Proof. exact other_columns. Qed.
Print Assumptions C128_other_columns.

(** A missing column is noticed before the check. *)
Theorem C128_missing_column : forall A B check process exps n_lags obs (f : user_frame A) ids periods n,
  indexed f ids periods -> In n (data_columns exps n_lags obs) -> n <> "Identifier" -> n <> "Period" -> column_of f n = None ->
  @create_criterion A B check process exps n_lags obs f = KeyError.
Proof. exact missing_column. Qed.
Print Assumptions C128_missing_column.

Theorem C128_period_needed : forall A B check process exps n_lags obs (f : user_frame A) b,
  @create_criterion A B check process exps n_lags obs f = Ok b ->
  exists name periods, In (Some name, periods) (uf_levels f) /\ rename_labels_to_internal name = "period".
Proof. exact period_needed. Qed.
Print Assumptions C128_period_needed.

(** The error if there are no periods at all is raised when initial experiences are read. *)
Theorem C128_no_periods : forall A B check process exps n_lags obs (f : user_frame A), exps <> [] ->
  column_of f "Period" = None -> (forall v, ~ In (Some "Period", v) (uf_levels f)) ->
  @create_criterion A B check process exps n_lags obs f = NameError.
Proof. exact no_periods. Qed.
Print Assumptions C128_no_periods.

(** Data with identifiers and periods in columns are checked in the same way, but an error is
    raised even if they pass the check. *)
Theorem C128_columns_instead_of_index : forall A B check process exps n_lags obs (f : user_frame A) ids periods v,
  not_indexed f ids periods ->
  (forall n, In n (data_columns exps n_lags obs) -> column_of f n = Some (v n)) ->
  @create_criterion A B check process exps n_lags obs f =
    result_bind (check (ids :: periods :: map v (data_columns exps n_lags obs))) (fun _ => KeyError).
Proof. exact columns_instead_of_index. Qed.
Print Assumptions C128_columns_instead_of_index.

Theorem C128_set_index : forall A B C check process value exps n_lags obs (f : user_frame A) ids periods v,
  (forall n, In n (data_columns exps n_lags obs) -> column_of f n = Some (v n)) ->
  ~ In "Identifier" (data_columns exps n_lags obs) -> ~ In "Period" (data_columns exps n_lags obs) ->
  @evaluate_criterion A B C check process value exps n_lags obs (set_index ids periods f) =
    result_bind (check (ids :: periods :: map v (data_columns exps n_lags obs))) (fun _ =>
    result_bind (process periods (map v (data_columns exps n_lags obs))) (fun b => value b ids)).
Proof. exact with_the_index. Qed.
Print Assumptions C128_set_index.

(** With only the periods in the index the error is raised by the evaluation. *)
Theorem C128_identifier_needed : forall A B C check process value exps n_lags obs (f : user_frame A) ids periods v,
  uf_levels f = [(Some "Period", periods)] -> column_of f "Identifier" = Some ids -> column_of f "Period" = None ->
  (forall n, In n (data_columns exps n_lags obs) -> column_of f n = Some (v n)) ->
  @create_criterion A B check process exps n_lags obs f =
    result_bind (check (ids :: periods :: map v (data_columns exps n_lags obs))) (fun _ => process periods (map v (data_columns exps n_lags obs))) /\
  @evaluate_criterion A B C check process value exps n_lags obs f =
    result_bind (create_criterion check process exps n_lags obs f) (fun _ => KeyError).
Proof. exact identifier_needed. Qed.
Print Assumptions C128_identifier_needed.

Theorem C128_twice : forall A B check process exps n_lags obs (f : user_frame A) ids periods x v,
  uf_levels f = [(Some "Identifier", ids); (Some "Period", periods)] -> column_of f "Identifier" = Some x ->
  (forall n, In n (data_columns exps n_lags obs) -> column_of f n = Some (v n)) ->
  @create_criterion A B check process exps n_lags obs f = ValueError.
Proof. exact twice. Qed.
Print Assumptions C128_twice.

Definition ex_columns : list (string * list nat) :=
  [("Identifier", [0; 0]); ("Period", [0; 1]); ("Extra", [5; 6]); ("Wage", [9; 8]); ("Choice", [1; 0]);
   ("Lagged_Choice_1", [0; 1]); ("Experience_Work", [0; 0]); ("Ability", [1; 1])].
Definition ex_frame : user_frame nat := mkUser [(None, [0; 1])] ex_columns.
Definition ex_value (n : string) : list nat := match column_of ex_frame n with Some v => v | None => [] end.
Example C128_example : not_indexed ex_frame [0; 0] [0; 1] /\
  indexed (set_index [0; 0] [0; 1] ex_frame) [0; 0] [0; 1] /\
  data_columns ["work"] 1 ["ability"] = ["Choice"; "Wage"; "Experience_Work"; "Lagged_Choice_1"; "Ability"] /\
  (forall n, In n (data_columns ["work"] 1 ["ability"]) -> column_of ex_frame n = Some (ex_value n)) /\
  create_criterion (fun _ => Ok tt) (fun p v => Ok (p :: v)) ["work"] 1 ["ability"] ex_frame = KeyError /\
  evaluate_criterion (fun _ => Ok tt) (fun p v => Ok (p :: v)) (fun b i => Ok (i :: b)) ["work"] 1 ["ability"] (set_index [0; 0] [0; 1] ex_frame) =
    Ok [[0; 0]; [0; 1]; [1; 0]; [9; 8]; [0; 0]; [0; 1]; [1; 1]].
Proof.
  split; [constructor; [exists [0; 1]; reflexivity|reflexivity..]|].
  split; [constructor; [left; reflexivity|reflexivity..]|]. split; [reflexivity|].
  split; [intros n H; vm_compute in H; repeat (destruct H as [<-|H]; [reflexivity|]); destruct H|]. split; reflexivity.
Qed.
