(** What the columns of the simulated data mean. *)
From Coq Require Import List Arith Bool String Reals.
From Verif Require Import Base Model_CoreStateSpace Model_StateSpace Model_Solve Spec_Solve
  Model_Parallel Model_Simulate Spec_Simulate Model_Choices Model_OutputColumns.
Import ListNotations.
Open Scope string_scope.

(** Columns that belong to one choice, and columns of the whole row. *)
Definition choice_prefixes : list string :=
  ["shock_reward_"; "meas_error_wage_"; "nonpecuniary_reward_"; "wage_"; "flow_utility_";
   "value_function_"; "continuation_value_"].
Definition row_columns : list string :=
  ["dense_key"; "core_index"; "choice"; "wage"; "discount_rate"; "present_bias"].
Definition written_columns (choices : list string) : list string :=
  (row_columns ++ flat_map (fun c => map (fun p => (p ++ c)%string) choice_prefixes) choices)%list.

(** [number f name x]: the column [name] contains the number [x]. *)
Definition number (f : string -> cell) (name : string) (x : R) : Prop := f name = Num x.

(** The columns of one row; [f] is the cell of a column, [base] and [meas] are the rows of
    the base draws and of the measurement errors. *)
Record account (choices : list string) (p : params) (beta : R) (cs : list bool)
  (base meas : list R) (f : string -> cell) : Prop := {
  (** The discount rate and the present bias. *)
  ac_rates : number f "discount_rate" (p_delta p) /\ number f "present_bias" beta;
  (** Available choices: the value is the flow utility plus the discounted continuation
      value; a wage is the monetary part of the flow utility times the measurement error;
      without wage the flow utility is the non-pecuniary reward plus the shock. *)
  ac_available : forall c x, nth_error choices c = Some x -> available cs c ->
    exists n u v e s m,
      number f ("nonpecuniary_reward_" ++ x) n /\ number f ("flow_utility_" ++ x) u /\
      number f ("value_function_" ++ x) v /\ number f ("continuation_value_" ++ x) e /\
      number f ("shock_reward_" ++ x) s /\ number f ("meas_error_wage_" ++ x) m /\
      s = shock_of p cs base c /\ nth_error meas c = Some m /\
      (v = u + beta * p_delta p * e)%R /\
      ((c < p_nwages p)%nat -> number f ("wage_" ++ x) ((u - n) * m)%R) /\
      ((p_nwages p <= c)%nat -> f ("wage_" ++ x) = Missing /\ (u = n + s)%R);
  (** Unavailable choices: nothing but the draws, the shock without transformation. *)
  ac_unavailable : forall c x, nth_error choices c = Some x -> unavailable cs c ->
    (exists s m, nth_error base c = Some s /\ nth_error meas c = Some m /\
       number f ("shock_reward_" ++ x) s /\ number f ("meas_error_wage_" ++ x) m) /\
    forall prefix, In prefix ["nonpecuniary_reward_"; "wage_"; "flow_utility_"; "value_function_"; "continuation_value_"] ->
      f (prefix ++ x) = Missing;
  (** The wage is the one in the column of a choice with the highest value; this choice is
      the recorded one if positions and codes of the available choices do not interfere. *)
  ac_choice : exists c x v, nth_error choices c = Some x /\ available cs c /\
    number f ("value_function_" ++ x) v /\ f "wage" = f ("wage_" ++ x) /\
    (forall c' x' v', nth_error choices c' = Some x' -> available cs c' ->
       number f ("value_function_" ++ x') v' -> (v' <= v)%R) /\
    (in_place cs -> f "choice" = Code c) }.

(** A group of individuals with complete arrays: one row per state, one column per available
    choice, the wage of a choice without wage is one, and at least one available choice. *)
Record complete (k : constants) (g : group) (e : entrant) : Prop := {
  cp_set : List.length (g_choice_set g) = List.length (k_choices k);
  cp_some : exists c, available (g_choice_set g) c;
  cp_shocks : List.length (e_shocks e) = List.length (k_choices k);
  cp_meas : List.length (e_meas e) = List.length (k_choices k);
  cp_arrays : exists w n c, nth_error (g_wages g) (e_index e) = Some w /\
    nth_error (g_nonpecs g) (e_index e) = Some n /\ nth_error (g_conts g) (e_index e) = Some c /\
    List.length w = count_true (g_choice_set g) /\ List.length n = count_true (g_choice_set g) /\
    List.length c = count_true (g_choice_set g) /\
    forall j ch, nth_error (positions (g_choice_set g)) j = Some ch -> (p_nwages (k_params k) <= ch)%nat ->
      nth j w 0%R = 1%R;
  cp_state : forall x, In x (map fst (e_state e)) -> ~ In x (written_columns (k_choices k)) }.

(** Renaming keeps columns apart. *)
Definition kept_apart (columns : list string) : Prop :=
  forall a b, In a columns -> In b columns ->
    rename_labels_from_internal a = rename_labels_from_internal b -> a = b.

(** All columns: those that are written and those of the states. *)
Definition all_columns (k : constants) (periods : list (list group)) : list string :=
  (written_columns (k_choices k) ++
   flat_map (fun groups => flat_map (fun g => flat_map (fun e => map fst (e_state (snd e))) (g_rows g)) groups)
            periods)%list.
