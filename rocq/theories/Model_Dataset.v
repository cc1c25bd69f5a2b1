(** Model of what surrounds the simulation and the estimation: sampling of initial
    conditions (simulate.py:300-371), the data set that is returned by a simulation
    (simulate.py:545-595) and the processing of data for the estimation
    (likelihood.py:90-103, 516-534). *)
From Coq Require Import List Arith ZArith Bool String Reals.
From Verif Require Import Base Model_CoreStateSpace Model_StateSpace Model_Choices Model_Processing
  Model_Parallel Model_Solve Model_Simulate.
From Verif Require Model_Data.
Import ListNotations.
Open Scope nat_scope.

(** ** Initial conditions *)

(** The parameters of the distributions in [optim_paras]: for each observable, experience,
    lagged choice (first lag first) and for the types the coefficients of each level in the
    order of the dictionary. The keys matter for experiences only. *)
Record initial_conditions := mkInitial {
  ic_observables : list (list (list (nat * R)));
  ic_start : list (list (nat * list (nat * R)));
  ic_lags : list (list (list (nat * R)));
  ic_types : list (list (nat * R)) }.

(** A row of the first period before characteristics are sampled; [None] is missing. *)
Record partial_row := mkPartial {
  pt_obs : list (option nat);
  pt_exp : list (option nat);
  pt_lag : list (option nat);
  pt_type : option nat }.

Inductive characteristic := CObs (i : nat) | CExp (i : nat) | CLag (i : nat) | CType.

(** [fillna]: the characteristic is sampled for every row and used if the value is missing.
    simulate.py:369: the columns are converted to uint8. *)
Definition fill (given : option nat) (sampled : result nat) : result nat :=
  result_bind sampled (fun s => Ok ((match given with Some v => v | None => s end) mod 256)).

(** simulate.py:540: with [use_keys] the sampled value is the key of the level. *)
Definition key_of (levels : list (nat * list (nat * R))) (i : nat) : result nat :=
  match nth_error levels i with Some l => Ok (fst l) | None => IndexError end.

(** simulate.py:300-371 (_extend_data_with_sampled_characteristics) for a row of the first
    period. [x c] are the covariates which can be computed when characteristic [c] is sampled,
    [u c] the uniform draw. All characteristics are columns of the data. *)
Definition extend_row (ic : initial_conditions) (x : characteristic -> nat -> R) (u : characteristic -> R)
  (g : partial_row) : result individual :=
  let sample c levels := sample_characteristic (x c) levels (u c) in
  let column (f : nat -> characteristic) given levels :=
    result_all (map (fun p => fill (nth (fst p) given None) (sample (f (fst p)) (snd p))) (enumerate levels)) in
  result_bind (column CObs (pt_obs g) (ic_observables ic)) (fun obs =>
  result_bind (result_all (map (fun p =>
      fill (nth (fst p) (pt_exp g) None)
           (result_bind (sample (CExp (fst p)) (map snd (snd p))) (key_of (snd p)))) (enumerate (ic_start ic)))) (fun exps =>
  result_bind (column CLag (pt_lag g) (ic_lags ic)) (fun lags =>
  result_bind (if Nat.leb 2 (List.length (ic_types ic))
               then result_bind (fill (pt_type g) (sample CType (ic_types ic))) (fun t => Ok [t])
               else Ok []) (fun type =>
  Ok (mkInd (mkState 0 exps (map Some lags)) (obs ++ type)))))).

(** ** The data set of a simulation *)

(** What is used of [optim_paras]: labels of choices (those with wages first, then other
    choices with experience), levels of observables and the number of types. *)
Record labels := mkLabels {
  lb_periods : nat;
  lb_choices : list string;
  lb_nwages : nat;
  lb_nexp : nat;
  lb_nlags : nat;
  lb_observables : list (list level);
  lb_ntypes : nat }.
Definition info_of (lb : labels) : Model_Data.info :=
  Model_Data.mkInfo (Z.of_nat (lb_periods lb)) (lb_choices lb) (firstn (lb_nwages lb) (lb_choices lb))
    (firstn (lb_nexp lb) (lb_choices lb)) (lb_nlags lb) (map (@List.length level) (lb_observables lb))
    (Z.of_nat (lb_ntypes lb)).

(** simulate.py:545-563 (_convert_codes_to_original_labels): a code which is no category
    becomes missing. *)
Definition label_of (lb : labels) (c : option nat) : option string :=
  match c with Some c => nth_error (lb_choices lb) c | None => None end.

(** simulate.py:566-595 (_process_simulation_output) for one row: identifier and period are
    the index, the dense variables are the observables followed by the type (models without
    exogenous processes). Reducing the size of columns does not change values (C55). *)
Definition data_row (lb : labels) (r : index * outcome) : Model_Data.row :=
  let x := o_ind (snd r) in
  Model_Data.mkRow (Z.of_nat (fst (fst r))) (Z.of_nat (snd (fst r)))
    (label_of lb (Some (o_choice (snd r)))) (o_wage (snd r))
    (map (label_of lb) (cs_lag (i_core x)))
    (map (fun e => Some (Z.of_nat e)) (cs_exp (i_core x)))
    (map (fun p => option_map (code_to_label (snd p)) (nth_error (i_dense x) (fst p)))
         (enumerate (lb_observables lb)))
    (if Nat.leb 2 (lb_ntypes lb)
     then option_map Z.of_nat (nth_error (i_dense x) (List.length (lb_observables lb))) else None).
Definition simulated_data (lb : labels) (panel : frame outcome) : list Model_Data.row :=
  map (data_row lb) panel.
(** The categories of the columns with choices, simulate.py:549-557. *)
Definition simulated_categories (lb : labels) (column : nat) : list string := lb_choices lb.

(** ** Processing of data for the estimation *)

(** An observation with codes instead of labels. *)
Record coded := mkCoded {
  cd_core : core_state;
  cd_obs : list nat;
  cd_choice : nat;
  cd_wage : option R }.

(** shared.py:319-342. A missing value cannot be converted to uint8. *)
Definition coded_choice (lb : labels) (c : option string) : result nat :=
  match c with Some c => label_to_code (map Label (lb_choices lb)) (Label c) | None => ValueError end.
Definition coded_observable (levels : list level) (v : option level) : result nat :=
  match v with Some v => label_to_code levels v | None => ValueError end.
(** Integers are used as they are; there are no states with negative values. *)
Definition natural (z : option Z) : result nat :=
  match z with
  | Some z => if Z.leb 0 z then Ok (Z.to_nat z) else KeyError
  | None => ValueError
  end.

(** likelihood.py:519-524 for one row. *)
Definition process_row (lb : labels) (r : Model_Data.row) : result (index * coded) :=
  result_bind (natural (Some (Model_Data.r_id r))) (fun id =>
  result_bind (natural (Some (Model_Data.r_period r))) (fun period =>
  result_bind (coded_choice lb (Model_Data.r_choice r)) (fun choice =>
  result_bind (result_all (map (fun i => coded_choice lb (nth i (Model_Data.r_lags r) None)) (seq 0 (lb_nlags lb)))) (fun lags =>
  result_bind (result_all (map (fun i => natural (nth i (Model_Data.r_exps r) None)) (seq 0 (lb_nexp lb)))) (fun exps =>
  result_bind (result_all (map (fun p => coded_observable (snd p) (nth (fst p) (Model_Data.r_obs r) None))
                               (enumerate (lb_observables lb)))) (fun obs =>
  Ok ((id, period), mkCoded (mkState period exps (map Some lags)) obs choice (Model_Data.r_wage r)))))))).

(** likelihood.py:519-524: rows are sorted by identifier and period. *)
Definition process_data (lb : labels) (data : list Model_Data.row) : result (frame coded) :=
  result_bind (result_all (map (process_row lb) data)) (fun df => Ok (sort_index df)).

(** likelihood.py:527-528: the observations are repeated for each type. *)
Definition for_each_type (n_types : nat) (df : frame coded) : list observation :=
  if Nat.leb 2 n_types
  then flat_map (fun t => map (fun r => (cd_core (snd r), cd_obs (snd r) ++ [t])%list) df) (seq 0 n_types)
  else map (fun r => (cd_core (snd r), cd_obs (snd r))) df.

(** likelihood.py:90-103 and 516-532 (get_log_like_func up to the draws): the check of the
    data, their processing and the mapping to states. *)
Definition prepare_estimation (lb : labels) (sp : core_spec) (csf : cs_fun) (grid : list (list nat))
  (categories : nat -> list string) (data : list Model_Data.row)
  : result (frame coded * list (nat * nat)) :=
  result_bind (Model_Data.check_estimation_data (info_of lb) categories data) (fun _ =>
  result_bind (process_data lb data) (fun df =>
  result_bind (locate_data sp csf grid (for_each_type (lb_ntypes lb) df)) (fun l => Ok (df, snd l)))).
