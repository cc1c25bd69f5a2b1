(** Model of the data for the comparison plot of the likelihood (likelihood.py:579-617). *)
From Coq Require Import List Arith Bool String Reals.
From Verif Require Import Base Model_CoreStateSpace Model_Parallel Model_Solve Model_ConditionalDraws Model_Likelihood.
Import ListNotations.
Open Scope list_scope.
Open Scope nat_scope.

(** likelihood.py:601-602: the part of the label of the column after the underscore. *)
Inductive kind := choice_kind | wage_kind.

(** Rows of the long table (likelihood.py:598). A choice is its label, or the code if there
    is no label for it. *)
Record plot_row := mkPlotRow {
  pr_identifier : nat;
  pr_period : nat;
  pr_choice : string + nat;
  pr_value : R;
  pr_kind : kind
}.

(** Rows with logarithms of type probabilities (likelihood.py:606-614). *)
Record type_row := mkTypeRow {
  tr_identifier : nat;
  tr_period : nat;
  tr_type : nat;
  tr_value : R
}.

(** Conversion to an unsigned integer of [bits] bits, which wraps around. *)
Definition as_uint (bits n : nat) : nat := n mod 2 ^ bits.

(** likelihood.py:583-585: [replace] with a dictionary from codes to labels leaves other
    values as they are. *)
Definition choice_label (choices : list string) (code : nat) : string + nat :=
  match nth_error choices code with
  | Some c => inl c
  | None => inr code
  end.

(** [Series.isin] (likelihood.py:589). *)
Definition label_in (labels : list string) (c : string + nat) : bool :=
  match c with
  | inl s => existsb (String.eqb s) labels
  | inr _ => false
  end.

(** likelihood.py:587-590: the value of the wage column, [None] if it is set to missing. *)
Definition wage_value (choices choices_w_wage : list string) (r : lrow * (R * R)) : option R :=
  let label := choice_label choices (ob_code (lr_obs (fst r))) in
  match ob_wage (lr_obs (fst r)) with
  | None => if label_in choices_w_wage label then None else Some (snd (snd r))
  | Some _ => Some (snd (snd r))
  end.

(** likelihood.py:592-603: the two columns below each other, conversion of identifiers and
    periods, rows with missing values removed. *)
Definition plot_rows (choices choices_w_wage : list string) (df : list (lrow * (R * R))) : list plot_row :=
  let row k r v := mkPlotRow (as_uint 16 (fst (lr_index (fst r)))) (as_uint 8 (snd (lr_index (fst r))))
                             (choice_label choices (ob_code (lr_obs (fst r)))) v k in
  map (fun r => row choice_kind r (fst (snd r))) df ++
  flat_map (fun r => match wage_value choices choices_w_wage r with
                     | Some v => [row wage_kind r v]
                     | None => []
                     end) df.

(** likelihood.py:605-615: [melt] of the table of type probabilities, one block per type;
    the table has the first periods only, and identifiers are not converted. *)
Definition type_plot_rows (n_types : nat) (table : list (nat * list R)) : list type_row :=
  flat_map (fun t => map (fun r => mkTypeRow (fst r) 0 t (nth t (snd r) 0%R)) table) (seq 0 n_types).

(** likelihood.py:246-254: the table of type probabilities. *)
Definition type_table (params : list (list (nat * R))) (x : nat -> nat -> nat -> R) (type_ids : list nat)
  : result (list (nat * list R)) :=
  result_all (map (fun id => result_bind (log_type_probabilities (type_x_betas params (x id)))
                                         (fun lps => Ok (id, lps))) type_ids).

(** likelihood.py:130-176 with [return_scalar=False]: value, contributions and data for the
    plot. Everything but the data for the plot as in [log_like]. *)
Definition log_like_data (robust_cholesky qr : nat -> matrix -> matrix) (lk : like_spec)
  (locate : index -> obs -> nat -> result (nat * nat)) (env : like_env)
  (n_types : nat) (params : list (list (nat * R))) (x : nat -> nat -> nat -> R)
  (order_rows : list (lrow * (R * R)) -> list (lrow * (R * R)))
  (order_types : list nat -> list nat) (choices choices_w_wage : list string) (data : frame obs)
  : result ((R * list R) * (list plot_row * list type_row)) :=
  result_bind (duplicate_for_types locate n_types data) (fun rows =>
  result_bind (compute_contributions robust_cholesky qr lk env rows) (fun computed =>
  let df := order_rows computed in
  let ids := order_types (type_rows data n_types) in
  result_bind (contributions n_types params x ids df) (fun cs =>
  result_bind (if Nat.leb 2 n_types then type_table params x ids else Ok []) (fun table =>
  Ok ((fold_right Rplus 0%R cs / INR (List.length cs), cs)%R,
      (plot_rows choices choices_w_wage df,
       if Nat.leb 2 n_types then type_plot_rows n_types table else [])))))).
