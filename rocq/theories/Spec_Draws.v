(** Independent specification of draws. *)
From Coq Require Import List Arith ZArith Bool Strings.String.
From Verif Require Import Base Model_Draws.
Import ListNotations.
Open Scope string_scope.
Open Scope list_scope.

(** The element in row [i] and column [j] of a table. *)
Definition entry {A} (table : list (list A)) (i j : nat) : option A :=
  match nth_error table i with Some row => nth_error row j | None => None end.

(** A table with [n] rows and [c] columns. *)
Definition table_of {A} (n c : nat) (table : list (list A)) : Prop :=
  List.length table = n /\ forall row, In row table -> List.length row = c.

(** Position of draw [d] for choice [j] in period [t] if [c] choices and [n] draws are
    available: periods, draws and choices are lined up one after another. *)
Definition position (n c t d j : nat) : nat := (t * n + d) * c + j.

(** The names of sequences. *)
Definition quasi_name (name : string) : Prop := name = "sobol" \/ name = "halton".

(** A sequence of points whose first points do not depend on how many are requested. *)
Definition extensible_points {A} (src : sources A) : Prop :=
  forall s rule n n' c j p, p < n -> n <= n' -> quasi src s rule n c j p = quasi src s rule n' c j p.

(** A sequence of points that does not use the generator of random numbers. *)
Definition deterministic_points {A} (src : sources A) : Prop :=
  forall s s' rule n c j p, quasi src s rule n c j p = quasi src s' rule n c j p.

(** [c] is the number of available choices for some dense key. *)
Definition number_occurs (keys : list (nat * (nat * list bool))) (c : nat) : Prop :=
  exists k t cs, In (k, (t, cs)) keys /\ count_true cs = c.

(** The number of different numbers of available choices. *)
Definition n_numbers (keys : list (nat * (nat * list bool))) : nat :=
  List.length (nodup Nat.eq_dec (map (fun k => count_true (snd (snd k))) keys)).
