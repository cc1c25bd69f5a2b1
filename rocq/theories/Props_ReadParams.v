(** The ways to pass parameters to a model. *)
From Coq Require Import Strings.String List Arith Bool.
From Verif Require Import Base Model_ReadParams Spec_ReadParams Proof_ReadParams.
Import ListNotations.
Local Open Scope string_scope.

(** ** C120 *)
Theorem C120_frames : forall V (number : nat -> V) df, proper_table df ->
  (has_columns df -> exists ps, has_parameters df ps /\ (forall ps', has_parameters df ps' -> ps' = ps) /\
     read_params number (GivenFrame df) = Returns (parameters ps)) /\
  (~ has_columns df -> read_params number (GivenFrame df) = RaisesKeyError).
Proof. exact frames_read. Qed.
Print Assumptions C120_frames.

Theorem C120_files : forall V (number : nat -> V) header lines,
  NoDup header -> (forall l, In l lines -> length l = length header) ->
  (In "category" header /\ In "name" header /\ In "value" header ->
     exists ps,
       Forall2 (fun l p => entry header l "category" (fst (fst p)) /\ entry header l "name" (snd (fst p)) /\
                           entry header l "value" (snd p)) lines ps /\
       read_params number (GivenPath header lines) = Returns (parameters ps)) /\
  (~ (In "category" header /\ In "name" header /\ In "value" header) ->
     read_params number (GivenPath header lines) = RaisesKeyError).
Proof. exact files_read. Qed.
Print Assumptions C120_files.

Theorem C120_formats_agree : forall V (number : nat -> V) header lines df df' ps,
  NoDup header -> (forall l, In l lines -> length l = length header) ->
  proper_table df -> proper_table df' ->
  has_columns (read_csv number header lines) -> has_columns df -> has_columns df' ->
  has_parameters (read_csv number header lines) ps -> has_parameters df ps -> has_parameters df' ps ->
  read_params number (GivenPath header lines) = Returns (parameters ps) /\
  read_params number (GivenFrame df) = Returns (parameters ps) /\
  read_params number (GivenFrame df') = Returns (parameters ps) /\
  read_params number (GivenSeries (parameters ps)) = Returns (parameters ps).
Proof. exact formats_agree. Qed.
Print Assumptions C120_formats_agree.

Theorem C120_other_inputs : forall V (number : nat -> V),
  (forall s, s_levels s <> [Some "category"; Some "name"] -> read_params number (GivenSeries s) = RaisesAssertionError) /\
  (forall s, s_levels s = [Some "category"; Some "name"] -> read_params number (GivenSeries s) = Returns s) /\
  read_params number (GivenOther true) = RaisesTypeError /\ read_params number (GivenOther false) = RaisesAttributeError.
Proof. exact other_inputs. Qed.
Print Assumptions C120_other_inputs.

(** A file with comments and another order of columns, a frame with the default index and a
    frame that is indexed by category and name. *)
Definition ex_read_header := ["name"; "comment"; "value"; "category"].
Definition ex_read_lines := [["delta"; "discount"; "0.95"; "delta"]; ["constant"; ""; "1.5"; "wage_a"]].
Definition ex_read_plain : table string :=
  mkTable [None] ["category"; "name"; "value"] [(["0"], ["delta"; "delta"; "0.95"]); (["1"], ["wage_a"; "constant"; "1.5"])].
Definition ex_read_indexed : table string :=
  mkTable [Some "category"; Some "name"] ["lower"; "value"] [(["delta"; "delta"], ["0"; "0.95"]); (["wage_a"; "constant"], [""; "1.5"])].
Definition ex_read_parameters := [(("delta", "delta"), "0.95"); (("wage_a", "constant"), "1.5")].

Example C120_example :
  NoDup ex_read_header /\ (forall l, In l ex_read_lines -> length l = length ex_read_header) /\
  proper_table ex_read_plain /\ proper_table ex_read_indexed /\
  has_columns (read_csv (fun _ => "") ex_read_header ex_read_lines) /\ has_columns ex_read_plain /\ has_columns ex_read_indexed /\
  has_parameters (read_csv (fun _ => "") ex_read_header ex_read_lines) ex_read_parameters /\
  has_parameters ex_read_plain ex_read_parameters /\ has_parameters ex_read_indexed ex_read_parameters /\
  read_params (fun _ => "") (GivenPath ex_read_header ex_read_lines) =
    Returns (mkSeries [Some "category"; Some "name"] [(["delta"; "delta"], "0.95"); (["wage_a"; "constant"], "1.5")]).
Proof.
  unfold proper_table, has_columns, has_parameters, ex_read_header, ex_read_lines, ex_read_parameters, ex_read_plain, ex_read_indexed, entry.
  cbn [read_csv t_columns t_rows t_levels enumerate enumerate_from map fst snd].
  repeat match goal with
  | |- _ /\ _ => split
  | |- NoDup _ => repeat (constructor; [cbn; intuition discriminate|]); constructor
  | |- Forall2 _ _ _ => constructor
  | |- forall r, In r _ -> _ => intros r Hr; cbn in Hr; repeat (destruct Hr as [<-|Hr]; [cbn; auto|]); destruct Hr
  | |- _ = _ -> _ => intros X; try discriminate X; try reflexivity
  | |- _ <> _ -> _ => intros X; try (exfalso; apply X; reflexivity)
  | |- In _ _ => cbn; tauto
  | |- _ \/ _ => first [left; reflexivity|right]
  | |- _ = _ => reflexivity
  end.
Qed.

(** The same information is not accepted if the levels of the index are in another order. *)
Theorem C120_order_of_levels_refuted : exists df : table string,
  t_levels df = [Some "name"; Some "category"] /\ t_columns df = ["value"] /\
  t_rows df = [(["delta"; "delta"], ["0.95"]); (["constant"; "wage_a"], ["1.5"])] /\ proper_table df /\
  read_params (fun _ => "") (GivenFrame df) = RaisesKeyError.
Proof.
  exists (mkTable [Some "name"; Some "category"] ["value"] [(["delta"; "delta"], ["0.95"]); (["constant"; "wage_a"], ["1.5"])]).
  repeat split; try reflexivity; cbn [t_columns t_rows t_levels].
  - repeat constructor. intros [].
  - destruct H as [<-|[<-|[]]]; reflexivity.
  - destruct H as [<-|[<-|[]]]; reflexivity.
Qed.
Print Assumptions C120_order_of_levels_refuted.
