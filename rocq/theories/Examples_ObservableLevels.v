(** Observables with levels which are numbers and labels, and a level with a capital letter. *)
From Coq Require Import List Arith Bool String Ascii Reals ZArith Lra.
From Verif Require Import Base Model_Strings Proof_Strings Model_Choices Spec_Choices Spec_Solve Model_Cache Model_Params Model_Processing
  Spec_Params Proof_Names Proof_Params Examples_Params Model_ParseParameters Spec_ObservableLevels Proof_ObservableLevels.
Import ListNotations.
Open Scope string_scope.
Open Scope list_scope.

Definition ol_rows : list (string * string) := [("school", "good"); ("school", "bad"); ("grade", "10"); ("grade", "9")].
Definition ol_params : list param :=
  [("delta", "delta", 1%R); ("observable_school_good", "probability", 1%R); ("observable_school_bad", "probability", 3%R);
   ("observable_grade_10", "exp_edu", 2%R); ("observable_grade_9", "constant", 4%R); ("wage_a", "constant", 1%R)].

Lemma ol_simple : forall rows, forallb (fun r => negb (String.eqb (fst r) "") &&
    match last_char (fst r) with Some c => negb (Ascii.eqb c "_") | None => false end &&
    negb (contains "_" (snd r)) && Nat.leb 2 (count_occ string_dec (map fst rows) (fst r))) rows = true -> simple_rows rows.
Proof.
  intros rows H n l I. rewrite forallb_forall in H. specialize (H (n, l) I). cbn [fst snd] in H.
  rewrite !andb_true_iff in H. destruct H as [[[H1 H2] H3] H4]. split; [split|split].
  - intros ->. discriminate.
  - intros [m ->]. rewrite last_char_app in H2. discriminate.
  - intros X. apply substring_contains in X. rewrite X in H3. discriminate.
  - apply Nat.leb_le. exact H4.
Qed.

Lemma ol_params_variables : variables "observable" ol_params ol_rows.
Proof.
  constructor.
  - intros p I. repeat (destruct I as [<-|I]; [reflexivity|]). destruct I.
  - reflexivity.
  - apply ol_simple. reflexivity.
  - intros n l I. repeat (destruct I as [I|I]; [injection I as <- <-; split; [discriminate|reflexivity]|]). destruct I.
  - intros a b A B H. apply substring_contains in H.
    repeat (destruct A as [<-|A]; [repeat (destruct B as [<-|B]; [first [reflexivity | vm_compute in H; discriminate]|]); destruct B|]). destruct A.
Qed.

Lemma ol_accepted : exists vars, parse_variables "observable" ol_params = Ok vars.
Proof.
  eexists. unfold parse_variables. cbn -[parse_group]. unfold parse_group. cbn -[ln Rmax normalize_probabilities MAX_FLOAT Rplus].
  reflexivity.
Qed.

(** The level [High] disappears; everybody has the level [low]. *)
Definition ol_capital : list param :=
  [("observable_edu_low", "probability", (1 / 4)%R); ("observable_edu_High", "probability", (3 / 4)%R)].
Definition ol_capital_rows : list (string * string) := [("edu", "low"); ("edu", "High")].

Lemma ol_capital_disappears : exists keyword params rows vars c,
  (forall p, In p params -> word (p_category p) /\ p_name p = "probability") /\
  filter (prefix (keyword ++ "_")) (map p_category params) = map (observable_category keyword) rows /\
  simple_rows rows /\ (forall n l, In (n, l) rows -> word l) /\ rsum (map snd params) = 1%R /\
  In ("edu", "High") rows /\
  parse_variables keyword params = Ok vars /\ In ("edu", c) vars /\ map fst c = [Label "low"].
Proof.
  exists "observable", ol_capital, ol_capital_rows. eexists. eexists.
  split. { intros p [<-|[<-|[]]]; split; reflexivity. }
  split; [reflexivity|]. split; [apply ol_simple; reflexivity|].
  split. { intros n l [I|[I|[]]]; injection I as <- <-; reflexivity. }
  split; [cbn; lra|]. split; [right; left; reflexivity|].
  split. { unfold parse_variables. cbn -[parse_group]. unfold parse_group. cbn -[ln Rmax normalize_probabilities MAX_FLOAT Rplus Rdiv Req_EM_T]. reflexivity. }
  split; [left; reflexivity|]. reflexivity.
Qed.
