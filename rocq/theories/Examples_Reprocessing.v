(** Concrete cases: options that are processed again. *)
From Coq Require Import List Arith Bool String Ascii Reals Lia.
From Verif Require Import Base Model_Strings Model_Cache Model_Choices Spec_Choices Model_Params Model_Processing Model_Covariates
  Spec_Covariates Proof_Strings Proof_Regex Proof_Covariates Model_Reprocessing Spec_Reprocessing.
Import ListNotations.
Open Scope string_scope.

(** Two types, two choices. *)
Definition rp_params : list param :=
  map (fun cn => (cn, 0%R))
    [("delta", "delta"); ("wage_fish", "exp_fish"); ("nonpec_rest", "not_fish_last"); ("nonpec_rest", "type_1");
     ("type_1", "constant")].
Definition rp_covariates : covariates :=
  [("constant", "1"); ("not_fish_last", "lagged_choice_1 != 'fish' and adult"); ("adult", "period > 2");
   ("unused", "lagged_choice_2 == 'rest'")].

Definition rp_processed : processed :=
  mkProcessed (mkParsedChoices ["fish"] ["fish"] ["rest"] ["fish"; "rest"]) 1
    [("adult", "period > 2"); ("constant", "1"); ("not_fish_last", "lagged_choice_1 != 0 and adult");
     ("type_1", "type == 1")].
Lemma rp_first : process_covariates rp_params [] rp_covariates = Some rp_processed.
Proof. vm_compute. reflexivity. Qed.

Lemma rp_names : NoDup (map fst rp_covariates).
Proof. repeat constructor; cbn; intuition congruence. Qed.
Lemma rp_quotes : forall c, is_name c = true -> is_quote c = false.
Proof.
  intros c H. unfold is_quote. destruct (Ascii.eqb_spec c (ascii_of_nat 39)) as [->|_]; [discriminate H|].
  destruct (Ascii.eqb_spec c (ascii_of_nat 34)) as [->|_]; [discriminate H|reflexivity].
Qed.
Lemma plain_text : forall s, all_chars (fun c => negb (is_quote c)) s = true -> proper_formula is_name s.
Proof.
  intros s H. exists [Text s]. split; [symmetry; apply append_nil_r|]. split; [split; [exact H|exact I]|exact I].
Qed.
Lemma rp_formulas : forall c f, In (c, f) rp_covariates -> identifier c /\ proper_formula is_name f /\
  forall i, 1 <= i < infer_number_of_types rp_params -> c = "type_" ++ dec i -> f = "type == " ++ dec i.
Proof.
  intros c f H. destruct H as [H|[H|[H|[H|[]]]]]; injection H as <- <-;
    (split; [do 2 eexists; repeat split|split; [|discriminate]]).
  - apply plain_text. reflexivity.
  - exists [Text "lagged_choice_1 != "; Quoted true "fish"; Text " and adult"]. repeat split.
  - apply plain_text. reflexivity.
  - exists [Text "lagged_choice_2 == "; Quoted true "rest"]. repeat split.
Qed.
Lemma rp_labels : forall l, In l (labels_of (pc_choices (pr_choices rp_processed)) []) ->
  all_chars is_name l = true /\
  plain_label (map fst rp_covariates ++ type_names (infer_number_of_types rp_params))%list l.
Proof.
  assert (D : forall x l, contains x l = false -> ~ occurs x l) by (intros x l H O; apply occurs_iff in O; congruence).
  intros l [<-|[<-|[]]]; (split; [reflexivity|]); (split; [apply D; reflexivity|]); (split; [apply D; reflexivity|]);
    intros c [<-|[<-|[<-|[<-|[<-|[]]]]]]; apply D; reflexivity.
Qed.

(** A covariate is only used in that its name is the label of a choice. *)
Definition rq_params : list param :=
  map (fun cn => (cn, 0%R)) [("wage_fish", "exp_fish"); ("nonpec_rest", "was_fishing")].
Definition rq_covariates : covariates :=
  [("was_fishing", "lagged_choice_1 == 'fish'"); ("fish", "lagged_choice_2 == 'fish'")].

(** A covariate with the name of the covariate for the second type. *)
Definition rt_params : list param :=
  map (fun cn => (cn, 0%R)) [("wage_fish", "exp_fish"); ("nonpec_rest", "type_1"); ("type_1", "constant")].
Definition rt_covariates : covariates :=
  [("type_1", "rested"); ("rested", "lagged_choice_1 == 'rest'"); ("constant", "1")].
