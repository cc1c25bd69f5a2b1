(** Concrete cases for the examples of Props_Processing. *)
From Coq Require Import List Arith Bool Lia String Ascii Reals Lra ZArith Sorted.
From Verif Require Import Base Proof_Base Model_Strings Model_Cache Model_Choices Spec_Choices Model_CoreStateSpace Spec_CoreStateSpace
  Proof_CoreStateSpace Model_StateSpace Spec_StateSpace Spec_Solve Model_Simulate Model_Params Spec_Params Proof_Params Proof_ParamsMore Proof_Shocknames Examples_Params
  Model_Processing Spec_Processing Proof_Processing Proof_ProcessingChecks.
Import ListNotations.
Local Open Scope nat_scope.
Open Scope string_scope.

(** Initial experience in "edu" is 0 or 1; there are three periods. *)
Definition edu_params : list param := exp_params (1/4) (3/4).

Lemma edu_word : forall p, In p edu_params -> word (p_category p).
Proof.
  intros p [<-|[<-|[<-|[]]]]; cbn [p_category fst]; split; (discriminate || reflexivity).
Qed.
Lemma edu_named : well_named "edu".
Proof. split; [discriminate|reflexivity]. Qed.
Lemma edu_level : forall k, initial_level edu_params "edu" k <-> k = 0 \/ k = 1.
Proof.
  assert (D : forall k, declares_level edu_params "edu" k <-> k = 0 \/ k = 1).
  { intros k. split.
    - intros [p [d [I [E [A V]]]]]. destruct I as [<-|[<-|[<-|[]]]]; cbn in E.
      + injection E as <-. left. subst k. reflexivity.
      + discriminate.
      + injection E as <-. right. subst k. reflexivity.
    - intros [->| ->].
      + exists ("initial_exp_edu_0", "probability", (1/4)%R), "0". split; [left; reflexivity|]. repeat split.
      + exists ("initial_exp_edu_1", "probability", (3/4)%R), "1". split; [right; right; left; reflexivity|]. repeat split. }
  intros k. unfold initial_level. rewrite D. split; [|auto]. intros [H|[_ H]]; [exact H|].
  exfalso. apply (H 0). apply D. auto.
Qed.
Lemma edu_parsed : exists start, parse_experience 3 edu_params "edu" = Ok (start, 3%Z) /\ numbers start = [0; 1].
Proof.
  destruct exp_ok as [_ [_ [_ [_ [_ [c [P _]]]]]]].
  assert (Q : parse_experience 3 edu_params "edu" = Ok (c, (Z.of_nat (list_max_nat (numbers c)) + 3 - 1)%Z)).
  { unfold parse_experience. change (extract ("initial_exp_" ++ "edu" ++ "_") is_digit) with exp_ext.
    change edu_params with (exp_params (1/4) (3/4)). rewrite P. cbn [result_bind].
    rewrite (param_value_none (exp_params (1/4) (3/4)) "maximum_exp" "edu").
    - reflexivity.
    - intros v [H|[H|[H|[]]]]; discriminate. }
  assert (N : numbers c = [0; 1]).
  { destruct (levels_ok 3 edu_params "edu" edu_word edu_named _ _ Q) as [_ [S [L _]]].
    apply sorted_lt_unique; [exact S| |].
    - repeat constructor.
    - intros k. rewrite L, edu_level. cbn. intuition. }
  exists c. rewrite Q, N. auto.
Qed.

Definition edu_spec : core_spec := mkSpec 3 [[0; 1]] [3] 2 1 [].
Lemma edu_core : core_spec_of 3 1 [] ["edu"] ["edu"; "home"] edu_params = Ok edu_spec.
Proof.
  destruct edu_parsed as [start [P N]]. unfold core_spec_of. cbn [map result_all]. rewrite P.
  cbn [result_bind map]. cbn [fst snd]. rewrite N. reflexivity.
Qed.
Definition edu_csf : cs_fun := choice_set_of edu_spec (process edu_spec 1 (fun _ => None)).
Definition edu_ss : state_space := Eval vm_compute in
  match create_state_space 3 (create_core_state_space edu_spec) edu_csf [] with
  | Ok ss => ss | _ => mkSS 0 [] [] [] [] [] [] [] [] [] end.
Lemma edu_created : create_state_space (sp_nperiods edu_spec) (create_core_state_space edu_spec) edu_csf [] = Ok edu_ss.
Proof. vm_compute. reflexivity. Qed.
Lemma edu_bounds : forall c start m, In c ["edu"] -> parse_experience 3 edu_params c = Ok (start, m) -> (0 <= m < 256)%Z.
Proof.
  intros c start m [<-|[]] P. destruct edu_parsed as [s [Q _]]. rewrite Q in P. injection P as _ <-. lia.
Qed.

(** A model with two lagged choices. *)
Definition two_lags : core_spec := mkSpec 2 [[0]] [1] 2 2 [].
(** A parameter of the maximum that is not an integer. *)
Definition max_params : list param := [("maximum_exp", "edu", (5/2)%R); ("delta", "delta", 1%R)].
Lemma max_parsed : parse_experience 10 max_params "edu" = Ok ([(Number 0, constant 0)], 2%Z).
Proof.
  unfold parse_experience. replace (parse_group _ max_params) with (@Ok (option container) None) by reflexivity.
  cbn [result_bind]. rewrite (param_value_is max_params "maximum_exp" "edu" (5/2)%R).
  - assert (E : truncate (5/2) = 2%Z).
    { pose proof (truncate_nonneg (5/2) ltac:(lra)) as [A B].
      assert (X : (IZR (truncate (5 / 2)) < 3)%R) by lra. assert (Y : (1 < IZR (truncate (5 / 2)))%R) by lra.
      apply lt_IZR in X. apply lt_IZR in Y. lia. }
    rewrite E. reflexivity.
  - split; [left; reflexivity|]. intros w [H|[H|[]]]; [injection H as <-; reflexivity|discriminate].
Qed.
