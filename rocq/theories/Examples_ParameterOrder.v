(** A model with a lagged choice and an observable, with its parameters in different orders. *)
From Coq Require Import List Arith Bool String Ascii Reals ZArith Lia Sorting.Permutation.
From Verif Require Import Base Model_Strings Model_Cache Model_Choices Model_Params Model_Processing Spec_Params Proof_Names
  Model_ParseParameters Spec_ParameterOrder.
Import ListNotations.
Open Scope string_scope.

Definition pe_first : list param :=
  [("delta", "delta", 1%R); ("wage_a", "constant", 0%R); ("wage_a", "exp_a", 1%R); ("nonpec_home", "constant", 0%R);
   ("nonpec_home", "work", 1%R); ("observable_edu_low", "constant", 0%R); ("observable_edu_high", "constant", 1%R)].
Definition pe_shocks : list param :=
  [("shocks_sdcorr", "sd_a", 1%R); ("shocks_sdcorr", "sd_home", 1%R); ("shocks_sdcorr", "corr_home_a", 0%R)].
Definition pe_swapped : list param :=
  [("shocks_sdcorr", "sd_home", 1%R); ("shocks_sdcorr", "sd_a", 1%R); ("shocks_sdcorr", "corr_home_a", 0%R)].
Definition pe_params : list param := (pe_first ++ pe_shocks)%list.
Definition pe_sorted : list param := (pe_shocks ++ rev pe_first)%list.
Definition pe_wrong : list param := (pe_first ++ pe_swapped)%list.
Definition pe_covariates : list (string * string) := [("work", "lagged_choice_1 == 'a'"); ("old", "period > 2")].

Lemma pe_perm : Permutation pe_params pe_sorted.
Proof.
  unfold pe_params, pe_sorted. rewrite Permutation_app_comm. apply Permutation_app_head, Permutation_rev.
Qed.
Lemma pe_wrong_perm : Permutation pe_params pe_wrong.
Proof. unfold pe_params, pe_wrong. apply Permutation_app_head. apply perm_swap. Qed.
Lemma pe_cov_perm : Permutation pe_covariates (rev pe_covariates).
Proof. apply Permutation_rev. Qed.
Lemma pe_unique : NoDup (map fst pe_params).
Proof. repeat constructor; cbn; intuition discriminate. Qed.
Lemma pe_sums : nonzero_sums pe_params.
Proof.
  intros ext _ [p [s [I E]]] ALL. exfalso. specialize (ALL p s (conj I E)).
  repeat (destruct I as [<-|I]; [discriminate ALL|]). destruct I.
Qed.
Lemma pe_same_shocks : filter is_shock pe_params = filter is_shock pe_sorted.
Proof. reflexivity. Qed.
Lemma pe_kind : shocks_of_kind pe_params Sdcorr.
Proof.
  split; [eexists; split; [do 7 right; left; reflexivity | reflexivity]|].
  intros p k I H. rewrite <- !substring_contains in H.
  repeat (destruct I as [<-|I]; [first [reflexivity | exfalso; destruct k; cbn in H; destruct H; discriminate]|]). destruct I.
Qed.
Lemma pe_processed : exists m m', process_parameters 3 pe_covariates pe_params = Ok m /\
  process_parameters 3 (rev pe_covariates) pe_sorted = Ok m' /\
  pc_choices (mp_choices m) = ["a"; "home"] /\
  mp_observables m = [("edu", [(Label "high", [("constant", 1%R)]); (Label "low", [("constant", 0%R)])])] /\
  List.length (mp_lagged m) = 1 /\ coefficients_of "wage_a" pe_params <> coefficients_of "wage_a" pe_sorted.
Proof.
  eexists. eexists. split; [vm_compute; reflexivity|]. split; [vm_compute; reflexivity|].
  split; [reflexivity|]. split; [reflexivity|]. split; [reflexivity|]. discriminate.
Qed.
Lemma pe_rejected : process_parameters 3 pe_covariates pe_wrong = OtherError.
Proof. vm_compute. reflexivity. Qed.
