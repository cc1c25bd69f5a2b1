(** Proofs: prepared rows, and the check of the prepared data. *)
From Coq Require Import List Arith ZArith Bool String Reals Lia Sorted.
From Verif Require Import Base Model_Strings Model_Choices Model_Data Model_KW97 Spec_Data Spec_KW97
  Proof_Base Proof_Data Proof_DataCheck Proof_DataColumns Proof_DatasetCheck Proof_KW97.
Import ListNotations.
Open Scope string_scope.
Open Scope list_scope.
Open Scope Z_scope.

Section Columns.
  Context {A : Type} (lab : string -> string) (val : string -> A).
  Let build (l : list string) (d : list (string * A)) := fold_left (fun d c => dict_set string_dec (lab c) (val c) d) l d.
  Lemma build_other : forall l d k, (forall c, In c l -> lab c <> k) -> dict_get string_dec k (build l d) = dict_get string_dec k d.
  Proof.
    induction l as [|c l IH]; intros d k H; [reflexivity|]. unfold build. cbn [fold_left]. fold (build l (dict_set string_dec (lab c) (val c) d)).
    rewrite IH by (intros x X; apply H; right; exact X). apply dict_get_set_other. intros E. apply (H c); [left; reflexivity|congruence].
  Qed.
  Lemma build_in : forall l d c, (forall c', In c' l -> lab c' = lab c -> c' = c) -> In c l ->
    dict_get string_dec (lab c) (build l d) = Some (val c).
  Proof.
    induction l as [|x l IH]; intros d c H I; [contradiction|]. unfold build. cbn [fold_left]. fold (build l (dict_set string_dec (lab x) (val x) d)).
    destruct (in_dec string_dec c l) as [J|J].
    - apply IH; [|exact J]. intros c' I'. apply H. right. exact I'.
    - destruct I as [I|I]; [|contradiction]. subst x. rewrite build_other; [apply dict_get_set_same|].
      intros c' I' E. apply J. rewrite <- (H c' (or_intror I') E). exact I'.
  Qed.
End Columns.

Definition elabel (c : string) : string := ("Experience_" ++ title c)%string.
Lemma elabel_inj : forall c d, In c ("school" :: occupations) -> In d ("school" :: occupations) -> elabel c = elabel d -> c = d.
Proof.
  intros c d C D E.
  repeat (destruct C as [<-|C]; [repeat (destruct D as [<-|D]; [first [reflexivity | vm_compute in E; discriminate E]|]); destruct D|]). destruct C.
Qed.
Lemma column_in : forall wc file panel c, incl wc occupations -> In c wc ->
  dict_get string_dec (elabel c) (experience_columns wc file panel) = Some (working_experience panel c).
Proof.
  intros wc file panel c W I. unfold experience_columns. apply (build_in elabel (working_experience panel)); [|exact I].
  intros c' I' E. apply elabel_inj; [right; auto|right; auto|exact E].
Qed.
Lemma column_school : forall wc file panel, incl wc occupations ->
  dict_get string_dec (elabel "school") (experience_columns wc file panel) = Some (map w_school file).
Proof.
  intros wc file panel W. unfold experience_columns.
  transitivity (dict_get string_dec (elabel "school") [("Experience_School", map w_school file)]); [|reflexivity].
  apply (build_other elabel (working_experience panel)). intros c I E.
  assert (X : c = "school") by (apply elabel_inj; [right; auto|left; reflexivity|exact E]). subst c.
  apply W in I. repeat (destruct I as [I|I]; [discriminate I|]). destruct I.
Qed.

Lemma flat_enumerate : forall {B} (G : nat -> raw -> B) (b : raw -> bool) l s (look : nat -> option raw),
  (forall k, look (s + k)%nat = nth_error l k) ->
  flat_map (fun p => if b (snd p) then [G (fst p) (snd p)] else []) (enumerate_from s l) =
  flat_map (fun k => match look k with Some w => [G k w] | None => [] end)
    (filter (fun k => match look k with Some w => b w | None => false end) (seq s (List.length l))).
Proof.
  intros B G b l. induction l as [|w l IH]; intros s look H; [reflexivity|].
  cbn [enumerate_from flat_map List.length seq filter fst snd].
  pose proof (H O) as H0. rewrite Nat.add_0_r in H0. cbn in H0. rewrite H0.
  rewrite (IH (S s) look) by (intros k; replace (S s + k)%nat with (s + S k)%nat by lia; exact (H (S k))).
  destruct (b w); cbn [flat_map app]; [rewrite H0|]; reflexivity.
Qed.
Lemma flat_single : forall {B} (P : nat -> B -> Prop) (G : nat -> raw -> B) (look : nat -> option raw) ks,
  (forall k, In k ks -> exists w, look k = Some w /\ P k (G k w)) ->
  Forall2 P ks (flat_map (fun k => match look k with Some w => [G k w] | None => [] end) ks).
Proof.
  intros B P G look ks. induction ks as [|k ks IH]; intros H; [constructor|]. cbn.
  destruct (H k (or_introl eq_refl)) as [w [-> PW]]. constructor; [exact PW|]. apply IH. intros x X. apply H. right. exact X.
Qed.

Lemma all_Ok : forall {A B} (f : A -> result B) (g : A -> B) l, (forall x, In x l -> f x = Ok (g x)) -> result_all (map f l) = Ok (map g l).
Proof.
  intros A B f g l H. induction l as [|x l IH]; [reflexivity|]. cbn. rewrite (H x (or_introl eq_refl)). cbn.
  rewrite IH by (intros y Y; apply H; right; exact Y). reflexivity.
Qed.

Theorem rows_prepared : forall wc ec n_lags file, usual_choices wc ec -> few_people file -> (n_lags <= 1)%nat ->
  exists data, create_kw_97 wc ec n_lags [] file = Ok data /\ Forall2 (prepared wc ec n_lags file) (from_sixteen file) data.
Proof.
  intros wc ec n_lags file [W EC] FEW NL. unfold create_kw_97. cbv zeta.
  set (ids := map _ file). set (choices := map (fun w => decode (w_code w)) file).
  set (panel := combine ids choices).
  set (val := fun c => if string_dec c "school" then map w_school file else working_experience panel c).
  rewrite (all_Ok _ val).
  2:{ intros c I. change ("Experience_" ++ title c)%string with (elabel c). unfold val. apply EC in I. apply in_app_or in I.
      destruct (string_dec c "school") as [->|N].
      - rewrite column_school by exact W. reflexivity.
      - destruct I as [I|[I|[]]]; [|symmetry in I; contradiction]. rewrite column_in by assumption. reflexivity. }
  cbn [result_bind]. destruct (Nat.leb_spec 2 n_lags) as [X|_]; [lia|]. cbn [orb negb List.length Nat.eqb].
  eexists. split; [reflexivity|]. unfold enumerate.
  set (G := fun k w => mkRow (nth k ids 0) (w_age w - 16) (nth k choices None) (w_wage w)
     (firstn n_lags [nth k (last_choice [] panel) None]) (map (fun column => nth_error column k) (map val ec)) [] None).
  pose proof (flat_enumerate G (fun w => 16 <=? w_age w) file 0 (nth_error file) (fun k => eq_refl)) as EQ.
  refine (eq_ind _ (fun d => Forall2 _ _ d) _ _ (eq_sym EQ)). clear EQ.
  unfold from_sixteen. apply flat_single. intros k I. apply filter_In in I. destruct I as [_ B].
  destruct (nth_error file k) as [w|] eqn:K; [|discriminate]. exists w. split; [reflexivity|].
  assert (PW : In (w_id w) (isort Z.leb (drop_duplicates Z.eq_dec (map w_id file)))).
  { apply In_people. exists w. split; [eapply nth_error_In; exact K|reflexivity]. }
  assert (LL : nth_error (last_choice [] panel) k = Some (nth k (last_choice [] panel) None)).
  { apply nth_error_nth'. apply nth_error_Some. rewrite last_choice_nth. unfold panel, ids, choices. rewrite panel_map, nth_error_map, K. discriminate. }
  destruct (lagged_ok file FEW k w K) as [LG1 LG2].
  change (combine (map (fun x => group_number (map w_id file) (w_id x)) file) (map (fun y => decode (w_code y)) file)) with panel in LG1, LG2.
  constructor; unfold G; cbn [r_period r_choice r_wage r_id r_exps r_lags r_obs].
  - exists w. split; [exact K|]. split; [reflexivity|]. split.
    { replace (nth k choices None) with (decode (w_code w)); [apply decode_ok|]. symmetry. apply nth_error_nth. unfold choices. rewrite nth_error_map, K. reflexivity. }
    split; [reflexivity|]. split.
    { eexists. split; [|apply gn_smaller; exact PW].
      rewrite <- (gn_is file FEW _ PW). apply nth_error_nth. unfold ids. rewrite nth_error_map, K. reflexivity. }
    intros j J _. rewrite map_map, nth_error_map, J. cbn [option_map]. unfold val. destruct (string_dec "school" "school"); [|congruence].
    rewrite nth_error_map, K. reflexivity.
  - intros j c J C. exists (earlier_choices panel c k). split; [|apply (earlier_years file FEW k w c K)].
    rewrite map_map, nth_error_map, J. cbn [option_map]. unfold val. destruct (string_dec c "school") as [->|_].
    { exfalso. apply W in C. repeat (destruct C as [C|C]; [discriminate C|]). destruct C. }
    rewrite experience_counts. unfold panel, ids, choices. rewrite panel_map, nth_error_map, K. reflexivity.
  - rewrite !map_length. reflexivity.
  - destruct n_lags as [|[|n]]; [reflexivity|reflexivity|lia].
  - intros -> v R. destruct (LG1 v R) as [c [C1 C2]]. exists c. split; [|exact C2]. cbn. rewrite LL in C1. congruence.
  - intros -> N. cbn. specialize (LG2 N). rewrite LL in LG2. congruence.
  - reflexivity.
Qed.

Theorem missing_columns : forall wc ec n_lags obs file, (2 <= n_lags)%nat \/ obs <> [] -> create_kw_97 wc ec n_lags obs file = KeyError.
Proof.
  intros wc ec n_lags obs file H. unfold create_kw_97. cbv zeta.
  destruct (result_all _) as [exps| | | | |] eqn:E; cbn [result_bind].
  - destruct H as [H|H].
    + destruct (Nat.leb_spec 2 n_lags) as [_|X]; [reflexivity|lia].
    + destruct obs as [|o obs]; [contradiction|]. cbn. rewrite orb_true_r. reflexivity.
  - reflexivity.
  - exfalso. revert E. induction ec as [|c ec IH]; cbn; [discriminate|]. destruct (dict_get _ _ _); cbn; [|discriminate].
    destruct (result_all _); cbn; try discriminate; auto.
  - exfalso. revert E. induction ec as [|c ec IH]; cbn; [discriminate|]. destruct (dict_get _ _ _); cbn; [|discriminate].
    destruct (result_all _); cbn; try discriminate; auto.
  - exfalso. revert E. induction ec as [|c ec IH]; cbn; [discriminate|]. destruct (dict_get _ _ _); cbn; [|discriminate].
    destruct (result_all _); cbn; try discriminate; auto.
  - exfalso. revert E. induction ec as [|c ec IH]; cbn; [discriminate|]. destruct (dict_get _ _ _); cbn; [|discriminate].
    destruct (result_all _); cbn; try discriminate; auto.
Qed.
