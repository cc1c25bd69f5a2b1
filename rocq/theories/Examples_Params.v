(** Concrete parameters for the examples of Props_Params. *)
From Coq Require Import List Arith Bool String Ascii Reals Lra Lia Sorted.
From Verif Require Import Base Proof_Base Model_Strings Model_Cache Model_Choices Spec_Choices Spec_Solve Proof_Regex Proof_Choices Proof_Strings Model_Params Spec_Params
  Proof_Params Proof_Types Proof_Names Proof_Shocknames Proof_ParamsMore.
Import ListNotations.
Open Scope string_scope.
Local Open Scope nat_scope.

Lemma MAX_ge_10 : (10 <= MAX_FLOAT)%R.
Proof. unfold MAX_FLOAT. rewrite <- (pow_1 10) at 1. apply Rle_pow; [lra|lia]. Qed.
Lemma tiny_le : forall x, (1/4 <= x)%R -> (1 / MAX_FLOAT <= x)%R.
Proof.
  intros x X. pose proof MAX_ge_10 as M. apply Rle_trans with (1/4)%R; [|exact X].
  apply (Rmult_le_reg_r MAX_FLOAT); [lra|]. replace (1 / MAX_FLOAT * MAX_FLOAT)%R with 1%R by (field; lra). lra.
Qed.

Lemma exp_ok : let params := exp_params (1/4) (3/4) in
  (exists p s, describes exp_ext params p s) /\
  (forall p s, describes exp_ext params p s -> p_name p = "probability") /\
  distinct_levels exp_ext params /\
  (0 < group_total exp_ext params)%R /\
  (forall p s, describes exp_ext params p s -> (group_total exp_ext params / MAX_FLOAT <= snd p)%R) /\
  exists c, parse_group exp_ext params = Ok (Some c) /\
  logit_probability c (Number 0) = (1/4)%R /\ logit_probability c (Number 1) = (3/4)%R.
Proof.
  intros params.
  assert (T : group_total exp_ext params = 1%R) by (unfold params; rewrite exp_total; lra).
  assert (D0 : describes exp_ext params ("initial_exp_edu_0", "probability", (1/4)%R) "0") by (apply exp_describes; left; auto).
  assert (D1 : describes exp_ext params ("initial_exp_edu_1", "probability", (3/4)%R) "1") by (apply exp_describes; right; auto).
  assert (L : forall p s, describes exp_ext params p s -> (group_total exp_ext params / MAX_FLOAT <= snd p)%R).
  { intros p s H. rewrite T. apply tiny_le. apply exp_describes in H. destruct H as [[-> _]|[-> _]]; cbn [snd]; lra. }
  assert (NE : exists p s, describes exp_ext params p s) by eauto.
  assert (POS : (0 < group_total exp_ext params)%R) by (rewrite T; lra).
  split; [exact NE|]. split; [apply exp_probability_names|]. split; [apply exp_distinct|]. split; [exact POS|]. split; [exact L|].
  destruct (probabilities_ok exp_ext params NE (exp_probability_names _ _) (exp_distinct _ _) POS L) as [c [P [_ [_ Q]]]].
  exists c. split; [exact P|]. split.
  - rewrite (Q _ "0" (Number 0) D0) by (apply exp_level; reflexivity). rewrite T. cbn [snd]. lra.
  - rewrite (Q _ "1" (Number 1) D1) by (apply exp_level; reflexivity). rewrite T. cbn [snd]. lra.
Qed.

(** ** Types *)

Definition type_params : list param :=
  [("wage_a", "type_1", 2%R); ("wage_a", "type_2", 3%R);
   ("type_1", "probability", (1/4)%R); ("type_2", "probability", (3/4)%R)].

Lemma type_describes : forall p s, describes type_ext type_params p s <->
  (p = ("type_1", "probability", (1/4)%R) /\ s = "1") \/ (p = ("type_2", "probability", (3/4)%R) /\ s = "2").
Proof.
  intros p s. unfold describes, type_params. cbn [In]. split.
  - intros [[<-|[<-|[<-|[<-|[]]]]] E]; vm_compute in E; inversion E; subst; auto.
  - intros [[-> ->]|[-> ->]]; (split; [auto|reflexivity]).
Qed.
Lemma type_numeric : numeric_levels type_ext type_params.
Proof. intros p s H. apply type_describes in H. destruct H as [[_ ->]|[_ ->]]; reflexivity. Qed.
Lemma type_distinct : distinct_levels type_ext type_params.
Proof.
  intros i j p q s t l I J A B E F.
  destruct E as [E|E]; [|exfalso; apply E; apply type_numeric].
  inversion F as [F' EF|F' EF]; subst.
  destruct i as [|[|[|[|i]]]], j as [|[|[|[|j]]]]; cbn in I, J; try reflexivity; try (destruct i; discriminate); try (destruct j; discriminate);
    inversion I; inversion J; subst p q; vm_compute in A, B; try discriminate; inversion A; inversion B; subst s t; vm_compute in EF; congruence.
Qed.
Lemma type_total : group_total type_ext type_params = 1%R.
Proof.
  unfold group_total, type_params. cbn [filter].
  change (type_ext (p_category ("wage_a", "type_1", 2%R))) with (@None string).
  change (type_ext (p_category ("wage_a", "type_2", 3%R))) with (@None string).
  change (type_ext (p_category ("type_1", "probability", (1/4)%R))) with (Some "1").
  change (type_ext (p_category ("type_2", "probability", (3/4)%R))) with (Some "2").
  cbn. field.
Qed.
Lemma type_ok :
  infer_number_of_types type_params = 3 /\
  (forall p, In p type_params -> word (p_category p)) /\
  (forall p, In p type_params -> word (p_name p)) /\
  ~ In "type_0" (map p_category type_params) /\ ~ In "type_0" (map p_name type_params) /\
  (forall p s, describes type_ext type_params p s -> p_name p = "probability") /\
  distinct_levels type_ext type_params /\
  (forall i, 1 <= i < 3 <-> exists p s, describes type_ext type_params p s /\ digits_value 0 s = i) /\
  (0 < group_total type_ext type_params)%R /\
  (forall p s, describes type_ext type_params p s -> (group_total type_ext type_params / MAX_FLOAT <= snd p)%R).
Proof.
  split; [vm_compute; reflexivity|].
  split; [intros p [<-|[<-|[<-|[<-|[]]]]]; vm_compute; auto|].
  split; [intros p [<-|[<-|[<-|[<-|[]]]]]; vm_compute; auto|].
  split; [cbn; intuition discriminate|]. split; [cbn; intuition discriminate|].
  split; [intros p s H; apply type_describes in H; destruct H as [[-> _]|[-> _]]; reflexivity|].
  split; [exact type_distinct|].
  split; [|split; [rewrite type_total; lra|]].
  - intros i. split.
    + intros H. assert (C : i = 1 \/ i = 2) by lia. destruct C as [->| ->].
      * exists ("type_1", "probability", (1/4)%R), "1". split; [apply type_describes; left; auto|reflexivity].
      * exists ("type_2", "probability", (3/4)%R), "2". split; [apply type_describes; right; auto|reflexivity].
    + intros [p [s [H E]]]. apply type_describes in H. destruct H as [[_ ->]|[_ ->]]; vm_compute in E; subst i; lia.
  - intros p s H. rewrite type_total. apply tiny_le. apply type_describes in H. destruct H as [[-> _]|[-> _]]; cbn [snd]; lra.
Qed.

(** ** Shocks *)

Definition shock_params : list param :=
  [("delta", "delta", 1%R); ("shocks_sdcorr", "sd_a", 1%R); ("shocks_sdcorr", "sd_b", 2%R); ("shocks_sdcorr", "sd_c", 3%R);
   ("shocks_sdcorr", "corr_b_a", 0%R); ("shocks_sdcorr", "corr_c_a", 0%R); ("shocks_sdcorr", "corr_c_b", 0%R)].
Lemma no_substring : forall a b, contains a b = false -> ~ substring a b.
Proof. intros a b H S. apply substring_contains in S. congruence. Qed.
Lemma shock_params_kind : shocks_of_kind shock_params Sdcorr.
Proof.
  split; [eexists; split; [right; left; reflexivity|reflexivity]|].
  intros p k [<-|H] S.
  - exfalso. destruct S as [S|S]; revert S; apply no_substring; destruct k; vm_compute; reflexivity.
  - repeat (destruct H as [<-|H]; [reflexivity|]). destruct H.
Qed.

(** ** Exogenous processes with additional levels of the observable *)

Lemma additional_levels : exists exog obs merged e ec c l i j,
  merge_observables exog obs = Ok merged /\ NoDup (map fst exog) /\ NoDup (map fst obs) /\
  In (e, ec) exog /\ StronglySorted level_lt (map fst ec) /\
  dict_get string_dec e merged = Some c /\ StronglySorted level_lt (map fst c) /\
  nth_error (map fst ec) i = Some l /\ nth_error (map fst c) j = Some l /\ i <> j.
Proof.
  set (ec := [(Number 1, constant 0); (Number 2, constant 0)]).
  set (c := [(Number 0, constant 0); (Number 1, constant 0); (Number 2, constant 0)]).
  exists [("health", ec)], [("health", c)], [("health", c)], "health", ec, c, (Number 1), 0, 1.
  split; [reflexivity|]. split; [repeat constructor; cbn; tauto|]. split; [repeat constructor; cbn; tauto|].
  split; [left; reflexivity|].
  split; [repeat constructor; try discriminate|]. split; [reflexivity|].
  split; [repeat constructor; try discriminate|]. repeat split. discriminate.
Qed.

(** ** Names *)

Lemma one_underscore : forall s, contains "_" s = false -> ~ substring "_" s.
Proof. intros s. apply no_substring. Qed.
Lemma no_trailing : forall n, (exists m, n = m ++ "_") -> substring "_" n.
Proof. intros n [m ->]. exists m, "". rewrite append_nil_r. reflexivity. Qed.

Fixpoint last_char (s : string) : option ascii :=
  match s with
  | EmptyString => None
  | String c EmptyString => Some c
  | String _ r => last_char r
  end.
Lemma last_char_app : forall m, last_char (m ++ "_") = Some "_"%char.
Proof. induction m as [|c m IH]; [reflexivity|]. cbn. destruct (m ++ "_") eqn:E; [destruct m; discriminate|]. exact IH. Qed.

Lemma single_levels : exists rows,
  (forall n l, In (n, l) rows -> proper_name n /\ ~ substring "_" l) /\ NoDup (map fst rows) /\
  (forall a b, In a (map fst rows) -> In b (map fst rows) -> substring a b -> a = b) /\
  exists r, parse_names "observable" (map (observable_category "observable") rows) = Ok r /\
    exists n, In n r /\ ~ In n (map fst rows).
Proof.
  exists [("health", "good"); ("heat", "high")]. split; [|split; [|split]].
  - intros n l [E|[E|[]]]; inversion E; subst; (split; [split; [discriminate|]|]).
    1,3: intros H; apply no_trailing in H; revert H. all: apply one_underscore; reflexivity.
  - repeat constructor; cbn; intuition discriminate.
  - cbn. intros a b [<-|[<-|[]]] [<-|[<-|[]]] S; try reflexivity; exfalso; revert S; apply no_substring; reflexivity.
  - exists ["hea"]. split; [vm_compute; reflexivity|]. exists "hea". cbn. intuition discriminate.
Qed.

Lemma names_example :
  let rows := [("edu", "low"); ("edu", "high"); ("father_job", "0"); ("father_job", "1")] in
  simple_rows rows /\
  (forall a b, In a (map fst rows) -> In b (map fst rows) -> substring a b -> a = b) /\
  parse_names "observable" ("delta" :: map (observable_category "observable") rows) = Ok ["edu"; "father_job"] /\
  parse_names "observable" ["observable_edu_0"; "observable_edu_1"; "observable_edu_father_0"; "observable_edu_father_1"] = ValueError.
Proof.
  intros rows. split; [|split; [|split; vm_compute; reflexivity]].
  - intros n l H. assert (T : ~ exists m, n = m ++ "_").
    { intros [m E]. assert (L : last_char n = Some "_"%char) by (subst n; apply last_char_app).
      clear E. unfold rows in H. cbn [In] in H.
      destruct H as [H|[H|[H|[H|[]]]]]; apply (f_equal fst) in H; cbn [fst] in H; subst n; vm_compute in L; discriminate. }
    cbn in H. repeat (destruct H as [H|H]; [inversion H; subst; split; [split; [discriminate|exact T]|split; [apply one_underscore; reflexivity|vm_compute; lia]]|]). destruct H.
  - cbn. intros a b A B S. repeat (destruct A as [<-|A]; [repeat (destruct B as [<-|B]; [try reflexivity; exfalso; revert S; apply no_substring; reflexivity|]); destruct B|]). destruct A.
Qed.

(** ** Lagged choices *)

Lemma unknown_labels : exists choices params lag c p s,
  describes (search ("lagged_choice_" ++ dec lag ++ "_") is_name) params p s /\ ~ In s choices /\
  parse_lag choices params lag = Ok c.
Proof.
  exists ["a"; "edu"; "home"], [("lagged_choice_1_eud", "constant", 1%R)], 1. eexists. exists ("lagged_choice_1_eud", "constant", 1%R), "eud".
  split; [split; [left; reflexivity|reflexivity]|]. split; [cbn; intuition discriminate|]. reflexivity.
Qed.
