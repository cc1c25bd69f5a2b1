(** Proofs: values of parameters do not change the structure of a model. *)
From Coq Require Import List Arith Bool String Ascii Reals ZArith Lia.
From Verif Require Import Base Model_Strings Model_Cache Model_Choices Model_CoreStateSpace Model_Params Model_Processing Model_ParseParameters
  Spec_Structure Proof_Base Proof_Params.
Import ListNotations.
Local Open Scope nat_scope.
Open Scope string_scope.
Open Scope list_scope.

Definition lab {A B} (l : list (A * B)) : list A := map fst l.

Lemma so_bind : forall {A B} (P : A -> A -> Prop) (Q : B -> B -> Prop) r s f g,
  same_outcome P r s -> (forall a b, P a b -> same_outcome Q (f a) (g b)) ->
  same_outcome Q (result_bind r f) (result_bind s g).
Proof.
  intros A B P Q r s f g H F. destruct r, s; cbn in *; try contradiction; auto.
Qed.
Lemma so_all : forall {X A} (P : A -> A -> Prop) (l : list X) (f g : X -> result A),
  (forall x, same_outcome P (f x) (g x)) -> same_outcome (Forall2 P) (result_all (map f l)) (result_all (map g l)).
Proof.
  intros X A P l f g H. induction l as [|x l IH]; cbn; [constructor|].
  apply so_bind with (P := P); [apply H|]. intros a b Pab.
  apply so_bind with (P := Forall2 P); [exact IH|]. intros u v F. cbn. constructor; assumption.
Qed.
Lemma so_refl : forall {A} (r : result A), same_outcome eq r r.
Proof. intros A [x| | | | |]; cbn; auto. Qed.

Lemma F2_map : forall {A B} (f : A -> B) l m, Forall2 (fun a b => f a = f b) l m -> map f l = map f m.
Proof. induction 1; cbn; congruence. Qed.

(** Equal labels mean equal categories and names. *)
Lemma cats : forall p q : list param, lab p = lab q -> map p_category p = map p_category q.
Proof.
  intros p q E. transitivity (map fst (lab p)); [unfold lab; rewrite map_map; reflexivity|].
  rewrite E. unfold lab. rewrite map_map. reflexivity.
Qed.
Lemma nms : forall p q : list param, lab p = lab q -> map p_name p = map p_name q.
Proof.
  intros p q E. transitivity (map snd (lab p)); [unfold lab; rewrite map_map; reflexivity|].
  rewrite E. unfold lab. rewrite map_map. reflexivity.
Qed.
Lemma lab_filter : forall {A B} (f : A -> bool) (p : list (A * B)), lab (filter (fun x => f (fst x)) p) = filter f (lab p).
Proof.
  intros A B f p. unfold lab. induction p as [|x p IH]; [reflexivity|]. cbn [filter map].
  destruct (f (fst x)); cbn [map]; rewrite IH; reflexivity.
Qed.

Definition rowlab (r : string * (string * R)) : string * string := (fst r, fst (snd r)).
Lemma group_lab : forall ext p, map rowlab (group_rows ext p) =
  flat_map (fun x => match ext (fst x) with Some l => [(l, snd x)] | None => [] end) (lab p).
Proof.
  intros ext p. unfold group_rows, lab. induction p as [|x p IH]; cbn; [reflexivity|].
  rewrite map_app, IH. unfold p_category, p_name. destruct (ext (fst (fst x))); reflexivity.
Qed.

Lemma select_names : forall levels l (names : list string) (v w : list R),
  List.length v = List.length names -> List.length w = List.length names ->
  map fst (select levels l (combine names v)) = map fst (select levels l (combine names w)).
Proof.
  intros levels l names. revert levels. unfold select.
  induction names as [|n names IH]; intros [|x levels] [|a v] [|b w] L1 L2; cbn in *; try discriminate; try reflexivity.
  destruct (level_eq_dec x l); cbn; [f_equal|]; apply IH; lia.
Qed.

Lemma contain_shape : forall levels uniq (names : list string) (v w : list R),
  List.length v = List.length names -> List.length w = List.length names ->
  shape (map (fun l => (l, select levels l (combine names v))) uniq) =
  shape (map (fun l => (l, select levels l (combine names w))) uniq).
Proof.
  intros levels uniq names v w L1 L2. unfold shape. rewrite !map_map. cbn. apply map_ext. intros l. f_equal.
  apply select_names; assumption.
Qed.

Definition shape_eq (a b : container) : Prop := shape a = shape b.
Definition oshape_eq (a b : option container) : Prop := option_map shape a = option_map shape b.

Lemma group_shape : forall ext p q, lab p = lab q -> same_outcome oshape_eq (parse_group ext p) (parse_group ext q).
Proof.
  intros ext p q E.
  assert (G : map rowlab (group_rows ext p) = map rowlab (group_rows ext q)) by (rewrite !group_lab, E; reflexivity).
  unfold parse_group. set (sp := group_rows ext p) in *. set (sq := group_rows ext q) in *.
  assert (L : List.length sp = List.length sq).
  { rewrite <- (map_length rowlab sp), G, map_length. reflexivity. }
  assert (F : map fst sp = map fst sq).
  { transitivity (map fst (map rowlab sp)); [rewrite map_map; reflexivity|]. rewrite G, map_map. reflexivity. }
  assert (N : map (fun r => fst (snd r)) sp = map (fun r => fst (snd r)) sq).
  { transitivity (map snd (map rowlab sp)); [rewrite map_map; reflexivity|]. rewrite G, map_map. reflexivity. }
  cbv zeta. rewrite L, F, N.
  destruct (Nat.eqb_spec (List.length sq) 0) as [Z|Z]; [cbn; reflexivity|].
  set (names := map (fun r => fst (snd r)) sq).
  assert (Ln : List.length names = List.length sq) by (unfold names; rewrite map_length; reflexivity).
  destruct (_ && _).
  - cbn. unfold oshape_eq. cbn. f_equal. apply contain_shape; rewrite !map_length.
    + change (List.length (rescaled (map (fun r => snd (snd r)) sp)) = List.length names).
      rewrite rescaled_length; [rewrite map_length; lia|]. intros X. apply (f_equal (@List.length R)) in X. rewrite map_length in X. cbn in X. lia.
    + change (List.length (rescaled (map (fun r => snd (snd r)) sq)) = List.length names).
      rewrite rescaled_length; [rewrite map_length; lia|]. intros X. apply (f_equal (@List.length R)) in X. rewrite map_length in X. cbn in X. lia.
  - destruct (Nat.ltb _ _); [exact I|]. cbn. unfold oshape_eq. cbn. f_equal. apply contain_shape; rewrite !map_length; lia.
Qed.

(** Dictionaries with the same keys. *)
Lemma update_shape : forall (d : container) (c c' : container), shape c = shape c' ->
  forall d' : container, shape d = shape d' -> shape (dict_update level_eq_dec d c) = shape (dict_update level_eq_dec d' c').
Proof.
  assert (SET : forall (d d' : container) k v v', map fst v = map fst v' -> shape d = shape d' ->
    shape (dict_set level_eq_dec k v d) = shape (dict_set level_eq_dec k v' d')).
  { induction d as [|[k0 v0] d IH]; intros [|[k1 v1] d'] k v v' V E; cbn in *; try discriminate; [rewrite V; reflexivity|].
    injection E as E0 E1 E2. subst k1. destruct (level_eq_dec k k0); cbn; [rewrite V, E2; reflexivity|].
    rewrite E1. f_equal. apply IH; assumption. }
  unfold dict_update. intros d c. revert d. induction c as [|[k v] c IH]; intros d [|[k' v'] c'] E d' D; cbn in *; try discriminate; [exact D|].
  injection E as E0 E1 E2. subst k'. apply IH; [exact E2|]. apply SET; assumption.
Qed.

Lemma value_outcome : forall p q c n, lab p = lab q -> same_outcome (fun _ _ => True) (param_value p c n) (param_value q c n).
Proof.
  intros p q c n E. unfold param_value, lab in *. revert q E.
  induction p as [|x p IH]; intros [|y q] E; cbn in *; try discriminate; [exact I|].
  injection E as E0 E1. unfold p_category, p_name. rewrite E0. destruct (_ && _); [exact I|]. apply IH. exact E1.
Qed.
Lemma value_in : forall p c n v, param_value p c n = Ok v -> In (c, n, v) p.
Proof.
  intros p c n v H. unfold param_value in H. destruct (find _ p) as [[[c' n'] v']|] eqn:F; [|discriminate].
  apply find_some in F. destruct F as [I T]. unfold p_category, p_name in T. cbn in T.
  apply andb_true_iff in T. destruct T as [T1 T2]. apply String.eqb_eq in T1, T2. injection H as <-. subst. exact I.
Qed.
Lemma max_outcome : forall p q n, other_values p q -> param_value p "maximum_exp" n = param_value q "maximum_exp" n.
Proof.
  intros p q n [E M]. pose proof (value_outcome p q "maximum_exp" n E) as H.
  destruct (param_value p "maximum_exp" n) as [v| | | | |] eqn:A, (param_value q "maximum_exp" n) as [w| | | | |] eqn:B;
    cbn in H; try contradiction; try reflexivity.
  f_equal. apply M with (choice := n); apply value_in; assumption.
Qed.

Lemma numbers_shape : forall a b, shape a = shape b -> numbers a = numbers b.
Proof.
  unfold numbers. induction a as [|[l r] a IH]; intros [|[l' r'] b] E; cbn in E; try discriminate; [reflexivity|].
  injection E as E0 _ E1. subst l'. cbn [flat_map fst]. rewrite (IH _ E1). reflexivity.
Qed.
Definition exp_eq (a b : container * Z) : Prop := (shape (fst a), snd a) = (shape (fst b), snd b).
Lemma experience_outcome : forall n p q c, other_values p q ->
  same_outcome exp_eq (parse_experience n p c) (parse_experience n q c).
Proof.
  intros n p q c O. unfold parse_experience. apply so_bind with (P := oshape_eq); [apply group_shape; apply O|].
  intros a b H. cbn [same_outcome]. unfold exp_eq. cbn [fst snd]. rewrite (max_outcome p q c O).
  unfold oshape_eq in H. destruct a, b; cbn in H; try discriminate; [|reflexivity].
  injection H as H. rewrite (numbers_shape _ _ H), H. reflexivity.
Qed.

Lemma variables_outcome : forall k p q, lab p = lab q ->
  same_outcome (fun a b => shapes a = shapes b) (parse_variables k p) (parse_variables k q).
Proof.
  intros k p q E. unfold parse_variables. rewrite (cats p q E).
  apply so_bind with (P := eq); [apply so_refl|]. intros names ? <-.
  assert (H : same_outcome (Forall2 (fun a b : string * container => (fst a, shape (snd a)) = (fst b, shape (snd b))))
    (result_all (map (fun n => result_bind (parse_group (level_pattern k n) p) (fun c => match c with Some c => Ok (n, c) | None => OtherError end)) names))
    (result_all (map (fun n => result_bind (parse_group (level_pattern k n) q) (fun c => match c with Some c => Ok (n, c) | None => OtherError end)) names))).
  { apply so_all. intros n. apply so_bind with (P := oshape_eq); [apply group_shape; exact E|].
    intros [a|] [b|] H; unfold oshape_eq in H; cbn [option_map] in H; try discriminate H; [|exact I].
    injection H as H. cbn [same_outcome fst snd]. rewrite H. reflexivity. }
  destruct (result_all _), (result_all _); cbn in *; try contradiction; try exact I.
  unfold shapes. apply F2_map. exact H.
Qed.

Lemma shape_keys : forall a b, shape a = shape b -> map fst a = map fst b.
Proof.
  intros a b E. transitivity (map fst (shape a)); [unfold shape; rewrite map_map; reflexivity|].
  rewrite E. unfold shape. rewrite map_map. reflexivity.
Qed.
Lemma get_shapes : forall n a b, shapes a = shapes b ->
  option_map shape (dict_get string_dec n a) = option_map shape (dict_get string_dec n b).
Proof.
  induction a as [|[k v] a IH]; intros [|[k' v'] b] E; cbn [shapes map fst snd] in E; try discriminate; [reflexivity|].
  injection E as E0 E1 E2. subst k'. cbn [dict_get]. destruct (string_dec n k); [cbn [option_map]; f_equal; exact E1|]. apply IH. exact E2.
Qed.
Lemma set_shapes : forall k v v' a b, shape v = shape v' -> shapes a = shapes b ->
  shapes (dict_set string_dec k v a) = shapes (dict_set string_dec k v' b).
Proof.
  induction a as [|[k0 v0] a IH]; intros [|[k1 v1] b] V E; cbn [shapes map fst snd] in E; try discriminate.
  - cbn [dict_set shapes map fst snd]. rewrite V. reflexivity.
  - injection E as E0 E1 E2. subst k1. cbn [dict_set]. destruct (string_dec k k0).
    + unfold shapes. cbn [map fst snd]. rewrite V. f_equal. exact E2.
    + unfold shapes. cbn [map fst snd]. f_equal; [f_equal; exact E1|]. apply IH; assumption.
Qed.
Definition sh (nc : string * container) : string * list (level * list string) := (fst nc, shape (snd nc)).
Lemma insert_shapes : forall x y a b, sh x = sh y -> shapes a = shapes b ->
  shapes (insert (fun u v => String.leb (fst u) (fst v)) x a) = shapes (insert (fun u v => String.leb (fst u) (fst v)) y b).
Proof.
  intros [kx x] [ky y] a. induction a as [|[k v] a IH]; intros [|[k' v'] b] X E; try discriminate.
  - unfold shapes. cbn [insert map]. f_equal. exact X.
  - unfold shapes in E. cbn [map fst snd] in E. injection E as E0 E1 E2. subst k'.
    assert (kx = ky) by (unfold sh in X; cbn [fst snd] in X; congruence). subst ky.
    cbn [insert fst]. destruct (String.leb kx k).
    + unfold shapes. cbn [map]. f_equal; [exact X|]. cbn [fst snd]. f_equal; [f_equal; exact E1|exact E2].
    + unfold shapes. cbn [map fst snd]. f_equal; [f_equal; exact E1|]. apply IH; assumption.
Qed.
Lemma sort_shapes : forall a b, shapes a = shapes b ->
  shapes (isort (fun u v => String.leb (fst u) (fst v)) a) = shapes (isort (fun u v => String.leb (fst u) (fst v)) b).
Proof.
  induction a as [|x a IH]; intros [|y b] E; try discriminate; [reflexivity|].
  unfold shapes in E. cbn [map] in E. injection E as E0 E1 E2. cbn [isort fold_right].
  apply insert_shapes; [unfold sh; f_equal; assumption|]. apply IH. exact E2.
Qed.
Lemma forallb_keys : forall {A} (P : level -> bool) (a b : list (level * A)), map fst a = map fst b ->
  forallb (fun lc => P (fst lc)) a = forallb (fun lc => P (fst lc)) b.
Proof.
  intros A P. induction a as [|x a IH]; intros [|y b] E; cbn in *; try discriminate; [reflexivity|].
  injection E as E0 E1. rewrite E0, (IH _ E1). reflexivity.
Qed.
Lemma merge_one_outcome : forall r s x y, same_outcome (fun a b => shapes a = shapes b) r s -> sh x = sh y ->
  same_outcome (fun a b => shapes a = shapes b) (merge_one r x) (merge_one s y).
Proof.
  intros r s [kx x] [ky y] H X. unfold sh in X. cbn [fst snd] in X. assert (kx = ky) by congruence. assert (SX : shape x = shape y) by congruence. subst ky.
  unfold merge_one. apply (so_bind _ _ _ _ _ _ H). intros a b E. cbn [fst snd].
  pose proof (get_shapes kx _ _ E) as G.
  destruct (dict_get string_dec kx a) as [u|], (dict_get string_dec kx b) as [w|]; cbn [option_map] in G; try discriminate.
  - injection G as G. pose proof (shape_keys _ _ G) as K. pose proof (shape_keys _ _ SX) as KX. rewrite K.
    rewrite (forallb_keys (fun k => if in_dec level_eq_dec k (map fst w) then true else false) x y KX).
    destruct (forallb _ y); [exact E|exact I].
  - apply set_shapes; [|exact E]. pose proof (shape_keys _ _ SX) as KX. unfold shape. rewrite !map_map. cbn.
    rewrite <- (map_map fst (fun l : level => (l, ["constant"])) x), KX, map_map. reflexivity.
Qed.
Lemma merge_outcome : forall x y, shapes x = shapes y -> forall r s, same_outcome (fun a b => shapes a = shapes b) r s ->
  same_outcome (fun a b => shapes a = shapes b) (fold_left merge_one x r) (fold_left merge_one y s).
Proof.
  induction x as [|a x IH]; intros [|b y] E r s H; try discriminate; [exact H|].
  unfold shapes in E. cbn [map] in E. injection E as E0 E1 E2.
  cbn [fold_left]. apply IH; [exact E2|]. apply merge_one_outcome; [exact H|]. unfold sh. f_equal; assumption.
Qed.

Lemma types_outcome : forall p q, lab p = lab q ->
  same_outcome (fun a b => fst a = fst b /\ oshape_eq (snd a) (snd b)) (parse_types p) (parse_types q).
Proof.
  intros p q E. unfold parse_types, infer_number_of_types. rewrite (cats p q E), (nms p q E).
  assert (T : forall r : list param, map (fun p => match extract "type_" is_digit (p_name p) with Some d => digits_value 0 d | None => 0 end) r =
    map (fun n => match extract "type_" is_digit n with Some d => digits_value 0 d | None => 0 end) (map p_name r)).
  { intros r. rewrite map_map. reflexivity. }
  rewrite !T, (nms p q E).
  destruct (mem _ _); [exact I|]. destruct (mem _ _); [exact I|]. cbv zeta.
  destruct (Nat.leb 2 _); [|cbn; split; reflexivity].
  apply so_bind with (P := oshape_eq); [apply group_shape; exact E|].
  intros [a|] [b|] H; unfold oshape_eq in H; cbn [option_map] in H; try discriminate H; [|exact I].
  injection H as H. cbn [same_outcome fst snd]. split; [reflexivity|]. unfold oshape_eq. cbn [option_map]. f_equal.
  apply update_shape; [exact H|reflexivity].
Qed.

Lemma lagged_outcome : forall ch cov p q, lab p = lab q ->
  same_outcome (Forall2 shape_eq) (parse_lagged_choices ch cov p) (parse_lagged_choices ch cov q).
Proof.
  intros ch cov p q E. unfold parse_lagged_choices. apply so_all. intros lag. unfold parse_lag.
  apply so_bind with (P := oshape_eq); [apply group_shape; exact E|].
  intros [a|] [b|] H; unfold oshape_eq in H; cbn [option_map] in H; try discriminate H; cbn [same_outcome]; unfold shape_eq; [|reflexivity].
  injection H as H. apply update_shape; [exact H|reflexivity].
Qed.

Lemma F2_len : forall {A B} (P : A -> B -> Prop) l m, Forall2 P l m -> List.length l = List.length m.
Proof. induction 1; cbn; congruence. Qed.
Lemma meas_outcome : forall ch cw p q, lab p = lab q ->
  same_outcome (fun a b => fst a = fst b /\ List.length (snd a) = List.length (snd b))
    (parse_measurement_errors ch cw p) (parse_measurement_errors ch cw q).
Proof.
  intros ch cw p q E. unfold parse_measurement_errors. rewrite (cats p q E).
  destruct (mem _ _); [|cbn; split; reflexivity].
  apply so_bind with (P := Forall2 (fun _ _ => True)); [apply so_all; intros c; apply value_outcome; exact E|].
  intros a b F. cbn [same_outcome fst snd]. split; [reflexivity|]. rewrite !app_length, (F2_len _ _ _ F). reflexivity.
Qed.

Lemma coefficients_names : forall c p q, lab p = lab q ->
  coefficient_names (coefficients_of c p) = coefficient_names (coefficients_of c q).
Proof.
  intros c p q E. unfold coefficients_of. rewrite (cats p q E). destruct (mem _ _); [|reflexivity].
  cbn. f_equal. rewrite !map_map. cbn.
  assert (F : forall r : list param, map p_name (filter (fun x => String.eqb (p_category x) c) r) =
    map snd (filter (fun x : string * string => String.eqb (fst x) c) (lab r))).
  { intros r. change (fun x : param => String.eqb (p_category x) c) with (fun x : param => (fun y : string * string => String.eqb (fst y) c) (fst x)).
    rewrite <- lab_filter. unfold lab. rewrite map_map. reflexivity. }
  change (fun x : param => p_name x) with p_name. rewrite !F, E. reflexivity.
Qed.
Lemma shock_count : forall k p q, lab p = lab q -> List.length (shock_values k p) = List.length (shock_values k q).
Proof.
  intros k p q E. unfold shock_values. cbv zeta. rewrite !map_length.
  set (n := match k with Sdcorr => _ | Cov => _ | Chol => _ end).
  assert (F : forall r : list param, List.length (filter (fun x => String.eqb (p_category x) n) r) =
    List.length (filter (fun x : string * string => String.eqb (fst x) n) (lab r))).
  { intros r. change (fun x : param => String.eqb (p_category x) n) with (fun x : param => (fun y : string * string => String.eqb (fst y) n) (fst x)).
    rewrite <- lab_filter. unfold lab. rewrite map_length. reflexivity. }
  rewrite !F, E. reflexivity.
Qed.
Lemma validate_same : forall ch p q, lab p = lab q -> validate_shocks ch p = validate_shocks ch q.
Proof.
  intros ch p q E. unfold validate_shocks. cbv zeta. rewrite (cats p q E).
  assert (F : forall r : list param, map p_name (filter is_shock r) =
    map snd (filter (fun x : string * string => existsb (fun k => contains ("shocks_" ++ k)%string (fst x) || contains ("shocks_" ++ k)%string (snd x)) ["sdcorr"; "cov"; "chol"]) (lab r))).
  { intros r. rewrite <- lab_filter. unfold lab. rewrite map_map. reflexivity. }
  rewrite !F, E. reflexivity.
Qed.

Theorem structure_fixed : forall n cov p q, other_values p q ->
  same_outcome same_structure (process_parameters n cov p) (process_parameters n cov q).
Proof.
  intros n cov p q O. pose proof O as [E _].
  unfold process_parameters. apply so_bind with (P := same_structure).
  - unfold parse_parameters. cbv zeta.
    apply so_bind with (P := fun _ _ => True).
    { unfold parse_discounting. apply so_bind with (P := fun _ _ => True); [apply value_outcome; exact E|]. intros; exact I. }
    intros d1 d2 _. apply so_bind with (P := fun a b => shapes a = shapes b); [apply variables_outcome; exact E|].
    intros pr1 pr2 HP. apply so_bind with (P := fun a b => shapes a = shapes b).
    { apply so_bind with (P := fun a b => shapes a = shapes b); [apply variables_outcome; exact E|].
      intros o1 o2 HO. unfold merge_observables. apply so_bind with (P := fun a b => shapes a = shapes b).
      - apply merge_outcome; [exact HP|exact HO].
      - intros m1 m2 HM. cbn [same_outcome]. apply sort_shapes. exact HM. }
    intros o1 o2 HO. rewrite E.
    set (pc := parse_choices (map fst q) cov).
    apply so_bind with (P := Forall2 exp_eq); [apply so_all; intros c; apply experience_outcome; exact O|].
    intros e1 e2 HE. rewrite (cats p q E). apply so_bind with (P := eq); [apply so_refl|]. intros k ? <-.
    eapply so_bind; [apply meas_outcome; exact E|]. intros m1 m2 HM.
    eapply so_bind; [apply types_outcome; exact E|]. intros t1 t2 HT.
    eapply so_bind; [apply lagged_outcome; exact E|]. intros l1 l2 HL.
    cbn [same_outcome]. constructor; cbn [mp_processes mp_observables mp_choices mp_rewards mp_experience mp_shocks mp_meas mp_types mp_lagged fst snd].
    + exact HP.
    + exact HO.
    + reflexivity.
    + unfold parse_choice_parameters. rewrite !map_map. cbn [fst snd]. apply map_ext. intros c.
      rewrite !(coefficients_names _ p q E). reflexivity.
    + apply F2_map. exact HE.
    + split; [reflexivity|apply shock_count; exact E].
    + exact HM.
    + exact HT.
    + apply F2_map. exact HL.
  - intros a b [H1 H2 H3 H4 H5 H6 H7 H8 H9]. rewrite H3, (validate_same _ p q E).
    destruct (validate_shocks _ q) as [[]| | | | |]; cbn; auto. constructor; assumption.
Qed.

Theorem core_fixed : forall n_periods n_lags filters choices_w_exp choices p q, other_values p q ->
  core_spec_of n_periods n_lags filters choices_w_exp choices p = core_spec_of n_periods n_lags filters choices_w_exp choices q.
Proof.
  intros n l f cw ch p q O. unfold core_spec_of.
  assert (H : same_outcome (Forall2 exp_eq) (result_all (map (parse_experience n p) cw)) (result_all (map (parse_experience n q) cw))).
  { apply so_all. intros c. apply experience_outcome. exact O. }
  destruct (result_all (map (parse_experience n p) cw)) as [a| | | | |], (result_all (map (parse_experience n q) cw)) as [b| | | | |];
    cbn in H; try contradiction; try reflexivity. cbn. f_equal.
  assert (A : map (fun sm => numbers (fst sm)) a = map (fun sm => numbers (fst sm)) b).
  { apply F2_map. clear - H. induction H as [|x y a b X F IH]; constructor; [|exact IH]. unfold exp_eq in X. injection X as X _. apply numbers_shape. exact X. }
  assert (B : map (fun sm => Z.to_nat (snd sm)) a = map (fun sm => Z.to_nat (snd sm)) b).
  { apply F2_map. clear - H. induction H as [|x y a b X F IH]; constructor; [|exact IH]. unfold exp_eq in X. injection X as _ X. rewrite X. reflexivity. }
  rewrite A, B. reflexivity.
Qed.
