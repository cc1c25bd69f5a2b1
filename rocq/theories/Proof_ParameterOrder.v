(** Proofs about the order of parameters. *)
From Coq Require Import List Arith Bool String Ascii Reals ZArith Lia Lra Sorting.Permutation.
From Verif Require Import Base Proof_Base Model_Strings Model_Cache Model_Choices Model_Params Model_Processing Spec_Solve Spec_Choices
  Spec_Params Proof_Choices Proof_Params Proof_Names Model_ParseParameters Spec_ParameterOrder.
Import ListNotations.
Open Scope string_scope.
Open Scope list_scope.
Open Scope nat_scope.

(** ** Lists *)

Lemma po_filter_perm : forall A (p : A -> bool) l l', Permutation l l' -> Permutation (filter p l) (filter p l').
Proof.
  intros A p l l' H. induction H; cbn [filter].
  - constructor.
  - destruct (p x); [constructor; exact IHPermutation|exact IHPermutation].
  - destruct (p x), (p y); try apply Permutation_refl. apply perm_swap.
  - eapply Permutation_trans; eassumption.
Qed.
Lemma po_forallb : forall A (p : A -> bool) l l', Permutation l l' -> forallb p l = forallb p l'.
Proof.
  intros A p l l' H. induction H; cbn [forallb]; try congruence.
  rewrite !andb_assoc, (andb_comm (p y)). reflexivity.
Qed.
Lemma po_existsb : forall A (p : A -> bool) l l', (forall x, In x l <-> In x l') -> existsb p l = existsb p l'.
Proof.
  intros A p l l' H. apply eq_true_iff_eq. rewrite !existsb_exists.
  split; intros [x [I F]]; exists x; split; auto; apply H; exact I.
Qed.
Lemma po_in : forall A (l l' : list A), Permutation l l' -> forall x, In x l <-> In x l'.
Proof. intros A l l' P x. split; apply Permutation_in; [exact P | apply Permutation_sym; exact P]. Qed.
Lemma po_mem : forall x l l', Permutation l l' -> mem x l = mem x l'.
Proof. intros x l l' P. apply po_existsb, po_in, P. Qed.
Lemma po_total : forall l l', Permutation l l' -> total l = total l'.
Proof. unfold total. intros l l' P. induction P; cbn; lra. Qed.
Lemma po_list_max : forall l l', Permutation l l' -> list_max l = list_max l'.
Proof.
  intros l l' P. induction P; cbn; [reflexivity| | |congruence].
  - change (Nat.max x (list_max l) = Nat.max x (list_max l')). lia.
  - change (Nat.max y (Nat.max x (list_max l)) = Nat.max x (Nat.max y (list_max l))). lia.
Qed.
Lemma po_level_antisym : forall a b, level_leb a b = true -> level_leb b a = true -> a = b.
Proof.
  intros [a|a] [b|b]; cbn; try discriminate; intros A B; f_equal.
  - apply String.leb_antisym; assumption.
  - apply Nat.leb_le in A, B. lia.
Qed.
Lemma po_levels : forall l l', (forall x, In x l <-> In x l') ->
  isort level_leb (drop_duplicates level_eq_dec l) = isort level_leb (drop_duplicates level_eq_dec l').
Proof.
  intros l l' E. apply isort_perm_eq; [apply level_leb_total | apply level_leb_trans | apply po_level_antisym |].
  apply NoDup_Permutation; try apply NoDup_drop_duplicates.
  intros x. rewrite !In_drop_duplicates. apply E.
Qed.
Lemma po_combine_map : forall A B C (f : A -> B) (g : A -> C) l, combine (map f l) (map g l) = map (fun x => (f x, g x)) l.
Proof. intros A B C f g l. induction l as [|x r IH]; cbn; congruence. Qed.
Lemma po_select : forall A B (F : A -> level) (G : A -> B) l rows,
  select (map F rows) l (map G rows) = map G (filter (fun r => if level_eq_dec (F r) l then true else false) rows).
Proof.
  intros A B F G l rows. unfold select. rewrite po_combine_map. induction rows as [|r rows IH]; [reflexivity|].
  cbn [map filter fst]. destruct (level_eq_dec (F r) l); cbn [map snd]; congruence.
Qed.

(** ** Groups of parameters *)

(** The container as a function of the rows. *)
Definition po_level (sub : list (string * (string * R))) (s : string) : level :=
  if forallb all_digits (map fst sub) then Number (digits_value 0 s) else Label s.
Definition po_container (sub : list (string * (string * R))) (G : string * R -> string * R) : container :=
  map (fun l => (l, map (fun r => G (snd r)) (filter (fun r => if level_eq_dec (po_level sub (fst r)) l then true else false) sub)))
      (isort level_leb (drop_duplicates level_eq_dec (map (fun r => po_level sub (fst r)) sub))).

Lemma po_level_perm : forall sub sub' s, Permutation sub sub' -> po_level sub s = po_level sub' s.
Proof.
  intros sub sub' s P. unfold po_level. rewrite (po_forallb _ all_digits (map fst sub) (map fst sub')); [reflexivity|].
  apply Permutation_map, P.
Qed.
Lemma po_unique_perm : forall sub sub', Permutation sub sub' ->
  isort level_leb (drop_duplicates level_eq_dec (map (fun r => po_level sub (fst r)) sub)) =
  isort level_leb (drop_duplicates level_eq_dec (map (fun r : string * (string * R) => po_level sub' (fst r)) sub')).
Proof.
  intros sub sub' P. apply po_levels. intros x.
  rewrite (map_ext (fun r => po_level sub (fst r)) (fun r : string * (string * R) => po_level sub' (fst r)))
    by (intros r; apply po_level_perm, P).
  apply po_in, Permutation_map, P.
Qed.
Lemma po_container_perm : forall sub sub' G, Permutation sub sub' -> same_container (po_container sub G) (po_container sub' G).
Proof.
  intros sub sub' G P. unfold po_container, same_container. rewrite (po_unique_perm _ _ P).
  induction (isort level_leb _) as [|l ls IH]; [constructor|]. cbn [map]. constructor; [|exact IH].
  cbn [fst snd]. split; [reflexivity|]. apply Permutation_map.
  rewrite (filter_ext (fun r => if level_eq_dec (po_level sub (fst r)) l then true else false)
                      (fun r : string * (string * R) => if level_eq_dec (po_level sub' (fst r)) l then true else false)).
  - apply po_filter_perm, P.
  - intros r. rewrite (po_level_perm _ _ _ P). reflexivity.
Qed.

Definition po_rename (n : string) : string := if String.eqb n "probability" then "constant"%string else n.
Definition po_log (t : R) (nv : string * R) : string * R := (po_rename (fst nv), ln (Rmax (snd nv / t) (1 / MAX_FLOAT))).

Lemma po_parse_group : forall ext params,
  ((forall r, In r (group_rows ext params) -> fst (snd r) = "probability"%string) -> group_rows ext params <> [] ->
    total (map (fun r => snd (snd r)) (group_rows ext params)) <> 0%R) ->
  parse_group ext params =
  let sub := group_rows ext params in
  let unique := isort level_leb (drop_duplicates level_eq_dec (map (fun r => po_level sub (fst r)) sub)) in
  let n := List.length (filter (fun r => String.eqb "probability" (fst (snd r))) sub) in
  if Nat.eqb (List.length sub) 0 then Ok None else
  if Nat.eqb n (List.length unique) && Nat.eqb (List.length unique) (List.length sub)
  then Ok (Some (po_container sub (po_log (total (map (fun r => snd (snd r)) sub)))))
  else if Nat.ltb 0 n then ValueError else Ok (Some (po_container sub (fun nv => nv))).
Proof.
  intros ext params NZ. unfold parse_group. set (sub := group_rows ext params) in *. cbv zeta.
  destruct (Nat.eqb (List.length sub) 0) eqn:Z; [reflexivity|].
  assert (NE : sub <> []) by (intros E; rewrite E in Z; discriminate).
  assert (TL : to_numeric (map fst sub) = map (fun r => po_level sub (fst r)) sub).
  { unfold to_numeric, po_level. destruct (forallb all_digits (map fst sub)); rewrite map_map; reflexivity. }
  rewrite TL.
  assert (FL : List.length (filter (String.eqb "probability") (map (fun r => fst (snd r)) sub)) =
               List.length (filter (fun r => String.eqb "probability" (fst (snd r))) sub)).
  { clear. induction sub as [|r l IH]; [reflexivity|]. cbn [map filter]. destruct (String.eqb _ _); cbn [List.length]; congruence. }
  rewrite FL. set (unique := isort level_leb _).
  destruct (Nat.eqb (List.length (filter _ sub)) (List.length unique) && Nat.eqb (List.length unique) (List.length sub)) eqn:C.
  - apply andb_true_iff in C. destruct C as [C1 C2]. apply Nat.eqb_eq in C1, C2.
    assert (ALL : forall r, In r sub -> fst (snd r) = "probability"%string).
    { intros r I. assert (C : List.length (filter (fun r => String.eqb "probability" (fst (snd r))) sub) = List.length sub) by congruence.
      rewrite filter_length_iff in C. specialize (C r I). apply String.eqb_eq in C. congruence. }
    specialize (NZ ALL NE). change (total (map (fun r => snd (snd r)) sub)) with (rsum (map (fun r => snd (snd r)) sub)) in NZ.
    assert (V : (if Req_EM_T (total (map (fun r => snd (snd r)) sub)) 1 then map (fun r => snd (snd r)) sub
                 else normalize_probabilities (map (fun r => snd (snd r)) sub)) =
                map (fun x => (x / total (map (fun r => snd (snd r)) sub))%R) (map (fun r => snd (snd r)) sub)).
    { apply rescaled_ok; [|exact NZ]. destruct sub; [contradiction|discriminate]. }
    rewrite V, !map_map, po_combine_map. unfold po_container. fold unique. f_equal. f_equal. apply map_ext. intros l. f_equal.
    rewrite po_select. reflexivity.
  - destruct (Nat.ltb 0 _); [reflexivity|]. unfold po_container. fold unique. f_equal. f_equal. apply map_ext. intros l. f_equal.
    rewrite po_combine_map, po_select. apply map_ext. intros [a [b c]]. reflexivity.
Qed.

Lemma po_group_rows : forall ext params params', Permutation params params' ->
  Permutation (group_rows ext params) (group_rows ext params').
Proof. intros ext params params' P. apply Permutation_flat_map, P. Qed.

Lemma po_nonzero : forall ext params, distribution ext -> nonzero_sums params ->
  (forall r, In r (group_rows ext params) -> fst (snd r) = "probability"%string) -> group_rows ext params <> [] ->
  total (map (fun r => snd (snd r)) (group_rows ext params)) <> 0%R.
Proof.
  intros ext params D NZ ALL NE. specialize (NZ ext D). rewrite group_total_rows in NZ. apply NZ.
  - destruct (group_rows ext params) as [|[s [n v]] l] eqn:E; [contradiction|].
    assert (I : In (s, (n, v)) (group_rows ext params)) by (rewrite E; left; reflexivity).
    apply In_group_rows in I. destruct I as [p [H _]]. exists p, s. exact H.
  - intros p s H. apply (ALL (s, (p_name p, snd p))). apply In_group_rows. exists p. auto.
Qed.

Lemma po_nonzero_perm : forall params params', Permutation params params' -> nonzero_sums params -> nonzero_sums params'.
Proof.
  intros params params' P NZ ext D [p [s [I E]]] ALL. 
  assert (T : group_total ext params' = group_total ext params).
  { rewrite !group_total_rows. symmetry. change (total (map (fun r => snd (snd r)) (group_rows ext params)) =
      total (map (fun r => snd (snd r)) (group_rows ext params'))). apply po_total, Permutation_map, po_group_rows, P. }
  rewrite T. apply NZ; [exact D| |].
  - exists p, s. split; [apply (po_in _ _ _ P), I | exact E].
  - intros q t [J F]. apply (ALL q t). split; [apply (po_in _ _ _ P), J | exact F].
Qed.

Lemma parse_group_perm : forall ext params params', Permutation params params' -> distribution ext -> nonzero_sums params ->
  same_result same_option (parse_group ext params) (parse_group ext params').
Proof.
  intros ext params params' P D NZ.
  rewrite (po_parse_group ext params) by (apply po_nonzero; assumption).
  rewrite (po_parse_group ext params') by (apply po_nonzero; [exact D | eapply po_nonzero_perm; eassumption]).
  cbv zeta. pose proof (po_group_rows ext _ _ P) as G. set (sub := group_rows ext params) in *. set (sub' := group_rows ext params') in *.
  rewrite <- (Permutation_length G), <- (po_unique_perm _ _ G), <- (Permutation_length (po_filter_perm _ _ _ _ G)).
  rewrite <- (po_total _ _ (Permutation_map (fun r => snd (snd r)) G)).
  destruct (Nat.eqb _ 0); [exact I|]. destruct (_ && _); [cbn; apply po_container_perm, G|].
  destruct (Nat.ltb _ _); [exact I|]. cbn. apply po_container_perm, G.
Qed.

(** ** Results *)

Lemma same_bind : forall A B (P : A -> A -> Prop) (Q : B -> B -> Prop) r r' f f', same_result P r r' ->
  (forall x y, P x y -> same_result Q (f x) (f' y)) -> same_result Q (result_bind r f) (result_bind r' f').
Proof. intros A B P Q [x| | | | |] [y| | | | |] f f' H F; cbn in *; try contradiction; auto. Qed.
Lemma same_all : forall A B (P : B -> B -> Prop) (f f' : A -> result B) l, (forall x, In x l -> same_result P (f x) (f' x)) ->
  same_result (Forall2 P) (result_all (map f l)) (result_all (map f' l)).
Proof.
  intros A B P f f' l. induction l as [|x r IH]; intros H; [constructor|]. cbn [map result_all].
  eapply same_bind; [apply H; left; reflexivity|]. intros a b AB.
  eapply same_bind; [apply IH; intros y Y; apply H; right; exact Y|]. intros c d CD. cbn. constructor; assumption.
Qed.
Lemma same_eq : forall A (r r' : result A), r = r' -> same_result eq r r'.
Proof. intros A r r' ->. destruct r'; cbn; auto. Qed.

(** ** Dictionaries with the same keys *)

Lemma po_set : forall K V (eqd : forall x y : K, {x = y} + {x <> y}) (P : V -> V -> Prop) d d' k v v',
  Forall2 (fun x y => fst x = fst y /\ P (snd x) (snd y)) d d' -> P v v' ->
  Forall2 (fun x y => fst x = fst y /\ P (snd x) (snd y)) (dict_set eqd k v d) (dict_set eqd k v' d').
Proof.
  intros K V eqd P d d' k v v' F H. induction F as [|[a x] [b y] d d' E F IH]; cbn [dict_set].
  - constructor; [|constructor]. cbn. auto.
  - cbn [fst snd] in E. destruct E as [<- E]. destruct (eqd k a).
    + constructor; [cbn; auto | exact F].
    + constructor; [cbn; auto | exact IH].
Qed.
Lemma po_update : forall K V (eqd : forall x y : K, {x = y} + {x <> y}) (P : V -> V -> Prop) c c' d d',
  Forall2 (fun x y => fst x = fst y /\ P (snd x) (snd y)) c c' ->
  Forall2 (fun x y => fst x = fst y /\ P (snd x) (snd y)) d d' ->
  Forall2 (fun x y => fst x = fst y /\ P (snd x) (snd y)) (dict_update eqd d c) (dict_update eqd d' c').
Proof.
  intros K V eqd P c c' d d' F. unfold dict_update. revert d d'. induction F as [|[a x] [b y] c c' E F IH]; intros d d' G; [exact G|].
  cbn [fold_left fst snd] in *. destruct E as [<- E]. apply IH, po_set; assumption.
Qed.
Lemma po_get : forall K V (eqd : forall x y : K, {x = y} + {x <> y}) (P : V -> V -> Prop) d d' k,
  Forall2 (fun x y => fst x = fst y /\ P (snd x) (snd y)) d d' ->
  match dict_get eqd k d, dict_get eqd k d' with Some v, Some v' => P v v' | None, None => True | _, _ => False end.
Proof.
  intros K V eqd P d d' k F. induction F as [|[a x] [b y] d d' E F IH]; cbn [dict_get]; [exact I|].
  cbn [fst snd] in E. destruct E as [<- E]. destruct (eqd k a); [exact E | exact IH].
Qed.
Lemma same_container_refl : forall c, same_container c c.
Proof. intros c. unfold same_container. induction c; constructor; auto. Qed.
Lemma same_container_keys : forall c c', same_container c c' -> map fst c = map fst c'.
Proof. intros c c' H. induction H as [|x y c c' [E _] _ IH]; [reflexivity|]. cbn. congruence. Qed.

(** ** Single parameters *)

Lemma po_find : forall A (f : A -> bool) l l', Permutation l l' ->
  (forall x y, In x l -> In y l -> f x = true -> f y = true -> x = y) -> find f l = find f l'.
Proof.
  intros A f l l' P U.
  destruct (find f l) as [x|] eqn:E.
  - apply find_some in E. destruct E as [I F]. destruct (find f l') as [y|] eqn:E'.
    + apply find_some in E'. destruct E' as [I' F']. f_equal. apply U; auto. apply (po_in _ _ _ P), I'.
    + exfalso. rewrite (find_none _ _ E' x) in F; [discriminate|]. apply (po_in _ _ _ P), I.
  - destruct (find f l') as [y|] eqn:E'; [|reflexivity].
    exfalso. apply find_some in E'. destruct E' as [I' F']. rewrite (find_none _ _ E y) in F'; [discriminate|].
    apply (po_in _ _ _ P), I'.
Qed.
Lemma po_unique_key : forall (params : list param), NoDup (map fst params) -> forall p q, In p params -> In q params ->
  fst p = fst q -> p = q.
Proof.
  intros params N p q P Q E. induction params as [|x l IH]; [destruct P|]. cbn [map] in N. inversion N as [|? ? NI N']; subst.
  destruct P as [P|P], Q as [Q|Q]; subst; auto.
  - exfalso. apply NI. rewrite E. apply in_map, Q.
  - exfalso. apply NI. rewrite <- E. apply in_map, P.
Qed.
Lemma param_value_perm : forall params params' c n, Permutation params params' -> NoDup (map fst params) ->
  param_value params c n = param_value params' c n.
Proof.
  intros params params' c n P N. unfold param_value. rewrite (po_find _ _ _ _ P); [reflexivity|].
  intros x y X Y F G. apply (po_unique_key params N); auto.
  apply andb_true_iff in F, G. rewrite !String.eqb_eq in F, G. unfold p_category, p_name in *.
  destruct x as [[a b] v], y as [[d e] w]. cbn in *. destruct F, G. congruence.
Qed.

Lemma po_categories : forall params params' : list param, Permutation params params' ->
  Permutation (map p_category params) (map p_category params').
Proof. intros. apply Permutation_map. assumption. Qed.

(** ** Names of variables *)

Lemma common_prefix_sym : forall a b, common_prefix a b = common_prefix b a.
Proof.
  induction a as [|x a IH]; intros [|y b]; try reflexivity. cbn. rewrite Ascii.eqb_sym.
  destruct (Ascii.eqb y x) eqn:E; [|reflexivity]. apply Ascii.eqb_eq in E. subst. f_equal. apply IH.
Qed.
Lemma pairs_perm : forall A (l l' : list A), Permutation l l' -> forall a b, In (a, b) (pairs l) ->
  In (a, b) (pairs l') \/ In (b, a) (pairs l').
Proof.
  intros A l l' P. induction P; intros a b H.
  - destruct H.
  - cbn [pairs] in *. rewrite !in_app_iff in *. destruct H as [H|H].
    + apply in_map_iff in H. destruct H as [z [E Z]]. inversion E; subst. left. left. apply in_map. apply (Permutation_in _ P), Z.
    + destruct (IHP a b H) as [K|K]; [left|right]; right; exact K.
  - cbn [pairs map] in *. rewrite !in_app_iff in *. cbn [In] in *. destruct H as [[H|H]|[H|H]].
    + inversion H; subst. right. left. left. reflexivity.
    + left. right. left. exact H.
    + left. left. right. exact H.
    + left. right. right. exact H.
  - destruct (IHP1 a b H) as [K|K].
    + apply IHP2, K.
    + destruct (IHP2 b a K); [right|left]; assumption.
Qed.
Lemma prefixes_perm : forall l l', Permutation l l' -> forall x,
  In x (map (fun ab => common_prefix (fst ab) (snd ab)) (pairs l)) <->
  In x (map (fun ab => common_prefix (fst ab) (snd ab)) (pairs l')).
Proof.
  assert (H : forall l l', Permutation l l' -> forall x,
    In x (map (fun ab => common_prefix (fst ab) (snd ab)) (pairs l)) ->
    In x (map (fun ab => common_prefix (fst ab) (snd ab)) (pairs l'))).
  { intros l l' P x I. apply in_map_iff in I. destruct I as [[a b] [E I]]. cbn in E. apply in_map_iff.
    destruct (pairs_perm _ _ _ P a b I) as [K|K].
    - exists (a, b). auto.
    - exists (b, a). cbn. rewrite common_prefix_sym. auto. }
  intros l l' P x. split; apply H; [exact P | apply Permutation_sym, P].
Qed.
Lemma parse_names_perm : forall keyword l l', Permutation l l' -> parse_names keyword l = parse_names keyword l'.
Proof.
  intros keyword l l' P. unfold parse_names.
  set (g := fun c => match after_prefix (keyword ++ "_") c with Some r => [before_last_underscore r] | None => [] end).
  pose proof (Permutation_flat_map g P) as G. set (cs := flat_map g l) in *. set (cs' := flat_map g l') in *.
  set (pre := fun cs => drop_duplicates string_dec (map rstrip_underscores (filter (fun p => negb (String.eqb p ""))
    (map (fun ab => common_prefix (fst ab) (snd ab)) (pairs cs))))).
  change (drop_duplicates string_dec (map rstrip_underscores (filter (fun p => negb (String.eqb p ""))
    (map (fun ab => common_prefix (fst ab) (snd ab)) (pairs cs))))) with (pre cs).
  change (drop_duplicates string_dec (map rstrip_underscores (filter (fun p => negb (String.eqb p ""))
    (map (fun ab => common_prefix (fst ab) (snd ab)) (pairs cs'))))) with (pre cs').
  assert (E : forall x, In x (pre cs) <-> In x (pre cs')).
  { intros x. unfold pre. rewrite !In_drop_duplicates. apply map_ext_in_iff. intros y. rewrite !filter_In.
    rewrite (prefixes_perm _ _ G). reflexivity. }
  assert (S : sorted_set (filter (fun a => negb (existsb (fun b => negb (String.eqb a b) && contains a b) (pre cs))) (pre cs)) =
              sorted_set (filter (fun a => negb (existsb (fun b => negb (String.eqb a b) && contains a b) (pre cs'))) (pre cs'))).
  { apply sorted_set_ext. intros x. rewrite !filter_In, E, (po_existsb _ _ _ _ E). reflexivity. }
  cbv zeta. rewrite <- S. set (names := sorted_set _).
  rewrite (Permutation_length (po_filter_perm _ (fun c => existsb (fun p => prefix p c) names) _ _ G)), (Permutation_length G).
  reflexivity.
Qed.

Lemma parse_variables_perm : forall keyword params params', Permutation params params' ->
  (forall n, distribution (level_pattern keyword n)) -> nonzero_sums params ->
  same_result same_variables (parse_variables keyword params) (parse_variables keyword params').
Proof.
  intros keyword params params' P D NZ. unfold parse_variables. rewrite <- (parse_names_perm _ _ _ (po_categories _ _ P)).
  destruct (parse_names keyword (map p_category params)) as [names| | | | |]; cbn [result_bind]; try exact I.
  apply same_all. intros n _. eapply same_bind; [apply parse_group_perm; [exact P|apply D|exact NZ]|].
  intros [c|] [c'|] H; cbn in *; auto; contradiction.
Qed.

(** ** Merging *)

Lemma merge_one_perm : forall r r' e e', same_result same_variables r r' -> fst e = fst e' -> same_container (snd e) (snd e') ->
  same_result same_variables (merge_one r e) (merge_one r' e').
Proof.
  intros r r' [n c] [n' c'] R E C. cbn [fst snd] in *. subst n'. unfold merge_one. eapply same_bind; [exact R|].
  intros o o' O. cbn [fst snd]. pose proof (po_get _ _ string_dec same_container _ _ n O) as G.
  destruct (dict_get string_dec n o) as [ls|], (dict_get string_dec n o') as [ls'|]; try contradiction.
  - rewrite (same_container_keys _ _ G).
    assert (F : forallb (fun lc => if in_dec level_eq_dec (fst lc) (map fst ls') then true else false) c =
                forallb (fun lc => if in_dec level_eq_dec (fst lc) (map fst ls') then true else false) c').
    { clear - C. induction C as [|x y c c' [E _] _ IH]; [reflexivity|]. cbn [forallb]. rewrite E. congruence. }
    rewrite F. destruct (forallb _ c'); [exact O | exact I].
  - cbn. apply po_set; [exact O|]. clear - C. unfold same_container.
    induction C as [|x y c c' [E _] _ IH]; [constructor|]. cbn [map]. constructor; [cbn; auto | exact IH].
Qed.
Lemma po_insert : forall x y v v', fst x = fst y -> same_container (snd x) (snd y) -> same_variables v v' ->
  same_variables (insert (fun a b : string * container => String.leb (fst a) (fst b)) x v)
                 (insert (fun a b : string * container => String.leb (fst a) (fst b)) y v').
Proof.
  intros x y v v' E C F. unfold same_variables in *. induction F as [|a b v v' [EA CA] F IH]; cbn [insert].
  - constructor; auto.
  - rewrite E, EA. destruct (String.leb (fst y) (fst b)).
    + constructor; [auto|]. constructor; auto.
    + constructor; auto.
Qed.
Lemma merge_perm : forall e e' o o', same_variables e e' -> same_variables o o' ->
  same_result same_variables (merge_observables e o) (merge_observables e' o').
Proof.
  intros e e' o o' E O. unfold merge_observables. eapply same_bind.
  - assert (R : same_result same_variables (Ok o) (Ok o')) by exact O. revert R. generalize (@Ok (list (string * container)) o), (@Ok (list (string * container)) o').
    induction E as [|x y e e' [EX CX] _ IH]; intros r r' R; [exact R|]. cbn [fold_left]. apply IH, merge_one_perm; assumption.
  - intros v v' V. cbn. clear - V. unfold isort. induction V as [|a b v v' [EA CA] F IH]; [constructor|]. cbn [fold_right].
    apply po_insert; assumption.
Qed.

(** ** The other parsers *)

Lemma numbers_perm : forall c c', same_container c c' -> numbers c = numbers c'.
Proof.
  intros c c' H. unfold numbers. induction H as [|x y c c' [E _] _ IH]; [reflexivity|]. cbn [flat_map]. rewrite E, IH. reflexivity.
Qed.
Lemma parse_experience_perm : forall n params params' c, Permutation params params' -> NoDup (map fst params) -> nonzero_sums params ->
  same_result (fun x y => same_container (fst x) (fst y) /\ snd x = snd y) (parse_experience n params c) (parse_experience n params' c).
Proof.
  intros n params params' c P N NZ. unfold parse_experience. eapply same_bind; [apply parse_group_perm; [exact P|constructor|exact NZ]|].
  intros o o' O. rewrite <- (param_value_perm _ _ _ _ P N). cbn.
  set (s := match o with Some c => c | None => [(Number 0, constant 0)] end).
  set (s' := match o' with Some c => c | None => [(Number 0, constant 0)] end).
  assert (S : same_container s s').
  { unfold s, s'. destruct o as [x|], o' as [y|]; try contradiction; [exact O | apply same_container_refl]. }
  split; [exact S|]. rewrite (numbers_perm _ _ S). reflexivity.
Qed.
Lemma shocks_kind_perm : forall l l', Permutation l l' -> shocks_kind l = shocks_kind l'.
Proof.
  intros l l' P. unfold shocks_kind.
  rewrite (filter_ext (fun k => mem ("shocks_" ++ k) l) (fun k => mem ("shocks_" ++ k) l')) by (intros k; apply po_mem, P).
  rewrite !(fun k => po_mem ("shocks_" ++ k)%string _ _ P). reflexivity.
Qed.
Lemma meas_perm : forall params params' cs ws, Permutation params params' -> NoDup (map fst params) ->
  parse_measurement_errors cs ws params = parse_measurement_errors cs ws params'.
Proof.
  intros params params' cs ws P N. unfold parse_measurement_errors. rewrite (po_mem _ _ _ (po_categories _ _ P)).
  destruct (mem _ _); [|reflexivity]. f_equal. f_equal. apply map_ext. intros c. apply param_value_perm; assumption.
Qed.
Lemma types_perm : forall params params', Permutation params params' -> nonzero_sums params ->
  same_result (fun x y => fst x = fst y /\ same_option (snd x) (snd y)) (parse_types params) (parse_types params').
Proof.
  intros params params' P NZ. unfold parse_types. rewrite <- (po_mem _ _ _ (po_categories _ _ P)).
  destruct (mem _ (map p_category params)); [exact I|].
  rewrite <- (po_mem _ _ _ (Permutation_map p_name P)). destruct (mem _ (map p_name params)); [exact I|].
  assert (E : infer_number_of_types params = infer_number_of_types params').
  { unfold infer_number_of_types. f_equal. apply po_list_max, Permutation_map, P. }
  rewrite <- E. destruct (Nat.leb 2 _); [|cbn; auto].
  eapply same_bind; [apply parse_group_perm; [exact P|constructor|exact NZ]|].
  intros [c|] [c'|] O; cbn in *; try contradiction; auto. split; [reflexivity|].
  apply po_update; [exact O | apply same_container_refl].
Qed.
Lemma lag_perm : forall params params' cs k, Permutation params params' -> nonzero_sums params ->
  same_result same_container (parse_lag cs params k) (parse_lag cs params' k).
Proof.
  intros params params' cs k P NZ. unfold parse_lag. eapply same_bind; [apply parse_group_perm; [exact P|constructor|exact NZ]|].
  intros [c|] [c'|] O; cbn in *; try contradiction; [|apply same_container_refl].
  apply po_update; [exact O | apply same_container_refl].
Qed.
Lemma coefficients_perm : forall params params' c, Permutation params params' ->
  same_coefficients (coefficients_of c params) (coefficients_of c params').
Proof.
  intros params params' c P. unfold coefficients_of. rewrite <- (po_mem _ _ _ (po_categories _ _ P)).
  destruct (mem _ _); [|exact I]. cbn. apply Permutation_map, po_filter_perm, P.
Qed.
Lemma rewards_perm : forall params params' cs, Permutation params params' ->
  Forall2 (fun x y => fst x = fst y /\ same_coefficients (fst (snd x)) (fst (snd y)) /\ same_coefficients (snd (snd x)) (snd (snd y)))
    (parse_choice_parameters cs params) (parse_choice_parameters cs params').
Proof.
  intros params params' cs P. unfold parse_choice_parameters. induction cs as [|c cs IH]; [constructor|]. cbn [map].
  constructor; [|exact IH]. cbn. split; [reflexivity|]. split; apply coefficients_perm, P.
Qed.

(** ** All parameters *)

Definition po_category_name (k : shock_kind) : string :=
  match k with Sdcorr => "shocks_sdcorr" | Cov => "shocks_cov" | Chol => "shocks_chol" end.
Lemma shock_category_is_shock : forall k (p : param), String.eqb (p_category p) (po_category_name k) = true -> is_shock p = true.
Proof.
  intros k p E. apply String.eqb_eq in E. unfold is_shock. apply existsb_exists. exists (kind_name k).
  split; [destruct k; cbn; auto|]. rewrite E. apply orb_true_iff. left. destruct k; reflexivity.
Qed.
Lemma filter_filter : forall A (f g : A -> bool) l, (forall x, f x = true -> g x = true) -> filter f (filter g l) = filter f l.
Proof.
  intros A f g l H. induction l as [|x r IH]; [reflexivity|]. cbn [filter]. destruct (g x) eqn:G.
  - cbn [filter]. rewrite IH. reflexivity.
  - rewrite IH. destruct (f x) eqn:F; [|reflexivity]. rewrite (H x F) in G. discriminate.
Qed.
Lemma shock_values_filter : forall k params params', filter is_shock params = filter is_shock params' ->
  shock_values k params = shock_values k params'.
Proof.
  intros k params params' E. unfold shock_values. f_equal.
  change (filter (fun p => String.eqb (p_category p) (po_category_name k)) params =
          filter (fun p => String.eqb (p_category p) (po_category_name k)) params').
  rewrite <- (filter_filter _ _ is_shock params (shock_category_is_shock k)), E.
  apply filter_filter. apply shock_category_is_shock.
Qed.

Lemma lags_perm : forall covs covs', Permutation covs covs' -> number_of_lags covs = number_of_lags covs'.
Proof. intros covs covs' P. unfold number_of_lags. apply po_list_max, Permutation_map, Permutation_flat_map, P. Qed.

Lemma parse_parameters_perm : forall n covs covs' params params', Permutation covs covs' -> Permutation params params' -> NoDup (map fst params) -> nonzero_sums params ->
  filter is_shock params = filter is_shock params' ->
  same_result same_parameters (parse_parameters n covs params) (parse_parameters n covs' params').
Proof.
  intros n covs covs' params params' PC P N NZ S. unfold parse_parameters.
  eapply same_bind.
  { apply same_eq. unfold parse_discounting. rewrite !(fun c n => param_value_perm _ _ c n P N). reflexivity. }
  intros d d' D. eapply same_bind; [apply parse_variables_perm; [exact P|constructor|exact NZ]|].
  intros e e' E. eapply same_bind.
  { eapply same_bind; [apply parse_variables_perm; [exact P|constructor|exact NZ]|]. intros o o' O. apply merge_perm; [exact E|exact O]. }
  intros o o' O.
  assert (C : parse_choices (map fst params) covs = parse_choices (map fst params') covs').
  { apply parse_choices_ext; [|apply po_in, PC]. apply po_in, Permutation_map, P. }
  rewrite <- C. set (pc := parse_choices (map fst params) covs). cbv zeta.
  eapply same_bind; [apply same_all; intros c _; apply parse_experience_perm; [exact P|exact N|exact NZ]|].
  intros x x' X. eapply same_bind; [apply same_eq, shocks_kind_perm, po_categories, P|].
  intros k k' K. eapply same_bind; [apply same_eq, meas_perm; [exact P|exact N]|].
  intros m m' M. eapply same_bind; [apply types_perm; [exact P|exact NZ]|].
  intros t t' T. eapply same_bind.
  { unfold parse_lagged_choices. rewrite <- (lags_perm _ _ PC). apply same_all. intros j _. apply lag_perm; [exact P|exact NZ]. }
  intros l l' L. subst d' k' m'. cbn. constructor; cbn; auto.
  - apply rewards_perm, P.
  - f_equal. apply shock_values_filter, S.
Qed.

Lemma validate_shocks_perm : forall choices params params', Permutation params params' ->
  filter is_shock params = filter is_shock params' -> validate_shocks choices params = validate_shocks choices params'.
Proof.
  intros choices params params' P S. unfold validate_shocks. rewrite <- S.
  rewrite !(fun k => po_mem ("shocks_" ++ k)%string _ _ (po_categories _ _ P)). reflexivity.
Qed.

Lemma process_perm : forall n covs covs' params params', Permutation covs covs' -> Permutation params params' -> NoDup (map fst params) -> nonzero_sums params ->
  filter is_shock params = filter is_shock params' ->
  same_result same_parameters (process_parameters n covs params) (process_parameters n covs' params').
Proof.
  intros n covs covs' params params' PC P N NZ S. unfold process_parameters.
  eapply same_bind; [apply parse_parameters_perm; [exact PC|exact P|exact N|exact NZ|exact S]|].
  intros m m' M. rewrite <- (sp_choices _ _ M), <- (validate_shocks_perm _ _ _ P S).
  destruct (validate_shocks _ params); cbn; auto.
Qed.

(** ** The order of shocks is checked *)

Lemma same_names_same_list : forall (l l' : list param), Permutation l l' -> NoDup (map p_name l) ->
  map p_name l = map p_name l' -> l = l'.
Proof.
  intros l l' P N E. assert (U : forall x y, In x l -> In y l -> p_name x = p_name y -> x = y).
  { clear - N. intros x y X Y E. induction l as [|z l IH]; [destruct X|]. cbn [map] in N. inversion N as [|? ? NI N']; subst.
    destruct X as [X|X], Y as [Y|Y]; subst; auto.
    - exfalso. apply NI. rewrite E. apply in_map, Y.
    - exfalso. apply NI. rewrite <- E. apply in_map, X. }
  assert (I : forall x, In x l' -> In x l) by (intros x; apply (po_in _ _ _ P)).
  clear P N. revert l' E I. induction l as [|x l IH]; intros [|y l'] E I; try discriminate; [reflexivity|].
  cbn [map] in E. inversion E as [[E1 E2]].
  assert (x = y) by (apply U; [left; reflexivity | apply I; left; reflexivity | exact E1]). subst y. f_equal.
  assert (U' : forall a b, In a (x :: l) -> In b l' -> p_name a = p_name b -> a = b).
  { intros a b A B. apply U; [exact A | apply I; right; exact B]. }
  clear - E2 U'. revert l' E2 U'. induction l as [|a l IH]; intros [|b l'] E U; try discriminate; [reflexivity|].
  cbn [map] in E. inversion E as [[E1 E2]]. f_equal.
  - apply U; [right; left; reflexivity | left; reflexivity | exact E1].
  - apply IH; [exact E2|]. intros c d C D. apply U; [|right; exact D]. destruct C as [C|C]; [left|right; right]; assumption.
Qed.

Lemma shocks_in_order : forall choices choices' params params' k, Permutation params params' -> NoDup (map fst params) ->
  shocks_of_kind params k -> choices = choices' ->
  validate_shocks choices params = Ok tt -> validate_shocks choices' params' = Ok tt ->
  filter is_shock params = filter is_shock params'.
Proof.
  intros choices choices' params params' k P N K <- V V'.
  assert (E : map p_name (filter is_shock params) = map p_name (filter is_shock params')).
  { unfold validate_shocks in V, V'. cbv zeta in V, V'.
    rewrite <- !(fun k => po_mem ("shocks_" ++ k)%string _ _ (po_categories _ _ P)) in V'.
    repeat match type of V with context [if ?b then _ else _] => destruct b; try discriminate V end;
    repeat match type of V' with context [if ?b then _ else _] => destruct b; try discriminate V' end; congruence. }
  apply same_names_same_list; [apply po_filter_perm, P| |exact E].
  assert (CAT : forall p, In p (filter is_shock params) -> p_category p = ("shocks_" ++ kind_name k)%string).
  { intros p I. apply filter_In in I. destruct I as [I S]. unfold is_shock in S. apply existsb_exists in S.
    destruct S as [j [J S]]. destruct K as [_ K].
    assert (KK : exists k', j = kind_name k') by (destruct J as [<-|[<-|[<-|[]]]]; [exists Sdcorr|exists Cov|exists Chol]; reflexivity).
    destruct KK as [k' ->]. apply (K p k' I). apply orb_true_iff in S. rewrite !substring_contains in S. exact S. }
  assert (NF : NoDup (map fst (filter is_shock params))).
  { clear - N. induction params as [|p l IH]; [constructor|]. cbn [map filter] in *. inversion N as [|? ? NI N']; subst.
    destruct (is_shock p); [|auto]. cbn [map]. constructor; [|auto]. intros I. apply NI. apply in_map_iff in I.
    destruct I as [q [E I]]. apply filter_In in I. rewrite <- E. apply in_map, I. }
  clear - CAT NF. induction (filter is_shock params) as [|p l IH]; [constructor|]. cbn [map] in *.
  inversion NF as [|? ? NI NF']; subst. constructor; [|apply IH; [intros q Q; apply CAT; right; exact Q | exact NF']].
  intros I. apply NI. apply in_map_iff in I. destruct I as [q [E Q]]. apply in_map_iff. exists q. split; [|exact Q].
  pose proof (CAT p (or_introl eq_refl)) as A. pose proof (CAT q (or_intror Q)) as B.
  destruct p as [[a b] v], q as [[c d] w]. unfold p_category, p_name in *. cbn in *. congruence.
Qed.

Lemma process_orders : forall n covs covs' params params' k m m', Permutation covs covs' -> Permutation params params' -> NoDup (map fst params) -> nonzero_sums params ->
  shocks_of_kind params k -> process_parameters n covs params = Ok m -> process_parameters n covs' params' = Ok m' ->
  same_parameters m m' /\ filter is_shock params = filter is_shock params'.
Proof.
  intros n covs covs' params params' k m m' PC P N NZ K E E'.
  assert (S : filter is_shock params = filter is_shock params').
  { unfold process_parameters in E, E'.
    destruct (parse_parameters n covs params) as [q| | | | |] eqn:Q; try discriminate. cbn [result_bind] in E.
    destruct (parse_parameters n covs' params') as [q'| | | | |] eqn:Q'; try discriminate. cbn [result_bind] in E'.
    destruct (validate_shocks (pc_choices (mp_choices q)) params) as [[]| | | | |] eqn:V; try discriminate.
    destruct (validate_shocks (pc_choices (mp_choices q')) params') as [[]| | | | |] eqn:V'; try discriminate.
    eapply shocks_in_order; [exact P|exact N|exact K| |exact V|exact V'].
    assert (C : forall covs params q, parse_parameters n covs params = Ok q -> mp_choices q = parse_choices (map fst params) covs).
    { clear. intros covs params q H. unfold parse_parameters in H. cbv zeta in H.
      repeat match type of H with result_bind ?r _ = _ => destruct r; try discriminate H; cbn [result_bind] in H end.
      inversion H. reflexivity. }
    rewrite (C _ _ _ Q), (C _ _ _ Q'). f_equal. apply parse_choices_ext; [|apply po_in, PC]. apply po_in, Permutation_map, P. }
  split; [|exact S]. pose proof (process_perm n covs covs' params params' PC P N NZ S) as R. rewrite E, E' in R. exact R.
Qed.
