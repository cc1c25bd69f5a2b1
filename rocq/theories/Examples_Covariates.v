(** Models used in the examples and refutations about covariates. *)
From Coq Require Import List Arith Bool Lia String Ascii Permutation.
From Verif Require Import Base Proof_Base Model_Strings Proof_Strings Model_Choices Spec_Choices Proof_Regex Proof_Choices
  Model_Covariates Spec_Covariates Proof_Covariates Proof_Separation Proof_Compute Proof_Necessary Proof_Groups.
Import ListNotations.
Open Scope string_scope.

Definition from_one (e : string -> option nat) (x : string) (f : nat -> nat) : result nat :=
  match e x with Some v => Ok (f v) | None => NameError end.
Definition ex_eval (formula : string) (e : string -> option nat) : result nat :=
  if String.eqb formula "x + 1" then from_one e "x" S
  else if String.eqb formula "a * 2" then from_one e "a" (Nat.mul 2)
  else if String.eqb formula "c + 1" then from_one e "c" S
  else if String.eqb formula "d + 1" then from_one e "d" S
  else Ok 0.
Definition ex_defs : list (string * definition) :=
  [("b", ("a * 2", ["a"])); ("a", ("x + 1", ["x"])); ("c", ("d + 1", ["d"])); ("d", ("c + 1", ["c"]))].
Definition ex_frame : frame nat := mkFrame nat [] [("x", 3)].

Lemma ex_complete : dependencies_complete nat ex_eval ex_defs.
Proof.
  split.
  - intros c f deps e1 e2 I H. cbn in I.
    destruct I as [E|[E|[E|[E|[]]]]]; inversion E; subst; unfold ex_eval; cbn; unfold from_one;
      rewrite H by (left; reflexivity); reflexivity.
  - intros c f deps e I H. cbn in I.
    destruct I as [E|[E|[E|[E|[]]]]]; inversion E; subst; unfold ex_eval; cbn; unfold from_one;
      match goal with |- context[e ?x] => destruct (e x) eqn:W; [eauto | exfalso; apply (H x); [left; reflexivity | exact W]] end.
Qed.

Lemma word_of_findall : forall p g s, p <> "" -> all_chars is_word p = true -> g <> "" -> all_chars is_name g = true ->
  (word_of (p ++ g) s <-> In g (findall p is_name s)).
Proof.
  intros p g s P1 P2 G1 G2. rewrite (findall_iff p is_name P1 P2 name_is_word). unfold good. tauto.
Qed.

Lemma own_name_example : exists covs r c f deps,
  separate_covariates covs (core_variables ["edu"] 0) (dense_variables [] 1) = Some (Ok r) /\
  covs = [(c, f)] /\ ~ word_of c f /\ word_of "exp_edu" f /\
  sc_core r = [(c, (f, deps))] /\ In c deps.
Proof.
  exists [("edu", "exp_edu > 9")]. eexists. exists "edu", "exp_edu > 9". eexists.
  split; [vm_compute; reflexivity|]. split; [reflexivity|]. split; [|split; [|split]].
  - change "edu" with ("e" ++ "du"). rewrite (word_of_findall "e" "du"); try discriminate; try reflexivity.
    vm_compute. intros [H|[]]. discriminate.
  - change "exp_edu" with ("e" ++ "xp_edu"). rewrite (word_of_findall "e" "xp_edu"); try discriminate; try reflexivity.
    vm_compute. auto.
  - cbn [sc_core]. reflexivity.
  - cbn. auto.
Qed.

Definition const_eval (formula : string) (e : string -> option nat) : result nat :=
  if String.eqb formula "1" then Ok 1 else from_one e "one" S.
Lemma constant_example : exists covs r c f d,
  separate_covariates covs (core_variables [] 0) (dense_variables [] 1) = Some (Ok r) /\
  In (c, f) covs /\ In d (map fst covs) /\ word_of d f /\
  (forall deps, In (c, (f, deps)) (sc_core r) -> ~ In d deps) /\
  exists (eval : string -> (string -> option nat) -> result nat) defs df df',
    Permutation defs (sc_core r) /\
    compute_covariates nat eval (fun _ => true) false true (sc_core r) df = Some (Ok df') /\
    compute_covariates nat eval (fun _ => true) false true defs df = Some NameError.
Proof.
  exists [("one", "1"); ("two", "one + 1")]. eexists. exists "two", "one + 1", "one".
  split; [vm_compute; reflexivity|]. split; [right; left; reflexivity|]. split; [left; reflexivity|]. split; [|split].
  - change "one" with ("o" ++ "ne") at 1. rewrite (word_of_findall "o" "ne"); try discriminate; try reflexivity.
    vm_compute. auto.
  - intros deps I. cbn in I. destruct I as [E|[E|[]]]; inversion E; subst. intros [].
  - exists const_eval. eexists. exists (mkFrame nat [] [("period", 5)]). eexists.
    split; [cbn [sc_core]; apply perm_swap|]. vm_compute. auto.
Qed.

Lemma recorded : forall covs core dense r c f d,
  NoDup (map fst covs) -> NoDup core -> NoDup dense -> (forall x, In x core -> ~ In x dense) ->
  separate_covariates covs core dense = Some (Ok r) -> In (c, f) covs -> word_of d f ->
  built_from covs core d \/ built_from covs dense d ->
  exists deps, In (c, (f, deps)) (sc_all r) /\ In d deps.
Proof.
  intros covs core dense r c f d N NC ND DIS E I [a [b [W _]]] B.
  destruct (separate_ok covs core dense N NC ND DIS) as [r' [E' [_ [_ [_ [A [_ [_ [_ D]]]]]]]]].
  rewrite E in E'. inversion E'; subst r'.
  assert (C : In c (map fst (sc_all r))) by (rewrite A; apply in_map_iff; exists (c, f); auto).
  apply in_map_iff in C. destruct C as [[c' [f' deps]] [Ec C]]. cbn in Ec. subst c'.
  destruct (D c f' deps) as [I' DD]; [rewrite !in_app_iff; auto|].
  assert (f' = f).
  { pose proof (formula_of_In covs c f N I). pose proof (formula_of_In covs c f' N I'). congruence. }
  subst f'. exists deps. split; [exact C|]. apply DD. split; [exact B|]. exists a, b. exact W.
Qed.

Lemma self_reference : forall definitions order,
  (forall l x, In x (order l) <-> In x l) ->
  forall c, In c (dependencies definitions c) ->
  forall fuel requested r, In c requested ->
  identify_necessary_covariates definitions order fuel requested <> Some (Ok r).
Proof.
  intros definitions order ORD c C fuel requested r R. unfold identify_necessary_covariates.
  apply (cycle_never definitions order ORD c C). apply In_set_union. right. exact R.
Qed.
