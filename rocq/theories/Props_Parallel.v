(** Property theorems: distribution of work over dense keys. *)
From Coq Require Import List Arith Bool Lia Permutation Sorted.
From Verif Require Import Base Proof_Base Model_Parallel Spec_Parallel Proof_Parallel.
Import ListNotations.

(** ** C41 *)
Theorem C41_each_key_gets_its_arguments :
  forall A R order (func : list (pyval A) -> list (nat * pyval A) -> ret R)
    args kwargs bypass f,
  iteration_order order -> (forall v, In v (args ++ map snd kwargs) -> wf_dictionary v) ->
  no_mixed_dictionary args kwargs ->
  (forall a kw, func a kw = RVal (f a kw)) ->
  some_dense_dictionary args kwargs -> (exists k, shared_key args kwargs k) ->
  exists d, distribute order func args kwargs bypass = Ok (WDict d) /\
    NoDup (map fst d) /\
    forall k r, In (k, r) d <->
      shared_key args kwargs k /\
      exists args' kwargs', Forall2 (for_key k) args args' /\
        Forall2 (fun x y => fst y = fst x /\ for_key k (snd x) (snd y)) kwargs kwargs' /\
        r = f args' (kwargs' ++ bypass).
Proof. exact distribute_correct. Qed.
Print Assumptions C41_each_key_gets_its_arguments.

(** Functions returning a tuple: one dictionary per component. *)
Theorem C41_several_return_values :
  forall A R order (func : list (pyval A) -> list (nat * pyval A) -> ret R)
    args kwargs bypass n f,
  iteration_order order -> (forall v, In v (args ++ map snd kwargs) -> wf_dictionary v) ->
  no_mixed_dictionary args kwargs ->
  (forall a kw, func a kw = RTuple (map (fun i => f i a kw) (seq 0 n))) ->
  some_dense_dictionary args kwargs -> (exists k, shared_key args kwargs k) ->
  exists ds, distribute order func args kwargs bypass = Ok (WTuple ds) /\ length ds = n /\
    forall i d, nth_error ds i = Some d ->
    NoDup (map fst d) /\
    forall k r, In (k, r) d <->
      shared_key args kwargs k /\
      exists args' kwargs', Forall2 (for_key k) args args' /\
        Forall2 (fun x y => fst y = fst x /\ for_key k (snd x) (snd y)) kwargs kwargs' /\
        r = f i args' (kwargs' ++ bypass).
Proof. exact distribute_correct_tuple. Qed.
Print Assumptions C41_several_return_values.

Theorem C41_order_is_irrelevant :
  forall A R order order' (func : list (pyval A) -> list (nat * pyval A) -> ret R)
    args kwargs bypass f,
  iteration_order order -> iteration_order order' ->
  (forall v, In v (args ++ map snd kwargs) -> wf_dictionary v) ->
  no_mixed_dictionary args kwargs ->
  (forall a kw, func a kw = RVal (f a kw)) ->
  some_dense_dictionary args kwargs -> (exists k, shared_key args kwargs k) ->
  exists d d', distribute order func args kwargs bypass = Ok (WDict d) /\
    distribute order' func args kwargs bypass = Ok (WDict d') /\ Permutation d d'.
Proof. exact distribute_order. Qed.
Print Assumptions C41_order_is_irrelevant.

(** Without a common key (or without any dense dictionary) the function is called once
    with the complete arguments. *)
Theorem C41_no_common_key :
  forall A R order (func : list (pyval A) -> list (nat * pyval A) -> ret R)
    args kwargs bypass, iteration_order order ->
  ~ (some_dense_dictionary args kwargs /\ exists k, shared_key args kwargs k) ->
  distribute order func args kwargs bypass = Ok (WPlain (func args (kwargs ++ bypass))).
Proof. exact distribute_without_keys. Qed.
Print Assumptions C41_no_common_key.

(** A dictionary which also has other keys is not inspected for dense keys but, if it has
    all of them, its entries are passed instead of the dictionary. *)
Theorem C41_mixed_dictionary_refuted :
  exists (v : pyval nat) x, ~ dense_dictionary v /\
    distribute (fun l => l) (fun args _ => RVal args) [PDict [(KInt 0, PAtom 1)]; v] [] []
    = Ok (WDict [(0, [PAtom 1; x])]) /\ x <> v.
Proof.
  exists (PDict [(KInt 0, PAtom 2); (KOther 0, PAtom 3)]), (PAtom 2).
  split; [|split; [reflexivity|discriminate]].
  intros [_ H]. destruct (H (KOther 0) (PAtom 3)) as [n E]; [simpl; auto|discriminate].
Qed.
Print Assumptions C41_mixed_dictionary_refuted.

Example C41_example :
  (forall v, In v ([ex_states; PAtom 5] ++ map snd [(0, ex_values); (1, ex_options)]) -> wf_dictionary v) /\
  no_mixed_dictionary [ex_states; PAtom 5] [(0, ex_values); (1, ex_options)] /\
  some_dense_dictionary [ex_states; PAtom 5] [(0, ex_values); (1, ex_options)] /\
  shared_key [ex_states; PAtom 5] [(0, ex_values); (1, ex_options)] 3.
Proof. exact ex_parallel_hyps. Qed.
(** The keys shared by both dictionaries are 3 and 1; the dictionary of options is passed
    through as it is. *)
Example C41_example_value :
  distribute (@rev nat) ex_func [ex_states; PAtom 5] [(0, ex_values); (1, ex_options)] []
  = Ok (WDict [(1, 1115); (3, 1335)]).
Proof. reflexivity. Qed.
Example C41_example_no_common_key :
  ~ (some_dense_dictionary [ex_states; PDict [(KInt 9, PAtom 0)]] [] /\
     exists k, shared_key [ex_states; PDict [(KInt 9, PAtom 0)]] [] k).
Proof.
  intros [_ [k H]].
  assert (H1 : has_key ex_states k).
  { apply H; [simpl; auto|]. split; [discriminate|]. intros k0 x Hin. simpl in Hin.
    repeat destruct Hin as [Hin|Hin]; try contradiction; injection Hin as <- _; eauto. }
  assert (H2 : has_key (PDict [(KInt 9, PAtom 0)]) k).
  { apply H; [simpl; auto|]. split; [discriminate|]. intros k0 x Hin. simpl in Hin.
    destruct Hin as [Hin|[]]. injection Hin as <- _. eauto. }
  destruct H2 as [x [E|[]]]. injection E as <- _. destruct H1 as [y Hy]. simpl in Hy.
  intuition discriminate.
Qed.

(** ** C42 *)
(** If all dense dictionaries cover the keys of the data: each row is transformed exactly
    once, in the original order. *)
Theorem C42_each_row_exactly_once :
  forall V A B (inj : frame A -> V) (key : A -> nat) order func df
    args kwargs bypass (g : list (pyval V) -> list (nat * pyval V) -> A -> index -> B),
  iteration_order order ->
  (forall v, In v (args ++ map snd kwargs) -> wf_dictionary v) ->
  no_mixed_dictionary args kwargs ->
  (forall gdf rest kw, func (PAtom (inj gdf) :: rest) kw =
     RVal (map (fun r => (fst r, g rest kw (snd r) (fst r))) gdf)) ->
  (forall a kw, exists r, func a kw = RVal r) ->
  ordered_frame df -> df <> [] ->
  (forall r, In r df -> shared_key args kwargs (key (snd r))) ->
  exists h,
    split_and_combine inj key order func df args kwargs bypass
    = Ok (map (fun r => (fst r, h (snd r) (fst r))) df) /\
    (forall r, In r df -> exists args' kwargs',
       Forall2 (for_key (key (snd r))) args args' /\
       Forall2 (fun x y => fst y = fst x /\ for_key (key (snd r)) (snd x) (snd y)) kwargs kwargs' /\
       h (snd r) (fst r) = g args' (kwargs' ++ bypass) (snd r) (fst r)).
Proof. exact split_and_combine_all. Qed.
Print Assumptions C42_each_row_exactly_once.

(** In general exactly the rows whose key is covered by all dense dictionaries are kept. *)
Theorem C42_uncovered_rows_are_dropped :
  forall V A B (inj : frame A -> V) (key : A -> nat) order func df
    args kwargs bypass (g : list (pyval V) -> list (nat * pyval V) -> A -> index -> B),
  iteration_order order ->
  (forall v, In v (args ++ map snd kwargs) -> wf_dictionary v) ->
  no_mixed_dictionary args kwargs ->
  (forall gdf rest kw, func (PAtom (inj gdf) :: rest) kw =
     RVal (map (fun r => (fst r, g rest kw (snd r) (fst r))) gdf)) ->
  (forall a kw, exists r, func a kw = RVal r) ->
  ordered_frame df ->
  (exists r, In r df /\ shared_key args kwargs (key (snd r))) ->
  exists h covered,
    split_and_combine inj key order func df args kwargs bypass
    = Ok (map (fun r => (fst r, h (snd r) (fst r))) (filter covered df)) /\
    (forall r, In r df -> (covered r = true <-> shared_key args kwargs (key (snd r)))) /\
    (forall r, In r df -> covered r = true -> exists args' kwargs',
       Forall2 (for_key (key (snd r))) args args' /\
       Forall2 (fun x y => fst y = fst x /\ for_key (key (snd r)) (snd x) (snd y)) kwargs kwargs' /\
       h (snd r) (fst r) = g args' (kwargs' ++ bypass) (snd r) (fst r)).
Proof. exact split_and_combine_rows. Qed.
Print Assumptions C42_uncovered_rows_are_dropped.

Example C42_example :
  ordered_frame ex_frame /\
  (forall r, In r ex_frame -> shared_key [ex_arg] [] (snd r)) /\
  split_and_combine ex_inj (fun k => k) (@rev nat) ex_rowfun ex_frame [ex_arg] [] []
  = Ok [((0, 0), 404); ((1, 0), 202); ((2, 0), 404)].
Proof.
  split; [|split; [|reflexivity]].
  - unfold ordered_frame, ex_frame, index_lt. simpl. repeat constructor; simpl; lia.
  - intros r Hr v Hv Hd. simpl in Hv. destruct Hv as [<-|[]]. simpl in Hr.
    repeat destruct Hr as [<-|Hr]; try contradiction; simpl; eauto 6.
Qed.
Example C42_example_dropped :
  split_and_combine ex_inj (fun k => k) (fun l => l) ex_rowfun ex_frame
    [PDict [(KInt 4, PAtom (inr 1))]] [] [] = Ok [((0, 0), 5); ((2, 0), 5)].
Proof. reflexivity. Qed.
