(** Proofs about seeds, validation of options and the cache directory. *)
From Coq Require Import List Arith Bool Lia ZArith String Ascii Reals Lra Permutation.
From Verif Require Import Base Proof_Base Model_Strings Proof_Strings Model_Options Spec_Options.
Import ListNotations.
Open Scope string_scope.

(** ** Seeds *)

Definition start_of (o : seed_options) (s : stream) : option Z :=
  match snd s with
  | Startup => option_map (component (fst s)) (so_startup o)
  | Iteration => option_map (component (fst s)) (so_iteration o)
  end.

Lemma next_seed_spec : forall s o x, start_of o s = Some x ->
  exists o', next_seed s o = Ok (x, o') /\ so_user o' = so_user o /\
             start_of o' s = Some (x + 1)%Z /\
             forall t, t <> s -> start_of o' t = start_of o t.
Proof.
  intros [p k] o x H. unfold next_seed, start_of in *. cbn [fst snd] in *.
  destruct k.
  - destruct (so_startup o) as [t|] eqn:E; [|discriminate]. cbn in H. inversion H; subst.
    eexists. split; [reflexivity|]. cbn. split; [reflexivity|]. split.
    + destruct p; reflexivity.
    + intros [q [|]] N; cbn; [|reflexivity]. destruct p, q; try reflexivity; congruence.
  - destruct (so_iteration o) as [t|] eqn:E; [|discriminate]. cbn in H. inversion H; subst.
    eexists. split; [reflexivity|]. cbn. split; [reflexivity|]. split.
    + destruct p; reflexivity.
    + intros [q [|]] N; cbn; [reflexivity|]. destruct p, q; try reflexivity; congruence.
Qed.

(** The seeds a program takes are, for every use, the start of the sequence plus the number
    of earlier uses of it. *)
Fixpoint seeds_of (start : stream -> Z) (uses : list stream) : list Z :=
  match uses with
  | [] => []
  | s :: r => start s :: seeds_of (fun t => if stream_eq_dec t s then (start t + 1)%Z else start t) r
  end.

Lemma seeds_of_ext : forall uses f g, (forall t, f t = g t) -> seeds_of f uses = seeds_of g uses.
Proof.
  induction uses as [|s r IH]; intros f g E; cbn; [reflexivity|]. rewrite E. f_equal.
  apply IH. intros t. destruct (stream_eq_dec t s); rewrite E; reflexivity.
Qed.

Lemma take_seeds_spec : forall uses o start,
  (forall s, start_of o s = Some (start s)) ->
  exists o', take_seeds uses o = Ok (seeds_of start uses, o') /\ so_user o' = so_user o.
Proof.
  induction uses as [|s r IH]; intros o start H.
  - exists o. split; reflexivity.
  - destruct (next_seed_spec s o (start s) (H s)) as [o' [E [U [S N]]]].
    destruct (IH o' (fun t => if stream_eq_dec t s then (start t + 1)%Z else start t)) as [o'' [E' U']].
    { intros t. destruct (stream_eq_dec t s) as [->|D]; [exact S | rewrite N by exact D; apply H]. }
    exists o''. cbn. rewrite E. cbn. rewrite E'. cbn. split; [reflexivity | congruence].
Qed.

(** Every seed belongs to the block of its sequence. *)
Lemma in_seeds_of : forall uses start z, In z (seeds_of start uses) ->
  exists s, (start s <= z < start s + Z.of_nat (count_occ stream_eq_dec uses s))%Z.
Proof.
  induction uses as [|s r IH]; intros start z H; cbn in H; [contradiction|].
  destruct H as [<-|H].
  - exists s. rewrite count_occ_cons_eq by reflexivity. lia.
  - destruct (IH _ _ H) as [t T]. exists t. cbn beta in T.
    destruct (stream_eq_dec t s) as [->|D].
    + rewrite count_occ_cons_eq by reflexivity. lia.
    + rewrite count_occ_cons_neq by congruence. lia.
Qed.

Lemma count_cons_same : forall s r,
  count_occ stream_eq_dec (s :: r) s = S (count_occ stream_eq_dec r s).
Proof. intros. apply count_occ_cons_eq. reflexivity. Qed.

Lemma count_cons_other : forall s t r, t <> s ->
  count_occ stream_eq_dec (s :: r) t = count_occ stream_eq_dec r t.
Proof. intros. apply count_occ_cons_neq. congruence. Qed.

Lemma NoDup_seeds_of : forall uses start,
  (forall s t, s <> t -> (start s + Z.of_nat (count_occ stream_eq_dec uses s) <= start t)%Z \/
                         (start t + Z.of_nat (count_occ stream_eq_dec uses t) <= start s)%Z) ->
  NoDup (seeds_of start uses).
Proof.
  induction uses as [|s r IH]; intros start H; cbn [seeds_of]; [constructor|].
  set (next := fun t => if stream_eq_dec t s then (start t + 1)%Z else start t).
  constructor.
  - intros I. apply in_seeds_of in I. destruct I as [t T]. unfold next in T.
    destruct (stream_eq_dec t s) as [->|D]; [lia|].
    specialize (H s t ltac:(congruence)).
    rewrite count_cons_same, (count_cons_other s t) in H by exact D. lia.
  - apply IH. intros t u D. specialize (H t u D). unfold next.
    destruct (stream_eq_dec t s) as [->|Dt]; destruct (stream_eq_dec u s) as [->|Du]; try congruence.
    + rewrite count_cons_same, (count_cons_other s u) in H by exact Du. lia.
    + rewrite count_cons_same, (count_cons_other s t) in H by exact Dt. lia.
    + rewrite (count_cons_other s t), (count_cons_other s u) in H by assumption. lia.
Qed.

Definition starts (sa sb sc : Z) (s : stream) : Z :=
  (component (fst s) (sa, sb, sc) + match snd s with Startup => 0 | Iteration => 1000000 end)%Z.

Lemma create_spec : forall randint o a b c, so_user o = (a, b, c) ->
  seed_ok a -> seed_ok b -> seed_ok c -> draws_in_range randint ->
  exists o' w sa sb sc, create_internal_seeds randint o = Ok (o', w) /\ so_user o' = (a, b, c) /\
    (1000000 <= sa < 2000000)%Z /\ (4000000 <= sb < 5000000)%Z /\ (7000000 <= sc < 8000000)%Z /\
    (w = true <-> (a = b \/ a = c \/ b = c)) /\
    forall s, start_of o' s = Some (starts sa sb sc s).
Proof.
  intros randint o a b c U [A1 A2] [B1 B2] [C1 C2] R. unfold create_internal_seeds. rewrite U.
  destruct (Z.ltb_spec a 0); [lia|]. destruct (Z.ltb_spec b 0); [lia|].
  destruct (Z.ltb_spec c 0); [lia|]. cbn [orb]. unfold seeded_randint.
  assert (O : forall s, (0 <= s < 2 ^ 32)%Z -> (Z.leb 0 s && Z.ltb s (2 ^ 32))%bool = true).
  { intros s Hs. apply andb_true_iff. split; [apply Z.leb_le | apply Z.ltb_lt]; lia. }
  rewrite !O by lia. cbn [result_bind].
  eexists _, _, (randint a 1000000 2000000)%Z, (randint b 4000000 5000000)%Z,
    (randint c 7000000 8000000)%Z.
  split; [reflexivity|]. split; [reflexivity|].
  split; [apply R; lia|]. split; [apply R; lia|]. split; [apply R; lia|]. split.
  - rewrite !orb_true_iff, !Z.eqb_eq. tauto.
  - intros [[| |] [|]]; unfold start_of, starts, seed_startup_iteration_gap;
      cbn -[Z.add]; rewrite ?Z.add_0_r; reflexivity.
Qed.

Lemma streams_disjoint : forall randint o a b c uses, so_user o = (a, b, c) ->
  seed_ok a -> seed_ok b -> seed_ok c -> draws_in_range randint ->
  (forall s, (Z.of_nat (count_occ stream_eq_dec uses s) <= 1000000)%Z) ->
  exists o' w seeds o'', create_internal_seeds randint o = Ok (o', w) /\
    take_seeds uses o' = Ok (seeds, o'') /\ List.length seeds = List.length uses /\ NoDup seeds.
Proof.
  intros randint o a b c uses U A B C R N.
  destruct (create_spec randint o a b c U A B C R)
    as [o' [w [sa [sb [sc [E [_ [SA [SB [SC [_ S]]]]]]]]]]].
  destruct (take_seeds_spec uses o' _ S) as [o'' [T _]].
  exists o', w, (seeds_of (starts sa sb sc) uses), o''.
  split; [exact E|]. split; [exact T|]. split.
  - clear. generalize (starts sa sb sc). induction uses as [|s r IH]; intros f; cbn;
      [reflexivity | rewrite IH; reflexivity].
  - apply NoDup_seeds_of. intros s t D. pose proof (N s) as Ns. pose proof (N t) as Nt.
    revert Ns Nt. generalize (count_occ stream_eq_dec uses s), (count_occ stream_eq_dec uses t).
    intros n m Ns Nt. unfold starts. destruct s as [[| |] [|]], t as [[| |] [|]];
      cbn [component fst snd]; try congruence; lia.
Qed.

Lemma seeds_restart : forall randint o uses o1 w seeds o2,
  create_internal_seeds randint o = Ok (o1, w) ->
  take_seeds uses o1 = Ok (seeds, o2) ->
  create_internal_seeds randint o2 = Ok (o1, w).
Proof.
  intros randint o uses o1 w seeds o2 C T.
  assert (U1 : so_user o1 = so_user o).
  { unfold create_internal_seeds in C. destruct (so_user o) as [[a b] c].
    destruct (Z.ltb a 0 || Z.ltb b 0 || Z.ltb c 0)%bool; [discriminate|].
    unfold seeded_randint in C.
    destruct (Z.leb 0 a && Z.ltb a (2 ^ 32))%bool; [|discriminate].
    destruct (Z.leb 0 b && Z.ltb b (2 ^ 32))%bool; [|discriminate].
    destruct (Z.leb 0 c && Z.ltb c (2 ^ 32))%bool; [|discriminate].
    cbn [result_bind] in C. inversion C; subst. reflexivity. }
  assert (U2 : so_user o2 = so_user o1).
  { clear C U1. revert o1 seeds o2 T. induction uses as [|s r IH]; intros o1 seeds o2 T; cbn in T.
    - inversion T; reflexivity.
    - unfold next_seed in T. destruct (snd s).
      + destruct (so_startup o1); [|discriminate]. cbn in T.
        destruct (take_seeds r _) as [[z o']| | | | |] eqn:E in T; try discriminate.
        cbn in T. inversion T; subst. apply IH in E. exact E.
      + destruct (so_iteration o1); [|discriminate]. cbn in T.
        destruct (take_seeds r _) as [[z o']| | | | |] eqn:E in T; try discriminate.
        cbn in T. inversion T; subst. apply IH in E. exact E. }
  rewrite <- C. unfold create_internal_seeds. rewrite U2, U1. reflexivity.
Qed.

Lemma seeds_rejected : forall randint a b c, 
  (exists r, create_internal_seeds randint (unprocessed a b c) = Ok r) <->
  (seed_ok a /\ seed_ok b /\ seed_ok c).
Proof.
  intros randint a b c. unfold create_internal_seeds, unprocessed, seed_ok, seeded_randint. cbn [so_user].
  destruct (Z.ltb_spec a 0); cbn [orb]; [split; [intros [r H0]; discriminate | lia]|].
  destruct (Z.ltb_spec b 0); cbn [orb]; [split; [intros [r H1]; discriminate | lia]|].
  destruct (Z.ltb_spec c 0); cbn [orb]; [split; [intros [r H2]; discriminate | lia]|].
  assert (L : forall s, (0 <= s)%Z -> Z.leb 0 s = true) by (intros; apply Z.leb_le; assumption).
  rewrite !L by assumption. cbn [andb].
  destruct (Z.ltb_spec a (2 ^ 32)); cbn [result_bind];
    [|split; [intros [r K]; discriminate | lia]].
  destruct (Z.ltb_spec b (2 ^ 32)); cbn [result_bind];
    [|split; [intros [r K]; discriminate | lia]].
  destruct (Z.ltb_spec c (2 ^ 32)); cbn [result_bind];
    [|split; [intros [r K]; discriminate | lia]].
  split; [lia | intros _; eexists; reflexivity].
Qed.

(** After a million start-up seeds the iteration seeds follow. *)
Lemma seeds_of_repeat : forall n start s r,
  seeds_of start (repeat s n ++ r) =
  (map (fun i => start s + Z.of_nat i)%Z (seq 0 n) ++
  seeds_of (fun t => if stream_eq_dec t s then (start t + Z.of_nat n)%Z else start t) r)%list.
Proof.
  induction n as [|n IH]; intros start s r.
  - cbn [repeat app seq map]. apply seeds_of_ext. intros t.
    destruct (stream_eq_dec t s); [rewrite Z.add_0_r|]; reflexivity.
  - cbn [repeat app seeds_of seq map]. rewrite IH, Z.add_0_r. f_equal. f_equal.
    + rewrite <- seq_shift, map_map. apply map_ext. intros i.
      destruct (stream_eq_dec s s); [|congruence]. lia.
    + apply seeds_of_ext. intros t. destruct (stream_eq_dec t s); [|reflexivity]. lia.
Qed.

Lemma streams_overlap : forall randint a b c, draws_in_range randint ->
  seed_ok a -> seed_ok b -> seed_ok c ->
  exists uses o' w seeds o'',
    (forall s, (Z.of_nat (count_occ stream_eq_dec uses s) <= 1000001)%Z) /\
    create_internal_seeds randint (unprocessed a b c) = Ok (o', w) /\
    take_seeds uses o' = Ok (seeds, o'') /\ ~ NoDup seeds.
Proof.
  intros randint a b c R A B C.
  destruct (create_spec randint (unprocessed a b c) a b c eq_refl A B C R)
    as [o' [w [sa [sb [sc [E [_ [_ [_ [_ [_ S]]]]]]]]]]].
  remember (Z.to_nat 1000001) as n eqn:En.
  assert (Hn : Z.of_nat n = 1000001%Z) by (subst n; apply Z2Nat.id; lia).
  clear En.
  set (uses := (repeat (Solution, Startup) n ++ [(Solution, Iteration)])%list).
  destruct (take_seeds_spec uses o' _ S) as [o'' [T _]].
  exists uses, o', w, (seeds_of (starts sa sb sc) uses), o''.
  split.
  { intros s. unfold uses. rewrite count_occ_app.
    destruct (stream_eq_dec s (Solution, Startup)) as [->|D].
    - rewrite count_occ_repeat_eq by reflexivity. cbn [count_occ].
      destruct (stream_eq_dec (Solution, Iteration) (Solution, Startup)) as [D|D]; [discriminate D|]. lia.
    - rewrite count_occ_repeat_neq by congruence. cbn [count_occ].
      destruct (stream_eq_dec (Solution, Iteration) s); lia. }
  split; [exact E|]. split; [exact T|].
  unfold uses. rewrite seeds_of_repeat. intros N.
  cbn [seeds_of] in N.
  destruct (stream_eq_dec (Solution, Iteration) (Solution, Startup)) as [D|D]; [discriminate D|].
  apply NoDup_remove_2 in N. apply N. rewrite app_nil_r. apply in_map_iff.
  exists (Z.to_nat 1000000). split.
  - rewrite Z2Nat.id by lia. unfold starts. cbn [component fst snd]. lia.
  - apply in_seq. split; [lia|]. apply Nat2Z.inj_lt. rewrite Nat2Z.inj_add, Z2Nat.id by lia. lia.
Qed.

(** ** Validation *)

Lemma option_of_ok : forall o name v, option_of o name = Ok v <-> dict_get string_dec name o = Some v.
Proof.
  intros. unfold option_of. destruct (dict_get string_dec name o); split; intros H; inversion H; reflexivity.
Qed.

Lemma bind_ok : forall A B (m : result A) (f : A -> result B) b,
  result_bind m f = Ok b <-> exists a, m = Ok a /\ f a = Ok b.
Proof.
  intros A B m f b. destruct m; cbn; split; intros H; try discriminate;
    try (destruct H as [x [E _]]; discriminate).
  - eexists; split; [reflexivity | exact H].
  - destruct H as [x [E H]]. inversion E; subst. exact H.
Qed.

Lemma assert_ok : forall b u, assert_ b = Ok u <-> b = true.
Proof. intros [|] []; cbn; split; intros H; try discriminate; reflexivity. Qed.

(** [option_of] followed by an assertion. *)
Lemma checked : forall A o name (test : value -> bool) (P : value -> Prop) (rest : result A) a,
  (forall v, test v = true <-> P v) ->
  result_bind (option_of o name) (fun v => result_bind (assert_ (test v)) (fun _ => rest)) = Ok a <->
  option_with o name P /\ rest = Ok a.
Proof.
  intros A o name test P rest a T. rewrite bind_ok. split.
  - intros [v [E H]]. apply bind_ok in H. destruct H as [u [H1 H2]].
    apply assert_ok in H1. split; [|exact H2]. exists v. apply option_of_ok in E.
    split; [exact E | apply T; exact H1].
  - intros [[v [E Pv]] R]. exists v. split; [apply option_of_ok; exact E|].
    apply bind_ok. exists tt. split; [apply assert_ok, T; exact Pv | exact R].
Qed.

Lemma positive_integer_iff : forall v, is_positive_nonzero_integer v = true <-> positive_integer v.
Proof.
  intros v. unfold positive_integer. destruct v; cbn; split; intros H; try discriminate;
    try (destruct H as [x [E _]]; discriminate).
  - exists z. apply Z.ltb_lt in H. auto.
  - destruct H as [x [E H]]. inversion E; subst. apply Z.ltb_lt. exact H.
Qed.

Lemma nonnegative_integer_iff : forall v, is_nonnegative_integer v = true <-> nonnegative_integer v.
Proof.
  intros v. unfold nonnegative_integer. destruct v; cbn; split; intros H; try discriminate;
    try (destruct H as [x [E _]]; discriminate).
  - exists z. apply Z.leb_le in H. auto.
  - destruct H as [x [E H]]. inversion E; subst. apply Z.leb_le. exact H.
Qed.

Lemma positive_number_iff : forall v, result_bind (is_positive v) assert_ = Ok tt <-> positive_number v.
Proof.
  intros v. unfold positive_number, positive_integer. destruct v; cbn; split; intros H; try discriminate;
    try (destruct H as [[x [E _]]|[x [E _]]]; discriminate).
  - left. exists z. destruct (Z.ltb_spec 0 z); [auto | discriminate].
  - destruct H as [[x [E H]]|[x [E _]]]; [|discriminate]. inversion E; subst.
    destruct (Z.ltb_spec 0 x); [reflexivity | lia].
  - right. exists r. destruct (Rlt_dec 0 r); [auto | discriminate].
  - destruct H as [[x [E _]]|[x [E H]]]; [discriminate|]. inversion E; subst.
    destruct (Rlt_dec 0 x); [reflexivity | contradiction].
Qed.

Lemma points_iff : forall v, (is_positive_nonzero_integer v || is_minus_one v)%bool = true <->
  (positive_integer v \/ v = VInt (-1) \/ v = VFloat (-1)).
Proof.
  intros v. rewrite orb_true_iff, positive_integer_iff.
  assert (M : is_minus_one v = true <-> (v = VInt (-1) \/ v = VFloat (-1))).
  { destruct v; cbn; split; intros H; try discriminate;
      try (destruct H as [H|H]; discriminate).
    - left. apply Z.eqb_eq in H. subst. reflexivity.
    - destruct H as [H|H]; inversion H. reflexivity.
    - right. destruct (Req_EM_T r (-1)) as [->|]; [reflexivity | discriminate].
    - destruct H as [H|H]; inversion H. destruct (Req_EM_T (-1) (-1)); [reflexivity | congruence]. }
  rewrite M. reflexivity.
Qed.

Lemma all_strings : forall l, forallb is_str l = true <-> exists ss, l = map VStr ss.
Proof.
  induction l as [|v l IH]; cbn [forallb].
  - split; [exists []; reflexivity | reflexivity].
  - rewrite andb_true_iff, IH. split.
    + intros [S [ss ->]]. destruct v; try discriminate. exists (s :: ss). reflexivity.
    + intros [[|s ss] E]; [discriminate|]. inversion E; subst. split; [reflexivity | exists ss; reflexivity].
Qed.

Lemma strings_iff : forall v, is_filter_list v = true <-> strings v.
Proof.
  intros v. unfold strings. destruct v; cbn [is_filter_list]; split; intros H; try discriminate;
    try (destruct H as [x E]; discriminate).
  - apply all_strings in H. destruct H as [ss ->]. exists ss. reflexivity.
  - destruct H as [ss E]. inversion E; subst. apply all_strings. exists ss. reflexivity.
Qed.

Lemma all_restrictions : forall d,
  forallb (fun kv => (is_str (fst kv) &&
             match snd kv with VList l => forallb is_str l | _ => false end)%bool) d = true <->
  exists e : list (string * list string),
    d = map (fun kl => (VStr (fst kl), VList (map VStr (snd kl)))) e.
Proof.
  induction d as [|[k v] d IH]; cbn [forallb fst snd].
  - split; [exists []; reflexivity | reflexivity].
  - rewrite !andb_true_iff, IH. split.
    + intros [[K V] [e ->]]. destruct k; try discriminate. destruct v; try discriminate.
      apply all_strings in V. destruct V as [ss ->]. exists ((s, ss) :: e). reflexivity.
    + intros [[|[s ss] e] E]; [discriminate|]. inversion E; subst. split; [split|].
      * reflexivity.
      * apply all_strings. exists ss. reflexivity.
      * exists e. reflexivity.
Qed.

Lemma restrictions_iff : forall v, is_negative_choice_set v = true <-> strings_by_string v.
Proof.
  intros v. unfold strings_by_string. destruct v; cbn [is_negative_choice_set]; split; intros H; try discriminate;
    try (destruct H as [x E]; discriminate).
  - apply all_restrictions in H. destruct H as [e ->]. exists e. reflexivity.
  - destruct H as [e E]. inversion E; subst. apply all_restrictions. exists e. reflexivity.
Qed.

Lemma sequence_iff : forall v, is_sequence v = true <->
  (v = VStr "random" \/ v = VStr "halton" \/ v = VStr "sobol").
Proof.
  intros v. destruct v; cbn [is_sequence]; split; intros H; try discriminate;
    try (destruct H as [H|[H|H]]; discriminate).
  - cbn [existsb] in H. rewrite !orb_true_iff, !String.eqb_eq in H.
    destruct H as [ -> |[ -> |[ -> |H]]]; [| | |discriminate]; tauto.
  - destruct H as [H|[H|H]]; inversion H; reflexivity.
Qed.

Lemma check_option_iff : forall name v, check_option (name, v) = Ok tt <->
  ((mentions_draws name -> positive_integer v) /\
   (~ mentions_draws name -> ends_in_seed name -> nonnegative_integer v)).
Proof.
  intros name v. unfold check_option, mentions_draws, ends_in_seed.
  rewrite <- contains_iff, <- endswith_iff.
  destruct (contains "draws" name) eqn:C.
  - rewrite assert_ok, positive_integer_iff. split; [|tauto]. intros P. split; [auto | congruence].
  - destruct (endswith "_seed" name) eqn:E.
    + rewrite assert_ok, nonnegative_integer_iff. split; [|intros [_ H]; apply H; congruence].
      intros P. split; [discriminate | auto].
    + split; [|reflexivity]. intros _. split; discriminate.
Qed.

Lemma all_checked : forall o, (exists us, result_all (map check_option o) = Ok us) <->
  forall name v, In (name, v) o -> check_option (name, v) = Ok tt.
Proof.
  induction o as [|[n w] o IH]; cbn [map result_all].
  - split; [intros _ name v [] | intros _; exists []; reflexivity].
  - split.
    + intros [us H]. apply bind_ok in H. destruct H as [[] [H1 H2]]. apply bind_ok in H2.
      destruct H2 as [us' [H2 _]]. intros name v [E|I].
      * inversion E; subst. exact H1.
      * apply IH; [exists us'; exact H2 | exact I].
    + intros H. assert (H1 := H n w (or_introl eq_refl)). rewrite H1. cbn [result_bind].
      destruct IH as [_ IH]. destruct IH as [us U].
      { intros name v I. apply H. right. exact I. }
      rewrite U. cbn. eexists. reflexivity.
Qed.

Lemma validate_iff : forall o, validate_options o = Ok tt <-> valid_options o.
Proof.
  intros o. unfold validate_options.
  rewrite (checked _ o "n_periods" _ positive_integer) by exact positive_integer_iff.
  rewrite bind_ok.
  assert (S : forall R : result unit,
    (exists a, result_all (map check_option o) = Ok a /\ R = Ok tt) <->
    ((forall name v, In (name, v) o -> mentions_draws name -> positive_integer v) /\
     (forall name v, In (name, v) o -> ~ mentions_draws name -> ends_in_seed name ->
        nonnegative_integer v)) /\ R = Ok tt).
  { intros R. transitivity ((exists us, result_all (map check_option o) = Ok us) /\ R = Ok tt).
    - split; [intros [a [H1 H2]]; split; [exists a; exact H1 | exact H2]
             | intros [[a H1] H2]; exists a; auto].
    - rewrite all_checked. apply and_iff_compat_r. split.
      + intros H. split; intros name v I; apply check_option_iff; auto.
      + intros [H1 H2] name v I. apply check_option_iff. split; [apply H1 | apply H2]; exact I. }
  rewrite S. clear S. rewrite bind_ok.
  assert (T : forall R : result unit,
    (exists a, option_of o "estimation_tau" = Ok a /\
       result_bind (result_bind (is_positive a) assert_) (fun _ => R) = Ok tt) <->
    option_with o "estimation_tau" positive_number /\ R = Ok tt).
  { intros R. split.
    - intros [v [E H]]. apply bind_ok in H. destruct H as [[] [H1 H2]].
      apply positive_number_iff in H1. apply option_of_ok in E. split; [|exact H2]. exists v. auto.
    - intros [[v [E P]] H]. exists v. split; [apply option_of_ok; exact E|].
      apply bind_ok. exists tt. split; [apply positive_number_iff; exact P | exact H]. }
  rewrite T. clear T.
  rewrite (checked _ o "interpolation_points" _ _ _ _ points_iff).
  rewrite (checked _ o "simulation_agents" _ _ _ _ positive_integer_iff).
  rewrite (checked _ o "core_state_space_filters" _ _ _ _ strings_iff).
  rewrite (checked _ o "negative_choice_set" _ _ _ _ restrictions_iff).
  assert (L : result_bind (option_of o "monte_carlo_sequence") (fun v => assert_ (is_sequence v)) = Ok tt <->
    option_with o "monte_carlo_sequence"
      (fun v => v = VStr "random" \/ v = VStr "halton" \/ v = VStr "sobol")).
  { rewrite bind_ok. split.
    - intros [v [E H]]. exists v. apply option_of_ok in E. apply assert_ok, sequence_iff in H. auto.
    - intros [v [E H]]. exists v. split; [apply option_of_ok; exact E | apply assert_ok, sequence_iff; exact H]. }
  rewrite L. clear L. split.
  - intros [H1 [[H2 H3] [H4 [H5 [H6 [H7 [H8 H9]]]]]]]. constructor; assumption.
  - intros [H1 H2 H3 H4 H5 H6 H7 H8 H9]. tauto.
Qed.

(** Options with other names do not matter. *)
Lemma get_app_other : forall (o : list (string * value)) n v name, name <> n ->
  dict_get string_dec name (o ++ [(n, v)]) = dict_get string_dec name o.
Proof.
  induction o as [|[k w] o IH]; intros n v name N; cbn.
  - destruct (string_dec name n); [contradiction | reflexivity].
  - destruct (string_dec name k); [reflexivity | apply IH; exact N].
Qed.

Lemma unknown_ignored : forall o name v,
  ~ In name checked_names -> ~ mentions_draws name -> ~ ends_in_seed name ->
  (validate_options (o ++ [(name, v)]) = Ok tt <-> validate_options o = Ok tt).
Proof.
  intros o name v N D S. rewrite !validate_iff.
  assert (G : forall m P, In m checked_names ->
              (option_with (o ++ [(name, v)]) m P <-> option_with o m P)).
  { intros m P I. unfold option_with. rewrite get_app_other; [reflexivity|]. intros ->. contradiction. }
  split; intros [H1 H2 H3 H4 H5 H6 H7 H8 H9];
    (constructor;
      [ apply (G "n_periods") in H1; [exact H1 | cbn; tauto]
      | | 
      | apply (G "estimation_tau") in H4; [exact H4 | cbn; tauto]
      | apply (G "interpolation_points") in H5; [exact H5 | cbn; tauto]
      | apply (G "simulation_agents") in H6; [exact H6 | cbn; tauto]
      | apply (G "core_state_space_filters") in H7; [exact H7 | cbn; tauto]
      | apply (G "negative_choice_set") in H8; [exact H8 | cbn; tauto]
      | apply (G "monte_carlo_sequence") in H9; [exact H9 | cbn; tauto] ]).
  - intros m w I. apply (H2 m w). apply in_or_app. left. exact I.
  - intros m w I. apply (H3 m w). apply in_or_app. left. exact I.
  - intros m w I M. apply in_app_or in I. destruct I as [I|[I|[]]]; [exact (H2 m w I M)|].
    inversion I; subst. contradiction.
  - intros m w I M E. apply in_app_or in I. destruct I as [I|[I|[]]]; [exact (H3 m w I M E)|].
    inversion I; subst. contradiction.
Qed.

Lemma defaults_accepted : forall k, (0 < k)%Z ->
  validate_options (with_defaults [("n_periods", VInt k)]) = Ok tt.
Proof.
  intros k K. unfold with_defaults, default_options, dict_update. cbn [fold_left dict_set fst snd].
  unfold validate_options. cbn -[Z.ltb].
  destruct (Z.ltb_spec 0 k); [|lia]. reflexivity.
Qed.

(** ** Cache directory *)

Lemma path_name_app : forall l x, last (l ++ [x])%list ("" : string) = x.
Proof. intros. apply last_last. Qed.

Lemma cache_directory_name : forall cwd user,
  path_name (parse_cache_directory cwd user) = ".respy".
Proof.
  intros cwd user. unfold parse_cache_directory.
  set (p := if pa_absolute _ then _ else _).
  destruct (String.eqb_spec (path_name p) ".respy") as [E|N]; [exact E|].
  unfold path_join, path_name. cbn [pa_absolute pa_parts]. apply path_name_app.
Qed.

Lemma cache_directory_absolute : forall cwd user, pa_absolute cwd = true ->
  pa_absolute (parse_cache_directory cwd user) = true.
Proof.
  intros cwd user A. unfold parse_cache_directory.
  set (q := match user with Some p => p | None => _ end).
  assert (P : pa_absolute (if pa_absolute q then q else path_join cwd q) = true).
  { destruct (pa_absolute q) eqn:E; [exact E|]. unfold path_join. rewrite E. exact A. }
  destruct (String.eqb _ _); [exact P|]. unfold path_join at 1. cbn [pa_absolute]. exact P.
Qed.

Lemma cache_directory_again : forall cwd cwd' user, pa_absolute cwd = true ->
  parse_cache_directory cwd' (Some (parse_cache_directory cwd user)) = parse_cache_directory cwd user.
Proof.
  intros cwd cwd' user A. unfold parse_cache_directory at 1.
  rewrite (cache_directory_absolute cwd user A), (cache_directory_name cwd user). reflexivity.
Qed.

Lemma cache_directory_location : forall cwd user, pa_absolute cwd = true ->
  let requested := match user with
                   | None => (pa_parts cwd ++ [".respy"])%list
                   | Some p => if pa_absolute p then pa_parts p else (pa_parts cwd ++ pa_parts p)%list
                   end in
  pa_parts (parse_cache_directory cwd user) = requested \/
  pa_parts (parse_cache_directory cwd user) = (requested ++ [".respy"])%list.
Proof.
  intros cwd user A. unfold parse_cache_directory.
  destruct user as [p|]; cbn zeta; [|cbn [pa_absolute]].
  - destruct (pa_absolute p) eqn:E.
    + destruct (String.eqb _ _); [left; reflexivity|]. right. reflexivity.
    + destruct (String.eqb _ _).
      * left. unfold path_join. rewrite E. reflexivity.
      * right. unfold path_join. cbn [pa_absolute pa_parts]. rewrite E. reflexivity.
  - left. unfold path_join. cbn [pa_absolute pa_parts]. unfold path_name. cbn [pa_parts].
    rewrite path_name_app. reflexivity.
Qed.
