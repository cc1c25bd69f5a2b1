(** Which objects are changed when a model is specified. *)
From Coq Require Import List Arith Bool String Lia.
From Verif Require Import Base Model_Solve Proof_Base Proof_Solve Model_Session Spec_Session.
Import ListNotations.
Open Scope list_scope.

Lemma set_nth_length : forall A i (x : A) l, List.length (set_nth i x l) = List.length l.
Proof. intros A i x l. revert i. induction l as [|y l IH]; intros [|i]; cbn; auto. Qed.
Lemma firstn_set_nth : forall A i (x : A) l n, n <= i -> firstn n (set_nth i x l) = firstn n l.
Proof.
  intros A i x l. revert i. induction l as [|y l IH]; intros [|i] [|n] H; cbn; auto; try lia.
  f_equal. apply IH. lia.
Qed.

Lemma in_range : forall A (l : list A) i x, nth_error l i = Some x -> i < List.length l.
Proof. intros A l i x E. apply nth_error_Some. congruence. Qed.

(** References of an object. *)
Definition refs (o : obj) : list nat :=
  match o with
  | Options e => match e_cov e with Some a => [a] | None => [] end ++
                 match e_filters e with Some a => [a] | None => [] end ++
                 match e_restr e with Some a => [a] | None => [] end
  | Restrictions d => map snd d
  | _ => []
  end.

(** Objects from [n] on refer only to objects from [n] on. *)
Definition apart (n : nat) (h : heap) : Prop :=
  forall a o, n <= a -> nth_error h a = Some o -> Forall (fun b => n <= b) (refs o).

(** A computation that leaves the first [n] objects alone. *)
Definition safe {A} (n : nat) (m : M A) (Q : A -> Prop) : Prop :=
  forall h, n <= List.length h -> apart n h ->
    firstn n (fst (m h)) = firstn n h /\ n <= List.length (fst (m h)) /\ apart n (fst (m h)) /\
    forall x, snd (m h) = Ok x -> Q x.

Lemma safe_ret : forall A n (x : A) (Q : A -> Prop), Q x -> safe n (ret x) Q.
Proof. intros A n x Q H h Hn I. cbn. repeat split; auto. intros y [= <-]. exact H. Qed.
Lemma safe_lift : forall A n (r : result A) (Q : A -> Prop), (forall x, r = Ok x -> Q x) -> safe n (lift r) Q.
Proof. intros A n r Q H h Hn I. cbn. repeat split; auto. Qed.
Lemma safe_bind : forall A B n (m : M A) (f : A -> M B) P Q,
  safe n m P -> (forall x, P x -> safe n (f x) Q) -> safe n (bind m f) Q.
Proof.
  intros A B n m f P Q Hm Hf h Hn I. destruct (Hm h Hn I) as (E & L & I' & HP).
  unfold bind. destruct (m h) as [h' r]. cbn [fst snd] in *. destruct r as [x| | | | |].
  2-6: repeat split; auto; intros y; discriminate.
  destruct (Hf x (HP x eq_refl) h' L I') as (E2 & L2 & I2 & H2). repeat split; auto. congruence.
Qed.
Lemma safe_weaken : forall A n (m : M A) (P Q : A -> Prop), (forall x, P x -> Q x) -> safe n m P -> safe n m Q.
Proof. intros A n m P Q H S h Hn I. destruct (S h Hn I) as (E & L & I' & HP). repeat split; auto. Qed.
Lemma safe_each : forall A B n (f : A -> M B) l (P : B -> Prop),
  (forall x, In x l -> safe n (f x) P) -> safe n (each f l) (Forall P).
Proof.
  intros A B n f l P. induction l as [|x l IH]; intros H; cbn [each].
  - apply safe_ret. constructor.
  - eapply safe_bind; [apply H; left; reflexivity|]. intros y Hy.
    eapply safe_bind; [apply IH; intros; apply H; right; assumption|]. intros ys Hys.
    apply safe_ret. constructor; assumption.
Qed.
Lemma safe_new : forall n o, Forall (fun b => n <= b) (refs o) -> safe n (new o) (fun a => n <= a).
Proof.
  intros n o Ho h Hn I. cbn. rewrite firstn_app. replace (n - List.length h) with 0 by lia. cbn [firstn].
  rewrite app_nil_r. rewrite app_length. repeat split; auto; [lia| |].
  - intros a o' Ha E. destruct (Nat.lt_ge_cases a (List.length h)) as [Hlt|Hge].
    + rewrite nth_error_app1 in E by exact Hlt. eapply I; eauto.
    + rewrite nth_error_app2 in E by exact Hge. destruct (a - List.length h) as [|[|?]]; cbn in E; [|discriminate..].
      injection E as <-. exact Ho.
  - intros x [= <-]. exact Hn.
Qed.
Lemma safe_write : forall n a o, n <= a -> Forall (fun b => n <= b) (refs o) -> safe n (write a o) (fun _ => True).
Proof.
  intros n a o Ha Ho h Hn I. cbn. rewrite firstn_set_nth by exact Ha. rewrite set_nth_length. repeat split; auto.
  intros b o' Hb E. destruct (Nat.eq_dec a b) as [<-|Hne].
  - assert (Hlt : a < List.length h). { apply in_range in E. rewrite set_nth_length in E. exact E. }
    rewrite nth_error_set_nth_same in E by exact Hlt. injection E as <-. exact Ho.
  - rewrite nth_error_set_nth_other in E by exact Hne. eapply I; eauto.
Qed.

Lemma safe_read : forall A n (g : heap -> result A) (Q : A -> Prop),
  (forall h x, apart n h -> g h = Ok x -> Q x) -> safe n (fun h => (h, g h)) Q.
Proof. intros A n g Q H h Hn I. cbn. repeat split; auto. intros x E. eapply H; eauto. Qed.
Lemma safe_get_options : forall n a, n <= a -> safe n (get_options a) (fun e => Forall (fun b => n <= b) (refs (Options e))).
Proof.
  intros n a Ha. apply safe_read. intros h e I E. destruct (nth_error h a) as [[e'| | |]|] eqn:E'; try discriminate.
  injection E as <-. eapply I; eauto.
Qed.
Lemma safe_get_restrictions : forall n a, n <= a ->
  safe n (get_restrictions a) (fun d => Forall (fun b => n <= b) (map snd d)).
Proof.
  intros n a Ha. apply safe_read. intros h d I E. destruct (nth_error h a) as [[|e'| |d']|] eqn:E'; try discriminate.
  injection E as <-. apply (I a _ Ha E').
Qed.
Lemma safe_get : forall A n (g : heap -> result A), safe n (fun h => (h, g h)) (fun _ => True).
Proof. intros. apply safe_read. auto. Qed.
Ltac any := eapply safe_bind; [apply safe_get | intros ? _].

(** Deep copies consist of new objects. *)
Lemma safe_copy_texts : forall n a, safe n (copy_texts a) (fun b => n <= b).
Proof. intros n a. unfold copy_texts. any. apply safe_new. constructor. Qed.
Lemma safe_copy_formulas : forall n a, safe n (copy_formulas a) (fun b => n <= b).
Proof. intros n a. unfold copy_formulas. any. apply safe_new. constructor. Qed.
Lemma safe_copy_restrictions : forall n a, safe n (copy_restrictions a) (fun b => n <= b).
Proof.
  intros n a. unfold copy_restrictions. any.
  eapply safe_bind; [apply (safe_each _ _ n _ x (fun ca => n <= snd ca))|].
  - intros ca _. eapply safe_bind; [apply safe_copy_texts|]. intros b Hb. apply safe_ret. exact Hb.
  - intros d Hd. apply safe_new. cbn [refs]. rewrite Forall_map. exact Hd.
Qed.
Lemma safe_copy_entry : forall n copy x, (forall a, safe n (copy a) (fun b => n <= b)) ->
  safe n (copy_entry copy x) (fun y => forall b, y = Some b -> n <= b).
Proof.
  intros n copy [a|] H; cbn [copy_entry].
  - eapply safe_bind; [apply H|]. intros b Hb. apply safe_ret. intros ? [= <-]. exact Hb.
  - apply safe_ret. discriminate.
Qed.
Lemma refs_options : forall n c f r rest, (forall b, c = Some b -> n <= b) -> (forall b, f = Some b -> n <= b) ->
  (forall b, r = Some b -> n <= b) -> Forall (fun b => n <= b) (refs (Options (mkEntries c f r rest))).
Proof.
  intros n c f r rest Hc Hf Hr. cbn [refs e_cov e_filters e_restr].
  destruct c, f, r; cbn [app]; repeat constructor; auto.
Qed.
Lemma refs_entries : forall n e, Forall (fun b => n <= b) (refs (Options e)) ->
  (forall b, e_cov e = Some b -> n <= b) /\ (forall b, e_filters e = Some b -> n <= b) /\ (forall b, e_restr e = Some b -> n <= b).
Proof.
  intros n [c f r rest] H. cbn [refs e_cov e_filters e_restr] in *. rewrite !Forall_app in H. destruct H as (H1 & H2 & H3).
  repeat split; intros b ->; cbn in *; [inversion H1|inversion H2|inversion H3]; assumption.
Qed.
Lemma safe_copy_options : forall n a, safe n (copy_options a) (fun b => n <= b).
Proof.
  intros n a. unfold copy_options. any.
  eapply safe_bind; [apply safe_copy_entry, safe_copy_formulas|]. intros c Hc.
  eapply safe_bind; [apply safe_copy_entry, safe_copy_texts|]. intros f Hf.
  eapply safe_bind; [apply safe_copy_entry, safe_copy_restrictions|]. intros r Hr.
  apply safe_new. apply refs_options; assumption.
Qed.
Lemma safe_entry : forall n x, (forall b, x = Some b -> n <= b) -> safe n (entry x) (fun b => n <= b).
Proof. intros n x H. apply safe_lift. intros b E. destruct x; [|discriminate]. injection E as <-. auto. Qed.
Lemma safe_remove : forall n q a, safe n (remove_irrelevant_covariates q a) (fun b => n <= b).
Proof.
  intros n q a. unfold remove_irrelevant_covariates.
  eapply safe_bind; [apply safe_copy_options|]. intros b Hb.
  eapply safe_bind; [apply safe_get_options; exact Hb|]. intros e He. apply refs_entries in He as (H1 & H2 & H3).
  eapply safe_bind; [apply safe_entry; exact H1|]. intros c Hc. any.
  eapply safe_bind; [apply (safe_lift _ n _ (fun _ => True)); auto|]. intros rel _.
  eapply safe_bind; [apply safe_new; constructor|]. intros c' Hc'.
  eapply safe_bind; [apply safe_write; [exact Hb|apply refs_options; auto; intros ? [= <-]; exact Hc']|]. intros _ _.
  apply safe_ret. exact Hb.
Qed.
Lemma safe_add_types : forall n p a, n <= a -> safe n (add_types p a) (fun _ => True).
Proof.
  intros n p a Ha. unfold add_types. destruct (pa_types p) as [|t types]; [apply safe_ret; exact I|].
  eapply safe_bind; [apply safe_get_options; exact Ha|]. intros e He. apply refs_entries in He as (H1 & H2 & H3).
  eapply safe_bind; [apply safe_entry; exact H1|]. intros c Hc. any.
  eapply safe_bind; [apply safe_new; constructor|]. intros c' Hc'.
  apply safe_write; [exact Ha|apply refs_options; auto; intros ? [= <-]; exact Hc'].
Qed.
Lemma dict_set_values : forall n x l (d : list (string * nat)), n <= l -> Forall (fun b => n <= b) (map snd d) ->
  Forall (fun b => n <= b) (map snd (dict_set string_dec x l d)).
Proof.
  intros n x l d Hl. induction d as [|[y b] d IH]; cbn; intros H; [repeat constructor; exact Hl|].
  inversion H; subst. destruct (string_dec x y); cbn; constructor; auto.
Qed.
Lemma dict_get_value : forall n x l (d : list (string * nat)), dict_get string_dec x d = Some l ->
  Forall (fun b => n <= b) (map snd d) -> n <= l.
Proof.
  intros n x l d E H. apply dict_get_Some_In in E. rewrite Forall_map, Forall_forall in H. apply (H _ E).
Qed.
Lemma safe_with_exp : forall n r cf, n <= r -> safe n (restrict_with_exp r cf) (fun _ => True).
Proof.
  intros n r cf Hr. unfold restrict_with_exp. eapply safe_bind; [apply safe_get_restrictions; exact Hr|]. intros d Hd.
  eapply (safe_bind _ _ n _ _ (fun _ => True)).
  { destruct (dict_get string_dec (fst cf) d); [apply safe_get|apply safe_ret; exact I]. }
  intros fs _. eapply safe_bind; [apply safe_new; constructor|]. intros l Hl.
  apply safe_write; [exact Hr|]. apply dict_set_values; assumption.
Qed.
Lemma safe_without_exp : forall n r c, n <= r -> safe n (restrict_without_exp r c) (fun _ => True).
Proof.
  intros n r c Hr. unfold restrict_without_exp. eapply safe_bind; [apply safe_get_restrictions; exact Hr|]. intros d Hd.
  eapply (safe_bind _ _ n _ _ (fun l => n <= l)).
  { destruct (dict_get string_dec c d) as [l|] eqn:E; [|apply safe_new; constructor].
    apply safe_ret. eapply dict_get_value; eauto. }
  intros l Hl. apply safe_write; [exact Hr|]. apply dict_set_values; assumption.
Qed.
Lemma safe_add_default : forall n p a, n <= a -> safe n (add_default_restrictions p a) (fun _ => True).
Proof.
  intros n p a Ha. unfold add_default_restrictions.
  eapply safe_bind; [apply safe_get_options; exact Ha|]. intros e He. apply refs_entries in He as (H1 & H2 & H3).
  eapply safe_bind; [apply safe_entry; exact H3|]. intros r Hr.
  eapply safe_bind; [apply safe_each; intros z _; apply safe_with_exp; exact Hr|]. intros _ _.
  eapply safe_bind; [apply safe_each; intros z _; apply safe_without_exp; exact Hr|]. intros _ _.
  apply safe_ret. exact I.
Qed.
Lemma safe_convert_restriction : forall n p r c, n <= r -> safe n (convert_restriction p r c) (fun _ => True).
Proof.
  intros n p r c Hr. unfold convert_restriction. eapply safe_bind; [apply safe_get_restrictions; exact Hr|]. intros d Hd.
  destruct (dict_get string_dec c d) as [l|] eqn:E; [|apply safe_ret; exact I]. any.
  apply safe_write; [eapply dict_get_value; eauto|constructor].
Qed.
Lemma safe_convert : forall n p a, n <= a -> safe n (convert_labels p a) (fun _ => True).
Proof.
  intros n p a Ha. unfold convert_labels.
  eapply safe_bind; [apply safe_get_options; exact Ha|]. intros e He. apply refs_entries in He as (H1 & H2 & H3).
  eapply safe_bind; [apply safe_entry; exact H1|]. intros c Hc. any.
  eapply safe_bind; [apply safe_write; [exact Hc|constructor]|]. intros _ _.
  eapply safe_bind; [apply safe_entry; exact H2|]. intros f Hf. any.
  eapply safe_bind; [apply (safe_lift _ n _ (fun _ => True)); auto|]. intros fs' _.
  eapply safe_bind; [apply safe_new; constructor|]. intros f' Hf'.
  eapply safe_bind; [apply safe_write; [exact Ha|apply refs_options; auto; intros ? [= <-]; exact Hf']|]. intros _ _.
  eapply safe_bind; [apply safe_entry; exact H3|]. intros r Hr.
  eapply safe_bind; [apply safe_each; intros z _; apply safe_convert_restriction; exact Hr|]. intros _ _.
  apply safe_ret. exact I.
Qed.

(** Looking at options changes nothing. *)
Definition looks {A} (m : M A) : Prop := forall h, fst (m h) = h.
Lemma looks_bind : forall A B (m : M A) (f : A -> M B), looks m -> (forall x, looks (f x)) -> looks (bind m f).
Proof.
  intros A B m f Hm Hf h. unfold bind. specialize (Hm h). destruct (m h) as [h' [x| | | | |]]; cbn [fst] in *; subst; auto.
  apply Hf.
Qed.
Lemma looks_each : forall A B (f : A -> M B) l, (forall x, looks (f x)) -> looks (each f l).
Proof.
  intros A B f l H. induction l as [|x l IH]; cbn [each]; [intros h; reflexivity|].
  apply looks_bind; [apply H|]. intros y. apply looks_bind; [exact IH|]. intros ys h. reflexivity.
Qed.
Lemma looks_see_restrictions : forall a, looks (see_restrictions a).
Proof.
  intros a. apply looks_bind; [intros h; reflexivity|]. intros d. apply looks_each. intros ca.
  apply looks_bind; [intros h; reflexivity|]. intros l h. reflexivity.
Qed.
Lemma looks_see : forall A (f : nat -> M A) x, (forall a, looks (f a)) -> looks (see f x).
Proof.
  intros A f [a|] H; cbn [see]; [|intros h; reflexivity]. apply looks_bind; [apply H|]. intros v h. reflexivity.
Qed.
Lemma looks_see_options : forall a, looks (see_options a).
Proof.
  intros a. apply looks_bind; [intros h; reflexivity|]. intros e.
  apply looks_bind; [apply looks_see; intros b h; reflexivity|]. intros c.
  apply looks_bind; [apply looks_see; intros b h; reflexivity|]. intros f.
  apply looks_bind; [apply looks_see; apply looks_see_restrictions|]. intros r h. reflexivity.
Qed.
Lemma safe_see : forall n a, safe n (see_options a) (fun _ => True).
Proof.
  intros n a h Hn I. rewrite looks_see_options. repeat split; auto.
Qed.

(** The second half of processing, which works on a deep copy. *)
Definition second (q : parameters) (a : nat) : M nat :=
  bind (remove_irrelevant_covariates q a) (fun a =>
  bind (see_options a) (fun c =>
  bind (lift (q_parse q c)) (fun p =>
  bind (add_types p a) (fun _ =>
  bind (add_default_restrictions p a) (fun _ =>
  bind (convert_labels p a) (fun _ =>
  ret a)))))).
Lemma safe_second : forall n q a, safe n (second q a) (fun b => n <= b).
Proof.
  intros n q a. unfold second. eapply safe_bind; [apply safe_remove|]. intros b Hb.
  eapply safe_bind; [apply safe_see|]. intros c _.
  eapply safe_bind; [apply (safe_lift _ n _ (fun _ => True)); auto|]. intros p _.
  eapply safe_bind; [apply safe_add_types; exact Hb|]. intros _ _.
  eapply safe_bind; [apply safe_add_default; exact Hb|]. intros _ _.
  eapply safe_bind; [apply safe_convert; exact Hb|]. intros _ _.
  apply safe_ret. exact Hb.
Qed.
Definition first (defaults user : nat) : M nat :=
  bind (copy_options user) (fun a =>
  bind (get_options defaults) (fun ed =>
  bind (get_options a) (fun eu =>
  new (Options (merge ed eu))))).
Lemma process_halves : forall defaults q user h, process defaults q user h = bind (first defaults user) (second q) h.
Proof.
  intros defaults q user h. unfold process, first, second, bind.
  destruct (copy_options user h) as [h1 [a| | | | |]]; try reflexivity.
  destruct (get_options defaults h1) as [h2 [ed| | | | |]]; try reflexivity.
  destruct (get_options a h2) as [h3 [eu| | | | |]]; try reflexivity.
Qed.
Lemma apart_all : forall h, apart (List.length h) h.
Proof. intros h a o Ha E. apply in_range in E. lia. Qed.
Lemma first_keeps : forall defaults user h,
  firstn (List.length h) (fst (first defaults user h)) = h /\ List.length h <= List.length (fst (first defaults user h)).
Proof.
  intros defaults user h. unfold first, bind.
  destruct (safe_copy_options (List.length h) user h (le_n _) (apart_all h)) as (E & L & _ & _). rewrite firstn_all in E.
  destruct (copy_options user h) as [h1 [a| | | | |]]; cbn [fst] in *; auto.
  unfold get_options. destruct (nth_error h1 defaults) as [[ed| | |]|]; cbn beta iota; auto.
  destruct (nth_error h1 a) as [[eu| | |]|]; cbn beta iota; auto.
  unfold new. cbn [fst]. rewrite firstn_app, app_length. replace (List.length h - List.length h1) with 0 by lia. cbn [firstn].
  rewrite app_nil_r. split; [exact E|lia].
Qed.
Lemma process_keeps : forall defaults q user (h : heap),
  firstn (List.length h) (fst (process defaults q user h)) = h /\
  List.length h <= List.length (fst (process defaults q user h)) /\
  forall a, snd (process defaults q user h) = Ok a ->
    exists n, List.length h <= n /\ n <= a /\ apart n (fst (process defaults q user h)).
Proof.
  intros defaults q user h. rewrite process_halves. destruct (first_keeps defaults user h) as (E & L). unfold bind.
  destruct (first defaults user h) as [h1 [a1| | | | |]]; cbn [fst snd] in *;
    try (repeat split; auto; intros a; discriminate).
  destruct (safe_second (List.length h1) q a1 h1 (le_n _) (apart_all h1)) as (E2 & L2 & I2 & H2).
  rewrite firstn_all in E2. repeat split.
  - transitivity (firstn (List.length h) h1); [|exact E]. rewrite <- E2 at 2. rewrite firstn_firstn.
    replace (Nat.min (List.length h) (List.length h1)) with (List.length h) by lia. reflexivity.
  - lia.
  - intros a Ea. exists (List.length h1). auto.
Qed.

Lemma firstn_trans : forall A n m (l1 l2 l3 : list A), n <= m -> firstn n l2 = l1 -> firstn m l3 = l2 -> firstn n l3 = l1.
Proof.
  intros A n m l1 l2 l3 H E1 E2. rewrite <- E1, <- E2, firstn_firstn. f_equal. lia.
Qed.
Lemma session_keeps : forall defaults events h, Forall specifies events ->
  firstn (List.length h) (session defaults events h) = h.
Proof.
  intros defaults events. induction events as [|e events IH]; intros h H; cbn [session fold_left].
  - apply firstn_all.
  - inversion H as [|? ? (q & user & ->) H']; subst. cbn [run_event].
    destruct (process_keeps defaults q user h) as (E & L & _).
    eapply firstn_trans; [exact L|exact E|]. apply IH. exact H'.
Qed.

(** Options that consist of objects that are not changed look the same. *)
Definition same_from (n : nat) (h h' : heap) : Prop :=
  forall a o, n <= a -> nth_error h a = Some o -> nth_error h' a = Some o.
Lemma same_texts : forall h h' a l, (forall o, nth_error h a = Some o -> nth_error h' a = Some o) ->
  snd (get_texts a h) = Ok l -> snd (get_texts a h') = Ok l.
Proof.
  intros h h' a l H. unfold get_texts. cbn [snd]. destruct (nth_error h a) as [o|]; [rewrite (H o eq_refl); auto|discriminate].
Qed.
Lemma bind_ok : forall A B (m : M A) (f : A -> M B) h y, looks m -> snd (bind m f h) = Ok y ->
  exists x, snd (m h) = Ok x /\ snd (f x h) = Ok y.
Proof.
  intros A B m f h y Hm. unfold bind. specialize (Hm h). destruct (m h) as [h' [x| | | | |]]; cbn [fst snd] in *;
    try discriminate. subst h'. intros E. eauto.
Qed.
Lemma bind_back : forall A B (m : M A) (f : A -> M B) h x, looks m -> snd (m h) = Ok x -> snd (bind m f h) = snd (f x h).
Proof.
  intros A B m f h x Hm E. unfold bind. specialize (Hm h). destruct (m h) as [h' r]. cbn [fst snd] in *. subst. reflexivity.
Qed.
Ltac look := (intros ?h; reflexivity).
Lemma same_each : forall A B (f : A -> M B) h h' l ys, (forall x, looks (f x)) ->
  (forall x y, In x l -> snd (f x h) = Ok y -> snd (f x h') = Ok y) ->
  snd (each f l h) = Ok ys -> snd (each f l h') = Ok ys.
Proof.
  intros A B f h h' l. induction l as [|x l IH]; intros ys L H E; cbn [each] in *; [exact E|].
  apply bind_ok in E as (y & Ey & E); [|apply L]. apply bind_ok in E as (ys' & Eys & E); [|apply looks_each; exact L].
  rewrite (bind_back _ _ _ _ h' y (L x)) by (apply H; [left; reflexivity|exact Ey]).
  rewrite (bind_back _ _ _ _ h' ys' (looks_each _ _ _ _ L)).
  - exact E.
  - apply IH; auto. intros z w Hz. apply H. right. exact Hz.
Qed.
Lemma same_restrictions : forall n h h' r R, apart n h -> same_from n h h' -> n <= r ->
  snd (see_restrictions r h) = Ok R -> snd (see_restrictions r h') = Ok R.
Proof.
  intros n h h' r R A Sm Hr E. unfold see_restrictions in *. apply bind_ok in E as (d & Ed & E); [|look].
  unfold get_restrictions in Ed. cbn [snd] in Ed. destruct (nth_error h r) as [[| | |d']|] eqn:E'; try discriminate.
  injection Ed as ->. rewrite (bind_back _ _ _ _ h' d); [|look|unfold get_restrictions; cbn [snd]; rewrite (Sm r _ Hr E'); reflexivity].
  revert E. apply same_each.
  - intros x. apply looks_bind; [look|]. intros l h0. reflexivity.
  - intros x y Hx Ey. apply bind_ok in Ey as (l & El & Ey); [|look].
    rewrite (bind_back _ _ _ _ h' l); [exact Ey|look|].
    revert El. apply same_texts. intros o. apply Sm. specialize (A r _ Hr E'). cbn [refs] in A.
    rewrite Forall_map, Forall_forall in A. apply A. exact Hx.
Qed.
Lemma same_see : forall A (f : nat -> M A) h h' x v, (forall a, looks (f a)) ->
  (forall a w, x = Some a -> snd (f a h) = Ok w -> snd (f a h') = Ok w) ->
  snd (see f x h) = Ok v -> snd (see f x h') = Ok v.
Proof.
  intros A f h h' [a|] v L H E; cbn [see] in *; [|exact E].
  apply bind_ok in E as (w & Ew & E); [|apply L]. rewrite (bind_back _ _ _ _ h' w (L a)); [exact E|]. apply H; auto.
Qed.
Lemma same_seen : forall n h h' a c, apart n h -> same_from n h h' -> n <= a -> seen h a = Ok c -> seen h' a = Ok c.
Proof.
  intros n h h' a c A Sm Ha E. unfold seen, see_options in *. apply bind_ok in E as (e & Ee & E); [|look].
  assert (E' : nth_error h a = Some (Options e)).
  { unfold get_options in Ee. cbn [snd] in Ee. destruct (nth_error h a) as [[e'| | |]|]; try discriminate. congruence. }
  rewrite (bind_back _ _ _ _ h' e); [|look|unfold get_options; cbn [snd]; rewrite (Sm a _ Ha E'); reflexivity].
  destruct (refs_entries n e (A a _ Ha E')) as (H1 & H2 & H3).
  apply bind_ok in E as (c1 & E1 & E); [|apply looks_see; intros b; look].
  apply bind_ok in E as (f1 & E2 & E); [|apply looks_see; intros b; look].
  apply bind_ok in E as (r1 & E3 & E); [|apply looks_see; apply looks_see_restrictions].
  rewrite (bind_back _ _ _ _ h' c1); [|apply looks_see; intros b; look|].
  2:{ revert E1. apply same_see; [intros b; look|]. intros b w Eb. unfold get_formulas. cbn [snd].
      destruct (nth_error h b) as [o|] eqn:Eo; [|discriminate]. rewrite (Sm b o (H1 b Eb) Eo). auto. }
  rewrite (bind_back _ _ _ _ h' f1); [|apply looks_see; intros b; look|].
  2:{ revert E2. apply same_see; [intros b; look|]. intros b w Eb. unfold get_texts. cbn [snd].
      destruct (nth_error h b) as [o|] eqn:Eo; [|discriminate]. rewrite (Sm b o (H2 b Eb) Eo). auto. }
  rewrite (bind_back _ _ _ _ h' r1); [exact E|apply looks_see; apply looks_see_restrictions|].
  revert E3. apply same_see; [apply looks_see_restrictions|]. intros b w Eb. eapply same_restrictions; eauto.
Qed.

Lemma same_firstn : forall n h h', firstn (List.length h) h' = h -> same_from n h h'.
Proof.
  intros n h h' E a o Ha Ea. rewrite <- E in Ea.
  assert (L : a < List.length h). { apply in_range in Ea. rewrite E in Ea. exact Ea. }
  rewrite <- (firstn_skipn (List.length h) h'). rewrite nth_error_app1; [exact Ea|]. rewrite E. exact L.
Qed.
Lemma seen_after : forall defaults events h a c, Forall specifies events -> seen h a = Ok c ->
  seen (session defaults events h) a = Ok c.
Proof.
  intros defaults events h a c He E. apply (same_seen 0 h); [intros b o _ _; apply Forall_forall; lia| |lia|exact E].
  apply same_firstn. apply session_keeps. exact He.
Qed.
Lemma session_from : forall defaults n events h h', List.length h <= List.length h' -> n <= List.length h ->
  Forall (old_object n) events -> same_from n h h' -> same_from n h (session defaults events h').
Proof.
  intros defaults n events h. induction events as [|e events IH]; intros h' L Hn H Sm; cbn [session fold_left]; [exact Sm|].
  inversion H as [|? ? [(q & user & ->)|(b & o & -> & Hb)] H']; subst; cbn [run_event].
  - destruct (process_keeps defaults q user h') as (E & L' & _). apply IH; auto; [lia|].
    intros a o Ha Ea. eapply (same_firstn n); [exact E|exact Ha|]. apply Sm; assumption.
  - apply IH; auto; [rewrite set_nth_length; exact L|].
    intros a o' Ha Ea. rewrite nth_error_set_nth_other by lia. apply Sm; assumption.
Qed.
Lemma later : forall defaults q user h a c events, snd (process defaults q user h) = Ok a ->
  seen (fst (process defaults q user h)) a = Ok c -> Forall (old_object (List.length h)) events ->
  seen (session defaults events (fst (process defaults q user h))) a = Ok c.
Proof.
  intros defaults q user h a c events Ea Ec He.
  destruct (process_keeps defaults q user h) as (_ & L & H). destruct (H a Ea) as (n & Hn & Hna & A).
  apply (same_seen n (fst (process defaults q user h))); auto.
  assert (Sm : same_from (List.length h) (fst (process defaults q user h))
                 (session defaults events (fst (process defaults q user h)))).
  { apply session_from; auto. intros b o _ Eb. exact Eb. }
  intros b o Hb. apply Sm. lia.
Qed.
