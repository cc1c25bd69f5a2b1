(** Lemmas about labels, codes, formulas and columns. *)
From Coq Require Import List Arith Bool Lia String Ascii.
From Verif Require Import Base Proof_Base Model_Strings Proof_Strings Model_Cache Model_Choices Spec_Choices Proof_Regex Proof_Choices.
Import ListNotations.
Open Scope string_scope.

(** ** Labels and codes *)

Lemma codes_keys : forall (levels : list level) k,
  map fst (map (fun p => (snd p, fst p)) (enumerate_from k levels)) = levels.
Proof.
  induction levels as [|l r IH]; intros k; [reflexivity|]. cbn. f_equal. apply IH.
Qed.

Lemma codes_In : forall (levels : list level) i l k, nth_error levels i = Some l ->
  In (l, k + i) (map (fun p => (snd p, fst p)) (enumerate_from k levels)).
Proof.
  induction levels as [|x r IH]; intros [|i] l k H; cbn in *; try discriminate.
  - inversion H; subst. left. f_equal. lia.
  - right. replace (k + S i) with (S k + i) by lia. apply IH. exact H.
Qed.

Lemma label_to_code_known : forall levels i l, NoDup levels -> nth_error levels i = Some l ->
  label_to_code levels l = Ok (i mod 256).
Proof.
  intros levels i l N H. unfold label_to_code.
  assert (K : dict_keys (map (fun p => (snd p, fst p)) (enumerate levels)) = levels)
    by (unfold enumerate, dict_keys; apply codes_keys).
  rewrite dict_of_pairs_NoDup by (rewrite K; exact N).
  rewrite (dict_get_In_NoDup level_eq_dec l i); [reflexivity | rewrite K; exact N |].
  apply (codes_In levels i l 0 H).
Qed.

Lemma label_to_code_unknown : forall levels s, ~ In (Label s) levels ->
  label_to_code levels (Label s) = ValueError.
Proof.
  intros levels s H. unfold label_to_code.
  destruct (dict_get level_eq_dec (Label s) _) as [i|] eqn:G; [|reflexivity].
  exfalso. apply H.
  assert (I : In (Label s) (dict_keys (dict_of_pairs level_eq_dec (map (fun p => (snd p, fst p)) (enumerate levels))))).
  { destruct (in_dec level_eq_dec (Label s) (dict_keys (dict_of_pairs level_eq_dec (map (fun p => (snd p, fst p)) (enumerate levels))))) as [I|I]; [exact I|].
    apply (dict_get_None level_eq_dec) in I. congruence. }
  unfold dict_of_pairs in I. apply In_keys_update in I. destruct I as [[]|I].
  unfold enumerate, dict_keys in I. rewrite codes_keys in I. exact I.
Qed.

Lemma round_trip : forall levels i l, NoDup levels -> List.length levels <= 256 ->
  nth_error levels i = Some l ->
  exists c, label_to_code levels l = Ok c /\ code_to_label levels c = l.
Proof.
  intros levels i l N L H. exists i. rewrite (label_to_code_known levels i l N H).
  assert (i < List.length levels) by (apply nth_error_Some; congruence).
  rewrite Nat.mod_small by lia. split; [reflexivity|]. unfold code_to_label. rewrite H. reflexivity.
Qed.

(** ** Replacing quoted labels *)

Lemma length_0 : forall s, String.length s = 0 -> s = "".
Proof. intros [|c s] H; [reflexivity | discriminate]. Qed.

Lemma replace_skip : forall p q u r, replace_from p q (String.length u) (u ++ r) = replace_from p q 0 r.
Proof. induction u as [|c u IH]; intros r; [reflexivity|]. cbn. apply IH. Qed.

(** Characters that do not begin the pattern stay. *)
Lemma replace_pass : forall x p q u r, all_chars (fun c => negb (Ascii.eqb x c)) u = true ->
  replace_from (String x p) q 0 (u ++ r) = u ++ replace_from (String x p) q 0 r.
Proof.
  intros x p q. induction u as [|c u IH]; intros r H; [reflexivity|].
  cbn in H. apply andb_true_iff in H. destruct H as [C H].
  cbn [append replace_from].
  change (prefix (String x p) (String c (u ++ r))) with (if ascii_dec x c then prefix p (u ++ r) else false).
  destruct (ascii_dec x c) as [->|N]; [rewrite Ascii.eqb_refl in C; discriminate|].
  f_equal. apply IH. exact H.
Qed.

Lemma replace_hit : forall x p q r,
  replace_from (String x p) q 0 (String x p ++ r) = q ++ replace_from (String x p) q 0 r.
Proof.
  intros x p q r. cbn [append replace_from].
  assert (P : prefix (String x p) (String x (p ++ r)) = true)
    by (apply prefix_iff; exists r; reflexivity).
  rewrite P. f_equal. cbn [String.length]. rewrite Nat.sub_succ, Nat.sub_0_r. apply replace_skip.
Qed.

Lemma replace_miss : forall p q c r, prefix p (String c r) = false ->
  replace_from p q 0 (String c r) = String c (replace_from p q 0 r).
Proof. intros p q c r H. cbn [replace_from]. rewrite H. reflexivity. Qed.

Definition quote_char (single : bool) : ascii := if single then ascii_of_nat 39 else ascii_of_nat 34.
Lemma quote_is : forall b, quote b = String (quote_char b) "".
Proof. intros [|]; reflexivity. Qed.
Lemma quote_quote : forall b, is_quote (quote_char b) = true.
Proof. intros [|]; reflexivity. Qed.
Lemma quote_char_inj : forall b b', quote_char b = quote_char b' -> b = b'.
Proof. intros [|] [|] H; try reflexivity; discriminate. Qed.

Lemma no_quotes_pass : forall b s, without_quotes s -> all_chars (fun c => negb (Ascii.eqb (quote_char b) c)) s = true.
Proof.
  unfold without_quotes. intros b. induction s as [|c s IH]; intros H; [reflexivity|].
  cbn in *. apply andb_true_iff in H. destruct H as [C H]. rewrite IH by exact H. rewrite andb_true_r.
  destruct (Ascii.eqb_spec (quote_char b) c) as [<-|N]; [|reflexivity]. rewrite quote_quote in C. discriminate.
Qed.

Lemma split_no_quotes : forall s X l b Y, without_quotes s -> s ++ X = l ++ String (quote_char b) Y ->
  exists l', l = s ++ l' /\ X = l' ++ String (quote_char b) Y.
Proof.
  unfold without_quotes. induction s as [|c s IH]; intros X l b Y H E.
  - exists l. auto.
  - cbn in H. apply andb_true_iff in H. destruct H as [C H]. destruct l as [|d l].
    + cbn in E. inversion E; subst. rewrite quote_quote in C. discriminate.
    + cbn in E. inversion E as [[E1 E2]]; subst. destruct (IH X l b Y H E2) as [l' [-> F]].
      exists l'. auto.
Qed.

Lemma same_before_quote : forall l l' b Y Y', without_quotes l -> without_quotes l' ->
  l ++ String (quote_char b) Y = l' ++ String (quote_char b) Y' -> l = l'.
Proof.
  unfold without_quotes. induction l as [|c l IH]; intros [|d l'] b Y Y' H H' E; cbn in *.
  - reflexivity.
  - inversion E; subst. rewrite quote_quote in H'. discriminate.
  - inversion E; subst. rewrite quote_quote in H. discriminate.
  - apply andb_true_iff in H. apply andb_true_iff in H'. inversion E; subst. f_equal.
    apply (IH l' b Y Y'); tauto.
Qed.

Section Formulas.
  Variable cls : ascii -> bool.
  Hypothesis Q : forall c, cls c = true -> is_quote c = false.

  Lemma cls_no_quotes : forall l, all_chars cls l = true -> without_quotes l.
  Proof.
    unfold without_quotes. induction l as [|c l IH]; intros H; [reflexivity|]. cbn in *.
    apply andb_true_iff in H. destruct H as [C H]. rewrite (Q c C), IH by exact H. reflexivity.
  Qed.

  Lemma separated_weaken : forall f, separated cls true f -> separated cls false f.
  Proof.
    induction f as [|[s|b l] f IH]; cbn; [auto| |intros [H _]; discriminate].
    intros [W S]. split; [exact W|]. destruct (all_chars cls s); auto.
  Qed.

  (** The closing quote does not open another label. *)
  Lemma no_label_follows : forall f l b Y, separated cls true f -> all_chars cls l = true ->
    render f <> l ++ String (quote_char b) Y.
  Proof.
    induction f as [|[s|b' l'] f IH]; intros l b Y S L E.
    - cbn in E. destruct l; discriminate.
    - cbn [render render_segment] in E. destruct S as [W S]. cbn [andb] in S.
      destruct (split_no_quotes _ _ _ _ _ W E) as [l2 [-> E2]].
      rewrite all_chars_append in L. apply andb_true_iff in L. destruct L as [L1 L2].
      rewrite L1 in S. apply (IH l2 b Y S L2 E2).
    - destruct S as [H _]. discriminate.
  Qed.

  Definition coded_one (b : bool) (l to : string) (g : segment) : segment :=
    match g with
    | Text s => Text s
    | Quoted b' l' => if Bool.eqb b b' && String.eqb l l' then Text to else Quoted b' l'
    end.

  Lemma replace_one : forall b l to, all_chars cls l = true -> forall f, separated cls false f ->
    replace (quote b ++ l ++ quote b) to (render f) = render (map (coded_one b l to) f).
  Proof.
    intros b l to L. unfold replace. rewrite quote_is. cbn [append].
    induction f as [|[s|b' l'] f IH]; intros S.
    - reflexivity.
    - cbn [render render_segment map coded_one]. destruct S as [W S]. cbn [andb] in S.
      rewrite replace_pass by (apply no_quotes_pass; exact W). f_equal. apply IH. exact S.
    - destruct S as [_ [L' S]]. cbn [render render_segment map coded_one].
      pose proof (IH (separated_weaken f S)) as IH'. clear IH.
      rewrite !quote_is, !append_assoc_s. cbn [append].
      destruct (Bool.eqb b b') eqn:B; cbn [andb].
      + apply eqb_prop in B. subst b'. destruct (String.eqb_spec l l') as [<-|N].
        * replace (String (quote_char b) (l ++ String (quote_char b) (render f)))
            with (String (quote_char b) (l ++ String (quote_char b) "") ++ render f)
            by (cbn [append]; rewrite append_assoc_s; reflexivity).
          rewrite replace_hit, IH'. reflexivity.
        * rewrite replace_miss.
          -- rewrite (replace_pass _ _ _ l') by (apply no_quotes_pass, cls_no_quotes; exact L').
             rewrite replace_miss.
             ++ rewrite IH'. cbn [render render_segment]. rewrite !quote_is, !append_assoc_s. reflexivity.
             ++ destruct (prefix _ _) eqn:P; [|reflexivity]. apply prefix_iff in P. destruct P as [r P].
                cbn [append] in P. inversion P as [E]. rewrite append_assoc_s in E. cbn [append] in E.
                exfalso. apply (no_label_follows f l b r S L E).
          -- destruct (prefix _ _) eqn:P; [|reflexivity]. apply prefix_iff in P. destruct P as [r P].
             cbn [append] in P. inversion P as [E]. rewrite append_assoc_s in E. cbn [append] in E.
             exfalso. apply N. symmetry.
             apply (same_before_quote _ _ _ _ _ (cls_no_quotes _ L') (cls_no_quotes _ L) E).
      + assert (BN : quote_char b <> quote_char b').
        { intros E. apply quote_char_inj in E. subst. rewrite eqb_reflx in B. discriminate. }
        assert (A : all_chars (fun c => negb (Ascii.eqb (quote_char b) c))
          (String (quote_char b') (l' ++ String (quote_char b') "")) = true).
        { cbn [all_chars]. rewrite all_chars_append. cbn [all_chars].
          apply Ascii.eqb_neq in BN. rewrite BN.
          rewrite (no_quotes_pass b l') by (apply cls_no_quotes; exact L'). reflexivity. }
        replace (String (quote_char b') (l' ++ String (quote_char b') (render f)))
            with (String (quote_char b') (l' ++ String (quote_char b') "") ++ render f)
            by (cbn [append]; rewrite append_assoc_s; reflexivity).
        rewrite (replace_pass _ _ _ _ _ A), IH'. cbn [render render_segment].
        rewrite !quote_is. reflexivity.
  Qed.

  Lemma separated_one : forall b l to f need, without_quotes to ->
    separated cls need f -> separated cls need (map (coded_one b l to) f).
  Proof.
    intros b l to f need T. revert need. induction f as [|[s|b' l'] f IH]; intros need S; cbn in *; [auto| |].
    - destruct S as [W S]. split; [exact W | apply IH; exact S].
    - destruct S as [-> [L S]]. destruct (Bool.eqb b b' && String.eqb l l').
      + cbn. split; [exact T|]. apply IH, separated_weaken. exact S.
      + cbn. split; [reflexivity|]. split; [exact L|]. apply IH. exact S.
  Qed.

  (** ** A list of labels and their replacements, in order *)
  Definition coded_with (code : string -> option string) (g : segment) : segment :=
    match g with
    | Text s => Text s
    | Quoted q l => match code l with Some to => Text to | None => Quoted q l end
    end.
  Fixpoint assoc (l : string) (ps : list (string * string)) : option string :=
    match ps with
    | [] => None
    | p :: r => if String.eqb l (fst p) then Some (snd p) else assoc l r
    end.

  Lemma replace_both : forall l to f, all_chars cls l = true -> without_quotes to ->
    separated cls false f ->
    replace_in_quotes (render f) l to =
    render (map (coded_with (fun x => if String.eqb x l then Some to else None)) f).
  Proof.
    intros l to f L T S. unfold replace_in_quotes.
    change single_quote with (quote true). change double_quote with (quote false).
    rewrite (replace_one true l to L f S).
    rewrite (replace_one false l to L) by (apply separated_one; assumption).
    rewrite map_map. f_equal. apply map_ext. intros [s|b l']; [reflexivity|]. cbn.
    rewrite (String.eqb_sym l' l).
    destruct b; cbn; destruct (String.eqb l l') eqn:E; cbn; rewrite ?E; reflexivity.
  Qed.

  Lemma separated_with : forall code f need, (forall l to, code l = Some to -> without_quotes to) ->
    separated cls need f -> separated cls need (map (coded_with code) f).
  Proof.
    intros code f need T. revert need. induction f as [|[s|b' l'] f IH]; intros need S; cbn in *; [auto| |].
    - destruct S as [W S]. split; [exact W | apply IH; exact S].
    - destruct S as [-> [L S]]. destruct (code l') as [to|] eqn:C.
      + cbn. split; [apply (T l'); exact C|]. apply IH, separated_weaken. exact S.
      + cbn. split; [reflexivity|]. split; [exact L|]. apply IH. exact S.
  Qed.

  Lemma replace_list : forall ps f,
    (forall p, In p ps -> all_chars cls (fst p) = true /\ without_quotes (snd p)) ->
    separated cls false f ->
    fold_left (fun f p => replace_in_quotes f (fst p) (snd p)) ps (render f) =
    render (map (coded_with (fun l => assoc l ps)) f).
  Proof.
    induction ps as [|p ps IH]; intros f P S.
    - cbn [fold_left]. f_equal. rewrite <- (map_id f) at 1. apply map_ext. intros [s|b l]; reflexivity.
    - cbn [fold_left]. destruct (P p (or_introl eq_refl)) as [P1 P2].
      rewrite replace_both by assumption. rewrite IH.
      + f_equal. rewrite map_map. apply map_ext. intros [s|b l]; [reflexivity|]. cbn [coded_with assoc].
        destruct (String.eqb l (fst p)); reflexivity.
      + intros p' I. apply P. right. exact I.
      + apply separated_with; [|exact S]. intros l to C. destruct (String.eqb l (fst p)); [|discriminate].
        inversion C; subst. exact P2.
  Qed.
End Formulas.

(** The replacements of the choices and the observables as one list. *)
Definition choice_pairs (choices : list string) : list (string * string) :=
  map (fun p => (snd p, dec (fst p))) (enumerate choices).
Definition level_pairs (ps : list (nat * level)) : list (string * string) :=
  flat_map (fun p => match snd p with Label s => [(s, dec (fst p))] | Number _ => [] end) ps.
Definition all_pairs (choices : list string) (observables : list (string * list level)) :=
  (choice_pairs choices ++ flat_map (fun o => level_pairs (enumerate (snd o))) observables)%list.

Lemma fold_left_flat_map : forall A B C (g : C -> B -> C) (h : A -> list B) l c,
  fold_left g (flat_map h l) c = fold_left (fun c a => fold_left g (h a) c) l c.
Proof.
  intros A B C g h. induction l as [|a l IH]; intros c; [reflexivity|].
  cbn. rewrite fold_left_app. apply IH.
Qed.

Lemma fold_left_ext2 : forall A B (g h : A -> B -> A) l a, (forall a b, g a b = h a b) -> fold_left g l a = fold_left h l a.
Proof. intros A B g h. induction l as [|b l IH]; intros a E; [reflexivity|]. cbn. rewrite E. apply IH, E. Qed.

Lemma replace_all_pairs : forall choices observables formula,
  replace_choices_and_observables choices observables formula =
  fold_left (fun f p => replace_in_quotes f (fst p) (snd p)) (all_pairs choices observables) formula.
Proof.
  intros choices observables formula. unfold replace_choices_and_observables, all_pairs.
  rewrite fold_left_app, fold_left_flat_map.
  replace (fold_left (fun f p => replace_in_quotes f (fst p) (snd p)) (choice_pairs choices) formula)
    with (fold_left (fun f p => replace_in_quotes f (snd p) (dec (fst p))) (enumerate choices) formula).
  - apply fold_left_ext2. intros f o. unfold level_pairs. rewrite fold_left_flat_map.
    apply fold_left_ext2. intros g [i [s|n]]; reflexivity.
  - unfold choice_pairs. generalize (enumerate choices) formula.
    induction l as [|p l IH]; intros g; [reflexivity|]. cbn. apply IH.
Qed.

Lemma assoc_app : forall l ps qs, assoc l (ps ++ qs) = match assoc l ps with Some x => Some x | None => assoc l qs end.
Proof.
  intros l. induction ps as [|p ps IH]; intros qs; [reflexivity|]. cbn. destruct (String.eqb l (fst p)); auto.
Qed.

Lemma assoc_choices : forall l choices k,
  assoc l (map (fun p => (snd p, dec (fst p))) (enumerate_from k choices)) = option_map dec (position l choices k).
Proof.
  intros l. induction choices as [|c r IH]; intros k; [reflexivity|]. cbn. destruct (String.eqb l c); [reflexivity | apply IH].
Qed.

Lemma assoc_levels : forall l levels k,
  assoc l (level_pairs (enumerate_from k levels)) = option_map dec (level_position l levels k).
Proof.
  intros l. induction levels as [|[s|n] r IH]; intros k; [reflexivity| |].
  - cbn. destruct (String.eqb l s); [reflexivity | apply IH].
  - cbn. apply IH.
Qed.

Lemma assoc_all : forall choices observables l,
  assoc l (all_pairs choices observables) = option_map dec (formula_code choices observables l).
Proof.
  intros choices observables l. unfold all_pairs, formula_code, choice_pairs, enumerate.
  rewrite assoc_app, assoc_choices. destruct (position l choices 0); [reflexivity|]. cbn [option_map].
  induction observables as [|o r IH]; [reflexivity|]. cbn [flat_map observable_code].
  rewrite assoc_app. unfold enumerate. rewrite assoc_levels.
  destruct (level_position l (snd o) 0); [reflexivity | exact IH].
Qed.

Lemma uint_no_quotes : forall u, without_quotes (DecimalString.NilEmpty.string_of_uint u).
Proof. unfold without_quotes. induction u; cbn; auto. Qed.
Lemma dec_no_quotes : forall n, without_quotes (dec n).
Proof. intros n. unfold dec. apply uint_no_quotes. Qed.

Lemma pairs_labels : forall choices observables p, In p (all_pairs choices observables) ->
  In (fst p) (labels_of choices observables) /\ without_quotes (snd p).
Proof.
  intros choices observables p I. unfold all_pairs, labels_of in *. rewrite in_app_iff in *.
  destruct I as [I|I].
  - unfold choice_pairs in I. apply in_map_iff in I. destruct I as [[i c] [<- I]]. cbn.
    split; [|apply dec_no_quotes]. left.
    assert (E : map snd (enumerate choices) = choices).
    { unfold enumerate. generalize 0. clear. induction choices as [|x r IH]; intros k; [reflexivity|].
      cbn. f_equal. apply IH. }
    rewrite <- E. apply in_map_iff. exists (i, c). auto.
  - apply in_flat_map in I. destruct I as [o [O I]]. unfold level_pairs in I. apply in_flat_map in I.
    destruct I as [[i [s|n]] [E I]]; [|destruct I]. destruct I as [<-|[]]. cbn.
    split; [|apply dec_no_quotes]. right. apply in_flat_map. exists o. split; [exact O|].
    apply in_flat_map. exists (Label s). split; [|left; reflexivity].
    assert (F : map snd (enumerate (snd o)) = snd o).
    { unfold enumerate. generalize 0. clear. induction (snd o) as [|x r IH]; intros k; [reflexivity|].
      cbn. f_equal. apply IH. }
    rewrite <- F. apply in_map_iff. exists (i, Label s). auto.
Qed.

Lemma formula_coded : forall cls choices observables f,
  (forall c, cls c = true -> is_quote c = false) ->
  (forall l, In l (labels_of choices observables) -> all_chars cls l = true) ->
  separated cls false f ->
  replace_choices_and_observables choices observables (render f) =
  render (map (coded (formula_code choices observables)) f).
Proof.
  intros cls choices observables f Q L S. rewrite replace_all_pairs.
  rewrite (replace_list cls Q).
  - f_equal. apply map_ext. intros [s|b l]; [reflexivity|]. cbn. rewrite assoc_all.
    destruct (formula_code choices observables l); reflexivity.
  - intros p I. destruct (pairs_labels _ _ _ I) as [I1 I2]. split; [apply L; exact I1 | exact I2].
  - exact S.
Qed.

Lemma many_levels : exists levels i l c,
  NoDup levels /\ nth_error levels i = Some l /\
  label_to_code levels l = Ok c /\ code_to_label levels c <> l.
Proof.
  exists (map Number (seq 0 257)), 256, (Number 256), 0.
  assert (N : NoDup (map Number (seq 0 257))).
  { apply FinFun.Injective_map_NoDup; [intros x y E; inversion E; reflexivity | apply seq_NoDup]. }
  assert (H : nth_error (map Number (seq 0 257)) 256 = Some (Number 256)) by reflexivity.
  split; [exact N|]. split; [exact H|]. split.
  - rewrite (label_to_code_known _ _ _ N H). reflexivity.
  - vm_compute. discriminate.
Qed.
