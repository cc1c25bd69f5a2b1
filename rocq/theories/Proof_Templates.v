(** Proofs about the templates of filters. *)
From Coq Require Import List Arith Bool Lia String Ascii.
From Verif Require Import Base Proof_Base Model_Strings Proof_Strings Model_Choices Spec_Choices
  Proof_Labels Spec_Templates.
Import ListNotations.
Open Scope string_scope.

Lemma contains_pass : forall x p u r, all_chars (fun c => negb (Ascii.eqb x c)) u = true ->
  contains (String x p) (u ++ r) = contains (String x p) r.
Proof.
  intros x p. induction u as [|c u IH]; intros r H; [reflexivity|].
  cbn in H. apply andb_true_iff in H. destruct H as [C H].
  cbn [append contains].
  change (prefix (String x p) (String c (u ++ r))) with (if ascii_dec x c then prefix p (u ++ r) else false).
  destruct (ascii_dec x c) as [->|N].
  - rewrite Ascii.eqb_refl in C. discriminate.
  - cbn. apply IH, H.
Qed.

Lemma contains_empty : forall x p, contains (String x p) "" = false.
Proof. reflexivity. Qed.

Lemma quote_no_braces : forall q, without_braces (quote q).
Proof. intros [|]; reflexivity. Qed.

(** The names of the placeholders after the brace. *)
Definition inner (g : group) : string :=
  match g with
  | WithExperience => "choices_w_exp}"
  | WithoutExperience => "choices_wo_exp}"
  | WithWage => "choices_w_wage}"
  end.
Lemma placeholder_inner : forall g, placeholder g = String "{" (inner g).
Proof. intros [| |]; reflexivity. Qed.
Lemma inner_no_braces : forall g, without_braces (inner g).
Proof. intros [| |]; reflexivity. Qed.

Lemma prefix_own : forall g r, prefix (String "{" (inner g)) (placeholder g ++ r) = true.
Proof. intros g r. rewrite <- placeholder_inner. apply prefix_iff. exists r. reflexivity. Qed.
Lemma prefix_known : forall g g',
  exists b, forall r, prefix (String "{" (inner g')) (placeholder g ++ r) = b.
Proof.
  intros g g'.
  destruct g, g'; first [exists true; apply prefix_own | exists false; reflexivity].
Qed.

Lemma contains_slot : forall p g r,
  contains (String "{" p) (placeholder g ++ r) =
  prefix (String "{" p) (placeholder g ++ r) || contains (String "{" p) r.
Proof.
  intros p g r. rewrite placeholder_inner. cbn [append contains]. f_equal.
  apply contains_pass, inner_no_braces.
Qed.

Lemma contains_render : forall p g t b, Forall plain_piece t ->
  (forall r, prefix (String "{" p) (placeholder g ++ r) = b) ->
  contains (String "{" p) (render_template g t) = b && has_slot t.
Proof.
  intros p g t b P B. induction P as [|x t X P IH].
  - cbn. rewrite andb_false_r. reflexivity.
  - cbn [render_template].
    destruct x as [s|q l| |q]; cbn [render_piece plain_piece] in *;
      cbn [has_slot existsb is_slot orb].
    + rewrite contains_pass by exact X. exact IH.
    + rewrite !append_assoc_s. rewrite contains_pass by apply quote_no_braces.
      rewrite contains_pass by exact X. rewrite contains_pass by apply quote_no_braces. exact IH.
    + rewrite contains_slot, B, IH. destruct b, (has_slot t); reflexivity.
    + rewrite !append_assoc_s. rewrite contains_pass by apply quote_no_braces.
      rewrite contains_slot, B. rewrite contains_pass by apply quote_no_braces. rewrite IH.
      destruct b, (has_slot t); reflexivity.
Qed.

Lemma replace_render : forall g t c, Forall plain_piece t ->
  replace (placeholder g) c (render_template g t) = render (map (instantiate c) t).
Proof.
  intros g t c P. unfold replace. induction P as [|x t X P IH]; [reflexivity|].
  cbn [render_template map render].
  destruct x as [s|q l| |q]; cbn [render_piece plain_piece instantiate render_segment] in *.
  - rewrite placeholder_inner in *. rewrite replace_pass by exact X. rewrite IH. reflexivity.
  - rewrite placeholder_inner in *. rewrite !append_assoc_s.
    rewrite replace_pass by apply quote_no_braces. rewrite replace_pass by exact X.
    rewrite replace_pass by apply quote_no_braces. rewrite IH. reflexivity.
  - rewrite placeholder_inner in *. rewrite replace_hit, IH. reflexivity.
  - rewrite placeholder_inner in *. rewrite !append_assoc_s.
    rewrite replace_pass by apply quote_no_braces. rewrite replace_hit.
    rewrite replace_pass by apply quote_no_braces. rewrite IH. reflexivity.
Qed.

Lemma render_no_slot : forall g t c, has_slot t = false ->
  render_template g t = render (map (instantiate c) t).
Proof.
  intros g t c. induction t as [|x t IH]; [reflexivity|].
  destruct x as [s|q l| |q]; cbn [has_slot existsb is_slot orb]; intros H; try discriminate;
    cbn [render_template map render instantiate render_piece render_segment];
    rewrite IH by exact H; reflexivity.
Qed.

Lemma template_converted : forall cls pc observables g t,
  (forall c, cls c = true -> is_quote c = false) ->
  (forall l, In l (labels_of (pc_choices pc) observables) -> all_chars cls l = true) ->
  wf_template cls pc g t ->
  convert_filter pc observables (render_template g t) = Ok (stands_for pc observables g t).
Proof.
  intros cls pc observables g t Q L [P [C N]]. unfold convert_filter, stands_for.
  rewrite (contains_render "i}" g t false P) by (destruct g; reflexivity).
  rewrite (contains_render "j}" g t false P) by (destruct g; reflexivity).
  rewrite (contains_render "k}" g t false P) by (destruct g; reflexivity).
  cbn [orb andb].
  assert (X : map (fun c => replace_choices_and_observables (pc_choices pc) observables
                 (replace (placeholder g) c (render_template g t))) (choices_of pc g) =
    map (fun c => render (map (coded (formula_code (pc_choices pc) observables)) (map (instantiate c) t)))
        (choices_of pc g)).
  { apply map_ext_in. intros c Hc. rewrite replace_render by exact P.
    apply (formula_coded cls); auto. apply C, Hc. }
  destruct (has_slot t) eqn:E.
  - destruct g.
    + rewrite (contains_render "choices_w_exp}" _ t true P) by apply (prefix_own WithExperience).
      rewrite E. cbn [andb]. f_equal. exact X.
    + rewrite (contains_render "choices_w_exp}" _ t false P) by reflexivity.
      rewrite (contains_render "choices_wo_exp}" _ t true P) by apply (prefix_own WithoutExperience).
      rewrite E. cbn [andb]. f_equal. exact X.
    + rewrite (contains_render "choices_w_exp}" _ t false P) by reflexivity.
      rewrite (contains_render "choices_wo_exp}" _ t false P) by reflexivity.
      rewrite (contains_render "choices_w_wage}" _ t true P) by apply (prefix_own WithWage).
      rewrite E. cbn [andb]. f_equal. exact X.
  - assert (B : forall b, b && has_slot t = false) by (intros b; rewrite E; apply andb_false_r).
    assert (Y : forall g', contains (placeholder g') (render_template g t) = false).
    { intros g'. rewrite placeholder_inner.
      assert (Z : exists b, forall r, prefix (String "{" (inner g')) (placeholder g ++ r) = b)
        by apply prefix_known.
      destruct Z as [b Z]. rewrite (contains_render _ g t b P Z). apply B. }
    pose proof (Y WithExperience) as Y1. pose proof (Y WithoutExperience) as Y2.
    pose proof (Y WithWage) as Y3. cbn [placeholder] in Y1, Y2, Y3.
    rewrite Y1, Y2, Y3. cbn [map]. do 2 f_equal.
    rewrite (render_no_slot g t "" E). apply (formula_coded cls); auto.
Qed.

(** ** Processing the filters again *)
Lemma separated_relax : forall cls f b, separated cls b f -> separated cls false f.
Proof.
  intros cls. induction f as [|[s|q l] r IH]; intros b H; cbn in *; auto.
  - destruct H as [H1 H2]. split; [exact H1|]. eapply IH. exact H2.
  - destruct H as [_ H]. split; [reflexivity|exact H].
Qed.

Lemma separated_coded : forall cls code f b, separated cls b f ->
  separated cls b (map (coded code) f).
Proof.
  intros cls code. induction f as [|[s|q l] r IH]; intros b H; cbn in *; auto.
  - destruct H as [H1 H2]. split; [exact H1|]. apply IH, H2.
  - destruct H as [-> [H1 H2]]. destruct (code l); cbn.
    + split; [apply dec_no_quotes|]. eapply separated_relax. apply IH. exact H2.
    + auto.
Qed.

(** A formula as a template without placeholders. *)
Definition as_template (f : list segment) : list piece :=
  map (fun s => match s with Text u => Plain u | Quoted q l => Labelled q l end) f.

Lemma as_template_no_slot : forall f, has_slot (as_template f) = false.
Proof. induction f as [|[s|q l] r IH]; [reflexivity| |]; exact IH. Qed.
Lemma as_template_instantiate : forall c f, map (instantiate c) (as_template f) = f.
Proof.
  intros c. induction f as [|[s|q l] r IH]; [reflexivity| |]; cbn; f_equal; exact IH.
Qed.
Lemma as_template_render : forall g f, render_template g (as_template f) = render f.
Proof.
  intros g f. rewrite (render_no_slot g _ "" (as_template_no_slot f)), as_template_instantiate.
  reflexivity.
Qed.

Lemma uint_no_braces : forall u, without_braces (DecimalString.NilEmpty.string_of_uint u).
Proof. unfold without_braces. induction u; cbn; auto. Qed.
Lemma dec_no_braces : forall n, without_braces (Model_Cache.dec n).
Proof. intros n. unfold Model_Cache.dec. apply uint_no_braces. Qed.

Lemma plain_coded : forall code c t, Forall plain_piece t -> without_braces c ->
  Forall plain_piece (as_template (map (coded code) (map (instantiate c) t))).
Proof.
  intros code c t P B. induction P as [|x t X P IH]; [constructor|].
  cbn. constructor; [|exact IH].
  destruct x as [s|q l| |q]; cbn in *; auto; destruct (code _); cbn; auto; apply dec_no_braces.
Qed.

Lemma coded_twice : forall code f, map (coded code) (map (coded code) f) = map (coded code) f.
Proof.
  intros code. induction f as [|[s|q l] r IH]; [reflexivity| |]; cbn.
  - f_equal. exact IH.
  - rewrite IH. f_equal. destruct (code l) as [i|] eqn:E; cbn; [reflexivity|]. rewrite E. reflexivity.
Qed.

Lemma converted_again : forall cls pc observables g t f,
  (forall c, cls c = true -> is_quote c = false) ->
  (forall l, In l (labels_of (pc_choices pc) observables) -> all_chars cls l = true) ->
  wf_template cls pc g t -> In f (stands_for pc observables g t) ->
  convert_filter pc observables f = Ok [f].
Proof.
  intros cls pc observables g t f Q L [P [C N]] I. unfold stands_for in I.
  apply in_map_iff in I. destruct I as [c [<- I]].
  assert (BS : without_braces c /\ separated cls false (map (instantiate c) t)).
  { destruct (has_slot t) eqn:E; [apply C, I|]. destruct I as [<-|[]].
    split; [reflexivity | apply N; reflexivity]. }
  destruct BS as [B S]. set (code := formula_code (pc_choices pc) observables).
  set (h := map (coded code) (map (instantiate c) t)).
  assert (PT : Forall plain_piece (as_template h)) by (apply plain_coded; assumption).
  assert (ST : separated cls false h) by (apply separated_coded, S).
  rewrite <- (as_template_render WithExperience h).
  assert (NS : forall g', contains (placeholder g') (render_template WithExperience (as_template h)) = false).
  { intros g'. rewrite placeholder_inner.
    assert (Z : exists b, forall r, prefix (String "{" (inner g')) (placeholder WithExperience ++ r) = b)
      by apply prefix_known.
    destruct Z as [b Z]. rewrite (contains_render _ _ _ b PT Z), as_template_no_slot.
    apply andb_false_r. }
  unfold convert_filter.
  rewrite (contains_render "i}" _ _ false PT) by reflexivity.
  rewrite (contains_render "j}" _ _ false PT) by reflexivity.
  rewrite (contains_render "k}" _ _ false PT) by reflexivity.
  cbn [orb andb].
  pose proof (NS WithExperience) as Y1. pose proof (NS WithoutExperience) as Y2.
  pose proof (NS WithWage) as Y3. cbn [placeholder] in Y1, Y2, Y3.
  rewrite Y1, Y2, Y3. do 2 f_equal. rewrite as_template_render.
  rewrite (formula_coded cls) by auto. fold code. unfold h. rewrite coded_twice. reflexivity.
Qed.

Lemma all_again : forall A (conv : A -> result (list A)) l,
  (forall a, In a l -> conv a = Ok [a]) ->
  result_bind (result_all (map conv l)) (fun ls => Ok (List.concat ls)) = Ok l.
Proof.
  intros A conv. induction l as [|a l IH]; intros H; [reflexivity|].
  cbn [map result_all]. rewrite (H a (or_introl eq_refl)). cbn [result_bind].
  specialize (IH (fun x I => H x (or_intror I))).
  destruct (result_all (map conv l)) as [ls| | | | |]; try discriminate IH.
  cbn in *. inversion IH as [E]. reflexivity.
Qed.

Lemma filters_converted : forall cls pc observables ts,
  (forall c, cls c = true -> is_quote c = false) ->
  (forall l, In l (labels_of (pc_choices pc) observables) -> all_chars cls l = true) ->
  (forall g t, In (g, t) ts -> wf_template cls pc g t) ->
  convert_filters pc observables (map (fun gt => render_template (fst gt) (snd gt)) ts) =
  Ok (List.concat (map (fun gt => stands_for pc observables (fst gt) (snd gt)) ts)).
Proof.
  intros cls pc observables ts Q L W. unfold convert_filters.
  assert (X : result_all (map (convert_filter pc observables)
     (map (fun gt => render_template (fst gt) (snd gt)) ts)) =
     Ok (map (fun gt => stands_for pc observables (fst gt) (snd gt)) ts)).
  { induction ts as [|[g t] ts IH]; [reflexivity|]. cbn [map result_all fst snd].
    rewrite (template_converted cls) by (auto; apply W; left; reflexivity). cbn [result_bind].
    rewrite IH; [reflexivity|]. intros; apply W; right; assumption. }
  rewrite X. reflexivity.
Qed.

Lemma filters_converted_again : forall cls pc observables ts fs,
  (forall c, cls c = true -> is_quote c = false) ->
  (forall l, In l (labels_of (pc_choices pc) observables) -> all_chars cls l = true) ->
  (forall g t, In (g, t) ts -> wf_template cls pc g t) ->
  convert_filters pc observables (map (fun gt => render_template (fst gt) (snd gt)) ts) = Ok fs ->
  convert_filters pc observables fs = Ok fs.
Proof.
  intros cls pc observables ts fs Q L W E. rewrite (filters_converted cls) in E by auto.
  inversion E; subst fs. clear E. apply all_again. intros f I.
  apply in_concat in I. destruct I as [l [I If]]. apply in_map_iff in I.
  destruct I as [[g t] [<- I]]. eapply converted_again; eauto.
Qed.

Lemma old_placeholders : forall pc observables f x,
  In x ["{i}"; "{j}"; "{k}"] -> contains x f = true -> convert_filter pc observables f = ValueError.
Proof.
  intros pc observables f x I H. unfold convert_filter.
  destruct I as [<-|[<-|[<-|[]]]]; rewrite H; rewrite ?orb_true_r; reflexivity.
Qed.
