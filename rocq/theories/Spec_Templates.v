(** What is claimed about the templates of filters. *)
From Coq Require Import List Arith Bool String Ascii.
From Verif Require Import Base Model_Strings Model_Choices Spec_Choices.
Import ListNotations.
Open Scope string_scope.

(** Groups of choices that a placeholder can stand for. *)
Inductive group := WithExperience | WithoutExperience | WithWage.
Definition placeholder (g : group) : string :=
  match g with
  | WithExperience => "{choices_w_exp}"
  | WithoutExperience => "{choices_wo_exp}"
  | WithWage => "{choices_w_wage}"
  end.
Definition choices_of (pc : parsed_choices) (g : group) : list string :=
  match g with
  | WithExperience => pc_choices_w_exp pc
  | WithoutExperience => pc_choices_wo_exp pc
  | WithWage => pc_choices_w_wage pc
  end.

(** A filter: text, quoted labels, and placeholders, plain or in quotes. *)
Inductive piece :=
| Plain (s : string)
| Labelled (single : bool) (label : string)
| Slot
| QuotedSlot (single : bool).
Definition render_piece (g : group) (p : piece) : string :=
  match p with
  | Plain s => s
  | Labelled q l => quote q ++ l ++ quote q
  | Slot => placeholder g
  | QuotedSlot q => quote q ++ placeholder g ++ quote q
  end.
Fixpoint render_template (g : group) (t : list piece) : string :=
  match t with [] => "" | p :: r => render_piece g p ++ render_template g r end.

(** The filter for one choice. *)
Definition instantiate (c : string) (p : piece) : segment :=
  match p with
  | Plain s => Text s
  | Labelled q l => Quoted q l
  | Slot => Text c
  | QuotedSlot q => Quoted q c
  end.

Definition is_slot (p : piece) : bool :=
  match p with Slot | QuotedSlot _ => true | _ => false end.
Definition has_slot (t : list piece) : bool := existsb is_slot t.

Definition without_braces (s : string) : Prop := all_chars (fun c => negb (Ascii.eqb "{" c)) s = true.
(** No braces but those of the placeholders. *)
Definition plain_piece (p : piece) : Prop :=
  match p with Plain s => without_braces s | Labelled _ l => without_braces l | _ => True end.

(** The filters a template stands for: one per choice of the group, or itself without a
    placeholder. *)
Definition stands_for (pc : parsed_choices) (observables : list (string * list level))
  (g : group) (t : list piece) : list string :=
  map (fun c => render (map (coded (formula_code (pc_choices pc) observables))
                            (map (instantiate c) t)))
      (if has_slot t then choices_of pc g else [""]).

(** Well-formed templates: the labels are separated as in C45 for every choice, and there
    are no other braces. *)
Definition wf_template (cls : ascii -> bool) (pc : parsed_choices) (g : group) (t : list piece)
  : Prop :=
  Forall plain_piece t /\
  (forall c, In c (choices_of pc g) -> without_braces c /\ separated cls false (map (instantiate c) t)) /\
  (has_slot t = false -> separated cls false (map (instantiate "") t)).
