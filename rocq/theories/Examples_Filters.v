(** Concrete models with filters. *)
From Coq Require Import List Arith Bool Lia.
From Verif Require Import Base Proof_Base Model_CoreStateSpace Spec_CoreStateSpace
  Proof_CoreStateSpace Model_StateSpace Spec_StateSpace Proof_StateSpace Spec_Filters Proof_Filters.
Import ListNotations.

(** kw_94_one.yaml:11-24 with the choices a, b, edu (with experience) and home, four
    periods and schooling up to two more years than the initial ten. *)
Definition kw_filters : list (core_state -> bool) :=
  map always_but_last [0; 1; 2] ++ [experienced_but_last 3]
  ++ [last_without_experience_later 2] ++ map last_without_experience [0; 1]
  ++ map last_before_start [0; 1].
Definition kw_sp : core_spec := mkSpec 4 [[0]; [0]; [10]] [3; 3; 12] 4 1 kw_filters.
Lemma kw_sp_wf : wf_spec kw_sp.
Proof. unfold kw_sp. solve_wf. Qed.
Lemma kw_usual : forall f, In f (sp_filters kw_sp) -> usual_filter kw_sp f.
Proof.
  intros f H. simpl in H.
  repeat (destruct H as [<-|H];
    [first [ exists 0; left; split; [simpl; lia|]; first [left; reflexivity | right; left; reflexivity | right; right; reflexivity]
           | exists 1; left; split; [simpl; lia|]; first [left; reflexivity | right; left; reflexivity | right; right; reflexivity]
           | exists 2; left; split; [simpl; lia|]; first [left; reflexivity | right; left; reflexivity | right; right; reflexivity]
           | exists 3; right; left; split; [simpl; lia|]; reflexivity
           | exists 0; right; right; reflexivity
           | exists 1; right; right; reflexivity ]|]).
  destruct H.
Qed.

(** robinson_crusoe_extended.yaml:14-37 with the choices fishing, friday (with experience)
    and hammock. *)
Definition fishing (s : core_state) := nth 0 (cs_exp s) 0.
Definition friday (s : core_state) := nth 1 (cs_exp s) 0.
Definition rc_filters : list (core_state -> bool) :=
  [ fun s => (0 <? cs_period s) && (fishing s + friday s =? cs_period s) && lag_is 2 s;
    fun s => (cs_period s <=? 2) && negb (friday s =? 0);
    fun s => (3 <=? cs_period s) && (cs_period s - friday s <? 2);
    fun s => (0 <? friday s) && (fishing s =? 0);
    fun s => (0 <? friday s) && (fishing s =? 1) && lag_is 0 s;
    fun s => (cs_period s - friday s =? 2) && negb (lag_is 1 s) && (2 <? cs_period s);
    fun s => (fishing s =? 0) && lag_is 0 s;
    fun s => (friday s =? 0) && lag_is 1 s ].
Definition rc_sp : core_spec := mkSpec 10 [[0]; [0]] [9; 9] 3 1 rc_filters.
Definition rc_neg : neg_set := fun c =>
  if c =? 1 then Some [ (fun _ => Some (fun s => cs_period s <? 2));
                        (fun _ => Some (fun s => fishing s =? 0)) ]
  else None.
Lemma rc_sp_wf : wf_spec rc_sp.
Proof. unfold rc_sp. solve_wf. Qed.
Lemma rc_closed :
  closed_under_choices 10 (create_core_state_space rc_sp)
    (choice_set_of rc_sp (process rc_sp 1 rc_neg)).
Proof.
  apply closed_by_compute; [reflexivity|]. vm_compute. reflexivity.
Qed.
