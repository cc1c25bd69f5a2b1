(** Two models that are specified in one session. *)
From Coq Require Import List Arith Bool String Lia.
From Verif Require Import Base Model_Session Spec_Session.
Import ListNotations.
Open Scope string_scope.
Open Scope list_scope.

(** Objects 0 to 2 are the default options, objects 3 and 4 the options of a user who does
    not mention restrictions and objects 5 to 7 those of a user who restricts working. *)
Definition ss_heap : heap :=
  [ Texts []; Restrictions []; Options (mkEntries None (Some 0) (Some 1) [("solution_seed", "3"); ("n_draws", "200")]);
    Formulas [("not_home", "lagged != 'home'"); ("unused", "period")]; Options (mkEntries (Some 3) None None [("solution_seed", "9")]);
    Texts ["lagged == 'home'"]; Restrictions [("home", 5); ("work", 5)]; Options (mkEntries (Some 3) None (Some 6) []) ].
Definition ss_codes (f : string) : string :=
  if string_dec f "lagged != 'home'" then "lagged != 1" else if string_dec f "lagged == 'home'" then "lagged == 1" else f.
Definition ss_params : parameters :=
  mkParameters (fun cov => Ok (firstn 1 cov))
    (fun _ => Ok (mkParsed [("work", "exp_work == 5")] ["home"] [("type_1", "type == 1")] ss_codes (fun fs => Ok fs))).
Definition ss_school : parameters :=
  mkParameters (fun cov => Ok cov)
    (fun _ => Ok (mkParsed [("school", "False")] [] [] ss_codes (fun fs => Ok ("~(lagged == 7)" :: fs)))).

Definition ss_defaults : contents := mkContents None (Some []) (Some []) [("solution_seed", "3"); ("n_draws", "200")].
Definition ss_user : contents := mkContents (Some [("not_home", "lagged != 'home'"); ("unused", "period")]) None None [("solution_seed", "9")].
Definition ss_first : contents :=
  mkContents (Some [("not_home", "lagged != 1"); ("type_1", "type == 1")]) (Some [])
    (Some [("work", ["exp_work == 5"]); ("home", ["False"])]) [("solution_seed", "9"); ("n_draws", "200")].
Definition ss_second : contents :=
  mkContents (Some [("not_home", "lagged != 1"); ("type_1", "type == 1")]) (Some [])
    (Some [("home", ["lagged == 1"]); ("work", ["lagged == 1"; "exp_work == 5"])]) [("solution_seed", "3"); ("n_draws", "200")].

Lemma ss_inputs : seen ss_heap 2 = Ok ss_defaults /\ seen ss_heap 4 = Ok ss_user.
Proof. split; vm_compute; reflexivity. Qed.
Lemma ss_observed : observed (process 2 ss_params 4 ss_heap) = Ok ss_first /\ observed (process 2 ss_params 7 ss_heap) = Ok ss_second.
Proof. split; vm_compute; reflexivity. Qed.
Definition ss_address : nat := 20.
Lemma ss_events : Forall (new_object (List.length ss_heap)) [Specify ss_school 4; Specify ss_params 7; Change ss_address (Texts [])].
Proof.
  constructor; [left; eexists; eexists; reflexivity|]. constructor; [left; eexists; eexists; reflexivity|].
  constructor; [|constructor]. right. eexists. eexists. split; [reflexivity|]. vm_compute. lia.
Qed.
(** The user changes own options after the model has been specified. *)
Lemma ss_old : Forall (old_object (List.length ss_heap)) [Change 3 (Formulas []); Specify ss_school 7; Change 1 (Restrictions [("work", 0)])].
Proof.
  constructor; [right; eexists; eexists; split; [reflexivity|vm_compute; lia]|].
  constructor; [left; eexists; eexists; reflexivity|].
  constructor; [right; eexists; eexists; split; [reflexivity|vm_compute; lia]|constructor].
Qed.
