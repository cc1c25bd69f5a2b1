(** Model of the solve function as an object with state.  Definitions only. *)
From Coq Require Import List Arith Bool Reals.
From Verif Require Import Base Model_CoreStateSpace Model_StateSpace Model_Solve.
Import ListNotations.

(** The heap: the mutable part (expected value functions) of the state space objects,
    addressed by position. *)
Definition heap := list (list (list R)).

(** state_space.py:404-405: the loop over the keys; what has been written before an
    exception stays. *)
Fixpoint write_values (vals : list (nat * list R)) (ev : list (list R))
  : list (list R) * result unit :=
  match vals with
  | [] => (ev, Ok tt)
  | (k, arr) :: r => match set_ev ev k arr with
                     | Ok ev' => write_values r ev'
                     | e => (ev, result_bind e (fun _ => Ok tt))
                     end
  end.

(** solve.py:166-210: the loop over the periods, in place. *)
Fixpoint run_periods (ss : state_space) (inp : inputs) (periods : list nat)
  (ev : list (list R)) : list (list R) * result unit :=
  match periods with
  | [] => (ev, Ok tt)
  | p :: r => match period_values ss inp ev p with
              | Ok vals => match write_values vals ev with
                           | (ev', Ok _) => run_periods ss inp r ev'
                           | e => e
                           end
              | e => (ev, result_bind e (fun _ => Ok tt))
              end
  end.

(** solve.py:20-51 (get_solve_func): allocates one state space; the returned function is
    identified with the address of the object. *)
Definition get_solve_func (ss : state_space) (h : heap) : heap * nat :=
  (h ++ [initial_ev ss], length h).

(** solve.py:54-78 (solve): the object bound by [partial] is changed in place and
    returned; [inp] is what the call's params determine. *)
Definition solve_call (ss : state_space) (inp : inputs) (h : heap) (addr : nat)
  : heap * result nat :=
  match nth_error h addr with
  | None => (h, OtherError)
  | Some ev => let r := run_periods ss inp (rev (seq 0 (ss_nperiods ss))) ev in
               (set_nth addr (fst r) h, result_bind (snd r) (fun _ => Ok addr))
  end.

(** A sequence of calls of one solve function; the results of the calls. *)
Fixpoint solve_calls (ss : state_space) (inps : list inputs) (h : heap) (addr : nat)
  : heap * list (result nat) :=
  match inps with
  | [] => (h, [])
  | inp :: r => let c := solve_call ss inp h addr in
                let rest := solve_calls ss r (fst c) addr in
                (fst rest, snd c :: snd rest)
  end.
