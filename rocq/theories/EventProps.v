(** Property theorems C01-C03: EventSchedule. *)
From Coq Require Import NArith Permutation.
From Verif Require Import Cpp EventModel EventSpec EventProofs.

(** * C01
    After any history, emptying the schedule yields the pending events in time
    order, the next one being top_event; and for every time the events popped so
    far followed by those pending are the scheduled ones in schedule order. *)

Theorem c01_time_order_fifo : forall (P : Type) max ops s sched popped,
  run max (@new_schedule P) ops = Ok (s, sched, popped) ->
  exists s' pending,
    run max s (repeat Pop (size s)) = Ok (s', [], pending) /\ size s' = 0 /\
    time_ordered pending /\
    (forall t, at_time t (popped ++ pending) = at_time t sched) /\
    Permutation sched (popped ++ pending) /\
    length pending = size s /\
    (forall e rest, pending = e :: rest -> top_event s = Ok e).
Proof. exact (fun P => @schedule_order P). Qed.

(** Every history behaves as on a list kept in stable time order: same events
    accepted, same events popped in the same order, same size, and undefined
    behaviour in the same histories (those that pop an empty schedule). *)
Theorem c01_refines_stable_queue : forall (P : Type) max ops,
  match spec_run max [] ops, run max (@new_schedule P) ops with
  | Ok (q, sched, popped), Ok (s, sched', popped') =>
      sched' = sched /\ popped' = popped /\ size s = length q
  | UB, UB => True
  | _, _ => False
  end.
Proof. exact (fun P => @run_matches_spec P). Qed.

Example c01_example : exists s,
  run 100 new_schedule
    [Schedule 3 1; Schedule 2 2; Schedule 3 3; Pop; Schedule 1 4; Schedule 3 5; Pop; Pop]
  = Ok (s, [(3%Z, 1); (2%Z, 2); (3%Z, 3); (1%Z, 4); (3%Z, 5)], [(2%Z, 2); (1%Z, 4); (3%Z, 1)])
  /\ size s = 2 /\ top_event s = Ok (3%Z, 3).
Proof. eexists. vm_compute. repeat split. Qed.

(** * C02
    Nothing is lost or duplicated: scheduled events are the popped ones together
    with those still inside, whose number is size(). *)

Theorem c02_conservation : forall (P : Type) max ops s sched popped,
  run max (@new_schedule P) ops = Ok (s, sched, popped) ->
  exists s' pending,
    run max s (repeat Pop (size s)) = Ok (s', [], pending) /\
    Permutation sched (popped ++ pending) /\
    size s + length popped = length sched.
Proof.
  intros P max ops s sched popped H.
  destruct (schedule_order max ops s sched popped H) as (s' & q & H1 & _ & _ & _ & H2 & H3 & _).
  exists s', q. split; [exact H1|]. split; [exact H2|].
  apply Permutation_length in H2. rewrite app_length in H2. lia.
Qed.

Example c02_example : exists s,
  run 100 new_schedule [Schedule 3 1; Schedule 2 2; Pop] = Ok (s, [(3%Z, 1); (2%Z, 2)], [(2%Z, 2)]).
Proof. eexists. vm_compute. reflexivity. Qed.

(** * C03
    At most MAX_EVENTS events are accepted over the whole life of the schedule,
    and schedule_event throws exactly when that many have been accepted.  (The
    caller that catches the exception goes on with the schedule unchanged: see
    [run].  The order theorem C01 covers these histories too.) *)

Theorem c03_lifetime_bound : forall (P : Type) max ops s sched popped t p,
  run max (@new_schedule P) ops = Ok (s, sched, popped) ->
  (N.of_nat (length sched) <= max)%N /\
  (schedule_event max s t p = Throw <-> N.of_nat (length sched) = max) /\
  schedule_event max s t p <> UB.
Proof. exact (fun P => @schedule_bound P). Qed.

Example c03_example : exists s,
  run 2 new_schedule [Schedule 3 1; Schedule 2 2; Pop; Schedule 1 3]
  = Ok (s, [(3%Z, 1); (2%Z, 2)], [(2%Z, 2)]) /\ schedule_event 2 s 0 4 = Throw.
Proof. eexists. vm_compute. split; reflexivity. Qed.

Print Assumptions c01_time_order_fifo.
Print Assumptions c01_refines_stable_queue.
Print Assumptions c02_conservation.
Print Assumptions c03_lifetime_bound.
