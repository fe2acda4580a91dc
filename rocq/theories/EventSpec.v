(** Specification of an event schedule: a queue kept in time order in which a new
    event goes behind all events of the same time.  It knows nothing of heaps and
    insertion counters. *)
From Coq Require Import NArith.
From Verif Require Import Cpp EventModel.

Section Spec.
  Context {P : Type}.

  (** Stable insertion: behind every event whose time is not later. *)
  Fixpoint insert_by_time (t : Z) (p : P) (q : list (Z * P)) : list (Z * P) :=
    match q with
    | [] => [(t, p)]
    | (t', p') :: q' =>
        if (t' <=? t)%Z then (t', p') :: insert_by_time t p q'
        else (t, p) :: q
    end.

  (** [left] events may still be scheduled; [q] is the queue.  The run returns the
      final queue, the events accepted, and the events popped.  Popping an empty
      queue is undefined. *)
  Fixpoint spec_run (left : N) (q : list (Z * P)) (ops : list (op P))
    : outcome (list (Z * P) * list (Z * P) * list (Z * P)) :=
    match ops with
    | [] => Ok (q, [], [])
    | Schedule t p :: ops' =>
        if (left =? 0)%N then spec_run left q ops'
        else
          let* (q', sched, popped) := spec_run (left - 1) (insert_by_time t p q) ops' in
          Ok (q', (t, p) :: sched, popped)
    | Pop :: ops' =>
        match q with
        | [] => UB
        | e :: q1 =>
            let* (q', sched, popped) := spec_run left q1 ops' in
            Ok (q', sched, e :: popped)
        end
    end.

  (** The events of a list that carry time [t], in order. *)
  Definition at_time (t : Z) (l : list (Z * P)) : list (Z * P) :=
    filter (fun e => (fst e =? t)%Z) l.

  (** In order of time: no event precedes one with an earlier time. *)
  Definition time_ordered (l : list (Z * P)) : Prop :=
    forall i j a b, (i < j)%nat -> nth_error l i = Some a -> nth_error l j = Some b ->
      (fst a <= fst b)%Z.
End Spec.
