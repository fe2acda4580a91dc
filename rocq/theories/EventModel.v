(** Model of resim/time/event_schedule.hh: EventSchedule<Payload, Count_t>.

    The event queue is a std::priority_queue over a std::vector
    (event_schedule.hh:76-77).  Its push and pop are the array heap algorithms of
    libstdc++ (bits/stl_heap.h: __push_heap, __adjust_heap, __pop_heap), which are
    transcribed here because the order of equal elements depends on them.
    Simplification: allocation failure is not modelled, and moving an element is
    copying it. *)
From Coq Require Import NArith.
From Verif Require Import Cpp.

Section Heap.
  Context {A : Type}.
  (** The comparison object handed to the algorithms: [comp a b] means that [a]
      comes after [b] (event_schedule.hh:118-127 for the one in use). *)
  Context (comp : A -> A -> bool).

  (** Assignment to an element of a vector, *(first + i) = x.  Out of range it
      does nothing here; the algorithms below never do that. *)
  Fixpoint upd (l : list A) (i : nat) (x : A) : list A :=
    match l, i with
    | [], _ => []
    | _ :: l', O => x :: l'
    | a :: l', S i' => a :: upd l' i' x
    end.

  (** The loop of bits/stl_heap.h __push_heap with topIndex 0: move the hole up
      while the parent comes after [value].  The hole index at least halves, so
      [fuel] > hole suffices; see [push_heap]. *)
  Fixpoint push_up (fuel : nat) (l : list A) (hole : nat) (value : A) : list A :=
    match fuel with
    | O => upd l hole value
    | S fuel' =>
        if Nat.eqb hole 0 then upd l hole value
        else
          let parent := Nat.div (hole - 1) 2 in
          match nth_error l parent with
          | None => l
          | Some p =>
              if comp p value then push_up fuel' (upd l hole p) parent value
              else upd l hole value
          end
    end.

  (** std::push_heap on the range [l ++ [value]] (bits/stl_heap.h push_heap),
      preceded by the emplace_back of std::priority_queue::emplace. *)
  Definition emplace (l : list A) (value : A) : list A :=
    push_up (S (length l)) (l ++ [value]) (length l) value.

  (** The first loop of bits/stl_heap.h __adjust_heap: move the hole down along
      the child that comes first, as long as there are two children.  Returns the
      vector and the position of the hole. *)
  Fixpoint hole_down (fuel : nat) (l : list A) (len hole : nat) : list A * nat :=
    match fuel with
    | O => (l, hole)
    | S fuel' =>
        if Nat.ltb hole (Nat.div (len - 1) 2) then
          let second := 2 * (hole + 1) in
          match nth_error l second, nth_error l (second - 1) with
          | Some a, Some b =>
              if comp a b then hole_down fuel' (upd l hole b) len (second - 1)
              else hole_down fuel' (upd l hole a) len second
          | _, _ => (l, hole)
          end
        else (l, hole)
    end.

  (** bits/stl_heap.h __adjust_heap(first, 0, len, value): the loop, the case of a
      single child, then __push_heap. *)
  Definition adjust_heap (l : list A) (len : nat) (value : A) : list A :=
    let (l1, hole) := hole_down len l len 0 in
    if Nat.even len && Nat.eqb hole (Nat.div (len - 2) 2) then
      match nth_error l1 (2 * (hole + 1) - 1) with
      | Some c => push_up len (upd l1 hole c) (2 * (hole + 1) - 1) value
      | None => l1
      end
    else push_up len l1 hole value.

  (** std::priority_queue::pop: std::pop_heap then pop_back.  With more than one
      element pop_heap takes the last element out as [value], moves the first
      element into the last position and adjusts the range before it; pop_back
      then drops the last position.  With one element pop_heap does nothing. *)
  Definition pop_heap (l : list A) : list A :=
    let init := removelast l in
    match nth_error l (length l - 1) with
    | None => []
    | Some value =>
        if Nat.ltb 1 (length l) then adjust_heap init (length init) value else init
    end.
End Heap.

(** IndexedEvent: event_schedule.hh:32-35 and 63-67. *)
Record event (Payload : Type) := mk_event {
  ev_time : Z;
  ev_payload : Payload;
  ev_count : N
}.
Arguments mk_event {Payload}.
Arguments ev_time {Payload}.
Arguments ev_payload {Payload}.
Arguments ev_count {Payload}.

(** CompareEvents::operator(): event_schedule.hh:118-127. *)
Definition compare_events {P : Type} (lhs rhs : event P) : bool :=
  if (ev_time lhs >? ev_time rhs)%Z then true
  else (ev_time lhs =? ev_time rhs)%Z && (ev_count rhs <? ev_count lhs)%N.

(** The data members: event_schedule.hh:75-77. *)
Record schedule (P : Type) := mk_schedule {
  insertion_count : N;
  event_queue : list (event P)
}.
Arguments mk_schedule {P}.
Arguments insertion_count {P}.
Arguments event_queue {P}.

(** Constructor: event_schedule.hh:80-82. *)
Definition new_schedule {P : Type} : schedule P := mk_schedule 0%N [].

(** schedule_event: event_schedule.hh:84-92.  [max_events] is MAX_EVENTS
    (line 39), the maximum of Count_t; the increment on line 91 cannot wrap
    because of the check on line 89. *)
Definition schedule_event {P : Type} (max_events : N) (s : schedule P)
    (time : Z) (payload : P) : outcome (schedule P) :=
  let* _ := reassert (insertion_count s <? max_events)%N in
  Ok (mk_schedule (insertion_count s + 1)
        (emplace compare_events (event_queue s)
           (mk_event time payload (insertion_count s)))).

(** top_event: event_schedule.hh:94-98.  Undefined on an empty queue. *)
Definition top_event {P : Type} (s : schedule P) : outcome (Z * P) :=
  match event_queue s with
  | [] => UB
  | e :: _ => Ok (ev_time e, ev_payload e)
  end.

(** pop_event: event_schedule.hh:100-103.  Undefined on an empty queue. *)
Definition pop_event {P : Type} (s : schedule P) : outcome (schedule P) :=
  match event_queue s with
  | [] => UB
  | _ => Ok (mk_schedule (insertion_count s)
               (pop_heap compare_events (event_queue s)))
  end.

(** size: event_schedule.hh:105-108. *)
Definition size {P : Type} (s : schedule P) : nat := length (event_queue s).

(** A client of the class: a history of calls.  A schedule_event that throws is
    caught by the caller, who carries on; undefined behaviour ends everything.
    [Pop] reads top_event and then calls pop_event.  The run returns the
    schedule, the events whose schedule_event returned normally in call order, and
    the events popped in call order. *)
Inductive op (P : Type) := Schedule (time : Z) (payload : P) | Pop.
Arguments Schedule {P}.
Arguments Pop {P}.

Fixpoint run {P : Type} (max_events : N) (s : schedule P) (ops : list (op P))
  : outcome (schedule P * list (Z * P) * list (Z * P)) :=
  match ops with
  | [] => Ok (s, [], [])
  | Schedule t p :: ops' =>
      match schedule_event max_events s t p with
      | Ok s' =>
          let* (s'', sched, popped) := run max_events s' ops' in
          Ok (s'', (t, p) :: sched, popped)
      | Throw => run max_events s ops'
      | UB => UB
      end
  | Pop :: ops' =>
      let* e := top_event s in
      let* s' := pop_event s in
      let* (s'', sched, popped) := run max_events s' ops' in
      Ok (s'', sched, e :: popped)
  end.
