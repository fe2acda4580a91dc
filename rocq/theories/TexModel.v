(** Model of the program resim/examples/time.cc, in double precision.  Left out: the text of
    the numbers it prints, whose values are kept. *)
From Coq Require Import Reals List String.
From Verif Require Import Cpp TimeModel EventModel FloatModel SpinModel.
Import ListNotations.
Local Open Scope Z_scope.

(** The durations: time.cc:32-51.  [now] is what the system clock counts, in the nanoseconds of
    libstdc++'s system_clock.  The value given to my_duration_s on line 41 is not used. *)
Definition durations (now : Z) : outcome unit :=
  let my_duration := 10000 in
  let my_duration_s := as_seconds my_duration in
  let* back := as_duration my_duration_s in
  let* _ := reassert (back =? my_duration) in
  let* my_duration := add64 my_duration now in
  let* my_secs_and_nanos := to_seconds_and_nanos my_duration in
  let* back := from_seconds_and_nanos my_secs_and_nanos in
  reassert (back =? my_duration).

(** The loop at time.cc:63-68: what is written before an exception or the end, and how it ends.
    pop_event makes the schedule smaller, so [fuel] = size suffices; see [messages]. *)
Fixpoint print_all (fuel : nat) (my_messages : schedule string) : list (f64 * string) * outcome unit :=
  match fuel with
  | O => ([], Ok tt)
  | S fuel' =>
      if (0 <? size my_messages)%nat then
        match top_event my_messages with
        | Ok (time, payload) =>
            let line := (fdivide (of_int time) (of_int 1000000000), payload) in
            match pop_event my_messages with
            | Ok my_messages' => let (lines, o) := print_all fuel' my_messages' in (line :: lines, o)
            | Throw => ([line], Throw)
            | UB => ([line], UB)
            end
        | Throw => ([], Throw)
        | UB => ([], UB)
        end
      else ([], Ok tt)
  end.
(** The schedule: time.cc:56-68.  Count_t is uint64_t (event_schedule.hh:29). *)
Definition messages : list (f64 * string) * outcome unit :=
  let filled :=
    let* s := schedule_event (2 ^ 64 - 1)%N new_schedule 200 "ReSim"%string in
    let* s := schedule_event (2 ^ 64 - 1)%N s 100 "Hello"%string in
    schedule_event (2 ^ 64 - 1)%N s 200 "user!"%string in
  match filled with
  | Ok s => print_all (size s) s
  | Throw => ([], Throw)
  | UB => ([], UB)
  end.

(** deviation: time.cc:78-80. *)
Definition deviation (t : Z) (result : f64) : Prop := library cos (fsqrt (as_seconds t)) result.
(** The calls of the functor at time.cc:83-88, [integral] before and [result] after them. *)
Fixpoint accumulate (end_time : Z) (calls : list Z) (integral result : f64) : Prop :=
  match calls with
  | [] => result = integral
  | t :: calls' =>
      if negb (t =? end_time) then exists d, deviation t d /\ accumulate end_time calls' (fadd integral d) result
      else accumulate end_time calls' integral result
  end.
(** The integral: time.cc:73, 78-93.  The end and the step are those of lines 74 and 75 in the
    program; any are allowed here.  The subtraction of line 92 is one of ints. *)
Definition integrate (end_time max_dt : Z) (result : outcome f64) : Prop :=
  let start_time := 0 in
  match sample_interval start_time end_time max_dt with
  | (calls, Ok _) =>
      exists integral, accumulate end_time calls (of_int 0) integral /\
      result =
        let* samples := num_samples start_time end_time max_dt in
        let N := cast_int32 samples in
        let* total := sub64 end_time start_time in
        if (INT_MIN <=? N - 1) then Ok (fmul integral (fdivide (as_seconds total) (of_int (N - 1)))) else UB
  | (_, Throw) => result = Throw
  | (_, UB) => result = UB
  end.
(** analytical_result: time.cc:96-98. *)
Definition analytical_result (result : f64) : Prop :=
  let root := fsqrt (of_int 30) in
  exists c s, library cos root c /\ library sin root s /\
    result = fmul (of_int 2) (fadd (fadd (of_int (-1)) c) (fmul root s)).

(** main: time.cc:28-102.  What it writes and how it ends; 0 is EXIT_SUCCESS. *)
Definition time_example (now : Z) (written : list (f64 * string)) (result : outcome Z) : Prop :=
  match durations now with
  | Ok _ =>
      written = fst messages /\
      match snd messages with
      | Ok _ =>
          exists end_time integral analytical, add64 0 (30 * 1000000000) = Ok end_time /\
            integrate end_time (100 * 1000) integral /\ analytical_result analytical /\
            result =
              let* integral := integral in
              let* _ := reassert (flt (fabs (fsub integral analytical)) (fdivide (of_int 1) (of_int 10000))) in
              Ok 0
      | Throw => result = Throw
      | UB => result = UB
      end
  | Throw => written = [] /\ result = Throw
  | UB => written = [] /\ result = UB
  end.
