(** Model of resim/math/safe_integer_utils.cc, the integer part of
    resim/time/timestamp.hh and the Timestamp overloads of
    resim/time/sample_interval.cc.

    A Duration is a count of nanoseconds and a Timestamp is a Duration since the
    epoch (resim/time/timestamp.hh:21-22); both are int64_t counts, written as
    [Z] here. *)
From Verif Require Import Cpp.
Open Scope Z_scope.

(** safe_sum: resim/math/safe_integer_utils.cc:27-37.  The two REASSERT branches
    compute MAX - a and MIN - a, which are themselves checked for overflow. *)
Definition safe_sum (a b : Z) : outcome Z :=
  let* _ :=
    if a >? 0 then
      let* m := sub64 INT64_MAX a in reassert (m >=? b)
    else
      let* m := sub64 INT64_MIN a in reassert (m <=? b)
  in add64 a b.

(** safe_difference: resim/math/safe_integer_utils.cc:15-25. *)
Definition safe_difference (a b : Z) : outcome Z :=
  if negb (b =? INT64_MIN) then
    let* nb := neg64 b in safe_sum a nb
  else
    let* _ := reassert (a <? 0) in sub64 a b.

(** safe_abs: resim/math/safe_integer_utils.cc:39-43. *)
Definition safe_abs (a : Z) : outcome Z :=
  let* _ := reassert (negb (a =? INT64_MIN)) in
  if a >? 0 then Ok a else neg64 a.

(** std::nano::den, used in resim/time/timestamp.hh:47-54. *)
Definition NANO : Z := 1000000000.

(** SecsAndNanos: resim/time/timestamp.hh:39-42. *)
Record secs_and_nanos := { secs : Z; nanos : Z }.

(** to_seconds_and_nanos: resim/time/timestamp.hh:45-50.  The static_cast to
    int32_t keeps the value when it fits and otherwise wraps modulo 2^32 (C++20
    [conv.integral]/3). *)
Definition cast_int32 (z : Z) : Z := (z + 2 ^ 31) mod 2 ^ 32 - 2 ^ 31.
Definition to_seconds_and_nanos (d : Z) : outcome secs_and_nanos :=
  let* s := div64 d NANO in
  let* n := rem64 d NANO in
  Ok {| secs := s; nanos := cast_int32 n |}.

(** from_seconds_and_nanos: resim/time/timestamp.hh:53-55. *)
Definition from_seconds_and_nanos (x : secs_and_nanos) : outcome Z :=
  let* p := mul64 (secs x) NANO in
  add64 p (nanos x).

(** num_samples on Timestamps: resim/time/sample_interval.cc:52-81. *)
Definition num_samples (start_time end_time max_abs_dt : Z) : outcome Z :=
  let* _ := reassert (max_abs_dt >? 0) in
  let* diff := safe_difference end_time start_time in
  let* total_time := safe_abs diff in
  let* t1 := sub64 total_time 1 in
  let* q := div64 t1 max_abs_dt in
  safe_sum q 2.

(** The loop of sample_interval on Timestamps:
    resim/time/sample_interval.cc:110-124.  [n] iterations remain.  The result is
    the list of Timestamps the functor has been called with, and how the loop
    ended.  Simplification: the functor itself does not throw and does not touch
    the loop variables (they are locals of sample_interval). *)
Fixpoint sample_loop (start_time total_time intervals : Z) (n : nat)
    (whole numerator : Z) : list Z * outcome unit :=
  match n with
  | O => ([], Ok tt)
  | S n' =>
      let call :=
        let* dbl := mul64 2 numerator in
        let* rounded := add64 whole (if dbl >=? intervals then 1 else 0) in
        add64 start_time rounded in
      match call with
      | Throw => ([], Throw)
      | UB => ([], UB)
      | Ok t =>
          let next :=
            let* num := safe_sum numerator total_time in
            let* q := div64 num intervals in
            let* whole' := add64 whole q in
            let* numerator' := rem64 num intervals in
            Ok (whole', numerator') in
          match next with
          | Throw => ([t], Throw)
          | UB => ([t], UB)
          | Ok (whole', numerator') =>
              let (calls, o) :=
                sample_loop start_time total_time intervals n' whole' numerator' in
              (t :: calls, o)
          end
      end
  end.

(** sample_interval on Timestamps: resim/time/sample_interval.cc:83-125.  Returns
    the Timestamps the functor was called with, in order, and how the call
    ended. *)
Definition sample_interval (start_time end_time max_abs_dt : Z)
  : list Z * outcome unit :=
  if start_time =? end_time then ([start_time], Ok tt)
  else
    let pre :=
      let* samples := num_samples start_time end_time max_abs_dt in
      let* intervals := sub64 samples 1 in
      let* total_time := safe_difference end_time start_time in
      Ok (samples, intervals, total_time) in
    match pre with
    | Throw => ([], Throw)
    | UB => ([], UB)
    | Ok (samples, intervals, total_time) =>
        sample_loop start_time total_time intervals (Z.to_nat samples) 0 0
    end.
