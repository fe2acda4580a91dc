(** Model of resim/time/random_duration.hh and of the tests that draw from it,
    resim/time/timestamp_test.cc.

    Durations are the int64_t counts of TimeModel, doubles those of FloatModel. *)
From Flocq Require Import Core BinarySingleNaN.
From Verif Require Import Cpp TimeModel FloatModel.
Open Scope Z_scope.

Section Generator.
(** The InOut<RNG> of random_duration.hh:21, here any std::mt19937-like generator: its state,
    and its operator(), which returns a word and steps the state.  The words are those from
    0 to 2^32 - 1 (timestamp_test.cc:30, 48, 65, 93); which words come is left open. *)
Variable G : Type.
Variable next : G -> Z * G.

(** unsigned long arithmetic of the distribution used at random_duration.hh:22-25. *)
Definition wrap64 (z : Z) : Z := z mod 2 ^ 64.
(** One round of libstdc++'s std::uniform_int_distribution over all of int64_t
    (random_duration.hh:22-25): the range of a word is smaller than the range asked for, so a
    multiple of 2^32 is drawn first, from a range that is just that of a word, and a word is
    added.  Also returned: whether the round is repeated because the sum is too big or has
    wrapped. *)
Definition draw (g : G) : Z * bool * G :=
  let '(hi, g) := next g in
  let tmp := wrap64 (2 ^ 32 * hi) in
  let '(lo, g) := next g in
  let ret := wrap64 (tmp + lo) in
  (ret, ((2 ^ 64 - 1 <? ret) || (ret <? tmp))%bool, g).
(** The rounds of the distribution, at most [fuel] of them, and the conversion of the sum
    with the lower bound added to int64_t (random_duration.hh:25).  [None] if the fuel does
    not suffice; it always does (RdProps). *)
Fixpoint random_duration (fuel : nat) (g : G) : option (Z * G) :=
  match fuel with
  | O => None
  | S fuel =>
      let '(ret, again, g) := draw g in
      if again then random_duration fuel g
      else let u := wrap64 (ret + INT64_MIN) in Some (if u <=? INT64_MAX then u else u - 2 ^ 64, g)
  end.

(** The loop of a test (timestamp_test.cc:32-42, 49-59, 67-87, 95-114): [n] durations are
    drawn and the expectations checked for each, whether or not those before were met. *)
Fixpoint run_test (check : Z -> outcome bool) (n : nat) (g : G) : outcome (list bool) :=
  match n with
  | O => Ok []
  | S n =>
      match random_duration 1 g with
      | None => UB
      | Some (d, g) =>
          let* b := check d in
          let* bs := run_test check n g in
          Ok (b :: bs)
      end
  end.
End Generator.
Arguments random_duration {G}. Arguments run_test {G}. Arguments draw {G}.

(** TestToSecondsAndNanos: timestamp_test.cc:35-41. *)
Definition check_to (d : Z) : outcome bool :=
  let* result := to_seconds_and_nanos d in
  let* p := mul64 (secs result) NANO in
  let* s := add64 p (nanos result) in
  Ok (s =? d).
(** TestFromSecondsAndNanos: timestamp_test.cc:52-58. *)
Definition check_from (d : Z) : outcome bool :=
  let* x := to_seconds_and_nanos d in
  let* converted := from_seconds_and_nanos x in
  Ok (d =? converted).
(** std::numeric_limits<double>::epsilon(): timestamp_test.cc:83, 110. *)
Definition EPSILON : f64 := @binary_normalize 53 1024 prec_pos prec_emax mode_NE 1 (-52) false.
(** The tolerance: timestamp_test.cc:80-83, 107-110.  The casts are those of as_duration. *)
Definition tolerance (result_s : f64) : outcome Z := as_duration (fabs (fmul EPSILON result_s)).
(** TestAsSeconds and TestAsDuration: timestamp_test.cc:70-86 and 98-113, which differ only in
    that the first spells out as_duration.  The sums and differences of Durations are those of
    their counts. *)
Definition check_seconds (d : Z) : outcome bool :=
  let result_s := as_seconds d in
  let* result := as_duration result_s in
  let* t := tolerance result_s in
  let* hi := add64 d t in
  let* lo := sub64 d t in
  Ok ((result <=? hi) && (result >=? lo))%bool.
