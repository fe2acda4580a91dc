(** Property theorems C04-C09: checked integers, seconds and nanoseconds,
    sampling of intervals of Timestamps. *)
From Verif Require Import Cpp TimeModel TimeSpec TimeProofs.
Open Scope Z_scope.

(** * C04 *)

Theorem c04_safe_sum : forall a b, in64 a -> in64 b ->
  exact_or_throw (a + b) (safe_sum a b).
Proof. exact safe_sum_exact. Qed.

Theorem c04_safe_difference : forall a b, in64 a -> in64 b ->
  exact_or_throw (a - b) (safe_difference a b).
Proof. exact safe_difference_exact. Qed.

Theorem c04_safe_abs : forall a, in64 a -> exact_or_throw (Z.abs a) (safe_abs a).
Proof. exact safe_abs_exact. Qed.

Example c04_example :
  in64 INT64_MIN /\ in64 (-1) /\ safe_sum INT64_MIN (-1) = Throw /\
  safe_difference (-1) INT64_MIN = Ok INT64_MAX /\ safe_abs INT64_MIN = Throw.
Proof. repeat split; vm_compute; congruence. Qed.

(** * C05 *)

Theorem c05_seconds_nanos_round_trip : forall d, in64 d ->
  exists x, to_seconds_and_nanos d = Ok x /\ from_seconds_and_nanos x = Ok d /\
    seconds_split d (secs x) (nanos x).
Proof. exact seconds_round_trip. Qed.

Theorem c05_split_unique : forall d s n s' n',
  seconds_split d s n -> seconds_split d s' n' -> s = s' /\ n = n'.
Proof. exact seconds_split_unique. Qed.

Theorem c05_from_then_to : forall x d, in64 d ->
  seconds_split d (secs x) (nanos x) ->
  from_seconds_and_nanos x = Ok d /\ to_seconds_and_nanos d = Ok x.
Proof. exact seconds_from_to. Qed.

Example c05_example : in64 INT64_MIN /\
  seconds_split INT64_MIN (-9223372036) (-854775808).
Proof. repeat split; vm_compute; congruence. Qed.

(** * C06
    For distinct end points num_samples is the documented minimum, and throws
    exactly when it must.  Equal end points are covered by the two theorems that
    follow; there the documented minimum is missed. *)

Theorem c06_num_samples_minimum : forall s e dt,
  in64 s -> in64 e -> in64 dt -> s <> e ->
  (dt <= 0 -> num_samples s e dt = Throw) /\
  (0 < dt ->
   exists n, min_samples s e dt n /\
     (Z.abs (e - s) <= INT64_MAX -> n <= INT64_MAX -> num_samples s e dt = Ok n) /\
     (INT64_MAX < Z.abs (e - s) \/ INT64_MAX < n -> num_samples s e dt = Throw)).
Proof. exact num_samples_correct. Qed.

Example c06_example : in64 0 /\ in64 8 /\ in64 3 /\ 0 <> 8 /\ 0 < 3 /\
  num_samples 0 8 3 = Ok 4 /\ num_samples 8 0 3 = Ok 4 /\
  num_samples INT64_MIN 0 1 = Throw /\ num_samples 0 INT64_MAX 1 = Throw.
Proof. repeat split; vm_compute; congruence. Qed.

Theorem c06_num_samples_equal_ends : forall s dt, in64 s -> in64 dt -> 0 < dt ->
  num_samples s s dt = Ok (if dt =? 1 then 1 else 2).
Proof. exact num_samples_same. Qed.

Theorem c06_num_samples_minimum_refuted :
  exists s e dt n, in64 s /\ in64 e /\ in64 dt /\ 0 < dt /\
    num_samples s e dt = Ok n /\ ~ min_samples s e dt n.
Proof.
  exists 5, 5, 2, 2. repeat split; try (vm_compute; congruence).
  intros [_ H]. specialize (H 1). assert (2 <= 1); [apply H|lia].
  unfold enough_samples. lia.
Qed.

(** * C07 *)

Theorem c07_sampling_covers_evenly : forall s e dt calls o,
  in64 s -> in64 e -> in64 dt -> s <> e ->
  sample_interval s e dt = (calls, o) -> o <> Throw ->
  num_samples s e dt = Ok (Z.of_nat (length calls)) /\
  min_samples s e dt (Z.of_nat (length calls)) /\
  even_cover s e dt calls.
Proof. exact sample_interval_cover. Qed.

Theorem c07_equal_ends_sampled_once : forall s dt,
  sample_interval s s dt = ([s], Ok tt).
Proof. intros s dt. unfold sample_interval. rewrite Z.eqb_refl. reflexivity. Qed.

Example c07_example : sample_interval 0 8 3 = ([0; 3; 5; 8], Ok tt) /\
  even_cover 0 8 3 [0; 3; 5; 8].
Proof.
  split; [reflexivity|].
  apply (c07_sampling_covers_evenly 0 8 3 [0; 3; 5; 8] (Ok tt));
    try reflexivity; try (split; vm_compute); congruence.
Qed.

(** * C08
    Forward intervals are rounded to the nearest nanosecond at every index,
    whatever the way the call ends.  Reversed intervals are truncated towards the
    start time instead, which refutes the documented claim. *)

Theorem c08_forward_samples_nearest : forall s e dt calls o i t,
  in64 s -> in64 e -> in64 dt -> s < e ->
  sample_interval s e dt = (calls, o) -> nth_error calls i = Some t ->
  exists n, min_samples s e dt n /\
    nearest_to t s (Z.of_nat i * (e - s)) (n - 1).
Proof. exact forward_nearest. Qed.

Example c08_example : nth_error (fst (sample_interval 0 8 3)) 1 = Some 3 /\
  nearest_to 3 0 (1 * 8) 3.
Proof. split; [reflexivity|]. apply nearest_of_half; lia. Qed.

Theorem c08_reversed_truncated : forall s e dt calls o i t,
  in64 s -> in64 e -> in64 dt -> e < s ->
  sample_interval s e dt = (calls, o) -> nth_error calls i = Some t ->
  exists n, min_samples s e dt n /\
    (n - 1) * (s - t) <= Z.of_nat i * (s - e) < (n - 1) * (s - t + 1).
Proof. exact backward_truncated. Qed.

Theorem c08_samples_nearest_refuted : exists s e dt calls i t n,
  in64 s /\ in64 e /\ in64 dt /\ sample_interval s e dt = (calls, Ok tt) /\
  nth_error calls i = Some t /\ min_samples s e dt n /\
  ~ nearest_to t s (Z.of_nat i * (e - s)) (n - 1).
Proof.
  exists 8, 0, 3, [8; 6; 3; 0], 1%nat, 6, 4.
  repeat split; try (vm_compute; congruence).
  - intros m [H1 H2]. change (Z.abs (0 - 8)) with 8 in H2. lia.
  - intro H. specialize (H 5). vm_compute in H. congruence.
Qed.

(** * C09
    What the call does for every accepted input: it throws when an accumulated
    numerator leaves the int64 range, and it executes an overflowing addition in
    its last pass exactly when total + total / intervals does, after all calls of
    the functor.  The expectation that it never overflows is refuted below; under
    2^62 nanoseconds (146 years) it neither throws nor overflows. *)

Theorem c09_sampling_outcome : forall s e dt n,
  in64 s -> in64 e -> in64 dt -> s <> e ->
  0 < dt -> Z.abs (e - s) <= INT64_MAX -> min_samples s e dt n -> n <= INT64_MAX ->
  let T := e - s in
  let carry_overflow := exists j, 0 <= j < n - 1 /\ ~ in64 (Z.rem (j * T) (n - 1) + T) in
  let last_overflow := ~ in64 (T + Z.quot T (n - 1)) in
  (snd (sample_interval s e dt) = Throw <-> carry_overflow) /\
  (snd (sample_interval s e dt) = UB <-> ~ carry_overflow /\ last_overflow) /\
  (snd (sample_interval s e dt) = Ok tt <-> ~ carry_overflow /\ ~ last_overflow).
Proof. exact outcome_cases. Qed.

Theorem c09_rejected_inputs : forall s e dt,
  in64 s -> in64 e -> in64 dt -> s <> e ->
  (dt <= 0 \/ INT64_MAX < Z.abs (e - s) \/
   (0 < dt /\ exists n, min_samples s e dt n /\ INT64_MAX < n)) ->
  sample_interval s e dt = ([], Throw).
Proof. exact sample_interval_rejects. Qed.

Theorem c09_no_overflow_below_2_62 : forall s e dt,
  in64 s -> in64 e -> in64 dt -> 0 < dt -> Z.abs (e - s) < 2 ^ 62 ->
  snd (sample_interval s e dt) = Ok tt.
Proof. exact safe_below. Qed.

Example c09_example : in64 (-5) /\ in64 100 /\ in64 7 /\ 0 < 7 /\
  Z.abs (100 - -5) < 2 ^ 62 /\
  sample_interval 0 INT64_MAX (2 ^ 62) = ([0; 2 ^ 62], Throw).
Proof. repeat split; vm_compute; congruence. Qed.

Theorem c09_no_overflow_refuted : exists s e dt,
  in64 s /\ in64 e /\ in64 dt /\ snd (sample_interval s e dt) = UB.
Proof. exists 0, INT64_MAX, INT64_MAX. repeat split; vm_compute; congruence. Qed.

Print Assumptions c04_safe_sum.
Print Assumptions c04_safe_difference.
Print Assumptions c04_safe_abs.
Print Assumptions c05_seconds_nanos_round_trip.
Print Assumptions c05_split_unique.
Print Assumptions c05_from_then_to.
Print Assumptions c06_num_samples_minimum.
Print Assumptions c06_num_samples_equal_ends.
Print Assumptions c06_num_samples_minimum_refuted.
Print Assumptions c07_sampling_covers_evenly.
Print Assumptions c07_equal_ends_sampled_once.
Print Assumptions c08_forward_samples_nearest.
Print Assumptions c08_reversed_truncated.
Print Assumptions c08_samples_nearest_refuted.
Print Assumptions c09_sampling_outcome.
Print Assumptions c09_rejected_inputs.
Print Assumptions c09_no_overflow_below_2_62.
Print Assumptions c09_no_overflow_refuted.
