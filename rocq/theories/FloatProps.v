(** Doubles in resim/time: C10 (sample_interval) and C11 (as_seconds, as_duration). *)
From Flocq Require Import Core BinarySingleNaN.
From Verif Require Import Cpp TimeModel FloatModel FloatSpec FloatProofs FSampleProofs.
From Coq Require Import Reals Psatz.
Local Open Scope R_scope.

(** ** C10 *)
(** An interval of length zero is sampled once; a step that is not positive, NaN included,
    is refused. *)
Theorem c10_equal : forall s e dt, finite s -> finite e -> val s = val e -> fsample_interval s e dt = Ok [s].
Proof. exact sample_equal. Qed.
Print Assumptions c10_equal.
Theorem c10_bad_step : forall s e dt, finite s -> finite e -> val s <> val e -> ~ positive_step dt -> fsample_interval s e dt = Throw.
Proof. exact sample_bad_step. Qed.
Print Assumptions c10_bad_step.

(** Otherwise let [q] be the computed number of steps.  The call is undefined exactly if
    the difference overflows or [q] exceeds 2^31 - 2; it is made once with NaN if [q] is
    zero; and else it passes rounded-up [q] plus one numbers, the first the start, the last
    the end, all of them finite and within rounding of evenly spaced positions. *)
Theorem c10_samples : forall s e dt q, finite s -> finite e -> val s <> val e -> positive_step dt -> step_ratio s e dt q ->
  (fsample_interval s e dt = UB <-> overflows (val e - val s) \/ IZR (2 ^ 31 - 2) < q) /\
  (~ overflows (val e - val s) -> q = 0 -> fsample_interval s e dt = Ok [B754_nan]) /\
  (~ overflows (val e - val s) -> 0 < q <= IZR (2 ^ 31 - 2) -> exists n l, rounded_up q n /\ (0 < n)%Z /\
     fsample_interval s e dt = Ok l /\ Z.of_nat (length l) = (n + 1)%Z /\
     Forall finite l /\ val (hd B754_nan l) = val s /\ val (last l B754_nan) = val e /\
     forall i x, nth_error l i = Some x ->
       Rabs (val x - on_the_way (val s) (val e) n (Z.of_nat i)) <= Rmax (Rabs (val s)) (Rabs (val e)) / 2 ^ 51 + / 2 ^ 1073).
Proof. exact sampling. Qed.
Print Assumptions c10_samples.

(** The positions are no further apart than the step, but for rounding. *)
Theorem c10_spacing : forall s e dt q n, finite dt -> 0 < val dt -> step_ratio s e dt q -> rounded_up q n -> (0 < n)%Z ->
  Rabs (val e - val s) / IZR n <= val dt * (1 + / 2 ^ 51).
Proof. exact spacing. Qed.
Print Assumptions c10_spacing.

(** The example of the documentation: 0, 1.5, 3. *)
Example c10_example : step_ratio (of_int 0) (of_int 3) (of_int 2) (3 / 2) /\ positive_step (of_int 2) /\
  ~ overflows (val (of_int 3) - val (of_int 0)) /\
  exists a b c, fsample_interval (of_int 0) (of_int 3) (of_int 2) = Ok [a; b; c] /\ val a = 0 /\ val b = 3 / 2 /\ val c = 3.
Proof.
  destruct (of_small 0) as [F0 V0]; [lia|]. destruct (of_small 2) as [F2 V2]; [lia|]. destruct (of_small 3) as [F3 V3]; [lia|].
  split; [|split; [|split]].
  - right. split; [exact F2|]. rewrite V0, V2, V3. replace (3 - 0) with 3 by ring. rewrite Rabs_right by lra. rewrite (rd_int 3) by lia.
    symmetry. apply rd_id. apply generic_format_FLT. exists (Float radix2 3 (-1)); [unfold F2R; cbn; lra|vm_compute; reflexivity|vm_compute; discriminate].
  - right. split; [exact F2|]. rewrite V2. lra.
  - rewrite V3, V0. apply pow_1023_big. apply Rle_trans with (IZR 8); [rewrite Rabs_right; lra|]. rewrite (pow_IZR 2). apply IZR_le. vm_compute. discriminate.
  - exists (fsample (of_int 0) (of_int 3) 3 0), (fsample (of_int 0) (of_int 3) 3 1), (fsample (of_int 0) (of_int 3) 3 2).
    split; [apply (sample_list _ _ _ 3); vm_compute; reflexivity|]. rewrite !val_sf.
    replace (B2SF (fsample (of_int 0) (of_int 3) 3 0)) with (SpecFloat.S754_zero false) by (vm_compute; reflexivity).
    replace (B2SF (fsample (of_int 0) (of_int 3) 3 1)) with (SpecFloat.S754_finite false 6755399441055744 (-52)) by (vm_compute; reflexivity).
    replace (B2SF (fsample (of_int 0) (of_int 3) 3 2)) with (SpecFloat.S754_finite false 6755399441055744 (-51)) by (vm_compute; reflexivity).
    unfold SF2R, F2R. cbn. lra.
Qed.

(** That every value passed is a number is false: the quotient of a tiny length and the
    step can round to zero, and then the one value passed is NaN. *)
Theorem c10_finite_refuted : exists s e dt, finite s /\ finite e /\ finite dt /\ 0 < val dt /\ fsample_interval s e dt = Ok [B754_nan].
Proof.
  exists (of_int 0), (binary_normalize 53 1024 prec_pos prec_emax mode_NE 1 (-1074) false), (of_int 2).
  destruct (of_small 2) as [F2 V2]; [lia|]. split; [reflexivity|]. split; [reflexivity|]. split; [exact F2|].
  split; [rewrite V2; lra|]. vm_compute. reflexivity.
Qed.
Print Assumptions c10_finite_refuted.
(** That the call is defined is false: an hour at microsecond steps has too many samples
    for the conversion to int. *)
Theorem c10_defined_refuted : exists s e dt, finite s /\ finite e /\ finite dt /\ 0 < val dt /\ fsample_interval s e dt = UB.
Proof.
  exists (of_int 0), (of_int 3600), (fdivide (of_int 1) (of_int 1000000)).
  split; [reflexivity|]. split; [reflexivity|]. split; [vm_compute; reflexivity|].
  split; [|vm_compute; reflexivity]. replace 0 with (val (of_int 0)) by (apply of_small; lia).
  apply flt_val; [reflexivity|vm_compute; reflexivity|vm_compute; reflexivity].
Qed.
Print Assumptions c10_defined_refuted.
(** That the values run from start to end in order is false. *)
Theorem c10_order_refuted : exists s e dt l x y, finite s /\ finite e /\ val s < val e /\ finite dt /\ 0 < val dt /\
  fsample_interval s e dt = Ok l /\ nth_error l 5 = Some x /\ nth_error l 6 = Some y /\ finite x /\ finite y /\ val y < val x.
Proof.
  set (s := of_int 1). set (e := fdivide (of_int (2 ^ 52 + 1)) (of_int (2 ^ 52))). set (dt := fdivide (of_int 2) (of_int (25 * 2 ^ 52))).
  exists s, e, dt. eexists _, _, _. split; [reflexivity|]. split; [vm_compute; reflexivity|].
  split; [apply flt_val; vm_compute; reflexivity|]. split; [vm_compute; reflexivity|].
  split. { replace 0 with (val (of_int 0)) by (apply of_small; lia). apply flt_val; [reflexivity|vm_compute; reflexivity|vm_compute; reflexivity]. }
  split; [apply (sample_list _ _ _ 14); vm_compute; reflexivity|]. split; [reflexivity|]. split; [reflexivity|].
  split; [vm_compute; reflexivity|]. split; [vm_compute; reflexivity|]. apply flt_val; vm_compute; reflexivity.
Qed.
Print Assumptions c10_order_refuted.
(** That the positions are never further apart than the step is false: from 0 to 3 by 0.3. *)
Theorem c10_spacing_refuted : exists s e dt q n, finite s /\ finite e /\ val s < val e /\ finite dt /\ 0 < val dt /\
  fnum_samples s e dt = Ok (n + 1)%Z /\ step_ratio s e dt q /\ rounded_up q n /\ val dt < Rabs (val e - val s) / IZR n.
Proof.
  set (s := of_int 0). set (e := of_int 3). set (dt := fdivide (of_int 3) (of_int 10)).
  destruct (of_small 0) as [F0 V0]; [lia|]. destruct (of_small 3) as [F3 V3]; [lia|]. fold s in F0, V0. fold e in F3, V3.
  assert (Fd : finite dt) by (vm_compute; reflexivity).
  assert (Vd : val dt = 5404319552844595 / 2 ^ 54).
  { rewrite val_sf. replace (B2SF dt) with (SpecFloat.S754_finite false 5404319552844595 (-54)) by (vm_compute; reflexivity).
    unfold SF2R, F2R. cbn. lra. }
  assert (P : 0 < val dt) by (rewrite Vd; lra).
  assert (O : ~ overflows (val e - val s)).
  { rewrite V3, V0. apply pow_1023_big. apply Rle_trans with (IZR 8); [rewrite Rabs_right; lra|]. rewrite (pow_IZR 2). apply IZR_le. vm_compute. discriminate. }
  set (q := rd (rd (Rabs (val e - val s)) / val dt)).
  assert (R : step_ratio s e dt q) by (right; split; [exact Fd|reflexivity]).
  assert (E : fnum_samples s e dt = Ok 11%Z) by (vm_compute; reflexivity).
  exists s, e, dt, q, 10%Z. split; [exact F0|]. split; [exact F3|]. split; [rewrite V0, V3; lra|]. split; [exact Fd|]. split; [exact P|].
  split; [exact E|]. split; [exact R|]. split.
  - destruct (num_samples_case s e dt q F0 F3 (or_intror (conj Fd P)) R) as [C1 C2].
    destruct (Rle_lt_dec q (IZR (2 ^ 31 - 2))) as [L|L]; [|rewrite (C1 (or_intror L)) in E; discriminate E].
    destruct (C2 O L) as [_ Q]. rewrite E in Q. assert (N : 10%Z = Zceil q) by (injection Q; lia). rewrite N. apply ceil_rounded_up.
  - rewrite Vd, V3, V0. replace (3 - 0) with 3 by ring. rewrite Rabs_right by lra. lra.
Qed.
Print Assumptions c10_spacing_refuted.

(** ** C11 *)
(** Up to 2^23 seconds (97 days) a duration comes back as it was or one nanosecond closer
    to zero; from 2^52 nanoseconds on it comes back as it was. *)
Theorem c11_round_trip : forall d, (Z.abs d <= 2 ^ 23 * 10 ^ 9)%Z -> exists r, as_duration (as_seconds d) = Ok r /\
  (r = d \/ r = d - Z.sgn d)%Z /\ (2 ^ 52 < Z.abs d -> r = d)%Z.
Proof.
  exact (fun d H => ex_intro _ (back d) (conj (round_trip_ok d (days_in64 d H) (back_in64 d H)) (back_97 d H))).
Qed.
Print Assumptions c11_round_trip.
(** Below 2^53 nanoseconds it comes back within one nanosecond. *)
Theorem c11_within_one : forall d, (Z.abs d < 2 ^ 53)%Z -> exists r, as_duration (as_seconds d) = Ok r /\ (Z.abs (r - d) <= 1)%Z.
Proof. exact (fun d H => ex_intro _ (back d) (conj (round_trip_53 d H) (back_53 d H))). Qed.
Print Assumptions c11_within_one.
(** All but the 4096 longest durations of either sign come back within 3 |d| / 2^53 + 2
    nanoseconds. *)
Theorem c11_within_rounding : forall d, (Z.abs d <= 2 ^ 63 - 2 ^ 12)%Z -> exists r, as_duration (as_seconds d) = Ok r /\
  (2 ^ 53 * Z.abs (r - d) <= 3 * Z.abs d + 2 ^ 54)%Z.
Proof. exact (fun d H => ex_intro _ (back d) (conj (round_trip_all d H) (proj1 (back_all d H)))). Qed.
Print Assumptions c11_within_rounding.
(** The conversion to seconds keeps the order, and up to 2^23 seconds keeps different
    durations apart. *)
Theorem c11_order : forall d d', in64 d -> in64 d' ->
  finite (as_seconds d) /\
  ((d <= d')%Z -> val (as_seconds d) <= val (as_seconds d')) /\
  ((Z.abs d <= 2 ^ 23 * 10 ^ 9)%Z -> (Z.abs d' <= 2 ^ 23 * 10 ^ 9)%Z -> (d < d')%Z -> val (as_seconds d) < val (as_seconds d')).
Proof. exact seconds_order. Qed.
Print Assumptions c11_order.
(** The value in seconds is the exact quotient up to two roundings. *)
Theorem c11_seconds : forall d, in64 d -> val (as_seconds d) = rd (rd (IZR d) / 10 ^ 9).
Proof. exact (fun d H => proj2 (as_seconds_val d H)). Qed.
Print Assumptions c11_seconds.

Example c11_example : (Z.abs 123456789012345 <= 2 ^ 23 * 10 ^ 9)%Z /\ as_duration (as_seconds 123456789012345) = Ok 123456789012345%Z /\
  (2 ^ 52 < Z.abs (-8000000000000001) <= 2 ^ 23 * 10 ^ 9)%Z /\ as_duration (as_seconds (-8000000000000001)) = Ok (-8000000000000001)%Z.
Proof. split; [lia|]. split; [vm_compute; reflexivity|]. split; [lia|]. vm_compute. reflexivity. Qed.

(** That durations come back is false: 15 nanoseconds become 14. *)
Theorem c11_exact_refuted : exists d, in64 d /\ as_duration (as_seconds d) = Ok (d - 1)%Z.
Proof. exists 15%Z. split; [unfold in64; vm_compute; split; discriminate|]. vm_compute. reflexivity. Qed.
Print Assumptions c11_exact_refuted.
(** The bound of 2^23 seconds is sharp: beyond it two durations have the same seconds, and
    a duration can come back longer. *)
Theorem c11_bound_sharp : let d := (2 ^ 23 * 10 ^ 9 + 1)%Z in
  val (as_seconds d) = val (as_seconds (d + 1)) /\ as_duration (as_seconds d) = Ok (d + 1)%Z.
Proof.
  cbv zeta. split; [|vm_compute; reflexivity]. rewrite !val_sf. f_equal; vm_compute; reflexivity.
Qed.
Print Assumptions c11_bound_sharp.
(** The conversion back is undefined for the longest duration. *)
Theorem c11_longest : as_duration (as_seconds INT64_MAX) = UB.
Proof. vm_compute. reflexivity. Qed.
Print Assumptions c11_longest.
