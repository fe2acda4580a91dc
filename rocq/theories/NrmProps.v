(** Time lookup of TCurve in double precision: C59. *)
From Coq Require Import Reals Psatz.
From Flocq Require Import Core BinarySingleNaN.
From Verif Require Import Cpp TimeModel FloatModel FloatSpec FloatProofs NrmModel NrmSpec NrmProofs.
Local Open Scope R_scope.

(** ** C59 *)
(** Whatever was appended, and whatever of it was refused: as soon as there are two control
    points, no time is NaN and the times increase. *)
Theorem c59_times_increase : forall appended, (2 <= length (built appended))%nat ->
  Forall (fun t => ~ not_a_number t) (built appended) /\ increasing (built appended).
Proof. exact built_history. Qed.
Print Assumptions c59_times_increase.
Example c59_times_increase_case :
  map B2SF (built [of_int 1; B754_nan; of_int 1; of_int 0; of_int 3; B754_infinity false]) =
  map B2SF [of_int 1; of_int 3; B754_infinity false].
Proof. vm_compute. reflexivity. Qed.

(** A time before the first or after the last control point is refused; any other is looked
    up in a segment that contains it, and does not merely start with it unless it is the
    first segment. *)
Theorem c59_lookup : forall appended t, (2 <= length (built appended))%nat ->
  exists front back,
    nth_error (built appended) 0 = Some front /\ nth_error (built appended) (length (built appended) - 1) = Some back /\
    (~ not_a_number t -> place t < place front \/ place back < place t -> point_at_impl (built appended) t = Throw) /\
    (~ not_a_number t -> place front <= place t <= place back ->
      exists p orig dest, point_at_impl (built appended) t = Ok p /\ adjacent (built appended) (in_segment p) orig dest /\
        place orig <= place t <= place dest /\ (in_segment p = 0%nat \/ place orig < place t)).
Proof. exact lookup. Qed.
Print Assumptions c59_lookup.
Example c59_lookup_case : let ts := built [of_int 0; of_int 2; of_int 3; of_int 5; of_int 8] in
  map (fun t => match point_at_impl ts (of_int t) with Ok p => Some (in_segment p) | _ => None end) [-1; 0; 1; 2; 3; 4; 5; 8; 9]%Z =
  [None; Some 0; Some 0; Some 0; Some 1; Some 2; Some 2; Some 3; None]%nat.
Proof. vm_compute. reflexivity. Qed.

(** A NaN is looked up in the first segment, where the normalised time is NaN. *)
Theorem c59_nan : forall appended, (2 <= length (built appended))%nat ->
  exists p, point_at_impl (built appended) B754_nan = Ok p /\ in_segment p = 0%nat /\ not_a_number (time_nrm p).
Proof. exact nan_accepted. Qed.
Print Assumptions c59_nan.
(** That only times between the first and the last control point are accepted is false. *)
Theorem c59_range_checked_refuted : exists appended t front back p,
  nth_error (built appended) 0 = Some front /\ nth_error (built appended) 1 = Some back /\ built appended = [front; back] /\
  point_at_impl (built appended) t = Ok p /\ flt t front = false /\ flt back t = false /\ flt front t = false /\ flt t back = false.
Proof.
  exists [of_int 0; of_int 1], B754_nan, (of_int 0), (of_int 1). eexists.
  rewrite built_two by (vm_compute; reflexivity). split; [reflexivity|]. split; [reflexivity|]. split; [reflexivity|].
  split; [apply point_at_two; vm_compute; reflexivity|]. repeat split; vm_compute; reflexivity.
Qed.
Print Assumptions c59_range_checked_refuted.

(** In a segment of usual length the normalised time is a number from zero to one, zero at
    the start of the segment, one or the double below at its end, and five half units off
    at most. *)
Theorem c59_normalized : forall appended t p orig dest, point_at_impl (built appended) t = Ok p -> finite t ->
  adjacent (built appended) (in_segment p) orig dest -> finite orig -> finite dest -> usual_length orig dest ->
  finite (inv_dt p) /\ finite (time_nrm p) /\ 0 <= val (time_nrm p) <= 1 /\
  Rabs (val (time_nrm p) - fraction orig dest t) <= 5 * u * fraction orig dest t + / 2 ^ 1075 /\
  (val t = val orig -> val (time_nrm p) = 0) /\
  (val t = val dest -> val (time_nrm p) = 1 \/ val (time_nrm p) = 1 - u).
Proof. exact normalized. Qed.
Print Assumptions c59_normalized.
Theorem c59_monotone : forall appended t t' p p' orig dest,
  point_at_impl (built appended) t = Ok p -> point_at_impl (built appended) t' = Ok p' ->
  finite t -> finite t' -> in_segment p = in_segment p' -> val t <= val t' ->
  adjacent (built appended) (in_segment p) orig dest -> finite orig -> finite dest -> usual_length orig dest ->
  val (time_nrm p) <= val (time_nrm p').
Proof. exact monotone. Qed.
Print Assumptions c59_monotone.
Example c59_normalized_case : exists p p',
  point_at_impl (built [of_int 2; of_int 5]) (of_int 3) = Ok p /\
  point_at_impl (built [of_int 2; of_int 5]) (of_int 4) = Ok p' /\
  in_segment p = 0%nat /\ in_segment p' = 0%nat /\
  B2SF (time_nrm p) = B2SF (double 6004799503160661 (-54)) /\ B2SF (time_nrm p') = B2SF (double 6004799503160661 (-53)) /\
  adjacent (built [of_int 2; of_int 5]) (in_segment p) (of_int 2) (of_int 5) /\ usual_length (of_int 2) (of_int 5).
Proof.
  eexists _, _. rewrite built_two by (vm_compute; reflexivity).
  split; [apply point_at_two; vm_compute; reflexivity|]. split; [apply point_at_two; vm_compute; reflexivity|].
  split; [reflexivity|]. split; [reflexivity|]. split; [vm_compute; reflexivity|]. split; [vm_compute; reflexivity|].
  split; [split; reflexivity|].
  unfold usual_length. rewrite !val_int by (vm_compute; discriminate).
  assert (4 <= 2 ^ 1021). { replace 4 with (2 ^ 2) by lra. apply Rle_pow; [lra|]. apply Nat.leb_le. vm_compute. reflexivity. }
  assert (/ 2 ^ 1021 <= 1) by (rewrite <- Rinv_1; apply Rinv_le; lra). lra.
Qed.

(** Times made of durations, as Trajectory's are, have segments of usual length only. *)
Theorem c59_durations : forall ds d p, Forall in64 ds -> in64 d ->
  point_at_impl (built (map as_seconds ds)) (as_seconds d) = Ok p ->
  exists orig dest, adjacent (built (map as_seconds ds)) (in_segment p) orig dest /\
    finite orig /\ finite dest /\ usual_length orig dest.
Proof. exact durations. Qed.
Print Assumptions c59_durations.
Example c59_durations_case : exists p,
  point_at_impl (built (map as_seconds [0; 1; 9223372036854775807]%Z)) (as_seconds 1000000000) = Ok p /\ in_segment p = 1%nat.
Proof.
  destruct (ok_witness (point_at_impl (built (map as_seconds [0; 1; 9223372036854775807]%Z)) (as_seconds 1000000000))
    (fun p => Nat.eqb (in_segment p) 1)) as (p & E & S); [vm_compute; reflexivity|].
  exists p. split; [exact E|apply Nat.eqb_eq, S].
Qed.

(** Full statement: a curve is looked up at the end of a segment with normalised time one.
    False. *)
Theorem c59_end_is_one_refuted : exists appended dest p, point_at_impl (built appended) dest = Ok p /\
  built appended = [of_int 0; dest] /\ finite dest /\ finite (time_nrm p) /\ val (time_nrm p) = 1 - u.
Proof.
  exists [of_int 0; of_int 49], (of_int 49). eexists. rewrite built_two by (vm_compute; reflexivity).
  split; [apply point_at_two; vm_compute; reflexivity|]. split; [reflexivity|].
  split; [vm_compute; reflexivity|]. cbn [time_nrm]. split; [vm_compute; reflexivity|]. rewrite val_sf.
  replace (B2SF (seg_time_nrm (of_int 0) (of_int 49) (of_int 49))) with (SpecFloat.S754_finite false 9007199254740991 (-53)) by (vm_compute; reflexivity).
  unfold SF2R, F2R, u. cbn. lra.
Qed.
Print Assumptions c59_end_is_one_refuted.
(** Full statement: between finite times the normalised time is a number.  False for very
    short and for very long segments, and if a control point is at infinity. *)
Theorem c59_number_refuted : exists appended t p a b, point_at_impl (built appended) t = Ok p /\
  built appended = [a; b] /\ finite a /\ finite b /\ finite t /\ val a = val t /\ val t < val b /\ not_a_number (time_nrm p).
Proof.
  exists [of_int 0; double 1 (-1074)], (of_int 0). eexists _, (of_int 0), (double 1 (-1074)).
  rewrite built_two by (vm_compute; reflexivity). split; [apply point_at_two; vm_compute; reflexivity|]. split; [reflexivity|].
  split; [reflexivity|]. split; [vm_compute; reflexivity|]. split; [reflexivity|]. split; [reflexivity|].
  split; [apply double_lt; vm_compute; reflexivity|]. cbn [time_nrm]. apply is_nan_eq. vm_compute. reflexivity.
Qed.
Print Assumptions c59_number_refuted.
Theorem c59_long_number_refuted : exists appended t p a b, point_at_impl (built appended) t = Ok p /\
  built appended = [a; b] /\ finite a /\ finite b /\ finite t /\ val a < val t <= val b /\ not_a_number (time_nrm p).
Proof.
  set (m := double (2 ^ 53 - 1) 971). set (m' := double (- (2 ^ 53 - 1)) 971).
  exists [m'; m], m. eexists _, m', m. rewrite built_two by (vm_compute; reflexivity).
  split; [apply point_at_two; vm_compute; reflexivity|]. split; [reflexivity|].
  split; [vm_compute; reflexivity|]. split; [vm_compute; reflexivity|]. split; [vm_compute; reflexivity|].
  split; [split; [apply double_lt; vm_compute; reflexivity|lra]|]. cbn [time_nrm]. apply is_nan_eq. vm_compute. reflexivity.
Qed.
Print Assumptions c59_long_number_refuted.
