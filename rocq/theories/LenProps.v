(** Arc lengths of DCurve in double precision: C63. *)
From Coq Require Import Reals Psatz.
From Flocq Require Import Core BinarySingleNaN.
From Verif Require Import Cpp FloatModel FloatSpec FloatProofs NrmSpec NrmProofs LenModel LenSpec LenProofs.
Local Open Scope R_scope.

(** ** C63 *)
(** Whatever the lengths of the segments are, the arc lengths of the control points exist,
    start at zero, are never NaN and never decrease. *)
Theorem c63_arcs : forall lengths, Forall a_length lengths -> exists arcs, arc_lengths lengths = Ok arcs /\ length arcs = S (length lengths) /\
  nth_error arcs 0 = Some (of_int 0) /\ (forall i a b, adjacent arcs i a b -> a_length a /\ a_length b /\ place a <= place b).
Proof. exact arcs_grow. Qed.
Print Assumptions c63_arcs.
Example c63_arcs_case : exists arcs, arc_lengths (map of_int [3; 0; 4; 5]%Z) = Ok arcs /\ map B2SF arcs = map B2SF (map of_int [0; 3; 3; 7; 12]%Z).
Proof. eexists. split; [reflexivity|]. vm_compute. reflexivity. Qed.

(** After [k] segments the arc length is the exact sum up to [k] roundings, and it is finite
    unless the sum is about the biggest double or more. *)
Theorem c63_sum : forall lengths arcs k a, Forall a_length lengths -> arc_lengths lengths = Ok arcs -> nth_error arcs k = Some a ->
  (finite a -> (1 - u) ^ k * total (firstn k lengths) <= val a <= (1 + u) ^ k * total (firstn k lengths) /\
    (INR k * u <= 1 / 2 -> Rabs (val a - total (firstn k lengths)) <= 2 * (INR k * u) * total (firstn k lengths))) /\
  (Forall finite (firstn k lengths) -> (1 + u) ^ k * total (firstn k lengths) < 2 ^ 1024 -> finite a).
Proof.
  exact (fun lengths arcs k a F E A => conj (fun Fa => conj (proj2 (sums _ _ _ _ F E A Fa)) (sums_close _ _ _ _ F E A Fa)) (sums_finite _ _ _ _ F E A)).
Qed.
Print Assumptions c63_sum.
(** One and twice a third of a unit in its last place: the small lengths are lost. *)
Example c63_sum_case : let lengths := [of_int 1; double 3 (-55); double 3 (-55)] in exists arcs a,
  arc_lengths lengths = Ok arcs /\ nth_error arcs 3 = Some a /\ B2SF a = B2SF (of_int 1) /\ Forall a_length lengths.
Proof.
  cbn zeta. eexists _, _. split; [reflexivity|]. split; [reflexivity|]. split; [vm_compute; reflexivity|].
  assert (D : forall x : f64, (match B2SF x with SpecFloat.S754_finite false _ _ => True | _ => False end) -> a_length x).
  { intros [s|s| |[|] m e b] H; try contradiction H. split; [intro N; discriminate N|]. cbn [place]. apply F2R_ge_0. cbn. lia. }
  repeat apply Forall_cons; [apply D; vm_compute; exact Logic.I..|apply Forall_nil].
Qed.

(** An arc length is refused if it is NaN, negative or beyond the end; any other is found in
    a segment that contains it, and does not merely start with it unless it is the first. *)
Theorem c63_lookup : forall lengths arcs s, Forall a_length lengths -> lengths <> [] -> arc_lengths lengths = Ok arcs ->
  (not_a_number s \/ place s < 0 \/ place (curve_length arcs) < place s -> length_at arcs s = Throw) /\
  (~ not_a_number s -> 0 <= place s <= place (curve_length arcs) ->
    exists p orig dest, length_at arcs s = Ok p /\ adjacent arcs (at_segment p) orig dest /\
      place orig <= place s <= place dest /\ (at_segment p = 0%nat \/ place orig < place s)).
Proof. exact lookup. Qed.
Print Assumptions c63_lookup.
Example c63_lookup_case : exists arcs, arc_lengths (map of_int [2; 0; 3]%Z) = Ok arcs /\
  map (fun s => match length_at arcs s with Ok p => Some (at_segment p) | _ => None end)
    [B754_nan; of_int (-1); B754_zero true; of_int 1; of_int 2; of_int 3; of_int 5; of_int 6; B754_infinity false] =
  [None; None; Some 0; Some 0; Some 0; Some 2; Some 2; None; None]%nat.
Proof. eexists. split; [reflexivity|]. vm_compute. reflexivity. Qed.
(** The end of the curve, and the arc length of a control point. *)
Theorem c63_length : forall lengths arcs, arc_lengths lengths = Ok arcs -> nth_error arcs (length lengths) = Some (curve_length arcs).
Proof. exact curve_length_nth. Qed.
Print Assumptions c63_length.

(** In a segment that ends further than it starts, the fraction is a number from zero to one,
    zero at the start, exactly one at the end and four half units off at most.  Otherwise the
    segment is the first one, of length zero, and the fraction is NaN. *)
Theorem c63_fraction : forall lengths arcs s p orig dest, Forall a_length lengths -> arc_lengths lengths = Ok arcs -> length_at arcs s = Ok p ->
  adjacent arcs (at_segment p) orig dest -> finite dest ->
  finite orig /\ finite s /\
  (val orig < val dest -> finite (at_fraction p) /\ 0 <= val (at_fraction p) <= 1 /\
    Rabs (val (at_fraction p) - fraction orig dest s) <= 4 * u * fraction orig dest s + / 2 ^ 1075 /\
    (val s = val orig -> val (at_fraction p) = 0) /\ (val s = val dest -> val (at_fraction p) = 1)) /\
  (val dest <= val orig -> at_segment p = 0%nat /\ val dest = 0 /\ not_a_number (at_fraction p)).
Proof. exact fractions. Qed.
Print Assumptions c63_fraction.
Theorem c63_monotone : forall lengths arcs s s' p p', Forall a_length lengths -> arc_lengths lengths = Ok arcs ->
  length_at arcs s = Ok p -> length_at arcs s' = Ok p' -> place s <= place s' ->
  (at_segment p <= at_segment p')%nat /\
  forall orig dest, at_segment p = at_segment p' -> adjacent arcs (at_segment p) orig dest -> finite dest -> val orig < val dest ->
    val (at_fraction p) <= val (at_fraction p').
Proof. exact monotone_lengths. Qed.
Print Assumptions c63_monotone.
Example c63_fraction_case : exists arcs p q r, arc_lengths (map of_int [2; 3]%Z) = Ok arcs /\
  length_at arcs (of_int 3) = Ok p /\ length_at arcs (of_int 4) = Ok q /\ length_at arcs (of_int 5) = Ok r /\
  map at_segment [p; q; r] = [1; 1; 1]%nat /\ map B2SF (map at_fraction [p; q; r]) = map B2SF [double 6004799503160661 (-54); double 6004799503160661 (-53); of_int 1] /\
  adjacent arcs 1 (fadd (of_int 0) (of_int 2)) (fadd (fadd (of_int 0) (of_int 2)) (of_int 3)).
Proof.
  eexists _, _, _, _. split; [reflexivity|]. split; [apply length_at_second; vm_compute; reflexivity|]. split; [apply length_at_second; vm_compute; reflexivity|].
  split; [apply length_at_second; vm_compute; reflexivity|]. split; [reflexivity|]. split; [vm_compute; reflexivity|split; reflexivity].
Qed.
(** That the fraction is a number from zero to one is false: two control points at one place. *)
Theorem c63_fraction_range_refuted : exists lengths arcs s p, Forall a_length lengths /\ Forall finite lengths /\ arc_lengths lengths = Ok arcs /\ finite s /\
  length_at arcs s = Ok p /\ ~ (finite (at_fraction p) /\ 0 <= val (at_fraction p) <= 1).
Proof. exact range_refuted. Qed.
Print Assumptions c63_fraction_range_refuted.

(** Beyond a length that overflows, all finite arc lengths are taken for the start of the
    segment, and the end of it yields NaN. *)
Theorem c63_endless : forall lengths arcs s p orig, Forall a_length lengths -> arc_lengths lengths = Ok arcs -> length_at arcs s = Ok p ->
  adjacent arcs (at_segment p) orig (B754_infinity false) ->
  (finite s /\ val (at_fraction p) = 0 /\ finite (at_fraction p)) \/ (s = B754_infinity false /\ not_a_number (at_fraction p)).
Proof. exact endless. Qed.
Print Assumptions c63_endless.
Example c63_endless_case : exists arcs p q, arc_lengths [double 1 1023; double 1 1023] = Ok arcs /\
  length_at arcs (double 3 1022) = Ok p /\ length_at arcs (B754_infinity false) = Ok q /\
  map at_segment [p; q] = [1; 1]%nat /\ map B2SF (map at_fraction [p; q]) = [SpecFloat.S754_zero false; SpecFloat.S754_nan].
Proof.
  eexists _, _, _. split; [reflexivity|]. split; [apply length_at_second; vm_compute; reflexivity|]. split; [apply length_at_second; vm_compute; reflexivity|].
  split; [reflexivity|]. vm_compute. reflexivity.
Qed.

(** One segment whose length is NaN makes the whole curve unusable. *)
Theorem c63_nan : forall lengths arcs s, In B754_nan lengths -> arc_lengths lengths = Ok arcs -> length_at arcs s = Throw.
Proof. exact nan_absorbs. Qed.
Print Assumptions c63_nan.
Example c63_nan_case : exists arcs, arc_lengths [of_int 1; B754_nan] = Ok arcs /\ length_at arcs (of_int 0) = Throw.
Proof. eexists. split; [reflexivity|]. vm_compute. reflexivity. Qed.

(** A later segment whose length is absorbed by the rounding is never found. *)
Theorem c63_passed_over : forall lengths arcs i orig dest, Forall a_length lengths -> arc_lengths lengths = Ok arcs -> adjacent arcs i orig dest ->
  i <> 0%nat -> place dest <= place orig -> forall s p, length_at arcs s = Ok p -> at_segment p <> i.
Proof. exact passed_over. Qed.
Print Assumptions c63_passed_over.
(** That some arc length leads to the last segment of a curve whose segments are all longer
    than zero is false. *)
Theorem c63_end_reached_refuted : exists lengths arcs, Forall a_length lengths /\ Forall (fun l => finite l /\ 0 < val l) lengths /\
  length lengths = 2%nat /\ arc_lengths lengths = Ok arcs /\ forall s p, length_at arcs s = Ok p -> at_segment p = 0%nat.
Proof. exact end_refuted. Qed.
Print Assumptions c63_end_reached_refuted.
