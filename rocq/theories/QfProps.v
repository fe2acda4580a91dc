(** Quintic coefficients in double precision: C60. *)
From Coq Require Import Reals Psatz.
From Flocq Require Import Core BinarySingleNaN.
From Verif Require Import Cpp TimeModel FloatModel FloatSpec FloatProofs NrmModel NrmSpec NrmProofs QfModel QfSpec QfProofs.
Local Open Scope R_scope.

(** ** C60 *)
(** The exact polynomials: [hermite'] and [hermite''] are the derivatives of [hermite], and at
    the ends all of them are zero but for the one value that is one. *)
Theorem c60_exact_polynomials : forall w t,
  (derivable_pt_lim (hermite w) t (hermite' w t) /\ derivable_pt_lim (hermite' w) t (hermite'' w t)) /\
  (t = 0 \/ t = 1 -> hermite w t = at_end w 0 t /\ hermite' w t = at_end w 1 t /\ hermite'' w t = at_end w 2 t).
Proof. exact (fun w t => conj (hermite_derivatives w t) (hermite_ends w t)). Qed.
Print Assumptions c60_exact_polynomials.

(** For all normalised times from zero to one, the computed ones are that close. *)
Theorem c60_accuracy : forall w t, finite t -> 0 <= val t <= 1 ->
  let c := computed w t in
  finite (f_a c) /\ finite (f_da c) /\ finite (f_d2a c) /\
  Rabs (val (f_a c) - hermite w (val t)) <= / 2 ^ 44 /\
  Rabs (val (f_da c) - hermite' w (val t)) <= / 2 ^ 43 /\
  Rabs (val (f_d2a c) - hermite'' w (val t)) <= / 2 ^ 42.
Proof. exact accuracy. Qed.
Print Assumptions c60_accuracy.
Theorem c60_exact_at_ends : forall w t, finite t -> val t = 0 \/ val t = 1 ->
  let c := computed w t in
  val (f_a c) = at_end w 0 (val t) /\ val (f_da c) = at_end w 1 (val t) /\ val (f_d2a c) = at_end w 2 (val t).
Proof. exact exact_ends. Qed.
Print Assumptions c60_exact_at_ends.
Example c60_accuracy_case : let t := double 1 (-1) in finite t /\ 0 <= val t <= 1 /\
  map B2SF [f_a (computed WMotion t); f_da (computed WMotion t); f_d2a (computed WMotion t)] =
  map B2SF [double 1 (-1); double 15 (-3); of_int 0].
Proof.
  cbv zeta. split; [vm_compute; reflexivity|]. split; [|vm_compute; reflexivity]. rewrite val_sf.
  replace (B2SF (double 1 (-1))) with (SpecFloat.S754_finite false 4503599627370496 (-53)) by (vm_compute; reflexivity).
  unfold SF2R, F2R. cbn. lra.
Qed.

(** NaN stays NaN. *)
Theorem c60_nan : forall w, let c := computed w B754_nan in
  not_a_number (f_a c) /\ not_a_number (f_da c) /\ not_a_number (f_d2a c).
Proof. exact nan_in. Qed.
Print Assumptions c60_nan.

(** A curve that is looked up at a control point of a segment of usual length: the weights
    are exact at the start of the segment and that close at its end. *)
Theorem c60_segment_ends : forall w appended t p orig dest, point_at_impl (built appended) t = Ok p -> finite t ->
  adjacent (built appended) (in_segment p) orig dest -> finite orig -> finite dest -> usual_length orig dest ->
  let c := computed w (time_nrm p) in
  finite (f_a c) /\ finite (f_da c) /\ finite (f_d2a c) /\
  (val t = val orig -> val (f_a c) = at_end w 0 0 /\ val (f_da c) = at_end w 1 0 /\ val (f_d2a c) = at_end w 2 0) /\
  (val t = val dest -> Rabs (val (f_a c) - at_end w 0 1) <= / 2 ^ 43 /\ Rabs (val (f_da c) - at_end w 1 1) <= / 2 ^ 42 /\
     Rabs (val (f_d2a c) - at_end w 2 1) <= / 2 ^ 41).
Proof. exact segment_ends. Qed.
Print Assumptions c60_segment_ends.

(** Full statement: the weight of the motion from origin to destination is from zero to one,
    and one at a control point that ends a segment.  False: at 49 on a segment from 0 to 49
    it is greater than one. *)
Theorem c60_weight_at_most_one_refuted : exists appended t p, point_at_impl (built appended) t = Ok p /\
  built appended = [of_int 0; t] /\ finite (time_nrm p) /\ 0 <= val (time_nrm p) <= 1 /\
  1 < val (f_a (computed WMotion (time_nrm p))).
Proof.
  exists [of_int 0; of_int 49], (of_int 49). eexists. rewrite built_two by (vm_compute; reflexivity).
  split; [apply point_at_two; vm_compute; reflexivity|]. split; [reflexivity|]. cbn [time_nrm].
  split; [vm_compute; reflexivity|]. split.
  - rewrite val_sf.
    replace (B2SF (seg_time_nrm (of_int 0) (of_int 49) (of_int 49))) with (SpecFloat.S754_finite false 9007199254740991 (-53)) by (vm_compute; reflexivity).
    unfold SF2R, F2R. cbn. lra.
  - rewrite val_sf.
    replace (B2SF (f_a (computed WMotion (seg_time_nrm (of_int 0) (of_int 49) (of_int 49))))) with (SpecFloat.S754_finite false 4503599627370501 (-52))
      by (vm_compute; reflexivity).
    unfold SF2R, F2R. cbn. lra.
Qed.
Print Assumptions c60_weight_at_most_one_refuted.
