(** Segments of time curves of rotations in double precision: C74. *)
From Coq Require Import Reals Lra.
From Flocq Require Import Core BinarySingleNaN.
From Verif Require Import Cpp FloatModel FloatSpec NrmSpec Vec RotSpec DerivSpec DriftModel DriftSpec DriftProofs SpinModel SpinSpec TlogModel QfModel FtsModel FtsSpec FtsProofs5.
Local Open Scope R_scope.

(** The motion between two states whose rotations are up to three radians apart: there is one
    state at every time, the first is the one and the last the other, and the velocities and
    accelerations are those of the rotations. *)
Theorem c74_between : forall orig dest, is_rotation (rot orig) -> is_rotation (rot dest) ->
  (exists w, rotation_by w (mmul (rot dest) (mtrans (rot orig))) /\ norm w <= 3) ->
  exists p, (forall t q, between orig dest t q <-> q = p t) /\ p 0 = orig /\ p 1 = dest /\ moves p.
Proof. exact the_way. Qed.
Print Assumptions c74_between.
Example c74_between_case : exists orig dest, is_rotation (rot orig) /\ is_rotation (rot dest) /\
  rotation_by (V3 1 2 2) (mmul (rot dest) (mtrans (rot orig))) /\ norm (V3 1 2 2) = 3 /\ vel orig = V3 1 2 2 /\ acc dest = V3 2 1 0.
Proof.
  destruct segment_case as (fo & fd & orig & dest & f & O & D & _ & _ & _ & _ & R & N & V & _ & _ & A & _). exists orig, dest.
  split; [apply O|]. split; [apply D|]. split; [exact R|]. split; [exact N|]. split; [exact V|exact A].
Qed.

(** TCurveSegment<SO3>::point_at: the rotation, the velocity and the acceleration it computes
    from stored ends are near those of that motion. *)
Theorem c74_point_at : forall e m fo fd orig dest t, 0 <= e -> 0 <= m -> (1 + m) * (e + 100 * u) <= / 10 ^ 5 ->
  end_near e m fo orig -> end_near e m fd dest -> finite t -> 0 <= val t <= 1 ->
  (exists f, fsegment_point_at fo fd t f) /\
  forall f p, fsegment_point_at fo fd t f -> between orig dest (val t) p ->
    jet_within (79 * ((1 + m) * (e + 100 * u))) (340 * ((1 + m) ^ 2 * (e + 100 * u))) (2560 * ((1 + m) ^ 3 * (e + 100 * u))) f p /\
    norm (vel p) <= 97 / 10 * (1 + m) /\ norm (acc p) <= 628 / 10 * (1 + m) ^ 2.
Proof. exact point_near. Qed.
Print Assumptions c74_point_at.
Example c74_point_at_case : exists fo fd orig dest f, end_near (63 * u) 3 fo orig /\ end_near (63 * u) 3 fd dest /\ (1 + 3) * (63 * u + 100 * u) <= / 10 ^ 5 /\
  fsegment_point_at fo fd fhalf f /\ finite fhalf /\ val fhalf = 1 / 2 /\ (exists p, between orig dest (val fhalf) p) /\
  79 * ((1 + 3) * (63 * u + 100 * u)) <= 58 / 10 ^ 13 /\ 340 * ((1 + 3) ^ 2 * (63 * u + 100 * u)) <= 99 / 10 ^ 12 /\ 2560 * ((1 + 3) ^ 3 * (63 * u + 100 * u)) <= 3 / 10 ^ 9.
Proof.
  destruct segment_case as (fo & fd & orig & dest & f & O & D & X & P & F & H & R & N & _ & _ & _ & _ & B). exists fo, fd, orig, dest, f.
  split; [exact O|]. split; [exact D|]. split; [exact X|]. split; [exact P|]. split; [exact F|]. split; [exact H|]. split; [|exact B].
  destruct (the_way orig dest) as (p & Q & _); [apply O|apply D|exists (V3 1 2 2); split; [exact R|rewrite N; apply Rle_refl]|]. exists (p (val fhalf)). apply Q. reflexivity.
Qed.

(** So at the ends of the segment the stored ends come back. *)
Theorem c74_ends : forall e m fo fd orig dest w t f, 0 <= e -> 0 <= m -> (1 + m) * (e + 100 * u) <= / 10 ^ 5 ->
  end_near e m fo orig -> end_near e m fd dest -> rotation_by w (mmul (rot dest) (mtrans (rot orig))) -> norm w <= 3 ->
  finite t -> fsegment_point_at fo fd t f ->
  (val t = 0 -> jet_within (79 * ((1 + m) * (e + 100 * u))) (340 * ((1 + m) ^ 2 * (e + 100 * u))) (2560 * ((1 + m) ^ 3 * (e + 100 * u))) f orig) /\
  (val t = 1 -> jet_within (79 * ((1 + m) * (e + 100 * u))) (340 * ((1 + m) ^ 2 * (e + 100 * u))) (2560 * ((1 + m) ^ 3 * (e + 100 * u))) f dest).
Proof. exact ends_near. Qed.
Print Assumptions c74_ends.
Example c74_ends_case : exists fo fd orig dest f, end_near (63 * u) 3 fo orig /\ end_near (63 * u) 3 fd dest /\ (1 + 3) * (63 * u + 100 * u) <= / 10 ^ 5 /\
  rotation_by (V3 1 2 2) (mmul (rot dest) (mtrans (rot orig))) /\ norm (V3 1 2 2) = 3 /\ fsegment_point_at fo fd (of_int 1) f.
Proof.
  destruct segment_case as (fo & fd & orig & dest & _ & O & D & X & _ & _ & _ & R & N & _). destruct (some_point fo fd (of_int 1)) as [f P]. exists fo, fd, orig, dest, f.
  split; [exact O|]. split; [exact D|]. split; [exact X|]. split; [exact R|]. split; [exact N|exact P].
Qed.
