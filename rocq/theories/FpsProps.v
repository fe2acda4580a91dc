(** Segments of time curves of poses in double precision: C79. *)
From Coq Require Import Reals Lra.
From Flocq Require Import Core BinarySingleNaN.
From Verif Require Import Cpp FloatModel FloatSpec NrmSpec Vec RotSpec DerivSpec DriftModel DriftSpec DriftProofs SpinModel SpinSpec TlogModel QfModel FtsModel FtsSpec FpsModel FpsSpec FpsProofs6 FpsProofs7.
Local Open Scope R_scope.

(** The motion between two poses whose rotations are up to three radians apart: there is one
    pose at every time, the first is the one and the last the other, and every point that is
    carried along moves with the velocities given. *)
Theorem c79_between : forall orig dest, is_rotation (rot (spin orig)) -> is_rotation (rot (spin dest)) ->
  (exists w, rotation_by w (mmul (rot (spin dest)) (mtrans (rot (spin orig)))) /\ norm w <= 3) ->
  exists p, (forall t q, between_poses orig dest t q <-> q = p t) /\ p 0 = orig /\ p 1 = dest /\ carries p.
Proof. exact the_flight. Qed.
Print Assumptions c79_between.
Example c79_between_case : exists orig dest, is_rotation (rot (spin orig)) /\ is_rotation (rot (spin dest)) /\
  rotation_by (V3 1 2 2) (mmul (rot (spin dest)) (mtrans (rot (spin orig)))) /\ norm (V3 1 2 2) = 3 /\
  place orig = V3 1 2 (-1) /\ slide orig = V3 4 (-3) 0 /\ surge dest = V3 0 9 2.
Proof.
  destruct pose_segment_case as (fo & fd & orig & dest & f & O & D & _ & _ & _ & _ & _ & R & N & P & _ & V & _ & A & _). exists orig, dest.
  split; [apply O|]. split; [apply D|]. split; [exact R|]. split; [exact N|]. split; [exact P|]. split; [exact V|exact A].
Qed.

(** TCurveSegment<SE3>::point_at: the pose, the velocity and the acceleration it computes from
    stored ends no farther than [b] from the origin are near those of that motion. *)
Theorem c79_point_at : forall e m b fo fd orig dest t, 0 <= e -> 0 <= m -> / 2 ^ 400 <= b -> b <= 2 ^ 450 ->
  (1 + m) * (e + 100 * u) <= / 10 ^ 5 -> pose_end_near e m b fo orig -> pose_end_near e m b fd dest -> finite t -> 0 <= val t <= 1 ->
  (exists f, fpsegment_point_at fo fd t f) /\
  forall f p, fpsegment_point_at fo fd t f -> between_poses orig dest (val t) p ->
    pjet_within (79 * ((1 + m) * (e + 100 * u))) (340 * ((1 + m) ^ 2 * (e + 100 * u))) (2560 * ((1 + m) ^ 3 * (e + 100 * u)))
      (576 * ((1 + m) ^ 2 * (e + 100 * u)) * b) (1780 * ((1 + m) ^ 3 * (e + 100 * u)) * b) (14600 * ((1 + m) ^ 4 * (e + 100 * u)) * b) f p /\
    norm (vel (spin p)) <= 97 / 10 * (1 + m) /\ norm (acc (spin p)) <= 628 / 10 * (1 + m) ^ 2 /\
    norm (place p) <= 58 / 10 * (1 + m) * b /\ norm (slide p) <= 184 / 10 * (1 + m) ^ 2 * b /\ norm (surge p) <= 153 * (1 + m) ^ 3 * b.
Proof. exact pose_point_near. Qed.
Print Assumptions c79_point_at.
Example c79_point_at_case : exists fo fd orig dest f, pose_end_near (63 * u) 3 6 fo orig /\ pose_end_near (63 * u) 3 6 fd dest /\
  (1 + 3) * (63 * u + 100 * u) <= / 10 ^ 5 /\ / 2 ^ 400 <= 6 <= 2 ^ 450 /\
  fpsegment_point_at fo fd fhalf f /\ finite fhalf /\ val fhalf = 1 / 2 /\ (exists p, between_poses orig dest (val fhalf) p) /\
  576 * ((1 + 3) ^ 2 * (63 * u + 100 * u)) * 6 <= 11 / 10 ^ 10 /\ 1780 * ((1 + 3) ^ 3 * (63 * u + 100 * u)) * 6 <= 13 / 10 ^ 9 /\ 14600 * ((1 + 3) ^ 4 * (63 * u + 100 * u)) * 6 <= 41 / 10 ^ 8.
Proof.
  destruct pose_segment_case as (fo & fd & orig & dest & f & O & D & X & B & P & F & H & R & N & _ & _ & _ & _ & _ & Z). exists fo, fd, orig, dest, f.
  split; [exact O|]. split; [exact D|]. split; [exact X|]. split; [exact B|]. split; [exact P|]. split; [exact F|]. split; [exact H|]. split; [|exact Z].
  destruct (the_flight orig dest) as (p & Q & _); [apply O|apply D|exists (V3 1 2 2); split; [exact R|rewrite N; apply Rle_refl]|]. exists (p (val fhalf)). apply Q. reflexivity.
Qed.

(** So at the ends of the segment the stored ends come back. *)
Theorem c79_ends : forall e m b fo fd orig dest w t f, 0 <= e -> 0 <= m -> / 2 ^ 400 <= b -> b <= 2 ^ 450 -> (1 + m) * (e + 100 * u) <= / 10 ^ 5 ->
  pose_end_near e m b fo orig -> pose_end_near e m b fd dest ->
  rotation_by w (mmul (rot (spin dest)) (mtrans (rot (spin orig)))) -> norm w <= 3 -> finite t -> fpsegment_point_at fo fd t f ->
  let near := pjet_within (79 * ((1 + m) * (e + 100 * u))) (340 * ((1 + m) ^ 2 * (e + 100 * u))) (2560 * ((1 + m) ^ 3 * (e + 100 * u)))
      (576 * ((1 + m) ^ 2 * (e + 100 * u)) * b) (1780 * ((1 + m) ^ 3 * (e + 100 * u)) * b) (14600 * ((1 + m) ^ 4 * (e + 100 * u)) * b) in
  (val t = 0 -> near f orig) /\ (val t = 1 -> near f dest).
Proof. exact pose_ends_near. Qed.
Print Assumptions c79_ends.
Example c79_ends_case : exists fo fd orig dest f, pose_end_near (63 * u) 3 6 fo orig /\ pose_end_near (63 * u) 3 6 fd dest /\
  (1 + 3) * (63 * u + 100 * u) <= / 10 ^ 5 /\ / 2 ^ 400 <= 6 <= 2 ^ 450 /\
  rotation_by (V3 1 2 2) (mmul (rot (spin dest)) (mtrans (rot (spin orig)))) /\ norm (V3 1 2 2) = 3 /\ fpsegment_point_at fo fd (of_int 1) f.
Proof.
  destruct pose_segment_case as (fo & fd & orig & dest & _ & O & D & X & B & _ & _ & _ & R & N & _). destruct (some_pose_point fo fd (of_int 1)) as [f P]. exists fo, fd, orig, dest, f.
  split; [exact O|]. split; [exact D|]. split; [exact X|]. split; [exact B|]. split; [exact R|]. split; [exact N|exact P].
Qed.
