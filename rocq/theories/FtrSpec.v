(** The rides that trajectories in double precision are measured against. *)
From Coq Require Import ZArith List.
From Flocq Require Import Core BinarySingleNaN.
From Verif Require Import Cpp FloatModel FloatSpec Vec RotSpec DerivSpec DriftModel DriftSpec SpinModel SpinSpec FtsModel FtsSpec FtcModel FtcSpec FpsModel FpsSpec FpcModel FpcSpec FtrModel.
Import ListNotations.
Local Open Scope R_scope.

(** A body on its way: how it is turned and where it is, its angular velocity and its velocity
    as seen from the body itself, and the derivatives of these. *)
Record ride := Ride { facing : mat3; spot : vec3; swing : vec3; drive : vec3; swing' : vec3; drive' : vec3 }.
(** How the world moves as seen from the body. *)
Definition world_of (x : ride) : flight :=
  Flight (State (mtrans (facing x)) (vneg (swing x)) (vneg (swing' x))) (vneg (mvec (mtrans (facing x)) (spot x))) (vneg (drive x)) (vneg (drive' x)).
(** A ride to pass through, and when. *)
Record rcontrol := RControl { rat_time : R; rat_ride : ride }.
(** The rides on the way: those from which the world moves as on the journey that C80 is
    about. *)
Definition on_ride (cs : list rcontrol) (t : R) (x : ride) : Prop :=
  on_journey (map (fun c => PControl (rat_time c) (world_of (rat_ride c))) cs) t (world_of x).
(** The first and the last time. *)
Definition rfrom_to (cs : list rcontrol) (first last : R) : Prop :=
  (exists a, nth_error cs 0 = Some a /\ rat_time a = first) /\ (exists b, nth_error cs (length cs - 1) = Some b /\ rat_time b = last).
(** Rides at increasing times, turned at most three radians from one to the next. *)
Definition rproper (cs : list rcontrol) : Prop :=
  (2 <= length cs)%nat /\ Forall (fun c => is_rotation (facing (rat_ride c))) cs /\
  forall i a b, follow cs i a b -> rat_time a < rat_time b /\
    exists w, rotation_by w (mmul (mtrans (facing (rat_ride b))) (facing (rat_ride a))) /\ norm w <= 3.
(** Every point of the body moves with the velocities given, which change at the rates given. *)
Definition rides_at (x : R -> ride) (t : R) : Prop :=
  (forall y, dV (fun s => vadd (mvec (facing (x s)) y) (spot (x s))) t (mvec (facing (x t)) (vadd (cross (swing (x t)) y) (drive (x t))))) /\
  dV (fun s => swing (x s)) t (swing' (x t)) /\ dV (fun s => drive (x s)) t (drive' (x t)).

(** The time of [z] in seconds from [start] on, as a double. *)
Definition moment (start z : Z) : R := val (as_seconds (z - start)).
(** A stored state within these of a ride. *)
Definition ride_within (e0 e1 e2 d0 d1 d2 : R) (j : frjet) (x : ride) : Prop :=
  stands_for e0 (frot (rf j), facing x) /\ vec_within d0 (ftrans (rf j)) (spot x) /\
  vec_within e1 (frot_part (rd1 j)) (swing x) /\ vec_within d1 (ftrans_part (rd1 j)) (drive x) /\
  vec_within e2 (frot_part (rd2 j)) (swing' x) /\ vec_within d2 (ftrans_part (rd2 j)) (drive' x).
(** A stored state no farther than [b] from the origin, at the end of a leg of the length [d]
    on which it would turn by [m] and move by [m b] at most, stored with the relative error
    [e]. *)
Definition ride_stored (e m b d : R) (j : frjet) (x : ride) : Prop :=
  ride_within e (e * m / d) (e * m / (d * d)) (e * b) (e * (m * b) / d) (e * (m * b) / (d * d)) j x /\
  norm (swing x) <= m / d /\ norm (swing' x) <= m / (d * d) /\
  norm (spot x) <= b /\ norm (drive x) <= m * b / d /\ norm (drive' x) <= m * b / (d * d).
(** Points stored for the rides, and no timestamp too long after the first for its distance to
    be an int64. *)
Definition all_rides_stored (e m b : R) (ps : list ftpoint) (cs : list rcontrol) : Prop :=
  length ps = length cs /\
  (forall a i p c, nth_error ps 0 = Some a -> nth_error ps i = Some p -> nth_error cs i = Some c ->
    in64 (fat_time p - fat_time a) /\ rat_time c = moment (fat_time a) (fat_time p)) /\
  forall i f g x y, follow ps i f g -> follow cs i x y -> let d := rat_time y - rat_time x in
    ride_stored e m b d (fstate f) (rat_ride x) /\ ride_stored e m b d (fstate g) (rat_ride y).
(** No timestamp is too long after the first for its distance to be an int64. *)
Definition in_reach (ps : list ftpoint) : Prop := forall a p, nth_error ps 0 = Some a -> In p ps -> in64 (fat_time p - fat_time a).
