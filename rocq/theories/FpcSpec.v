(** The journeys that time curves of poses in double precision are measured against. *)
From Coq Require Import List.
From Flocq Require Import Core BinarySingleNaN.
From Verif Require Import Cpp FloatModel FloatSpec NrmSpec Vec RotSpec DriftModel DriftSpec SpinModel SpinSpec FtsModel FtsSpec FtcModel FtcSpec FpsModel FpsSpec FpcModel.
Import ListNotations.
Local Open Scope R_scope.

(** A pose to be passed through on the way, and when. *)
Record pcontrol := PControl { pat_time : R; pat_flight : flight }.
(** Its rotation. *)
Definition turned (x : flight) : mat3 := rot (spin x).
(** The same with the time counted in units of [d]. *)
Definition flight_units (d : R) (x : flight) : flight := Flight (in_units d (spin x)) (place x) (vscale d (slide x)) (vscale (d * d) (surge x)).
(** Where it is at the time [t] between two control points. *)
Definition on_leg (a b : pcontrol) (t : R) (p : flight) : Prop :=
  pat_time a <= t <= pat_time b /\
  let d := pat_time b - pat_time a in
  exists q, between_poses (flight_units d (pat_flight a)) (flight_units d (pat_flight b)) ((t - pat_time a) / d) q /\ p = flight_units (/ d) q.
(** Where it is at the time [t] on the whole journey. *)
Definition on_journey (cs : list pcontrol) (t : R) (p : flight) : Prop := exists i a b, follow cs i a b /\ on_leg a b t p.
(** The first and the last time. *)
Definition pfrom_to (cs : list pcontrol) (first last : R) : Prop :=
  (exists a, nth_error cs 0 = Some a /\ pat_time a = first) /\ (exists b, nth_error cs (length cs - 1) = Some b /\ pat_time b = last).
(** Poses, at increasing times, the rotations at most three radians from one to the next. *)
Definition pproper (cs : list pcontrol) : Prop :=
  (2 <= length cs)%nat /\ Forall (fun c => is_rotation (turned (pat_flight c))) cs /\
  forall i a b, follow cs i a b -> pat_time a < pat_time b /\
    exists w, rotation_by w (mmul (turned (pat_flight b)) (mtrans (turned (pat_flight a)))) /\ norm w <= 3.

(** A stored control point no farther than [b] from the origin, at the end of a leg of the
    length [d] on which it would turn by [m] and move by [m b] at most, stored with the
    relative error [e]. *)
Definition pstored (e m b d : R) (f : fpcontrol) (c : pcontrol) : Prop :=
  finite (fptime f) /\ val (fptime f) = pat_time c /\
  pjet_within e (e * m / d) (e * m / (d * d)) (e * b) (e * (m * b) / d) (e * (m * b) / (d * d)) (fppoint f) (pat_flight c) /\
  norm (vel (spin (pat_flight c))) <= m / d /\ norm (acc (spin (pat_flight c))) <= m / (d * d) /\
  norm (place (pat_flight c)) <= b /\ norm (slide (pat_flight c)) <= m * b / d /\ norm (surge (pat_flight c)) <= m * b / (d * d).
Definition all_pstored (e m b : R) (fs : list fpcontrol) (cs : list pcontrol) : Prop :=
  length fs = length cs /\
  forall i f g x y, follow fs i f g -> follow cs i x y ->
    let d := pat_time y - pat_time x in / 2 ^ 100 <= d <= 2 ^ 100 /\ pstored e m b d f x /\ pstored e m b d g y.
