(** What composed and inverted moving poses are measured against. *)
From Flocq Require Import Core BinarySingleNaN.
From Verif Require Import Cpp FloatModel FloatSpec NrmSpec Vec RotSpec DriftModel DriftSpec SpinModel SpinSpec FtsModel FtsSpec FpsModel FpsSpec FtrModel FtrSpec FmjModel.
Local Open Scope R_scope.

(** A body [y] that rides on a body [x]. *)
Definition riding (x y : ride) : ride :=
  let seen v := mvec (mtrans (facing y)) v in
  Ride (mmul (facing x) (facing y)) (vadd (mvec (facing x) (spot y)) (spot x))
    (vadd (swing y) (seen (swing x)))
    (vadd (drive y) (seen (vadd (drive x) (cross (swing x) (spot y)))))
    (vsub (vadd (swing' y) (seen (swing' x))) (cross (swing y) (seen (swing x))))
    (vsub (vadd (drive' y) (seen (vadd (drive' x) (vadd (cross (swing' x) (spot y)) (cross (swing x) (mvec (facing y) (drive y)))))))
          (cross (swing y) (seen (vadd (drive x) (cross (swing x) (spot y)))))).
(** The other way round: the world as a body seen from [x]. *)
Definition reverse (x : ride) : ride :=
  Ride (mtrans (facing x)) (vneg (mvec (mtrans (facing x)) (spot x)))
    (vneg (mvec (facing x) (swing x))) (vsub (cross (mvec (facing x) (swing x)) (spot x)) (mvec (facing x) (drive x)))
    (vneg (mvec (facing x) (swing' x))) (vsub (cross (mvec (facing x) (swing' x)) (spot x)) (mvec (facing x) (drive' x))).
(** A body that stays at the origin. *)
Definition resting : ride := Ride mid vzero vzero vzero vzero vzero.
(** The inverse of a pose on its way. *)
Definition undone (x : flight) : flight :=
  let r := rot (spin x) in let back v := mvec (mtrans r) v in
  Flight (State (mtrans r) (vneg (back (vel (spin x)))) (vneg (back (acc (spin x))))) (vneg (back (place x)))
    (vneg (back (vadd (cross (vel (spin x)) (place x)) (slide x)))) (vneg (back (vadd (cross (acc (spin x)) (place x)) (surge x)))).

(** A stored state no farther than [b] from the origin, turning no faster than [m] and moving
    no faster than [m b], of which the derivatives are at most [m] times as much, stored with the
    relative error [e]. *)
Definition ride_kept (e m b : R) (j : frjet) (x : ride) : Prop :=
  ride_within e (e * m) (e * (m * m)) (e * b) (e * (b * m)) (e * (b * (m * m))) j x /\
  norm (spot x) <= b /\ norm (swing x) <= m /\ norm (swing' x) <= m * m /\ norm (drive x) <= b * m /\ norm (drive' x) <= b * (m * m).
(** The same of a two-jet of poses. *)
Definition flight_kept (e m b : R) (j : fpjet) (x : flight) : Prop :=
  pjet_within e (e * m) (e * (m * m)) (e * b) (e * (b * m)) (e * (b * (m * m))) j x /\
  norm (place x) <= b /\ norm (vel (spin x)) <= m /\ norm (acc (spin x)) <= m * m /\ norm (slide x) <= b * m /\ norm (surge x) <= b * (m * m).
(** Within [k0], ... times [e] of a ride, each in its unit. *)
Definition ride_off (e m b k0 k1 k2 l0 l1 l2 : R) (j : frjet) (x : ride) : Prop :=
  ride_within (k0 * e) (k1 * (e * m)) (k2 * (e * (m * m))) (l0 * (e * b)) (l1 * (e * (b * m))) (l2 * (e * (b * (m * m)))) j x.
Definition flight_off (e m b k0 k1 k2 l0 l1 l2 : R) (j : fpjet) (x : flight) : Prop :=
  pjet_within (k0 * e) (k1 * (e * m)) (k2 * (e * (m * m))) (l0 * (e * b)) (l1 * (e * (b * m))) (l2 * (e * (b * (m * m)))) j x.
(** Units in which nothing overflows or vanishes. *)
Definition usual (e m b : R) : Prop := 0 <= e /\ e + 100 * u <= / 10 ^ 5 /\ / 2 ^ 100 <= m <= 2 ^ 100 /\ / 2 ^ 100 <= b <= 2 ^ 200.
