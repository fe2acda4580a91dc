(** The motion that a segment of a time curve of rotations is measured against. *)
From Flocq Require Import Core BinarySingleNaN.
From Verif Require Import Cpp FloatModel FloatSpec NrmSpec Vec RotSpec DerivSpec DriftModel DriftSpec SpinModel SpinSpec QfSpec FtsModel.
Local Open Scope R_scope.

(** A rotation, its angular velocity and the derivative of that. *)
Record state := State { rot : mat3; vel : vec3; acc : vec3 }.
(** One motion on top of another: the product rule. *)
Definition on_top (x y : state) : state :=
  State (mmul (rot x) (rot y)) (vadd (vel x) (mvec (rot x) (vel y)))
    (vadd (vadd (acc x) (mvec (rot x) (acc y))) (cross (vel x) (mvec (rot x) (vel y)))).
(** The turn by [hermite w] times [v], at the time [t]. *)
Definition turn_part (w : weight) (v : vec3) (t : R) (x : state) : Prop :=
  rotation_by (vscale (hermite w t) v) (rot x) /\ vel x = vscale (hermite' w t) v /\ acc x = vscale (hermite'' w t) v.
(** The states on the way from one state to another, of which the rotations are at most
    three radians apart. *)
Definition between (orig dest : state) (t : R) (p : state) : Prop :=
  exists w x1 x2 x3 x4 x5, rotation_by w (mmul (rot dest) (mtrans (rot orig))) /\ norm w <= 3 /\
    turn_part WMotion w t x1 /\ turn_part WVelocityOrig (vel orig) t x2 /\ turn_part WVelocityDest (vel dest) t x3 /\
    turn_part WAccelerationOrig (acc orig) t x4 /\ turn_part WAccelerationDest (acc dest) t x5 /\
    let q := on_top x5 (on_top x4 (on_top x3 (on_top x2 x1))) in
    p = State (mmul (rot q) (rot orig)) (vel q) (acc q).

(** A stored two-jet whose rotation, velocity and acceleration are within [e0], [e1] and [e2]
    of the state's. *)
Definition jet_within (e0 e1 e2 : R) (j : fjet) (x : state) : Prop :=
  stands_for e0 (jf j, rot x) /\ (vfinite (jd j) /\ norm (vsub (vval (jd j)) (vel x)) <= e1) /\
  (vfinite (jd2 j) /\ norm (vsub (vval (jd2 j)) (acc x)) <= e2).
(** An end of a segment, no faster than [m] and stored with the relative error [e]. *)
Definition end_near (e m : R) (j : fjet) (x : state) : Prop :=
  jet_within e (e * m) (e * m) j x /\ norm (vel x) <= m /\ norm (acc x) <= m.

(** Every vector that turns along moves with the velocity given, which changes at the rate
    given. *)
Definition moves_at (p : R -> state) (t : R) : Prop :=
  (forall v, dV (fun s => mvec (rot (p s)) v) t (cross (vel (p t)) (mvec (rot (p t)) v))) /\ dV (fun s => vel (p s)) t (acc (p t)).
Definition moves (p : R -> state) : Prop := forall t, moves_at p t.
