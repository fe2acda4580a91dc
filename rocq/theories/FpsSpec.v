(** The motion that a segment of a time curve of poses is measured against. *)
From Flocq Require Import Core BinarySingleNaN.
From Verif Require Import Cpp FloatModel FloatSpec NrmSpec Vec RotSpec ScrewSpec DerivSpec DriftModel DriftSpec SpinModel SpinSpec QfSpec FtsModel FtsSpec FdcSpec FpsModel.
Local Open Scope R_scope.

(** A pose on its way: its rotation with the angular velocity and the derivative of that, its
    translation, the velocity of what is at the origin, and the derivative of that. *)
Record flight := Flight { spin : state; place : vec3; slide : vec3; surge : vec3 }.
(** One motion on top of another: the product rule. *)
Definition upon (x y : flight) : flight :=
  let carried v := mvec (rot (spin x)) v in
  let passing := vadd (cross (place x) (carried (vel (spin y)))) (carried (slide y)) in
  Flight (on_top (spin x) (spin y)) (vadd (carried (place y)) (place x)) (vadd (slide x) passing)
    (vadd (vadd (surge x) (vadd (cross (place x) (carried (acc (spin y)))) (carried (surge y))))
          (vadd (cross (slide x) (carried (vel (spin y)))) (cross (vel (spin x)) passing))).
(** The screw motion with the angular velocity [w] and the velocity [v], as far as
    [hermite k] says, at the time [t]. *)
Definition screw_stage (k : weight) (w v : vec3) (t : R) (x : flight) : Prop :=
  turn_part k w t (spin x) /\ place x = screw w v (hermite k t) /\ slide x = vscale (hermite' k t) v /\ surge x = vscale (hermite'' k t) v.
(** The screw motion of at most three radians that leads from one pose to the other. *)
Definition leads (w v : vec3) (orig dest : flight) : Prop :=
  rotation_by w (mmul (rot (spin dest)) (mtrans (rot (spin orig)))) /\ norm w <= 3 /\
  vadd (mvec (mmul (rot (spin dest)) (mtrans (rot (spin orig)))) (place orig)) (screw w v 1) = place dest.
(** The poses on the way from one to another. *)
Definition between_poses (orig dest : flight) (t : R) (p : flight) : Prop :=
  exists w v x1 x2 x3 x4 x5, leads w v orig dest /\
    screw_stage WMotion w v t x1 /\
    screw_stage WVelocityOrig (vel (spin orig)) (slide orig) t x2 /\ screw_stage WVelocityDest (vel (spin dest)) (slide dest) t x3 /\
    screw_stage WAccelerationOrig (acc (spin orig)) (surge orig) t x4 /\ screw_stage WAccelerationDest (acc (spin dest)) (surge dest) t x5 /\
    let q := upon x5 (upon x4 (upon x3 (upon x2 x1))) in
    p = Flight (State (mmul (rot (spin q)) (rot (spin orig))) (vel (spin q)) (acc (spin q)))
          (vadd (mvec (rot (spin q)) (place orig)) (place q)) (slide q) (surge q).

(** A stored vector within [d] of [w]. *)
Definition vec_within (d : R) (v : fvec) (w : vec3) : Prop := vfinite v /\ norm (vsub (vval v) w) <= d.
(** The rotations of a stored two-jet of poses. *)
Definition jet_turns (j : fpjet) : fjet := FJ (frot (pf j)) (frot_part (pd j)) (frot_part (pd2 j)).
(** A stored two-jet whose rotation, velocity and acceleration are within [e0], [e1] and [e2]
    of the flight's and whose translation, velocity and acceleration are within [d0], [d1] and
    [d2] of its. *)
Definition pjet_within (e0 e1 e2 d0 d1 d2 : R) (j : fpjet) (x : flight) : Prop :=
  jet_within e0 e1 e2 (jet_turns j) (spin x) /\
  vec_within d0 (ftrans (pf j)) (place x) /\ vec_within d1 (ftrans_part (pd j)) (slide x) /\ vec_within d2 (ftrans_part (pd2 j)) (surge x).
(** An end of a segment, no farther than [b] from the origin, turning no faster than [m],
    moving no faster than [m b] and stored with the relative error [e]. *)
Definition pose_end_near (e m b : R) (j : fpjet) (x : flight) : Prop :=
  pjet_within e (e * m) (e * m) (e * b) (e * (m * b)) (e * (m * b)) j x /\
  norm (vel (spin x)) <= m /\ norm (acc (spin x)) <= m /\ norm (place x) <= b /\ norm (slide x) <= m * b /\ norm (surge x) <= m * b.

(** Every point that is carried along moves with the velocity given, of which the two parts
    change at the rates given. *)
Definition carries_at (p : R -> flight) (t : R) : Prop :=
  (forall x, let at_time s := vadd (mvec (rot (spin (p s))) x) (place (p s)) in dV at_time t (vadd (cross (vel (spin (p t))) (at_time t)) (slide (p t)))) /\
  dV (fun s => vel (spin (p s))) t (acc (spin (p t))) /\ dV (fun s => slide (p s)) t (surge (p t)).
Definition carries (p : R -> flight) : Prop := forall t, carries_at p t.
