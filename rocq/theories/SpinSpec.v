(** What rotations made in double precision are measured against. *)
From Flocq Require Import Core BinarySingleNaN.
From Verif Require Import Cpp FloatModel FloatSpec NrmSpec Vec RotSpec DriftModel DriftSpec SpinModel.
Local Open Scope R_scope.

(** The matrix of the turn by the angle [t] about the axis [n]: its columns are the turned
    coordinate axes. *)
Definition turning (t : R) (n : vec3) : mat3 :=
  let a := turned t n (V3 1 0 0) in let b := turned t n (V3 0 1 0) in let c := turned t n (V3 0 0 1) in
  M3 (vx a) (vx b) (vx c) (vy a) (vy b) (vy c) (vz a) (vz b) (vz c).
(** The direction of a vector that is not zero. *)
Definition direction (v : vec3) : vec3 := vscale (/ norm v) v.
(** The rotation of a rotation vector: no turn for zero. *)
Definition rotation_by (v : vec3) (m : mat3) : Prop :=
  (v = vzero /\ m = mid) \/ (v <> vzero /\ m = turning (norm v) (direction v)).

(** The rotation of a unit quaternion w + ix + jy + kz: by twice the arc cosine of [w] about
    the axis of its vector part; written without angles. *)
Definition quaternion_turn (w : R) (p : vec3) (v : vec3) : vec3 :=
  vadd v (vadd (vscale (2 * w) (cross p v)) (vscale 2 (cross p (cross p v)))).
Definition quaternion_matrix (w : R) (p : vec3) : mat3 :=
  let a := quaternion_turn w p (V3 1 0 0) in let b := quaternion_turn w p (V3 0 1 0) in let c := quaternion_turn w p (V3 0 0 1) in
  M3 (vx a) (vx b) (vx c) (vy a) (vy b) (vy c) (vz a) (vz b) (vz c).
(** A stored quaternion within [e] of w + ix + jy + kz. *)
Definition qfinite (q : fquat) : Prop := finite (qfw q) /\ finite (qfx q) /\ finite (qfy q) /\ finite (qfz q).
Definition qoff (q : fquat) (w : R) (p : vec3) : R :=
  sqrt ((val (qfw q) - w) ^ 2 + (val (qfx q) - vx p) ^ 2 + (val (qfy q) - vy p) ^ 2 + (val (qfz q) - vz p) ^ 2).
(** The quaternions of the opposite turn and of the same turn. *)
Definition fconjugate (q : fquat) : fquat := FQ (qfw q) (fneg (qfx q)) (fneg (qfy q)) (fneg (qfz q)).
Definition fopposite (q : fquat) : fquat := FQ (fneg (qfw q)) (fneg (qfx q)) (fneg (qfy q)) (fneg (qfz q)).
(** A rotation made by SO3::exp from a vector no longer than [l], and what it stands for. *)
Definition made_by_exp (l : R) (g : fmat * mat3) : Prop :=
  exists v, vfinite v /\ norm (vval v) <= l /\ rotation_by (vval v) (snd g) /\ fso3_exp v (fst g).
