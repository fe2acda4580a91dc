(** The curves that distance curves in double precision are measured against: screw motions
    one after another, measured by the length of the path. *)
From Coq Require Import Reals List.
From Flocq Require Import Core BinarySingleNaN.
From Verif Require Import Cpp FloatModel FloatSpec NrmSpec Vec RotSpec ScrewSpec DriftModel DriftSpec SpinModel SpinSpec.
Import ListNotations.
Local Open Scope R_scope.

(** A rotation and a translation. *)
Definition motion : Type := mat3 * vec3.
(** Where the fraction [s] of the screw motion with the angular velocity [w] and the velocity
    [v] leads from the pose [x]. *)
Definition part_way (x : motion) (w v : vec3) (s : R) (y : motion) : Prop :=
  exists r, rotation_by (vscale s w) r /\ fst y = mmul (fst x) r /\ snd y = vadd (mvec (fst x) (screw w v s)) (snd x).
(** The poses between which the screw motions lead. *)
Inductive joints : motion -> list (vec3 * vec3) -> list motion -> Prop :=
| joints_end x : joints x [] [x]
| joints_step x w v l z xs : part_way x w v 1 z -> joints z l xs -> joints x ((w, v) :: l) (x :: xs).
(** The pose at an arc length. *)
Inductive on_curve : motion -> list (vec3 * vec3) -> R -> motion -> Prop :=
| on_first x w v l len s y : path_length (screw w v) len -> 0 <= s <= 1 -> part_way x w v s y -> on_curve x ((w, v) :: l) (s * len) y
| on_later x w v l len z a y : path_length (screw w v) len -> part_way x w v 1 z -> on_curve z l a y -> on_curve x ((w, v) :: l) (len + a) y.
(** The length of the whole. *)
Inductive whole_length : list (vec3 * vec3) -> R -> Prop :=
| whole_none : whole_length [] 0
| whole_step w v l len a : path_length (screw w v) len -> whole_length l a -> whole_length ((w, v) :: l) (len + a).

(** A stored pose whose rotation is within [e] of that of [x] and whose translation is within
    [d] of its. *)
Definition pose_within (e d : R) (p : fpose) (x : motion) : Prop :=
  stands_for e (frot p, fst x) /\ vfinite (ftrans p) /\ norm (vsub (vval (ftrans p)) (snd x)) <= d.
(** A control point no farther than [b] from the origin and stored with the relative error [e]. *)
Definition control_near (e b : R) (p : fpose) (x : motion) : Prop :=
  pose_within e (e * b) p x /\ norm (snd x) <= b.
(** Stored poses along the curve that the screw motions [l] make from [x], each of which
    turns by at most three radians; there are fewer than 2^52 of them. *)
Definition along (e b : R) (gs : list fpose) (x : motion) (l : list (vec3 * vec3)) : Prop :=
  (exists xs, joints x l xs /\ Forall2 (control_near e b) gs xs) /\
  Forall (fun t => norm (fst t) <= 3) l /\ INR (length l) <= 2 ^ 52.
