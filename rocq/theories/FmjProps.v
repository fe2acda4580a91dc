(** Composing and inverting moving poses in double precision: C83. *)
From Coq Require Import Reals Lra.
From Flocq Require Import Core BinarySingleNaN.
From Verif Require Import Cpp FloatModel FloatSpec NrmSpec NrmProofs Vec RotSpec RotProofs DerivSpec DerivProofs DriftModel DriftSpec DriftProofs SpinModel SpinSpec FtsModel FtsSpec FpsModel FpsSpec FtrModel FtrSpec FmjModel FmjSpec FmjProofs FmjProofs3.
Local Open Scope R_scope.

(** The exact motions: a body that rides on a moving body moves as [riding] says, the world as
    seen from a moving body as [reverse] says, and a body seen from itself rests. *)
Theorem c83_riding : forall x y t, is_rotation (facing (x t)) -> is_rotation (facing (y t)) -> rides_at x t -> rides_at y t ->
  (rides_at (fun s => riding (x s) (y s)) t /\
   forall p, vadd (mvec (facing (riding (x t) (y t))) p) (spot (riding (x t) (y t))) = vadd (mvec (facing (x t)) (vadd (mvec (facing (y t)) p) (spot (y t)))) (spot (x t))) /\
  rides_at (fun s => reverse (x s)) t /\ riding (reverse (x t)) (x t) = resting /\ riding (x t) (reverse (x t)) = resting.
Proof.
  intros x y t RX RY HX HY. split; [split; [exact (riding_rides x y t RY HX HY)|]|split; [exact (reverse_rides x t RX HX)|split; [exact (reverse_left _ RX)|exact (reverse_right _ RX)]]].
  intro p. cbn [riding facing spot]. generalize (facing (x t)), (facing (y t)), (spot (x t)), (spot (y t)). intros. vring.
Qed.
Print Assumptions c83_riding.
Example c83_riding_case : exists x, is_rotation (facing (x 0)) /\ rides_at x 0 /\ facing (x 0) = mid /\
  spot (x 0) = V3 (-1) (-2) 1 /\ swing (x 0) = V3 (-1) (-2) (-2) /\ drive (x 0) = V3 (-4) 3 0 /\ swing' (x 0) = V3 0 0 1 /\ spot (riding (x 0) (x 0)) = V3 (-2) (-4) 2 /\ drive (riding (x 0) (x 0)) = V3 (-14) 9 0.
Proof. exact riding_case. Qed.

(** The same of poses of which the velocities are given in the frame of the reference: one on
    top of another, and the inverse. *)
Theorem c83_upon : forall p q t, is_rotation (rot (spin (p t))) -> carries_at p t -> carries_at q t ->
  carries_at (fun s => upon (p s) (q s)) t /\ carries_at (fun s => undone (p s)) t.
Proof. intros p q t R HP HQ. split; [exact (upon_carries_at p q t R HP HQ)|exact (undone_carries p t R HP)]. Qed.
Print Assumptions c83_upon.
Example c83_upon_case : exists p, is_rotation (rot (spin (p 0))) /\ carries_at p 0 /\ rot (spin (p 0)) = mid /\
  place (p 0) = V3 1 2 (-1) /\ vel (spin (p 0)) = V3 1 2 2 /\ slide (p 0) = V3 4 (-3) 0 /\ place (upon (p 0) (p 0)) = V3 2 4 (-2) /\ slide (undone (p 0)) = V3 2 0 0.
Proof. exact upon_case. Qed.

(** TwoJetR<SE3>::operator* and RigidBodyState<SE3>::operator* in double precision. *)
Theorem c83_product : forall e m b jx jy x y, usual e m b -> ride_kept e m b jx x -> ride_kept e m b jy y ->
  (exists c, frjet_mul jx jy c) /\
  forall c, frjet_mul jx jy c -> ride_off (e + 100 * u) m b (212 / 100) (313 / 100) (63 / 10) (313 / 100) (74 / 10) (191 / 10) c (riding x y).
Proof. exact product_bound. Qed.
Print Assumptions c83_product.
Example c83_product_case : exists jx jy x y c, usual (63 * u) 3 6 /\ ride_kept (63 * u) 3 6 jx x /\ ride_kept (63 * u) 3 6 jy y /\ frjet_mul jx jy c /\
  rotation_by (V3 1 2 2) (mmul (facing y) (mtrans (facing x))) /\ spot x = V3 1 2 (-1) /\ swing x = V3 1 2 2 /\ drive x = V3 4 (-3) 0 /\ drive' y = V3 0 9 2 /\
  191 / 10 * ((63 * u + 100 * u) * (6 * (3 * 3))) <= 2 / 10 ^ 11.
Proof.
  destruct moving_case as (fx & fy & x & y & HX & HY & R & P & W & V & _ & A). destruct (some_ride_mul (as_frjet fx) (as_frjet fy)) as [c C]. exists (as_frjet fx), (as_frjet fy), (as_ride x), (as_ride y), c.
  split; [exact usual_case|]. split; [apply as_kept, HX|]. split; [apply as_kept, HY|]. split; [exact C|]. repeat (split; [assumption|]). rewrite u_num. lra.
Qed.

(** TwoJetR<SE3>::inverse. *)
Theorem c83_inverse : forall e m b j x, usual e m b -> ride_kept e m b j x ->
  (exists c, frjet_inverse j c) /\
  forall c, frjet_inverse j c -> ride_off (e + 100 * u) m b 1 (211 / 100) (211 / 100) (211 / 100) (53 / 10) (53 / 10) c (reverse x).
Proof. exact inverse_bound. Qed.
Print Assumptions c83_inverse.
Example c83_inverse_case : exists j x c, usual (63 * u) 3 6 /\ ride_kept (63 * u) 3 6 j x /\ frjet_inverse j c /\
  spot x = V3 1 2 (-1) /\ swing x = V3 1 2 2 /\ drive x = V3 4 (-3) 0 /\ 53 / 10 * ((63 * u + 100 * u) * (6 * 3)) <= 2 / 10 ^ 12.
Proof.
  destruct moving_case as (fx & fy & x & y & HX & HY & R & P & W & V & _ & A). destruct (some_ride_inverse (as_frjet fx)) as [c C]. exists (as_frjet fx), (as_ride x), c.
  split; [exact usual_case|]. split; [apply as_kept, HX|]. split; [exact C|]. repeat (split; [assumption|]). rewrite u_num. lra.
Qed.

(** RigidBodyState<SE3>::inverse_times: how one body moves as seen from another, and that a
    body nearly rests as seen from itself. *)
Theorem c83_inverse_times : forall e m b jx jy x y, usual e m b -> ride_kept e m b jx x -> ride_kept e m b jy y ->
  ((exists c, frjet_inverse_times jx jy c) /\
   forall c, frjet_inverse_times jx jy c -> ride_off (e + 100 * u) m b (212 / 100) (423 / 100) (85 / 10) (423 / 100) (139 / 10) (342 / 10) c (riding (reverse x) y)) /\
  forall c, frjet_inverse_times jx jx c -> ride_off (e + 100 * u) m b (212 / 100) (423 / 100) (85 / 10) (423 / 100) (139 / 10) (342 / 10) c resting.
Proof. intros e m b jx jy x y U X Y. exact (conj (inverse_times_bound e m b jx jy x y U X Y) (proj2 (cancel_bound e m b jx x U X))). Qed.
Print Assumptions c83_inverse_times.
Example c83_inverse_times_case : exists jx jy x y c d, usual (63 * u) 3 6 /\ ride_kept (63 * u) 3 6 jx x /\ ride_kept (63 * u) 3 6 jy y /\ frjet_inverse_times jx jy c /\ frjet_inverse_times jx jx d /\
  spot x = V3 1 2 (-1) /\ swing x = V3 1 2 2 /\ drive x = V3 4 (-3) 0 /\ drive' y = V3 0 9 2 /\ 342 / 10 * ((63 * u + 100 * u) * (6 * (3 * 3))) <= 4 / 10 ^ 11.
Proof.
  destruct moving_case as (fx & fy & x & y & HX & HY & R & P & W & V & _ & A).
  destruct (proj1 (inverse_times_bound _ _ _ _ _ _ _ usual_case (as_kept _ _ _ _ _ HX) (as_kept _ _ _ _ _ HY))) as [c C]. destruct (proj1 (cancel_bound _ _ _ _ _ usual_case (as_kept _ _ _ _ _ HX))) as [d D].
  exists (as_frjet fx), (as_frjet fy), (as_ride x), (as_ride y), c, d.
  split; [exact usual_case|]. split; [apply as_kept, HX|]. split; [apply as_kept, HY|]. split; [exact C|]. split; [exact D|]. repeat (split; [assumption|]). rewrite u_num. lra.
Qed.

(** TwoJetL<SE3>::operator* and TwoJetL<SE3>::inverse. *)
Theorem c83_left : forall e m b jx jy x y, usual e m b -> flight_kept e m b jx x -> flight_kept e m b jy y ->
  (exists c, fpjet_mul jx jy c) /\ (exists c, fpjet_inverse jx c) /\
  (forall c, fpjet_mul jx jy c -> flight_off (e + 100 * u) m b (212 / 100) (313 / 100) (63 / 10) (313 / 100) (63 / 10) (169 / 10) c (upon x y)) /\
  (forall c, fpjet_inverse jx c -> flight_off (e + 100 * u) m b 1 (211 / 100) (211 / 100) (211 / 100) (64 / 10) (64 / 10) c (undone x)).
Proof. exact left_bound. Qed.
Print Assumptions c83_left.
Example c83_left_case : exists jx jy x y, usual (63 * u) 3 6 /\ flight_kept (63 * u) 3 6 jx x /\ flight_kept (63 * u) 3 6 jy y /\
  rotation_by (V3 1 2 2) (mmul (rot (spin y)) (mtrans (rot (spin x)))) /\ place x = V3 1 2 (-1) /\ vel (spin x) = V3 1 2 2 /\ slide x = V3 4 (-3) 0 /\ acc (spin x) = V3 0 0 (-1) /\ surge y = V3 0 9 2 /\
  169 / 10 * ((63 * u + 100 * u) * (6 * (3 * 3))) <= 2 / 10 ^ 11.
Proof.
  destruct moving_case as (fx & fy & x & y & HX & HY & R & P & W & V & A & B). exists fx, fy, x, y. split; [exact usual_case|]. split; [exact HX|]. split; [exact HY|]. repeat (split; [assumption|]). rewrite u_num. lra.
Qed.
