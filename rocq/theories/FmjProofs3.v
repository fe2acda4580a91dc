(** The bounds of C83, and a case. *)
From Coq Require Import Reals Lra Lia.
From Flocq Require Import Core BinarySingleNaN.
From Verif Require Import Cpp FloatModel FloatSpec FloatProofs NrmSpec NrmProofs Vec RotSpec GeomModel RotProofs DriftModel DriftSpec DriftProofs SpinModel SpinSpec FdcProofs2 FtsModel FtsSpec FpsModel FpsSpec FpsProofs FpsProofs6 FpsProofs7 FtrModel FtrSpec FtrProofs FtrProofs3 FmjModel FmjSpec FmjProofs FmjProofs2.
Local Open Scope R_scope.

Lemma some_ride_mul a b : exists c, frjet_mul a b c.
Proof.
  destruct (some_mul (rf a) (rf b)) as [p P]. destruct (some_inverse (rf b)) as [i I]. destruct (some_adjoint i (rd1 a)) as [w W]. destruct (some_adjoint i (rd2 a)) as [w2 W2].
  exists (FRJ p (ftadd (rd1 b) w) (ftsub (ftadd (rd2 b) w2) (flie_bracket (rd1 b) w))). split; [exact P|]. split; [exists i, w; auto|]. exists i, i, w2, w. auto 10.
Qed.
Lemma some_ride_inverse a : exists c, frjet_inverse a c.
Proof.
  destruct (some_inverse (rf a)) as [p P]. destruct (some_adjoint (rf a) (rd1 a)) as [w W]. destruct (some_adjoint (rf a) (rd2 a)) as [w2 W2].
  exists (FRJ p (ftneg w) (ftneg w2)). split; [exact P|]. split; [exists w; auto|exists w2; auto].
Qed.
Lemma some_flight_inverse a : exists c, fpjet_inverse a c.
Proof.
  destruct (some_inverse (pf a)) as [p P]. destruct (some_adjoint p (pd a)) as [w W]. destruct (some_adjoint p (pd2 a)) as [w2 W2].
  exists (FPJ p (ftneg w) (ftneg w2)). split; [exact P|]. split; [exists w; auto|exists w2; auto].
Qed.
Lemma kept_unit e n v w : 0 <= e -> 0 < n -> vec_within (e * n) v w -> norm w <= n -> near_v (e + 100 * u) n 1 1 v w.
Proof.
  intros E N (F & D) L. pose proof u_pos. split; [split; [exact F|]|lra]. eapply Rle_trans; [exact D|]. rewrite Rmult_1_l. apply Rmult_le_compat_r; lra.
Qed.
Lemma kept_near e m b j x : usual e m b -> ride_kept e m b j x -> kept_ride (e + 100 * u) m b j x.
Proof.
  intros HU ((R & S & W & V & W' & V') & N0 & N1 & N2 & N3 & N4). destruct (usual_units e m b HU) as (EX & U1 & U2 & U3 & U4 & U5). apply size_pos in U1, U2, U3, U4, U5. destruct HU as (E & _).
  split; [eapply stands_le; [exact R|pose proof u_pos; lra]|]. split; [|split; [|split; [|split]]]; apply kept_unit; assumption.
Qed.
Lemma kept_near_flight e m b j x : usual e m b -> flight_kept e m b j x -> kept_flight (e + 100 * u) m b j x.
Proof.
  intros HU (((R & W & W') & S & V & V') & N0 & N1 & N2 & N3 & N4). destruct (usual_units e m b HU) as (EX & U1 & U2 & U3 & U4 & U5). apply size_pos in U1, U2, U3, U4, U5. destruct HU as (E & _). cbn [jet_turns jf jd jd2] in *.
  split; [eapply stands_le; [exact R|pose proof u_pos; lra]|]. split; [|split; [|split; [|split]]]; apply kept_unit; assumption.
Qed.
Lemma near_off X m b a b0 p0 b1 p1 b2 p2 c1 q1 c2 q2 j x : near_ride X m b a b0 p0 b1 p1 b2 p2 c1 q1 c2 q2 j x -> ride_off X m b a b1 b2 b0 c1 c2 j x.
Proof. intros (R & (S & _) & (W & _) & (W' & _) & (V & _) & (V' & _)). unfold ride_off, ride_within. auto 10. Qed.
Lemma near_off_flight X m b a b0 p0 b1 p1 b2 p2 c1 q1 c2 q2 j x : near_flight X m b a b0 p0 b1 p1 b2 p2 c1 q1 c2 q2 j x -> flight_off X m b a b1 b2 b0 c1 c2 j x.
Proof. intros (R & (S & _) & (W & _) & (W' & _) & (V & _) & (V' & _)). split; [split; [exact R|split; [exact W|exact W']]|]. auto. Qed.
Lemma off_le X m b k0 k1 k2 l0 l1 l2 k0' k1' k2' l0' l1' l2' j x : error_unit X -> units m b -> k0 <= k0' -> k1 <= k1' -> k2 <= k2' -> l0 <= l0' -> l1 <= l1' -> l2 <= l2' ->
  ride_off X m b k0 k1 k2 l0 l1 l2 j x -> ride_off X m b k0' k1' k2' l0' l1' l2' j x.
Proof.
  intros EX (U1 & U2 & U3 & U4 & U5) H0 H1 H2 H3 H4 H5 (R & S & W & V & W' & V'). apply size_pos in U1, U2, U3, U4, U5. pose proof (error_pos X EX) as X0.
  assert (G : forall k k' n v w, 0 < n -> k <= k' -> vec_within (k * (X * n)) v w -> vec_within (k' * (X * n)) v w).
  { intros k k' n v w N K (F & D). split; [exact F|]. eapply Rle_trans; [exact D|]. apply Rmult_le_compat_r; [apply Rlt_le, Rmult_lt_0_compat; lra|exact K]. }
  split; [eapply stands_le; [exact R|apply Rmult_le_compat_r; lra]|]. split; [|split; [|split; [|split]]]; eapply G; eauto.
Qed.
Lemma product_bound e m b jx jy x y : usual e m b -> ride_kept e m b jx x -> ride_kept e m b jy y ->
  (exists c, frjet_mul jx jy c) /\ forall c, frjet_mul jx jy c -> ride_off (e + 100 * u) m b (212 / 100) (313 / 100) (63 / 10) (313 / 100) (74 / 10) (191 / 10) c (riding x y).
Proof.
  intros HU HX HY. split; [apply some_ride_mul|]. intros c C. destruct (usual_units e m b HU) as (EX & UN).
  pose proof (ride_product _ m b EX UN 1 1 1 1 jx x jy y c ltac:(lra) ltac:(lra) ltac:(lra) ltac:(lra) (kept_near _ _ _ _ _ HU HX) (kept_near _ _ _ _ _ HU HY) C) as N. apply near_off in N. eapply off_le; [exact EX|exact UN| | | | | | |exact N]; lra.
Qed.
Lemma inverse_bound e m b jx x : usual e m b -> ride_kept e m b jx x ->
  (exists c, frjet_inverse jx c) /\ forall c, frjet_inverse jx c -> ride_off (e + 100 * u) m b 1 (211 / 100) (211 / 100) (211 / 100) (53 / 10) (53 / 10) c (reverse x).
Proof.
  intros HU HX. split; [apply some_ride_inverse|]. intros c C. destruct (usual_units e m b HU) as (EX & UN).
  pose proof (ride_reverse _ m b EX UN jx x c (kept_near _ _ _ _ _ HU HX) C) as N. apply near_off in N. eapply off_le; [exact EX|exact UN| | | | | | |exact N]; lra.
Qed.
Lemma inverse_times_bound e m b jx jy x y : usual e m b -> ride_kept e m b jx x -> ride_kept e m b jy y ->
  (exists c, frjet_inverse_times jx jy c) /\ forall c, frjet_inverse_times jx jy c -> ride_off (e + 100 * u) m b (212 / 100) (423 / 100) (85 / 10) (423 / 100) (139 / 10) (342 / 10) c (riding (reverse x) y).
Proof.
  intros HU HX HY. split; [destruct (some_ride_inverse jx) as [i I]; destruct (some_ride_mul i jy) as [c C]; exists c, i; auto|]. intros c (i & I & C). destruct (usual_units e m b HU) as (EX & UN).
  pose proof (ride_reverse _ m b EX UN jx x i (kept_near _ _ _ _ _ HU HX) I) as N.
  pose proof (ride_product _ m b EX UN (2102 / 1000) (2102 / 1000) (526 / 100) 2 i _ jy y c ltac:(lra) ltac:(lra) ltac:(lra) ltac:(lra) N (kept_near _ _ _ _ _ HU HY) C) as N2. apply near_off in N2. eapply off_le; [exact EX|exact UN| | | | | | |exact N2]; lra.
Qed.
Lemma left_bound e m b jx jy x y : usual e m b -> flight_kept e m b jx x -> flight_kept e m b jy y ->
  (exists c, fpjet_mul jx jy c) /\ (exists c, fpjet_inverse jx c) /\
  (forall c, fpjet_mul jx jy c -> flight_off (e + 100 * u) m b (212 / 100) (313 / 100) (63 / 10) (313 / 100) (63 / 10) (169 / 10) c (upon x y)) /\
  (forall c, fpjet_inverse jx c -> flight_off (e + 100 * u) m b 1 (211 / 100) (211 / 100) (211 / 100) (64 / 10) (64 / 10) c (undone x)).
Proof.
  intros HU HX HY. split; [apply some_pose_jet_mul|]. split; [apply some_flight_inverse|]. destruct (usual_units e m b HU) as (EX & UN). split; intros c C.
  - exact (near_off_flight _ _ _ _ _ _ _ _ _ _ _ _ _ _ _ _ (flight_product _ m b EX UN jx x jy y c (kept_near_flight _ _ _ _ _ HU HX) (kept_near_flight _ _ _ _ _ HU HY) C)).
  - exact (near_off_flight _ _ _ _ _ _ _ _ _ _ _ _ _ _ _ _ (flight_undone _ m b EX UN jx x c (kept_near_flight _ _ _ _ _ HU HX) C)).
Qed.
Lemma cancel_bound e m b j x : usual e m b -> ride_kept e m b j x ->
  (exists c, frjet_inverse_times j j c) /\ forall c, frjet_inverse_times j j c -> ride_off (e + 100 * u) m b (212 / 100) (423 / 100) (85 / 10) (423 / 100) (139 / 10) (342 / 10) c resting.
Proof.
  intros HU HX. destruct (inverse_times_bound e m b j j x x HU HX HX) as (S & B). split; [exact S|]. intros c C. rewrite <- (reverse_left x); [exact (B c C)|]. exact (proj1 (proj2 (proj1 (proj1 HX)))).
Qed.
(** ** A case *)
Definition as_ride (x : flight) : ride := Ride (rot (spin x)) (place x) (vel (spin x)) (slide x) (acc (spin x)) (surge x).
Definition as_frjet (j : fpjet) : frjet := FRJ (pf j) (pd j) (pd2 j).
Lemma end_kept j x : pose_end_near (63 * u) 3 6 j x -> flight_kept (63 * u) 3 6 j x.
Proof.
  intros (((R & (FW & W) & (FA & A)) & (FS & S) & (FV & V) & (FV' & V')) & N1 & N2 & N3 & N4 & N5). pose proof u_pos as Up.
  split; [split; [split; [exact R|split; (split; [assumption|])]|split; [|split]; (split; [assumption|])]|split; [|split; [|split; [|split]]]]; lra.
Qed.
Lemma as_kept e m b j x : flight_kept e m b j x -> ride_kept e m b (as_frjet j) (as_ride x).
Proof. intros (((R & W & W') & S & V & V') & N). split; [|exact N]. unfold ride_within. cbn [as_frjet as_ride rf rd1 rd2 facing spot swing drive swing' drive']. cbn [jet_turns jf jd jd2] in *. auto 10. Qed.
Lemma usual_case : usual (63 * u) 3 6.
Proof.
  pose proof u_pos. split; [lra|]. split; [rewrite u_num; lra|]. assert (/ 2 ^ 100 <= 1) by (apply Rle_trans with (/ 1); [apply Rinv_le_contravar; [lra|apply pow_R1_Rle; lra]|lra]).
  assert (8 <= 2 ^ 100) by (apply Rle_trans with (2 ^ 3); [lra|apply Rle_pow; [lra|lia]]). assert (2 ^ 100 <= 2 ^ 200) by (apply Rle_pow; [lra|lia]). lra.
Qed.
Lemma moving_case : exists fx fy x y, flight_kept (63 * u) 3 6 fx x /\ flight_kept (63 * u) 3 6 fy y /\
  rotation_by (V3 1 2 2) (mmul (rot (spin y)) (mtrans (rot (spin x)))) /\ place x = V3 1 2 (-1) /\ vel (spin x) = V3 1 2 2 /\ slide x = V3 4 (-3) 0 /\ acc (spin x) = V3 0 0 (-1) /\ surge y = V3 0 9 2.
Proof.
  destruct pose_segment_case as (fo & fd & orig & dest & f & O & D & _ & _ & _ & _ & _ & R & _ & P & W & V & A & B & _). exists fo, fd, orig, dest.
  split; [apply end_kept, O|]. split; [apply end_kept, D|]. auto 10.
Qed.
Lemma upon_case : exists p, is_rotation (rot (spin (p 0))) /\ carries_at p 0 /\ rot (spin (p 0)) = mid /\
  place (p 0) = V3 1 2 (-1) /\ vel (spin (p 0)) = V3 1 2 2 /\ slide (p 0) = V3 4 (-3) 0 /\ place (upon (p 0) (p 0)) = V3 2 4 (-2) /\ slide (undone (p 0)) = V3 2 0 0.
Proof.
  set (orig := Flight (State mid (V3 1 2 2) (V3 0 0 (-1))) (V3 1 2 (-1)) (V3 4 (-3) 0) (V3 1 1 1)).
  destruct (the_flight orig orig rot_mid rot_mid) as (p & _ & P0 & _ & C).
  { exists vzero. cbn [orig spin rot]. split; [|unfold vzero, norm, norm2, dot; cbn [vx vy vz]; replace (0 * 0 + 0 * 0 + 0 * 0) with 0 by ring; rewrite sqrt_0; lra]. 
    left. split; [reflexivity|]. exact (rot_mtrans_r _ rot_mid). }
  exists p. rewrite P0. cbn [orig spin rot place slide vel upon on_top undone]. split; [exact rot_mid|]. split; [exact (C 0)|]. split; [reflexivity|]. repeat (split; [reflexivity|]). split; vring.
Qed.
Lemma riding_case : exists x, is_rotation (facing (x 0)) /\ rides_at x 0 /\ facing (x 0) = mid /\
  spot (x 0) = V3 (-1) (-2) 1 /\ swing (x 0) = V3 (-1) (-2) (-2) /\ drive (x 0) = V3 (-4) 3 0 /\ swing' (x 0) = V3 0 0 1 /\ spot (riding (x 0) (x 0)) = V3 (-2) (-4) 2 /\ drive (riding (x 0) (x 0)) = V3 (-14) 9 0.
Proof.
  set (orig := Flight (State mid (V3 1 2 2) (V3 0 0 (-1))) (V3 1 2 (-1)) (V3 4 (-3) 0) (V3 1 1 1)).
  destruct (the_flight orig orig rot_mid rot_mid) as (p & _ & P0 & _ & C).
  { exists vzero. cbn [orig spin rot]. split; [|unfold vzero, norm, norm2, dot; cbn [vx vy vz]; replace (0 * 0 + 0 * 0 + 0 * 0) with 0 by ring; rewrite sqrt_0; lra].
    left. split; [reflexivity|]. exact (rot_mtrans_r _ rot_mid). }
  exists (fun s => body_of (p s)). pose proof (carries_rides p 0 (C 0)) as D. rewrite P0. split; [exact (rot_mtrans _ rot_mid)|]. split; [exact D|].
  unfold body_of, orig, FpcSpec.turned. cbn [spin rot place slide vel acc surge facing spot swing drive swing' riding]. split; [vring|]. repeat (split; [vring|]). vring.
Qed.
