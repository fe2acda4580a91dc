(** Trajectories in double precision: C81. *)
From Coq Require Import Reals Lra Lia List.
From Flocq Require Import Core BinarySingleNaN.
From Verif Require Import Cpp FloatModel FloatSpec FloatProofs NrmSpec NrmProofs Vec RotSpec DerivSpec DriftModel DriftSpec DriftProofs SpinModel SpinSpec FtsModel FtsSpec FtcModel FtcSpec FpsModel FpsSpec FpcModel FpcSpec FtrModel FtrSpec FtrProofs FtrProofs2 FtrProofs3 FtrProofs4.
Import ListNotations.
Local Open Scope R_scope.

(** The exact trajectory: one ride at every time from the first to the last and none elsewhere,
    through every control point; every point of the body moves with the velocities given, at
    the control points too. *)
Theorem c81_exact : forall cs first last, rproper cs -> rfrom_to cs first last ->
  exists x, (forall t q, on_ride cs t q <-> first <= t <= last /\ q = x t) /\
    (forall c, In c cs -> x (rat_time c) = rat_ride c) /\ (forall t, first < t < last -> rides_at x t).
Proof. exact the_ride. Qed.
Print Assumptions c81_exact.
Example c81_exact_case : exists cs a b, rproper cs /\ rfrom_to cs 0 3 /\ map rat_time cs = [0; 2; 3] /\ cs = [a; b; RControl 3 (rat_ride b)] /\
  spot (rat_ride a) = V3 1 2 (-1) /\ drive (rat_ride a) = V3 4 (-3) 0 /\ swing (rat_ride a) = V3 1 2 2 /\ drive' (rat_ride b) = V3 0 9 2.
Proof. destruct ride_case as (ps & cs & tr & P & F & _ & _ & _ & _ & _ & _ & T & (a & b & H) & _). exists cs, a, b. auto. Qed.

(** The times: the seconds of a timestamp are off by less than three roundings, and within 97
    days of the start they tell all timestamps apart. *)
Theorem c81_times : forall start z, in64 (z - start) ->
  Rabs (moment start z - IZR (z - start) / 10 ^ 9) <= 3 * u * Rabs (IZR (z - start) / 10 ^ 9) /\
  forall z', (Z.abs (z - start) <= 2 ^ 23 * 10 ^ 9)%Z -> (Z.abs (z' - start) <= 2 ^ 23 * 10 ^ 9)%Z -> (z < z')%Z -> moment start z < moment start z'.
Proof.
  exact (fun start z D => conj (moment_near start z D) (fun z' A A' L => proj2 (proj2 (seconds_order (z - start) (z' - start) D (days_in64 _ A'))) A A' (proj1 (Z.sub_lt_mono_r z z' start) L))).
Qed.
Print Assumptions c81_times.
Example c81_times_case : in64 (1700000000123456789 - 1699999999000000000) /\ (Z.abs (1700000000123456789 - 1699999999000000000) <= 2 ^ 23 * 10 ^ 9)%Z /\ (1700000000123456789 < 1700000000123456790)%Z.
Proof. unfold in64, INT64_MIN, INT64_MAX. lia. Qed.

(** Trajectory(points) throws exactly when the seconds of a timestamp are not after those of
    the one before. *)
Theorem c81_made : forall ps, in_reach ps -> let ordered := forall a i p q, nth_error ps 0 = Some a -> follow ps i p q -> moment (fat_time a) (fat_time p) < moment (fat_time a) (fat_time q) in
  (ordered -> (exists tr, ftr_make ps (Ok tr)) /\ forall result, ftr_make ps result -> exists tr, result = Ok tr) /\ (~ ordered -> forall result, ftr_make ps result <-> result = Throw).
Proof. exact trajectory_made. Qed.
Print Assumptions c81_made.
Example c81_made_case : exists ps tr p, in_reach ps /\ ftr_make ps (Ok tr) /\ in_reach [p; p] /\ ftr_make [p; p] Throw /\ map fat_time ps = [5000000000; 7000000000; 8000000000]%Z.
Proof.
  destruct ride_case as (ps & cs & tr & P & F & S & _ & _ & _ & MK & T & _). destruct ps as [|p ps]; [discriminate T|]. exists (p :: ps), tr, p.
  assert (I : in_reach [p; p]) by (intros a q A [<-|[<-|[]]]; injection A as <-; rewrite Z.sub_diag; unfold in64, INT64_MIN, INT64_MAX; lia).
  split; [exact (stored_in_reach _ _ _ _ _ S)|]. split; [exact MK|]. split; [exact I|]. split; [|exact T]. apply (proj2 (trajectory_made [p; p] I)); [|reflexivity]. intro O. specialize (O p 0%nat p p eq_refl (conj eq_refl eq_refl)). lra.
Qed.

(** Trajectory::point_at: at every timestamp from the first to the last the state is near that
    of the exact trajectory through the control points. *)
Theorem c81_point_at : forall e m r ps cs tr a b z, 0 <= e -> u <= m -> / 2 ^ 400 <= r <= 2 ^ 200 -> (1 + m) * (3 * e + 112 * u) <= / 10 ^ 5 ->
  rproper cs -> all_rides_stored e m r ps cs -> ftr_make ps (Ok tr) -> nth_error ps 0 = Some a -> nth_error ps (length ps - 1) = Some b -> (fat_time a <= z <= fat_time b)%Z ->
  (exists f, ftr_point_at tr z (Ok f)) /\
  forall result x, ftr_point_at tr z result -> on_ride cs (moment (fat_time a) z) x ->
  exists f i c c', result = Ok f /\ follow cs i c c' /\ rat_time c <= moment (fat_time a) z <= rat_time c' /\ let d := rat_time c' - rat_time c in
    ride_within (79 * ((1 + m) * (3 * e + 112 * u))) (341 * ((1 + m) ^ 2 * (3 * e + 112 * u)) / d) (2565 * ((1 + m) ^ 3 * (3 * e + 112 * u)) / (d * d))
      (1036 * ((1 + m) ^ 2 * (3 * e + 112 * u)) * r) (1781 * ((1 + m) ^ 3 * (3 * e + 112 * u)) * r / d) (14620 * ((1 + m) ^ 4 * (3 * e + 112 * u)) * r / (d * d)) f x.
Proof. exact ride_answers. Qed.
Print Assumptions c81_point_at.
Example c81_point_at_case : exists ps cs tr f x, rproper cs /\ all_rides_stored (63 * u) 12 6 ps cs /\ (1 + 12) * (3 * (63 * u) + 112 * u) <= / 10 ^ 5 /\ u <= 12 /\ / 2 ^ 400 <= 6 <= 2 ^ 200 /\ ftr_make ps (Ok tr) /\
  map fat_time ps = [5000000000; 7000000000; 8000000000]%Z /\ ftr_point_at tr 6000000000 (Ok f) /\ moment 5000000000 6000000000 = 1 /\ on_ride cs 1 x /\
  1036 * ((1 + 12) ^ 2 * (3 * (63 * u) + 112 * u)) * 6 <= 4 / 10 ^ 8 /\ 1781 * ((1 + 12) ^ 3 * (3 * (63 * u) + 112 * u)) * 6 <= 8 / 10 ^ 7 /\ 14620 * ((1 + 12) ^ 4 * (3 * (63 * u) + 112 * u)) * 6 <= 1 / 10 ^ 4.
Proof.
  destruct ride_case as (ps & cs & tr & P & F & S & X & M & B6 & MK & T & _ & _ & (f & x & A & V & O) & B). exists ps, cs, tr, f, x.
  split; [exact P|]. split; [exact S|]. split; [exact X|]. split; [exact M|]. split; [exact B6|]. split; [exact MK|]. split; [exact T|]. split; [exact A|]. split; [exact V|]. split; [exact O|exact B].
Qed.

(** So at the timestamp of a control point its state comes back. *)
Theorem c81_controls : forall e m r ps cs tr i p c, 0 <= e -> u <= m -> / 2 ^ 400 <= r <= 2 ^ 200 -> (1 + m) * (3 * e + 112 * u) <= / 10 ^ 5 ->
  rproper cs -> all_rides_stored e m r ps cs -> ftr_make ps (Ok tr) -> nth_error ps i = Some p -> nth_error cs i = Some c ->
  (exists f, ftr_point_at tr (fat_time p) (Ok f)) /\
  forall result, ftr_point_at tr (fat_time p) result -> exists f j x y, result = Ok f /\ follow cs j x y /\ rat_time x <= rat_time c <= rat_time y /\ let d := rat_time y - rat_time x in
    ride_within (79 * ((1 + m) * (3 * e + 112 * u))) (341 * ((1 + m) ^ 2 * (3 * e + 112 * u)) / d) (2565 * ((1 + m) ^ 3 * (3 * e + 112 * u)) / (d * d))
      (1036 * ((1 + m) ^ 2 * (3 * e + 112 * u)) * r) (1781 * ((1 + m) ^ 3 * (3 * e + 112 * u)) * r / d) (14620 * ((1 + m) ^ 4 * (3 * e + 112 * u)) * r / (d * d)) f (rat_ride c).
Proof. exact rides_back. Qed.
Print Assumptions c81_controls.
Example c81_controls_case : exists ps cs tr p c, rproper cs /\ all_rides_stored (63 * u) 12 6 ps cs /\ (1 + 12) * (3 * (63 * u) + 112 * u) <= / 10 ^ 5 /\ / 2 ^ 400 <= 6 <= 2 ^ 200 /\ ftr_make ps (Ok tr) /\
  nth_error ps 1 = Some p /\ nth_error cs 1 = Some c /\ fat_time p = 7000000000%Z /\ rat_time c = 2 /\ drive' (rat_ride c) = V3 0 9 2.
Proof.
  destruct ride_case as (ps & cs & tr & P & F & S & X & M & B6 & MK & T & TC & (a & b & CS & _ & _ & _ & SU) & _). subst cs. destruct ps as [|p0 [|p ps]]; [discriminate T..|]. exists (p0 :: p :: ps), [a; b; RControl 3 (rat_ride b)], tr, p, b. cbn in T, TC. injection T as _ T _. injection TC as _ TC.
  split; [exact P|]. split; [exact S|]. split; [exact X|]. split; [exact B6|]. split; [exact MK|]. auto.
Qed.

(** Asking for a timestamp is asking for its distance from the first; when that is not an
    int64 the behaviour is undefined. *)
Theorem c81_from_start : forall ps tr a z, in_reach ps -> ftr_make ps (Ok tr) -> nth_error ps 0 = Some a ->
  (in64 (z - fat_time a) -> forall result, ftr_point_at tr z result <-> ftr_point_from_start tr (z - fat_time a) result) /\
  (~ in64 (z - fat_time a) -> forall result, ftr_point_at tr z result <-> result = UB).
Proof. exact same_question. Qed.
Print Assumptions c81_from_start.
Example c81_from_start_case : exists ps tr a, in_reach ps /\ ftr_make ps (Ok tr) /\ nth_error ps 0 = Some a /\ in64 (6000000000 - fat_time a) /\ ~ in64 (- 2 ^ 63 - fat_time a).
Proof.
  destruct ride_case as (ps & cs & tr & P & F & S & _ & _ & _ & MK & T & _). destruct ps as [|a ps]; [discriminate T|]. exists (a :: ps), tr, a. injection T as T _. rewrite T. split; [exact (stored_in_reach _ _ _ _ _ S)|]. split; [exact MK|]. split; [reflexivity|]. unfold in64, INT64_MIN, INT64_MAX. lia.
Qed.

(** Before the first point, after the last and with fewer than two points it throws. *)
Theorem c81_refused : forall ps tr z, in_reach ps -> ftr_make ps (Ok tr) ->
  ((length ps < 2)%nat \/ exists a b, nth_error ps 0 = Some a /\ nth_error ps (length ps - 1) = Some b /\ in64 z /\ ((z < 0)%Z \/ moment (fat_time a) (fat_time b) < val (as_seconds z))) ->
  forall result, ftr_point_from_start tr z result <-> result = Throw.
Proof. exact trajectory_refuses. Qed.
Print Assumptions c81_refused.
Example c81_refused_case : exists ps tr, in_reach ps /\ ftr_make ps (Ok tr) /\ length ps = 3%nat /\ ftr_point_from_start tr (-1) Throw /\ exists tr', ftr_make [] (Ok tr') /\ ftr_point_from_start tr' 0 Throw.
Proof.
  destruct ride_case as (ps & cs & tr & P & F & S & _ & _ & _ & MK & T & _). pose proof (stored_in_reach _ _ _ _ _ S) as I. exists ps, tr. split; [exact I|]. split; [exact MK|]. split; [rewrite <- (map_length fat_time), T; reflexivity|]. split.
  - apply (trajectory_refuses ps tr (-1) I MK); [|reflexivity]. right. destruct ps as [|a ps]; [discriminate T|]. destruct (last_is (a :: ps) 0 a eq_refl) as [b B]. exists a, b. split; [reflexivity|]. split; [exact B|]. split; [unfold in64, INT64_MIN, INT64_MAX; lia|left; lia].
  - eexists. split; [reflexivity|]. exists Throw. split; reflexivity.
Qed.
