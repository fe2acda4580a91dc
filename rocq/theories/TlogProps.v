(** Reading rotations back in double precision: C69. *)
From Coq Require Import Reals Psatz.
From Flocq Require Import Core BinarySingleNaN.
From Verif Require Import Cpp FloatModel FloatSpec NrmSpec Vec RotSpec DriftModel DriftSpec DriftProofs SpinModel SpinSpec SpinProofs2 TlogModel TlogSpec TlogProofs3 TlogProofs5 TlogProofs6.
Local Open Scope R_scope.

(** SO3::quaternion of a stored matrix within [e] of a rotation. *)
Theorem c69_quaternion : forall m r e, stands_for e (m, r) -> e <= / 2000 ->
  (exists q, fmatrix_quat m q) /\ forall q, fmatrix_quat m q -> stands_for_quaternion (3 * e + 22 * u) q r.
Proof. exact (fun m r e S H => conj (some_quat m) (quaternion_read m r e (proj1 S) (proj1 (proj2 S)) (proj2 (proj2 S)) H)). Qed.
Print Assumptions c69_quaternion.
Example c69_quaternion_case : exists m, stands_for (63 * u) (m, turning 3 (V3 (1 / 3) (2 / 3) (2 / 3))) /\ 63 * u <= / 2000 /\ 3 * (63 * u) + 22 * u <= / 10 ^ 13.
Proof. destruct log_case as (m & v & _ & _ & S & H & _). exists m. split; [exact S|]. split; [exact H|]. rewrite u_num. lra. Qed.

(** SO3::log of it is a finite vector, hardly longer than a half turn, whose exact rotation
    is within 8.5 [e] and 101 units in the last place of the rotation. *)
Theorem c69_log : forall m r e, stands_for e (m, r) -> e <= / 2000 ->
  (exists v, fso3_log m v) /\
  forall v, fso3_log m v -> vfinite v /\ norm (vval v) <= PI + 22 * u /\ turns_within (85 / 10 * e + 101 * u) (vval v) r.
Proof. exact (fun m r e S H => conj (some_log m) (fun v => log_near m r e v S H)). Qed.
Print Assumptions c69_log.
Example c69_log_case : exists m v, fso3_log m v /\ stands_for (63 * u) (m, turning 3 (V3 (1 / 3) (2 / 3) (2 / 3))) /\ 63 * u <= / 2000.
Proof. destruct log_case as (m & v & _ & L & S & H & _). exists m, v. auto. Qed.

(** It is near every rotation vector of the rotation that stops short of a half turn: at
    three radians. *)
Theorem c69_recovers : forall m r e v w, stands_for e (m, r) -> e <= / 2000 -> fso3_log m v -> rotation_by w r -> norm w <= 3 ->
  norm (vsub (vval v) w) <= 153 / 10 * e + 182 * u.
Proof. exact log_recovers. Qed.
Print Assumptions c69_recovers.
Example c69_recovers_case : exists m v, fso3_log m v /\ stands_for (63 * u) (m, turning 3 (V3 (1 / 3) (2 / 3) (2 / 3))) /\ 63 * u <= / 2000 /\
  rotation_by (V3 1 2 2) (turning 3 (V3 (1 / 3) (2 / 3) (2 / 3))) /\ norm (V3 1 2 2) <= 3 /\ 153 / 10 * (63 * u) + 182 * u <= / 10 ^ 12.
Proof. destruct log_case as (m & v & _ & L). exists m, v. exact L. Qed.
Theorem c69_log_exp : forall v m w, vfinite v -> norm (vval v) <= 3 -> fso3_exp v m -> fso3_log m w ->
  vfinite w /\ norm (vsub (vval w) (vval v)) <= 1150 * u.
Proof. exact log_exp. Qed.
Print Assumptions c69_log_exp.
Example c69_log_exp_case : vfinite (ivec 1 2 2) /\ norm (vval (ivec 1 2 2)) <= 3 /\ exists m w, fso3_exp (ivec 1 2 2) m /\ fso3_log m w.
Proof. destruct exp_case as (F & N & _). split; [exact F|]. split; [rewrite N; lra|]. destruct log_case as (m & v & M & L & _). exists m, v. auto. Qed.

(** That is false of half turns: the log of one is far from one of its two vectors. *)
Theorem c69_half_turn_refuted : exists m r, stands_for 0 (m, r) /\
  forall v, fso3_log m v -> exists w, rotation_by w r /\ norm w = PI /\ 3 <= norm (vsub (vval v) w).
Proof. exact (ex_intro _ _ (ex_intro _ _ half_turn_choice)). Qed.
Print Assumptions c69_half_turn_refuted.

(** SO3::exp of SO3::log gives back the rotation, half turns and all. *)
Theorem c69_exp_log : forall m r e v p, stands_for e (m, r) -> e <= / 2000 -> fso3_log m v -> fso3_exp v p -> stands_for (85 / 10 * e + 165 * u) (p, r).
Proof. exact exp_log. Qed.
Print Assumptions c69_exp_log.
Example c69_exp_log_case : exists v p, fso3_log (imat 1 (-1) (-1)) v /\ fso3_exp v p /\ stands_for 0 (imat 1 (-1) (-1), M3 1 0 0 0 (-1) 0 0 0 (-1)).
Proof. destruct (some_log (imat 1 (-1) (-1))) as [v L]. destruct (some_exp v) as [p P]. exists v, p. split; [exact L|]. split; [exact P|]. apply half_turn_choice. Qed.

(** SO3::interp turns by the fraction of the rotation vector. *)
Theorem c69_interp : forall m r e f, stands_for e (m, r) -> e <= / 2000 -> finite f -> Rabs (val f) <= 2 ^ 480 ->
  (exists p, fso3_interp m f p) /\
  forall p, fso3_interp m f p ->
  exists t part, norm t <= PI + 22 * u /\ turns_within (85 / 10 * e + 101 * u) t r /\ rotation_by (vscale (val f) t) part /\
    stands_for ((52 + 171 / 10 * Rabs (val f)) * u) (p, part).
Proof. exact (fun m r e f S H F B => conj (some_interp m f) (fun p => interp_near m r e f p S H F B)). Qed.
Print Assumptions c69_interp.
Theorem c69_interp_follows : forall m r e f p w part, stands_for e (m, r) -> e <= / 2000 -> finite f -> Rabs (val f) <= 2 ^ 480 -> fso3_interp m f p ->
  rotation_by w r -> norm w <= 3 -> rotation_by (vscale (val f) w) part ->
  stands_for (Rabs (val f) * (217 / 10 * e) + (52 + 275 * Rabs (val f)) * u) (p, part).
Proof. exact interp_follows. Qed.
Print Assumptions c69_interp_follows.
(** Half of three radians about (1, 2, 2) / 3. *)
Example c69_interp_case : exists m p part, stands_for (63 * u) (m, turning 3 (V3 (1 / 3) (2 / 3) (2 / 3))) /\ 63 * u <= / 2000 /\ finite fhalf /\ val fhalf = 1 / 2 /\ Rabs (val fhalf) <= 2 ^ 480 /\ fso3_interp m fhalf p /\
  rotation_by (V3 1 2 2) (turning 3 (V3 (1 / 3) (2 / 3) (2 / 3))) /\ norm (V3 1 2 2) <= 3 /\ rotation_by (vscale (val fhalf) (V3 1 2 2)) part.
Proof.
  destruct log_case as (m & v & _ & _ & S & H & R & N & _). destruct (some_interp m fhalf) as [p P]. destruct (rotation_by_some (vscale (val fhalf) (V3 1 2 2))) as [part Q]. exists m, p, part.
  destruct half_float as [F V]. split; [exact S|]. split; [exact H|]. split; [exact F|]. split; [exact V|]. split; [rewrite V, Rabs_right by lra; apply Rle_trans with 1; [lra|apply pow_R1_Rle; lra]|].
  split; [exact P|]. split; [exact R|]. split; [exact N|exact Q].
Qed.
(** By none of it exactly the identity, and by all of it what SO3::exp makes of SO3::log. *)
Theorem c69_interp_ends : (forall m r e f p, stands_for e (m, r) -> e <= / 2000 -> finite f -> val f = 0 -> fso3_interp m f p -> mfinite p /\ mval p = mid) /\
  forall m p, fso3_interp m (of_int 1) p <-> exists v, fso3_log m v /\ fso3_exp v p.
Proof. exact (conj interp_none interp_all). Qed.
Print Assumptions c69_interp_ends.
Example c69_interp_ends_case : exists m p, stands_for (63 * u) (m, turning 3 (V3 (1 / 3) (2 / 3) (2 / 3))) /\ 63 * u <= / 2000 /\ finite (of_int 0) /\ val (of_int 0) = 0 /\ fso3_interp m (of_int 0) p.
Proof.
  destruct log_case as (m & v & _ & _ & S & H & _). destruct (some_interp m (of_int 0)) as [p P]. exists m, p.
  split; [exact S|]. split; [exact H|]. split; [apply DriftProofs2.of_int_0|]. split; [apply DriftProofs2.of_int_0|exact P].
Qed.

(** SO3::log of the identity, or of any symmetric matrix near it, is exactly zero. *)
Theorem c69_identity : forall m e v, stands_for e (m, mid) -> e <= / 2000 -> mtrans (mval m) = mval m -> fso3_log m v -> vfinite v /\ vval v = vzero.
Proof. exact log_symmetric. Qed.
Print Assumptions c69_identity.
Example c69_identity_case : stands_for 0 (imat 1 1 1, mid) /\ mtrans (mval (imat 1 1 1)) = mval (imat 1 1 1) /\ exists v, fso3_log (imat 1 1 1) v.
Proof.
  destruct (imat_val 1 1 1) as [F V]; try (cbn; lia). split; [|split; [rewrite V; reflexivity|apply some_log]]. split; [exact F|]. split; [apply mid_rotation|]. cbn [fst snd]. rewrite V.
  right. unfold apart, size, madd, mscale, mid. cbn [m00 m01 m02 m10 m11 m12 m20 m21 m22]. replace (_ + _) with 0 by ring. apply sqrt_0.
Qed.
