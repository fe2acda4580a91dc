(** Reading poses back in double precision: C71. *)
From Coq Require Import Reals Psatz.
From Flocq Require Import Core BinarySingleNaN.
From Verif Require Import Cpp FloatModel FloatSpec NrmSpec Vec RotSpec ScrewSpec DriftModel DriftSpec DriftProofs DriftProofs2 SpinModel SpinSpec SpinProofs2 TwistModel TwistProofs3 TwistProofs4 TlogModel TlogSpec TlogProofs6 SlogModel SlogProofs6 SlogProofs7 SlogProofs8.
Local Open Scope R_scope.

(** SE3::log of a stored pose whose rotation is within [e] of the rotation [r]: a finite
    twist, turning hardly further than a half turn, whose exact screw motion leads to the
    rotation within 8.5 [e] and to the stored translation within 1383 units in the last
    place of its length, or 158 for a turn of at most two radians. *)
Theorem c71_log : forall g r e, stands_for e (frot g, r) -> e <= / 2000 -> vfinite (ftrans g) -> norm (vval (ftrans g)) <= 2 ^ 500 ->
  (exists w v, fse3_log g w v) /\
  forall w v, fse3_log g w v ->
  let T := norm (vval (ftrans g)) in let off := norm (vsub (screw (vval w) (vval v) 1) (vval (ftrans g))) in
  (vfinite w /\ vfinite v) /\ norm (vval w) <= PI + 22 * u /\ turns_within (85 / 10 * e + 101 * u) (vval w) r /\
  off <= 1383 * u * T + 23 * bpow radix2 (-1075) /\ (norm (vval w) <= 2 -> off <= 158 * u * T + 23 * bpow radix2 (-1075)).
Proof. exact (fun g r e S H F T => conj (some_se3_log g) (fun w v => se3_log_moves g r e w v S H F T)). Qed.
Print Assumptions c71_log.
(** Three radians about (1, 2, 2) / 3 while moving along (4, -3, 0). *)
Example c71_log_case : exists g w v, fse3_log g w v /\ stands_for (63 * u) (frot g, turning 3 (V3 (1 / 3) (2 / 3) (2 / 3))) /\ 63 * u <= / 2000 /\ vfinite (ftrans g) /\ norm (vval (ftrans g)) <= 2 ^ 488.
Proof.
  destruct se3_case as (g & _ & S & H & F & T & _). destruct (some_se3_log g) as (w & v & L). exists g, w, v. split; [exact L|]. split; [exact S|]. split; [exact H|]. split; [exact F|].
  apply Rle_trans with (2 ^ 3); [lra|]. apply Rle_pow; [lra|]. apply Nat.leb_le. reflexivity.
Qed.

(** It is near the twist of every screw motion that turns by at most three radians and leads
    to the pose. *)
Theorem c71_recovers : forall g r e w v w0 v0 d, stands_for e (frot g, r) -> e <= / 2000 -> vfinite (ftrans g) -> norm (vval (ftrans g)) <= 2 ^ 500 -> fse3_log g w v ->
  rotation_by w0 r -> norm w0 <= 3 -> norm (vsub (vval (ftrans g)) (screw w0 v0 1)) <= d ->
  norm (vsub (vval w) w0) <= 153 / 10 * e + 182 * u /\
  norm (vsub (vval v) v0) <= 187 / 100 * d + (38 * e + 1835 * u) * norm (vval (ftrans g)) + 23 * bpow radix2 (-1075).
Proof. exact se3_log_recovers. Qed.
Print Assumptions c71_recovers.
Example c71_recovers_case : exists g w v, fse3_log g w v /\ stands_for (63 * u) (frot g, turning 3 (V3 (1 / 3) (2 / 3) (2 / 3))) /\ 63 * u <= / 2000 /\ vfinite (ftrans g) /\ norm (vval (ftrans g)) <= 6 /\
  rotation_by (V3 1 2 2) (turning 3 (V3 (1 / 3) (2 / 3) (2 / 3))) /\ norm (V3 1 2 2) <= 3 /\ norm (vsub (vval (ftrans g)) (screw (V3 1 2 2) (V3 4 (-3) 0) 1)) <= / 10 ^ 12.
Proof. destruct se3_case as (g & _ & C). destruct (some_se3_log g) as (w & v & L). exists g, w, v. split; [exact L|exact C]. Qed.

(** SE3::log of SE3::exp. *)
Theorem c71_log_exp : forall w0 v0 g w v, vfinite w0 -> vfinite v0 -> norm (vval w0) <= 3 -> norm (vval v0) <= 2 ^ 499 -> fse3_exp w0 v0 g -> fse3_log g w v ->
  vfinite w /\ vfinite v /\ norm (vsub (vval w) (vval w0)) <= 1150 * u /\ norm (vsub (vval v) (vval v0)) <= 6400 * u * norm (vval v0) + 90 * bpow radix2 (-1075).
Proof. exact se3_log_exp. Qed.
Print Assumptions c71_log_exp.
Example c71_log_exp_case : vfinite (ivec 1 2 2) /\ vfinite (ivec 4 (-3) 0) /\ norm (vval (ivec 1 2 2)) <= 3 /\ norm (vval (ivec 4 (-3) 0)) <= 2 ^ 499 /\
  exists g w v, fse3_exp (ivec 1 2 2) (ivec 4 (-3) 0) g /\ fse3_log g w v.
Proof.
  destruct exp_case as (F & N & _). destruct (ivec_val 4 (-3) 0) as [G W]; try (cbn; lia). split; [exact F|]. split; [exact G|]. split; [rewrite N; lra|].
  assert (NV : norm (V3 4 (-3) 0) = 5) by (apply norm_is; [lra|unfold dot; cbn [vx vy vz]; lra]).
  split; [rewrite W, NV; apply Rle_trans with (2 ^ 3); [lra|]; apply Rle_pow; [lra|]; apply Nat.leb_le; reflexivity|].
  destruct se3_case as (g & E & _). destruct (some_se3_log g) as (w & v & L). exists g, w, v. split; assumption.
Qed.

(** SE3::exp of SE3::log gives back the pose, half turns and all. *)
Theorem c71_exp_log : forall g r e w v g', stands_for e (frot g, r) -> e <= / 2000 -> vfinite (ftrans g) -> norm (vval (ftrans g)) <= 2 ^ 499 -> fse3_log g w v -> fse3_exp w v g' ->
  stands_for (85 / 10 * e + 165 * u) (frot g', r) /\ vfinite (ftrans g') /\
  norm (vsub (vval (ftrans g')) (vval (ftrans g))) <= 1800 * u * norm (vval (ftrans g)) + 60 * bpow radix2 (-1075).
Proof. exact se3_exp_log. Qed.
Print Assumptions c71_exp_log.
(** A half turn about the first axis, and a translation. *)
Example c71_exp_log_case : exists g w v g', stands_for 0 (frot g, M3 1 0 0 0 (-1) 0 0 0 (-1)) /\ vfinite (ftrans g) /\ norm (vval (ftrans g)) = 5 /\ fse3_log g w v /\ fse3_exp w v g'.
Proof.
  destruct (ivec_val 4 (-3) 0) as [G W]; try (cbn; lia). set (g := FP (imat 1 (-1) (-1)) (ivec 4 (-3) 0)). destruct (some_se3_log g) as (w & v & L). destruct (some_se3_exp w v) as [g' X]. exists g, w, v, g'.
  split; [apply half_turn_choice|]. split; [exact G|]. split; [cbn [ftrans g]; rewrite W; apply norm_is; [lra|unfold dot; cbn [vx vy vz]; lra]|]. split; assumption.
Qed.

(** SE3::interp goes the fraction of the way along the screw motion of SE3::log. *)
Theorem c71_interp : forall g r e f, stands_for e (frot g, r) -> e <= / 2000 -> vfinite (ftrans g) -> norm (vval (ftrans g)) <= 2 ^ 500 ->
  finite f -> Rabs (val f) <= 2 ^ 480 -> Rabs (val f) * norm (vval (ftrans g)) <= 2 ^ 498 ->
  (exists p, fse3_interp g f p) /\
  forall p, fse3_interp g f p ->
  exists w v part, (fse3_log g w v /\ norm (vval v) <= 188 / 100 * norm (vval (ftrans g)) + 23 * bpow radix2 (-1075)) /\ rotation_by (vscale (val f) (vval w)) part /\
    stands_for ((52 + 171 / 10 * Rabs (val f)) * u) (frot p, part) /\ vfinite (ftrans p) /\
    norm (vsub (vval (ftrans p)) (screw (vval w) (vval v) (val f))) <=
      (1148 + 3 * Rabs (val f)) * u * (Rabs (val f) * norm (vval v)) + (20 + 23 * Rabs (val f)) * bpow radix2 (-1075).
Proof. exact (fun g r e f S H F T Ff B C => conj (some_se3_interp g f) (fun p => se3_interp_near g r e f p S H F T Ff B C)). Qed.
Print Assumptions c71_interp.
(** Between the ends it follows every screw motion that turns by at most three radians and
    leads to the pose. *)
Theorem c71_interp_follows : forall g r e f p w0 v0 d part, stands_for e (frot g, r) -> e <= / 2000 -> vfinite (ftrans g) -> norm (vval (ftrans g)) <= 2 ^ 500 ->
  finite f -> 0 <= val f <= 1 -> Rabs (val f) * norm (vval (ftrans g)) <= 2 ^ 498 -> fse3_interp g f p ->
  rotation_by w0 r -> norm w0 <= 3 -> norm (vsub (vval (ftrans g)) (screw w0 v0 1)) <= d -> rotation_by (vscale (val f) w0) part ->
  stands_for (217 / 10 * e + 327 * u) (frot p, part) /\
  vfinite (ftrans p) /\
  norm (vsub (vval (ftrans p)) (screw w0 v0 (val f))) <= 4 * d + (59 * e + 4250 * u) * norm (vval (ftrans g)) + 67 * bpow radix2 (-1075).
Proof. exact se3_interp_follows. Qed.
Print Assumptions c71_interp_follows.
Example c71_interp_case : exists g p part, stands_for (63 * u) (frot g, turning 3 (V3 (1 / 3) (2 / 3) (2 / 3))) /\ 63 * u <= / 2000 /\ vfinite (ftrans g) /\ norm (vval (ftrans g)) <= 2 ^ 500 /\
  finite fhalf /\ val fhalf = 1 / 2 /\ Rabs (val fhalf) * norm (vval (ftrans g)) <= 2 ^ 498 /\ fse3_interp g fhalf p /\
  rotation_by (V3 1 2 2) (turning 3 (V3 (1 / 3) (2 / 3) (2 / 3))) /\ norm (V3 1 2 2) <= 3 /\ norm (vsub (vval (ftrans g)) (screw (V3 1 2 2) (V3 4 (-3) 0) 1)) <= / 10 ^ 12 /\ rotation_by (vscale (val fhalf) (V3 1 2 2)) part.
Proof.
  destruct se3_case as (g & _ & S & H & F & T & R & N & D). destruct half_float as [Fh Vh]. destruct (some_se3_interp g fhalf) as [p P]. destruct (rotation_by_some (vscale (val fhalf) (V3 1 2 2))) as [part Q]. exists g, p, part.
  assert (B : forall n, (3 <= n)%nat -> 8 <= 2 ^ n) by (intros n L; replace 8 with (2 ^ 3) by lra; apply Rle_pow; [lra|exact L]).
  split; [exact S|]. split; [exact H|]. split; [exact F|]. split; [apply Rle_trans with 8; [lra|apply B, Nat.leb_le; reflexivity]|]. split; [exact Fh|]. split; [exact Vh|].
  split; [rewrite Vh, Rabs_right by lra; apply Rle_trans with 8; [lra|apply B, Nat.leb_le; reflexivity]|]. split; [exact P|]. split; [exact R|]. split; [exact N|]. split; [exact D|exact Q].
Qed.
(** By none of it exactly the identity, and by all of it what SE3::exp makes of SE3::log. *)
Theorem c71_interp_ends : (forall g r e f p, stands_for e (frot g, r) -> e <= / 2000 -> vfinite (ftrans g) -> norm (vval (ftrans g)) <= 2 ^ 500 -> finite f -> val f = 0 -> fse3_interp g f p ->
    mfinite (frot p) /\ mval (frot p) = mid /\ vfinite (ftrans p) /\ vval (ftrans p) = vzero) /\
  forall g p, fse3_interp g (of_int 1) p <-> exists w v, fse3_log g w v /\ fse3_exp w v p.
Proof. exact (conj se3_interp_none se3_interp_all). Qed.
Print Assumptions c71_interp_ends.
Example c71_interp_ends_case : exists g p, stands_for (63 * u) (frot g, turning 3 (V3 (1 / 3) (2 / 3) (2 / 3))) /\ 63 * u <= / 2000 /\ vfinite (ftrans g) /\ norm (vval (ftrans g)) <= 6 /\ finite (of_int 0) /\ val (of_int 0) = 0 /\ fse3_interp g (of_int 0) p.
Proof.
  destruct se3_case as (g & _ & S & H & F & T & _). destruct (some_se3_interp g (of_int 0)) as [p P]. exists g, p. split; [exact S|]. split; [exact H|]. split; [exact F|]. split; [exact T|].
  split; [apply of_int_0|]. split; [apply of_int_0|exact P].
Qed.

(** SE3::arc_length is the length of the path of the origin under such a motion. *)
Theorem c71_arc_length : forall g r e, stands_for e (frot g, r) -> e <= / 2000 -> vfinite (ftrans g) -> norm (vval (ftrans g)) <= 2 ^ 488 ->
  (exists l, fse3_arc_length g l) /\
  forall l, fse3_arc_length g l ->
  finite l /\ exists t s len, norm t <= PI + 22 * u /\ turns_within (85 / 10 * e + 101 * u) t r /\
    norm (vsub (screw t s 1) (vval (ftrans g))) <= 1383 * u * norm (vval (ftrans g)) + 23 * bpow radix2 (-1075) /\
    path_length (screw t s) len /\ Rabs (val l - len) <= 255 / 100 * u * len + / 2 ^ 498.
Proof. exact (fun g r e S H F T => conj (some_arc_length g) (fun l => se3_length_near g r e l S H F T)). Qed.
Print Assumptions c71_arc_length.
Theorem c71_arc_length_follows : forall g r e l w0 v0 d len, stands_for e (frot g, r) -> e <= / 2000 -> vfinite (ftrans g) -> norm (vval (ftrans g)) <= 2 ^ 488 -> fse3_arc_length g l ->
  rotation_by w0 r -> norm w0 <= 3 -> norm (vsub (vval (ftrans g)) (screw w0 v0 1)) <= d -> path_length (screw w0 v0) len ->
  Rabs (val l - len) <= 187 / 100 * d + (38 * e + 1840 * u) * norm (vval (ftrans g)) + / 2 ^ 497.
Proof. exact se3_length_follows. Qed.
Print Assumptions c71_arc_length_follows.
Example c71_arc_length_case : exists g l, fse3_arc_length g l /\ stands_for (63 * u) (frot g, turning 3 (V3 (1 / 3) (2 / 3) (2 / 3))) /\ 63 * u <= / 2000 /\ vfinite (ftrans g) /\ norm (vval (ftrans g)) <= 6 /\
  rotation_by (V3 1 2 2) (turning 3 (V3 (1 / 3) (2 / 3) (2 / 3))) /\ norm (V3 1 2 2) <= 3 /\ norm (vsub (vval (ftrans g)) (screw (V3 1 2 2) (V3 4 (-3) 0) 1)) <= / 10 ^ 12 /\
  path_length (screw (V3 1 2 2) (V3 4 (-3) 0)) 5.
Proof.
  destruct se3_case as (g & _ & S & H & F & T & R & N & D). destruct (some_arc_length g) as [l L]. exists g, l. split; [exact L|]. split; [exact S|]. split; [exact H|]. split; [exact F|]. split; [exact T|]. split; [exact R|]. split; [exact N|]. split; [exact D|].
  replace 5 with (norm (V3 4 (-3) 0)) by (apply norm_is; [lra|unfold dot; cbn [vx vy vz]; lra]). apply DiffProofs.screw_length.
Qed.

(** Without a turn SE3::log is exact, and SE3::arc_length is the distance. *)
Theorem c71_no_turn : forall g e, stands_for e (frot g, mid) -> e <= / 2000 -> mtrans (mval (frot g)) = mval (frot g) -> vfinite (ftrans g) ->
  (forall w v, fse3_log g w v -> (vfinite w /\ vval w = vzero) /\ vfinite v /\ vval v = vval (ftrans g)) /\
  (norm (vval (ftrans g)) <= 2 ^ 490 -> forall l, fse3_arc_length g l -> finite l /\ Rabs (val l - norm (vval (ftrans g))) <= 255 / 100 * u * norm (vval (ftrans g)) + / 2 ^ 498).
Proof. exact (fun g e S H M F => conj (fun w v => se3_log_no_turn g e w v S H M F) (fun T l => se3_length_no_turn g e l S H M F T)). Qed.
Print Assumptions c71_no_turn.
Example c71_no_turn_case : let g := FP (imat 1 1 1) (ivec 4 (-3) 0) in stands_for 0 (frot g, mid) /\ mtrans (mval (frot g)) = mval (frot g) /\ vfinite (ftrans g) /\ norm (vval (ftrans g)) = 5 /\ (exists w v, fse3_log g w v) /\ exists l, fse3_arc_length g l.
Proof.
  intro g. destruct (imat_val 1 1 1) as [F V]; try (cbn; lia). destruct (ivec_val 4 (-3) 0) as [G W]; try (cbn; lia). cbn [frot ftrans g].
  split; [|split; [rewrite V; reflexivity|split; [exact G|split; [rewrite W; apply norm_is; [lra|unfold dot; cbn [vx vy vz]; lra]|split; [apply some_se3_log|apply some_arc_length]]]]]. split; [exact F|]. split; [apply mid_rotation|]. cbn [fst snd]. rewrite V.
  right. unfold apart, size, madd, mscale, mid. cbn [m00 m01 m02 m10 m11 m12 m20 m21 m22]. replace (_ + _) with 0 by ring. apply sqrt_0.
Qed.
