(** Results, ends and a case of segments of time curves of poses. *)
From Coq Require Import Reals Lra Lia Psatz.
From Flocq Require Import Core BinarySingleNaN.
From Verif Require Import Cpp RotSpec ScrewSpec GeomModel RotProofs FloatModel FloatSpec NrmSpec NrmProofs Vec DriftModel DriftSpec DriftProofs SpinModel SpinSpec SpinProofs2 TwistModel TlogModel TlogProofs TlogProofs6 TwistProofs3 SlogModel SlogProofs6 SlogProofs8 QfModel QfSpec QfProofs FdcSpec FdcProofs2 FtsModel FtsSpec FtsProofs4 FtsProofs5 FpsModel FpsSpec FpsProofs5 FpsProofs6.
Local Open Scope R_scope.

(** ** There is a result *)
Lemma some_adjoint g a : exists b, fadjoint_times g a b.
Proof. destruct (some_mvec (frot g) (frot_part a)) as [r R]. destruct (some_mvec (frot g) (ftrans_part a)) as [w W]. eexists. exists r, w. split; [exact R|]. split; [exact W|reflexivity]. Qed.
Lemma some_pose_jet_mul a b : exists c, fpjet_mul a b c.
Proof.
  destruct (some_mul (pf a) (pf b)) as [g G]. destruct (some_adjoint (pf a) (pd b)) as [w W]. destruct (some_adjoint (pf a) (pd2 b)) as [w2 W2].
  exists (FPJ g (ftadd (pd a) w) (ftadd (ftadd (pd2 a) w2) (flie_bracket (pd a) w))). cbn [pf pd pd2]. split; [exact G|]. split; [exists w; split; [exact W|reflexivity]|exists w2, w; split; [exact W2|split; [exact W|reflexivity]]].
Qed.
Lemma some_pose_accumulate c v p : exists q, fpaccumulate c v p q.
Proof. destruct (some_se3_exp (fscale (f_a c) (frot_part v)) (fscale (f_a c) (ftrans_part v))) as [g G]. destruct (some_pose_jet_mul (FPJ g (ftscale (f_da c) v) (ftscale (f_d2a c) v)) p) as [q Q]. exists q, g. split; assumption. Qed.
Lemma some_pose_point orig dest t : exists p, fpsegment_point_at orig dest t p.
Proof.
  destruct (some_inverse (pf orig)) as [i I]. destruct (some_mul (pf dest) i) as [r R]. destruct (some_se3_log r) as (w & v & V). destruct (some_pose_accumulate (f_dest_from_orig t) (FT w v) fpjet_identity) as [p1 P1]. destruct (some_pose_accumulate (f_d_orig t) (pd orig) p1) as [p2 P2].
  destruct (some_pose_accumulate (f_d_dest t) (pd dest) p2) as [p3 P3]. destruct (some_pose_accumulate (f_d2_orig t) (pd2 orig) p3) as [p4 P4]. destruct (some_pose_accumulate (f_d2_dest t) (pd2 dest) p4) as [p5 P5]. destruct (some_mul (pf p5) (pf orig)) as [q Q].
  exists (FPJ q (pd p5) (pd2 p5)), i, r, w, v, p1, p2, p3, p4, p5. cbn [pf pd pd2]. repeat (split; [assumption|]). split; reflexivity.
Qed.
(** ** Near the exact motion *)
Lemma pose_point_near e m b fo fd orig dest t : 0 <= e -> 0 <= m -> / 2 ^ 400 <= b -> b <= 2 ^ 450 -> (1 + m) * (e + 100 * u) <= / 10 ^ 5 ->
  pose_end_near e m b fo orig -> pose_end_near e m b fd dest -> finite t -> 0 <= val t <= 1 ->
  (exists f, fpsegment_point_at fo fd t f) /\
  forall f p, fpsegment_point_at fo fd t f -> between_poses orig dest (val t) p ->
    pjet_within (79 * ((1 + m) * (e + 100 * u))) (340 * ((1 + m) ^ 2 * (e + 100 * u))) (2560 * ((1 + m) ^ 3 * (e + 100 * u)))
      (576 * ((1 + m) ^ 2 * (e + 100 * u)) * b) (1780 * ((1 + m) ^ 3 * (e + 100 * u)) * b) (14600 * ((1 + m) ^ 4 * (e + 100 * u)) * b) f p /\
    norm (vel (spin p)) <= 97 / 10 * (1 + m) /\ norm (acc (spin p)) <= 628 / 10 * (1 + m) ^ 2 /\
    norm (place p) <= 58 / 10 * (1 + m) * b /\ norm (slide p) <= 184 / 10 * (1 + m) ^ 2 * b /\ norm (surge p) <= 153 * (1 + m) ^ 3 * b.
Proof.
  intros E Mp BL BH X O D F T. split; [apply some_pose_point|]. intros f p P B.
  pose proof (pose_segment_near e m b E Mp BL BH X orig dest fo fd t (val t) f p O D ltac:(split; [exact F|]; split; [exact T|]; split; [exact T|]; unfold Rminus; rewrite Rplus_opp_r, Rabs_R0; pose proof u_pos; lra) P B) as H.
  replace (340 * ((1 + m) ^ 2 * (e + 100 * u))) with (340 * ((1 + m) * (e + 100 * u) * (1 + m))) by ring. replace (2560 * ((1 + m) ^ 3 * (e + 100 * u))) with (2560 * ((1 + m) * (e + 100 * u) * ((1 + m) * (1 + m)))) by ring.
  replace (576 * ((1 + m) ^ 2 * (e + 100 * u)) * b) with (576 * ((1 + m) * (e + 100 * u) * ((1 + m) * b))) by ring. replace (1780 * ((1 + m) ^ 3 * (e + 100 * u)) * b) with (1780 * ((1 + m) * (e + 100 * u) * ((1 + m) * b * (1 + m)))) by ring.
  replace (14600 * ((1 + m) ^ 4 * (e + 100 * u)) * b) with (14600 * ((1 + m) * (e + 100 * u) * ((1 + m) * b * ((1 + m) * (1 + m))))) by ring. replace (628 / 10 * (1 + m) ^ 2) with (628 / 10 * ((1 + m) * (1 + m))) by ring.
  replace (58 / 10 * (1 + m) * b) with (58 / 10 * ((1 + m) * b)) by ring. replace (184 / 10 * (1 + m) ^ 2 * b) with (184 / 10 * ((1 + m) * b * (1 + m))) by ring. replace (153 * (1 + m) ^ 3 * b) with (153 * ((1 + m) * b * ((1 + m) * (1 + m)))) by ring. exact H.
Qed.
Lemma pose_ends_near e m b fo fd orig dest w t f : 0 <= e -> 0 <= m -> / 2 ^ 400 <= b -> b <= 2 ^ 450 -> (1 + m) * (e + 100 * u) <= / 10 ^ 5 ->
  pose_end_near e m b fo orig -> pose_end_near e m b fd dest -> rotation_by w (mmul (rot (spin dest)) (mtrans (rot (spin orig)))) -> norm w <= 3 -> finite t -> fpsegment_point_at fo fd t f ->
  let near := pjet_within (79 * ((1 + m) * (e + 100 * u))) (340 * ((1 + m) ^ 2 * (e + 100 * u))) (2560 * ((1 + m) ^ 3 * (e + 100 * u)))
      (576 * ((1 + m) ^ 2 * (e + 100 * u)) * b) (1780 * ((1 + m) ^ 3 * (e + 100 * u)) * b) (14600 * ((1 + m) ^ 4 * (e + 100 * u)) * b) in
  (val t = 0 -> near f orig) /\ (val t = 1 -> near f dest).
Proof.
  intros E Mp BL BH X O D R N F P near. destruct (the_flight orig dest) as (p & B & P0 & P1 & _); [apply O|apply D|exists w; auto|].
  split; intro V; (destruct (pose_point_near e m b fo fd orig dest t E Mp BL BH X O D F) as [_ H]; [lra|]); apply (H f); try exact P; apply B; congruence.
Qed.
(** ** A case *)
Lemma pose_segment_case : exists fo fd orig dest f, pose_end_near (63 * u) 3 6 fo orig /\ pose_end_near (63 * u) 3 6 fd dest /\ (1 + 3) * (63 * u + 100 * u) <= / 10 ^ 5 /\
  / 2 ^ 400 <= 6 <= 2 ^ 450 /\ fpsegment_point_at fo fd fhalf f /\ finite fhalf /\ val fhalf = 1 / 2 /\
  rotation_by (V3 1 2 2) (mmul (rot (spin dest)) (mtrans (rot (spin orig)))) /\ norm (V3 1 2 2) = 3 /\
  place orig = V3 1 2 (-1) /\ vel (spin orig) = V3 1 2 2 /\ slide orig = V3 4 (-3) 0 /\ acc (spin orig) = V3 0 0 (-1) /\ surge dest = V3 0 9 2 /\
  576 * ((1 + 3) ^ 2 * (63 * u + 100 * u)) * 6 <= 11 / 10 ^ 10 /\ 1780 * ((1 + 3) ^ 3 * (63 * u + 100 * u)) * 6 <= 13 / 10 ^ 9 /\ 14600 * ((1 + 3) ^ 4 * (63 * u + 100 * u)) * 6 <= 41 / 10 ^ 8.
Proof.
  destruct se3_case as (g & _ & S & _ & Fg & Ng & R & _). destruct half_float as [Fh Vh]. set (r := turning 3 (V3 (1 / 3) (2 / 3) (2 / 3))) in *.
  set (fo := FPJ (FP fmid (ivec 1 2 (-1))) (FT (ivec 1 2 2) (ivec 4 (-3) 0)) (FT (ivec 0 0 (-1)) (ivec 1 1 1))). set (fd := FPJ g (FT (ivec 0 (-3) 0) (ivec 0 0 7)) (FT (ivec 2 1 0) (ivec 0 9 2))). destruct (some_pose_point fo fd fhalf) as [f P].
  pose proof u_pos as Up. assert (Z0 : forall x, norm (vsub x x) = 0) by (intros [x y z]; apply norm_is; [lra|unfold dot, vsub; cbn [vx vy vz]; ring]).
  assert (I : forall a b c d, 0 <= d -> (Z.abs a <= 9)%Z -> (Z.abs b <= 9)%Z -> (Z.abs c <= 9)%Z -> vec_within (63 * u * d) (ivec a b c) (V3 (IZR a) (IZR b) (IZR c))).
  { intros a b c d Hd A B C. destruct (ivec_val a b c) as [F V]; try lia. split; [exact F|]. rewrite V, Z0. apply Rmult_le_pos; lra. }
  assert (L : forall a b c k, 0 <= k -> a * a + b * b + c * c <= k * k -> norm (V3 a b c) <= k).
  { intros a b c k K0 H. unfold norm, norm2, dot. cbn [vx vy vz]. replace k with (sqrt (k * k)) by (apply sqrt_square; lra). apply sqrt_le_1_alt. lra. }
  assert (Sm : stands_for (63 * u) (fmid, mid)).
  { destruct (imat_val 1 1 1) as [F V]; try lia. change (imat 1 1 1) with fmid in F, V. split; [exact F|]. cbn [fst snd]. split; [apply rot_mid|]. rewrite V. replace (apart _ _) with 0; [lra|].
    unfold apart, size, madd, mscale, mid. cbn [m00 m01 m02 m10 m11 m12 m20 m21 m22]. symmetry. replace (_ + _) with 0 by ring. apply sqrt_0. }
  assert (b2 : / 2 ^ 400 <= 1) by (apply Rle_trans with (/ 1); [apply Rinv_le_contravar; [lra|apply pow_R1_Rle; lra]|lra]). assert (b3 : 8 <= 2 ^ 450) by (apply Rle_trans with (2 ^ 3); [lra|apply Rle_pow; [lra|lia]]).
  exists fo, fd, (Flight (State mid (V3 1 2 2) (V3 0 0 (-1))) (V3 1 2 (-1)) (V3 4 (-3) 0) (V3 1 1 1)), (Flight (State r (V3 0 (-3) 0) (V3 2 1 0)) (vval (ftrans g)) (V3 0 0 7) (V3 0 9 2)), f. cbn [rot vel acc spin place slide surge].
  split.
  { split; [split; [split; [exact Sm|split; [apply (I 1 2 2)%Z|apply (I 0 0 (-1))%Z]]|split; [apply (I 1 2 (-1))%Z|split; [apply (I 4 (-3) 0)%Z|apply (I 1 1 1)%Z]]]|cbn [rot vel acc spin place slide surge]; repeat split; apply L]; try lra; lia. }
  split.
  { split; [split; [split; [exact S|split; [apply (I 0 (-3) 0)%Z|apply (I 2 1 0)%Z]]|split; [split; [exact Fg|cbn [place pf fd]; rewrite Z0]|split; [apply (I 0 0 7)%Z|apply (I 0 9 2)%Z]]]|cbn [rot vel acc spin place slide surge]; repeat split; try exact Ng; try (apply L)]; try lra; try lia. }
  split; [rewrite u_num; lra|]. split; [lra|]. split; [exact P|]. split; [exact Fh|]. split; [exact Vh|]. split; [replace (mtrans mid) with mid by reflexivity; rewrite mmul_1_r; exact R|]. split; [apply norm_is; [lra|unfold dot; cbn [vx vy vz]; lra]|].
  repeat (split; [reflexivity|]). rewrite u_num. repeat split; lra.
Qed.
