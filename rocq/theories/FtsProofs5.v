(** The exact motion between two states. *)
From Coq Require Import Reals Lra Lia Psatz.
From Flocq Require Import Core BinarySingleNaN.
From Verif Require Import Cpp RotSpec GeomModel RotProofs DerivSpec DerivProofs LieProofs JetLaws FloatModel FloatSpec NrmSpec NrmProofs Vec DriftModel DriftSpec SpinModel SpinSpec SpinProofs2 TwistModel TlogModel TlogProofs TlogProofs2 TlogProofs4 TlogProofs5 TlogProofs6 TwistProofs3 SlogProofs5 QfModel QfSpec QfProofs FtsModel FtsSpec DriftProofs DriftProofs FtsProofs4.
Local Open Scope R_scope.

(** ** Motions on top of each other *)
Definition moves_m (p : R -> state) : Prop := forall t,
  dM (fun s => rot (p s)) t (mmul (cross_matrix (vel (p t))) (rot (p t))) /\ dV (fun s => vel (p s)) t (acc (p t)).
Lemma moves_matrix p : moves_m p -> moves p.
Proof.
  intros M t. destruct (M t) as [M1 M2]. split; [|exact M2]. intro v. eapply dV_eq; [exact (dV_mvec _ _ _ _ _ M1 (dV_const v t))|].
  generalize (vel (p t)), (rot (p t)). intros [a b c] m. destruct v as [x y z]. unfold vadd, mvec, mmul, cross_matrix, cross, vzero. cbn [vx vy vz m00 m01 m02 m10 m11 m12 m20 m21 m22]. f_equal; ring.
Qed.
Lemma on_top_moves p q : (forall t, is_rotation (rot (p t))) -> moves_m p -> moves_m q -> moves_m (fun t => on_top (p t) (q t)).
Proof.
  intros R P Q t. destruct (P t) as [P1 P2]. destruct (Q t) as [Q1 Q2]. cbn [on_top rot vel acc]. split.
  - eapply dM_eq; [exact (dM_mmul _ _ _ _ _ P1 Q1)|]. rewrite cross_matrix_add, <- !mmul_assoc, (mmul_assoc (rot (p t)) (cross_matrix (vel (q t)))), (rot_cross_swap _ _ (R t)).
    generalize (cross_matrix (vel (p t))), (rot (p t)), (rot (q t)), (cross_matrix (mvec (rot (p t)) (vel (q t)))). intros a b c d. rewrite <- !mmul_assoc. generalize (mmul b c). intro e. destruct a, d, e. vring.
  - eapply dV_eq; [exact (dV_add _ _ _ _ _ P2 (dV_mvec _ _ _ _ _ P1 Q2))|].
    cbv beta. generalize (vel (p t)), (acc (p t)), (rot (p t)), (vel (q t)), (acc (q t)). intros [a1 a2 a3] [b1 b2 b3] c [d1 d2 d3] [e1 e2 e3]. unfold vadd, mvec, mmul, cross_matrix, cross. cbn [vx vy vz m00 m01 m02 m10 m11 m12 m20 m21 m22]. f_equal; ring.
Qed.
Definition turning_state (w : weight) (v : vec3) (t : R) : state := State (mexp (vscale (hermite w t) v)) (vscale (hermite' w t) v) (vscale (hermite'' w t) v).
Lemma turning_moves w v : moves_m (turning_state w v).
Proof.
  intro t. destruct (hermite_derivatives w t) as [D1 D2]. cbn [turning_state rot vel acc]. split; [apply (dM_mexp_line (hermite w)), D1|apply dV_scale_l, D2].
Qed.
Lemma turning_part w v t x : turn_part w v t x <-> x = turning_state w v t.
Proof.
  split.
  - intros (R & V & A). destruct x as [r y a]. cbn [rot vel acc] in *. unfold turning_state. rewrite V, A, (rotation_by_only _ _ _ R (mexp_by _)). reflexivity.
  - intros ->. split; [apply mexp_by|split; reflexivity].
Qed.
Lemma only_vector v w r : rotation_by v r -> rotation_by w r -> norm v <= 3 -> norm w <= 3 -> v = w.
Proof.
  intros V W NV NW. pose proof PI_bounds. rewrite <- (mlog_mexp v), <- (mlog_mexp w) by lra. rewrite <- (rotation_by_only _ _ _ V (mexp_by v)), <- (rotation_by_only _ _ _ W (mexp_by w)). reflexivity.
Qed.
Definition way (orig dest : state) (w : vec3) (t : R) : state :=
  on_top (turning_state WAccelerationDest (acc dest) t) (on_top (turning_state WAccelerationOrig (acc orig) t)
    (on_top (turning_state WVelocityDest (vel dest) t) (on_top (turning_state WVelocityOrig (vel orig) t) (turning_state WMotion w t)))).
Definition way_from (orig dest : state) (w : vec3) (t : R) : state :=
  let q := way orig dest w t in State (mmul (rot q) (rot orig)) (vel q) (acc q).
Lemma constant_factor a b c : madd (mmul a c) (mmul b mzero3) = mmul a c.
Proof. unfold mzero3, madd, mmul. cbn [m00 m01 m02 m10 m11 m12 m20 m21 m22]. f_equal; ring. Qed.
Lemma way_moves orig dest w : moves_m (way_from orig dest w).
Proof.
  assert (T : forall k v t, is_rotation (rot (turning_state k v t))) by (intros; exact (rotation_by_rotation _ _ (mexp_by _))).
  assert (M : moves_m (way orig dest w)).
  { unfold way. repeat (apply (on_top_moves (turning_state _ _)); [apply T|apply turning_moves|]). apply turning_moves. }
  intro t. destruct (M t) as [M1 M2]. unfold way_from. cbv zeta. cbn [rot vel acc]. split; [|exact M2].
  eapply dM_eq; [exact (dM_mmul _ _ _ _ _ M1 (dM_const (rot orig) t))|]. rewrite mmul_assoc. cbv beta. apply constant_factor.
Qed.
Lemma between_way orig dest w t q : rotation_by w (mmul (rot dest) (mtrans (rot orig))) -> norm w <= 3 -> between orig dest t q <-> q = way_from orig dest w t.
Proof.
  intros R N. split.
  - intros (w' & x1 & x2 & x3 & x4 & x5 & R' & N' & T1 & T2 & T3 & T4 & T5 & ->). apply turning_part in T1, T2, T3, T4, T5. subst. rewrite (only_vector w' w _ R' R N' N). reflexivity.
  - intros ->. exists w, (turning_state WMotion w t), (turning_state WVelocityOrig (vel orig) t), (turning_state WVelocityDest (vel dest) t), (turning_state WAccelerationOrig (acc orig) t), (turning_state WAccelerationDest (acc dest) t).
    split; [exact R|]. split; [exact N|]. repeat (split; [apply turning_part; reflexivity|]). reflexivity.
Qed.
Lemma still v : vscale 0 v = vzero. Proof. unfold vscale, vzero. f_equal; ring. Qed.
Lemma way_ends orig dest w : is_rotation (rot orig) -> is_rotation (rot dest) -> rotation_by w (mmul (rot dest) (mtrans (rot orig))) -> way_from orig dest w 0 = orig /\ way_from orig dest w 1 = dest.
Proof.
  intros Ro Rd R. destruct orig as [ro vo ao]. destruct dest as [rd vd ad]. cbn [rot vel acc] in *. pose proof (rotation_by_only _ _ _ R (mexp_by w)) as E.
  assert (M0 : mexp vzero = mid) by apply mexp_zero. assert (S1 : forall v, vscale 1 v = v) by (intros [a b c]; unfold vscale; cbn [vx vy vz]; f_equal; ring).
  assert (A0 : forall v, vadd vzero v = v) by (intros [a b c]; unfold vadd, vzero; cbn [vx vy vz]; f_equal; ring). assert (A1 : forall v, vadd v vzero = v) by (intros [a b c]; unfold vadd, vzero; cbn [vx vy vz]; f_equal; ring).
  assert (V1 : forall v, mvec mid v = v) by (intros [a b c]; unfold mvec, mid; cbn [vx vy vz m00 m01 m02 m10 m11 m12 m20 m21 m22]; f_equal; ring).
  assert (V0 : forall m, mvec m vzero = vzero) by (intros m; unfold mvec, vzero; cbn [vx vy vz]; f_equal; ring).
  assert (C0 : forall v, cross vzero v = vzero) by (intros v; unfold cross, vzero; cbn [vx vy vz]; f_equal; ring). assert (C1 : forall v, cross v vzero = vzero) by (intros v; unfold cross, vzero; cbn [vx vy vz]; f_equal; ring).
  split.
  - assert (H : forall k, hermite k 0 = at_end k 0 0 /\ hermite' k 0 = at_end k 1 0 /\ hermite'' k 0 = at_end k 2 0) by (intro k; apply hermite_ends; left; reflexivity).
    assert (J : forall k, hermite k 0 = 0) by (intro k; destruct k; cbn [hermite]; lra).
    unfold way_from, way, on_top, turning_state. cbv zeta. cbn [rot vel acc]. rewrite !J, !still, !M0.
    replace (hermite' WMotion 0) with 0 by (cbn [hermite']; lra). replace (hermite'' WMotion 0) with 0 by (cbn [hermite'']; lra). replace (hermite' WVelocityOrig 0) with 1 by (cbn [hermite']; lra). replace (hermite'' WVelocityOrig 0) with 0 by (cbn [hermite'']; lra).
    replace (hermite' WVelocityDest 0) with 0 by (cbn [hermite']; lra). replace (hermite'' WVelocityDest 0) with 0 by (cbn [hermite'']; lra). replace (hermite' WAccelerationOrig 0) with 0 by (cbn [hermite']; lra). replace (hermite'' WAccelerationOrig 0) with 1 by (cbn [hermite'']; lra).
    replace (hermite' WAccelerationDest 0) with 0 by (cbn [hermite']; lra). replace (hermite'' WAccelerationDest 0) with 0 by (cbn [hermite'']; lra).
    repeat progress rewrite ?still, ?S1, ?V1, ?V0, ?A0, ?A1, ?C0, ?C1, ?mmul_1_l. reflexivity.
  - unfold way_from, way, on_top, turning_state. cbv zeta. cbn [rot vel acc].
    replace (hermite WMotion 1) with 1 by (cbn [hermite]; lra). replace (hermite WVelocityOrig 1) with 0 by (cbn [hermite]; lra). replace (hermite WVelocityDest 1) with 0 by (cbn [hermite]; lra). replace (hermite WAccelerationOrig 1) with 0 by (cbn [hermite]; lra). replace (hermite WAccelerationDest 1) with 0 by (cbn [hermite]; lra).
    replace (hermite' WMotion 1) with 0 by (cbn [hermite']; lra). replace (hermite'' WMotion 1) with 0 by (cbn [hermite'']; lra). replace (hermite' WVelocityOrig 1) with 0 by (cbn [hermite']; lra). replace (hermite'' WVelocityOrig 1) with 0 by (cbn [hermite'']; lra).
    replace (hermite' WVelocityDest 1) with 1 by (cbn [hermite']; lra). replace (hermite'' WVelocityDest 1) with 0 by (cbn [hermite'']; lra). replace (hermite' WAccelerationOrig 1) with 0 by (cbn [hermite']; lra). replace (hermite'' WAccelerationOrig 1) with 0 by (cbn [hermite'']; lra).
    replace (hermite' WAccelerationDest 1) with 0 by (cbn [hermite']; lra). replace (hermite'' WAccelerationDest 1) with 1 by (cbn [hermite'']; lra).
    repeat progress rewrite ?still, ?S1, ?M0, ?V1, ?V0, ?A0, ?A1, ?C0, ?C1, ?mmul_1_l. rewrite <- E, <- mmul_assoc, (rot_mtrans_l ro Ro), mmul_1_r. reflexivity.
Qed.
Lemma the_way orig dest : is_rotation (rot orig) -> is_rotation (rot dest) -> (exists w, rotation_by w (mmul (rot dest) (mtrans (rot orig))) /\ norm w <= 3) ->
  exists p, (forall t q, between orig dest t q <-> q = p t) /\ p 0 = orig /\ p 1 = dest /\ moves p.
Proof.
  intros Ro Rd (w & R & N). exists (way_from orig dest w). split; [intros t q; apply (between_way orig dest w t q R N)|]. destruct (way_ends orig dest w Ro Rd R) as [E0 E1]. split; [exact E0|]. split; [exact E1|apply moves_matrix, way_moves].
Qed.
(** ** There is a result *)
Lemma some_mmul a b : exists c, fmmul a b c.
Proof.
  unfold fmmul. pose proof some_dot as D. destruct (D (f00 a) (f01 a) (f02 a) (f00 b) (f10 b) (f20 b)) as [x0 X0]. destruct (D (f00 a) (f01 a) (f02 a) (f01 b) (f11 b) (f21 b)) as [x1 X1]. destruct (D (f00 a) (f01 a) (f02 a) (f02 b) (f12 b) (f22 b)) as [x2 X2].
  destruct (D (f10 a) (f11 a) (f12 a) (f00 b) (f10 b) (f20 b)) as [x3 X3]. destruct (D (f10 a) (f11 a) (f12 a) (f01 b) (f11 b) (f21 b)) as [x4 X4]. destruct (D (f10 a) (f11 a) (f12 a) (f02 b) (f12 b) (f22 b)) as [x5 X5].
  destruct (D (f20 a) (f21 a) (f22 a) (f00 b) (f10 b) (f20 b)) as [x6 X6]. destruct (D (f20 a) (f21 a) (f22 a) (f01 b) (f11 b) (f21 b)) as [x7 X7]. destruct (D (f20 a) (f21 a) (f22 a) (f02 b) (f12 b) (f22 b)) as [x8 X8].
  exists (FM x0 x1 x2 x3 x4 x5 x6 x7 x8). cbn [f00 f01 f02 f10 f11 f12 f20 f21 f22]. tauto.
Qed.
Lemma some_mvec a v : exists w, fmvec a v w.
Proof.
  unfold fmvec. pose proof some_dot as D. destruct (D (f00 a) (f01 a) (f02 a) (fx v) (fy v) (fz v)) as [x X]. destruct (D (f10 a) (f11 a) (f12 a) (fx v) (fy v) (fz v)) as [y Y]. destruct (D (f20 a) (f21 a) (f22 a) (fx v) (fy v) (fz v)) as [z Z].
  exists (FV x y z). cbn [fx fy fz]. tauto.
Qed.
Lemma some_jet_mul a b : exists c, fjet_mul a b c.
Proof.
  destruct (some_mmul (jf a) (jf b)) as [m M]. destruct (some_mvec (jf a) (jd b)) as [w W]. destruct (some_mvec (jf a) (jd2 b)) as [w2 W2].
  exists (FJ m (fvadd (jd a) w) (fvadd (fvadd (jd2 a) w2) (fcross (jd a) w))). cbn [jf jd jd2]. split; [exact M|]. split; [exists w; split; [exact W|reflexivity]|exists w2, w; split; [exact W2|split; [exact W|reflexivity]]].
Qed.
Lemma some_accumulate c v p : exists q, faccumulate c v p q.
Proof. destruct (some_exp (fscale (f_a c) v)) as [m M]. destruct (some_jet_mul (FJ m (fscale (f_da c) v) (fscale (f_d2a c) v)) p) as [q Q]. exists q, m. split; assumption. Qed.
Lemma some_point orig dest t : exists p, fsegment_point_at orig dest t p.
Proof.
  destruct (some_mmul (jf dest) (fmtrans (jf orig))) as [m M]. destruct (some_log m) as [v V]. destruct (some_accumulate (f_dest_from_orig t) v fjet_identity) as [p1 P1]. destruct (some_accumulate (f_d_orig t) (jd orig) p1) as [p2 P2].
  destruct (some_accumulate (f_d_dest t) (jd dest) p2) as [p3 P3]. destruct (some_accumulate (f_d2_orig t) (jd2 orig) p3) as [p4 P4]. destruct (some_accumulate (f_d2_dest t) (jd2 dest) p4) as [p5 P5]. destruct (some_mmul (jf p5) (jf orig)) as [r R].
  exists (FJ r (jd p5) (jd2 p5)), m, v, p1, p2, p3, p4, p5. cbn [jf jd jd2]. repeat (split; [assumption|]). split; reflexivity.
Qed.
Lemma point_near e M fo fd orig dest t : 0 <= e -> 0 <= M -> (1 + M) * (e + 100 * u) <= / 10 ^ 5 -> end_near e M fo orig -> end_near e M fd dest -> finite t -> 0 <= val t <= 1 ->
  (exists f, fsegment_point_at fo fd t f) /\
  forall f p, fsegment_point_at fo fd t f -> between orig dest (val t) p ->
    jet_within (79 * ((1 + M) * (e + 100 * u))) (340 * ((1 + M) ^ 2 * (e + 100 * u))) (2560 * ((1 + M) ^ 3 * (e + 100 * u))) f p /\
    norm (vel p) <= 97 / 10 * (1 + M) /\ norm (acc p) <= 628 / 10 * (1 + M) ^ 2.
Proof.
  intros E Mp X O D F T. split; [apply some_point|]. intros f p P B. pose proof (segment_near e M E Mp X orig dest fo fd t (val t) f p O D ltac:(split; [exact F|]; split; [exact T|]; split; [exact T|]; unfold Rminus; rewrite Rplus_opp_r, Rabs_R0; pose proof u_pos; lra) P B) as H.
  replace ((1 + M) ^ 2 * (e + 100 * u)) with ((1 + M) * (e + 100 * u) * (1 + M)) by ring. replace ((1 + M) ^ 3 * (e + 100 * u)) with ((1 + M) * (e + 100 * u) * ((1 + M) * (1 + M))) by ring. replace ((1 + M) ^ 2) with ((1 + M) * (1 + M)) by ring. exact H.
Qed.
Lemma ends_near e M fo fd orig dest w t f : 0 <= e -> 0 <= M -> (1 + M) * (e + 100 * u) <= / 10 ^ 5 -> end_near e M fo orig -> end_near e M fd dest ->
  rotation_by w (mmul (rot dest) (mtrans (rot orig))) -> norm w <= 3 -> finite t -> fsegment_point_at fo fd t f ->
  (val t = 0 -> jet_within (79 * ((1 + M) * (e + 100 * u))) (340 * ((1 + M) ^ 2 * (e + 100 * u))) (2560 * ((1 + M) ^ 3 * (e + 100 * u))) f orig) /\
  (val t = 1 -> jet_within (79 * ((1 + M) * (e + 100 * u))) (340 * ((1 + M) ^ 2 * (e + 100 * u))) (2560 * ((1 + M) ^ 3 * (e + 100 * u))) f dest).
Proof.
  intros E Mp X O D R N F P. destruct (the_way orig dest) as (p & B & P0 & P1 & _); [apply O|apply D|exists w; auto|].
  split; intro V; (destruct (point_near e M fo fd orig dest t E Mp X O D F) as [_ H]; [lra|]); apply (H f); try exact P; apply B; congruence.
Qed.
Lemma segment_case : exists fo fd orig dest f, end_near (63 * u) 3 fo orig /\ end_near (63 * u) 3 fd dest /\ (1 + 3) * (63 * u + 100 * u) <= / 10 ^ 5 /\
  fsegment_point_at fo fd fhalf f /\ finite fhalf /\ val fhalf = 1 / 2 /\
  rotation_by (V3 1 2 2) (mmul (rot dest) (mtrans (rot orig))) /\ norm (V3 1 2 2) = 3 /\ vel orig = V3 1 2 2 /\ acc orig = V3 0 0 (-1) /\ vel dest = V3 0 (-3) 0 /\ acc dest = V3 2 1 0 /\
  79 * ((1 + 3) * (63 * u + 100 * u)) <= 58 / 10 ^ 13 /\ 340 * ((1 + 3) ^ 2 * (63 * u + 100 * u)) <= 99 / 10 ^ 12 /\ 2560 * ((1 + 3) ^ 3 * (63 * u + 100 * u)) <= 3 / 10 ^ 9.
Proof.
  destruct log_case as (m & v & _ & _ & S & _ & R & N & _). destruct half_float as [Fh Vh]. set (r := turning 3 (V3 (1 / 3) (2 / 3) (2 / 3))) in *.
  set (fo := FJ fmid (ivec 1 2 2) (ivec 0 0 (-1))). set (fd := FJ m (ivec 0 (-3) 0) (ivec 2 1 0)). destruct (some_point fo fd fhalf) as [f P].
  assert (I : forall a b c, (Z.abs a <= 3)%Z -> (Z.abs b <= 3)%Z -> (Z.abs c <= 3)%Z -> vfinite (ivec a b c) /\ norm (vsub (vval (ivec a b c)) (V3 (IZR a) (IZR b) (IZR c))) <= 63 * u * 3).
  { intros a b c A B C. destruct (ivec_val a b c) as [F V]; try lia. split; [exact F|]. rewrite V. replace (norm _) with 0; [rewrite u_num; lra|]. symmetry. apply norm_is; [lra|]. unfold dot, vsub. cbn [vx vy vz]. ring. }
  assert (L : forall a b c, a * a + b * b + c * c <= 9 -> norm (V3 a b c) <= 3).
  { intros a b c H. unfold norm, norm2, dot. cbn [vx vy vz]. replace 3 with (sqrt (3 * 3)) by (apply sqrt_square; lra). apply sqrt_le_1_alt. lra. }
  assert (Sm : stands_for (63 * u) (fmid, mid)).
  { destruct (imat_val 1 1 1) as [F V]; try lia. change (imat 1 1 1) with fmid in F, V. split; [exact F|]. cbn [fst snd]. split; [apply rot_mid|]. rewrite V. replace (apart _ _) with 0; [rewrite u_num; lra|].
    unfold apart, size, madd, mscale, mid. cbn [m00 m01 m02 m10 m11 m12 m20 m21 m22]. symmetry. replace (_ + _) with 0 by ring. apply sqrt_0. }
  exists fo, fd, (State mid (V3 1 2 2) (V3 0 0 (-1))), (State r (V3 0 (-3) 0) (V3 2 1 0)), f. cbn [rot vel acc].
  split; [split; [split; [exact Sm|split; [apply (I 1 2 2)%Z|apply (I 0 0 (-1))%Z]; lia]|split; apply L; lra]|].
  split; [split; [split; [exact S|split; [apply (I 0 (-3) 0)%Z|apply (I 2 1 0)%Z]; lia]|split; apply L; lra]|].
  split; [rewrite u_num; lra|]. split; [exact P|]. split; [exact Fh|]. split; [exact Vh|]. split; [replace (mtrans mid) with mid by reflexivity; rewrite mmul_1_r; exact R|]. split; [apply norm_is; [lra|unfold dot; cbn [vx vy vz]; lra]|].
  repeat (split; [reflexivity|]). rewrite u_num. repeat split; lra.
Qed.
