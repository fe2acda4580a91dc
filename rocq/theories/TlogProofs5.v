(** Proofs about SO3::log in double precision, brought together. *)
From Coq Require Import Psatz.
From Flocq Require Import Core BinarySingleNaN.
From Verif Require Import Cpp FloatModel FloatSpec FloatProofs NrmSpec NrmProofs Vec RotSpec RotProofs CoeffProofs DriftModel DriftSpec DriftProofs DriftProofs2 SpinModel SpinSpec SpinProofs SpinProofs2 SpinProofs3 TlogModel TlogSpec TlogProofs TlogProofs2 TlogProofs3 TlogProofs4.
Local Open Scope R_scope.

Lemma apart_sym a b : apart a b = apart b a.
Proof. unfold apart, size. f_equal. unfold madd, mscale. cbn [m00 m01 m02 m10 m11 m12 m20 m21 m22]. ring. Qed.

Lemma angle_axis_log q w p E angle axis v : qfinite q -> w * w + dot p p = 1 -> qoff q w p <= E -> E <= / 500 ->
  fquat_angle_axis q angle axis -> v = FV (fmul (fx axis) angle) (fmul (fy axis) angle) (fmul (fz axis) angle) ->
  vfinite v /\ norm (vval v) <= PI + 22 * u /\ apart (quaternion_matrix (hw (vval v)) (hp (vval v))) (quaternion_matrix w p) <= 283 / 100 * E + 38 * u /\
  (vval (fquat_vec q) = vzero -> vval v = vzero).
Proof.
  intros Fq U O HE (n0 & n & (z & D & ->) & Hn & C) Hv. pose proof u_pos as Up. assert (Us : 1000 * u <= / 1000) by (rewrite u_num; lra). pose proof PI_bounds as PB.
  pose proof (V_finite q Fq) as FV. destruct (V_near q w p E U O HE) as (VP & VB & WB). set (V := vval (fquat_vec q)) in *.
  destruct fepsilon_val as [Fe Ve]. pose proof pow_490_2 as P490.
  assert (Q : finite (fsqrt z) /\ (val (fsqrt z) < 2 * u -> norm V <= 201 / 100 * u) /\ (2 * u <= val (fsqrt z) -> / 2 ^ 500 <= norm V /\ Rabs (val (fsqrt z) - norm V) <= 255 / 100 * u * norm V)).
  { destruct (Rle_or_lt (/ 2 ^ 500) (norm V)) as [A|A].
    - destruct (norm_near_big _ z FV A ltac:(fold V; lra) D) as (Fz & Pz & Fs & R). fold V in R. split; [exact Fs|]. split; [|auto]. intro S.
      assert (u * norm V <= / 1000000 * norm V) by (apply Rmult_le_compat_r; [apply norm_nonneg|lra]). apply Rabs_le_inv in R. lra.
    - destruct (tiny_angle _ z FV ltac:(fold V; lra) D) as (Fz & Pz & Fs & R & _). split; [exact Fs|]. apply Rabs_le_inv in R. split; [|intro; exfalso; lra]. intros _.
      destruct two_500 as (T0 & T1 & T2). lra. }
  destruct Q as (Fs & Small & Big).
  destruct (flt (fsqrt z) fepsilon) eqn:T.
  - apply flt_val in T; [|assumption..]. rewrite Ve in T. specialize (Small T).
    destruct (tiny_angle_axis q w p E Fq U O HE n v Hn Small ltac:(exists angle, axis; split; [exact C|exact Hv])) as (Fv & Bv & Zv).
    split; [exact Fv|]. split; [lra|]. split; [|exact Zv].
    pose proof (small_turn q w p E U O HE v Bv Small). lra.
  - assert (T' : 2 * u <= val (fsqrt z)). { destruct (Rle_or_lt (2 * u) (val (fsqrt z))) as [|K]; [assumption|]. rewrite <- Ve in K. apply flt_val in K; [congruence|assumption..]. }
    destruct (Big T') as [B R]. subst n. destruct (feq (fsqrt z) (of_int 0)) eqn:Q; [apply feq_zero in Q; [lra|exact Fs]|].
    destruct C as (a & At & -> & Ax). cbv zeta in Ax.
    destruct (main_angle q w p E Fq U O HE (fsqrt z) axis a v Fs B R T' At Ax Hv) as (Fv & t & Bt & Dt & At').
    split; [exact Fv|]. assert (Dt' : norm (vsub (vval v) t) <= 2106 / 100 * u). { eapply Rle_trans; [exact Dt|]. assert (u * norm t <= u * (3142 / 1000)) by (apply Rmult_le_compat_l; lra). lra. }
    split; [pose proof (norm_near (vval v) t); lra|]. split.
    + pose proof (exp_lipschitz (vval v) t _ _ (proj2 (rotation_by_half _ _) eq_refl) (proj2 (rotation_by_half _ _) eq_refl)) as L.
      pose proof (apart_triangle (quaternion_matrix (hw (vval v)) (hp (vval v))) (quaternion_matrix (hw t) (hp t)) (quaternion_matrix w p)). lra.
    + intro K. exfalso. destruct (not_tiny _ B) as [_ N0]. fold V in K. rewrite K, norm_zero in N0. lra.
Qed.

Lemma log_near m r e v : stands_for e (m, r) -> e <= / 2000 -> fso3_log m v ->
  vfinite v /\ norm (vval v) <= PI + 22 * u /\ turns_within (85 / 10 * e + 101 * u) (vval v) r.
Proof.
  intros (Fm & Ir & D) He (q & angle & axis & Q & A & V). cbn [fst snd] in *. pose proof u_pos as Up. assert (Us : 1000 * u <= / 1000000) by (rewrite u_num; lra).
  destruct (quaternion_read m r e Fm Ir D He q Q) as (Fq & w & p & U & R & O). subst r.
  assert (e0 : 0 <= e) by (eapply Rle_trans; [apply apart_pos|exact D]).
  destruct (angle_axis_log q w p (3 * e + 22 * u) angle axis v Fq U O ltac:(lra) A V) as (F & B & T & _).
  split; [exact F|]. split; [exact B|]. exists (quaternion_matrix (hw (vval v)) (hp (vval v))). split; [apply rotation_by_half; reflexivity|]. lra.
Qed.

(** What went in comes out, unless it is within a twentieth of a half turn. *)
Lemma log_recovers m r e v w : stands_for e (m, r) -> e <= / 2000 -> fso3_log m v -> rotation_by w r -> norm w <= 3 ->
  norm (vsub (vval v) w) <= 153 / 10 * e + 182 * u.
Proof.
  intros S He L Rw Nw. pose proof u_pos as Up. assert (Us : 1000 * u <= / 1000000) by (rewrite u_num; lra). pose proof PI_bounds as PB.
  destruct (log_near m r e v S He L) as (F & B & r' & R' & D').
  assert (e0 : 0 <= e) by (destruct S as (_ & _ & D); eapply Rle_trans; [apply apart_pos|exact D]).
  replace (vsub (vval v) w) with (vneg (vsub w (vval v))) by (unfold vneg, vsub; cbn [vx vy vz]; f_equal; ring). rewrite norm_neg.
  eapply Rle_trans; [apply (log_expansion w (vval v) r r' (85 / 10 * e + 101 * u) Rw R' Nw); [lra|rewrite apart_sym; exact D'|lra]|lra].
Qed.
Lemma exp_log m r e v m' : stands_for e (m, r) -> e <= / 2000 -> fso3_log m v -> fso3_exp v m' -> stands_for (85 / 10 * e + 165 * u) (m', r).
Proof.
  intros S He L X. pose proof u_pos as Up. assert (Us : 1000 * u <= / 1000000) by (rewrite u_num; lra). pose proof PI_bounds as PB.
  destruct (log_near m r e v S He L) as (F & B & r' & R' & D'). pose proof pow_490.
  destruct (exp_near v r' m' F ltac:(pose proof pow_490; apply Rle_trans with 4; [lra|]; apply Rle_trans with (2 ^ 2); [lra|apply Rle_pow; [lra|lia]]) R' X) as (F' & _ & D).
  cbn [fst snd] in *. split; [exact F'|]. destruct S as (_ & Ir & _). split; [exact Ir|]. cbn [fst snd].
  pose proof (apart_triangle (mval m') r' r).
  assert ((51 + 4 * norm (vval v)) * u <= 64 * u) by (apply Rmult_le_compat_r; lra). lra.
Qed.

(** ** Part of the way *)
Lemma scaled_near v f : vfinite v -> finite f -> Rabs (val f) <= 2 ^ 480 -> norm (vval v) <= 4 ->
  let s := FV (fmul (fx v) f) (fmul (fy v) f) (fmul (fz v) f) in
  vfinite s /\ norm (vsub (vval s) (vscale (val f) (vval v))) <= u * Rabs (val f) * norm (vval v) + 2 * h.
Proof.
  intros (X & Y & Z) F B N s. destruct (entry_norm (vval v)) as (Bx & By & Bz). cbn [vval vx vy vz] in Bx, By, Bz. pose proof u_pos as Up. pose proof h_pos as Hp.
  assert (K : forall x, Rabs (val x) <= norm (vval v) -> Rabs (val x * val f) <= 2 ^ 1000).
  { intros x Bx'. rewrite Rabs_mult. apply Rle_trans with (2 ^ 2 * 2 ^ 480); [apply Rmult_le_compat; try apply Rabs_pos; lra|]. rewrite <- pow_add. apply Rle_pow; [lra|lia]. }
  destruct (mul_error (fx v) f X F (K _ Bx)) as [G1 D1]. destruct (mul_error (fy v) f Y F (K _ By)) as [G2 D2]. destruct (mul_error (fz v) f Z F (K _ Bz)) as [G3 D3].
  split; [repeat split; assumption|].
  apply Rle_trans with (norm (vadd (vscale (u * Rabs (val f)) (vabs (vval v))) (vscale h (V3 1 1 1)))).
  - apply norm_mono; unfold s, vadd, vsub, vscale, vabs, vval; cbn [vx vy vz fx fy fz]; rewrite Rmult_1_r, (Rmult_comm (val f)), Rmult_assoc, <- Rabs_mult; rewrite (Rmult_comm (val f)); assumption.
  - eapply Rle_trans; [apply norm_triangle|]. rewrite !norm_scale, norm_vabs.
    assert (norm (V3 1 1 1) <= 2). { unfold norm. rewrite <- (sqrt_square 2) by lra. apply sqrt_le_1; unfold norm2, dot; cbn [vx vy vz]; lra. }
    assert (0 <= u * Rabs (val f)) by (apply Rmult_le_pos; [lra|apply Rabs_pos]). rewrite (Rabs_right (u * Rabs (val f))), (Rabs_right h) by lra. assert (h * norm (V3 1 1 1) <= h * 2) by (apply Rmult_le_compat_l; lra). lra.
Qed.
Lemma part_near v f s m r : vfinite v -> finite f -> Rabs (val f) <= 2 ^ 480 -> norm (vval v) <= 3143 / 1000 ->
  s = FV (fmul (fx v) f) (fmul (fy v) f) (fmul (fz v) f) -> fso3_exp s m -> rotation_by (vscale (val f) (vval v)) r ->
  stands_for ((52 + 171 / 10 * Rabs (val f)) * u) (m, r).
Proof.
  intros Fv F B N -> X R. pose proof u_pos as Up. pose proof h_pos as Hp. pose proof h_tiny as Ht. assert (Us : 1000 * u <= / 1000000) by (rewrite u_num; lra).
  destruct (scaled_near v f Fv F B ltac:(lra)) as [G D]. cbv zeta in G, D. set (s := FV _ _ _) in *. set (a := Rabs (val f)) in *. assert (a0 : 0 <= a) by apply Rabs_pos. pose proof (norm_nonneg (vval v)) as N0.
  assert (P : a * norm (vval v) <= a * (3143 / 1000)) by (apply Rmult_le_compat_l; lra). assert (uP : u * (a * norm (vval v)) <= u * (a * (3143 / 1000))) by (apply Rmult_le_compat_l; lra).
  assert (ua : u * a <= / 1000000 * a) by (apply Rmult_le_compat_r; lra).
  assert (Ns : norm (vval s) <= 31431 / 10000 * a + 2 * h). { pose proof (norm_near (vval s) (vscale (val f) (vval v))) as T. rewrite norm_scale in T. fold a in T. lra. }
  assert (Big : norm (vval s) <= 2 ^ 490). { apply Rle_trans with (2 ^ 3 * 2 ^ 480); [|rewrite <- pow_add; apply Rle_pow; [lra|lia]]. assert (1 <= 2 ^ 480) by (apply pow_R1_Rle; lra). lra. }
  destruct (rotation_by_some (vval s)) as [r' R']. destruct (exp_near s r' m G Big R' X) as (Fm & _ & Dm). cbn [fst snd] in *.
  split; [exact Fm|]. split; [exact (rotation_by_rotation _ _ R)|]. cbn [fst snd].
  pose proof (exp_lipschitz _ _ _ _ R' R) as L. pose proof (apart_triangle (mval m) r' r).
  assert (E1 : (51 + 4 * norm (vval s)) * u <= (51 + 4 * (31431 / 10000 * a + 2 * h)) * u) by (apply Rmult_le_compat_r; lra).
  assert (u * h <= / 1000 * h) by (apply Rmult_le_compat_r; lra). assert (0 <= u * a) by (apply Rmult_le_pos; lra). lra.
Qed.
Lemma interp_near m r e f p : stands_for e (m, r) -> e <= / 2000 -> finite f -> Rabs (val f) <= 2 ^ 480 -> fso3_interp m f p ->
  exists t part, norm t <= PI + 22 * u /\ turns_within (85 / 10 * e + 101 * u) t r /\ rotation_by (vscale (val f) t) part /\
    stands_for ((52 + 171 / 10 * Rabs (val f)) * u) (p, part).
Proof.
  intros S He F B (v & L & X). destruct (log_near m r e v S He L) as (Fv & N & T). pose proof PI_bounds. assert (Us : 1000 * u <= / 1000000) by (rewrite u_num; lra).
  destruct (rotation_by_some (vscale (val f) (vval v))) as [r' R']. exists (vval v), r'. split; [exact N|]. split; [exact T|]. split; [exact R'|].
  eapply part_near; [exact Fv|exact F|exact B|lra|reflexivity|exact X|exact R'].
Qed.
Lemma interp_follows m r e f p w part : stands_for e (m, r) -> e <= / 2000 -> finite f -> Rabs (val f) <= 2 ^ 480 -> fso3_interp m f p ->
  rotation_by w r -> norm w <= 3 -> rotation_by (vscale (val f) w) part ->
  stands_for (Rabs (val f) * (217 / 10 * e) + (52 + 275 * Rabs (val f)) * u) (p, part).
Proof.
  intros S He F B (v & L & X) Rw Nw Rp. destruct (log_near m r e v S He L) as (Fv & N & T). pose proof PI_bounds. pose proof u_pos as Up. assert (Us : 1000 * u <= / 1000000) by (rewrite u_num; lra).
  pose proof (log_recovers m r e v w S He L Rw Nw) as D.
  destruct (rotation_by_some (vscale (val f) (vval v))) as [r' R'].
  destruct (part_near v f _ p r' Fv F B ltac:(lra) eq_refl X R') as (Fp & _ & Dp). cbn [fst snd] in *. split; [exact Fp|]. split; [exact (rotation_by_rotation _ _ Rp)|]. cbn [fst snd].
  pose proof (exp_lipschitz _ _ _ _ R' Rp) as Lp. replace (vsub (vscale (val f) (vval v)) (vscale (val f) w)) with (vscale (val f) (vsub (vval v) w)) in Lp by (unfold vsub, vscale; cbn [vx vy vz]; f_equal; ring).
  rewrite norm_scale in Lp. pose proof (apart_triangle (mval p) r' part). set (a := Rabs (val f)) in *. assert (a0 : 0 <= a) by apply Rabs_pos.
  assert (a * norm (vsub (vval v) w) <= a * (153 / 10 * e + 182 * u)) by (apply Rmult_le_compat_l; lra).
  assert (e0 : 0 <= e) by (destruct S as (_ & _ & D0); eapply Rle_trans; [apply apart_pos|exact D0]). assert (0 <= a * e) by (apply Rmult_le_pos; lra). assert (0 <= a * u) by (apply Rmult_le_pos; lra). lra.
Qed.
