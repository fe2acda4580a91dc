(** Errors of a segment of a time curve of rotations. *)
From Coq Require Import Reals Lra Lia Psatz.
From Flocq Require Import Core BinarySingleNaN.
From Verif Require Import Cpp FloatModel FloatSpec FloatProofs NrmSpec NrmProofs Vec RotSpec RotProofs CoeffProofs DriftModel DriftSpec DriftProofs SpinModel SpinSpec SpinProofs2 TwistModel TwistProofs2 TwistProofs3 TlogModel TlogProofs TlogProofs5 TlogProofs6 QfModel QfSpec QfProofs FtsModel FtsSpec FtsProofs FtsProofs2 FtsProofs3.
Local Open Scope R_scope.

Lemma powers_u : / 2 ^ 44 = 512 * u /\ / 2 ^ 43 = 1024 * u /\ / 2 ^ 42 = 2048 * u.
Proof. rewrite u_num. repeat split; lra. Qed.
Lemma scaled_by k k0 v v0 d B e L : finite k -> vfinite v -> Rabs (val k - k0) <= d -> Rabs k0 <= B -> B + d <= 2 ^ 10 -> norm (vsub (vval v) v0) <= e -> norm (vval v) <= L -> L <= 2 ^ 900 ->
  vfinite (fscale k v) /\ norm (vsub (vval (fscale k v)) (vscale k0 v0)) <= u * ((B + d) * L) + 2 * h + d * L + B * e /\ norm (vscale k0 v0) <= B * norm v0 /\ norm (vval (fscale k v)) <= (B + d) * L + u * ((B + d) * L) + 2 * h.
Proof.
  intros F V D HB HBd E NL L9. pose proof u_pos as Up. assert (AK : Rabs (val k) <= B + d). { replace (val k) with (k0 + (val k - k0)) by ring. eapply Rle_trans; [apply Rabs_triang|lra]. }
  destruct (fscale_near k v F V ltac:(lra) ltac:(lra)) as [G N]. split; [exact G|]. pose proof (norm_nonneg (vval v)) as P0. pose proof (Rabs_pos (val k)) as P1.
  assert (M : Rabs (val k) * norm (vval v) <= (B + d) * L) by (apply Rmult_le_compat; lra). assert (uM : u * (Rabs (val k) * norm (vval v)) <= u * ((B + d) * L)) by (apply Rmult_le_compat_l; lra).
  split; [|split].
  - pose proof (norm_triangle_sub (vval (fscale k v)) (vscale (val k) (vval v)) (vscale k0 v0)) as T.
    replace (vsub (vscale (val k) (vval v)) (vscale k0 v0)) with (vadd (vscale (val k - k0) (vval v)) (vscale k0 (vsub (vval v) v0))) in T by (unfold vadd, vsub, vscale; cbn [vx vy vz]; f_equal; ring).
    pose proof (norm_triangle (vscale (val k - k0) (vval v)) (vscale k0 (vsub (vval v) v0))) as T2. rewrite !norm_scale in T2.
    assert (Rabs (val k - k0) * norm (vval v) <= d * L) by (apply Rmult_le_compat; [apply Rabs_pos|lra|lra|lra]). assert (Rabs k0 * norm (vsub (vval v) v0) <= B * e) by (apply Rmult_le_compat; [apply Rabs_pos|apply norm_nonneg|lra|lra]). lra.
  - rewrite norm_scale. apply Rmult_le_compat_r; [apply norm_nonneg|lra].
  - pose proof (norm_near (vval (fscale k v)) (vscale (val k) (vval v))) as T. rewrite norm_scale in T. lra.
Qed.
Lemma turned_by s w0 r m L e : vfinite s -> norm (vval s) <= L -> L <= 2 ^ 490 -> norm (vsub (vval s) w0) <= e -> rotation_by w0 r -> fso3_exp s m ->
  stands_for ((51 + 4 * L) * u + 14143 / 10000 * e) (m, r).
Proof.
  intros F N B E R M. pose proof u_pos. destruct (rotation_by_some (vval s)) as [r' R']. destruct (exp_near s r' m F ltac:(lra) R' M) as (Fm & _ & D). cbn [fst snd] in *.
  split; [exact Fm|]. split; [exact (rotation_by_rotation _ _ R)|]. cbn [fst snd]. pose proof (exp_lipschitz _ _ _ _ R' R) as Li. pose proof (apart_triangle (mval m) r' r).
  assert ((51 + 4 * norm (vval s)) * u <= (51 + 4 * L) * u) by (apply Rmult_le_compat_r; lra). lra.
Qed.
(** ** A little later or earlier *)
Lemma mean_value f f' B : (forall x, derivable_pt_lim f x (f' x)) -> (forall x, 0 <= x <= 1 -> Rabs (f' x) <= B) -> forall a b, 0 <= a <= 1 -> 0 <= b <= 1 -> Rabs (f a - f b) <= B * Rabs (a - b).
Proof.
  intros D H. assert (L : forall a b, 0 <= a <= 1 -> 0 <= b <= 1 -> a < b -> Rabs (f b - f a) <= B * Rabs (b - a)).
  { intros a b Ha Hb Lt. destruct (MVT_cor2 f f' a b Lt (fun c _ => D c)) as (c & E & Hc). rewrite E, Rabs_mult. apply Rmult_le_compat_r; [apply Rabs_pos|apply H; lra]. }
  intros a b Ha Hb. destruct (Rtotal_order a b) as [Lt|[Eq|Gt]].
  - rewrite Rabs_minus_sym, (Rabs_minus_sym a b). apply L; assumption.
  - subst. unfold Rminus. rewrite !Rplus_opp_r, Rabs_R0. lra.
  - apply L; assumption.
Qed.
Lemma hermite_bounds w t : 0 <= t <= 1 -> Rabs (hermite' w t) <= 15 / 8 /\ Rabs (hermite'' w t) <= 6.
Proof.
  intro T. destruct w; [destruct (motion_bounds t T) as (_ & H1 & H2); split; [rewrite Rabs_right|]; lra|destruct (derivative_bounds WVelocityOrig t ltac:(discriminate) T)|destruct (derivative_bounds WVelocityDest t ltac:(discriminate) T)
    |destruct (derivative_bounds WAccelerationOrig t ltac:(discriminate) T)|destruct (derivative_bounds WAccelerationDest t ltac:(discriminate) T)]; lra.
Qed.
Lemma hermite_shift w a b : 0 <= a <= 1 -> 0 <= b <= 1 -> Rabs (hermite w a - hermite w b) <= 15 / 8 * Rabs (a - b) /\ Rabs (hermite' w a - hermite' w b) <= 6 * Rabs (a - b) /\ Rabs (hermite'' w a - hermite'' w b) <= 60 * Rabs (a - b).
Proof.
  intros A B. split; [apply (mean_value (hermite w) (hermite' w)); try assumption; intros; [apply hermite_derivatives|apply hermite_bounds; assumption]|].
  split; [apply (mean_value (hermite' w) (hermite'' w)); try assumption; intros; [apply hermite_derivatives|apply hermite_bounds; assumption]|].
  assert (Q : exists q, hermite'' w a - hermite'' w b = q * (a - b) /\ Rabs q <= 60).
  { assert (0 <= a * a <= 1) by (split; [apply Rmult_le_pos; lra|replace 1 with (1 * 1) by ring; apply Rmult_le_compat; lra]). assert (0 <= b * b <= 1) by (split; [apply Rmult_le_pos; lra|replace 1 with (1 * 1) by ring; apply Rmult_le_compat; lra]). assert (0 <= a * b <= 1) by (split; [apply Rmult_le_pos; lra|replace 1 with (1 * 1) by ring; apply Rmult_le_compat; lra]).
    pose proof (pow2_ge_0 (a - b)). pose proof (pow2_ge_0 (a + b - 1)). assert (0 <= a * (1 - a)) by (apply Rmult_le_pos; lra). assert (0 <= b * (1 - b)) by (apply Rmult_le_pos; lra). assert (0 <= (1 - a) * (1 - b)) by (apply Rmult_le_pos; lra). assert (0 <= a * (1 - b)) by (apply Rmult_le_pos; lra). assert (0 <= b * (1 - a)) by (apply Rmult_le_pos; lra).
    destruct w; cbn [hermite''].
    - exists (60 - 180 * (a + b) + 120 * (a * a + a * b + b * b)). split; [ring|apply Rabs_le; split; nra].
    - exists (- 36 + 96 * (a + b) - 60 * (a * a + a * b + b * b)). split; [ring|apply Rabs_le; split; nra].
    - exists (- 24 + 84 * (a + b) - 60 * (a * a + a * b + b * b)). split; [ring|apply Rabs_le; split; nra].
    - exists (- 9 + 18 * (a + b) - 10 * (a * a + a * b + b * b)). split; [ring|apply Rabs_le; split; nra].
    - exists (3 - 12 * (a + b) + 10 * (a * a + a * b + b * b)). split; [ring|apply Rabs_le; split; nra]. }
  destruct Q as (q & -> & Q). rewrite Rabs_mult. apply Rmult_le_compat_r; [apply Rabs_pos|exact Q].
Qed.
(** A stored normalised time that stands for [s]. *)
Definition near_time (t : f64) (s : R) : Prop := finite t /\ 0 <= val t <= 1 /\ 0 <= s <= 1 /\ Rabs (val t - s) <= 6 * u.
Lemma accuracy_at w t s : near_time t s -> let c := computed w t in finite (f_a c) /\ finite (f_da c) /\ finite (f_d2a c) /\
  Rabs (val (f_a c) - hermite w s) <= 524 * u /\ Rabs (val (f_da c) - hermite' w s) <= 1060 * u /\ Rabs (val (f_d2a c) - hermite'' w s) <= 2408 * u.
Proof.
  intros (F & T & S & D). cbv zeta. destruct (accuracy w t F T) as (F0 & F1 & F2 & D0 & D1 & D2). destruct powers_u as (P0 & P1 & P2). rewrite P0 in D0. rewrite P1 in D1. rewrite P2 in D2. destruct (hermite_shift w (val t) s T S) as (H0 & H1 & H2). pose proof u_pos.
  split; [exact F0|]. split; [exact F1|]. split; [exact F2|]. split; [|split].
  - replace (val (f_a (computed w t)) - hermite w s) with (val (f_a (computed w t)) - hermite w (val t) + (hermite w (val t) - hermite w s)) by ring. eapply Rle_trans; [apply Rabs_triang|]. lra.
  - replace (val (f_da (computed w t)) - hermite' w s) with (val (f_da (computed w t)) - hermite' w (val t) + (hermite' w (val t) - hermite' w s)) by ring. eapply Rle_trans; [apply Rabs_triang|]. lra.
  - replace (val (f_d2a (computed w t)) - hermite'' w s) with (val (f_d2a (computed w t)) - hermite'' w (val t) + (hermite'' w (val t) - hermite'' w s)) by ring. eapply Rle_trans; [apply Rabs_triang|]. lra.
Qed.
(** One factor, whatever its polynomial. *)
Lemma factor_near w t s v v0 e L B0 B1 B2 m x : near_time t s -> vfinite v -> norm (vsub (vval v) v0) <= e -> norm (vval v) <= L -> L <= 2 ^ 400 ->
  Rabs (hermite w s) <= B0 -> Rabs (hermite' w s) <= B1 -> Rabs (hermite'' w s) <= B2 -> B0 <= 100 -> B1 <= 100 -> B2 <= 100 ->
  fso3_exp (fscale (f_a (computed w t)) v) m -> turn_part w v0 s x ->
  jet_within ((51 + 4 * ((B0 + 524 * u) * L + u * ((B0 + 524 * u) * L) + 2 * h)) * u + 14143 / 10000 * (u * ((B0 + 524 * u) * L) + 2 * h + 524 * u * L + B0 * e))
    (u * ((B1 + 1060 * u) * L) + 2 * h + 1060 * u * L + B1 * e) (u * ((B2 + 2408 * u) * L) + 2 * h + 2408 * u * L + B2 * e)
    (FJ m (fscale (f_da (computed w t)) v) (fscale (f_d2a (computed w t)) v)) x /\ norm (vel x) <= B1 * norm v0 /\ norm (acc x) <= B2 * norm v0.
Proof.
  intros Ft Fv E NL BL H0 H1 H2 HB0 HB1 HB2 M (R & V & A). pose proof u_pos as Up. pose proof h_pos as Hp. pose proof h_small_u as Hs. assert (Us : 3000 * u <= 1) by (rewrite u_num; lra).
  destruct (accuracy_at w t s Ft) as (F0 & F1 & F2 & D0 & D1 & D2).
  assert (B9 : 2 ^ 400 <= 2 ^ 900) by (apply Rle_pow; [lra|lia]). assert (B10 : 1000 <= 2 ^ 10) by lra.
  destruct (scaled_by _ _ v v0 _ B0 e L F0 Fv D0 H0 ltac:(lra) E NL ltac:(lra)) as (G0 & X0 & _ & N0).
  destruct (scaled_by _ _ v v0 _ B1 e L F1 Fv D1 H1 ltac:(lra) E NL ltac:(lra)) as (G1 & X1 & Y1 & _).
  destruct (scaled_by _ _ v v0 _ B2 e L F2 Fv D2 H2 ltac:(lra) E NL ltac:(lra)) as (G2 & X2 & Y2 & _).
  unfold jet_within. cbn [jf jd jd2]. rewrite V, A. split; [|split; assumption]. split; [|split; split; assumption].
  assert (L0 : 0 <= L) by (pose proof (norm_nonneg (vval v)); lra). assert (BB : 0 <= B0) by (pose proof (Rabs_pos (hermite w s)); lra).
  apply (turned_by _ (vscale (hermite w s) v0) _ _ _ _ G0 N0); [|exact X0|exact R|exact M].
  assert (Q : (B0 + 524 * u) * L <= 200 * 2 ^ 400) by (apply Rmult_le_compat; lra). assert (Q0 : 0 <= (B0 + 524 * u) * L) by (apply Rmult_le_pos; lra). assert (u * ((B0 + 524 * u) * L) <= 1 * ((B0 + 524 * u) * L)) by (apply Rmult_le_compat_r; lra).
  assert (G : 1000 * 2 ^ 400 <= 2 ^ 490). { replace 490%nat with (90 + 400)%nat by lia. rewrite pow_add. apply Rmult_le_compat_r; [apply pow_le; lra|]. apply Rle_trans with (2 ^ 10); [lra|apply Rle_pow; [lra|lia]]. }
  assert (1 <= 2 ^ 400) by (apply pow_R1_Rle; lra). lra.
Qed.
(** ** The two kinds of factors *)
Section Segment.
Variables (e M : R).
Hypothesis (E0 : 0 <= e) (M0 : 0 <= M).
Let K := 1 + M.
Let X := K * (e + 100 * u).
Hypothesis small : X <= / 10 ^ 5.
Lemma X_units : units X K.
Proof. pose proof u_pos. unfold units. split; [unfold K; lra|]. split; [|exact small]. unfold X, K. apply Rmult_le_compat_l; lra. Qed.
Lemma X_parts : X = e + 100 * u + e * M + 100 * (u * M) /\ 0 <= e * M /\ 0 <= u * M /\ 0 < u.
Proof. pose proof u_pos. split; [unfold X, K; ring|]. repeat split; try lra; apply Rmult_le_pos; lra. Qed.
Lemma grow : 1 <= K /\ 1 <= K * K /\ X <= X * K /\ X <= X * (K * K) /\ K <= K * K.
Proof.
  assert (1 <= K) by (unfold K; lra). assert (1 * K <= K * K) by (apply Rmult_le_compat_r; lra). destruct (units_big X K X_units) as (_ & X0 & _).
  assert (X * 1 <= X * K) by (apply Rmult_le_compat_l; lra). assert (X * 1 <= X * (K * K)) by (apply Rmult_le_compat_l; lra). repeat split; lra.
Qed.
Lemma motion_near t s v w m x : near_time t s -> vfinite v -> norm w <= 3 -> norm (vsub (vval v) w) <= 307 / 10 * e + 351 * u ->
  fso3_exp (fscale (f_a (computed WMotion t)) v) m -> turn_part WMotion w s x ->
  jet_near X K 44 58 (57 / 10) 185 18 (FJ m (fscale (f_da (computed WMotion t)) v) (fscale (f_d2a (computed WMotion t)) v)) x.
Proof.
  intros Ft Fv Nw D Mx T. destruct X_parts as (XE & eM & uM & Up). destruct grow as (K1 & KK & XK & XKK & KKK). pose proof h_small_u as Hs. pose proof h_pos as Hp. assert (Us : 10000 * u <= / 10 ^ 6) by (rewrite u_num; lra).
  assert (e5 : e <= / 10 ^ 5) by lra.
  assert (NL : norm (vval v) <= 301 / 100) by (pose proof (norm_near (vval v) w); lra).
  destruct (motion_bounds s (proj1 (proj2 (proj2 Ft)))) as (H0 & H1 & H2).
  destruct (factor_near WMotion t s v w (307 / 10 * e + 351 * u) (301 / 100) 1 (15 / 8) 6 m x Ft Fv D NL ltac:(apply Rle_trans with (2 ^ 2); [lra|apply Rle_pow; [lra|lia]]) ltac:(rewrite Rabs_right; lra) ltac:(rewrite Rabs_right; lra) H2 ltac:(lra) ltac:(lra) ltac:(lra) Mx T)
    as (((Fm & R & Dm) & (F1 & D1) & (F2 & D2)) & N1 & N2).
  cbn [fst snd jf jd jd2] in *. assert (uu : u * u <= / 10 ^ 6 * u) by (apply Rmult_le_compat_r; lra). assert (uuu : u * (u * u) <= / 10 ^ 6 * u) by (assert (u * (u * u) <= 1 * (u * u)) by (apply Rmult_le_compat_r; [apply Rmult_le_pos|]; lra); lra).
  assert (hu : h * u <= 1 * u) by (apply Rmult_le_compat_r; lra). assert (0 <= u * u) by (apply Rmult_le_pos; lra).
  split; [split; [split; [exact Fm|split; [exact R|]]|split; split; [exact F1| |exact F2|]]|split]; cbn [fst snd jf jd jd2]; lra.
Qed.
Lemma derivative_near wt t s v v0 m x : wt <> WMotion -> near_time t s -> vfinite v -> norm v0 <= M -> norm (vsub (vval v) v0) <= e * M ->
  fso3_exp (fscale (f_a (computed wt t)) v) m -> turn_part wt v0 s x ->
  jet_near X K 8 (107 / 10) 1 (243 / 10) 4 (FJ m (fscale (f_da (computed wt t)) v) (fscale (f_d2a (computed wt t)) v)) x.
Proof.
  intros W Ft Fv Nw D Mx T. destruct X_parts as (XE & eM & uM & Up). destruct grow as (K1 & KK & XK & XKK & KKK). pose proof h_small_u as Hs. pose proof h_pos as Hp. assert (Us : 10000 * u <= / 10 ^ 6) by (rewrite u_num; lra).
  assert (e5 : e <= / 10 ^ 5) by lra. assert (eM5 : e * M <= / 10 ^ 5 * M) by (apply Rmult_le_compat_r; lra).
  set (L := 1001 / 1000 * M). assert (NL : norm (vval v) <= L) by (unfold L; pose proof (norm_near (vval v) v0); lra).
  destruct (units_big X K X_units) as (K9 & _). destruct (derivative_bounds wt s W (proj1 (proj2 (proj2 Ft)))) as (H0 & H1 & H2).
  assert (BL : L <= 2 ^ 400). { apply Rle_trans with (2 ^ 40); [unfold L, K in *; lra|apply Rle_pow; [lra|lia]]. }
  destruct (factor_near wt t s v v0 (e * M) L (1 / 4) 1 4 m x Ft Fv D NL BL H0 H1 H2 ltac:(lra) ltac:(lra) ltac:(lra) Mx T) as (((Fm & R & Dm) & (F1 & D1) & (F2 & D2)) & N1 & N2).
  cbn [fst snd jf jd jd2] in *. unfold L in *. assert (uu : u * (u * M) <= / 10 ^ 6 * (u * M)) by (apply Rmult_le_compat_r; lra). assert (uuu : u * (u * (u * M)) <= / 10 ^ 6 * (u * M)) by (assert (u * (u * (u * M)) <= 1 * (u * (u * M))) by (apply Rmult_le_compat_r; [apply Rmult_le_pos|]; lra); lra).
  assert (hu : h * u <= 1 * u) by (apply Rmult_le_compat_r; lra). assert (0 <= u * (u * M)) by (apply Rmult_le_pos; lra). assert (MK : M <= K) by (unfold K; lra).
  split; [split; [split; [exact Fm|split; [exact R|]]|split; split; [exact F1| |exact F2|]]|split]; cbn [fst snd jf jd jd2]; lra.
Qed.
Lemma identity_near : jet_near X K 0 0 0 0 0 fjet_identity (State mid vzero vzero).
Proof.
  assert (Z : val (of_int 0) = 0) by (apply (of_small 0); apply Z.leb_le; reflexivity). assert (ZF : finite (of_int 0)) by (apply (of_small 0); apply Z.leb_le; reflexivity).
  assert (I : val (of_int 1) = 1) by (apply (of_small 1); apply Z.leb_le; reflexivity). assert (IF : finite (of_int 1)) by (apply (of_small 1); apply Z.leb_le; reflexivity).
  assert (MV : mval fmid = mid) by (unfold mval, fmid, mid; cbn [f00 f01 f02 f10 f11 f12 f20 f21 f22]; rewrite Z, I; reflexivity).
  assert (VV : vval fvzero = vzero) by (unfold vval, fvzero, vzero; cbn [fx fy fz]; rewrite Z; reflexivity).
  assert (NZ : norm vzero = 0) by (unfold norm, norm2, dot, vzero; cbn [vx vy vz]; replace (0 * 0 + 0 * 0 + 0 * 0) with 0 by ring; apply sqrt_0).
  assert (NN : norm (vsub vzero vzero) = 0) by (replace (vsub vzero vzero) with vzero by (unfold vsub, vzero; cbn [vx vy vz]; f_equal; ring); exact NZ).
  split; [split; [split; [|split]|split; split]|split]; cbn [fst snd jf jd jd2 rot vel acc fjet_identity]; rewrite ?VV, ?NN, ?NZ, ?MV; try lra.
  - unfold mfinite, fmid; cbn [f00 f01 f02 f10 f11 f12 f20 f21 f22]; repeat split; assumption.
  - apply rot_mid.
  - assert (apart mid mid = 0) as -> by (unfold apart, size, madd, mscale, mid; cbn [m00 m01 m02 m10 m11 m12 m20 m21 m22]; rewrite <- sqrt_0; f_equal; ring). lra.
  - repeat split; exact ZF.
  - repeat split; exact ZF.
Qed.
Lemma on_identity x : on_top x (State mid vzero vzero) = x.
Proof.
  destruct x as [r v a]. unfold on_top. cbn [rot vel acc]. f_equal.
  - apply mmul_1_r.
  - destruct v as [v1 v2 v3]. unfold vadd, mvec, vzero. cbn [vx vy vz]. f_equal; ring.
  - destruct v as [v1 v2 v3], a as [a1 a2 a3]. unfold vadd, mvec, vzero, cross. cbn [vx vy vz]. f_equal; ring.
Qed.
Lemma segment_near orig dest fo fd t s f p : end_near e M fo orig -> end_near e M fd dest -> near_time t s -> fsegment_point_at fo fd t f -> between orig dest s p ->
  jet_within (79 * X) (340 * (X * K)) (2560 * (X * (K * K))) f p /\ norm (vel p) <= 97 / 10 * K /\ norm (acc p) <= 628 / 10 * (K * K).
Proof.
  intros ((SO & (FO1 & DO1) & (FO2 & DO2)) & NO1 & NO2) ((SD & (FD1 & DD1) & (FD2 & DD2)) & ND1 & ND2) Ft (c & alg & p1 & p2 & p3 & p4 & p5 & MC & LG & A1 & A2 & A3 & A4 & A5 & ME & EV & EA) (w & x1 & x2 & x3 & x4 & x5 & RW & NW & T1 & T2 & T3 & T4 & T5 & ->).
  destruct X_parts as (XE & eM & uM & Up). pose proof X_units as U. destruct grow as (K1 & KK & XK & XKK & KKK). destruct (units_big X K U) as (K9 & X0 & Xu & Xh). assert (Us : 10000 * u <= / 10 ^ 6) by (rewrite u_num; lra). assert (e5 : e <= / 10 ^ 5) by lra.
  assert (ST : stands_for e (fmtrans (jf fo), mtrans (rot orig))).
  { destruct SO as (Fm & R & D). cbn [fst snd] in *. split; [|split; [apply rot_mtrans; exact R|]]; cbn [fst snd].
    - unfold mfinite, fmtrans in *. cbn [f00 f01 f02 f10 f11 f12 f20 f21 f22]. tauto.
    - change (mval (fmtrans (jf fo))) with (mtrans (mval (jf fo))). rewrite apart_mtrans. exact D. }
  pose proof (product_near _ _ _ _ _ _ c SD ST ltac:(lra) ltac:(lra) MC) as SC.
  assert (ee : e * e <= / 10 ^ 5 * e) by (apply Rmult_le_compat_r; lra).
  pose proof (log_recovers c _ _ alg w SC ltac:(lra) LG RW NW) as DL. destruct (log_near c _ _ alg SC ltac:(lra) LG) as (FL & _ & _).
  assert (DL' : norm (vsub (vval alg) w) <= 307 / 10 * e + 351 * u) by lra.
  clear DL. rename DL' into DL.
  destruct A1 as (m1 & M1 & J1). destruct A2 as (m2 & M2 & J2). destruct A3 as (m3 & M3 & J3). destruct A4 as (m4 & M4 & J4). destruct A5 as (m5 & M5 & J5).
  pose proof (motion_near t s alg w m1 x1 Ft FL NW DL M1 T1) as I1.
  pose proof (derivative_near WVelocityOrig t s _ _ m2 x2 ltac:(discriminate) Ft FO1 NO1 DO1 M2 T2) as I2.
  pose proof (derivative_near WVelocityDest t s _ _ m3 x3 ltac:(discriminate) Ft FD1 ND1 DD1 M3 T3) as I3.
  pose proof (derivative_near WAccelerationOrig t s _ _ m4 x4 ltac:(discriminate) Ft FO2 NO2 DO2 M4 T4) as I4.
  pose proof (derivative_near WAccelerationDest t s _ _ m5 x5 ltac:(discriminate) Ft FD2 ND2 DD2 M5 T5) as I5.
  pose proof (jet_mul_near X K 44 58 (57 / 10) 185 18 0 0 0 0 0 _ _ _ _ p1 U ltac:(lra) ltac:(unfold some_units; lra) ltac:(unfold some_units; lra) ltac:(unfold some_units; lra) ltac:(unfold some_units; lra) ltac:(lra) ltac:(unfold some_units; lra) ltac:(unfold some_units; lra) ltac:(unfold some_units; lra) ltac:(unfold some_units; lra) I1 identity_near J1) as Q1.
  cbv zeta in Q1. rewrite on_identity in Q1. assert (Q1' : jet_near X K (442 / 10) 59 (57 / 10) 186 18 p1 x1) by (eapply jet_near_le; [exact U|..|exact Q1]; lra). clear Q1. rename Q1' into Q1.
  pose proof (jet_mul_near X K 8 (107 / 10) 1 (243 / 10) 4 (442 / 10) 59 (57 / 10) 186 18 _ _ _ _ p2 U ltac:(lra) ltac:(unfold some_units; lra) ltac:(unfold some_units; lra) ltac:(unfold some_units; lra) ltac:(unfold some_units; lra) ltac:(lra) ltac:(unfold some_units; lra) ltac:(unfold some_units; lra) ltac:(unfold some_units; lra) ltac:(unfold some_units; lra) I2 Q1 J2) as Q2.
  cbv zeta in Q2. assert (Q2' : jet_near X K (524 / 10) 117 (67 / 10) 524 (277 / 10) p2 (on_top x2 x1)) by (eapply jet_near_le; [exact U|..|exact Q2]; lra). clear Q2. rename Q2' into Q2.
  pose proof (jet_mul_near X K 8 (107 / 10) 1 (243 / 10) 4 (524 / 10) 117 (67 / 10) 524 (277 / 10) _ _ _ _ p3 U ltac:(lra) ltac:(unfold some_units; lra) ltac:(unfold some_units; lra) ltac:(unfold some_units; lra) ltac:(unfold some_units; lra) ltac:(lra) ltac:(unfold some_units; lra) ltac:(unfold some_units; lra) ltac:(unfold some_units; lra) ltac:(unfold some_units; lra) I3 Q2 J3) as Q3.
  cbv zeta in Q3. assert (Q3' : jet_near X K (606 / 10) 183 (77 / 10) 1022 (384 / 10) p3 (on_top x3 (on_top x2 x1))) by (eapply jet_near_le; [exact U|..|exact Q3]; lra). clear Q3. rename Q3' into Q3.
  pose proof (jet_mul_near X K 8 (107 / 10) 1 (243 / 10) 4 (606 / 10) 183 (77 / 10) 1022 (384 / 10) _ _ _ _ p4 U ltac:(lra) ltac:(unfold some_units; lra) ltac:(unfold some_units; lra) ltac:(unfold some_units; lra) ltac:(unfold some_units; lra) ltac:(lra) ltac:(unfold some_units; lra) ltac:(unfold some_units; lra) ltac:(unfold some_units; lra) ltac:(unfold some_units; lra) I4 Q3 J4) as Q4.
  cbv zeta in Q4. assert (Q4' : jet_near X K (688 / 10) 257 (87 / 10) 1696 (501 / 10) p4 (on_top x4 (on_top x3 (on_top x2 x1)))) by (eapply jet_near_le; [exact U|..|exact Q4]; lra). clear Q4. rename Q4' into Q4.
  pose proof (jet_mul_near X K 8 (107 / 10) 1 (243 / 10) 4 (688 / 10) 257 (87 / 10) 1696 (501 / 10) _ _ _ _ p5 U ltac:(lra) ltac:(unfold some_units; lra) ltac:(unfold some_units; lra) ltac:(unfold some_units; lra) ltac:(unfold some_units; lra) ltac:(lra) ltac:(unfold some_units; lra) ltac:(unfold some_units; lra) ltac:(unfold some_units; lra) ltac:(unfold some_units; lra) I5 Q4 J5) as Q5.
  cbv zeta in Q5. assert (Q5' : jet_near X K 77 340 (97 / 10) 2560 (628 / 10) p5 (on_top x5 (on_top x4 (on_top x3 (on_top x2 x1))))) by (eapply jet_near_le; [exact U|..|exact Q5]; lra). clear Q5. rename Q5' into Q5.
  clear Q1 Q2 Q3 Q4 I1 I2 I3 I4 I5. destruct Q5 as ((S5 & V5 & C5) & NV & NC). cbv zeta. set (q := on_top x5 _) in *. cbn [vel acc rot].
  split; [|split; assumption]. split; [|split; cbn [vel acc]; [rewrite EV; exact V5|rewrite EA; exact C5]].
  cbn [rot]. destruct (product_near _ _ _ _ _ _ (jf f) S5 SO ltac:(lra) ltac:(lra) ME) as (Ff & Rf & Df). split; [exact Ff|]. split; [exact Rf|]. cbn [fst snd] in *.
  assert (X * e <= X * / 10 ^ 5) by (apply Rmult_le_compat_l; lra). lra.
Qed.
End Segment.
