(** Proofs about SO3::log in double precision. *)
From Coq Require Import Psatz.
From Flocq Require Import Core BinarySingleNaN.
From Verif Require Import Cpp FloatModel FloatSpec FloatProofs NrmSpec NrmProofs Vec RotSpec RotProofs CoeffProofs DriftModel DriftSpec DriftProofs DriftProofs2 SpinModel SpinSpec SpinProofs SpinProofs2 SpinProofs3 TlogModel TlogSpec TlogProofs TlogProofs2 TlogProofs3.
Local Open Scope R_scope.

Lemma atan2_scale n w k : 0 < k -> GeomModel.atan2 (k * n) (k * w) = GeomModel.atan2 n w.
Proof.
  intro K. assert (S : forall a, (0 < k * a <-> 0 < a) /\ (k * a < 0 <-> a < 0) /\ (0 <= k * a <-> 0 <= a)) by (intro a; repeat split; nra).
  assert (D : w <> 0 -> k * n / (k * w) = n / w) by (intro; field; lra). unfold GeomModel.atan2.
  destruct (S w) as (W1 & W2 & _), (S n) as (N1 & N2 & N3).
  repeat match goal with |- context [if ?c then _ else _] => destruct c end; try reflexivity; try (rewrite D by lra; reflexivity); exfalso; tauto.
Qed.
Lemma atan2_any n w : 0 < n -> 0 <= w -> let A := GeomModel.atan2 n w in let s := sqrt (n * n + w * w) in
  0 < s /\ s * s = n * n + w * w /\ 0 < A <= PI / 2 /\ s * cos A = w /\ s * sin A = n.
Proof.
  intros N W A s. assert (P : 0 < n * n + w * w) by nra. assert (S : 0 < s) by (apply sqrt_lt_R0, P). assert (SS : s * s = n * n + w * w) by (apply sqrt_sqrt; lra).
  split; [exact S|]. split; [exact SS|]. assert (I : 0 < / s) by (apply Rinv_0_lt_compat, S).
  destruct (atan2_spec (/ s * n) (/ s * w)) as (B & C & D); [nra|nra| |].
  { replace (/ s * n * (/ s * n) + / s * w * (/ s * w)) with (/ s * / s * (n * n + w * w)) by ring. rewrite <- SS. field. lra. }
  rewrite atan2_scale in B, C, D by exact I. fold A in B, C, D. split; [exact B|]. rewrite C, D. split; field; lra.
Qed.
Lemma PI_bounds : 3 < PI < 3142 / 1000.
Proof.
  split; [exact three_lt_PI|]. destruct (Rlt_or_le PI (3142 / 1000)) as [|C]; [assumption|]. exfalso.
  assert (B : 0 <= 1571 / 1000 <= 2) by lra. destruct (cos_bounds _ B) as [_ H]. unfold cos6 in H.
  pose proof PI_4. assert (0 <= cos (1571 / 1000)) by (apply cos_ge_0; lra). lra.
Qed.
Lemma fepsilon_val : finite fepsilon /\ val fepsilon = 2 * u.
Proof.
  destruct of_int_1 as [F1 V1]. destruct (of_small (2 ^ 52)) as [F2 V2]; [cbn; lia|].
  assert (E : val (of_int 1) / val (of_int (2 ^ 52)) = bpow radix2 (-52)). { rewrite V1, V2. change (bpow radix2 (-52)) with (/ 4503599627370496). change (2 ^ 52)%Z with 4503599627370496%Z. lra. }
  destruct (fdiv_val (of_int 1) (of_int (2 ^ 52)) F1) as [F V].
  - rewrite V2. change (2 ^ 52)%Z with 4503599627370496%Z. lra.
  - rewrite E. apply pow_1023_big. rewrite Rabs_right; [|apply Rle_ge, bpow_ge_0]. apply Rle_trans with 1; [apply (bpow_le radix2 (-52) 0); lia|apply pow_R1_Rle; lra].
  - split; [exact F|]. unfold fepsilon. rewrite V, E, rd_id; [|apply fmt_bpow; lia]. change (bpow radix2 (-52)) with (/ 4503599627370496). rewrite u_num. lra.
Qed.
Lemma fabs_val x : val (fabs x) = Rabs (val x).
Proof. apply B2R_Babs. Qed.
Lemma fabs_finite x : finite x -> finite (fabs x).
Proof. unfold finite, fabs. rewrite is_finite_Babs. auto. Qed.
Lemma feq_zero n : finite n -> (feq n (of_int 0) = true <-> val n = 0).
Proof.
  intro F. destruct of_int_0 as [F0 V0]. unfold feq. rewrite (Beqb_correct 53 1024 n (of_int 0) F F0). fold (val n). fold (val (of_int 0)). rewrite V0. split; [intro H; destruct (Req_bool_spec (val n) 0); [assumption|discriminate]|intros ->; apply Req_bool_true; reflexivity].
Qed.

(** ** The quaternion's angle and axis *)
Section Angle.
  Variables (q : fquat) (w : R) (p : vec3) (E : R).
  Hypothesis Fq : qfinite q.
  Hypothesis U : w * w + dot p p = 1.
  Hypothesis O : qoff q w p <= E.
  Hypothesis HE : E <= / 500.
  Let V := vval (fquat_vec q).
  Let W := val (qfw q).
  Lemma off_sq : (W - w) ^ 2 + norm2 (vsub V p) <= E ^ 2 /\ 0 <= E.
  Proof.
    assert (P : 0 <= E) by (eapply Rle_trans; [apply sqrt_pos|exact O]). split; [|exact P]. unfold qoff in O. apply norm4_abs in O; [|exact P]. eapply Rle_trans; [|exact O].
    right. unfold W, V, norm2, dot, vsub, vval, fquat_vec. cbn [vx vy vz fx fy fz]. ring.
  Qed.
  Lemma p_bound : norm p <= 1 /\ Rabs w <= 1.
  Proof.
    split; [apply norm_le_sqr; [lra|]; change (dot p p <= 1 * 1); nra|]. assert (0 <= dot p p) by apply norm2_nonneg. apply Rabs_le. nra.
  Qed.
  Lemma V_near : norm (vsub V p) <= E /\ norm V <= 1002 / 1000 /\ Rabs (W - w) <= E.
  Proof.
    destruct off_sq as [S P]. assert (A : norm (vsub V p) <= E). { apply norm_le_sqr; [exact P|]. pose proof (pow2_ge_0 (W - w)). lra. } split; [exact A|].
    split; [pose proof (norm_near V p); destruct p_bound; lra|]. apply abs_one; [|exact P]. pose proof (norm2_nonneg (vsub V p)). lra.
  Qed.
  Lemma V_finite : vfinite (fquat_vec q).
  Proof. destruct Fq as (_ & X & Y & Z). repeat split; assumption. Qed.
  Lemma pow_490_2 : 1002 / 1000 <= 2 ^ 490.
  Proof. pose proof pow_490. lra. Qed.

  Lemma entry_signed (neg : bool) x n L : finite x -> finite n -> 0 < L -> Rabs (val n - L) <= 255 / 100 * u * L -> Rabs (val x) <= L ->
    finite (fdivide x (if neg then fneg n else n)) /\
    Rabs (val (fdivide x (if neg then fneg n else n)) - (if neg then -1 else 1) * (val x / L)) <= 357 / 100 * u * Rabs (val x / L) + h.
  Proof.
    intros Fx Fn P R B. destruct (entry_normalized x n L Fx Fn P R B) as [F D]. destruct neg; [|rewrite Rmult_1_l; split; assumption].
    pose proof u_pos as Up. pose proof u_small as Us. assert (Q : 9999 / 10000 * L <= val n) by (apply Rabs_le_inv in R; nra). assert (n0 : 0 < val n) by nra.
    assert (L1 : Rabs (val x / val n) <= 2). { unfold Rdiv. rewrite Rabs_mult, Rabs_inv, (Rabs_right (val n)) by lra. apply Rmult_le_reg_r with (val n); [exact n0|]. rewrite Rmult_assoc, Rinv_l by lra. lra. }
    assert (NO : ~ overflows (val x / val n)) by (apply pow_1023_big; eapply Rle_trans; [exact L1|]; apply Rle_trans with (2 ^ 1); [lra|apply Rle_pow; [lra|lia]]).
    destruct (fdiv_val x n Fx ltac:(lra) NO) as [_ V1].
    assert (Eo : val x / val (fneg n) = - (val x / val n)) by (rewrite fneg_val; field; lra).
    destruct (fdiv_val x (fneg n) Fx) as [F2 V2]; [rewrite fneg_val; lra| |].
    { rewrite Eo. unfold overflows in *. rewrite rd_opp, Rabs_Ropp. exact NO. }
    split; [exact F2|]. rewrite V2, Eo, rd_opp, <- V1. replace (- val (fdivide x n) - -1 * (val x / L)) with (- (val (fdivide x n) - val x / L)) by ring. rewrite Rabs_Ropp. exact D.
  Qed.
  (** The exact vector: twice the angle of [n] over [W], along the computed vector part. *)
  Definition sign_of (neg : bool) : R := if neg then -1 else 1.
  Lemma flt_sign x : finite x -> sign_of (flt x (of_int 0)) * Rabs (val x) = val x.
  Proof.
    intro F. destruct of_int_0 as [F0 V0]. destruct (flt x (of_int 0)) eqn:L; unfold sign_of.
    - apply flt_val in L; [|assumption..]. rewrite V0 in L. rewrite Rabs_left by exact L. ring.
    - rewrite Rabs_right; [ring|]. apply Rle_ge. destruct (Rle_or_lt 0 (val x)) as [|C]; [assumption|]. rewrite <- V0 in C. apply flt_val in C; [congruence|assumption..].
  Qed.
  Lemma main_angle n axis a v : finite n -> / 2 ^ 500 <= norm V -> Rabs (val n - norm V) <= 255 / 100 * u * norm V -> 2 * u <= val n ->
    fatan2 n (fabs (qfw q)) a ->
    (let k := if flt (qfw q) (of_int 0) then fneg n else n in axis = FV (fdivide (qfx q) k) (fdivide (qfy q) k) (fdivide (qfz q) k)) ->
    v = FV (fmul (fx axis) (fmul (of_int 2) a)) (fmul (fy axis) (fmul (of_int 2) a)) (fmul (fz axis) (fmul (of_int 2) a)) ->
    vfinite v /\ exists t, 0 <= norm t <= PI /\ norm (vsub (vval v) t) <= 67 / 10 * u * norm t /\
      apart (quaternion_matrix (hw t) (hp t)) (quaternion_matrix w p) <= 283 / 100 * (E + 26 / 10 * u).
  Proof.
    intros Fn Big Rn N2 At Ax ->. pose proof u_pos as Up. pose proof h_pos as Hp. assert (Us : 1000 * u <= / 1000) by (rewrite u_num; lra). destruct (not_tiny _ Big) as [_ NP]. destruct V_near as (VP & VB & WB).
    destruct Fq as (Fw & Fqx & Fqy & Fqz). set (neg := flt (qfw q) (of_int 0)) in *. cbv zeta in Ax.
    set (N := norm V) in *. unfold fatan2 in At. fold (finite n) in At.
    assert (FF : (is_finite n && is_finite (fabs (qfw q)))%bool = true) by (rewrite (fabs_finite _ Fw); unfold finite in Fn; rewrite Fn; reflexivity).
    specialize (At FF). cbv zeta in At. fold (val n) (val (fabs (qfw q))) in At. rewrite fabs_val in At. fold W in At.
    destruct (atan2_any (val n) (Rabs W) ltac:(lra) (Rabs_pos _)) as (S0 & SS & AB & CA & SA). set (A := GeomModel.atan2 (val n) (Rabs W)) in *. set (s := sqrt _) in *.
    destruct At as [Fa Ea]. change (is_finite a = true) with (finite a) in Fa. fold (val a) in Ea. pose proof (ulp_bound A) as Ub. rewrite (Rabs_right A) in Ub by lra. pose proof PI_bounds as PB.
    assert (Da : Rabs (val a - A) <= 2 * u * A + 2 * h) by lra.
    (* the angle is not tiny *)
    assert (Alow : 2 * u / 2 <= A).
    { assert (s <= 15 / 10). { apply Rsqr_incr_0_var; [|lra]. unfold Rsqr. rewrite SS. destruct p_bound as [_ w1]. assert (Rabs W <= 101 / 100). { replace W with (w + (W - w)) by ring. eapply Rle_trans; [apply Rabs_triang|]. lra. } pose proof (Rabs_pos W). assert (val n <= 101 / 100) by (apply Rabs_le_inv in Rn; nra). nra. }
      assert (sin A <= A) by (left; apply sin_lt_x; lra). assert (s * sin A <= 15 / 10 * A) by (pose proof (abs_sin A); apply Rle_trans with (s * A); [apply Rmult_le_compat_l; lra|apply Rmult_le_compat_r; lra]). lra. }
    assert (HH : h <= u * u / 100000000).
    { assert (G : h <= bpow radix2 (-140)) by (apply bpow_le; lia). change (bpow radix2 (-140)) with (/ 1393796574908163946345982392040522594123776) in G. rewrite u_num. lra. }
    assert (hA : h <= u * A / 100000000) by (assert (u * u <= u * A) by (apply Rmult_le_compat_l; lra); lra).
    assert (Aval : Rabs (val a) <= 2). { apply Rabs_le_inv in Da. apply Rabs_le. assert (u * A <= u * 2) by (apply Rmult_le_compat_l; lra). lra. }
    destruct (twice_exact a Fa Aval) as [F2 V2]. set (al := fmul (of_int 2) a) in *.
    set (th := 2 * A) in *. assert (T0 : 0 < th <= PI) by (unfold th; lra).
    assert (Dal : Rabs (val al - th) <= 201 / 100 * u * th). { rewrite V2. unfold th. replace (2 * val a - 2 * A) with (2 * (val a - A)) by ring. rewrite Rabs_mult, (Rabs_right 2) by lra. lra. }
    set (g := sign_of neg). assert (GG : g * g = 1) by (unfold g, sign_of; destruct neg; ring). assert (Gabs : Rabs g = 1) by (unfold g, sign_of; destruct neg; [rewrite Rabs_left; lra|rewrite Rabs_right; lra]).
    set (d := vscale g (direction V)). assert (Nd : norm d = 1) by (unfold d; rewrite norm_scale, Gabs, direction_unit by exact NP; ring).
    (* the entries of the axis *)
    destruct (entry_norm V) as (Bx & By & Bz).
    destruct (entry_signed neg (qfx q) n N Fqx Fn NP Rn Bx) as [Fx Dx]. destruct (entry_signed neg (qfy q) n N Fqy Fn NP Rn By) as [Fy Dy]. destruct (entry_signed neg (qfz q) n N Fqz Fn NP Rn Bz) as [Fz Dz].
    fold (sign_of neg) in Dx, Dy, Dz. fold g in Dx, Dy, Dz.
    assert (One : forall x D X, finite x -> finite al -> Rabs (val x - g * (X / N)) <= 357 / 100 * u * Rabs (X / N) + h -> Rabs X <= N -> D = g * (X / N) ->
      finite (fmul x al) /\ Rabs (val (fmul x al) - th * D) <= 66 / 10 * u * th * Rabs D + u / 1000 * th).
    { intros x D X Hx Hal Hd HX ->. assert (Bq : Rabs (X / N) <= 1). { unfold Rdiv. rewrite Rabs_mult, Rabs_inv, (Rabs_right N) by lra. apply Rmult_le_reg_r with N; [exact NP|]. rewrite Rmult_assoc, Rinv_l by lra. lra. }
      rewrite (Rabs_mult g), Gabs, Rmult_1_l. set (y := X / N) in *. pose proof (Rabs_pos y) as y0.
      assert (Hx' : Rabs (val x) <= 1001 / 1000 * Rabs y + h). { replace (val x) with (g * y + (val x - g * y)) by ring. eapply Rle_trans; [apply Rabs_triang|]. rewrite Rabs_mult, Gabs, Rmult_1_l. assert (u * Rabs y <= / 1000000 * Rabs y) by (apply Rmult_le_compat_r; lra). lra. }
      assert (Hal' : Rabs (val al) <= 1001 / 1000 * th). { replace (val al) with (th + (val al - th)) by ring. eapply Rle_trans; [apply Rabs_triang|]. rewrite (Rabs_right th) by lra. assert (u * th <= / 1000000 * th) by (apply Rmult_le_compat_r; lra). lra. }
      assert (Pr : Rabs (val x * val al) <= 1003 / 1000 * (Rabs y * th) + 2 * h * th). { rewrite Rabs_mult. apply Rle_trans with ((1001 / 1000 * Rabs y + h) * (1001 / 1000 * th)); [apply Rmult_le_compat; try apply Rabs_pos; assumption|]. assert (0 <= Rabs y * th) by (apply Rmult_le_pos; lra). assert (0 <= h * th) by (apply Rmult_le_pos; lra). lra. }
      assert (yt : 0 <= Rabs y * th <= PI) by (split; [apply Rmult_le_pos; lra|apply Rle_trans with (1 * PI); [apply Rmult_le_compat; lra|lra]]).
      assert (ht : h * th <= h * PI) by (apply Rmult_le_compat_l; lra). pose proof h_tiny as Ht. assert (h * PI <= h * 4) by (apply Rmult_le_compat_l; lra).
      destruct (mul_error x al Hx Hal) as [Fm Vm]; [eapply Rle_trans; [exact Pr|]; apply Rle_trans with (2 ^ 3); [lra|apply Rle_pow; [lra|lia]]|]. split; [exact Fm|].
      replace (val (fmul x al) - th * (g * y)) with ((val (fmul x al) - val x * val al) + ((val x - g * y) * val al + g * y * (val al - th))) by ring.
      eapply Rle_trans; [apply Rabs_triang|]. eapply Rle_trans; [apply Rplus_le_compat_l, Rabs_triang|]. rewrite !Rabs_mult, Gabs, Rmult_1_l.
      assert (E1 : Rabs (val x - g * y) * Rabs (val al) <= (357 / 100 * u * Rabs y + h) * (1001 / 1000 * th)) by (apply Rmult_le_compat; try apply Rabs_pos; assumption).
      assert (E2 : Rabs y * Rabs (val al - th) <= Rabs y * (201 / 100 * u * th)) by (apply Rmult_le_compat_l; assumption).
      assert (E3 : u * Rabs (val x * val al) <= u * (1003 / 1000 * (Rabs y * th) + 2 * h * th)) by (apply Rmult_le_compat_l; lra).
      set (yth := Rabs y * th) in *. replace ((357 / 100 * u * Rabs y + h) * (1001 / 1000 * th)) with (1001 / 1000 * (357 / 100) * (u * yth) + 1001 / 1000 * (h * th)) in E1 by (unfold yth; ring).
      replace (Rabs y * (201 / 100 * u * th)) with (201 / 100 * (u * yth)) in E2 by (unfold yth; ring). replace (u * (1003 / 1000 * yth + 2 * h * th)) with (1003 / 1000 * (u * yth) + 2 * u * (h * th)) in E3 by ring.
      replace (66 / 10 * u * th * Rabs y) with (66 / 10 * (u * yth)) by (unfold yth; ring).
      assert (h0 : 0 <= h * th) by (apply Rmult_le_pos; lra). assert (uy : 0 <= u * yth) by (apply Rmult_le_pos; lra).
      assert (hA' : h <= u * th / 100000000) by (unfold th; lra). assert (hth : h * th <= u * th / 100000) by (unfold Rdiv; replace (u * th * / 100000) with ((u / 100000) * th) by (unfold Rdiv; ring); apply Rmult_le_compat_r; [lra|]; assert (u * th <= u * 4) by (apply Rmult_le_compat_l; lra); lra).
      assert (u * (h * th) <= h * th) by (apply Rle_trans with (1 * (h * th)); [apply Rmult_le_compat_r; lra|lra]). lra. }
    rewrite Ax. cbn [fx fy fz].
    destruct (One (fdivide (qfx q) (if neg then fneg n else n)) (vx d) _ Fx F2 Dx Bx) as [G0 H0]; [unfold d, direction, vscale; cbn [vx vy vz]; fold N; unfold V at 1; unfold Rdiv; cbn [vval fquat_vec vx vy vz fx fy fz]; ring|].
    destruct (One (fdivide (qfy q) (if neg then fneg n else n)) (vy d) _ Fy F2 Dy By) as [G1 H1]; [unfold d, direction, vscale; cbn [vx vy vz]; fold N; unfold V at 1; unfold Rdiv; cbn [vval fquat_vec vx vy vz fx fy fz]; ring|].
    destruct (One (fdivide (qfz q) (if neg then fneg n else n)) (vz d) _ Fz F2 Dz Bz) as [G2 H2]; [unfold d, direction, vscale; cbn [vx vy vz]; fold N; unfold V at 1; unfold Rdiv; cbn [vval fquat_vec vx vy vz fx fy fz]; ring|].
    split; [repeat split; assumption|]. exists (vscale th d). assert (Nt : norm (vscale th d) = th) by (rewrite norm_scale, Nd, Rabs_right; lra). rewrite Nt.
    split; [lra|]. split.
    - apply Rle_trans with (norm (vadd (vscale (66 / 10 * u * th) (vabs d)) (vscale (u / 1000 * th) (V3 1 1 1)))).
      + apply norm_mono; unfold vadd, vscale, vsub, vabs, vval; cbn [vx vy vz fx fy fz]; rewrite Rmult_1_r; assumption.
      + assert (uth : 0 <= u * th) by (apply Rmult_le_pos; lra). eapply Rle_trans; [apply norm_triangle|]. rewrite !norm_scale, norm_vabs, Nd. rewrite !Rabs_right by lra.
        assert (norm (V3 1 1 1) <= 2). { unfold norm. rewrite <- (sqrt_square 2) by lra. apply sqrt_le_1; unfold norm2, dot; cbn [vx vy vz]; lra. }
        assert (u / 1000 * th * norm (V3 1 1 1) <= u / 1000 * th * 2) by (apply Rmult_le_compat_l; lra). lra.
    - assert (Hd : direction (vscale th d) = d). { unfold direction. rewrite Nt. unfold vscale. destruct d as [x y z]. cbn [vx vy vz]. f_equal; field; lra. }
      assert (Hh : hw (vscale th d) = cos A /\ hp (vscale th d) = vscale (sin A) d). { unfold hw, hp. rewrite Nt, Hd. unfold th. replace (2 * A / 2) with A by field. split; reflexivity. }
      assert (Hu : hw (vscale th d) * hw (vscale th d) + dot (hp (vscale th d)) (hp (vscale th d)) = 1) by apply half_unit.
      destruct Hh as [E1 E2]. rewrite E1, E2 in *. apply (ray _ _ _ _ (g * s)); [exact Hu|exact U| |destruct off_sq; lra].
      replace (g * s * cos A) with W by (replace (g * s * cos A) with (g * (s * cos A)) by ring; rewrite CA; symmetry; apply flt_sign, Fw).
      replace (vscale (g * s) (vscale (sin A) d)) with (vscale (val n / N) V).
      2:{ unfold d, direction. fold N. rewrite <- SA. unfold vscale. cbn [vx vy vz]. f_equal;
          match goal with |- _ = g * s * (sin A * (g * (/ N * ?x))) => replace (g * s * (sin A * (g * (/ N * x)))) with (g * g * (s * sin A / N) * x) by (field; lra) end; rewrite GG; ring. }
      set (X := vsub (vscale (val n / N) V) p). assert (EX : X = vadd (vsub V p) (vscale ((val n - N) / N) V)). { unfold X, vadd, vsub, vscale. destruct V as [x y z], p as [a' b' c']. cbn [vx vy vz]. f_equal; field; lra. }
      assert (NX : norm (vscale ((val n - N) / N) V) <= 255 / 100 * u * (1002 / 1000)).
      { rewrite norm_scale. unfold Rdiv. rewrite Rabs_mult, Rabs_inv, (Rabs_right N) by lra. fold N. replace (Rabs (val n - N) * / N * N) with (Rabs (val n - N)) by (field; lra). eapply Rle_trans; [exact Rn|]. apply Rmult_le_compat_l; lra. }
      destruct off_sq as [OS EP]. rewrite EX. clear EX X. set (Y := vscale ((val n - N) / N) V) in *. set (Z := vsub V p) in *.
      pose proof (norm_triangle Z Y) as TR. pose proof (norm_nonneg Z). pose proof (norm_nonneg Y). pose proof (norm_nonneg (vadd Z Y)) as nn.
      rewrite <- norm_sqr. rewrite <- norm_sqr in OS. assert (norm (vadd Z Y) * norm (vadd Z Y) <= (norm Z + norm Y) * (norm Z + norm Y)) by (apply Rmult_le_compat; lra).
      assert (norm Z * norm Y <= E * norm Y) by (apply Rmult_le_compat_r; lra). set (nZ := norm Z) in *. set (nY := norm Y) in *. clearbody nZ nY.
      assert (nY * nY <= 26 / 10 * u * (26 / 10 * u)) by (apply Rmult_le_compat; lra). assert (E * nY <= E * (26 / 10 * u)) by (apply Rmult_le_compat_l; lra). nra.
  Qed.

  (** A rotation too small for its axis to matter. *)
  Lemma small_turn v : norm (vval v) <= 19 * u -> norm V <= 201 / 100 * u ->
    apart (quaternion_matrix (hw (vval v)) (hp (vval v))) (quaternion_matrix w p) <= 14143 / 10000 * (19 * u) + 283 / 100 * (E + 201 / 100 * u).
  Proof.
    intros B S. pose proof u_pos as Up. destruct off_sq as [OS EP].
    assert (T : rotation_by vzero mid) by (left; split; reflexivity).
    pose proof (exp_lipschitz (vval v) vzero _ mid (proj2 (rotation_by_half _ _) eq_refl) T) as L. replace (vsub (vval v) vzero) with (vval v) in L by (unfold vsub, vzero, vval; cbn [vx vy vz]; f_equal; lra).
    assert (M : apart mid (quaternion_matrix w p) <= 283 / 100 * (E + 201 / 100 * u)).
    { replace mid with (quaternion_matrix 1 vzero) by (unfold quaternion_matrix, quaternion_turn, vzero, vscale, vadd, cross, mid; cbn [vx vy vz]; f_equal; ring).
      apply (ray _ _ _ _ W); [unfold dot, vzero; cbn [vx vy vz]; ring|exact U| |lra].
      replace (W * 1) with W by ring. replace (vsub (vscale W vzero) p) with (vneg p) by (unfold vsub, vscale, vneg, vzero; cbn [vx vy vz]; f_equal; ring).
      rewrite <- norm_sqr, norm_neg. rewrite <- norm_sqr in OS. pose proof (norm_near p V) as TR. replace (norm (vsub p V)) with (norm (vsub V p)) in TR by (replace (vsub p V) with (vneg (vsub V p)) by (unfold vneg, vsub; cbn [vx vy vz]; f_equal; ring); rewrite norm_neg; reflexivity).
      pose proof (norm_nonneg p). pose proof (norm_nonneg V). pose proof (norm_nonneg (vsub V p)). set (a := norm (vsub V p)) in *. set (b := norm V) in *. set (c := norm p) in *. clearbody a b c.
      assert (c * c <= (a + b) * (a + b)) by (apply Rmult_le_compat; lra). destruct V_near as (VP & _). fold V in VP. assert (a <= E). { apply Rsqr_incr_0_var; [unfold Rsqr; pose proof (pow2_ge_0 (W - w)); lra|exact EP]. }
      assert (a * b <= E * b) by (apply Rmult_le_compat_r; lra). assert (b * b <= 201 / 100 * u * (201 / 100 * u)) by (apply Rmult_le_compat; lra). assert (E * b <= E * (201 / 100 * u)) by (apply Rmult_le_compat_l; lra). nra. }
    pose proof (apart_triangle (quaternion_matrix (hw (vval v)) (hp (vval v))) mid (quaternion_matrix w p)). lra.
  Qed.
  Lemma tiny_entry (neg : bool) x n al a1 : finite x -> finite n -> finite al -> 0 < val n -> Rabs (val x) <= 2 * val n -> Rabs (val al) <= a1 -> a1 <= 93 / 10 * u ->
    finite (fmul (fdivide x (if neg then fneg n else n)) al) /\
    Rabs (val (fmul (fdivide x (if neg then fneg n else n)) al)) <= 1001 / 1000 * a1 * (Rabs (val x) / val n) + u / 500.
  Proof.
    intros Fx Fn Fl n0 X L A1. pose proof u_pos as Up. pose proof h_pos. pose proof h_tiny as Ht. assert (Us : 1000 * u <= / 1000) by (rewrite u_num; lra). pose proof (Rabs_pos (val al)) as l0.
    set (k := if neg then fneg n else n). assert (Vk : Rabs (val k) = val n). { unfold k. destruct neg; [rewrite fneg_val, Rabs_Ropp|]; apply Rabs_right; lra. }
    assert (k0 : val k <> 0) by (intro Z; rewrite Z, Rabs_R0 in Vk; lra).
    set (y := Rabs (val x) / val n). assert (Y : Rabs (val x / val k) = y) by (unfold Rdiv; rewrite Rabs_mult, Rabs_inv, Vk; reflexivity).
    assert (Y2 : 0 <= y <= 2). { unfold y. split; [apply Rmult_le_pos; [apply Rabs_pos|left; apply Rinv_0_lt_compat, n0]|]. apply Rmult_le_reg_r with (val n); [exact n0|]. unfold Rdiv. rewrite Rmult_assoc, Rinv_l by lra. lra. }
    destruct (fdiv_val x k Fx k0) as [F V1]; [apply pow_1023_big; rewrite Y; apply Rle_trans with (2 ^ 1); [lra|apply Rle_pow; [lra|lia]]|].
    assert (B : Rabs (val (fdivide x k)) <= y + u * y + h). { rewrite V1. pose proof (rd_any (val x / val k)) as R. rewrite Y in R. replace (rd (val x / val k)) with (val x / val k + (rd (val x / val k) - val x / val k)) by ring. eapply Rle_trans; [apply Rabs_triang|]. rewrite Y. lra. }
    assert (P : Rabs (val (fdivide x k) * val al) <= (y + u * y + h) * a1) by (rewrite Rabs_mult; apply Rmult_le_compat; try apply Rabs_pos; assumption).
    assert (uy : u * y <= y / 1000000) by (replace (y / 1000000) with (/ 1000000 * y) by field; apply Rmult_le_compat_r; lra).
    assert (0 <= y * a1) by (apply Rmult_le_pos; lra). assert (y * a1 <= 2 * a1) by (apply Rmult_le_compat_r; lra).
    assert (ha : h * a1 <= h * (/ 1000)) by (apply Rmult_le_compat_l; lra). assert (uya : u * y * a1 <= y / 1000000 * a1) by (apply Rmult_le_compat_r; lra).
    assert (P' : Rabs (val (fdivide x k) * val al) <= 10001 / 10000 * (y * a1) + h / 1000) by (eapply Rle_trans; [exact P|]; replace ((y + u * y + h) * a1) with (y * a1 + u * y * a1 + h * a1) by ring; lra).
    destruct (mul_error (fdivide x k) al F Fl) as [Fm Vm]; [eapply Rle_trans; [exact P'|]; apply Rle_trans with 1; [lra|apply pow_R1_Rle; lra]|]. split; [exact Fm|].
    assert (uP : u * Rabs (val (fdivide x k) * val al) <= u * (10001 / 10000 * (y * a1) + h / 1000)) by (apply Rmult_le_compat_l; lra).
    assert (u * (y * a1) <= / 1000000 * (y * a1)) by (apply Rmult_le_compat_r; lra). assert (u * h <= 1 * h) by (apply Rmult_le_compat_r; lra).
    replace (1001 / 1000 * a1 * y) with (1001 / 1000 * (y * a1)) by ring.
    replace (val (fmul (fdivide x k) al)) with (val (fdivide x k) * val al + (val (fmul (fdivide x k) al) - val (fdivide x k) * val al)) by ring. eapply Rle_trans; [apply Rabs_triang|].
    replace (u * (10001 / 10000 * (y * a1) + h / 1000)) with (10001 / 10000 * (u * (y * a1)) + u * h / 1000) in uP by field. lra.
  Qed.
  Lemma tiny_angle_axis n v : fstable_norm (fquat_vec q) n -> norm V <= 201 / 100 * u ->
    (exists angle axis, (if feq n (of_int 0) then angle = of_int 0 /\ axis = FV (of_int 1) (of_int 0) (of_int 0)
     else exists a, fatan2 n (fabs (qfw q)) a /\ angle = fmul (of_int 2) a /\
      let n := if flt (qfw q) (of_int 0) then fneg n else n in
      axis = FV (fdivide (qfx q) n) (fdivide (qfy q) n) (fdivide (qfz q) n)) /\
      v = FV (fmul (fx axis) angle) (fmul (fy axis) angle) (fmul (fz axis) angle)) ->
    vfinite v /\ norm (vval v) <= 19 * u /\ (vval (fquat_vec q) = vzero -> vval v = vzero).
  Proof.
    intros St S (angle & axis & C & ->). pose proof u_pos as Up. pose proof h_pos as Hp. pose proof h_tiny as Ht. assert (Us : 1000 * u <= / 1000) by (rewrite u_num; lra).
    destruct V_finite as (X & Y & Z). unfold fstable_norm in St. unfold finite in X, Y, Z. rewrite X, Y, Z in St. specialize (St eq_refl). cbv zeta in St. destruct St as [Fn B].
    change (is_finite n = true) with (finite n) in Fn. change (V3 (B2R (fx (fquat_vec q))) (B2R (fy (fquat_vec q))) (B2R (fz (fquat_vec q)))) with V in B. change (B2R n) with (val n) in B.
    pose proof (norm_nonneg V) as N0. destruct of_int_0 as [F0 V0]. destruct of_int_1 as [F1 V1].
    assert (Zero : norm V = 0 <-> val n = 0) by lra.
    destruct (feq n (of_int 0)) eqn:Q.
    - apply feq_zero in Q; [|exact Fn]. destruct C as [-> ->]. cbn [fx fy fz].
      destruct (mul_zero (of_int 1) (of_int 0) F1 F0 (or_intror V0)) as [G1 W1]. destruct (mul_zero (of_int 0) (of_int 0) F0 F0 (or_intror V0)) as [G0 W0].
      assert (E0 : vval (FV (fmul (of_int 1) (of_int 0)) (fmul (of_int 0) (of_int 0)) (fmul (of_int 0) (of_int 0))) = vzero) by (unfold vval, vzero; cbn [fx fy fz]; rewrite W1, W0; reflexivity).
      split; [repeat split; assumption|]. rewrite E0, norm_zero. split; [lra|reflexivity].
    - assert (n0 : 0 < val n). { destruct (Req_dec (val n) 0) as [K|K]; [apply feq_zero in K; [congruence|exact Fn]|lra]. }
      destruct C as (a & At & -> & ->). set (neg := flt (qfw q) (of_int 0)). cbn [fx fy fz]. destruct Fq as (Fw & Fqx & Fqy & Fqz).
      unfold fatan2 in At. assert (FF : (is_finite n && is_finite (fabs (qfw q)))%bool = true) by (rewrite (fabs_finite _ Fw); unfold finite in Fn; rewrite Fn; reflexivity).
      specialize (At FF). cbv zeta in At. change (B2R n) with (val n) in At. change (B2R (fabs (qfw q))) with (val (fabs (qfw q))) in At. rewrite fabs_val in At. fold W in At.
      destruct (atan2_any (val n) (Rabs W) n0 (Rabs_pos _)) as (S0 & SS & AB & CA & SA). set (A := GeomModel.atan2 (val n) (Rabs W)) in *. set (s := sqrt _) in *.
      destruct At as [Fa Ea]. change (is_finite a = true) with (finite a) in Fa. change (B2R a) with (val a) in Ea. pose proof (ulp_bound A) as Ub. rewrite (Rabs_right A) in Ub by lra. pose proof PI_bounds as PB.
      assert (W9 : 99 / 100 <= Rabs W).
      { destruct off_sq as [OS EP]. destruct V_near as (VP & _ & WB). fold V in VP. assert (P9 : norm p <= 3 / 1000). { pose proof (norm_near p V) as TR. replace (norm (vsub p V)) with (norm (vsub V p)) in TR by (replace (vsub p V) with (vneg (vsub V p)) by (unfold vneg, vsub; cbn [vx vy vz]; f_equal; ring); rewrite norm_neg; reflexivity). lra. }
        assert (dot p p <= 9 / 1000000). { change (dot p p) with (norm2 p). rewrite <- norm_sqr. pose proof (norm_nonneg p). nra. }
        assert (w9 : 998 / 1000 <= Rabs w). { assert (998 / 1000 * (998 / 1000) <= Rabs w * Rabs w) by (rewrite <- Rabs_mult, (Rabs_right (w * w)) by (apply Rle_ge, Rle_0_sqr); lra). pose proof (Rabs_pos w). nra. }
        replace w with (W + - (W - w)) in w9 by ring. pose proof (Rabs_triang W (- (W - w))) as TT. rewrite Rabs_Ropp in TT. lra. }
      assert (s9 : 99 / 100 <= s). { apply Rsqr_incr_0_var; [|lra]. unfold Rsqr. rewrite SS. nra. }
      assert (sA : sin A <= 407 / 100 * u). { apply Rmult_le_reg_l with s; [exact S0|]. rewrite SA. apply Rle_trans with (99 / 100 * (407 / 100 * u)); [lra|apply Rmult_le_compat_r; lra]. }
      assert (A1 : A <= 71 / 10 * u) by (pose proof (sin_linear A ltac:(lra)); lra). assert (A2 : A <= 458 / 100 * u) by (pose proof (sin_linear_small A ltac:(lra)); lra).
      assert (uA : u * A <= / 1000000 * A) by (apply Rmult_le_compat_r; lra).
      assert (Da : Rabs (val a) <= 462 / 100 * u). { replace (val a) with (A + (val a - A)) by ring. eapply Rle_trans; [apply Rabs_triang|]. rewrite (Rabs_right A) by lra. lra. }
      destruct (twice_exact a Fa) as [F2 V2]; [lra|]. assert (Dal : Rabs (val (fmul (of_int 2) a)) <= 925 / 100 * u) by (rewrite V2, Rabs_mult, (Rabs_right 2) by lra; lra). set (al := fmul (of_int 2) a) in *.
      destruct (entry_norm V) as (Bx & By & Bz). change (vx V) with (val (qfx q)) in Bx. change (vy V) with (val (qfy q)) in By. change (vz V) with (val (qfz q)) in Bz.
      destruct (tiny_entry neg (qfx q) n al _ Fqx Fn F2 n0 ltac:(lra) Dal ltac:(lra)) as [G0 H0]. destruct (tiny_entry neg (qfy q) n al _ Fqy Fn F2 n0 ltac:(lra) Dal ltac:(lra)) as [G1 H1]. destruct (tiny_entry neg (qfz q) n al _ Fqz Fn F2 n0 ltac:(lra) Dal ltac:(lra)) as [G2 H2].
      split; [repeat split; assumption|]. split.
      + apply Rle_trans with (norm (vadd (vscale (1001 / 1000 * (925 / 100 * u) / val n) (vabs V)) (vscale (u / 500) (V3 1 1 1)))).
        * assert (I : forall t, 1001 / 1000 * (925 / 100 * u) * (t / val n) = 1001 / 1000 * (925 / 100 * u) / val n * t) by (intro t; field; lra).
          rewrite I in H0, H1, H2. apply norm_mono; unfold vadd, vscale, vabs, vval; cbn [vx vy vz fx fy fz]; rewrite Rmult_1_r; assumption.
        * eapply Rle_trans; [apply norm_triangle|]. rewrite !norm_scale, norm_vabs.
          assert (norm (V3 1 1 1) <= 2). { unfold norm. rewrite <- (sqrt_square 2) by lra. apply sqrt_le_1; unfold norm2, dot; cbn [vx vy vz]; lra. }
          assert (K : 0 <= 1001 / 1000 * (925 / 100 * u) / val n) by (apply Rmult_le_pos; [lra|left; apply Rinv_0_lt_compat, n0]). rewrite !Rabs_right by lra.
          assert (KV : 1001 / 1000 * (925 / 100 * u) / val n * norm V <= 1001 / 1000 * (925 / 100 * u) / val n * (2 * val n)) by (apply Rmult_le_compat_l; lra).
          replace (1001 / 1000 * (925 / 100 * u) / val n * (2 * val n)) with (2 * (1001 / 1000 * (925 / 100 * u))) in KV by (field; lra). assert (u / 500 * norm (V3 1 1 1) <= u / 500 * 2) by (apply Rmult_le_compat_l; lra). lra.
      + intro K. exfalso. change (V = vzero) in K. assert (NV : norm V = 0) by (rewrite K; apply norm_zero). apply Zero in NV. lra.
  Qed.
End Angle.
