(** Proofs about rotations made in double precision. *)
From Coq Require Import Psatz.
From Flocq Require Import Core BinarySingleNaN.
From Verif Require Import Cpp FloatModel FloatSpec FloatProofs NrmSpec NrmProofs LenProofs Vec RotSpec RotProofs CoeffProofs DriftModel DriftSpec DriftProofs DriftProofs2 SpinModel SpinSpec.
Local Open Scope R_scope.

(** ** The library *)
Lemma ulp_bound x : ulp radix2 (FLT_exp (-1074) 53) x <= 2 * u * Rabs x + 2 * h.
Proof.
  pose proof h_pos. pose proof u_pos. pose proof (Rabs_pos x).
  assert (E : 2 * h = bpow radix2 (-1074)). { unfold h. change (-1074)%Z with (1 + -1075)%Z. rewrite bpow_plus. change (bpow radix2 1) with 2. reflexivity. }
  destruct (Rle_or_lt (bpow radix2 (-1074 + 53 - 1)) (Rabs x)) as [L|L].
  - eapply Rle_trans; [apply ulp_FLT_le; exact L|]. change (bpow radix2 (1 - 53)) with (/ 4503599627370496). rewrite u_num. nra.
  - rewrite ulp_FLT_small; [rewrite <- E; nra|exact prec_pos|]. eapply Rlt_trans; [exact L|]. apply bpow_lt. lia.
Qed.
Lemma library_near f x y : finite x -> Rabs (f (val x)) <= 1 -> library f x y ->
  finite y /\ Rabs (val y - f (val x)) <= 2 * u * Rabs (f (val x)) + 2 * h /\ (val x = 0 -> val y = f 0).
Proof.
  unfold finite, library. intros -> B (F & E & Z). split; [exact F|]. split; [|exact Z].
  pose proof (ulp_bound (f (val x))). unfold val in *. lra.
Qed.
Lemma stored g : fmt g -> Rabs g <= 1 -> exists y : f64, finite y /\ val y = g.
Proof.
  intros F B. unfold fmt, generic_format in F. set (m := Ztrunc _) in F. set (e := cexp _ _ _) in F.
  exists (NrmSpec.double m e). pose proof (@binary_normalize_correct 53 1024 prec_pos prec_emax mode_NE m e false) as H.
  rewrite <- F in H. cbn [round_mode] in H. fold (rd g) in H.
  change (round radix2 (SpecFloat.fexp 53 1024) ZnearestE g) with (rd g) in H.
  assert (G : rd g = g) by (apply rd_id; unfold fmt, generic_format; exact F). rewrite G in H.
  rewrite Rlt_bool_true in H; [exact (conj (proj1 (proj2 H)) (proj1 H))|].
  eapply Rle_lt_trans; [exact B|]. apply (bpow_lt radix2 0 1024). reflexivity.
Qed.
Lemma library_some f x : (forall t, Rabs (f t) <= 1) -> fmt (f 0) -> exists y, library f x y.
Proof.
  intros B Z. unfold library. destruct (is_finite x); [|eexists; reflexivity].
  destruct (stored (rd (f (B2R x)))) as (y & F & V).
  - apply rd_fmt.
  - change 1 with (IZR 1). apply rd_le_int; [cbn; lia|apply B].
  - exists y. split; [exact F|]. unfold val in V. rewrite V. split.
    + destruct (Req_dec (f (B2R x)) 0) as [E|E].
      * rewrite E, rd_0, Rminus_0_r, Rabs_R0. rewrite ulp_FLT_small; [apply bpow_gt_0|exact prec_pos|rewrite Rabs_R0; apply bpow_gt_0].
      * unfold rd. apply error_lt_ulp; [apply FLT_exp_valid; exact prec_pos|apply valid_rnd_N|exact E].
    + intros ->. apply rd_id, Z.
Qed.
Lemma sin_bound t : Rabs (sin t) <= 1.
Proof. apply Rabs_le. apply SIN_bound. Qed.
Lemma cos_bound t : Rabs (cos t) <= 1.
Proof. apply Rabs_le. apply COS_bound. Qed.
Lemma some_sin x : exists y, library sin x y.
Proof. apply library_some; [apply sin_bound|rewrite sin_0; apply generic_format_0]. Qed.
Lemma some_cos x : exists y, library cos x y.
Proof. apply library_some; [apply cos_bound|rewrite cos_0; apply fmt_1]. Qed.

(** ** Numbers near numbers *)
Definition ap (x : f64) (r e : R) : Prop := finite x /\ Rabs (val x - r) <= e.
Lemma ap_val x : finite x -> ap x (val x) 0.
Proof. intro F. split; [exact F|]. rewrite Rminus_eq_0, Rabs_R0. lra. Qed.
Lemma ap_pos x r e : ap x r e -> 0 <= e.
Proof. intros [_ H]. eapply Rle_trans; [apply Rabs_pos|exact H]. Qed.
Lemma ap_weaken x r e d : ap x r e -> e <= d -> ap x r d.
Proof. intros [F H] L. split; [exact F|lra]. Qed.
Lemma ap_mul x y r s e d A B C : ap x r e -> ap y s d -> Rabs r <= A -> Rabs s <= B -> Rabs (r * s) <= C -> A <= 8 -> B <= 8 -> e <= / 1000 -> d <= / 1000 ->
  ap (fmul x y) (r * s) ((A + / 500) * d + (B + / 500) * e + u * C + h).
Proof.
  intros X Y HA HB HC A8 B8 E D. pose proof (ap_pos _ _ _ X) as E0. pose proof (ap_pos _ _ _ Y) as D0. destruct X as [Fx X], Y as [Fy Y]. pose proof u_pos as U. pose proof u_small as Us.
  pose proof (Rabs_pos r). pose proof (Rabs_pos s).
  assert (T : Rabs (val x * val y - r * s) <= A * d + B * e + d / 1000).
  { replace (val x * val y - r * s) with (r * (val y - s) + (s * (val x - r) + (val x - r) * (val y - s))) by ring.
    eapply Rle_trans; [apply Rabs_triang|]. eapply Rle_trans; [apply Rplus_le_compat_l, Rabs_triang|]. rewrite !Rabs_mult.
    assert (Rabs r * Rabs (val y - s) <= A * d) by (apply Rmult_le_compat; try apply Rabs_pos; lra).
    assert (Rabs s * Rabs (val x - r) <= B * e) by (apply Rmult_le_compat; try apply Rabs_pos; lra).
    assert (Rabs (val x - r) * Rabs (val y - s) <= / 1000 * d) by (apply Rmult_le_compat; try apply Rabs_pos; lra). lra. }
  assert (L : Rabs (val x * val y) <= C + (A * d + B * e + d / 1000)).
  { replace (val x * val y) with (r * s + (val x * val y - r * s)) by ring. eapply Rle_trans; [apply Rabs_triang|]. lra. }
  assert (C64 : Rabs (r * s) <= 64) by (rewrite Rabs_mult; apply Rle_trans with (8 * 8); [apply Rmult_le_compat; lra|lra]).
  destruct (mul_error x y Fx Fy) as [F V].
  { replace (val x * val y) with (r * s + (val x * val y - r * s)) by ring. eapply Rle_trans; [apply Rabs_triang|]. apply Rle_trans with (2 ^ 7); [|apply Rle_pow; [lra|lia]].
    assert (A * d <= 8 * / 1000) by (apply Rmult_le_compat; lra). assert (B * e <= 8 * / 1000) by (apply Rmult_le_compat; lra). lra. }
  split; [exact F|]. replace (val (fmul x y) - r * s) with ((val (fmul x y) - val x * val y) + (val x * val y - r * s)) by ring.
  eapply Rle_trans; [apply Rabs_triang|].
  assert (u * Rabs (val x * val y) <= u * C + (d / 2000 + e / 2000)).
  { eapply Rle_trans; [apply Rmult_le_compat_l; [lra|exact L]|]. rewrite Rmult_plus_distr_l. apply Rplus_le_compat_l.
    apply Rle_trans with (/ 1000000 * (8 * d + 8 * e + d / 1000)); [|lra]. apply Rmult_le_compat; [lra|nra|lra|nra]. }
  lra.
Qed.
Lemma ap_add x y r s e d C : ap x r e -> ap y s d -> Rabs (r + s) <= C -> C <= 16 -> e <= 1 -> d <= 1 -> ap (fadd x y) (r + s) (e + d + u * (C + e + d)).
Proof.
  intros X Y HC C16 E D. destruct X as [Fx X], Y as [Fy Y]. pose proof u_pos as U.
  assert (T : Rabs (val x + val y - (r + s)) <= e + d).
  { replace (val x + val y - (r + s)) with ((val x - r) + (val y - s)) by ring. eapply Rle_trans; [apply Rabs_triang|]. lra. }
  assert (L : Rabs (val x + val y) <= C + e + d).
  { replace (val x + val y) with (r + s + (val x + val y - (r + s))) by ring. eapply Rle_trans; [apply Rabs_triang|]. lra. }
  destruct (add_error x y Fx Fy) as [F V]; [destruct big_1000; apply Rle_trans with (2 ^ 1000 * 8); [|lra]; apply Rle_trans with (2 ^ 5); [lra|]; apply Rle_trans with (2 ^ 1000 * 1); [rewrite Rmult_1_r; apply Rle_pow; [lra|lia]|lra]|].
  split; [exact F|]. replace (val (fadd x y) - (r + s)) with ((val (fadd x y) - (val x + val y)) + (val x + val y - (r + s))) by ring.
  eapply Rle_trans; [apply Rabs_triang|]. assert (u * Rabs (val x + val y) <= u * (C + e + d)) by (apply Rmult_le_compat_l; lra). lra.
Qed.
Lemma sub_error a b : finite a -> finite b -> Rabs (val a - val b) <= 2 ^ 1000 * 8 ->
  finite (fsub a b) /\ Rabs (val (fsub a b) - (val a - val b)) <= u * Rabs (val a - val b).
Proof.
  intros A B H. destruct (fsub_val a b A B) as [F V]; [apply no_overflow; lra|]. split; [exact F|]. rewrite V. unfold Rminus at 2 4. apply rd_sum; [apply val_fmt|]. apply generic_format_opp, val_fmt.
Qed.
Lemma ap_sub x y r s e d C : ap x r e -> ap y s d -> Rabs (r - s) <= C -> C <= 16 -> e <= 1 -> d <= 1 -> ap (fsub x y) (r - s) (e + d + u * (C + e + d)).
Proof.
  intros X Y HC C16 E D. destruct X as [Fx X], Y as [Fy Y]. pose proof u_pos as U.
  assert (T : Rabs (val x - val y - (r - s)) <= e + d).
  { replace (val x - val y - (r - s)) with ((val x - r) + - (val y - s)) by ring. eapply Rle_trans; [apply Rabs_triang|]. rewrite Rabs_Ropp. lra. }
  assert (L : Rabs (val x - val y) <= C + e + d).
  { replace (val x - val y) with (r - s + (val x - val y - (r - s))) by ring. eapply Rle_trans; [apply Rabs_triang|]. lra. }
  destruct (sub_error x y Fx Fy) as [F V]; [destruct big_1000; apply Rle_trans with (2 ^ 1000 * 8); [|lra]; apply Rle_trans with (2 ^ 5); [lra|]; apply Rle_trans with (2 ^ 1000 * 1); [rewrite Rmult_1_r; apply Rle_pow; [lra|lia]|lra]|].
  split; [exact F|]. replace (val (fsub x y) - (r - s)) with ((val (fsub x y) - (val x - val y)) + (val x - val y - (r - s))) by ring.
  eapply Rle_trans; [apply Rabs_triang|]. assert (u * Rabs (val x - val y) <= u * (C + e + d)) by (apply Rmult_le_compat_l; lra). lra.
Qed.

(** ** The matrix of an angle and an axis *)
Lemma abs_le x b : - b <= x <= b -> Rabs x <= b.
Proof. apply Rabs_le. Qed.
Definition aa (s c : R) (a : vec3) : mat3 :=
  M3 ((1 - c) * vx a * vx a + c) ((1 - c) * vx a * vy a - s * vz a) ((1 - c) * vx a * vz a + s * vy a)
     ((1 - c) * vx a * vy a + s * vz a) ((1 - c) * vy a * vy a + c) ((1 - c) * vy a * vz a - s * vx a)
     ((1 - c) * vx a * vz a - s * vy a) ((1 - c) * vy a * vz a + s * vx a) ((1 - c) * vz a * vz a + c).
Lemma size_all m b : Rabs (m00 m) <= b -> Rabs (m01 m) <= b -> Rabs (m02 m) <= b -> Rabs (m10 m) <= b -> Rabs (m11 m) <= b -> Rabs (m12 m) <= b ->
  Rabs (m20 m) <= b -> Rabs (m21 m) <= b -> Rabs (m22 m) <= b -> size m <= 3 * b.
Proof.
  intros H0 H1 H2 H3 H4 H5 H6 H7 H8. assert (P : 0 <= b) by (eapply Rle_trans; [apply Rabs_pos|exact H0]). apply size_at_most; [lra|].
  assert (G : forall x, Rabs x <= b -> x ^ 2 <= b ^ 2). { intros x H. rewrite <- (pow2_abs x). apply pow_incr. split; [apply Rabs_pos|exact H]. }
  apply G in H0, H1, H2, H3, H4, H5, H6, H7, H8. nra.
Qed.
Lemma h_tiny : h <= u / 1000.
Proof. pose proof h_u. pose proof h_pos. assert (E : h <= bpow radix2 (-63)) by (apply bpow_le; lia). change (bpow radix2 (-63)) with (/ 9223372036854775808) in E. rewrite u_num. lra. Qed.
Section Rounding.
  Variables s c : f64.
  Hypothesis Fs : finite s.
  Hypothesis Fc : finite c.
  Hypothesis Bs : Rabs (val s) <= 1001 / 1000.
  Hypothesis Bc : Rabs (val c) <= 1001 / 1000.
  Variables ai aj ak : f64.
  Hypothesis Fi : finite ai.
  Hypothesis Fj : finite aj.
  Hypothesis Fk : finite ak.
  Hypothesis Bi : Rabs (val ai) <= 101 / 100.
  Hypothesis Bj : Rabs (val aj) <= 101 / 100.
  Hypothesis Bk : Rabs (val ak) <= 101 / 100.
  Hypothesis Bij : Rabs (val ai * val aj) <= 52 / 100.
  Let k := fsub (of_int 1) c.
  Lemma k_near : ap k (1 - val c) (u * (2001 / 1000)).
  Proof.
    destruct of_int_1 as [F1 V1]. pose proof (ap_val _ F1) as A. rewrite V1 in A.
    eapply ap_weaken; [apply (ap_sub _ _ _ _ _ _ (2001 / 1000) A (ap_val _ Fc))|lra]; try lra.
    apply Rabs_le_inv in Bc. apply Rabs_le. lra.
  Qed.
  Lemma k_bound : Rabs (1 - val c) <= 2001 / 1000.
  Proof. apply Rabs_le_inv in Bc. apply Rabs_le. lra. Qed.
  Lemma ki_bound : Rabs ((1 - val c) * val ai) <= 2022 / 1000.
  Proof. rewrite Rabs_mult. pose proof k_bound. apply Rle_trans with (2001 / 1000 * (101 / 100)); [apply Rmult_le_compat; try apply Rabs_pos; lra|lra]. Qed.
  Lemma ki_near : ap (fmul k ai) ((1 - val c) * val ai) (u * (4052 / 1000)).
  Proof.
    eapply ap_weaken; [apply (ap_mul _ _ _ _ _ _ (2001 / 1000) (101 / 100) (2022 / 1000) k_near (ap_val _ Fi) k_bound Bi ki_bound)|]; pose proof h_tiny; rewrite u_num in *; lra.
  Qed.
  Lemma kij_near : ap (fmul (fmul k ai) aj) ((1 - val c) * val ai * val aj) (u * (516 / 100)).
  Proof.
    eapply ap_weaken; [apply (ap_mul _ _ _ _ _ _ (2022 / 1000) (101 / 100) (1045 / 1000) ki_near (ap_val _ Fj) ki_bound Bj)|]; pose proof h_tiny; try (rewrite u_num in *; lra).
    rewrite Rmult_assoc, Rabs_mult. pose proof k_bound. apply Rle_trans with (2001 / 1000 * (52 / 100)); [apply Rmult_le_compat; try apply Rabs_pos; lra|lra].
  Qed.
  Lemma kii_near : ap (fmul (fmul k ai) ai) ((1 - val c) * val ai * val ai) (u * (62 / 10)).
  Proof.
    eapply ap_weaken; [apply (ap_mul _ _ _ _ _ _ (2022 / 1000) (101 / 100) (2043 / 1000) ki_near (ap_val _ Fi) ki_bound Bi)|]; pose proof h_tiny; try (rewrite u_num in *; lra).
    rewrite Rabs_mult. pose proof ki_bound. apply Rle_trans with (2022 / 1000 * (101 / 100)); [apply Rmult_le_compat; try apply Rabs_pos; lra|lra].
  Qed.
  Lemma sk_bound : Rabs (val s * val ak) <= 1012 / 1000.
  Proof. rewrite Rabs_mult. apply Rle_trans with (1001 / 1000 * (101 / 100)); [apply Rmult_le_compat; try apply Rabs_pos; lra|lra]. Qed.
  Lemma sk_near : ap (fmul s ak) (val s * val ak) (u * (1014 / 1000)).
  Proof.
    eapply ap_weaken; [apply (ap_mul _ _ _ _ _ _ (1001 / 1000) (101 / 100) (1012 / 1000) (ap_val _ Fs) (ap_val _ Fk) Bs Bk sk_bound)|]; pose proof h_tiny; rewrite u_num in *; lra.
  Qed.
  Lemma kij_bound : Rabs ((1 - val c) * val ai * val aj) <= 1045 / 1000.
  Proof. rewrite Rmult_assoc, Rabs_mult. pose proof k_bound. apply Rle_trans with (2001 / 1000 * (52 / 100)); [apply Rmult_le_compat; try apply Rabs_pos; lra|lra]. Qed.
  Lemma plus_near : ap (fadd (fmul (fmul k ai) aj) (fmul s ak)) ((1 - val c) * val ai * val aj + val s * val ak) (u * (83 / 10)).
  Proof.
    eapply ap_weaken; [apply (ap_add _ _ _ _ _ _ (206 / 100) kij_near sk_near)|]; pose proof h_tiny; try (rewrite u_num in *; lra).
    eapply Rle_trans; [apply Rabs_triang|]. pose proof kij_bound. pose proof sk_bound. lra.
  Qed.
  Lemma minus_near : ap (fsub (fmul (fmul k ai) aj) (fmul s ak)) ((1 - val c) * val ai * val aj - val s * val ak) (u * (83 / 10)).
  Proof.
    eapply ap_weaken; [apply (ap_sub _ _ _ _ _ _ (206 / 100) kij_near sk_near)|]; pose proof h_tiny; try (rewrite u_num in *; lra).
    unfold Rminus at 1. eapply Rle_trans; [apply Rabs_triang|]. rewrite Rabs_Ropp. pose proof kij_bound. pose proof sk_bound. lra.
  Qed.
  Lemma diagonal_near : ap (fadd (fmul (fmul k ai) ai) c) ((1 - val c) * val ai * val ai + val c) (u * (83 / 10)).
  Proof.
    eapply ap_weaken; [apply (ap_add _ _ _ _ _ _ (11 / 10) kii_near (ap_val _ Fc))|]; pose proof h_tiny; try (rewrite u_num in *; lra).
    apply Rabs_le_inv in Bi, Bc. apply Rabs_le.
    assert (0 <= val ai * val ai <= 10201 / 10000) by nra. set (q := val ai * val ai) in *. rewrite Rmult_assoc. fold q. clearbody q. split; nra.
  Qed.
End Rounding.
Lemma pair_bound a : norm a <= 101 / 100 -> Rabs (vx a * vy a) <= 52 / 100 /\ Rabs (vx a * vz a) <= 52 / 100 /\ Rabs (vy a * vz a) <= 52 / 100.
Proof.
  intro H. assert (Q : norm a * norm a <= 101 / 100 * (101 / 100)) by (apply Rmult_le_compat; try apply norm_nonneg; exact H).
  rewrite norm_sqr in Q. unfold norm2, dot in Q. destruct a as [x y z]. cbn [vx vy vz] in *. clear H.
  pose proof (Rle_0_sqr (x + y)). pose proof (Rle_0_sqr (x - y)). pose proof (Rle_0_sqr (x + z)). pose proof (Rle_0_sqr (x - z)). pose proof (Rle_0_sqr (y + z)). pose proof (Rle_0_sqr (y - z)).
  pose proof (Rle_0_sqr x). pose proof (Rle_0_sqr y). pose proof (Rle_0_sqr z). unfold Rsqr in *. repeat split; apply Rabs_le; lra.
Qed.
Lemma aa_rounding s c a m : finite s -> finite c -> vfinite a -> Rabs (val s) <= 1001 / 1000 -> Rabs (val c) <= 1001 / 1000 -> norm (vval a) <= 101 / 100 ->
  (let sx := fmul s (fx a) in let sy := fmul s (fy a) in let sz := fmul s (fz a) in
   let k := fsub (of_int 1) c in
   let kx := fmul k (fx a) in let ky := fmul k (fy a) in let kz := fmul k (fz a) in
    m = FM (fadd (fmul kx (fx a)) c) (fsub (fmul kx (fy a)) sz) (fadd (fmul kx (fz a)) sy)
           (fadd (fmul kx (fy a)) sz) (fadd (fmul ky (fy a)) c) (fsub (fmul ky (fz a)) sx)
           (fsub (fmul kx (fz a)) sy) (fadd (fmul ky (fz a)) sx) (fadd (fmul kz (fz a)) c)) ->
  mfinite m /\ apart (mval m) (aa (val s) (val c) (vval a)) <= 25 * u.
Proof.
  intros Fs Fc (Fx & Fy & Fz) Bs Bc N E. cbv zeta in E.
  destruct (pair_bound _ N) as (XY & XZ & YZ). destruct (entry_norm (vval a)) as (Bx & By & Bz). cbn [vval vx vy vz] in *.
  assert (Rabs (val (fx a)) <= 101 / 100) by lra. assert (Rabs (val (fy a)) <= 101 / 100) by lra. assert (Rabs (val (fz a)) <= 101 / 100) by lra.
  destruct (diagonal_near c Fc Bc (fx a) Fx) as [F0 E0]; [assumption..|].
  destruct (diagonal_near c Fc Bc (fy a) Fy) as [F4 E4]; [assumption..|].
  destruct (diagonal_near c Fc Bc (fz a) Fz) as [F8 E8]; [assumption..|].
  destruct (minus_near s c Fs Fc Bs Bc (fx a) (fy a) (fz a)) as [F1 E1]; [assumption..|].
  destruct (plus_near s c Fs Fc Bs Bc (fx a) (fz a) (fy a)) as [F2 E2]; [assumption..|].
  destruct (plus_near s c Fs Fc Bs Bc (fx a) (fy a) (fz a)) as [F3 E3]; [assumption..|].
  destruct (minus_near s c Fs Fc Bs Bc (fy a) (fz a) (fx a)) as [F5 E5]; [assumption..|].
  destruct (minus_near s c Fs Fc Bs Bc (fx a) (fz a) (fy a)) as [F6 E6]; [assumption..|].
  destruct (plus_near s c Fs Fc Bs Bc (fy a) (fz a) (fx a)) as [F7 E7]; [assumption..|].
  subst m. split; [repeat split; assumption|]. pose proof u_pos. apply Rle_trans with (3 * (u * (83 / 10))); [|lra].
  apply size_all; unfold aa, madd, mscale, mval; cbn [m00 m01 m02 m10 m11 m12 m20 m21 m22 f00 f01 f02 f10 f11 f12 f20 f21 f22 vval vx vy vz];
    match goal with H : Rabs (val ?x - _) <= _ |- Rabs (val ?x + _) <= _ => eapply Rle_trans; [|exact H]; right; f_equal; ring end.
Qed.

(** ** How the matrix depends on the angle and the axis *)
Definition outer (a b : vec3) : mat3 := M3 (vx a * vx b) (vx a * vy b) (vx a * vz b) (vy a * vx b) (vy a * vy b) (vy a * vz b) (vz a * vx b) (vz a * vy b) (vz a * vz b).
Definition skew (a : vec3) : mat3 := M3 0 (- vz a) (vy a) (vz a) 0 (- vx a) (- vy a) (vx a) 0.
Lemma size_outer a b : size (outer a b) = norm a * norm b.
Proof.
  unfold size, norm. rewrite <- sqrt_mult by apply norm2_nonneg. f_equal. unfold outer, norm2, dot. cbn [m00 m01 m02 m10 m11 m12 m20 m21 m22]. ring.
Qed.
Lemma size_skew a : size (skew a) <= 142 / 100 * norm a.
Proof.
  pose proof (norm_nonneg a). apply size_at_most; [lra|]. replace ((142 / 100 * norm a) ^ 2) with ((142 / 100) ^ 2 * (norm a * norm a)) by ring. rewrite norm_sqr.
  unfold skew, norm2, dot. cbn [m00 m01 m02 m10 m11 m12 m20 m21 m22]. pose proof (Rle_0_sqr (vx a)). pose proof (Rle_0_sqr (vy a)). pose proof (Rle_0_sqr (vz a)). unfold Rsqr in *. lra.
Qed.
Lemma aa_trig s c s' c' a : norm a <= 101 / 100 -> 99 / 100 <= norm a -> apart (aa s c a) (aa s' c' a) <= 145 / 100 * (Rabs (s - s') + Rabs (c - c')).
Proof.
  intros H L. unfold apart. set (M := madd mid (mscale (-1) (outer a a))).
  replace (madd (aa s c a) (mscale (-1) (aa s' c' a))) with (madd (mscale (s - s') (skew a)) (mscale (c - c') M)).
  2:{ unfold M, aa, skew, outer. vring. }
  eapply Rle_trans; [apply size_triangle|]. rewrite !size_scale, Rmult_plus_distr_l. pose proof (Rabs_pos (s - s')). pose proof (Rabs_pos (c - c')).
  apply Rplus_le_compat; (rewrite (Rmult_comm (145 / 100)); apply Rmult_le_compat_l; [apply Rabs_pos|]).
  - eapply Rle_trans; [apply size_skew|]. lra.
  - apply size_at_most; [lra|]. assert (Q : 98 / 100 <= norm2 a <= 103 / 100) by (rewrite <- norm_sqr; nra).
    unfold M, madd, mscale, mid, outer. cbn [m00 m01 m02 m10 m11 m12 m20 m21 m22].
    match goal with |- ?l <= _ => replace l with (3 - 2 * norm2 a + norm2 a * norm2 a) by (unfold norm2, dot; ring) end. nra.
Qed.
Lemma aa_axis s c a n : norm n = 1 -> Rabs s <= 1 -> Rabs c <= 1 -> norm (vsub a n) <= / 100 -> apart (aa s c a) (aa s c n) <= 55 / 10 * norm (vsub a n).
Proof.
  intros N S C D. pose proof (norm_nonneg (vsub a n)) as P. pose proof (norm_near a n) as NA. unfold apart. set (d := vsub a n) in *.
  replace (madd (aa s c a) (mscale (-1) (aa s c n))) with (madd (mscale (1 - c) (madd (outer a d) (outer d n))) (mscale s (skew d))).
  2:{ unfold d, aa, skew, outer. vring. }
  eapply Rle_trans; [apply size_triangle|]. rewrite !size_scale. pose proof (size_triangle (outer a d) (outer d n)) as T. rewrite !size_outer, N in T.
  assert (T' : size (madd (outer a d) (outer d n)) <= 201 / 100 * norm d). { eapply Rle_trans; [exact T|]. rewrite N in NA. assert (norm a * norm d <= 101 / 100 * norm d) by (apply Rmult_le_compat_r; lra). lra. }
  pose proof (size_skew d) as K. pose proof (size_pos (skew d)).
  assert (Rabs (1 - c) * size (madd (outer a d) (outer d n)) <= 2 * (201 / 100 * norm d)).
  { apply Rmult_le_compat; [apply Rabs_pos|apply size_pos| |exact T']. apply Rabs_le_inv in C. apply Rabs_le. lra. }
  assert (Rabs s * size (skew d) <= 1 * (142 / 100 * norm d)) by (apply Rmult_le_compat; try apply Rabs_pos; lra). lra.
Qed.
Lemma aa_turning t n : norm n = 1 -> aa (sin t) (cos t) n = turning t n.
Proof.
  intro N. assert (Q : vx n * vx n + vy n * vy n + vz n * vz n = 1) by (change (norm2 n = 1); rewrite <- norm_sqr, N; ring).
  destruct n as [x y z]. cbn [vx vy vz] in Q. unfold aa, turning, turned, vadd, vsub, vscale, cross, dot. cbn [vx vy vz]. f_equal; nra.
Qed.
Lemma turning_rotation t n : norm n = 1 -> is_rotation (turning t n).
Proof.
  intro N. replace (turning t n) with (GeomModel.angle_axis_matrix t n).
  - apply angle_axis_rot. unfold unit_vec. rewrite <- norm_sqr, N. ring.
  - rewrite <- aa_turning by exact N. unfold GeomModel.angle_axis_matrix, aa. vring.
Qed.
Lemma abs_sin x : Rabs (sin x) <= Rabs x.
Proof.
  assert (G : forall y, 0 <= y -> Rabs (sin y) <= y).
  { intros y [P|<-]; [|rewrite sin_0, Rabs_R0; lra]. pose proof (sin_lt_x y P). destruct (Rle_or_lt y 1).
    - rewrite Rabs_right; [lra|]. apply Rle_ge, sin_ge_0; [lra|]. pose proof PI_RGT_0. pose proof PI2_1. lra.
    - pose proof (sin_bound y). lra. }
  destruct (Rle_or_lt 0 x) as [P|P].
  - rewrite (Rabs_right x) by lra. apply G, P.
  - rewrite (Rabs_left x) by lra. rewrite <- Rabs_Ropp, <- sin_neg. apply G. lra.
Qed.
Lemma cos_above t : 1 - t ^ 2 / 2 <= cos t.
Proof.
  replace t with (2 * (t / 2)) at 2 by field. rewrite cos_2a_sin. pose proof (abs_sin (t / 2)) as H.
  assert (E : Rabs (sin (t / 2)) * Rabs (sin (t / 2)) <= Rabs (t / 2) * Rabs (t / 2)) by (apply Rmult_le_compat; try apply Rabs_pos; exact H).
  rewrite <- !Rabs_mult, !Rabs_right in E by (apply Rle_ge, Rle_0_sqr). lra.
Qed.
Lemma turning_angle t t' n : norm n = 1 -> apart (turning t n) (turning t' n) <= 142 / 100 * Rabs (t - t').
Proof.
  intro N. rewrite <- !aa_turning by exact N. unfold apart. pose proof (Rabs_pos (t - t')). apply size_at_most; [lra|].
  assert (Q : vx n * vx n + vy n * vy n + vz n * vz n = 1) by (change (norm2 n = 1); rewrite <- norm_sqr, N; ring).
  set (dc := cos t - cos t'). set (ds := sin t - sin t').
  assert (E : dc * dc + ds * ds <= (t - t') ^ 2).
  { replace (dc * dc + ds * ds) with (2 - 2 * cos (t - t')).
    - pose proof (cos_above (t - t')). lra.
    - unfold dc, ds. rewrite cos_minus. pose proof (sin2_cos2 t). pose proof (sin2_cos2 t'). unfold Rsqr in *. nra. }
  unfold madd, mscale, aa. cbn [m00 m01 m02 m10 m11 m12 m20 m21 m22].
  replace (Rabs (t - t')) with (sqrt ((t - t') ^ 2)) by (rewrite <- Rsqr_pow2; apply sqrt_Rsqr_abs).
  rewrite Rpow_mult_distr, pow2_sqrt by apply pow2_ge_0.
  match goal with |- ?l <= _ => replace l with (2 * (dc * dc + ds * ds)) end; [nra|].
  set (x := vx n) in *. set (y := vy n) in *. set (z := vz n) in *. clearbody x y z.
  replace (cos t') with (cos t - dc) by (unfold dc; ring). replace (sin t') with (sin t - ds) by (unfold ds; ring). clearbody dc ds.
  assert (Z : z * z = 1 - x * x - y * y) by lra.
  match goal with |- _ = ?r => transitivity (dc * dc * ((3 - 2 * (x * x + y * y + z * z)) + (x * x + y * y + z * z) * (x * x + y * y + z * z)) + 2 * ds * ds * (x * x + y * y + z * z)) end; [rewrite Q; ring|ring].
Qed.

(** ** Angle and axis *)
Lemma angle_axis_near angle a n e m : finite angle -> vfinite a -> norm n = 1 -> norm (vsub (vval a) n) <= e -> e <= / 100 -> fangle_axis angle a m ->
  stands_for (31 * u + 55 / 10 * e) (m, turning (val angle) n).
Proof.
  intros Fa Fx N D E (s & c & S & C & M). pose proof u_pos as Up. pose proof u_small as Us. pose proof h_tiny as Ht. pose proof h_pos as Hp.
  destruct (library_near sin angle s Fa (sin_bound _) S) as (Fs & Es & _). destruct (library_near cos angle c Fa (cos_bound _) C) as (Fc & Ec & _).
  pose proof (sin_bound (val angle)) as Bs. pose proof (cos_bound (val angle)) as Bc. set (sn := sin (val angle)) in *. set (cn := cos (val angle)) in *.
  assert (Es' : Rabs (val s - sn) <= 2 * u + 2 * h) by nra. assert (Ec' : Rabs (val c - cn) <= 2 * u + 2 * h) by nra.
  pose proof (norm_near (vval a) n) as NA. pose proof (norm_near n (vval a)) as NN. rewrite N in NA, NN.
  replace (norm (vsub n (vval a))) with (norm (vsub (vval a) n)) in NN by (replace (vsub n (vval a)) with (vneg (vsub (vval a) n)) by vring; rewrite norm_neg; reflexivity).
  destruct (aa_rounding s c a m) as [Fm R]; try assumption.
  - replace (val s) with (sn + (val s - sn)) by ring. eapply Rle_trans; [apply Rabs_triang|]. lra.
  - replace (val c) with (cn + (val c - cn)) by ring. eapply Rle_trans; [apply Rabs_triang|]. lra.
  - lra.
  - split; [exact Fm|]. split; [apply turning_rotation, N|]. cbn [fst snd]. rewrite <- aa_turning by exact N.
    pose proof (aa_trig (val s) (val c) sn cn (vval a) ltac:(lra) ltac:(lra)) as T.
    pose proof (aa_axis sn cn (vval a) n N Bs Bc ltac:(lra)) as X.
    pose proof (apart_triangle (mval m) (aa (val s) (val c) (vval a)) (aa sn cn n)) as T1.
    pose proof (apart_triangle (aa (val s) (val c) (vval a)) (aa sn cn (vval a)) (aa sn cn n)) as T2. unfold sn, cn in *. lra.
Qed.

(** ** Norms *)
Lemma fsqrt_val x : finite x -> 0 <= val x -> finite (fsqrt x) /\ val (fsqrt x) = rd (sqrt (val x)).
Proof.
  intros F P. pose proof (@Bsqrt_correct 53 1024 prec_pos prec_emax mode_NE x) as (V & Q & _). split; [|exact V].
  unfold finite, fsqrt in *. rewrite Q. destruct x as [s|s| |s m e]; try reflexivity; try discriminate F. destruct s; [|reflexivity].
  exfalso. apply Rle_not_lt in P. apply P. unfold val, B2R. apply F2R_lt_0. reflexivity.
Qed.
Lemma fsum3_ge0 a b c x : finite a -> finite b -> finite c -> 0 <= val a <= 2 ^ 1000 -> 0 <= val b <= 2 ^ 1000 -> 0 <= val c <= 2 ^ 1000 -> fsum3 a b c x -> 0 <= val x.
Proof.
  intros A B C a0 b0 c0 X. destruct big_1000 as [_ Bg]. pose proof u_small. pose proof u_pos.
  assert (G : forall p q, finite p -> finite q -> 0 <= val p <= 3 * 2 ^ 1000 -> 0 <= val q <= 3 * 2 ^ 1000 -> finite (fadd p q) /\ 0 <= val (fadd p q)).
  { intros p q P Q p0 q0. destruct (fadd_val p q P Q) as [F V]; [apply no_overflow; rewrite Rabs_right; lra|]. split; [exact F|]. rewrite V. apply rd_ge0. lra. }
  assert (G' : forall p q, finite p -> finite q -> 0 <= val p <= 2 ^ 1000 -> 0 <= val q <= 2 ^ 1000 -> finite (fadd p q) /\ 0 <= val (fadd p q) <= 3 * 2 ^ 1000).
  { intros p q P Q p0 q0. destruct (G p q P Q ltac:(lra) ltac:(lra)) as [F L]. split; [exact F|]. split; [exact L|].
    destruct (add_error p q P Q) as [_ V]; [rewrite Rabs_right; lra|]. rewrite (Rabs_right (val p + val q)) in V by lra. apply Rabs_le_inv in V. nra. }
  destruct X.
  - destruct (G' a b A B a0 b0) as [F L]. apply (G (fadd a b) c F C L). lra.
  - destruct (G' b c B C b0 c0) as [F L]. apply (G a (fadd b c) A F); lra.
Qed.
Lemma squared_near v z : vfinite v -> norm (vval v) <= 2 ^ 490 -> fsquared_norm v z ->
  finite z /\ 0 <= val z /\ Rabs (val z - norm (vval v) * norm (vval v)) <= 301 / 100 * u * (norm (vval v) * norm (vval v)) + 4 * h.
Proof.
  intros (X & Y & Z) N D. pose proof (norm_nonneg (vval v)) as P.
  assert (Q : norm (vval v) * norm (vval v) <= 2 ^ 980). { change 980%nat with (490 + 490)%nat. rewrite pow_add. apply Rmult_le_compat; assumption. }
  assert (S : forall x, Rabs x * Rabs x = x * x). { intro x. rewrite <- Rabs_mult. apply Rabs_right, Rle_ge, Rle_0_sqr. }
  assert (B : 2 ^ 980 * 2 <= 2 ^ 1000). { change 1000%nat with (980 + 20)%nat. rewrite pow_add. apply Rmult_le_compat_l; [apply pow_le; lra|lra]. }
  assert (B0 : 1 <= 2 ^ 980) by (apply pow_R1_Rle; lra).
  rewrite norm_sqr in Q |- *. unfold norm2, dot in Q |- *. cbn [vval vx vy vz] in *. unfold fsquared_norm in D.
  pose proof (Rle_0_sqr (val (fx v))) as x0. pose proof (Rle_0_sqr (val (fy v))) as y0. pose proof (Rle_0_sqr (val (fz v))) as z0. unfold Rsqr in *.
  destruct (dot_error (fx v) (fy v) (fz v) (fx v) (fy v) (fz v) z X Y Z X Y Z) as [F E]; [rewrite !S; lra|exact D|].
  rewrite !S in E. split; [exact F|]. split; [|exact E]. pose proof u_small. pose proof u_pos. pose proof h_1. pose proof h_pos.
  assert (G : forall x, finite x -> val x * val x <= 2 ^ 980 -> finite (fmul x x) /\ 0 <= val (fmul x x) <= 2 ^ 1000).
  { intros x Fx L. pose proof (Rle_0_sqr (val x)) as Px. unfold Rsqr in Px. destruct (fmul_val x x Fx Fx) as [F' V]; [apply no_overflow; rewrite Rabs_right; lra|].
    split; [exact F'|]. rewrite V. split; [apply rd_ge0, Px|]. pose proof (rd_any (val x * val x)) as R. rewrite (Rabs_right (val x * val x)) in R by lra. apply Rabs_le_inv in R. nra. }
  destruct (G _ X ltac:(lra)), (G _ Y ltac:(lra)), (G _ Z ltac:(lra)). eapply fsum3_ge0; [| | | | | |exact D]; assumption.
Qed.
Lemma sqrt_near z L d : 0 < L -> 0 <= d <= / 100 -> Rabs (z - L * L) <= d * (L * L) -> Rabs (sqrt z - L) <= 51 / 100 * d * L.
Proof.
  intros P [D0 D] H. apply Rabs_le_inv in H. assert (z0 : 0 <= z) by nra. pose proof (sqrt_pos z) as S0. pose proof (sqrt_sqrt z z0) as SS. set (s := sqrt z) in *. clearbody s.
  assert (LL : 0 < L * L) by nra. assert (S1 : 99 / 100 * L <= s). { destruct (Rle_or_lt (99 / 100 * L) s) as [|C]; [assumption|]. exfalso. assert (s * s < 99 / 100 * L * (99 / 100 * L)) by (apply Rmult_le_0_lt_compat; lra). nra. }
  assert (DL : 0 <= d * L) by nra.
  apply Rabs_le. split.
  - destruct (Rle_or_lt (- (51 / 100 * d * L)) (s - L)) as [|C]; [assumption|]. exfalso.
    assert ((L - s) * (s + L) = L * L - z) by (rewrite <- SS; ring). assert (51 / 100 * d * L * (199 / 100 * L) <= (L - s) * (s + L)) by (apply Rmult_le_compat; lra). nra.
  - destruct (Rle_or_lt (s - L) (51 / 100 * d * L)) as [|C]; [assumption|]. exfalso.
    assert ((s - L) * (s + L) = z - L * L) by (rewrite <- SS; ring). assert (51 / 100 * d * L * (199 / 100 * L) <= (s - L) * (s + L)) by (apply Rmult_le_compat; lra). nra.
Qed.
