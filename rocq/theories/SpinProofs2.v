(** Proofs about the exponential of rotation vectors and quaternions in double precision. *)
From Coq Require Import Psatz.
From Flocq Require Import Core BinarySingleNaN Mult_error.
From Verif Require Import Cpp FloatModel FloatSpec FloatProofs NrmSpec NrmProofs LenProofs Vec RotSpec RotProofs CoeffProofs DriftModel DriftSpec DriftProofs DriftProofs2 SpinModel SpinSpec SpinProofs.
From Verif Require LenSpec FSampleProofs.
Local Open Scope R_scope.

(** ** Vectors that are not tiny *)
Lemma not_tiny L : / 2 ^ 500 <= L -> 4 * h <= u / 1000 * (L * L) /\ 0 < L.
Proof.
  intro H. assert (P : 0 < / 2 ^ 500) by (apply Rinv_0_lt_compat, pow_lt; lra). split; [|lra].
  apply Rle_trans with (u / 1000 * (/ 2 ^ 500 * / 2 ^ 500)); [|pose proof u_pos; apply Rmult_le_compat_l; [lra|apply Rmult_le_compat; lra]].
  rewrite <- (bpow_pow 500), <- bpow_opp, <- bpow_plus. assert (E : 4 * h * 1000 <= bpow radix2 (-1063)).
  { apply Rle_trans with (bpow radix2 12 * h); [|unfold h; rewrite <- bpow_plus; right; f_equal]. pose proof h_pos. change (bpow radix2 12) with 4096. lra. }
  rewrite u_bpow. apply Rmult_le_reg_r with 1000; [lra|]. eapply Rle_trans; [exact E|].
  replace (bpow radix2 (-53) / 1000 * bpow radix2 (- Z.of_nat 500 + - Z.of_nat 500) * 1000) with (bpow radix2 (-53) * bpow radix2 (- Z.of_nat 500 + - Z.of_nat 500)) by field.
  rewrite <- bpow_plus. apply bpow_le. lia.
Qed.
Lemma norm_near_big v z : vfinite v -> / 2 ^ 500 <= norm (vval v) -> norm (vval v) <= 2 ^ 490 -> fsquared_norm v z ->
  finite z /\ 0 < val z /\ finite (fsqrt z) /\ Rabs (val (fsqrt z) - norm (vval v)) <= 255 / 100 * u * norm (vval v).
Proof.
  intros F A B D. destruct (squared_near v z F B D) as (Fz & Pz & E). destruct (not_tiny _ A) as [H P]. set (L := norm (vval v)) in *. clearbody L.
  pose proof u_pos as Up. pose proof u_small as Us.
  assert (ULL : 0 < u * (L * L)) by (apply Rmult_lt_0_compat; [exact Up|apply Rmult_lt_0_compat; exact P]).
  assert (E' : Rabs (val z - L * L) <= 302 / 100 * u * (L * L)) by lra.
  destruct (fsqrt_val z Fz Pz) as [Fs V]. pose proof (sqrt_near (val z) L (302 / 100 * u) P ltac:(lra) E') as S.
  assert (Q : 0 < val z). { apply Rabs_le_inv in E'. assert (0 < L * L) by nra. nra. }
  split; [exact Fz|]. split; [exact Q|]. split; [exact Fs|]. rewrite V. set (s := sqrt (val z)) in *. clearbody s.
  assert (s1 : 999 / 1000 * L <= s <= 1001 / 1000 * L) by (apply Rabs_le_inv in S; nra).
  destruct (rd_rel s) as (e & Ee & ->).
  { rewrite Rabs_right by lra. apply Rle_trans with (999 / 1000 * / 2 ^ 500); [|lra]. rewrite <- (bpow_pow 500), <- bpow_opp.
    apply Rle_trans with (bpow radix2 (-501)); [apply bpow_le; lia|]. change (-501)%Z with (-1 + - Z.of_nat 500)%Z. rewrite bpow_plus. change (bpow radix2 (-1)) with (/ 2). pose proof (bpow_gt_0 radix2 (- Z.of_nat 500)). lra. }
  rewrite <- u_bpow in Ee. replace (s * (1 + e) - L) with ((s - L) + s * e) by ring. eapply Rle_trans; [apply Rabs_triang|]. rewrite Rabs_mult, (Rabs_right s) by lra.
  assert (s * Rabs e <= 1001 / 1000 * L * u) by (pose proof (Rabs_pos e); apply Rmult_le_compat; lra). nra.
Qed.
Lemma entry_normalized x r L : finite x -> finite r -> 0 < L -> Rabs (val r - L) <= 255 / 100 * u * L -> Rabs (val x) <= L ->
  finite (fdivide x r) /\ Rabs (val (fdivide x r) - val x / L) <= 357 / 100 * u * Rabs (val x / L) + h.
Proof.
  intros Fx Fr P R B. pose proof u_pos as Up. pose proof u_small as Us.
  assert (Q : 9999 / 10000 * L <= val r) by (apply Rabs_le_inv in R; nra). assert (r0 : 0 < val r) by nra.
  set (q := val x / L). assert (Bq : Rabs q <= 1). { unfold q, Rdiv. rewrite Rabs_mult, Rabs_inv, (Rabs_right L) by lra. apply Rmult_le_reg_r with L; [exact P|]. rewrite Rmult_assoc, Rinv_l; lra. }
  assert (E : Rabs (val x / val r - q) <= 256 / 100 * u * Rabs q).
  { replace (val x / val r - q) with (q * ((L - val r) / val r)) by (unfold q; field; lra). rewrite Rabs_mult, Rmult_comm. apply Rmult_le_compat_r; [apply Rabs_pos|].
    unfold Rdiv. rewrite Rabs_mult, Rabs_inv, (Rabs_right (val r)) by lra. rewrite Rabs_minus_sym. apply Rmult_le_reg_r with (val r); [exact r0|]. rewrite Rmult_assoc, Rinv_l, Rmult_1_r by lra. nra. }
  pose proof (Rabs_pos q) as q0.
  assert (L1 : Rabs (val x / val r) <= 1001 / 1000 * Rabs q). { replace (val x / val r) with (q + (val x / val r - q)) by ring. eapply Rle_trans; [apply Rabs_triang|]. nra. }
  destruct (fdiv_val x r Fx ltac:(lra)) as [F V]; [apply pow_1023_big; apply Rle_trans with (2 ^ 1); [lra|apply Rle_pow; [lra|lia]]|].
  split; [exact F|]. rewrite V. pose proof (rd_any (val x / val r)) as T.
  replace (rd (val x / val r) - q) with ((rd (val x / val r) - val x / val r) + (val x / val r - q)) by ring. eapply Rle_trans; [apply Rabs_triang|]. nra.
Qed.
Lemma direction_unit v : 0 < norm v -> norm (direction v) = 1.
Proof. intro P. unfold direction. rewrite norm_scale, Rabs_right by (apply Rle_ge, Rlt_le, Rinv_0_lt_compat, P). field. lra. Qed.
Lemma normalized_near v w : vfinite v -> / 2 ^ 500 <= norm (vval v) -> norm (vval v) <= 2 ^ 490 -> fnormalized v w ->
  vfinite w /\ norm (vsub (vval w) (direction (vval v))) <= 36 / 10 * u.
Proof.
  intros F A B (z & D & ->). destruct (norm_near_big v z F A B D) as (Fz & Pz & Fs & Es). destruct (not_tiny _ A) as [_ P].
  replace (flt (of_int 0) z) with true.
  2:{ symmetry. apply flt_val; [apply of_int_0|exact Fz|]. rewrite (proj2 of_int_0). exact Pz. }
  destruct F as (X & Y & Z). destruct (entry_norm (vval v)) as (Bx & By & Bz). cbn [vval vx vy vz] in *.
  destruct (entry_normalized (fx v) (fsqrt z) _ X Fs P Es Bx) as [F0 E0]. destruct (entry_normalized (fy v) (fsqrt z) _ Y Fs P Es By) as [F1 E1]. destruct (entry_normalized (fz v) (fsqrt z) _ Z Fs P Es Bz) as [F2 E2].
  split; [repeat split; assumption|]. set (L := norm _) in *. set (n := direction (vval v)).
  assert (N : norm n = 1) by (apply direction_unit, P).
  apply Rle_trans with (norm (vadd (vscale (357 / 100 * u) (vabs n)) (vscale h (V3 1 1 1)))).
  - apply norm_mono; unfold n, direction, vadd, vscale, vsub, vabs, vval; cbn [vx vy vz fx fy fz]; fold (norm (vval v)); rewrite Rmult_1_r;
      match goal with |- Rabs (val ?d - / ?l * ?x) <= _ => change l with L; replace (/ L * x) with (x / L) by (unfold Rdiv; ring) end; assumption.
  - eapply Rle_trans; [apply norm_triangle|]. rewrite !norm_scale, norm_vabs, N. pose proof u_pos. pose proof h_pos. pose proof h_tiny. rewrite !Rabs_right by lra.
    assert (norm (V3 1 1 1) <= 2). { unfold norm. rewrite <- (sqrt_square 2) by lra. apply sqrt_le_1; unfold norm2, dot; cbn [vx vy vz]; lra. } nra.
Qed.
Lemma exp_big v m : vfinite v -> / 2 ^ 500 <= norm (vval v) -> norm (vval v) <= 2 ^ 490 -> fso3_exp v m ->
  stands_for ((51 + 4 * norm (vval v)) * u) (m, turning (norm (vval v)) (direction (vval v))).
Proof.
  intros F A B (t & a & (z & D & ->) & W & M). destruct (norm_near_big v z F A B D) as (Fz & Pz & Fs & Es). destruct (normalized_near v a F A B W) as [Fa Ea]. destruct (not_tiny _ A) as [_ P].
  pose proof u_pos. pose proof u_small. pose proof (direction_unit _ P) as N.
  destruct (angle_axis_near _ _ _ _ m Fs Fa N Ea ltac:(lra) M) as (Fm & _ & E). cbn [fst snd] in E. split; [exact Fm|]. split; [apply turning_rotation, N|]. cbn [fst snd].
  pose proof (apart_triangle (mval m) (turning (val (fsqrt z)) (direction (vval v))) (turning (norm (vval v)) (direction (vval v)))) as T.
  pose proof (turning_angle (val (fsqrt z)) (norm (vval v)) _ N) as S. nra.
Qed.

(** ** Tiny vectors *)
Lemma two_500 : 0 < / 2 ^ 500 /\ / 2 ^ 500 <= u / 100000 /\ / 2 ^ 500 * / 2 ^ 500 <= u / 1000000 * (u / 100000) .
Proof.
  assert (P : 0 < / 2 ^ 500) by (apply Rinv_0_lt_compat, pow_lt; lra). split; [exact P|].
  assert (E : / 2 ^ 500 <= u / 1000000).
  { apply Rle_trans with (/ 2 ^ 80); [|rewrite u_num; lra]. apply Rinv_le_contravar; [apply pow_lt; lra|apply Rle_pow; [lra|lia]]. }
  pose proof u_pos. split; [lra|]. apply Rmult_le_compat; lra.
Qed.
Lemma tiny_angle v z : vfinite v -> norm (vval v) <= / 2 ^ 500 -> fsquared_norm v z ->
  finite z /\ 0 <= val z /\ finite (fsqrt z) /\ Rabs (val (fsqrt z)) <= u / 1000 /\
  (0 < val z -> norm (vval v) <= 18 / 10 * val (fsqrt z)).
Proof.
  intros F A D. destruct two_500 as (T0 & T1 & T2). pose proof u_pos as Up. pose proof u_small as Us. pose proof h_tiny as Ht. pose proof h_pos as Hp. pose proof (norm_nonneg (vval v)) as N0.
  destruct (squared_near v z F) as (Fz & Pz & E); [|exact D|].
  { eapply Rle_trans; [exact A|]. apply Rle_trans with 1; [lra|apply pow_R1_Rle; lra]. }
  set (L := norm (vval v)) in *. clearbody L. destruct (fsqrt_val z Fz Pz) as [Fs V]. split; [exact Fz|]. split; [exact Pz|]. split; [exact Fs|].
  assert (LL : 0 <= L * L <= u / 1000000 * (u / 100000)). { split; [nra|]. apply Rle_trans with (/ 2 ^ 500 * / 2 ^ 500); [apply Rmult_le_compat; lra|exact T2]. }
  assert (hh : 4 * h <= u * u / 100000000).
  { assert (G : h <= bpow radix2 (-140)) by (apply bpow_le; lia). change (bpow radix2 (-140)) with (/ 1393796574908163946345982392040522594123776) in G. rewrite u_num. lra. }
  assert (Z : val z <= u / 2000 * (u / 2000)). { apply Rabs_le_inv in E. assert (301 / 100 * u * (L * L) <= L * L) by nra. lra. }
  pose proof (sqrt_le_1_alt _ _ Z) as S. rewrite sqrt_square in S by lra. pose proof (sqrt_pos (val z)) as S0. pose proof (sqrt_sqrt _ Pz) as SS. split.
  - rewrite V. pose proof (rd_any (sqrt (val z))) as R. rewrite (Rabs_right (sqrt (val z))) in R by lra. apply Rabs_le_inv in R. apply Rabs_le. nra.
  - intro P. assert (M : 2 * h <= val z).
    { destruct (whole z) as [k K]. rewrite K in P |- *. replace (2 * h) with (bpow radix2 (-1074)) by (unfold h; change (-1074)%Z with (1 + -1075)%Z; rewrite bpow_plus; reflexivity).
      pose proof (bpow_gt_0 radix2 (-1074)) as B. assert (0 < IZR k) by nra. assert (1 <= k)%Z by (apply lt_IZR in H; lia). apply IZR_le in H0. nra. }
    assert (Q : L * L <= 304 / 100 * val z) by (apply Rabs_le_inv in E; nra).
    destruct (rd_rel (sqrt (val z))) as (e & Ee & Er).
    { rewrite Rabs_right by lra. apply Rle_trans with (sqrt (bpow radix2 (2 * -538))).
      - rewrite sqrt_bpow. apply bpow_le. lia.
      - apply sqrt_le_1_alt. eapply Rle_trans; [|exact M]. apply Rle_trans with h; [|lra]. apply bpow_le. lia. }
    rewrite <- u_bpow in Ee. rewrite V, Er. apply Rabs_le_inv in Ee. set (s := sqrt (val z)) in *. clearbody s.
    assert (s * (999 / 1000) <= s * (1 + e)) by (apply Rmult_le_compat_l; lra).
    destruct (Rle_or_lt L (18 / 10 * (s * (1 + e)))) as [|C]; [assumption|]. exfalso.
    assert (18 / 10 * (s * (999 / 1000)) * (18 / 10 * (s * (999 / 1000))) <= L * L) by (apply Rmult_le_compat; lra). nra.
Qed.
Lemma tiny_axis v w : vfinite v -> norm (vval v) <= / 2 ^ 500 -> fnormalized v w ->
  vfinite w /\ Rabs (val (fx w)) <= 2 /\ Rabs (val (fy w)) <= 2 /\ Rabs (val (fz w)) <= 2.
Proof.
  intros F A (z & D & ->). destruct (tiny_angle v z F A D) as (Fz & Pz & Fs & _ & Q). destruct two_500 as (T0 & T1 & _). pose proof u_small.
  destruct (entry_norm (vval v)) as (Bx & By & Bz). cbn [vval vx vy vz] in *. destruct (flt (of_int 0) z) eqn:C; [|split; [exact F|]; repeat split; lra].
  apply flt_val in C; [|apply of_int_0|exact Fz]. rewrite (proj2 of_int_0) in C. specialize (Q C). destruct F as (X & Y & Z).
  assert (Pr : 0 < val (fsqrt z)).
  { destruct (Rle_or_lt (val (fsqrt z)) 0) as [N|]; [|assumption]. exfalso. destruct (fsqrt_val z Fz Pz) as [_ V]. assert (N0 : norm (vval v) = 0) by (pose proof (norm_nonneg (vval v)); lra).
    assert (x0 : val (fx v) = 0 /\ val (fy v) = 0 /\ val (fz v) = 0). { rewrite N0 in *. repeat split; match goal with H : Rabs ?x <= 0 |- ?x = 0 => apply Rabs_le_inv in H; lra end. }
    destruct x0 as (x0 & y0 & z0). destruct (mul_zero _ _ X X (or_introl x0)) as [FX VX]. destruct (mul_zero _ _ Y Y (or_introl y0)) as [FY VY]. destruct (mul_zero _ _ Z Z (or_introl z0)) as [FZ VZ].
    assert (val z = 0); [|lra]. unfold fsquared_norm, fdot in D. destruct D.
    - destruct (add_zero _ _ FX FY (or_introl VX)) as [F2 V2]. destruct (add_zero _ _ F2 FZ (or_intror VZ)) as [F3 V3]. rewrite V3, V2. lra.
    - destruct (add_zero _ _ FY FZ (or_introl VY)) as [F2 V2]. destruct (add_zero _ _ FX F2 (or_introl VX)) as [F3 V3]. rewrite V3, V2. lra. }
  assert (G : forall x, finite x -> Rabs (val x) <= norm (vval v) -> finite (fdivide x (fsqrt z)) /\ Rabs (val (fdivide x (fsqrt z))) <= 2).
  { intros x Fx Bd. assert (L : Rabs (val x / val (fsqrt z)) <= 2).
    { unfold Rdiv. rewrite Rabs_mult, Rabs_inv, (Rabs_right (val (fsqrt z))) by lra. apply Rmult_le_reg_r with (val (fsqrt z)); [exact Pr|]. rewrite Rmult_assoc, Rinv_l; lra. }
    destruct (fdiv_val x (fsqrt z) Fx ltac:(lra)) as [F V]; [apply pow_1023_big; apply Rle_trans with (2 ^ 1); [lra|apply Rle_pow; [lra|lia]]|].
    split; [exact F|]. rewrite V. change 2 with (IZR 2). apply rd_le_int; [cbn; lia|exact L]. }
  destruct (G _ X Bx), (G _ Y By), (G _ Z Bz). split; [repeat split; assumption|]. repeat split; assumption.
Qed.
Section Tiny.
  Variables s c : f64.
  Hypothesis As : ap s 0 (u / 100).
  Hypothesis Ac : ap c 1 (201 / 100 * u).
  Variables ai aj ak : f64.
  Hypothesis Fi : finite ai.
  Hypothesis Fj : finite aj.
  Hypothesis Fk : finite ak.
  Hypothesis Bi : Rabs (val ai) <= 2.
  Hypothesis Bj : Rabs (val aj) <= 2.
  Hypothesis Bk : Rabs (val ak) <= 2.
  Let k := fsub (of_int 1) c.
  Lemma tiny_k : ap k 0 (202 / 100 * u).
  Proof.
    destruct of_int_1 as [F1 V1]. pose proof (ap_val _ F1) as A. rewrite V1 in A. replace 0 with (1 - 1) by ring. pose proof u_small. pose proof u_pos.
    eapply ap_weaken; [apply (ap_sub _ _ _ _ _ _ 0 A Ac)|rewrite u_num in *; lra]; try (rewrite u_num in *; lra). rewrite Rminus_eq_0, Rabs_R0. lra.
  Qed.
  Lemma tiny_ki : ap (fmul k ai) 0 (405 / 100 * u).
  Proof.
    replace 0 with (0 * val ai) by ring. pose proof h_tiny.
    eapply ap_weaken; [apply (ap_mul _ _ _ _ _ _ 0 2 0 tiny_k (ap_val _ Fi))|]; try (rewrite u_num in *; lra); rewrite ?Rmult_0_l, ?Rabs_R0; lra.
  Qed.
  Lemma tiny_kij : ap (fmul (fmul k ai) aj) 0 (812 / 100 * u).
  Proof.
    replace 0 with (0 * val aj) by ring. pose proof h_tiny.
    eapply ap_weaken; [apply (ap_mul _ _ _ _ _ _ 0 2 0 tiny_ki (ap_val _ Fj))|]; try (rewrite u_num in *; lra); rewrite ?Rmult_0_l, ?Rabs_R0; lra.
  Qed.
  Lemma tiny_sk : ap (fmul s ak) 0 (3 / 100 * u).
  Proof.
    replace 0 with (0 * val ak) by ring. pose proof h_tiny.
    eapply ap_weaken; [apply (ap_mul _ _ _ _ _ _ 0 2 0 As (ap_val _ Fk))|]; try (rewrite u_num in *; lra); rewrite ?Rmult_0_l, ?Rabs_R0; lra.
  Qed.
  Lemma tiny_plus : ap (fadd (fmul (fmul k ai) aj) (fmul s ak)) 0 (112 / 10 * u).
  Proof.
    replace 0 with (0 + 0) by ring. eapply ap_weaken; [apply (ap_add _ _ _ _ _ _ 0 tiny_kij tiny_sk)|]; try (rewrite u_num in *; lra). rewrite Rplus_0_l, Rabs_R0. lra.
  Qed.
  Lemma tiny_minus : ap (fsub (fmul (fmul k ai) aj) (fmul s ak)) 0 (112 / 10 * u).
  Proof.
    replace 0 with (0 - 0) by ring. eapply ap_weaken; [apply (ap_sub _ _ _ _ _ _ 0 tiny_kij tiny_sk)|]; try (rewrite u_num in *; lra). rewrite Rminus_0_r, Rabs_R0. lra.
  Qed.
  Lemma tiny_diagonal : ap (fadd (fmul (fmul k ai) aj) c) 1 (112 / 10 * u).
  Proof.
    replace 1 with (0 + 1) by ring. eapply ap_weaken; [apply (ap_add _ _ _ _ _ _ 1 tiny_kij Ac)|]; try (rewrite u_num in *; lra). rewrite Rplus_0_l, Rabs_R1. lra.
  Qed.
End Tiny.
Lemma exp_tiny v m : vfinite v -> norm (vval v) <= / 2 ^ 500 -> fso3_exp v m -> mfinite m /\ apart (mval m) mid <= 34 * u.
Proof.
  intros F A (t & a & (z & D & ->) & W & s & c & S & C & ->). cbv zeta. destruct (tiny_angle v z F A D) as (Fz & Pz & Ft & Bt & _). destruct (tiny_axis v a F A W) as ((X & Y & Z) & Bx & By & Bz).
  pose proof u_pos as Up. pose proof u_small as Us. pose proof h_tiny as Ht. pose proof h_pos as Hp.
  destruct (library_near sin _ s Ft (sin_bound _) S) as (Fs & Es & _). destruct (library_near cos _ c Ft (cos_bound _) C) as (Fc & Ec & _).
  pose proof (abs_sin (val (fsqrt z))) as Ls. pose proof (cos_above (val (fsqrt z))) as Lc. pose proof (cos_bound (val (fsqrt z))) as Bc. set (t := val (fsqrt z)) in *.
  assert (tt : t ^ 2 <= u / 1000). { rewrite <- pow2_abs. pose proof (Rabs_pos t). nra. }
  assert (As : ap s 0 (u / 100)). { split; [exact Fs|]. replace (val s - 0) with ((val s - sin t) + sin t) by ring. eapply Rle_trans; [apply Rabs_triang|]. nra. }
  assert (Ac : ap c 1 (201 / 100 * u)). { split; [exact Fc|]. replace (val c - 1) with ((val c - cos t) + (cos t - 1)) by ring. eapply Rle_trans; [apply Rabs_triang|].
    assert (Rabs (cos t - 1) <= u / 1000) by (apply Rabs_le; apply Rabs_le_inv in Bc; lra). nra. }
  destruct (tiny_diagonal s c As Ac (fx a) (fx a) X X Bx Bx) as [F0 E0].
  destruct (tiny_diagonal s c As Ac (fy a) (fy a) Y Y By By) as [F4 E4].
  destruct (tiny_diagonal s c As Ac (fz a) (fz a) Z Z Bz Bz) as [F8 E8].
  destruct (tiny_minus s c As Ac (fx a) (fy a) (fz a) X Y Z Bx By Bz) as [F1 E1].
  destruct (tiny_plus s c As Ac (fx a) (fz a) (fy a) X Z Y Bx Bz By) as [F2 E2].
  destruct (tiny_plus s c As Ac (fx a) (fy a) (fz a) X Y Z Bx By Bz) as [F3 E3].
  destruct (tiny_minus s c As Ac (fy a) (fz a) (fx a) Y Z X By Bz Bx) as [F5 E5].
  destruct (tiny_minus s c As Ac (fx a) (fz a) (fy a) X Z Y Bx Bz By) as [F6 E6].
  destruct (tiny_plus s c As Ac (fy a) (fz a) (fx a) Y Z X By Bz Bx) as [F7 E7].
  split; [repeat split; assumption|]. apply Rle_trans with (3 * (112 / 10 * u)); [|lra].
  apply size_all; unfold madd, mscale, mval, mid; cbn [m00 m01 m02 m10 m11 m12 m20 m21 m22 f00 f01 f02 f10 f11 f12 f20 f21 f22];
    match goal with H : Rabs (val ?x - _) <= _ |- Rabs (val ?x + _) <= _ => eapply Rle_trans; [|exact H]; right; f_equal; ring end.
Qed.
Lemma turning_0 n : norm n = 1 -> turning 0 n = mid.
Proof. intro N. rewrite <- aa_turning by exact N. rewrite sin_0, cos_0. unfold aa, mid. f_equal; ring. Qed.
Lemma norm_0 v : norm v = 0 -> v = vzero.
Proof.
  intro N. destruct (entry_norm v) as (X & Y & Z). rewrite N in *. destruct v as [x y z]. cbn [vx vy vz] in *. apply Rabs_le_inv in X, Y, Z. unfold vzero. f_equal; lra.
Qed.
Lemma norm_zero : norm vzero = 0.
Proof. unfold norm, norm2, dot, vzero. cbn [vx vy vz]. replace (0 * 0 + 0 * 0 + 0 * 0) with 0 by ring. apply sqrt_0. Qed.
Lemma mid_rotation : is_rotation mid.
Proof. split; [vring|]. unfold det, mid. cbn [m00 m01 m02 m10 m11 m12 m20 m21 m22]. ring. Qed.
Lemma exp_near v r m : vfinite v -> norm (vval v) <= 2 ^ 490 -> rotation_by (vval v) r -> fso3_exp v m ->
  stands_for ((51 + 4 * norm (vval v)) * u) (m, r).
Proof.
  intros F B R M. destruct (Rle_or_lt (/ 2 ^ 500) (norm (vval v))) as [A|A].
  - destruct R as [[Z _]|[_ ->]]; [|apply exp_big; assumption]. exfalso. rewrite Z, norm_zero in A. pose proof (proj1 two_500). lra.
  - destruct (exp_tiny v m F (Rlt_le _ _ A) M) as [Fm E]. pose proof u_pos. pose proof (norm_nonneg (vval v)) as N0. destruct two_500 as (_ & T & _).
    split; [exact Fm|]. destruct R as [[_ ->]|[Z ->]]; cbn [fst snd].
    + split; [apply mid_rotation|]. nra.
    + assert (P : 0 < norm (vval v)) by (destruct N0 as [|N0]; [assumption|exfalso; apply Z, norm_0; congruence]). pose proof (direction_unit _ P) as N.
      split; [apply turning_rotation, N|]. pose proof (apart_triangle (mval m) mid (turning (norm (vval v)) (direction (vval v)))) as Tr.
      pose proof (turning_angle 0 (norm (vval v)) _ N) as S. rewrite (turning_0 _ N) in S. rewrite Rminus_0_l, Rabs_Ropp, (Rabs_right (norm (vval v))) in S by lra. nra.
Qed.
Lemma some_angle_axis t a : exists m, fangle_axis t a m.
Proof. destruct (some_sin t) as [s S], (some_cos t) as [c C]. eexists. exists s, c. split; [exact S|]. split; [exact C|]. reflexivity. Qed.
Lemma some_exp v : exists m, fso3_exp v m.
Proof.
  set (z := fadd (fadd (fmul (fx v) (fx v)) (fmul (fy v) (fy v))) (fmul (fz v) (fz v))). assert (D : fsquared_norm v z) by apply sum_left.
  destruct (some_angle_axis (fsqrt z) (if flt (of_int 0) z then FV (fdivide (fx v) (fsqrt z)) (fdivide (fy v) (fsqrt z)) (fdivide (fz v) (fsqrt z)) else v)) as [m M].
  exists m. eexists. eexists. split; [exists z; split; [exact D|reflexivity]|]. split; [exists z; split; [exact D|reflexivity]|]. exact M.
Qed.
Lemma rotation_by_some v : exists r, rotation_by v r.
Proof.
  destruct (Req_dec (norm v) 0) as [Z|Z].
  - exists mid. left. split; [apply norm_0, Z|reflexivity].
  - eexists. right. split; [|reflexivity]. intros ->. apply Z, norm_zero.
Qed.

(** ** No turn, and too long a vector *)
Lemma zero_squared v z : vfinite v -> vval v = vzero -> fsquared_norm v z -> finite z /\ val z = 0.
Proof.
  intros (X & Y & Z) E D. unfold vval, vzero in E. injection E as x0 y0 z0.
  destruct (mul_zero _ _ X X (or_introl x0)) as [FX VX]. destruct (mul_zero _ _ Y Y (or_introl y0)) as [FY VY]. destruct (mul_zero _ _ Z Z (or_introl z0)) as [FZ VZ].
  unfold fsquared_norm, fdot in D. destruct D.
  - destruct (add_zero _ _ FX FY (or_introl VX)) as [F2 V2]. destruct (add_zero _ _ F2 FZ (or_intror VZ)) as [F3 V3]. rewrite V3, V2. split; [exact F3|lra].
  - destruct (add_zero _ _ FY FZ (or_introl VY)) as [F2 V2]. destruct (add_zero _ _ FX F2 (or_introl VX)) as [F3 V3]. rewrite V3, V2. split; [exact F3|lra].
Qed.
Lemma sub_exact a b : finite a -> finite b -> val a = val b -> finite (fsub a b) /\ val (fsub a b) = 0.
Proof. intros A B E. destruct (fsub_val a b A B) as [F V]; [rewrite E, Rminus_eq_0; apply no_overflow; rewrite Rabs_R0; destruct big_1000; lra|]. split; [exact F|]. rewrite V, E, Rminus_eq_0. apply rd_0. Qed.
Lemma no_turn t a m : finite t -> val t = 0 -> vfinite a -> fangle_axis t a m -> mfinite m /\ mval m = mid.
Proof.
  intros Ft Vt (X & Y & Z) (s & c & S & C & ->). cbv zeta.
  destruct (library_near sin t s Ft (sin_bound _) S) as (Fs & _ & Es). destruct (library_near cos t c Ft (cos_bound _) C) as (Fc & _ & Ec). specialize (Es Vt). specialize (Ec Vt). rewrite sin_0 in Es. rewrite cos_0 in Ec.
  destruct of_int_1 as [F1 V1]. destruct (sub_exact (of_int 1) c F1 Fc ltac:(lra)) as [Fk Vk]. set (k := fsub (of_int 1) c) in *.
  assert (K : forall p q, finite p -> finite q -> finite (fmul (fmul k p) q) /\ val (fmul (fmul k p) q) = 0).
  { intros p q P Q. destruct (mul_zero k p Fk P (or_introl Vk)) as [A B]. apply (mul_zero _ _ A Q (or_introl B)). }
  assert (S' : forall p, finite p -> finite (fmul s p) /\ val (fmul s p) = 0) by (intros p P; apply (mul_zero _ _ Fs P (or_introl Es))).
  assert (Dg : forall p q, finite p -> finite q -> finite (fadd (fmul (fmul k p) q) c) /\ val (fadd (fmul (fmul k p) q) c) = 1).
  { intros p q P Q. destruct (K p q P Q) as [A B]. destruct (add_zero _ c A Fc (or_introl B)) as [A' B']. split; [exact A'|lra]. }
  assert (Pl : forall p q r, finite p -> finite q -> finite r -> finite (fadd (fmul (fmul k p) q) (fmul s r)) /\ val (fadd (fmul (fmul k p) q) (fmul s r)) = 0).
  { intros p q r P Q R. destruct (K p q P Q) as [A B]. destruct (S' r R) as [A2 B2]. destruct (add_zero _ _ A A2 (or_introl B)) as [A' B']. split; [exact A'|lra]. }
  assert (Mi : forall p q r, finite p -> finite q -> finite r -> finite (fsub (fmul (fmul k p) q) (fmul s r)) /\ val (fsub (fmul (fmul k p) q) (fmul s r)) = 0).
  { intros p q r P Q R. destruct (K p q P Q) as [A B]. destruct (S' r R) as [A2 B2]. apply sub_exact; [exact A|exact A2|lra]. }
  split.
  - repeat split; first [apply Dg; assumption|apply Pl; assumption|apply Mi; assumption].
  - unfold mval, mid. cbn [f00 f01 f02 f10 f11 f12 f20 f21 f22]. f_equal; first [apply Dg; assumption|apply Pl; assumption|apply Mi; assumption].
Qed.
Lemma exp_zero v m : vfinite v -> vval v = vzero -> fso3_exp v m -> mfinite m /\ mval m = mid.
Proof.
  intros F E (t & a & (z & D & ->) & (z' & D' & ->) & M). destruct (zero_squared v z F E D) as [Fz Vz]. destruct (zero_squared v z' F E D') as [Fz' Vz'].
  destruct (fsqrt_val z Fz ltac:(lra)) as [Fs Vs]. rewrite Vz, sqrt_0, rd_0 in Vs.
  replace (flt (of_int 0) z') with false in M.
  - apply (no_turn _ v m Fs Vs F M).
  - symmetry. destruct (flt (of_int 0) z') eqn:C; [|reflexivity]. apply flt_val in C; [|apply of_int_0|exact Fz']. rewrite (proj2 of_int_0) in C. lra.
Qed.
Lemma fadd_nan_r x : fadd x B754_nan = B754_nan.
Proof. destruct x as [[]|[]| |[] ? ? ?]; reflexivity. Qed.
Lemma square_length x : finite x -> LenSpec.a_length (fmul x x) /\ (2 ^ 512 <= Rabs (val x) -> ~ finite (fmul x x)).
Proof.
  intro F. assert (Q : 0 <= val x * val x) by apply Rle_0_sqr. destruct (Rle_lt_dec (2 ^ 1024) (Rabs (rd (val x * val x)))) as [O|O].
  - pose proof (@Bmult_correct 53 1024 prec_pos prec_emax mode_NE x x) as C. rewrite Rlt_bool_false in C by (rewrite bpow_1024; exact O).
    rewrite xorb_nilpotent in C. apply FSampleProofs.inf_of in C. change (fmul x x = B754_infinity false) in C. rewrite C. split; [|intros _; discriminate].
    split; [intro N; discriminate N|]. cbn [place]. apply pow_le. lra.
  - destruct (fmul_val x x F F) as [Fm V]; [unfold overflows; lra|]. split.
    + split; [apply finite_not_nan, Fm|]. rewrite (place_finite _ Fm), V. apply rd_ge0, Q.
    + intros B _. assert (L : 2 ^ 1024 <= val x * val x).
      { change 1024%nat with (512 + 512)%nat. rewrite pow_add. rewrite <- (Rabs_right (val x * val x)) by lra. rewrite Rabs_mult. assert (0 <= 2 ^ 512) by (apply pow_le; lra). apply Rmult_le_compat; lra. }
      apply rd_le in L. rewrite <- bpow_1024 in L at 1. rewrite (rd_id (bpow radix2 1024)) in L by (apply fmt_bpow; lia). rewrite bpow_1024 in L. rewrite Rabs_right in O; [lra|]. apply Rle_ge, rd_ge0, Q.
Qed.
Lemma not_finite_infinite x : LenSpec.a_length x -> ~ finite x -> x = B754_infinity false.
Proof. intros [N P] F. destruct (place_cases x N P); [contradiction|assumption]. Qed.
Lemma long_squared v z : vfinite v -> 2 ^ 512 <= Rabs (val (fx v)) \/ 2 ^ 512 <= Rabs (val (fy v)) \/ 2 ^ 512 <= Rabs (val (fz v)) ->
  fsquared_norm v z -> z = B754_infinity false.
Proof.
  intros (X & Y & Z) H D. destruct (square_length _ X) as [LX OX], (square_length _ Y) as [LY OY], (square_length _ Z) as [LZ OZ].
  unfold fsquared_norm, fdot in D. apply not_finite_infinite; destruct D.
  - apply add_length; [apply add_length|]; assumption.
  - apply add_length; [|apply add_length]; assumption.
  - destruct (add_length _ _ LX LY) as (L2 & _ & F2). destruct (add_length _ _ L2 LZ) as (_ & _ & F3). intro F. destruct (F3 F) as (A & B & _). destruct (F2 A) as (A' & B' & _). tauto.
  - destruct (add_length _ _ LY LZ) as (L2 & _ & F2). destruct (add_length _ _ LX L2) as (_ & _ & F3). intro F. destruct (F3 F) as (A & B & _). destruct (F2 B) as (A' & B' & _). tauto.
Qed.
Lemma fmul_nan_l x : fmul B754_nan x = B754_nan.
Proof. destruct x as [[]|[]| |[] ? ? ?]; reflexivity. Qed.
Lemma fsub_nan_r x : fsub x B754_nan = B754_nan.
Proof. destruct x as [[]|[]| |[] ? ? ?]; reflexivity. Qed.
Lemma exp_nan v m : vfinite v -> 2 ^ 512 <= Rabs (val (fx v)) \/ 2 ^ 512 <= Rabs (val (fy v)) \/ 2 ^ 512 <= Rabs (val (fz v)) -> fso3_exp v m ->
  m = FM B754_nan B754_nan B754_nan B754_nan B754_nan B754_nan B754_nan B754_nan B754_nan.
Proof.
  intros F H (t & a & (w & D & ->) & _ & s & c & S & C & ->). rewrite (long_squared v w F H D) in *.
  change (s = B754_nan) in S. change (c = B754_nan) in C. subst s c. cbv zeta. rewrite !fmul_nan_l, !fadd_nan_r, !fsub_nan_r. reflexivity.
Qed.

(** ** Quaternions *)
Lemma twice_exact x : finite x -> Rabs (val x) <= 2 -> finite (fmul (of_int 2) x) /\ val (fmul (of_int 2) x) = 2 * val x.
Proof.
  intros F B. destruct (of_small 2) as [F2 V2]; [lia|]. destruct (fmul_val _ x F2 F) as [Fm V].
  { rewrite V2. apply pow_1023_big. rewrite Rabs_mult, (Rabs_right 2) by lra. apply Rle_trans with (2 ^ 2); [lra|apply Rle_pow; [lra|lia]]. }
  split; [exact Fm|]. rewrite V, V2. apply rd_id. rewrite Rmult_comm. change 2 with (bpow radix2 1). apply mult_bpow_pos_exact_FLT; [apply val_fmt|lia].
Qed.
Lemma twice_near a b : finite a -> finite b -> Rabs (val a) <= 2 -> Rabs (val b) <= 2 ->
  ap (fmul (fmul (of_int 2) a) b) (2 * val a * val b) (u * Rabs (2 * val a * val b) + h).
Proof.
  intros Fa Fb Ba Bb. destruct (twice_exact a Fa Ba) as [F V]. pose proof (ap_val _ F) as A. rewrite V in A.
  eapply ap_weaken; [apply (ap_mul _ _ _ _ _ _ 4 2 (Rabs (2 * val a * val b)) A (ap_val _ Fb))|]; try lra; try apply Rle_refl.
  rewrite Rabs_mult, (Rabs_right 2) by lra. lra.
Qed.
Lemma small_entry t : t ^ 2 <= 1021 / 1000 -> Rabs t <= 2.
Proof. intro T. apply Rabs_le. split; nra. Qed.
Lemma quaternion_diagonal y z : finite y -> finite z -> val y ^ 2 + val z ^ 2 <= 1021 / 1000 ->
  ap (fsub (of_int 1) (fadd (fmul (fmul (of_int 2) y) y) (fmul (fmul (of_int 2) z) z))) (1 - (2 * val y * val y + 2 * val z * val z)) (52 / 10 * u).
Proof.
  intros Y Z N. pose proof (pow2_ge_0 (val y)) as y0. pose proof (pow2_ge_0 (val z)) as z0. pose proof h_tiny. pose proof h_pos.
  pose proof (twice_near y y Y Y (small_entry (val y) ltac:(lra)) (small_entry (val y) ltac:(lra))) as Ay.
  pose proof (twice_near z z Z Z (small_entry (val z) ltac:(lra)) (small_entry (val z) ltac:(lra))) as Az.
  replace (2 * val y * val y) with (2 * val y ^ 2) in * by ring. replace (2 * val z * val z) with (2 * val z ^ 2) in * by ring.
  set (p := val y ^ 2) in *. set (r := val z ^ 2) in *. clearbody p r. rewrite (Rabs_right (2 * p)) in Ay by lra. rewrite (Rabs_right (2 * r)) in Az by lra.
  assert (S : ap (fadd (fmul (fmul (of_int 2) y) y) (fmul (fmul (of_int 2) z) z)) (2 * p + 2 * r) (41 / 10 * u)).
  { eapply ap_weaken; [apply (ap_add _ _ _ _ _ _ (2042 / 1000) Ay Az)|]; try (rewrite u_num in *; lra). rewrite Rabs_right; lra. }
  destruct of_int_1 as [F1 V1]. pose proof (ap_val _ F1) as A. rewrite V1 in A.
  eapply ap_weaken; [apply (ap_sub _ _ _ _ _ _ (1042 / 1000) A S)|]; try (rewrite u_num in *; lra). apply Rabs_le. lra.
Qed.
Lemma product_half a b : Rabs (2 * a * b) <= a ^ 2 + b ^ 2.
Proof. apply Rabs_le. split; [pose proof (pow2_ge_0 (a + b))|pose proof (pow2_ge_0 (a - b))]; lra. Qed.
Lemma quaternion_off a b c d : finite a -> finite b -> finite c -> finite d -> val a ^ 2 + val b ^ 2 + val c ^ 2 + val d ^ 2 <= 1021 / 1000 ->
  ap (fadd (fmul (fmul (of_int 2) a) b) (fmul (fmul (of_int 2) c) d)) (2 * val a * val b + 2 * val c * val d) (52 / 10 * u) /\
  ap (fsub (fmul (fmul (of_int 2) a) b) (fmul (fmul (of_int 2) c) d)) (2 * val a * val b - 2 * val c * val d) (52 / 10 * u).
Proof.
  intros A B C D N. pose proof (pow2_ge_0 (val a)) as a0. pose proof (pow2_ge_0 (val b)) as b0. pose proof (pow2_ge_0 (val c)) as c0. pose proof (pow2_ge_0 (val d)) as d0. pose proof h_tiny. pose proof h_pos.
  pose proof (twice_near a b A B (small_entry (val a) ltac:(lra)) (small_entry (val b) ltac:(lra))) as Ay.
  pose proof (twice_near c d C D (small_entry (val c) ltac:(lra)) (small_entry (val d) ltac:(lra))) as Az.
  pose proof (product_half (val a) (val b)) as P. pose proof (product_half (val c) (val d)) as Q. set (p := 2 * val a * val b) in *. set (r := 2 * val c * val d) in *. clearbody p r.
  pose proof (Rabs_pos p). pose proof (Rabs_pos r). pose proof (abs_dest p). pose proof (abs_dest r). split.
  - eapply ap_weaken; [apply (ap_add _ _ _ _ _ _ (1021 / 1000) Ay Az)|]; try (rewrite u_num in *; lra). apply Rabs_le. lra.
  - eapply ap_weaken; [apply (ap_sub _ _ _ _ _ _ (1021 / 1000) Ay Az)|]; try (rewrite u_num in *; lra). apply Rabs_le. lra.
Qed.
Lemma nine_off p0 p1 p2 p3 p4 p5 p6 p7 p8 r0 r1 r2 r3 r4 r5 r6 r7 r8 e :
  Rabs (p0 - r0) <= e -> Rabs (p1 - r1) <= e -> Rabs (p2 - r2) <= e -> Rabs (p3 - r3) <= e -> Rabs (p4 - r4) <= e -> Rabs (p5 - r5) <= e ->
  Rabs (p6 - r6) <= e -> Rabs (p7 - r7) <= e -> Rabs (p8 - r8) <= e -> apart (M3 p0 p1 p2 p3 p4 p5 p6 p7 p8) (M3 r0 r1 r2 r3 r4 r5 r6 r7 r8) <= 3 * e.
Proof.
  intros. apply size_all; unfold madd, mscale; cbn [m00 m01 m02 m10 m11 m12 m20 m21 m22];
    match goal with H : Rabs (?p - ?r) <= _ |- Rabs (?p + _ * ?r) <= _ => eapply Rle_trans; [|exact H]; right; f_equal; ring end.
Qed.
Lemma quaternion_rounding q : qfinite q -> val (qfw q) ^ 2 + val (qfx q) ^ 2 + val (qfy q) ^ 2 + val (qfz q) ^ 2 <= 1021 / 1000 ->
  mfinite (fquaternion q) /\ apart (mval (fquaternion q)) (quaternion_matrix (val (qfw q)) (V3 (val (qfx q)) (val (qfy q)) (val (qfz q)))) <= 16 * u.
Proof.
  destruct q as [w x y z]. unfold qfinite. cbn [qfw qfx qfy qfz]. intros (W & X & Y & Z) N.
  pose proof (pow2_ge_0 (val w)) as w0. pose proof (pow2_ge_0 (val x)) as x0. pose proof (pow2_ge_0 (val y)) as y0. pose proof (pow2_ge_0 (val z)) as z0.
  destruct (quaternion_diagonal y z Y Z ltac:(lra)) as [F0 E0]. destruct (quaternion_diagonal x z X Z ltac:(lra)) as [F4 E4]. destruct (quaternion_diagonal x y X Y ltac:(lra)) as [F8 E8].
  destruct (quaternion_off y x z w Y X Z W ltac:(lra)) as [[F3 E3] [F1 E1]]. destruct (quaternion_off z x y w Z X Y W ltac:(lra)) as [[F2 E2] [F6 E6]]. destruct (quaternion_off z y x w Z Y X W ltac:(lra)) as [[F7 E7] [F5 E5]].
  split; [exact (conj F0 (conj F1 (conj F2 (conj F3 (conj F4 (conj F5 (conj F6 (conj F7 F8))))))))|]. pose proof u_pos. apply Rle_trans with (3 * (52 / 10 * u)); [|lra].
  pose proof (nine_off _ _ _ _ _ _ _ _ _ _ _ _ _ _ _ _ _ _ _ E0 E1 E2 E3 E4 E5 E6 E7 E8) as G. clear E0 E1 E2 E3 E4 E5 E6 E7 E8 F0 F1 F2 F3 F4 F5 F6 F7 F8.
  match type of G with apart ?m ?r <= _ => change (mval (fquaternion (FQ w x y z))) with m; revert G; generalize m; intros M G; replace (quaternion_matrix (val w) (V3 (val x) (val y) (val z))) with r; [exact G|] end.
  unfold quaternion_matrix, quaternion_turn, vadd, vscale, cross; cbn [vx vy vz]. f_equal; ring.
Qed.
Lemma quaternion_explicit w x y z : quaternion_matrix w (V3 x y z) =
  M3 (1 - 2 * (y * y + z * z)) (2 * (x * y - w * z)) (2 * (x * z + w * y)) (2 * (x * y + w * z)) (1 - 2 * (x * x + z * z)) (2 * (y * z - w * x))
     (2 * (x * z - w * y)) (2 * (y * z + w * x)) (1 - 2 * (x * x + y * y)).
Proof. unfold quaternion_matrix, quaternion_turn, vadd, vscale, cross; cbn [vx vy vz]. f_equal; ring. Qed.
Lemma quaternion_sensitive w x y z w' x' y' z' e : w' ^ 2 + x' ^ 2 + y' ^ 2 + z' ^ 2 = 1 -> w ^ 2 + x ^ 2 + y ^ 2 + z ^ 2 <= 1021 / 1000 ->
  0 <= e -> (w - w') ^ 2 + (x - x') ^ 2 + (y - y') ^ 2 + (z - z') ^ 2 <= e ^ 2 ->
  apart (quaternion_matrix w (V3 x y z)) (quaternion_matrix w' (V3 x' y' z')) <= 123 / 10 * e.
Proof.
  intros N' N P D.
  assert (CS : forall a1 a2 a3 a4 d1 d2 d3 d4 : R, a1 ^ 2 + a2 ^ 2 + a3 ^ 2 + a4 ^ 2 <= 42 / 10 -> d1 ^ 2 + d2 ^ 2 + d3 ^ 2 + d4 ^ 2 <= e ^ 2 ->
    Rabs (2 * (a1 * d1 + a2 * d2 + a3 * d3 + a4 * d4)) <= 41 / 10 * e).
  { intros a1 a2 a3 a4 d1 d2 d3 d4 A Dd. rewrite <- (sqrt_Rsqr_abs (2 * _)). rewrite <- (sqrt_Rsqr (41 / 10 * e)) by lra. apply sqrt_le_1_alt. unfold Rsqr.
    set (A2 := a1 ^ 2 + a2 ^ 2 + a3 ^ 2 + a4 ^ 2) in *. set (D2 := d1 ^ 2 + d2 ^ 2 + d3 ^ 2 + d4 ^ 2) in *.
    assert (L : (a1 * d1 + a2 * d2 + a3 * d3 + a4 * d4) * (a1 * d1 + a2 * d2 + a3 * d3 + a4 * d4) <= A2 * D2).
    { pose proof (pow2_ge_0 (a1 * d2 - a2 * d1)). pose proof (pow2_ge_0 (a1 * d3 - a3 * d1)). pose proof (pow2_ge_0 (a1 * d4 - a4 * d1)). pose proof (pow2_ge_0 (a2 * d3 - a3 * d2)). pose proof (pow2_ge_0 (a2 * d4 - a4 * d2)). pose proof (pow2_ge_0 (a3 * d4 - a4 * d3)). unfold A2, D2. lra. }
    assert (0 <= D2). { unfold D2. pose proof (pow2_ge_0 d1). pose proof (pow2_ge_0 d2). pose proof (pow2_ge_0 d3). pose proof (pow2_ge_0 d4). lra. }
    assert (A2 * D2 <= 42 / 10 * e ^ 2). { apply Rle_trans with (42 / 10 * D2); [apply Rmult_le_compat_r; lra|lra]. } nra. }
  pose proof (pow2_ge_0 w). pose proof (pow2_ge_0 x). pose proof (pow2_ge_0 y). pose proof (pow2_ge_0 z). pose proof (pow2_ge_0 w'). pose proof (pow2_ge_0 x'). pose proof (pow2_ge_0 y'). pose proof (pow2_ge_0 z').
  pose proof (pow2_ge_0 (w - w')) as dw. pose proof (pow2_ge_0 (x - x')) as dx. pose proof (pow2_ge_0 (y - y')) as dy. pose proof (pow2_ge_0 (z - z')) as dz.
  pose proof (pow2_ge_0 (x + x')). pose proof (pow2_ge_0 (y + y')). pose proof (pow2_ge_0 (z + z')).
  assert (K : forall a b a' b', 0 <= (a - a') ^ 2 -> 0 <= (b - b') ^ 2 -> a ^ 2 + b ^ 2 <= 1021 / 1000 -> a' ^ 2 + b' ^ 2 <= 1 -> (a + a') ^ 2 + (b + b') ^ 2 + 0 ^ 2 + 0 ^ 2 <= 42 / 10).
  { intros a b a' b' A B. nra. }
  replace (123 / 10 * e) with (3 * (41 / 10 * e)) by field. rewrite !quaternion_explicit. apply nine_off.
  - eapply Rle_trans; [|apply (CS (y + y') (z + z') 0 0 (- (y - y')) (- (z - z')) 0 0); [apply K; lra|lra]]. right. f_equal. ring.
  - eapply Rle_trans; [|apply (CS x y' w z' (y - y') (x - x') (- (z - z')) (- (w - w'))); lra]. right. f_equal. ring.
  - eapply Rle_trans; [|apply (CS x z' w y' (z - z') (x - x') (y - y') (w - w')); lra]. right. f_equal. ring.
  - eapply Rle_trans; [|apply (CS x y' w z' (y - y') (x - x') (z - z') (w - w')); lra]. right. f_equal. ring.
  - eapply Rle_trans; [|apply (CS (x + x') (z + z') 0 0 (- (x - x')) (- (z - z')) 0 0); [apply K; lra|lra]]. right. f_equal. ring.
  - eapply Rle_trans; [|apply (CS y z' w x' (z - z') (y - y') (- (x - x')) (- (w - w'))); lra]. right. f_equal. ring.
  - eapply Rle_trans; [|apply (CS x z' w y' (z - z') (x - x') (- (y - y')) (- (w - w'))); lra]. right. f_equal. ring.
  - eapply Rle_trans; [|apply (CS y z' w x' (z - z') (y - y') (x - x') (w - w')); lra]. right. f_equal. ring.
  - eapply Rle_trans; [|apply (CS (x + x') (y + y') 0 0 (- (x - x')) (- (y - y')) 0 0); [apply K; lra|lra]]. right. f_equal. ring.
Qed.
Lemma norm4_abs a b c d e : 0 <= e -> sqrt (a ^ 2 + b ^ 2 + c ^ 2 + d ^ 2) <= e -> a ^ 2 + b ^ 2 + c ^ 2 + d ^ 2 <= e ^ 2.
Proof.
  intros P H. assert (N : 0 <= a ^ 2 + b ^ 2 + c ^ 2 + d ^ 2) by (pose proof (pow2_ge_0 a); pose proof (pow2_ge_0 b); pose proof (pow2_ge_0 c); pose proof (pow2_ge_0 d); lra).
  rewrite <- (sqrt_sqrt _ N). pose proof (sqrt_pos (a ^ 2 + b ^ 2 + c ^ 2 + d ^ 2)). replace (e ^ 2) with (e * e) by ring. apply Rmult_le_compat; assumption.
Qed.
Lemma quaternion_rotation w p : w * w + dot p p = 1 -> is_rotation (quaternion_matrix w p).
Proof.
  destruct p as [x y z]. unfold dot. cbn [vx vy vz]. intro N. assert (E : w * w = 1 - x * x - y * y - z * z) by lra. clear N.
  rewrite quaternion_explicit. unfold is_rotation, mmul, mtrans, det, mid; cbn [m00 m01 m02 m10 m11 m12 m20 m21 m22]. split; [f_equal|]; ring [E].
Qed.
Lemma quaternion_near q w p e : qfinite q -> w * w + dot p p = 1 -> qoff q w p <= e -> e <= / 100 ->
  stands_for (16 * u + 123 / 10 * e) (fquaternion q, quaternion_matrix w p).
Proof.
  intros F N D E. assert (P : 0 <= e) by (eapply Rle_trans; [apply sqrt_pos|exact D]). unfold qoff in D. apply norm4_abs in D; [|exact P].
  destruct p as [x y z]. unfold dot in N. cbn [vx vy vz] in *. set (w' := val (qfw q)) in *. set (x' := val (qfx q)) in *. set (y' := val (qfy q)) in *. set (z' := val (qfz q)) in *.
  assert (S : w' ^ 2 + x' ^ 2 + y' ^ 2 + z' ^ 2 <= 1021 / 1000).
  { set (dw := w' - w) in *. set (dx := x' - x) in *. set (dy := y' - y) in *. set (dz := z' - z) in *.
    assert (D1 : dw ^ 2 + dx ^ 2 + dy ^ 2 + dz ^ 2 <= / 100 * / 100) by (assert (e ^ 2 <= / 100 * / 100) by nra; lra).
    replace w' with (w + dw) by (unfold dw; ring). replace x' with (x + dx) by (unfold dx; ring). replace y' with (y + dy) by (unfold dy; ring). replace z' with (z + dz) by (unfold dz; ring). clearbody dw dx dy dz.
    pose proof (pow2_ge_0 (w - 100 * dw)). pose proof (pow2_ge_0 (x - 100 * dx)). pose proof (pow2_ge_0 (y - 100 * dy)). pose proof (pow2_ge_0 (z - 100 * dz)). lra. }
  destruct (quaternion_rounding q F S) as [Fm R]. fold w' x' y' z' in R. split; [exact Fm|]. split; [apply quaternion_rotation; exact N|]. cbn [fst snd].
  pose proof (quaternion_sensitive w' x' y' z' w x y z e ltac:(lra) S P D) as T.
  pose proof (apart_triangle (mval (fquaternion q)) (quaternion_matrix w' (V3 x' y' z')) (quaternion_matrix w (V3 x y z))). lra.
Qed.
Lemma quaternion_turning t n : norm n = 1 -> quaternion_matrix (cos (t / 2)) (vscale (sin (t / 2)) n) = turning t n.
Proof.
  intro N. rewrite <- aa_turning by exact N. assert (Q : vx n * vx n + vy n * vy n + vz n * vz n = 1) by (change (norm2 n = 1); rewrite <- norm_sqr, N; ring).
  replace t with (2 * (t / 2)) at 3 4 by field. rewrite sin_2a, cos_2a_sin. pose proof (sin2_cos2 (t / 2)) as SC. unfold Rsqr in SC. set (s := sin (t / 2)) in *. set (c := cos (t / 2)) in *. clearbody s c.
  destruct n as [x y z]. cbn [vx vy vz] in *. unfold aa, quaternion_matrix, quaternion_turn, vadd, vscale, cross; cbn [vx vy vz].
  assert (Z : z * z = 1 - x * x - y * y) by lra. f_equal; ring [Z].
Qed.

(** ** Concrete cases *)
Definition ivec (a b c : Z) : fvec := FV (of_int a) (of_int b) (of_int c).
Lemma ivec_val a b c : (Z.abs a <= 2 ^ 53)%Z -> (Z.abs b <= 2 ^ 53)%Z -> (Z.abs c <= 2 ^ 53)%Z -> vfinite (ivec a b c) /\ vval (ivec a b c) = V3 (IZR a) (IZR b) (IZR c).
Proof. intros A B C. destruct (of_small a A), (of_small b B), (of_small c C). split; [repeat split; assumption|]. unfold vval, ivec. cbn [fx fy fz]. congruence. Qed.
Lemma norm_is v x : 0 <= x -> dot v v = x * x -> norm v = x.
Proof. intros P E. unfold norm, norm2. rewrite E. apply sqrt_square, P. Qed.
Lemma pow_490 : 3 <= 2 ^ 490.
Proof. apply Rle_trans with (2 ^ 2); [lra|apply Rle_pow; [lra|lia]]. Qed.
Lemma u_tiny : 1000 * u <= / 1000.
Proof. rewrite u_num. lra. Qed.
Lemma exp_case : vfinite (ivec 1 2 2) /\ norm (vval (ivec 1 2 2)) = 3 /\ norm (vval (ivec 1 2 2)) <= 2 ^ 490 /\
  rotation_by (vval (ivec 1 2 2)) (turning 3 (V3 (1 / 3) (2 / 3) (2 / 3))) /\ apart (turning 3 (V3 (1 / 3) (2 / 3) (2 / 3))) mid >= 1 /\ (51 + 4 * 3) * u <= / 10 ^ 14.
Proof.
  destruct (ivec_val 1 2 2) as [F V]; try (cbn; lia). assert (N : norm (vval (ivec 1 2 2)) = 3) by (rewrite V; apply norm_is; [lra|unfold dot; cbn [vx vy vz]; lra]).
  split; [exact F|]. split; [exact N|]. split; [rewrite N; apply pow_490|]. split.
  - right. split; [rewrite V; intro E; injection E; lra|]. rewrite N. f_equal. unfold direction. rewrite N, V. unfold vscale. cbn [vx vy vz]. f_equal; lra.
  - split; [|rewrite u_num; lra]. apply Rle_ge. set (m := madd (turning 3 (V3 (1 / 3) (2 / 3) (2 / 3))) (mscale (-1) mid)). destruct (entry_size m) as (E & _).
    assert (M : m00 m = - (8 / 9) * (1 - cos 3)). { unfold m. rewrite <- aa_turning; [|apply norm_is; [lra|unfold dot; cbn [vx vy vz]; lra]]. unfold aa, madd, mscale, mid. cbn [m00 vx]. field. }
    assert (C : cos 3 <= - (1 / 2)).
    { replace 3 with (2 * (3 / 2)) by field. rewrite cos_2a_sin. assert (S : 9 / 10 <= sin (3 / 2)).
      { pose proof (sin_bound (3 / 2)). destruct (SIN (3 / 2)) as [L _]; [lra|pose proof PI2_1; lra|]. unfold sin_lb, sin_approx, sin_term in L. cbn [sum_f_R0 Nat.mul Nat.add pow Factorial.fact INR] in L. lra. }
      nra. }
    unfold apart. fold m. eapply Rle_trans; [|exact E]. rewrite M. rewrite Rabs_left by lra. lra.
Qed.
