(** Coefficients of the exponential at tiny angles, and the translation of SE3::exp. *)
From Coq Require Import Reals Psatz ZArith.
From Flocq Require Import Core BinarySingleNaN.
From Verif Require Import Cpp FloatModel FloatSpec NrmSpec Vec RotSpec ScrewSpec FloatProofs NrmProofs DriftModel DriftSpec DriftProofs DriftProofs2 SpinModel SpinSpec SpinProofs SpinProofs2 TwistModel TwistProofs.
From Verif Require CoeffProofs.
Local Open Scope R_scope.

Lemma ratio_near p q : (0 < p <= 2 ^ 53)%Z -> (0 < q <= 2 ^ 53)%Z -> (p <= q)%Z -> ap (fratio p q) (IZR p / IZR q) (u * (IZR p / IZR q) + h).
Proof.
  intros P Q L. destruct (of_small p) as [Fp Vp]; [lia|]. destruct (of_small q) as [Fq Vq]; [lia|].
  assert (P0 : 0 < IZR p) by (apply IZR_lt; lia). assert (Q0 : 0 < IZR q) by (apply IZR_lt; lia). assert (L0 : IZR p <= IZR q) by (apply IZR_le; lia).
  assert (B : 0 < IZR p / IZR q <= 1) by (split; [apply Rdiv_lt_0_compat; assumption|apply Rmult_le_reg_r with (IZR q); [assumption|]; unfold Rdiv; rewrite Rmult_assoc, Rinv_l by lra; lra]).
  unfold fratio. destruct (fdiv_val (of_int p) (of_int q) Fp) as [F V]; rewrite ?Vp, ?Vq; [lra|apply no_overflow; destruct big_1000; rewrite Rabs_right; lra|].
  split; [exact F|]. rewrite V, Vp, Vq. eapply Rle_trans; [apply rd_any|]. rewrite Rabs_right by lra. lra.
Qed.
Definition tb (s : R) : R := 1 / 2 - s * (1 / 24 - s * (1 / 720)).
Definition tc (s : R) : R := 1 / 6 - s * (1 / 120 - s * (1 / 5040)).
Lemma h_small_u : h <= u / 1000000000.
Proof. apply Rle_trans with (bpow radix2 (-100)); [apply bpow_le; lia|]. rewrite u_num. change (bpow radix2 (-100)) with (/ 1267650600228229401496703205376). lra. Qed.
Lemma tiny_near z s p q p' q' p'' q'' : ap z s (u / 100) -> 0 <= s <= / 100000 ->
  (0 < p <= 2 ^ 53)%Z -> (0 < q <= 2 ^ 53)%Z -> (p <= q)%Z -> (0 < p' <= 2 ^ 53)%Z -> (0 < q' <= 2 ^ 53)%Z -> (p' <= q')%Z ->  (0 < p'' <= 2 ^ 53)%Z -> (0 < q'' <= 2 ^ 53)%Z -> (p'' <= q'')%Z ->
  IZR p / IZR q <= 1 / 2 -> IZR p' / IZR q' <= 1 / 24 -> IZR p'' / IZR q'' <= 1 / 720 ->
  ap (ftiny_coeff z (fratio p q) (fratio p' q') (fratio p'' q'')) (IZR p / IZR q - s * (IZR p' / IZR q' - s * (IZR p'' / IZR q''))) (101 / 100 * u).
Proof.
  intros Z S P Q PQ P' Q' PQ' P'' Q'' PQ'' B B' B''. unfold ftiny_coeff. pose proof h_small_u as Hs. pose proof h_pos.
  pose proof (ratio_near p q P Q PQ) as X. pose proof (ratio_near p' q' P' Q' PQ') as Y. pose proof (ratio_near p'' q'' P'' Q'' PQ'') as W.
  assert (forall m n, (0 < m)%Z -> (0 < n)%Z -> 0 < IZR m / IZR n) as Pos by (intros; apply Rdiv_lt_0_compat; apply IZR_lt; assumption).
  pose proof (Pos p q ltac:(lia) ltac:(lia)). pose proof (Pos p' q' ltac:(lia) ltac:(lia)). pose proof (Pos p'' q'' ltac:(lia) ltac:(lia)).
  set (a := IZR p / IZR q) in *. set (b := IZR p' / IZR q') in *. set (c := IZR p'' / IZR q'') in *. clearbody a b c.
  clear Pos. pose proof (ap_weaken _ _ _ (u / 2 + u / 1000) X ltac:( rewrite u_num in *; lra)) as X'. clear X. rename X' into X. pose proof (ap_weaken _ _ _ (u / 23) Y ltac:( rewrite u_num in *; lra)) as Y'. clear Y. rename Y' into Y. pose proof (ap_weaken _ _ _ (u / 700) W ltac:( rewrite u_num in *; lra)) as W'. clear W. rename W' into W.
  assert (sc : 0 <= s * c <= / 100000 * (1 / 720)) by (split; [apply Rmult_le_pos; lra|apply Rmult_le_compat; lra]).
  assert (M1 : ap (fmul z (fratio p'' q'')) (s * c) (u / 10000)).
  { eapply ap_weaken; [apply (ap_mul _ _ _ _ _ _ (/ 100000) (1 / 720) (/ 100000 * (1 / 720)) Z W); try (rewrite Rabs_right; lra); try lra; rewrite u_num; lra|]. rewrite u_num in *; lra. }
  assert (M2 : ap (fsub (fratio p' q') (fmul z (fratio p'' q''))) (b - s * c) (u / 10)).
  { eapply ap_weaken; [apply (ap_sub _ _ _ _ _ _ (1 / 20) Y M1); try lra; try (apply abs_le; lra); rewrite u_num; lra|]. rewrite u_num; lra. }
  assert (M3 : 0 - / 100000 <= s * (b - s * c) <= / 100000) by nra.
  assert (M4 : ap (fmul z (fsub (fratio p' q') (fmul z (fratio p'' q'')))) (s * (b - s * c)) (u / 1000)).
  { eapply ap_weaken; [apply (ap_mul _ _ _ _ _ _ (/ 100000) (1 / 20) (/ 100000) Z M2); try (apply abs_le; lra); try lra; rewrite u_num; lra|]. rewrite u_num in *; lra. }
  eapply ap_weaken; [apply (ap_sub _ _ _ _ _ _ (1 / 2 + / 100000) X M4); try lra; try (apply abs_le; lra); rewrite u_num; lra|]. rewrite u_num; lra.
Qed.
Lemma threshold : finite FTINY_SQUARE_ANGLE /\ 3999 / 10 ^ 9 <= val FTINY_SQUARE_ANGLE <= 4001 / 10 ^ 9.
Proof. destruct (ratio_near 4 1000000) as [F E]; try lia. split; [exact F|]. pose proof h_small_u. apply Rabs_le_inv in E. rewrite u_num in *. fold FTINY_SQUARE_ANGLE in E. lra. Qed.
Lemma coeffs_tiny L z a b c : 0 <= L -> finite z -> 0 <= val z -> Rabs (val z - L * L) <= 301 / 100 * u * (L * L) + 4 * h ->
  flt z FTINY_SQUARE_ANGLE = true -> fexp_diff_coeffs z a b c ->
  L * L <= 4002 / 10 ^ 9 /\ ap a (1 - L * L * tc (L * L)) (102 / 100 * u) /\ ap b (tb (L * L)) (101 / 100 * u) /\ ap c (tc (L * L)) (101 / 100 * u).
Proof.
  intros P F Z E T. unfold fexp_diff_coeffs. rewrite T. intros (Hb & Hc & Ha). destruct threshold as [Ft Vt]. apply (flt_val _ _ F Ft) in T. pose proof h_small_u as Hs. pose proof h_pos.
  assert (LL : 0 <= L * L) by nra. assert (B : L * L <= 4002 / 10 ^ 9) by (apply Rabs_le_inv in E; rewrite u_num in *; lra). split; [exact B|].
  assert (A : ap z (L * L) (u / 100)) by (split; [exact F|]; eapply Rle_trans; [exact E|]; rewrite u_num in *; lra).
  assert (Lc : ap c (tc (L * L)) (101 / 100 * u)) by (rewrite Hc; apply (tiny_near z (L * L) 1 6 1 120 1 5040); try lia; try lra; try exact A).
  split; [|split; [|exact Lc]].
  - rewrite Ha. destruct of_int_1 as [F1 V1]. assert (A1 : ap (of_int 1) 1 0) by (split; [exact F1|rewrite V1, Rminus_eq_0, Rabs_R0; lra]).
    assert (K : 0 <= tc (L * L) <= 1 / 6) by (unfold tc; nra). assert (M : 0 <= L * L * tc (L * L) <= / 100000) by nra.
    assert (M1 : ap (fmul z c) (L * L * tc (L * L)) (u / 100)).
    { eapply ap_weaken; [apply (ap_mul _ _ _ _ _ _ (/ 100000) (1 / 6) (/ 100000) A Lc); try (apply abs_le; lra); try lra; rewrite u_num; lra|]. rewrite u_num in *; lra. }
    eapply ap_weaken; [apply (ap_sub _ _ _ _ _ _ 1 A1 M1); try lra; try (apply abs_le; lra); rewrite u_num; lra|]. rewrite u_num; lra.
  - rewrite Hb. apply (tiny_near z (L * L) 1 2 1 24 1 720); try lia; try lra; exact A.
Qed.
(** The polynomials and what they stand for. *)
Lemma polynomials L : 0 < L -> L * L <= 4002 / 10 ^ 9 ->
  Rabs (1 - L * L * tc (L * L) - wa L) <= u / 100 /\ Rabs (tb (L * L) - wb L) <= u / 100 /\ Rabs (tc (L * L) - wc L) <= u / 100.
Proof.
  intros P B. assert (L1 : L <= / 100) by nra. pose proof (CoeffProofs.sin_bounds L ltac:(lra)) as S. pose proof (CoeffProofs.cos_bounds L ltac:(lra)) as C.
  assert (LL : 0 < L * L) by nra. assert (LLL : 0 < L * L * L) by (apply Rmult_lt_0_compat; lra). set (s := L * L) in *.
  assert (s3 : 0 <= s * s * s <= 65 / 10 ^ 18) by (split; [apply Rmult_le_pos; nra|apply Rle_trans with (4002 / 10 ^ 9 * (4002 / 10 ^ 9) * (4002 / 10 ^ 9)); [|lra]; apply Rmult_le_compat; [nra|lra|apply Rmult_le_compat; lra|lra]]).
  split; [|split]; apply abs_le.
  - split; apply Rmult_le_reg_r with L; try exact P; replace ((1 - s * tc s - wa L) * L) with (CoeffProofs.sin7 L - sin L) by (unfold CoeffProofs.sin7, wa, tc, s; field; lra); replace (L ^ 9) with (s * s * s * s * L) in S by (unfold s; ring).
    + assert (s * s * s * s * L / 362880 <= u / 100 * L); [|lra]. replace (s * s * s * s * L / 362880) with (s * s * s * (s / 362880) * L) by field. apply Rmult_le_compat_r; [lra|]. apply Rle_trans with (65 / 10 ^ 18 * / 362880); [apply Rmult_le_compat; lra|]. rewrite u_num; lra.
    + assert (0 <= u / 100 * L) by (pose proof u_pos; nra). lra.
  - split; apply Rmult_le_reg_r with (L * L); try exact LL; replace ((tb s - wb L) * (L * L)) with (cos L - CoeffProofs.cos6 L) by (unfold CoeffProofs.cos6, wb, tb, s; field; lra); replace (L ^ 8) with (s * s * s * s) in C by (unfold s; ring); fold s.
    + assert (0 <= u / 100 * s) by (pose proof u_pos; nra). lra.
    + assert (s * s * s * s / 40320 <= u / 100 * s); [|lra]. replace (s * s * s * s / 40320) with (s * s * s * / 40320 * s) by field. apply Rmult_le_compat_r; [lra|]. rewrite u_num; lra.
  - split; apply Rmult_le_reg_r with (L * L * L); try exact LLL; replace ((tc s - wc L) * (L * L * L)) with (sin L - CoeffProofs.sin7 L) by (unfold CoeffProofs.sin7, wc, tc, s; field; lra); replace (L ^ 9) with (s * s * s * (L * L * L)) in S by (unfold s; ring).
    + assert (0 <= u / 100 * (L * L * L)) by (pose proof u_pos; change (s * L) with (L * L * L) in LLL; apply Rmult_le_pos; lra). lra.
    + assert (s * s * s * (L * L * L) / 362880 <= u / 100 * (L * L * L)); [|lra]. replace (s * s * s * (L * L * L) / 362880) with (s * s * s * / 362880 * (L * L * L)) by field. apply Rmult_le_compat_r; [change (s * L) with (L * L * L) in LLL; lra|]. rewrite u_num; lra.
Qed.

(** The coefficients for a vector of length [L]: those meant, and how far off they are. *)
Definition ca (L : R) : R := if Req_EM_T L 0 then 1 else wa L.
Definition cb (L : R) : R := if Req_EM_T L 0 then 1 / 2 else wb L.
Definition cc (L : R) : R := if Req_EM_T L 0 then 1 / 6 else wc L.
Definition off_by (L : R) : R := (132 / 10 + 203 / 100 / Rmax L (19 / 10000)) * u.
Lemma coeffs_near v z a b c : vfinite v -> norm (vval v) <= 2 ^ 490 -> fsquared_norm v z -> fexp_diff_coeffs z a b c -> let L := norm (vval v) in
  (finite a /\ finite b /\ finite c) /\ Rabs (val a - ca L) <= 94 / 10 * u /\ Rabs (val b - cb L) * L <= off_by L /\ Rabs (val c - cc L) * (L * L) <= 235 / 10 * u /\
  Rabs (val b - cb L) <= / 1000 /\ Rabs (val c - cc L) <= / 1000.
Proof.
  intros F N Z C L. destruct (squared_near v z F N Z) as (Fz & Pz & Ez). pose proof (norm_nonneg (vval v)) as P. fold L in N, Ez, P. pose proof u_pos as Up. pose proof h_small_u as Hs. pose proof h_pos.
  destruct (flt z FTINY_SQUARE_ANGLE) eqn:T.
  - destruct (coeffs_tiny L z a b c P Fz Pz Ez T C) as (B & [Fa Ea] & [Fb Eb] & [Fc Ec]). split; [split; [exact Fa|split; [exact Fb|exact Fc]]|].
    assert (X : Rabs (val a - ca L) <= 11 / 10 * u /\ Rabs (val b - cb L) <= 11 / 10 * u /\ Rabs (val c - cc L) <= 11 / 10 * u).
    { unfold ca, cb, cc. destruct (Req_EM_T L 0) as [O|O].
      - rewrite O in Ea, Eb, Ec. unfold tb, tc in *. replace (1 - 0 * 0 * (1 / 6 - 0 * 0 * (1 / 120 - 0 * 0 * (1 / 5040)))) with 1 in Ea by ring. replace (1 / 2 - 0 * 0 * (1 / 24 - 0 * 0 * (1 / 720))) with (1 / 2) in Eb by ring. replace (1 / 6 - 0 * 0 * (1 / 120 - 0 * 0 * (1 / 5040))) with (1 / 6) in Ec by ring. lra.
      - destruct (polynomials L ltac:(lra) B) as (Pa & Pb & Pc). pose proof (off_trans _ _ _ _ _ Ea Pa). pose proof (off_trans _ _ _ _ _ Eb Pb). pose proof (off_trans _ _ _ _ _ Ec Pc). lra. }
    destruct X as (Xa & Xb & Xc). assert (L1 : L <= 1) by nra. split; [lra|]. pose proof (Rabs_pos (val b - cb L)). pose proof (Rabs_pos (val c - cc L)).
    assert (Q : 132 / 10 * u <= off_by L). { unfold off_by. assert (0 < / Rmax L (19 / 10000)) by (apply Rinv_0_lt_compat; eapply Rlt_le_trans; [|apply Rmax_r]; lra). unfold Rdiv. nra. }
    split; [nra|]. assert (0 <= L * L <= 1) by nra. split; [nra|]. rewrite u_num in *. lra.
  - assert (G : range L).
    { split; [|exact N]. destruct (Rle_or_lt (19 / 10000) L) as [Y|Y]; [exact Y|]. destruct threshold as [Ft Vt]. assert (~ val z < val FTINY_SQUARE_ANGLE) by (intro X; apply (flt_val _ _ Fz Ft) in X; congruence).
      apply Rabs_le_inv in Ez. assert (0 <= L * L <= 19 / 10000 * (19 / 10000)) by (split; [nra|apply Rmult_le_compat; lra]). rewrite u_num in *. lra. }
    destruct (range_h L G) as (P0 & I & _ & _ & I5).
    destruct (norm_near_big v z F ltac:(fold L; destruct two_500; unfold range in G; assert (u / 100000 <= 19 / 10000) by (rewrite u_num; lra); lra) N Z) as (_ & _ & Fr & Er). fold L in Er.
    destruct (coeffs_big L z a b c G Fr Er T C) as (Fs & Ea & Eb & Ec). split; [exact Fs|].
    unfold ca, cb, cc. destruct (Req_EM_T L 0) as [O|_]; [lra|]. split; [exact Ea|].
    replace (val b * L - wb L * L) with ((val b - wb L) * L) in Eb by ring. rewrite abs_scale in Eb by lra. replace (val c * (L * L) - wc L * (L * L)) with ((val c - wc L) * (L * L)) in Ec by ring. assert (LL : 0 < L * L) by nra. rewrite abs_scale in Ec by lra.
    split; [unfold off_by; rewrite Rmax_left by (unfold range in G; lra); exact Eb|]. split; [exact Ec|]. unfold range in G.
    split; [apply Rmult_le_reg_r with L|apply Rmult_le_reg_r with (L * L)]; try assumption; [rewrite u_num in *; lra|rewrite u_num in *]. assert (/ 300000 <= L * L) by nra. lra.
Qed.
Lemma coeff_bounds L : 0 <= L -> 0 <= 1 - ca L <= 4 / 3 /\ Rabs (ca L) <= 1 /\ 0 <= cb L * L <= 1 /\ 0 <= cb L <= 1 / 2 /\ 0 <= cc L * (L * L) <= 4 / 3 /\ 0 <= cc L <= 1 / 2.
Proof.
  intro P. unfold ca, cb, cc. destruct (Req_EM_T L 0) as [->|O]; [rewrite Rabs_R1; lra|]. assert (P0 : 0 < L) by lra.
  destruct (wa_bound L P0) as [A A']. destruct (wb_bound L P0) as [B B']. destruct (wc_bound L P0) as (_ & C & C'). lra.
Qed.
Lemma screw_coeffs w v : let L := norm w in screw w v 1 = vadd (vadd (vscale (ca L) v) (vscale (cb L) (cross w v))) (vscale (cc L * dot w v) w).
Proof.
  intro L. unfold screw, ca, cb, cc, wa, wb, wc. fold L. destruct (Req_EM_T L 0) as [O|O]; [|rewrite Rmult_1_l; reflexivity].
  apply norm_0 in O. rewrite O. unfold vzero. vring.
Qed.

(** ** The sum of three vectors *)
Lemma abs_dot v w : Rabs (vx v) * Rabs (vx w) + Rabs (vy v) * Rabs (vy w) + Rabs (vz v) * Rabs (vz w) <= norm v * norm w.
Proof. rewrite <- (norm_vabs v), <- (norm_vabs w). apply (CoeffProofs.cauchy (vabs v) (vabs w)). Qed.
Lemma cross_entry a b c d M : finite a -> finite b -> finite c -> finite d -> Rabs (val a) * Rabs (val b) + Rabs (val c) * Rabs (val d) <= M -> M <= 2 ^ 990 ->
  finite (fsub (fmul a b) (fmul c d)) /\ Rabs (val (fsub (fmul a b) (fmul c d)) - (val a * val b - val c * val d)) <= 201 / 100 * u * M + 3 * h.
Proof.
  intros A B C D S M9. assert (M10 : M * 1000 <= 2 ^ 1000) by (replace (2 ^ 1000) with (2 ^ 10 * 2 ^ 990) by (rewrite pow_sum; reflexivity); assert (0 <= 2 ^ 990) by (apply pow_le; lra); lra). pose proof h_pos as Hp. pose proof h_1 as H1.
  pose proof (Rmult_le_pos _ _ (Rabs_pos (val a)) (Rabs_pos (val b))) as P. pose proof (Rmult_le_pos _ _ (Rabs_pos (val c)) (Rabs_pos (val d))) as Q. rewrite <- !Rabs_mult in S. rewrite <- Rabs_mult in P, Q.
  destruct (mul_error a b A B ltac:(lra)) as [F E]. destruct (mul_error c d C D ltac:(lra)) as [G K]. set (p := fmul a b) in *. set (q := fmul c d) in *. clearbody p q. set (x := val a * val b) in *. set (y := val c * val d) in *. clearbody x y.
  assert (T : Rabs (val p - val q - (x - y)) <= u * M + 2 * h).
  { replace (val p - val q - (x - y)) with ((val p - x) + - (val q - y)) by ring. eapply Rle_trans; [apply Rabs_triang|]. rewrite Rabs_Ropp. rewrite u_num in *. lra. }
  assert (N : Rabs (x - y) <= M) by (replace (x - y) with (x + - y) by ring; eapply Rle_trans; [apply Rabs_triang|]; rewrite Rabs_Ropp; lra).
  pose proof (off_bound _ _ _ _ T N) as O. destruct (sub_error p q F G) as [I J]; [destruct big_1000; rewrite u_num in *; lra|]. split; [exact I|].
  eapply Rle_trans; [apply (off_trans _ _ _ _ _ J T)|]. rewrite u_num in *. lra.
Qed.
Definition combined (a b c : R) (w t : vec3) : vec3 := vadd (vadd (vscale a t) (vscale b (cross w t))) (vscale (c * dot w t) w).
Lemma entry_near a b c d ti ni wi L T n D : finite a -> finite b -> finite c -> finite d -> finite ti -> finite ni -> finite wi ->
  0 <= L <= 2 ^ 490 -> 0 <= T <= 2 ^ 500 -> Rabs (val a) <= 101 / 100 -> Rabs (val b) * L <= 101 / 100 -> Rabs (val b) <= 51 / 100 -> Rabs (val c) * (L * L) <= 135 / 100 -> Rabs (val c) <= 51 / 100 ->
  Rabs (val ti) <= T -> Rabs (val wi) <= L -> Rabs n <= L * T -> Rabs D <= L * T -> Rabs (val ni - n) <= 201 / 100 * u * (L * T) + 3 * h -> Rabs (val d - D) <= 302 / 100 * u * (L * T) + 4 * h ->
  let x := fadd (fadd (fmul a ti) (fmul b ni)) (fmul (fmul c d) wi) in
  finite x /\ Rabs (val x - (val a * val ti + val b * n + val c * D * val wi)) <= 17 * u * T + (6 + 4 * L) * h.
Proof.
  intros Fa Fb Fc Fd Ft Fn Fw [L0 L1] [T0 T1] Ba Bb Bb' Bc Bc' Bt Bw Bn BD En Ed. cbv zeta.
  assert (LT : 0 <= L * T) by (apply Rmult_le_pos; assumption). assert (LT1 : L * T <= 2 ^ 990) by (replace (2 ^ 990) with (2 ^ 490 * 2 ^ 500) by (rewrite pow_sum; reflexivity); apply Rmult_le_compat; assumption).
  assert (E9 : 2 ^ 990 * 1000 <= 2 ^ 1000) by (replace (2 ^ 1000) with (2 ^ 10 * 2 ^ 990) by (rewrite pow_sum; reflexivity); assert (0 <= 2 ^ 990) by (apply pow_le; lra); lra).
  assert (E5 : 2 ^ 500 * 1000 <= 2 ^ 990) by (replace (2 ^ 990) with (2 ^ 490 * 2 ^ 500) by (rewrite pow_sum; reflexivity); assert (1000 <= 2 ^ 490) by (apply Rle_trans with (2 ^ 10); [lra|apply Rle_pow; [lra|lia]]); assert (0 <= 2 ^ 500) by (apply pow_le; lra); nra).
  assert (E4 : 2 ^ 490 <= 2 ^ 500) by (apply Rle_pow; [lra|lia]). assert (E0 : 1 <= 2 ^ 490) by (apply pow_R1_Rle; lra).
  pose proof h_pos as Hp. pose proof h_1 as H1. pose proof u_pos as Up. pose proof (Rabs_pos (val b)) as Pb. pose proof (Rabs_pos (val c)) as Pc. pose proof (Rabs_pos (val a)) as Pa.
  assert (hL : 0 <= h * L) by (apply Rmult_le_pos; lra).
  (* a t *)
  assert (M1 : Rabs (val a * val ti) <= 101 / 100 * T) by (rewrite Rabs_mult; apply Rmult_le_compat; try apply Rabs_pos; assumption).
  destruct (mul_error a ti Fa Ft ltac:(lra)) as [F1 X1]. set (p1 := fmul a ti) in *.
  (* b n *)
  assert (bLT : Rabs (val b) * (L * T) <= 101 / 100 * T) by (rewrite <- Rmult_assoc; apply Rmult_le_compat_r; assumption).
  assert (Y2 : Rabs (val b * val ni - val b * n) <= 204 / 100 * u * T + 16 / 10 * h).
  { rewrite <- Rmult_minus_distr_l, Rabs_mult. eapply Rle_trans; [apply Rmult_le_compat_l; [exact Pb|exact En]|]. replace (Rabs (val b) * (201 / 100 * u * (L * T) + 3 * h)) with (201 / 100 * u * (Rabs (val b) * (L * T)) + 3 * (Rabs (val b) * h)) by ring.
    assert (Rabs (val b) * h <= 51 / 100 * h) by (apply Rmult_le_compat_r; lra). rewrite u_num in *. lra. }
  assert (B2 : Rabs (val b * n) <= 101 / 100 * T) by (rewrite Rabs_mult; eapply Rle_trans; [apply Rmult_le_compat_l; [exact Pb|exact Bn]|exact bLT]).
  pose proof (off_bound _ _ _ _ Y2 B2) as M2. destruct (mul_error b ni Fb Fn) as [F2 X2]; [rewrite u_num in *; lra|]. set (p2 := fmul b ni) in *. pose proof (off_trans _ _ _ _ _ X2 Y2) as Z2.
  (* c d *)
  assert (cLT : Rabs (val c) * (L * T) * L <= 135 / 100 * T) by (replace (Rabs (val c) * (L * T) * L) with (Rabs (val c) * (L * L) * T) by ring; apply Rmult_le_compat_r; assumption).
  assert (Y3 : Rabs (val c * val d - val c * D) <= 302 / 100 * u * (Rabs (val c) * (L * T)) + 204 / 100 * h).
  { rewrite <- Rmult_minus_distr_l, Rabs_mult. eapply Rle_trans; [apply Rmult_le_compat_l; [exact Pc|exact Ed]|]. replace (Rabs (val c) * (302 / 100 * u * (L * T) + 4 * h)) with (302 / 100 * u * (Rabs (val c) * (L * T)) + 4 * (Rabs (val c) * h)) by ring.
    assert (Rabs (val c) * h <= 51 / 100 * h) by (apply Rmult_le_compat_r; lra). lra. }
  assert (B3 : Rabs (val c * D) <= Rabs (val c) * (L * T)) by (rewrite Rabs_mult; apply Rmult_le_compat_l; [exact Pc|exact BD]).
  assert (cLT2 : 0 <= Rabs (val c) * (L * T) <= 2 ^ 990) by (split; [apply Rmult_le_pos; assumption|nra]).
  pose proof (off_bound _ _ _ _ Y3 B3) as M3. destruct (mul_error c d Fc Fd) as [F3 X3]; [rewrite u_num in *; lra|]. set (p3 := fmul c d) in *. pose proof (off_trans _ _ _ _ _ X3 Y3) as Z3.
  assert (Z3' : Rabs (val p3 - val c * D) <= 403 / 100 * u * (Rabs (val c) * (L * T)) + 305 / 100 * h) by (eapply Rle_trans; [exact Z3|]; rewrite u_num in *; lra). clear Z3.
  (* c d w *)
  assert (Y4 : Rabs (val p3 * val wi - val c * D * val wi) <= 545 / 100 * u * T + 305 / 100 * (h * L)).
  { replace (val p3 * val wi - val c * D * val wi) with ((val p3 - val c * D) * val wi) by ring. rewrite Rabs_mult. eapply Rle_trans; [apply Rmult_le_compat; try apply Rabs_pos; [exact Z3'|exact Bw]|].
    replace ((403 / 100 * u * (Rabs (val c) * (L * T)) + 305 / 100 * h) * L) with (403 / 100 * u * (Rabs (val c) * (L * T) * L) + 305 / 100 * (h * L)) by ring. rewrite u_num in *. lra. }
  assert (B4 : Rabs (val c * D * val wi) <= 135 / 100 * T) by (rewrite Rabs_mult; eapply Rle_trans; [apply Rmult_le_compat; try apply Rabs_pos; [exact B3|exact Bw]|exact cLT]).
  assert (hL1 : h * L <= 2 ^ 490) by nra.
  pose proof (off_bound _ _ _ _ Y4 B4) as M4. destruct (mul_error p3 wi F3 Fw) as [F4 X4]; [rewrite u_num in *; lra|]. set (p4 := fmul p3 wi) in *. pose proof (off_trans _ _ _ _ _ X4 Y4) as Z4.
  (* sums *)
  assert (Y5 : Rabs (val p1 + val p2 - (val a * val ti + val b * n)) <= 408 / 100 * u * T + 4 * h).
  { replace (val p1 + val p2 - (val a * val ti + val b * n)) with ((val p1 - val a * val ti) + (val p2 - val b * n)) by ring. eapply Rle_trans; [apply Rabs_triang|]. rewrite u_num in *. lra. }
  assert (B5 : Rabs (val a * val ti + val b * n) <= 202 / 100 * T) by (eapply Rle_trans; [apply Rabs_triang|]; lra).
  pose proof (off_bound _ _ _ _ Y5 B5) as M5. destruct (add_error p1 p2 F1 F2) as [F5 X5]; [rewrite u_num in *; lra|]. set (p5 := fadd p1 p2) in *. pose proof (off_trans _ _ _ _ _ X5 Y5) as Z5.
  assert (Y6 : Rabs (val p5 + val p4 - (val a * val ti + val b * n + val c * D * val wi)) <= 132 / 10 * u * T + 56 / 10 * h + 31 / 10 * (h * L)).
  { replace (val p5 + val p4 - (val a * val ti + val b * n + val c * D * val wi)) with ((val p5 - (val a * val ti + val b * n)) + (val p4 - val c * D * val wi)) by ring. eapply Rle_trans; [apply Rabs_triang|]. rewrite u_num in *. lra. }
  assert (B6 : Rabs (val a * val ti + val b * n + val c * D * val wi) <= 337 / 100 * T) by (eapply Rle_trans; [apply Rabs_triang|]; lra).
  pose proof (off_bound _ _ _ _ Y6 B6) as M6. destruct (add_error p5 p4 F5 F4) as [F6 X6]; [rewrite u_num in *; lra|]. split; [exact F6|].
  pose proof (off_trans _ _ _ _ _ X6 Y6) as Z6. eapply Rle_trans; [exact Z6|]. replace ((6 + 4 * L) * h) with (6 * h + 4 * (h * L)) by ring. rewrite u_num in *. lra.
Qed.
Lemma norm_three x y z e : Rabs x <= e -> Rabs y <= e -> Rabs z <= e -> norm (V3 x y z) <= 17321 / 10000 * e.
Proof.
  intros X Y Z. pose proof (Rabs_pos x). apply CoeffProofs.norm_le_sqr; [lra|]. unfold norm2. cbn [vx vy vz].
  assert (S : forall t, Rabs t <= e -> t * t <= e * e) by (intros t T; apply Rabs_le_inv in T; nra). pose proof (S x X). pose proof (S y Y). pose proof (S z Z). unfold dot. cbn [vx vy vz]. nra.
Qed.
Lemma twist_rounding a b c w t x : finite a -> finite b -> finite c -> vfinite w -> vfinite t -> let L := norm (vval w) in let T := norm (vval t) in
  L <= 2 ^ 490 -> T <= 2 ^ 500 -> Rabs (val a) <= 101 / 100 -> Rabs (val b) * L <= 101 / 100 -> Rabs (val b) <= 51 / 100 -> Rabs (val c) * (L * L) <= 135 / 100 -> Rabs (val c) <= 51 / 100 ->
  ftwist a b c w t x -> vfinite x /\ norm (vsub (vval x) (combined (val a) (val b) (val c) (vval w) (vval t))) <= 295 / 10 * u * T + (11 + 7 * L) * h.
Proof.
  intros Fa Fb Fc (Wx & Wy & Wz) (Tx & Ty & Tz) L T L1 T1 Ba Bb Bb' Bc Bc' (d & Hd & Hx). cbv zeta in Hx.
  assert (L0 : 0 <= L) by apply norm_nonneg. assert (T0 : 0 <= T) by apply norm_nonneg.
  assert (LT1 : L * T <= 2 ^ 990) by (replace (2 ^ 990) with (2 ^ 490 * 2 ^ 500) by (rewrite pow_sum; reflexivity); apply Rmult_le_compat; assumption).
  assert (E9 : 2 ^ 990 <= 2 ^ 1000) by (apply Rle_pow; [lra|lia]).
  pose proof (abs_dot (vval w) (vval t)) as A. fold L T in A. destruct (entry_norm (vval w)) as (wx & wy & wz). destruct (entry_norm (vval t)) as (tx & ty & tz). fold L in wx, wy, wz. fold T in tx, ty, tz.
  cbn [vval vx vy vz] in A, wx, wy, wz, tx, ty, tz.
  destruct (dot_error _ _ _ _ _ _ d Wx Wy Wz Tx Ty Tz ltac:(lra) Hd) as [Fd Ed]. fold (dot (vval w) (vval t)) in Ed.
  assert (Ed' : Rabs (val d - dot (vval w) (vval t)) <= 302 / 100 * u * (L * T) + 4 * h) by (eapply Rle_trans; [exact Ed|]; rewrite u_num; assert (0 <= L * T) by (apply Rmult_le_pos; assumption); lra).
  assert (BD : Rabs (dot (vval w) (vval t)) <= L * T) by (unfold dot; cbn [vval vx vy vz]; eapply Rle_trans; [apply Rabs_triang|]; eapply Rle_trans; [apply Rplus_le_compat_r, Rabs_triang|]; rewrite !Rabs_mult; exact A).
  assert (C : forall p q r s, Rabs p * Rabs q + Rabs r * Rabs s <= L * T -> Rabs (p * q - r * s) <= L * T)
    by (intros p q r s H; replace (p * q - r * s) with (p * q + - (r * s)) by ring; eapply Rle_trans; [apply Rabs_triang|]; rewrite Rabs_Ropp, !Rabs_mult; exact H).
  assert (Q : forall p1 p2 p3 q1 q2 q3 : R, p1 ^ 2 + p2 ^ 2 + p3 ^ 2 = L ^ 2 -> q1 ^ 2 + q2 ^ 2 + q3 ^ 2 = T ^ 2 -> Rabs p1 * Rabs q2 + Rabs p2 * Rabs q1 <= L * T).
  { intros p1 p2 p3 q1 q2 q3 HP HQ. pose proof (abs_dot (V3 p1 p2 p3) (V3 q2 q1 q3)) as K. cbn [vx vy vz] in K.
    rewrite (norm_is (V3 p1 p2 p3) L L0), (norm_is (V3 q2 q1 q3) T T0) in K; [|unfold dot; cbn [vx vy vz]; lra..]. pose proof (Rmult_le_pos _ _ (Rabs_pos p3) (Rabs_pos q3)). lra. }
  assert (HL : val (fx w) ^ 2 + val (fy w) ^ 2 + val (fz w) ^ 2 = L ^ 2) by (replace (L ^ 2) with (L * L) by ring; unfold L; rewrite norm_sqr; unfold norm2, dot; cbn [vval vx vy vz]; ring).
  assert (HT : val (fx t) ^ 2 + val (fy t) ^ 2 + val (fz t) ^ 2 = T ^ 2) by (replace (T ^ 2) with (T * T) by ring; unfold T; rewrite norm_sqr; unfold norm2, dot; cbn [vval vx vy vz]; ring).
  pose proof (Q (val (fy w)) (val (fz w)) (val (fx w)) (val (fy t)) (val (fz t)) (val (fx t)) ltac:(lra) ltac:(lra)) as Cx.
  pose proof (Q (val (fz w)) (val (fx w)) (val (fy w)) (val (fz t)) (val (fx t)) (val (fy t)) ltac:(lra) ltac:(lra)) as Cy.
  pose proof (Q (val (fx w)) (val (fy w)) (val (fz w)) (val (fx t)) (val (fy t)) (val (fz t)) ltac:(lra) ltac:(lra)) as Cz.
  destruct (cross_entry _ _ _ _ _ Wy Tz Wz Ty Cx LT1) as [Gx Nx]. destruct (cross_entry _ _ _ _ _ Wz Tx Wx Tz Cy LT1) as [Gy Ny]. destruct (cross_entry _ _ _ _ _ Wx Ty Wy Tx Cz LT1) as [Gz Nz].
  pose proof (entry_near a b c d _ _ _ L T _ _ Fa Fb Fc Fd Tx Gx Wx ltac:(lra) ltac:(lra) Ba Bb Bb' Bc Bc' tx wx (C _ _ _ _ Cx) BD Nx Ed') as [Ix Jx].
  pose proof (entry_near a b c d _ _ _ L T _ _ Fa Fb Fc Fd Ty Gy Wy ltac:(lra) ltac:(lra) Ba Bb Bb' Bc Bc' ty wy (C _ _ _ _ Cy) BD Ny Ed') as [Iy Jy].
  pose proof (entry_near a b c d _ _ _ L T _ _ Fa Fb Fc Fd Tz Gz Wz ltac:(lra) ltac:(lra) Ba Bb Bb' Bc Bc' tz wz (C _ _ _ _ Cz) BD Nz Ed') as [Iz Jz].
  subst x. unfold vfinite. cbn [fx fy fz fcross]. split; [split; [exact Ix|split; [exact Iy|exact Iz]]|].
  unfold vsub, combined, vadd, vscale, cross, vval. cbn [fx fy fz fcross vx vy vz]. eapply Rle_trans; [apply norm_three; [exact Jx|exact Jy|exact Jz]|].
  pose proof h_pos. assert (0 <= h * L) by (apply Rmult_le_pos; lra). replace ((11 + 7 * L) * h) with (11 * h + 7 * (h * L)) by ring. replace ((6 + 4 * L) * h) with (6 * h + 4 * (h * L)) by ring. rewrite u_num. lra.
Qed.
Lemma combined_off a b c a' b' c' w t : norm (vsub (combined a b c w t) (combined a' b' c' w t)) <= (Rabs (a - a') + Rabs (b - b') * norm w + Rabs (c - c') * (norm w * norm w)) * norm t.
Proof.
  replace (vsub (combined a b c w t) (combined a' b' c' w t)) with (combined (a - a') (b - b') (c - c') w t) by (unfold combined; vring).
  unfold combined. eapply Rle_trans; [apply CoeffProofs.norm_triangle|]. eapply Rle_trans; [apply Rplus_le_compat_r, CoeffProofs.norm_triangle|]. rewrite !norm_scale.
  pose proof (CoeffProofs.norm_cross_le w t) as C. pose proof (abs_dot w t) as D. assert (B : Rabs (dot w t) <= norm w * norm t) by (unfold dot; eapply Rle_trans; [apply Rabs_triang|]; eapply Rle_trans; [apply Rplus_le_compat_r, Rabs_triang|]; rewrite !Rabs_mult; exact D).
  rewrite Rabs_mult. pose proof (norm_nonneg w). pose proof (norm_nonneg t). pose proof (Rabs_pos (b - b')). pose proof (Rabs_pos (c - c')).
  apply Rle_trans with (Rabs (a - a') * norm t + Rabs (b - b') * (norm w * norm t) + Rabs (c - c') * (norm w * norm t) * norm w); [|apply Req_le; ring].
  apply Rplus_le_compat; [apply Rplus_le_compat_l, Rmult_le_compat_l; assumption|]. apply Rmult_le_compat_r; [assumption|]. apply Rmult_le_compat_l; assumption.
Qed.
Definition twist_error (L : R) : R := (76 + 203 / 100 / Rmax L (19 / 10000)) * u.
Lemma exp_translation w t z a b c x : vfinite w -> vfinite t -> norm (vval w) <= 2 ^ 490 -> norm (vval t) <= 2 ^ 500 -> fsquared_norm w z -> fexp_diff_coeffs z a b c -> ftwist a b c w t x ->
  vfinite x /\ norm (vsub (vval x) (screw (vval w) (vval t) 1)) <= twist_error (norm (vval w)) * norm (vval t) + (11 + 7 * norm (vval w)) * h.
Proof.
  intros Fw Ft L1 T1 Hz Hc Hx. destruct (coeffs_near w z a b c Fw L1 Hz Hc) as ((Fa & Fb & Fc) & Ea & Eb & Ec & Eb' & Ec'). pose proof (norm_nonneg (vval w)) as L0. pose proof (norm_nonneg (vval t)) as T0.
  destruct (coeff_bounds (norm (vval w)) L0) as (_ & Ba & Bb & Bb' & Bc & Bc'). set (L := norm (vval w)) in *. set (T := norm (vval t)) in *.
  assert (O : off_by L <= / 1000) by (unfold off_by; assert (/ Rmax L (19 / 10000) <= 527) by (replace 527 with (/ (/ 527)) by field; apply Rinv_le_contravar; [lra|]; eapply Rle_trans; [|apply Rmax_r]; lra); rewrite u_num; unfold Rdiv; lra).
  assert (P1 : Rabs (val a) <= 101 / 100) by (pose proof (off_bound _ _ _ _ Ea Ba); rewrite u_num in *; lra).
  assert (P2 : Rabs (val b) <= 51 / 100) by (pose proof (off_bound _ _ _ (1 / 2) Eb' ltac:(rewrite Rabs_right; lra)); lra).
  assert (P3 : Rabs (val c) <= 51 / 100) by (pose proof (off_bound _ _ _ (1 / 2) Ec' ltac:(rewrite Rabs_right; lra)); lra).
  assert (P4 : Rabs (val b) * L <= 101 / 100).
  { rewrite <- (abs_scale (val b) L L0). rewrite <- (abs_scale _ L L0) in Eb. rewrite Rmult_minus_distr_r in Eb. pose proof (off_bound _ _ _ 1 Eb ltac:(rewrite Rabs_right; lra)). lra. }
  assert (LL : 0 <= L * L) by nra.
  assert (P5 : Rabs (val c) * (L * L) <= 135 / 100).
  { rewrite <- (abs_scale (val c) _ LL). rewrite <- (abs_scale _ _ LL) in Ec. rewrite Rmult_minus_distr_r in Ec. pose proof (off_bound _ _ _ (4 / 3) Ec ltac:(rewrite Rabs_right; lra)). rewrite u_num in *. lra. }
  destruct (twist_rounding a b c w t x Fa Fb Fc Fw Ft L1 T1 P1 P4 P2 P5 P3 Hx) as [Fx Ex]. split; [exact Fx|]. fold L T in Ex.
  eapply Rle_trans; [apply (CoeffProofs.norm_triangle_sub _ (combined (val a) (val b) (val c) (vval w) (vval t)))|].
  rewrite screw_coeffs. fold L. change (vadd (vadd (vscale (ca L) (vval t)) (vscale (cb L) (cross (vval w) (vval t)))) (vscale (cc L * dot (vval w) (vval t)) (vval w))) with (combined (ca L) (cb L) (cc L) (vval w) (vval t)).
  pose proof (combined_off (val a) (val b) (val c) (ca L) (cb L) (cc L) (vval w) (vval t)) as M. fold L T in M.
  assert (N : (Rabs (val a - ca L) + Rabs (val b - cb L) * L + Rabs (val c - cc L) * (L * L)) * T <= (94 / 10 * u + off_by L + 235 / 10 * u) * T) by (apply Rmult_le_compat_r; lra).
  unfold twist_error. unfold off_by in *. assert (S : (94 / 10 * u + (132 / 10 + 203 / 100 / Rmax L (19 / 10000)) * u + 235 / 10 * u) * T + 295 / 10 * u * T <= (76 + 203 / 100 / Rmax L (19 / 10000)) * u * T); [|lra].
  assert (0 <= u * T) by (pose proof u_pos; nra). lra.
Qed.
