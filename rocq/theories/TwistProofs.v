(** Coefficients of the exponential in double precision. *)
From Coq Require Import Reals Psatz ZArith.
From Flocq Require Import Core BinarySingleNaN.
From Verif Require Import Cpp FloatModel FloatSpec NrmSpec Vec RotSpec ScrewSpec FloatProofs NrmProofs DriftModel DriftSpec DriftProofs DriftProofs2 SpinModel SpinSpec SpinProofs SpinProofs2 TwistModel.
From Verif Require CoeffProofs.
Local Open Scope R_scope.

Lemma prod_off x y X Y dx dy MX MY : Rabs (x - X) <= dx -> Rabs (y - Y) <= dy -> Rabs X <= MX -> Rabs Y <= MY ->
  Rabs (x * y - X * Y) <= dx * MY + MX * dy + dx * dy.
Proof.
  intros A B C D. replace (x * y - X * Y) with ((x - X) * Y + X * (y - Y) + (x - X) * (y - Y)) by ring.
  pose proof (Rabs_pos (x - X)). pose proof (Rabs_pos (y - Y)). pose proof (Rabs_pos X). pose proof (Rabs_pos Y).
  eapply Rle_trans; [apply Rabs_triang|]. apply Rplus_le_compat; [eapply Rle_trans; [apply Rabs_triang|]; apply Rplus_le_compat|]; rewrite Rabs_mult; apply Rmult_le_compat; lra.
Qed.
Lemma off_bound x X d M : Rabs (x - X) <= d -> Rabs X <= M -> Rabs x <= M + d.
Proof. intros A B. replace x with (X + (x - X)) by ring. eapply Rle_trans; [apply Rabs_triang|]. lra. Qed.
Lemma off_trans x y z d e : Rabs (x - y) <= d -> Rabs (y - z) <= e -> Rabs (x - z) <= d + e.
Proof. intros A B. replace (x - z) with ((x - y) + (y - z)) by ring. eapply Rle_trans; [apply Rabs_triang|]. lra. Qed.
Lemma abs_scale x k : 0 <= k -> Rabs (x * k) = Rabs x * k.
Proof. intro. rewrite Rabs_mult, (Rabs_right k) by lra. reflexivity. Qed.
Lemma scale_off x y d k : 0 <= k -> Rabs (x - y) <= d -> Rabs (x * k - y * k) <= d * k.
Proof. intros K E. replace (x * k - y * k) with ((x - y) * k) by ring. rewrite abs_scale by exact K. apply Rmult_le_compat_r; assumption. Qed.

Definition range (L : R) : Prop := 19 / 10000 <= L <= 2 ^ 490.
Lemma pow_sum a b : 2 ^ a * 2 ^ b = 2 ^ (a + b). Proof. symmetry. apply pow_add. Qed.
Lemma range_h L : range L -> 0 < L /\ 0 < / L /\ h * L <= u / 1000 /\ h * (L * L) <= u / 1000 /\ / L <= 527.
Proof.
  intros [A B]. assert (P : 0 < L) by lra. assert (I : 0 < / L) by (apply Rinv_0_lt_compat; exact P). split; [exact P|]. split; [exact I|].
  assert (H : h * (2 ^ 490 * 2 ^ 490) <= u / 1000).
  { rewrite pow_sum. change (490 + 490)%nat with 980%nat. rewrite <- (bpow_pow 980). unfold h. rewrite <- bpow_plus. change (-1075 + Z.of_nat 980)%Z with (-95)%Z. 
    apply Rle_trans with (bpow radix2 (-63)); [apply bpow_le; lia|]. rewrite u_num. change (bpow radix2 (-63)) with (/ 9223372036854775808). lra. }
  assert (O : 1 <= 2 ^ 490) by (apply pow_R1_Rle; lra). pose proof h_pos as Hp.
  split; [|split].
  - eapply Rle_trans; [|exact H]. apply Rmult_le_compat_l; [lra|]. nra.
  - eapply Rle_trans; [|exact H]. apply Rmult_le_compat_l; [lra|]. apply Rmult_le_compat; lra.
  - replace 527 with (/ (/ 527)) by field. apply Rinv_le_contravar; lra.
Qed.
(** The inverse of the angle and its square, times the angle and its square. *)
Lemma inverse_near L r : range L -> finite r -> Rabs (val r - L) <= 255 / 100 * u * L ->
  finite (fdivide (of_int 1) r) /\ Rabs (val (fdivide (of_int 1) r) * L - 1) <= 36 / 10 * u.
Proof.
  intros G F E. destruct (range_h L G) as (P & I & H1 & _ & I5). destruct of_int_1 as [F1 V1]. pose proof h_pos.
  assert (r0 : 9999 / 10000 * L <= val r <= 10001 / 10000 * L) by (apply Rabs_le_inv in E; rewrite u_num in E; lra). assert (rp : 0 < val r) by lra.
  assert (Q : Rabs (1 / val r * L - 1) <= 256 / 100 * u).
  { replace (1 / val r * L - 1) with ((L - val r) * / val r) by (field; lra). rewrite abs_scale by (left; apply Rinv_0_lt_compat; exact rp). rewrite Rabs_minus_sym.
    apply Rmult_le_reg_r with (val r); [exact rp|]. rewrite Rmult_assoc, Rinv_l, Rmult_1_r by lra. eapply Rle_trans; [exact E|]. rewrite u_num. lra. }
  assert (B : Rabs (1 / val r) <= 600).
  { rewrite Rabs_right by (left; apply Rdiv_lt_0_compat; lra). apply Rmult_le_reg_r with (val r); [exact rp|]. unfold Rdiv. rewrite Rmult_1_l, Rinv_l by lra. unfold range in G. lra. }
  destruct (fdiv_val (of_int 1) r F1 ltac:(lra)) as [Fq Vq]; [rewrite V1; apply no_overflow; destruct big_1000; lra|]. split; [exact Fq|].
  rewrite Vq, V1. pose proof (rd_any (1 / val r)) as T. apply (scale_off _ _ _ L) in T; [|lra].
  pose proof (off_trans _ _ _ _ _ T Q) as Z. eapply Rle_trans; [exact Z|].
  replace ((u * Rabs (1 / val r) + h) * L) with (u * (Rabs (1 / val r) * L) + h * L) by ring. rewrite <- abs_scale by lra.
  pose proof (off_bound _ _ _ 1 Q ltac:(rewrite Rabs_R1; lra)) as M. rewrite u_num in *. lra.
Qed.
Lemma inverse_square L q : range L -> finite q -> Rabs (val q * L - 1) <= 36 / 10 * u ->
  finite (fmul q q) /\ Rabs (val (fmul q q) * (L * L) - 1) <= 83 / 10 * u.
Proof.
  intros G F E. destruct (range_h L G) as (P & I & _ & H2 & I5).
  pose proof (prod_off _ _ _ _ _ _ 1 1 E E ltac:(rewrite Rabs_R1; lra) ltac:(rewrite Rabs_R1; lra)) as M.
  assert (q5 : Rabs (val q) <= 600).
  { pose proof (off_bound _ _ _ 1 E ltac:(rewrite Rabs_R1; lra)) as B. rewrite abs_scale in B by lra. apply Rmult_le_reg_r with L; [exact P|]. unfold range in G. rewrite u_num in B. lra. }
  destruct (mul_error q q F F) as [Fp Ep].
  { rewrite Rabs_mult. apply Rle_trans with (600 * 600); [apply Rmult_le_compat; try apply Rabs_pos; exact q5|]. apply Rle_trans with (2 ^ 20); [lra|apply Rle_pow; [lra|lia]]. }
  split; [exact Fp|]. assert (LL : 0 <= L * L) by nra. apply (scale_off _ _ _ (L * L) LL) in Ep.
  replace (val q * L * (val q * L) - 1 * 1) with (val q * val q * (L * L) - 1) in M by ring.
  pose proof (off_trans _ _ _ _ _ Ep M) as Z. eapply Rle_trans; [exact Z|].
  replace ((u * Rabs (val q * val q) + h) * (L * L)) with (u * (Rabs (val q * val q) * (L * L)) + h * (L * L)) by ring. rewrite <- abs_scale by exact LL.
  pose proof (off_bound _ _ _ 1 M ltac:(rewrite Rabs_R1; lra)) as N. rewrite u_num in *. lra.
Qed.

(** The exact coefficients. *)
Definition wa (L : R) : R := sin L / L.
Definition wb (L : R) : R := (1 - cos L) / (L * L).
Definition wc (L : R) : R := (L - sin L) / (L * L * L).
Lemma sin_lip a b : Rabs (sin a - sin b) <= Rabs (a - b).
Proof.
  rewrite form4. replace (2 * cos ((a + b) / 2) * sin ((a - b) / 2)) with (cos ((a + b) / 2) * (2 * sin ((a - b) / 2))) by ring. rewrite Rabs_mult.
  apply Rle_trans with (1 * Rabs (2 * sin ((a - b) / 2))); [apply Rmult_le_compat_r; [apply Rabs_pos|apply cos_bound]|].
  rewrite Rmult_1_l, Rabs_mult, (Rabs_right 2) by lra. pose proof (abs_sin ((a - b) / 2)) as S. unfold Rdiv in S at 2. rewrite Rabs_mult, (Rabs_right (/ 2)) in S by lra. lra.
Qed.
Lemma cos_lip a b : Rabs (cos a - cos b) <= Rabs (a - b).
Proof.
  rewrite form2. replace (-2 * sin ((a - b) / 2) * sin ((a + b) / 2)) with (sin ((a + b) / 2) * (-2 * sin ((a - b) / 2))) by ring. rewrite Rabs_mult.
  apply Rle_trans with (1 * Rabs (-2 * sin ((a - b) / 2))); [apply Rmult_le_compat_r; [apply Rabs_pos|apply sin_bound]|].
  rewrite Rmult_1_l, Rabs_mult. replace (Rabs (-2)) with 2 by (rewrite Rabs_left; lra). pose proof (abs_sin ((a - b) / 2)) as S. unfold Rdiv in S at 2. rewrite Rabs_mult, (Rabs_right (/ 2)) in S by lra. lra.
Qed.
Lemma wa_bound L : 0 < L -> Rabs (wa L) <= 1 /\ 0 <= 1 - wa L <= 4 / 3.
Proof.
  intro P. assert (I : 0 < / L) by (apply Rinv_0_lt_compat; exact P).
  assert (A : Rabs (wa L) <= 1).
  { unfold wa, Rdiv. rewrite abs_scale by lra. apply Rmult_le_reg_r with L; [exact P|]. rewrite Rmult_assoc, Rinv_l by lra. pose proof (abs_sin L) as S. rewrite (Rabs_right L) in S by lra. lra. }
  split; [exact A|]. apply Rabs_le_inv in A. split; [lra|]. destruct (Rle_or_lt L 3) as [B|B].
  - assert (0 <= sin L) by (apply sin_ge_0; [lra|]; pose proof CoeffProofs.three_lt_PI; lra). assert (0 <= wa L) by (unfold wa, Rdiv; nra). lra.
  - assert (/ L <= / 3) by (apply Rinv_le_contravar; lra). pose proof (sin_bound L) as S. apply Rabs_le_inv in S. unfold wa, Rdiv. nra.
Qed.
Lemma wb_bound L : 0 < L -> 0 <= wb L * L <= 1 /\ 0 <= wb L <= 1 / 2.
Proof.
  intro P. assert (I : 0 < / L) by (apply Rinv_0_lt_compat; exact P). pose proof (cos_above L) as C. pose proof (cos_bound L) as D. apply Rabs_le_inv in D.
  assert (E : wb L * (L * L) = 1 - cos L) by (unfold wb; field; lra). assert (LL : 0 < L * L) by nra.
  assert (W : 0 <= wb L) by (apply Rmult_le_reg_r with (L * L); lra). assert (V : wb L <= 1 / 2) by (apply Rmult_le_reg_r with (L * L); lra).
  split; [|lra]. split; [nra|]. destruct (Rle_or_lt L 2) as [B|B]; [nra|]. apply Rmult_le_reg_r with L; [exact P|]. nra.
Qed.
Lemma wc_bound L : 0 < L -> wc L * (L * L) = 1 - wa L /\ 0 <= wc L * (L * L) <= 4 / 3 /\ 0 <= wc L <= 1 / 2.
Proof.
  intro P. assert (E : wc L * (L * L) = 1 - wa L) by (unfold wc, wa; field; lra). split; [exact E|]. destruct (wa_bound L P) as [_ B]. split; [lra|].
  assert (LL : 0 < L * L) by nra. split; [apply Rmult_le_reg_r with (L * L); lra|]. destruct (Rle_or_lt L 2) as [C|C].
  - destruct (CoeffProofs.sin_bounds L ltac:(lra)) as [S _]. unfold CoeffProofs.sin7 in S. assert (T : wc L * (L * L * L) = L - sin L) by (unfold wc; field; lra).
    assert (LLL : 0 < L * L * L) by (apply Rmult_lt_0_compat; lra). apply Rmult_le_reg_r with (L * L * L); [exact LLL|]. rewrite T.
    assert (0 <= L ^ 5 / 120 - L ^ 7 / 5040). { replace (L ^ 5 / 120 - L ^ 7 / 5040) with (L * L * L * (L * L) * (/ 120 - L * L / 5040)) by field. apply Rmult_le_pos; [nra|]. nra. }
    replace (L ^ 3) with (L * L * L) in S by ring. lra.
  - apply Rmult_le_reg_r with (L * L); [exact LL|]. nra.
Qed.

Lemma coeffs_big L z a b c : range L -> finite (fsqrt z) -> Rabs (val (fsqrt z) - L) <= 255 / 100 * u * L ->
  flt z FTINY_SQUARE_ANGLE = false -> fexp_diff_coeffs z a b c ->
  (finite a /\ finite b /\ finite c) /\
  Rabs (val a - wa L) <= 94 / 10 * u /\ Rabs (val b * L - wb L * L) <= (132 / 10 + 203 / 100 * / L) * u /\ Rabs (val c * (L * L) - wc L * (L * L)) <= 235 / 10 * u.
Proof.
  intros G Fr E T. unfold fexp_diff_coeffs. rewrite T. intros (s & k & Ls & Lk & Ha & Hb & Hc). cbv zeta in Ha, Hb, Hc.
  destruct (range_h L G) as (P & I & H1 & H2 & I5). pose proof h_pos as Hp. pose proof h_tiny as Ht. destruct of_int_1 as [F1 V1].
  destruct (inverse_near L (fsqrt z) G Fr E) as [Fq Eq]. set (q := fdivide (of_int 1) (fsqrt z)) in *. destruct (inverse_square L q G Fq Eq) as [Fp Ep]. set (p := fmul q q) in *.
  set (r := fsqrt z) in *. clearbody p q r. assert (LI : L * / L = 1) by (apply Rinv_r; lra).
  assert (q5 : Rabs (val q) <= 600).
  { pose proof (off_bound _ _ _ 1 Eq ltac:(rewrite Rabs_R1; lra)) as B. rewrite abs_scale in B by lra. apply Rmult_le_reg_r with L; [exact P|]. unfold range in G. rewrite u_num in B. lra. }
  assert (p5 : Rabs (val p) <= 600000).
  { pose proof (off_bound _ _ _ 1 Ep ltac:(rewrite Rabs_R1; lra)) as B. assert (LL : 0 < L * L) by nra. rewrite abs_scale in B by lra. apply Rmult_le_reg_r with (L * L); [exact LL|]. unfold range in G. rewrite u_num in B. nra. }
  assert (B1 : 1000000000 <= 2 ^ 1000) by (apply Rle_trans with (2 ^ 30); [lra|apply Rle_pow; [lra|lia]]).
  (* sine *)
  destruct (library_near sin r s Fr (sin_bound _) Ls) as (Fs & Es & _).
  assert (As : Rabs (val s - sin L) <= (255 / 100 + 201 / 100) * u * L).
  { pose proof (Rle_trans _ _ _ (sin_lip (val r) L) E) as M. eapply Rle_trans; [apply (off_trans _ _ _ _ _ Es M)|].
    pose proof (abs_sin (val r)) as S. assert (Rabs (val r) <= L + 255 / 100 * u * L) by (apply (off_bound _ L); [exact E|rewrite Rabs_right; lra]).
    assert (2 * h <= u / 100 * L / 1000). { unfold range in G. assert (h <= u / 1000000000); [|rewrite u_num in *; lra]. apply Rle_trans with (bpow radix2 (-100)); [apply bpow_le; lia|]. rewrite u_num. change (bpow radix2 (-100)) with (/ 1267650600228229401496703205376). lra. }
    rewrite u_num in *. lra. }
  apply (scale_off _ _ _ (/ L)) in As; [|lra]. replace ((255 / 100 + 201 / 100) * u * L * / L) with (456 / 100 * u) in As by (field; lra). fold (sin L / L) in As. fold (wa L) in As.
  destruct (wa_bound L P) as [Wa Wa1].
  pose proof (prod_off _ _ _ _ _ _ 1 1 As Eq Wa ltac:(rewrite Rabs_R1; lra)) as Ma. replace (val s * / L * (val q * L) - wa L * 1) with (val s * val q - wa L) in Ma by (field; lra).
  pose proof (off_bound _ _ _ 1 Ma Wa) as Na.
  destruct (mul_error s q Fs Fq) as [Fa Ea]; [eapply Rle_trans; [exact Na|]; rewrite u_num; lra|]. rewrite <- Ha in Fa, Ea.
  assert (Da : Rabs (val a - wa L) <= 94 / 10 * u) by (eapply Rle_trans; [apply (off_trans _ _ _ _ _ Ea Ma)|]; rewrite u_num in *; lra).
  (* cosine *)
  destruct (library_near cos r k Fr (cos_bound _) Lk) as (Fk & Ek & _).
  assert (Ak : Rabs (val k - cos L) <= 255 / 100 * u * L + 2001 / 1000 * u).
  { pose proof (Rle_trans _ _ _ (cos_lip (val r) L) E) as M. eapply Rle_trans; [apply (off_trans _ _ _ _ _ Ek M)|]. pose proof (cos_bound (val r)). rewrite u_num in *. 
    assert (h <= / 9007199254740992 / 1000000000); [|lra]. apply Rle_trans with (bpow radix2 (-100)); [apply bpow_le; lia|]. change (bpow radix2 (-100)) with (/ 1267650600228229401496703205376). lra. }
  assert (Kb : Rabs (val k) <= 2).
  { pose proof (cos_bound (val r)). pose proof (off_bound _ _ _ 1 Ek (cos_bound _)). rewrite u_num in *. lra. }
  destruct (sub_error (of_int 1) k F1 Fk) as [Fd Ed].
  { rewrite V1. replace (1 - val k) with (1 + - val k) by ring. eapply Rle_trans; [apply Rabs_triang|]. rewrite Rabs_R1, Rabs_Ropp. lra. }
  set (d := fsub (of_int 1) k) in *. rewrite V1 in Ed.
  assert (E1 : Rabs (1 - val k - (1 - cos L)) <= 255 / 100 * u * L + 2001 / 1000 * u) by (replace (1 - val k - (1 - cos L)) with (- (val k - cos L)) by ring; rewrite Rabs_Ropp; exact Ak).
  destruct (wb_bound L P) as [[Wb0 Wb1] Wb2]. assert (Wk : 1 - cos L = wb L * L * L) by (unfold wb; field; lra).
  assert (Ad : Rabs (val d * / L - wb L * L) <= (356 / 100 + 2002 / 1000 * / L) * u).
  { replace (wb L * L) with ((1 - cos L) * / L) by (rewrite Wk; field; lra). pose proof (off_trans _ _ _ _ _ Ed E1) as Z. apply (scale_off _ _ _ (/ L)) in Z; [|lra]. eapply Rle_trans; [exact Z|].
    assert (Mk : Rabs (1 - val k) <= L + (255 / 100 * u * L + 2001 / 1000 * u)).
    { apply (off_bound _ (1 - cos L)); [exact E1|]. rewrite Wk, abs_scale by lra. rewrite Rabs_right by lra. nra. }
    replace ((u * Rabs (1 - val k) + (255 / 100 * u * L + 2001 / 1000 * u)) * / L) with (u * (Rabs (1 - val k) * / L) + 255 / 100 * u * (L * / L) + 2001 / 1000 * u * / L) by ring.
    apply (Rmult_le_compat_r (/ L)) in Mk; [|lra]. replace ((L + (255 / 100 * u * L + 2001 / 1000 * u)) * / L) with (L * / L + 255 / 100 * u * (L * / L) + 2001 / 1000 * u * / L) in Mk by ring.
    rewrite LI in *. rewrite u_num in *. lra. }
  assert (Wbb : Rabs (wb L * L) <= 1) by (rewrite Rabs_right; lra).
  pose proof (prod_off _ _ _ _ _ _ 1 1 Ad Ep Wbb ltac:(rewrite Rabs_R1; lra)) as Mb. replace (val d * / L * (val p * (L * L)) - wb L * L * 1) with (val d * val p * L - wb L * L) in Mb by (field; lra).
  pose proof (off_bound _ _ _ 1 Mb Wbb) as Nb.
  destruct (mul_error d p Fd Fp) as [Fb Eb].
  { apply Rmult_le_reg_r with L; [exact P|]. rewrite <- abs_scale by lra. eapply Rle_trans; [exact Nb|]. unfold range in G. rewrite u_num. assert (1000000000 * (19 / 10000) <= 2 ^ 1000 * L) by nra. lra. }
  rewrite <- Hb in Fb, Eb. apply (scale_off _ _ _ L) in Eb; [|lra].
  assert (Db : Rabs (val b * L - wb L * L) <= (132 / 10 + 203 / 100 * / L) * u).
  { eapply Rle_trans; [apply (off_trans _ _ _ _ _ Eb Mb)|]. replace ((u * Rabs (val d * val p) + h) * L) with (u * (Rabs (val d * val p) * L) + h * L) by ring. rewrite <- abs_scale by lra. rewrite u_num in *. lra. }
  (* third *)
  destruct (sub_error (of_int 1) a F1 Fa) as [Fm Em].
  { rewrite V1. replace (1 - val a) with (1 + - val a) by ring. eapply Rle_trans; [apply Rabs_triang|]. rewrite Rabs_R1, Rabs_Ropp. pose proof (off_bound _ _ _ 1 Da Wa). rewrite u_num in *. lra. }
  set (m := fsub (of_int 1) a) in *. rewrite V1 in Em.
  assert (E2 : Rabs (1 - val a - (1 - wa L)) <= 94 / 10 * u) by (replace (1 - val a - (1 - wa L)) with (- (val a - wa L)) by ring; rewrite Rabs_Ropp; exact Da).
  assert (W1 : Rabs (1 - wa L) <= 4 / 3) by (rewrite Rabs_right; lra).
  assert (Am : Rabs (val m - (1 - wa L)) <= 108 / 10 * u).
  { eapply Rle_trans; [apply (off_trans _ _ _ _ _ Em E2)|]. pose proof (off_bound _ _ _ _ E2 W1). rewrite u_num in *. lra. }
  pose proof (prod_off _ _ _ _ _ _ (4 / 3) 1 Am Ep W1 ltac:(rewrite Rabs_R1; lra)) as Mc. replace (val m * (val p * (L * L)) - (1 - wa L) * 1) with (val m * val p * (L * L) - (1 - wa L)) in Mc by ring.
  pose proof (off_bound _ _ _ _ Mc W1) as Nc. assert (LL : 0 < L * L) by nra.
  destruct (mul_error m p Fm Fp) as [Fc Ec].
  { apply Rmult_le_reg_r with (L * L); [exact LL|]. rewrite <- abs_scale by lra. eapply Rle_trans; [exact Nc|]. unfold range in G. rewrite u_num. assert (/ 300000 <= L * L) by nra. assert (1000000000 * (/ 300000) <= 2 ^ 1000 * (L * L)) by (apply Rmult_le_compat; lra). lra. }
  rewrite <- Hc in Fc, Ec. apply (scale_off _ _ _ (L * L)) in Ec; [|lra].
  destruct (wc_bound L P) as (Wc & _).
  assert (Dc : Rabs (val c * (L * L) - wc L * (L * L)) <= 235 / 10 * u).
  { rewrite Wc. eapply Rle_trans; [apply (off_trans _ _ _ _ _ Ec Mc)|]. replace ((u * Rabs (val m * val p) + h) * (L * L)) with (u * (Rabs (val m * val p) * (L * L)) + h * (L * L)) by ring. rewrite <- abs_scale by lra. rewrite u_num in *. lra. }
  split; [split; [exact Fa|split; [exact Fb|exact Fc]]|]. split; [exact Da|]. split; [exact Db|exact Dc].
Qed.
