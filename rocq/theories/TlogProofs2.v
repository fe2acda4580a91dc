(** Proofs about SO3::quaternion in double precision. *)
From Coq Require Import Psatz.
From Flocq Require Import Core BinarySingleNaN.
From Verif Require Import Cpp FloatModel FloatSpec FloatProofs NrmSpec NrmProofs Vec RotSpec RotProofs CoeffProofs DriftModel DriftSpec DriftProofs DriftProofs2 SpinModel SpinSpec SpinProofs SpinProofs2 TlogModel TlogSpec TlogProofs.
Local Open Scope R_scope.

Lemma fhalf_val : finite fhalf /\ val fhalf = / 2.
Proof.
  destruct of_int_1 as [F1 V1]. destruct (of_small 2) as [F2 V2]; [cbn; lia|].
  assert (E : val (of_int 1) / val (of_int 2) = bpow radix2 (-1)). { rewrite V1, V2. change (bpow radix2 (-1)) with (/ 2). lra. }
  destruct (fdiv_val (of_int 1) (of_int 2) F1) as [F V]; [rewrite V2; lra|rewrite E; apply pow_1023_big; rewrite Rabs_right; [|apply Rle_ge, bpow_ge_0]; change (bpow radix2 (-1)) with (/ 2); apply Rle_trans with 1; [lra|apply pow_R1_Rle; lra]|].
  split; [exact F|]. unfold fhalf. rewrite V, E, rd_id; [reflexivity|]. apply fmt_bpow. lia.
Qed.
Section Pivot.
  Variables (a e : R) (t : f64).
  Hypothesis E0 : 0 <= e <= / 2000.
  Hypothesis T : ap t (4 * (a * a)) (174 / 100 * e + 10 * u).
  Hypothesis A : 99 / 100 <= 4 * (a * a).
  Hypothesis A0 : 0 < a.
  Hypothesis A1 : a <= 1.
  Let s := fsqrt t.
  Lemma pivot_sqrt : ap s (2 * a) (89 / 100 * e + 72 / 10 * u).
  Proof.
    destruct T as [F D]. pose proof u_pos as Up. assert (Us : 1000 * u <= / 1000) by (rewrite u_num; lra). apply Rabs_le_inv in D.
    assert (L : 98 / 100 <= val t) by lra. destruct (fsqrt_val t F ltac:(lra)) as [Fs V]. fold s in Fs, V. split; [exact Fs|].
    pose proof (sqrt_pos (val t)) as S0. pose proof (sqrt_sqrt (val t) ltac:(lra)) as SS. set (q := sqrt (val t)) in *. clearbody q.
    assert (Q : 98 / 100 <= q) by nra. assert (A99 : 99 / 100 <= 2 * a) by nra.
    assert (M : (q - 2 * a) * (q + 2 * a) = val t - 4 * (a * a)) by (rewrite <- SS; ring).
    assert (B : Rabs (q - 2 * a) <= 885 / 1000 * e + 51 / 10 * u).
    { apply Rabs_le. split.
      - destruct (Rle_or_lt (- (885 / 1000 * e + 51 / 10 * u)) (q - 2 * a)) as [|C]; [assumption|]. exfalso.
        assert ((885 / 1000 * e + 51 / 10 * u) * (197 / 100) <= (2 * a - q) * (q + 2 * a)) by (apply Rmult_le_compat; lra). lra.
      - destruct (Rle_or_lt (q - 2 * a) (885 / 1000 * e + 51 / 10 * u)) as [|C]; [assumption|]. exfalso.
        assert ((885 / 1000 * e + 51 / 10 * u) * (197 / 100) <= (q - 2 * a) * (q + 2 * a)) by (apply Rmult_le_compat; lra). lra. }
    rewrite V. pose proof (rd_any q) as R. rewrite (Rabs_right q) in R by lra. pose proof h_tiny.
    replace (rd q - 2 * a) with ((rd q - q) + (q - 2 * a)) by ring. eapply Rle_trans; [apply Rabs_triang|]. apply Rabs_le_inv in B. assert (u * q <= u * (201 / 100)) by (apply Rmult_le_compat_l; lra). apply Rle_trans with (u * q + h + (885 / 1000 * e + 51 / 10 * u)); [apply Rplus_le_compat; [exact R|apply Rabs_le; exact B]|lra].
  Qed.
  Lemma pivot_bounds : 98 / 100 <= val s <= 201 / 100 /\ 99 / 100 <= 2 * a.
  Proof. destruct pivot_sqrt as [_ D]. apply Rabs_le_inv in D. pose proof u_pos. assert (Us : 1000 * u <= / 1000) by (rewrite u_num; lra). assert (99 / 100 <= 2 * a) by nra. split; lra. Qed.
  Lemma pivot_first : ap (fmul fhalf s) a (45 / 100 * e + 56 / 10 * u).
  Proof.
    destruct fhalf_val as [Fh Vh]. pose proof (ap_val _ Fh) as H. rewrite Vh in H. pose proof u_pos. assert (Us : 1000 * u <= / 1000) by (rewrite u_num; lra). pose proof h_tiny.
    replace a with (/ 2 * (2 * a)) by field. eapply ap_weaken; [apply (ap_mul _ _ _ _ _ _ (/ 2) 2 1 H pivot_sqrt)|]; try lra; try (apply Rabs_le; lra).
  Qed.
  Let r := fdivide fhalf s.
  Lemma pivot_inverse : ap r (/ (4 * a)) (47 / 100 * e + 44 / 10 * u).
  Proof.
    destruct fhalf_val as [Fh Vh]. destruct pivot_sqrt as [Fs D]. destruct pivot_bounds as [S A2]. pose proof u_pos. assert (Us : 1000 * u <= / 1000) by (rewrite u_num; lra). pose proof h_tiny.
    assert (B : 0 <= val fhalf / val s <= 52 / 100).
    { rewrite Vh. split; [apply Rlt_le, Rdiv_lt_0_compat; lra|]. apply Rmult_le_reg_r with (val s); [lra|]. unfold Rdiv at 1. rewrite Rmult_assoc, Rinv_l by lra. lra. }
    destruct (fdiv_val fhalf s Fh ltac:(lra)) as [F V]; [apply pow_1023_big; rewrite Rabs_right by lra; apply Rle_trans with 1; [lra|apply pow_R1_Rle; lra]|].
    split; [exact F|]. unfold r. rewrite V. pose proof (rd_any (val fhalf / val s)) as R. rewrite (Rabs_right (val fhalf / val s)) in R by lra.
    replace (rd (val fhalf / val s) - / (4 * a)) with ((rd (val fhalf / val s) - val fhalf / val s) + (2 * a - val s) * / (2 * (val s * (2 * a)))) by (rewrite Vh; field; lra).
    eapply Rle_trans; [apply Rabs_triang|]. rewrite Rabs_mult, (Rabs_minus_sym (2 * a)).
    assert (Q : Rabs (/ (2 * (val s * (2 * a)))) <= 52 / 100).
    { assert (98 / 100 * (99 / 100) <= val s * (2 * a)) by (apply Rmult_le_compat; lra). rewrite Rabs_right by (apply Rle_ge, Rlt_le, Rinv_0_lt_compat; lra).
      apply Rmult_le_reg_r with (2 * (val s * (2 * a))); [lra|]. rewrite Rinv_l by lra. lra. }
    assert (Rabs (val s - 2 * a) * Rabs (/ (2 * (val s * (2 * a)))) <= (89 / 100 * e + 72 / 10 * u) * (52 / 100)) by (apply Rmult_le_compat; try apply Rabs_pos; assumption).
    assert (u * (val fhalf / val s) <= u * (52 / 100)) by (apply Rmult_le_compat_l; lra). lra.
  Qed.
  Lemma pivot_other x b : ap x (4 * (a * b)) (142 / 100 * e + 3 * u) -> Rabs b <= 1 -> Rabs (4 * (a * b)) <= 2 -> ap (fmul x r) b (17 / 10 * e + 122 / 10 * u).
  Proof.
    intros X B AB. destruct pivot_bounds as [_ A2]. pose proof u_pos. assert (Us : 1000 * u <= / 1000) by (rewrite u_num; lra). pose proof h_tiny.
    assert (I : 0 < / (4 * a) <= 51 / 100). { split; [apply Rinv_0_lt_compat; lra|]. apply Rmult_le_reg_r with (4 * a); [lra|]. rewrite Rinv_l by lra. lra. }
    replace b with (4 * (a * b) * / (4 * a)) by (field; lra). assert (Eb : 4 * (a * b) * / (4 * a) = b) by (field; lra).
    eapply ap_weaken; [apply (ap_mul _ _ _ _ _ _ 2 (51 / 100) 1 X pivot_inverse)|]; try lra; try assumption; [rewrite Rabs_right; lra|rewrite Eb; exact B].
  Qed.
End Pivot.

(** ** Matrices near a rotation *)
Section Near.
  Variables (m : fmat) (e w x y z : R).
  Let r := quaternion_matrix w (V3 x y z).
  Hypothesis N : w * w + (x * x + y * y + z * z) = 1.
  Hypothesis F : mfinite m.
  Hypothesis D : apart (mval m) r <= e.
  Hypothesis E : e <= / 2000.
  Let d (g : mat3 -> R) : R := g (mval m) - g r.
  Lemma near_sq : (val (f00 m) - (1 - 2 * (y * y + z * z))) ^ 2 + (val (f01 m) - 2 * (x * y - w * z)) ^ 2 + (val (f02 m) - 2 * (x * z + w * y)) ^ 2 +
    (val (f10 m) - 2 * (x * y + w * z)) ^ 2 + (val (f11 m) - (1 - 2 * (x * x + z * z))) ^ 2 + (val (f12 m) - 2 * (y * z - w * x)) ^ 2 +
    (val (f20 m) - 2 * (x * z - w * y)) ^ 2 + (val (f21 m) - 2 * (y * z + w * x)) ^ 2 + (val (f22 m) - (1 - 2 * (x * x + y * y))) ^ 2 <= e ^ 2.
  Proof.
    unfold apart, size, r in D. rewrite quaternion_explicit in D. unfold madd, mscale, mval in D. cbn [m00 m01 m02 m10 m11 m12 m20 m21 m22] in D.
    match type of D with sqrt ?s <= _ => assert (P : 0 <= s) end.
    { repeat apply Rplus_le_le_0_compat; apply pow2_ge_0. }
    match type of D with sqrt ?s <= _ => assert (Q : s <= e ^ 2) end.
    { rewrite <- (sqrt_sqrt _ P). replace (e ^ 2) with (e * e) by ring. apply Rmult_le_compat; try apply sqrt_pos; exact D. }
    eapply Rle_trans; [|exact Q]. right. ring.
  Qed.
  Lemma near_pos : 0 <= e.
  Proof. eapply Rle_trans; [apply apart_pos|exact D]. Qed.
  Lemma pair_le p q : p ^ 2 + q ^ 2 <= e ^ 2 -> Rabs (p + q) <= 142 / 100 * e /\ Rabs (p - q) <= 142 / 100 * e.
  Proof.
    intro H. pose proof near_pos. split.
    - rewrite <- (sqrt_Rsqr_abs (p + q)). rewrite <- (sqrt_square (142 / 100 * e)) by lra. apply sqrt_le_1_alt. unfold Rsqr. pose proof (pow2_ge_0 (p - q)). nra.
    - rewrite <- (sqrt_Rsqr_abs (p - q)). rewrite <- (sqrt_square (142 / 100 * e)) by lra. apply sqrt_le_1_alt. unfold Rsqr. pose proof (pow2_ge_0 (p + q)). nra.
  Qed.
  Lemma triple_le p q t : p ^ 2 + q ^ 2 + t ^ 2 <= e ^ 2 -> Rabs (p + q + t) <= 174 / 100 * e.
  Proof.
    intro H. pose proof near_pos. rewrite <- (sqrt_Rsqr_abs (p + q + t)). rewrite <- (sqrt_square (174 / 100 * e)) by lra. apply sqrt_le_1_alt. unfold Rsqr.
    pose proof (pow2_ge_0 (p - q)). pose proof (pow2_ge_0 (p - t)). pose proof (pow2_ge_0 (q - t)). nra.
  Qed.
  Lemma one_le p : p ^ 2 <= e ^ 2 -> Rabs p <= e.
  Proof.
    intro H. pose proof near_pos. rewrite <- (sqrt_Rsqr_abs p). rewrite <- (sqrt_square e) by lra. apply sqrt_le_1_alt. unfold Rsqr. nra.
  Qed.
End Near.
Lemma sub_pair a b p q e g : finite a -> finite b -> Rabs (val a - p - (val b - q)) <= g -> p - q = 4 * e -> Rabs (4 * e) <= 2 -> g <= / 100 ->
  ap (fsub a b) (4 * e) (g + 3 * u).
Proof.
  intros A B D P L G. assert (Z : 0 <= g) by (eapply Rle_trans; [apply Rabs_pos|exact D]). pose proof u_pos. rewrite <- P in *.
  assert (Q : Rabs (val a - val b - (p - q)) <= g) by (replace (val a - val b - (p - q)) with (val a - p - (val b - q)) by ring; exact D).
  assert (M : Rabs (val a - val b) <= 2 + g). { replace (val a - val b) with ((p - q) + (val a - val b - (p - q))) by ring. eapply Rle_trans; [apply Rabs_triang|]. lra. }
  destruct (sub_error a b A B) as [F V]; [eapply Rle_trans; [exact M|]; destruct big_1000; apply Rle_trans with (2 ^ 2); [lra|]; apply Rle_trans with (2 ^ 1000 * 1); [rewrite Rmult_1_r; apply Rle_pow; [lra|lia]|lra]|].
  split; [exact F|]. replace (val (fsub a b) - (p - q)) with ((val (fsub a b) - (val a - val b)) + (val a - val b - (p - q))) by ring. eapply Rle_trans; [apply Rabs_triang|].
  assert (u * Rabs (val a - val b) <= u * 3) by (apply Rmult_le_compat_l; lra). lra.
Qed.
Lemma add_pair a b p q e g : finite a -> finite b -> Rabs (val a - p + (val b - q)) <= g -> p + q = 4 * e -> Rabs (4 * e) <= 2 -> g <= / 100 ->
  ap (fadd a b) (4 * e) (g + 3 * u).
Proof.
  intros A B D P L G. assert (Z : 0 <= g) by (eapply Rle_trans; [apply Rabs_pos|exact D]). pose proof u_pos. rewrite <- P in *.
  assert (Q : Rabs (val a + val b - (p + q)) <= g) by (replace (val a + val b - (p + q)) with (val a - p + (val b - q)) by ring; exact D).
  assert (M : Rabs (val a + val b) <= 2 + g). { replace (val a + val b) with ((p + q) + (val a + val b - (p + q))) by ring. eapply Rle_trans; [apply Rabs_triang|]. lra. }
  destruct (add_error a b A B) as [F V]; [eapply Rle_trans; [exact M|]; destruct big_1000; apply Rle_trans with (2 ^ 2); [lra|]; apply Rle_trans with (2 ^ 1000 * 1); [rewrite Rmult_1_r; apply Rle_pow; [lra|lia]|lra]|].
  split; [exact F|]. replace (val (fadd a b) - (p + q)) with ((val (fadd a b) - (val a + val b)) + (val a + val b - (p + q))) by ring. eapply Rle_trans; [apply Rabs_triang|].
  assert (u * Rabs (val a + val b) <= u * 3) by (apply Rmult_le_compat_l; lra). lra.
Qed.
(** Sums of entries of about one. *)
Definition about1 (x : f64) : Prop := finite x /\ Rabs (val x) <= 101 / 100.
Lemma sum_add a b A B : finite a -> finite b -> Rabs (val a) <= A -> Rabs (val b) <= B -> A + B <= 10 ->
  finite (fadd a b) /\ Rabs (val (fadd a b) - (val a + val b)) <= u * (A + B) /\ Rabs (val (fadd a b)) <= A + B + / 1000.
Proof.
  intros FA FB a0 b0 L. pose proof u_pos. assert (Us : 1000 * u <= / 1000) by (rewrite u_num; lra). assert (M : Rabs (val a + val b) <= A + B) by (eapply Rle_trans; [apply Rabs_triang|]; lra). pose proof (Rabs_pos (val a)). pose proof (Rabs_pos (val b)).
  destruct (add_error a b FA FB) as [F V]; [eapply Rle_trans; [exact M|]; destruct big_1000; apply Rle_trans with (2 ^ 4); [lra|]; apply Rle_trans with (2 ^ 1000 * 1); [rewrite Rmult_1_r; apply Rle_pow; [lra|lia]|lra]|].
  assert (G : u * Rabs (val a + val b) <= u * (A + B)) by (apply Rmult_le_compat_l; lra). split; [exact F|]. split; [lra|].
  replace (val (fadd a b)) with ((val a + val b) + (val (fadd a b) - (val a + val b))) by ring. eapply Rle_trans; [apply Rabs_triang|]. assert (u * (A + B) <= u * 10) by (apply Rmult_le_compat_l; lra). lra.
Qed.
Lemma sum_sub a b A B : finite a -> finite b -> Rabs (val a) <= A -> Rabs (val b) <= B -> A + B <= 10 ->
  finite (fsub a b) /\ Rabs (val (fsub a b) - (val a - val b)) <= u * (A + B) /\ Rabs (val (fsub a b)) <= A + B + / 1000.
Proof.
  intros FA FB a0 b0 L. pose proof u_pos. assert (Us : 1000 * u <= / 1000) by (rewrite u_num; lra). assert (M : Rabs (val a - val b) <= A + B) by (unfold Rminus; eapply Rle_trans; [apply Rabs_triang|]; rewrite Rabs_Ropp; lra). pose proof (Rabs_pos (val a)). pose proof (Rabs_pos (val b)).
  destruct (sub_error a b FA FB) as [F V]; [eapply Rle_trans; [exact M|]; destruct big_1000; apply Rle_trans with (2 ^ 4); [lra|]; apply Rle_trans with (2 ^ 1000 * 1); [rewrite Rmult_1_r; apply Rle_pow; [lra|lia]|lra]|].
  assert (G : u * Rabs (val a - val b) <= u * (A + B)) by (apply Rmult_le_compat_l; lra). split; [exact F|]. split; [lra|].
  replace (val (fsub a b)) with ((val a - val b) + (val (fsub a b) - (val a - val b))) by ring. eapply Rle_trans; [apply Rabs_triang|]. assert (u * (A + B) <= u * 10) by (apply Rmult_le_compat_l; lra). lra.
Qed.
Lemma trace_near a b c t : about1 a -> about1 b -> about1 c -> fsum3 a b c t -> finite t /\ Rabs (val t - (val a + val b + val c)) <= 51 / 10 * u /\ Rabs (val t) <= 31 / 10.
Proof.
  intros [Fa A] [Fb B] [Fc C] S. pose proof u_pos. destruct S.
  - destruct (sum_add a b _ _ Fa Fb A B) as (F & V & W); [lra|]. destruct (sum_add (fadd a b) c _ _ F Fc W C) as (G & V' & W'); [lra|]. split; [exact G|]. split; [|lra].
    replace (val (fadd (fadd a b) c) - (val a + val b + val c)) with ((val (fadd (fadd a b) c) - (val (fadd a b) + val c)) + (val (fadd a b) - (val a + val b))) by ring. eapply Rle_trans; [apply Rabs_triang|]. lra.
  - destruct (sum_add b c _ _ Fb Fc B C) as (F & V & W); [lra|]. destruct (sum_add a (fadd b c) _ _ Fa F A W) as (G & V' & W'); [lra|]. split; [exact G|]. split; [|lra].
    replace (val (fadd a (fadd b c)) - (val a + val b + val c)) with ((val (fadd a (fadd b c)) - (val a + val (fadd b c))) + (val (fadd b c) - (val b + val c))) by ring. eapply Rle_trans; [apply Rabs_triang|]. lra.
Qed.
Lemma plus_one t A : finite t -> Rabs (val t) <= A -> A <= 4 -> finite (fadd t (of_int 1)) /\ Rabs (val (fadd t (of_int 1)) - (val t + 1)) <= u * (A + 1).
Proof. intros F B L. destruct of_int_1 as [F1 V1]. destruct (sum_add t (of_int 1) A 1 F F1 B) as (G & V & _); [rewrite V1, Rabs_R1; lra|lra|]. rewrite V1 in V. split; assumption. Qed.
Lemma diagonal_pivot a b c : about1 a -> about1 b -> about1 c ->
  finite (fadd (fsub (fsub a b) c) (of_int 1)) /\ Rabs (val (fadd (fsub (fsub a b) c) (of_int 1)) - (val a - val b - val c + 1)) <= 10 * u.
Proof.
  intros [Fa A] [Fb B] [Fc C]. pose proof u_pos. destruct (sum_sub a b _ _ Fa Fb A B) as (F & V & W); [lra|]. destruct (sum_sub (fsub a b) c _ _ F Fc W C) as (G & V' & W'); [lra|].
  destruct (plus_one (fsub (fsub a b) c) _ G W') as (H' & V''); [lra|]. split; [exact H'|].
  replace (val (fadd (fsub (fsub a b) c) (of_int 1)) - (val a - val b - val c + 1)) with
    ((val (fadd (fsub (fsub a b) c) (of_int 1)) - (val (fsub (fsub a b) c) + 1)) + ((val (fsub (fsub a b) c) - (val (fsub a b) - val c)) + (val (fsub a b) - (val a - val b)))) by ring.
  eapply Rle_trans; [apply Rabs_triang|]. eapply Rle_trans; [apply Rplus_le_compat_l, Rabs_triang|]. lra.
Qed.
