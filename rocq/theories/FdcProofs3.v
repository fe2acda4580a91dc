(** One segment of a distance curve in double precision. *)
From Coq Require Import Reals Psatz ZArith.
From Flocq Require Import Core BinarySingleNaN.
From Verif Require Import Cpp RotSpec GeomModel RotProofs CoeffProofs DerivSpec DerivProofs ScrewSpec LieProofs DiffProofs FloatModel FloatSpec NrmSpec FloatProofs NrmProofs DriftModel DriftSpec DriftProofs DriftProofs2 SpinModel SpinSpec SpinProofs SpinProofs2 TwistModel TwistProofs TwistProofs2 TwistProofs3 TlogModel TlogSpec TlogProofs TlogProofs2 TlogProofs4 TlogProofs5 TlogProofs6 SlogModel SlogProofs SlogProofs2 SlogProofs3 SlogProofs4 SlogProofs5 SlogProofs6 SlogProofs7 SlogProofs8 FdcSpec FdcProofs2.
Local Open Scope R_scope.

Lemma small_unit B : / 2 ^ 400 <= B -> 10 ^ 6 * h <= u * B /\ / 2 ^ 497 <= u * B / 100.
Proof.
  intro H. pose proof u_pos as U. split.
  - eapply Rle_trans; [apply small_len|]. apply Rmult_le_compat_l; [lra|]. eapply Rle_trans; [|exact H]. apply Rinv_le_contravar; [apply pow_lt; lra|apply Rle_pow; [lra|lia]].
  - replace (2 ^ 497) with (2 ^ 97 * 2 ^ 400) by (rewrite pow_sum; reflexivity). rewrite Rinv_mult. replace (u * B / 100) with (u / 100 * B) by field.
    apply Rmult_le_compat; [apply Rlt_le, Rinv_0_lt_compat, pow_lt; lra|apply Rlt_le, Rinv_0_lt_compat, pow_lt; lra| |exact H]. rewrite u_num. lra.
Qed.
Lemma cancel_back r s t : vsub (vadd (mvec r s) t) t = mvec r s. Proof. vring. Qed.
Lemma join_back r a b : vadd (mvec r a) (mvec r (vneg b)) = mvec r (vsub a b). Proof. vring. Qed.
Lemma sub_le a b : norm (vsub a b) <= norm a + norm b.
Proof. replace (vsub a b) with (vadd a (vneg b)) by vring. eapply Rle_trans; [apply norm_triangle|]. rewrite norm_neg. apply Rle_refl. Qed.
Lemma sqrt_length z : finite (fsqrt z) -> 0 <= val (fsqrt z).
Proof.
  intros _. unfold val, fsqrt. rewrite (proj1 (Bsqrt_correct 53 1024 prec_pos prec_emax mode_NE z)). apply round_ge_generic; [apply FLT_exp_valid; reflexivity|apply valid_rnd_round_mode|apply generic_format_0|apply sqrt_pos].
Qed.
Section step.
Variables (e B : R) (g g' : fpose) (x y : motion) (w v : vec3).
Hypotheses (He : e <= / 5000) (B1 : / 2 ^ 400 <= B) (B2 : B <= 2 ^ 480).
Hypotheses (Hg : control_near e B g x) (Hg' : control_near e B g' y) (Hw : norm w <= 3) (Hp : part_way x w v 1 y).

Lemma step_e : 0 <= e.
Proof. destruct Hg as (((_ & _ & A) & _) & _). eapply Rle_trans; [apply apart_pos|exact A]. Qed.
Lemma step_B : 0 < B.
Proof. eapply Rlt_le_trans; [|exact B1]. apply Rinv_0_lt_compat, pow_lt. lra. Qed.
Lemma step_screw : is_rotation (fst x) /\ mvec (mtrans (fst x)) (vsub (snd y) (snd x)) = screw w v 1 /\ norm (screw w v 1) <= 2 * B /\ norm v <= 374 / 100 * B.
Proof.
  destruct Hg as (((_ & R & _) & _) & Nx), Hg' as (_ & Ny). cbn [snd] in R. destruct Hp as (r & _ & _ & E). rewrite E. split; [exact R|].
  assert (S : mvec (mtrans (fst x)) (vsub (vadd (mvec (fst x) (screw w v 1)) (snd x)) (snd x)) = screw w v 1).
  { rewrite cancel_back, <- mvec_mmul, rot_mtrans_l by exact R. apply mvec_1. }
  split; [exact S|]. rewrite E in Ny. assert (N : norm (screw w v 1) <= 2 * B).
  { rewrite <- S, rot_norm by (apply rot_mtrans, R). eapply Rle_trans; [apply sub_le|]. lra. }
  split; [exact N|]. pose proof PI_low as PL. rewrite <- (unscrew_screw w v ltac:(lra)). eapply Rle_trans; [apply unscrew_bound; unfold reach_max; lra|]. lra.
Qed.
Lemma step_near inv rel : fpose_inverse g inv -> fpose_mul inv g' rel -> exists r, rotation_by w r /\ stands_for (2001 / 1000 * e + 11 * u) (frot rel, r) /\ vfinite (ftrans rel) /\
  norm (vsub (vval (ftrans rel)) (screw w v 1)) <= (401 / 100 * e + 16 * u) * B /\ norm (vval (ftrans rel)) <= 201 / 100 * B.
Proof.
  intros I P. pose proof step_e as e0. pose proof step_B as B0. destruct step_screw as (R & S & NS & _). destruct Hp as (r & Rb & Ef & Es). pose proof u_pos as U. pose proof h_pos as Hh. destruct (small_unit B B1) as [hB _].
  destruct Hg as [Wg Nx]. destruct Hg' as [Wg' Ny]. destruct x as [rx tx], y as [ry ty]. cbn [fst snd] in *.
  assert (eB : 0 <= e * B) by (apply Rmult_le_pos; lra). assert (eB1 : e * B <= / 5000 * B) by (apply Rmult_le_compat_r; lra). assert (ee : e * (e * B) <= / 5000 * (e * B)) by (apply Rmult_le_compat_r; lra). assert (e2 : e * e <= / 5000 * e) by (apply Rmult_le_compat_r; lra).
  assert (uB : 0 <= u * B) by (apply Rmult_le_pos; lra). assert (ueB : u * (e * B) <= u * (/ 5000 * B)) by (apply Rmult_le_compat_l; lra). assert (uB1 : u * B <= / 1000000 * B) by (apply Rmult_le_compat_r; [lra|rewrite u_num; lra]).
  assert (P9 : 2 * 2 ^ 480 <= 2 ^ 900) by (change (2 * 2 ^ 480) with (2 ^ 481); apply Rle_pow; [lra|lia]).
  pose proof (inverse_within e (e * B) g inv rx tx (B + e * B) Wg ltac:(lra) ltac:(lra) ltac:(lra) I) as Wi.
  assert (Ni : norm (mvec (mtrans rx) (vneg tx)) <= B) by (rewrite rot_norm, norm_neg by (apply rot_mtrans, R); exact Nx).
  pose proof (product_within _ _ _ _ _ _ _ _ _ _ _ (102 / 100 * B) (B + e * B) Wi Wg' ltac:(lra) ltac:(lra) ltac:(lra) ltac:(lra) ltac:(lra) ltac:(lra) P) as ((F & Q & A) & Ft & D). cbn [fst snd] in *.
  exists r. rewrite vscale_1 in Rb.
  assert (Er : mmul (mtrans rx) ry = r) by (rewrite Ef, mmul_assoc, rot_mtrans_l by exact R; apply mmul_1_l).
  assert (Et : vadd (mvec (mtrans rx) ty) (mvec (mtrans rx) (vneg tx)) = screw w v 1) by (rewrite <- S; apply join_back). rewrite Er in *. rewrite Et in D.
  split; [exact Rb|]. split; [split; [exact F|split; [exact Q|cbn [fst snd]; lra]]|]. split; [exact Ft|].
  assert (D' : norm (vsub (vval (ftrans rel)) (screw w v 1)) <= (401 / 100 * e + 16 * u) * B) by lra. split; [exact D'|].
  pose proof (norm_near (vval (ftrans rel)) (screw w v 1)). lra.
Qed.
Lemma step_length inv rel l : fpose_inverse g inv -> fpose_mul inv g' rel -> fse3_arc_length rel l -> finite l /\ 0 <= val l /\ Rabs (val l - norm v) <= (161 * e + 4570 * u) * B.
Proof.
  intros I P L. pose proof step_e as e0. pose proof step_B as B0. destruct (step_near inv rel I P) as (r & Rb & S & Ft & D & N). pose proof u_pos as U. destruct (small_unit B B1) as [hB tB].
  assert (P9 : 201 / 100 * 2 ^ 480 <= 2 ^ 488) by (apply Rle_trans with (2 ^ 8 * 2 ^ 480); [apply Rmult_le_compat_r; [apply pow_le|]; lra|rewrite pow_sum; apply Rle_refl]).
  assert (Us : 11 * u <= / 100000) by (rewrite u_num; lra).
  destruct (se3_length_near rel r _ l S ltac:(lra) Ft ltac:(lra) L) as [Fl _]. split; [exact Fl|]. split.
  { destruct L as (w1 & v1 & _ & z & _ & ->). apply sqrt_length, Fl. }
  pose proof (se3_length_follows rel r _ l w v _ (norm v) S ltac:(lra) Ft ltac:(lra) L Rb Hw D (screw_length w v)) as E. eapply Rle_trans; [exact E|].
  assert (eB : 0 <= e * B) by (apply Rmult_le_pos; lra). assert (uB : 0 <= u * B) by (apply Rmult_le_pos; lra). assert (0 <= 38 * (2001 / 1000 * e + 11 * u) + 1840 * u) by lra.
  assert ((38 * (2001 / 1000 * e + 11 * u) + 1840 * u) * norm (vval (ftrans rel)) <= (38 * (2001 / 1000 * e + 11 * u) + 1840 * u) * (201 / 100 * B)) by (apply Rmult_le_compat_l; lra). lra.
Qed.
Lemma step_part inv rel f q p : fpose_inverse g inv -> fpose_mul inv g' rel -> finite f -> 0 <= val f <= 1 -> fse3_interp rel f q -> fpose_mul g q p ->
  exists z, part_way x w v (val f) z /\ pose_within (45 * e + 600 * u) ((260 * e + 10000 * u) * B) p z.
Proof.
  intros I P Ff Bf Iq M. pose proof step_e as e0. pose proof step_B as B0. destruct (step_near inv rel I P) as (r & Rb & S & Ft & D & N). destruct step_screw as (R & _ & _ & NV). pose proof u_pos as U. pose proof h_pos as Hh. destruct (small_unit B B1) as [hB tB].
  assert (P9 : 201 / 100 * 2 ^ 480 <= 2 ^ 488) by (apply Rle_trans with (2 ^ 8 * 2 ^ 480); [apply Rmult_le_compat_r; [apply pow_le|]; lra|rewrite pow_sum; apply Rle_refl]).
  assert (P10 : 2 ^ 488 <= 2 ^ 498) by (apply Rle_pow; [lra|lia]). assert (P11 : 2 ^ 488 <= 2 ^ 500) by (apply Rle_pow; [lra|lia]). assert (P12 : 2 ^ 488 <= 2 ^ 900) by (apply Rle_pow; [lra|lia]). assert (P13 : 8 * 2 ^ 480 <= 2 ^ 488) by (replace 8 with (2 ^ 3) by ring; rewrite pow_sum; apply Rle_pow; [lra|lia]).
  assert (Us : 11 * u <= / 100000) by (rewrite u_num; lra). assert (Us2 : 10000 * u <= / 100000) by (rewrite u_num; lra). destruct (rotation_by_some (vscale (val f) w)) as [part Q].
  assert (fT : Rabs (val f) * norm (vval (ftrans rel)) <= 2 ^ 498) by (rewrite Rabs_right by lra; pose proof (norm_nonneg (vval (ftrans rel))); apply Rle_trans with (1 * norm (vval (ftrans rel))); [apply Rmult_le_compat_r; lra|lra]).
  destruct (se3_interp_follows rel r _ f q w v _ part S ltac:(lra) Ft ltac:(lra) Ff Bf fT Iq Rb Hw D Q) as (Sq & Fq & Eq).
  assert (eB : 0 <= e * B) by (apply Rmult_le_pos; lra). assert (uB : 0 <= u * B) by (apply Rmult_le_pos; lra). assert (0 <= 59 * (2001 / 1000 * e + 11 * u) + 4250 * u) by lra.
  assert (K : (59 * (2001 / 1000 * e + 11 * u) + 4250 * u) * norm (vval (ftrans rel)) <= (59 * (2001 / 1000 * e + 11 * u) + 4250 * u) * (201 / 100 * B)) by (apply Rmult_le_compat_l; lra).
  assert (W : pose_within (435 / 10 * e + 566 * u) ((254 * e + 9912 * u) * B) q (part, screw w v (val f))).
  { destruct Sq as (S1 & S2 & S3). split; [split; [exact S1|split; [exact S2|]]|split; [exact Fq|]]; cbn [fst snd] in *; lra. }
  pose proof (screw_bound w v (val f) ltac:(lra)) as NB. assert (fV : val f * norm v <= 1 * (374 / 100 * B)) by (apply Rmult_le_compat; [lra|apply norm_nonneg|lra|lra]).
  assert (eB1 : e * B <= / 5000 * B) by (apply Rmult_le_compat_r; lra). assert (uB1 : 10000 * u * B <= / 100000 * B) by (apply Rmult_le_compat_r; lra). assert (e2 : e * e <= / 5000 * e) by (apply Rmult_le_compat_r; lra). assert (eu : e * u <= / 5000 * u) by (apply Rmult_le_compat_r; lra).
  destruct Hg as [Wg Nx]. destruct x as [rx tx]. cbn [fst snd] in *.
  pose proof (product_within _ _ _ _ _ _ _ _ _ _ _ (B + e * B) (38 / 10 * B) Wg W ltac:(lra) ltac:(lra) ltac:(lra) ltac:(lra) ltac:(lra) ltac:(lra) M) as ((F & Qr & A) & Fp & Dp). cbn [fst snd] in *.
  exists (mmul rx part, vadd (mvec rx (screw w v (val f))) tx). split; [exists part; split; [exact Q|split; reflexivity]|]. split; [split; [exact F|split; [exact Qr|cbn [fst snd]; lra]]|]. split; [exact Fp|]. cbn [snd].
  assert (ueB : u * (e * B) <= u * (/ 5000 * B)) by (apply Rmult_le_compat_l; lra). lra.
Qed.
End step.
