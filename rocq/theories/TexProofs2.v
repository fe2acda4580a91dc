(** The integral that is computed. *)
From Coq Require Import Reals Psatz ZArith List.
From Flocq Require Import Core BinarySingleNaN.
From Verif Require Import Cpp TimeModel TimeSpec TimeProofs FloatModel FloatSpec FloatProofs NrmSpec NrmProofs DriftModel DriftSpec DriftProofs SpinModel SpinProofs TwistProofs SlogProofs2 FtrProofs2 FstModel FstSpec FstProofs FstProofs2 TexModel TexSpec TexProofs.
Import ListNotations.

(** ** The samples *)
Section Samples.
  Local Open Scope Z_scope.
  Lemma steps_min e dt K : 0 < dt -> steps e dt K -> 0 < e -> min_samples 0 e dt (K + 1) /\ 1 <= K <= e.
  Proof.
    intros D [A B] P. split; [split|].
    - unfold enough_samples. nia.
    - intros m [M1 M2]. rewrite Z.sub_0_r, Z.abs_eq in M2 by lia. assert (K - 1 < m - 1) by (apply (Z.mul_lt_mono_pos_r dt); lia). lia.
    - nia.
  Qed.
  Lemma min_unique s e dt n m : min_samples s e dt n -> min_samples s e dt m -> n = m.
  Proof. intros [A B] [C D]. specialize (B m C). specialize (D n A). lia. Qed.
  Lemma samples e dt K : 0 < dt <= INT64_MAX -> 0 < e < 2 ^ 53 -> steps e dt K -> exists calls, sample_interval 0 e dt = (calls ++ [e], Ok tt) /\
    num_samples 0 e dt = Ok (K + 1) /\ Z.of_nat (length calls) = K /\
    forall i t, nth_error calls i = Some t -> 0 <= t < e /\ 2 * Z.abs (K * t - Z.of_nat i * e) <= K.
  Proof.
    intros [D D'] [P Q] S. destruct (steps_min e dt K D S P) as [M [K1 K2]].
    assert (I0 : in64 0) by (unfold in64, INT64_MIN, INT64_MAX; lia). assert (IE : in64 e) by (unfold in64, INT64_MIN, INT64_MAX; lia). assert (ID : in64 dt) by (unfold in64, INT64_MIN in *; lia).
    pose proof (safe_below 0 e dt I0 IE ID D ltac:(lia)) as O. destruct (sample_interval 0 e dt) as [all o] eqn:E. cbn in O. subst o.
    destruct (sample_interval_cover 0 e dt all (Ok tt) I0 IE ID ltac:(lia) E ltac:(discriminate)) as (N & M' & _ & L & _). pose proof (min_unique _ _ _ _ _ M M') as LEN.
    assert (NE : all <> []) by (intro X; subst all; cbn in LEN; lia). destruct (exists_last NE) as (calls & x & ->). rewrite app_length in *. cbn [length] in *.
    replace (length calls + 1 - 1)%nat with (length calls + 0)%nat in L by lia. rewrite nth_error_app2 in L by lia. replace (length calls + 0 - length calls)%nat with O in L by lia. injection L as ->.
    exists calls. split; [reflexivity|]. rewrite N, <- LEN. split; [reflexivity|]. split; [lia|]. intros i t H. assert (LI : (i < length calls)%nat) by (apply nth_error_Some; rewrite H; discriminate).
    assert (H' : nth_error (calls ++ [e]) i = Some t) by (rewrite nth_error_app1 by exact LI; exact H).
    destruct (forward_nearest 0 e dt _ _ i t I0 IE ID ltac:(lia) E H') as (n & M'' & NR). rewrite (min_unique _ _ _ _ _ M'' M) in NR. replace (K + 1 - 1) with K in NR by lia. unfold nearest_to in NR. rewrite !Z.sub_0_r in NR.
    pose proof (NR (t + 1)) as A. pose proof (NR (t - 1)) as B. rewrite Z.sub_0_r in A, B. replace (K * (t + 1)) with (K * t + K) in A by ring. replace (K * (t - 1)) with (K * t - K) in B by ring.
    assert (C : 2 * Z.abs (K * t - Z.of_nat i * e) <= K) by lia. split; [|exact C]. assert (I : 0 <= Z.of_nat i < K) by lia. set (j := Z.of_nat i) in *. split.
    - destruct (Z.lt_ge_cases t 0); [|assumption]. exfalso. assert (K * t <= - K) by nia. assert (0 <= j * e) by nia. lia.
    - destruct (Z.lt_ge_cases t e); [assumption|]. exfalso. assert (K * e <= K * t) by nia. assert (j * e + e <= K * e) by nia. lia.
  Qed.
End Samples.
Local Open Scope R_scope.

(** ** The sum *)
Lemma accumulated e calls : Forall (fun t => t <> e) calls -> forall l s r, fsum_of l s -> accumulate e (calls ++ [e]) s r -> exists ds, Forall2 deviation calls ds /\ fsum_of (l ++ ds) r.
Proof.
  induction 1 as [|t calls N _ IH]; intros l s r S H; cbn [accumulate app] in H.
  - rewrite Z.eqb_refl in H. cbn in H. subst r. exists []. split; [constructor|]. rewrite app_nil_r. exact S.
  - destruct (Z.eqb_spec t e) as [X|_]; [contradiction|]. cbn [negb] in H. destruct H as (d & D & H). destruct (IH (l ++ [d]) (fadd s d) r) as (ds & F & X); [|exact H|].
    + apply (sum_both (l ++ [d]) l [d]); [reflexivity|exact S|constructor].
    + exists (d :: ds). split; [constructor; assumption|]. rewrite <- app_assoc in X. exact X.
Qed.
Lemma accumulates e calls : forall s, exists r, accumulate e calls s r.
Proof.
  induction calls as [|t calls IH]; intro s; cbn; [eexists; reflexivity|]. destruct (negb (t =? e)%Z); [|apply IH]. destruct (some_cos (fsqrt (as_seconds t))) as [d D]. destruct (IH (fadd s d)) as [r X]. exists r, d. split; assumption.
Qed.
Lemma add_up_app l k : add_up (l ++ k) = add_up l + add_up k.
Proof. unfold add_up. induction l as [|x l IH]; cbn; [lra|]. rewrite IH. lra. Qed.
Lemma sum_of_near h eta ds : (forall i d, nth_error ds i = Some d -> Rabs (val d - dev (INR i * h)) <= eta) -> Rabs (add_up (map val ds) - rectangles h (length ds)) <= INR (length ds) * eta.
Proof.
  induction ds as [|d ds IH] using rev_ind; intro H; [cbn; rewrite Rminus_0_r, Rabs_R0; lra|]. rewrite app_length, map_app, add_up_app, Nat.add_1_r. cbn [rectangles add_up map fold_right length].
  assert (X := H (length ds) d). rewrite nth_error_app2, Nat.sub_diag in X by lia. specialize (X eq_refl). assert (Y : Rabs (add_up (map val ds) - rectangles h (length ds)) <= INR (length ds) * eta).
  { apply IH. intros i k I. apply H. rewrite nth_error_app1; [exact I|]. apply nth_error_Some. rewrite I. discriminate. }
  rewrite S_INR. replace (add_up (map val ds) + (val d + 0) - (rectangles h (length ds) + dev (INR (length ds) * h))) with ((add_up (map val ds) - rectangles h (length ds)) + (val d - dev (INR (length ds) * h))) by lra.
  eapply Rle_trans; [apply Rabs_triang|]. lra.
Qed.
Lemma rectangles_bound h n : Rabs (rectangles h n) <= INR n.
Proof. induction n as [|n IH]; cbn [rectangles]; [cbn; rewrite Rabs_R0; lra|]. rewrite S_INR. eapply Rle_trans; [apply Rabs_triang|]. pose proof (dev_bound (INR n * h)). lra. Qed.

(** ** One term *)
Lemma seconds_near t : (0 <= t < 2 ^ 53)%Z -> finite (as_seconds t) /\ 0 <= val (as_seconds t) /\ Rabs (val (as_seconds t) - IZR t / 10 ^ 9) <= u * (IZR t / 10 ^ 9) + h.
Proof.
  intro T. destruct (of_small t) as [F V]; [lia|]. destruct nano_val as [FN VN]. assert (T0 : 0 <= IZR t) by (apply IZR_le; lia). assert (T1 : IZR t <= 9007199254740992) by (apply (IZR_le _ 9007199254740992); lia).
  assert (P : 0 <= IZR t / 10 ^ 9) by (apply Rmult_le_pos; [lra|]; left; apply Rinv_0_lt_compat; lra).
  destruct (div_error (of_int t) (of_int NANO) F) as [FD E]; [rewrite VN; lra|rewrite V, VN, Rabs_pos_eq by exact P; destruct big_1000; apply Rle_trans with 9007200; [lra|]; apply Rle_trans with (2 ^ 24); [lra|apply Rle_pow; [lra|apply Nat.leb_le; reflexivity]]|].
  rewrite V, VN, (Rabs_pos_eq (IZR t / 10 ^ 9)) in E by exact P. split; [exact FD|]. split; [|exact E].
  destruct (Z.eq_dec t 0) as [->|N]; [rewrite seconds_0; lra|]. apply Rlt_le, seconds_sign; [unfold in64, INT64_MIN, INT64_MAX; lia|lia].
Qed.
Lemma deviation_near t d x T : (0 <= t < 2 ^ 53)%Z -> IZR t / 10 ^ 9 <= T -> / 10 ^ 9 <= T -> 0 <= x -> Rabs (IZR t / 10 ^ 9 - x) <= / (2 * 10 ^ 9) -> deviation t d ->
  finite d /\ Rabs (val d) <= 1 + 3 * u /\ Rabs (val d - dev x) <= / (4 * 10 ^ 9) + (T + 2 * sqrt T + 3) * u.
Proof.
  intros R LT TP X NX D. destruct (seconds_near t R) as (FS & PS & ES). set (s := as_seconds t) in *. set (v := val s) in *.
  pose proof h_pos as HP. pose proof h_1 as H1. pose proof h_small as HS. pose proof u_pos as UP. assert (HU : h <= u / 1000). { rewrite u_num. apply Rle_trans with (1 := HS). apply Rle_trans with (/ 2 ^ 80); [apply Rinv_le_contravar; [apply pow_lt; lra|apply Rle_pow; [lra|apply Nat.leb_le; reflexivity]]|lra]. }
  assert (H9 : h <= / 10 ^ 9 / 2). { apply Rle_trans with (1 := HU). rewrite u_num. lra. }
  assert (T0 : 0 <= IZR t / 10 ^ 9) by (apply Rmult_le_pos; [apply IZR_le; lia|left; apply Rinv_0_lt_compat; lra]).
  assert (VT : v <= 4 * T). { apply Rabs_le_inv in ES. rewrite u_num in ES. lra. }
  assert (RT : sqrt v <= 2 * sqrt T). { replace 2 with (sqrt (2 * 2)) by (apply sqrt_square; lra). rewrite <- sqrt_mult by lra. apply sqrt_le_1; lra. }
  pose proof (sqrt_pos v) as RV. destruct (fsqrt_val s FS PS) as [FR VR]. fold v in VR. pose proof (rd_any (sqrt v)) as ER. rewrite <- VR, (Rabs_pos_eq (sqrt v)) in ER by exact RV. set (r := val (fsqrt s)) in *.
  destruct (library_near cos (fsqrt s) d FR (cos_bound _) D) as (FD & ED & _). fold r in ED. pose proof (cos_bound r) as CB. pose proof (cos_lip r (sqrt v)) as CL. pose proof (dev_lipschitz x v X PS) as DL. unfold dev at 1 in DL.
  split; [exact FD|]. assert (ED' : Rabs (val d - cos r) <= 2 * u + 2 * h) by (apply Rle_trans with (1 := ED); nra). split.
  - replace (val d) with (cos r + (val d - cos r)) by lra. eapply Rle_trans; [apply Rabs_triang|]. lra.
  - replace (val d - dev x) with ((val d - cos r) + (cos r - cos (sqrt v)) + (cos (sqrt v) - dev x)) by lra.
    assert (VX : Rabs (v - x) <= / (2 * 10 ^ 9) + u * T + h). { replace (v - x) with ((v - IZR t / 10 ^ 9) + (IZR t / 10 ^ 9 - x)) by lra. eapply Rle_trans; [apply Rabs_triang|]. nra. }
    eapply Rle_trans; [apply Rabs_triang|]. eapply Rle_trans; [apply Rplus_le_compat_r, Rabs_triang|]. replace (/ (4 * 10 ^ 9)) with (/ 2 * / (2 * 10 ^ 9)) by lra. pose proof (sqrt_pos T). assert (u * sqrt v <= 2 * sqrt T * u) by nra. assert (0 <= u * T) by nra. lra.
Qed.
