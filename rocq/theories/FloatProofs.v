(** Proofs about doubles, as_seconds and as_duration. *)
From Flocq Require Import Core BinarySingleNaN Relative.
From Verif Require Import Cpp TimeModel FloatModel FloatSpec.
From Coq Require Import Reals Psatz.
Local Open Scope R_scope.

Notation fmt := (generic_format radix2 (FLT_exp (-1074) 53)).
Global Existing Instance prec_pos.

Lemma bpow_pow (n : nat) : bpow radix2 (Z.of_nat n) = 2 ^ n.
Proof. rewrite bpow_powerRZ, <- pow_powerRZ. reflexivity. Qed.
Lemma bpow_1024 : bpow radix2 1024 = 2 ^ 1024.
Proof. exact (bpow_pow 1024). Qed.

(** ** Rounding *)
Lemma rd_fmt x : fmt (rd x).
Proof. apply generic_format_round; typeclasses eauto. Qed.
Lemma rd_id x : fmt x -> rd x = x.
Proof. intro H. apply round_generic; [typeclasses eauto|exact H]. Qed.
Lemma rd_le x y : x <= y -> rd x <= rd y.
Proof. intro H. apply round_le; [typeclasses eauto|typeclasses eauto|exact H]. Qed.
Lemma rd_opp x : rd (- x) = - rd x.
Proof. unfold rd. apply round_NE_opp. Qed.
Lemma rd_0 : rd 0 = 0.
Proof. apply round_0. typeclasses eauto. Qed.
Lemma rd_ge0 x : 0 <= x -> 0 <= rd x.
Proof. intro H. rewrite <- rd_0. apply rd_le, H. Qed.
Lemma rd_abs x : rd (Rabs x) = Rabs (rd x).
Proof.
  unfold Rabs. destruct (Rcase_abs x) as [H|H], (Rcase_abs (rd x)) as [K|K]; try rewrite rd_opp; try reflexivity.
  - pose proof (rd_le x 0 ltac:(lra)). rewrite rd_0 in *. lra.
  - pose proof (rd_ge0 x ltac:(lra)). lra.
Qed.
Lemma fmt_int z : (Z.abs z <= 2 ^ 53)%Z -> fmt (IZR z).
Proof.
  intro H. destruct (Z.eq_dec (Z.abs z) (2 ^ 53)) as [E|N].
  - assert (K : fmt (bpow radix2 53)) by (apply generic_format_bpow; vm_compute; discriminate).
    destruct (Z.abs_spec z) as [[_ A]|[_ A]]; rewrite A in E.
    + subst z. exact K.
    + replace z with (- 2 ^ 53)%Z by lia. rewrite opp_IZR. apply generic_format_opp, K.
  - apply generic_format_FLT. exists (Float radix2 z 0); cbn [Fnum Fexp].
    + unfold F2R. cbn. ring.
    + change (Z.abs z < 2 ^ 53)%Z. lia.
    + lia.
Qed.
Lemma rd_int z : (Z.abs z <= 2 ^ 53)%Z -> rd (IZR z) = IZR z.
Proof. intro H. apply rd_id, fmt_int, H. Qed.
Lemma rd_err e x : (-1021 <= e)%Z -> Rabs x <= bpow radix2 e -> Rabs (rd x - x) <= bpow radix2 (e - 54).
Proof.
  intros He H. destruct (Rle_lt_or_eq_dec _ _ H) as [L|E].
  - destruct (Req_dec x 0) as [->|Z].
    { rewrite rd_0, Rminus_0_r, Rabs_R0. apply bpow_ge_0. }
    unfold rd. eapply Rle_trans; [apply error_le_half_ulp; typeclasses eauto|].
    replace (e - 54)%Z with (-1 + (e - 53))%Z by ring. rewrite bpow_plus. change (bpow radix2 (-1)) with (/ 2).
    apply Rmult_le_compat_l; [lra|]. rewrite ulp_neq_0 by exact Z. apply bpow_le. unfold cexp, FLT_exp.
    pose proof (mag_le_bpow radix2 x e Z L). lia.
  - assert (F : fmt x).
    { assert (K : fmt (bpow radix2 e)) by (apply generic_format_bpow; unfold FLT_exp; lia).
      unfold Rabs in E. destruct (Rcase_abs x); [|rewrite E; exact K].
      replace x with (- bpow radix2 e) by lra. apply generic_format_opp, K. }
    rewrite (rd_id x F), Rminus_diag_eq, Rabs_R0 by reflexivity. apply bpow_ge_0.
Qed.
Lemma rd_nearest x g : fmt g -> Rabs (rd x - x) <= Rabs (g - x).
Proof.
  intro F. destruct (round_N_pt radix2 (FLT_exp (-1074) 53) (fun x => negb (Z.even x)) x) as [_ N]. exact (N g F).
Qed.
(** Relative errors. *)
Lemma rd_rel x : bpow radix2 (-1022) <= Rabs x -> exists eps, Rabs eps <= bpow radix2 (-53) /\ rd x = x * (1 + eps).
Proof.
  intro H. destruct (relative_error_N_FLT_ex radix2 (-1074) 53 eq_refl (fun x => negb (Z.even x)) x H) as (eps & B & E).
  exists eps. split; [|exact E]. replace (bpow radix2 (-53)) with (/ 2 * bpow radix2 (-53 + 1)); [exact B|].
  change (/ 2) with (bpow radix2 (-1)). rewrite <- bpow_plus. reflexivity.
Qed.
Lemma rd_small x : Rabs x < 2 ^ 1023 -> Rabs (rd x) < 2 ^ 1024.
Proof.
  intro H. rewrite <- rd_abs. apply Rle_lt_trans with (rd (2 ^ 1023)).
  - apply rd_le. lra.
  - rewrite rd_id; [apply Rlt_pow; [lra|]; apply Nat.lt_succ_diag_r|]. rewrite <- (bpow_pow 1023).
    apply generic_format_bpow. vm_compute. discriminate.
Qed.

(** ** Operations *)
Lemma of_int_val z : ~ overflows (IZR z) -> finite (of_int z) /\ val (of_int z) = rd (IZR z).
Proof.
  intro H. pose proof (binary_normalize_correct 53 1024 prec_pos prec_emax mode_NE z 0 false) as C. cbv zeta in C.
  replace (F2R (Float radix2 z 0)) with (IZR z) in C by (unfold F2R; cbn; ring).
  rewrite Rlt_bool_true in C; [destruct C as (V & F & _); split; assumption|].
  rewrite bpow_1024. apply Rnot_le_lt. exact H.
Qed.
Lemma fsub_val x y : finite x -> finite y -> ~ overflows (val x - val y) ->
  finite (fsub x y) /\ val (fsub x y) = rd (val x - val y).
Proof.
  intros X Y H. pose proof (Bminus_correct 53 1024 prec_pos prec_emax mode_NE x y X Y) as C.
  rewrite Rlt_bool_true in C; [destruct C as (V & F & _); split; assumption|].
  rewrite bpow_1024. apply Rnot_le_lt. exact H.
Qed.
Lemma fadd_val x y : finite x -> finite y -> ~ overflows (val x + val y) ->
  finite (fadd x y) /\ val (fadd x y) = rd (val x + val y).
Proof.
  intros X Y H. pose proof (Bplus_correct 53 1024 prec_pos prec_emax mode_NE x y X Y) as C.
  rewrite Rlt_bool_true in C; [destruct C as (V & F & _); split; assumption|].
  rewrite bpow_1024. apply Rnot_le_lt. exact H.
Qed.
Lemma fmul_val x y : finite x -> finite y -> ~ overflows (val x * val y) ->
  finite (fmul x y) /\ val (fmul x y) = rd (val x * val y).
Proof.
  intros X Y H. pose proof (Bmult_correct 53 1024 prec_pos prec_emax mode_NE x y) as C.
  rewrite Rlt_bool_true in C; [destruct C as (V & F & _); split; [|assumption]|].
  - unfold finite, fmul. rewrite F, X, Y. reflexivity.
  - rewrite bpow_1024. apply Rnot_le_lt. exact H.
Qed.
Lemma fdiv_val x y : finite x -> val y <> 0 -> ~ overflows (val x / val y) ->
  finite (fdivide x y) /\ val (fdivide x y) = rd (val x / val y).
Proof.
  intros X Y H. pose proof (Bdiv_correct 53 1024 prec_pos prec_emax mode_NE x y Y) as C.
  rewrite Rlt_bool_true in C; [destruct C as (V & F & _); split; [|assumption]|].
  - unfold finite, fdivide. rewrite F. exact X.
  - rewrite bpow_1024. apply Rnot_le_lt. exact H.
Qed.
Lemma small_no_overflow x : Rabs x < 2 ^ 1023 -> ~ overflows x.
Proof. intros H O. pose proof (rd_small x H). unfold overflows in O. lra. Qed.
Lemma pow_1023_big x : Rabs x <= 2 ^ 100 -> ~ overflows x.
Proof. intro H. apply small_no_overflow. apply Rle_lt_trans with (1 := H). apply Rlt_pow; [lra|]. apply Nat.ltb_lt. vm_compute. reflexivity. Qed.
Lemma int_no_overflow z : (Z.abs z <= 2 ^ 64)%Z -> ~ overflows (IZR z).
Proof.
  intro H. apply pow_1023_big. rewrite <- abs_IZR. apply Rle_trans with (IZR (2 ^ 64)); [apply IZR_le, H|].
  rewrite (pow_IZR 2 100). apply IZR_le. vm_compute. discriminate.
Qed.
Lemma of_small z : (Z.abs z <= 2 ^ 53)%Z -> finite (of_int z) /\ val (of_int z) = IZR z.
Proof.
  intro H. rewrite <- (rd_int z H). apply of_int_val, int_no_overflow. lia.
Qed.

Lemma to_int_spec lo hi x : finite x ->
  to_int lo hi x = if ((lo <=? Ztrunc (val x)) && (Ztrunc (val x) <=? hi))%Z%bool then Ok (Ztrunc (val x)) else UB.
Proof.
  intro F. unfold to_int. rewrite F. cbv zeta.
  replace (Btrunc x) with (Ztrunc (val x)); [reflexivity|]. apply eq_IZR. rewrite (Btrunc_correct 53 1024 prec_emax x).
  symmetry. unfold round, scaled_mantissa, cexp, FIX_exp, F2R. cbn. rewrite !Rmult_1_r. reflexivity.
Qed.

(** ** as_seconds and as_duration *)
Definition secs_of (d : Z) : R := rd (rd (IZR d) / 10 ^ 9).
Lemma nano_val : finite (of_int NANO) /\ val (of_int NANO) = 10 ^ 9.
Proof. destruct (of_small NANO) as [F V]; [vm_compute; discriminate|]. split; [exact F|]. rewrite V. unfold NANO. lra. Qed.
Lemma in64_abs d : in64 d -> (Z.abs d <= 2 ^ 63)%Z.
Proof. unfold in64, INT64_MIN, INT64_MAX. lia. Qed.
Lemma rd_le_int x z : (Z.abs z <= 2 ^ 53)%Z -> Rabs x <= IZR z -> Rabs (rd x) <= IZR z.
Proof. intros Hz H. rewrite <- rd_abs, <- (rd_int z Hz). apply rd_le, H. Qed.
Lemma rd_le_pow x (n : nat) : (n <= 1000)%nat -> Rabs x <= 2 ^ n -> Rabs (rd x) <= 2 ^ n.
Proof.
  intros Hn H. rewrite <- rd_abs. replace (2 ^ n) with (rd (2 ^ n)); [apply rd_le, H|].
  apply rd_id. rewrite <- bpow_pow. apply generic_format_bpow. unfold FLT_exp. lia.
Qed.
Lemma int_pow z (n : nat) : (Z.abs z <= 2 ^ Z.of_nat n)%Z -> Rabs (IZR z) <= 2 ^ n.
Proof. intro H. rewrite <- abs_IZR, pow_IZR. apply IZR_le, H. Qed.
Lemma secs_of_range d : (Z.abs d <= 2 ^ 63)%Z -> Rabs (rd (IZR d)) <= 2 ^ 63 /\ Rabs (rd (IZR d) / 10 ^ 9) <= 2 ^ 63 /\ Rabs (secs_of d) <= 2 ^ 63.
Proof.
  intro H. assert (A : Rabs (rd (IZR d)) <= 2 ^ 63) by (apply (rd_le_pow _ 63); [lia|]; apply (int_pow d 63), H).
  assert (B : Rabs (rd (IZR d) / 10 ^ 9) <= 2 ^ 63).
  { unfold Rdiv. rewrite Rabs_mult, (Rabs_right (/ 10 ^ 9)) by lra. pose proof (Rabs_pos (rd (IZR d))). lra. }
  split; [exact A|]. split; [exact B|]. apply (rd_le_pow _ 63); [lia|exact B].
Qed.
Lemma pow_63_100 x : Rabs x <= 2 ^ 63 -> Rabs x <= 2 ^ 100.
Proof. intro H. apply Rle_trans with (1 := H). apply Rle_pow; [lra|lia]. Qed.
Lemma as_seconds_val d : in64 d -> finite (as_seconds d) /\ val (as_seconds d) = secs_of d.
Proof.
  intro H. apply in64_abs in H. destruct (of_int_val d) as [F V]; [apply int_no_overflow; lia|]. destruct nano_val as [Fn Vn].
  destruct (secs_of_range d H) as (A & B & C).
  unfold as_seconds, secs_of. rewrite <- V, <- Vn. apply fdiv_val; [exact F|rewrite Vn; lra|].
  rewrite V, Vn. apply pow_1023_big, pow_63_100, B.
Qed.
Definition nanos_of (t : R) : Z := Ztrunc (rd (t * 10 ^ 9)).
Lemma as_duration_val t : finite t -> Rabs (val t) <= 2 ^ 63 -> as_duration t =
  if ((INT64_MIN <=? nanos_of (val t)) && (nanos_of (val t) <=? INT64_MAX))%Z%bool then Ok (nanos_of (val t)) else UB.
Proof.
  intros F H. destruct nano_val as [Fn Vn]. unfold as_duration.
  destruct (fmul_val t (of_int NANO) F Fn) as [Fm Vm].
  - rewrite Vn. apply pow_1023_big. rewrite Rabs_mult, (Rabs_right (10 ^ 9)) by lra.
    apply Rle_trans with (2 ^ 63 * 10 ^ 9); [apply Rmult_le_compat_r; [lra|exact H]|lra].
  - rewrite (to_int_spec _ _ _ Fm), Vm, Vn. reflexivity.
Qed.

(** The two conversions are odd. *)
Lemma secs_of_opp d : secs_of (- d) = - secs_of d.
Proof. unfold secs_of. rewrite opp_IZR, rd_opp. replace (- rd (IZR d) / 10 ^ 9) with (- (rd (IZR d) / 10 ^ 9)) by (unfold Rdiv; ring). apply rd_opp. Qed.
Lemma nanos_of_opp t : nanos_of (- t) = (- nanos_of t)%Z.
Proof. unfold nanos_of. replace (- t * 10 ^ 9) with (- (t * 10 ^ 9)) by ring. rewrite rd_opp. apply Ztrunc_opp. Qed.
Definition back (d : Z) : Z := nanos_of (secs_of d).
Lemma back_opp d : back (- d) = (- back d)%Z.
Proof. unfold back. rewrite secs_of_opp. apply nanos_of_opp. Qed.
Lemma round_trip d : in64 d -> as_duration (as_seconds d) =
  if ((INT64_MIN <=? back d) && (back d <=? INT64_MAX))%Z%bool then Ok (back d) else UB.
Proof.
  intro H. destruct (as_seconds_val d H) as [F V]. destruct (secs_of_range d (in64_abs d H)) as (_ & _ & C).
  rewrite (as_duration_val _ F) by (rewrite V; exact C). rewrite V. reflexivity.
Qed.
Lemma round_trip_ok d : in64 d -> in64 (back d) -> as_duration (as_seconds d) = Ok (back d).
Proof.
  intros H K. rewrite (round_trip d H). apply in64b_spec in K. unfold in64b in K. rewrite K. reflexivity.
Qed.

(** Errors of the conversion to seconds. *)
Lemma secs_err e d : (-1021 <= e)%Z -> (Z.abs d <= 2 ^ 53)%Z -> Rabs (IZR d) <= bpow radix2 e * 10 ^ 9 ->
  Rabs (secs_of d - IZR d / 10 ^ 9) <= bpow radix2 (e - 54).
Proof.
  intros He Hd H. unfold secs_of. rewrite (rd_int d Hd). apply rd_err; [exact He|].
  unfold Rdiv. rewrite Rabs_mult, (Rabs_right (/ 10 ^ 9)) by lra. lra.
Qed.
Definition DAYS97 : Z := 2 ^ 23 * 10 ^ 9.
Lemma days97_val : IZR DAYS97 = bpow radix2 23 * 10 ^ 9.
Proof. unfold DAYS97. rewrite mult_IZR. cbn. lra. Qed.
Lemma secs_err_97 d : (Z.abs d <= DAYS97)%Z -> Rabs (secs_of d - IZR d / 10 ^ 9) <= / 2 ^ 31.
Proof.
  intro H. replace (/ 2 ^ 31) with (bpow radix2 (23 - 54)) by (cbn; lra). apply secs_err.
  - lia.
  - unfold DAYS97 in H. lia.
  - rewrite <- days97_val, <- abs_IZR. apply IZR_le, H.
Qed.
Lemma secs_strict d d' : (Z.abs d <= DAYS97)%Z -> (Z.abs d' <= DAYS97)%Z -> (d < d')%Z -> secs_of d < secs_of d'.
Proof.
  intros H H' L. apply secs_err_97 in H, H'. apply Rabs_le_inv in H, H'.
  assert (IZR d + 1 <= IZR d') by (rewrite <- plus_IZR; apply IZR_le; lia). lra.
Qed.
Lemma secs_mono d d' : (d <= d')%Z -> secs_of d <= secs_of d'.
Proof.
  intro L. unfold secs_of. apply rd_le. unfold Rdiv. apply Rmult_le_compat_r; [lra|]. apply rd_le, IZR_le, L.
Qed.

(** Truncation. *)
Lemma ztrunc_range x a b : (0 <= a)%Z -> IZR a <= x -> x < IZR b + 1 -> (a <= Ztrunc x <= b)%Z.
Proof.
  intros Ha A B. assert (0 <= x) by (apply Rle_trans with (IZR a); [apply IZR_le, Ha|exact A]).
  rewrite Ztrunc_floor by assumption. split.
  - apply Zfloor_lub, A.
  - apply Z.lt_succ_r. apply lt_IZR. apply Rle_lt_trans with x; [apply Zfloor_lb|]. rewrite succ_IZR. exact B.
Qed.

Lemma back_97_pos d : (0 < d <= DAYS97)%Z -> (d - 1 <= back d <= d)%Z /\ (2 ^ 52 < d -> back d = d)%Z.
Proof.
  intros [P H]. assert (Hd : (d <= 2 ^ 53)%Z) by (unfold DAYS97 in H; lia).
  pose proof (secs_err_97 d ltac:(lia)) as E. unfold back, nanos_of.
  set (t := secs_of d) in *. set (x := t * 10 ^ 9). assert (X : Rabs (x - IZR d) < / 2).
  { replace (x - IZR d) with ((t - IZR d / 10 ^ 9) * 10 ^ 9) by (unfold x; field). rewrite Rabs_mult, (Rabs_right (10 ^ 9)) by lra.
    apply Rle_lt_trans with (/ 2 ^ 31 * 10 ^ 9); [apply Rmult_le_compat_r; [lra|exact E]|lra]. }
  assert (X' := X). apply Rabs_def2 in X'.
  assert (Near : Rabs (rd x - IZR d) < 1).
  { pose proof (rd_nearest x (IZR d) (fmt_int d ltac:(lia))) as N. replace (rd x - IZR d) with ((rd x - x) + (x - IZR d)) by ring.
    rewrite (Rabs_minus_sym (IZR d) x) in N. apply Rle_lt_trans with (1 := Rabs_triang _ _). lra. }
  apply Rabs_def2 in Near.
  assert (Lo : IZR (d - 1) <= rd x).
  { rewrite <- (rd_int (d - 1)) by lia. apply rd_le. rewrite minus_IZR. lra. }
  assert (Hi : rd x < IZR d + 1) by lra.
  assert (Big : (2 ^ 52 < d)%Z -> Ztrunc (rd x) = d).
  { intro B. assert (Int : exists z, rd x = IZR z).
    { assert (G : bpow radix2 52 <= rd x).
      { rewrite <- (rd_id (bpow radix2 52)) by (apply generic_format_bpow; vm_compute; discriminate). apply rd_le.
        change (bpow radix2 52) with (IZR (2 ^ 52)). apply Rle_trans with (IZR (d - 1)); [apply IZR_le; lia|]. rewrite minus_IZR. lra. }
      destruct (Req_dec (rd x) 0) as [Z|Z]; [rewrite Z in G; pose proof (bpow_gt_0 radix2 52); lra|].
      pose proof (rd_fmt x) as F. unfold generic_format in F.
      assert (C : (0 <= cexp radix2 (FLT_exp (-1074) 53) (rd x))%Z).
      { unfold cexp, FLT_exp. assert (53 <= mag radix2 (rd x))%Z by (apply mag_ge_bpow; rewrite Rabs_right; [exact G|apply Rle_ge; pose proof (bpow_ge_0 radix2 52); lra]). lia. }
      set (m := Ztrunc (scaled_mantissa radix2 (FLT_exp (-1074) 53) (rd x))) in F.
      exists (m * 2 ^ cexp radix2 (FLT_exp (-1074) 53) (rd x))%Z. rewrite F at 1. unfold F2R. cbn [Fnum Fexp].
      rewrite mult_IZR. rewrite <- (IZR_Zpower radix2) by exact C. reflexivity. }
    destruct Int as [z Ez]. rewrite Ez in Near |- *. rewrite Ztrunc_IZR. rewrite <- minus_IZR in Near.
    destruct Near as [N1 N2]. apply (lt_IZR _ 1) in N1. change (- (1)) with (IZR (-1)) in N2. apply lt_IZR in N2. lia. }
  split; [|exact Big].
  destruct (Z_lt_le_dec (2 ^ 52) d) as [B|B]; [rewrite (Big B); lia|].
  apply ztrunc_range; [lia|exact Lo|exact Hi].
Qed.
Lemma back_97 d : (Z.abs d <= DAYS97)%Z -> (back d = d \/ back d = d - Z.sgn d)%Z /\ (2 ^ 52 < Z.abs d -> back d = d)%Z.
Proof.
  intro H. destruct (Ztrichotomy_inf d 0) as [[N|Z]|P].
  - destruct (back_97_pos (- d)) as [A B]; [lia|]. rewrite back_opp in A, B. split; [|intro K]; lia.
  - subst d. split; [left|intro K; lia]. unfold back, secs_of, nanos_of. rewrite rd_0.
    replace (0 / 10 ^ 9) with 0 by (unfold Rdiv; ring). rewrite rd_0, Rmult_0_l, rd_0. apply (Ztrunc_IZR 0).
  - destruct (back_97_pos d) as [A B]; [lia|]. split; [|intro K]; lia.
Qed.
Lemma back_53_pos d : (0 < d < 2 ^ 53)%Z -> (d - 1 <= back d <= d + 1)%Z.
Proof.
  intros [P H]. assert (E : Rabs (secs_of d - IZR d / 10 ^ 9) <= / 2 ^ 30).
  { replace (/ 2 ^ 30) with (bpow radix2 (24 - 54)) by (cbn; lra). apply secs_err; [lia|lia|].
    rewrite <- abs_IZR. apply Rle_trans with (IZR (2 ^ 53)); [apply IZR_le; lia|]. cbn. lra. }
  unfold back, nanos_of. set (t := secs_of d) in *. set (x := t * 10 ^ 9). assert (X : Rabs (x - IZR d) < 1).
  { replace (x - IZR d) with ((t - IZR d / 10 ^ 9) * 10 ^ 9) by (unfold x; field). rewrite Rabs_mult, (Rabs_right (10 ^ 9)) by lra.
    apply Rle_lt_trans with (/ 2 ^ 30 * 10 ^ 9); [apply Rmult_le_compat_r; [lra|exact E]|lra]. }
  apply Rabs_def2 in X. apply ztrunc_range; [lia| |].
  - rewrite <- (rd_int (d - 1)) by lia. apply rd_le. rewrite minus_IZR. lra.
  - apply Rle_lt_trans with (IZR (d + 1)); [|lra]. rewrite <- (rd_int (d + 1)) by lia. apply rd_le. rewrite plus_IZR. lra.
Qed.
Lemma back_53 d : (Z.abs d < 2 ^ 53)%Z -> (Z.abs (back d - d) <= 1)%Z.
Proof.
  intro H. destruct (Ztrichotomy_inf d 0) as [[N|Z]|P].
  - pose proof (back_53_pos (- d) ltac:(lia)) as A. rewrite back_opp in A. lia.
  - destruct (back_97 d) as [A _]; [rewrite Z; vm_compute; discriminate|]. subst d. cbn in A. lia.
  - pose proof (back_53_pos d ltac:(lia)). lia.
Qed.

(** All 64-bit counts but the extreme ones. *)
Lemma back_all_pos d : (0 < d <= 2 ^ 63 - 2 ^ 12)%Z -> (2 ^ 53 * Z.abs (back d - d) <= 3 * d + 2 ^ 54)%Z /\ (0 <= back d < 2 ^ 63)%Z.
Proof.
  intros [P H].
  assert (D1 : 1 <= IZR d) by (apply IZR_le; lia). assert (D2 : IZR d <= 2 ^ 63 - 2 ^ 12).
  { replace (2 ^ 63 - 2 ^ 12) with (IZR (2 ^ 63 - 2 ^ 12)); [apply IZR_le, H|]. rewrite minus_IZR. rewrite !(pow_IZR 2). reflexivity. }
  assert (Small : bpow radix2 (-1022) <= bpow radix2 (-60)) by (apply bpow_le; lia).
  assert (Sv : bpow radix2 (-60) = / 2 ^ 60) by (cbn; lra).
  assert (Uv : bpow radix2 (-53) = / 2 ^ 53) by (cbn; lra).
  destruct (rd_rel (IZR d)) as (e1 & B1 & E1); [rewrite Rabs_right by lra; lra|].
  rewrite Uv in B1. apply Rabs_le_inv in B1.
  assert (P1 : 1 / 2 <= rd (IZR d)) by (rewrite E1; nra).
  destruct (rd_rel (rd (IZR d) / 10 ^ 9)) as (e2 & B2 & E2).
  { rewrite Rabs_right by (unfold Rdiv; nra). unfold Rdiv. lra. }
  rewrite Uv in B2. apply Rabs_le_inv in B2. fold (secs_of d) in E2.
  assert (P2 : / 10 ^ 10 <= secs_of d) by (rewrite E2; unfold Rdiv; nra).
  destruct (rd_rel (secs_of d * 10 ^ 9)) as (e3 & B3 & E3); [rewrite Rabs_right by nra; nra|].
  rewrite Uv in B3. apply Rabs_le_inv in B3.
  set (y := rd (secs_of d * 10 ^ 9)) in *. assert (Y : y = IZR d * ((1 + e1) * (1 + e2) * (1 + e3))).
  { rewrite E3, E2, E1. field. }
  set (k := (1 + e1) * (1 + e2) * (1 + e3)) in *.
  assert (Kb : - (3 * / 2 ^ 53 + 4 * / 2 ^ 106) <= k - 1 <= 3 * / 2 ^ 53 + 4 * / 2 ^ 106).
  { set (u := / 2 ^ 53) in *. assert (U0 : 0 < u <= / 1000) by (unfold u; lra). replace (/ 2 ^ 106) with (u * u) by (unfold u; lra).
    clearbody u. clear E1 E2 E3 Y P1 P2 y. unfold k. clear k Uv.
    assert (M12 : - (2 * u + u * u) <= (1 + e1) * (1 + e2) - 1 <= 2 * u + u * u) by nra.
    set (m := (1 + e1) * (1 + e2)) in *. clearbody m. nra. }
  assert (Yb : Rabs (y - IZR d) <= 3 * / 2 ^ 53 * IZR d + / 2).
  { rewrite Y. replace (IZR d * k - IZR d) with (IZR d * (k - 1)) by ring. apply Rabs_le. nra. }
  apply Rabs_le_inv in Yb. assert (Y0 : 0 <= y) by (rewrite Y; nra).
  assert (T : back d = Zfloor y) by (unfold back, nanos_of; fold y; apply Ztrunc_floor, Y0).
  pose proof (Zfloor_lb y) as F1. pose proof (Zfloor_ub y) as F2. rewrite <- T in F1, F2.
  split; [|split].
  - assert (Q : 2 ^ 53 * Rabs (IZR (back d - d)) <= 3 * IZR d + 2 ^ 54).
    { rewrite minus_IZR. assert (Rabs (IZR (back d) - IZR d) <= 3 * / 2 ^ 53 * IZR d + 2) by (apply Rabs_le; lra). lra. }
    apply le_IZR. rewrite plus_IZR, !mult_IZR, abs_IZR. replace (IZR (2 ^ 53)) with (2 ^ 53) by (rewrite (pow_IZR 2); reflexivity).
    replace (IZR (2 ^ 54)) with (2 ^ 54) by (rewrite (pow_IZR 2); reflexivity). exact Q.
  - rewrite T. apply Zfloor_lub, Y0.
  - apply lt_IZR. replace (IZR (2 ^ 63)) with (2 ^ 63) by (rewrite (pow_IZR 2); reflexivity). lra.
Qed.
Lemma back_all d : (Z.abs d <= 2 ^ 63 - 2 ^ 12)%Z -> (2 ^ 53 * Z.abs (back d - d) <= 3 * Z.abs d + 2 ^ 54)%Z /\ in64 (back d).
Proof.
  intro H. unfold in64, INT64_MIN, INT64_MAX. destruct (Ztrichotomy_inf d 0) as [[N|Z]|P].
  - destruct (back_all_pos (- d) ltac:(lia)) as [A B]. rewrite back_opp in A, B. lia.
  - destruct (back_97 d) as [A _]; [rewrite Z; vm_compute; discriminate|]. subst d. cbn in A. lia.
  - destruct (back_all_pos d ltac:(lia)) as [A B]. lia.
Qed.

(** Order. *)
Lemma flt_val x y : finite x -> finite y -> (flt x y = true <-> val x < val y).
Proof.
  intros A B. unfold flt. rewrite (Bltb_correct 53 1024 x y A B). unfold val.
  case Rlt_bool_spec; intro H; split; intro K; auto; try discriminate; lra.
Qed.
Lemma val_sf x : val x = SF2R radix2 (B2SF x).
Proof. symmetry. apply SF2R_B2SF. Qed.

Lemma days_in64 d : (Z.abs d <= 2 ^ 23 * 10 ^ 9)%Z -> in64 d.
Proof. unfold in64, INT64_MIN, INT64_MAX. lia. Qed.
Lemma back_in64 d : (Z.abs d <= 2 ^ 23 * 10 ^ 9)%Z -> in64 (back d).
Proof. intro H. destruct (back_97 d H) as [A _]. unfold in64, INT64_MIN, INT64_MAX. lia. Qed.
Lemma round_trip_53 d : (Z.abs d < 2 ^ 53)%Z -> as_duration (as_seconds d) = Ok (back d).
Proof. intro H. pose proof (back_53 d H). apply round_trip_ok; unfold in64, INT64_MIN, INT64_MAX; lia. Qed.
Lemma round_trip_all d : (Z.abs d <= 2 ^ 63 - 2 ^ 12)%Z -> as_duration (as_seconds d) = Ok (back d).
Proof. intro H. apply round_trip_ok; [unfold in64, INT64_MIN, INT64_MAX; lia|apply (back_all d H)]. Qed.
Lemma seconds_order d d' : in64 d -> in64 d' ->
  finite (as_seconds d) /\
  ((d <= d')%Z -> val (as_seconds d) <= val (as_seconds d')) /\
  ((Z.abs d <= 2 ^ 23 * 10 ^ 9)%Z -> (Z.abs d' <= 2 ^ 23 * 10 ^ 9)%Z -> (d < d')%Z -> val (as_seconds d) < val (as_seconds d')).
Proof.
  intros H H'. destruct (as_seconds_val d H) as [F ->]. destruct (as_seconds_val d' H') as [_ ->].
  split; [exact F|]. split; [apply secs_mono|apply secs_strict].
Qed.
