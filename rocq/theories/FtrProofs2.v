(** Timestamps as seconds, and the curve behind a trajectory. *)
From Coq Require Import Reals Lra Lia List Floats.SpecFloat.
From Flocq Require Import Core BinarySingleNaN.
From Verif Require Import Cpp FloatModel FloatSpec FloatProofs NrmModel NrmSpec NrmProofs DriftModel DriftProofs FdcProofs2 FtsModel FtcModel FtsSpec FtcSpec FtcProofs3 FpsModel FpsSpec FpcModel FpcSpec FpcProofs3 FpcProofs5 FtrModel FtrSpec.
Import ListNotations.
Local Open Scope R_scope.

(** ** Seconds *)
Lemma seconds_0 : val (as_seconds 0) = 0.
Proof. rewrite val_sf. vm_compute. reflexivity. Qed.
Lemma seconds_1 : bpow radix2 (-30) <= val (as_seconds 1).
Proof.
  assert (E : B2SF (as_seconds 1) = S754_finite false 4835703278458517 (-82)) by (vm_compute; reflexivity). rewrite val_sf, E. unfold SF2R, F2R. cbn [Fnum Fexp cond_Zopp].
  replace (bpow radix2 (-30)) with (4503599627370496 * bpow radix2 (-82)) by (rewrite (bpow_plus radix2 52 (-82) : bpow radix2 (-30) = _); f_equal; cbn; lra). apply Rmult_le_compat_r; [apply bpow_ge_0|lra].
Qed.
Lemma in64_small z : (Z.abs z <= 1)%Z -> in64 z.
Proof. unfold in64, INT64_MIN, INT64_MAX. lia. Qed.
Lemma seconds_sign d : in64 d -> (0 < val (as_seconds d) <-> (0 < d)%Z) /\ (val (as_seconds d) < 0 <-> (d < 0)%Z).
Proof.
  intro D. assert (P : forall z, in64 z -> (0 < z)%Z -> 0 < val (as_seconds z)).
  { intros z Z H. destruct (seconds_order 1 z (in64_small 1 ltac:(lia)) Z) as (_ & M & _). specialize (M ltac:(lia)). pose proof seconds_1. pose proof (bpow_gt_0 radix2 (-30)). lra. }
  assert (N : forall z, in64 z -> (z < 0)%Z -> val (as_seconds z) < 0).
  { intros z Z H. destruct (seconds_order z (-1) Z (in64_small (-1) ltac:(lia))) as (_ & M & _). specialize (M ltac:(lia)). pose proof seconds_1.
    assert (E : val (as_seconds (-1)) = - val (as_seconds 1)) by (rewrite (proj2 (as_seconds_val _ (in64_small (-1) ltac:(lia)))), (proj2 (as_seconds_val _ (in64_small 1 ltac:(lia)))); exact (secs_of_opp 1)). pose proof (bpow_gt_0 radix2 (-30)). lra. }
  pose proof seconds_0 as Z0. destruct (Z.lt_trichotomy d 0) as [H|[H|H]].
  - pose proof (N d D H). split; split; intro; lia || lra.
  - subst d. rewrite Z0. split; split; intro; lia || lra.
  - pose proof (P d D H). split; split; intro; lia || lra.
Qed.
Lemma multiple_of x : fmt x -> bpow radix2 (-30) <= x -> exists k, x = IZR k * bpow radix2 (-82).
Proof.
  intros F L. assert (P : 0 < x) by (pose proof (bpow_gt_0 radix2 (-30)); lra). rewrite F. set (c := cexp radix2 (FLT_exp (-1074) 53) x). assert (C : (-82 <= c)%Z).
  { unfold c, cexp, FLT_exp. assert (-30 < mag radix2 x)%Z by (apply mag_gt_bpow; rewrite Rabs_right by lra; exact L). lia. }
  unfold F2R. cbn [Fnum Fexp]. exists (Ztrunc (scaled_mantissa radix2 (FLT_exp (-1074) 53) x) * 2 ^ (c + 82))%Z. fold c. rewrite mult_IZR, (IZR_Zpower radix2) by lia. rewrite Rmult_assoc, <- bpow_plus. f_equal. f_equal. lia.
Qed.
Lemma seconds_multiple d : in64 d -> (0 <= d)%Z -> exists k, val (as_seconds d) = IZR k * bpow radix2 (-82).
Proof.
  intros D H. destruct (Z.eq_dec d 0) as [->|N]; [exists 0%Z; rewrite seconds_0; ring|]. apply multiple_of; [apply val_fmt|].
  destruct (seconds_order 1 d (in64_small 1 ltac:(lia)) D) as (_ & M & _). specialize (M ltac:(lia)). pose proof seconds_1. lra.
Qed.
Lemma moments_apart d d' : in64 d -> in64 d' -> (0 <= d)%Z -> val (as_seconds d) < val (as_seconds d') -> / 2 ^ 100 <= val (as_seconds d') - val (as_seconds d) <= 2 ^ 100.
Proof.
  intros D D' H L. assert (H' : (0 <= d')%Z). { destruct (Z_lt_le_dec d' d) as [K|K]; [|lia]. destruct (seconds_order d' d D' D) as (_ & M & _). specialize (M ltac:(lia)). lra. }
  destruct (seconds_multiple d D H) as [k K]. destruct (seconds_multiple d' D' H') as [k' K']. split.
  - rewrite K, K' in *. assert (k < k')%Z. { apply lt_IZR. apply Rmult_lt_reg_r with (bpow radix2 (-82)); [apply bpow_gt_0|exact L]. } assert (B : IZR k + 1 <= IZR k') by (rewrite <- plus_IZR; apply IZR_le; lia).
    apply Rle_trans with (bpow radix2 (-82)).
    + replace (/ 2 ^ 100) with (bpow radix2 (-100)); [apply bpow_le; lia|]. rewrite (bpow_opp radix2 100 : bpow radix2 (-100) = _). f_equal. rewrite bpow_powerRZ. reflexivity.
    + pose proof (bpow_gt_0 radix2 (-82)) as Q. revert Q. generalize (bpow radix2 (-82)). intros q Q. replace (IZR k' * q - IZR k * q) with (1 * q + (IZR k' - IZR k - 1) * q) by ring. assert (0 <= (IZR k' - IZR k - 1) * q) by (apply Rmult_le_pos; lra). lra.
  - pose proof (proj2 (as_seconds_val d' D')) as V. assert (R : Rabs (secs_of d') <= 2 ^ 63) by (apply secs_of_range; unfold in64, INT64_MIN, INT64_MAX in D'; lia). rewrite <- V in R. apply Rabs_le_inv in R.
    assert (0 <= val (as_seconds d)). { destruct (seconds_order 0 d (in64_small 0 ltac:(lia)) D) as (_ & M & _). rewrite <- seconds_0. apply M, H. } assert (2 ^ 63 <= 2 ^ 100) by (apply Rle_pow; [lra|lia]). lra.
Qed.
Lemma moment_near start z : in64 (z - start) -> Rabs (moment start z - IZR (z - start) / 10 ^ 9) <= 3 * u * Rabs (IZR (z - start) / 10 ^ 9).
Proof.
  intro D. unfold moment. rewrite (proj2 (as_seconds_val _ D)). unfold secs_of. set (d := (z - start)%Z) in *. destruct (Z.eq_dec d 0) as [->|N].
  - rewrite !rd_id by (apply generic_format_0 || (unfold Rdiv; rewrite ?Rmult_0_l, ?rd_id by apply generic_format_0; rewrite ?Rmult_0_l; apply generic_format_0)). unfold Rdiv, Rminus. rewrite !Rmult_0_l, Rplus_opp_r, Rabs_R0. lra.
  - assert (A1 : 1 <= Rabs (IZR d)) by (rewrite <- abs_IZR; apply IZR_le; lia). assert (U : bpow radix2 (-53) = u) by (rewrite u_num; cbn; lra).
    assert (B : bpow radix2 (-1022) <= bpow radix2 (-32)) by (apply bpow_le; lia). assert (B2 : bpow radix2 (-32) = / 4294967296) by (cbn; lra).
    destruct (rd_rel (IZR d)) as (e1 & E1 & R1); [lra|]. rewrite U in E1. rewrite u_num in *.
    assert (A2 : / 10 ^ 9 * (99 / 100) <= Rabs (IZR d * (1 + e1) / 10 ^ 9)). { unfold Rdiv. rewrite !Rabs_mult, (Rabs_right (/ 10 ^ 9)) by lra. apply Rabs_le_inv in E1. rewrite (Rabs_right (1 + e1)) by lra. assert (99 / 100 <= Rabs (IZR d) * (1 + e1)) by (apply Rle_trans with (1 * (1 + e1)); [lra|apply Rmult_le_compat_r; lra]). lra. }
    rewrite R1. destruct (rd_rel (IZR d * (1 + e1) / 10 ^ 9)) as (e2 & E2 & R2); [lra|]. rewrite U in E2. rewrite R2. replace (IZR d * (1 + e1) / 10 ^ 9 * (1 + e2) - IZR d / 10 ^ 9) with ((e1 + e2 + e1 * e2) * (IZR d / 10 ^ 9)) by field.
    rewrite Rabs_mult. apply Rmult_le_compat_r; [apply Rabs_pos|]. eapply Rle_trans; [apply Rabs_triang|]. assert (T : Rabs (e1 + e2) <= Rabs e1 + Rabs e2) by apply Rabs_triang. rewrite (Rabs_mult e1 e2). assert (Rabs e1 * Rabs e2 <= / 9007199254740992 * 1) by (apply Rmult_le_compat; try apply Rabs_pos; lra). lra.
Qed.

(** ** The curve behind *)
Definition behind (start : Z) (p : ftpoint) (f : fpcontrol) : Prop := fptime f = as_seconds (fat_time p - start) /\ fleft_two_jet (fstate p) (fppoint f).
Lemma some_left j : exists l, fleft_two_jet j l.
Proof. destruct (some_inverse (rf j)) as [c C]. exists (FPJ c (ftneg (rd1 j)) (ftneg (rd2 j))). split; [exact C|]. split; reflexivity. Qed.
Lemma some_right j : exists r, fright_two_jet j r.
Proof. destruct (some_inverse (pf j)) as [c C]. exists (FRJ c (ftneg (pd j)) (ftneg (pd2 j))). split; [exact C|]. split; reflexivity. Qed.
Lemma some_behind start ps : exists fs, Forall2 (behind start) ps fs.
Proof. induction ps as [|p ps [fs IH]]; [exists []; constructor|]. destruct (some_left (fstate p)) as [l L]. exists (FPControl (as_seconds (fat_time p - start)) l :: fs). constructor; [|exact IH]. split; [reflexivity|exact L]. Qed.
Lemma make_throws a b : fp_make a = Throw -> fp_make (a ++ b) = Throw.
Proof. intro H. induction b as [|x b IH] using rev_ind; [rewrite app_nil_r; exact H|]. rewrite app_assoc, pmake_snoc, IH. reflexivity. Qed.
Lemma appends_shape ps : forall fs0 c s, fp_make fs0 = Ok c -> fs0 <> [] -> (forall p, In p ps -> in64 (fat_time p - s)) ->
  (exists result, ftr_appends (FTraj c s) ps result) /\
  forall result, ftr_appends (FTraj c s) ps result -> exists fs, Forall2 (behind s) ps fs /\ result = let* c := fp_make (fs0 ++ fs) in Ok (FTraj c s).
Proof.
  induction ps as [|p ps IH]; intros fs0 c s MK N I.
  - split; [eexists; reflexivity|]. intros result ->. exists []. split; [constructor|]. rewrite app_nil_r, MK. reflexivity.
  - assert (ST : match fpcontrols c with [] => fat_time p | _ => s end = s). { destruct (proj1 (pmade_shape fs0) c MK) as [-> _]. cbn [fpcontrols]. destruct fs0; [congruence|reflexivity]. }
    assert (SB : sub64 (fat_time p) s = Ok (fat_time p - s)%Z) by (apply chk64_ok, I; left; reflexivity).
    assert (AP : forall l, (let* c := fp_append c (FPControl (as_seconds (fat_time p - s)) l) in Ok (FTraj c s)) = let* c := fp_make (fs0 ++ [FPControl (as_seconds (fat_time p - s)) l]) in Ok (FTraj c s)) by (intro l; rewrite pmake_snoc, MK; reflexivity).
    assert (NU : forall fs, fp_make fs <> UB) by (intro fs; apply pmade_shape).
    assert (I' : forall p, In p ps -> in64 (fat_time p - s)) by (intros q Q; apply I; right; exact Q).
    cbn [ftr_appends]. unfold ftr_append. cbn [fcurve fstart]. rewrite ST, SB. split.
    + destruct (some_left (fstate p)) as [l L]. pose proof (AP l) as E. destruct (fp_make (fs0 ++ [FPControl (as_seconds (fat_time p - s)) l])) as [c'| |] eqn:MK'; cbn [obind] in E.
      * destruct (IH _ c' s MK' ltac:(destruct fs0; discriminate) I') as [[r R] _]. exists r, (Ok (FTraj c' s)). split; [exists l; split; [exact L|rewrite E; reflexivity]|exact R].
      * exists Throw, Throw. split; [exists l; split; [exact L|rewrite E; reflexivity]|reflexivity].
      * destruct (NU _ MK').
    + intros result (o & (l & L & ->) & H). rewrite AP in H. destruct (fp_make (fs0 ++ [FPControl (as_seconds (fat_time p - s)) l])) as [c'| |] eqn:MK'; cbn [obind] in H.
      * destruct (proj2 (IH _ c' s MK' ltac:(destruct fs0; discriminate) I') result H) as (fs & B & ->). exists (FPControl (as_seconds (fat_time p - s)) l :: fs). split; [constructor; [split; [reflexivity|exact L]|exact B]|]. rewrite <- app_assoc. reflexivity.
      * subst result. destruct (some_behind s ps) as [fs B]. exists (FPControl (as_seconds (fat_time p - s)) l :: fs). split; [constructor; [split; [reflexivity|exact L]|exact B]|]. change (FPControl (as_seconds (fat_time p - s)) l :: fs) with ([FPControl (as_seconds (fat_time p - s)) l] ++ fs). rewrite app_assoc, (make_throws _ fs MK'). reflexivity.
      * destruct (NU _ MK').
Qed.
Lemma make_shape a ps : (forall p, In p ps -> in64 (fat_time p - fat_time a)) ->
  (exists result, ftr_make (a :: ps) result) /\
  forall result, ftr_make (a :: ps) result -> exists fs, Forall2 (behind (fat_time a)) (a :: ps) fs /\ result = let* c := fp_make fs in Ok (FTraj c (fat_time a)).
Proof.
  intro I. assert (SB : sub64 (fat_time a) (fat_time a) = Ok (fat_time a - fat_time a)%Z) by (apply chk64_ok; rewrite Z.sub_diag; unfold in64, INT64_MIN, INT64_MAX; lia).
  unfold ftr_make. cbn [ftr_appends]. unfold ftr_append. cbn [fcurve fstart fpcontrols]. rewrite SB. split.
  - destruct (some_left (fstate a)) as [l L]. destruct (appends_shape ps [FPControl (as_seconds (fat_time a - fat_time a)) l] _ (fat_time a) eq_refl ltac:(discriminate) I) as [[r R] _]. eexists. eexists. split; [exists l; split; [exact L|reflexivity]|]. cbn [fp_append fpcontrols rev app obind]. exact R.
  - intros result (o & (l & L & ->) & H). cbn [fp_append fpcontrols rev app obind fpsegments] in H. destruct (proj2 (appends_shape ps [FPControl (as_seconds (fat_time a - fat_time a)) l] _ (fat_time a) eq_refl ltac:(discriminate) I) result H) as (fs & B & ->).
    exists (FPControl (as_seconds (fat_time a - fat_time a)) l :: fs). split; [constructor; [split; [reflexivity|exact L]|exact B]|reflexivity].
Qed.
