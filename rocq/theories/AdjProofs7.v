(** Brackets with themselves, and cases. *)
From Coq Require Import Reals Lra Lia List.
From Flocq Require Import Core BinarySingleNaN.
From Verif Require Import Cpp FloatModel FloatSpec FloatProofs NrmSpec NrmProofs Vec RotSpec DriftModel DriftSpec DriftProofs DriftProofs2 SpinModel SpinSpec SpinProofs SpinProofs2 SpinProofs3 TwistModel TwistProofs3 SlogModel SlogProofs8 FpsModel FmjModel LenSpec LenProofs FapModel FapProofs5 AdjModel AdjSpec AdjProofs AdjProofs2 AdjProofs5 AdjProofs6.
Import ListNotations.
Local Open Scope R_scope.

Lemma small_checks a b : tfinite a -> tfinite b -> twithin (2 ^ 490) a -> twithin (2 ^ 490) b -> se3_anticommutes a b = true /\ so3_anticommutes (frot_part a) (frot_part b) = true.
Proof.
  intros A B C D. split; [apply se3_check, small_bracket; assumption|]. apply so3_check. apply (small_cross _ _ (proj1 A) (proj1 B) (proj1 C) (proj1 D)).
Qed.
Lemma self_bracket a : Forall (fun x => x = B754_nan \/ (finite x /\ val x = 0)) (ftcoords (flie_bracket a a)).
Proof.
  destruct (bracket_opposite a a) as ((X & Y & Z) & (X' & Y' & Z')). unfold ftcoords, fcoords. cbn [app].
  apply Forall_cons; [apply opposite_self, X|]. apply Forall_cons; [apply opposite_self, Y|]. apply Forall_cons; [apply opposite_self, Z|].
  apply Forall_cons; [apply opposite_self, X'|]. apply Forall_cons; [apply opposite_self, Y'|]. apply Forall_cons; [apply opposite_self, Z'|]. apply Forall_nil.
Qed.
Lemma self_small a : tfinite a -> twithin (2 ^ 490) a -> Forall (fun x => finite x /\ val x = 0) (ftcoords (flie_bracket a a)).
Proof.
  intros F W. pose proof (small_bracket a a F F W W) as ((X & Y & Z) & (X' & Y' & Z')). pose proof (self_bracket a) as S. unfold ftcoords, fcoords in *. cbn [app] in *. rewrite !Forall_cons_iff in S.
  assert (K : forall x : f64, finite x -> x = B754_nan \/ (finite x /\ val x = 0) -> finite x /\ val x = 0) by (intros x P [->|Q]; [discriminate P|exact Q]).
  destruct S as (S1 & S2 & S3 & S4 & S5 & S6 & _).
  apply Forall_cons; [apply K; assumption|]. apply Forall_cons; [apply K; assumption|]. apply Forall_cons; [apply K; assumption|]. apply Forall_cons; [apply K; assumption|]. apply Forall_cons; [apply K; assumption|]. apply Forall_cons; [apply K; assumption|]. apply Forall_nil.
Qed.

Lemma off_of e v q : vnearly e v q -> entries_off e v q.
Proof. intros ((F & X) & (G & Y) & (H & Z)). split; [split; [exact F|split; assumption]|]. auto. Qed.
Lemma both_near g r e alg T W V : stands_for e (frot g, r) -> e <= / 1000 -> vfinite (ftrans g) -> tfinite alg -> vwithin T (ftrans g) -> vwithin W (frot_part alg) -> vwithin V (ftrans_part alg) ->
  0 <= T <= 2 ^ 300 -> 0 <= W <= 2 ^ 300 -> 0 <= V <= 2 ^ 300 ->
  let q := mvec (mval (frot g)) (vval (frot_part alg)) in let p := vadd (cross (vval (ftrans g)) q) (mvec (mval (frot g)) (vval (ftrans_part alg))) in
  (forall x, fadjoint_times g alg x -> entries_off (10 * (u * W) + 4 * h) (frot_part x) q /\ entries_off (37 * (u * (T * W)) + 13 * (u * V) + 12 * (h * T) + 8 * h) (ftrans_part x) p) /\
  (forall m x, fse3_adjoint g m -> fmap6_times m alg x -> entries_off (19 * (u * W) + 4 * h) (frot_part x) q /\ entries_off (56 * (u * (T * W)) + 19 * (u * V) + 16 * (h * W) + 7 * h) (ftrans_part x) p).
Proof.
  intros S E Ft Fa Bt Bw Bv T0 W0 V0. pose proof (stands_entries e (frot g) r S E) as Bm. pose proof S as (Fm & _). cbn [fst] in Fm. pose proof u_pos as U.
  assert (UW : 0 <= u * W) by (apply Rmult_le_pos; lra). assert (UV : 0 <= u * V) by (apply Rmult_le_pos; lra). assert (UT : 0 <= u * (T * W)) by (apply Rmult_le_pos; [lra|apply Rmult_le_pos; lra]).
  assert (K : forall a b v w, a <= b -> vnearly a v w -> entries_off b v w) by (intros a b v w L N; destruct (off_of _ _ _ N) as (F & X & Y & Z); split; [exact F|]; lra).
  cbn zeta. split; [intros x D|intros m x A M].
  - destruct (direct_near g alg T W V Fm Ft Fa Bt Bw Bv T0 W0 V0 Bm x D) as [X Y]. unfold TW in Y. split; (eapply K; [|eassumption]); lra.
  - destruct (matrix_near g alg T W V Fm Ft Fa Bt Bw Bv T0 W0 V0 Bm m x A M) as [X Y]. unfold TW in Y. split; (eapply K; [|eassumption]); lra.
Qed.

Lemma values_1_2_2 : vfinite (ivec 1 2 2) /\ vval (ivec 1 2 2) = V3 1 2 2. Proof. apply ivec_val; cbn; lia. Qed.
Lemma values_4_3_0 : vfinite (ivec 4 (-3) 0) /\ vval (ivec 4 (-3) 0) = V3 4 (-3) 0. Proof. apply ivec_val; cbn; lia. Qed.
Lemma values_0 : vfinite (ivec 0 0 0) /\ vval (ivec 0 0 0) = V3 0 0 0. Proof. apply ivec_val; cbn; lia. Qed.
Lemma ints_within v x y z b : vval v = V3 x y z -> Rabs x <= b -> Rabs y <= b -> Rabs z <= b -> vwithin b v.
Proof. unfold vval. intros E X Y Z. injection E as <- <- <-. split; [exact X|split; assumption]. Qed.
Lemma small_case : let a := FT (ivec 1 2 2) (ivec 4 (-3) 0) in tfinite a /\ twithin 4 a /\ twithin (2 ^ 490) a.
Proof.
  cbn zeta. destruct values_1_2_2 as [F V], values_4_3_0 as [G W]. assert (B : 4 <= 2 ^ 490) by (apply Rle_trans with (2 ^ 10); [lra|apply Rle_pow; [lra|lia]]).
  assert (K : twithin 4 (FT (ivec 1 2 2) (ivec 4 (-3) 0))) by (split; cbn [frot_part ftrans_part]; [apply (ints_within _ _ _ _ _ V)|apply (ints_within _ _ _ _ _ W)]; apply Rabs_le; lra).
  split; [split; assumption|]. split; [exact K|]. destruct K as ((A1 & A2 & A3) & (A4 & A5 & A6)). split; (split; [|split]); lra.
Qed.
Lemma bracket_case : vval (fcross (ivec 1 2 2) (ivec 4 (-3) 0)) = V3 6 8 (-11) /\ vval (fcross (ivec 4 (-3) 0) (ivec 1 2 2)) = V3 (-6) (-8) 11.
Proof.
  assert (M : forall a b, (Z.abs a <= 100)%Z -> (Z.abs b <= 100)%Z -> finite (fmul (of_int a) (of_int b)) /\ val (fmul (of_int a) (of_int b)) = IZR (a * b)).
  { intros a b A B. destruct (of_small a) as [FA VA]; [lia|]. destruct (of_small b) as [FB VB]; [lia|]. destruct (fmul_val _ _ FA FB) as [F V].
    - rewrite VA, VB, <- mult_IZR. apply int_no_overflow. nia.
    - split; [exact F|]. rewrite V, VA, VB, <- mult_IZR. apply rd_int. nia. }
  assert (D : forall a b c d, (Z.abs a <= 100)%Z -> (Z.abs b <= 100)%Z -> (Z.abs c <= 100)%Z -> (Z.abs d <= 100)%Z -> val (fsub (fmul (of_int a) (of_int b)) (fmul (of_int c) (of_int d))) = IZR (a * b - c * d)).
  { intros a b c d A B C D. destruct (M a b A B) as [F V], (M c d C D) as [G W]. destruct (fsub_val _ _ F G) as [_ E]; [rewrite V, W, <- minus_IZR; apply int_no_overflow; nia|]. rewrite E, V, W, <- minus_IZR. apply rd_int. nia. }
  unfold vval, fcross, ivec. cbn [fx fy fz]. rewrite !D by lia. split; reflexivity.
Qed.
Lemma matrix_case : vfinite (ivec 4 (-3) 0) /\ vfinite (fcross (ivec 1 2 2) (ivec 4 (-3) 0)).
Proof.
  destruct small_case as ((A & B) & _ & (C & D)). cbn [frot_part ftrans_part] in *. split; [exact B|]. apply (small_cross _ _ A B C D).
Qed.
Lemma group_case : exists g r alg, stands_for (63 * u) (frot g, r) /\ 63 * u <= / 1000 /\ vfinite (ftrans g) /\ norm (vval (ftrans g)) <= 25 /\ tfinite alg /\ norm (vval (frot_part alg)) = 3 /\ norm (vval (ftrans_part alg)) = 5 /\
  / 2 ^ 300 <= 3 <= 2 ^ 290 /\ 5 <= 2 ^ 290.
Proof.
  destruct se3_case as (g & _ & S & _ & F & T & _). destruct values_1_2_2 as [F1 V1], values_4_3_0 as [F2 V2]. exists g, (turning 3 (V3 (1 / 3) (2 / 3) (2 / 3))), (FT (ivec 1 2 2) (ivec 4 (-3) 0)). cbn [frot_part ftrans_part].
  assert (B : 8 <= 2 ^ 290) by (apply Rle_trans with (2 ^ 3); [lra|apply Rle_pow; [lra|lia]]). assert (I : / 2 ^ 300 <= 1) by (rewrite <- Rinv_1; apply Rinv_le_contravar; [lra|apply pow_R1_Rle; lra]).
  split; [exact S|]. split; [rewrite u_num; lra|]. split; [exact F|]. split; [lra|]. split; [split; assumption|]. rewrite V1, V2. split; [apply norm_is; [lra|unfold dot; cbn [vx vy vz]; lra]|]. split; [apply norm_is; [lra|unfold dot; cbn [vx vy vz]; lra]|]. lra.
Qed.
Lemma distance_case : let a := FP fmid (ivec 1 2 2) in let b := FP fmid (ivec 0 0 0) in vfinite (ftrans a) /\ vfinite (ftrans b) /\ norm (vval (ftrans a)) <= 2 ^ 488 /\ norm (vval (ftrans b)) <= 2 ^ 488 /\
  norm (vsub (vval (ftrans a)) (vval (ftrans b))) = 3 /\ / 2 ^ 480 <= 3.
Proof.
  cbn zeta. cbn [ftrans]. destruct values_1_2_2 as [F1 V1], values_0 as [F2 V2]. rewrite V1, V2. assert (B : 8 <= 2 ^ 488) by (apply Rle_trans with (2 ^ 3); [lra|apply Rle_pow; [lra|lia]]). assert (I : / 2 ^ 480 <= 1) by (rewrite <- Rinv_1; apply Rinv_le_contravar; [lra|apply pow_R1_Rle; lra]).
  assert (N1 : norm (V3 1 2 2) = 3) by (apply norm_is; [lra|unfold dot; cbn [vx vy vz]; lra]). assert (N2 : norm (V3 0 0 0) = 0) by (apply norm_is; [lra|unfold dot; cbn [vx vy vz]; lra]). rewrite N1, N2.
  split; [exact F1|]. split; [exact F2|]. split; [lra|]. split; [lra|]. split; [apply norm_is; [lra|unfold dot, vsub; cbn [vx vy vz]; lra]|lra].
Qed.
Lemma huge_case : let a := FP fmid (FV (NrmSpec.double 1 600) (of_int 0) (of_int 0)) in let b := FP fmid (ivec 0 0 0) in vfinite (ftrans a) /\ vfinite (ftrans b) /\ vwithin (2 ^ 1000) (ftrans a) /\ vwithin (2 ^ 1000) (ftrans b) /\
  2 ^ 512 <= Rabs (val (fx (ftrans a)) - val (fx (ftrans b))).
Proof.
  cbn zeta. cbn [ftrans ivec fx fy fz]. destruct (of_small 0) as [F0 V0]; [cbn; lia|]. change (IZR 0) with 0 in V0.
  assert (V : val (NrmSpec.double 1 600) = 2 ^ 600).
  { rewrite <- (bpow_pow 600), FloatProofs.val_sf. replace (B2SF (NrmSpec.double 1 600)) with (SpecFloat.S754_finite false 4503599627370496 548) by (vm_compute; reflexivity).
    cbn [SF2R cond_Zopp]. unfold F2R. cbn [Fnum Fexp]. change 4503599627370496%Z with (radix2 ^ 52)%Z. rewrite IZR_Zpower by lia. rewrite <- bpow_plus. reflexivity. }
  assert (P : 0 < 2 ^ 600) by (apply pow_lt; lra). assert (Q : 0 <= 2 ^ 1000) by (apply pow_le; lra). assert (L : 2 ^ 600 <= 2 ^ 1000) by (apply Rle_pow; [lra|lia]). assert (K : 2 ^ 512 <= 2 ^ 600) by (apply Rle_pow; [lra|lia]).
  unfold ivec, vfinite, vwithin. cbn [fx fy fz]. rewrite V, V0, Rminus_0_r, Rabs_R0, (Rabs_right (2 ^ 600)) by lra.
  split; [split; [reflexivity|split; exact F0]|]. split; [split; [exact F0|split; exact F0]|]. split; [split; [exact L|split; exact Q]|]. split; [split; [exact Q|split; exact Q]|exact K].
Qed.
