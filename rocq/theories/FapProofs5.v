(** Comparisons with zero, counterexamples and cases. *)
From Coq Require Import Reals Lra Lia List Psatz.
From Flocq Require Import Core BinarySingleNaN.
From Verif Require Import Cpp FloatModel FloatSpec FloatProofs NrmSpec NrmProofs LenModel LenSpec LenProofs Vec RotSpec RotProofs CoeffProofs DriftModel DriftSpec DriftProofs DriftProofs2 SpinModel SpinSpec SpinProofs SpinProofs2 SpinProofs3 TwistModel TlogModel TlogSpec TlogProofs5 TlogProofs6 SlogModel SlogProofs6 SlogProofs7 SlogProofs8 FstModel FstSpec FstProofs FapModel FapSpec FapProofs FapProofs2 FapProofs3 FapProofs4.
Import ListNotations.
Local Open Scope R_scope.

Lemma sub_zero x z : finite x -> finite z -> val z = 0 -> finite (fsub x z) /\ val (fsub x z) = val x.
Proof.
  intros X Z E. destruct (fsub_val x z X Z) as [F V].
  - rewrite E, Rminus_0_r. unfold overflows. rewrite (rd_id _ (val_fmt x)). pose proof (val_bound x). lra.
  - split; [exact F|]. rewrite V, E, Rminus_0_r. apply rd_id, val_fmt.
Qed.
Lemma square_zero x : finite x -> (place (fabs2 x) <= 0 <-> val x * val x <= h).
Proof.
  intro F. split; intro H.
  - destruct (Rle_lt_dec (val x * val x) h) as [K|K]; [exact K|exfalso]. pose proof (rd_not_tiny _ K) as P. destruct (square_length x) as [[N|[N L]] I]; [apply I in N; subst x; discriminate F|].
    destruct (place_cases _ N L) as [FS|E]; [|rewrite E in H; cbn in H; pose proof pow_1024_pos; lra].
    destruct (Rle_lt_dec (2 ^ 1024) (Rabs (rd (val x * val x)))) as [O|O].
    + pose proof (Bmult_correct 53 1024 prec_pos prec_emax mode_NE x x) as C. rewrite Rlt_bool_false in C by (rewrite <- bpow_1024 in O; exact O).
      unfold fabs2 in FS. change (B2SF (fmul x x) = SpecFloat.S754_infinity (xorb (Bsign x) (Bsign x))) in C. destruct (fmul x x); try discriminate C. discriminate FS.
    + destruct (fmul_val x x F F) as [F' V]; [unfold overflows; lra|]. unfold fabs2 in H. rewrite (place_finite _ F'), V in H. lra.
  - assert (0 <= val x * val x) by nra. destruct (fmul_val x x F F) as [F' V]; [apply no_overflow; rewrite Rabs_right by lra; pose proof h_1; pose proof (proj2 big_1000); lra|].
    unfold fabs2. rewrite (place_finite _ F'), V, rd_tiny by lra. lra.
Qed.
Lemma zero_decides v w c : vfinite v -> vfinite w -> vval w = vzero -> fvec_is_approx v w c ->
  (c = true <-> val (fx v) ^ 2 <= / 2 ^ 1075 /\ val (fy v) ^ 2 <= / 2 ^ 1075 /\ val (fz v) ^ 2 <= / 2 ^ 1075).
Proof.
  intros (X & Y & Z) (A & B & C) E H. unfold vval, vzero in E. injection E as EA EB EC.
  assert (HH : / 2 ^ 1075 = h) by (unfold h; rewrite <- (bpow_pow 1075), <- bpow_opp; reflexivity). rewrite HH. replace (val (fx v) ^ 2) with (val (fx v) * val (fx v)) by ring. replace (val (fy v) ^ 2) with (val (fy v) * val (fy v)) by ring. replace (val (fz v) ^ 2) with (val (fz v) * val (fz v)) by ring.
  destruct (sub_zero _ _ X A EA) as [FX VX]. destruct (sub_zero _ _ Y B EB) as [FY VY]. destruct (sub_zero _ _ Z C EC) as [FZ VZ].
  set (l := fdiffs (fcoords v) (fcoords w)). assert (FL : Forall finite l) by (unfold l, fdiffs, fcoords; cbn [combine map fst snd]; repeat constructor; assumption).
  destruct H as (d & x & y & SD & SX & SY & ->). fold l in SD. fold (fdiffs (fcoords v) (fcoords w)) in SD. fold l in SD.
  destruct (sum_zero _ _ SY) as [FW VW].
  { apply tiny_squares; [repeat constructor; assumption|]. unfold sq2, fcoords, add_up. cbn. rewrite EA, EB, EC. pose proof h_pos. lra. }
  assert (LX : a_length x) by (apply (squares_length _ _ SX), finite_no_nan; repeat constructor; assumption). pose proof LX as [NX PX].
  assert (M : finite (fmini x y) /\ val (fmini x y) = 0).
  { unfold fmini. destruct (flt y x) eqn:T; [auto|]. apply (flt_false y x (finite_not_nan y FW) NX) in T. rewrite (place_finite y FW), VW in T. destruct (place_cases x NX PX) as [F|E]; [|subst x; cbn in T; pose proof pow_1024_pos; lra].
    rewrite (place_finite x F) in *. split; [exact F|lra]. }
  destruct M as [FM VM]. destruct (scaled_val _ FM ltac:(rewrite VM; lra)) as [FT VT]. rewrite VM, Rmult_0_r, rd_0 in VT.
  pose proof (squares_length _ _ SD (finite_no_nan l FL)) as LD. pose proof LD as [ND PD]. rewrite (fle_place _ _ ND (finite_not_nan _ FT)), (place_finite _ FT), VT.
  assert (S3 : forall a b, finite a -> val a = val b -> (place (fabs2 a) <= 0 <-> val b * val b <= h)) by (intros a b Fa V; rewrite <- V; apply square_zero, Fa).
  rewrite <- (S3 _ (fx v) FX VX), <- (S3 _ (fy v) FY VY), <- (S3 _ (fz v) FZ VZ).
  destruct (squares_lengths l) as [AL BL]. assert (A' : Forall a_length (map fabs2 l)).
  { apply Forall_forall. intros z I. rewrite Forall_forall in AL. destruct (AL z I) as [->|K]; [|exact K]. exfalso. apply (finite_no_nan l FL), BL, I. }
  split.
  - intro P. destruct (sum_lengths _ _ SD A') as [_ M]. unfold l, fdiffs, fcoords in M. cbn [combine map fst snd] in M. inversion M as [|? ? M1 M']; inversion M' as [|? ? M2 M'']; inversion M'' as [|? ? M3 _]; subst. lra.
  - intros (P1 & P2 & P3). destruct (sum_zero _ _ SD) as [FD VD]; [|rewrite (place_finite _ FD), VD; lra].
    assert (T : forall a, finite a -> place (fabs2 a) <= 0 -> finite (fabs2 a) /\ val (fabs2 a) = 0).
    { intros a Fa Pa. destruct (square_length a) as [[N|[N L]] I]; [apply I in N; subst a; discriminate Fa|]. destruct (place_cases _ N L) as [FS|E]; [|rewrite E in Pa; cbn in Pa; pose proof pow_1024_pos; lra]. rewrite (place_finite _ FS) in *. split; [exact FS|lra]. }
    unfold l, fdiffs, fcoords. cbn [combine map fst snd]. repeat (apply Forall_cons; [apply T; assumption|]). apply Forall_nil.
Qed.

(** A pose times its inverse, and the identity. *)
Lemma inverse_not_identity : exists g, pose_stands_for u g /\
  forall p c, pose_of (RProduct (RGiven (g_pose g)) (RInverse (RGiven (g_pose g)))) p -> fse3_is_approx p fpose_identity c -> c = false.
Proof.
  eexists. split; [exact axis_given|]. intros p c P (a & b & _ & B & ->). pose proof (pose_inverse_off p P) as V.
  destruct (pose_error u (RProduct (RGiven (Given (FP (stored_turn 5 12 13) (FV (of_int 1) (of_int 0) (of_int 0))) (turn 5 12 13) (vval (FV (of_int 1) (of_int 0) (of_int 0))) 1)) (RInverse (RGiven (Given (FP (stored_turn 5 12 13) (FV (of_int 1) (of_int 0) (of_int 0))) (turn 5 12 13) (vval (FV (of_int 1) (of_int 0) (of_int 0))) 1))))) as [_ E].
  - split; exact axis_given.
  - unfold weight. cbn [nesting operations Nat.max Nat.add INR]. rewrite u_num. lra.
  - cbn [reach g_length]. apply Rle_trans with (2 ^ 1); [lra|]. apply Rle_pow; [lra|lia].
  - destruct (E p P) as (_ & F & _). apply Bool.andb_false_intro2. destruct b; [exfalso|reflexivity].
    apply (zero_decides (ftrans p) _ true F) in B; [|repeat split; apply of_int_0|unfold vval, vzero, fpose_identity; cbn [ftrans fx fy fz]; rewrite (proj2 of_int_0); reflexivity].
    destruct (proj1 B eq_refl) as [K _]. rewrite V in K. replace ((- / 2 ^ 52) ^ 2) with (/ 2 ^ 104) in K by lra.
    assert (/ 2 ^ 1075 < / 2 ^ 104); [|lra]. apply Rinv_lt_contravar; [apply Rmult_lt_0_compat; apply pow_lt; lra|]. apply Rlt_pow; [lra|]. apply Nat.ltb_lt. reflexivity.
Qed.
Lemma int_axis k : (Z.abs k <= 2 ^ 53)%Z -> let v := ivec k 0 0 in vfinite v /\ vval v = V3 (IZR k) 0 0 /\ norm (vval v) = Rabs (IZR k).
Proof.
  intros K v. subst v. destruct (ivec_val k 0 0) as [F V]; try (cbn; lia). split; [exact F|]. split; [exact V|]. rewrite V. unfold norm, norm2, dot. cbn [vx vy vz]. replace (_ + _) with (Rsqr (IZR k)) by (unfold Rsqr; ring). apply sqrt_Rsqr_abs.
Qed.
Lemma not_transitive : exists v w z, vfinite v /\ vfinite w /\ vfinite z /\ (forall c, fvec_is_approx v w c -> c = true) /\ (forall c, fvec_is_approx w z c -> c = true) /\ (forall c, fvec_is_approx v z c -> c = false).
Proof.
  exists (ivec 1000000000000000 0 0), (ivec 1000000000000800 0 0), (ivec 1000000000001600 0 0).
  destruct (int_axis 1000000000000000 ltac:(cbn; lia)) as (F1 & V1 & N1). destruct (int_axis 1000000000000800 ltac:(cbn; lia)) as (F2 & V2 & N2). destruct (int_axis 1000000000001600 ltac:(cbn; lia)) as (F3 & V3' & N3).
  rewrite Rabs_right in N1, N2, N3 by lra. assert (B : 2000000000000000 <= 2 ^ 490) by (apply Rle_trans with (2 ^ 60); [lra|apply Rle_pow; [lra|apply Nat.leb_le; reflexivity]]).
  assert (L : / 2 ^ 400 <= 1) by (rewrite <- Rinv_1; apply Rinv_le_contravar; [lra|apply pow_R1_Rle; lra]).
  assert (O : forall a b, norm (vsub (V3 a 0 0) (V3 b 0 0)) = Rabs (a - b)) by (intros a b; unfold norm, norm2, dot, vsub; cbn [vx vy vz]; replace (_ + _) with (Rsqr (a - b)) by (unfold Rsqr; ring); apply sqrt_Rsqr_abs).
  split; [exact F1|]. split; [exact F2|]. split; [exact F3|]. split; [|split]; intros c H.
  - destruct (vec_decides _ _ c F1 F2 ltac:(lra) ltac:(lra) H) as [Y _]. rewrite N1, N2, V1, V2, O, Rmin_left, Rabs_left in Y by lra. apply Y; [lra|]. rewrite u_num, tolerance_num. lra.
  - destruct (vec_decides _ _ c F2 F3 ltac:(lra) ltac:(lra) H) as [Y _]. rewrite N2, N3, V2, V3', O, Rmin_left, Rabs_left in Y by lra. apply Y; [lra|]. rewrite u_num, tolerance_num. lra.
  - destruct (vec_decides _ _ c F1 F3 ltac:(lra) ltac:(lra) H) as (_ & N & _). rewrite N1, N3, V1, V3', O, Rmin_left, Rabs_left in N by lra. apply N; [lra|]. rewrite u_num, tolerance_num. lra.
Qed.
Lemma vec_huge v w c : vfinite v -> vfinite w -> reaches (2 ^ 512) v -> reaches (2 ^ 512) w -> fvec_is_approx v w c -> c = true.
Proof.
  intros V W RV RW C. apply (approx_huge _ _ _ C); [apply coords_finite, V|apply coords_finite, W| |]; unfold reaches, fcoords in *.
  - destruct RV as [R|[R|R]]; [apply Exists_cons_hd, R|apply Exists_cons_tl, Exists_cons_hd, R|apply Exists_cons_tl, Exists_cons_tl, Exists_cons_hd, R].
  - destruct RW as [R|[R|R]]; [apply Exists_cons_hd, R|apply Exists_cons_tl, Exists_cons_hd, R|apply Exists_cons_tl, Exists_cons_tl, Exists_cons_hd, R].
Qed.
Lemma self_vec v c : fvec_is_approx v v c -> (c = true <-> vfinite v).
Proof. intro H. rewrite (approx_self _ _ H). symmetry. apply coords_finite. Qed.
Lemma self_mat m c : fso3_is_approx m m c -> (c = true <-> mfinite m).
Proof. intro H. rewrite (approx_self _ _ H). symmetry. apply coefs_finite. Qed.
Lemma self_pose g c : fse3_is_approx g g c -> (c = true <-> pfinite g).
Proof. intros (p & q & P & Q & ->). rewrite Bool.andb_true_iff, (self_mat _ _ P), (self_vec _ _ Q). reflexivity. Qed.
Lemma swap_mat a b c : fso3_is_approx a b c <-> fso3_is_approx b a c.
Proof. apply approx_swap. reflexivity. Qed.
Lemma swap_vec a b c : fvec_is_approx a b c <-> fvec_is_approx b a c.
Proof. apply approx_swap. reflexivity. Qed.
Lemma swap_pose a b c : fse3_is_approx a b c <-> fse3_is_approx b a c.
Proof. split; intros (p & q & P & Q & E); exists p, q; (split; [apply swap_mat, P|split; [apply swap_vec, Q|exact E]]). Qed.
Lemma some_pose a b : exists c, fse3_is_approx a b c.
Proof. destruct (approx_some (fcoefs (frot a)) (fcoefs (frot b))) as [p P]. destruct (approx_some (fcoords (ftrans a)) (fcoords (ftrans b))) as [q Q]. eexists. exists p, q. split; [exact P|]. split; [exact Q|reflexivity]. Qed.
(** Very long vectors in opposite directions. *)
Lemma opposites : exists v w, vfinite v /\ vfinite w /\ vval w = vneg (vval v) /\ val (fx v) = 2 ^ 600 /\ forall c, fvec_is_approx v w c -> c = true.
Proof.
  assert (D : exists x, finite x /\ val x = 2 ^ 600).
  { exists (NrmSpec.double 1 600). pose proof (binary_normalize_correct 53 1024 prec_pos prec_emax mode_NE 1 600 false) as C. cbv zeta in C.
    assert (F : F2R (Float radix2 1 600) = 2 ^ 600) by (unfold F2R; cbn [Fnum Fexp]; rewrite Rmult_1_l; exact (bpow_pow 600)). rewrite F in C. 
    assert (I : round radix2 (SpecFloat.fexp 53 1024) (round_mode mode_NE) (2 ^ 600) = 2 ^ 600) by (change (rd (2 ^ 600) = 2 ^ 600); apply rd_id; rewrite <- (bpow_pow 600); apply generic_format_bpow; unfold FLT_exp; lia). rewrite I in C. rewrite Rlt_bool_true in C.
    - destruct C as (V & FF & _). split; [exact FF|exact V].
    - rewrite bpow_1024, Rabs_right by (apply Rle_ge, pow_le; lra). apply Rlt_pow; [lra|]. apply Nat.ltb_lt. reflexivity. }
  destruct D as (x & F & V). exists (FV x (of_int 0) (of_int 0)), (fvneg (FV x (of_int 0) (of_int 0))). split; [repeat split; try exact F; reflexivity|]. split; [repeat split; cbn [fvneg fx fy fz]; unfold finite; rewrite fneg_finite; try exact F; reflexivity|].
  split; [unfold vval, vneg, fvneg; cbn [fx fy fz vx vy vz]; rewrite !fneg_val; reflexivity|]. split; [exact V|]. assert (P : 2 ^ 512 <= 2 ^ 600) by (apply Rle_pow; [lra|apply Nat.leb_le; reflexivity]). pose proof (pow_lt 2 600 ltac:(lra)) as Q.
  intros c C. revert C. apply vec_huge; try (repeat split; try exact F; reflexivity).
  - repeat split; cbn [fvneg fx fy fz]; unfold finite; rewrite fneg_finite; try exact F; reflexivity.
  - left. cbn [fx]. rewrite V, Rabs_right by lra. exact P.
  - left. cbn [fx fvneg]. rewrite fneg_val, V, Rabs_left by lra. lra.
Qed.
Lemma fmid_stands : stands_for 0 (fmid, mid).
Proof.
  assert (V : mval fmid = mid) by (unfold mval, fmid, mid; cbn [f00 f01 f02 f10 f11 f12 f20 f21 f22]; rewrite (proj2 of_int_0), (proj2 of_int_1); reflexivity).
  split; [repeat split; first [apply of_int_0|apply of_int_1]|]. split; [apply mid_rotation|]. cbn [fst snd]. rewrite V, apart_self. lra.
Qed.
Lemma interp_ends_same m r e p : stands_for e (m, r) -> e <= 18 * / 10 ^ 14 ->
  (fso3_interp m (of_int 0) p -> forall c, fso3_is_approx p fmid c -> c = true) /\ (fso3_interp m (of_int 1) p -> forall c, fso3_is_approx p m c -> c = true).
Proof.
  intros S H. split; intros I c C.
  - destruct (interp_none m r e (of_int 0) p S ltac:(lra)) as [F V]; [apply of_int_0|apply of_int_0|exact I|].
    assert (SP : stands_for 0 (p, mid)) by (split; [exact F|]; split; [apply mid_rotation|]; cbn [fst snd]; rewrite V, apart_self; lra).
    apply (rot_compare 0 0 p fmid mid mid c SP fmid_stands); [lra|exact C|]. rewrite apart_self, tolerance_num. lra.
  - apply interp_all in I. destruct I as (v & L & X). exact (exp_log_same m r e v p c S H L X C).
Qed.
Lemma pose_interp_ends_same g r e p : stands_for e (frot g, r) -> e <= 18 * / 10 ^ 14 -> vfinite (ftrans g) -> norm (vval (ftrans g)) <= 2 ^ 489 ->
  (fse3_interp g (of_int 0) p -> forall c, fse3_is_approx p fpose_identity c -> c = true) /\ (fse3_interp g (of_int 1) p -> forall c, fse3_is_approx p g c -> c = true).
Proof.
  intros S H F B. split; intros I c C.
  - destruct (se3_interp_none g r e (of_int 0) p S ltac:(lra) F) as (FM & M & FT & T); [apply Rle_trans with (1 := B); apply Rle_pow; [lra|apply Nat.leb_le; reflexivity]|apply of_int_0|apply of_int_0|exact I|].
    destruct C as (a & b & A & C & ->). assert (SP : stands_for 0 (frot p, mid)) by (split; [exact FM|]; split; [apply mid_rotation|]; cbn [fst snd]; rewrite M, apart_self; lra).
    apply andb_true_intro. split.
    + apply (rot_compare 0 0 (frot p) fmid mid mid a SP fmid_stands); [lra|exact A|]. rewrite apart_self, tolerance_num. lra.
    + apply (vec_near _ _ _ FT) in C; [exact C|repeat split; apply of_int_0|]. rewrite T. unfold fpose_identity, vval, vzero. cbn [ftrans fx fy fz]. rewrite (proj2 of_int_0).
      replace (vsub (V3 0 0 0) (V3 0 0 0)) with (V3 0 0 0) by (vsimpl; f_equal; ring). replace (norm (V3 0 0 0)) with 0; [apply Rlt_le, Rinv_0_lt_compat, pow_lt; lra|]. unfold norm, norm2, dot. cbn [vx vy vz]. replace (_ + _) with 0 by ring. symmetry. apply sqrt_0.
  - apply se3_interp_all in I. destruct I as (w & v & L & X). exact (pose_exp_log_same g r e w v p c S H F B L X C).
Qed.
