(** The comparison is symmetric; comparisons of vectors and matrices. *)
From Coq Require Import Reals Lra Lia List Permutation Psatz.
From Flocq Require Import Core BinarySingleNaN.
From Verif Require Import Cpp FloatModel FloatSpec FloatProofs NrmSpec NrmProofs LenModel LenSpec LenProofs Vec RotSpec RotProofs CoeffProofs DriftModel DriftSpec DriftProofs FstModel FstSpec FstProofs SpinProofs3 FapModel FapSpec FapProofs FapProofs2.
Import ListNotations.
Local Open Scope R_scope.

Lemma square_opp z : fabs2 (fneg z) = fabs2 z.
Proof. unfold fabs2. rewrite SpinProofs3.fmul_neg_l, SpinProofs3.fmul_neg_r. unfold fneg. apply Bopp_involutive. Qed.
Lemma overflow_sub x y : finite x -> finite y -> overflows (val x - val y) -> exists s, fsub x y = B754_infinity s.
Proof.
  intros X Y O. pose proof (Bminus_correct 53 1024 prec_pos prec_emax mode_NE x y X Y) as C. rewrite Rlt_bool_false in C by (unfold overflows in O; rewrite <- bpow_1024 in O; exact O).
  destruct C as [E _]. change (B2SF (fsub x y) = SpecFloat.S754_infinity (Bsign x)) in E. destruct (fsub x y) as [s|s| |s m e b]; try discriminate E. exists s. reflexivity.
Qed.
Lemma square_swap x y : fabs2 (fsub x y) = fabs2 (fsub y x).
Proof.
  destruct (is_finite x) eqn:FX; [destruct (is_finite y) eqn:FY|].
  - destruct (Rle_lt_dec (2 ^ 1024) (Rabs (rd (val x - val y)))) as [O|O].
    + assert (O' : overflows (val y - val x)) by (unfold overflows; replace (val y - val x) with (- (val x - val y)) by ring; rewrite rd_opp, Rabs_Ropp; exact O).
      destruct (overflow_sub x y FX FY O) as [s ->]. destruct (overflow_sub y x FY FX O') as [s' ->]. destruct s, s'; reflexivity.
    + assert (O' : ~ overflows (val y - val x)) by (unfold overflows; replace (val y - val x) with (- (val x - val y)) by ring; rewrite rd_opp, Rabs_Ropp; lra).
      destruct (fsub_val x y FX FY) as [F V]; [unfold overflows; lra|]. destruct (fsub_val y x FY FX O') as [F' V']. replace (val y - val x) with (- (val x - val y)) in V' by ring. rewrite rd_opp, <- V in V'.
      destruct (Req_dec (val (fsub x y)) 0) as [Z|Z].
      * assert (G : forall z, finite z -> val z = 0 -> fabs2 z = B754_zero false).
        { intros z Fz Vz. destruct z as [s|s| |s m e b]; try discriminate Fz; [destruct s; reflexivity|]. exfalso. unfold val, B2R in Vz. apply eq_0_F2R in Vz. destruct s; discriminate Vz. }
        rewrite (G _ F Z), (G _ F'); [reflexivity|]. rewrite V', Z. ring.
      * rewrite <- (square_opp (fsub x y)). f_equal. apply B2R_inj.
        -- destruct (fsub x y) as [s|s| |s m e b]; try discriminate F; [elim Z; reflexivity|reflexivity].
        -- destruct (fsub y x) as [s|s| |s m e b]; try discriminate F'; [elim Z; unfold val at 1 in V'; cbn in V'; lra|reflexivity].
        -- change (val (fneg (fsub x y)) = val (fsub y x)). rewrite V'. apply B2R_Bopp.
  - destruct x as [s|[|]| |s m e b], y as [s'|[|]| |s' m' e' b']; try discriminate FX; try discriminate FY; reflexivity.
  - destruct x as [s|[|]| |s m e b], y as [s'|[|]| |s' m' e' b']; try discriminate FX; reflexivity.
Qed.
Lemma squares_swap a b : map fabs2 (fdiffs a b) = map fabs2 (fdiffs b a).
Proof.
  revert b. induction a as [|x a IH]; intros [|y b]; try reflexivity. unfold fdiffs in *. cbn [combine map fst snd]. rewrite square_swap, IH. reflexivity.
Qed.
Lemma scaled_val x : finite x -> 0 <= val x -> finite (fmul (fmul dummy_precision dummy_precision) x) /\
  val (fmul (fmul dummy_precision dummy_precision) x) = rd (val (fmul dummy_precision dummy_precision) * val x).
Proof.
  intros FX P. destruct precision_bounds as [F V]. apply fmul_val; [exact F|exact FX|].
  unfold overflows. intro O. pose proof (val_bound x) as B. rewrite Rabs_right in B by lra. assert (rd (val (fmul dummy_precision dummy_precision) * val x) <= val x).
  { rewrite <- (rd_id (val x) (val_fmt x)) at 2. apply rd_le. nra. }
  rewrite Rabs_right in O; [lra|]. apply Rle_ge, rd_ge0. nra.
Qed.
Lemma mini_swap d x y : d <> B754_nan -> a_length x -> a_length y ->
  fle d (fmul (fmul dummy_precision dummy_precision) (fmini x y)) = fle d (fmul (fmul dummy_precision dummy_precision) (fmini y x)).
Proof.
  intros D X Y. pose proof X as [NX PX]. pose proof Y as [NY PY]. unfold fmini. destruct (flt y x) eqn:A, (flt x y) eqn:B; try reflexivity.
  - apply (flt_place y x NY NX) in A. apply (flt_place x y NX NY) in B. lra.
  - apply (flt_false y x NY NX) in A. apply (flt_false x y NX NY) in B. destruct (scaled_length x X) as [[NS PS] IS]. destruct (scaled_length y Y) as [[NT PT] IT].
    set (s := fmul _ x) in *. set (t := fmul _ y) in *.
    assert (E : place s = place t).
    { destruct (place_cases x NX PX) as [FX|EX], (place_cases y NY PY) as [FY|EY].
      - rewrite (place_finite x FX), (place_finite y FY) in *. destruct (scaled_val x FX PX) as [FS VS]. destruct (scaled_val y FY PY) as [FT VT]. fold s in FS, VS. fold t in FT, VT. rewrite !place_finite, VS, VT by assumption. f_equal. f_equal. lra.
      - exfalso. rewrite (place_finite x FX) in *. subst y. cbn in B. pose proof (val_bound x) as V. apply Rabs_def2 in V. cbn in A. lra.
      - exfalso. rewrite (place_finite y FY) in *. subst x. cbn in A. pose proof (val_bound y) as V. apply Rabs_def2 in V. lra.
      - rewrite IS, IT by assumption. reflexivity. }
    pose proof (fle_place d s D NS) as L1. pose proof (fle_place d t D NT) as L2. rewrite E in L1. destruct (fle d s), (fle d t); try reflexivity; [symmetry; apply L2, L1; reflexivity|apply L1, L2; reflexivity].
Qed.
Lemma nan_in (l : list f64) : In B754_nan l \/ ~ In B754_nan l.
Proof. induction l as [|x l [I|I]]; [right; intros []|left; right; exact I|]. destruct (nan_dec x) as [->|N]; [left; left; reflexivity|right; intros [E|K]; [exact (N E)|exact (I K)]]. Qed.
Lemma approx_swap_1 a b r : length a = length b -> fis_approx a b r -> fis_approx b a r.
Proof.
  intros L (d & x & y & SD & SX & SY & ->). fold (fdiffs a b) in SD. exists d, y, x. split; [fold (fdiffs b a); rewrite squares_swap; exact SD|]. split; [exact SY|]. split; [exact SX|].
  destruct (nan_in a) as [A|A]; [rewrite (squares_nan _ _ SD (combine_nan a b L (or_introl A))), !fle_nan_l; reflexivity|].
  destruct (nan_in b) as [B|B]; [rewrite (squares_nan _ _ SD (combine_nan a b L (or_intror B))), !fle_nan_l; reflexivity|].
  destruct (nan_dec d) as [->|N]; [rewrite !fle_nan_l; reflexivity|]. apply mini_swap; [exact N|exact (squares_length _ _ SX A)|exact (squares_length _ _ SY B)].
Qed.
Lemma approx_swap a b r : length a = length b -> (fis_approx a b r <-> fis_approx b a r).
Proof. intro L. split; apply approx_swap_1; [exact L|symmetry; exact L]. Qed.

(** ** Vectors *)
Lemma coords_finite v : vfinite v <-> Forall finite (fcoords v).
Proof. unfold vfinite, fcoords. split; [intros (A & B & C); repeat constructor; assumption|]. intro F. inversion F as [|? ? A F1]; inversion F1 as [|? ? B F2]; inversion F2; subst. auto. Qed.
Lemma coords_sq v : sq2 (map val (fcoords v)) = norm2 (vval v).
Proof. unfold sq2, fcoords, norm2, dot, vval. cbn. ring. Qed.
Lemma coords_off v w : off2 (fcoords v) (fcoords w) = norm2 (vsub (vval v) (vval w)).
Proof. unfold off2, diffs, sq2, fcoords, norm2, dot, vsub, vval. cbn. ring. Qed.
Lemma coords_bound v b : norm (vval v) <= b -> Forall (fun x => Rabs (val x) <= b) (fcoords v).
Proof. intro H. pose proof (entry_norm (vval v)) as (A & B & C). unfold vval in *. cbn [vx vy vz] in *. repeat (apply Forall_cons; [lra|]); apply Forall_nil. Qed.
Lemma coords_comparable v w : vfinite v -> vfinite w -> norm (vval v) <= 2 ^ 490 -> norm (vval w) <= 2 ^ 490 -> comparable (fcoords v) (fcoords w).
Proof. intros V W A B. split; [reflexivity|]. split; [cbn; lia|]. split; [apply coords_finite, V|]. split; [apply coords_finite, W|]. split; apply coords_bound; assumption. Qed.
Lemma min_sqr x y : 0 <= x -> 0 <= y -> Rmin (x * x) (y * y) = Rmin x y * Rmin x y.
Proof. intros X Y. unfold Rmin. destruct (Rle_dec x y), (Rle_dec (x * x) (y * y)); try reflexivity; nra. Qed.
Lemma coords_least v w : least (fcoords v) (fcoords w) = Rmin (norm (vval v)) (norm (vval w)) * Rmin (norm (vval v)) (norm (vval w)).
Proof. unfold least. rewrite !coords_sq, <- !norm_sqr. apply min_sqr; apply norm_nonneg. Qed.
Lemma floor_sqr m : / 2 ^ 400 <= m -> / 2 ^ 800 <= m * m.
Proof. intro H. replace (/ 2 ^ 800) with (/ 2 ^ 400 * / 2 ^ 400) by (rewrite <- Rinv_mult, <- pow_add; reflexivity). pose proof (Rinv_0_lt_compat _ (pow_lt 2 400 ltac:(lra))). apply Rmult_le_compat; lra. Qed.
Lemma tolerance_pos : 0 < tolerance. Proof. rewrite tolerance_num. lra. Qed.
Lemma yes_sqr D m : 0 <= D -> 0 <= m -> D <= (1 - 16 * u) * tolerance * m -> D * D <= (1 - 30 * u) * (t2 * (m * m)).
Proof.
  intros D0 M0 H. apply Rle_trans with ((1 - 16 * u) * tolerance * m * ((1 - 16 * u) * tolerance * m)); [apply Rmult_le_compat; assumption|].
  replace (_ * _) with ((1 - 16 * u) * (1 - 16 * u) * (t2 * (m * m))) by (unfold t2; ring). apply Rmult_le_compat_r; [apply Rmult_le_pos; [rewrite t2_num; lra|nra]|rewrite u_num; lra].
Qed.
Lemma no_sqr D m : 0 <= m -> (1 + 16 * u) * tolerance * m <= D -> (1 + 30 * u) * (t2 * (m * m)) <= D * D.
Proof.
  intros M0 H. pose proof tolerance_pos as T. assert (P : 0 <= (1 + 16 * u) * tolerance * m) by (apply Rmult_le_pos; [apply Rmult_le_pos; [rewrite u_num; lra|lra]|exact M0]).
  apply Rle_trans with ((1 + 16 * u) * tolerance * m * ((1 + 16 * u) * tolerance * m)); [|apply Rmult_le_compat; assumption].
  replace ((1 + 16 * u) * tolerance * m * ((1 + 16 * u) * tolerance * m)) with ((1 + 16 * u) * (1 + 16 * u) * (t2 * (m * m))) by (unfold t2; ring). apply Rmult_le_compat_r; [apply Rmult_le_pos; [rewrite t2_num; lra|nra]|rewrite u_num; lra].
Qed.
Lemma clear_sqr D m : 0 <= D -> 0 <= m -> 4 * D <= tolerance * m -> 16 * (D * D) <= t2 * (m * m).
Proof. intros D0 M0 H. replace (16 * (D * D)) with (4 * D * (4 * D)) by ring. replace (t2 * (m * m)) with (tolerance * m * (tolerance * m)) by (unfold t2; ring). apply Rmult_le_compat; lra. Qed.
Lemma vec_decides v w r : vfinite v -> vfinite w -> norm (vval v) <= 2 ^ 490 -> norm (vval w) <= 2 ^ 490 -> fvec_is_approx v w r ->
  let off := norm (vsub (vval v) (vval w)) in let m := Rmin (norm (vval v)) (norm (vval w)) in
  (/ 2 ^ 400 <= m -> off <= (1 - 16 * u) * tolerance * m -> r = true) /\ (/ 2 ^ 400 <= m -> (1 + 16 * u) * tolerance * m <= off -> r = false) /\
  (4 * off <= tolerance * m -> r = true).
Proof.
  intros V W A B H off m. pose proof (coords_comparable v w V W A B) as C. pose proof (norm_nonneg (vsub (vval v) (vval w))) as O. fold off in O.
  assert (M0 : 0 <= m) by (apply Rmin_glb; apply norm_nonneg).
  assert (EO : off2 (fcoords v) (fcoords w) = off * off) by (rewrite coords_off; symmetry; apply norm_sqr). assert (EM : least (fcoords v) (fcoords w) = m * m) by apply coords_least.
  split; [|split].
  - intros F D. apply (approx_yes _ _ _ H C); rewrite EM; [apply floor_sqr, F|rewrite EO; apply yes_sqr; assumption].
  - intros F D. apply (approx_no _ _ _ H C); rewrite EM; [apply floor_sqr, F|rewrite EO; apply no_sqr; assumption].
  - intro D. apply (approx_clear _ _ _ H C). rewrite EM, EO. apply clear_sqr; assumption.
Qed.
(** ** Matrices *)
Lemma coefs_finite m : mfinite m <-> Forall finite (fcoefs m).
Proof.
  unfold mfinite, fcoefs. split; [intros (A & B & C & D & E & F & G & H & I); repeat constructor; assumption|]. intro F.
  repeat match goal with X : Forall finite (_ :: _) |- _ => inversion X; subst; clear X end. repeat split; assumption.
Qed.
Lemma coefs_sq m : sq2 (map val (fcoefs m)) = size (mval m) * size (mval m).
Proof. rewrite size_sqr. unfold sq2, fcoefs, sq, norm2, dot, row0, row1, row2, mval. cbn. ring. Qed.
Lemma coefs_off a b : off2 (fcoefs a) (fcoefs b) = apart (mval a) (mval b) * apart (mval a) (mval b).
Proof. unfold apart. rewrite size_sqr. unfold off2, diffs, sq2, fcoefs, sq, norm2, dot, row0, row1, row2, madd, mscale, mval. cbn. ring. Qed.
Lemma coefs_bound m b : size (mval m) <= b -> Forall (fun x => Rabs (val x) <= b) (fcoefs m).
Proof. intro H. pose proof (entry_size (mval m)) as (A & B & C & D & E & F & G & I & J). unfold mval in *. cbn [m00 m01 m02 m10 m11 m12 m20 m21 m22] in *. repeat (apply Forall_cons; [lra|]); apply Forall_nil. Qed.
Lemma big_490 : 100 <= 2 ^ 490.
Proof. apply Rle_trans with (2 ^ 7); [lra|]. apply Rle_pow; [lra|apply Nat.leb_le; reflexivity]. Qed.
Lemma mat_decides a b r : mfinite a -> mfinite b -> size (mval a) <= 2 ^ 490 -> size (mval b) <= 2 ^ 490 -> fso3_is_approx a b r ->
  let off := apart (mval a) (mval b) in let m := Rmin (size (mval a)) (size (mval b)) in
  (/ 2 ^ 400 <= m -> off <= (1 - 16 * u) * tolerance * m -> r = true) /\ (/ 2 ^ 400 <= m -> (1 + 16 * u) * tolerance * m <= off -> r = false).
Proof.
  intros V W A B H off m. assert (C : comparable (fcoefs a) (fcoefs b)).
  { split; [reflexivity|]. split; [cbn; lia|]. split; [apply coefs_finite, V|]. split; [apply coefs_finite, W|]. split; apply coefs_bound; assumption. }
  pose proof (apart_pos (mval a) (mval b)) as O. fold off in O. assert (M0 : 0 <= m) by (apply Rmin_glb; apply size_pos).
  assert (EO : off2 (fcoefs a) (fcoefs b) = off * off) by apply coefs_off.
  assert (EM : least (fcoefs a) (fcoefs b) = m * m) by (unfold least; rewrite !coefs_sq; apply min_sqr; apply size_pos).
  split.
  - intros F D. apply (approx_yes _ _ _ H C); rewrite EM; [apply floor_sqr, F|rewrite EO; apply yes_sqr; assumption].
  - intros F D. apply (approx_no _ _ _ H C); rewrite EM; [apply floor_sqr, F|rewrite EO; apply no_sqr; assumption].
Qed.
(** Rotations: the size of a rotation is the square root of three. *)
Lemma sqrt_3 : 17320508 / 10000000 <= sqrt 3 <= 17320509 / 10000000.
Proof. pose proof (sqrt_sqrt 3 ltac:(lra)) as S. pose proof (sqrt_pos 3) as P. split; nra. Qed.
Lemma stored_size e p : stands_for e p -> e <= / 10 ^ 6 -> 173204 / 100000 <= size (mval (fst p)) <= 173206 / 100000.
Proof.
  intros (_ & R & A) H. pose proof (size_apart (mval (fst p)) (snd p)) as U. pose proof (size_apart (snd p) (mval (fst p))) as L.
  assert (S : apart (snd p) (mval (fst p)) = apart (mval (fst p)) (snd p)).
  { unfold apart. replace (madd (snd p) (mscale (-1) (mval (fst p)))) with (mscale (-1) (madd (mval (fst p)) (mscale (-1) (snd p)))); [rewrite size_scale; rewrite Rabs_left by lra; ring|]. destruct (snd p), (mval (fst p)). vsimpl. f_equal; ring. }
  rewrite (size_rot _ R) in U, L. rewrite S in L. pose proof sqrt_3. lra.
Qed.
Lemma rot_decides e a b r s c : stands_for e (a, r) -> stands_for e (b, s) -> e <= / 10 ^ 6 -> fso3_is_approx a b c ->
  (apart (mval a) (mval b) <= 1732 / 1000 * tolerance -> c = true) /\ (1733 / 1000 * tolerance <= apart (mval a) (mval b) -> c = false).
Proof.
  intros A B H C. pose proof (stored_size _ _ A H) as SA. pose proof (stored_size _ _ B H) as SB. cbn [fst] in SA, SB. pose proof big_490 as K.
  destruct (mat_decides a b c (proj1 A) (proj1 B) ltac:(lra) ltac:(lra) C) as [Y N].
  assert (M : 173204 / 100000 <= Rmin (size (mval a)) (size (mval b)) <= 173206 / 100000) by (unfold Rmin; destruct (Rle_dec _ _); lra).
  set (m := Rmin _ _) in *. assert (F : / 2 ^ 400 <= m).
  { apply Rle_trans with 1; [|lra]. rewrite <- Rinv_1. apply Rinv_le_contravar; [lra|apply pow_R1_Rle; lra]. }
  split; intro D; [apply Y|apply N]; try exact F; rewrite u_num, tolerance_num in *; lra.
Qed.
