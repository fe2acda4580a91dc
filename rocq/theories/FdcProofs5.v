(** When a distance curve in double precision answers, and where its start is lost. *)
From Coq Require Import Reals Psatz ZArith List.
From Flocq Require Import Core BinarySingleNaN.
From Verif Require Import Cpp RotSpec GeomModel RotProofs CoeffProofs ScrewSpec DiffProofs FloatModel FloatSpec NrmSpec FloatProofs NrmProofs DriftModel DriftSpec DriftProofs DriftProofs2 SpinModel SpinSpec SpinProofs SpinProofs2 TwistModel TwistProofs TwistProofs3 TlogModel TlogProofs6 SlogModel SlogProofs6 SlogProofs7 SlogProofs8 LenModel LenSpec LenProofs FdcModel FdcSpec FdcProofs FdcProofs2 FdcProofs3 FdcProofs4.
Import ListNotations.
Local Open Scope R_scope.

Lemma some_append c g : exists c', fdc_append c g c'.
Proof.
  unfold fdc_append. destruct (rev (fcontrols c)) as [|b r]; [eexists; reflexivity|]. destruct (some_inverse (fref b)) as [i I]. destruct (some_mul i g) as [m M]. destruct (some_arc_length m) as [l L].
  eexists. exists i, m, l. split; [exact I|]. split; [exact M|]. split; [exact L|reflexivity].
Qed.
Lemma some_make gs : exists c, fdc_make gs c.
Proof.
  unfold fdc_make. generalize (FDCurve [] []). induction gs as [|g gs IH]; intro c; [exists c; reflexivity|]. destruct (some_append c g) as [c1 A]. destruct (IH c1) as [c' B]. exists c', c1. split; assumption.
Qed.
Lemma answers gs c a : gs <> [] -> fdc_make gs c -> (exists lens, Forall a_length lens /\ lens <> [] /\ arc_lengths lens = Ok (map farc (fcontrols c))) ->
  finite a -> 0 <= val a -> finite (fdc_length c) -> val a <= val (fdc_length c) -> exists p, fdc_point_at c a p.
Proof.
  intros N M (lens & F & NE & E) Fa P Fl H. destruct (lookup lens _ a F NE E) as [_ K]. rewrite <- length_is in K. rewrite (place_finite a Fa), (place_finite _ Fl) in K.
  destruct (K (finite_not_nan a Fa) (conj P H)) as (p & o & d & A & _). destruct (impl_some gs c a p N M A) as [s S]. destruct (some_se3_interp (forig_dest s) (at_fraction p)) as [q Q]. destruct (some_mul (fref_orig s) q) as [r R].
  exists r, (at_fraction p), s, q. split; [exact S|]. split; assumption.
Qed.
Lemma refuses gs c a p : gs <> [] -> fdc_make gs c -> not_a_number a \/ place a < 0 \/ (place (fdc_length c) < place a /\ ~ not_a_number (fdc_length c)) -> ~ fdc_point_at c a p.
Proof.
  intros N M H (f & s & q & I & _). unfold fdc_point_at_impl in I. destruct H as [->|H]; [rewrite fle_nan_r in I; discriminate I|].
  destruct (nan_dec a) as [->|Na]; [rewrite fle_nan_r in I; discriminate I|].
  assert (Z : of_int 0 <> B754_nan) by (destruct of_int_0 as [Z _]; apply finite_not_nan in Z; exact Z). assert (PZ : place (of_int 0) = 0) by (destruct of_int_0 as [Z0 V0]; rewrite place_finite by exact Z0; exact V0).
  destruct H as [H|[H Nl]].
  - destruct (fle (of_int 0) a) eqn:E; [|discriminate I]. apply (fle_place _ _ Z Na) in E. lra.
  - destruct (reassert (fle (of_int 0) a)); [|discriminate I..]. cbn [obind] in I. destruct (fle a (fdc_length c)) eqn:E; [|discriminate I]. apply (fle_place _ _ Na Nl) in E. lra.
Qed.

(** The pose at the origin. *)
Definition origin : fpose := FP (imat 1 1 1) (ivec 0 0 0).
Lemma origin_is : exactly (frot origin) /\ mval (frot origin) = mid /\ vfinite (ftrans origin) /\ vval (ftrans origin) = vzero.
Proof.
  destruct (imat_val 1 1 1) as [F V]; try (cbn; lia). destruct (ivec_val 0 0 0) as [G W]; try (cbn; lia). cbn [frot ftrans origin]. split; [split; [exact F|rewrite V; apply mid_rotation]|]. split; [exact V|]. split; [exact G|exact W].
Qed.
Lemma origin_rel inv rel : fpose_inverse origin inv -> fpose_mul inv origin rel -> exactly (frot rel) /\ mval (frot rel) = mid /\ vfinite (ftrans rel) /\ vval (ftrans rel) = vzero.
Proof.
  intros (I1 & I2) (M1 & t & M2 & M3). destruct origin_is as (X & Vm & Fv & Vv).
  assert (R : rotation_of (RProduct (RInverse (RGiven (frot origin))) (RGiven (frot origin))) (frot rel)) by (eapply rot_product; [apply rot_inverse, rot_given|apply rot_given|rewrite I1 in M1; exact M1]).
  destruct (exact_composed (RProduct (RInverse (RGiven (frot origin))) (RGiven (frot origin))) (frot rel) (conj X X) R) as [Xr Er]. cbn [rmap exact_rotation] in Er. rewrite Vm, mtrans_mid, mmul_1_l in Er. split; [exact Xr|]. split; [exact Er|].
  destruct (exact_composed (RInverse (RGiven (frot origin))) (fmtrans (frot origin)) X (rot_inverse _ _ (rot_given _))) as [Xt Et]. cbn [rmap exact_rotation] in Et. rewrite Vm, mtrans_mid in Et.
  assert (Fn : vfinite (fvneg (ftrans origin))) by (destruct Fv as (? & ? & ?); unfold vfinite, fvneg, fneg, finite; cbn [fx fy fz]; rewrite !is_finite_Bopp; repeat split; assumption).
  assert (Vn : vval (fvneg (ftrans origin)) = vneg (vval (ftrans origin))) by (unfold vval, fvneg, vneg, fneg, val; cbn [fx fy fz vx vy vz]; rewrite !B2R_Bopp; reflexivity).
  destruct (exact_act _ _ _ Xt Fn I2) as [Fi Vi]. rewrite Et, Vn, Vv, mvec_1 in Vi. rewrite I1 in M2. destruct (exact_act _ _ _ Xt Fv M2) as [Ft Vt]. rewrite Et, Vv, mvec_1 in Vt.
  rewrite M3. destruct Fi as (i1 & i2 & i3), Ft as (t1 & t2 & t3). unfold vval, vzero, vneg in Vi, Vt. cbn [vx vy vz] in Vi. injection Vi as v1 v2 v3. injection Vt as w1 w2 w3.
  destruct (add_zero _ _ t1 i1 (or_introl w1)) as [a1 b1]. destruct (add_zero _ _ t2 i2 (or_introl w2)) as [a2 b2]. destruct (add_zero _ _ t3 i3 (or_introl w3)) as [a3 b3].
  split; [repeat split; assumption|]. unfold vval, fvadd, vzero. cbn [fx fy fz]. f_equal; lra.
Qed.
Lemma origin_log inv rel w v : fpose_inverse origin inv -> fpose_mul inv origin rel -> fse3_log rel w v -> vfinite v /\ vval v = vzero.
Proof.
  intros I M L. destruct (origin_rel inv rel I M) as ((F & R) & E & Ft & Et). rewrite <- Et. apply (se3_log_no_turn rel 0 w v); [|lra|rewrite E; reflexivity|exact Ft|exact L].
  split; [exact F|]. split; [apply mid_rotation|]. cbn [fst snd]. rewrite E. right. unfold apart, size, madd, mscale, mid. cbn [m00 m01 m02 m10 m11 m12 m20 m21 m22]. replace (_ + _) with 0 by ring. apply sqrt_0.
Qed.
Lemma origin_length inv rel l : fpose_inverse origin inv -> fpose_mul inv origin rel -> fse3_arc_length rel l -> finite l /\ val l = 0.
Proof.
  intros I M (w & v & L & z & Z & ->). destruct (origin_log inv rel w v I M L) as [F V]. destruct (zero_squared v z F V Z) as [Fz Vz]. destruct (fsqrt_val z Fz ltac:(lra)) as [Fs Vs]. split; [exact Fs|]. rewrite Vs, Vz, sqrt_0. apply rd_0.
Qed.
Lemma fadd_nan_l x : fadd B754_nan x = B754_nan.
Proof. destruct x; reflexivity. Qed.
Lemma fdot_nan a b c x y z r : fdot a b c x y z r -> x = B754_nan -> r = B754_nan.
Proof. intros D E. rewrite E in D. unfold fdot in D. rewrite fmul_nan_r in D. inversion D; rewrite ?fadd_nan_l, ?fadd_nan_r; reflexivity. Qed.
Lemma start_lost c p : fdc_make [origin; origin] c -> fdc_point_at c (of_int 0) p -> not_a_number (fx (ftrans p)).
Proof.
  intros (c1 & A1 & c2 & A2 & E) (f & s & q & I & Q & P). unfold fdc_append in A1. cbn [rev fcontrols app] in A1. subst c1. unfold fdc_append in A2. cbn [rev fcontrols app fsegments farc fref] in A2. destruct A2 as (inv & rel & l & Iv & M & L & C2). rewrite <- E in C2. clear c2 E.
  destruct (origin_length inv rel l Iv M L) as [Fl Vl]. destruct of_int_0 as [F0 V0]. destruct (add_zero _ _ F0 Fl (or_introl V0)) as [Fd Vd].
  rewrite C2 in I. unfold fdc_point_at_impl in I. cbn [fsegments find fdest_arc] in I. destruct (reassert _); [|discriminate I..]. cbn [obind] in I. destruct (reassert _); [|discriminate I..]. cbn [obind] in I.
  destruct (fle (of_int 0) (fadd (of_int 0) l)); [|discriminate I]. injection I as If Is. cbn [forig_arc fdest_arc] in If. change (seg_fraction (of_int 0) (fadd (of_int 0) l) (of_int 0) = f) in If. rewrite (fraction_zero (of_int 0) (fadd (of_int 0) l) (of_int 0) F0 Fd F0 V0 ltac:(lra) V0) in If. subst f s. cbn [forig_dest fref_orig forig_arc] in *.
  destruct Q as (w & v & Lg & _ & zz & ca & cb & cc & _ & _ & T). rewrite !fmul_nan_r in T. destruct T as (dd & Td & Tq).
  assert (Nq : fx (ftrans q) = B754_nan) by (rewrite Tq; cbn [fx]; rewrite !fmul_nan_r, !fadd_nan_l; reflexivity).
  destruct P as (_ & r & (R & _) & ->). apply fdot_nan in R; [|exact Nq]. cbn [fx fvadd]. unfold not_a_number. unfold fvadd. cbn [fx]. rewrite R. reflexivity.
Qed.

Lemma few n : INR n <= 2 ^ 52 -> INR n * u <= 1 / 2.
Proof. intro H. rewrite u_num. replace (2 ^ 52) with 4503599627370496 in H by (cbn; lra). lra. Qed.
Lemma along_length e B gs x l c L : e <= / 5000 -> / 2 ^ 400 <= B <= 2 ^ 480 -> along e B gs x l -> whole_length l L -> fdc_make gs c ->
  finite (fdc_length c) /\ Rabs (val (fdc_length c) - L) <= 2 * INR (length l) * ((161 * e + 4570 * u) * B + u * L).
Proof. intros He [B1 B2] ((xs & J & G) & W & N) HL M. exact (whole_length_near e B x l xs gs c L He B1 B2 J W G M (few _ N) HL). Qed.
Lemma along_point e B gs x l c L : e <= / 5000 -> / 2 ^ 400 <= B <= 2 ^ 480 -> along e B gs x l -> whole_length l L -> fdc_make gs c ->
  forall a p, fdc_point_at c a p -> val a <> 0 \/ (exists w v l' len, l = (w, v) :: l' /\ path_length (screw w v) len /\ (161 * e + 4570 * u) * B < len) ->
  exists b y, on_curve x l b y /\ Rabs (b - val a) <= INR (length l) * ((326 * e + 9300 * u) * B + 8 * u * L) /\
    pose_within (45 * e + 600 * u) ((260 * e + 10000 * u) * B) p y.
Proof.
  intros He [B1 B2] ((xs & J & G) & W & N) HL M a p P Z. destruct (whole_point e B x l xs gs c L He B1 B2 J W G M (few _ N) HL a p P Z) as (b & y & O & _ & D). exists b, y. split; assumption.
Qed.
Lemma along_gs e B gs x l : along e B gs x l -> gs <> [].
Proof. intros ((xs & J & G) & _) E. subst gs. inversion G; subst. inversion J. Qed.
Lemma along_answers e B gs x l c : e <= / 5000 -> / 2 ^ 400 <= B <= 2 ^ 480 -> along e B gs x l -> l <> [] -> fdc_make gs c ->
  forall a, finite a -> 0 <= val a <= val (fdc_length c) -> exists p, fdc_point_at c a p.
Proof.
  intros He [B1 B2] A NE M a Fa [P H]. pose proof (whole_some l) as HL. destruct (along_length e B gs x l c _ He (conj B1 B2) A HL M) as [Fl _]. pose proof (along_gs _ _ _ _ _ A) as NG. destruct A as ((xs & J & G) & W & N).
  destruct (whole_lens e B x l xs gs c He B1 B2 J W G M) as (lens & Ln & E & _ & F & _). apply (answers gs c a NG M); [|exact Fa|exact P|exact Fl|exact H].
  exists lens. split; [exact F|]. split; [|exact E]. intro K. subst lens. destruct l; [apply NE; reflexivity|discriminate Ln].
Qed.
Lemma along_refuses e B gs x l c : e <= / 5000 -> / 2 ^ 400 <= B <= 2 ^ 480 -> along e B gs x l -> fdc_make gs c ->
  forall a p, not_a_number a \/ place a < 0 \/ val (fdc_length c) < place a \/ l = [] -> ~ fdc_point_at c a p.
Proof.
  intros He HB A M a p H. pose proof (whole_some l) as HL. destruct (along_length e B gs x l c _ He HB A HL M) as [Fl _]. pose proof (along_gs _ _ _ _ _ A) as NG.
  assert (K : l <> [] \/ l = []) by (destruct l; [right; reflexivity|left; discriminate]). destruct K as [K|K].
  - apply (refuses gs c a p NG M). destruct H as [H|[H|[H|H]]]; [left; exact H|right; left; exact H| |contradiction]. right; right. rewrite (place_finite _ Fl). split; [exact H|apply finite_not_nan; exact Fl].
  - destruct HB as [B1 B2], A as ((xs & J & G) & W & N). destruct (whole_lens e B x l xs gs c He B1 B2 J W G M) as (_ & _ & _ & _ & _ & _ & Ls & _). rewrite K in Ls. intros (f & s & q & I & _). unfold fdc_point_at_impl in I.
    destruct (fsegments c); [|discriminate Ls]. destruct (reassert _); [|discriminate I..]. cbn [obind] in I. destruct (reassert _); [|discriminate I..]. discriminate I.
Qed.

(** The example: from the origin along a screw motion by three radians. *)
Lemma curve_case : exists g, along (/ 10 ^ 12) 6 [origin; g] (mid, vzero) [(V3 1 2 2, V3 4 (-3) 0)] /\ whole_length [(V3 1 2 2, V3 4 (-3) 0)] 5 /\ path_length (screw (V3 1 2 2) (V3 4 (-3) 0)) 5.
Proof.
  destruct se3_case as (g & _ & (S1 & S2 & S3) & H & F & T & R & N & D). exists g. assert (PL : path_length (screw (V3 1 2 2) (V3 4 (-3) 0)) 5) by (replace 5 with (norm (V3 4 (-3) 0)) by (apply norm_is; [lra|unfold dot; cbn [vx vy vz]; lra]); apply DiffProofs.screw_length).
  assert (NV : norm (V3 4 (-3) 0) = 5) by (apply norm_is; [lra|unfold dot; cbn [vx vy vz]; lra]).
  assert (N0 : norm vzero = 0) by (apply norm_is; [lra|unfold dot, vzero; cbn [vx vy vz]; lra]).
  split; [|split; [replace 5 with (5 + 0) by ring; constructor; [exact PL|constructor]|exact PL]].
  split; [|split; [constructor; [exact N|constructor]|cbn [length INR]; lra]].
  exists [(mid, vzero); (turning 3 (V3 (1 / 3) (2 / 3) (2 / 3)), screw (V3 1 2 2) (V3 4 (-3) 0) 1)]. split.
  - econstructor; [|constructor]. exists (turning 3 (V3 (1 / 3) (2 / 3) (2 / 3))). cbn [fst snd]. split; [rewrite vscale_1; exact R|]. split; [rewrite mmul_1_l; reflexivity|]. rewrite mvec_1. destruct (screw _ _ 1) as [p q r]. unfold vadd, vzero. cbn [vx vy vz]. f_equal; ring.
  - constructor; [|constructor; [|constructor]].
    + destruct origin_is as ((Fm & Rm) & Vm & Fv & Vv). split; [|cbn [snd]; rewrite N0; lra]. cbn [fst snd]. split; [|split; [exact Fv|]].
      * split; [exact Fm|]. split; [apply mid_rotation|]. cbn [fst snd]. rewrite Vm. apply Rle_trans with 0; [right|lra]. unfold apart, size, madd, mscale, mid. cbn [m00 m01 m02 m10 m11 m12 m20 m21 m22]. replace (_ + _) with 0 by ring. apply sqrt_0.
      * cbn [snd]. rewrite Vv. replace (vsub vzero vzero) with vzero by (unfold vsub, vzero; cbn [vx vy vz]; f_equal; ring). rewrite N0. lra.
    + pose proof (screw_bound (V3 1 2 2) (V3 4 (-3) 0) 1 ltac:(lra)) as SB. rewrite NV in SB. split; [|cbn [snd]; lra]. split; [|split; [exact F|cbn [snd]; lra]].
      split; [exact S1|]. split; [exact S2|]. cbn [fst snd] in *. apply Rle_trans with (63 * u); [exact S3|rewrite u_num; lra].
Qed.
Lemma start_answers c : fdc_make [origin; origin] c -> finite (fdc_length c) /\ val (fdc_length c) = 0.
Proof.
  intros (c1 & A1 & c2 & A2 & E). unfold fdc_append in A1. cbn [rev fcontrols app] in A1. subst c1. unfold fdc_append in A2. cbn [rev fcontrols app fsegments farc fref] in A2. destruct A2 as (inv & rel & l & Iv & M & L & C2). rewrite <- E in C2. clear c2 E. subst c.
  destruct (origin_length inv rel l Iv M L) as [Fl Vl]. destruct of_int_0 as [F0 V0]. destruct (add_zero _ _ F0 Fl (or_introl V0)) as [Fd Vd].
  unfold fdc_length. cbn [fcontrols rev app farc]. split; [exact Fd|]. lra.
Qed.
Lemma start_found : exists c p, fdc_make [origin; origin] c /\ fdc_point_at c (of_int 0) p.
Proof.
  destruct (some_make [origin; origin]) as [c M]. exists c. destruct of_int_0 as [F0 V0].
  enough (K : exists p, fdc_point_at c (of_int 0) p) by (destruct K as [p P]; exists p; split; assumption).
  assert (A : exists l c1, finite l /\ val l = 0 /\ c1 = c /\ map farc (fcontrols c1) = [of_int 0; fadd (of_int 0) l]).
  { destruct M as (c1 & A1 & c2 & A2 & E). unfold fdc_append in A1. cbn [rev fcontrols app] in A1. subst c1. unfold fdc_append in A2. cbn [rev fcontrols app fsegments farc fref] in A2. destruct A2 as (inv & rel & l & Iv & M & L & C2).
    exists l, c2. destruct (origin_length inv rel l Iv M L) as [Fl Vl]. split; [exact Fl|]. split; [exact Vl|]. split; [symmetry; exact E|]. rewrite C2. reflexivity. }
  destruct A as (l & c1 & Fl & Vl & Ec & Em). subst c1.
  destruct (start_answers c M) as [F V]. apply (answers [origin; origin] c (of_int 0)); [discriminate|exact M| |exact F0|lra|exact F|lra].
  exists [l]. rewrite Em. split; [|split; [discriminate|reflexivity]]. constructor; [|constructor]. split; [apply finite_not_nan; exact Fl|rewrite place_finite by exact Fl; lra].
Qed.
Lemma six_range : / 2 ^ 400 <= 6 <= 2 ^ 480.
Proof.
  split; [|apply Rle_trans with (2 ^ 3); [lra|apply Rle_pow; [lra|apply Nat.leb_le; reflexivity]]].
  apply Rle_trans with (/ 1); [|lra]. apply Rinv_le_contravar; [lra|]. apply pow_R1_Rle. lra.
Qed.
