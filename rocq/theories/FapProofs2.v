(** When the comparison says yes and when it says no. *)
From Coq Require Import Reals Lra Lia List Permutation Psatz.
From Flocq Require Import Core BinarySingleNaN.
From Verif Require Import Cpp FloatModel FloatSpec FloatProofs NrmSpec NrmProofs LenModel LenSpec LenProofs Vec RotSpec RotProofs DriftModel DriftSpec DriftProofs DriftProofs2 FstModel FstSpec FstProofs FapModel FapSpec FapProofs.
Import ListNotations.
Local Open Scope R_scope.

Lemma rd_tiny x : 0 <= x <= h -> rd x = 0.
Proof.
  intros [P H]. unfold rd. apply Rle_antisym; [|change (0 <= rd x); apply rd_ge0, P].
  change (rd x <= 0). apply Rle_trans with (rd h); [apply rd_le, H|]. right.
  unfold rd, round, scaled_mantissa, cexp. assert (mag radix2 h = (-1074)%Z :> Z) as -> by (unfold h; rewrite mag_bpow; reflexivity).
  change (FLT_exp (-1074) 53 (-1074)) with (-1074)%Z. unfold h. rewrite <- bpow_plus. change (bpow radix2 (-1075 + - (-1074))) with (/ 2).
  assert (ZnearestE (/ 2) = 0%Z) as -> by (unfold Znearest; rewrite (Zfloor_imp 0) by (cbn; lra); replace (/ 2 - 0) with (/ 2) by ring; rewrite Rcompare_Eq by lra; reflexivity).
  unfold F2R. cbn [Fnum]. ring.
Qed.
Lemma rd_not_tiny x : h < x -> 0 < rd x.
Proof.
  intro H. pose proof h_pos as P.
  destruct (Rle_lt_dec (bpow radix2 (-1074)) x) as [K|K].
  - apply Rlt_le_trans with (bpow radix2 (-1074)); [apply bpow_gt_0|]. rewrite <- (rd_id (bpow radix2 (-1074))); [apply rd_le, K|]. apply generic_format_bpow. unfold FLT_exp. lia.
  - unfold rd, round, scaled_mantissa, cexp. assert (M : mag radix2 x = (-1074)%Z :> Z) by (apply mag_unique_pos; change (-1074 - 1)%Z with (-1075)%Z; fold h; lra). rewrite M.
    change (FLT_exp (-1074) 53 (-1074)) with (-1074)%Z.
    assert (S : / 2 < x * bpow radix2 (- (-1074)) < 1).
    { assert (B : 0 < bpow radix2 (- (-1074))) by apply bpow_gt_0. split.
      - apply Rle_lt_trans with (h * bpow radix2 (- (-1074))); [unfold h; rewrite <- bpow_plus; change (bpow radix2 (-1075 + - (-1074))) with (/ 2); lra|]. apply Rmult_lt_compat_r; assumption.
      - apply Rlt_le_trans with (bpow radix2 (-1074) * bpow radix2 (- (-1074))); [apply Rmult_lt_compat_r; assumption|]. rewrite <- bpow_plus. cbn. lra. }
    set (y := x * bpow radix2 (- (-1074))) in *.
    assert (ZnearestE y = 1%Z) as ->.
    { unfold Znearest. rewrite (Zfloor_imp 0) by (cbn; lra). replace (y - 0) with y by ring. rewrite Rcompare_Gt by lra. apply Zceil_imp. cbn. lra. }
    unfold F2R. cbn [Fnum]. rewrite Rmult_1_l. apply bpow_gt_0.
Qed.

(** ** Sums of lengths *)
Lemma sum_lengths l s : fsum_of l s -> Forall a_length l -> a_length s /\ Forall (fun x => place x <= place s) l.
Proof.
  induction 1 as [|x|l k k' x y P K IK K' IK']; intro F.
  - split; [apply zero_length|constructor].
  - inversion F; subst. split; [assumption|]. constructor; [lra|constructor].
  - assert (FF : Forall a_length (k ++ k')) by (eapply Permutation_Forall; eassumption). apply Forall_app in FF. destruct FF as [FK FK'].
    destruct (IK FK) as [AX PX]. destruct (IK' FK') as [AY PY]. destruct (add_length x y AX AY) as (A & B & _). destruct (add_length y x AY AX) as (_ & B' & _).
    assert (B'' : place y <= place (fadd x y)).
    { destruct A as [N A]. destruct (place_cases _ N A) as [FS| ->]; [|apply place_bound]. destruct (add_length x y AX AY) as (_ & _ & V). destruct (V FS) as (FX & FY & E).
      rewrite (place_finite _ FS), E, (place_finite y FY), <- (rd_id (val y) (val_fmt y)) at 1. apply rd_le. destruct AX as [_ AX]. rewrite (place_finite x FX) in AX. lra. }
    split; [exact A|]. apply (Permutation_Forall (Permutation_sym P)). apply Forall_app. split; eapply Forall_impl; try eassumption; cbn; intros z Z; lra.
Qed.
Lemma sum_zero l s : fsum_of l s -> Forall (fun x => finite x /\ val x = 0) l -> finite s /\ val s = 0.
Proof.
  induction 1 as [|x|l k k' x y P K IK K' IK']; intro F.
  - apply DriftProofs2.of_int_0.
  - inversion F; assumption.
  - assert (FF : Forall (fun x => finite x /\ val x = 0) (k ++ k')) by (eapply Permutation_Forall; eassumption). apply Forall_app in FF. destruct FF as [FK FK'].
    destruct (IK FK) as [FX VX]. destruct (IK' FK') as [FY VY]. destruct (fadd_val x y FX FY) as [F' V].
    + rewrite VX, VY. apply no_overflow. rewrite Rplus_0_r, Rabs_R0. pose proof (proj2 big_1000). lra.
    + split; [exact F'|]. rewrite V, VX, VY, Rplus_0_r. apply rd_0.
Qed.
(** A sum of lengths and NaNs is NaN just if one of them is. *)
Definition length_or_nan (x : f64) : Prop := x = B754_nan \/ a_length x.
Lemma sum_nan l s : fsum_of l s -> Forall length_or_nan l -> length_or_nan s /\ (s = B754_nan <-> In B754_nan l).
Proof.
  induction 1 as [|x|l k k' x y P K IK K' IK']; intro F.
  - split; [right; apply zero_length|]. split; [intro E; discriminate E|intros []].
  - inversion F; subst. split; [assumption|]. cbn. split; [auto|intros [E|[]]; exact E].
  - assert (FF : Forall length_or_nan (k ++ k')) by (eapply Permutation_Forall; eassumption). apply Forall_app in FF. destruct FF as [FK FK'].
    destruct (IK FK) as [LX NX]. destruct (IK' FK') as [LY NY].
    assert (I : In B754_nan l <-> x = B754_nan \/ y = B754_nan).
    { rewrite NX, NY, <- in_app_iff. split; apply Permutation_in; [exact P|exact (Permutation_sym P)]. }
    rewrite I. destruct LX as [ ->|LX]; [split; [left; reflexivity|split; [auto|intros _; reflexivity]]|].
    destruct LY as [ ->|LY]; [assert (fadd x B754_nan = B754_nan) as -> by (destruct x as [?|[|]| |? ? ? ?]; reflexivity); split; [left; reflexivity|split; auto]|].
    destruct (add_length x y LX LY) as [A _]. split; [right; exact A|]. destruct A as [N _], LX as [N1 _], LY as [N2 _]. unfold not_a_number in *. tauto.
Qed.
Lemma square_length x : length_or_nan (fabs2 x) /\ (fabs2 x = B754_nan <-> x = B754_nan).
Proof.
  destruct (is_finite x) eqn:F.
  - split.
    + right. destruct (Rle_lt_dec (2 ^ 1024) (Rabs (rd (val x * val x)))) as [O|O].
      * pose proof (Bmult_correct 53 1024 prec_pos prec_emax mode_NE x x) as C. rewrite Rlt_bool_false in C by (rewrite <- bpow_1024 in O; exact O).
        assert (E : fabs2 x = B754_infinity false).
        { unfold fabs2. change (B2SF (fmul x x) = SpecFloat.S754_infinity (xorb (Bsign x) (Bsign x))) in C. rewrite Bool.xorb_nilpotent in C. destruct (fmul x x); try discriminate C. injection C as ->. reflexivity. }
        rewrite E. split; [intro N; discriminate N|cbn; pose proof pow_1024_pos; lra].
      * destruct (fmul_val x x F F) as [F' V]; [unfold overflows; lra|]. split; [apply finite_not_nan, F'|]. unfold fabs2. rewrite (place_finite _ F'), V. apply rd_ge0. nra.
    + split; [|intros ->; discriminate F]. intro E. exfalso. unfold fabs2, fmul, Bmult in E. destruct x as [s|s| |s m e b]; try discriminate F; try discriminate E.
      pose proof (Bmult_correct 53 1024 prec_pos prec_emax mode_NE (B754_finite s m e b) (B754_finite s m e b)) as C. unfold Bmult in C. rewrite E in C.
      destruct (Rlt_bool _ _) in C; [destruct C as (_ & C & _); discriminate C|]. unfold binary_overflow in C. cbn in C. discriminate C.
  - destruct x as [s|s| |s m e b]; try discriminate F.
    + split; [right|split; intro E; [destruct s; discriminate E|discriminate E]]. assert (fabs2 (B754_infinity s) = B754_infinity false) as -> by (destruct s; reflexivity).
      split; [intro N; discriminate N|cbn; pose proof pow_1024_pos; lra].
    + split; [left; reflexivity|split; reflexivity].
Qed.
Lemma squares_lengths l : Forall length_or_nan (map fabs2 l) /\ (In B754_nan (map fabs2 l) <-> In B754_nan l).
Proof.
  induction l as [|x l [A B]]; cbn [map]; [split; [constructor|reflexivity]|]. destruct (square_length x) as [L N]. split; [constructor; assumption|]. cbn. rewrite N, B. reflexivity.
Qed.

(** ** Yes and no *)
Lemma h_floor z : / 2 ^ 800 <= z -> 1000 * h <= u * (t2 * z).
Proof.
  intro Z. apply Rle_trans with (u * (t2 * / 2 ^ 800)).
  - rewrite u_num, t2_num. rewrite <- (bpow_pow 800), <- bpow_opp. unfold h. change (Z.of_nat 800) with 800%Z. replace (-1075)%Z with (-275 + - (800))%Z by ring. rewrite bpow_plus.
    pose proof (bpow_gt_0 radix2 (- (800))) as P. set (w := bpow radix2 (- (800))) in *. change (bpow radix2 (-275)) with (/ IZR (2 ^ 275)). 
    assert (/ IZR (2 ^ 275) <= / IZR (10 ^ 60)); [apply Rinv_le_contravar; [apply IZR_lt; reflexivity|apply IZR_le; apply Z.leb_le; reflexivity]|]. 
    change (IZR (10 ^ 60)) with 1000000000000000000000000000000000000000000000000000000000000 in *. set (v := / IZR (2 ^ 275)) in *. assert (v * w <= / 1000000000000000000000000000000000000000000000000000000000000 * w) by (apply Rmult_le_compat_r; lra). lra.
  - apply Rmult_le_compat_l; [rewrite u_num; lra|]. apply Rmult_le_compat_l; [rewrite t2_num; lra|exact Z].
Qed.
Definition comparable (a b : list f64) : Prop :=
  length a = length b /\ (length a <= 9)%nat /\ Forall finite a /\ Forall finite b /\ Forall (fun x => Rabs (val x) <= 2 ^ 490) a /\ Forall (fun x => Rabs (val x) <= 2 ^ 490) b.
Definition off2 (a b : list f64) : R := sq2 (diffs (map val a) (map val b)).
Definition least (a b : list f64) : R := Rmin (sq2 (map val a)) (sq2 (map val b)).
Lemma least_pos a b : 0 <= least a b. Proof. apply Rmin_glb; apply sq2_pos. Qed.
Lemma approx_yes a b r : fis_approx a b r -> comparable a b -> / 2 ^ 800 <= least a b -> off2 a b <= (1 - 30 * u) * (t2 * least a b) -> r = true.
Proof.
  intros A (L & N & FA & FB & BA & BB) M D. destruct (approx_value a b r A L N FA FB BA BB) as (d & t & ED & ET & R & _). apply R. fold (off2 a b) in ED. fold (least a b) in ET.
  pose proof (h_floor _ M) as H. apply Rabs_le_inv in ED, ET. set (z := t2 * least a b) in *. assert (0 <= off2 a b) by apply sq2_pos. pose proof h_pos. rewrite u_num in *. lra.
Qed.
Lemma approx_no a b r : fis_approx a b r -> comparable a b -> / 2 ^ 800 <= least a b -> (1 + 30 * u) * (t2 * least a b) <= off2 a b -> r = false.
Proof.
  intros A (L & N & FA & FB & BA & BB) M D. destruct (approx_value a b r A L N FA FB BA BB) as (d & t & ED & ET & R & _). destruct r; [exfalso|reflexivity]. pose proof (proj1 R eq_refl) as K. fold (off2 a b) in ED. fold (least a b) in ET.
  pose proof (h_floor _ M) as H. apply Rabs_le_inv in ED, ET. set (z := t2 * least a b) in *. assert (0 <= off2 a b) by apply sq2_pos. pose proof h_pos. rewrite u_num in *. lra.
Qed.
Lemma tiny_squares l : Forall finite l -> sq2 (map val l) <= h -> Forall (fun x => finite x /\ val x = 0) (map fabs2 l).
Proof.
  induction 1 as [|x l F _ IH]; cbn [map]; intro B; constructor.
  - rewrite sq2_cons in B. pose proof (sq2_pos (map val l)). assert (0 <= val x * val x) by nra. pose proof h_1. destruct (fmul_val x x F F) as [F' V]; [apply no_overflow; rewrite Rabs_right by lra; pose proof (proj2 big_1000); lra|].
    split; [exact F'|]. unfold fabs2. rewrite V. apply rd_tiny. lra.
  - apply IH. rewrite sq2_cons in B. nra.
Qed.
(** Clearly closer than needed. *)
Lemma approx_clear a b r : fis_approx a b r -> comparable a b -> 16 * off2 a b <= t2 * least a b -> r = true.
Proof.
  intros A (L & N & FA & FB & BA & BB) D. destruct (approx_value a b r A L N FA FB BA BB) as (d & t & ED & ET & R & T & s & S & VS). apply R. fold (off2 a b) in ED. fold (least a b) in ET.
  assert (O : 0 <= off2 a b) by apply sq2_pos. pose proof h_pos as H.
  destruct (Rle_lt_dec (off2 a b) (99 / 100 * h)) as [K|K].
  - destruct (diffs_near a b L FA FB BA BB) as (FD & _ & _ & _ & _ & D2). fold (off2 a b) in D2.
    assert (Z : val s = 0) by (apply (sum_zero _ _ S), tiny_squares; [exact FD|rewrite u_num in D2; lra]). lra.
  - apply Rabs_le_inv in ED, ET. set (z := t2 * least a b) in *. rewrite u_num in *. lra.
Qed.

(** ** No bounds *)
Lemma precision_bounds : finite (fmul dummy_precision dummy_precision) /\ 0 < val (fmul dummy_precision dummy_precision) < 1.
Proof. destruct square_precision as [F E]. split; [exact F|]. apply Rabs_le_inv in E. rewrite t2_num, u_num in E. lra. Qed.
Lemma precision_shape : exists m e b, fmul dummy_precision dummy_precision = B754_finite false m e b.
Proof.
  destruct precision_bounds as [F V]. destruct (fmul dummy_precision dummy_precision) as [s|s| |s m e b]; try discriminate F; [unfold val in V; cbn in V; lra|].
  destruct s; [|eauto]. exfalso. pose proof (sign_val (B754_finite true m e b) F) as S. cbn [Bsign] in S. lra.
Qed.
Lemma scaled_length x : a_length x -> a_length (fmul (fmul dummy_precision dummy_precision) x) /\ (x = B754_infinity false -> fmul (fmul dummy_precision dummy_precision) x = B754_infinity false).
Proof.
  intros [N P]. destruct precision_bounds as [F V]. destruct precision_shape as (m & e & b & E). split.
  - destruct (place_cases x N P) as [FX| ->].
    + rewrite (place_finite x FX) in P. destruct (fmul_val _ x F FX) as [FM VM].
      * unfold overflows. intro O. pose proof (val_bound x) as B. rewrite Rabs_right in B by lra. assert (rd (val (fmul dummy_precision dummy_precision) * val x) <= val x).
        { rewrite <- (rd_id (val x) (val_fmt x)) at 2. apply rd_le. nra. }
        rewrite Rabs_right in O; [lra|]. apply Rle_ge, rd_ge0. nra.
      * split; [apply finite_not_nan, FM|]. rewrite (place_finite _ FM), VM. apply rd_ge0. nra.
    + rewrite E. split; [intro K; discriminate K|cbn; pose proof pow_1024_pos; lra].
  - intros ->. rewrite E. reflexivity.
Qed.
Lemma mini_length x y : a_length x -> a_length y -> a_length (fmini x y).
Proof. intros X Y. unfold fmini. destruct (flt y x); assumption. Qed.
Lemma squares_length l s : fsum_of (map fabs2 l) s -> ~ In B754_nan l -> a_length s.
Proof.
  intros S N. destruct (squares_lengths l) as [A B]. destruct (sum_nan _ _ S A) as [[E|L] C]; [|exact L]. exfalso. apply N, B, C, E.
Qed.
Lemma squares_nan l s : fsum_of (map fabs2 l) s -> In B754_nan l -> s = B754_nan.
Proof. intros S N. destruct (squares_lengths l) as [A B]. destruct (sum_nan _ _ S A) as [_ C]. apply C, B, N. Qed.
Lemma approx_same a b r : fis_approx a b r -> ~ In B754_nan a -> ~ In B754_nan b -> Forall (fun x => finite x /\ val x = 0) (map fabs2 (fdiffs a b)) -> r = true.
Proof.
  intros (d & x & y & SD & SX & SY & ->) A B Z. fold (fdiffs a b) in SD. destruct (sum_zero _ _ SD Z) as [FD VD].
  destruct (scaled_length _ (mini_length x y (squares_length _ _ SX A) (squares_length _ _ SY B))) as [[N P] _]. apply fle_place; [apply finite_not_nan, FD|exact N|]. rewrite (place_finite _ FD), VD. exact P.
Qed.
Lemma finite_no_nan l : Forall finite l -> ~ In B754_nan l.
Proof. intros F I. rewrite Forall_forall in F. specialize (F _ I). discriminate F. Qed.
Lemma sub_same x : finite x -> finite (fabs2 (fsub x x)) /\ val (fabs2 (fsub x x)) = 0.
Proof.
  intro F. destruct (fsub_val x x F F) as [FS VS]; [rewrite Rminus_diag_eq by reflexivity; apply no_overflow; rewrite Rabs_R0; pose proof (proj2 big_1000); lra|].
  rewrite Rminus_diag_eq, rd_0 in VS by reflexivity. destruct (fmul_val _ _ FS FS) as [FM VM]; [rewrite VS, Rmult_0_l; apply no_overflow; rewrite Rabs_R0; pose proof (proj2 big_1000); lra|].
  split; [exact FM|]. unfold fabs2. rewrite VM, VS, Rmult_0_l. apply rd_0.
Qed.
(** Comparing with itself. *)
Lemma approx_self a r : fis_approx a a r -> (r = true <-> Forall finite a).
Proof.
  intro A. split.
  - intros ->. destruct A as (d & x & y & SD & SX & SY & E). apply Forall_forall. intros z I. destruct (is_finite z) eqn:F; [exact F|]. exfalso.
    assert (K : In B754_nan (fdiffs a a)).
    { unfold fdiffs. apply in_map_iff. exists (z, z). split; [destruct z as [s|[|]| |s m e b]; try discriminate F; reflexivity|]. clear - I. induction a as [|w a IH]; [destruct I|]. cbn. destruct I as [->|I]; auto. }
    rewrite (squares_nan _ _ SD K), fle_nan_l in E. discriminate E.
  - intro F. apply (approx_same a a r A); try apply finite_no_nan, F. clear A. induction F as [|x a F _ IH]; [constructor|]. unfold fdiffs in *. cbn [combine map fst snd]. constructor; [apply sub_same, F|exact IH].
Qed.
(** A NaN anywhere. *)
Lemma combine_nan a b : length a = length b -> In B754_nan a \/ In B754_nan b -> In B754_nan (fdiffs a b).
Proof.
  revert b. induction a as [|x a IH]; intros [|y b] L [I|I]; try discriminate L; try destruct I; unfold fdiffs; cbn [combine map fst snd]; injection L as L; subst.
  - left. reflexivity.
  - right. apply IH; auto.
  - left. destruct x as [s|[|]| |s m e b']; reflexivity.
  - right. apply IH; auto.
Qed.
Lemma approx_nan a b r : fis_approx a b r -> length a = length b -> In B754_nan a \/ In B754_nan b -> r = false.
Proof. intros (d & x & y & SD & _ & _ & ->) L N. fold (fdiffs a b) in SD. rewrite (squares_nan _ _ SD (combine_nan a b L N)). apply fle_nan_l. Qed.
(** Very long ones. *)
Lemma square_big x : finite x -> 2 ^ 512 <= Rabs (val x) -> fabs2 x = B754_infinity false.
Proof.
  intros F B. pose proof (pow_lt 2 512 ltac:(lra)) as P. assert (S : 2 ^ 1024 <= val x * val x).
  { change 1024%nat with (512 + 512)%nat. rewrite pow_add. rewrite <- (Rabs_right (val x * val x)) by nra. rewrite Rabs_mult. apply Rmult_le_compat; lra. }
  assert (O : 2 ^ 1024 <= Rabs (rd (val x * val x))).
  { rewrite <- bpow_1024 in *. rewrite Rabs_right; [|apply Rle_ge, rd_ge0; nra]. rewrite <- (rd_id (bpow radix2 1024)); [apply rd_le, S|apply generic_format_bpow; unfold FLT_exp; lia]. }
  pose proof (Bmult_correct 53 1024 prec_pos prec_emax mode_NE x x) as C. rewrite Rlt_bool_false in C by (rewrite <- bpow_1024 in O; exact O).
  unfold fabs2. change (B2SF (fmul x x) = SpecFloat.S754_infinity (xorb (Bsign x) (Bsign x))) in C. rewrite Bool.xorb_nilpotent in C. destruct (fmul x x); try discriminate C. injection C as ->. reflexivity.
Qed.
Lemma squares_big l s : fsum_of (map fabs2 l) s -> Forall finite l -> Exists (fun x => 2 ^ 512 <= Rabs (val x)) l -> s = B754_infinity false.
Proof.
  intros S F X. pose proof (squares_length l s S (finite_no_nan l F)) as [N P]. destruct (squares_lengths l) as [A B].
  assert (A' : Forall a_length (map fabs2 l)).
  { apply Forall_forall. intros z I. rewrite Forall_forall in A. destruct (A z I) as [->|K]; [|exact K]. exfalso. apply (finite_no_nan l F), B, I. }
  destruct (sum_lengths _ _ S A') as [_ M]. rewrite Forall_forall in M. apply Exists_exists in X. destruct X as (x & I & X). rewrite Forall_forall in F.
  specialize (M (fabs2 x) (in_map _ _ _ I)). rewrite (square_big x (F x I) X) in M. destruct (place_cases s N P) as [FS|E]; [|exact E]. exfalso. rewrite (place_finite s FS) in M. cbn in M. pose proof (val_bound s) as V. apply Rabs_def2 in V. lra.
Qed.
Lemma sub_no_nan x y : finite x -> finite y -> fsub x y <> B754_nan.
Proof.
  intros X Y E. pose proof (Bminus_correct 53 1024 prec_pos prec_emax mode_NE x y X Y) as C. change (Bminus mode_NE x y) with (fsub x y) in C. rewrite E in C.
  destruct (Rlt_bool _ _) in C; [destruct C as (_ & C & _); discriminate C|]. destruct C as [C _]. unfold binary_overflow in C. cbn in C. discriminate C.
Qed.
Lemma diffs_no_nan a b : Forall finite a -> Forall finite b -> ~ In B754_nan (fdiffs a b).
Proof.
  intros A B I. unfold fdiffs in I. apply in_map_iff in I. destruct I as ((x & y) & E & I). cbn [fst snd] in E. rewrite Forall_forall in A, B.
  apply (sub_no_nan x y); [apply A, (in_combine_l _ _ _ _ I)|apply B, (in_combine_r _ _ _ _ I)|exact E].
Qed.
Lemma approx_huge a b r : fis_approx a b r -> Forall finite a -> Forall finite b ->
  Exists (fun x => 2 ^ 512 <= Rabs (val x)) a -> Exists (fun x => 2 ^ 512 <= Rabs (val x)) b -> r = true.
Proof.
  intros (d & x & y & SD & SX & SY & ->) A B XA XB. fold (fdiffs a b) in SD. rewrite (squares_big _ _ SX A XA), (squares_big _ _ SY B XB).
  assert (fmini (B754_infinity false) (B754_infinity false) = B754_infinity false) as -> by reflexivity. 
  assert (I : a_length (B754_infinity false)) by (split; [intro K; discriminate K|cbn; pose proof pow_1024_pos; lra]).
  destruct (scaled_length _ I) as [_ E]. rewrite (E eq_refl). destruct (squares_length _ _ SD (diffs_no_nan a b A B)) as [N P].
  apply fle_place; [exact N|discriminate|]. cbn [place]. apply place_bound.
Qed.
(** Very close ones. *)
Lemma approx_near a b r : fis_approx a b r -> Forall finite a -> Forall finite b -> Forall (fun x => Rabs x <= / 2 ^ 538) (diffs (map val a) (map val b)) -> r = true.
Proof.
  intros A FA FB D. apply (approx_same a b r A); try (apply finite_no_nan; assumption). clear A. revert b FB D.
  induction FA as [|x a F _ IH]; intros [|y b] FB D; try constructor; inversion FB as [|? ? FY FB']; subst; cbn [map] in D; rewrite diffs_cons in D; inversion D as [|? ? DX DL]; subst.
  - cbn [fst snd]. assert (P : 0 < / 2 ^ 538) by (apply Rinv_0_lt_compat, pow_lt; lra). assert (P1 : / 2 ^ 538 <= 1) by (rewrite <- Rinv_1; apply Rinv_le_contravar; [lra|apply pow_R1_Rle; lra]).
    destruct (fsub_val x y F FY) as [FS VS]; [apply no_overflow; pose proof (proj2 big_1000); lra|]. set (z := val x - val y) in *.
    assert (E : Rabs (rd z) <= / 2 ^ 538).
    { rewrite <- rd_abs. rewrite <- (rd_id (/ 2 ^ 538)); [apply rd_le, DX|]. rewrite <- (bpow_pow 538), <- bpow_opp. apply generic_format_bpow. unfold FLT_exp. lia. }
    assert (Q : rd z * rd z <= h).
    { rewrite <- (Rabs_right (rd z * rd z)) by nra. rewrite Rabs_mult. apply Rle_trans with (/ 2 ^ 538 * / 2 ^ 538); [apply Rmult_le_compat; try apply Rabs_pos; assumption|].
      rewrite <- (bpow_pow 538), <- bpow_opp, <- bpow_plus. unfold h. apply bpow_le. lia. }
    destruct (fmul_val _ _ FS FS) as [FM VM]; [rewrite VS; apply no_overflow; rewrite Rabs_right by nra; pose proof h_1; pose proof (proj2 big_1000); lra|].
    split; [exact FM|]. unfold fabs2. rewrite VM, VS. apply rd_tiny. nra.
  - apply IH; assumption.
Qed.
Lemma approx_some a b : exists r, fis_approx a b r.
Proof.
  destruct (sum_exists (map fabs2 (fdiffs a b))) as [d D]. destruct (sum_exists (map fabs2 a)) as [x X]. destruct (sum_exists (map fabs2 b)) as [y Y]. eexists. exists d, x, y. split; [exact D|]. split; [exact X|]. split; [exact Y|reflexivity].
Qed.
