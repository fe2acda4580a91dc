(** Brackets in double precision: what is exact about them. *)
From Coq Require Import Reals Lra Lia List.
From Flocq Require Import Core BinarySingleNaN.
From Verif Require Import Cpp FloatModel FloatSpec FloatProofs NrmSpec NrmProofs Vec DriftModel DriftSpec DriftProofs LenModel LenSpec LenProofs SpinModel SpinProofs SpinProofs3 TwistModel FpsModel FmjModel FmjProofs2 FstModel FapModel FapProofs FapProofs2 AdjModel AdjSpec.
Import ListNotations.
Local Open Scope R_scope.

(** ** Values up to the sign of zero *)
Lemma zero_cases (x : f64) : finite x -> val x = 0 -> exists s, x = B754_zero s.
Proof.
  destruct x as [s|s| |s m e b]; intros F V; try discriminate F; [exists s; reflexivity|]. exfalso. unfold val, B2R in V. apply eq_0_F2R in V. destruct s; discriminate V.
Qed.
Lemma alike_cases x y : alike x y -> x = y \/ exists s t, x = B754_zero s /\ y = B754_zero t.
Proof.
  intros [E|(X & Y & V)]; [left; exact E|]. destruct (Req_dec (val x) 0) as [Z|Z].
  - right. destruct (zero_cases x X Z) as [s ->]. rewrite V in Z. destruct (zero_cases y Y Z) as [t ->]. exists s, t. auto.
  - left. apply finite_same; auto. pose proof (sign_val x X) as A. pose proof (sign_val y Y) as B. destruct (Bsign x), (Bsign y); try reflexivity; exfalso; lra.
Qed.
Lemma alike_zero s t : alike (B754_zero s) (B754_zero t). Proof. right. repeat split. Qed.
Lemma alike_refl x : alike x x. Proof. left. reflexivity. Qed.
Lemma alike_sym x y : alike x y -> alike y x.
Proof. intros [->|(A & B & C)]; [left; reflexivity|right; auto]. Qed.
Lemma alike_trans x y z : alike x y -> alike y z -> alike x z.
Proof. intros [->|(A & B & C)] [->|(A' & B' & C')]; try (left; reflexivity); try (right; auto; fail). right. split; [exact A|]. split; [exact B'|]. congruence. Qed.
Lemma alike_nonzero x y : alike x y -> finite x -> finite y /\ val x = val y.
Proof. intros [->|(A & B & C)] F; auto. Qed.
Lemma add_zero_l s y : alike (fadd (B754_zero s) y) y.
Proof. destruct y as [t|t| |t m e b]; try (left; reflexivity). destruct s, t; apply alike_zero. Qed.
Lemma add_zero_r s x : alike (fadd x (B754_zero s)) x.
Proof. destruct x as [t|t| |t m e b]; try (left; reflexivity). destruct s, t; apply alike_zero. Qed.
Lemma alike_add x x' y y' : alike x x' -> alike y y' -> alike (fadd x y) (fadd x' y').
Proof.
  intros X Y. destruct (alike_cases x x' X) as [->|(s & t & -> & ->)], (alike_cases y y' Y) as [->|(s' & t' & -> & ->)].
  - apply alike_refl.
  - eapply alike_trans; [apply add_zero_r|]. apply alike_sym, add_zero_r.
  - eapply alike_trans; [apply add_zero_l|]. apply alike_sym, add_zero_l.
  - destruct s, t, s', t'; apply alike_zero.
Qed.
Lemma alike_neg x y : alike x y -> alike (fneg x) (fneg y).
Proof. intros [->|(A & B & C)]; [left; reflexivity|right]. unfold finite in *. rewrite !fneg_finite, !fneg_val. repeat split; auto. lra. Qed.
Lemma add_overflows x y : finite x -> finite y -> overflows (val x + val y) -> val x <> 0.
Proof.
  intros X Y O V. unfold overflows in O. rewrite V, Rplus_0_l, (rd_id _ (val_fmt y)) in O. pose proof (val_bound y). lra.
Qed.
Lemma neg_add x y : alike (fneg (fadd x y)) (fadd (fneg x) (fneg y)).
Proof.
  destruct (is_finite x) eqn:X; [destruct (is_finite y) eqn:Y|].
  - destruct (Rle_lt_dec (2 ^ 1024) (Rabs (rd (val x + val y)))) as [O|O].
    + destruct (overflow_sum x y X Y O) as [-> S]. destruct (overflow_sum (fneg x) (fneg y)) as [-> _].
      * unfold finite. rewrite fneg_finite. exact X.
      * unfold finite. rewrite fneg_finite. exact Y.
      * unfold overflows. rewrite !fneg_val. replace (- val x + - val y) with (- (val x + val y)) by ring. unfold rd. rewrite round_opp_NE, Rabs_Ropp. exact O.
      * left. destruct x; cbn in *; try discriminate X; reflexivity.
    + destruct (fadd_val x y X Y) as [F V]; [unfold overflows; lra|].
      assert (O' : ~ overflows (val (fneg x) + val (fneg y))). { unfold overflows. rewrite !fneg_val. replace (- val x + - val y) with (- (val x + val y)) by ring. unfold rd. rewrite round_opp_NE, Rabs_Ropp. unfold rd in O. lra. }
      destruct (fadd_val (fneg x) (fneg y)) as [F' V']; [unfold finite; rewrite fneg_finite; exact X|unfold finite; rewrite fneg_finite; exact Y|exact O'|].
      right. unfold finite. rewrite fneg_finite. split; [exact F|]. split; [exact F'|]. rewrite fneg_val, V, V', !fneg_val. replace (- val x + - val y) with (- (val x + val y)) by ring. unfold rd. rewrite round_opp_NE. reflexivity.
  - left. destruct x as [s|[|]| |s m e b], y as [t|[|]| |t n f c]; try discriminate X; try discriminate Y; reflexivity.
  - left. destruct x as [s|[|]| |s m e b], y as [t|[|]| |t n f c]; try discriminate X; reflexivity.
Qed.
Lemma add_comm x y : alike (fadd x y) (fadd y x).
Proof.
  destruct (is_finite x) eqn:X; [destruct (is_finite y) eqn:Y|].
  - destruct (Rle_lt_dec (2 ^ 1024) (Rabs (rd (val x + val y)))) as [O|O].
    + destruct (overflow_sum x y X Y O) as [-> S]. destruct (overflow_sum y x Y X) as [-> _]; [unfold overflows; rewrite Rplus_comm; exact O|]. rewrite S. left. reflexivity.
    + destruct (fadd_val x y X Y) as [F V]; [unfold overflows; lra|]. destruct (fadd_val y x Y X) as [F' V']; [unfold overflows; rewrite Rplus_comm; lra|]. right. rewrite V, V', Rplus_comm. auto.
  - left. destruct x as [s|[|]| |s m e b], y as [t|[|]| |t n f c]; try discriminate X; try discriminate Y; reflexivity.
  - left. destruct x as [s|[|]| |s m e b], y as [t|[|]| |t n f c]; try discriminate X; reflexivity.
Qed.
Lemma opposite_alike x y : opposite x y <-> alike x (fneg y).
Proof.
  split.
  - intros [(-> & ->)|[(s & -> & ->)|(X & Y & V)]]; [left; reflexivity|left; destruct s; reflexivity|]. right. unfold finite in *. rewrite fneg_finite, fneg_val. auto.
  - intros [->|(X & Y & V)].
    + destruct y as [s|s| |s m e b].
      * right. right. repeat split. cbn. lra.
      * right. left. exists (negb s). rewrite Bool.negb_involutive. split; reflexivity.
      * left. split; reflexivity.
      * right. right. split; [reflexivity|]. split; [reflexivity|]. apply fneg_val.
    + right. right. unfold finite in *. rewrite fneg_finite in Y. rewrite fneg_val in V. auto.
Qed.

(** ** Antisymmetry *)
Lemma sub_opposite p q : opposite (fsub p q) (fsub q p).
Proof.
  apply opposite_alike. rewrite <- !fadd_neg. eapply alike_trans; [|apply alike_sym, neg_add]. rewrite fneg_fneg. apply add_comm.
Qed.
Lemma add_opposite p q p' q' : opposite p p' -> opposite q q' -> opposite (fadd p q) (fadd p' q').
Proof. rewrite !opposite_alike. intros P Q. eapply alike_trans; [|apply alike_sym, neg_add]. apply alike_add; assumption. Qed.
Lemma opposite_swap p q p' q' : opposite p p' -> opposite q q' -> opposite (fadd p q) (fadd q' p').
Proof. intros P Q. apply opposite_alike. eapply alike_trans; [apply opposite_alike, (add_opposite _ _ _ _ P Q)|]. apply alike_neg, add_comm. Qed.
Lemma cross_opposite a b : vboth opposite (fcross a b) (fcross b a).
Proof.
  unfold vboth, fcross. cbn [fx fy fz]. rewrite (fmul_comm (fy b)), (fmul_comm (fz b) (fy a)), (fmul_comm (fz b) (fx a)), (fmul_comm (fx b) (fz a)), (fmul_comm (fx b) (fy a)), (fmul_comm (fy b)).
  repeat split; apply sub_opposite.
Qed.
Lemma bracket_opposite a b : tboth opposite (flie_bracket a b) (flie_bracket b a).
Proof.
  unfold tboth, flie_bracket. cbn [frot_part ftrans_part]. split; [apply cross_opposite|]. unfold vboth, fvadd. cbn [fx fy fz].
  destruct (cross_opposite (ftrans_part a) (frot_part b)) as (X & Y & Z), (cross_opposite (frot_part a) (ftrans_part b)) as (X' & Y' & Z').
  repeat split; apply opposite_swap; assumption.
Qed.

(** ** The check *)
Lemma test_tolerance_val : finite test_tolerance /\ finite (fmul (fabs (of_int 1)) test_tolerance) /\ 99 / 10 ^ 11 <= val (fmul (fabs (of_int 1)) test_tolerance).
Proof.
  destruct (of_small 1) as [F1 V1]; [cbn; lia|]. destruct (of_small (10 ^ 9)) as [F9 V9]; [cbn; lia|].
  assert (E : forall x, 0 <= x <= 1 -> Rabs (rd x - x) <= / 1000000 * x + h).
  { intros x X. pose proof (rd_any x) as R. rewrite (Rabs_right x) in R by lra. pose proof u_num as U. rewrite U in R. eapply Rle_trans; [exact R|]. lra. }
  pose proof h_tiny' as H.
  assert (V9' : val (of_int (10 ^ 9)) = 1000000000) by (rewrite V9; reflexivity).
  destruct (fdiv_val (of_int 1) (of_int (10 ^ 9)) F1) as [F V].
  - rewrite V9'. lra.
  - apply no_overflow. rewrite V1, V9'. destruct big_1000. apply Rabs_le. lra.
  - rewrite V1, V9' in V. change (fdivide (of_int 1) (of_int (10 ^ 9))) with test_tolerance in *.
    pose proof (E (1 / 1000000000) ltac:(lra)) as B. rewrite <- V in B. apply Rabs_le_inv in B.
    assert (H' : h <= / 10 ^ 20) by (eapply Rle_trans; [exact H|]; apply Rinv_le_contravar; [apply pow_lt; lra|apply Rle_pow; [lra|lia]]).
    assert (A : finite (fabs (of_int 1)) /\ val (fabs (of_int 1)) = 1).
    { split; [unfold finite, fabs; rewrite is_finite_Babs; exact F1|]. unfold val, fabs. rewrite B2R_Babs. change (B2R (of_int 1)) with (val (of_int 1)). rewrite V1. apply Rabs_right. lra. }
    destruct A as [FA VA]. destruct (fmul_val (fabs (of_int 1)) test_tolerance FA F) as [F' V'].
    + apply no_overflow. rewrite VA. destruct big_1000. apply Rabs_le. lra.
    + split; [exact F|]. split; [exact F'|]. rewrite V', VA, Rmult_1_l, (rd_id _ (val_fmt _)). lra.
Qed.
Lemma abs_le_tolerance x : finite x -> Rabs (val x) <= 99 / 10 ^ 11 -> fle (fabs x) (fmul (fabs (of_int 1)) test_tolerance) = true.
Proof.
  intros F B. destruct test_tolerance_val as (_ & F' & L). apply fle_val; [unfold finite, fabs; rewrite is_finite_Babs; exact F|exact F'|].
  unfold val at 1, fabs at 1. rewrite B2R_Babs. change (B2R x) with (val x). lra.
Qed.
Lemma abs_le_finite x : fle (fabs x) (fmul (fabs (of_int 1)) test_tolerance) = true -> finite x.
Proof.
  destruct test_tolerance_val as (_ & F' & _). destruct x as [s|s| |s m e b]; try reflexivity; intro H; exfalso.
  - change (fabs (B754_infinity s)) with (B754_infinity false : f64) in H. destruct (fmul (fabs (of_int 1)) test_tolerance) as [t|t| |t m e b]; try discriminate F'; discriminate H.
  - cbn in H. discriminate H.
Qed.
Lemma is_zero_true l : Forall (fun x => finite x /\ Rabs (val x) <= 99 / 10 ^ 11) l -> fis_zero l test_tolerance = true.
Proof. intro F. apply forallb_forall. intros x I. rewrite Forall_forall in F. destruct (F x I) as [A B]. apply abs_le_tolerance; assumption. Qed.
Lemma is_zero_finite l : fis_zero l test_tolerance = true -> Forall finite l.
Proof. intro F. apply Forall_forall. intros x I. unfold fis_zero in F. rewrite forallb_forall in F. apply abs_le_finite, F, I. Qed.
Lemma add_opposites x y : opposite x y -> (finite (fadd x y) <-> finite x) /\ (finite x -> val (fadd x y) = 0).
Proof.
  intros [(-> & ->)|[(s & -> & ->)|(X & Y & V)]].
  - split; [split; intro F; exact F|intro F; discriminate F].
  - destruct s; (split; [split; intro F; discriminate F|intro F; discriminate F]).
  - destruct (fadd_val x y X Y) as [F E]; [apply no_overflow; rewrite V; destruct big_1000; replace (- val y + val y) with 0 by ring; rewrite Rabs_R0; lra|].
    rewrite V in E. replace (- val y + val y) with 0 in E by ring. rewrite rd_0 in E. tauto.
Qed.
Lemma forall3 (P : f64 -> Prop) x y z : Forall P [x; y; z] -> P x /\ P y /\ P z.
Proof. intro H. rewrite !Forall_cons_iff in H. tauto. Qed.
Lemma forall6 (P : f64 -> Prop) x y z x' y' z' : Forall P [x; y; z; x'; y'; z'] -> (P x /\ P y /\ P z) /\ P x' /\ P y' /\ P z'.
Proof. intro H. rewrite !Forall_cons_iff in H. tauto. Qed.
Lemma zero_small : Rabs 0 <= 99 / 10 ^ 11. Proof. rewrite Rabs_R0. lra. Qed.
Lemma so3_check a b : so3_anticommutes a b = true <-> vfinite (fcross a b).
Proof.
  unfold so3_anticommutes. destruct (cross_opposite a b) as (X & Y & Z). destruct (add_opposites _ _ X) as [PX VX], (add_opposites _ _ Y) as [PY VY], (add_opposites _ _ Z) as [PZ VZ]. split.
  - intro H. apply is_zero_finite, forall3 in H. destruct H as (A & B & C). exact (conj (proj1 PX A) (conj (proj1 PY B) (proj1 PZ C))).
  - intros (FX & FY & FZ). apply is_zero_true. unfold fcoords, fvadd. cbn [fx fy fz]. repeat (apply Forall_cons; [split; [tauto|rewrite ?VX, ?VY, ?VZ by assumption; apply zero_small]|]). apply Forall_nil.
Qed.
Lemma se3_check a b : se3_anticommutes a b = true <-> tfinite (flie_bracket a b).
Proof.
  unfold se3_anticommutes. destruct (bracket_opposite a b) as ((X & Y & Z) & (X' & Y' & Z')).
  destruct (add_opposites _ _ X) as [PX VX], (add_opposites _ _ Y) as [PY VY], (add_opposites _ _ Z) as [PZ VZ], (add_opposites _ _ X') as [PX' VX'], (add_opposites _ _ Y') as [PY' VY'], (add_opposites _ _ Z') as [PZ' VZ']. split.
  - intro H. apply is_zero_finite in H. unfold ftcoords, ftadd, fcoords, fvadd in H. cbn [frot_part ftrans_part fx fy fz app] in H. apply forall6 in H. destruct H as ((A & B & C) & A' & B' & C').
    exact (conj (conj (proj1 PX A) (conj (proj1 PY B) (proj1 PZ C))) (conj (proj1 PX' A') (conj (proj1 PY' B') (proj1 PZ' C')))).
  - intros ((FX & FY & FZ) & (FX' & FY' & FZ')). apply is_zero_true. unfold ftcoords, ftadd, fcoords, fvadd. cbn [frot_part ftrans_part fx fy fz app].
    repeat (apply Forall_cons; [split; [tauto|rewrite ?VX, ?VY, ?VZ, ?VX', ?VY', ?VZ' by assumption; apply zero_small]|]). apply Forall_nil.
Qed.

(** ** The bracket of one with itself *)
Lemma opposite_self x : opposite x x -> x = B754_nan \/ (finite x /\ val x = 0).
Proof.
  intros [(-> & _)|[(s & -> & E)|(F & _ & V)]]; [left; reflexivity| |right; split; [exact F|lra]]. exfalso. injection E as E. destruct s; discriminate E.
Qed.
Lemma small_product x y b : finite x -> finite y -> Rabs (val x) <= b -> Rabs (val y) <= b -> 0 <= b <= 2 ^ 490 -> finite (fmul x y) /\ Rabs (val (fmul x y)) <= 2 ^ 982.
Proof.
  intros X Y A B (L & U). assert (P : Rabs (val x * val y) <= 2 ^ 980). { rewrite Rabs_mult. change 980%nat with (490 + 490)%nat. rewrite pow_add. apply Rmult_le_compat; try apply Rabs_pos; lra. }
  assert (Q : 2 ^ 982 = 4 * 2 ^ 980) by (change 982%nat with (2 + 980)%nat; rewrite pow_add; lra). assert (K : 2 ^ 980 <= 2 ^ 1000) by (apply Rle_pow; [lra|lia]). assert (O : 1 <= 2 ^ 980) by (apply pow_R1_Rle; lra).
  destruct (fmul_val x y X Y) as [F V]; [apply no_overflow; destruct big_1000; lra|]. split; [exact F|]. rewrite V. pose proof (rd_any (val x * val y)) as R. pose proof u_small. pose proof h_1. pose proof u_pos. pose proof (Rabs_pos (val x * val y)).
  pose proof (Rabs_triang_inv (rd (val x * val y)) (val x * val y)). assert (Rabs (val x * val y) * u <= Rabs (val x * val y) * 1) by (apply Rmult_le_compat_l; lra). rewrite Q. lra.
Qed.
Lemma small_sub x y k : finite x -> finite y -> Rabs (val x) <= 2 ^ k -> Rabs (val y) <= 2 ^ k -> (k <= 997)%nat -> finite (fsub x y) /\ Rabs (val (fsub x y)) <= 2 ^ (k + 2).
Proof.
  intros X Y A B L. assert (P : Rabs (val x - val y) <= 2 * 2 ^ k) by (unfold Rminus; pose proof (Rabs_triang (val x) (- val y)) as T; rewrite Rabs_Ropp in T; lra).
  assert (K : 2 ^ k <= 2 ^ 997) by (apply Rle_pow; [lra|lia]). assert (Q : 2 ^ 1000 = 8 * 2 ^ 997) by (change 1000%nat with (3 + 997)%nat; rewrite pow_add; lra). assert (O : 1 <= 2 ^ k) by (apply pow_R1_Rle; lra).
  destruct (fsub_val x y X Y) as [F V]; [apply no_overflow; destruct big_1000; lra|]. split; [exact F|]. rewrite V, pow_add. pose proof (rd_any (val x - val y)) as R. pose proof u_small. pose proof h_1. pose proof u_pos. pose proof (Rabs_pos (val x - val y)).
  pose proof (Rabs_triang_inv (rd (val x - val y)) (val x - val y)). assert (Rabs (val x - val y) * u <= Rabs (val x - val y) * (/ 4)) by (apply Rmult_le_compat_l; lra). lra.
Qed.
Lemma small_cross a b : vfinite a -> vfinite b -> vwithin (2 ^ 490) a -> vwithin (2 ^ 490) b -> vfinite (fcross a b) /\ vwithin (2 ^ 984) (fcross a b).
Proof.
  intros (X & Y & Z) (X' & Y' & Z') (x & y & z) (x' & y' & z'). assert (P : 0 <= 2 ^ 490 <= 2 ^ 490) by (split; [apply pow_le; lra|lra]).
  assert (G : forall p q r s, finite p -> finite q -> finite r -> finite s -> Rabs (val p) <= 2 ^ 490 -> Rabs (val q) <= 2 ^ 490 -> Rabs (val r) <= 2 ^ 490 -> Rabs (val s) <= 2 ^ 490 ->
    finite (fsub (fmul p q) (fmul r s)) /\ Rabs (val (fsub (fmul p q) (fmul r s))) <= 2 ^ 984).
  { intros p q r s ? ? ? ? ? ? ? ?. destruct (small_product p q (2 ^ 490)), (small_product r s (2 ^ 490)); auto. apply (small_sub _ _ 982); auto. lia. }
  unfold vfinite, vwithin, fcross. cbn [fx fy fz]. destruct (G (fy a) (fz b) (fz a) (fy b)), (G (fz a) (fx b) (fx a) (fz b)), (G (fx a) (fy b) (fy a) (fx b)); auto 20.
Qed.
Lemma small_bracket a b : tfinite a -> tfinite b -> twithin (2 ^ 490) a -> twithin (2 ^ 490) b -> tfinite (flie_bracket a b).
Proof.
  intros (A & A') (B & B') (C & C') (D & D'). unfold tfinite, flie_bracket. cbn [frot_part ftrans_part].
  destruct (small_cross _ _ A B C D), (small_cross _ _ A' B C' D) as ((X & Y & Z) & (x & y & z)), (small_cross _ _ A B' C D') as ((X' & Y' & Z') & (x' & y' & z')).
  split; [assumption|]. unfold vfinite, fvadd. cbn [fx fy fz].
  assert (G : forall p q, finite p -> finite q -> Rabs (val p) <= 2 ^ 984 -> Rabs (val q) <= 2 ^ 984 -> finite (fadd p q)).
  { intros p q P Q p' q'. rewrite <- fsub_neg. apply (small_sub _ _ 984); auto; [unfold finite; rewrite fneg_finite; exact Q|rewrite fneg_val, Rabs_Ropp; exact q'|lia]. }
  repeat split; apply G; assumption.
Qed.
