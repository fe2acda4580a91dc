(** C89: how large the test elements are. *)
From Coq Require Import Reals ZArith Lia Lra List Psatz.
From Flocq Require Import Core BinarySingleNaN.
From Verif Require Import Cpp FloatModel FloatSpec FloatProofs NrmSpec Vec DriftModel DriftSpec DriftProofs DriftProofs2 SpinModel SpinProofs SpinProofs3 TwistModel FtsModel FpsModel SlogProofs2 CoeffProofs FapProofs AdjSpec TvModel TvSpec TvProofs.
Import ListNotations.
Local Open Scope R_scope.

Lemma big_4 : 4 <= 2 ^ 1000.
Proof. replace 4 with (2 ^ 2) by ring. apply Rle_pow; [lra|]. apply Nat.leb_le. reflexivity. Qed.
Lemma h_12 : 0 < h <= / 1000000000000.
Proof. split; [apply h_pos|]. apply Rle_trans with (1 := h_tiny'). apply Rinv_le_contravar; lra. Qed.
Lemma any_ratio p q : (0 < p <= 2 ^ 53)%Z -> (0 < q <= 2 ^ 53)%Z -> IZR p / IZR q <= 4 -> finite (fratio p q) /\ Rabs (val (fratio p q) - IZR p / IZR q) <= u * (IZR p / IZR q) + h.
Proof.
  intros P Q B. destruct (of_small p) as [Fp Vp]; [lia|]. destruct (of_small q) as [Fq Vq]; [lia|]. assert (P0 : 0 < IZR p) by (apply IZR_lt; lia). assert (Q0 : 0 < IZR q) by (apply IZR_lt; lia).
  assert (R0 : 0 < IZR p / IZR q) by (apply Rdiv_lt_0_compat; assumption). pose proof big_4.
  destruct (div_error (of_int p) (of_int q) Fp) as [F E]; [rewrite Vq; lra|rewrite Vp, Vq, Rabs_right; lra|]. rewrite Vp, Vq, (Rabs_right (IZR p / IZR q)) in E by lra. split; [exact F|exact E].
Qed.
Lemma large_rotation : finite test_large_rotation /\ 180807 / 100000 <= val test_large_rotation <= 180809 / 100000.
Proof.
  pose proof h_12 as H0. pose proof big_4 as B4. pose proof (proj2 big_1000) as B1.
  destruct (any_ratio 884279719003555 (2 ^ 48)) as [FP EP]; [lia|lia|change (IZR (2 ^ 48)) with 281474976710656; lra|]. change (IZR (2 ^ 48)) with 281474976710656 in EP.
  destruct (any_ratio 1 100) as [F1 E1]; [lia|lia|lra|]. destruct (any_ratio 1732 1000) as [F2 E2]; [lia|lia|lra|]. fold fm_pi in FP, EP. unfold test_large_rotation. rewrite u_num in *.
  set (p := fm_pi) in *. set (a := fratio 1 100) in *. set (b := fratio 1732 1000) in *. clearbody p a b. apply Rabs_le_inv in EP, E1, E2.
  destruct (sub_error p a FP F1) as [FS ES]; [rewrite Rabs_right; lra|]. rewrite (Rabs_right (val p - val a)) in ES by lra. apply Rabs_le_inv in ES. rewrite u_num in ES. set (s := fsub p a) in *. clearbody s.
  assert (Q : 1808078 / 1000000 <= val s / val b <= 1808080 / 1000000).
  { split; [apply Rmult_le_reg_r with (val b)|apply Rmult_le_reg_r with (val b)]; try lra; unfold Rdiv; rewrite (Rmult_assoc (val s)), Rinv_l by lra; lra. }
  destruct (div_error s b FS) as [F E]; [lra|rewrite Rabs_right; lra|]. rewrite (Rabs_right (val s / val b)) in E by lra. apply Rabs_le_inv in E. rewrite u_num in E. split; [exact F|lra].
Qed.
Lemma tiny_val : finite test_tiny /\ 0 <= val test_tiny <= 1000002 / 1000000000000.
Proof. destruct (any_ratio 1 1000000) as [F E]; [lia|lia|lra|]. fold test_tiny in F, E. split; [exact F|]. apply Rabs_le_inv in E. pose proof h_12. rewrite u_num in E. lra. Qed.
Lemma large_val : finite test_large /\ val test_large = 1000000.
Proof. apply of_small. lia. Qed.
Lemma nth_uniform {S} (draw : source S) : uniform draw -> forall i s, finite (nth_draw draw s i) /\ -1 <= val (nth_draw draw s i) <= 1.
Proof. intros U i. induction i as [|i IH]; intro s; cbn [nth_draw]; [apply U|apply IH]. Qed.
Lemma drawn3_bound {S} (draw : source S) s i : uniform draw -> vfinite (drawn3 draw s i) /\ vwithin 1 (drawn3 draw s i).
Proof.
  intro U. pose proof (nth_uniform draw U) as N. unfold drawn3, vfinite, vwithin. cbn [fx fy fz]. split; [repeat split; apply N|]. repeat split; apply Rabs_le; pose proof (proj2 (N i s)); pose proof (proj2 (N (i + 1)%nat s)); pose proof (proj2 (N (i + 2)%nat s)); lra.
Qed.
Lemma scaled_entry k x c : finite k -> finite x -> 0 <= val k <= c -> c <= 1000000 -> Rabs (val x) <= 1 -> finite (fmul k x) /\ Rabs (val k * val x) <= c /\ val (fmul k x) = rd (val k * val x).
Proof.
  intros K X C B R. assert (E : Rabs (val k * val x) <= c) by (rewrite Rabs_mult, (Rabs_right (val k)) by lra; pose proof (Rabs_pos (val x)); nra).
  assert (M : 1000000 <= 2 ^ 1000 * 8) by (replace (2 ^ 1000) with (2 ^ 20 * 2 ^ 980) by (rewrite <- pow_add; reflexivity); assert (1 <= 2 ^ 980) by (apply pow_R1_Rle; lra); generalize dependent (2 ^ 980); intros; lra).
  destruct (fmul_val k x K X) as [F V]; [apply no_overflow; lra|]. auto.
Qed.
Lemma tiny_scaled v : vfinite v -> vwithin 1 v -> vfinite (fscale test_tiny v) /\ vwithin (/ 100000) (fscale test_tiny v).
Proof.
  intros (A & B & C) (X & Y & Z). destruct tiny_val as [T N]. pose proof h_12.
  assert (W : forall x, finite x -> Rabs (val x) <= 1 -> finite (fmul test_tiny x) /\ Rabs (val (fmul test_tiny x)) <= / 100000).
  { intros x F L. destruct (scaled_entry test_tiny x (1000002 / 1000000000000) T F N ltac:(lra) L) as (G & K & V). split; [exact G|]. rewrite V. pose proof (rd_any (val test_tiny * val x)) as E. apply Rabs_le_inv in E, K. apply Rabs_le. assert (R : Rabs (val test_tiny * val x) <= 1000002 / 1000000000000) by (apply Rabs_le; exact K). rewrite u_num in E. lra. }
  unfold fscale, vfinite, vwithin. cbn [fx fy fz]. repeat split; apply W; assumption.
Qed.
Lemma large_scaled v : vfinite v -> vwithin 1 v -> vfinite (fscale test_large v) /\ vwithin 1000000 (fscale test_large v).
Proof.
  intros (A & B & C) (X & Y & Z). destruct large_val as [T N].
  assert (W : forall x, finite x -> Rabs (val x) <= 1 -> finite (fmul test_large x) /\ Rabs (val (fmul test_large x)) <= 1000000).
  { intros x F L. destruct (scaled_entry test_large x 1000000 T F ltac:(lra) ltac:(lra) L) as (G & K & V). split; [exact G|]. rewrite V. apply rd_le_int; [lia|exact K]. }
  unfold fscale, vfinite, vwithin. cbn [fx fy fz]. repeat split; apply W; assumption.
Qed.
Lemma within_norm b k v : 0 <= k -> vwithin b v -> 3 * (b * b) <= k * k -> norm (vval v) <= k.
Proof.
  intros K (X & Y & Z) B. apply norm_le_sqr; [exact K|]. unfold norm2, dot, vval. cbn [vx vy vz]. assert (S : forall x, Rabs x <= b -> x * x <= b * b) by (intros x H; pose proof (Rabs_pos x); apply Rabs_le_inv in H; nra).
  pose proof (S _ X). pose proof (S _ Y). pose proof (S _ Z). lra.
Qed.

(** ** All elements *)
Lemma ones_bound k : (Z.abs k <= 1)%Z -> vfinite (thrice (of_int k)) /\ vwithin 1 (thrice (of_int k)).
Proof.
  intro K. destruct (of_small k) as [F V]; [lia|]. unfold vfinite, vwithin, thrice. cbn [fx fy fz]. rewrite V, <- abs_IZR. assert (IZR (Z.abs k) <= 1) by (apply IZR_le in K; exact K). auto.
Qed.
Lemma neg_ones_bound : vfinite (thrice (fneg (of_int 1))) /\ vwithin 1 (thrice (fneg (of_int 1))).
Proof.
  destruct (of_small 1) as [F V]; [lia|]. unfold vfinite, vwithin, thrice. cbn [fx fy fz]. rewrite fneg_val, V. unfold finite. rewrite fneg_finite. rewrite Rabs_Ropp, Rabs_right by lra. assert (1 <= 1) by lra. auto.
Qed.
Lemma large_bound : let v := FV test_large_rotation test_large_rotation (fneg test_large_rotation) in
  vfinite v /\ vwithin (180809 / 100000) v /\ 31316 / 10000 <= norm (vval v) <= 31318 / 10000.
Proof.
  intro v. destruct large_rotation as [F B]. assert (W : vwithin (180809 / 100000) v) by (unfold vwithin, v; cbn [fx fy fz]; rewrite fneg_val, Rabs_Ropp, !Rabs_right by lra; lra).
  split; [|split; [exact W|]]; [unfold vfinite, v; cbn [fx fy fz]; unfold finite; rewrite fneg_finite; auto|].
  split; [|apply (within_norm (180809 / 100000) (31318 / 10000) v ltac:(lra) W); lra]. apply Rsqr_incr_0_var; [|apply norm_nonneg]. unfold Rsqr. rewrite norm_sqr. unfold norm2, dot, vval, v. cbn [vx vy vz fx fy fz]. rewrite fneg_val. nra.
Qed.
Lemma within_weaker a b v : vwithin a v -> a <= b -> vwithin b v.
Proof. unfold vwithin. intros (A & B & C) H. repeat split; lra. Qed.
Definition sound3 (v : fvec) : Prop := vfinite v /\ vwithin (180809 / 100000) v /\ norm (vval v) <= 31318 / 10000.
Lemma sound_1 v : vfinite v -> vwithin 1 v -> sound3 v.
Proof. intros F W. assert (W' : vwithin (180809 / 100000) v) by (apply (within_weaker 1); [exact W|lra]). split; [exact F|]. split; [exact W'|]. apply (within_norm (180809 / 100000) (31318 / 10000) v ltac:(lra) W'). lra. Qed.
Lemma large_sound : sound3 (FV test_large_rotation test_large_rotation (fneg test_large_rotation)).
Proof. destruct large_bound as (A & B & C). split; [exact A|]. split; [exact B|apply C]. Qed.
Lemma sound3_all {S} (draw : source S) x s count l : uniform draw -> so3_algebra_elements draw x s count = Ok l -> forall a, In a l -> sound3 a.
Proof.
  intros U E a I. apply elements3 in E. destruct E as (rest & -> & L & R). apply in_app_or in I. destruct I as [I|I].
  - cbn [In] in I. destruct I as [<-|[<-|[<-|[<-|[<-|[]]]]]].
    + apply sound_1; apply ones_bound; lia.
    + apply sound_1; apply ones_bound; lia.
    + apply sound_1; apply neg_ones_bound.
    + apply large_sound.
    + destruct (drawn3_bound draw s 0 U) as [F W]. destruct (tiny_scaled _ F W) as [F' W']. apply sound_1; [exact F'|]. apply (within_weaker _ _ _ W'). lra.
  - apply In_nth_error in I. destruct I as [j J]. assert (j < length rest)%nat by (apply nth_error_Some; rewrite J; discriminate). rewrite R in J by lia. injection J as <-. apply sound_1; apply drawn3_bound, U.
Qed.
Definition sound6 (a : ftan) : Prop := sound3 (frot_part a) /\ vfinite (ftrans_part a) /\ vwithin 1000000 (ftrans_part a).
Lemma sound6_1 v w : vfinite v -> vwithin 1 v -> vfinite w -> vwithin 1 w -> sound6 (FT v w).
Proof. intros F W G X. split; [apply sound_1; assumption|]. split; [exact G|]. apply (within_weaker _ _ _ X). lra. Qed.
Lemma small_rest {S} (draw : source S) s count rest : uniform draw -> length rest = (Z.to_nat count - 5)%nat -> (forall j, (j < Z.to_nat count - 5)%nat -> nth_error rest j = Some (drawn6 draw s (9 + 6 * j))) ->
  forall a, In a rest -> tfinite a /\ twithin 1 a.
Proof.
  intros U L R a I. apply In_nth_error in I. destruct I as [j J]. assert (j < length rest)%nat by (apply nth_error_Some; rewrite J; discriminate). rewrite R in J by lia. injection J as <-.
  destruct (drawn3_bound draw s (9 + 6 * j) U). destruct (drawn3_bound draw s (9 + 6 * j + 3) U). split; split; assumption.
Qed.
Lemma sound6_all {S} (draw : source S) x s count l : uniform draw -> se3_algebra_elements draw x s count = Ok l -> forall a, In a l -> sound6 a.
Proof.
  intros U E a I. apply elements6 in E. destruct E as (rest & -> & L & R). apply in_app_or in I. destruct I as [I|I].
  - cbn [In] in I. destruct I as [<-|[<-|[<-|[<-|[<-|[]]]]]].
    + apply sound6_1; apply ones_bound; lia.
    + apply sound6_1; apply ones_bound; lia.
    + apply sound6_1; apply neg_ones_bound.
    + destruct (drawn3_bound draw s 0 U) as [F W]. destruct (large_scaled _ F W). split; [apply large_sound|]. split; assumption.
    + destruct (drawn3_bound draw s 3 U) as [F W]. destruct (drawn3_bound draw s (3 + 3) U) as [G X]. destruct (tiny_scaled _ F W) as [F' W']. destruct (tiny_scaled _ G X) as [G' X']. apply (within_weaker _ 1) in W'; [|lra]. apply (within_weaker _ 1) in X'; [|lra]. apply sound6_1; assumption.
  - destruct (small_rest draw s count rest U L R a I) as [[F G] [W X]]. destruct a as [v w]. apply sound6_1; assumption.
Qed.
Lemma last_small {S} (draw : source S) x s count l d : uniform draw -> se3_algebra_elements draw x s count = Ok l -> tfinite (last l d) /\ twithin 1 (last l d).
Proof.
  intros U E. pose proof E as E'. apply make_ok in E'. destruct E' as [C _]. apply elements6 in E. destruct E as (rest & -> & L & R). apply (small_rest draw s count rest U L R).
  destruct rest as [|a rest _] using rev_ind; [cbn [length] in L; lia|]. rewrite app_assoc, last_last. apply in_or_app. right. left. reflexivity.
Qed.
