(** Sums of squares and the comparison of lists of doubles. *)
From Coq Require Import Reals Lra Lia List Permutation Psatz.
From Flocq Require Import Core BinarySingleNaN.
From Verif Require Import Cpp FloatModel FloatSpec FloatProofs NrmSpec NrmProofs LenModel LenSpec LenProofs DriftModel DriftProofs FstModel FstSpec FstProofs FapModel FapSpec.
Import ListNotations.
Local Open Scope R_scope.

Definition sq2 (l : list R) : R := add_up (map (fun x => x * x) l).
Definition diffs (a b : list R) : list R := map (fun p => fst p - snd p) (combine a b).
Definition fdiffs (a b : list f64) : list f64 := map (fun p => fsub (fst p) (snd p)) (combine a b).
Definition t2 : R := tolerance * tolerance.

Lemma h_pos : 0 < h. Proof. unfold h. apply bpow_gt_0. Qed.
Lemma sq2_pos l : 0 <= sq2 l.
Proof. unfold sq2. induction l as [|x l IH]; cbn; [lra|]. unfold add_up in IH. nra. Qed.
Lemma sq2_cons x l : sq2 (x :: l) = x * x + sq2 l. Proof. reflexivity. Qed.
Lemma sq2_bound l b : 0 <= b -> Forall (fun x => Rabs x <= b) l -> sq2 l <= INR (length l) * (b * b).
Proof.
  intros B. induction 1 as [|x l H _ IH]; [unfold sq2; cbn; lra|]. rewrite sq2_cons. cbn [length]. rewrite S_INR. assert (x * x <= b * b); [|lra].
  rewrite <- (Rabs_right (x * x)) by nra. rewrite Rabs_mult. pose proof (Rabs_pos x). nra.
Qed.
Lemma pow_990 : 2 ^ 490 * 2 ^ 490 * 1024 = 2 ^ 990.
Proof. replace 1024 with (2 ^ 10) by lra. rewrite <- !pow_add. f_equal. Qed.
Lemma pow_990' : 2 ^ 990 * 1024 = 2 ^ 1000.
Proof. replace 1024 with (2 ^ 10) by lra. rewrite <- !pow_add. f_equal. Qed.

Lemma squares_terms l : Forall finite l -> sq2 (map val l) <= 2 ^ 990 ->
  Forall finite (map fabs2 l) /\ add_up (map Rabs (map val (map fabs2 l))) = add_up (map val (map fabs2 l)) /\
  Rabs (add_up (map val (map fabs2 l)) - sq2 (map val l)) <= u * sq2 (map val l) + INR (length l) * h.
Proof.
  induction 1 as [|x l F _ IH]; intro B.
  - split; [constructor|]. split; [reflexivity|]. unfold sq2. cbn. rewrite Rminus_0_r, Rabs_R0. lra.
  - cbn [map] in *. rewrite sq2_cons in B. pose proof (sq2_pos (map val l)) as P. assert (X : 0 <= val x * val x) by nra. destruct IH as (F' & A & E); [lra|].
    pose proof pow_990' as Q. pose proof (pow_lt 2 990 ltac:(lra)) as Q0.
    destruct (mul_error x x F F) as [FX EX]; [rewrite Rabs_right by lra; lra|]. rewrite (Rabs_right (val x * val x)) in EX by lra. fold (fabs2 x) in FX, EX.
    split; [constructor; assumption|]. destruct (fmul_val x x F F) as [_ V]; [apply no_overflow; rewrite Rabs_right by lra; lra|]. fold (fabs2 x) in V.
    assert (V0 : 0 <= val (fabs2 x)) by (rewrite V; apply rd_ge0, X).
    split.
    + unfold add_up in *. cbn. rewrite A, Rabs_right by lra. reflexivity.
    + rewrite sq2_cons. cbn [length]. rewrite S_INR. change (add_up (val (fabs2 x) :: map val (map fabs2 l))) with (val (fabs2 x) + add_up (map val (map fabs2 l))).
      replace (_ - _) with ((val (fabs2 x) - val x * val x) + (add_up (map val (map fabs2 l)) - sq2 (map val l))) by ring. eapply Rle_trans; [apply Rabs_triang|]. lra.
Qed.
Lemma squares_near l s : fsum_of (map fabs2 l) s -> Forall finite l -> (length l <= 9)%nat -> sq2 (map val l) <= 2 ^ 990 ->
  finite s /\ Rabs (val s - sq2 (map val l)) <= 10 * u * sq2 (map val l) + (INR (length l) + 1) * h.
Proof.
  intros S F N B. destruct (squares_terms l F B) as (F' & A & E). pose proof (sq2_pos (map val l)) as P. pose proof u_num as U. pose proof h_pos as H0. pose proof h_1 as H1.
  set (q := sq2 (map val l)) in *. assert (N' : INR (length l) <= 9) by (apply le_INR in N; replace (INR 9) with 9 in N by (cbn; lra); exact N). pose proof (pos_INR (length l)) as N0.
  set (n := INR (length l)) in *. set (w := add_up (map val (map fabs2 l))) in *. pose proof (Rabs_le_inv _ _ E) as [E1 E2].
  pose proof (pow_990') as Q. pose proof (pow_lt 2 990 ltac:(lra)) as Q0. assert (Q1 : 1 <= 2 ^ 990) by (apply pow_R1_Rle; lra).
  assert (NH : n * h <= 9 * h) by (apply Rmult_le_compat_r; lra).
  destruct (sum_near _ _ S F') as (FS & ES & _); [|rewrite map_length; fold n; rewrite U; lra|].
  { rewrite A. fold w. rewrite U in E2. lra. }
  split; [exact FS|]. rewrite A in ES. fold w in ES. rewrite map_length in ES.
  assert (K : INR (Nat.pred (length l)) <= 8) by (replace 8 with (INR 8) by (cbn; lra); apply le_INR; lia).
  assert (W0 : 0 <= w) by (rewrite <- A; apply add_up_pos).
  assert (K2 : INR (Nat.pred (length l)) * u * w <= 8 * (u * w)).
  { rewrite Rmult_assoc. apply Rmult_le_compat_r; [|exact K]. apply Rmult_le_pos; [rewrite U; lra|exact W0]. }
  replace (val s - q) with ((val s - w) + (w - q)) by ring. eapply Rle_trans; [apply Rabs_triang|].
  assert (u * w <= u * ((1 + u) * q + 9 * h)) by (apply Rmult_le_compat_l; [rewrite U; lra|lra]). rewrite U in *. nra.
Qed.

(** ** Differences *)
Lemma diffs_cons x a y b : diffs (x :: a) (y :: b) = (x - y) :: diffs a b. Proof. reflexivity. Qed.
Lemma diffs_near a b : length a = length b -> Forall finite a -> Forall finite b -> Forall (fun x => Rabs (val x) <= 2 ^ 490) a -> Forall (fun x => Rabs (val x) <= 2 ^ 490) b ->
  Forall finite (fdiffs a b) /\ length (fdiffs a b) = length a /\ length (diffs (map val a) (map val b)) = length a /\ Forall (fun x => Rabs x <= 2 * 2 ^ 490) (diffs (map val a) (map val b)) /\
  (1 - u) * (1 - u) * sq2 (diffs (map val a) (map val b)) <= sq2 (map val (fdiffs a b)) <= (1 + u) * (1 + u) * sq2 (diffs (map val a) (map val b)).
Proof.
  revert b. induction a as [|x a IH]; intros [|y b] L A B A' B'; try discriminate L.
  - repeat split; try constructor; unfold sq2; cbn; lra.
  - inversion A as [|? ? FX FA]; inversion B as [|? ? FY FB]; inversion A' as [|? ? BX BA]; inversion B' as [|? ? BY BB]; subst. injection L as L.
    destruct (IH b L FA FB BA BB) as (F & LL & LD & BD & S). unfold fdiffs in *. cbn [combine map]. rewrite diffs_cons, !sq2_cons. cbn [fst snd length].
    assert (D : Rabs (val x - val y) <= 2 * 2 ^ 490) by (replace (val x - val y) with (val x + - val y) by ring; eapply Rle_trans; [apply Rabs_triang|]; rewrite Rabs_Ropp; lra).
    assert (Q : 2 ^ 490 <= 2 ^ 1000) by (apply Rle_pow; [lra|apply Nat.leb_le; reflexivity]).
    destruct (fsub_val x y FX FY) as [FD VD]; [apply no_overflow; pose proof (pow_lt 2 1000 ltac:(lra)); lra|].
    split; [constructor; assumption|]. split; [lia|]. split; [lia|]. split; [constructor; assumption|].
    assert (E : Rabs (rd (val x - val y) - (val x - val y)) <= u * Rabs (val x - val y)).
    { replace (val x - val y) with (val x + - val y) by ring. apply rd_sum; [apply val_fmt|]. apply generic_format_opp, val_fmt. }
    rewrite VD. set (z := val x - val y) in *. set (w := rd z) in *. pose proof u_num as U.
    assert (G : (1 - u) * (1 - u) * (z * z) <= w * w <= (1 + u) * (1 + u) * (z * z)).
    { apply Rabs_le_inv in E. destruct (Rle_lt_dec 0 z) as [P|P]; [rewrite Rabs_right in E by lra|rewrite Rabs_left in E by lra].
      - assert (0 <= (1 - u) * z) by (rewrite U; lra). assert ((1 - u) * z <= w <= (1 + u) * z) by lra. split.
        + replace (_ * _ * _) with ((1 - u) * z * ((1 - u) * z)) by ring. apply Rmult_le_compat; lra.
        + replace (_ * _ * (_ * _)) with ((1 + u) * z * ((1 + u) * z)) by ring. apply Rmult_le_compat; lra.
      - assert (0 <= (1 - u) * - z) by (rewrite U; lra). assert ((1 - u) * - z <= - w <= (1 + u) * - z) by lra. replace (w * w) with (- w * - w) by ring. split.
        + replace (_ * _ * _) with ((1 - u) * - z * ((1 - u) * - z)) by ring. apply Rmult_le_compat; lra.
        + replace (_ * _ * (_ * _)) with ((1 + u) * - z * ((1 + u) * - z)) by ring. apply Rmult_le_compat; lra. }
    lra.
Qed.

(** ** The threshold *)
Lemma tolerance_num : tolerance = / 1000000000000. Proof. unfold tolerance. f_equal. ring. Qed.
Lemma precision_val : finite dummy_precision /\ Rabs (val dummy_precision - tolerance) <= u * tolerance + h.
Proof.
  destruct (of_small 1) as [F1 V1]; [lia|]. destruct (of_small (10 ^ 12)) as [F2 V2]; [lia|].
  destruct (fdiv_val (of_int 1) (of_int (10 ^ 12)) F1) as [F V].
  - rewrite V2. cbn. lra.
  - rewrite V1, V2. cbn. apply no_overflow. rewrite Rabs_right by lra. pose proof (proj2 big_1000). lra.
  - split; [exact F|]. fold dummy_precision in V. rewrite V, V1, V2. replace (1 / IZR (10 ^ 12)) with tolerance by (rewrite tolerance_num; cbn; lra).
    eapply Rle_trans; [apply rd_any|]. rewrite (Rabs_right tolerance) by (rewrite tolerance_num; lra). lra.
Qed.
Lemma h_tiny' : h <= / 10 ^ 60.
Proof.
  apply Rle_trans with (bpow radix2 (-200)); [apply bpow_le; lia|]. change (bpow radix2 (-200)) with (/ IZR (2 ^ 200)). apply Rinv_le_contravar; [apply pow_lt; lra|].
  rewrite pow_IZR. apply IZR_le. apply Z.leb_le. reflexivity.
Qed.
Lemma t2_num : t2 = / 1000000000000000000000000. Proof. unfold t2. rewrite tolerance_num. lra. Qed.
Lemma square_precision : finite (fmul dummy_precision dummy_precision) /\ Rabs (val (fmul dummy_precision dummy_precision) - t2) <= 4 * u * t2.
Proof.
  destruct precision_val as [F E]. pose proof h_pos as H0. pose proof h_tiny' as H1. replace (10 ^ 60) with 1000000000000000000000000000000000000000000000000000000000000 in H1 by ring.
  set (p := val dummy_precision) in *. assert (E' : Rabs (p - tolerance) <= 11 / 10 * (u * tolerance)) by (rewrite tolerance_num, u_num in *; lra). apply Rabs_le_inv in E'.
  assert (P : 0 <= p * p <= 1) by (rewrite tolerance_num, u_num in E'; nra).
  destruct (mul_error dummy_precision dummy_precision F F) as [FM EM]; fold p; [rewrite Rabs_right by lra; pose proof (proj2 big_1000); lra|].
  fold p in EM. split; [exact FM|]. set (c := val (fmul dummy_precision dummy_precision)) in *. rewrite (Rabs_right (p * p)) in EM by lra.
  assert (D : Rabs (p * p - t2) <= 23 / 10 * (u * t2)).
  { unfold t2. rewrite tolerance_num, u_num in *. apply Rabs_le. nra. }
  replace (c - t2) with ((c - p * p) + (p * p - t2)) by ring. eapply Rle_trans; [apply Rabs_triang|]. pose proof (Rabs_le_inv _ _ D) as D'.
  rewrite t2_num, u_num in *. lra.
Qed.
Lemma fle_val x y : finite x -> finite y -> (fle x y = true <-> val x <= val y).
Proof. intros X Y. rewrite fle_place by (apply finite_not_nan; assumption). rewrite !place_finite by assumption. reflexivity. Qed.
Lemma fmini_val x y : finite x -> finite y -> finite (fmini x y) /\ val (fmini x y) = Rmin (val x) (val y).
Proof.
  intros X Y. unfold fmini. pose proof (flt_val y x Y X) as L. destruct (flt y x).
  - split; [exact Y|]. rewrite Rmin_right; [reflexivity|]. pose proof (proj1 L eq_refl). lra.
  - split; [exact X|]. rewrite Rmin_left; [reflexivity|]. destruct (Rle_lt_dec (val x) (val y)) as [K|K]; [exact K|]. apply L in K. discriminate K.
Qed.

(** ** The comparison *)
Lemma approx_value a b r : fis_approx a b r -> length a = length b -> (length a <= 9)%nat -> Forall finite a -> Forall finite b ->
  Forall (fun x => Rabs (val x) <= 2 ^ 490) a -> Forall (fun x => Rabs (val x) <= 2 ^ 490) b ->
  let D := sq2 (diffs (map val a) (map val b)) in let M := Rmin (sq2 (map val a)) (sq2 (map val b)) in
  exists d t, Rabs (d - D) <= 13 * u * D + 10 * h /\ Rabs (t - t2 * M) <= 16 * u * (t2 * M) + 2 * h /\ (r = true <-> d <= t) /\ 0 <= t /\
  exists s, fsum_of (map fabs2 (fdiffs a b)) s /\ val s = d.
Proof.
  intros (d & x & y & SD & SX & SY & ->) L N FA FB BA BB D M. fold (fdiffs a b) in SD. destruct (diffs_near a b L FA FB BA BB) as (FD & LD & LD' & BD & D1 & D2).
  pose proof pow_990 as Q. pose proof (pow_lt 2 490 ltac:(lra)) as Q0. set (k := 2 ^ 490) in *. pose proof u_num as U. pose proof h_pos as H0. pose proof h_tiny' as H1. replace (10 ^ 60) with 1000000000000000000000000000000000000000000000000000000000000 in H1 by ring.
  assert (KK : 0 < k * k) by nra.
  assert (NN : forall m, (m <= 9)%nat -> INR m * (k * k) <= 9 * (k * k)).
  { intros m H. apply Rmult_le_compat_r; [lra|]. apply le_INR in H. replace (INR 9) with 9 in H by (cbn; lra). exact H. }
  assert (BA' : sq2 (map val a) <= 2 ^ 990).
  { eapply Rle_trans; [apply (sq2_bound _ k); [lra|apply Forall_map, BA]|]. rewrite map_length. pose proof (NN _ N). lra. }
  assert (BB' : sq2 (map val b) <= 2 ^ 990).
  { eapply Rle_trans; [apply (sq2_bound _ k); [lra|apply Forall_map, BB]|]. rewrite map_length, <- L. pose proof (NN _ N). lra. }
  assert (DB : D <= 36 * (k * k)).
  { eapply Rle_trans; [apply (sq2_bound _ (2 * k)); [lra|exact BD]|]. rewrite LD'. pose proof (NN _ N). lra. }
  pose proof (sq2_pos (diffs (map val a) (map val b))) as D0. fold D in D0, D1, D2.
  destruct (squares_near _ _ SD FD) as [FS ES]; [lia|rewrite U in D2; lra|].
  destruct (squares_near _ _ SX FA N BA') as [FX EX]. destruct (squares_near _ _ SY FB) as [FY EY]; [lia|exact BB'|].
  rewrite LD in ES. rewrite <- L in EY. assert (N' : INR (length a) <= 9) by (apply le_INR in N; replace (INR 9) with 9 in N by (cbn; lra); exact N).
  pose proof (sq2_pos (map val a)) as A0. pose proof (sq2_pos (map val b)) as B0.
  set (A := sq2 (map val a)) in *. set (B := sq2 (map val b)) in *. set (D' := sq2 (map val (fdiffs a b))) in *. set (n := INR (length a)) in *.
  assert (NH : (n + 1) * h <= 10 * h) by (apply Rmult_le_compat_r; lra).
  destruct (fmini_val x y FX FY) as [FM VM]. destruct square_precision as [FC EC].
  assert (M0 : 0 <= M) by (apply Rmin_glb; assumption). assert (M1 : M <= 2 ^ 990) by (eapply Rle_trans; [apply Rmin_l|exact BA']).
  assert (EM : Rabs (val (fmini x y) - M) <= 10 * u * M + 10 * h).
  { rewrite VM. apply Rabs_le_inv in EX, EY. unfold M. apply Rabs_le. unfold Rmin. destruct (Rle_dec (val x) (val y)), (Rle_dec A B); rewrite U in *; lra. }
  set (m := val (fmini x y)) in *. set (c := val (fmul dummy_precision dummy_precision)) in *. apply Rabs_le_inv in EC, EM.
  assert (C0 : 0 <= c <= 2 * t2) by (rewrite t2_num, U in *; lra).
  assert (MB : Rabs m <= 2 * 2 ^ 990) by (assert (1 <= 2 ^ 990) by (apply pow_R1_Rle; lra); apply Rabs_le; rewrite U in EM; lra).
  assert (CM : Rabs (c * m) <= 2 ^ 1000).
  { rewrite Rabs_mult, (Rabs_right c) by lra. pose proof pow_990'. apply Rle_trans with (1 * (2 * 2 ^ 990)); [|pose proof (pow_lt 2 990 ltac:(lra)); lra]. apply Rmult_le_compat; [lra|apply Rabs_pos|rewrite t2_num in C0; lra|exact MB]. }
  destruct (mul_error _ _ FC FM CM) as [FT ET]. fold c m in ET. set (t := fmul (fmul dummy_precision dummy_precision) (fmini x y)) in *.
  exists (val d), (val t). split; [|split; [|split; [|split]]].
  - apply Rabs_le_inv in ES. apply Rabs_le. rewrite U in *. lra.
  - assert (E1 : Rabs (c * m - t2 * M) <= 145 / 10 * u * (t2 * M) + 11 * (t2 * h)).
    { replace (c * m - t2 * M) with ((c - t2) * m + t2 * (m - M)) by ring. eapply Rle_trans; [apply Rabs_triang|]. rewrite !Rabs_mult.
      assert (Rabs (c - t2) <= 4 * u * t2) by (apply Rabs_le; lra). assert (Rabs (m - M) <= 10 * u * M + 10 * h) by (apply Rabs_le; lra).
      assert (MM : Rabs m <= 11 / 10 * M + 10 * h) by (apply Rabs_le; rewrite U in *; lra).
      rewrite (Rabs_right t2) by (rewrite t2_num; lra).
      assert (Rabs (c - t2) * Rabs m <= 4 * u * t2 * (11 / 10 * M + 10 * h)) by (apply Rmult_le_compat; try apply Rabs_pos; assumption).
      assert (t2 * Rabs (m - M) <= t2 * (10 * u * M + 10 * h)) by (apply Rmult_le_compat_l; [rewrite t2_num; lra|assumption]).
      rewrite U, t2_num in *. lra. }
    assert (TM : 0 <= t2 * M) by (apply Rmult_le_pos; [rewrite t2_num; lra|exact M0]).
    assert (E2 : Rabs (c * m) <= 11 / 10 * (t2 * M) + 11 * (t2 * h)).
    { replace (c * m) with (t2 * M + (c * m - t2 * M)) by ring. eapply Rle_trans; [apply Rabs_triang|]. rewrite (Rabs_right (t2 * M)) by lra. rewrite U in E1. lra. }
    replace (val t - t2 * M) with ((val t - c * m) + (c * m - t2 * M)) by ring. eapply Rle_trans; [apply Rabs_triang|].
    assert (u * Rabs (c * m) <= u * (11 / 10 * (t2 * M) + 11 * (t2 * h))) by (apply Rmult_le_compat_l; [rewrite U; lra|exact E2]).
    set (Z := t2 * M) in *. rewrite U, t2_num in *. lra.
  - apply fle_val; assumption.
  - assert (V : val t = rd (c * m)) by (apply fmul_val; [exact FC|exact FM|apply no_overflow; fold c m; pose proof (pow_lt 2 1000 ltac:(lra)); lra]). rewrite V. apply rd_ge0, Rmult_le_pos; [lra|].
    rewrite VM. assert (P : forall l s, fsum_of (map fabs2 l) s -> Forall finite l -> (length l <= 9)%nat -> sq2 (map val l) <= 2 ^ 990 -> 0 <= val s).
    { intros l s S F K B'. destruct (squares_terms l F B') as (F' & AA & E). pose proof (sq2_pos (map val l)). apply (sum_pos _ _ S F').
      - clear - F B'. induction F as [|z l F _ IH]; cbn [map]; constructor.
        + cbn [map] in B'. rewrite sq2_cons in B'. pose proof (sq2_pos (map val l)). assert (0 <= val z * val z) by nra. destruct (fmul_val z z F F) as [_ V]; [apply no_overflow; rewrite Rabs_right by lra; pose proof pow_990'; pose proof (pow_lt 2 990 ltac:(lra)); lra|].
          unfold fabs2. rewrite V. apply rd_ge0. assumption.
        + apply IH. cbn [map] in B'. rewrite sq2_cons in B'. nra.
      - rewrite AA. apply Rabs_le_inv in E. assert (INR (length l) <= 9) by (apply le_INR in K; replace (INR 9) with 9 in K by (cbn; lra); exact K). pose proof (pos_INR (length l)). pose proof pow_990'. assert (1 <= 2 ^ 990) by (apply pow_R1_Rle; lra). assert (INR (length l) * h <= 9 * h) by (apply Rmult_le_compat_r; lra). rewrite U in E. lra.
      - rewrite map_length. apply le_INR in K. replace (INR 9) with 9 in K by (cbn; lra). rewrite U. lra. }
    apply Rmin_glb; [exact (P a x SX FA N BA')|]. apply (P b y SY FB); [lia|exact BB'].
  - exists d. split; [exact SD|reflexivity].
Qed.
