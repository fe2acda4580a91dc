(** Errors of rotating, adding and crossing stored vectors, in units. *)
From Coq Require Import Reals Lra Lia Psatz.
From Flocq Require Import Core BinarySingleNaN.
From Verif Require Import Cpp FloatModel FloatSpec NrmSpec NrmProofs Vec RotSpec CoeffProofs DriftModel DriftSpec DriftProofs SpinModel SpinSpec TwistModel TwistProofs2 TlogModel FtsModel FtsSpec FtsProofs FtsProofs2 FpsModel FpsSpec.
Local Open Scope R_scope.

(** Errors are measured in units of [X n], sizes in units of [n]. *)
Definition error_unit (X : R) : Prop := 100 * u <= X <= / 10 ^ 5.
Definition size_unit (n : R) : Prop := / 2 ^ 400 <= n <= 2 ^ 700.
Lemma size_pos n : size_unit n -> 0 < n.
Proof. intros [L _]. assert (0 < / 2 ^ 400) by (apply Rinv_0_lt_compat, pow_lt; lra). lra. Qed.
Lemma error_pos X : error_unit X -> 0 < X.
Proof. intros [L _]. pose proof u_pos. lra. Qed.
Lemma h_tiny : h <= / 2 ^ 400 * (u / 10 ^ 8).
Proof.
  unfold h. change (bpow radix2 (-1075)) with (/ IZR (Z.pow_pos 2 1075)). replace (IZR (Z.pow_pos 2 1075)) with (2 ^ 1075).
  - replace 1075%nat with (400 + (53 + 622))%nat by lia. rewrite !pow_add, !Rinv_mult. apply Rmult_le_compat_l; [left; apply Rinv_0_lt_compat, pow_lt; lra|].
    assert (/ 2 ^ 622 <= / 10 ^ 9). { apply Rinv_le_contravar; [lra|]. apply Rle_trans with (2 ^ 30); [lra|apply Rle_pow; [lra|lia]]. }
    rewrite u_num. assert (0 < / 2 ^ 53) by (apply Rinv_0_lt_compat, pow_lt; lra). assert (/ 2 ^ 53 * / 2 ^ 622 <= / 2 ^ 53 * / 10 ^ 9) by (apply Rmult_le_compat_l; lra). lra.
  - rewrite pow_IZR. f_equal.
Qed.
Lemma h_unit X n : error_unit X -> size_unit n -> h <= X * n / 10 ^ 8.
Proof.
  intros [XL _] SN. pose proof (size_pos n SN). destruct SN as [NL _]. pose proof h_tiny as HT. pose proof u_pos. assert (0 < / 2 ^ 400) by (apply Rinv_0_lt_compat, pow_lt; lra).
  assert (/ 2 ^ 400 * (u / 10 ^ 8) <= n * (X / 10 ^ 8)) by (apply Rmult_le_compat; lra). lra.
Qed.
Lemma u_unit X n p : error_unit X -> size_unit n -> 0 <= p -> u * (p * n) <= p / 100 * (X * n).
Proof. intros [XL _] SN P. pose proof (size_pos n SN). assert (0 <= p * n) by (apply Rmult_le_pos; lra). assert (u * (p * n) <= X / 100 * (p * n)) by (apply Rmult_le_compat_r; lra). lra. Qed.
Lemma x_unit X n b : error_unit X -> size_unit n -> 0 <= b -> 0 <= b * (X * n) <= b / 10 ^ 5 * n.
Proof.
  intros EX SN B. pose proof (size_pos n SN). pose proof (error_pos X EX). destruct EX as [_ XH]. assert (0 <= X * n) by (apply Rmult_le_pos; lra). split; [apply Rmult_le_pos; lra|].
  assert (X * n <= / 10 ^ 5 * n) by (apply Rmult_le_compat_r; lra). assert (b * (X * n) <= b * (/ 10 ^ 5 * n)) by (apply Rmult_le_compat_l; lra). lra.
Qed.
Lemma big_unit n p : size_unit n -> 0 <= p <= 10 ^ 30 -> 0 <= p * n <= 2 ^ 800.
Proof.
  intros SN P. pose proof (size_pos n SN). destruct SN as [_ NH]. split; [apply Rmult_le_pos; lra|].
  apply Rle_trans with (2 ^ 100 * 2 ^ 700); [apply Rmult_le_compat; try lra|rewrite <- pow_add; apply Rle_pow; [lra|lia]].
Qed.
Lemma big_800 : 2 ^ 800 <= 2 ^ 900 /\ 2 ^ 800 <= 2 ^ 990 /\ 2 ^ 800 <= 2 ^ 1000.
Proof. repeat split; apply Rle_pow; try lra; lia. Qed.

(** [v] is within [b] units of error of [w], which is at most [p] units of size long. *)
Definition near_v (X n b p : R) (v : fvec) (w : vec3) : Prop := vec_within (b * (X * n)) v w /\ norm w <= p * n.
(** So is the vector made by an operation. *)
Definition moderate x := 0 <= x <= 10 ^ 9.
Lemma near_v_le X n b p b' p' v w : error_unit X -> size_unit n -> b <= b' -> p <= p' -> near_v X n b p v w -> near_v X n b' p' v w.
Proof.
  intros EX SN B P ((F & D) & N). pose proof (size_pos n SN). pose proof (error_pos X EX). assert (0 < X * n) by (apply Rmult_lt_0_compat; lra).
  assert (b * (X * n) <= b' * (X * n)) by (apply Rmult_le_compat_r; lra). assert (p * n <= p' * n) by (apply Rmult_le_compat_r; lra). split; [split; [exact F|]|]; lra.
Qed.
Lemma near_v_unit X n n' b p v w : error_unit X -> size_unit n -> 0 <= b -> 0 <= p -> n <= n' -> near_v X n b p v w -> near_v X n' b p v w.
Proof.
  intros EX SN B P L ((F & D) & N). pose proof (size_pos n SN). pose proof (error_pos X EX). assert (X * n <= X * n') by (apply Rmult_le_compat_l; lra).
  assert (b * (X * n) <= b * (X * n')) by (apply Rmult_le_compat_l; lra). assert (p * n <= p * n') by (apply Rmult_le_compat_l; lra). split; [split; [exact F|]|]; lra.
Qed.
Lemma near_rotated X n a b p m r v v0 w : error_unit X -> size_unit n -> 0 <= a <= 100 -> moderate b -> moderate p -> stands_for (a * X) (m, r) -> near_v X n b p v v0 -> fmvec m v w ->
  near_v X n ((a + / 10) * (p + b / 10 ^ 5) + b + / 10 ^ 3) p w (mvec r v0).
Proof.
  intros EX SN A B P S ((F & D) & N) M. pose proof (size_pos n SN) as N0. pose proof (error_pos X EX) as X0. unfold moderate in *. pose proof (x_unit X n b EX SN ltac:(lra)) as XB. destruct (big_unit n (p + b / 10 ^ 5) SN ltac:(lra)) as [Z1 Z2]. destruct big_800 as (G1 & _).
  destruct EX as [XL XH]. assert (aX : 0 <= a * X <= 100 * / 10 ^ 5) by (split; [apply Rmult_le_pos; lra|apply Rmult_le_compat; lra]).
  destruct (rotated_near m r (a * X) v v0 (p * n) (b * (X * n)) w S ltac:(lra) F D N ltac:(lra) M) as (Fw & Dw & Nw).
  split; [split; [exact Fw|]|exact Nw]. pose proof (h_unit X n (conj XL XH) SN) as H. pose proof u_pos.
  assert (E1 : a * X + 6 * u <= (a + / 10) * X) by lra.
  assert (E3 : (a * X + 6 * u) * (p * n + b * (X * n)) <= ((a + / 10) * X) * ((p + b / 10 ^ 5) * n)) by (assert (0 <= p * n) by (apply Rmult_le_pos; lra); apply Rmult_le_compat; lra).
  replace (((a + / 10) * (p + b / 10 ^ 5) + b + / 10 ^ 3) * (X * n)) with (((a + / 10) * X) * ((p + b / 10 ^ 5) * n) + b * (X * n) + / 10 ^ 3 * (X * n)) by ring. assert (0 < X * n) by (apply Rmult_lt_0_compat; lra). lra.
Qed.
Lemma near_sum X n b p b' p' v w v0 w0 : error_unit X -> size_unit n -> moderate b -> moderate p -> moderate b' -> moderate p' -> near_v X n b p v v0 -> near_v X n b' p' w w0 ->
  near_v X n (b + b' + (p + p' + (b + b') / 10 ^ 5) / 100) (p + p') (fvadd v w) (vadd v0 w0).
Proof.
  intros EX SN B P B' P' ((Fv & Dv) & Nv) ((Fw & Dw) & Nw). unfold moderate in *. pose proof (x_unit X n b EX SN ltac:(lra)) as XB. pose proof (x_unit X n b' EX SN ltac:(lra)) as XB'.
  destruct (big_unit n (p + b / 10 ^ 5) SN ltac:(lra)) as [_ Z1]. destruct (big_unit n (p' + b' / 10 ^ 5) SN ltac:(lra)) as [_ Z2]. destruct big_800 as (_ & _ & G). pose proof u_pos.
  destruct (sum_near v w v0 w0 (b * (X * n)) (b' * (X * n)) (p * n) (p' * n) Fv Fw Dv Dw Nv Nw ltac:(lra) ltac:(lra)) as (F & D & N). split; [split; [exact F|]|lra].
  pose proof (u_unit X n (p + p' + (b + b') / 10 ^ 5) EX SN ltac:(lra)) as U. assert (u * (p * n + b * (X * n) + (p' * n + b' * (X * n))) <= u * ((p + p' + (b + b') / 10 ^ 5) * n)) by (apply Rmult_le_compat_l; lra). lra.
Qed.
Lemma near_cross X n n' b p b' p' v w v0 w0 : error_unit X -> size_unit n -> size_unit n' -> size_unit (n * n') -> moderate b -> moderate p -> moderate b' -> moderate p' -> near_v X n b p v v0 -> near_v X n' b' p' w w0 ->
  near_v X (n * n') (b * (p' + b' / 10 ^ 5) + p * b' + 35 / 1000 * ((p + b / 10 ^ 5) * (p' + b' / 10 ^ 5)) + / 10 ^ 3) (p * p') (fcross v w) (cross v0 w0).
Proof.
  intros EX SN SN' SNN B P B' P' ((Fv & Dv) & Nv) ((Fw & Dw) & Nw). unfold moderate in *. pose proof (x_unit X n b EX SN ltac:(lra)) as XB. pose proof (x_unit X n' b' EX SN' ltac:(lra)) as XB'. pose proof (size_pos n SN) as N0. pose proof (size_pos n' SN') as N0'. pose proof (error_pos X EX) as X0.
  set (k1 := p + b / 10 ^ 5) in *. set (k2 := p' + b' / 10 ^ 5) in *. assert (K1 : 0 <= k1 <= 2 * 10 ^ 9) by (unfold k1; lra). assert (K2 : 0 <= k2 <= 2 * 10 ^ 9) by (unfold k2; lra).
  assert (Pn : 0 <= p * n) by (apply Rmult_le_pos; lra). assert (Pn' : 0 <= p' * n') by (apply Rmult_le_pos; lra).
  assert (L1 : p * n + b * (X * n) <= k1 * n) by (unfold k1; lra). assert (L2 : p' * n' + b' * (X * n') <= k2 * n') by (unfold k2; lra).
  assert (KK : 0 <= k1 * k2 <= 2 * 10 ^ 9 * (2 * 10 ^ 9)) by (split; [apply Rmult_le_pos; lra|apply Rmult_le_compat; lra]).
  assert (PP : (p * n + b * (X * n)) * (p' * n' + b' * (X * n')) <= k1 * k2 * (n * n')) by (replace (k1 * k2 * (n * n')) with ((k1 * n) * (k2 * n')) by ring; apply Rmult_le_compat; lra).
  destruct (big_unit (n * n') (k1 * k2) SNN ltac:(lra)) as [_ Z]. destruct big_800 as (_ & G & _).
  destruct (crossed_near v w v0 w0 (b * (X * n)) (b' * (X * n')) (p * n) (p' * n') Fv Fw Dv Dw Nv Nw ltac:(lra)) as (F & D & N). split; [split; [exact F|]|lra].
  pose proof (h_unit X (n * n') EX SNN) as H. pose proof u_pos as Up. pose proof (u_unit X (n * n') (k1 * k2) EX SNN ltac:(lra)) as U.
  assert (C1 : u * ((p * n + b * (X * n)) * (p' * n' + b' * (X * n'))) <= u * (k1 * k2 * (n * n'))) by (apply Rmult_le_compat_l; lra).
  assert (C2 : b * (X * n) * (p' * n' + b' * (X * n')) <= b * (X * n) * (k2 * n')) by (apply Rmult_le_compat_l; lra).
  assert (0 <= k1 * k2 * (X * (n * n'))) by (apply Rmult_le_pos; [lra|apply Rmult_le_pos; [lra|apply Rmult_le_pos; lra]]). assert (0 < X * (n * n')) by (apply Rmult_lt_0_compat; [lra|apply Rmult_lt_0_compat; lra]).
  replace ((b * k2 + p * b' + 35 / 1000 * (k1 * k2) + / 10 ^ 3) * (X * (n * n'))) with (b * (X * n) * (k2 * n') + p * n * (b' * (X * n')) + 35 / 1000 * (k1 * k2 * (X * (n * n'))) + / 10 ^ 3 * (X * (n * n'))) by ring. lra.
Qed.
