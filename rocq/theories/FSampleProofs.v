(** Proofs about sample_interval on doubles. *)
From Flocq Require Import Core BinarySingleNaN Relative Plus_error.
From Verif Require Import Cpp TimeModel FloatModel FloatSpec FloatProofs.
From Coq Require Import Reals Psatz.
Local Open Scope R_scope.

(** The bound of doubles, and the relative rounding error. *)
Definition K : R := bpow radix2 1024.
Definition u : R := bpow radix2 (-53).
Definition X : R := K - u * K.
Lemma u_val : u = / 2 ^ 53.
Proof. unfold u. cbn. lra. Qed.
Lemma K_pos : 1 < K.
Proof. unfold K. apply (bpow_lt radix2 0 1024). reflexivity. Qed.
Lemma uK : u * K = bpow radix2 971.
Proof. unfold u, K. rewrite <- bpow_plus. reflexivity. Qed.
Lemma val_X x : Rabs (val x) <= X.
Proof.
  unfold X. rewrite uK. exact (abs_B2R_le_emax_minus_prec 53 1024 prec_pos x).
Qed.
Lemma rd_err_unit x : Rabs x <= 1 -> Rabs (rd x - x) <= u / 2.
Proof.
  intro H. replace (u / 2) with (bpow radix2 (0 - 54)). { apply rd_err; [lia|exact H]. }
  replace (0 - 54)%Z with (-53 + -1)%Z by reflexivity. rewrite bpow_plus. reflexivity.
Qed.
(** Multiples of u K. *)
Lemma fmt_X_half : fmt (X / 2).
Proof.
  apply generic_format_FLT. exists (Float radix2 (2 ^ 53 - 1) 970); [|vm_compute; reflexivity|vm_compute; discriminate].
  unfold X. rewrite uK. unfold K, F2R. cbn [Fnum Fexp]. replace 1024%Z with (54 + 970)%Z by reflexivity.
  replace 971%Z with (1 + 970)%Z by reflexivity. rewrite !bpow_plus. rewrite minus_IZR.
  change (bpow radix2 54) with (IZR (2 ^ 54)). change (bpow radix2 1) with 2. change (IZR (2 ^ 54)) with (2 * IZR (2 ^ 53))%R.
  replace (IZR (2 ^ 54)) with (2 * IZR (2 ^ 53)) by (rewrite <- mult_IZR; reflexivity). field.
Qed.
Lemma fmt_mult a : (0 <= a <= 2 ^ 53)%Z -> fmt (IZR a * (u * K)).
Proof.
  intro H. rewrite uK. destruct (Z.eq_dec a (2 ^ 53)) as [->|N].
  - change (IZR (2 ^ 53)) with (bpow radix2 53). rewrite <- bpow_plus. apply generic_format_bpow. vm_compute. discriminate.
  - apply generic_format_FLT. exists (Float radix2 a 971); [reflexivity|cbn [Fnum]|vm_compute; discriminate].
    change (Z.abs a < 2 ^ 53)%Z. lia.
Qed.
Lemma two53u : IZR (2 ^ 53) * u = 1.
Proof. rewrite u_val, pow_IZR. change (2 ^ Z.of_nat 53)%Z with (2 ^ 53)%Z. apply Rinv_r. apply not_0_IZR. discriminate. Qed.
Lemma X_mult : X = IZR (2 ^ 53 - 1) * (u * K).
Proof. unfold X. rewrite minus_IZR. replace ((IZR (2 ^ 53) - 1) * (u * K)) with (IZR (2 ^ 53) * u * K - u * K) by ring. rewrite two53u. ring. Qed.
Lemma fmt_X : fmt X.
Proof. rewrite X_mult. apply fmt_mult. lia. Qed.
Lemma succ_mult a : (2 ^ 52 <= a < 2 ^ 53)%Z -> succ radix2 (FLT_exp (-1074) 53) (IZR a * (u * K)) = IZR (a + 1) * (u * K).
Proof.
  intro H. pose proof K_pos. assert (0 < u) by apply bpow_gt_0. assert (P : 0 < IZR a) by (apply IZR_lt; lia).
  assert (P' : 0 < IZR a * (u * K)) by (apply Rmult_lt_0_compat; [exact P|]; apply Rmult_lt_0_compat; lra).
  rewrite succ_eq_pos by lra. rewrite ulp_neq_0 by lra.
  assert (M : mag radix2 (IZR a * (u * K)) = 1024%Z :> Z).
  { rewrite uK. apply mag_unique. rewrite Rabs_right by (apply Rle_ge; rewrite <- uK; lra). split.
    - change (1024 - 1)%Z with (52 + 971)%Z. rewrite bpow_plus. apply Rmult_le_compat_r; [apply bpow_ge_0|].
      change (bpow radix2 52) with (IZR (2 ^ 52)). apply IZR_le. lia.
    - change 1024%Z with (53 + 971)%Z. rewrite bpow_plus. apply Rmult_lt_compat_r; [apply bpow_gt_0|].
      change (bpow radix2 53) with (IZR (2 ^ 53)). apply IZR_lt. lia. }
  unfold cexp. rewrite M. change (FLT_exp (-1074) 53 1024) with 971%Z. rewrite <- uK, plus_IZR. ring.
Qed.
Lemma no_overflow x : Rabs x < K - u * K / 2 -> ~ overflows x.
Proof.
  intros H O. unfold overflows in O. rewrite <- bpow_1024 in O. fold K in O. rewrite <- rd_abs in O.
  assert (L : rd (Rabs x) <= X).
  { apply round_N_le_midp; [typeclasses eauto|exact fmt_X|]. rewrite X_mult, (succ_mult (2 ^ 53 - 1)) by lia.
    rewrite <- X_mult. replace (2 ^ 53 - 1 + 1)%Z with (2 ^ 53)%Z by ring.
    replace (IZR (2 ^ 53) * (u * K)) with (IZR (2 ^ 53) * u * K) by ring. rewrite two53u. unfold X. lra. }
  unfold X in L. assert (0 < u * K) by (rewrite uK; apply bpow_gt_0). lra.
Qed.
Lemma val_no_overflow h x : 0 <= h <= 1 -> Rabs x <= X -> Rabs (h * x) <= X /\ ~ overflows (h * x).
Proof.
  intros H B. assert (L : Rabs (h * x) <= X).
  { rewrite Rabs_mult, (Rabs_right h) by lra. pose proof (Rabs_pos x). nra. }
  split; [exact L|]. apply no_overflow. unfold X in L. assert (0 < u * K) by (rewrite uK; apply bpow_gt_0). lra.
Qed.
(** Products of a fraction and a double. *)
Lemma abs_prod h x : 0 <= h -> Rabs x <= X -> Rabs (rd (h * x)) <= rd (h * X).
Proof.
  intros H B. rewrite <- rd_abs. apply rd_le. rewrite Rabs_mult, (Rabs_right h) by lra. apply Rmult_le_compat_l; assumption.
Qed.
Lemma u_small : 0 < u <= / 1000.
Proof. rewrite u_val. lra. Qed.
Lemma prod_lt h x : bpow radix2 (-60) <= h <= 1 -> Rabs x <= X -> Rabs (rd (h * x)) < h * K.
Proof.
  intros H B. pose proof K_pos as HK. pose proof u_small as U. assert (P : 0 < h) by (apply Rlt_le_trans with (2 := proj1 H); apply bpow_gt_0).
  apply Rle_lt_trans with (1 := abs_prod h x ltac:(lra) B).
  assert (XP : 1 <= X).
  { unfold X. rewrite uK. unfold K. change 1024%Z with (53 + 971)%Z. rewrite bpow_plus.
    assert (1 <= bpow radix2 971) by (apply (bpow_le radix2 0 971); lia). replace (bpow radix2 53) with (IZR (2 ^ 53)) by reflexivity.
    assert (2 <= IZR (2 ^ 53)) by (apply IZR_le; lia). nra. }
  destruct (rd_rel (h * X)) as (eps & Be & ->).
  { rewrite Rabs_right by nra. apply Rle_trans with (bpow radix2 (-60)); [apply bpow_le; lia|]. nra. }
  fold u in Be. apply Rabs_le_inv in Be. unfold X. replace (h * (K - u * K) * (1 + eps)) with (h * K * ((1 - u) * (1 + eps))) by ring.
  assert ((1 - u) * (1 + eps) < 1) by nra. assert (0 < h * K) by nra. nra.
Qed.
Lemma prod_big a x : (2 ^ 52 < a < 2 ^ 53)%Z -> Rabs x <= X -> Rabs (rd (IZR a * u * x)) <= IZR a * u * K - u * K.
Proof.
  intros H B. pose proof K_pos as HK. pose proof u_small as U. assert (P : 0 < IZR a) by (apply IZR_lt; lia).
  apply Rle_trans with (1 := abs_prod (IZR a * u) x ltac:(nra) B).
  replace (IZR a * u * K - u * K) with (IZR (a - 1) * (u * K)) by (rewrite minus_IZR; ring).
  apply round_N_le_midp; [typeclasses eauto|apply fmt_mult; lia|]. rewrite succ_mult by lia. replace (a - 1 + 1)%Z with a by ring.
  rewrite minus_IZR. unfold X.
  assert (A : / 2 < IZR a * u).
  { assert (Q : IZR (2 ^ 52) * u = / 2). { pose proof two53u as T. change (2 ^ 53)%Z with (2 * 2 ^ 52)%Z in T. rewrite mult_IZR in T. lra. }
    rewrite <- Q. apply Rmult_lt_compat_r; [lra|]. apply IZR_lt. lia. }
  replace (IZR a * u * (K - u * K)) with (IZR a * (u * K) - IZR a * u * (u * K)) by ring.
  assert (0 < u * K) by nra. nra.
Qed.
(** Doubles between a half and one are multiples of u. *)
Lemma unit_mult g : fmt g -> / 2 <= g <= 1 -> exists a, (2 ^ 52 <= a <= 2 ^ 53)%Z /\ g = IZR a * u.
Proof.
  intros F [H1 H2]. destruct (Rle_lt_or_eq_dec _ _ H2) as [L|E].
  - assert (M : mag radix2 g = 0%Z :> Z).
    { apply mag_unique. rewrite Rabs_right by lra. split; [exact H1|exact L]. }
    unfold generic_format, cexp in F. rewrite M in F. change (FLT_exp (-1074) 53 0) with (-53)%Z in F.
    set (a := Ztrunc _) in F. exists a. unfold F2R in F. cbn [Fnum Fexp] in F. fold u in F. pose proof u_small as U.
    assert (Q : IZR (2 ^ 52) * u = / 2). { pose proof two53u as T. change (2 ^ 53)%Z with (2 * 2 ^ 52)%Z in T. rewrite mult_IZR in T. lra. }
    split; [|exact F]. split; apply le_IZR; apply Rmult_le_reg_r with u; rewrite ?two53u; lra.
  - exists (2 ^ 53)%Z. rewrite two53u. split; [lia|exact E].
Qed.
Lemma fmt_unit a : (0 <= a <= 2 ^ 53)%Z -> fmt (IZR a * u).
Proof.
  intro H. destruct (Z.eq_dec a (2 ^ 53)) as [->|N].
  - rewrite two53u. apply (fmt_int 1). lia.
  - apply generic_format_FLT. exists (Float radix2 a (-53)); [reflexivity|cbn [Fnum]|vm_compute; discriminate].
    change (Z.abs a < 2 ^ 53)%Z. lia.
Qed.

Lemma half_u : IZR (2 ^ 52) * u = / 2.
Proof. pose proof two53u as T. change (2 ^ 53)%Z with (2 * 2 ^ 52)%Z in T. rewrite mult_IZR in T. lra. Qed.
Lemma prod_half h x : 0 <= h <= / 2 -> Rabs x <= X -> Rabs (rd (h * x)) <= X / 2.
Proof.
  intros H B. apply Rle_trans with (1 := abs_prod h x ltac:(lra) B). rewrite <- (rd_id (X / 2) fmt_X_half). apply rd_le.
  assert (0 <= X) by (pose proof (Rabs_pos x); lra). nra.
Qed.
Lemma prod_one h x : 0 <= h <= 1 -> Rabs x <= X -> Rabs (rd (h * x)) <= X.
Proof.
  intros H B. apply Rle_trans with (1 := abs_prod h x ltac:(lra) B). rewrite <- (rd_id X fmt_X) at 2. apply rd_le.
  assert (0 <= X) by (pose proof (Rabs_pos x); lra). nra.
Qed.
(** The weighted sum never overflows. *)
Lemma sum_bound f s e : fmt f -> f = 0 \/ bpow radix2 (-60) <= f <= 1 -> Rabs s <= X -> Rabs e <= X ->
  Rabs (rd (rd (1 - f) * s)) + Rabs (rd (f * e)) < K - u * K / 2.
Proof.
  intros F R S E. pose proof K_pos as HK. pose proof u_small as U. assert (UK : 0 < u * K) by nra.
  assert (XK : X = K - u * K) by reflexivity.
  destruct R as [->|R].
  { rewrite Rminus_0_r. rewrite (rd_id 1) by (apply (fmt_int 1); lia). rewrite Rmult_0_l, rd_0, Rabs_R0.
    pose proof (prod_one 1 s ltac:(lra) S). lra. }
  assert (P : 0 < f) by (apply Rlt_le_trans with (2 := proj1 R); apply bpow_gt_0).
  destruct (Rle_lt_dec (/ 2) f) as [H|H].
  - destruct (unit_mult f F ltac:(lra)) as (a & Ha & Ea).
    assert (G : 1 - f = IZR (2 ^ 53 - a) * u) by (rewrite minus_IZR, Rmult_minus_distr_r, two53u, <- Ea; reflexivity).
    rewrite (rd_id (1 - f)) by (rewrite G; apply fmt_unit; lia).
    destruct (Z.eq_dec a (2 ^ 53)) as [A|A].
    { rewrite A, two53u in Ea. rewrite Ea. replace (1 - 1) with 0 by ring. rewrite Rmult_0_l, rd_0, Rabs_R0.
      pose proof (prod_one 1 e ltac:(lra) E). lra. }
    destruct (Z.eq_dec a (2 ^ 52)) as [A'|A'].
    { rewrite A', half_u in Ea. rewrite Ea. pose proof (prod_half (1 - / 2) s ltac:(lra) S). pose proof (prod_half (/ 2) e ltac:(lra) E). lra. }
    pose proof (prod_big a e ltac:(lia) E) as Q. rewrite <- Ea in Q.
    assert (G1 : bpow radix2 (-60) <= 1 - f).
    { rewrite G. apply Rle_trans with (1 * u); [rewrite Rmult_1_l; unfold u; apply bpow_le; lia|].
      apply Rmult_le_compat_r; [lra|]. apply IZR_le. lia. }
    pose proof (prod_lt (1 - f) s ltac:(lra) S). nra.
  - assert (G : / 2 <= rd (1 - f) <= 1).
    { split.
      - rewrite <- (rd_id (/ 2)) at 1; [apply rd_le; lra|]. rewrite <- half_u. apply fmt_unit. lia.
      - rewrite <- (rd_id 1) at 2; [apply rd_le; lra|apply (fmt_int 1); lia]. }
    pose proof (rd_err_unit (1 - f) ltac:(rewrite Rabs_right; lra)) as Er. apply Rabs_le_inv in Er.
    destruct (unit_mult (rd (1 - f)) (rd_fmt _) G) as (a & Ha & Ea).
    pose proof (prod_lt f e ltac:(lra) E) as Q.
    destruct (Z.eq_dec a (2 ^ 53)) as [A|A].
    { rewrite A, two53u in Ea. rewrite Ea in Er |- *. pose proof (prod_one 1 s ltac:(lra) S). nra. }
    destruct (Z.eq_dec a (2 ^ 52)) as [A'|A'].
    { rewrite A', half_u in Ea. rewrite Ea. pose proof (prod_half (/ 2) s ltac:(lra) S). pose proof (prod_half f e ltac:(lra) E). lra. }
    pose proof (prod_big a s ltac:(lia) S) as Q'. rewrite <- Ea in Q'. set (g := rd (1 - f)) in *. clearbody g. nra.
Qed.

(** ** One sample *)
Definition weight (n i : Z) : R := rd (IZR i / IZR n).
Lemma weight_range n i : (0 <= i <= n)%Z -> (0 < n <= 2 ^ 31)%Z -> weight n i = 0 /\ i = 0%Z \/ bpow radix2 (-60) <= weight n i <= 1.
Proof.
  intros Hi Hn. assert (N : 0 < IZR n) by (apply IZR_lt; lia). destruct (Z.eq_dec i 0) as [->|Z0].
  - left. split; [|reflexivity]. unfold weight, Rdiv. rewrite Rmult_0_l. apply rd_0.
  - right. assert (I1 : 1 <= IZR i) by (apply IZR_le; lia). assert (I2 : IZR i <= IZR n) by (apply IZR_le; lia). unfold weight. split.
    + rewrite <- (rd_id (bpow radix2 (-60))) by (apply generic_format_bpow; vm_compute; discriminate). apply rd_le.
      apply Rle_trans with (/ IZR (2 ^ 31)).
      * change (/ IZR (2 ^ 31)) with (bpow radix2 (-31)). apply bpow_le. lia.
      * apply Rle_trans with (/ IZR n); [apply Rinv_le; [exact N|apply IZR_le; lia]|].
        unfold Rdiv. rewrite <- (Rmult_1_l (/ IZR n)) at 1. apply Rmult_le_compat_r; [|exact I1]. apply Rlt_le, Rinv_0_lt_compat, N.
    + rewrite <- (rd_id 1) by (apply (fmt_int 1); lia). apply rd_le. apply Rmult_le_reg_r with (IZR n); [exact N|].
      unfold Rdiv. rewrite Rmult_assoc, Rinv_l by lra. lra.
Qed.
Definition sample_val (s e : R) (n i : Z) : R :=
  rd (rd (rd (1 - weight n i) * s) + rd (weight n i * e)).
Lemma fsample_val s e n i : finite s -> finite e -> (0 <= i <= n)%Z -> (0 < n <= 2 ^ 31)%Z ->
  finite (fsample s e (n + 1) i) /\ val (fsample s e (n + 1) i) = sample_val (val s) (val e) n i.
Proof.
  intros Fs Fe Hi Hn. unfold fsample. replace (n + 1 - 1)%Z with n by ring. cbv zeta.
  destruct (of_small i) as [Fi Vi]; [lia|]. destruct (of_small n) as [Fn Vn]; [lia|]. destruct (of_small 1) as [F1 V1]; [lia|].
  assert (N : 0 < IZR n) by (apply IZR_lt; lia). pose proof K_pos as HK. pose proof u_small as U. assert (UK : 0 < u * K) by nra.
  pose proof (weight_range n i Hi Hn) as W.
  assert (WR : 0 <= weight n i <= 1) by (destruct W as [[-> _]|W]; [lra|]; pose proof (bpow_gt_0 radix2 (-60)); lra).
  assert (One : forall x, -1 <= x <= 1 -> ~ overflows x).
  { intros x Hx. apply pow_1023_big. apply Rle_trans with 1; [apply Rabs_le, Hx|]. apply pow_R1_Rle. lra. }
  destruct (fdiv_val (of_int i) (of_int n)) as [Ff Vf]; [exact Fi|rewrite Vn; lra| |].
  { rewrite Vi, Vn. apply One. assert (0 <= IZR i / IZR n <= 1); [|lra]. split.
    - apply Rmult_le_pos; [apply IZR_le; lia|apply Rlt_le, Rinv_0_lt_compat, N].
    - apply Rmult_le_reg_r with (IZR n); [exact N|]. unfold Rdiv. rewrite Rmult_assoc, Rinv_l by lra.
      assert (IZR i <= IZR n) by (apply IZR_le; lia). lra. }
  rewrite Vi, Vn in Vf. fold (weight n i) in Vf. set (f := fdivide (of_int i) (of_int n)) in *. clearbody f.
  destruct (fsub_val (of_int 1) f F1 Ff) as [Fg Vg]; [rewrite V1, Vf; apply One; lra|]. rewrite V1, Vf in Vg.
  set (g := fsub (of_int 1) f) in *. clearbody g.
  assert (GR : 0 <= rd (1 - weight n i) <= 1).
  { split; [apply rd_ge0; lra|]. rewrite <- (rd_id 1) at 2 by (apply (fmt_int 1); lia). apply rd_le. lra. }
  destruct (fmul_val g s Fg Fs) as [Fa Va]; [rewrite Vg; apply val_no_overflow; [exact GR|apply val_X]|].
  destruct (fmul_val f e Ff Fe) as [Fb Vb]; [rewrite Vf; apply val_no_overflow; [exact WR|apply val_X]|].
  destruct (fadd_val _ _ Fa Fb) as [Fc Vc].
  - rewrite Va, Vb, Vg, Vf. apply no_overflow. apply Rle_lt_trans with (1 := Rabs_triang _ _).
    apply sum_bound; try apply val_X.
    + apply rd_fmt.
    + destruct W as [[W _]|W]; [left; exact W|right; exact W].
  - split; [exact Fc|]. rewrite Vc, Va, Vb, Vg, Vf. reflexivity.
Qed.

(** The two ends. *)
Lemma sample_first s e n : fmt s -> sample_val s e n 0 = s.
Proof.
  intro F. unfold sample_val, weight, Rdiv. rewrite Rmult_0_l, rd_0, Rminus_0_r, Rmult_0_l, rd_0, Rplus_0_r.
  rewrite (rd_id 1) by (apply (fmt_int 1); lia). rewrite Rmult_1_l, (rd_id s F). apply rd_id, F.
Qed.
Lemma sample_last s e n : fmt e -> (0 < n)%Z -> sample_val s e n n = e.
Proof.
  intros F N. unfold sample_val, weight, Rdiv. rewrite Rinv_r by (apply not_0_IZR; lia).
  rewrite (rd_id 1) by (apply (fmt_int 1); lia). replace (1 - 1) with 0 by ring. rewrite rd_0, Rmult_0_l, rd_0, Rplus_0_l, Rmult_1_l.
  rewrite (rd_id e F). apply rd_id, F.
Qed.

(** Distance from the ideal point. *)
Definition tiny : R := bpow radix2 (-1075).
Lemma rd_ex x : exists eps eta, Rabs eps <= u /\ Rabs eta <= tiny /\ rd x = x * (1 + eps) + eta.
Proof.
  destruct (relative_error_N_FLT'_ex radix2 (-1074) 53 eq_refl (fun x => negb (Z.even x)) x) as (eps & eta & B1 & B2 & _ & E).
  exists eps, eta. split; [|split; [|exact E]].
  - apply Rle_trans with (1 := B1). assert (Q : u_ro radix2 53 = u).
    { unfold u_ro, u. change (/ 2) with (bpow radix2 (-1)). rewrite <- bpow_plus. reflexivity. }
    rewrite Q. pose proof u_small. apply Rmult_le_reg_r with (1 + u); [lra|]. unfold Rdiv. rewrite Rmult_assoc, Rinv_l by lra. nra.
  - apply Rle_trans with (1 := B2). unfold tiny. change (/ 2) with (bpow radix2 (-1)). rewrite <- bpow_plus. apply bpow_le. lia.
Qed.
Lemma abs_le_mult x y a b : Rabs x <= a -> Rabs y <= b -> Rabs (x * y) <= a * b.
Proof. intros H K. rewrite Rabs_mult. apply Rmult_le_compat; try apply Rabs_pos; assumption. Qed.
Lemma sample_close s e n i M : (0 <= i <= n)%Z -> (0 < n <= 2 ^ 31)%Z -> Rabs s <= M -> Rabs e <= M ->
  Rabs (sample_val s e n i - on_the_way s e n i) <= M / 2 ^ 51 + bpow radix2 (-1073).
Proof.
  intros Hi Hn S E. pose proof u_small as U. pose proof (weight_range n i Hi Hn) as W.
  assert (N : 0 < IZR n) by (apply IZR_lt; lia).
  set (f := weight n i) in *. set (k := IZR i / IZR n).
  assert (K01 : 0 <= k <= 1).
  { unfold k. split.
    - apply Rmult_le_pos; [apply IZR_le; lia|apply Rlt_le, Rinv_0_lt_compat, N].
    - apply Rmult_le_reg_r with (IZR n); [exact N|]. unfold Rdiv. rewrite Rmult_assoc, Rinv_l by lra.
      assert (IZR i <= IZR n) by (apply IZR_le; lia). lra. }
  assert (WR : 0 <= f <= 1) by (destruct W as [[-> _]|W]; [lra|]; pose proof (bpow_gt_0 radix2 (-60)); lra).
  assert (Df : Rabs (f - k) <= u / 2) by (apply rd_err_unit; rewrite Rabs_right; lra).
  assert (Dg : Rabs (rd (1 - f) - (1 - f)) <= u / 2) by (apply rd_err_unit; rewrite Rabs_right; lra).
  apply Rabs_le_inv in Df, Dg.
  assert (GR : 0 <= rd (1 - f)) by (apply rd_ge0; lra).
  unfold sample_val, on_the_way. fold f k. set (g := rd (1 - f)) in *. clearbody g. clearbody f k. clear W.
  destruct (rd_ex (g * s)) as (e1 & t1 & B1 & C1 & ->). destruct (rd_ex (f * e)) as (e2 & t2 & B2 & C2 & ->).
  set (A := g * s * (1 + e1) + t1). set (B := f * e * (1 + e2) + t2).
  destruct (rd_ex (A + B)) as (e3 & t3 & B3 & C3 & ->).
  assert (M0 : 0 <= M) by (pose proof (Rabs_pos s); lra). assert (T0 : 0 < tiny) by apply bpow_gt_0.
  assert (DA : Rabs (A - (1 - k) * s) <= M * (u + g * u) + tiny).
  { replace (A - (1 - k) * s) with (s * ((g - (1 - k)) + g * e1) + t1) by (unfold A; ring).
    apply Rle_trans with (1 := Rabs_triang _ _). apply Rplus_le_compat; [|exact C1]. apply abs_le_mult; [exact S|].
    apply Rle_trans with (1 := Rabs_triang _ _). apply Rplus_le_compat; [apply Rabs_le; lra|].
    rewrite Rabs_mult, (Rabs_right g) by lra. apply Rmult_le_compat_l; assumption. }
  assert (DB : Rabs (B - k * e) <= M * (u / 2 + f * u) + tiny).
  { replace (B - k * e) with (e * ((f - k) + f * e2) + t2) by (unfold B; ring).
    apply Rle_trans with (1 := Rabs_triang _ _). apply Rplus_le_compat; [|exact C2]. apply abs_le_mult; [exact E|].
    apply Rle_trans with (1 := Rabs_triang _ _). apply Rplus_le_compat; [apply Rabs_le; lra|].
    rewrite Rabs_mult, (Rabs_right f) by lra. apply Rmult_le_compat_l; [lra|assumption]. }
  clearbody A B. set (p := (1 - k) * s + k * e).
  assert (P : Rabs p <= M).
  { unfold p. apply Rle_trans with (1 := Rabs_triang _ _). rewrite !Rabs_mult, (Rabs_right (1 - k)), (Rabs_right k) by lra. nra. }
  assert (D : Rabs (A + B - p) <= M * (/ 2 * (3 * u) + u + u * u) + 2 * tiny).
  { replace (A + B - p) with ((A - (1 - k) * s) + (B - k * e)) by (unfold p; ring).
    apply Rle_trans with (1 := Rabs_triang _ _). assert (g + f <= 1 + u) by lra.
    assert (M * (u * (g + f)) <= M * (u * (1 + u))) by (apply Rmult_le_compat_l; [exact M0|]; apply Rmult_le_compat_l; lra). lra. }
  assert (AB : Rabs (A + B) <= M * (1 + 3 * u) + 2 * tiny).
  { replace (A + B) with (p + (A + B - p)) by ring. apply Rle_trans with (1 := Rabs_triang _ _).
    assert (M * (/ 2 * (3 * u) + u + u * u) <= M * (3 * u)) by (apply Rmult_le_compat_l; [exact M0|nra]). lra. }
  replace ((A + B) * (1 + e3) + t3 - p) with ((A + B - p) + (A + B) * e3 + t3) by ring.
  assert (AE : Rabs ((A + B) * e3) <= (M * (1 + 3 * u) + 2 * tiny) * u) by (apply abs_le_mult; assumption).
  assert (Q1 : bpow radix2 (-1073) = 4 * tiny) by (unfold tiny; change (-1073)%Z with (2 + -1075)%Z; rewrite bpow_plus; reflexivity).
  assert (Q2 : M / 2 ^ 51 = M * (4 * u)) by (rewrite u_val; lra). rewrite Q1, Q2.
  apply Rle_trans with (1 := Rabs_triang _ _). apply Rle_trans with (1 := Rplus_le_compat_r _ _ _ (Rabs_triang _ _)).
  assert (M * (/ 2 * (3 * u) + u + u * u + (1 + 3 * u) * u) <= M * (4 * u)) by (apply Rmult_le_compat_l; [exact M0|nra]).
  assert (2 * tiny * u <= tiny) by nra. lra.
Qed.

(** ** The number of samples *)
Lemma inf_of x s : B2SF x = binary_overflow 53 1024 mode_NE s -> x = (B754_infinity s : f64).
Proof. destruct x as [b|b| |b m ex Hx]; cbn; intro E; try discriminate E. injection E as ->. reflexivity. Qed.
Lemma fsub_inf x y : finite x -> finite y -> overflows (val x - val y) -> exists s, fsub x y = B754_infinity s.
Proof.
  intros A B O. pose proof (Bminus_correct 53 1024 prec_pos prec_emax mode_NE x y A B) as C.
  rewrite Rlt_bool_false in C by (rewrite bpow_1024; exact O). destruct C as [C _]. exists (Bsign x). apply inf_of, C.
Qed.
Lemma fdiv_inf x y : val y <> 0 -> overflows (val x / val y) -> exists s, fdivide x y = B754_infinity s.
Proof.
  intros A O. pose proof (Bdiv_correct 53 1024 prec_pos prec_emax mode_NE x y A) as C.
  rewrite Rlt_bool_false in C by (rewrite bpow_1024; exact O). exists (xorb (Bsign x) (Bsign y)). apply inf_of, C.
Qed.
Lemma fabs_val x : finite x -> finite (fabs x) /\ val (fabs x) = Rabs (val x).
Proof. intro F. split; [unfold finite, fabs; rewrite is_finite_Babs; exact F|apply B2R_Babs]. Qed.
Lemma fceil_val x : finite x -> finite (fceil x) /\ val (fceil x) = IZR (Zceil (val x)).
Proof.
  intro F. destruct (Bnearbyint_correct 53 1024 prec_emax mode_UP x) as (V & B & _). split.
  - unfold finite, fceil. rewrite B. exact F.
  - unfold val, fceil. rewrite V. unfold round, scaled_mantissa, cexp, FIX_exp, F2R. cbn. rewrite !Rmult_1_r. reflexivity.
Qed.
Lemma feq_val x y : finite x -> finite y -> (feq x y = true <-> val x = val y).
Proof.
  intros A B. unfold feq. rewrite (Beqb_correct 53 1024 x y A B). unfold val. case Req_bool_spec; intro H; split; intro K; auto; try discriminate; contradiction.
Qed.
Lemma step_positive dt : flt (of_int 0) dt = true <-> positive_step dt.
Proof.
  destruct (of_small 0) as [F0 V0]; [lia|]. unfold positive_step. split.
  - intro H. destruct dt as [s|s| |s m ex Hx].
    + cbn in H. discriminate H.
    + destruct s; [cbn in H; discriminate H|left; reflexivity].
    + cbn in H. discriminate H.
    + right. split; [reflexivity|]. unfold flt in H. rewrite (Bltb_correct 53 1024 _ (B754_finite s m ex Hx) F0 eq_refl) in H. fold (val (of_int 0)) in H.
      rewrite V0 in H. revert H. case Rlt_bool_spec; [intros L _; exact L|intros _ H; discriminate H].
  - intros [->|[F P]]; [reflexivity|]. unfold flt. rewrite (Bltb_correct 53 1024 _ _ F0 F). fold (val (of_int 0)). rewrite V0.
    apply Rlt_bool_true, P.
Qed.

Lemma ratio_of s e dt q : finite s -> finite e -> positive_step dt -> ~ overflows (val e - val s) -> step_ratio s e dt q ->
  let x := fdivide (fabs (fsub e s)) dt in
  (2 ^ 1024 <= q /\ exists b, x = B754_infinity b) \/ (0 <= q < 2 ^ 1024 /\ finite x /\ val x = q).
Proof.
  intros Fs Fe P O R x. destruct (fsub_val e s Fe Fs O) as [Fd Vd]. destruct (fabs_val _ Fd) as [Fa Va]. rewrite Vd, <- rd_abs in Va.
  unfold x. clear x. set (t := fabs (fsub e s)) in *. clearbody t. assert (P24 : 0 < 2 ^ 1024) by (apply pow_lt; lra).
  destruct R as [[-> ->]|[Fdt ->]].
  - right. split; [lra|]. destruct t as [b|b| |b m ex Hx]; try discriminate Fa; split; reflexivity.
  - destruct P as [->|[_ P]]; [discriminate Fdt|]. rewrite <- Va.
    assert (Q0 : 0 <= rd (val t / val dt)).
    { apply rd_ge0. apply Rmult_le_pos; [rewrite Va; apply rd_ge0, Rabs_pos|apply Rlt_le, Rinv_0_lt_compat, P]. }
    destruct (Rle_lt_dec (2 ^ 1024) (rd (val t / val dt))) as [B|B].
    + left. split; [exact B|]. apply fdiv_inf; [lra|]. unfold overflows. rewrite Rabs_right by lra. exact B.
    + right. split; [lra|]. apply fdiv_val; [exact Fa|lra|]. unfold overflows. rewrite Rabs_right by lra. lra.
Qed.
Lemma num_samples_case s e dt q : finite s -> finite e -> positive_step dt -> step_ratio s e dt q ->
  (overflows (val e - val s) \/ IZR (2 ^ 31 - 2) < q -> fnum_samples s e dt = UB) /\
  (~ overflows (val e - val s) -> q <= IZR (2 ^ 31 - 2) -> 0 <= q /\ fnum_samples s e dt = Ok (Zceil q + 1)%Z).
Proof.
  intros Fs Fe P R. unfold fnum_samples. rewrite (proj2 (step_positive dt) P). cbn [reassert obind]. cbv zeta.
  assert (Inf : forall b, to_int INT_MIN INT_MAX (fceil (B754_infinity b)) = UB) by reflexivity.
  assert (Pow : IZR (2 ^ 31 - 2) < 2 ^ 1024).
  { apply Rlt_le_trans with (2 ^ 31); [|apply Rle_pow; [lra|]; apply Nat.leb_le; vm_compute; reflexivity].
    rewrite minus_IZR, (pow_IZR 2 31). change (2 ^ Z.of_nat 31)%Z with (2 ^ 31)%Z. lra. }
  destruct (Rle_lt_dec (2 ^ 1024) (Rabs (rd (val e - val s)))) as [O|O].
  { split; [intros _|intros N; contradiction (N O)]. destruct (fsub_inf e s Fe Fs O) as [b ->]. cbn [fabs Babs].
    destruct R as [[-> _]|[Fdt _]]; [reflexivity|]. destruct dt as [b'|b'| |b' m ex Hx]; try discriminate Fdt; cbn; try reflexivity. }
  assert (O' : ~ overflows (val e - val s)) by (unfold overflows; lra).
  pose proof (ratio_of s e dt q Fs Fe P O' R) as C. cbv zeta in C. set (x := fdivide _ dt) in *. clearbody x.
  destruct C as [[B [b ->]]|(B & Fx & Vx)].
  { split; [intros _; rewrite Inf; reflexivity|]. intros _ H. lra. }
  destruct (fceil_val x Fx) as [Fc Vc]. rewrite (to_int_spec _ _ _ Fc), Vc, Ztrunc_IZR, Vx.
  assert (C0 : (0 <= Zceil q)%Z) by (apply le_IZR; apply Rle_trans with q; [lra|apply Zceil_ub]).
  unfold INT_MIN, INT_MAX. split.
  - intros [H|H]; [contradiction|].
    assert (Cq : (2 ^ 31 - 2 < Zceil q)%Z). { apply lt_IZR. apply Rlt_le_trans with (1 := H). apply Zceil_ub. }
    destruct ((- 2 ^ 31 <=? Zceil q) && (Zceil q <=? 2 ^ 31 - 1))%Z%bool eqn:T; [|reflexivity]. cbn [obind].
    apply andb_true_iff in T as [T1 T2]. apply Z.leb_le in T1, T2.
    destruct ((- 2 ^ 31 <=? Zceil q + 1) && (Zceil q + 1 <=? 2 ^ 31 - 1))%Z%bool eqn:T'; [|reflexivity].
    apply andb_true_iff in T' as [T3 T4]. apply Z.leb_le in T3, T4. lia.
  - intros _ H. split; [lra|]. assert (Cq : (Zceil q <= 2 ^ 31 - 2)%Z) by (apply Zceil_glb; exact H).
    replace ((- 2 ^ 31 <=? Zceil q) && (Zceil q <=? 2 ^ 31 - 1))%Z%bool with true
      by (symmetry; apply andb_true_iff; split; apply Z.leb_le; lia).
    cbn [obind]. replace ((- 2 ^ 31 <=? Zceil q + 1) && (Zceil q + 1 <=? 2 ^ 31 - 1))%Z%bool with true
      by (symmetry; apply andb_true_iff; split; apply Z.leb_le; lia). reflexivity.
Qed.

(** ** sample_interval *)
Lemma ceil_rounded_up q : rounded_up q (Zceil q).
Proof. unfold rounded_up. split; [|apply Zceil_ub]. pose proof (Zceil_lb q). lra. Qed.
Lemma rounded_up_ceil q n : rounded_up q n -> n = Zceil q.
Proof. intros [A B]. symmetry. apply Zceil_imp. rewrite minus_IZR. split; assumption. Qed.
Lemma sample_equal s e dt : finite s -> finite e -> val s = val e -> fsample_interval s e dt = Ok [s].
Proof. intros A B E. unfold fsample_interval. rewrite (proj2 (feq_val s e A B) E). reflexivity. Qed.
Lemma feq_false s e : finite s -> finite e -> val s <> val e -> feq s e = false.
Proof. intros A B N. destruct (feq s e) eqn:E; [|reflexivity]. apply (feq_val s e A B) in E. contradiction. Qed.
Lemma sample_bad_step s e dt : finite s -> finite e -> val s <> val e -> ~ positive_step dt -> fsample_interval s e dt = Throw.
Proof.
  intros A B N P. unfold fsample_interval. rewrite (feq_false s e A B N). unfold fnum_samples.
  destruct (flt (of_int 0) dt) eqn:E; [|reflexivity]. apply step_positive in E. contradiction.
Qed.
Lemma sample_collapsed s e : fsample s e 1 0 = B754_nan.
Proof. reflexivity. Qed.
Lemma val_fmt x : fmt (val x).
Proof. exact (generic_format_B2R 53 1024 x). Qed.
Lemma sampling s e dt q : finite s -> finite e -> val s <> val e -> positive_step dt -> step_ratio s e dt q ->
  (fsample_interval s e dt = UB <-> overflows (val e - val s) \/ IZR (2 ^ 31 - 2) < q) /\
  (~ overflows (val e - val s) -> q = 0 -> fsample_interval s e dt = Ok [B754_nan]) /\
  (~ overflows (val e - val s) -> 0 < q <= IZR (2 ^ 31 - 2) -> exists n l, rounded_up q n /\ (0 < n)%Z /\
     fsample_interval s e dt = Ok l /\ Z.of_nat (length l) = (n + 1)%Z /\
     Forall finite l /\ val (hd B754_nan l) = val s /\ val (last l B754_nan) = val e /\
     forall i x, nth_error l i = Some x ->
       Rabs (val x - on_the_way (val s) (val e) n (Z.of_nat i)) <= Rmax (Rabs (val s)) (Rabs (val e)) / 2 ^ 51 + / 2 ^ 1073).
Proof.
  intros Fs Fe N P R. destruct (num_samples_case s e dt q Fs Fe P R) as [C1 C2]. unfold fsample_interval. rewrite (feq_false s e Fs Fe N).
  assert (Dec : overflows (val e - val s) \/ ~ overflows (val e - val s)).
  { unfold overflows. destruct (Rle_lt_dec (2 ^ 1024) (Rabs (rd (val e - val s)))); [left; assumption|right; lra]. }
  split; [split|split].
  - intro E. destruct Dec as [D|D]; [left; exact D|]. destruct (Rle_lt_dec q (IZR (2 ^ 31 - 2))) as [L|L]; [|right; exact L].
    destruct (C2 D L) as [_ Q]. rewrite Q in E. discriminate E.
  - intro H. rewrite (C1 H). reflexivity.
  - intros O ->. destruct (C2 O) as [_ ->]; [apply IZR_le; lia|]. replace (Zceil 0) with 0%Z by (symmetry; apply (Zceil_IZR 0)). reflexivity.
  - intros O [Q0 Q]. destruct (C2 O Q) as [_ ->]. cbn [obind]. set (n := Zceil q).
    assert (N0 : (0 < n)%Z). { apply lt_IZR. apply Rlt_le_trans with (1 := Q0). apply Zceil_ub. }
    assert (N1 : (n <= 2 ^ 31 - 2)%Z) by (apply Zceil_glb; exact Q).
    exists n. eexists. split; [apply ceil_rounded_up|]. split; [exact N0|]. split; [reflexivity|].
    set (f := fun ii => fsample s e (n + 1) (Z.of_nat ii)). set (k := Z.to_nat (n + 1)).
    assert (Kn : Z.of_nat k = (n + 1)%Z) by (unfold k; apply Z2Nat.id; lia).
    assert (V : forall ii, (ii < k)%nat -> finite (f ii) /\ val (f ii) = sample_val (val s) (val e) n (Z.of_nat ii)).
    { intros ii H. apply fsample_val; try assumption; lia. }
    split; [rewrite map_length, seq_length; exact Kn|]. split; [|split; [|split]].
    + apply Forall_forall. intros x Hx. apply in_map_iff in Hx as (ii & <- & Hi). apply in_seq in Hi. apply V. lia.
    + assert (E0 : exists k', k = S k') by (destruct k as [|k']; [lia|exists k'; reflexivity]). destruct E0 as [k' ->].
      cbn [seq map hd]. destruct (V 0%nat ltac:(lia)) as [_ ->]. apply sample_first, val_fmt.
    + assert (E0 : exists k', k = S k') by (destruct k as [|k']; [lia|exists k'; reflexivity]). destruct E0 as [k' Ek]. rewrite Ek.
      rewrite seq_S, map_app. cbn [map]. rewrite last_last. cbn [Nat.add]. destruct (V k' ltac:(lia)) as [_ ->].
      replace (Z.of_nat k') with n by lia. apply sample_last; [apply val_fmt|exact N0].
    + intros i x Hx. assert (Hi : (i < k)%nat).
      { assert (nth_error (map f (seq 0 k)) i <> None) as NN by (rewrite Hx; discriminate). apply nth_error_Some in NN. rewrite map_length, seq_length in NN. exact NN. }
      rewrite (map_nth_error f i (seq 0 k) (d := i)) in Hx by (rewrite (nth_error_nth' _ 0%nat) by (rewrite seq_length; exact Hi); rewrite seq_nth by exact Hi; reflexivity).
      injection Hx as <-. destruct (V i Hi) as [_ ->].
      replace (/ 2 ^ 1073) with (bpow radix2 (-1073)).
      * apply sample_close; [lia|lia|apply Rmax_l|apply Rmax_r].
      * change (-1073)%Z with (- (1073))%Z. rewrite bpow_opp. f_equal. exact (bpow_pow 1073).
Qed.
(** The spacing that results. *)
Lemma spacing s e dt q n : finite dt -> 0 < val dt -> step_ratio s e dt q -> rounded_up q n -> (0 < n)%Z ->
  Rabs (val e - val s) / IZR n <= val dt * (1 + / 2 ^ 51).
Proof.
  intros F P [[-> _]|[_ Q]] [_ U] N; [discriminate F|]. assert (N1 : 1 <= IZR n) by (apply IZR_le; lia). pose proof u_small as Hu.
  assert (Hu' : u = / 2 ^ 53) by apply u_val.
  set (D := Rabs (val e - val s)) in *. assert (D0 : 0 <= D) by apply Rabs_pos.
  assert (T1 : D * (1 - u) <= rd D).
  { unfold D. rewrite rd_abs. destruct (FLT_plus_error_N_ex radix2 (-1074) 53 (fun x => negb (Z.even x)) (val e) (- val s)) as (eps & B & E).
    - apply val_fmt.
    - apply generic_format_opp, val_fmt.
    - fold (rd (val e + - val s)) in E. change (val e - val s) with (val e + - val s). rewrite E, Rabs_mult. apply Rmult_le_compat_l; [apply Rabs_pos|].
      assert (Be : Rabs eps <= u).
      { apply Rle_trans with (1 := B). assert (Q' : u_ro radix2 53 = u).
        { unfold u_ro, u. change (/ 2) with (bpow radix2 (-1)). rewrite <- bpow_plus. reflexivity. }
        rewrite Q'. apply Rmult_le_reg_r with (1 + u); [lra|]. unfold Rdiv. rewrite Rmult_assoc, Rinv_l by lra. nra. }
      apply Rabs_le_inv in Be. rewrite Rabs_right; lra. }
  set (T := rd D) in *. assert (T0 : 0 <= T) by (apply rd_ge0, D0).
  assert (R0 : 0 <= T / val dt) by (apply Rmult_le_pos; [exact T0|apply Rlt_le, Rinv_0_lt_compat, P]).
  assert (T2 : T / val dt * (1 - u) <= IZR n).
  { destruct (Rle_lt_dec (bpow radix2 (-1022)) (T / val dt)) as [B|B].
    - destruct (rd_rel (T / val dt)) as (eps & Be & E); [rewrite Rabs_right by lra; exact B|]. rewrite <- Q in E.
      fold u in Be. apply Rabs_le_inv in Be. rewrite E in U. nra.
    - assert (bpow radix2 (-1022) <= 1) by (apply (bpow_le radix2 (-1022) 0); lia). nra. }
  assert (T3 : T * (1 - u) <= IZR n * val dt).
  { replace (T * (1 - u)) with (T / val dt * (1 - u) * val dt) by (field; lra). apply Rmult_le_compat_r; [lra|exact T2]. }
  assert (T4 : D * ((1 - u) * (1 - u)) <= IZR n * val dt) by nra.
  apply Rmult_le_reg_r with (IZR n); [lra|]. unfold Rdiv. rewrite Rmult_assoc, Rinv_l, Rmult_1_r by lra.
  assert (I : 1 <= (1 + / 2 ^ 51) * ((1 - u) * (1 - u))) by (rewrite Hu'; lra).
  assert (D <= D * ((1 + / 2 ^ 51) * ((1 - u) * (1 - u)))) by nra.
  assert (D * ((1 - u) * (1 - u)) * (1 + / 2 ^ 51) <= IZR n * val dt * (1 + / 2 ^ 51)) by (apply Rmult_le_compat_r; lra). lra.
Qed.

Lemma sample_list s e dt n : feq s e = false -> fnum_samples s e dt = Ok (Z.of_nat n) ->
  fsample_interval s e dt = Ok (map (fun ii => fsample s e (Z.of_nat n) (Z.of_nat ii)) (seq 0 n)).
Proof. intros A B. unfold fsample_interval. rewrite A, B. cbn [obind]. rewrite Nat2Z.id. reflexivity. Qed.
