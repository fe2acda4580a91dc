(** The integral of cos(sqrt t) and its left rectangles. *)
From Coq Require Import Reals Psatz.
From Coquelicot Require Import Coquelicot.
From Verif Require Import FloatModel FloatSpec NrmSpec TexSpec.
Local Open Scope R_scope.

Definition dev (t : R) : R := cos (sqrt t).
Definition slope (t : R) : R := - (sin (sqrt t) * / (2 * sqrt t)).
Definition area (t : R) : R := 2 * (sqrt t * sin (sqrt t) + cos (sqrt t)).

Lemma abs_sin x : 0 <= x -> Rabs (sin x) <= x.
Proof.
  intro H. destruct (MVT_gen sin 0 x cos) as (c & _ & E).
  - intros y _. apply is_derive_Reals, derivable_pt_lim_sin.
  - intros y _. apply derivable_continuous_pt, derivable_pt_sin.
  - rewrite sin_0, !Rminus_0_r in E. rewrite E, Rabs_mult, (Rabs_pos_eq x H). pose proof (COS_bound c). assert (Rabs (cos c) <= 1) by (apply Rabs_le; lra). nra.
Qed.
Lemma sin_minus x : 0 <= x -> Rabs (sin x - x * cos x) <= x * x * x.
Proof.
  intro H. destruct (MVT_gen (fun x => sin x - x * cos x) 0 x (fun x => x * sin x)) as (c & [A B] & E).
  - intros y _. auto_derive; [auto|ring].
  - intros y _. apply continuity_pt_filterlim. apply (ex_derive_continuous (fun x => sin x - x * cos x)). auto_derive. auto.
  - rewrite sin_0, Rmult_0_l, !Rminus_0_r in E. rewrite E. rewrite Rmin_left, Rmax_right in * by lra.
    rewrite !Rabs_mult, (Rabs_pos_eq x), (Rabs_pos_eq c) by lra. pose proof (abs_sin c A). pose proof (Rabs_pos (sin c)). assert (c * Rabs (sin c) <= x * x) by nra. nra.
Qed.
Lemma dev_derive t : 0 < t -> is_derive dev t (slope t).
Proof. intro H. pose proof (sqrt_lt_R0 t H). unfold dev, slope. auto_derive; [auto|]. field. lra. Qed.
Lemma area_derive t : 0 < t -> is_derive area t (dev t).
Proof. intro H. pose proof (sqrt_lt_R0 t H). unfold area, dev. auto_derive; [auto|]. field. lra. Qed.
Lemma slope_bound t : 0 < t -> Rabs (slope t) <= / 2.
Proof.
  intro H. pose proof (sqrt_lt_R0 t H) as P. unfold slope. rewrite Rabs_Ropp, Rabs_mult. pose proof (abs_sin (sqrt t) ltac:(lra)).
  rewrite (Rabs_pos_eq (/ _)) by (left; apply Rinv_0_lt_compat; lra). apply Rmult_le_reg_r with (2 * sqrt t); [lra|]. rewrite Rmult_assoc, Rinv_l by lra. lra.
Qed.
Lemma slope_derive t : 0 < t -> is_derive slope t ((sin (sqrt t) - sqrt t * cos (sqrt t)) / (4 * (sqrt t * sqrt t * sqrt t))).
Proof. intro H. pose proof (sqrt_lt_R0 t H). unfold slope. auto_derive; [split; [lra|split; [|auto]; lra]|]. field. lra. Qed.
Lemma slope_lipschitz a b : 0 < a -> 0 < b -> Rabs (slope b - slope a) <= / 4 * Rabs (b - a).
Proof.
  intros A B. destruct (MVT_gen slope a b (fun t => (sin (sqrt t) - sqrt t * cos (sqrt t)) / (4 * (sqrt t * sqrt t * sqrt t)))) as (c & C & E).
  - intros y Y. apply slope_derive. pose proof (Rmin_pos a b A B). lra.
  - intros y Y. apply continuity_pt_filterlim. apply (ex_derive_continuous slope). eexists. apply slope_derive. pose proof (Rmin_pos a b A B). lra.
  - rewrite E, Rabs_mult. apply Rmult_le_compat_r; [apply Rabs_pos|]. assert (P : 0 < c) by (pose proof (Rmin_pos a b A B); lra). pose proof (sqrt_lt_R0 c P) as Q.
    set (x := sqrt c) in *. assert (X : 0 < x * x * x) by (apply Rmult_lt_0_compat; [|lra]; apply Rmult_lt_0_compat; lra). unfold Rdiv. rewrite Rabs_mult.
    rewrite (Rabs_pos_eq (/ _)) by (left; apply Rinv_0_lt_compat; lra). pose proof (sin_minus x ltac:(lra)).
    apply Rmult_le_reg_r with (4 * (x * x * x)); [lra|]. rewrite Rmult_assoc, Rinv_l by lra. lra.
Qed.
Lemma dev_continuous t : continuous dev t.
Proof. unfold dev. apply (continuous_comp sqrt cos); [apply continuous_sqrt|apply continuous_cos]. Qed.
Lemma area_continuous t : continuous area t.
Proof.
  unfold area. apply (continuous_mult (fun _ => 2)); [apply continuous_const|]. apply (continuous_plus (fun t => sqrt t * sin (sqrt t))).
  - apply (continuous_mult sqrt); [apply continuous_sqrt|]. apply (continuous_comp sqrt sin); [apply continuous_sqrt|apply continuous_sin].
  - apply dev_continuous.
Qed.
Lemma mean_value (f g : R -> R) a b : a < b -> (forall t, a < t < b -> is_derive f t (g t)) -> (forall t, a <= t <= b -> continuous f t) -> exists c, a < c < b /\ f b - f a = g c * (b - a).
Proof.
  intros L D C. assert (P : forall t, a < t < b -> derivable_pt f t) by (intros t T; exists (g t); apply is_derive_Reals, D, T).
  assert (Q : forall t, a < t < b -> derivable_pt id t) by (intros; apply derivable_pt_id).
  destruct (MVT f id a b P Q L) as (c & K & E).
  - intros t T. apply continuity_pt_filterlim. apply C, T.
  - intros t _. apply derivable_continuous_pt, derivable_pt_id.
  - exists c. split; [exact K|]. replace (derive_pt id c (Q c K)) with 1 in E by (symmetry; rewrite (pr_nu id c (Q c K) (derivable_pt_id c)); apply derive_pt_id).
    assert (X : derive_pt f c (P c K) = g c) by (apply derive_pt_eq, is_derive_Reals, D, K). rewrite X in E. unfold id in E. lra.
Qed.
Lemma dev_step a b : 0 <= a -> a < b -> exists c, a < c < b /\ dev b - dev a = slope c * (b - a).
Proof. intros A B. apply mean_value; [exact B|intros t T; apply dev_derive; lra|intros; apply dev_continuous]. Qed.
Lemma area_step a b : 0 <= a -> a < b -> exists c, a < c < b /\ area b - area a = dev c * (b - a).
Proof. intros A B. apply mean_value; [exact B|intros t T; apply area_derive; lra|intros; apply area_continuous]. Qed.
Lemma dev_lipschitz a b : 0 <= a -> 0 <= b -> Rabs (dev b - dev a) <= / 2 * Rabs (b - a).
Proof.
  intros A B. destruct (Rtotal_order a b) as [L|[->|L]].
  - destruct (dev_step a b A L) as (c & C & ->). rewrite Rabs_mult. apply Rmult_le_compat_r; [apply Rabs_pos|]. apply slope_bound. lra.
  - rewrite !Rminus_eq_0, Rabs_R0. lra.
  - rewrite Rabs_minus_sym, (Rabs_minus_sym b). destruct (dev_step b a B L) as (c & C & ->). rewrite Rabs_mult. apply Rmult_le_compat_r; [apply Rabs_pos|]. apply slope_bound. lra.
Qed.
Lemma dev_bound t : Rabs (dev t) <= 1.
Proof. apply Rabs_le, COS_bound. Qed.

(** ** One rectangle *)
Lemma rectangle a h : 0 <= a -> 0 < h -> Rabs (area (a + h) - area a - h / 2 * (dev a + dev (a + h))) <= h * h * h / 8.
Proof.
  intros A H. set (f s := area (a + s) - s / 2 * (dev a + dev (a + s))). set (g s := (dev (a + s) - dev a) / 2 - s / 2 * slope (a + s)).
  destruct (mean_value f g 0 h H) as (c & [C D] & E).
  - intros t [T _]. unfold f, g. evar_last. { apply (is_derive_minus (fun s => area (a + s)) (fun s => s / 2 * (dev a + dev (a + s)))).
      - apply (is_derive_comp area (fun s => a + s)); [apply area_derive; lra|]. auto_derive; [auto|reflexivity].
      - apply (is_derive_mult (fun s => s / 2) (fun s => dev a + dev (a + s))).
        + auto_derive; [auto|reflexivity].
        + apply (is_derive_plus (fun _ => dev a) (fun s => dev (a + s))); [apply is_derive_const|]. apply (is_derive_comp dev (fun s => a + s)); [apply dev_derive; lra|]. auto_derive; [auto|reflexivity].
        + intros x y. apply Rmult_comm. }
    unfold minus, plus, opp, scal, zero, mult; cbn; unfold mult; cbn. field.
  - intros t _. unfold f. apply (continuous_minus (fun s => area (a + s))).
    + apply (continuous_comp (fun s => a + s) area); [|apply area_continuous]. apply (continuous_plus (fun _ => a)); [apply continuous_const|apply continuous_id].
    + apply (continuous_mult (fun s => s / 2)); [apply (ex_derive_continuous (fun s => s / 2)); auto_derive; auto|].
      apply (continuous_plus (fun _ => dev a)); [apply continuous_const|]. apply (continuous_comp (fun s => a + s) dev); [|apply dev_continuous]. apply (continuous_plus (fun _ => a)); [apply continuous_const|apply continuous_id].
  - replace (area (a + h) - area a - h / 2 * (dev a + dev (a + h))) with (f h - f 0) by (unfold f; rewrite Rplus_0_r; lra). rewrite E, Rminus_0_r.
    assert (G : Rabs (g c) <= c * c / 8).
    { unfold g. destruct (dev_step a (a + c) A ltac:(lra)) as (d & X & Y). rewrite Y. replace (slope d * (a + c - a) / 2 - c / 2 * slope (a + c)) with (c / 2 * (slope d - slope (a + c))) by field.
      rewrite Rabs_mult, (Rabs_pos_eq (c / 2)) by lra. pose proof (slope_lipschitz (a + c) d ltac:(lra) ltac:(lra)) as L. rewrite (Rabs_left1 (d - (a + c))) in L by lra.
      apply Rle_trans with (c / 2 * (/ 4 * c)); [|lra]. apply Rmult_le_compat_l; [lra|]. lra. }
    rewrite Rabs_mult, (Rabs_pos_eq h) by lra. apply Rle_trans with (c * c / 8 * h); [apply Rmult_le_compat_r; lra|]. assert (c * c <= h * h) by nra. nra.
Qed.

(** ** All of them *)
Fixpoint rectangles (h : R) (n : nat) : R := match n with O => 0 | S n' => rectangles h n' + dev (INR n' * h) end.
Lemma rectangles_near h n : 0 < h -> Rabs (h * rectangles h n - (area (INR n * h) - 2) - excess (INR n * h) h) <= INR n * (h * h * h / 8).
Proof.
  intro H. unfold excess. fold (dev (INR n * h)). induction n as [|n IH].
  - cbn [rectangles INR]. rewrite !Rmult_0_l, Rmult_0_r. unfold area, dev. rewrite sqrt_0, cos_0, sin_0. replace (0 - (2 * (0 * 0 + 1) - 2) - h / 2 * (1 - 1)) with 0 by lra. rewrite Rabs_R0. lra.
  - cbn [rectangles]. rewrite S_INR. pose proof (rectangle (INR n * h) h ltac:(pose proof (pos_INR n); nra) H) as E. replace ((INR n + 1) * h) with (INR n * h + h) by ring.
    set (x := INR n * h) in *. replace (h * (rectangles h n + dev x) - (area (x + h) - 2) - h / 2 * (1 - dev (x + h))) with
      ((h * rectangles h n - (area x - 2) - h / 2 * (1 - dev x)) - (area (x + h) - area x - h / 2 * (dev x + dev (x + h)))) by lra.
    eapply Rle_trans; [apply Rabs_triang|]. rewrite Rabs_Ropp. lra.
Qed.

(** ** The integral *)
Lemma dev_integrable a b : ex_RInt dev a b.
Proof. apply (ex_RInt_continuous (V := R_CompleteNormedModule) dev). intros z _. apply dev_continuous. Qed.
Lemma area_integral a b : 0 < a -> a <= b -> is_RInt dev a b (area b - area a).
Proof. intros A B. apply (is_RInt_derive area); intros x X; rewrite Rmin_left, Rmax_right in X by lra; [apply area_derive; lra|apply dev_continuous]. Qed.
Lemma integral_is T i : 0 < T -> integral_to T i -> i = area T - 2.
Proof.
  intros P H. unfold integral_to in H. fold dev in H. assert (Z : area 0 = 2) by (unfold area; rewrite sqrt_0, cos_0, sin_0; lra).
  assert (N : forall e, 0 < e <= T -> Rabs (i - (area T - 2)) <= 2 * e).
  { intros e [E L]. destruct (dev_integrable 0 e) as [j J]. pose proof (is_RInt_Chasles _ _ _ _ _ _ J (area_integral e T E L)) as S. pose proof (is_RInt_unique _ _ _ _ S) as S'. rewrite (is_RInt_unique _ _ _ _ H) in S'. unfold plus in S'. cbn in S'.
    assert (B : Rabs j <= e). { pose proof (norm_RInt_le_const dev 0 e j 1 (Rlt_le _ _ E) (fun x _ => dev_bound x) J) as B. cbn in B. unfold norm in B. cbn in B. unfold abs in B. cbn in B. lra. }
    destruct (area_step 0 e (Rle_refl 0) E) as (c & _ & X). rewrite Z, Rminus_0_r in X. rewrite S'. replace (j + (area T - area e) - (area T - 2)) with (j - (area e - 2)) by lra. rewrite X.
    eapply Rle_trans; [apply Rabs_triang|]. rewrite Rabs_Ropp, Rabs_mult, (Rabs_pos_eq e) by lra. pose proof (dev_bound c). nra. }
  destruct (Req_dec (i - (area T - 2)) 0) as [E|E]; [lra|]. exfalso. pose proof (Rabs_pos_lt _ E) as L. set (d := Rabs (i - (area T - 2))) in *.
  pose proof (N (Rmin T (d / 4)) (conj (Rmin_pos T (d / 4) P ltac:(lra)) (Rmin_l _ _))). pose proof (Rmin_r T (d / 4)). lra.
Qed.
Lemma integral_exists T : 0 < T -> integral_to T (area T - 2).
Proof. intro P. destruct (dev_integrable 0 T) as [i I]. rewrite <- (integral_is T i P I). exact I. Qed.
