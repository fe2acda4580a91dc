(** The exact motions: composed and inverted rides and flights. *)
From Coq Require Import Reals Lra.
From Flocq Require Import Core BinarySingleNaN.
From Verif Require Import Cpp Vec RotSpec GeomModel RotProofs LieProofs DerivSpec DerivProofs FloatModel FloatSpec NrmSpec DriftModel DriftSpec SpinModel SpinSpec TlogProofs FtsModel FtsSpec FpsModel FpsSpec FpsProofs6 FtrModel FtrSpec FtrProofs FmjModel FmjSpec.
Local Open Scope R_scope.

Lemma matrix_turns_r r a v : mvec (mmul r (cross_matrix a)) v = mvec r (cross a v).
Proof. destruct a as [a1 a2 a3], v as [v1 v2 v3], r as [r1 r2 r3 r4 r5 r6 r7 r8 r9]. unfold cross_matrix. vring. Qed.
Lemma matrix_turns_t r a v : mvec (mtrans (mmul r (cross_matrix a))) v = vneg (cross a (mvec (mtrans r) v)).
Proof. destruct a as [a1 a2 a3], v as [v1 v2 v3], r as [r1 r2 r3 r4 r5 r6 r7 r8 r9]. unfold cross_matrix. vring. Qed.
Lemma mvec_zero m : mvec m vzero = vzero.
Proof. unfold vzero. vring. Qed.
Lemma mvec_add m v w : mvec m (vadd v w) = vadd (mvec m v) (mvec m w).
Proof. vring. Qed.
(** Rides by their matrices. *)
Definition rides_m (x : R -> ride) (t : R) : Prop :=
  dM (fun s => facing (x s)) t (mmul (facing (x t)) (cross_matrix (swing (x t)))) /\ dV (fun s => spot (x s)) t (mvec (facing (x t)) (drive (x t))) /\
  dV (fun s => swing (x s)) t (swing' (x t)) /\ dV (fun s => drive (x s)) t (drive' (x t)).
Lemma rides_matrix x t : rides_at x t <-> rides_m x t.
Proof.
  split.
  - intros (C & C1 & C2).
    assert (P : dV (fun s => spot (x s)) t (mvec (facing (x t)) (drive (x t)))).
    { specialize (C vzero). rewrite mvec_add in C. eapply dV_eq; [eapply dV_ext; [|exact C]|].
      - intro s. cbv beta. rewrite mvec_zero. generalize (spot (x s)). intros [? ? ?]. unfold vzero. vring.
      - replace (cross (swing (x t)) vzero) with vzero by (generalize (swing (x t)); intros [? ? ?]; unfold vzero; vring). rewrite mvec_zero. generalize (mvec (facing (x t)) (drive (x t))). intros [? ? ?]. unfold vzero. vring. }
    split; [|split; [exact P|split; [exact C1|exact C2]]].
    apply dM_columns. intro v. pose proof (dV_sub _ _ _ _ _ (C v) P) as D. eapply dV_eq; [eapply dV_ext; [|exact D]|].
    + intro s. cbv beta. generalize (mvec (facing (x s)) v), (spot (x s)). intros [? ? ?] [? ? ?]. vring.
    + rewrite matrix_turns_r, mvec_add. generalize (mvec (facing (x t)) (cross (swing (x t)) v)), (mvec (facing (x t)) (drive (x t))). intros [? ? ?] [? ? ?]. vring.
  - intros (M & P & C1 & C2). split; [|split; assumption]. intro y.
    pose proof (dV_add _ _ _ _ _ (dV_mvec _ _ _ _ _ M (dV_const y t)) P) as D. cbv beta in D. eapply dV_eq; [exact D|]. rewrite matrix_turns_r, mvec_zero, mvec_add. generalize (mvec (facing (x t)) (cross (swing (x t)) y)), (mvec (facing (x t)) (drive (x t))). intros [? ? ?] [? ? ?]. unfold vzero. vring.
Qed.
Lemma riding_rides x y t : is_rotation (facing (y t)) -> rides_at x t -> rides_at y t -> rides_at (fun s => riding (x s) (y s)) t.
Proof.
  intros Ro HX HY. apply rides_matrix in HX. apply rides_matrix in HY. apply rides_matrix. destruct HX as (MX & PX & WX & VX). destruct HY as (MY & PY & WY & VY).
  pose proof (dM_mtrans _ _ _ MY) as TY. pose proof (rot_mtrans _ Ro) as Rt.
  (* how a vector that is seen from [y] changes *)
  assert (SEEN : forall (v : R -> vec3) v', dV v t v' -> dV (fun s => mvec (mtrans (facing (y s))) (v s)) t (vsub (mvec (mtrans (facing (y t))) v') (cross (swing (y t)) (mvec (mtrans (facing (y t))) (v t))))).
  { intros v v' D. eapply dV_eq; [exact (dV_mvec _ _ _ _ _ TY D)|]. cbv beta. rewrite matrix_turns_t. generalize (cross (swing (y t)) (mvec (mtrans (facing (y t))) (v t))), (mvec (mtrans (facing (y t))) v'). intros [? ? ?] [? ? ?]. vring. }
  unfold rides_m. cbn [riding facing spot swing drive swing' drive']. split; [|split; [|split]].
  - apply dM_columns. intro v. pose proof (dV_mvec _ _ _ _ _ (dM_mmul _ _ _ _ _ MX MY) (dV_const v t)) as D. cbv beta in D. eapply dV_eq; [exact D|].
    rewrite mvec_zero, matrix_turns_r. replace (mvec (mmul (facing (x t)) (facing (y t))) (cross (vadd (swing (y t)) (mvec (mtrans (facing (y t))) (swing (x t)))) v))
      with (vadd (mvec (facing (x t)) (mvec (facing (y t)) (cross (swing (y t)) v))) (mvec (facing (x t)) (cross (swing (x t)) (mvec (facing (y t)) v)))).
    2: { rewrite mvec_mmul. replace (cross (vadd (swing (y t)) (mvec (mtrans (facing (y t))) (swing (x t)))) v) with (vadd (cross (swing (y t)) v) (cross (mvec (mtrans (facing (y t))) (swing (x t))) v))
        by (generalize (swing (y t)), (mvec (mtrans (facing (y t))) (swing (x t))); intros [? ? ?] [? ? ?]; destruct v; vring).
      rewrite mvec_add, <- (rot_cross (facing (y t)) (mvec (mtrans (facing (y t))) (swing (x t)))) by exact Ro. rewrite mvec_inv_r by exact Ro. rewrite mvec_add. reflexivity. }
    replace (mvec (madd (mmul (mmul (facing (x t)) (cross_matrix (swing (x t)))) (facing (y t))) (mmul (facing (x t)) (mmul (facing (y t)) (cross_matrix (swing (y t)))))) v)
      with (vadd (mvec (mmul (facing (x t)) (cross_matrix (swing (x t)))) (mvec (facing (y t)) v)) (mvec (facing (x t)) (mvec (mmul (facing (y t)) (cross_matrix (swing (y t)))) v))).
    + rewrite !matrix_turns_r. generalize (mvec (facing (x t)) (mvec (facing (y t)) (cross (swing (y t)) v))), (mvec (facing (x t)) (cross (swing (x t)) (mvec (facing (y t)) v))). intros [? ? ?] [? ? ?]. unfold vzero. vring.
    + rewrite <- !mvec_mmul. generalize (mmul (mmul (facing (x t)) (cross_matrix (swing (x t)))) (facing (y t))), (mmul (facing (x t)) (mmul (facing (y t)) (cross_matrix (swing (y t))))). intros [? ? ? ? ? ? ? ? ?] [? ? ? ? ? ? ? ? ?]. destruct v. vring.
  - eapply dV_eq; [exact (dV_add _ _ _ _ _ (dV_mvec _ _ _ _ _ MX PY) PX)|]. cbv beta. rewrite matrix_turns_r, mvec_mmul, mvec_add, mvec_inv_r by exact Ro. rewrite !mvec_add.
    generalize (mvec (facing (x t)) (cross (swing (x t)) (spot (y t)))), (mvec (facing (x t)) (mvec (facing (y t)) (drive (y t)))), (mvec (facing (x t)) (drive (x t))). intros [? ? ?] [? ? ?] [? ? ?]. vring.
  - eapply dV_eq; [exact (dV_add _ _ _ _ _ WY (SEEN _ _ WX))|]. cbv beta. generalize (mvec (mtrans (facing (y t))) (swing' (x t))), (cross (swing (y t)) (mvec (mtrans (facing (y t))) (swing (x t)))), (swing' (y t)). intros [? ? ?] [? ? ?] [? ? ?]. vring.
  - eapply dV_eq; [exact (dV_add _ _ _ _ _ VY (SEEN _ _ (dV_add _ _ _ _ _ VX (dV_cross _ _ _ _ _ WX PY))))|]. cbv beta.
    generalize (mvec (mtrans (facing (y t))) (vadd (drive' (x t)) (vadd (cross (swing' (x t)) (spot (y t))) (cross (swing (x t)) (mvec (facing (y t)) (drive (y t))))))), (cross (swing (y t)) (mvec (mtrans (facing (y t))) (vadd (drive (x t)) (cross (swing (x t)) (spot (y t)))))), (drive' (y t)). intros [? ? ?] [? ? ?] [? ? ?]. vring.
Qed.
Lemma reverse_rides x t : is_rotation (facing (x t)) -> rides_at x t -> rides_at (fun s => reverse (x s)) t.
Proof.
  intros Ro HX. apply rides_matrix in HX. apply rides_matrix. destruct HX as (M & P & W & V). pose proof (rot_mtrans _ Ro) as Rt. pose proof (dM_mtrans _ _ _ M) as TM.
  assert (CZ : forall a, cross a a = vzero) by (intros [? ? ?]; unfold vzero; vring).
  pose proof (dV_mvec _ _ _ _ _ M W) as DW. pose proof (dV_mvec _ _ _ _ _ M V) as DV. cbv beta in DW, DV. rewrite matrix_turns_r in DW, DV. rewrite CZ, mvec_zero in DW.
  assert (DW' : dV (fun s => mvec (facing (x s)) (swing (x s))) t (mvec (facing (x t)) (swing' (x t)))) by (eapply dV_eq; [exact DW|]; generalize (mvec (facing (x t)) (swing' (x t))); intros [? ? ?]; unfold vzero; vring).
  unfold rides_m. cbn [reverse facing spot swing drive swing' drive']. split; [|split; [|split]].
  - apply dM_columns. intro v. pose proof (dV_mvec _ _ _ _ _ TM (dV_const v t)) as D. cbv beta in D. eapply dV_eq; [exact D|]. rewrite mvec_zero, matrix_turns_t, matrix_turns_r.
    replace (cross (vneg (mvec (facing (x t)) (swing (x t)))) v) with (vneg (cross (mvec (facing (x t)) (swing (x t))) v)) by (generalize (mvec (facing (x t)) (swing (x t))); intros [? ? ?]; destruct v; vring).
    rewrite mvec_vneg, <- rot_cross by exact Rt. rewrite mvec_inv_l by exact Ro. generalize (cross (swing (x t)) (mvec (mtrans (facing (x t))) v)). intros [? ? ?]. unfold vzero. vring.
  - eapply dV_eq; [exact (dV_neg _ _ _ (dV_mvec _ _ _ _ _ TM P))|]. cbv beta. rewrite matrix_turns_t, mvec_sub, <- rot_cross by exact Rt. rewrite !mvec_inv_l by exact Ro. generalize (cross (swing (x t)) (mvec (mtrans (facing (x t))) (spot (x t)))), (drive (x t)). intros [? ? ?] [? ? ?]. vring.
  - exact (dV_neg _ _ _ DW').
  - eapply dV_eq; [exact (dV_sub _ _ _ _ _ (dV_cross _ _ _ _ _ DW' P) DV)|]. cbv beta. rewrite <- (rot_cross (facing (x t)) (swing (x t)) (drive (x t))) by exact Ro.
    generalize (cross (mvec (facing (x t)) (swing (x t))) (mvec (facing (x t)) (drive (x t)))), (cross (mvec (facing (x t)) (swing' (x t))) (spot (x t))), (mvec (facing (x t)) (drive' (x t))). intros [? ? ?] [? ? ?] [? ? ?]. vring.
Qed.
(** Together they cancel. *)
Lemma reverse_rotation x : is_rotation (facing x) -> is_rotation (facing (reverse x)).
Proof. exact (rot_mtrans _). Qed.
Lemma riding_rotation x y : is_rotation (facing x) -> is_rotation (facing y) -> is_rotation (facing (riding x y)).
Proof. exact (rot_mmul _ _). Qed.
Lemma ride_eq f s w v w' v' f0 s0 w0 v0 w0' v0' : f = f0 -> s = s0 -> w = w0 -> v = v0 -> w' = w0' -> v' = v0' -> Ride f s w v w' v' = Ride f0 s0 w0 v0 w0' v0'.
Proof. intros; subst; reflexivity. Qed.
Lemma cross_r a m v : is_rotation m -> cross (mvec (mtrans m) a) v = mvec (mtrans m) (cross a (mvec m v)).
Proof. intro Ro. rewrite <- rot_cross by exact (rot_mtrans _ Ro). rewrite mvec_inv_l by exact Ro. reflexivity. Qed.
Lemma reverse_left x : is_rotation (facing x) -> riding (reverse x) x = resting.
Proof.
  intro Ro. pose proof (rot_mtrans _ Ro) as Rt. destruct x as [f s w v w' v']. cbn [facing] in *. unfold riding, reverse, resting. cbn [facing spot swing drive swing' drive'].
  assert (A : forall a, mvec (mtrans f) (mvec f a) = a) by (intro; apply mvec_inv_l, Ro).
  assert (D : vadd (vsub (cross (mvec f w) s) (mvec f v)) (cross (vneg (mvec f w)) s) = vneg (mvec f v)) by (generalize (mvec f w), (mvec f v); intros [? ? ?] [? ? ?]; destruct s; vring).
  assert (D2 : vadd (vsub (cross (mvec f w') s) (mvec f v')) (vadd (cross (vneg (mvec f w')) s) (cross (vneg (mvec f w)) (mvec f v))) = vneg (vadd (mvec f v') (cross (mvec f w) (mvec f v)))) by (generalize (mvec f w), (mvec f v), (mvec f w'), (mvec f v'); intros [? ? ?] [? ? ?] [? ? ?] [? ? ?]; destruct s; vring).
  rewrite D, D2, rot_cross, <- mvec_add, !mvec_neg, !A by exact Ro. apply ride_eq; try (destruct w, v, w', v'; unfold vzero; vring).
  exact (rot_mtrans_l _ Ro).
Qed.
Lemma reverse_right x : is_rotation (facing x) -> riding x (reverse x) = resting.
Proof.
  intro Ro. pose proof (rot_mtrans _ Ro) as Rt. destruct x as [f s w v w' v']. cbn [facing] in *. unfold riding, reverse, resting. cbn [facing spot swing drive swing' drive'].
  assert (A : forall a, mvec f (mvec (mtrans f) a) = a) by (intro; apply mvec_inv_r, Ro). assert (B : forall a, mvec (mtrans f) (mvec f a) = a) by (intro; apply mvec_inv_l, Ro).
  assert (TT : mtrans (mtrans f) = f) by (destruct f; reflexivity). rewrite TT.
  assert (C : forall a b, cross (mvec f a) b = mvec f (cross a (mvec (mtrans f) b))) by (intros a b; rewrite <- rot_cross by exact Ro; rewrite A; reflexivity).
  assert (G : forall a, vneg (mvec f a) = mvec f (vneg a)) by (intro; symmetry; apply mvec_neg). assert (S : forall a b, vsub (mvec f a) (mvec f b) = mvec f (vsub a b)) by (intros; symmetry; apply mvec_sub).
  assert (GT : forall a, vneg (mvec (mtrans f) a) = mvec (mtrans f) (vneg a)) by (intro; symmetry; apply mvec_neg).
  rewrite !C, !S, !B. set (p := mvec (mtrans f) s). 
  replace (cross (vneg (mvec f w)) (mvec f w)) with vzero by (generalize (mvec f w); intros [? ? ?]; unfold vzero; vring).
  rewrite !G. repeat rewrite (rot_cross f) by exact Ro. repeat rewrite <- (mvec_add f). rewrite !S. apply ride_eq.
  - exact (rot_mtrans_r _ Ro).
  - unfold p. rewrite mvec_neg, A. destruct s; unfold vzero; vring.
  - rewrite <- (mvec_zero f). f_equal. destruct w; unfold vzero; vring.
  - rewrite <- (mvec_zero f). f_equal. generalize p. intros [? ? ?]. destruct w, v. unfold vzero. vring.
  - replace (vadd (vneg w') w') with vzero by (destruct w'; unfold vzero; vring). rewrite mvec_zero. unfold vzero. vring.
  - rewrite <- (mvec_zero f). f_equal. generalize p. intros [? ? ?]. destruct w, v, w', v'. unfold vzero. vring.
Qed.
(** Flights: the inverse is carried along as well. *)
Lemma undone_rotation x : is_rotation (rot (spin x)) -> is_rotation (rot (spin (undone x))).
Proof. exact (rot_mtrans _). Qed.
Lemma undone_carries p t : is_rotation (rot (spin (p t))) -> carries_at p t -> carries_at (fun s => undone (p s)) t.
Proof.
  intros Ro (C & C1 & C2). pose proof (rot_mtrans _ Ro) as Rt.
  assert (CZ : forall a, cross a a = vzero) by (intros [? ? ?]; unfold vzero; vring).
  assert (P : dV (fun s => place (p s)) t (vadd (cross (vel (spin (p t))) (place (p t))) (slide (p t)))).
  { specialize (C vzero). cbv beta zeta in C. rewrite mvec_zero in C. eapply dV_eq; [eapply dV_ext; [|exact C]|].
    - intro s. cbv beta. rewrite mvec_zero. generalize (place (p s)). intros [? ? ?]. unfold vzero. vring.
    - cbv beta. f_equal. f_equal. generalize (place (p t)). intros [? ? ?]. unfold vzero. vring. }
  assert (M : dM (fun s => rot (spin (p s))) t (mmul (cross_matrix (vel (spin (p t)))) (rot (spin (p t))))).
  { apply dM_columns. intro v. pose proof (dV_sub _ _ _ _ _ (C v) P) as D. cbv zeta in D. eapply dV_eq; [eapply dV_ext; [|exact D]|].
    - intro s. cbv beta. generalize (mvec (rot (spin (p s))) v), (place (p s)). intros [? ? ?] [? ? ?]. vring.
    - rewrite matrix_turns. generalize (mvec (rot (spin (p t))) v), (place (p t)), (vel (spin (p t))), (slide (p t)). intros [? ? ?] [? ? ?] [? ? ?] [? ? ?]. vring. }
  pose proof (dM_mtrans _ _ _ M) as TM.
  assert (TT : forall a r v, mvec (mtrans (mmul (cross_matrix a) r)) v = vneg (mvec (mtrans r) (cross a v))) by (intros [? ? ?] [? ? ? ? ? ? ? ? ?] [? ? ?]; unfold cross_matrix; vring).
  assert (BACK : forall (v : R -> vec3) v', dV v t v' -> dV (fun s => vneg (mvec (mtrans (rot (spin (p s)))) (v s))) t (mvec (mtrans (rot (spin (p t)))) (vsub (cross (vel (spin (p t))) (v t)) v'))).
  { intros v v' D. eapply dV_eq; [exact (dV_neg _ _ _ (dV_mvec _ _ _ _ _ TM D))|]. cbv beta. rewrite TT, mvec_sub. generalize (mvec (mtrans (rot (spin (p t)))) (cross (vel (spin (p t))) (v t))), (mvec (mtrans (rot (spin (p t)))) v'). intros [? ? ?] [? ? ?]. vring. }
  split; [|split].
  - intros y at_time. unfold at_time. clear at_time. unfold undone. cbn [spin place slide rot vel].
    pose proof (BACK _ _ (dV_sub _ _ _ _ _ P (dV_const y t))) as D. cbv beta in D. eapply dV_eq; [eapply dV_ext; [|exact D]|].
    + intro s. cbv beta. generalize (rot (spin (p s))), (place (p s)). intros [? ? ? ? ? ? ? ? ?] [? ? ?]. destruct y. vring.
    + set (w := vel (spin (p t))). set (l := slide (p t)). set (q := place (p t)). set (T := mtrans (rot (spin (p t)))).
      replace (vadd (mvec T y) (vneg (mvec T q))) with (mvec T (vsub y q)) by (rewrite mvec_sub; generalize (mvec T y), (mvec T q); intros [? ? ?] [? ? ?]; vring).
      rewrite <- !mvec_neg, rot_cross, <- mvec_add by exact Rt. f_equal. destruct y. generalize w l q. intros [? ? ?] [? ? ?] [? ? ?]. unfold vzero. vring.
  - cbn [undone spin vel acc]. eapply dV_eq; [exact (BACK _ _ C1)|]. cbv beta. rewrite CZ, <- mvec_neg. f_equal. generalize (acc (spin (p t))). intros [? ? ?]. unfold vzero. vring.
  - cbn [undone spin slide surge]. eapply dV_eq; [exact (BACK _ _ (dV_add _ _ _ _ _ (dV_cross _ _ _ _ _ C1 P) C2))|]. cbv beta. rewrite <- mvec_neg. f_equal.
    generalize (vel (spin (p t))), (acc (spin (p t))), (place (p t)), (slide (p t)), (surge (p t)). intros [? ? ?] [? ? ?] [? ? ?] [? ? ?] [? ? ?]. vring.
Qed.
(** One flight on top of another, at one time. *)
Lemma carries_parts p t : carries_at p t -> dM (fun s => rot (spin (p s))) t (mmul (cross_matrix (vel (spin (p t)))) (rot (spin (p t)))) /\
  dV (fun s => place (p s)) t (vadd (cross (vel (spin (p t))) (place (p t))) (slide (p t))).
Proof.
  intros (C & _). assert (P : dV (fun s => place (p s)) t (vadd (cross (vel (spin (p t))) (place (p t))) (slide (p t)))).
  { specialize (C vzero). cbv beta zeta in C. rewrite mvec_zero in C. eapply dV_eq; [eapply dV_ext; [|exact C]|].
    - intro s. cbv beta. rewrite mvec_zero. generalize (place (p s)). intros [? ? ?]. unfold vzero. vring.
    - cbv beta. f_equal. f_equal. generalize (place (p t)). intros [? ? ?]. unfold vzero. vring. }
  split; [|exact P]. apply dM_columns. intro v. pose proof (dV_sub _ _ _ _ _ (C v) P) as D. cbv zeta in D. eapply dV_eq; [eapply dV_ext; [|exact D]|].
  - intro s. cbv beta. generalize (mvec (rot (spin (p s))) v), (place (p s)). intros [? ? ?] [? ? ?]. vring.
  - rewrite matrix_turns. generalize (mvec (rot (spin (p t))) v), (place (p t)), (vel (spin (p t))), (slide (p t)). intros [? ? ?] [? ? ?] [? ? ?] [? ? ?]. vring.
Qed.
Lemma upon_carries_at p q t : is_rotation (rot (spin (p t))) -> carries_at p t -> carries_at q t -> carries_at (fun s => upon (p s) (q s)) t.
Proof.
  intros Ro HP HQ. destruct (carries_parts p t HP) as (RP & P1). destruct (carries_parts q t HQ) as (RQ & Q1). destruct HP as (CP & WP & P2). destruct HQ as (CQ & WQ & Q2).
  pose proof (dV_mvec _ _ _ _ _ RP Q1) as A1. pose proof (dV_mvec _ _ _ _ _ RP WQ) as A2. pose proof (dV_mvec _ _ _ _ _ RP Q2) as A3. cbv beta in A1, A2, A3. rewrite matrix_turns in A1, A2, A3.
  split; [|split].
  - intros y at_time. unfold at_time. clear at_time. cbn [upon on_top spin rot vel place slide]. set (z := vadd (mvec (rot (spin (q t))) y) (place (q t))).
    pose proof (dV_add _ _ _ _ _ (dV_mvec _ _ _ _ _ RP (CQ y)) P1) as D. cbv beta zeta in D. fold z in D. rewrite matrix_turns in D. eapply dV_eq; [eapply dV_ext; [|exact D]|].
    + intro s. cbv beta. rewrite mvec_mmul, mvec_add. generalize (mvec (rot (spin (p s))) (mvec (rot (spin (q s))) y)), (mvec (rot (spin (p s))) (place (q s))), (place (p s)). intros [? ? ?] [? ? ?] [? ? ?]. vring.
    + replace (vadd (mvec (mmul (rot (spin (p t))) (rot (spin (q t)))) y) (vadd (mvec (rot (spin (p t))) (place (q t))) (place (p t)))) with (vadd (mvec (rot (spin (p t))) z) (place (p t)))
        by (unfold z; rewrite mvec_mmul, mvec_add; generalize (mvec (rot (spin (p t))) (mvec (rot (spin (q t))) y)), (mvec (rot (spin (p t))) (place (q t))), (place (p t)); intros [? ? ?] [? ? ?] [? ? ?]; vring).
      rewrite (mvec_add _ (cross (vel (spin (q t))) z)), <- rot_cross by exact Ro.
      generalize (mvec (rot (spin (p t))) z), (mvec (rot (spin (p t))) (vel (spin (q t)))), (mvec (rot (spin (p t))) (slide (q t))), (vel (spin (p t))), (place (p t)), (slide (p t)). intros [? ? ?] [? ? ?] [? ? ?] [? ? ?] [? ? ?] [? ? ?]. vring.
  - cbn [upon on_top spin vel acc]. eapply dV_eq; [exact (dV_add _ _ _ _ _ WP A2)|]. cbv beta. generalize (mvec (rot (spin (p t))) (vel (spin (q t)))), (mvec (rot (spin (p t))) (acc (spin (q t)))), (vel (spin (p t))), (acc (spin (p t))). intros [? ? ?] [? ? ?] [? ? ?] [? ? ?]. vring.
  - cbn [upon on_top spin slide surge vel]. eapply dV_eq; [exact (dV_add _ _ _ _ _ P2 (dV_add _ _ _ _ _ (dV_cross _ _ _ _ _ P1 A2) A3))|]. cbv beta.
    generalize (mvec (rot (spin (p t))) (vel (spin (q t)))), (mvec (rot (spin (p t))) (acc (spin (q t)))), (mvec (rot (spin (p t))) (slide (q t))), (mvec (rot (spin (p t))) (surge (q t))), (vel (spin (p t))), (place (p t)), (slide (p t)), (surge (p t)). intros [? ? ?] [? ? ?] [? ? ?] [? ? ?] [? ? ?] [? ? ?] [? ? ?] [? ? ?]. vring.
Qed.
