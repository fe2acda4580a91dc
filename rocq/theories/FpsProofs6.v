(** The exact motion between two poses. *)
From Coq Require Import Reals Lra Lia Psatz.
From Flocq Require Import Core BinarySingleNaN.
From Verif Require Import Cpp RotSpec ScrewSpec GeomModel RotProofs DerivSpec DerivProofs DiffProofs LieProofs JetLaws FloatModel FloatSpec NrmSpec NrmProofs Vec DriftModel DriftSpec DriftProofs SpinModel SpinSpec SpinProofs2 TwistModel TlogModel TlogProofs TlogProofs2 TlogProofs4 TlogProofs5 TlogProofs6 TwistProofs3 SlogModel SlogProofs SlogProofs2 SlogProofs5 SlogProofs6 QfModel QfSpec QfProofs FdcSpec FdcProofs2 FtsModel FtsSpec FtsProofs4 FtsProofs5 FpsModel FpsSpec FpsProofs5.
Local Open Scope R_scope.

Definition carries_m (p : R -> flight) : Prop := moves_m (fun t => spin (p t)) /\
  forall t, dV (fun s => place (p s)) t (vadd (cross (vel (spin (p t))) (place (p t))) (slide (p t))) /\ dV (fun s => slide (p s)) t (surge (p t)).
Lemma carries_matrix p : carries_m p -> carries p.
Proof.
  intros [M P] t. destruct (moves_matrix _ M t) as [M1 M2]. destruct (P t) as [P1 P2]. split; [|split; [exact M2|exact P2]].
  intros x at_time. unfold at_time. eapply dV_eq; [exact (dV_add _ _ _ _ _ (M1 x) P1)|]. cbv beta. generalize (vel (spin (p t))), (mvec (rot (spin (p t))) x), (place (p t)), (slide (p t)). intros [? ? ?] [? ? ?] [? ? ?] [? ? ?]. vring.
Qed.
Lemma matrix_turns a r v : mvec (mmul (cross_matrix a) r) v = cross a (mvec r v).
Proof. destruct a as [a1 a2 a3], v as [v1 v2 v3]. unfold mvec, mmul, cross_matrix, cross. cbn [vx vy vz m00 m01 m02 m10 m11 m12 m20 m21 m22]. f_equal; ring. Qed.
Lemma upon_carries p q : (forall t, is_rotation (rot (spin (p t)))) -> carries_m p -> carries_m q -> carries_m (fun t => upon (p t) (q t)).
Proof.
  intros Ro [MP P] [MQ Q]. split; [exact (on_top_moves _ _ Ro MP MQ)|]. intro t. destruct (MP t) as [RP WP]. destruct (MQ t) as [RQ WQ]. destruct (P t) as [P1 P2]. destruct (Q t) as [Q1 Q2]. specialize (Ro t). cbv beta in *.
  cbn [upon on_top spin place slide surge vel].
  pose proof (dV_mvec _ _ _ _ _ RP Q1) as A1. pose proof (dV_mvec _ _ _ _ _ RP WQ) as A2. pose proof (dV_mvec _ _ _ _ _ RP Q2) as A3. cbv beta in A1, A2, A3. rewrite matrix_turns in A1, A2, A3. split.
  - eapply dV_eq; [exact (dV_add _ _ _ _ _ A1 P1)|]. cbv beta.
    assert (C : mvec (rot (spin (p t))) (vadd (cross (vel (spin (q t))) (place (q t))) (slide (q t))) = vadd (cross (mvec (rot (spin (p t))) (vel (spin (q t)))) (mvec (rot (spin (p t))) (place (q t)))) (mvec (rot (spin (p t))) (slide (q t)))).
    { rewrite rot_cross by exact Ro. generalize (cross (vel (spin (q t))) (place (q t))), (slide (q t)). intros. vring. }
    rewrite C. generalize (mvec (rot (spin (p t))) (vel (spin (q t)))), (mvec (rot (spin (p t))) (place (q t))), (mvec (rot (spin (p t))) (slide (q t))), (vel (spin (p t))), (place (p t)), (slide (p t)). intros [? ? ?] [? ? ?] [? ? ?] [? ? ?] [? ? ?] [? ? ?]. vring.
  - eapply dV_eq; [exact (dV_add _ _ _ _ _ P2 (dV_add _ _ _ _ _ (dV_cross _ _ _ _ _ P1 A2) A3))|]. cbv beta.
    generalize (mvec (rot (spin (p t))) (vel (spin (q t)))), (mvec (rot (spin (p t))) (acc (spin (q t)))), (mvec (rot (spin (p t))) (slide (q t))), (mvec (rot (spin (p t))) (surge (q t))), (vel (spin (p t))), (place (p t)), (slide (p t)), (surge (p t)). intros [? ? ?] [? ? ?] [? ? ?] [? ? ?] [? ? ?] [? ? ?] [? ? ?] [? ? ?]. vring.
Qed.
Definition screwing (k : weight) (w v : vec3) (t : R) : flight := Flight (turning_state k w t) (screw w v (hermite k t)) (vscale (hermite' k t) v) (vscale (hermite'' k t) v).
Lemma screwing_carries k w v : carries_m (screwing k w v).
Proof.
  split; [exact (turning_moves k w)|]. intro t. destruct (hermite_derivatives k t) as [D1 D2]. cbn [screwing spin place slide surge turning_state vel]. split; [|apply dV_scale_l, D2].
  eapply dV_eq; [exact (dV_chain (screw w v) (hermite k) t _ _ D1 (proj2 (screw_solves w v) _))|]. cbv beta. generalize (screw w v (hermite k t)). intros [? ? ?]. destruct w, v. vring.
Qed.
Lemma screwing_stage k w v t x : screw_stage k w v t x <-> x = screwing k w v t.
Proof.
  split.
  - intros (T & P & V & A). apply turning_part in T. destruct x as [s p l r]. cbn [spin place slide surge] in *. subst. reflexivity.
  - intros ->. split; [apply turning_part; reflexivity|split; [|split]; reflexivity].
Qed.
Definition flight_path (orig dest : flight) (w v : vec3) (t : R) : flight :=
  upon (screwing WAccelerationDest (acc (spin dest)) (surge dest) t) (upon (screwing WAccelerationOrig (acc (spin orig)) (surge orig) t)
    (upon (screwing WVelocityDest (vel (spin dest)) (slide dest) t) (upon (screwing WVelocityOrig (vel (spin orig)) (slide orig) t) (screwing WMotion w v t)))).
Definition flight_from (orig dest : flight) (w v : vec3) (t : R) : flight :=
  let q := flight_path orig dest w v t in
  Flight (State (mmul (rot (spin q)) (rot (spin orig))) (vel (spin q)) (acc (spin q))) (vadd (mvec (rot (spin q)) (place orig)) (place q)) (slide q) (surge q).
Lemma flight_spin orig dest w v t : spin (flight_from orig dest w v t) = way_from (spin orig) (spin dest) w t.
Proof. reflexivity. Qed.
Lemma flight_carries orig dest w v : carries_m (flight_from orig dest w v).
Proof.
  assert (T : forall k a b t, is_rotation (rot (spin (screwing k a b t)))) by (intros; exact (rotation_by_rotation _ _ (mexp_by _))).
  assert (C : carries_m (flight_path orig dest w v)).
  { unfold flight_path. repeat (apply (upon_carries (screwing _ _ _)); [apply T|apply screwing_carries|]). apply screwing_carries. }
  split; [exact (way_moves (spin orig) (spin dest) w)|]. destruct C as [M C]. intro t. destruct (M t) as [M1 M2]. destruct (C t) as [C1 C2]. unfold flight_from. cbv zeta. cbn [spin rot vel acc place slide surge]. split; [|exact C2].
  pose proof (dV_mvec _ _ _ _ _ M1 (dV_const (place orig) t)) as A. cbv beta in A. rewrite matrix_turns in A. eapply dV_eq; [exact (dV_add _ _ _ _ _ A C1)|]. cbv beta.
  generalize (rot (spin (flight_path orig dest w v t))), (place orig). intros m x. replace (mvec m vzero) with vzero by (unfold mvec, vzero; cbn [vx vy vz]; f_equal; ring). generalize (mvec m x), (vel (spin (flight_path orig dest w v t))), (place (flight_path orig dest w v t)), (slide (flight_path orig dest w v t)).
  intros [? ? ?] [? ? ?] [? ? ?] [? ? ?]. vring.
Qed.
Lemma leads_only orig dest w v w' v' : leads w v orig dest -> leads w' v' orig dest -> w' = w /\ v' = v.
Proof.
  intros (R & N & S) (R' & N' & S'). assert (E : w' = w) by exact (only_vector _ _ _ R' R N' N). split; [exact E|]. subst w'. pose proof PI_low.
  rewrite <- (unscrew_screw w v), <- (unscrew_screw w v') by lra. f_equal. revert S S'. generalize (mvec (mmul (rot (spin dest)) (mtrans (rot (spin orig)))) (place orig)), (screw w v 1), (screw w v' 1), (place dest).
  intros [a1 a2 a3] [b1 b2 b3] [c1 c2 c3] [d1 d2 d3]. unfold vadd. cbn [vx vy vz]. intros S S'. injection S as F1 F2 F3. injection S' as E1 E2 E3. f_equal; lra.
Qed.
Lemma between_flight orig dest w v t q : leads w v orig dest -> between_poses orig dest t q <-> q = flight_from orig dest w v t.
Proof.
  intros Le. split.
  - intros (w' & v' & x1 & x2 & x3 & x4 & x5 & L' & T1 & T2 & T3 & T4 & T5 & ->). destruct (leads_only _ _ _ _ _ _ Le L') as [-> ->]. apply screwing_stage in T1, T2, T3, T4, T5. subst. reflexivity.
  - intros ->. exists w, v, (screwing WMotion w v t), (screwing WVelocityOrig (vel (spin orig)) (slide orig) t), (screwing WVelocityDest (vel (spin dest)) (slide dest) t), (screwing WAccelerationOrig (acc (spin orig)) (surge orig) t), (screwing WAccelerationDest (acc (spin dest)) (surge dest) t).
    split; [exact Le|]. repeat (split; [apply screwing_stage; reflexivity|]). reflexivity.
Qed.
(** A motion that has not moved anything yet. *)
Definition here (a b c d : vec3) : flight := Flight (State mid a b) vzero c d.
Lemma upon_still y : upon (here vzero vzero vzero vzero) y = y.
Proof. destruct y as [[r a b] p c d]. unfold upon, here, on_top. cbn [spin place slide surge rot vel acc]. rewrite mmul_1_l. destruct a, b, p, c, d. f_equal; [f_equal|..]; vring. Qed.
Lemma upon_velocity a c r p : upon (here a vzero c vzero) (Flight (State r vzero vzero) p vzero vzero) = Flight (State r a vzero) p c vzero.
Proof. unfold upon, here, on_top. cbn [spin place slide surge rot vel acc]. rewrite mmul_1_l. destruct a, c, p. f_equal; [f_equal|..]; vring. Qed.
Lemma upon_acceleration b d r a p c : upon (here vzero b vzero d) (Flight (State r a vzero) p c vzero) = Flight (State r a b) p c d.
Proof. unfold upon, here, on_top. cbn [spin place slide surge rot vel acc]. rewrite mmul_1_l. destruct a, b, c, d, p. f_equal; [f_equal|..]; vring. Qed.
Lemma screwing_here k w v t : hermite k t = 0 -> screwing k w v t = here (vscale (hermite' k t) w) (vscale (hermite'' k t) w) (vscale (hermite' k t) v) (vscale (hermite'' k t) v).
Proof. intro Z. unfold screwing, turning_state, here. rewrite Z, still, mexp_zero, screw_zero. reflexivity. Qed.
Lemma flight_path_ends orig dest w v :
  flight_path orig dest w v 0 = here (vel (spin orig)) (acc (spin orig)) (slide orig) (surge orig) /\
  flight_path orig dest w v 1 = Flight (State (mexp w) (vel (spin dest)) (acc (spin dest))) (screw w v 1) (slide dest) (surge dest).
Proof.
  assert (S1 : forall a, vscale 1 a = a) by (intros [a b c]; unfold vscale; cbn [vx vy vz]; f_equal; ring). unfold flight_path. split.
  - rewrite !screwing_here by (cbn [hermite]; lra).
    replace (hermite' WMotion 0) with 0 by (cbn [hermite']; lra). replace (hermite'' WMotion 0) with 0 by (cbn [hermite'']; lra). replace (hermite' WVelocityOrig 0) with 1 by (cbn [hermite']; lra). replace (hermite'' WVelocityOrig 0) with 0 by (cbn [hermite'']; lra).
    replace (hermite' WVelocityDest 0) with 0 by (cbn [hermite']; lra). replace (hermite'' WVelocityDest 0) with 0 by (cbn [hermite'']; lra). replace (hermite' WAccelerationOrig 0) with 0 by (cbn [hermite']; lra). replace (hermite'' WAccelerationOrig 0) with 1 by (cbn [hermite'']; lra).
    replace (hermite' WAccelerationDest 0) with 0 by (cbn [hermite']; lra). replace (hermite'' WAccelerationDest 0) with 0 by (cbn [hermite'']; lra).
    rewrite !still, !S1. rewrite !upon_still. change (here vzero vzero vzero vzero) with (Flight (State mid vzero vzero) vzero vzero vzero). rewrite upon_velocity, upon_acceleration. reflexivity.
  - assert (M1 : screwing WMotion w v 1 = Flight (State (mexp w) vzero vzero) (screw w v 1) vzero vzero).
    { unfold screwing, turning_state. replace (hermite WMotion 1) with 1 by (cbn [hermite]; lra). replace (hermite' WMotion 1) with 0 by (cbn [hermite']; lra). replace (hermite'' WMotion 1) with 0 by (cbn [hermite'']; lra). rewrite !still, S1. reflexivity. }
    rewrite M1, !screwing_here by (cbn [hermite]; lra).
    replace (hermite' WVelocityOrig 1) with 0 by (cbn [hermite']; lra). replace (hermite'' WVelocityOrig 1) with 0 by (cbn [hermite'']; lra).
    replace (hermite' WVelocityDest 1) with 1 by (cbn [hermite']; lra). replace (hermite'' WVelocityDest 1) with 0 by (cbn [hermite'']; lra). replace (hermite' WAccelerationOrig 1) with 0 by (cbn [hermite']; lra). replace (hermite'' WAccelerationOrig 1) with 0 by (cbn [hermite'']; lra).
    replace (hermite' WAccelerationDest 1) with 0 by (cbn [hermite']; lra). replace (hermite'' WAccelerationDest 1) with 1 by (cbn [hermite'']; lra).
    rewrite !still, !S1. rewrite !upon_still. rewrite upon_velocity, upon_acceleration. reflexivity.
Qed.
Lemma flight_ends orig dest w v : is_rotation (rot (spin orig)) -> is_rotation (rot (spin dest)) -> leads w v orig dest -> flight_from orig dest w v 0 = orig /\ flight_from orig dest w v 1 = dest.
Proof.
  intros Ro Rd (R & N & SC). destruct (flight_path_ends orig dest w v) as [E0 E1]. unfold flight_from. rewrite E0, E1. clear E0 E1. pose proof (rotation_by_only _ _ _ R (mexp_by w)) as E. cbv zeta. cbn [here spin place slide surge rot vel acc]. rewrite <- E.
  destruct orig as [[ro vo ao] po so uo]. destruct dest as [[rd vd ad] pd sd ud]. cbn [spin place slide surge rot vel acc] in *. split.
  - rewrite mmul_1_l. destruct po. f_equal. vring.
  - rewrite SC, <- mmul_assoc, (rot_mtrans_l ro Ro), mmul_1_r. reflexivity.
Qed.
Lemma leads_some orig dest w : rotation_by w (mmul (rot (spin dest)) (mtrans (rot (spin orig)))) -> norm w <= 3 -> exists v, leads w v orig dest.
Proof.
  intros R N. pose proof PI_low. exists (unscrew w (vsub (place dest) (mvec (mmul (rot (spin dest)) (mtrans (rot (spin orig)))) (place orig)))). split; [exact R|]. split; [exact N|]. rewrite screw_unscrew by lra.
  generalize (mvec (mmul (rot (spin dest)) (mtrans (rot (spin orig)))) (place orig)), (place dest). intros [? ? ?] [? ? ?]. vring.
Qed.
Lemma the_flight orig dest : is_rotation (rot (spin orig)) -> is_rotation (rot (spin dest)) -> (exists w, rotation_by w (mmul (rot (spin dest)) (mtrans (rot (spin orig)))) /\ norm w <= 3) ->
  exists p, (forall t q, between_poses orig dest t q <-> q = p t) /\ p 0 = orig /\ p 1 = dest /\ carries p.
Proof.
  intros Ro Rd (w & R & N). destruct (leads_some orig dest w R N) as [v Le]. exists (flight_from orig dest w v). split; [intros t q; apply (between_flight orig dest w v t q Le)|]. destruct (flight_ends orig dest w v Ro Rd Le) as [E0 E1]. split; [exact E0|]. split; [exact E1|apply carries_matrix, flight_carries].
Qed.
