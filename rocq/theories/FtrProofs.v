(** The exact rides. *)
From Coq Require Import Reals Lra Lia List.
From Flocq Require Import Core BinarySingleNaN.
From Verif Require Import Cpp Vec RotSpec GeomModel RotProofs DerivSpec DerivProofs FloatModel FloatSpec DriftModel DriftSpec SpinModel SpinSpec TlogProofs FtsModel FtsSpec FtcModel FtcSpec FpsModel FpsSpec FpcModel FpcSpec FpcProofs FtrModel FtrSpec.
Import ListNotations.
Local Open Scope R_scope.

Lemma dM_columns m t m' : (forall v, dV (fun s => mvec (m s) v) t (mvec m' v)) -> dM m t m'.
Proof.
  intro H. destruct (H (V3 1 0 0)) as (X0 & X1 & X2). destruct (H (V3 0 1 0)) as (Y0 & Y1 & Y2). destruct (H (V3 0 0 1)) as (Z0 & Z1 & Z2). unfold mvec in *. cbn [vx vy vz] in *.
  assert (G : forall f g a b, (forall s, f s = g s) -> a = b -> derivable_pt_lim f t a -> derivable_pt_lim g t b) by (intros f g a b E <-; apply dl_ext; exact E).
  dsplit; first [solve [eapply G; [| |exact X0]; intros; cbv beta; ring]|solve [eapply G; [| |exact X1]; intros; cbv beta; ring]|solve [eapply G; [| |exact X2]; intros; cbv beta; ring]|solve [eapply G; [| |exact Y0]; intros; cbv beta; ring]|solve [eapply G; [| |exact Y1]; intros; cbv beta; ring]|solve [eapply G; [| |exact Y2]; intros; cbv beta; ring]|solve [eapply G; [| |exact Z0]; intros; cbv beta; ring]|solve [eapply G; [| |exact Z1]; intros; cbv beta; ring]|solve [eapply G; [| |exact Z2]; intros; cbv beta; ring]].
Qed.
(** What is seen from the body determines the body. *)
Definition body_of (p : flight) : ride :=
  Ride (mtrans (turned p)) (vneg (mvec (mtrans (turned p)) (place p))) (vneg (vel (spin p))) (vneg (slide p)) (vneg (acc (spin p))) (vneg (surge p)).
Lemma vneg_neg v : vneg (vneg v) = v.
Proof. destruct v as [a b c]. unfold vneg. cbn [vx vy vz]. f_equal; ring. Qed.
Lemma mvec_vneg m v : mvec m (vneg v) = vneg (mvec m v).
Proof. vring. Qed.
Lemma mid_vec v : mvec mid v = v.
Proof. vring. Qed.
Lemma body_world x : is_rotation (facing x) -> body_of (world_of x) = x.
Proof.
  destruct x as [r p w v w' v']. cbn [facing]. intro H. unfold body_of, world_of, turned. cbn [facing spot swing drive swing' drive' spin rot vel acc place slide surge].
  rewrite mtrans_mtrans, mvec_vneg, !vneg_neg, <- mvec_mmul, rot_mtrans_r, mid_vec by exact H. reflexivity.
Qed.
Lemma world_body p : is_rotation (turned p) -> world_of (body_of p) = p.
Proof.
  destruct p as [[r w a] p v s]. unfold turned. cbn [spin rot]. intro H. unfold body_of, world_of, turned. cbn [facing spot swing drive swing' drive' spin rot vel acc place slide surge].
  rewrite mtrans_mtrans, mvec_vneg, !vneg_neg, <- mvec_mmul, rot_mtrans_r, mid_vec by exact H. reflexivity.
Qed.
(** The journey consists of poses. *)
Lemma between_turned orig dest t p : is_rotation (turned orig) -> between_poses orig dest t p -> is_rotation (turned p).
Proof.
  intros R (w & v & x1 & x2 & x3 & x4 & x5 & _ & ((T1 & _) & _) & ((T2 & _) & _) & ((T3 & _) & _) & ((T4 & _) & _) & ((T5 & _) & _) & ->). unfold turned in *. cbn [spin rot upon on_top].
  repeat apply rot_mmul; try exact R; eapply rotation_by_rotation; eassumption.
Qed.
Lemma journey_turned cs t p : pproper cs -> on_journey cs t p -> is_rotation (turned p).
Proof.
  intros (_ & F & _) (i & a & b & (A & _) & _ & q & B & ->). change (is_rotation (turned q)). eapply between_turned; [|exact B]. change (is_rotation (turned (pat_flight a))). exact (proj1 (Forall_forall _ _) F a (nth_error_In _ _ A)).
Qed.
(** How the points of the body move. *)
Lemma carries_rides p t : carries_at p t -> rides_at (fun s => body_of (p s)) t.
Proof.
  intros (C & C1 & C2). assert (Z : forall m, mvec m vzero = vzero) by (intro m; unfold vzero; vring).
  assert (P : dV (fun s => place (p s)) t (vadd (cross (vel (spin (p t))) (place (p t))) (slide (p t)))).
  { specialize (C vzero). cbv beta zeta in C. rewrite Z in C. eapply dV_eq; [eapply dV_ext; [|exact C]|].
    - intro s. cbv beta. rewrite Z. generalize (place (p s)). intros [? ? ?]. unfold vzero. vring.
    - cbv beta. f_equal. f_equal. generalize (place (p t)). intros [? ? ?]. unfold vzero. vring. }
  assert (M : dM (fun s => rot (spin (p s))) t (mmul (cross_matrix (vel (spin (p t)))) (rot (spin (p t))))).
  { apply dM_columns. intro v. pose proof (dV_sub _ _ _ _ _ (C v) P) as D. cbv zeta in D. eapply dV_eq; [eapply dV_ext; [|exact D]|].
    - intro s. cbv beta. generalize (mvec (rot (spin (p s))) v), (place (p s)). intros [? ? ?] [? ? ?]. vring.
    - rewrite mvec_mmul. generalize (mvec (rot (spin (p t))) v), (place (p t)), (vel (spin (p t))), (slide (p t)). intros [? ? ?] [? ? ?] [? ? ?] [? ? ?]. unfold cross_matrix. vring. }
  split; [|split].
  - intro y. unfold body_of, turned. cbn [facing spot swing drive].
    pose proof (dV_mvec _ _ _ _ _ (dM_mtrans _ _ _ M) (dV_sub _ _ _ _ _ (dV_const y t) P)) as D. cbv beta in D. eapply dV_eq; [eapply dV_ext; [|exact D]|].
    + intro s. cbv beta. generalize (rot (spin (p s))), (place (p s)). intros [? ? ? ? ? ? ? ? ?] [? ? ?]. vring.
    + generalize (rot (spin (p t))), (place (p t)), (vel (spin (p t))), (slide (p t)). intros [? ? ? ? ? ? ? ? ?] [? ? ?] [? ? ?] [? ? ?]. unfold cross_matrix, vzero. vring.
  - exact (dV_neg _ _ _ C1).
  - exact (dV_neg _ _ _ C2).
Qed.
Definition worlds (cs : list rcontrol) : list pcontrol := map (fun c => PControl (rat_time c) (world_of (rat_ride c))) cs.
Lemma worlds_nth cs i : nth_error (worlds cs) i = match nth_error cs i with Some c => Some (PControl (rat_time c) (world_of (rat_ride c))) | None => None end.
Proof. unfold worlds. rewrite nth_error_map. destruct (nth_error cs i); reflexivity. Qed.
Lemma worlds_follow cs i x y : follow (worlds cs) i x y -> exists a b, follow cs i a b /\ x = PControl (rat_time a) (world_of (rat_ride a)) /\ y = PControl (rat_time b) (world_of (rat_ride b)).
Proof. intros [X Y]. rewrite worlds_nth in X, Y. destruct (nth_error cs i) as [a|] eqn:A; [|discriminate]. destruct (nth_error cs (S i)) as [b|] eqn:B; [|discriminate]. exists a, b. split; [split; assumption|]. split; congruence. Qed.
Lemma worlds_proper cs : rproper cs -> pproper (worlds cs).
Proof.
  intros (L & R & F). split; [unfold worlds; rewrite map_length; exact L|]. split.
  - apply Forall_map. eapply Forall_impl; [|exact R]. intros c H. cbn. apply rot_mtrans, H.
  - intros i x y H. destruct (worlds_follow cs i x y H) as (a & b & G & -> & ->). cbn [pat_time pat_flight]. destruct (F i a b G) as (T & w & W & N). split; [exact T|]. exists w. unfold turned, world_of. cbn [spin rot]. rewrite mtrans_mtrans. auto.
Qed.
Lemma worlds_from_to cs first last : rfrom_to cs first last -> pfrom_to (worlds cs) first last.
Proof.
  intros ((a & A & TA) & (b & B & TB)). split; eexists; rewrite worlds_nth; [rewrite A|unfold worlds; rewrite map_length, B]; split; try reflexivity; assumption.
Qed.
Lemma the_ride cs first last : rproper cs -> rfrom_to cs first last ->
  exists x, (forall t q, on_ride cs t q <-> first <= t <= last /\ q = x t) /\
    (forall c, In c cs -> x (rat_time c) = rat_ride c) /\ (forall t, first < t < last -> rides_at x t).
Proof.
  intros Pr FT. destruct (the_journey (worlds cs) first last (worlds_proper _ Pr) (worlds_from_to _ _ _ FT)) as (p & J & C & M). exists (fun t => body_of (p t)). split; [|split].
  - intros t q. split.
    + intro O. destruct (proj1 (J t _) O) as [T E]. split; [exact T|]. rewrite <- E. symmetry. apply body_world. pose proof (journey_turned _ _ _ (worlds_proper _ Pr) O) as R. unfold turned, world_of in R. cbn [spin rot] in R. rewrite <- (mtrans_mtrans (facing q)). apply rot_mtrans, R.
    + intros [T ->]. assert (O : on_journey (worlds cs) t (p t)) by (apply J; auto). unfold on_ride. fold (worlds cs). rewrite world_body; [exact O|]. exact (journey_turned _ _ _ (worlds_proper _ Pr) O).
  - intros c I. assert (E : p (rat_time c) = world_of (rat_ride c)). { specialize (C (PControl (rat_time c) (world_of (rat_ride c)))). apply C. exact (in_map (fun c => PControl (rat_time c) (world_of (rat_ride c))) cs c I). }
    rewrite E. apply body_world. destruct Pr as (_ & R & _). exact (proj1 (Forall_forall _ _) R c I).
  - intros t T. apply carries_rides, M, T.
Qed.
