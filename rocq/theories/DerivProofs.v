(** Rules of differentiation for curves of vectors, matrices and rotations. *)
From Verif Require Import RotSpec GeomModel RotProofs CoeffProofs DerivSpec.
Local Open Scope R_scope.

(** ** Scalar rules in applied form *)
Lemma dl_eq f x l l' : derivable_pt_lim f x l -> l = l' -> derivable_pt_lim f x l'.
Proof. intros H <-. exact H. Qed.
Lemma dl_ext f g x l : (forall t, f t = g t) -> derivable_pt_lim f x l -> derivable_pt_lim g x l.
Proof.
  intros E H eps He. destruct (H eps He) as (d & Hd). exists d. intros h H0 H1.
  rewrite <- !E. apply Hd; assumption.
Qed.
(** Functions equal near the point. *)
Lemma dl_ext_near f g x l (r : R) : 0 < r -> (forall t, Rabs (t - x) < r -> f t = g t) ->
  derivable_pt_lim f x l -> derivable_pt_lim g x l.
Proof.
  intros Rp E H eps He. destruct (H eps He) as (d & Hd).
  assert (M : 0 < Rmin d r) by (apply Rmin_pos; [apply d|exact Rp]).
  exists (mkposreal _ M). cbn. intros h H0 H1.
  rewrite <- !E.
  - apply Hd; [exact H0|]. eapply Rlt_le_trans; [exact H1|apply Rmin_l].
  - replace (x - x) with 0 by ring. rewrite Rabs_R0. exact Rp.
  - replace (x + h - x) with h by ring. eapply Rlt_le_trans; [exact H1|apply Rmin_r].
Qed.
Lemma dl_const c x : derivable_pt_lim (fun _ => c) x 0.
Proof. apply derivable_pt_lim_const. Qed.
Lemma dl_id x : derivable_pt_lim (fun t => t) x 1.
Proof. apply derivable_pt_lim_id. Qed.
Lemma dl_plus f g x a b : derivable_pt_lim f x a -> derivable_pt_lim g x b ->
  derivable_pt_lim (fun t => f t + g t) x (a + b).
Proof. apply derivable_pt_lim_plus. Qed.
Lemma dl_minus f g x a b : derivable_pt_lim f x a -> derivable_pt_lim g x b ->
  derivable_pt_lim (fun t => f t - g t) x (a - b).
Proof. apply derivable_pt_lim_minus. Qed.
Lemma dl_opp f x a : derivable_pt_lim f x a -> derivable_pt_lim (fun t => - f t) x (- a).
Proof. apply derivable_pt_lim_opp. Qed.
Lemma dl_mult f g x a b : derivable_pt_lim f x a -> derivable_pt_lim g x b ->
  derivable_pt_lim (fun t => f t * g t) x (a * g x + f x * b).
Proof. apply derivable_pt_lim_mult. Qed.
Lemma dl_comp g f x a b : derivable_pt_lim f x a -> derivable_pt_lim g (f x) b ->
  derivable_pt_lim (fun t => g (f t)) x (b * a).
Proof. intros. apply (derivable_pt_lim_comp f g); assumption. Qed.
Lemma dl_cos f x a : derivable_pt_lim f x a ->
  derivable_pt_lim (fun t => cos (f t)) x (- sin (f x) * a).
Proof. intro H. apply (dl_comp cos f); [exact H|apply derivable_pt_lim_cos]. Qed.
Lemma dl_sin f x a : derivable_pt_lim f x a ->
  derivable_pt_lim (fun t => sin (f t)) x (cos (f x) * a).
Proof. intro H. apply (dl_comp sin f); [exact H|apply derivable_pt_lim_sin]. Qed.
Lemma dl_sqrt f x a : derivable_pt_lim f x a -> 0 < f x ->
  derivable_pt_lim (fun t => sqrt (f t)) x (/ (2 * sqrt (f x)) * a).
Proof. intros H P. apply (dl_comp sqrt f); [exact H|apply derivable_pt_lim_sqrt, P]. Qed.
Lemma dl_div f g x a b : derivable_pt_lim f x a -> derivable_pt_lim g x b -> g x <> 0 ->
  derivable_pt_lim (fun t => f t / g t) x ((a * g x - b * f x) / Rsqr (g x)).
Proof. apply derivable_pt_lim_div. Qed.

(** Differentiate a sum of products, given the derivatives of the leaves. *)
Ltac dl_core :=
  first
    [ eassumption
    | apply dl_const
    | apply dl_id
    | apply dl_plus; dl_core
    | apply dl_minus; dl_core
    | apply dl_opp; dl_core
    | apply dl_mult; dl_core
    | apply dl_cos; dl_core
    | apply dl_sin; dl_core ].
Ltac dl := eapply dl_eq; [dl_core|cbv beta].

(** ** Vector rules *)
Ltac dsplit :=
  repeat match goal with
         | H : dV _ _ _ |- _ => destruct H as (? & ? & ?)
         | H : dM _ _ _ |- _ =>
             destruct H as ((? & ? & ?) & (? & ? & ?) & (? & ? & ?))
         end;
  unfold dV, dM; repeat match goal with |- _ /\ _ => split end.

Lemma dV_eq p t a b : dV p t a -> a = b -> dV p t b.
Proof. intros H <-. exact H. Qed.
Lemma dM_eq p t a b : dM p t a -> a = b -> dM p t b.
Proof. intros H <-. exact H. Qed.
Lemma dV_ext p q t a : (forall s, p s = q s) -> dV p t a -> dV q t a.
Proof. intros E H. dsplit; eapply dl_ext; try eassumption; intro s; cbn beta; rewrite E; reflexivity. Qed.
Lemma dM_ext p q t a : (forall s, p s = q s) -> dM p t a -> dM q t a.
Proof. intros E H. dsplit; eapply dl_ext; try eassumption; intro s; cbn beta; rewrite E; reflexivity. Qed.
Lemma dV_const c t : dV (fun _ => c) t vzero.
Proof. dsplit; apply dl_const. Qed.
Definition mzero3 : mat3 := M3 0 0 0 0 0 0 0 0 0.
Lemma dM_const c t : dM (fun _ => c) t mzero3.
Proof. dsplit; apply dl_const. Qed.
Lemma dV_add p q t a b : dV p t a -> dV q t b -> dV (fun s => vadd (p s) (q s)) t (vadd a b).
Proof. intros. dsplit; apply dl_plus; assumption. Qed.
Lemma dV_sub p q t a b : dV p t a -> dV q t b -> dV (fun s => vsub (p s) (q s)) t (vsub a b).
Proof. intros. dsplit; apply dl_minus; assumption. Qed.
Lemma dV_neg p t a : dV p t a -> dV (fun s => vneg (p s)) t (vneg a).
Proof. intros. dsplit; apply dl_opp; assumption. Qed.
Lemma dV_scale f p t f' a : derivable_pt_lim f t f' -> dV p t a ->
  dV (fun s => vscale (f s) (p s)) t (vadd (vscale f' (p t)) (vscale (f t) a)).
Proof. intros. dsplit; cbn [vscale vadd vx vy vz]; apply dl_mult; assumption. Qed.
Lemma dV_scale_l f v t f' : derivable_pt_lim f t f' ->
  dV (fun s => vscale (f s) v) t (vscale f' v).
Proof. intros. dsplit; cbn [vscale vx vy vz]; (dl; [ring]). Qed.
Lemma dV_scale_r k p t a : dV p t a -> dV (fun s => vscale k (p s)) t (vscale k a).
Proof. intros. dsplit; cbn [vscale vx vy vz]; (dl; [ring]). Qed.
Lemma dV_cross p q t a b : dV p t a -> dV q t b ->
  dV (fun s => cross (p s) (q s)) t (vadd (cross a (q t)) (cross (p t) b)).
Proof. intros. dsplit; cbn [cross vadd vx vy vz]; (dl; [ring]). Qed.
Lemma dl_dot p q t a b : dV p t a -> dV q t b ->
  derivable_pt_lim (fun s => dot (p s) (q s)) t (dot a (q t) + dot (p t) b).
Proof. intros. dsplit. unfold dot. dl. ring. Qed.
Lemma dV_mvec m p t m' a : dM m t m' -> dV p t a ->
  dV (fun s => mvec (m s) (p s)) t (vadd (mvec m' (p t)) (mvec (m t) a)).
Proof. intros. dsplit; cbn [mvec vadd vx vy vz]; (dl; [ring]). Qed.
Lemma dM_mmul m n t m' n' : dM m t m' -> dM n t n' ->
  dM (fun s => mmul (m s) (n s)) t (madd (mmul m' (n t)) (mmul (m t) n')).
Proof.
  intros. dsplit; cbn [mmul madd m00 m01 m02 m10 m11 m12 m20 m21 m22]; (dl; [ring]).
Qed.
Lemma dM_mtrans m t m' : dM m t m' -> dM (fun s => mtrans (m s)) t (mtrans m').
Proof. intros. dsplit; assumption. Qed.
Lemma dM_madd m n t m' n' : dM m t m' -> dM n t n' ->
  dM (fun s => madd (m s) (n s)) t (madd m' n').
Proof. intros. dsplit; apply dl_plus; assumption. Qed.
Lemma dM_mscale f m t f' m' : derivable_pt_lim f t f' -> dM m t m' ->
  dM (fun s => mscale (f s) (m s)) t (madd (mscale f' (m t)) (mscale (f t) m')).
Proof.
  intros. dsplit; cbn [mscale madd m00 m01 m02 m10 m11 m12 m20 m21 m22]; apply dl_mult; assumption.
Qed.
Lemma dM_cross_matrix p t a : dV p t a -> dM (fun s => cross_matrix (p s)) t (cross_matrix a).
Proof.
  intros. dsplit; cbn [cross_matrix m00 m01 m02 m10 m11 m12 m20 m21 m22];
    try apply dl_const; try apply dl_opp; assumption.
Qed.
Lemma dV_chain p f t a f' : derivable_pt_lim f t f' -> dV p (f t) a ->
  dV (fun s => p (f s)) t (vscale f' a).
Proof.
  intros. dsplit; cbn [vscale vx vy vz]; eapply dl_eq.
  1: apply (dl_comp (fun s => vx (p s)) f); eassumption. ring.
  1: apply (dl_comp (fun s => vy (p s)) f); eassumption. ring.
  1: apply (dl_comp (fun s => vz (p s)) f); eassumption. ring.
Qed.

(** ** Rotation about a fixed axis *)
Lemma dM_angle_axis f f' t u : unit_vec u -> derivable_pt_lim f t f' ->
  dM (fun s => angle_axis_matrix (f s) u) t
     (mscale f' (mmul (cross_matrix u) (angle_axis_matrix (f t) u))).
Proof.
  intros U D. unfold unit_vec, norm2 in U. destruct u as [x y z]. vsimpl.
  assert (X : x * x = 1 - y * y - z * z) by lra.
  dsplit; unfold angle_axis_matrix, cross_matrix; vsimpl; dl; ring [X].
Qed.
Lemma dM_mexp_line f f' t v : derivable_pt_lim f t f' ->
  dM (fun s => mexp (vscale (f s) v)) t
     (mmul (cross_matrix (vscale f' v)) (mexp (vscale (f t) v))).
Proof.
  intro D. destruct (vec3_polar v) as (u & U & E). rewrite E. set (n := norm v).
  apply dM_ext with (p := fun s => angle_axis_matrix (f s * n) u).
  { intro s. rewrite vscale_vscale, mexp_unit by exact U. reflexivity. }
  rewrite !vscale_vscale, mexp_unit by exact U.
  eapply dM_eq.
  - apply (dM_angle_axis (fun s => f s * n) (f' * n)); [exact U|]. dl. ring.
  - replace (cross_matrix (vscale (f' * n) u)) with (mscale (f' * n) (cross_matrix u)).
    + rewrite mmul_mscale_l. reflexivity.
    + destruct u. unfold cross_matrix. vsimpl. f_equal; ring.
Qed.
