(** Facts about rotation matrices, quaternions and the exponential map. *)
From Verif Require Import RotSpec GeomModel.
Local Open Scope R_scope.

Lemma vec3_eq a b : vx a = vx b -> vy a = vy b -> vz a = vz b -> a = b.
Proof. destruct a, b. cbn. congruence. Qed.
Lemma mat3_eq a b :
  m00 a = m00 b -> m01 a = m01 b -> m02 a = m02 b ->
  m10 a = m10 b -> m11 a = m11 b -> m12 a = m12 b ->
  m20 a = m20 b -> m21 a = m21 b -> m22 a = m22 b -> a = b.
Proof. destruct a, b. cbn. congruence. Qed.

(** ** Cofactors *)
Definition adj (m : mat3) : mat3 :=
  M3 (m11 m * m22 m - m12 m * m21 m) (m02 m * m21 m - m01 m * m22 m) (m01 m * m12 m - m02 m * m11 m)
     (m12 m * m20 m - m10 m * m22 m) (m00 m * m22 m - m02 m * m20 m) (m02 m * m10 m - m00 m * m12 m)
     (m10 m * m21 m - m11 m * m20 m) (m01 m * m20 m - m00 m * m21 m) (m00 m * m11 m - m01 m * m10 m).
Lemma mmul_adj m : mmul m (adj m) = mscale (det m) mid.
Proof. destruct m. unfold adj, det. vsimpl. f_equal; ring. Qed.
Lemma mscale_1 m : mscale 1 m = m. Proof. vring. Qed.
Lemma rot_adj m : is_rotation m -> adj m = mtrans m.
Proof.
  intros [H D]. rewrite <- (mmul_1_l (adj m)), <- H, <- mmul_assoc, mmul_adj, D, mscale_1.
  apply mmul_1_r.
Qed.
Lemma rot_mtrans_r m : is_rotation m -> mmul m (mtrans m) = mid.
Proof. intro H. rewrite <- (rot_adj m H), mmul_adj. destruct H as [_ ->]. apply mscale_1. Qed.
Lemma rot_mtrans_l m : is_rotation m -> mmul (mtrans m) m = mid.
Proof. intros [H _]. exact H. Qed.

Lemma det_mmul a b : det (mmul a b) = det a * det b.
Proof. destruct a, b. unfold det. vsimpl. ring. Qed.
Lemma det_mtrans a : det (mtrans a) = det a.
Proof. destruct a. unfold det. vsimpl. ring. Qed.

Lemma rot_mid : is_rotation mid.
Proof. split; [vring|]. unfold det. vsimpl. ring. Qed.
Lemma rot_mmul a b : is_rotation a -> is_rotation b -> is_rotation (mmul a b).
Proof.
  intros [Ha Da] [Hb Db]. split.
  - rewrite mtrans_mmul, <- mmul_assoc, (mmul_assoc (mtrans a)), Ha, mmul_1_l. exact Hb.
  - rewrite det_mmul, Da, Db. ring.
Qed.
Lemma rot_mtrans a : is_rotation a -> is_rotation (mtrans a).
Proof.
  intro H. split.
  - rewrite mtrans_mtrans. apply rot_mtrans_r. exact H.
  - rewrite det_mtrans. apply H.
Qed.

(** All the scalar equations of a rotation. *)
Lemma rot_eqs m : is_rotation m ->
  (m00 m * m00 m + m10 m * m10 m + m20 m * m20 m = 1 /\
   m01 m * m01 m + m11 m * m11 m + m21 m * m21 m = 1 /\
   m02 m * m02 m + m12 m * m12 m + m22 m * m22 m = 1 /\
   m00 m * m01 m + m10 m * m11 m + m20 m * m21 m = 0 /\
   m00 m * m02 m + m10 m * m12 m + m20 m * m22 m = 0 /\
   m01 m * m02 m + m11 m * m12 m + m21 m * m22 m = 0) /\
  (m00 m * m00 m + m01 m * m01 m + m02 m * m02 m = 1 /\
   m10 m * m10 m + m11 m * m11 m + m12 m * m12 m = 1 /\
   m20 m * m20 m + m21 m * m21 m + m22 m * m22 m = 1 /\
   m00 m * m10 m + m01 m * m11 m + m02 m * m12 m = 0 /\
   m00 m * m20 m + m01 m * m21 m + m02 m * m22 m = 0 /\
   m10 m * m20 m + m11 m * m21 m + m12 m * m22 m = 0) /\
  (m11 m * m22 m - m12 m * m21 m = m00 m /\ m02 m * m21 m - m01 m * m22 m = m10 m /\
   m01 m * m12 m - m02 m * m11 m = m20 m /\ m12 m * m20 m - m10 m * m22 m = m01 m /\
   m00 m * m22 m - m02 m * m20 m = m11 m /\ m02 m * m10 m - m00 m * m12 m = m21 m /\
   m10 m * m21 m - m11 m * m20 m = m02 m /\ m01 m * m20 m - m00 m * m21 m = m12 m /\
   m00 m * m11 m - m01 m * m10 m = m22 m).
Proof.
  intro H. generalize (rot_adj m H) (rot_mtrans_l m H) (rot_mtrans_r m H).
  destruct m. unfold adj. vsimpl. intros A B C.
  injection A. injection B. injection C. intros. repeat split; assumption.
Qed.

Ltac rot_open m H :=
  destruct (rot_eqs m H) as
    ((?C00 & ?C11 & ?C22 & ?C01 & ?C02 & ?C12) & (?R00 & ?R11 & ?R22 & ?R01 & ?R02 & ?R12) &
     (?A00 & ?A01 & ?A02 & ?A10 & ?A11 & ?A12 & ?A20 & ?A21 & ?A22)).

(** ** Rotations preserve inner and cross products *)
Lemma rot_dot m v w : is_rotation m -> dot (mvec m v) (mvec m w) = dot v w.
Proof.
  intro H. rot_open m H. clear A00 A01 A02 A10 A11 A12 A20 A21 A22 R00 R11 R22 R01 R02 R12.
  destruct m, v as [a b c], w as [d e f]. vsimpl.
  match goal with
  | C1 : _ = 1, C2 : _ = 1, C3 : _ = 1, C4 : _ = 0, C5 : _ = 0, C6 : _ = 0 |- ?l = ?r =>
      idtac
  end.
  transitivity (a*d*1 + b*e*1 + c*f*1 + (a*e+b*d)*0 + (a*f+c*d)*0 + (b*f+c*e)*0); [|ring].
  rewrite <- C00 at 1. rewrite <- C11 at 1. rewrite <- C22 at 1.
  rewrite <- C01 at 1. rewrite <- C02 at 1. rewrite <- C12 at 1. ring.
Qed.
Lemma rot_norm2 m v : is_rotation m -> norm2 (mvec m v) = norm2 v.
Proof. intro H. apply rot_dot. exact H. Qed.
Lemma rot_norm m v : is_rotation m -> norm (mvec m v) = norm v.
Proof. intro H. unfold norm. rewrite rot_norm2; auto. Qed.
Lemma mvec_sub m v w : mvec m (vsub v w) = vsub (mvec m v) (mvec m w). Proof. vring. Qed.
Lemma mvec_neg m v : mvec m (vneg v) = vneg (mvec m v). Proof. vring. Qed.
Lemma rot_cross m v w : is_rotation m -> cross (mvec m v) (mvec m w) = mvec m (cross v w).
Proof.
  intro H. pose proof (rot_adj m H) as A.
  assert (E : cross (mvec m v) (mvec m w) = mvec (mtrans (adj m)) (cross v w)).
  { destruct m, v, w. unfold adj. vsimpl. f_equal; ring. }
  rewrite E, A, mtrans_mtrans. reflexivity.
Qed.

Lemma cross_matrix_mvec a b : mvec (cross_matrix a) b = cross a b.
Proof. destruct a, b. unfold cross_matrix. vsimpl. f_equal; ring. Qed.
Lemma mat3_ext a b : (forall v, mvec a v = mvec b v) -> a = b.
Proof.
  intro H. pose proof (H (V3 1 0 0)) as H0. pose proof (H (V3 0 1 0)) as H1.
  pose proof (H (V3 0 0 1)) as H2. destruct a, b. vsimpl.
  injection H0. injection H1. injection H2. intros. f_equal; lra.
Qed.
Lemma rot_conj_cross m v : is_rotation m ->
  mmul (mmul m (cross_matrix v)) (mtrans m) = cross_matrix (mvec m v).
Proof.
  intro H. apply mat3_ext. intro w.
  rewrite !mvec_mmul, !cross_matrix_mvec, <- rot_cross by exact H.
  rewrite <- mvec_mmul, (rot_mtrans_r m H), mvec_1. reflexivity.
Qed.

(** ** Rodrigues' formula *)
Definition unit_vec (u : vec3) : Prop := norm2 u = 1.

Lemma angle_axis_turned t u v : unit_vec u -> mvec (angle_axis_matrix t u) v = turned t u v.
Proof.
  unfold unit_vec, norm2. intro U. destruct u as [x y z], v as [a b c].
  unfold angle_axis_matrix, turned. vsimpl. f_equal; ring.
Qed.

Lemma angle_axis_rot t u : unit_vec u -> is_rotation (angle_axis_matrix t u).
Proof.
  unfold unit_vec, norm2. intro U. pose proof (sin2_cos2 t) as SC. unfold Rsqr in SC.
  destruct u as [x y z]. unfold angle_axis_matrix. generalize dependent (sin t).
  generalize (cos t). intros c s SC. split.
  - vsimpl.
    assert (X : x * x = 1 - y * y - z * z) by lra.
    assert (S : s * s = 1 - c * c) by lra.
    f_equal; ring [X S].
  - unfold det. vsimpl. assert (X : x * x = 1 - y * y - z * z) by lra.
    assert (S : s * s = 1 - c * c) by lra. ring [X S].
Qed.
Lemma angle_axis_zero : angle_axis_matrix 0 vzero = mid.
Proof. unfold angle_axis_matrix. rewrite cos_0, sin_0. vsimpl. f_equal; ring. Qed.
Lemma angle_axis_0 u : angle_axis_matrix 0 u = mid.
Proof. unfold angle_axis_matrix. rewrite cos_0, sin_0. vsimpl. f_equal; ring. Qed.

(** The matrix of SO3::exp. *)
Definition mexp (v : vec3) : mat3 := angle_axis_matrix (norm v) (normalized v).

Lemma normalized_zero : normalized vzero = vzero.
Proof.
  unfold normalized. destruct (Rlt_dec 0 (norm2 vzero)) as [H|H]; [|reflexivity].
  exfalso. unfold norm2 in H. vsimpl. lra.
Qed.
Lemma norm2_pos v : v <> vzero -> 0 < norm2 v.
Proof.
  intro H. destruct (Req_dec (norm2 v) 0) as [E|E].
  - elim H. apply norm2_zero. exact E.
  - pose proof (norm2_nonneg v). lra.
Qed.
Lemma norm_pos v : v <> vzero -> 0 < norm v.
Proof. intro H. apply sqrt_lt_R0, norm2_pos, H. Qed.
Lemma vec3_zero_dec v : {v = vzero} + {v <> vzero}.
Proof.
  destruct (Req_EM_T (norm2 v) 0) as [E|E].
  - left. apply norm2_zero, E.
  - right. intros ->. apply E. unfold norm2. vsimpl. ring.
Qed.
Lemma normalized_nonzero v : v <> vzero -> normalized v = vscale (/ norm v) v.
Proof.
  intro H. unfold normalized. destruct (Rlt_dec 0 (norm2 v)) as [_|N]; [reflexivity|].
  elim N. apply norm2_pos, H.
Qed.
Lemma normalized_unit v : v <> vzero -> unit_vec (normalized v).
Proof.
  intro H. rewrite normalized_nonzero by exact H. unfold unit_vec.
  rewrite norm2_scale, <- norm_sqr. pose proof (norm_pos v H). field. lra.
Qed.
Lemma mexp_zero : mexp vzero = mid.
Proof. unfold mexp. rewrite normalized_zero, norm_vzero. apply angle_axis_0. Qed.
Lemma mexp_rot v : is_rotation (mexp v).
Proof.
  destruct (vec3_zero_dec v) as [->|H].
  - rewrite mexp_zero. apply rot_mid.
  - apply angle_axis_rot, normalized_unit, H.
Qed.
(** exp of an angle times a unit axis. *)
Lemma angle_axis_neg t u : angle_axis_matrix (- t) (vneg u) = angle_axis_matrix t u.
Proof.
  unfold angle_axis_matrix. rewrite cos_neg, sin_neg. destruct u. vsimpl. f_equal; ring.
Qed.
Lemma unit_norm u : unit_vec u -> norm u = 1.
Proof. unfold unit_vec, norm. intros ->. apply sqrt_1. Qed.
Lemma unit_neg u : unit_vec u -> unit_vec (vneg u).
Proof. unfold unit_vec. intro H. rewrite <- H. vring. Qed.
Lemma mexp_unit_pos t u : unit_vec u -> 0 <= t -> mexp (vscale t u) = angle_axis_matrix t u.
Proof.
  intros U T. destruct (Req_dec t 0) as [->|Tn].
  - rewrite vscale_0, mexp_zero, angle_axis_0. reflexivity.
  - unfold mexp. assert (N : norm (vscale t u) = t).
    { rewrite norm_scale, (unit_norm u U), Rabs_pos_eq by lra. ring. }
    assert (NZ : vscale t u <> vzero).
    { intro E. rewrite E, norm_vzero in N. lra. }
    rewrite normalized_nonzero by exact NZ. rewrite N, vscale_vscale.
    replace (/ t * t) with 1 by (field; lra). rewrite vscale_1. reflexivity.
Qed.
Lemma mexp_unit t u : unit_vec u -> mexp (vscale t u) = angle_axis_matrix t u.
Proof.
  intro U. destruct (Rle_dec 0 t) as [T|T].
  - apply mexp_unit_pos; assumption.
  - replace (vscale t u) with (vscale (- t) (vneg u)) by vring.
    rewrite mexp_unit_pos by (try apply unit_neg; try assumption; lra).
    apply angle_axis_neg.
Qed.
Lemma vec3_polar v : exists u, unit_vec u /\ v = vscale (norm v) u.
Proof.
  destruct (vec3_zero_dec v) as [->|H].
  - exists (V3 1 0 0). split; [unfold unit_vec, norm2; vsimpl; ring|].
    rewrite norm_vzero, vscale_0. reflexivity.
  - exists (normalized v). split; [apply normalized_unit, H|].
    rewrite normalized_nonzero, vscale_vscale by exact H.
    pose proof (norm_pos v H). replace (norm v * / norm v) with 1 by (field; lra).
    rewrite vscale_1. reflexivity.
Qed.

(** One-parameter subgroups. *)
Lemma angle_axis_add s t u : unit_vec u ->
  mmul (angle_axis_matrix s u) (angle_axis_matrix t u) = angle_axis_matrix (s + t) u.
Proof.
  unfold unit_vec, norm2. intro U. destruct u as [x y z]. unfold angle_axis_matrix.
  rewrite cos_plus, sin_plus. vsimpl.
  assert (X : x * x = 1 - y * y - z * z) by lra.
  f_equal; ring [X].
Qed.
Lemma mexp_add s t v : mmul (mexp (vscale s v)) (mexp (vscale t v)) = mexp (vscale (s + t) v).
Proof.
  destruct (vec3_polar v) as (u & U & ->). rewrite !vscale_vscale.
  rewrite !mexp_unit, angle_axis_add by exact U. f_equal. ring.
Qed.
Lemma mexp_neg v : mexp (vneg v) = mtrans (mexp v).
Proof.
  destruct (vec3_polar v) as (u & U & ->).
  replace (vneg (vscale (norm v) u)) with (vscale (- norm v) u) by vring.
  rewrite !mexp_unit by exact U. unfold angle_axis_matrix. rewrite cos_neg, sin_neg.
  destruct u. vsimpl. f_equal; ring.
Qed.

(** Conjugation. *)
Lemma angle_axis_split t u :
  angle_axis_matrix t u =
  madd (madd (mscale (cos t) mid) (mscale (sin t) (cross_matrix u))) (mscale (1 - cos t) (outer u u)).
Proof. destruct u. unfold angle_axis_matrix, cross_matrix. vsimpl. f_equal; ring. Qed.
Lemma mmul_madd_l a b c : mmul (madd a b) c = madd (mmul a c) (mmul b c). Proof. vring. Qed.
Lemma mmul_madd_r a b c : mmul a (madd b c) = madd (mmul a b) (mmul a c). Proof. vring. Qed.
Lemma mmul_mscale_l k a b : mmul (mscale k a) b = mscale k (mmul a b). Proof. vring. Qed.
Lemma mmul_mscale_r k a b : mmul a (mscale k b) = mscale k (mmul a b). Proof. vring. Qed.
Lemma conj_outer m v w : mmul (mmul m (outer v w)) (mtrans m) = outer (mvec m v) (mvec m w).
Proof. vring. Qed.
Lemma angle_axis_conj m t u : is_rotation m ->
  mmul (mmul m (angle_axis_matrix t u)) (mtrans m) = angle_axis_matrix t (mvec m u).
Proof.
  intro H. rewrite !angle_axis_split, !mmul_madd_r, !mmul_madd_l, !mmul_mscale_r, !mmul_mscale_l.
  rewrite mmul_1_r, rot_mtrans_r, rot_conj_cross, conj_outer by exact H. reflexivity.
Qed.
Lemma normalized_rot m v : is_rotation m -> normalized (mvec m v) = mvec m (normalized v).
Proof.
  intro H. unfold normalized. rewrite rot_norm2, rot_norm by exact H.
  destruct (Rlt_dec 0 (norm2 v)); [symmetry; apply mvec_scale|reflexivity].
Qed.
Lemma mexp_conj m v : is_rotation m ->
  mmul (mmul m (mexp v)) (mtrans m) = mexp (mvec m v).
Proof.
  intro H. unfold mexp. rewrite angle_axis_conj by exact H.
  rewrite rot_norm, normalized_rot by exact H. reflexivity.
Qed.

(** ** Quaternions *)
Definition quat_unit (q : quat) : Prop :=
  qw q * qw q + qx q * qx q + qy q * qy q + qz q * qz q = 1.

Lemma quat_matrix_rot q : quat_unit q -> is_rotation (quat_matrix q).
Proof.
  unfold quat_unit. destruct q as [w x y z]. cbn [qw qx qy qz]. intro U.
  assert (W : w * w = 1 - x * x - y * y - z * z) by lra.
  unfold quat_matrix. cbn [qw qx qy qz]. split.
  - vsimpl. f_equal; ring [W].
  - unfold det. vsimpl. ring [W].
Qed.

(** The quaternion computed from a rotation is a unit quaternion with that matrix. *)
Lemma sqrt_facts a : 0 < a -> 0 < sqrt a /\ sqrt a * sqrt a = a.
Proof. intro H. split; [apply sqrt_lt_R0, H|apply sqrt_sqrt; lra]. Qed.

Lemma half_over t : 0 < t -> t * ((1 / 2) / t) = 1 / 2.
Proof. intro. field. lra. Qed.

Section FromScaled.
  (** Matrices of the form "entries are the products of a scaled quaternion". *)
  Variables a00 a01 a02 a10 a11 a12 a20 a21 a22 : R.
  Let m := M3 a00 a01 a02 a10 a11 a12 a20 a21 a22.
  (** 4ww, 4xx, ... *)
  Let ww := 1 + a00 + a11 + a22.
  Let xx := 1 + a00 - a11 - a22.
  Let yy := 1 + a11 - a00 - a22.
  Let zz := 1 + a22 - a00 - a11.
  Let wx := a21 - a12.
  Let wy := a02 - a20.
  Let wz := a10 - a01.
  Let xy := a10 + a01.
  Let xz := a20 + a02.
  Let yz := a21 + a12.
  Hypothesis H : is_rotation m.

  Lemma prods :
    (wx * wx = ww * xx /\ wy * wy = ww * yy /\ wz * wz = ww * zz) /\
    (xy * xy = xx * yy /\ xz * xz = xx * zz /\ yz * yz = yy * zz) /\
    (wx * wy = ww * xy /\ wx * wz = ww * xz /\ wy * wz = ww * yz) /\
    (wx * xy = xx * wy /\ wx * xz = xx * wz /\ xy * xz = xx * yz) /\
    (wy * xy = yy * wx /\ wy * yz = yy * wz /\ xy * yz = yy * xz) /\
    (wz * xz = zz * wx /\ wz * yz = zz * wy /\ xz * yz = zz * xy).
  Proof.
    rot_open m H. unfold m in *. cbn [m00 m01 m02 m10 m11 m12 m20 m21 m22] in *.
    unfold ww, xx, yy, zz, wx, wy, wz, xy, xz, yz. repeat split; lra.
  Qed.

  (** A quaternion with these scaled products has matrix [m]. *)
  Lemma scaled_quat q :
    4 * (qw q * qw q) = ww -> 4 * (qx q * qx q) = xx -> 4 * (qy q * qy q) = yy ->
    4 * (qz q * qz q) = zz -> 4 * (qw q * qx q) = wx -> 4 * (qw q * qy q) = wy ->
    4 * (qw q * qz q) = wz -> 4 * (qx q * qy q) = xy -> 4 * (qx q * qz q) = xz ->
    4 * (qy q * qz q) = yz -> quat_unit q /\ quat_matrix q = m.
  Proof.
    destruct q as [w x y z]. unfold quat_unit, quat_matrix. cbn [qw qx qy qz].
    unfold ww, xx, yy, zz, wx, wy, wz, xy, xz, yz. intros. split; [lra|].
    unfold m. f_equal; lra.
  Qed.

  (** The quaternion [(1/2 t, p s, q s, r s)] in its four arrangements, [t t = aa],
      [s t = 1/2]. *)
  Lemma prod_scaled aa s p q pq : aa <> 0 -> 4 * (s * s) * aa = 1 -> p * q = aa * pq ->
    4 * (p * s * (q * s)) = pq.
  Proof.
    intros Ha Hs Hp. replace (4 * (p * s * (q * s))) with (4 * (s * s) * (p * q)) by ring.
    rewrite Hp. replace (4 * (s * s) * (aa * pq)) with (4 * (s * s) * aa * pq) by ring.
    rewrite Hs. ring.
  Qed.

  Lemma matrix_quat_spec_aux q : q = matrix_quat m -> quat_unit q /\ quat_matrix q = m.
  Proof.
    destruct prods as ((Hwx & Hwy & Hwz) & (Hxy & Hxz & Hyz) & (W1 & W2 & W3) & (X1 & X2 & X3) &
                       (Y1 & Y2 & Y3) & (Z1 & Z2 & Z3)).
    unfold matrix_quat. unfold m at 1 2 3. cbn [m00 m11 m22]. cbv zeta.
    destruct (Rlt_dec 0 (a00 + a11 + a22)) as [T|T].
    - assert (P : 0 < ww) by (unfold ww; lra).
      unfold m. cbn [m00 m01 m02 m10 m11 m12 m20 m21 m22]. fold m.
      replace (a00 + a11 + a22 + 1) with ww by (unfold ww; ring).
      fold wx wy wz.
      destruct (sqrt_facts ww P) as [Tp Tt]. pose proof (half_over _ Tp) as TS.
      set (t := sqrt ww) in *. set (s := 1 / 2 / t) in *.
      assert (SS : 4 * (s * s) * ww = 1).
      { rewrite <- Tt. replace (4 * (s * s) * (t * t)) with (4 * (t * s) * (t * s)) by ring.
        rewrite TS. field. }
      assert (N : ww <> 0) by lra.
      assert (TS1 : forall p, 4 * (1 / 2 * t * (p * s)) = p).
      { intro p. replace (4 * (1 / 2 * t * (p * s))) with (2 * (t * s) * p) by field.
        rewrite TS. field. }
      intros ->; apply scaled_quat; cbn [qw qx qy qz]; try apply TS1;
        try (apply (prod_scaled ww s); [exact N|exact SS|first [assumption|lra]]).
      replace (4 * (1 / 2 * t * (1 / 2 * t))) with (t * t) by field. exact Tt.
    - set (i1 := if Rlt_dec (m00 m) (m11 m) then true else false).
      assert (I1 : if i1 then a00 < a11 else a11 <= a00).
      { unfold i1, m. cbn [m00 m11]. destruct (Rlt_dec a00 a11); lra. }
      clearbody i1. unfold m. cbn [m00 m01 m02 m10 m11 m12 m20 m21 m22]. fold m.
      destruct (Rlt_dec (if i1 then a11 else a00) a22) as [L|L].
      + assert (P : 0 < zz) by (unfold zz; destruct i1; lra).
        replace (a22 - a00 - a11 + 1) with zz by (unfold zz; ring).
        replace (a02 + a20) with xz by (unfold xz; ring).
        replace (a12 + a21) with yz by (unfold yz; ring). fold wz.
        destruct (sqrt_facts zz P) as [Tp Tt]. pose proof (half_over _ Tp) as TS.
        set (t := sqrt zz) in *. set (s := 1 / 2 / t) in *.
        assert (SS : 4 * (s * s) * zz = 1).
        { rewrite <- Tt. replace (4 * (s * s) * (t * t)) with (4 * (t * s) * (t * s)) by ring.
          rewrite TS. field. }
        assert (N : zz <> 0) by lra.
        assert (TS1 : forall p, 4 * (p * s * (1 / 2 * t)) = p).
        { intro p. replace (4 * (p * s * (1 / 2 * t))) with (2 * (t * s) * p) by field.
          rewrite TS. field. }
        intros ->; apply scaled_quat; cbn [qw qx qy qz]; try apply TS1;
          try (apply (prod_scaled zz s); [exact N|exact SS|first [assumption|lra]]).
        replace (4 * (1 / 2 * t * (1 / 2 * t))) with (t * t) by field. exact Tt.
      + destruct i1.
        * assert (P : 0 < yy) by (unfold yy; lra).
          replace (a11 - a22 - a00 + 1) with yy by (unfold yy; ring).
          replace (a01 + a10) with xy by (unfold xy; ring). fold yz. fold wy.
          destruct (sqrt_facts yy P) as [Tp Tt]. pose proof (half_over _ Tp) as TS.
          set (t := sqrt yy) in *. set (s := 1 / 2 / t) in *.
          assert (SS : 4 * (s * s) * yy = 1).
          { rewrite <- Tt. replace (4 * (s * s) * (t * t)) with (4 * (t * s) * (t * s)) by ring.
            rewrite TS. field. }
          assert (N : yy <> 0) by lra.
          assert (TS1 : forall p, 4 * (p * s * (1 / 2 * t)) = p).
          { intro p. replace (4 * (p * s * (1 / 2 * t))) with (2 * (t * s) * p) by field.
            rewrite TS. field. }
          assert (TS2 : forall p, 4 * (1 / 2 * t * (p * s)) = p).
          { intro p. rewrite <- (TS1 p) at 2. ring. }
          intros ->; apply scaled_quat; cbn [qw qx qy qz]; try apply TS1; try apply TS2;
            try (apply (prod_scaled yy s); [exact N|exact SS|first [assumption|lra]]).
          replace (4 * (1 / 2 * t * (1 / 2 * t))) with (t * t) by field. exact Tt.
        * assert (P : 0 < xx) by (unfold xx; lra).
          replace (a00 - a11 - a22 + 1) with xx by (unfold xx; ring).
          fold xy. fold xz. fold wx.
          destruct (sqrt_facts xx P) as [Tp Tt]. pose proof (half_over _ Tp) as TS.
          set (t := sqrt xx) in *. set (s := 1 / 2 / t) in *.
          assert (SS : 4 * (s * s) * xx = 1).
          { rewrite <- Tt. replace (4 * (s * s) * (t * t)) with (4 * (t * s) * (t * s)) by ring.
            rewrite TS. field. }
          assert (N : xx <> 0) by lra.
          assert (TS1 : forall p, 4 * (p * s * (1 / 2 * t)) = p).
          { intro p. replace (4 * (p * s * (1 / 2 * t))) with (2 * (t * s) * p) by field.
            rewrite TS. field. }
          assert (TS2 : forall p, 4 * (1 / 2 * t * (p * s)) = p).
          { intro p. rewrite <- (TS1 p) at 2. ring. }
          intros ->; apply scaled_quat; cbn [qw qx qy qz]; try apply TS1; try apply TS2;
            try (apply (prod_scaled xx s); [exact N|exact SS|first [assumption|lra]]).
          replace (4 * (1 / 2 * t * (1 / 2 * t))) with (t * t) by field. exact Tt.
  Qed.
End FromScaled.

Lemma matrix_quat_spec m : is_rotation m ->
  quat_unit (matrix_quat m) /\ quat_matrix (matrix_quat m) = m.
Proof. destruct m. intro H. apply matrix_quat_spec_aux; auto. Qed.

(** A unit quaternion is determined by its matrix up to sign. *)
Definition quat_neg (q : quat) : quat := Quat (- qw q) (- qx q) (- qy q) (- qz q).
Lemma quat_eq_sign p q : quat_unit p -> quat_unit q -> quat_matrix p = quat_matrix q ->
  p = q \/ p = quat_neg q.
Proof.
  destruct p as [w x y z], q as [a b c d]. unfold quat_unit, quat_matrix, quat_neg.
  cbn [qw qx qy qz]. intros U V E. injection E. clear E. intros.
  assert (Eww : w * w = a * a) by lra. assert (Exx : x * x = b * b) by lra.
  assert (Eyy : y * y = c * c) by lra. assert (Ezz : z * z = d * d) by lra.
  assert (Ewx : w * x = a * b) by lra. assert (Ewy : w * y = a * c) by lra.
  assert (Ewz : w * z = a * d) by lra. assert (Exy : x * y = b * c) by lra.
  assert (Exz : x * z = b * d) by lra. assert (Eyz : y * z = c * d) by lra.
  set (k := w * a + x * b + y * c + z * d).
  assert (K : k * k = 1).
  { unfold k.
    replace ((w * a + x * b + y * c + z * d) * (w * a + x * b + y * c + z * d)) with
      ((w*w)*(a*a) + (x*x)*(b*b) + (y*y)*(c*c) + (z*z)*(d*d) + 2*(w*x)*(a*b) + 2*(w*y)*(a*c)
       + 2*(w*z)*(a*d) + 2*(x*y)*(b*c) + 2*(x*z)*(b*d) + 2*(y*z)*(c*d)) by ring.
    rewrite Eww, Exx, Eyy, Ezz, Ewx, Ewy, Ewz, Exy, Exz, Eyz.
    replace 1 with ((a*a+b*b+c*c+d*d)*(a*a+b*b+c*c+d*d)) by (rewrite V; ring). ring. }
  assert (S : k = 1 \/ k = -1).
  { assert ((k - 1) * (k + 1) = 0) by lra. apply Rmult_integral in H8. destruct H8; [left|right]; lra. }
  assert (Z2 : forall e f g h, e*e+f*f+g*g+h*h = 0 -> e = 0 /\ f = 0 /\ g = 0 /\ h = 0).
  { intros. repeat split; nra. }
  destruct S as [S|S]; unfold k in S.
  - left. destruct (Z2 (w - a) (x - b) (y - c) (z - d)) as (? & ? & ? & ?); [lra|].
    f_equal; lra.
  - right. destruct (Z2 (w + a) (x + b) (y + c) (z + d)) as (? & ? & ? & ?); [lra|].
    f_equal; lra.
Qed.

(** ** Logarithm *)
Lemma atan2_spec n a : 0 < n -> 0 <= a -> n * n + a * a = 1 ->
  0 < atan2 n a <= PI / 2 /\ cos (atan2 n a) = a /\ sin (atan2 n a) = n.
Proof.
  intros N A E. unfold atan2. destruct (Rlt_dec 0 a) as [P|P].
  - pose proof (atan_bound (n / a)) as [_ B].
    assert (Q : 0 < n / a) by (apply Rdiv_lt_0_compat; assumption).
    pose proof (atan_increasing 0 (n / a) Q) as Q'. rewrite atan_0 in Q'.
    assert (C : 0 < cos (atan (n / a))) by (apply cos_gt_0; pose proof PI_RGT_0; lra).
    pose proof (tan_atan (n / a)) as TA. unfold tan in TA.
    set (t := atan (n / a)) in *.
    assert (S : sin t * a = n * cos t).
    { replace (sin t) with (sin t / cos t * cos t) by (field; lra). rewrite TA. field. lra. }
    pose proof (sin2_cos2 t) as SC. unfold Rsqr in SC.
    assert (C2 : cos t * cos t = a * a).
    { replace (cos t * cos t) with (cos t * cos t * (n * n + a * a)) by (rewrite E; ring).
      replace (cos t * cos t * (n * n + a * a))
        with ((n * cos t) * (n * cos t) + cos t * cos t * (a * a)) by ring.
      rewrite <- S. replace (sin t * a * (sin t * a) + cos t * cos t * (a * a))
        with ((sin t * sin t + cos t * cos t) * (a * a)) by ring.
      rewrite SC. ring. }
    assert (CA : cos t = a) by nra.
    split; [lra|split; [exact CA|]]. rewrite CA in S. nra.
  - destruct (Rlt_dec a 0) as [?|_]; [lra|]. destruct (Rlt_dec 0 n) as [_|?]; [|lra].
    assert (a = 0) by lra. subst a. rewrite cos_PI2, sin_PI2. pose proof PI_RGT_0.
    split; [lra|split; [reflexivity|nra]].
Qed.

(** The angle and axis of a unit quaternion. *)
Lemma quat_log_spec q : quat_unit q ->
  exists t u, quat_angle_axis q = (t, u) /\ unit_vec u /\ 0 <= t <= PI /\
    angle_axis_matrix t u = quat_matrix q.
Proof.
  intro U. unfold quat_angle_axis. destruct (Req_EM_T (norm (quat_vec q)) 0) as [Z|Z].
  - exists 0, (V3 1 0 0). split; [reflexivity|]. split; [unfold unit_vec, norm2; vsimpl; ring|].
    split; [pose proof PI_RGT_0; lra|]. rewrite angle_axis_0.
    apply norm_zero in Z. destruct q as [w x y z]. unfold quat_vec in Z. cbn [qw qx qy qz] in Z.
    injection Z. intros -> -> ->. unfold quat_matrix. cbn [qw qx qy qz]. unfold mid. f_equal; ring.
  - set (n := norm (quat_vec q)) in *.
    assert (P : 0 < n) by (pose proof (norm_nonneg (quat_vec q)); fold n in H; lra).
    assert (NN : n * n = qx q * qx q + qy q * qy q + qz q * qz q).
    { unfold n. rewrite norm_sqr. reflexivity. }
    assert (AW : Rabs (qw q) * Rabs (qw q) = qw q * qw q).
    { rewrite <- Rabs_mult. apply Rabs_pos_eq. nra. }
    destruct (atan2_spec n (Rabs (qw q)) P (Rabs_pos _)) as (B & C & S).
    { unfold quat_unit in U. lra. }
    set (h := atan2 n (Rabs (qw q))) in *.
    set (k := / (if Rlt_dec (qw q) 0 then - n else n)).
    exists (2 * h), (vscale k (quat_vec q)). split; [reflexivity|].
    assert (K2 : k * k * (n * n) = 1).
    { unfold k. destruct (Rlt_dec (qw q) 0); field; lra. }
    split.
    { unfold unit_vec. rewrite norm2_scale. change (norm2 (quat_vec q)) with
        (qx q * qx q + qy q * qy q + qz q * qz q). rewrite <- NN. exact K2. }
    split; [lra|].
    assert (C2 : cos (2 * h) = 2 * (qw q * qw q) - 1).
    { rewrite cos_2a_cos, C. rewrite <- AW. ring. }
    assert (S2 : sin (2 * h) * k = 2 * qw q).
    { rewrite sin_2a, S, C. unfold k. destruct (Rlt_dec (qw q) 0) as [L|L].
      - rewrite Rabs_left by exact L. field. lra.
      - rewrite Rabs_pos_eq by lra. field. lra. }
    assert (K1 : (1 - cos (2 * h)) * (k * k) = 2).
    { rewrite C2. unfold quat_unit in U. replace (1 - (2 * (qw q * qw q) - 1)) with (2 * (n * n)) by lra.
      replace (2 * (n * n) * (k * k)) with (2 * (k * k * (n * n))) by ring. rewrite K2. ring. }
    unfold quat_unit in U. destruct q as [w x y z]. cbn [qw qx qy qz] in *.
    unfold angle_axis_matrix, quat_matrix, quat_vec. cbn [qw qx qy qz]. vsimpl.
    set (cs := cos (2 * h)) in *. set (sn := sin (2 * h)) in *.
    assert (EE : forall p q, (1 - cs) * (k * p) * (k * q) = 2 * (p * q)).
    { intros p0 q0. replace ((1 - cs) * (k * p0) * (k * q0)) with ((1 - cs) * (k * k) * (p0 * q0)) by ring.
      rewrite K1. ring. }
    assert (FF : forall p, sn * (k * p) = 2 * w * p).
    { intro p0. rewrite <- Rmult_assoc, S2. ring. }
    rewrite !EE, !FF, C2. f_equal; lra.
Qed.

Lemma mexp_mlog m : is_rotation m -> mexp (matrix_log m) = m.
Proof.
  intro H. destruct (matrix_quat_spec m H) as [U M].
  destruct (quat_log_spec _ U) as (t & u & E & Uu & T & A).
  unfold matrix_log. rewrite E, mexp_unit by exact Uu. rewrite A. exact M.
Qed.
Lemma mlog_norm m : is_rotation m -> norm (matrix_log m) <= PI.
Proof.
  intro H. destruct (matrix_quat_spec m H) as [U M].
  destruct (quat_log_spec _ U) as (t & u & E & Uu & T & A).
  unfold matrix_log. rewrite E, norm_scale, (unit_norm u Uu), Rabs_pos_eq by lra. lra.
Qed.

(** The rotation by [t] about [u] has quaternion (cos t/2, u sin t/2). *)
Lemma half_angle_quat t u : unit_vec u ->
  let q := Quat (cos (t / 2)) (sin (t / 2) * vx u) (sin (t / 2) * vy u) (sin (t / 2) * vz u) in
  quat_unit q /\ quat_matrix q = angle_axis_matrix t u.
Proof.
  unfold unit_vec, norm2. intro U. cbv zeta.
  pose proof (sin2_cos2 (t / 2)) as SC. unfold Rsqr in SC.
  assert (C : cos t = cos (t / 2) * cos (t / 2) - sin (t / 2) * sin (t / 2)).
  { replace t with (2 * (t / 2)) at 1 by field. rewrite cos_2a. reflexivity. }
  assert (S : sin t = 2 * sin (t / 2) * cos (t / 2)).
  { replace t with (2 * (t / 2)) at 1 by field. apply sin_2a. }
  unfold quat_unit, quat_matrix, angle_axis_matrix. cbn [qw qx qy qz].
  rewrite C, S. generalize dependent (cos (t / 2)). generalize dependent (sin (t / 2)).
  destruct u as [x y z]. vsimpl. intros s c SC _ _.
  assert (X : x * x = 1 - y * y - z * z) by lra.
  assert (C : c * c = 1 - s * s) by lra.
  split; [ring [X C]|]. f_equal; ring [X C].
Qed.

Lemma quat_angle_axis_neg_vec q : norm (quat_vec (quat_neg q)) = norm (quat_vec q).
Proof. unfold norm, norm2, quat_neg, quat_vec. cbn [qw qx qy qz]. f_equal. vsimpl. ring. Qed.

Lemma mlog_mexp v : norm v < PI -> matrix_log (mexp v) = v.
Proof.
  intro L. destruct (vec3_zero_dec v) as [->|NZ].
  - (* the identity *)
    rewrite mexp_zero. pose proof (mexp_mlog mid rot_mid) as E. rewrite <- mexp_zero.
    unfold matrix_log. rewrite mexp_zero.
    destruct (matrix_quat_spec mid rot_mid) as [U M].
    set (q := matrix_quat mid) in *.
    assert (V : quat_vec q = vzero).
    { unfold quat_unit in U. destruct q as [w x y z]. unfold quat_matrix in M. cbn [qw qx qy qz] in *.
      injection M. intros. unfold quat_vec. cbn [qx qy qz].
      assert (x * x = 0) by lra. assert (y * y = 0) by lra. assert (z * z = 0) by lra.
      unfold vzero. f_equal; nra. }
    unfold quat_angle_axis. rewrite V, norm_vzero.
    destruct (Req_EM_T 0 0); [|lra]. apply vscale_0.
  - destruct (vec3_polar v) as (u & U & Ev). pose proof (norm_pos v NZ) as P.
    set (t := norm v) in *. clearbody t. subst v.
    rewrite mexp_unit by exact U.
    destruct (half_angle_quat t u U) as [QU QM].
    set (p := Quat (cos (t / 2)) (sin (t / 2) * vx u) (sin (t / 2) * vy u) (sin (t / 2) * vz u)) in *.
    rewrite <- QM. destruct (matrix_quat_spec _ (quat_matrix_rot p QU)) as [U1 M1].
    assert (S : 0 < sin (t / 2)) by (apply sin_gt_0; pose proof PI_RGT_0; lra).
    assert (C : 0 < cos (t / 2)) by (apply cos_gt_0; pose proof PI_RGT_0; lra).
    assert (VP : quat_vec p = vscale (sin (t / 2)) u) by (unfold p, quat_vec; destruct u; reflexivity).
    assert (N : norm (quat_vec p) = sin (t / 2)).
    { rewrite VP, norm_scale, (unit_norm u U), Rabs_pos_eq by lra. ring. }
    assert (A : atan2 (sin (t / 2)) (cos (t / 2)) = t / 2).
    { unfold atan2. destruct (Rlt_dec 0 (cos (t / 2))) as [_|?]; [|lra].
      change (sin (t / 2) / cos (t / 2)) with (tan (t / 2)).
      unfold atan. destruct (pre_atan (tan (t / 2))) as (s & B & E).
      pose proof PI_RGT_0. apply tan_is_inj; [lra|lra|exact E]. }
    unfold matrix_log, quat_angle_axis.
    destruct (quat_eq_sign _ p U1 QU M1) as [E|E]; rewrite E.
    + rewrite N. destruct (Req_EM_T (sin (t / 2)) 0) as [?|_]; [lra|].
      change (qw p) with (cos (t / 2)). rewrite Rabs_pos_eq by lra. rewrite A.
      destruct (Rlt_dec (cos (t / 2)) 0) as [?|_]; [lra|].
      rewrite VP, !vscale_vscale. f_equal. field. lra.
    + rewrite quat_angle_axis_neg_vec, N. destruct (Req_EM_T (sin (t / 2)) 0) as [?|_]; [lra|].
      change (qw (quat_neg p)) with (- cos (t / 2)). rewrite Rabs_Ropp, Rabs_pos_eq by lra. rewrite A.
      destruct (Rlt_dec (- cos (t / 2)) 0) as [_|?]; [|lra].
      replace (quat_vec (quat_neg p)) with (vneg (quat_vec p))
        by (unfold quat_neg, quat_vec; reflexivity).
      rewrite VP. destruct u as [x y z]. vsimpl. f_equal; field; lra.
Qed.
