(** Real 3-vectors and 3x3 matrices: the Eigen::Vector3d and Eigen::Matrix3d
    operations used in resim/transforms/*.cc, over the reals instead of binary64. *)
From Coq Require Export Reals Lra.
Open Scope R_scope.

(** Eigen::Vector3d (resim/transforms/so3.hh:77, se3.hh:77). *)
Record vec3 := V3 { vx : R; vy : R; vz : R }.

(** Eigen::Matrix3d, entry (row, column) (resim/transforms/so3.hh:145). *)
Record mat3 := M3 {
  m00 : R; m01 : R; m02 : R;
  m10 : R; m11 : R; m12 : R;
  m20 : R; m21 : R; m22 : R }.

(** Eigen::Vector3d::Zero() (se3.cc:25). *)
Definition vzero : vec3 := V3 0 0 0.
(** Vector +, -, unary -, scalar * (se3.cc:63, 97, 107, 269). *)
Definition vadd (a b : vec3) : vec3 := V3 (vx a + vx b) (vy a + vy b) (vz a + vz b).
Definition vsub (a b : vec3) : vec3 := V3 (vx a - vx b) (vy a - vy b) (vz a - vz b).
Definition vneg (a : vec3) : vec3 := V3 (- vx a) (- vy a) (- vz a).
Definition vscale (k : R) (a : vec3) : vec3 := V3 (k * vx a) (k * vy a) (k * vz a).
(** dot, cross, squaredNorm, norm (se3.cc:122-125, 152, 103). *)
Definition dot (a b : vec3) : R := vx a * vx b + vy a * vy b + vz a * vz b.
Definition cross (a b : vec3) : vec3 :=
  V3 (vy a * vz b - vz a * vy b) (vz a * vx b - vx a * vz b) (vx a * vy b - vy a * vx b).
Definition norm2 (a : vec3) : R := dot a a.
Definition norm (a : vec3) : R := sqrt (norm2 a).
(** normalized(): a zero vector is returned unchanged (so3.cc:98). *)
Definition normalized (a : vec3) : vec3 :=
  if Rlt_dec 0 (norm2 a) then vscale (/ norm a) a else a.

(** Eigen::Matrix3d::Identity(), transpose(), matrix + and scalar * (so3.cc:46, 80,
    105). *)
Definition mid : mat3 := M3 1 0 0 0 1 0 0 0 1.
Definition mtrans (a : mat3) : mat3 :=
  M3 (m00 a) (m10 a) (m20 a) (m01 a) (m11 a) (m21 a) (m02 a) (m12 a) (m22 a).
Definition madd (a b : mat3) : mat3 :=
  M3 (m00 a + m00 b) (m01 a + m01 b) (m02 a + m02 b)
     (m10 a + m10 b) (m11 a + m11 b) (m12 a + m12 b)
     (m20 a + m20 b) (m21 a + m21 b) (m22 a + m22 b).
Definition mscale (k : R) (a : mat3) : mat3 :=
  M3 (k * m00 a) (k * m01 a) (k * m02 a)
     (k * m10 a) (k * m11 a) (k * m12 a)
     (k * m20 a) (k * m21 a) (k * m22 a).
(** Matrix product and matrix times vector (so3.cc:52, 61). *)
Definition mmul (a b : mat3) : mat3 :=
  M3 (m00 a * m00 b + m01 a * m10 b + m02 a * m20 b)
     (m00 a * m01 b + m01 a * m11 b + m02 a * m21 b)
     (m00 a * m02 b + m01 a * m12 b + m02 a * m22 b)
     (m10 a * m00 b + m11 a * m10 b + m12 a * m20 b)
     (m10 a * m01 b + m11 a * m11 b + m12 a * m21 b)
     (m10 a * m02 b + m11 a * m12 b + m12 a * m22 b)
     (m20 a * m00 b + m21 a * m10 b + m22 a * m20 b)
     (m20 a * m01 b + m21 a * m11 b + m22 a * m21 b)
     (m20 a * m02 b + m21 a * m12 b + m22 a * m22 b).
Definition mvec (a : mat3) (v : vec3) : vec3 :=
  V3 (m00 a * vx v + m01 a * vy v + m02 a * vz v)
     (m10 a * vx v + m11 a * vy v + m12 a * vz v)
     (m20 a * vx v + m21 a * vy v + m22 a * vz v).
(** v w^T (so3.cc:106). *)
Definition outer (v w : vec3) : mat3 :=
  M3 (vx v * vx w) (vx v * vy w) (vx v * vz w)
     (vy v * vx w) (vy v * vy w) (vy v * vz w)
     (vz v * vx w) (vz v * vy w) (vz v * vz w).

(** ** Algebra *)

(** Prove an equation between vectors or matrices entry by entry. *)
Ltac vsimpl :=
  unfold vzero, vadd, vsub, vneg, vscale, dot, cross, mid, mtrans, madd, mscale, mmul, mvec,
    outer in *;
  cbn [vx vy vz m00 m01 m02 m10 m11 m12 m20 m21 m22] in *.
Ltac vring :=
  intros;
  repeat match goal with
         | v : vec3 |- _ => destruct v
         | m : mat3 |- _ => destruct m
         end;
  unfold norm2 in *; vsimpl; try (f_equal; ring); try ring.

Lemma vadd_comm a b : vadd a b = vadd b a. Proof. vring. Qed.
Lemma vadd_assoc a b c : vadd a (vadd b c) = vadd (vadd a b) c. Proof. vring. Qed.
Lemma vadd_0_l a : vadd vzero a = a. Proof. vring. Qed.
Lemma vadd_0_r a : vadd a vzero = a. Proof. vring. Qed.
Lemma vadd_neg_r a : vadd a (vneg a) = vzero. Proof. vring. Qed.
Lemma vscale_1 a : vscale 1 a = a. Proof. vring. Qed.
Lemma vscale_0 a : vscale 0 a = vzero. Proof. vring. Qed.
Lemma vscale_zero k : vscale k vzero = vzero. Proof. vring. Qed.
Lemma vscale_vscale j k a : vscale j (vscale k a) = vscale (j * k) a. Proof. vring. Qed.
Lemma vscale_add k a b : vscale k (vadd a b) = vadd (vscale k a) (vscale k b). Proof. vring. Qed.
Lemma vscale_plus j k a : vscale (j + k) a = vadd (vscale j a) (vscale k a). Proof. vring. Qed.
Lemma cross_self a : cross a a = vzero. Proof. vring. Qed.
Lemma cross_anti a b : cross a b = vneg (cross b a). Proof. vring. Qed.

Lemma mmul_assoc a b c : mmul a (mmul b c) = mmul (mmul a b) c. Proof. vring. Qed.
Lemma mmul_1_l a : mmul mid a = a. Proof. vring. Qed.
Lemma mmul_1_r a : mmul a mid = a. Proof. vring. Qed.
Lemma mvec_mmul a b v : mvec (mmul a b) v = mvec a (mvec b v). Proof. vring. Qed.
Lemma mvec_1 v : mvec mid v = v. Proof. vring. Qed.
Lemma mvec_add a v w : mvec a (vadd v w) = vadd (mvec a v) (mvec a w). Proof. vring. Qed.
Lemma mvec_scale a k v : mvec a (vscale k v) = vscale k (mvec a v). Proof. vring. Qed.
Lemma mvec_zero a : mvec a vzero = vzero. Proof. vring. Qed.
Lemma mtrans_mmul a b : mtrans (mmul a b) = mmul (mtrans b) (mtrans a). Proof. vring. Qed.
Lemma mtrans_mtrans a : mtrans (mtrans a) = a. Proof. vring. Qed.
Lemma mtrans_mid : mtrans mid = mid. Proof. reflexivity. Qed.

Lemma norm2_nonneg a : 0 <= norm2 a.
Proof. unfold norm2, dot. nra. Qed.
Lemma norm_nonneg a : 0 <= norm a.
Proof. apply sqrt_pos. Qed.
Lemma norm_sqr a : norm a * norm a = norm2 a.
Proof. apply sqrt_sqrt, norm2_nonneg. Qed.
Lemma norm2_zero a : norm2 a = 0 -> a = vzero.
Proof.
  destruct a as [x y z]. unfold norm2. vsimpl. intro H.
  assert (x = 0) by nra. assert (y = 0) by nra. assert (z = 0) by nra. subst. reflexivity.
Qed.
Lemma norm_zero a : norm a = 0 -> a = vzero.
Proof. intro H. apply norm2_zero. rewrite <- norm_sqr, H. ring. Qed.
Lemma norm_vzero : norm vzero = 0.
Proof. unfold norm, norm2. vsimpl. replace (0 * 0 + 0 * 0 + 0 * 0) with 0 by ring. apply sqrt_0. Qed.
Lemma norm2_scale k a : norm2 (vscale k a) = k * k * norm2 a. Proof. vring. Qed.
Lemma norm_scale k a : norm (vscale k a) = Rabs k * norm a.
Proof.
  unfold norm. rewrite norm2_scale, sqrt_mult_alt by nra. f_equal. apply sqrt_Rsqr_abs.
Qed.
Lemma norm_neg a : norm (vneg a) = norm a.
Proof. unfold norm, norm2. f_equal. vring. Qed.
