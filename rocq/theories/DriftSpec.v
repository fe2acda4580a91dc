(** What compositions in double precision are measured against. *)
From Flocq Require Import Core BinarySingleNaN.
From Verif Require Import Cpp FloatModel FloatSpec NrmSpec Vec RotSpec DriftModel.
Local Open Scope R_scope.

(** The numbers stored. *)
Definition mval (a : fmat) : mat3 :=
  M3 (val (f00 a)) (val (f01 a)) (val (f02 a)) (val (f10 a)) (val (f11 a)) (val (f12 a)) (val (f20 a)) (val (f21 a)) (val (f22 a)).
Definition vval (v : fvec) : vec3 := V3 (val (fx v)) (val (fy v)) (val (fz v)).
Definition mfinite (a : fmat) : Prop :=
  finite (f00 a) /\ finite (f01 a) /\ finite (f02 a) /\ finite (f10 a) /\ finite (f11 a) /\ finite (f12 a) /\
  finite (f20 a) /\ finite (f21 a) /\ finite (f22 a).
Definition vfinite (v : fvec) : Prop := finite (fx v) /\ finite (fy v) /\ finite (fz v).

(** Frobenius norm and the distance it gives. *)
Definition size (m : mat3) : R :=
  sqrt (m00 m ^ 2 + m01 m ^ 2 + m02 m ^ 2 + m10 m ^ 2 + m11 m ^ 2 + m12 m ^ 2 + m20 m ^ 2 + m21 m ^ 2 + m22 m ^ 2).
Definition apart (a b : mat3) : R := size (madd a (mscale (-1) b)).

(** A stored rotation matrix within [e] of the rotation it stands for. *)
Definition stands_for (e : R) (p : fmat * mat3) : Prop :=
  mfinite (fst p) /\ is_rotation (snd p) /\ apart (mval (fst p)) (snd p) <= e.

(** The same built from other things. *)
Fixpoint rmap {A B : Type} (f : A -> B) (x : rexpr A) : rexpr B :=
  match x with
  | RGiven a => RGiven (f a)
  | RProduct x y => RProduct (rmap f x) (rmap f y)
  | RInverse x => RInverse (rmap f x)
  end.
Fixpoint every {A : Type} (P : A -> Prop) (x : rexpr A) : Prop :=
  match x with
  | RGiven a => P a
  | RProduct x y => every P x /\ every P y
  | RInverse x => every P x
  end.
(** How many rotations are given, and how many products and inverses are taken. *)
Fixpoint givens {A : Type} (x : rexpr A) : nat :=
  match x with RGiven _ => 1 | RProduct x y => givens x + givens y | RInverse x => givens x end.
Fixpoint products {A : Type} (x : rexpr A) : nat :=
  match x with RGiven _ => 0 | RProduct x y => S (products x + products y) | RInverse x => products x end.
Fixpoint operations {A : Type} (x : rexpr A) : nat :=
  match x with RGiven _ => 1 | RProduct x y => S (operations x + operations y) | RInverse x => S (operations x) end.
(** The exact results. *)
Fixpoint exact_rotation (x : rexpr mat3) : mat3 :=
  match x with
  | RGiven a => a
  | RProduct x y => mmul (exact_rotation x) (exact_rotation y)
  | RInverse x => mtrans (exact_rotation x)
  end.

(** A stored pose, the exact pose it stands for, and a length that its translation does not
    exceed. *)
Record given := Given { g_pose : fpose; g_rotation : mat3; g_translation : vec3; g_length : R }.
Definition pose_stands_for (e : R) (g : given) : Prop :=
  stands_for e (frot (g_pose g), g_rotation g) /\ vfinite (ftrans (g_pose g)) /\
  norm (vsub (vval (ftrans (g_pose g))) (g_translation g)) <= e * g_length g /\
  norm (g_translation g) <= g_length g /\ / 2 ^ 900 <= g_length g.
Definition g_exact (g : given) : mat3 * vec3 := (g_rotation g, g_translation g).
Fixpoint exact_pose (x : rexpr (mat3 * vec3)) : mat3 * vec3 :=
  match x with
  | RGiven a => a
  | RProduct x y =>
      let (r, t) := exact_pose x in let (q, s) := exact_pose y in (mmul r q, vadd (mvec r s) t)
  | RInverse x => let (r, t) := exact_pose x in (mtrans r, mvec (mtrans r) (vneg t))
  end.
(** The sum of the lengths, and how deep inverses of inverses go. *)
Fixpoint reach (x : rexpr given) : R :=
  match x with RGiven g => g_length g | RProduct x y => reach x + reach y | RInverse x => reach x end.
Fixpoint nesting {A : Type} (x : rexpr A) : nat :=
  match x with RGiven _ => 1 | RProduct x y => Nat.max (nesting x) (nesting y) | RInverse x => S (nesting x) end.

(** A given rotation multiplied again and again by the same. *)
Fixpoint repeatedly {A : Type} (n : nat) (a : A) : rexpr A :=
  match n with O => RGiven a | S n => RProduct (repeatedly n a) (RGiven a) end.

(** The error of a composition of rotations each within [e] of what it stands for: [e] for
    each and eleven units in the last place for each product. *)
Definition bound {A} (e : R) (x : rexpr A) : R := INR (givens x) * e + INR (products x) * (11 * u).
(** The same for the translations of poses, relative to [reach]. *)
Definition weight {A} (e : R) (x : rexpr A) : R := INR (nesting x) * INR (operations x) * (e + 11 * u).

(** The entries of quarter turns. *)
Definition a_sign (x : R) : Prop := x = -1 \/ x = 0 \/ x = 1.
(** A rotation stored without error. *)
Definition exactly (a : fmat) : Prop := mfinite a /\ is_rotation (mval a).
(** A multiple of the identity. *)
Definition a_multiple (x : R) (a : fmat) : Prop := mfinite a /\ mval a = mscale x mid.
(** The identity with one unit in the last place too much on the diagonal. *)
Definition stretched : fmat := let o := of_int 0 in let i := NrmSpec.double 4503599627370497 (-52) in FM i o o o i o o o i.
(** The turn about the third axis with cosine a/c and sine b/c, rounded and exact. *)
Definition quotient (a b : Z) : f64 := fdivide (of_int a) (of_int b).
Definition stored_turn (a b c : Z) : fmat := FM (quotient a c) (quotient (- b) c) (of_int 0) (quotient b c) (quotient a c) (of_int 0) (of_int 0) (of_int 0) (of_int 1).
Definition turn (a b c : R) : mat3 := M3 (a / c) (- b / c) 0 (b / c) (a / c) 0 0 0 1.
