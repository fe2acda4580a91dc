(** What approximate equality is measured against. *)
From Verif Require Import Cpp UuidModel RotSpec GeomModel.
Local Open Scope R_scope.

(** The second rotation is the first one after a turn by [t] about some axis. *)
Definition turn_apart (a b : so3) (t : R) : Prop :=
  0 <= t <= PI /\
  exists u, norm2 u = 1 /\ forall v, mvec (rotation_matrix b) v = mvec (rotation_matrix a) (turned t u v).

(** The relative precision 1e-12. *)
Definition precision : R := / 10^12.
(** Closeness of vectors in relation to the shorter one. *)
Definition relatively_close (a b : vec3) : Prop :=
  distance a b <= precision * norm a /\ distance a b <= precision * norm b.
(** The same for tangent vectors of poses, with the root of the sum of all squares. *)
Definition tangent_relatively_close (a b : tan6) : Prop :=
  let length6 w v := sqrt (norm2 w + norm2 v) in
  let apart6 := length6 (vsub (trot a) (trot b)) (vsub (ttrans a) (ttrans b)) in
  apart6 <= precision * length6 (trot a) (ttrans a) /\ apart6 <= precision * length6 (trot b) (ttrans b).
