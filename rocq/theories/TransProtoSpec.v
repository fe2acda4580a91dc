(** Specification of the wire forms of matrices, frames, framed vectors and transforms. *)
From Coq Require Import Ascii.
From Verif Require Import Cpp UuidModel UuidSpec GeomModel TransProtoModel.

(** Two matrices are the same: same shape, same entries. *)
Definition same_matrix {A} (m n : matrix A) : Prop :=
  rows m = rows n /\ cols m = cols n /\
  forall i j, (i < rows m)%nat -> (j < cols m)%nat -> coeff m i j = coeff n i j.

(** Column-major order: the list has one element per entry, and the entry (i, j) is
    preceded by the j columns to its left and the i entries above it. *)
Definition column_major {A} (m : matrix A) (l : list A) : Prop :=
  length l = (rows m * cols m)%nat /\
  forall i j, (i < rows m)%nat -> (j < cols m)%nat ->
    nth_error l (j * rows m + i) = Some (coeff m i j).

(** Text (up to its first NUL) that is the id [u]. *)
Definition id_text (t : text) (u : uuid) : Prop :=
  acceptable (c_str t) /\ uuid_wf u /\ to_string u = map lower (c_str t).
(** Text that is no id, such as that of a field never set. *)
Definition not_id (t : text) : Prop := ~ acceptable (c_str t).

(** The three, respectively six, numbers of a list. *)
Definition list3 (v : vec3) : list R := [vx v; vy v; vz v].
Definition list6 (v : tan6) : list R := list3 (trot v) ++ list3 (ttrans v).
