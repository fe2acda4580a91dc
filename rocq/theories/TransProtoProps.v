(** Wire forms of matrices, frames, framed vectors and transforms: C42, C43. *)
From Coq Require Import Ascii String.
From Verif Require Import Cpp UuidModel UuidSpec UuidProofs RotSpec GeomModel RotProofs TransProtoModel TransProtoSpec
  FrameSpec LieSpec FrameProofs LieProofs TransProtoProofs.
Local Open Scope R_scope.

(** ** C42 *)
(** The elements on the wire are the entries in column-major order. *)
Theorem c42_layout : forall (A : Type) (m : matrix A) l, column_major m l <-> l = pack_matrix m.
Proof.
  exact (fun A m l => conj (fun H => column_major_unique m l _ H (pack_column_major m))
    (fun E => eq_ind_r (column_major m) (pack_column_major m) E)).
Qed.
Print Assumptions c42_layout.

Theorem c42_round_trip : forall (A : Type) (m out : matrix A), rows out = rows m -> cols out = cols m ->
  exists m', unpack_matrix (pack_matrix m) out = Ok m' /\ same_matrix m' m.
Proof. exact @matrix_round_trip. Qed.
Print Assumptions c42_round_trip.

Theorem c42_round_trip_back : forall (A : Type) (l : list A) (out m : matrix A),
  unpack_matrix l out = Ok m -> pack_matrix m = l.
Proof. exact @matrix_round_trip_back. Qed.
Print Assumptions c42_round_trip_back.

(** Unpacking succeeds, keeping the shape of the output, when the number of elements is
    right, and throws otherwise. *)
Theorem c42_throws_exactly : forall (A : Type) (l : list A) (out : matrix A),
  (length l = (rows out * cols out)%nat ->
   exists m, unpack_matrix l out = Ok m /\ rows m = rows out /\ cols m = cols out /\ column_major m l) /\
  (length l <> (rows out * cols out)%nat -> unpack_matrix l out = Throw).
Proof. exact @unpack_matrix_spec. Qed.
Print Assumptions c42_throws_exactly.

Theorem c42_injective : forall (A : Type) (m n : matrix A), rows m = rows n -> cols m = cols n ->
  (pack_matrix m = pack_matrix n <-> same_matrix m n).
Proof. exact @pack_matrix_same. Qed.
Print Assumptions c42_injective.

(** Only the number of elements travels: a 2x3 matrix unpacks into a 3x2 one. *)
Definition wide : matrix nat := Mat 2 3 (fun i j => 10 * i + j)%nat.
Definition tall : matrix nat := Mat 3 2 (fun _ _ => 0)%nat.
Theorem c42_shape_checked_refuted : exists (m out : matrix nat) m',
  rows m <> rows out /\ unpack_matrix (pack_matrix m) out = Ok m' /\ coeff m' 2 0 <> coeff m 0 2.
Proof.
  exact (ex_intro _ wide (ex_intro _ tall (ex_intro _ _
    (conj (fun H : 2%nat = 3%nat => eq_ind 2%nat (fun n => match n with 2%nat => True | _ => False end) I _ H)
      (conj eq_refl (fun H : 1%nat = 2%nat => eq_ind 1%nat (fun n => match n with 1%nat => True | _ => False end) I _ H)))))).
Qed.
Print Assumptions c42_shape_checked_refuted.

Example c42_example : pack_matrix wide = [0; 10; 1; 11; 2; 12]%nat /\
  (exists m, unpack_matrix [0; 10; 1; 11; 2; 12]%nat (Mat 2 3 (fun _ _ => 7)%nat) = Ok m /\ coeff m 1 2 = 12%nat) /\
  unpack_matrix [0; 10; 1; 11; 2]%nat wide = Throw.
Proof. split; [reflexivity|]. split; [|reflexivity]. eexists. split; reflexivity. Qed.

(** ** C43 *)
Theorem c43_frame_round_trip : forall f, uuid_wf f -> unpack_frame (pack_frame f) = Ok f.
Proof. exact frame_round_trip. Qed.
Print Assumptions c43_frame_round_trip.

Theorem c43_framed_vector_round_trip : forall v, uuid_wf (fv_frame v) ->
  unpack_framed_vector (pack_framed_vector v) = Ok v.
Proof. exact framed_vector_round_trip. Qed.
Print Assumptions c43_framed_vector_round_trip.

Theorem c43_so3_round_trip : forall g, so3_wf g -> uuid_wf (so3_into g) -> uuid_wf (so3_from g) ->
  unpack_so3 (pack_so3 g) = Ok g.
Proof. exact so3_round_trip. Qed.
Print Assumptions c43_so3_round_trip.

Theorem c43_se3_round_trip : forall g, se3_wf g -> uuid_wf (se3_into g) -> uuid_wf (se3_from g) ->
  exists h, unpack_se3 (pack_se3 g) = Ok h /\
    rotation h = rotation g /\ se3_into h = se3_into g /\ se3_from h = se3_from g /\
    norm (vsub (translation h) (translation g)) <= / 10^15 * norm (translation g) /\
    (plain_angle (norm2 (trot (se3_log g))) -> h = g).
Proof. exact se3_round_trip. Qed.
Print Assumptions c43_se3_round_trip.

(** What is accepted and what is rejected. *)
Theorem c43_frame_accepts : forall t,
  (forall u, unpack_frame t = Ok u <-> id_text t u) /\ (unpack_frame t = Throw <-> not_id t).
Proof. exact (fun t => conj (fun u => iff_sym (id_text_unpack t u)) (iff_sym (not_id_unpack t))). Qed.
Print Assumptions c43_frame_accepts.

Theorem c43_framed_vector_accepts : forall msg,
  (forall v, unpack_framed_vector msg = Ok v <->
     fv_msg_algebra msg = list3 (fv_vector v) /\ id_text (fv_msg_frame msg) (fv_frame v)) /\
  (unpack_framed_vector msg = Throw <-> length (fv_msg_algebra msg) <> 3%nat \/ not_id (fv_msg_frame msg)).
Proof. exact unpack_framed_vector_spec. Qed.
Print Assumptions c43_framed_vector_accepts.

Theorem c43_so3_accepts : forall msg,
  (forall g, unpack_so3 msg = Ok g <-> exists v i f, algebra msg = list3 v /\ id_text (msg_into msg) i /\
     id_text (msg_from msg) f /\ frames_ok i f /\ so3_exp v (Some (i, f)) = Ok g) /\
  (unpack_so3 msg = Throw <-> length (algebra msg) <> 3%nat \/ not_id (msg_into msg) \/ not_id (msg_from msg) \/
     exists i f, id_text (msg_into msg) i /\ id_text (msg_from msg) f /\ ~ frames_ok i f).
Proof. exact unpack_so3_spec. Qed.
Print Assumptions c43_so3_accepts.

Theorem c43_se3_accepts : forall msg,
  (forall g, unpack_se3 msg = Ok g <-> exists v i f, algebra msg = list6 v /\ id_text (msg_into msg) i /\
     id_text (msg_from msg) f /\ frames_ok i f /\ se3_exp v (Some (i, f)) = Ok g) /\
  (unpack_se3 msg = Throw <-> length (algebra msg) <> 6%nat \/ not_id (msg_into msg) \/ not_id (msg_from msg) \/
     exists i f, id_text (msg_into msg) i /\ id_text (msg_from msg) f /\ ~ frames_ok i f).
Proof. exact unpack_se3_spec. Qed.
Print Assumptions c43_se3_accepts.

Theorem c43_missing_id_rejected : not_id [].
Proof. exact empty_not_id. Qed.
Print Assumptions c43_missing_id_rejected.

Definition tp_into : frame := repeat 1%N 16.
Definition tp_from : frame := repeat 2%N 16.
Definition tp_pose : se3 := SE3 (SO3 quarter_z null_frame null_frame) (V3 1 2 3) tp_into tp_from.
Lemma tp_wf : uuid_wf tp_into /\ uuid_wf tp_from.
Proof. split; (split; [reflexivity|repeat constructor]). Qed.
Example c43_example : se3_wf tp_pose /\ uuid_wf (se3_into tp_pose) /\ uuid_wf (se3_from tp_pose) /\
  unpack_framed_vector (FVMsg [1; 2; 3] (pack_frame tp_into)) = Ok (FV (V3 1 2 3) tp_into) /\
  unpack_so3 (LieMsg [0; 0; 1] (pack_frame tp_into) []) = Throw /\
  unpack_so3 (LieMsg [0; 0; 1] (pack_frame tp_into) (pack_frame null_frame)) = Throw /\
  (exists g, unpack_so3 (LieMsg [0; 0; 1] (pack_frame tp_into) (pack_frame tp_from)) = Ok g).
Proof.
  split; [split; [apply quarter_z_rot|split; [split; discriminate|split; reflexivity]]|].
  split; [apply tp_wf|]. split; [apply tp_wf|]. split; [reflexivity|]. split; [reflexivity|].
  split; [reflexivity|]. eexists. reflexivity.
Qed.
