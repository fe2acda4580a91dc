(** Frame checking of transforms and vectors: C14-C17. *)
From Verif Require Import Cpp UuidModel RotSpec GeomModel TransProtoModel FrameSpec FrameProofs.
Local Open Scope R_scope.

(** Frames and transforms for the examples. *)
Definition fr (n : N) : frame := repeat n 16.
Definition quarter_turn : mat3 := M3 0 (-1) 0 1 0 0 0 0 1.
Definition ex_so3 (i f : N) : so3 := SO3 quarter_turn (fr i) (fr f).
Definition ex_se3 (i f : N) : se3 := SE3 (unframed quarter_turn) (V3 1 2 3) (fr i) (fr f).

(** ** C14 *)
Theorem c14_never_half_framed : forall cs o, In o (history [] cs) ->
  frames_ok (into_of o) (from_of o) /\
  (framed_of o = true <-> into_of o <> null_frame /\ from_of o <> null_frame).
Proof. exact never_half_framed. Qed.
Print Assumptions c14_never_half_framed.

Theorem c14_half_framed_construction_throws : forall i f r m angle axis q v t w,
  ~ frames_ok i f ->
  let a := Some (i, f) in
  so3_of_matrix m a = Throw /\ so3_of_angle_axis angle axis a = Throw /\ so3_of_quat q a = Throw /\
  so3_identity a = Throw /\ so3_exp v a = Throw /\
  se3_of_rotation r a = Throw /\ se3_of_translation t a = Throw /\ se3_make r t a = Throw /\
  se3_identity a = Throw /\ se3_exp w a = Throw.
Proof. exact half_framed_throws. Qed.
Print Assumptions c14_half_framed_construction_throws.

Theorem c14_set_frames : forall g h i f,
  (i = null_frame \/ f = null_frame ->
     so3_set_frames g i f = Throw /\ se3_set_frames h i f = Throw) /\
  (i <> null_frame /\ f <> null_frame ->
     so3_set_frames g i f = Ok (SO3 (rotation_matrix g) i f) /\
     se3_set_frames h i f = Ok (SE3 (rotation h) (translation h) i f)).
Proof. exact set_frames_iff. Qed.
Print Assumptions c14_set_frames.

Theorem c14_calls_leave_other_objects_alone : forall s c s' j o,
  call_result s c = Ok s' -> ~ modifies c j -> nth_error s j = Some o -> nth_error s' j = Some o.
Proof. exact call_frame. Qed.
Print Assumptions c14_calls_leave_other_objects_alone.

(** A history with two successful and three rejected calls. *)
Example c14_example :
  history [] [SO3Identity (Some (fr 1, fr 2)); SO3Identity (Some (fr 1, null_frame));
              SetFrames 0 null_frame (fr 3); Inverse 0; Mul 0 0] =
    [OSO3 (SO3 mid (fr 1) (fr 2)); OSO3 (SO3 (mtrans mid) (fr 2) (fr 1))] /\
  ~ frames_ok (fr 1) null_frame.
Proof.
  split; [reflexivity|]. intros [_ H]. specialize (H eq_refl). discriminate.
Qed.

(** ** C15 *)
Theorem c15_so3_composition : forall a b, so3_framing a -> so3_framing b ->
  (so3_is_framed a = true -> so3_is_framed b = true ->
     (so3_from a = so3_into b ->
        exists r, so3_mul a b = Ok r /\ so3_into r = so3_into a /\ so3_from r = so3_from b /\
                  so3_is_framed r = true) /\
     (so3_from a <> so3_into b -> so3_mul a b = Throw)) /\
  (so3_is_framed a = false \/ so3_is_framed b = false ->
     exists r, so3_mul a b = Ok r /\ so3_is_framed r = false).
Proof. exact so3_compose. Qed.
Print Assumptions c15_so3_composition.

Theorem c15_se3_composition : forall a b, se3_framing a -> se3_framing b ->
  (se3_is_framed a = true -> se3_is_framed b = true ->
     (se3_from a = se3_into b ->
        exists r, se3_mul a b = Ok r /\ se3_into r = se3_into a /\ se3_from r = se3_from b /\
                  se3_is_framed r = true) /\
     (se3_from a <> se3_into b -> se3_mul a b = Throw)) /\
  (se3_is_framed a = false \/ se3_is_framed b = false ->
     exists r, se3_mul a b = Ok r /\ se3_is_framed r = false).
Proof. exact se3_compose. Qed.
Print Assumptions c15_se3_composition.

Theorem c15_inverse_swaps_frames : forall a b, so3_framing a -> se3_framing b ->
  (exists r, so3_inverse a = Ok r /\ so3_into r = so3_from a /\ so3_from r = so3_into a) /\
  (exists r, se3_inverse b = Ok r /\ se3_into r = se3_from b /\ se3_from r = se3_into b).
Proof. exact inverse_swaps. Qed.
Print Assumptions c15_inverse_swaps_frames.

Theorem c15_so3_associative : forall a b c,
  so3_framing a -> so3_framing b -> so3_framing c ->
  so3_is_framed a = so3_is_framed b -> so3_is_framed b = so3_is_framed c ->
  (let* ab := so3_mul a b in so3_mul ab c) = (let* bc := so3_mul b c in so3_mul a bc).
Proof. exact so3_assoc. Qed.
Print Assumptions c15_so3_associative.

Theorem c15_se3_associative : forall a b c,
  se3_framing a -> se3_framing b -> se3_framing c ->
  se3_is_framed a = se3_is_framed b -> se3_is_framed b = se3_is_framed c ->
  (let* ab := se3_mul a b in se3_mul ab c) = (let* bc := se3_mul b c in se3_mul a bc).
Proof. exact se3_assoc. Qed.
Print Assumptions c15_se3_associative.

(** With framed and unframed operands mixed, bracketing matters: an unframed factor
    hides the mismatch of the other two. *)
Theorem c15_mixed_associativity_refuted : exists a b c r,
  In (OSO3 a) (history [] [SO3Default]) /\ so3_framing b /\ so3_framing c /\
  (let* ab := so3_mul a b in so3_mul ab c) = Ok r /\
  (let* bc := so3_mul b c in so3_mul a bc) = Throw.
Proof.
  exists so3_default, (ex_so3 1 2), (ex_so3 3 4). eexists.
  split; [left; reflexivity|]. split; [split; discriminate|]. split; [split; discriminate|].
  split; reflexivity.
Qed.
Print Assumptions c15_mixed_associativity_refuted.

Example c15_example :
  so3_framing (ex_so3 1 2) /\ so3_is_framed (ex_so3 1 2) = true /\ se3_framing (ex_se3 1 2) /\
  so3_mul (ex_so3 1 2) (ex_so3 2 3) = Ok (SO3 (mmul quarter_turn quarter_turn) (fr 1) (fr 3)) /\
  so3_mul (ex_so3 1 2) (ex_so3 3 1) = Throw.
Proof. repeat split; try discriminate. Qed.

(** ** C16 *)
Theorem c16_se3_chain : forall g hs, Forall se3_framing (g :: hs) ->
  Forall (fun h => se3_is_framed h = true) (g :: hs) ->
  (linked se3_into se3_from g hs ->
     exists r, se3_chain g hs = Ok r /\ se3_into r = se3_into g /\
       se3_from r = se3_from (last hs g) /\
       forall p, se3_act r p = apply_chain se3_act g hs p) /\
  (~ linked se3_into se3_from g hs -> se3_chain g hs = Throw).
Proof. exact se3_chain_ok. Qed.
Print Assumptions c16_se3_chain.

Theorem c16_so3_chain : forall g hs, Forall so3_framing (g :: hs) ->
  Forall (fun h => so3_is_framed h = true) (g :: hs) ->
  (linked so3_into so3_from g hs ->
     exists r, so3_chain g hs = Ok r /\ so3_into r = so3_into g /\
       so3_from r = so3_from (last hs g) /\
       forall p, so3_act r p = apply_chain so3_act g hs p) /\
  (~ linked so3_into so3_from g hs -> so3_chain g hs = Throw).
Proof. exact so3_chain_ok. Qed.
Print Assumptions c16_so3_chain.

(** A chain of four that links up, and one broken in the middle. *)
Example c16_example :
  Forall se3_framing [ex_se3 1 2; ex_se3 2 3; ex_se3 3 4; ex_se3 4 5] /\
  linked se3_into se3_from (ex_se3 1 2) [ex_se3 2 3; ex_se3 3 4; ex_se3 4 5] /\
  se3_chain (ex_se3 1 2) [ex_se3 2 3; ex_se3 9 4; ex_se3 4 5] = Throw.
Proof.
  split; [|split; [repeat split|reflexivity]].
  repeat constructor; try reflexivity; discriminate.
Qed.

(** ** C17 *)
Theorem c17_addition : forall a b,
  (fv_frame a = fv_frame b ->
     fv_add a b = Ok (FV (vadd (fv_vector a) (fv_vector b)) (fv_frame a))) /\
  (fv_frame a <> fv_frame b -> fv_add a b = Throw).
Proof. exact fv_add_spec. Qed.
Print Assumptions c17_addition.

Theorem c17_rotation : forall g h v,
  (so3_is_framed g = true /\ so3_from g = fv_frame v ->
     so3_rotate_framed g v = Ok (FV (so3_act g (fv_vector v)) (so3_into g))) /\
  (so3_is_framed g = false \/ so3_from g <> fv_frame v -> so3_rotate_framed g v = Throw) /\
  (se3_is_framed h = true /\ se3_from h = fv_frame v ->
     se3_rotate_framed h v = Ok (FV (so3_act (rotation h) (fv_vector v)) (se3_into h))) /\
  (se3_is_framed h = false \/ se3_from h <> fv_frame v -> se3_rotate_framed h v = Throw).
Proof. exact rotate_spec. Qed.
Print Assumptions c17_rotation.

Theorem c17_equality : forall a b,
  fv_eqb a b = true <-> (fv_vector a = fv_vector b /\ fv_frame a = fv_frame b).
Proof. exact fv_eqb_spec. Qed.
Print Assumptions c17_equality.

(** A bare vector is added without a frame check, and a frame can be overwritten: then the
    check passes. *)
Theorem c17_relabel : forall a b,
  (forall r, fv_add a b = Ok r -> fv_add_vector a (fv_vector b) = fv_vector r) /\
  fv_add (fv_set_frame a (fv_frame b)) b = Ok (FV (fv_add_vector a (fv_vector b)) (fv_frame b)).
Proof. exact fv_relabel. Qed.
Print Assumptions c17_relabel.

(** Scaling keeps the frame; scaling and addition satisfy the vector space laws, frame
    mismatches included. *)
Theorem c17_scaling : forall d e a b,
  fv_frame (fv_scale d a) = fv_frame a /\
  fv_scale d (fv_scale e a) = fv_scale (d * e) a /\ fv_scale 1 a = a /\
  fv_add a b = fv_add b a /\
  (let* s := fv_add a b in Ok (fv_scale d s)) = fv_add (fv_scale d a) (fv_scale d b).
Proof. exact fv_scale_laws. Qed.
Print Assumptions c17_scaling.

(** Approximate comparison looks at the frames when the argument is const ... *)
Theorem c17_is_approx_const : forall close a b,
  fv_is_approx close ConstLvalue a b = true <->
  close (fv_vector a) (fv_vector b) = true /\ fv_frame a = fv_frame b.
Proof. exact fv_is_approx_const. Qed.
Print Assumptions c17_is_approx_const.

(** ... but vectors in different frames compare approximately equal when it is a
    temporary or a non-const variable, against the comment at framed_vector.hh:87. *)
Theorem c17_is_approx_considers_frames_refuted : forall cat, cat <> ConstLvalue ->
  exists a b, fv_frame a <> fv_frame b /\
    forall close : vec3 -> vec3 -> bool, (forall v, close v v = true) ->
      fv_is_approx close cat a b = true.
Proof. exact fv_is_approx_refuted. Qed.
Print Assumptions c17_is_approx_considers_frames_refuted.

Example c17_example :
  let v := FV (V3 1 0 0) (fr 2) in
  so3_is_framed (ex_so3 1 2) = true /\ so3_from (ex_so3 1 2) = fv_frame v /\
  so3_rotate_framed (ex_so3 1 2) v = Ok (FV (V3 0 1 0) (fr 1)) /\
  so3_rotate_framed (ex_so3 1 3) v = Throw /\
  fv_add v (FV (V3 0 0 1) (fr 3)) = Throw.
Proof.
  cbv zeta. split; [reflexivity|split; [reflexivity|split; [|split; reflexivity]]].
  assert (E : so3_act (ex_so3 1 2) (V3 1 0 0) = V3 0 1 0).
  { unfold so3_act, ex_so3, quarter_turn. cbn [rotation_matrix]. vsimpl. f_equal; ring. }
  rewrite <- E. reflexivity.
Qed.
