(** Specification of framing: histories of calls on a store of transforms, and chains
    of compositions. *)
From Verif Require Import Cpp UuidModel GeomModel TransProtoModel.

(** Both frames null or neither. *)
Definition frames_ok (into from : frame) : Prop := into = null_frame <-> from = null_frame.

(** ** Histories *)
Inductive obj := OSO3 (g : so3) | OSE3 (g : se3).
Definition store := list obj.

(** The calls a program can make; numbers are positions in the store.  Creating calls
    append their result. *)
Inductive call :=
| SO3Default | SO3Matrix (m : mat3) (a : frame_args)
| SO3AngleAxis (angle : R) (axis : vec3) (a : frame_args)
| SO3Quat (q : quat) (a : frame_args) | SO3Identity (a : frame_args)
| SO3Exp (v : vec3) (a : frame_args) | SO3Unpack (m : lie_msg)
| SE3Default | SE3Rotation (r : nat) (a : frame_args) | SE3Translation (t : vec3) (a : frame_args)
| SE3Both (r : nat) (t : vec3) (a : frame_args) | SE3Identity (a : frame_args)
| SE3Exp (v : tan6) (a : frame_args) | SE3Unpack (m : lie_msg)
| Copy (i : nat) | Assign (i j : nat) | RotationOf (i : nat)
| Mul (i j : nat) | Inverse (i : nat) | Interp (i : nat) (x : R)
| InterpFrom (i : nat) (x : R) (f : frame)
| SetFrames (i : nat) (into from : frame) | SetUnframed (i : nat).

Definition new_so3 (s : store) (r : outcome so3) : outcome store := let* g := r in Ok (s ++ [OSO3 g]).
Definition new_se3 (s : store) (r : outcome se3) : outcome store := let* g := r in Ok (s ++ [OSE3 g]).
Fixpoint put (s : store) (i : nat) (o : obj) : store :=
  match s, i with
  | [], _ => []
  | _ :: s', O => o :: s'
  | x :: s', S i' => x :: put s' i' o
  end.

(** One call.  Calls that name a missing or ill-typed object do not compile and are
    taken to do nothing. *)
Definition call_result (s : store) (c : call) : outcome store :=
  match c with
  | SO3Default => new_so3 s (Ok so3_default)
  | SO3Matrix m a => new_so3 s (so3_of_matrix m a)
  | SO3AngleAxis t u a => new_so3 s (so3_of_angle_axis t u a)
  | SO3Quat q a => new_so3 s (so3_of_quat q a)
  | SO3Identity a => new_so3 s (so3_identity a)
  | SO3Exp v a => new_so3 s (so3_exp v a)
  | SO3Unpack m => new_so3 s (unpack_so3 m)
  | SE3Default => new_se3 s (Ok se3_default)
  | SE3Rotation r a =>
      match nth_error s r with
      | Some (OSO3 g) => new_se3 s (se3_of_rotation g a) | _ => Ok s end
  | SE3Translation t a => new_se3 s (se3_of_translation t a)
  | SE3Both r t a =>
      match nth_error s r with
      | Some (OSO3 g) => new_se3 s (se3_make g t a) | _ => Ok s end
  | SE3Identity a => new_se3 s (se3_identity a)
  | SE3Exp v a => new_se3 s (se3_exp v a)
  | SE3Unpack m => new_se3 s (unpack_se3 m)
  | Copy i => match nth_error s i with Some o => Ok (s ++ [o]) | None => Ok s end
  | Assign i j =>
      match nth_error s i, nth_error s j with
      | Some (OSO3 _), Some (OSO3 g) => Ok (put s i (OSO3 g))
      | Some (OSE3 _), Some (OSE3 g) => Ok (put s i (OSE3 g))
      | _, _ => Ok s end
  | RotationOf i =>
      match nth_error s i with
      | Some (OSE3 g) => Ok (s ++ [OSO3 (rotation g)]) | _ => Ok s end
  | Mul i j =>
      match nth_error s i, nth_error s j with
      | Some (OSO3 a), Some (OSO3 b) => new_so3 s (so3_mul a b)
      | Some (OSE3 a), Some (OSE3 b) => new_se3 s (se3_mul a b)
      | _, _ => Ok s end
  | Inverse i =>
      match nth_error s i with
      | Some (OSO3 a) => new_so3 s (so3_inverse a)
      | Some (OSE3 a) => new_se3 s (se3_inverse a)
      | None => Ok s end
  | Interp i x =>
      match nth_error s i with
      | Some (OSO3 a) => new_so3 s (so3_interp a x)
      | Some (OSE3 a) => new_se3 s (se3_interp a x)
      | None => Ok s end
  | InterpFrom i x f =>
      match nth_error s i with
      | Some (OSO3 a) => new_so3 s (so3_interp_from a x f)
      | Some (OSE3 a) => new_se3 s (se3_interp_from a x f)
      | None => Ok s end
  | SetFrames i into from =>
      match nth_error s i with
      | Some (OSO3 a) => let* g := so3_set_frames a into from in Ok (put s i (OSO3 g))
      | Some (OSE3 a) => let* g := se3_set_frames a into from in Ok (put s i (OSE3 g))
      | None => Ok s end
  | SetUnframed i =>
      match nth_error s i with
      | Some (OSO3 a) => Ok (put s i (OSO3 (so3_set_unframed a)))
      | Some (OSE3 a) => Ok (put s i (OSE3 (se3_set_unframed a)))
      | None => Ok s end
  end.

(** A program that catches every exception. *)
Fixpoint history (s : store) (cs : list call) : store :=
  match cs with
  | [] => s
  | c :: cs' => history (match call_result s c with Ok s' => s' | _ => s end) cs'
  end.

Definition into_of (o : obj) : frame := match o with OSO3 g => so3_into g | OSE3 g => se3_into g end.
Definition from_of (o : obj) : frame := match o with OSO3 g => so3_from g | OSE3 g => se3_from g end.
Definition framed_of (o : obj) : bool :=
  match o with OSO3 g => so3_is_framed g | OSE3 g => se3_is_framed g end.

(** ** Values as the API can produce them *)
Definition so3_framing (g : so3) : Prop := frames_ok (so3_into g) (so3_from g).
Definition se3_framing (g : se3) : Prop :=
  frames_ok (se3_into g) (se3_from g) /\
  so3_into (rotation g) = null_frame /\ so3_from (rotation g) = null_frame.

(** ** Chains *)
(** The C++ expression g * h1 * h2 * ... *)
Fixpoint se3_chain (g : se3) (hs : list se3) : outcome se3 :=
  match hs with
  | [] => Ok g
  | h :: hs' => let* gh := se3_mul g h in se3_chain gh hs'
  end.
Fixpoint so3_chain (g : so3) (hs : list so3) : outcome so3 :=
  match hs with
  | [] => Ok g
  | h :: hs' => let* gh := so3_mul g h in so3_chain gh hs'
  end.
(** Consecutive frames link up. *)
Fixpoint linked {G} (into from : G -> frame) (g : G) (hs : list G) : Prop :=
  match hs with
  | [] => True
  | h :: hs' => from g = into h /\ linked into from h hs'
  end.
(** Apply the factors one after the other, the last one first. *)
Definition apply_chain {G} (act : G -> vec3 -> vec3) (g : G) (hs : list G) (p : vec3) : vec3 :=
  act g (fold_right act p hs).
