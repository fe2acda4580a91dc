(** Model of Trajectory in double precision: resim/actor/state/trajectory.cc.  Frames are left
    out, and what is left of a trajectory when an append throws; C40 and C41 cover them. *)
From Coq Require Import ZArith List.
From Flocq Require Import Core BinarySingleNaN.
From Verif Require Import Cpp FloatModel DriftModel FpsModel FpcModel.
Import ListNotations.

(** TwoJetR<SE3>: two_jet.hh:131-182, which is all that a RigidBodyState holds: rigid_body_state.hh:144. *)
Record frjet := FRJ { rf : fpose; rd1 : ftan; rd2 : ftan }.
(** Unary minus of a tangent vector (two_jet.cc:79-80, 176-177). *)
Definition ftneg (v : ftan) : ftan := FT (fvneg (frot_part v)) (fvneg (ftrans_part v)).
(** TwoJetL::right_two_jet: two_jet.cc:76-82. *)
Definition fright_two_jet (j : fpjet) (r : frjet) : Prop :=
  fpose_inverse (pf j) (rf r) /\ rd1 r = ftneg (pd j) /\ rd2 r = ftneg (pd2 j).
(** TwoJetR::left_two_jet: two_jet.cc:173-179. *)
Definition fleft_two_jet (j : frjet) (l : fpjet) : Prop :=
  fpose_inverse (rf j) (pf l) /\ pd l = ftneg (rd1 j) /\ pd2 l = ftneg (rd2 j).

(** Trajectory::Control: trajectory.hh:42-47. *)
Record ftpoint := FTPoint { fat_time : Z; fstate : frjet }.
(** The data members: trajectory.hh:97-98. *)
Record ftraj := FTraj { fcurve : fpcurve; fstart : Z }.
(** append(Control): trajectory.cc:32-50. *)
Definition ftr_append (t : ftraj) (p : ftpoint) (result : outcome ftraj) : Prop :=
  let start := match fpcontrols (fcurve t) with [] => fat_time p | _ => fstart t end in
  match sub64 (fat_time p) start with
  | Ok d => exists l, fleft_two_jet (fstate p) l /\
      result = (let* c := fp_append (fcurve t) (FPControl (as_seconds d) l) in Ok (FTraj c start))
  | Throw => result = Throw
  | UB => result = UB
  end.
(** append(initializer_list): trajectory.cc:52-56. *)
Fixpoint ftr_appends (t : ftraj) (ps : list ftpoint) (result : outcome ftraj) : Prop :=
  match ps with
  | [] => result = Ok t
  | p :: ps => exists o, ftr_append t p o /\
      match o with Ok t' => ftr_appends t' ps result | Throw => result = Throw | UB => result = UB end
  end.
(** Trajectory(initializer_list): trajectory.cc:24-26; the time starts as zero. *)
Definition ftr_make (ps : list ftpoint) (result : outcome ftraj) : Prop := ftr_appends (FTraj (FPCurve [] []) 0) ps result.
(** point_at(Duration): trajectory.cc:63-67. *)
Definition ftr_point_from_start (t : ftraj) (from_start : Z) (result : outcome frjet) : Prop :=
  exists o, fp_point_at (fcurve t) (as_seconds from_start) o /\
    match o with
    | Ok j => exists r, fright_two_jet j r /\ result = Ok r
    | Throw => result = Throw
    | UB => result = UB
    end.
(** point_at(Timestamp): trajectory.cc:58-61. *)
Definition ftr_point_at (t : ftraj) (at_time : Z) (result : outcome frjet) : Prop :=
  match sub64 at_time (fstart t) with
  | Ok d => ftr_point_from_start t d result
  | Throw => result = Throw
  | UB => result = UB
  end.
