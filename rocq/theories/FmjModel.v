(** Model of composing and inverting moving poses in double precision:
    resim/curves/two_jet.cc and resim/actor/state/rigid_body_state.cc, for SE3.  Frames are
    left out; C29, C30 and C39 cover them.  TwoJetL::operator* is fpjet_mul in FpsModel. *)
From Flocq Require Import Core BinarySingleNaN.
From Verif Require Import Cpp FloatModel DriftModel SpinModel FtsModel FpsModel FtrModel.

(** Difference of tangent vectors (two_jet.cc:164-169). *)
Definition fvsub (v w : fvec) : fvec := FV (fsub (fx v) (fx w)) (fsub (fy v) (fy w)) (fsub (fz v) (fz w)).
Definition ftsub (a b : ftan) : ftan := FT (fvsub (frot_part a) (frot_part b)) (fvsub (ftrans_part a) (ftrans_part b)).

(** TwoJetR::operator*: two_jet.cc:159-170, and RigidBodyState::operator*:
    rigid_body_state.cc:60-64. *)
Definition frjet_mul (a b c : frjet) : Prop :=
  fpose_mul (rf a) (rf b) (rf c) /\
  (exists i w, fpose_inverse (rf b) i /\ fadjoint_times i (rd1 a) w /\ rd1 c = ftadd (rd1 b) w) /\
  (exists i i' w2 w, fpose_inverse (rf b) i /\ fadjoint_times i (rd2 a) w2 /\ fpose_inverse (rf b) i' /\ fadjoint_times i' (rd1 a) w /\
     rd2 c = ftsub (ftadd (rd2 b) w2) (flie_bracket (rd1 b) w)).
(** TwoJetR::inverse: two_jet.cc:149-156. *)
Definition frjet_inverse (a c : frjet) : Prop :=
  fpose_inverse (rf a) (rf c) /\
  (exists w, fadjoint_times (rf a) (rd1 a) w /\ rd1 c = ftneg w) /\
  (exists w, fadjoint_times (rf a) (rd2 a) w /\ rd2 c = ftneg w).
(** RigidBodyState::inverse_times: rigid_body_state.cc:66-70. *)
Definition frjet_inverse_times (a b c : frjet) : Prop := exists i, frjet_inverse a i /\ frjet_mul i b c.
(** TwoJetL::inverse: two_jet.cc:52-60. *)
Definition fpjet_inverse (a c : fpjet) : Prop :=
  fpose_inverse (pf a) (pf c) /\
  (exists w, fadjoint_times (pf c) (pd a) w /\ pd c = ftneg w) /\
  (exists w, fadjoint_times (pf c) (pd2 a) w /\ pd2 c = ftneg w).
