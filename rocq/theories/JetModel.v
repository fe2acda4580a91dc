(** Model of resim/curves/two_jet.{hh,cc}. *)
From Verif Require Import Cpp UuidModel GeomModel.
Local Open Scope R_scope.

(** What the templates of resim/curves use of their Group parameter: the concept
    LieGroupType of resim/transforms/liegroup_concepts.hh:15-70, and the vector
    arithmetic of Group::TangentVector. *)
Record lie_ops (G T : Type) := LieOps {
  g_mul : G -> G -> outcome G;
  g_inverse : G -> outcome G;
  g_identity : frame_args -> outcome G;
  g_exp : T -> frame_args -> outcome G;
  g_log : G -> T;
  g_adjoint_times : G -> T -> T;
  g_adjoint_times_alg : T -> T -> T;
  g_into : G -> frame;
  g_from : G -> frame;
  g_default : G;
  t_add : T -> T -> T;
  t_scale : R -> T -> T;
  t_zero : T }.
Arguments g_mul {G T}. Arguments g_inverse {G T}. Arguments g_identity {G T}.
Arguments g_exp {G T}. Arguments g_log {G T}. Arguments g_adjoint_times {G T}.
Arguments g_adjoint_times_alg {G T}. Arguments g_into {G T}. Arguments g_from {G T}.
Arguments g_default {G T}. Arguments t_add {G T}. Arguments t_scale {G T}. Arguments t_zero {G T}.

(** The two instances: two_jet.cc:106-107, 203-204. *)
Definition so3_ops : lie_ops so3 vec3 :=
  LieOps _ _ so3_mul so3_inverse so3_identity so3_exp so3_log so3_adjoint_times so3_adjoint_times_alg
    so3_into so3_from so3_default vadd vscale vzero.
Definition se3_ops : lie_ops se3 tan6 :=
  LieOps _ _ se3_mul se3_inverse se3_identity se3_exp se3_log se3_adjoint_times se3_adjoint_times_alg
    se3_into se3_from se3_default tadd tscale tzero.

(** LieGroup::is_framed and verify_frames: resim/transforms/liegroup.hh:80-97. *)
Definition g_is_framed {G T} (o : lie_ops G T) (g : G) : bool := negb (frame_is_null (g_into o g)).
Definition g_verify_frames {G T} (o : lie_ops G T) (g : G) (into from : frame) : bool :=
  frame_eqb (g_into o g) into && frame_eqb (g_from o g) from.
(** Unary and binary minus of tangent vectors. *)
Definition t_neg {G T} (o : lie_ops G T) (a : T) : T := t_scale o (-1) a.
Definition t_sub {G T} (o : lie_ops G T) (a b : T) : T := t_add o a (t_neg o b).

(** TwoJetL: two_jet.hh:102-111; the constructor two_jet.cc:18-25 and the getters
    two_jet.cc:83-96 are [JetL] and the projections. *)
Record jet_l (G T : Type) := JetL { frame_from_ref : G; d_frame_from_ref : T; d2_frame_from_ref : T }.
Arguments JetL {G T}. Arguments frame_from_ref {G T}.
Arguments d_frame_from_ref {G T}. Arguments d2_frame_from_ref {G T}.
(** TwoJetR: two_jet.hh:174-185, two_jet.cc:115-122, 180-193. *)
Record jet_r (G T : Type) := JetR { ref_from_frame : G; d_ref_from_frame : T; d2_ref_from_frame : T }.
Arguments JetR {G T}. Arguments ref_from_frame {G T}.
Arguments d_ref_from_frame {G T}. Arguments d2_ref_from_frame {G T}.

Section Jets.
Context {G T : Type} (o : lie_ops G T).

(** TwoJetL(): two_jet.hh:63, 105-111. *)
Definition jl_default : jet_l G T := JetL (g_default o) (t_zero o) (t_zero o).
(** set_frame_from_ref, set_d_frame_from_ref, set_d2_frame_from_ref: two_jet.cc:27-40. *)
Definition jl_set_frame (j : jet_l G T) (g : G) : jet_l G T := JetL g (d_frame_from_ref j) (d2_frame_from_ref j).
Definition jl_set_d (j : jet_l G T) (v : T) : jet_l G T := JetL (frame_from_ref j) v (d2_frame_from_ref j).
Definition jl_set_d2 (j : jet_l G T) (v : T) : jet_l G T := JetL (frame_from_ref j) (d_frame_from_ref j) v.
(** TwoJetL::identity: two_jet.cc:42-49. *)
Definition jl_identity (a : frame_args) : outcome (jet_l G T) :=
  let* g := g_identity o a in Ok (JetL g (t_zero o) (t_zero o)).
(** TwoJetL::inverse: two_jet.cc:51-60. *)
Definition jl_inverse (j : jet_l G T) : outcome (jet_l G T) :=
  let* inv := jl_identity None in
  let* gi := g_inverse o (frame_from_ref j) in
  let inv := jl_set_frame inv gi in
  let inv := jl_set_d inv (t_neg o (g_adjoint_times o (frame_from_ref inv) (d_frame_from_ref j))) in
  let inv := jl_set_d2 inv (t_neg o (g_adjoint_times o (frame_from_ref inv) (d2_frame_from_ref j))) in
  Ok inv.
(** TwoJetL::operator*: two_jet.cc:62-73. *)
Definition jl_mul (a b : jet_l G T) : outcome (jet_l G T) :=
  let ga := frame_from_ref a in
  let* g := g_mul o ga (frame_from_ref b) in
  Ok (JetL g
    (t_add o (d_frame_from_ref a) (g_adjoint_times o ga (d_frame_from_ref b)))
    (t_add o (t_add o (d2_frame_from_ref a) (g_adjoint_times o ga (d2_frame_from_ref b)))
       (g_adjoint_times_alg o (d_frame_from_ref a) (g_adjoint_times o ga (d_frame_from_ref b))))).
(** TwoJetL::right_two_jet: two_jet.cc:75-81. *)
Definition right_two_jet (j : jet_l G T) : outcome (jet_r G T) :=
  let* g := g_inverse o (frame_from_ref j) in
  Ok (JetR g (t_neg o (d_frame_from_ref j)) (t_neg o (d2_frame_from_ref j))).

(** TwoJetR(): two_jet.hh:135, 178-184. *)
Definition jr_default : jet_r G T := JetR (g_default o) (t_zero o) (t_zero o).
(** The setters of TwoJetR: two_jet.cc:124-137. *)
Definition jr_set_frame (j : jet_r G T) (g : G) : jet_r G T := JetR g (d_ref_from_frame j) (d2_ref_from_frame j).
Definition jr_set_d (j : jet_r G T) (v : T) : jet_r G T := JetR (ref_from_frame j) v (d2_ref_from_frame j).
Definition jr_set_d2 (j : jet_r G T) (v : T) : jet_r G T := JetR (ref_from_frame j) (d_ref_from_frame j) v.
(** TwoJetR::identity: two_jet.cc:139-146. *)
Definition jr_identity (a : frame_args) : outcome (jet_r G T) :=
  let* g := g_identity o a in Ok (JetR g (t_zero o) (t_zero o)).
(** TwoJetR::inverse: two_jet.cc:148-156. *)
Definition jr_inverse (j : jet_r G T) : outcome (jet_r G T) :=
  let* inv := jr_identity None in
  let* gi := g_inverse o (ref_from_frame j) in
  let inv := jr_set_frame inv gi in
  let inv := jr_set_d inv (t_neg o (g_adjoint_times o (ref_from_frame j) (d_ref_from_frame j))) in
  let inv := jr_set_d2 inv (t_neg o (g_adjoint_times o (ref_from_frame j) (d2_ref_from_frame j))) in
  Ok inv.
(** TwoJetR::operator*: two_jet.cc:158-170. *)
Definition jr_mul (a b : jet_r G T) : outcome (jet_r G T) :=
  let* g := g_mul o (ref_from_frame a) (ref_from_frame b) in
  let* bi := g_inverse o (ref_from_frame b) in
  Ok (JetR g
    (t_add o (d_ref_from_frame b) (g_adjoint_times o bi (d_ref_from_frame a)))
    (t_sub o (t_add o (d2_ref_from_frame b) (g_adjoint_times o bi (d2_ref_from_frame a)))
       (g_adjoint_times_alg o (d_ref_from_frame b) (g_adjoint_times o bi (d_ref_from_frame a))))).
(** TwoJetR::left_two_jet: two_jet.cc:172-178. *)
Definition left_two_jet (j : jet_r G T) : outcome (jet_l G T) :=
  let* g := g_inverse o (ref_from_frame j) in
  Ok (JetL g (t_neg o (d_ref_from_frame j)) (t_neg o (d2_ref_from_frame j))).
End Jets.
