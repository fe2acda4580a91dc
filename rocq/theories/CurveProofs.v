(** Quintic coefficients and curve segments. *)
From Verif Require Import Cpp UuidModel RotSpec GeomModel TransProtoSpec DerivSpec DerivProofs FrameSpec LieSpec
  FrameProofs JetModel JetSpec JetLaws JetProofs CurveModel CurveSpec.
Local Open Scope R_scope.

(** ** Quintic coefficients *)
Ltac poly := unfold q_dest_from_orig, q_d_orig, q_d_dest, q_d2_orig, q_d2_dest, two_jet_coeffs, two_jet_single_coeff;
  cbn [pc_a pc_da pc_d2a]; unfold DEST_ORIG, D_ORIG, D_DEST, D2_ORIG, D2_DEST, MULT_A, MULT_DA, MULT_D2A, arr_at;
  cbn [seq rev app Nat.sub fold_left nth].
(** The value, the slope and the second derivative of a table. *)
Lemma coeffs_value c0 c1 c2 c3 c4 t : pc_a (two_jet_coeffs [c0; c1; c2; c3; c4] t) = quintic 0 c0 c1 c2 c3 c4 t.
Proof. poly. unfold quintic. ring. Qed.
Lemma coeffs_slope c0 c1 c2 c3 c4 t :
  pc_da (two_jet_coeffs [c0; c1; c2; c3; c4] t) = quintic c0 (2 * c1) (3 * c2) (4 * c3) (5 * c4) 0 t.
Proof. poly. unfold quintic. ring. Qed.
Lemma coeffs_second c0 c1 c2 c3 c4 t :
  pc_d2a (two_jet_coeffs [c0; c1; c2; c3; c4] t) = quintic (2 * c1) (6 * c2) (12 * c3) (20 * c4) 0 0 t.
Proof. poly. unfold quintic. ring. Qed.
Lemma dl_quintic c0 c1 c2 c3 c4 c5 t :
  derivable_pt_lim (quintic c0 c1 c2 c3 c4 c5) t (quintic c1 (2 * c2) (3 * c3) (4 * c4) (5 * c5) 0 t).
Proof.
  unfold quintic.
  assert (P : forall k n, derivable_pt_lim (fun x => k * x ^ n) t (k * (INR n * t ^ pred n))).
  { intros k n. eapply dl_eq; [apply (dl_mult (fun _ => k) (fun x => x ^ n)); [apply dl_const|apply derivable_pt_lim_pow]|]. ring. }
  eapply dl_eq.
  - apply (dl_plus (fun x => c0 + c1 * x + c2 * x^2 + c3 * x^3 + c4 * x^4) (fun x => c5 * x^5)); [|apply P].
    apply (dl_plus (fun x => c0 + c1 * x + c2 * x^2 + c3 * x^3) (fun x => c4 * x^4)); [|apply P].
    apply (dl_plus (fun x => c0 + c1 * x + c2 * x^2) (fun x => c3 * x^3)); [|apply P].
    apply (dl_plus (fun x => c0 + c1 * x) (fun x => c2 * x^2)); [|apply P].
    apply (dl_plus (fun _ => c0) (fun x => c1 * x)); [apply dl_const|].
    apply (dl_mult (fun _ => c1) (fun x => x)); [apply dl_const|apply dl_id].
  - cbn [pred INR]. ring.
Qed.

Lemma coeffs_jet c0 c1 c2 c3 c4 : jet_of_function (two_jet_coeffs [c0; c1; c2; c3; c4]).
Proof.
  intro t. split; [|split].
  - apply (dl_ext (quintic 0 c0 c1 c2 c3 c4)); [intro s; symmetry; apply coeffs_value|].
    rewrite coeffs_slope. apply dl_quintic.
  - apply (dl_ext (quintic c0 (2 * c1) (3 * c2) (4 * c3) (5 * c4) 0)); [intro s; symmetry; apply coeffs_slope|].
    rewrite coeffs_second. eapply dl_eq; [apply dl_quintic|]. unfold quintic. ring.
  - eexists. apply (dl_ext (quintic (2 * c1) (6 * c2) (12 * c3) (20 * c4) 0 0)); [intro s; symmetry; apply coeffs_second|].
    apply dl_quintic.
Qed.
Lemma coeffs_hermite c0 c1 c2 c3 c4 v0 d0 e0 v1 d1 e1 :
  0 = v0 -> c0 = d0 -> 2 * c1 = e0 -> c0 + c1 + c2 + c3 + c4 = v1 -> c0 + 2 * c1 + 3 * c2 + 4 * c3 + 5 * c4 = d1 ->
  2 * c1 + 6 * c2 + 12 * c3 + 20 * c4 = e1 ->
  hermite_data (fun t => pc_a (two_jet_coeffs [c0; c1; c2; c3; c4] t)) v0 d0 e0 v1 d1 e1.
Proof.
  intros. exists (fun t => pc_da (two_jet_coeffs [c0; c1; c2; c3; c4] t)).
  split; [intro t; apply coeffs_jet|]. rewrite !coeffs_value, !coeffs_slope.
  split; [unfold quintic; lra|]. split; [unfold quintic; lra|].
  split; [eapply dl_eq; [apply coeffs_jet|]; rewrite coeffs_second; unfold quintic; lra|].
  split; [unfold quintic; lra|]. split; [unfold quintic; lra|].
  eapply dl_eq; [apply coeffs_jet|]; rewrite coeffs_second; unfold quintic; lra.
Qed.
(** A quintic is determined by its Hermite data. *)
Lemma hermite_unique c0 c1 c2 c3 c4 c5 b0 b1 b2 b3 b4 b5 v0 d0 e0 v1 d1 e1 :
  hermite_data (quintic c0 c1 c2 c3 c4 c5) v0 d0 e0 v1 d1 e1 ->
  hermite_data (quintic b0 b1 b2 b3 b4 b5) v0 d0 e0 v1 d1 e1 ->
  forall t, quintic c0 c1 c2 c3 c4 c5 t = quintic b0 b1 b2 b3 b4 b5 t.
Proof.
  intros (f & D & A1 & A2 & A3 & A4 & A5 & A6) (g & E & B1 & B2 & B3 & B4 & B5 & B6) t.
  assert (F : forall x, f x = quintic c1 (2 * c2) (3 * c3) (4 * c4) (5 * c5) 0 x).
  { intro x. exact (uniqueness_limite _ _ _ _ (D x) (dl_quintic _ _ _ _ _ _ x)). }
  assert (K : forall x, g x = quintic b1 (2 * b2) (3 * b3) (4 * b4) (5 * b5) 0 x).
  { intro x. exact (uniqueness_limite _ _ _ _ (E x) (dl_quintic _ _ _ _ _ _ x)). }
  pose proof (uniqueness_limite _ _ _ _ (dl_ext _ _ _ _ F A3) (dl_quintic _ _ _ _ _ _ 0)) as A3'.
  pose proof (uniqueness_limite _ _ _ _ (dl_ext _ _ _ _ F A6) (dl_quintic _ _ _ _ _ _ 1)) as A6'.
  pose proof (uniqueness_limite _ _ _ _ (dl_ext _ _ _ _ K B3) (dl_quintic _ _ _ _ _ _ 0)) as B3'.
  pose proof (uniqueness_limite _ _ _ _ (dl_ext _ _ _ _ K B6) (dl_quintic _ _ _ _ _ _ 1)) as B6'.
  rewrite F in A2, A5. rewrite K in B2, B5. clear F K D E. unfold quintic in *.
  assert (Q0 : c0 = b0) by lra. assert (Q1 : c1 = b1) by lra. assert (Q2 : c2 = b2) by lra.
  assert (Q3 : c3 = b3) by lra. assert (Q4 : c4 = b4) by lra. assert (Q5 : c5 = b5) by lra. subst. reflexivity.
Qed.
Lemma q_jets : jet_of_function q_dest_from_orig /\ jet_of_function q_d_orig /\ jet_of_function q_d_dest /\
  jet_of_function q_d2_orig /\ jet_of_function q_d2_dest.
Proof. repeat (split; [apply coeffs_jet|]). apply coeffs_jet. Qed.
(** The values at the ends. *)
Lemma q_dest_0 : q_dest_from_orig 0 = PolyCoeffs 0 0 0. Proof. poly. f_equal; lra. Qed.
Lemma q_dest_1 : q_dest_from_orig 1 = PolyCoeffs 1 0 0. Proof. poly. f_equal; lra. Qed.
Lemma q_d_orig_0 : q_d_orig 0 = PolyCoeffs 0 1 0. Proof. poly. f_equal; lra. Qed.
Lemma q_d_orig_1 : q_d_orig 1 = PolyCoeffs 0 0 0. Proof. poly. f_equal; lra. Qed.
Lemma q_d_dest_0 : q_d_dest 0 = PolyCoeffs 0 0 0. Proof. poly. f_equal; lra. Qed.
Lemma q_d_dest_1 : q_d_dest 1 = PolyCoeffs 0 1 0. Proof. poly. f_equal; lra. Qed.
Lemma q_d2_orig_0 : q_d2_orig 0 = PolyCoeffs 0 0 1. Proof. poly. f_equal; lra. Qed.
Lemma q_d2_orig_1 : q_d2_orig 1 = PolyCoeffs 0 0 0. Proof. poly. f_equal; lra. Qed.
Lemma q_d2_dest_0 : q_d2_dest 0 = PolyCoeffs 0 0 0. Proof. poly. f_equal; lra. Qed.
Lemma q_d2_dest_1 : q_d2_dest 1 = PolyCoeffs 0 0 1. Proof. poly. f_equal; lra. Qed.

(** ** Segments *)
Section Segments.
Context {G T : Type} {o : lie_ops G T} {c : lie_calc G T} (L : lie_laws o c).

Lemma ok_self_into g : well_formed c g -> frames_ok (g_into o g) (g_into o g).
Proof. intros _. split; intro H; exact H. Qed.

(** Poses of the point frame relative to itself. *)
Definition at_frame (i : frame) (g : G) : Prop := well_formed c g /\ g_into o g = i /\ g_from o g = i.
Lemma accumulate_ok s q v p : at_frame (seg_point_frame o s) (frame_from_ref p) ->
  exists g j, g_exp o (t_scale o (pc_a q) v) (Some (seg_point_frame o s, seg_point_frame o s)) = Ok g /\
    at_frame (seg_point_frame o s) g /\
    jl_mul o (JetL g (t_scale o (pc_da q) v) (t_scale o (pc_d2a q) v)) p = Ok j /\
    point_value_accumulator o s q v p = Ok j /\ at_frame (seg_point_frame o s) (frame_from_ref j).
Proof.
  intros (W & I & F). set (P := seg_point_frame o s) in *. unfold point_value_accumulator. fold P.
  destruct (exp_some _ _ L (t_scale o (pc_a q) v) P P (conj (fun x => x) (fun x => x))) as (g & E & Wg & Ig & Fg).
  rewrite E. cbn [obind]. exists g.
  assert (M : g_from o g = g_into o (frame_from_ref p)) by congruence.
  destruct (mul_match _ _ L g (frame_from_ref p) Wg W M) as (r & Er & Ir & Fr).
  eexists. split; [reflexivity|]. split; [repeat split; assumption|].
  unfold jl_mul. cbn [frame_from_ref]. rewrite Er. cbn [obind]. split; [reflexivity|]. split; [reflexivity|].
  cbn [frame_from_ref]. split; [exact (mul_wf _ _ L _ _ _ Wg W Er)|]. split; congruence.
Qed.
(** The accumulation keeps derivatives true. *)
Definition differentiable (u : R -> T) (t : R) : Prop := exists u', tangent_derivative c u t u'.
Definition sound (J : R -> jet_l G T) (t : R) : Prop :=
  true_derivatives c J t /\ differentiable (fun s => d2_frame_from_ref (J s)) t.
Lemma product_sound A B J t : (forall s, well_formed c (frame_from_ref (A s))) -> (forall s, well_formed c (frame_from_ref (B s))) ->
  (forall s, jl_mul o (A s) (B s) = Ok (J s)) -> sound A t -> sound B t -> sound J t.
Proof.
  intros WA WB M [[VA DA] [a3 A3]] [[VB DB] [b3 B3]].
  assert (Mg : forall s, g_mul o (frame_from_ref (A s)) (frame_from_ref (B s)) = Ok (frame_from_ref (J s)) /\
    d_frame_from_ref (J s) = t_add o (d_frame_from_ref (A s)) (g_adjoint_times o (frame_from_ref (A s)) (d_frame_from_ref (B s))) /\
    d2_frame_from_ref (J s) =
      t_add o (t_add o (d2_frame_from_ref (A s)) (g_adjoint_times o (frame_from_ref (A s)) (d2_frame_from_ref (B s))))
       (g_adjoint_times_alg o (d_frame_from_ref (A s)) (g_adjoint_times o (frame_from_ref (A s)) (d_frame_from_ref (B s))))).
  { intro s. specialize (M s). unfold jl_mul in M. apply obind_ok in M as (g & E & M). injection M as <-.
    cbn [frame_from_ref d_frame_from_ref d2_frame_from_ref]. auto. }
  pose proof (vel_ad _ _ L _ t _ _ _ VA DB) as DAd. cbn beta in DAd.
  pose proof (vel_ad _ _ L _ t _ _ _ VA B3) as DAd2. cbn beta in DAd2.
  split; [split|].
  - rewrite (proj1 (proj2 (Mg t))).
    exact (vel_mul _ _ L _ _ _ t _ _ WA WB (fun s => proj1 (Mg s)) VA VB).
  - rewrite (proj2 (proj2 (Mg t))).
    apply (td_near (fun s => t_add o (d_frame_from_ref (A s)) (g_adjoint_times o (frame_from_ref (A s)) (d_frame_from_ref (B s)))) _ _ _ 1 Rlt_0_1).
    { intros s _. symmetry. apply (Mg s). }
    eapply td_eq; [exact (td_add L _ _ _ _ _ DA DAd)|]. unfold t_sub, t_neg. apply (coord_ext _ _ L). intro n.
    rewrite !(coord_add _ _ L). ring.
  - eexists. apply (td_near (fun s => t_add o (t_add o (d2_frame_from_ref (A s)) (g_adjoint_times o (frame_from_ref (A s)) (d2_frame_from_ref (B s))))
       (g_adjoint_times_alg o (d_frame_from_ref (A s)) (g_adjoint_times o (frame_from_ref (A s)) (d_frame_from_ref (B s))))) _ _ _ 1 Rlt_0_1).
    { intros s _. symmetry. apply (Mg s). }
    exact (td_add L _ _ _ _ _ (td_add L _ _ _ _ _ A3 DAd2) (vel_br _ _ L _ _ _ _ _ DA DAd)).
Qed.
Lemma exp_sound q v i A t : jet_of_function q -> exact_exp c (pc_a (q t)) v ->
  (forall s, exists g, g_exp o (t_scale o (pc_a (q s)) v) (Some (i, i)) = Ok g /\
     A s = JetL g (t_scale o (pc_da (q s)) v) (t_scale o (pc_d2a (q s)) v)) -> sound A t.
Proof.
  intros Q X E.
  assert (S : forall s, g_exp o (t_scale o (pc_a (q s)) v) (Some (i, i)) = Ok (frame_from_ref (A s)) /\
    d_frame_from_ref (A s) = t_scale o (pc_da (q s)) v /\ d2_frame_from_ref (A s) = t_scale o (pc_d2a (q s)) v).
  { intro s. destruct (E s) as (g & Eg & ->). auto. }
  destruct (Q t) as (Q1 & Q2 & d3 & Q3).
  assert (K : forall f d, derivable_pt_lim f t d -> tangent_derivative c (fun s => t_scale o (f s) v) t (t_scale o d v)).
  { intros f d D n. rewrite (coord_scale _ _ L). apply (dl_ext (fun s => f s * coord c v n)).
    { intro s. symmetry. apply (coord_scale _ _ L). }
    eapply dl_eq; [apply (dl_mult f (fun _ => coord c v n)); [exact D|apply dl_const]|]. ring. }
  split; [split|].
  - rewrite (proj1 (proj2 (S t))).
    exact (vel_exp _ _ L (fun s => pc_a (q s)) _ v i i _ t Q1 X (fun s => proj1 (S s))).
  - rewrite (proj2 (proj2 (S t))).
    apply (td_near (fun s => t_scale o (pc_da (q s)) v) _ _ _ 1 Rlt_0_1); [intros s _; symmetry; apply S|]. apply K, Q2.
  - eexists.
    apply (td_near (fun s => t_scale o (pc_d2a (q s)) v) _ _ _ 1 Rlt_0_1); [intros s _; symmetry; apply S|]. apply K, Q3.
Qed.
Lemma accumulate_sound sg q v J J' t : jet_of_function q -> exact_exp c (pc_a (q t)) v ->
  (forall s, at_frame (seg_point_frame o sg) (frame_from_ref (J s))) ->
  (forall s, point_value_accumulator o sg (q s) v (J s) = Ok (J' s)) -> sound J t -> sound J' t.
Proof.
  intros Q X W E S.
  set (A := fun s => match g_exp o (t_scale o (pc_a (q s)) v) (Some (seg_point_frame o sg, seg_point_frame o sg)) with
     Ok g => JetL g (t_scale o (pc_da (q s)) v) (t_scale o (pc_d2a (q s)) v) | _ => jl_default o end).
  assert (H : forall s, exists g, g_exp o (t_scale o (pc_a (q s)) v) (Some (seg_point_frame o sg, seg_point_frame o sg)) = Ok g /\
     A s = JetL g (t_scale o (pc_da (q s)) v) (t_scale o (pc_d2a (q s)) v) /\ well_formed c g /\ jl_mul o (A s) (J s) = Ok (J' s)).
  { intro s. destruct (accumulate_ok sg (q s) v (J s) (W s)) as (g & j & Eg & (Wg & _) & M & E' & _).
    rewrite E in E'. injection E' as <-. exists g. split; [exact Eg|].
    assert (EA : A s = JetL g (t_scale o (pc_da (q s)) v) (t_scale o (pc_d2a (q s)) v)) by (unfold A; rewrite Eg; reflexivity).
    rewrite EA. auto. }
  apply (product_sound A J J').
  - intro s. destruct (H s) as (g & _ & -> & Wg & _). exact Wg.
  - intro s. apply W.
  - intro s. destruct (H s) as (g & _ & _ & _ & M). exact M.
  - apply (exp_sound q v (seg_point_frame o sg)); [exact Q|exact X|]. intro s. destruct (H s) as (g & Eg & EA & _). exists g. auto.
  - exact S.
Qed.

(** Evaluation of a segment, step by step. *)
Definition start_jet (sg : tcurve_segment G T) : jet_l G T :=
  match g_identity o (Some (seg_point_frame o sg, seg_point_frame o sg)) with
  | Ok e => JetL e (t_zero o) (t_zero o) | _ => jl_default o end.
Definition step (sg : tcurve_segment G T) (q : poly_coeffs) (v : T) (j : jet_l G T) : jet_l G T :=
  match point_value_accumulator o sg q v j with Ok k => k | _ => jl_default o end.
Lemma start_ok sg : at_frame (seg_point_frame o sg) (frame_from_ref (start_jet sg)) /\
  g_identity o (Some (seg_point_frame o sg, seg_point_frame o sg)) = Ok (frame_from_ref (start_jet sg)) /\
  d_frame_from_ref (start_jet sg) = t_zero o /\ d2_frame_from_ref (start_jet sg) = t_zero o.
Proof.
  unfold start_jet. destruct (identity_some _ _ L (seg_point_frame o sg)) as (e & -> & W & I & F & _).
  cbn [frame_from_ref d_frame_from_ref d2_frame_from_ref]. unfold at_frame. auto.
Qed.
Lemma step_ok sg q v j : at_frame (seg_point_frame o sg) (frame_from_ref j) ->
  point_value_accumulator o sg q v j = Ok (step sg q v j) /\ at_frame (seg_point_frame o sg) (frame_from_ref (step sg q v j)).
Proof.
  intro A. unfold step. destruct (accumulate_ok sg q v j A) as (g & k & _ & _ & _ & -> & Ak). auto.
Qed.
(** The point relative to the origin. *)
Definition rel_point (sg : tcurve_segment G T) (m : G) (t : R) : jet_l G T :=
  step sg (q_d2_dest t) (d2_frame_from_ref (seg_dest sg)) (step sg (q_d2_orig t) (d2_frame_from_ref (seg_orig sg))
   (step sg (q_d_dest t) (d_frame_from_ref (seg_dest sg)) (step sg (q_d_orig t) (d_frame_from_ref (seg_orig sg))
     (step sg (q_dest_from_orig t) (g_log o m) (start_jet sg))))).
Lemma rel_point_ok sg m t : at_frame (seg_point_frame o sg) (frame_from_ref (rel_point sg m t)).
Proof. unfold rel_point. repeat apply step_ok. apply start_ok. Qed.
Lemma motion_ok sg : segment_wf o c sg -> exists ai m, g_inverse o (frame_from_ref (seg_orig sg)) = Ok ai /\
  g_mul o (frame_from_ref (seg_dest sg)) ai = Ok m /\ motion o (seg_orig sg) (seg_dest sg) m /\
  at_frame (seg_point_frame o sg) m /\ g_mul o m (frame_from_ref (seg_orig sg)) = Ok (frame_from_ref (seg_dest sg)).
Proof.
  intros (Wo & Wd & EI & EF). unfold jet_l_wf in *.
  destruct (inverse_ok _ _ L _ Wo) as (ai & Ei & Wi & Ii & Fi & _ & M2 & _).
  assert (Q : g_from o (frame_from_ref (seg_dest sg)) = g_into o ai) by congruence.
  destruct (mul_match _ _ L _ _ Wd Wi Q) as (m & Em & Im & Fm).
  exists ai, m. split; [exact Ei|]. split; [exact Em|]. split; [exists ai; auto|].
  split. { split; [exact (mul_wf _ _ L _ _ _ Wd Wi Em)|]. unfold seg_point_frame. split; congruence. }
  assert (Q2 : g_from o ai = g_into o (frame_from_ref (seg_orig sg))) by exact Fi.
  pose proof (mul_assoc _ _ L _ _ _ Wd Wi Wo Q Q2) as A. rewrite Em, M2 in A. cbn [obind] in A. rewrite A.
  destruct (identity_some _ _ L (g_from o (frame_from_ref (seg_orig sg)))) as (e & -> & _ & _ & _ & _ & _ & R).
  cbn [obind]. apply R; [exact Wd|]. congruence.
Qed.
Lemma motion_unique a b m m' : motion o a b m -> motion o a b m' -> m = m'.
Proof. intros (ai & E & M) (ai' & E' & M'). rewrite E in E'. injection E' as <-. rewrite M in M'. injection M' as <-. reflexivity. Qed.
Lemma seg_point_at_eq sg t : segment_wf o c sg -> exists m g, motion o (seg_orig sg) (seg_dest sg) m /\
  g_mul o (frame_from_ref (rel_point sg m t)) (frame_from_ref (seg_orig sg)) = Ok g /\
  seg_point_at o sg t = Ok (jl_set_frame (rel_point sg m t) g) /\ well_formed c g /\
  same_frames o g (frame_from_ref (seg_orig sg)).
Proof.
  intro W. destruct (motion_ok sg W) as (ai & m & Ei & Em & Mm & _ & _). exists m.
  destruct (rel_point_ok sg m t) as (Wr & Ir & Fr). destruct W as (Wo & _).
  destruct (mul_match _ _ L _ _ Wr Wo Fr) as (g & Eg & Ig & Fg). exists g. split; [exact Mm|]. split; [exact Eg|].
  split; [|split; [exact (mul_wf _ _ L _ _ _ Wr Wo Eg)|split; [exact (eq_trans Ig Ir)|exact Fg]]].
  unfold seg_point_at, jl_identity. destruct (identity_none _ _ L) as (e0 & ->). cbn [obind].
  destruct (start_ok sg) as (S0 & E & D & D2). rewrite E. cbn [obind]. rewrite Ei. cbn [obind]. rewrite Em. cbn [obind].
  replace (jl_set_frame (JetL e0 (t_zero o) (t_zero o)) (frame_from_ref (start_jet sg))) with (start_jet sg).
  2:{ destruct (start_jet sg) as [g' d d2]. cbn in *. subst. reflexivity. }
  destruct (step_ok sg (q_dest_from_orig t) (g_log o m) _ S0) as [-> S1]. cbn [obind].
  destruct (step_ok sg (q_d_orig t) (d_frame_from_ref (seg_orig sg)) _ S1) as [-> S2]. cbn [obind].
  destruct (step_ok sg (q_d_dest t) (d_frame_from_ref (seg_dest sg)) _ S2) as [-> S3]. cbn [obind].
  destruct (step_ok sg (q_d2_orig t) (d2_frame_from_ref (seg_orig sg)) _ S3) as [-> S4]. cbn [obind].
  destruct (step_ok sg (q_d2_dest t) (d2_frame_from_ref (seg_dest sg)) _ S4) as [-> S5]. cbn [obind].
  fold (rel_point sg m t). rewrite Eg. reflexivity.
Qed.

(** Derivatives. *)
Lemma rel_point_sound sg m t : motion o (seg_orig sg) (seg_dest sg) m -> exact_at o c sg t -> sound (rel_point sg m) t.
Proof.
  intros M (X1 & X2 & X3 & X4 & X5). destruct q_jets as (Q1 & Q2 & Q3 & Q4 & Q5).
  set (J1 := fun s => step sg (q_dest_from_orig s) (g_log o m) (start_jet sg)).
  set (J2 := fun s => step sg (q_d_orig s) (d_frame_from_ref (seg_orig sg)) (J1 s)).
  set (J3 := fun s => step sg (q_d_dest s) (d_frame_from_ref (seg_dest sg)) (J2 s)).
  set (J4 := fun s => step sg (q_d2_orig s) (d2_frame_from_ref (seg_orig sg)) (J3 s)).
  assert (S0 := proj1 (start_ok sg)).
  assert (S1 : forall s, at_frame (seg_point_frame o sg) (frame_from_ref (J1 s))) by (intro s; apply step_ok, S0).
  assert (S2 : forall s, at_frame (seg_point_frame o sg) (frame_from_ref (J2 s))) by (intro s; apply step_ok, S1).
  assert (S3 : forall s, at_frame (seg_point_frame o sg) (frame_from_ref (J3 s))) by (intro s; apply step_ok, S2).
  assert (S4 : forall s, at_frame (seg_point_frame o sg) (frame_from_ref (J4 s))) by (intro s; apply step_ok, S3).
  apply (accumulate_sound sg q_d2_dest (d2_frame_from_ref (seg_dest sg)) J4); [exact Q5|exact X5|exact S4|intro s; apply step_ok, S4|].
  apply (accumulate_sound sg q_d2_orig (d2_frame_from_ref (seg_orig sg)) J3); [exact Q4|exact X4|exact S3|intro s; apply step_ok, S3|].
  apply (accumulate_sound sg q_d_dest (d_frame_from_ref (seg_dest sg)) J2); [exact Q3|exact X3|exact S2|intro s; apply step_ok, S2|].
  apply (accumulate_sound sg q_d_orig (d_frame_from_ref (seg_orig sg)) J1); [exact Q2|exact X2|exact S1|intro s; apply step_ok, S1|].
  apply (accumulate_sound sg q_dest_from_orig (g_log o m) (fun _ => start_jet sg));
    [exact Q1|exact (X1 m M)|intro s; exact S0|intro s; apply step_ok, S0|].
  destruct (start_ok sg) as (_ & _ & D & D2). split; [split|].
  - rewrite D. apply (vel_const _ _ L).
  - rewrite D2. apply (td_const L).
  - eexists. apply (td_const L).
Qed.
Lemma seg_sound sg J t : segment_wf o c sg -> (forall s, seg_point_at o sg s = Ok (J s)) -> exact_at o c sg t -> sound J t.
Proof.
  intros W E X. destruct (motion_ok sg W) as (_ & m & _ & _ & Mm & _).
  pose proof (rel_point_sound sg m t Mm X) as [[V D] D3].
  assert (S : forall s, g_mul o (frame_from_ref (rel_point sg m s)) (frame_from_ref (seg_orig sg)) = Ok (frame_from_ref (J s)) /\
    d_frame_from_ref (rel_point sg m s) = d_frame_from_ref (J s) /\ d2_frame_from_ref (rel_point sg m s) = d2_frame_from_ref (J s)).
  { intro s. destruct (seg_point_at_eq sg s W) as (m' & g & Mm' & Eg & Es & _).
    rewrite (motion_unique _ _ _ _ Mm' Mm) in *. rewrite E in Es. injection Es as ->. auto. }
  split; [split|].
  - rewrite <- (proj1 (proj2 (S t))).
    pose proof (vel_mul _ _ L _ (fun _ => frame_from_ref (seg_orig sg)) _ t _ _ (fun s => proj1 (rel_point_ok sg m s))
      (fun _ => proj1 W) (fun s => proj1 (S s)) V (vel_const _ _ L _ t)) as R.
    rewrite (ad_zero L), (t_add_zero_r L) in R. exact R.
  - rewrite <- (proj2 (proj2 (S t))). revert D. apply (td_near _ _ _ _ 1 Rlt_0_1). intros s _. apply S.
  - destruct D3 as [d3 D3]. exists d3. revert D3. apply (td_near _ _ _ _ 1 Rlt_0_1). intros s _. apply S.
Qed.

(** ** The ends *)
Lemma step_at_0 sg q v j da d2a : at_frame (seg_point_frame o sg) (frame_from_ref j) -> q = PolyCoeffs 0 da d2a ->
  step sg q v j = JetL (frame_from_ref j) (t_add o (t_scale o da v) (d_frame_from_ref j))
    (t_add o (t_add o (t_scale o d2a v) (d2_frame_from_ref j)) (g_adjoint_times_alg o (t_scale o da v) (d_frame_from_ref j))).
Proof.
  intros (W & I & _) ->. unfold step, point_value_accumulator. cbn [pc_a pc_da pc_d2a].
  rewrite (t_scale_zero L), (exp_zero _ _ L).
  destruct (identity_some _ _ L (seg_point_frame o sg)) as (e & -> & _ & _ & _ & A & M & _). cbn [obind].
  unfold jl_mul. cbn [frame_from_ref d_frame_from_ref d2_frame_from_ref]. rewrite M by assumption. cbn [obind].
  rewrite !A. reflexivity.
Qed.
Lemma step_at_0' sg q v g d d2 da d2a : at_frame (seg_point_frame o sg) g -> q = PolyCoeffs 0 da d2a ->
  step sg q v (JetL g d d2) = JetL g (t_add o (t_scale o da v) d)
    (t_add o (t_add o (t_scale o d2a v) d2) (g_adjoint_times_alg o (t_scale o da v) d)).
Proof. intros A E. exact (step_at_0 sg q v (JetL g d d2) da d2a A E). Qed.
Ltac tz := repeat first [rewrite (t_scale_one L)|rewrite (t_scale_zero L)|rewrite (t_add_zero_l L)|rewrite (t_add_zero_r L)
  |rewrite (br_zero_l L)|rewrite (br_zero_r L)].
Lemma seg_at_0 sg : segment_wf o c sg -> seg_point_at o sg 0 = Ok (seg_orig sg).
Proof.
  intro W. destruct (seg_point_at_eq sg 0 W) as (m & g & Mm & Eg & -> & _). f_equal.
  assert (Q : rel_point sg m 0 = JetL (frame_from_ref (start_jet sg)) (d_frame_from_ref (seg_orig sg)) (d2_frame_from_ref (seg_orig sg))).
  { destruct (start_ok sg) as (S0 & _ & D & D2). unfold rel_point.
    rewrite (step_at_0 sg (q_dest_from_orig 0) _ _ _ _ S0 q_dest_0). rewrite D, D2. tz.
    rewrite (step_at_0' sg (q_d_orig 0) _ _ _ _ _ _ S0 q_d_orig_0). cbn [d_frame_from_ref d2_frame_from_ref frame_from_ref]. tz.
    rewrite (step_at_0' sg (q_d_dest 0) _ _ _ _ _ _ S0 q_d_dest_0). cbn [d_frame_from_ref d2_frame_from_ref frame_from_ref]. tz.
    rewrite (step_at_0' sg (q_d2_orig 0) _ _ _ _ _ _ S0 q_d2_orig_0). cbn [d_frame_from_ref d2_frame_from_ref frame_from_ref]. tz.
    rewrite (step_at_0' sg (q_d2_dest 0) _ _ _ _ _ _ S0 q_d2_dest_0). cbn [d_frame_from_ref d2_frame_from_ref frame_from_ref]. tz.
    reflexivity. }
  rewrite Q in *. unfold jl_set_frame. cbn [d_frame_from_ref d2_frame_from_ref frame_from_ref] in *.
  assert (E : g = frame_from_ref (seg_orig sg)).
  { destruct (start_ok sg) as (_ & E & _).
    destruct (identity_some _ _ L (seg_point_frame o sg)) as (e & Ee & _ & _ & _ & _ & M & _). rewrite Ee in E. injection E as E.
    rewrite <- E in Eg. rewrite M in Eg; [injection Eg as <-; reflexivity|apply W|reflexivity]. }
  rewrite E. destruct (seg_orig sg). reflexivity.
Qed.
(** At the end the point has moved by exp(log m), whatever that is. *)
Lemma seg_at_1_gen sg m e : segment_wf o c sg -> motion o (seg_orig sg) (seg_dest sg) m ->
  g_exp o (g_log o m) (Some (seg_point_frame o sg, seg_point_frame o sg)) = Ok e -> exists g,
  g_mul o e (frame_from_ref (seg_orig sg)) = Ok g /\
  seg_point_at o sg 1 = Ok (JetL g (d_frame_from_ref (seg_dest sg)) (d2_frame_from_ref (seg_dest sg))).
Proof.
  intros W Mm Ee. destruct (seg_point_at_eq sg 1 W) as (m' & g & Mm' & Eg & -> & _).
  rewrite (motion_unique _ _ _ _ Mm' Mm) in *. clear m' Mm'.
  destruct (exp_some _ _ L (g_log o m) _ _ (conj (fun x => x) (fun x => x)) : exists g, g_exp o (g_log o m) (Some (seg_point_frame o sg, seg_point_frame o sg)) = Ok g /\ _)
    as (e' & Ee' & We & Ie & Fe).
  rewrite Ee in Ee'. injection Ee' as <-.
  assert (Q : rel_point sg m 1 = JetL e (d_frame_from_ref (seg_dest sg)) (d2_frame_from_ref (seg_dest sg))).
  { destruct (start_ok sg) as (S0 & E0 & D & D2).
    assert (Sm : at_frame (seg_point_frame o sg) e) by (repeat split; assumption).
    assert (Q1 : step sg (q_dest_from_orig 1) (g_log o m) (start_jet sg) = JetL e (t_zero o) (t_zero o)).
    { unfold step, point_value_accumulator. rewrite q_dest_1. cbn [pc_a pc_da pc_d2a]. rewrite (t_scale_one L).
      rewrite Ee. cbn [obind].
      unfold jl_mul. cbn [frame_from_ref d_frame_from_ref d2_frame_from_ref].
      destruct (identity_some _ _ L (seg_point_frame o sg)) as (e0 & Ee0 & _ & _ & _ & _ & _ & R). rewrite Ee0 in E0. injection E0 as E0.
      rewrite <- E0, R by assumption. cbn [obind]. rewrite D, D2. tz. rewrite !(ad_zero L). tz. reflexivity. }
    unfold rel_point. rewrite Q1.
    rewrite (step_at_0' sg (q_d_orig 1) _ _ _ _ _ _ Sm q_d_orig_1). cbn [d_frame_from_ref d2_frame_from_ref frame_from_ref]. tz.
    rewrite (step_at_0' sg (q_d_dest 1) _ _ _ _ _ _ Sm q_d_dest_1). cbn [d_frame_from_ref d2_frame_from_ref frame_from_ref]. tz.
    rewrite (step_at_0' sg (q_d2_orig 1) _ _ _ _ _ _ Sm q_d2_orig_1). cbn [d_frame_from_ref d2_frame_from_ref frame_from_ref]. tz.
    rewrite (step_at_0' sg (q_d2_dest 1) _ _ _ _ _ _ Sm q_d2_dest_1). cbn [d_frame_from_ref d2_frame_from_ref frame_from_ref]. tz.
    reflexivity. }
  rewrite Q in *. exists g. cbn [frame_from_ref] in Eg. split; [exact Eg|reflexivity].
Qed.
Lemma seg_at_1 sg : segment_wf o c sg -> exact_motion o c (seg_orig sg) (seg_dest sg) -> seg_point_at o sg 1 = Ok (seg_dest sg).
Proof.
  intros W X. destruct (motion_ok sg W) as (_ & m & _ & _ & Mm & (Wm & Im & Fm) & Md).
  pose proof (exp_log _ _ L m Wm (X m Mm)) as EL. rewrite Im, Fm in EL.
  destruct (seg_at_1_gen sg m m W Mm EL) as (g & Eg & ->). rewrite Md in Eg. injection Eg as <-. destruct (seg_dest sg). reflexivity.
Qed.
End Segments.

(** The boundary conditions of the coefficient functions. *)
Lemma q_hermite :
  hermite_data (fun t => pc_a (q_dest_from_orig t)) 0 0 0 1 0 0 /\
  hermite_data (fun t => pc_a (q_d_orig t)) 0 1 0 0 0 0 /\
  hermite_data (fun t => pc_a (q_d_dest t)) 0 0 0 0 1 0 /\
  hermite_data (fun t => pc_a (q_d2_orig t)) 0 0 1 0 0 0 /\
  hermite_data (fun t => pc_a (q_d2_dest t)) 0 0 0 0 0 1.
Proof. repeat split; apply coeffs_hermite; lra. Qed.
Lemma q_unique f : In f [q_dest_from_orig; q_d_orig; q_d_dest; q_d2_orig; q_d2_dest] ->
  exists c0 c1 c2 c3 c4 c5, c5 <> 0 /\ (forall t, pc_a (f t) = quintic c0 c1 c2 c3 c4 c5 t) /\
  forall b0 b1 b2 b3 b4 b5 v0 d0 e0 v1 d1 e1, hermite_data (fun t => pc_a (f t)) v0 d0 e0 v1 d1 e1 ->
    hermite_data (quintic b0 b1 b2 b3 b4 b5) v0 d0 e0 v1 d1 e1 -> forall t, quintic b0 b1 b2 b3 b4 b5 t = pc_a (f t).
Proof.
  assert (A : forall c0 c1 c2 c3 c4, c4 <> 0 -> forall g, (forall t, g t = two_jet_coeffs [c0; c1; c2; c3; c4] t) ->
    exists e0 e1 e2 e3 e4 e5, e5 <> 0 /\ (forall t, pc_a (g t) = quintic e0 e1 e2 e3 e4 e5 t) /\
    forall b0 b1 b2 b3 b4 b5 v0 d0 s0 v1 d1 s1, hermite_data (fun t => pc_a (g t)) v0 d0 s0 v1 d1 s1 ->
      hermite_data (quintic b0 b1 b2 b3 b4 b5) v0 d0 s0 v1 d1 s1 -> forall t, quintic b0 b1 b2 b3 b4 b5 t = pc_a (g t)).
  { intros c0 c1 c2 c3 c4 N g E. assert (E' : forall t, pc_a (g t) = quintic 0 c0 c1 c2 c3 c4 t) by (intro t; rewrite E; apply coeffs_value).
    exists 0, c0, c1, c2, c3, c4. split; [exact N|]. split; [exact E'|].
    intros b0 b1 b2 b3 b4 b5 v0 d0 s0 v1 d1 s1 (f' & D & V) B t. rewrite E'. symmetry.
    refine (hermite_unique 0 c0 c1 c2 c3 c4 b0 b1 b2 b3 b4 b5 v0 d0 s0 v1 d1 s1 _ B t).
    exists f'. split.
    - intro x. intros eps He. destruct (D x eps He) as [d Hd]. exists d. intros h Nh Lh. rewrite <- !E'. apply Hd; assumption.
    - rewrite <- !E'. exact V. }
  intros [<-|[<-|[<-|[<-|[<-|[]]]]]]; (eapply A; [|intro t; reflexivity]); lra.
Qed.
