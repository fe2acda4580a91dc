(** How far evaluated SE3 segments are from the ideal ones. *)
From Verif Require Import Cpp UuidModel RotSpec GeomModel TransProtoSpec DerivSpec DerivProofs FrameSpec ScrewSpec LieSpec
  FrameProofs RotProofs CoeffProofs LieProofs JetModel JetSpec JetLaws JetProofs CurveModel CurveSpec CurveProofs TCurveProofs.
Local Open Scope R_scope.

Lemma exp_close v p : exists g h, se3_exp v (Some (p, p)) = Ok g /\ se3_ideal_exp v (Some (p, p)) = Ok h /\
  se3_wf g /\ se3_wf h /\ pose_close (/ 10^23 * norm (ttrans v)) g h /\ se3_into g = p /\ se3_from g = p /\
  (plain_angle (norm2 (trot v)) -> g = h).
Proof.
  assert (F : frames_ok p p) by (split; intro; assumption).
  rewrite se3_ideal_exp_eq, se3_exp_eq by exact F. eexists. eexists. split; [reflexivity|]. split; [reflexivity|].
  assert (W : forall x, se3_wf (SE3 (unframed (mexp (trot v))) x p p)).
  { intro x. split; [apply mexp_rot|]. split; [exact F|split; reflexivity]. }
  split; [apply W|]. split; [apply W|]. split; [|split; [reflexivity|split; [reflexivity|]]].
  - split; [reflexivity|]. split; [reflexivity|]. split; [reflexivity|]. cbn [translation].
    pose proof (Vmap_screw_err (trot v) (ttrans v) 1) as B. rewrite !vscale_1 in B. exact B.
  - intro P. f_equal. pose proof (Vmap_screw (trot v) (ttrans v) 1) as B. rewrite !vscale_1 in B. apply B, P.
Qed.
Lemma mul_close g g' h h' r r' e f : se3_wf g -> se3_wf g' -> se3_wf h -> se3_wf h' ->
  pose_close e g g' -> pose_close f h h' -> se3_mul g h = Ok r -> se3_mul g' h' = Ok r' ->
  se3_from g = se3_into h -> pose_close (e + f) r r'.
Proof.
  intros Wg Wg' Wh Wh' (R1 & I1 & F1 & E1) (R2 & I2 & F2 & E2) M M' Q.
  destruct Wg as [Rg Fg], Wg' as [_ Fg'], Wh as [_ Fh], Wh' as [_ Fh'].
  rewrite (se3_mul_match g h Fg Fh Q) in M. injection M as <-.
  assert (Q' : se3_from g' = se3_into h') by congruence.
  rewrite (se3_mul_match g' h' Fg' Fh' Q') in M'. injection M' as <-.
  unfold pose_close, se3_times, se3_mat, se3_act, so3_act. cbn [rotation se3_into se3_from translation].
  split; [rewrite R1, R2; reflexivity|]. split; [exact I1|]. split; [exact F2|].
  rewrite <- R1. set (m := rotation_matrix (rotation g)) in *.
  replace (vsub _ _) with (vadd (vsub (translation g) (translation g')) (mvec m (vsub (translation h) (translation h')))).
  2:{ rewrite mvec_sub. generalize (mvec m (translation h)) (mvec m (translation h')) (translation g) (translation g'). intros. vring. }
  eapply Rle_trans; [apply norm_triangle|]. rewrite rot_norm by exact Rg. lra.
Qed.
Lemma step_close sg q v j k e : at_frame (o:=se3_ops) (c:=se3_calc) (seg_point_frame se3_ops sg) (frame_from_ref j) ->
  at_frame (o:=se3_ops) (c:=se3_calc) (seg_point_frame se3_ops sg) (frame_from_ref k) -> jet_close e j k ->
  jet_close (/ 10^23 * norm (ttrans (tscale (pc_a q) v)) + e) (step (o:=se3_ops) sg q v j) (step (o:=se3_ideal_ops) sg q v k) /\
  (plain_angle (norm2 (trot (tscale (pc_a q) v))) -> j = k -> step (o:=se3_ops) sg q v j = step (o:=se3_ideal_ops) sg q v k).
Proof.
  intros Aj Ak (P & D & D2). unfold step, point_value_accumulator.
  change (seg_point_frame se3_ideal_ops sg) with (seg_point_frame se3_ops sg). set (p := seg_point_frame se3_ops sg) in *.
  cbn [g_exp t_scale se3_ops se3_ideal_ops].
  destruct (exp_close (tscale (pc_a q) v) p) as (g & h & Eg & Eh & Wg & Wh & C & Ig & Fg & X). rewrite Eg, Eh. cbn [obind].
  destruct Aj as (Wj & Ij & Fj), Ak as (Wk & Ik & Fk). cbn [g_into g_from se3_ops well_formed se3_calc] in *.
  unfold jl_mul. cbn [frame_from_ref d_frame_from_ref d2_frame_from_ref g_mul se3_ops se3_ideal_ops t_add g_adjoint_times g_adjoint_times_alg].
  assert (Qj : se3_from g = se3_into (frame_from_ref j)) by congruence.
  assert (Qk : se3_from h = se3_into (frame_from_ref k)) by (destruct C as (_ & _ & C & _); congruence).
  pose proof (se3_mul_match g (frame_from_ref j) (proj2 Wg) (proj2 Wj) Qj) as Mj.
  pose proof (se3_mul_match h (frame_from_ref k) (proj2 Wh) (proj2 Wk) Qk) as Mk.
  rewrite Mj, Mk. cbn [obind]. split.
  - split; [exact (mul_close _ _ _ _ _ _ _ _ Wg Wh Wj Wk C P Mj Mk Qj)|].
    cbn [frame_from_ref d_frame_from_ref d2_frame_from_ref]. unfold se3_adjoint_times, se3_adjoint_times_alg, tadd, tscale.
    cbn [trot]. destruct C as (C & _). rewrite C, D, D2. split; reflexivity.
  - intros R <-. rewrite (X R). reflexivity.
Qed.
Lemma rel_point_close sg m t : segment_wf se3_ops se3_calc sg ->
  jet_close (/ 10^23 * travel (increments sg m t)) (rel_point (o:=se3_ops) sg m t) (rel_point (o:=se3_ideal_ops) sg m t) /\
  (Forall (fun v => plain_angle (norm2 (trot v))) (increments sg m t) ->
     rel_point (o:=se3_ops) sg m t = rel_point (o:=se3_ideal_ops) sg m t).
Proof.
  intro W. pose proof se3_laws as L. pose proof se3_ideal_laws as L'.
  unfold rel_point, increments, travel. cbn [fold_right g_log se3_ops se3_ideal_ops].
  pose proof (proj1 (start_ok L sg)) as S0. pose proof (proj1 (start_ok L' sg)) as S0'.
  assert (St : start_jet (o:=se3_ops) sg = start_jet (o:=se3_ideal_ops) sg) by reflexivity.
  assert (Z : jet_close 0 (start_jet (o:=se3_ops) sg) (start_jet (o:=se3_ideal_ops) sg)).
  { rewrite St. split; [|split; reflexivity]. split; [reflexivity|]. split; [reflexivity|]. split; [reflexivity|].
    rewrite norm_vsub_self. apply Rle_refl. }
  set (v1 := se3_log m) in *. set (v2 := d_frame_from_ref (seg_orig sg)) in *. set (v3 := d_frame_from_ref (seg_dest sg)) in *.
  set (v4 := d2_frame_from_ref (seg_orig sg)) in *. set (v5 := d2_frame_from_ref (seg_dest sg)) in *.
  generalize (q_dest_from_orig t) (q_d_orig t) (q_d_dest t) (q_d2_orig t) (q_d2_dest t). intros q1 q2 q3 q4 q5.
  destruct (step_ok L sg q1 v1 _ S0) as [_ S1]. destruct (step_ok L' sg q1 v1 _ S0') as [_ S1'].
  destruct (step_close sg q1 v1 _ _ _ S0 S0' Z) as [C1 X1].
  destruct (step_ok L sg q2 v2 _ S1) as [_ S2]. destruct (step_ok L' sg q2 v2 _ S1') as [_ S2'].
  destruct (step_close sg q2 v2 _ _ _ S1 S1' C1) as [C2 X2].
  destruct (step_ok L sg q3 v3 _ S2) as [_ S3]. destruct (step_ok L' sg q3 v3 _ S2') as [_ S3'].
  destruct (step_close sg q3 v3 _ _ _ S2 S2' C2) as [C3 X3].
  destruct (step_ok L sg q4 v4 _ S3) as [_ S4]. destruct (step_ok L' sg q4 v4 _ S3') as [_ S4'].
  destruct (step_close sg q4 v4 _ _ _ S3 S3' C3) as [C4 X4].
  destruct (step_close sg q5 v5 _ _ _ S4 S4' C4) as [C5 X5].
  split.
  - destruct C5 as ((A1 & A2 & A3 & A4) & A5 & A6). split; [|split; assumption]. repeat (split; [assumption|]).
    eapply Rle_trans; [exact A4|]. apply Req_le. ring.
  - intro F. inversion F as [|? ? P1 F1]; subst. inversion F1 as [|? ? P2 F2]; subst. inversion F2 as [|? ? P3 F3]; subst.
    inversion F3 as [|? ? P4 F4]; subst. inversion F4 as [|? ? P5 F5]; subst.
    exact (X5 P5 (X4 P4 (X3 P3 (X2 P2 (X1 P1 St))))).
Qed.
Lemma motion_ideal a b m : motion se3_ideal_ops a b m <-> motion se3_ops a b m.
Proof. split; intro H; exact H. Qed.
Lemma seg_close sg m t : segment_wf se3_ops se3_calc sg -> motion se3_ops (seg_orig sg) (seg_dest sg) m ->
  exists j k, seg_point_at se3_ops sg t = Ok j /\ seg_point_at se3_ideal_ops sg t = Ok k /\
    jet_close (/ 10^23 * travel (increments sg m t)) j k /\
    (Forall (fun v => plain_angle (norm2 (trot v))) (increments sg m t) -> j = k).
Proof.
  intros W M. destruct (seg_point_at_eq se3_laws sg t W) as (m1 & g & M1 & E & -> & Wg & _).
  destruct (seg_point_at_eq se3_ideal_laws sg t W) as (m2 & h & M2 & F & -> & Wh & _).
  rewrite (motion_unique _ _ _ _ M1 M) in *. rewrite (motion_unique (o:=se3_ops) _ _ _ _ M2 M) in *.
  destruct (rel_point_close sg m t W) as [C X].
  eexists. eexists. split; [reflexivity|]. split; [reflexivity|]. split.
  - destruct C as (P & D & D2). split; [|split; [exact D|exact D2]]. cbn [jl_set_frame frame_from_ref].
    destruct (rel_point_ok se3_laws sg m t) as (Wr & Ir & Fr). destruct (rel_point_ok se3_ideal_laws sg m t) as (Wr' & _ & _).
    assert (Z : pose_close 0 (frame_from_ref (seg_orig sg)) (frame_from_ref (seg_orig sg))).
    { repeat (split; [reflexivity|]). rewrite norm_vsub_self. apply Rle_refl. }
    pose proof (mul_close _ _ _ _ _ _ _ _ Wr Wr' (proj1 W) (proj1 W) P Z E F Fr) as (A1 & A2 & A3 & A4).
    repeat (split; [assumption|]). lra.
  - intro R. rewrite (X R) in *. f_equal. cbn [g_mul se3_ops se3_ideal_ops] in *. rewrite E in F. injection F as <-. reflexivity.
Qed.
(** The end of an SE3 segment. *)
Lemma seg_end_close sg m : segment_wf se3_ops se3_calc sg -> motion se3_ops (seg_orig sg) (seg_dest sg) m ->
  exists g, seg_point_at se3_ops sg 1 = Ok (JetL g (d_frame_from_ref (seg_dest sg)) (d2_frame_from_ref (seg_dest sg))) /\
    pose_close (/ 10^15 * norm (translation m)) g (frame_from_ref (seg_dest sg)) /\
    (plain_angle (norm2 (trot (se3_log m))) -> g = frame_from_ref (seg_dest sg)).
Proof.
  intros W M. destruct (motion_ok se3_laws sg W) as (_ & m' & _ & _ & M' & (Wm & Im & Fm) & Md).
  rewrite (motion_unique _ _ _ _ M' M) in *. clear m' M'.
  cbn [well_formed se3_calc g_into g_from g_mul se3_ops] in *.
  destruct (se3_exp_log m Wm) as (e & Ee & Re & Ie & Fe & Te & X).
  assert (Ee' : g_exp se3_ops (g_log se3_ops m) (Some (seg_point_frame se3_ops sg, seg_point_frame se3_ops sg)) = Ok e).
  { rewrite Im, Fm in Ee. exact Ee. }
  destruct (seg_at_1_gen se3_laws sg m e W M Ee') as (g & Eg & ->). exists g. split; [reflexivity|].
  cbn [g_mul se3_ops] in Eg. split.
  - assert (Z : pose_close 0 (frame_from_ref (seg_orig sg)) (frame_from_ref (seg_orig sg))).
    { repeat (split; [reflexivity|]). rewrite norm_vsub_self. apply Rle_refl. }
    assert (We : se3_wf e).
    { apply (se3_exp_spec _ _ _ Ee). }
    assert (C : pose_close (/ 10^15 * norm (translation m)) e m) by (repeat (split; [assumption|]); assumption).
    assert (Fr : se3_from e = se3_into (frame_from_ref (seg_orig sg))) by (rewrite Fe, Fm; reflexivity).
    pose proof (mul_close _ _ _ _ _ _ _ _ We Wm (proj1 W) (proj1 W) C Z Eg Md Fr) as (A1 & A2 & A3 & A4).
    repeat (split; [assumption|]). lra.
  - intro P. rewrite (X P) in Eg. rewrite Md in Eg. injection Eg as <-. reflexivity.
Qed.

(** Curves. *)
Lemma unnormalize_close e h j k : jet_close e j k -> jet_close e (unnormalize se3_ops h j) (unnormalize se3_ideal_ops h k).
Proof.
  intros (P & D & D2). unfold unnormalize, jl_set_d, jl_set_d2. split; [exact P|].
  cbn [d_frame_from_ref d2_frame_from_ref t_scale se3_ops se3_ideal_ops]. unfold tscale. cbn [trot]. rewrite D, D2. split; reflexivity.
Qed.
Lemma segment_in (k : tcurve se3 tan6) a b : tc_inv (o:=se3_ops) (c:=se3_calc) k -> neighbours k a b ->
  In (new_segment (o:=se3_ops) a b) (segments k).
Proof.
  intros I (l & r & E). pose proof (inv_segments k I) as F. rewrite E in F. clear E I. revert F. generalize (segments k).
  induction l as [|x l IH]; intros ss F.
  - cbn in F. inversion F as [|? ? ? ? J]; subst. unfold joined in J. cbn [fst snd] in J. left. symmetry. symmetry. exact J.
  - destruct (l ++ a :: b :: r) as [|y m] eqn:Q; [destruct l; discriminate Q|].
    change ((x :: l) ++ a :: b :: r) with (x :: (l ++ a :: b :: r)) in F. rewrite Q in F. cbn in F.
    inversion F as [|? ? ? ? J F']; subst. right. apply IH. exact F'.
Qed.
Lemma curve_close (k : tcurve se3 tan6) t : curve_wf se3_ops se3_calc k -> (2 <= length (control_pts k))%nat -> covers k t ->
  exists a b s m j h, neighbours k a b /\ c_time a <= t <= c_time b /\ In s (segments k) /\ joins se3_ops a b s /\
    motion se3_ops (c_point a) (c_point b) m /\
    tc_point_at se3_ops k t = Ok j /\ tc_point_at se3_ideal_ops k t = Ok h /\
    let l := increments (curve s) m ((t - c_time a) / (c_time b - c_time a)) in
    jet_close (/ 10^23 * travel l) j h /\ (Forall (fun v => plain_angle (norm2 (trot v))) l -> j = h).
Proof.
  intros Wk _ Cv. pose proof (curve_inv _ Wk) as I.
  destruct (point_at_eval k t I Cv) as (l1 & a & b & l2 & E & _ & Ht & Q).
  assert (N : neighbours k a b) by (exists l1, l2; exact E).
  destruct (neighbours_facts k a b I N) as (_ & _ & Hab & W).
  destruct (motion_ok se3_laws _ W) as (_ & m & _ & _ & M & _).
  destruct (seg_close _ m (1 / (c_time b - c_time a) * (t - c_time a)) W M) as (j & h & Ej & Eh & C & X).
  exists a, b, (new_segment (o:=se3_ops) a b), m, (unnormalize se3_ops (1 / (c_time b - c_time a)) j),
    (unnormalize se3_ideal_ops (1 / (c_time b - c_time a)) h).
  split; [exact N|]. split; [exact Ht|]. split; [apply segment_in; assumption|]. split; [apply (new_segment_joins se3_laws)|].
  split; [exact M|]. unfold tc_point_at. rewrite Q. cbn [obind].
  change (curve (new_segment (o:=se3_ideal_ops) a b)) with (curve (new_segment (o:=se3_ops) a b)).
  rewrite Ej, Eh. cbn [obind]. split; [reflexivity|]. split; [reflexivity|]. cbv zeta.
  replace ((t - c_time a) / (c_time b - c_time a)) with (1 / (c_time b - c_time a) * (t - c_time a)) by (field; lra).
  split; [apply unnormalize_close, C|]. intro R. rewrite (X R). reflexivity.
Qed.
Lemma curve_control_close (k : tcurve se3 tan6) a b m : curve_wf se3_ops se3_calc k -> neighbours k a b ->
  motion se3_ops (c_point a) (c_point b) m ->
  exists g, tc_point_at se3_ops k (c_time b) = Ok (JetL g (d_frame_from_ref (c_point b)) (d2_frame_from_ref (c_point b))) /\
    pose_close (/ 10^15 * norm (translation m)) g (frame_from_ref (c_point b)) /\
    (plain_angle (norm2 (trot (se3_log m))) -> g = frame_from_ref (c_point b)).
Proof.
  intros Wk N M. pose proof (curve_inv _ Wk) as I. destruct (neighbours_facts k a b I N) as (_ & _ & Hab & W).
  rewrite (point_at_later k a b I N). unfold segment_jet.
  replace (1 / (c_time b - c_time a) * (c_time b - c_time a)) with 1 by (field; lra).
  destruct (seg_end_close _ m W M) as (g & -> & C & X). exists g. cbn [obind]. split; [|split; assumption].
  f_equal. unfold unnormalize, jl_set_d, jl_set_d2, new_segment, normalized.
  cbn [curve seg_dest frame_from_ref d_frame_from_ref d2_frame_from_ref].
  f_equal; apply (coord_ext _ _ se3_laws); intro n; rewrite !(coord_scale _ _ se3_laws); field; lra.
Qed.

(** ** Statements without the names used in the proofs *)
Lemma joins_segment {G T} (o : lie_ops G T) (c : lie_calc G T) (L : lie_laws o c) a b s : joins o a b s -> s = new_segment (o:=o) a b.
Proof.
  intros H. pose proof (new_segment_joins L a b) as H'. destruct s as [t1 t2 [[g1 d1 e1] [g2 d2 e2]]].
  destruct H as (Z1 & Z2 & H). destruct H' as (X & Y & H'). cbv zeta in H, H'. unfold new_segment in *. cbn [curve seg_orig seg_dest orig_time dest_time] in *.
  destruct H as (H1 & H2 & H3 & H4 & H5 & H6), H' as (K1 & K2 & K3 & K4 & K5 & K6).
  unfold normalized in *. cbn [frame_from_ref d_frame_from_ref d2_frame_from_ref] in *. subst. rewrite K3, K6. reflexivity.
Qed.
Lemma curve_segment_smooth {G T} (o : lie_ops G T) (c : lie_calc G T) (L : lie_laws o c) k a b s J t :
  curve_wf o c k -> exact_motions o c k -> neighbours k a b -> joins o a b s -> c_time a < t < c_time b ->
  (forall x, covers k x -> tc_point_at o k x = Ok (J x)) -> exact_at o c (curve s) ((t - c_time a) / (c_time b - c_time a)) ->
  true_derivatives c J t /\ tangent_continuous c (fun x => d2_frame_from_ref (J x)) t.
Proof.
  intros W X N Js Ht HJ E. apply (joins_segment o c L) in Js. subst s.
  apply (curve_smooth_within L k a b J t (curve_inv k W) X N Ht HJ).
  replace (1 / (c_time b - c_time a) * (t - c_time a)) with ((t - c_time a) / (c_time b - c_time a)) by (field; lra). exact E.
Qed.
Lemma curve_segment_value {G T} (o : lie_ops G T) (c : lie_calc G T) (L : lie_laws o c) k l1 a b l2 t : curve_wf o c k ->
  control_pts k = l1 ++ a :: b :: l2 -> (l1 = [] \/ c_time a < t) -> c_time a <= t <= c_time b ->
  exists s j, In s (segments k) /\ joins o a b s /\ seg_point_at o (curve s) ((t - c_time a) / (c_time b - c_time a)) = Ok j /\
    tc_point_at o k t = Ok (JetL (frame_from_ref j) (t_scale o (1 / (c_time b - c_time a)) (d_frame_from_ref j))
      (t_scale o (1 / (c_time b - c_time a)^2) (d2_frame_from_ref j))).
Proof.
  intros W E S Ht. pose proof (curve_inv k W) as I. assert (N : neighbours k a b) by (exists l1, l2; exact E).
  destruct (neighbours_facts k a b I N) as (_ & _ & Hab & Wf).
  destruct (seg_point_at_eq L _ ((t - c_time a) / (c_time b - c_time a)) Wf) as (m & g & _ & _ & Ej & _).
  exists (new_segment (o:=o) a b). eexists. split.
  { pose proof (inv_segments k I) as F. revert F. rewrite E. clear. generalize (segments k). induction l1 as [|x l1 IH]; intros ss F.
    - cbn in F. inversion F as [|? ? ? ? J]; subst. left. exact J.
    - destruct (l1 ++ a :: b :: l2) as [|y m] eqn:Q; [destruct l1; discriminate Q|]. rewrite <- app_comm_cons, Q in F. cbn in F.
      inversion F as [|? ? ? ss' J F']; subst. right. apply IH, F'. }
  split; [apply (new_segment_joins L)|]. split; [exact Ej|].
  rewrite (point_at_owner k l1 a b l2 t I E S Ht). unfold segment_jet.
  replace (1 / (c_time b - c_time a) * (t - c_time a)) with ((t - c_time a) / (c_time b - c_time a)) by (field; lra).
  rewrite Ej. cbn [obind]. f_equal. unfold unnormalize, jl_set_d, jl_set_d2. cbn [frame_from_ref d_frame_from_ref d2_frame_from_ref].
  f_equal. apply (coord_ext _ _ L). intro n. rewrite !(coord_scale _ _ L). field. lra.
Qed.
(** An SE3 curve follows a twice continuously differentiable one. *)
Lemma se3_curve_ideal (k : tcurve se3 tan6) : curve_wf se3_ops se3_calc k -> (2 <= length (control_pts k))%nat ->
  exact_motions se3_ops se3_calc k ->
  exists J, (forall t, inside k t -> true_derivatives se3_calc J t /\ tangent_continuous se3_calc (fun s => d2_frame_from_ref (J s)) t) /\
    (forall p, In p (control_pts k) -> J (c_time p) = c_point p) /\
    forall t, covers k t -> exists a b s m j, neighbours k a b /\ c_time a <= t <= c_time b /\ In s (segments k) /\ joins se3_ops a b s /\
      motion se3_ops (c_point a) (c_point b) m /\ tc_point_at se3_ops k t = Ok j /\
      let l := increments (curve s) m ((t - c_time a) / (c_time b - c_time a)) in
      jet_close (/ 10^23 * travel l) j (J t) /\ (Forall (fun v => plain_angle (norm2 (trot v))) l -> j = J t).
Proof.
  intros W Ln X.
  set (J := fun t => match tc_point_at se3_ideal_ops k t with Ok j => j | _ => jl_default se3_ops end).
  assert (HJ : forall t, covers k t -> tc_point_at se3_ideal_ops k t = Ok (J t)).
  { intros t C. destruct (curve_close k t W Ln C) as (a & b & s & m & j & h & _ & _ & _ & _ & _ & _ & E & _). unfold J. rewrite E. reflexivity. }
  assert (I : tc_inv (o:=se3_ideal_ops) (c:=se3_ideal_calc) k).
  { apply curve_inv. destruct W as [(ps & E) F]. split; [exists ps; exact E|exact F]. }
  assert (X' : exact_motions se3_ideal_ops se3_ideal_calc k).
  { intros a b N m M. apply motion_ideal in M. exact (X a b N m M). }
  exists J. split; [|split].
  - intros t Ht. exact (curve_smooth se3_ideal_laws k J t (fun _ _ => Logic.I) I X' Ht HJ).
  - intros p Hp. pose proof (point_at_control se3_ideal_laws k p I X' Ln Hp) as E. unfold J. rewrite E. reflexivity.
  - intros t C. destruct (curve_close k t W Ln C) as (a & b & s & m & j & h & N & Ht & Is & Js & M & Ej & Eh & Cl).
    exists a, b, s, m, j. repeat (split; [assumption|]). rewrite (HJ t C) in Eh. injection Eh as <-. exact Cl.
Qed.
Lemma make_segment_iff G T (o : lie_ops G T) a b :
  (same_frames o (frame_from_ref a) (frame_from_ref b) <-> make_segment o a b = Ok (TCurveSegment a b)) /\
  (~ same_frames o (frame_from_ref a) (frame_from_ref b) <-> make_segment o a b = Throw).
Proof.
  unfold make_segment. pose proof (verify_frames_iff (o:=o) (frame_from_ref a) (frame_from_ref b)) as V.
  destruct (g_verify_frames o (frame_from_ref a) _ _); cbn [reassert obind].
  - split; split; intro H; try reflexivity; try discriminate; try tauto.
  - split; split.
    + intro H. apply V in H. discriminate H.
    + discriminate.
    + reflexivity.
    + intros _ X. apply V in X. discriminate X.
Qed.
Lemma segment_total {G T} {o : lie_ops G T} {c : lie_calc G T} (L : lie_laws o c) s t : segment_wf o c s ->
  exists j, seg_point_at o s t = Ok j /\ jet_l_wf c j /\ same_frames o (frame_from_ref j) (frame_from_ref (seg_orig s)).
Proof.
  intro W. destruct (seg_point_at_eq L s t W) as (m & g & _ & _ & E & Wg & S). eexists. split; [exact E|]. split; assumption.
Qed.
Lemma build_history {G T} {o : lie_ops G T} {c : lie_calc G T} (L : lie_laws o c) ps :
  let k := after_appends o ps tc_empty in
  takes o ps (control_pts k) /\ StronglySorted (fun a b => c_time a < c_time b) (control_pts k) /\
  (forall a b, In a (control_pts k) -> In b (control_pts k) -> same_frames o (frame_from_ref (c_point a)) (frame_from_ref (c_point b))) /\
  Forall2 (fun ab s => joins o (fst ab) (snd ab) s) (consecutive (control_pts k)) (segments k).
Proof.
  cbv zeta. pose proof (build_takes (o:=o) ps) as T1. split; [exact T1|]. destruct (takes_facts (o:=o) _ _ T1) as [S F].
  split; [exact S|]. split; [exact F|]. pose proof (build_segments (o:=o) ps) as B. revert B. generalize (segments (after_appends o ps tc_empty)).
  induction (consecutive (control_pts (after_appends o ps tc_empty))) as [|ab l IH]; intros ss B; inversion B as [|? ? ? ? J B']; subst; [constructor|].
  constructor; [|apply IH, B']. unfold joined in J. subst. apply (new_segment_joins L).
Qed.

(** ** Accessors *)
Lemma segment_frames {G T} {o : lie_ops G T} {c : lie_calc G T} (L : lie_laws o c) k s p : tc_inv (o:=o) (c:=c) k -> In s (segments k) -> In p (control_pts k) ->
  seg_reference_frame o (curve s) = g_from o (frame_from_ref (c_point p)) /\ seg_point_frame o (curve s) = g_into o (frame_from_ref (c_point p)).
Proof.
  intros I Is Ip. pose proof (inv_segments k I) as F.
  assert (X : exists ab, In ab (consecutive (control_pts k)) /\ joined (o:=o) ab s).
  { revert Is F. generalize (segments k) (consecutive (control_pts k)). induction l as [|x l IH]; intros m Is F; [destruct Is|].
    inversion F as [|ab ? m' ? J F']; subst. destruct Is as [<-|Is]; [exists ab; split; [left; reflexivity|exact J]|].
    destruct (IH _ Is F') as (ab' & H1 & H2). exists ab'. split; [right; exact H1|exact H2]. }
  destruct X as ((a, b) & Ic & J). unfold joined in J. cbn [fst snd] in J.
  assert (Ia : In a (control_pts k)).
  { revert Ic. clear. generalize (control_pts k). induction l as [|x l IH]; [intros []|]. destruct l as [|y l]; [intros []|].
    intros [E|Ic]; [injection E as -> _; left; reflexivity|right; apply IH, Ic]. }
  subst s. destruct (inv_frames k I a p Ia Ip) as [E1 E2]. split; [exact E2|exact E1].
Qed.
Lemma access_wf G T (o : lie_ops G T) (c : lie_calc G T) : curve_group o c -> forall k, curve_wf o c k ->
  (control_pts k = [] -> tc_start_time k = Throw /\ tc_end_time k = Throw /\ tc_is_framed o k = Throw /\ tc_reference_frame o k = Throw /\ tc_point_frame o k = Throw) /\
  (forall a l, control_pts k = a :: l -> tc_start_time k = Ok (c_time a)) /\
  (forall l b, control_pts k = l ++ [b] -> tc_end_time k = Ok (c_time b)) /\
  (forall p, In p (control_pts k) -> let into := g_into o (frame_from_ref (c_point p)) in let from := g_from o (frame_from_ref (c_point p)) in
     tc_reference_frame o k = Ok from /\ tc_point_frame o k = Ok into /\
     (exists b, tc_is_framed o k = Ok b /\ (b = true <-> into <> null_frame)) /\
     forall s, In s (segments k) -> seg_reference_frame o (curve s) = from /\ seg_point_frame o (curve s) = into /\
       (seg_is_framed o (curve s) = true <-> into <> null_frame)).
Proof.
  intros Cg k W. pose proof (curve_inv k W) as I. split; [|split; [|split]].
  - intro E. unfold tc_start_time, tc_end_time, tc_is_framed, tc_reference_frame, tc_point_frame. rewrite E. repeat split; reflexivity.
  - intros a l E. unfold tc_start_time. rewrite E. reflexivity.
  - intros l b E. unfold tc_end_time. rewrite E. rewrite vec_back_app. destruct l; reflexivity.
  - intros p Ip into from. destruct (list_cases (control_pts k)) as [E|(l & z & E)]; [rewrite E in Ip; destruct Ip|].
    assert (Iz : In z (control_pts k)) by (rewrite E; apply in_or_app; right; left; reflexivity).
    destruct (inv_frames k I z p Iz Ip) as [E1 E2].
    assert (Em : vec_empty (control_pts k) = false) by (rewrite E; destruct l; reflexivity).
    assert (Fr : forall g, g_is_framed o g = true <-> g_into o g <> null_frame).
    { clear -Cg. assert (N : forall f, negb (frame_is_null f) = true <-> f <> null_frame).
      { intro f. destruct (frame_is_null f) eqn:Q; cbn [negb]; split; intro H; try discriminate H; try reflexivity.
        - elim H. apply frame_is_null_eq. exact Q.
        - intro X. rewrite X, frame_is_null_null in Q. discriminate Q. }
      destruct Cg; intro g; exact (N _). }
    unfold tc_is_framed, tc_reference_frame, tc_point_frame. rewrite Em. cbn [negb reassert obind]. rewrite E, vec_back_app. cbn [obind].
    split; [f_equal; exact E2|]. split; [f_equal; exact E1|]. split.
    + eexists. split; [reflexivity|]. rewrite Fr. unfold into. rewrite E1. reflexivity.
    + intros s Is. destruct (segment_frames (group_laws _ _ _ _ Cg) k s p I Is Ip) as [S1 S2]. split; [exact S1|]. split; [exact S2|].
      unfold seg_is_framed. rewrite Fr. unfold seg_point_frame in S2. rewrite S2. reflexivity.
Qed.
