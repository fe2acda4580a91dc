(** Curves along motions at a constant velocity. *)
From Verif Require Import Cpp UuidModel RotSpec GeomModel RotProofs CoeffProofs TransProtoSpec DerivSpec DerivProofs FrameSpec FrameProofs LieSpec
  ScrewSpec LieProofs DiffProofs JetModel JetSpec JetLaws JetProofs CurveModel CurveSpec CurveProofs TCurveProofs SegClose SymSpec.
Local Open Scope R_scope.

Section Steady.
Context {G T : Type} {o : lie_ops G T} {c : lie_calc G T} (L : lie_laws o c).
Context (X : forall x v, exact_exp c x v).
Context (exp_plus : forall v x y i g h, g_exp o (t_scale o x v) (Some (i, i)) = Ok g -> g_exp o (t_scale o y v) (Some (i, i)) = Ok h ->
  g_mul o g h = g_exp o (t_scale o (x + y) v) (Some (i, i))).
Context (ad_self : forall v x i g, g_exp o (t_scale o x v) (Some (i, i)) = Ok g -> g_adjoint_times o g v = v).
Context (still : forall p, (forall s, well_formed c (p s)) -> (forall s, same_frames o (p s) (p 0)) ->
  (forall s, left_velocity c p s (t_zero o)) -> forall s, p s = p 0).
Ltac teq := apply (coord_ext _ _ L); intro;
  repeat first [rewrite (coord_add _ _ L)|rewrite (coord_scale _ _ L)|rewrite (coord_zero _ _ L)]; try ring.

Lemma exp_ok v i : exists g, g_exp o v (Some (i, i)) = Ok g /\ well_formed c g /\ g_into o g = i /\ g_from o g = i.
Proof. exact (exp_some _ _ L v i i (conj (fun x => x) (fun x => x))). Qed.

(** A motion at a constant velocity is where exp leads. *)
Lemma steady_exp P v x y e : steady o c P v -> g_exp o (t_scale o x v) (Some (g_into o (P 0), g_into o (P 0))) = Ok e ->
  g_mul o e (P y) = Ok (P (y + x)).
Proof.
  intros S E. set (i := g_into o (P 0)) in *.
  assert (Fr : forall x, well_formed c (P x) /\ g_into o (P x) = i /\ g_from o (P x) = g_from o (P 0)).
  { intro z. destruct (S z) as (W & [A B] & _). auto. }
  set (A := fun s => match g_exp o (t_scale o (- s) v) (Some (i, i)) with Ok g => g | _ => g_default o end).
  assert (EA : forall s, g_exp o (t_scale o (- s) v) (Some (i, i)) = Ok (A s) /\ well_formed c (A s) /\ g_into o (A s) = i /\ g_from o (A s) = i).
  { intro s. unfold A. destruct (exp_ok (t_scale o (- s) v) i) as (g & -> & H). auto. }
  set (B := fun s => P (y + s)).
  assert (WB : forall s, well_formed c (B s)) by (intro s; apply Fr).
  assert (M : forall s, exists r, g_mul o (A s) (B s) = Ok r /\ g_into o r = i /\ g_from o r = g_from o (P 0)).
  { intro s. destruct (EA s) as (_ & Wa & Ia & Fa). destruct (mul_match _ _ L (A s) (B s) Wa (WB s)) as (r & Er & Ir & Fr').
    - rewrite Fa. symmetry. apply Fr.
    - exists r. split; [exact Er|]. split; [congruence|]. rewrite Fr'. apply Fr. }
  set (Q := fun s => match g_mul o (A s) (B s) with Ok g => g | _ => g_default o end).
  assert (EQ : forall s, g_mul o (A s) (B s) = Ok (Q s) /\ well_formed c (Q s) /\ g_into o (Q s) = i /\ g_from o (Q s) = g_from o (P 0)).
  { intro s. unfold Q. destruct (M s) as (r & Er & H). rewrite Er. split; [reflexivity|]. split; [|exact H].
    exact (mul_wf _ _ L _ _ _ (proj1 (proj2 (EA s))) (WB s) Er). }
  assert (Z : forall s, Q s = Q 0).
  { apply still.
    - intro s. apply EQ.
    - intro s. destruct (EQ s) as (_ & _ & I1 & F1). destruct (EQ 0) as (_ & _ & I2 & F2). split; congruence.
    - intro s.
      assert (VA : left_velocity c A s (t_scale o (-1) v)).
      { apply (vel_exp _ _ L (fun s => - s) (-1) v i i A s); [|apply X|intro z; apply EA].
        apply (dl_eq _ _ (- (1))); [|ring]. apply derivable_pt_lim_opp, derivable_pt_lim_id. }
      assert (VB : left_velocity c B s v).
      { unfold B. pose proof (vel_chain _ _ L P (fun s => y + s) 1 s v) as V. rewrite (t_scale_one L) in V. apply V; [|apply S].
        apply (dl_eq _ _ (0 + 1)); [|ring]. apply dl_plus; [apply dl_const|apply derivable_pt_lim_id]. }
      pose proof (vel_mul _ _ L A B Q s _ _ (fun s => proj1 (proj2 (EA s))) WB (fun s => proj1 (EQ s)) VA VB) as V.
      rewrite (ad_self v (- s) i _ (proj1 (EA s))) in V.
      replace (t_zero o) with (t_add o (t_scale o (-1) v) v); [exact V|]. teq. }
  (* At the time 0 the product is the point itself. *)
  assert (Q0 : Q 0 = P y).
  { destruct (EQ 0) as (E0 & _). destruct (EA 0) as (E1 & _). rewrite Ropp_0, (t_scale_zero L), (exp_zero _ _ L) in E1.
    destruct (identity_some _ _ L i) as (u & Eu & _ & _ & _ & _ & N & _). rewrite Eu in E1. injection E1 as E1. rewrite <- E1 in E0.
    rewrite N in E0; [|apply WB|apply Fr]. injection E0 as <-. unfold B. rewrite Rplus_0_r. reflexivity. }
  rewrite <- Q0, <- (Z x). destruct (EA x) as (Ea & Wa & Ia & Fa).
  assert (We : well_formed c e /\ g_from o e = i).
  { destruct (exp_ok (t_scale o x v) i) as (g & Eg & Wg & _ & Fg). rewrite E in Eg. injection Eg as <-. auto. }
  pose proof (mul_assoc _ _ L e (A x) (B x) (proj1 We) Wa (WB x)) as As.
  rewrite (proj1 (EQ x)) in As. cbn [obind] in As. rewrite <- As.
  - rewrite (exp_plus v x (- x) i e (A x) E Ea), Rplus_opp_r, (t_scale_zero L), (exp_zero _ _ L).
    destruct (identity_some _ _ L i) as (u & -> & _ & _ & _ & _ & N & _). cbn [obind]. apply N; [apply WB|apply Fr].
  - rewrite Ia. apply We.
  - rewrite Fa. symmetry. apply Fr.
Qed.

(** Accumulating a multiple of the velocity. *)
Lemma step_line sg v q k y y' y'' p e : g_exp o (t_scale o y v) (Some (seg_point_frame o sg, seg_point_frame o sg)) = Ok p ->
  g_exp o (t_scale o (pc_a q * k + y) v) (Some (seg_point_frame o sg, seg_point_frame o sg)) = Ok e ->
  step (o:=o) sg q (t_scale o k v) (JetL p (t_scale o y' v) (t_scale o y'' v)) =
    JetL e (t_scale o (pc_da q * k + y') v) (t_scale o (pc_d2a q * k + y'') v).
Proof.
  intros Ep Ee. unfold step, point_value_accumulator.
  assert (SS : forall a b, t_scale o a (t_scale o b v) = t_scale o (a * b) v) by (intros; teq).
  rewrite !SS. destruct (exp_ok (t_scale o (pc_a q * k) v) (seg_point_frame o sg)) as (g & Eg & _). rewrite Eg. cbn [obind].
  unfold jl_mul. cbn [frame_from_ref d_frame_from_ref d2_frame_from_ref]. rewrite (exp_plus v _ _ _ _ _ Eg Ep), Ee. cbn [obind].
  rewrite !(ad_scale _ _ L), (ad_self v _ _ _ Eg), (br_scale_l _ _ L), (br_scale_r _ _ L), (br_self L).
  f_equal; teq.
Qed.

(** The segment between two riders. *)
Definition place (x0 x0' x0'' x1 x1' x1'' : R) (w : poly_coeffs -> R) (t : R) : R :=
  w (q_dest_from_orig t) * (x1 - x0) + w (q_d_orig t) * x0' + w (q_d_dest t) * x1' + w (q_d2_orig t) * x0'' + w (q_d2_dest t) * x1''.
Lemma segment_line P v x0 x0' x0'' x1 x1' x1'' m t : steady o c P v ->
  let sg := TCurveSegment (rider o P v x0 x0' x0'') (rider o P v x1 x1' x1'') in
  motion o (seg_orig sg) (seg_dest sg) m -> g_log o m = t_scale o (x1 - x0) v ->
  let at_ w := place x0 x0' x0'' x1 x1' x1'' w t in
  seg_point_at o sg t = Ok (rider o P v (x0 + at_ pc_a) (at_ pc_da) (at_ pc_d2a)).
Proof.
  intros S sg Mm Lm at_.
  assert (W : segment_wf o c sg).
  { split; [apply (S x0)|]. split; [apply (S x1)|]. destruct (S x0) as (_ & [A B] & _), (S x1) as (_ & [A' B'] & _).
    cbn [sg seg_orig seg_dest rider frame_from_ref]. split; congruence. }
  destruct (seg_point_at_eq L sg t W) as (m' & g & Mm' & Eg & -> & _). rewrite (motion_unique _ _ _ _ Mm' Mm) in *. clear m' Mm'.
  set (i := seg_point_frame o sg). assert (Ei : i = g_into o (P 0)) by exact (proj1 (proj1 (proj2 (S x0)))).
  assert (E : forall x, exists e, g_exp o (t_scale o x v) (Some (i, i)) = Ok e) by (intro x; destruct (exp_ok (t_scale o x v) i) as (e & He & _); exists e; exact He).
  assert (St : exists p, g_exp o (t_scale o 0 v) (Some (i, i)) = Ok p /\ start_jet (o:=o) sg = JetL p (t_scale o 0 v) (t_scale o 0 v)).
  { destruct (start_ok L sg) as (_ & Es & D & D2). exists (frame_from_ref (start_jet (o:=o) sg)).
    rewrite (t_scale_zero L), (exp_zero _ _ L). split; [exact Es|]. destruct (start_jet (o:=o) sg). cbn in *. subst. reflexivity. }
  destruct St as (p0 & E0 & St).
  unfold rel_point in *. rewrite St, Lm in *.
  change (d_frame_from_ref (seg_orig sg)) with (t_scale o x0' v) in *. change (d2_frame_from_ref (seg_orig sg)) with (t_scale o x0'' v) in *.
  change (d_frame_from_ref (seg_dest sg)) with (t_scale o x1' v) in *. change (d2_frame_from_ref (seg_dest sg)) with (t_scale o x1'' v) in *.
  change (frame_from_ref (seg_orig sg)) with (P x0) in *.
  destruct (E (pc_a (q_dest_from_orig t) * (x1 - x0) + 0)) as (p1 & E1).
  rewrite (step_line sg v _ _ _ _ _ _ _ E0 E1) in *.
  destruct (E (pc_a (q_d_orig t) * x0' + (pc_a (q_dest_from_orig t) * (x1 - x0) + 0))) as (p2 & E2).
  rewrite (step_line sg v _ _ _ _ _ _ _ E1 E2) in *.
  destruct (E (pc_a (q_d_dest t) * x1' + (pc_a (q_d_orig t) * x0' + (pc_a (q_dest_from_orig t) * (x1 - x0) + 0)))) as (p3 & E3).
  rewrite (step_line sg v _ _ _ _ _ _ _ E2 E3) in *.
  destruct (E (pc_a (q_d2_orig t) * x0'' + (pc_a (q_d_dest t) * x1' + (pc_a (q_d_orig t) * x0' + (pc_a (q_dest_from_orig t) * (x1 - x0) + 0))))) as (p4 & E4).
  rewrite (step_line sg v _ _ _ _ _ _ _ E3 E4) in *.
  destruct (E (pc_a (q_d2_dest t) * x1'' + (pc_a (q_d2_orig t) * x0'' + (pc_a (q_d_dest t) * x1' + (pc_a (q_d_orig t) * x0' + (pc_a (q_dest_from_orig t) * (x1 - x0) + 0)))))) as (p5 & E5).
  rewrite (step_line sg v _ _ _ _ _ _ _ E4 E5) in *.
  cbn [frame_from_ref] in Eg. rewrite Ei in E5. rewrite (steady_exp P v _ x0 p5 S E5) in Eg.
  assert (Inj : forall a b : G, Ok a = Ok b -> a = b) by (intros a b H; injection H; auto). apply Inj in Eg. rewrite <- Eg.
  unfold jl_set_frame, rider. cbn [d_frame_from_ref d2_frame_from_ref]. unfold at_, place. cbv beta.
  f_equal. f_equal; [f_equal; ring| |]; f_equal; ring.
Qed.
(** The motion between two places. *)
Lemma motion_exp P v x0 x0' x0'' x1 x1' x1'' m : steady o c P v ->
  motion o (rider o P v x0 x0' x0'') (rider o P v x1 x1' x1'') m ->
  g_exp o (t_scale o (x1 - x0) v) (Some (g_into o (P 0), g_into o (P 0))) = Ok m.
Proof.
  intros S (ai & Ei & Em). cbn [rider frame_from_ref] in Ei, Em.
  destruct (exp_ok (t_scale o (x1 - x0) v) (g_into o (P 0))) as (e & Ee & We & Ie & Fe).
  pose proof (steady_exp P v (x1 - x0) x0 e S Ee) as M. replace (x0 + (x1 - x0)) with x1 in M by ring.
  rewrite Ee. f_equal. destruct (S x0) as (W0 & [F0 F0'] & _).
  destruct (inverse_ok _ _ L (P x0) W0) as (bi & Eb & Wb & Ib & Fb & Mb & _ & _). rewrite Ei in Eb. injection Eb as <-.
  pose proof (mul_assoc _ _ L e (P x0) ai We W0 Wb) as A. rewrite M in A. cbn [obind] in A. rewrite Em in A.
  rewrite Mb in A. destruct (identity_some _ _ L (g_into o (P x0))) as (u & Eu & _ & _ & _ & _ & _ & N).
  rewrite Eu in A. cbn [obind] in A. rewrite (N e We) in A; [|congruence].
  assert (K : Ok m = Ok e) by (apply A; congruence). injection K as ->. reflexivity.
Qed.

(** The curve between two riders. *)
Lemma curve_line P v k a b t x0 x0' x0'' x1 x1' x1'' : steady o c P v -> tc_inv (o:=o) (c:=c) k -> neighbours k a b ->
  c_point a = rider o P v x0 x0' x0'' -> c_point b = rider o P v x1 x1' x1'' ->
  (forall m, motion o (c_point a) (c_point b) m -> g_log o m = t_scale o (x1 - x0) v) ->
  let dt := c_time b - c_time a in
  let at_ w := place x0 (dt * x0') (dt^2 * x0'') x1 (dt * x1') (dt^2 * x1'') w ((t - c_time a) / dt) in
  segment_jet (o:=o) a b t = Ok (rider o P v (x0 + at_ pc_a) (1 / dt * at_ pc_da) (1 / dt^2 * at_ pc_d2a)).
Proof.
  intros S I N Ea Eb Lm dt at_. destruct (neighbours_facts k a b I N) as (_ & _ & Hab & W). fold dt in W.
  assert (Hd : dt <> 0) by (unfold dt; lra).
  destruct (motion_ok L _ W) as (_ & m & _ & _ & Mm & _). unfold segment_jet. fold dt.
  assert (Q : curve (new_segment (o:=o) a b) = TCurveSegment (rider o P v x0 (dt * x0') (dt^2 * x0'')) (rider o P v x1 (dt * x1') (dt^2 * x1''))).
  { unfold new_segment, normalized. cbn [curve]. fold dt. rewrite Ea, Eb. unfold rider. cbn [frame_from_ref d_frame_from_ref d2_frame_from_ref].
    f_equal; f_equal; teq. }
  rewrite Q in *.
  rewrite (segment_line P v _ _ _ _ _ _ m (1 / dt * (t - c_time a)) S Mm).
  2:{ apply Lm. destruct Mm as (ai & E1 & E2). exists ai. rewrite Ea, Eb. split; [exact E1|exact E2]. }
  cbn [obind]. f_equal. unfold unnormalize, rider, jl_set_d, jl_set_d2. cbn [frame_from_ref d_frame_from_ref d2_frame_from_ref].
  unfold at_. replace ((t - c_time a) / dt) with (1 / dt * (t - c_time a)) by (field; exact Hd).
  f_equal; teq; field; exact Hd.
Qed.
End Steady.

(** ** Quintics *)
Lemma plan_derivatives f f' f'' c0 c1 c2 c3 c4 c5 : (forall t, f t = quintic c0 c1 c2 c3 c4 c5 t) ->
  (forall t, derivable_pt_lim f t (f' t)) -> (forall t, derivable_pt_lim f' t (f'' t)) ->
  (forall t, f' t = quintic c1 (2 * c2) (3 * c3) (4 * c4) (5 * c5) 0 t) /\
  (forall t, f'' t = quintic (2 * c2) (6 * c3) (12 * c4) (20 * c5) 0 0 t).
Proof.
  intros F D D2.
  assert (A : forall t, f' t = quintic c1 (2 * c2) (3 * c3) (4 * c4) (5 * c5) 0 t).
  { intro t. apply (uniqueness_limite f t); [apply D|]. apply (dl_ext (quintic c0 c1 c2 c3 c4 c5)); [intro s; symmetry; apply F|].
    eapply dl_eq; [apply dl_quintic|]. unfold quintic. ring. }
  split; [exact A|]. intro t. apply (uniqueness_limite f' t); [apply D2|].
  apply (dl_ext (quintic c1 (2 * c2) (3 * c3) (4 * c4) (5 * c5) 0)); [intro s; symmetry; apply A|].
  eapply dl_eq; [apply dl_quintic|]. unfold quintic. ring.
Qed.

Ltac place_ring := unfold place, quintic; poly; field.
Lemma place_plan f f' f'' ta tb t : quintic_plan f f' f'' -> ta < tb ->
  let dt := tb - ta in
  let at_ w := place (f ta) (dt * f' ta) (dt^2 * f'' ta) (f tb) (dt * f' tb) (dt^2 * f'' tb) w ((t - ta) / dt) in
  f ta + at_ pc_a = f t /\ 1 / dt * at_ pc_da = f' t /\ 1 / dt^2 * at_ pc_d2a = f'' t.
Proof.
  intros ((c0 & c1 & c2 & c3 & c4 & c5 & F) & D & D2) H dt at_.
  destruct (plan_derivatives f f' f'' c0 c1 c2 c3 c4 c5 F D D2) as [F' F''].
  unfold at_. rewrite !F, !F', !F''. set (s := (t - ta) / dt).
  assert (Ht : t = ta + s * dt) by (unfold s; field; unfold dt; lra).
  assert (Hb : tb = ta + dt) by (unfold dt; ring). assert (Hd : dt <> 0) by (unfold dt; lra).
  clearbody s. clearbody dt. clear at_. subst t tb. clear - Hd.
  repeat split; place_ring; exact Hd.
Qed.

(** ** The two groups *)
Lemma zero_derivative_const f : (forall t, derivable_pt_lim f t 0) -> forall t, f t = f 0.
Proof.
  intros D t. set (d := fun x => exist (fun l => derivable_pt_abs f x l) 0 (D x) : derivable_pt f x).
  apply (null_derivative_1 f d). intro x. reflexivity.
Qed.
Lemma dV_still p : (forall t, dV p t vzero) -> forall t, p t = p 0.
Proof.
  intros D t. apply vec3_eq; [apply (zero_derivative_const (fun s => vx (p s)))|apply (zero_derivative_const (fun s => vy (p s)))
    |apply (zero_derivative_const (fun s => vz (p s)))]; intro s; apply (D s).
Qed.
Lemma dM_still p : (forall t, dM p t mzero3) -> forall t, p t = p 0.
Proof.
  intros D t.
  assert (R : row0 (p t) = row0 (p 0) /\ row1 (p t) = row1 (p 0) /\ row2 (p t) = row2 (p 0)).
  { split; [|split]; [apply (dV_still (fun s => row0 (p s)))|apply (dV_still (fun s => row1 (p s)))|apply (dV_still (fun s => row2 (p s)))];
      intro s; apply (proj1 (dM_rows _ _ _) (D s)). }
  destruct (p t), (p 0). unfold row0, row1, row2 in R. cbn in R. destruct R as (R1 & R2 & R3).
  injection R1 as -> -> ->. injection R2 as -> -> ->. injection R3 as -> -> ->. reflexivity.
Qed.
Lemma mexp_axis x w : mvec (mexp (vscale x w)) w = w.
Proof.
  destruct (vec3_polar w) as (u & U & E). set (n := norm w) in *. clearbody n. subst w.
  rewrite vscale_vscale, mexp_unit by exact U. rewrite mvec_scale, angle_axis_turned by exact U. f_equal.
  unfold turned, unit_vec, norm2 in *. destruct u as [a b d]. vsimpl. assert (P : a * a = 1 - b * b - d * d) by lra. f_equal; ring [P].
Qed.
Lemma so3_plus v x y i g h : g_exp so3_ops (t_scale so3_ops x v) (Some (i, i)) = Ok g ->
  g_exp so3_ops (t_scale so3_ops y v) (Some (i, i)) = Ok h ->
  g_mul so3_ops g h = g_exp so3_ops (t_scale so3_ops (x + y) v) (Some (i, i)).
Proof.
  cbn [g_exp g_mul t_scale so3_ops]. rewrite !so3_exp_eq by apply frames_ok_self. intros E F. injection E as <-. injection F as <-.
  rewrite so3_mul_match; [|apply frames_ok_self|apply frames_ok_self|reflexivity]. cbn [rotation_matrix so3_into so3_from].
  rewrite mexp_add. reflexivity.
Qed.
Lemma so3_ad_self v x i g : g_exp so3_ops (t_scale so3_ops x v) (Some (i, i)) = Ok g -> g_adjoint_times so3_ops g v = v.
Proof.
  cbn [g_exp g_adjoint_times t_scale so3_ops]. rewrite so3_exp_eq by apply frames_ok_self. intro E. injection E as <-. apply mexp_axis.
Qed.
Lemma so3_still p : (forall s, well_formed so3_calc (p s)) -> (forall s, same_frames so3_ops (p s) (p 0)) ->
  (forall s, left_velocity so3_calc p s (t_zero so3_ops)) -> forall s, p s = p 0.
Proof.
  intros _ F V s. cbn in V. assert (Q : rotation_matrix (p s) = rotation_matrix (p 0)).
  { apply (dM_still (fun s => rotation_matrix (p s))). intro t. apply (dM_eq _ _ _ _ (V t)). unfold mzero3, cross_matrix. vring. }
  destruct (F s) as [I O]. cbn in I, O. destruct (p s), (p 0). cbn in *. congruence.
Qed.
Lemma ideal_plus v x y i g h : g_exp se3_ideal_ops (t_scale se3_ideal_ops x v) (Some (i, i)) = Ok g ->
  g_exp se3_ideal_ops (t_scale se3_ideal_ops y v) (Some (i, i)) = Ok h ->
  g_mul se3_ideal_ops g h = g_exp se3_ideal_ops (t_scale se3_ideal_ops (x + y) v) (Some (i, i)).
Proof.
  cbn [g_exp g_mul t_scale se3_ideal_ops]. rewrite !se3_ideal_exp_eq by apply frames_ok_self. intros E F. injection E as <-. injection F as <-.
  assert (K : forall m t, se3_framing (SE3 (unframed m) t i i)) by (intros; split; [apply frames_ok_self|split; reflexivity]).
  rewrite se3_mul_match; [|apply K|apply K|reflexivity].
  unfold se3_times, se3_mat, tscale. cbn [rotation translation se3_into se3_from trot ttrans]. f_equal.
  rewrite !screw_scale, !Rmult_1_r, screw_add. unfold unframed. cbn [rotation_matrix]. rewrite mexp_add. reflexivity.
Qed.
Lemma ideal_ad_self v x i g : g_exp se3_ideal_ops (t_scale se3_ideal_ops x v) (Some (i, i)) = Ok g ->
  g_adjoint_times se3_ideal_ops g v = v.
Proof.
  cbn [g_exp g_adjoint_times t_scale se3_ideal_ops]. rewrite se3_ideal_exp_eq by apply frames_ok_self. intro E. injection E as <-.
  unfold se3_adjoint_times, tscale. cbn [rotation translation trot ttrans]. unfold unframed. cbn [rotation_matrix].
  rewrite screw_scale, Rmult_1_r, mexp_axis, screw_ode. destruct v as [w v]. cbn [trot ttrans]. f_equal. generalize (screw w v x). intro. vring.
Qed.
Lemma ideal_still p : (forall s, well_formed se3_ideal_calc (p s)) -> (forall s, same_frames se3_ideal_ops (p s) (p 0)) ->
  (forall s, left_velocity se3_ideal_calc p s (t_zero se3_ideal_ops)) -> forall s, p s = p 0.
Proof.
  intros W F V s. cbn in V. assert (Q : rotation_matrix (rotation (p s)) = rotation_matrix (rotation (p 0))).
  { apply (dM_still (fun s => rotation_matrix (rotation (p s)))). intro t. apply (dM_eq _ _ _ _ (proj1 (V t))).
    cbn [trot tzero]. unfold mzero3, cross_matrix. vring. }
  assert (Q2 : translation (p s) = translation (p 0)).
  { apply (dV_still (fun s => translation (p s))). intro t. apply (dV_eq _ _ _ _ (proj2 (V t))). cbn [trot ttrans tzero]. vring. }
  destruct (F s) as [I O]. cbn in I, O. pose proof (proj2 (proj2 (W s))) as R. pose proof (proj2 (proj2 (W 0))) as R0.
  cbn in R, R0. destruct (p s) as [[m i f] t i' f'], (p 0) as [[m0 i0 f0] t0 i0' f0']. cbn in *. destruct R, R0. subst. reflexivity.
Qed.

(** ** Statements *)
Definition so3_line P v k a b t x0 x0' x0'' x1 x1' x1'' :=
  curve_line so3_laws (fun _ _ => I) so3_plus so3_ad_self so3_still P v k a b t x0 x0' x0'' x1 x1' x1''.
Definition ideal_line P v k a b t x0 x0' x0'' x1 x1' x1'' :=
  curve_line se3_ideal_laws (fun _ _ => I) ideal_plus ideal_ad_self ideal_still P v k a b t x0 x0' x0'' x1 x1' x1''.
Lemma so3_motion_log P v x0 x0' x0'' x1 x1' x1'' m : steady so3_ops so3_calc P v -> norm (vscale (x1 - x0) v) < PI ->
  motion so3_ops (rider so3_ops P v x0 x0' x0'') (rider so3_ops P v x1 x1' x1'') m ->
  g_log so3_ops m = t_scale so3_ops (x1 - x0) v.
Proof.
  intros S H M. exact (so3_log_exp _ _ _ H (motion_exp so3_laws (fun _ _ => I) so3_plus so3_ad_self so3_still P v _ _ _ _ _ _ m S M)).
Qed.
Lemma ideal_motion_log P v x0 x0' x0'' x1 x1' x1'' m : steady se3_ops se3_calc P v -> norm (trot (tscale (x1 - x0) v)) < PI ->
  plain_angle (norm2 (trot (tscale (x1 - x0) v))) ->
  motion se3_ops (rider se3_ops P v x0 x0' x0'') (rider se3_ops P v x1 x1' x1'') m -> se3_log m = tscale (x1 - x0) v.
Proof.
  intros S H Pl M.
  assert (E := motion_exp se3_ideal_laws (fun _ _ => I) ideal_plus ideal_ad_self ideal_still P v _ _ _ _ _ _ m S M).
  cbn [g_exp t_scale g_into se3_ideal_ops] in E. rewrite se3_ideal_exp_regular in E by exact Pl.
  exact (proj2 (proj2 (se3_log_exp _ _ _ H E)) Pl).
Qed.
Lemma line_so3 P v f f' f'' k a b t : steady so3_ops so3_calc P v -> quintic_plan f f' f'' -> curve_wf so3_ops so3_calc k ->
  neighbours k a b -> (forall p, p = a \/ p = b -> c_point p = rider so3_ops P v (f (c_time p)) (f' (c_time p)) (f'' (c_time p))) ->
  norm (vscale (f (c_time b) - f (c_time a)) v) < PI -> c_time a <= t <= c_time b ->
  tc_point_at so3_ops k t = Ok (rider so3_ops P v (f t) (f' t) (f'' t)).
Proof.
  intros S Q W N On H Ht. pose proof (curve_inv k W) as I. pose proof N as (l & r & E).
  destruct (neighbours_facts k a b I N) as (_ & _ & Hab & _).
  rewrite (point_at_segment so3_laws k l a b r t I (fun _ _ _ _ _ => Logic.I) E Ht).
  pose proof (On a (or_introl eq_refl)) as Ea. pose proof (On b (or_intror eq_refl)) as Eb.
  rewrite (so3_line P v k a b t _ _ _ _ _ _ S I N Ea Eb).
  - destruct (place_plan f f' f'' (c_time a) (c_time b) t Q Hab) as (E1 & E2 & E3). rewrite E1, E2, E3. reflexivity.
  - intros m M. rewrite Ea, Eb in M. exact (so3_motion_log P v _ _ _ _ _ _ m S H M).
Qed.
(** The weights are no larger than 1. *)
Lemma weight_le_1 s : 0 <= s <= 1 -> Forall (fun q => Rabs (pc_a (q s)) <= 1) [q_dest_from_orig; q_d_orig; q_d_dest; q_d2_orig; q_d2_dest].
Proof.
  intros [A B]. set (u := 1 - s). assert (U : 0 <= u <= 1) by (unfold u; lra).
  assert (P2 : 0 <= s * s <= 1) by nra. assert (Q2 : 0 <= u * u <= 1) by nra.
  assert (P3 : 0 <= s * s * s <= 1) by nra. assert (Q3 : 0 <= u * u * u <= 1) by nra.
  assert (Hs : s = 1 - u) by (unfold u; ring).
  apply Forall_cons; [apply Rabs_le|apply Forall_cons; [apply Rabs_le|apply Forall_cons; [apply Rabs_le|apply Forall_cons; [apply Rabs_le|apply Forall_cons; [apply Rabs_le|apply Forall_nil]]]]].
  - replace (pc_a (q_dest_from_orig s)) with (s * s * s * (1 + 3 * u + 6 * (u * u))) by (unfold u; poly; ring).
    split; [nra|]. assert (0 <= u * u * u * (1 + 3 * s + 6 * (s * s))) by nra.
    assert (s * s * s * (1 + 3 * u + 6 * (u * u)) = 1 - u * u * u * (1 + 3 * s + 6 * (s * s))) by (unfold u; ring). lra.
  - replace (pc_a (q_d_orig s)) with (s * (u * u * u * (1 + 3 * s))) by (unfold u; poly; ring).
    assert (0 <= u * u * u * (1 + 3 * s) <= 1).
    { split; [nra|]. assert (u * u * u * (1 + 3 * s) = 1 - s * s * (6 * (u * u) + 4 * (s * u) + s * s) - 0) by (unfold u; ring).
      assert (0 <= s * u) by nra. assert (0 <= 6 * (u * u) + 4 * (s * u) + s * s) by nra. nra. }
    nra.
  - replace (pc_a (q_d_dest s)) with (- (u * (s * s * s * (1 + 3 * u)))) by (unfold u; poly; ring).
    assert (0 <= s * s * s * (1 + 3 * u) <= 1).
    { split; [nra|]. assert (s * s * s * (1 + 3 * u) = 1 - u * u * (6 * (s * s) + 4 * (s * u) + u * u)) by (unfold u; ring).
      assert (0 <= s * u) by nra. assert (0 <= 6 * (s * s) + 4 * (s * u) + u * u) by nra. nra. }
    nra.
  - replace (pc_a (q_d2_orig s)) with (/ 2 * (s * s * (u * u * u))) by (unfold u; poly; field).
    assert (0 <= s * s * (u * u * u) <= 1) by nra. lra.
  - replace (pc_a (q_d2_dest s)) with (/ 2 * (s * s * s * (u * u))) by (unfold u; poly; field).
    assert (0 <= s * s * s * (u * u) <= 1) by nra. lra.
Qed.
Lemma travel_bound sg m s P v x0 x0' x0'' x1 x1' x1'' : 0 <= s <= 1 ->
  sg = TCurveSegment (rider se3_ops P v x0 x0' x0'') (rider se3_ops P v x1 x1' x1'') -> se3_log m = tscale (x1 - x0) v ->
  travel (increments sg m s) <= (Rabs (x1 - x0) + Rabs x0' + Rabs x1' + Rabs x0'' + Rabs x1'') * norm (ttrans v).
Proof.
  intros Hs -> Lm. unfold increments, rider. rewrite Lm. cbn [seg_orig seg_dest d_frame_from_ref d2_frame_from_ref t_scale se3_ops travel fold_right].
  unfold tscale. cbn [ttrans]. rewrite !vscale_vscale, !norm_scale, !Rabs_mult.
  pose proof (weight_le_1 s Hs) as F. inversion F as [|? ? W1 F1]; subst. inversion F1 as [|? ? W2 F2]; subst.
  inversion F2 as [|? ? W3 F3]; subst. inversion F3 as [|? ? W4 F4]; subst. inversion F4 as [|? ? W5 _]; subst.
  pose proof (norm_nonneg (ttrans v)) as Nv. set (n := norm (ttrans v)) in *.
  assert (K : forall w x, Rabs w <= 1 -> Rabs w * Rabs x * n <= Rabs x * n).
  { intros w x H. pose proof (Rabs_pos x). pose proof (Rabs_pos w). assert (0 <= Rabs x * n) by nra. nra. }
  pose proof (K _ (x1 - x0) W1). pose proof (K _ x0' W2). pose proof (K _ x1' W3). pose proof (K _ x0'' W4). pose proof (K _ x1'' W5). lra.
Qed.
Lemma line_se3 P v f f' f'' k a b t : steady se3_ops se3_calc P v -> quintic_plan f f' f'' -> curve_wf se3_ops se3_calc k ->
  neighbours k a b -> (forall p, p = a \/ p = b -> c_point p = rider se3_ops P v (f (c_time p)) (f' (c_time p)) (f'' (c_time p))) ->
  norm (trot (tscale (f (c_time b) - f (c_time a)) v)) < PI -> plain_angle (norm2 (trot (tscale (f (c_time b) - f (c_time a)) v))) ->
  c_time a < t <= c_time b ->
  exists s m j, In s (segments k) /\ joins se3_ops a b s /\ motion se3_ops (c_point a) (c_point b) m /\ tc_point_at se3_ops k t = Ok j /\
    let dt := c_time b - c_time a in
    let size := Rabs (f (c_time b) - f (c_time a)) + dt * (Rabs (f' (c_time a)) + Rabs (f' (c_time b))) +
                dt^2 * (Rabs (f'' (c_time a)) + Rabs (f'' (c_time b))) in
    jet_close (/ 10^23 * (size * norm (ttrans v))) j (rider se3_ops P v (f t) (f' t) (f'' t)) /\
    (Forall (fun w => plain_angle (norm2 (trot w))) (increments (curve s) m ((t - c_time a) / dt)) ->
       j = rider se3_ops P v (f t) (f' t) (f'' t)).
Proof.
  intros S Q W N On H Pl Ht. pose proof (curve_inv k W) as I. pose proof N as (l & r & E).
  destruct (neighbours_facts k a b I N) as (_ & _ & Hab & Wf).
  destruct (motion_ok se3_laws _ Wf) as (_ & m & _ & _ & M & _).
  pose proof (On a (or_introl eq_refl)) as Ea. pose proof (On b (or_intror eq_refl)) as Eb.
  assert (M' : motion se3_ops (c_point a) (c_point b) m) by exact M.
  assert (Lm : se3_log m = tscale (f (c_time b) - f (c_time a)) v).
  { rewrite Ea, Eb in M'. exact (ideal_motion_log P v _ _ _ _ _ _ m S H Pl M'). }
  assert (I' : tc_inv (o:=se3_ideal_ops) (c:=se3_ideal_calc) k) by (destruct I as [I1 I2 I3 I4]; constructor; assumption).
  assert (Ideal : segment_jet (o:=se3_ideal_ops) a b t = Ok (rider se3_ops P v (f t) (f' t) (f'' t))).
  { rewrite (ideal_line P v k a b t _ _ _ _ _ _ S I' N Ea Eb).
    - destruct (place_plan f f' f'' (c_time a) (c_time b) t Q Hab) as (E1 & E2 & E3). rewrite E1, E2, E3. reflexivity.
    - intros m' Mm. assert (Mm' : motion se3_ops (c_point a) (c_point b) m') by exact Mm. rewrite (motion_unique _ _ _ _ Mm' M'). exact Lm. }
  set (dt := c_time b - c_time a) in *. assert (Hd : 0 < dt) by (unfold dt; lra).
  destruct (seg_close _ m (1 / dt * (t - c_time a)) Wf M) as (j & h & Ej & Eh & C & X).
  exists (new_segment (o:=se3_ops) a b), m, (unnormalize se3_ops (1 / dt) j).
  split; [apply segment_in; assumption|]. split; [apply (new_segment_joins se3_laws)|]. split; [exact M'|].
  rewrite (point_at_owner k l a b r t I E) by (try (right; lra); lra).
  unfold segment_jet in Ideal |- *. fold dt in Ideal |- *. rewrite Ej. cbn [obind]. split; [reflexivity|]. cbv zeta.
  change (curve (new_segment (o:=se3_ideal_ops) a b)) with (curve (new_segment (o:=se3_ops) a b)) in Ideal.
  rewrite Eh in Ideal. cbn [obind] in Ideal.
  assert (Ideal' : unnormalize se3_ideal_ops (1 / dt) h = rider se3_ops P v (f t) (f' t) (f'' t)).
  { revert Ideal. generalize (unnormalize se3_ideal_ops (1 / dt) h) (rider se3_ops P v (f t) (f' t) (f'' t)). intros x y K. injection K. auto. }
  rewrite <- Ideal'. split.
  - pose proof (unnormalize_close _ (1 / dt) _ _ C) as ((P1 & P2 & P3 & P4) & D1 & D2).
    split; [|split; [exact D1|exact D2]]. split; [exact P1|]. split; [exact P2|]. split; [exact P3|].
    eapply Rle_trans; [exact P4|]. apply Rmult_le_compat_l; [left; apply Rinv_0_lt_compat, pow_lt; lra|].
    assert (Sg : curve (new_segment (o:=se3_ops) a b) = TCurveSegment
      (rider se3_ops P v (f (c_time a)) (dt * f' (c_time a)) (dt^2 * f'' (c_time a)))
      (rider se3_ops P v (f (c_time b)) (dt * f' (c_time b)) (dt^2 * f'' (c_time b)))).
    { unfold new_segment, normalized. cbn [curve]. fold dt. rewrite Ea, Eb. unfold rider. cbn [frame_from_ref d_frame_from_ref d2_frame_from_ref].
      f_equal; f_equal; apply (coord_ext _ _ se3_laws); intro n; rewrite !(coord_scale _ _ se3_laws); ring. }
    assert (Rng : 0 <= 1 / dt * (t - c_time a) <= 1).
    { split; [apply Rmult_le_pos; [left; apply Rdiv_lt_0_compat; lra|lra]|].
      replace 1 with (1 / dt * dt) at 2 by (field; lra). apply Rmult_le_compat_l; [left; apply Rdiv_lt_0_compat; lra|unfold dt; lra]. }
    eapply Rle_trans; [exact (travel_bound _ m _ P v _ _ _ _ _ _ Rng Sg Lm)|]. right. f_equal.
    rewrite !Rabs_mult, (Rabs_pos_eq dt), (Rabs_pos_eq (dt^2)) by (try apply pow2_ge_0; lra). ring.
  - intro F. replace ((t - c_time a) / dt) with (1 / dt * (t - c_time a)) in F by (field; lra). rewrite (X F). reflexivity.
Qed.
(** Motions without a rotation are reproduced exactly. *)
Lemma line_straight P v f f' f'' k a b t : steady se3_ops se3_calc P v -> trot v = vzero -> quintic_plan f f' f'' ->
  curve_wf se3_ops se3_calc k -> neighbours k a b ->
  (forall p, p = a \/ p = b -> c_point p = rider se3_ops P v (f (c_time p)) (f' (c_time p)) (f'' (c_time p))) ->
  c_time a < t <= c_time b -> tc_point_at se3_ops k t = Ok (rider se3_ops P v (f t) (f' t) (f'' t)).
Proof.
  intros S Z Q W N On Ht.
  assert (N0 : forall x, norm2 (trot (tscale x v)) = 0).
  { intro x. unfold tscale. cbn [trot]. rewrite Z. unfold norm2. vsimpl. ring. }
  assert (H : norm (trot (tscale (f (c_time b) - f (c_time a)) v)) < PI).
  { unfold norm. rewrite N0, sqrt_0. apply PI_RGT_0. }
  destruct (line_se3 P v f f' f'' k a b t S Q W N On H (or_introl (N0 _)) Ht) as (s & m & j & _ & Js & M & Ej & _ & X).
  rewrite Ej, X; [reflexivity|]. clear X Ej.
  assert (Lm : se3_log m = tscale (f (c_time b) - f (c_time a)) v).
  { rewrite (On a), (On b) in M by auto. exact (ideal_motion_log P v _ _ _ _ _ _ m S H (or_introl (N0 _)) M). }
  destruct Js as (_ & _ & _ & D1 & D2 & _ & D3 & D4). unfold increments. rewrite Lm, D1, D2, D3, D4, (On a), (On b) by auto.
  cbn [rider d_frame_from_ref d2_frame_from_ref t_scale se3_ops].
  assert (SS : forall x y, tscale x (tscale y v) = tscale (x * y) v) by (intros; unfold tscale; cbn [trot ttrans]; rewrite !vscale_vscale; reflexivity).
  rewrite !SS. repeat (apply Forall_cons; [left; apply N0|]). apply Forall_nil.
Qed.
