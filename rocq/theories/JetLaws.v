(** The facts about SO3 and SE3 that jets and curves rest on, stated once for both. *)
From Verif Require Import Cpp UuidModel RotSpec GeomModel RotProofs CoeffProofs TransProtoSpec TransProtoProofs DerivSpec
  DerivProofs FrameSpec FrameProofs LieSpec ScrewSpec LieProofs DiffProofs JetModel JetSpec.
Local Open Scope R_scope.

Record lie_laws {G T : Type} (o : lie_ops G T) (c : lie_calc G T) : Prop := LieLaws {
  (* Tangent vectors. *)
  coord_ext : forall a b, (forall n, coord c a n = coord c b n) -> a = b;
  coord_add : forall a b n, coord c (t_add o a b) n = coord c a n + coord c b n;
  coord_scale : forall k a n, coord c (t_scale o k a) n = k * coord c a n;
  coord_zero : forall n, coord c (t_zero o) n = 0;
  (* Adjoints and brackets. *)
  ad_add : forall g a b, g_adjoint_times o g (t_add o a b) = t_add o (g_adjoint_times o g a) (g_adjoint_times o g b);
  ad_scale : forall g k a, g_adjoint_times o g (t_scale o k a) = t_scale o k (g_adjoint_times o g a);
  br_add_l : forall a b x, g_adjoint_times_alg o (t_add o a b) x =
    t_add o (g_adjoint_times_alg o a x) (g_adjoint_times_alg o b x);
  br_add_r : forall a b x, g_adjoint_times_alg o x (t_add o a b) =
    t_add o (g_adjoint_times_alg o x a) (g_adjoint_times_alg o x b);
  br_scale_l : forall k a x, g_adjoint_times_alg o (t_scale o k a) x = t_scale o k (g_adjoint_times_alg o a x);
  br_scale_r : forall k a x, g_adjoint_times_alg o x (t_scale o k a) = t_scale o k (g_adjoint_times_alg o x a);
  br_anti : forall a b, g_adjoint_times_alg o a b = t_scale o (-1) (g_adjoint_times_alg o b a);
  ad_br : forall g a b, well_formed c g -> g_adjoint_times o g (g_adjoint_times_alg o a b) =
    g_adjoint_times_alg o (g_adjoint_times o g a) (g_adjoint_times o g b);
  (* The group. *)
  wf_frames : forall g, well_formed c g -> frames_ok (g_into o g) (g_from o g);
  mul_wf : forall a b r, well_formed c a -> well_formed c b -> g_mul o a b = Ok r -> well_formed c r;
  mul_ad : forall a b r v, well_formed c a -> well_formed c b -> g_mul o a b = Ok r ->
    g_adjoint_times o r v = g_adjoint_times o a (g_adjoint_times o b v);
  mul_match : forall a b, well_formed c a -> well_formed c b -> g_from o a = g_into o b ->
    exists r, g_mul o a b = Ok r /\ g_into o r = g_into o a /\ g_from o r = g_from o b;
  mul_mismatch : forall a b, well_formed c a -> well_formed c b -> g_into o a <> null_frame -> g_into o b <> null_frame ->
    g_from o a <> g_into o b -> g_mul o a b = Throw;
  mul_unframed : forall a b, well_formed c a -> well_formed c b -> g_into o a = null_frame \/ g_into o b = null_frame ->
    exists r, g_mul o a b = Ok r /\ g_into o r = null_frame;
  mul_assoc : forall a b d, well_formed c a -> well_formed c b -> well_formed c d ->
    g_from o a = g_into o b -> g_from o b = g_into o d ->
    (let* ab := g_mul o a b in g_mul o ab d) = (let* bd := g_mul o b d in g_mul o a bd);
  identity_none : exists e, g_identity o None = Ok e;
  identity_some : forall i, exists e, g_identity o (Some (i, i)) = Ok e /\ well_formed c e /\
    g_into o e = i /\ g_from o e = i /\ (forall v, g_adjoint_times o e v = v) /\
    (forall g, well_formed c g -> g_into o g = i -> g_mul o e g = Ok g) /\
    (forall g, well_formed c g -> g_from o g = i -> g_mul o g e = Ok g);
  inverse_ok : forall g, well_formed c g -> exists h, g_inverse o g = Ok h /\ well_formed c h /\
    g_into o h = g_from o g /\ g_from o h = g_into o g /\
    g_mul o g h = g_identity o (Some (g_into o g, g_into o g)) /\
    g_mul o h g = g_identity o (Some (g_from o g, g_from o g)) /\ g_inverse o h = Ok g;
  inverse_mul : forall a b r a' b', well_formed c a -> well_formed c b -> g_from o a = g_into o b ->
    g_mul o a b = Ok r -> g_inverse o a = Ok a' -> g_inverse o b = Ok b' -> g_inverse o r = g_mul o b' a';
  exp_some : forall v i f, frames_ok i f -> exists g, g_exp o v (Some (i, f)) = Ok g /\ well_formed c g /\
    g_into o g = i /\ g_from o g = f;
  exp_zero : forall i, g_exp o (t_zero o) (Some (i, i)) = g_identity o (Some (i, i));
  exp_log : forall g, well_formed c g -> exact_log c g ->
    g_exp o (g_log o g) (Some (g_into o g, g_from o g)) = Ok g;
  (* Calculus. *)
  vel_unique : forall p t w u, well_formed c (p t) -> left_velocity c p t w -> left_velocity c p t u -> w = u;
  vel_near : forall p q t w r, 0 < r -> (forall s, Rabs (s - t) < r -> p s = q s) ->
    left_velocity c p t w -> left_velocity c q t w;
  vel_const : forall g t, left_velocity c (fun _ => g) t (t_zero o);
  vel_mul : forall a b p t w u, (forall s, well_formed c (a s)) -> (forall s, well_formed c (b s)) ->
    (forall s, g_mul o (a s) (b s) = Ok (p s)) -> left_velocity c a t w -> left_velocity c b t u ->
    left_velocity c p t (t_add o w (g_adjoint_times o (a t) u));
  vel_inverse : forall a p t w, (forall s, well_formed c (a s)) -> (forall s, g_inverse o (a s) = Ok (p s)) ->
    left_velocity c a t w -> left_velocity c p t (t_scale o (-1) (g_adjoint_times o (p t) w));
  vel_right : forall p t w, well_formed c (p t) ->
    (right_velocity c p t w <-> left_velocity c p t (g_adjoint_times o (p t) w));
  vel_ad : forall p t w u u', left_velocity c p t w -> tangent_derivative c u t u' ->
    tangent_derivative c (fun s => g_adjoint_times o (p s) (u s)) t
      (t_add o (g_adjoint_times o (p t) u') (g_adjoint_times_alg o w (g_adjoint_times o (p t) (u t))));
  vel_br : forall u w t u' w', tangent_derivative c u t u' -> tangent_derivative c w t w' ->
    tangent_derivative c (fun s => g_adjoint_times_alg o (u s) (w s)) t
      (t_add o (g_adjoint_times_alg o u' (w t)) (g_adjoint_times_alg o (u t) w'));
  vel_exp : forall a a' v i f p t, derivable_pt_lim a t a' -> exact_exp c (a t) v ->
    (forall s, g_exp o (t_scale o (a s) v) (Some (i, f)) = Ok (p s)) -> left_velocity c p t (t_scale o a' v);
  vel_chain : forall p f f' t w, derivable_pt_lim f t f' -> left_velocity c p (f t) w ->
    left_velocity c (fun s => p (f s)) t (t_scale o f' w);
  vel_glue : forall p a b t w r, 0 < r -> p t = a t -> p t = b t ->
    (forall s, t - r < s < t -> p s = a s) -> (forall s, t < s < t + r -> p s = b s) ->
    left_velocity c a t w -> left_velocity c b t w -> left_velocity c p t w }.

(** ** Curves of vectors and matrices, continued *)
Lemma near_self t r : 0 < r -> Rabs (t - t) < r.
Proof. intro H. replace (t - t) with 0 by ring. rewrite Rabs_R0. exact H. Qed.
Lemma dV_near p q t a r : 0 < r -> (forall s, Rabs (s - t) < r -> p s = q s) -> dV p t a -> dV q t a.
Proof.
  intros P E (A & B & C). split; [|split].
  - apply (dl_ext_near (fun s => vx (p s)) _ _ _ r P); [|exact A]. intros s Hs. rewrite E by exact Hs. reflexivity.
  - apply (dl_ext_near (fun s => vy (p s)) _ _ _ r P); [|exact B]. intros s Hs. rewrite E by exact Hs. reflexivity.
  - apply (dl_ext_near (fun s => vz (p s)) _ _ _ r P); [|exact C]. intros s Hs. rewrite E by exact Hs. reflexivity.
Qed.
(** A matrix by its rows. *)
Definition row0 (m : mat3) : vec3 := V3 (m00 m) (m01 m) (m02 m).
Definition row1 (m : mat3) : vec3 := V3 (m10 m) (m11 m) (m12 m).
Definition row2 (m : mat3) : vec3 := V3 (m20 m) (m21 m) (m22 m).
Lemma dM_rows m t m' : dM m t m' <->
  dV (fun s => row0 (m s)) t (row0 m') /\ dV (fun s => row1 (m s)) t (row1 m') /\ dV (fun s => row2 (m s)) t (row2 m').
Proof. unfold dM, dV, row0, row1, row2. cbn [vx vy vz]. tauto. Qed.
Lemma dM_near p q t a r : 0 < r -> (forall s, Rabs (s - t) < r -> p s = q s) -> dM p t a -> dM q t a.
Proof.
  intros P E H. destruct (proj1 (dM_rows _ _ _) H) as (A & B & C). apply dM_rows. split; [|split].
  - apply (dV_near (fun s => row0 (p s)) _ _ _ r P); [|exact A]. intros s Hs. rewrite E by exact Hs. reflexivity.
  - apply (dV_near (fun s => row1 (p s)) _ _ _ r P); [|exact B]. intros s Hs. rewrite E by exact Hs. reflexivity.
  - apply (dV_near (fun s => row2 (p s)) _ _ _ r P); [|exact C]. intros s Hs. rewrite E by exact Hs. reflexivity.
Qed.
Lemma dM_chain p f t a f' : derivable_pt_lim f t f' -> dM p (f t) a -> dM (fun s => p (f s)) t (mscale f' a).
Proof.
  intros D H. destruct (proj1 (dM_rows _ _ _) H) as (A & B & C). apply dM_rows. split; [|split].
  - apply (dV_eq _ _ _ _ (dV_chain _ _ _ _ _ D A)). reflexivity.
  - apply (dV_eq _ _ _ _ (dV_chain _ _ _ _ _ D B)). reflexivity.
  - apply (dV_eq _ _ _ _ (dV_chain _ _ _ _ _ D C)). reflexivity.
Qed.
(** Two functions joined at a point. *)
Lemma dl_glue f g h t l r : 0 < r -> f t = g t -> f t = h t ->
  (forall s, t - r < s < t -> f s = g s) -> (forall s, t < s < t + r -> f s = h s) ->
  derivable_pt_lim g t l -> derivable_pt_lim h t l -> derivable_pt_lim f t l.
Proof.
  intros P Eg Eh Lg Lh Dg Dh eps He. destruct (Dg eps He) as (d1 & H1). destruct (Dh eps He) as (d2 & H2).
  assert (M : 0 < Rmin r (Rmin d1 d2)) by (repeat apply Rmin_pos; [exact P|apply d1|apply d2]).
  exists (mkposreal _ M). cbn. intros x X0 X1.
  assert (B1 : Rabs x < r) by (eapply Rlt_le_trans; [exact X1|apply Rmin_l]).
  assert (B2 : Rabs x < d1).
  { eapply Rlt_le_trans; [exact X1|]. eapply Rle_trans; [apply Rmin_r|apply Rmin_l]. }
  assert (B3 : Rabs x < d2).
  { eapply Rlt_le_trans; [exact X1|]. eapply Rle_trans; [apply Rmin_r|apply Rmin_r]. }
  apply Rabs_def2 in B1. destruct (Rlt_le_dec x 0) as [N|N].
  - rewrite Lg, Eg by lra. apply H1; assumption.
  - rewrite Lh, Eh by lra. apply H2; assumption.
Qed.
Lemma dV_glue f g h t l r : 0 < r -> f t = g t -> f t = h t ->
  (forall s, t - r < s < t -> f s = g s) -> (forall s, t < s < t + r -> f s = h s) ->
  dV g t l -> dV h t l -> dV f t l.
Proof.
  intros P Eg Eh Lg Lh (A & B & C) (A' & B' & C'). split; [|split].
  - apply (dl_glue _ (fun s => vx (g s)) (fun s => vx (h s)) _ _ r P);
      [congruence|congruence|intros s Hs; rewrite Lg by exact Hs; reflexivity
      |intros s Hs; rewrite Lh by exact Hs; reflexivity|assumption|assumption].
  - apply (dl_glue _ (fun s => vy (g s)) (fun s => vy (h s)) _ _ r P);
      [congruence|congruence|intros s Hs; rewrite Lg by exact Hs; reflexivity
      |intros s Hs; rewrite Lh by exact Hs; reflexivity|assumption|assumption].
  - apply (dl_glue _ (fun s => vz (g s)) (fun s => vz (h s)) _ _ r P);
      [congruence|congruence|intros s Hs; rewrite Lg by exact Hs; reflexivity
      |intros s Hs; rewrite Lh by exact Hs; reflexivity|assumption|assumption].
Qed.
Lemma dM_glue f g h t l r : 0 < r -> f t = g t -> f t = h t ->
  (forall s, t - r < s < t -> f s = g s) -> (forall s, t < s < t + r -> f s = h s) ->
  dM g t l -> dM h t l -> dM f t l.
Proof.
  intros P Eg Eh Lg Lh H H'. destruct (proj1 (dM_rows _ _ _) H) as (A & B & C). destruct (proj1 (dM_rows _ _ _) H') as (A' & B' & C').
  apply dM_rows. split; [|split].
  - apply (dV_glue _ (fun s => row0 (g s)) (fun s => row0 (h s)) _ _ r P);
      [congruence|congruence|intros s Hs; rewrite Lg by exact Hs; reflexivity
      |intros s Hs; rewrite Lh by exact Hs; reflexivity|assumption|assumption].
  - apply (dV_glue _ (fun s => row1 (g s)) (fun s => row1 (h s)) _ _ r P);
      [congruence|congruence|intros s Hs; rewrite Lg by exact Hs; reflexivity
      |intros s Hs; rewrite Lh by exact Hs; reflexivity|assumption|assumption].
  - apply (dV_glue _ (fun s => row2 (g s)) (fun s => row2 (h s)) _ _ r P);
      [congruence|congruence|intros s Hs; rewrite Lg by exact Hs; reflexivity
      |intros s Hs; rewrite Lh by exact Hs; reflexivity|assumption|assumption].
Qed.
Lemma rot_cross_swap m v : is_rotation m -> mmul m (cross_matrix v) = mmul (cross_matrix (mvec m v)) m.
Proof.
  intro H. rewrite <- rot_conj_cross by exact H. rewrite <- mmul_assoc, rot_mtrans_l, mmul_1_r by exact H. reflexivity.
Qed.
Lemma cross_matrix_add a b : cross_matrix (vadd a b) = madd (cross_matrix a) (cross_matrix b).
Proof. unfold cross_matrix. vring. Qed.
Lemma cross_matrix_scale k a : cross_matrix (vscale k a) = mscale k (cross_matrix a).
Proof. unfold cross_matrix. vring. Qed.
Lemma so3_deriv_coord u t u' : tangent_derivative so3_calc u t u' <-> dV u t u'.
Proof.
  unfold tangent_derivative, dV. cbn [coord so3_calc]. unfold so3_coord, list3. split.
  - intro H. exact (conj (H 0%nat) (conj (H 1%nat) (H 2%nat))).
  - intros (A & B & C) [|[|[|n]]]; cbn [nth]; try assumption. destruct n; apply dl_const.
Qed.
Lemma se3_deriv_coord u t u' : tangent_derivative se3_calc u t u' <->
  dV (fun s => trot (u s)) t (trot u') /\ dV (fun s => ttrans (u s)) t (ttrans u').
Proof.
  unfold tangent_derivative, dV. cbn [coord se3_calc]. unfold se3_coord, list6, list3. cbn [app]. split.
  - intro H. exact (conj (conj (H 0%nat) (conj (H 1%nat) (H 2%nat))) (conj (H 3%nat) (conj (H 4%nat) (H 5%nat)))).
  - intros [(A & B & C) (D & E & F)] [|[|[|[|[|[|n]]]]]]; cbn [nth]; try assumption. destruct n; apply dl_const.
Qed.

Lemma dV_unique p t a b : dV p t a -> dV p t b -> a = b.
Proof. intros (A & B & C) (A' & B' & C'). apply vec3_eq; eapply uniqueness_limite; eassumption. Qed.
Lemma dM_unique p t a b : dM p t a -> dM p t b -> a = b.
Proof.
  intros H H'. destruct (proj1 (dM_rows _ _ _) H) as (A & B & C). destruct (proj1 (dM_rows _ _ _) H') as (A' & B' & C').
  pose proof (dV_unique _ _ _ _ A A') as E0. pose proof (dV_unique _ _ _ _ B B') as E1. pose proof (dV_unique _ _ _ _ C C') as E2.
  unfold row0, row1, row2 in *. destruct a, b. cbn in *. injection E0 as -> -> ->. injection E1 as -> -> ->.
  injection E2 as -> -> ->. reflexivity.
Qed.
Lemma rotation_velocity_unique m v w : is_rotation m -> mmul (cross_matrix v) m = mmul (cross_matrix w) m -> v = w.
Proof.
  intros H E. assert (E' : cross_matrix v = cross_matrix w).
  { rewrite <- (mmul_1_r (cross_matrix v)), <- (mmul_1_r (cross_matrix w)), <- (rot_mtrans_r m H), !mmul_assoc, E. reflexivity. }
  apply vec3_eq; [exact (f_equal m21 E')|exact (f_equal m02 E')|exact (f_equal m10 E')].
Qed.

(** ** SO3 *)
Lemma so3_mul_shape a b r : so3_mul a b = Ok r -> rotation_matrix r = mmul (rotation_matrix a) (rotation_matrix b).
Proof.
  unfold so3_mul, so3_of_matrix. destruct (_ || _).
  - intro E. injection E as <-. reflexivity.
  - intro E. apply obind_ok in E as (? & _ & E). apply obind_ok in E as ((i, f) & _ & E). injection E as <-. reflexivity.
Qed.
Lemma so3_inverse_shape a r : so3_inverse a = Ok r -> rotation_matrix r = mtrans (rotation_matrix a).
Proof.
  unfold so3_inverse, so3_of_matrix. intro E. apply obind_ok in E as ((i, f) & _ & E). injection E as <-. reflexivity.
Qed.

Lemma so3_laws : lie_laws so3_ops so3_calc.
Proof.
  constructor; cbn [g_mul g_inverse g_identity g_exp g_log g_adjoint_times g_adjoint_times_alg g_into g_from g_default
    t_add t_scale t_zero so3_ops well_formed left_velocity right_velocity coord exact_exp exact_log so3_calc].
  - intros a b H. pose proof (H 0%nat). pose proof (H 1%nat). pose proof (H 2%nat). apply vec3_eq; assumption.
  - intros a b n. unfold so3_coord, list3. destruct n as [|[|[|[|n]]]]; cbn; try reflexivity; ring.
  - intros k a n. unfold so3_coord, list3. destruct n as [|[|[|[|n]]]]; cbn; try reflexivity; ring.
  - intros n. unfold so3_coord, list3. destruct n as [|[|[|[|n]]]]; cbn; reflexivity.
  - intros. apply mvec_add.
  - intros. apply mvec_scale.
  - intros. unfold so3_adjoint_times_alg. vring.
  - intros. unfold so3_adjoint_times_alg. vring.
  - intros. unfold so3_adjoint_times_alg. vring.
  - intros. unfold so3_adjoint_times_alg. vring.
  - intros. unfold so3_adjoint_times_alg. vring.
  - intros. apply so3_adjoint_bracket. assumption.
  - intros g [_ F]. exact F.
  - intros a b r A B E. exact (proj1 (so3_mul_closed _ _ _ A B E)).
  - intros a b r v A B E. exact (so3_adjoint_mul _ _ _ v A B E).
  - intros a b [_ A] [_ B] E. rewrite (so3_mul_match a b A B E). eexists. split; [reflexivity|split; reflexivity].
  - intros a b [_ A] [_ B] Na Nb Nm. rewrite so3_mul_framed; try assumption; try (apply so3_framed_iff; assumption).
    rewrite frame_eqb_neq by exact Nm. reflexivity.
  - intros a b [_ A] [_ B] H. rewrite so3_mul_unframed. { eexists. split; reflexivity. }
    destruct H as [H|H]; apply so3_unframed_iff in H; rewrite H; [reflexivity|apply andb_false_r].
  - intros a b d [_ A] [_ B] [_ D] E1 E2. rewrite (so3_mul_match a b A B E1), (so3_mul_match b d B D E2). cbn [obind].
    rewrite !so3_mul_match; try assumption; cbn [so3_into so3_from rotation_matrix].
    + rewrite mmul_assoc. reflexivity.
    + unfold so3_framing, frames_ok in *. cbn [so3_into so3_from]. rewrite B, E2, D. tauto.
    + unfold so3_framing, frames_ok in *. cbn [so3_into so3_from]. rewrite A, E1, B. tauto.
  - eexists. reflexivity.
  - intros i. exists (so3_id i i). split; [apply so3_identity_eq, frames_ok_self|].
    split; [split; [apply rot_mid|apply frames_ok_self]|]. split; [reflexivity|]. split; [reflexivity|].
    split; [intro v; apply mvec_1|]. split.
    + intros g W <-. apply so3_neutral, W.
    + intros g W <-. apply so3_neutral, W.
  - intros g W. destruct (so3_inverse_laws g W) as (h & E & Wh & M1 & M2 & I).
    exists h. split; [exact E|]. split; [exact Wh|]. pose proof E as E'. rewrite so3_inverse_eq in E' by apply W.
    injection E' as <-. split; [reflexivity|]. split; [reflexivity|].
    rewrite !so3_identity_eq by apply frames_ok_self. auto.
  - intros a b r a' b' [_ A] [_ B] E M Ia Ib. rewrite (so3_mul_match a b A B E) in M. injection M as <-.
    rewrite so3_inverse_eq in Ia, Ib by assumption. injection Ia as <-. injection Ib as <-.
    assert (F : so3_framing (SO3 (mmul (rotation_matrix a) (rotation_matrix b)) (so3_into a) (so3_from b))).
    { unfold so3_framing, frames_ok in *. cbn [so3_into so3_from]. rewrite A, E, B. tauto. }
    rewrite so3_inverse_eq by exact F. rewrite so3_mul_match; cbn [rotation_matrix so3_into so3_from].
    + rewrite mtrans_mmul. reflexivity.
    + apply frames_ok_sym, B.
    + apply frames_ok_sym, A.
    + symmetry. exact E.
  - intros v i f H. rewrite so3_exp_eq by exact H. eexists. split; [reflexivity|]. split; [|split; reflexivity].
    split; [apply mexp_rot|exact H].
  - intro i. rewrite so3_exp_eq by apply frames_ok_self. rewrite mexp_zero, so3_identity_eq by apply frames_ok_self.
    reflexivity.
  - intros g W _. apply so3_exp_log, W.
  - intros p t w u [W _] A B. exact (rotation_velocity_unique _ _ _ W (dM_unique _ _ _ _ A B)).
  - intros p q t w r P E. unfold so3_left_velocity. rewrite <- (E t) by (apply near_self, P).
    apply (dM_near _ _ _ _ r P). intros s Hs. rewrite E by exact Hs. reflexivity.
  - intros g t. unfold so3_left_velocity. apply (dM_eq _ _ _ _ (dM_const _ t)). unfold mzero3, cross_matrix. vring.
  - intros a b p t w u Wa Wb E Da Db. unfold so3_left_velocity in *.
    apply (dM_ext (fun s => mmul (rotation_matrix (a s)) (rotation_matrix (b s)))).
    { intro s. symmetry. apply so3_mul_shape, E. }
    apply (dM_eq _ _ _ _ (dM_mmul _ _ _ _ _ Da Db)).
    rewrite (so3_mul_shape _ _ _ (E t)), cross_matrix_add. unfold so3_adjoint_times.
    rewrite !mmul_assoc, rot_cross_swap, mmul_madd_l by apply (Wa t). rewrite mmul_madd_l. reflexivity.
  - intros a p t w Wa E Da. unfold so3_left_velocity in *.
    apply (dM_ext (fun s => mtrans (rotation_matrix (a s)))).
    { intro s. symmetry. apply so3_inverse_shape, E. }
    apply (dM_eq _ _ _ _ (dM_mtrans _ _ _ Da)). unfold so3_adjoint_times. rewrite (so3_inverse_shape _ _ (E t)).
    rewrite cross_matrix_scale, mmul_mscale_l, <- rot_cross_swap by (apply rot_mtrans, (Wa t)).
    rewrite mtrans_mmul. generalize (mtrans (rotation_matrix (a t))). intro m. unfold cross_matrix. vring.
  - intros p t w W. unfold so3_right_velocity, so3_left_velocity, so3_adjoint_times.
    rewrite rot_cross_swap by apply W. reflexivity.
  - intros p t w u u' D H. apply so3_deriv_coord. apply so3_deriv_coord in H. unfold so3_left_velocity in D.
    apply (dV_eq _ _ _ _ (dV_mvec _ _ _ _ _ D H)). unfold so3_adjoint_times, so3_adjoint_times_alg.
    rewrite mvec_mmul, cross_matrix_mvec. apply vadd_comm.
  - intros u w t u' w' A B. apply so3_deriv_coord. apply so3_deriv_coord in A. apply so3_deriv_coord in B.
    unfold so3_adjoint_times_alg. exact (dV_cross _ _ _ _ _ A B).
  - intros a a' v i f p t D _ E. unfold so3_left_velocity.
    assert (S : forall s, mexp (vscale (a s) v) = rotation_matrix (p s)).
    { intro s. symmetry. apply (so3_exp_spec _ _ _ (E s)). }
    rewrite <- (S t). apply (dM_ext _ _ _ _ S). apply dM_mexp_line, D.
  - intros p f f' t w D H. unfold so3_left_velocity in *. apply (dM_eq _ _ _ _ (dM_chain _ _ _ _ _ D H)).
    rewrite cross_matrix_scale, mmul_mscale_l. reflexivity.
  - intros p a b t w r P Ea Eb La Lb Da Db. unfold so3_left_velocity in *.
    apply (dM_glue _ (fun s => rotation_matrix (a s)) (fun s => rotation_matrix (b s)) _ _ r P); try congruence.
    + intros s Hs. rewrite La by exact Hs. reflexivity.
    + intros s Hs. rewrite Lb by exact Hs. reflexivity.
Qed.

(** ** SE3 *)
Lemma se3_shape a b r : se3_wf a -> se3_wf b -> se3_mul a b = Ok r ->
  rotation_matrix (rotation r) = mmul (rotation_matrix (rotation a)) (rotation_matrix (rotation b)) /\
  translation r = vadd (mvec (rotation_matrix (rotation a)) (translation b)) (translation a).
Proof.
  intros [_ A] [_ B] E. pose proof (se3_mul_shape _ _ _ A B E) as S. rewrite S. split; reflexivity.
Qed.
Lemma se3_inverse_shape a r : se3_wf a -> se3_inverse a = Ok r ->
  rotation_matrix (rotation r) = mtrans (rotation_matrix (rotation a)) /\
  translation r = mvec (mtrans (rotation_matrix (rotation a))) (vneg (translation a)).
Proof.
  intros [_ A] E. rewrite se3_inverse_eq in E by exact A. injection E as <-. split; reflexivity.
Qed.
Lemma tan6_eq a b : trot a = trot b -> ttrans a = ttrans b -> a = b.
Proof. destruct a as [a1 a2], b as [b1 b2]. cbn. intros -> ->. reflexivity. Qed.
(** The screw velocity is continuous where the exponential is exact. *)
Lemma exact_exp_near a t a' v : derivable_pt_lim a t a' ->
  trot v = vzero \/ TINY_SQUARE_ANGLE < a t * a t * norm2 (trot v) ->
  exists r, 0 < r /\ forall s, Rabs (s - t) < r -> regular (norm2 (vscale (a s) (trot v))).
Proof.
  intros D [Z|H].
  - exists 1. split; [lra|]. intros s _. rewrite Z, vscale_zero. left. unfold norm2. vring.
  - assert (C : continuity_pt (fun s => a s * a s * norm2 (trot v)) t).
    { apply derivable_continuous_pt. exists (a' * (a t * norm2 (trot v)) + (a t * norm2 (trot v)) * a').
      eapply dl_eq; [apply (dl_mult (fun s => a s * a s) (fun _ => norm2 (trot v)));
        [apply (dl_mult a a); exact D|apply dl_const]|]. ring. }
    destruct (C (a t * a t * norm2 (trot v) - TINY_SQUARE_ANGLE)) as (r & Rp & Hr); [lra|].
    exists r. split; [exact Rp|]. intros s Hs. right. rewrite norm2_scale.
    destruct (Req_dec s t) as [->|N]; [lra|].
    assert (Q : Rabs (a s * a s * norm2 (trot v) - a t * a t * norm2 (trot v)) <
                a t * a t * norm2 (trot v) - TINY_SQUARE_ANGLE).
    { apply (Hr s). split; [|exact Hs]. split; [exact I|]. intro E. apply N. symmetry. exact E. }
    apply Rabs_def2 in Q. lra.
Qed.

Lemma se3_laws : lie_laws se3_ops se3_calc.
Proof.
  constructor; cbn [g_mul g_inverse g_identity g_exp g_log g_adjoint_times g_adjoint_times_alg g_into g_from g_default
    t_add t_scale t_zero se3_ops well_formed left_velocity right_velocity coord exact_exp exact_log se3_calc].
  - intros a b H. apply tan6_eq; apply vec3_eq;
      [exact (H 0%nat)|exact (H 1%nat)|exact (H 2%nat)|exact (H 3%nat)|exact (H 4%nat)|exact (H 5%nat)].
  - intros a b n. unfold se3_coord, list6, list3. destruct n as [|[|[|[|[|[|[|n]]]]]]]; cbn; try reflexivity; ring.
  - intros k a n. unfold se3_coord, list6, list3. destruct n as [|[|[|[|[|[|[|n]]]]]]]; cbn; try reflexivity; ring.
  - intros n. unfold se3_coord, list6, list3. destruct n as [|[|[|[|[|[|[|n]]]]]]]; cbn; reflexivity.
  - intros g [a1 a2] [c1 c2]. unfold se3_adjoint_times, tadd. cbn [trot ttrans]. rewrite !mvec_add. f_equal. vring.
  - intros g k [a1 a2]. unfold se3_adjoint_times, tscale. cbn [trot ttrans]. rewrite !mvec_scale. f_equal. vring.
  - intros [a1 a2] [c1 c2] [x1 x2]. unfold se3_adjoint_times_alg, tadd. cbn [trot ttrans]. f_equal; vring.
  - intros [a1 a2] [c1 c2] [x1 x2]. unfold se3_adjoint_times_alg, tadd. cbn [trot ttrans]. f_equal; vring.
  - intros k [a1 a2] [x1 x2]. unfold se3_adjoint_times_alg, tscale. cbn [trot ttrans]. f_equal; vring.
  - intros k [a1 a2] [x1 x2]. unfold se3_adjoint_times_alg, tscale. cbn [trot ttrans]. f_equal; vring.
  - intros [a1 a2] [x1 x2]. unfold se3_adjoint_times_alg, tscale. cbn [trot ttrans]. f_equal; vring.
  - intros. apply se3_adjoint_bracket. assumption.
  - intros g (_ & F & _). exact F.
  - intros a b r A B E. exact (proj1 (se3_mul_closed _ _ _ A B E)).
  - intros a b r v A B E. exact (se3_adjoint_mul _ _ _ v A B E).
  - intros a b [_ A] [_ B] E. rewrite (se3_mul_match a b A B E). eexists. split; [reflexivity|split; reflexivity].
  - intros a b [_ A] [_ B] Na Nb Nm. rewrite se3_mul_framed; try assumption; try (apply se3_framed_iff; assumption).
    rewrite frame_eqb_neq by exact Nm. reflexivity.
  - intros a b [_ A] [_ B] H. rewrite se3_mul_unframed; try assumption. { eexists. split; reflexivity. }
    destruct H as [H|H]; apply se3_unframed_iff in H; rewrite H; [reflexivity|apply andb_false_r].
  - intros a b d [_ A] [_ B] [_ D] E1 E2. rewrite (se3_mul_match a b A B E1), (se3_mul_match b d B D E2). cbn [obind].
    assert (F1 : frames_ok (se3_into a) (se3_from b)).
    { destruct A as [A _], B as [B _]. unfold frames_ok in *. rewrite A, E1, B. tauto. }
    assert (F2 : frames_ok (se3_into b) (se3_from d)).
    { destruct B as [B _], D as [D _]. unfold frames_ok in *. rewrite B, E2, D. tauto. }
    rewrite !se3_mul_match; try assumption; try (apply se3_times_framing; assumption).
    cbn [se3_times se3_from se3_into]. f_equal. apply se3_times_assoc.
  - eexists. reflexivity.
  - intros i. exists (se3_id i i). split; [apply se3_identity_eq, frames_ok_self|].
    split; [split; [apply rot_mid|split; [apply frames_ok_self|split; reflexivity]]|].
    split; [reflexivity|]. split; [reflexivity|].
    split; [intros [v1 v2]; unfold se3_adjoint_times, se3_id; cbn [rotation rotation_matrix translation trot ttrans];
            rewrite !mvec_1; f_equal; vring|]. split.
    + intros g W <-. apply se3_neutral, W.
    + intros g W <-. apply se3_neutral, W.
  - intros g W. destruct (se3_inverse_laws g W) as (h & E & Wh & M1 & M2 & I).
    exists h. split; [exact E|]. split; [exact Wh|]. pose proof E as E'. rewrite se3_inverse_eq in E' by apply W.
    injection E' as <-. split; [reflexivity|]. split; [reflexivity|].
    rewrite !se3_identity_eq by apply frames_ok_self. auto.
  - intros a b r a' b' [Ra A] [Rb B] E M Ia Ib. rewrite (se3_mul_match a b A B E) in M. injection M as <-.
    rewrite se3_inverse_eq in Ia, Ib by assumption. injection Ia as <-. injection Ib as <-.
    assert (F : frames_ok (se3_into a) (se3_from b)).
    { destruct A as [A _], B as [B _]. unfold frames_ok in *. rewrite A, E, B. tauto. }
    rewrite se3_inverse_eq by (apply se3_times_framing, F).
    rewrite se3_mul_match by (try apply se3_inv_framing; try assumption; symmetry; exact E).
    f_equal. unfold se3_inv, se3_times, se3_mat.
    cbn [se3_into se3_from rotation rotation_matrix unframed translation]. unfold unframed.
    rewrite mtrans_mmul, mvec_mmul. f_equal.
    replace (vneg (vadd (mvec (rotation_matrix (rotation a)) (translation b)) (translation a))) with
      (vadd (mvec (rotation_matrix (rotation a)) (vneg (translation b))) (vneg (translation a))) by (rewrite mvec_neg; vring).
    rewrite !mvec_add, mvec_inv_l by exact Ra. apply vadd_comm.
  - intros v i f H. rewrite se3_exp_eq by exact H. eexists. split; [reflexivity|]. split; [|split; reflexivity].
    split; [apply mexp_rot|split; [exact H|split; reflexivity]].
  - intro i. rewrite se3_exp_eq by apply frames_ok_self. rewrite se3_identity_eq by apply frames_ok_self.
    cbn [trot ttrans tzero]. rewrite mexp_zero. unfold se3_id. do 2 f_equal. rewrite Vmap_zero. reflexivity.
  - intros g W P. destruct (se3_exp_log g W) as (h & E & _ & _ & _ & _ & X). rewrite (X P) in E. exact E.
  - intros p t w u [W _] [A A'] [B B']. assert (E := rotation_velocity_unique _ _ _ W (dM_unique _ _ _ _ A B)).
    pose proof (dV_unique _ _ _ _ A' B') as E'. apply tan6_eq; [exact E|]. rewrite E in E'.
    apply vec3_eq; [apply (f_equal vx) in E'|apply (f_equal vy) in E'|apply (f_equal vz) in E'];
      cbn [vx vy vz vadd] in E'; lra.
  - intros p q t w r P E [A B]. split.
    + rewrite <- (E t) by (apply near_self, P). revert A. apply (dM_near _ _ _ _ r P).
      intros s Hs. rewrite E by exact Hs. reflexivity.
    + rewrite <- (E t) by (apply near_self, P). revert B. apply (dV_near _ _ _ _ r P).
      intros s Hs. rewrite E by exact Hs. reflexivity.
  - intros g t. split.
    + apply (dM_eq _ _ _ _ (dM_const _ t)). cbn [trot tzero]. unfold mzero3, cross_matrix. vring.
    + apply (dV_eq _ _ _ _ (dV_const _ t)). cbn [trot ttrans tzero]. vring.
  - intros a b p t w u Wa Wb E [Da Da'] [Db Db'].
    assert (S := fun s => se3_shape _ _ _ (Wa s) (Wb s) (E s)). split.
    + apply (dM_ext (fun s => mmul (rotation_matrix (rotation (a s))) (rotation_matrix (rotation (b s))))).
      { intro s. symmetry. apply S. }
      apply (dM_eq _ _ _ _ (dM_mmul _ _ _ _ _ Da Db)).
      rewrite (proj1 (S t)). cbn [trot tadd se3_adjoint_times]. rewrite cross_matrix_add.
      rewrite !mmul_assoc, rot_cross_swap, mmul_madd_l by apply (Wa t). rewrite mmul_madd_l. reflexivity.
    + apply (dV_ext (fun s => vadd (mvec (rotation_matrix (rotation (a s))) (translation (b s))) (translation (a s)))).
      { intro s. symmetry. apply S. }
      apply (dV_eq _ _ _ _ (dV_add _ _ _ _ _ (dV_mvec _ _ _ _ _ Da Db') Da')).
      rewrite (proj2 (S t)). unfold tadd, se3_adjoint_times. cbn [trot ttrans].
      rewrite mvec_mmul, cross_matrix_mvec, mvec_add, <- (rot_cross (rotation_matrix (rotation (a t)))) by apply (Wa t).
      generalize (mvec (rotation_matrix (rotation (a t))) (translation (b t)))
        (mvec (rotation_matrix (rotation (a t))) (trot u)) (mvec (rotation_matrix (rotation (a t))) (ttrans u)).
      intros. vring.
  - intros a p t w Wa E [Da Da']. assert (S := fun s => se3_inverse_shape _ _ (Wa s) (E s)).
    assert (Rt : is_rotation (mtrans (rotation_matrix (rotation (a t))))) by apply rot_mtrans, (Wa t). split.
    + apply (dM_ext (fun s => mtrans (rotation_matrix (rotation (a s))))).
      { intro s. symmetry. apply S. }
      apply (dM_eq _ _ _ _ (dM_mtrans _ _ _ Da)). cbn [trot tscale se3_adjoint_times]. rewrite (proj1 (S t)).
      rewrite cross_matrix_scale, mmul_mscale_l, <- rot_cross_swap by exact Rt.
      rewrite mtrans_mmul. generalize (mtrans (rotation_matrix (rotation (a t)))). intro m. unfold cross_matrix. vring.
    + apply (dV_ext (fun s => mvec (mtrans (rotation_matrix (rotation (a s)))) (vneg (translation (a s))))).
      { intro s. symmetry. apply S. }
      apply (dV_eq _ _ _ _ (dV_mvec _ _ _ _ _ (dM_mtrans _ _ _ Da) (dV_neg _ _ _ Da'))).
      unfold tscale, se3_adjoint_times. cbn [trot ttrans]. rewrite (proj1 (S t)), (proj2 (S t)).
      rewrite mtrans_mmul. set (m := mtrans (rotation_matrix (rotation (a t)))) in *.
      replace (mtrans (cross_matrix (trot w))) with (cross_matrix (vneg (trot w))) by (unfold cross_matrix; vring).
      rewrite mvec_mmul, cross_matrix_mvec.
      rewrite !(mvec_neg m), !mvec_add, <- !(rot_cross m), !mvec_neg by exact Rt.
      generalize (mvec m (trot w)) (mvec m (ttrans w)) (mvec m (translation (a t))). intros. vring.
  - intros p t w W. unfold se3_right_velocity, se3_left_velocity, se3_adjoint_times. cbn [trot ttrans].
    rewrite rot_cross_swap by apply W.
    replace (vadd (cross (mvec (rotation_matrix (rotation (p t))) (trot w)) (translation (p t)))
        (vadd (cross (translation (p t)) (mvec (rotation_matrix (rotation (p t))) (trot w)))
           (mvec (rotation_matrix (rotation (p t))) (ttrans w))))
      with (mvec (rotation_matrix (rotation (p t))) (ttrans w)); [reflexivity|].
    generalize (mvec (rotation_matrix (rotation (p t))) (trot w)) (mvec (rotation_matrix (rotation (p t))) (ttrans w)).
    intros. vring.
  - intros p t w u u' [D D'] H. apply se3_deriv_coord. destruct (proj1 (se3_deriv_coord _ _ _) H) as [H1 H2].
    unfold se3_adjoint_times, se3_adjoint_times_alg, tadd. cbn [trot ttrans].
    pose proof (dV_mvec _ _ _ _ _ D H1) as R1. pose proof (dV_mvec _ _ _ _ _ D H2) as R2.
    rewrite mvec_mmul, cross_matrix_mvec in R1, R2. split.
    + apply (dV_eq _ _ _ _ R1). apply vadd_comm.
    + apply (dV_eq _ _ _ _ (dV_add _ _ _ _ _ (dV_cross _ _ _ _ _ D' R1) R2)).
      generalize (mvec (rotation_matrix (rotation (p t))) (trot u')) (mvec (rotation_matrix (rotation (p t))) (trot (u t)))
        (mvec (rotation_matrix (rotation (p t))) (ttrans u')) (mvec (rotation_matrix (rotation (p t))) (ttrans (u t))).
      intros. vring.
  - intros u w t u' w' A B. apply se3_deriv_coord. destruct (proj1 (se3_deriv_coord _ _ _) A) as [A1 A2].
    destruct (proj1 (se3_deriv_coord _ _ _) B) as [B1 B2].
    unfold se3_adjoint_times_alg, tadd. cbn [trot ttrans]. split; [exact (dV_cross _ _ _ _ _ A1 B1)|].
    apply (dV_eq _ _ _ _ (dV_add _ _ _ _ _ (dV_cross _ _ _ _ _ A2 B1) (dV_cross _ _ _ _ _ A1 B2))). vring.
  - intros a a' v i f p t D X E.
    assert (S : forall s, mexp (vscale (a s) (trot v)) = rotation_matrix (rotation (p s)) /\
      Vmap (vscale (a s) (trot v)) (vscale (a s) (ttrans v)) = translation (p s)).
    { intro s. destruct (se3_exp_spec _ _ _ (E s)) as (_ & A & B & _). split; symmetry; assumption. }
    destruct (exact_exp_near a t a' v D X) as (r & Rp & Rg).
    assert (Tp : forall s, Rabs (s - t) < r -> screw (trot v) (ttrans v) (a s) = translation (p s)).
    { intros s Hs. rewrite <- (proj2 (S s)). symmetry. apply Vmap_screw, Rg, Hs. }
    split.
    + rewrite <- (proj1 (S t)). apply (dM_ext _ _ _ _ (fun s => proj1 (S s))). apply dM_mexp_line, D.
    + apply (dV_near _ _ _ _ r Rp Tp). rewrite <- (Tp t) by (apply near_self, Rp).
      apply (dV_eq _ _ _ _ (dV_chain _ _ _ _ _ D (screw_deriv (trot v) (ttrans v) (a t)))).
      rewrite screw_ode. unfold tscale. cbn [trot ttrans]. generalize (screw (trot v) (ttrans v) (a t)). intros.
      destruct v as [v1 v2]. cbn [trot ttrans]. vring.
  - intros p f f' t w D [H H']. split.
    + apply (dM_eq _ _ _ _ (dM_chain _ _ _ _ _ D H)). cbn [trot tscale].
      rewrite cross_matrix_scale, mmul_mscale_l. reflexivity.
    + apply (dV_eq _ _ _ _ (dV_chain _ _ _ _ _ D H')). cbn [trot ttrans tscale].
      destruct w as [w1 w2]. cbn [trot ttrans]. generalize (translation (p (f t))). intro. vring.
  - intros p a b t w r P Ea Eb La Lb [Da Da'] [Db Db']. split.
    + apply (dM_glue _ (fun s => rotation_matrix (rotation (a s))) (fun s => rotation_matrix (rotation (b s))) _ _ r P); try congruence.
      * intros s Hs. rewrite La by exact Hs. reflexivity.
      * intros s Hs. rewrite Lb by exact Hs. reflexivity.
    + apply (dV_glue _ (fun s => translation (a s)) (fun s => translation (b s)) _ _ r P); try congruence.
      * intros s Hs. rewrite La by exact Hs. reflexivity.
      * intros s Hs. rewrite Lb by exact Hs. reflexivity.
Qed.

(** ** SE3 with the ideal exponential *)
Lemma screw_scale w v k s : screw (vscale k w) (vscale k v) s = screw w v (k * s).
Proof.
  destruct (Req_dec k 0) as [->|K].
  { rewrite !vscale_0, Rmult_0_l, screw_zero. unfold screw. destruct (Req_EM_T _ _) as [_|N]; [apply vscale_zero|].
    elim N. apply norm_vzero. }
  unfold screw. rewrite norm_scale. destruct (Req_EM_T (norm w) 0) as [Z|N].
  { rewrite Z, Rmult_0_r. destruct (Req_EM_T 0 0) as [_|X]; [|lra]. rewrite vscale_vscale. f_equal. ring. }
  destruct (Req_EM_T (Rabs k * norm w) 0) as [Z|_].
  { elim N. apply Rmult_integral in Z as [Z|Z]; [|exact Z]. exfalso. exact (Rabs_no_R0 k K Z). }
  assert (A : Rabs k = k \/ Rabs k = - k) by (unfold Rabs; destruct (Rcase_abs k); auto).
  set (n := norm w) in *. clearbody n. destruct A as [-> | ->].
  - replace (s * (k * n)) with (k * s * n) by ring. set (x := k * s * n). destruct w, v. vsimpl.
    f_equal; field; auto.
  - replace (s * (- k * n)) with (- (k * s * n)) by ring. rewrite sin_neg, cos_neg. set (x := k * s * n).
    destruct w, v. vsimpl. f_equal; field; auto.
Qed.
Lemma se3_ideal_exp_eq v i f : frames_ok i f ->
  se3_ideal_exp v (Some (i, f)) = Ok (SE3 (unframed (mexp (trot v))) (screw (trot v) (ttrans v) 1) i f).
Proof. intro H. unfold se3_ideal_exp. rewrite se3_exp_eq by exact H. reflexivity. Qed.
Lemma se3_ideal_exp_regular v a : regular (norm2 (trot v)) -> se3_ideal_exp v a = se3_exp v a.
Proof.
  intro H. unfold se3_ideal_exp. destruct (se3_exp v a) as [g| |] eqn:E; cbn [obind]; try reflexivity.
  destruct (se3_exp_spec _ _ _ E) as (_ & _ & Ht & _).
  assert (Q : screw (trot v) (ttrans v) 1 = translation g).
  { rewrite Ht, <- Vmap_screw; [|rewrite vscale_1; exact H]. rewrite !vscale_1. reflexivity. }
  rewrite Q. destruct g. reflexivity.
Qed.
Lemma se3_ideal_laws : lie_laws se3_ideal_ops se3_ideal_calc.
Proof.
  pose proof se3_laws as L. constructor; try (destruct L; assumption).
  - intros v i f H. cbn [g_exp se3_ideal_ops]. rewrite se3_ideal_exp_eq by exact H. eexists. split; [reflexivity|].
    split; [|split; reflexivity]. split; [apply mexp_rot|split; [exact H|split; reflexivity]].
  - intro i. cbn [g_exp g_identity t_zero se3_ideal_ops]. rewrite se3_ideal_exp_regular.
    + exact (exp_zero _ _ L i).
    + left. unfold norm2, tzero. cbn [trot]. vring.
  - intros g W P. cbn [g_exp g_log g_into g_from se3_ideal_ops] in *. rewrite se3_ideal_exp_regular by exact P.
    exact (exp_log _ _ L g W P).
  - intros a a' v i f p t D _ E. cbn [g_exp t_scale se3_ideal_ops] in E.
    assert (S : forall s, mexp (vscale (a s) (trot v)) = rotation_matrix (rotation (p s)) /\
      screw (trot v) (ttrans v) (a s) = translation (p s)).
    { intro s. specialize (E s). unfold se3_ideal_exp in E. apply obind_ok in E as (g & Eg & E). injection E as <-.
      destruct (se3_exp_spec _ _ _ Eg) as (_ & A & _). split; [symmetry; exact A|].
      cbn [translation]. unfold tscale. cbn [trot ttrans]. rewrite screw_scale, Rmult_1_r. reflexivity. }
    split.
    + rewrite <- (proj1 (S t)). apply (dM_ext _ _ _ _ (fun s => proj1 (S s))). apply dM_mexp_line, D.
    + apply (dV_ext _ _ _ _ (fun s => proj2 (S s))). rewrite <- (proj2 (S t)).
      apply (dV_eq _ _ _ _ (dV_chain _ _ _ _ _ D (screw_deriv (trot v) (ttrans v) (a t)))).
      rewrite screw_ode. cbn [t_scale se3_ideal_ops]. unfold tscale. cbn [trot ttrans].
      generalize (screw (trot v) (ttrans v) (a t)). intros.
      destruct v as [v1 v2]. cbn [trot ttrans]. vring.
Qed.
Lemma group_laws G T (o : lie_ops G T) (c : lie_calc G T) : curve_group o c -> lie_laws o c.
Proof. intros [|]; [exact so3_laws|exact se3_laws]. Qed.
