(** Two-jets: C29, C30.  Every theorem is about SO3 and about SE3. *)
From Verif Require Import Cpp UuidModel RotSpec GeomModel DerivSpec DerivProofs FrameSpec LieSpec CoeffProofs LieProofs
  JetModel JetSpec JetLaws JetProofs.
Local Open Scope R_scope.

(** ** C29 *)
(** If the two-jets [ja] and [jb] hold pose, velocity and acceleration of the curves [a]
    and [b] at time [t], the composed jet holds those of the product curve. *)
Theorem c29_left_product_rule : forall G T (o : lie_ops G T) (c : lie_calc G T), curve_group o c ->
  forall a b p t ja jb, (forall s, well_formed c (a s)) -> (forall s, well_formed c (b s)) ->
  (forall s, g_mul o (a s) (b s) = Ok (p s)) -> describes_l c a t ja -> describes_l c b t jb ->
  exists j, jl_mul o ja jb = Ok j /\ describes_l c p t j.
Proof. exact (fun G T o c H => describes_l_mul (group_laws G T o c H)). Qed.
Print Assumptions c29_left_product_rule.

Theorem c29_right_product_rule : forall G T (o : lie_ops G T) (c : lie_calc G T), curve_group o c ->
  forall a b p t ja jb, (forall s, well_formed c (a s)) -> (forall s, well_formed c (b s)) ->
  (forall s, g_mul o (a s) (b s) = Ok (p s)) -> describes_r c a t ja -> describes_r c b t jb ->
  exists j, jr_mul o ja jb = Ok j /\ describes_r c p t j.
Proof. exact (fun G T o c H => describes_r_mul (group_laws G T o c H)). Qed.
Print Assumptions c29_right_product_rule.

(** The derivatives are determined by the curve, so the composed jet is the only right one. *)
Theorem c29_jet_unique : forall G T (o : lie_ops G T) (c : lie_calc G T), curve_group o c ->
  forall p t, (forall s, well_formed c (p s)) ->
  (forall j k, describes_l c p t j -> describes_l c p t k -> j = k) /\
  (forall j k, describes_r c p t j -> describes_r c p t k -> j = k).
Proof.
  exact (fun G T o c H p t W => conj (fun j k => describes_l_unique (group_laws G T o c H) p t j k W)
    (fun j k => describes_r_unique (group_laws G T o c H) p t j k W)).
Qed.
Print Assumptions c29_jet_unique.

(** Jets whose frames do not compose are rejected. *)
Theorem c29_frames_checked : forall G T (o : lie_ops G T) (c : lie_calc G T), curve_group o c ->
  (forall a b, jet_l_wf c a -> jet_l_wf c b -> g_into o (frame_from_ref a) <> null_frame ->
     g_into o (frame_from_ref b) <> null_frame -> g_from o (frame_from_ref a) <> g_into o (frame_from_ref b) ->
     jl_mul o a b = Throw) /\
  (forall a b, jet_r_wf c a -> jet_r_wf c b -> g_into o (ref_from_frame a) <> null_frame ->
     g_into o (ref_from_frame b) <> null_frame -> g_from o (ref_from_frame a) <> g_into o (ref_from_frame b) ->
     jr_mul o a b = Throw).
Proof. exact (fun G T o c H => conj (jl_mul_mismatch (group_laws G T o c H)) (jr_mul_mismatch (group_laws G T o c H))). Qed.
Print Assumptions c29_frames_checked.

(** Two screw motions about different axes, at time 1; the composed acceleration is not zero. *)
Definition jp_v : tan6 := T6 (V3 0 0 1) (V3 1 0 0).
Definition jp_u : tan6 := T6 (V3 1 0 0) (V3 0 1 0).
Definition jp_curve (v : tan6) (s : R) : se3 :=
  match se3_exp (tscale s v) (Some (null_frame, null_frame)) with Ok g => g | _ => se3_default end.
Lemma jp_described v : norm2 (trot v) = 1 ->
  (forall s, se3_wf (jp_curve v s)) /\ describes_l se3_calc (jp_curve v) 1 (JetL (jp_curve v 1) v tzero).
Proof.
  intro N. assert (E : forall s, se3_exp (tscale s v) (Some (null_frame, null_frame)) = Ok (jp_curve v s)).
  { intro s. unfold jp_curve. reflexivity. }
  split. { intro s. apply (se3_exp_spec _ _ _ (E s)). }
  pose proof (describes_exp se3_laws (fun s => s) (fun _ => 1) 0 v null_frame null_frame (jp_curve v) 1 (1/2)) as D.
  cbn [t_scale se3_ops] in D. rewrite (t_scale_one se3_laws v : tscale 1 v = v) in D.
  rewrite (t_scale_zero se3_laws v : tscale 0 v = tzero) in D. apply D; try lra.
  - intros s _. apply dl_id.
  - apply dl_const.
  - intros s Hs. right. rewrite N, tiny_val. apply Rabs_def2 in Hs. nra.
  - exact E.
Qed.
Example c29_example :
  (forall s, se3_wf (jp_curve jp_v s)) /\ (forall s, se3_wf (jp_curve jp_u s)) /\
  (forall s, exists g, se3_mul (jp_curve jp_v s) (jp_curve jp_u s) = Ok g) /\
  describes_l se3_calc (jp_curve jp_v) 1 (JetL (jp_curve jp_v 1) jp_v tzero) /\
  describes_l se3_calc (jp_curve jp_u) 1 (JetL (jp_curve jp_u 1) jp_u tzero).
Proof.
  assert (A : norm2 (trot jp_v) = 1) by (unfold jp_v, norm2; cbn [trot]; vsimpl; ring).
  assert (B : norm2 (trot jp_u) = 1) by (unfold jp_u, norm2; cbn [trot]; vsimpl; ring).
  destruct (jp_described _ A) as [Wa Da]. destruct (jp_described _ B) as [Wb Db]. repeat (split; [assumption|]).
  split; [intro s|split; assumption].
  destruct (mul_match _ _ se3_laws (jp_curve jp_v s) (jp_curve jp_u s) (Wa s) (Wb s) eq_refl) as (r & E & _).
  exists r. exact E.
Qed.

(** ** C30 *)
Theorem c30_inverse_curve : forall G T (o : lie_ops G T) (c : lie_calc G T), curve_group o c ->
  forall a p t, (forall s, well_formed c (a s)) -> (forall s, g_inverse o (a s) = Ok (p s)) ->
  (forall j, describes_l c a t j ->
     (exists i, jl_inverse o j = Ok i /\ describes_l c p t i) /\
     (exists r, right_two_jet o j = Ok r /\ describes_r c p t r)) /\
  (forall j, describes_r c a t j ->
     (exists i, jr_inverse o j = Ok i /\ describes_r c p t i) /\
     (exists l, left_two_jet o j = Ok l /\ describes_l c p t l)).
Proof.
  exact (fun G T o c H a p t W I => conj
    (fun j D => conj (describes_l_inverse (group_laws G T o c H) a p t j W I D)
                     (describes_right_two_jet (group_laws G T o c H) a p t j W I D))
    (fun j D => conj (describes_r_inverse (group_laws G T o c H) a p t j W I D)
                     (describes_left_two_jet (group_laws G T o c H) a p t j W I D))).
Qed.
Print Assumptions c30_inverse_curve.

(** The conversions undo each other. *)
Theorem c30_conversions : forall G T (o : lie_ops G T) (c : lie_calc G T), curve_group o c ->
  (forall j, jet_l_wf c j -> exists r, right_two_jet o j = Ok r /\ jet_r_wf c r /\ left_two_jet o r = Ok j) /\
  (forall j, jet_r_wf c j -> exists l, left_two_jet o j = Ok l /\ jet_l_wf c l /\ right_two_jet o l = Ok j).
Proof. exact (fun G T o c H => conj (jr_left_right (group_laws G T o c H)) (jl_right_left (group_laws G T o c H))). Qed.
Print Assumptions c30_conversions.

(** Jets form a group: neutral elements, inverses, associativity. *)
Theorem c30_left_group : forall G T (o : lie_ops G T) (c : lie_calc G T), curve_group o c ->
  (forall j, jet_l_wf c j -> exists e1 e2,
     jl_identity o (Some (g_into o (frame_from_ref j), g_into o (frame_from_ref j))) = Ok e1 /\
     jl_identity o (Some (g_from o (frame_from_ref j), g_from o (frame_from_ref j))) = Ok e2 /\
     jl_mul o e1 j = Ok j /\ jl_mul o j e2 = Ok j) /\
  (forall j, jet_l_wf c j -> exists i, jl_inverse o j = Ok i /\ jet_l_wf c i /\
     jl_mul o j i = jl_identity o (Some (g_into o (frame_from_ref j), g_into o (frame_from_ref j))) /\
     jl_mul o i j = jl_identity o (Some (g_from o (frame_from_ref j), g_from o (frame_from_ref j))) /\
     jl_inverse o i = Ok j) /\
  (forall a b d, jet_l_wf c a -> jet_l_wf c b -> jet_l_wf c d ->
     g_from o (frame_from_ref a) = g_into o (frame_from_ref b) -> g_from o (frame_from_ref b) = g_into o (frame_from_ref d) ->
     exists r, (let* ab := jl_mul o a b in jl_mul o ab d) = Ok r /\ (let* bd := jl_mul o b d in jl_mul o a bd) = Ok r).
Proof.
  exact (fun G T o c H => conj (jl_neutral (group_laws G T o c H))
    (conj (jl_inverse_law (group_laws G T o c H)) (jl_assoc (group_laws G T o c H)))).
Qed.
Print Assumptions c30_left_group.

Theorem c30_right_group : forall G T (o : lie_ops G T) (c : lie_calc G T), curve_group o c ->
  (forall j, jet_r_wf c j -> exists e1 e2,
     jr_identity o (Some (g_into o (ref_from_frame j), g_into o (ref_from_frame j))) = Ok e1 /\
     jr_identity o (Some (g_from o (ref_from_frame j), g_from o (ref_from_frame j))) = Ok e2 /\
     jr_mul o e1 j = Ok j /\ jr_mul o j e2 = Ok j) /\
  (forall j, jet_r_wf c j -> exists i, jr_inverse o j = Ok i /\ jet_r_wf c i /\
     jr_mul o j i = jr_identity o (Some (g_into o (ref_from_frame j), g_into o (ref_from_frame j))) /\
     jr_mul o i j = jr_identity o (Some (g_from o (ref_from_frame j), g_from o (ref_from_frame j))) /\
     jr_inverse o i = Ok j) /\
  (forall a b d, jet_r_wf c a -> jet_r_wf c b -> jet_r_wf c d ->
     g_from o (ref_from_frame a) = g_into o (ref_from_frame b) -> g_from o (ref_from_frame b) = g_into o (ref_from_frame d) ->
     exists r, (let* ab := jr_mul o a b in jr_mul o ab d) = Ok r /\ (let* bd := jr_mul o b d in jr_mul o a bd) = Ok r).
Proof.
  exact (fun G T o c H => conj (jr_neutral (group_laws G T o c H))
    (conj (jr_inverse_law (group_laws G T o c H)) (jr_assoc (group_laws G T o c H)))).
Qed.
Print Assumptions c30_right_group.

(** A default constructed jet is neutral for jets without frames. *)
Theorem c30_default : forall G T (o : lie_ops G T) (c : lie_calc G T), curve_group o c ->
  (forall j, jet_l_wf c j -> g_into o (frame_from_ref j) = null_frame -> g_from o (frame_from_ref j) = null_frame ->
     jl_mul o (jl_default o) j = Ok j /\ jl_mul o j (jl_default o) = Ok j) /\
  (forall j, jet_r_wf c j -> g_into o (ref_from_frame j) = null_frame -> g_from o (ref_from_frame j) = null_frame ->
     jr_mul o (jr_default o) j = Ok j /\ jr_mul o j (jr_default o) = Ok j).
Proof. exact default_neutral. Qed.
Print Assumptions c30_default.

(** Conversion reverses products. *)
Theorem c30_conversion_reverses : forall G T (o : lie_ops G T) (c : lie_calc G T), curve_group o c ->
  forall a b, jet_l_wf c a -> jet_l_wf c b -> g_from o (frame_from_ref a) = g_into o (frame_from_ref b) ->
  exists r, (let* ab := jl_mul o a b in right_two_jet o ab) = Ok r /\
    (let* ra := right_two_jet o a in let* rb := right_two_jet o b in jr_mul o rb ra) = Ok r.
Proof. exact (fun G T o c H => right_mul (group_laws G T o c H)). Qed.
Print Assumptions c30_conversion_reverses.

(** Jets over framed transforms whose frames compose. *)
Example c30_example : exists a b : jet_l se3 tan6,
  jet_l_wf se3_calc a /\ jet_l_wf se3_calc b /\ se3_from (frame_from_ref a) = se3_into (frame_from_ref b) /\
  d_frame_from_ref a <> tzero /\ se3_into (frame_from_ref a) <> null_frame.
Proof.
  set (i := [1%N]). set (f := [2%N]).
  assert (Oi : frames_ok i f). { split; intro X; discriminate X. }
  destruct (exp_some _ _ se3_laws jp_v i f Oi) as (g & _ & Wg & Ig & Fg).
  assert (Of : frames_ok f i). { split; intro X; discriminate X. }
  destruct (exp_some _ _ se3_laws jp_u f i Of) as (h & _ & Wh & Ih & Fh).
  exists (JetL g jp_u jp_v), (JetL h jp_v jp_u).
  split; [exact Wg|]. split; [exact Wh|]. split; [exact (eq_trans Fg (eq_sym Ih))|].
  split. { cbn. intro X. apply (f_equal (fun v => vx (trot v))) in X. cbn in X. lra. }
  cbn. intro X. pose proof (eq_trans (eq_sym Ig) X) as Y. discriminate Y.
Qed.

(** After any setter calls each getter returns the last value given to its own setter. *)
Theorem c30_setters : forall G T (calls : list (jet_set G T)) (l : jet_l G T) (r : jet_r G T),
  (frame_from_ref (fold_left set_l calls l) = last_given pose_given (frame_from_ref l) calls /\
   d_frame_from_ref (fold_left set_l calls l) = last_given velocity_given (d_frame_from_ref l) calls /\
   d2_frame_from_ref (fold_left set_l calls l) = last_given acceleration_given (d2_frame_from_ref l) calls) /\
  (ref_from_frame (fold_left set_r calls r) = last_given pose_given (ref_from_frame r) calls /\
   d_ref_from_frame (fold_left set_r calls r) = last_given velocity_given (d_ref_from_frame r) calls /\
   d2_ref_from_frame (fold_left set_r calls r) = last_given acceleration_given (d2_ref_from_frame r) calls).
Proof. exact (fun G T calls l r => conj (set_l_last calls l) (set_r_last calls r)). Qed.
Print Assumptions c30_setters.
Example c30_setters_case : forall (v w : vec3),
  last_given velocity_given vzero [SetVelocity (G:=so3) v; SetAcceleration w; SetPose so3_default] = v.
Proof. reflexivity. Qed.
