(** Distance curves: C36, C37, C38. *)
From Verif Require Import Cpp UuidModel RotSpec GeomModel DerivSpec FrameSpec ScrewSpec LieSpec FrameProofs RotProofs CoeffProofs LieProofs
  JetModel CurveModel CurveSpec TCurveProofs DCurveSpec DCurveProofs DCurveCases.
Local Open Scope R_scope.

(** ** C36 *)
(** An append succeeds exactly if the point is acceptable; otherwise it throws and leaves
    the curve as it was. *)
Theorem c36_append : forall g k, se3_wf g -> d_built k ->
  (snd (dc_append g k) = Ok tt <-> d_acceptable (map ref_from_control (d_control_pts k)) g) /\
  (snd (dc_append g k) = Throw <-> ~ d_acceptable (map ref_from_control (d_control_pts k)) g) /\
  (d_acceptable (map ref_from_control (d_control_pts k)) g ->
     map ref_from_control (d_control_pts (fst (dc_append g k))) = map ref_from_control (d_control_pts k) ++ [g]) /\
  (~ d_acceptable (map ref_from_control (d_control_pts k)) g -> fst (dc_append g k) = k).
Proof. exact d_append_iff. Qed.
Print Assumptions c36_append.

(** After any history of appends, failed or not: the poses are the acceptable ones in
    order; arc lengths start at zero and do not decrease; there is one segment per pair of
    neighbours, which joins them and has the length of their relative pose; and if the
    first pose is framed all have its frames. *)
Theorem c36_history : forall gs, Forall se3_wf gs -> let k := after_dappends gs dc_empty in
  d_takes gs (map ref_from_control (d_control_pts k)) /\
  (forall p l, d_control_pts k = p :: l -> arc_length p = 0 /\
     (framed (ref_from_control p) -> forall q, In q l -> same_frames se3_ops (ref_from_control q) (ref_from_control p))) /\
  StronglySorted (fun a b => arc_length a <= arc_length b) (d_control_pts k) /\
  Forall2 (fun ab s => d_joins (fst ab) (snd ab) s) (consecutive (d_control_pts k)) (d_segments k) /\
  (forall l b, d_control_pts k = l ++ [b] -> dc_length k = Ok (arc_length b)).
Proof. exact d_build_history. Qed.
Print Assumptions c36_history.
Theorem c36_history_determines : forall gs a b, d_takes gs a -> d_takes gs b -> a = b.
Proof. exact d_takes_fun. Qed.
Print Assumptions c36_history_determines.

(** Appending a list, and construction from one. *)
Theorem c36_append_list : forall gs k, Forall se3_wf gs -> d_built k ->
  let refs c := map ref_from_control (d_control_pts c) in
  (exists k', dc_append_list gs k = (k', Ok tt) /\ refs k' = refs k ++ gs /\ k' = after_dappends gs k /\
     forall l g r, gs = l ++ g :: r -> d_acceptable (refs k ++ l) g) \/
  (exists l g r, gs = l ++ g :: r /\ ~ d_acceptable (refs k ++ l) g /\
     refs (after_dappends l k) = refs k ++ l /\ dc_append_list gs k = (after_dappends l k, Throw)).
Proof. exact (fun gs k F B => d_append_list_spec gs F k (d_built_inv k B)). Qed.
Print Assumptions c36_append_list.
Theorem c36_construction : forall gs, Forall se3_wf gs ->
  (d_takes gs gs -> dc_make gs = Ok (after_dappends gs dc_empty) /\ map ref_from_control (d_control_pts (after_dappends gs dc_empty)) = gs) /\
  (~ d_takes gs gs -> dc_make gs = Throw).
Proof. exact d_make_spec. Qed.
Print Assumptions c36_construction.

(** If the first pose is not framed, frames are not kept apart: a curve can hold poses of
    different frames. *)
Theorem c36_frames_agree_refuted : exists gs k, Forall se3_wf gs /\ dc_make gs = Ok k /\
  exists p q, In p (d_control_pts k) /\ In q (d_control_pts k) /\ framed (ref_from_control p) /\ framed (ref_from_control q) /\
    ~ same_frames se3_ops (ref_from_control p) (ref_from_control q).
Proof. exact d_frames_refuted. Qed.
Print Assumptions c36_frames_agree_refuted.

(** A framed curve refuses an unframed pose. *)
Definition dp_framed : se3 := SE3 (unframed mid) (V3 1 0 0) (repeat 1%N 16) (repeat 2%N 16).
Example c36_example : se3_wf dp_framed /\ d_built (after_dappends [dp_framed] dc_empty) /\
  ~ d_acceptable [dp_framed] (bare mid vzero) /\ d_acceptable [dp_framed] dp_framed.
Proof.
  assert (W : se3_wf dp_framed).
  { split; [apply rot_mid|]. split; [|split; reflexivity]. unfold frames_ok. cbn. unfold null_frame. split; intro E; discriminate E. }
  assert (N : framed dp_framed) by (intro E; discriminate E).
  split; [exact W|]. split; [exists [dp_framed]; split; [repeat constructor; apply W|reflexivity]|]. split.
  - intros [E|(f & m & l & b & E1 & E2 & A & B)]; [discriminate E|]. injection E1 as <- <-.
    destruct (A N) as [X _]. discriminate X.
  - right. exists dp_framed, [], [], dp_framed. repeat split.
Qed.

(** ** C37 *)
Theorem c37_throws : forall k s, d_built k ->
  (dc_point_at k s = Throw <-> s < 0 \/ (length (d_control_pts k) < 2)%nat \/ (exists len, dc_length k = Ok len /\ len < s)).
Proof. exact (fun k s B => d_throws_iff k s (d_built_inv k B)). Qed.
Print Assumptions c37_throws.

(** The only query without a usable answer (entries that are not numbers) is the start of
    a curve whose second point has arc length zero. *)
Theorem c37_not_a_number : forall k s, d_built k ->
  (dc_point_at k s = Ok None <-> s = 0 /\ exists a b l, d_control_pts k = a :: b :: l /\ arc_length b = 0).
Proof. exact (fun k s B => d_nan_iff k s (d_built_inv k B)). Qed.
Print Assumptions c37_not_a_number.
Theorem c37_start_usable_refuted : exists k len, d_built k /\ (2 <= length (d_control_pts k))%nat /\ dc_length k = Ok len /\
  0 < len /\ dc_point_at k 0 = Ok None.
Proof. exact start_refuted. Qed.
Print Assumptions c37_start_usable_refuted.

(** All other queries give the pose on the screw between the two neighbours around [s],
    at the fraction of its length: the orientation exactly, the position up to 1e-23 of
    the segment length, and exactly if the rotation so far is zero or not tiny. *)
Theorem c37_geodesic : forall k l1 a b l2 m s, d_built k -> d_control_pts k = l1 ++ a :: b :: l2 ->
  relative (ref_from_control a) (ref_from_control b) m ->
  arc_length a < arc_length b -> arc_length a <= s <= arc_length b -> (l1 = [] \/ arc_length a < s) ->
  exists g, dc_point_at k s = Ok (Some g) /\ se3_wf g /\
    (same_frames se3_ops (ref_from_control a) (ref_from_control b) -> same_frames se3_ops g (ref_from_control a)) /\
    let f := (s - arc_length a) / (arc_length b - arc_length a) in
    let w := trot (se3_log m) in let v := ttrans (se3_log m) in
    rotation_matrix (rotation g) = mmul (rotation_matrix (rotation (ref_from_control a))) (mexp (vscale f w)) /\
    norm (vsub (position g) (se3_act (ref_from_control a) (screw w v f))) <= / 10^23 * (s - arc_length a) /\
    (plain_angle (f * f * norm2 w) -> position g = se3_act (ref_from_control a) (screw w v f)).
Proof. exact d_geodesic. Qed.
Print Assumptions c37_geodesic.

(** Control points at the end of a segment of positive length are met: orientation
    exactly, position up to 1e-15 of the distance, exactly if the relative rotation is
    zero or not tiny.  The first one is met if the first segment has positive length. *)
Theorem c37_meets_control_points : forall k a b m, d_built k -> d_neighbours k a b ->
  relative (ref_from_control a) (ref_from_control b) m -> arc_length a < arc_length b ->
  exists g, dc_point_at k (arc_length b) = Ok (Some g) /\ se3_wf g /\
    rotation_matrix (rotation g) = rotation_matrix (rotation (ref_from_control b)) /\
    norm (vsub (position g) (position (ref_from_control b))) <= / 10^15 * norm (translation m) /\
    (plain_angle (norm2 (trot (se3_log m))) -> position g = position (ref_from_control b)) /\
    (same_frames se3_ops (ref_from_control a) (ref_from_control b) -> same_frames se3_ops g (ref_from_control b)).
Proof. exact (fun k a b m B => d_meets k a b m (d_built_inv k B)). Qed.
Print Assumptions c37_meets_control_points.
Theorem c37_meets_first : forall k a b l, d_built k -> d_control_pts k = a :: b :: l -> 0 < arc_length b ->
  exists g, dc_point_at k 0 = Ok (Some g) /\ se3_wf g /\
    rotation_matrix (rotation g) = rotation_matrix (rotation (ref_from_control a)) /\ position g = position (ref_from_control a) /\
    (same_frames se3_ops (ref_from_control a) (ref_from_control b) -> same_frames se3_ops g (ref_from_control a)).
Proof. exact (fun k a b l B => d_meets_first k a b l (d_built_inv k B)). Qed.
Print Assumptions c37_meets_first.
(** Other control points need not be met: a turn in place is not. *)
Theorem c37_meets_all_refuted : exists k p g, d_built k /\ In p (d_control_pts k) /\ dc_point_at k (arc_length p) = Ok (Some g) /\
  rotation_matrix (rotation g) <> rotation_matrix (rotation (ref_from_control p)).
Proof. exact meets_all_refuted. Qed.
Print Assumptions c37_meets_all_refuted.

Example c37_example : d_built corner /\ exists a b c, d_control_pts corner = [a; b; c] /\
  arc_length a = 0 /\ arc_length b = 1 /\ arc_length c = 2 /\
  exists m, relative (ref_from_control b) (ref_from_control c) m.
Proof.
  destruct corner_facts as (B & a & b & c & E & A0 & A1 & A2 & Ra & Rb & Rc). split; [exact B|].
  exists a, b, c. repeat (split; [assumption|]).
  destruct (d_neighbours_facts corner b c (d_built_inv _ B) (nb corner [a] b c [] E)) as (_ & _ & sg & _ & J). eexists. apply J.
Qed.

(** ** C38 *)
(** The positions follow a path parametrized by arc length through all control points:
    no faster than one anywhere, so continuous, with speed one inside the segments. *)
Theorem c38_arc_length_path : forall k len, d_built k -> d_plain k -> (2 <= length (d_control_pts k))%nat -> dc_length k = Ok len ->
  exists P : R -> vec3,
    (forall s s', 0 <= s <= len -> 0 <= s' <= len -> norm (vsub (P s) (P s')) <= Rabs (s - s')) /\
    (forall p, In p (d_control_pts k) -> P (arc_length p) = position (ref_from_control p)) /\
    (forall a b s, d_neighbours k a b -> arc_length a < s < arc_length b -> exists v, dV P s v /\ norm v = 1) /\
    (forall s g, dc_point_at k s = Ok (Some g) -> norm (vsub (position g) (P s)) <= / 10^23 * len) /\
    ((forall a b m, d_neighbours k a b -> relative (ref_from_control a) (ref_from_control b) m -> norm2 (trot (se3_log m)) = 0) ->
       forall s g, dc_point_at k s = Ok (Some g) -> position g = P s).
Proof. exact d_path. Qed.
Print Assumptions c38_arc_length_path.

(** Without segments of length zero the orientation is Lipschitz continuous too, and
    equal to that of every control point. *)
Theorem c38_orientation : forall k len, d_built k -> (2 <= length (d_control_pts k))%nat -> dc_length k = Ok len ->
  (forall a b, d_neighbours k a b -> arc_length a < arc_length b) ->
  exists Q : R -> mat3, (exists K, 0 <= K /\ forall u s s', 0 <= s <= len -> 0 <= s' <= len ->
      norm (vsub (mvec (Q s) u) (mvec (Q s') u)) <= K * norm u * Rabs (s - s')) /\
    (forall p, In p (d_control_pts k) -> Q (arc_length p) = rotation_matrix (rotation (ref_from_control p))) /\
    (forall s, 0 <= s <= len -> exists g, dc_point_at k s = Ok (Some g) /\ rotation_matrix (rotation g) = Q s).
Proof. exact d_orientation. Qed.
Print Assumptions c38_orientation.

(** The documented claim that the curve is C1 is false: at a corner there is no derivative. *)
Theorem c38_c1_refuted : exists k len s, d_built k /\ dc_length k = Ok len /\ 0 < s < len /\
  (forall a b, d_neighbours k a b -> arc_length a < arc_length b) /\
  forall P, (forall t g, dc_point_at k t = Ok (Some g) -> P t = position g) -> ~ exists v, dV P s v.
Proof. exact smooth_refuted. Qed.
Print Assumptions c38_c1_refuted.
(** With a turn in place not even the orientation is continuous. *)
Theorem c38_orientation_continuous_refuted : exists k len s, d_built k /\ dc_length k = Ok len /\ 0 < s < len /\
  (forall t, 0 <= t <= len -> exists g, dc_point_at k t = Ok (Some g)) /\
  forall Q, (forall t g, dc_point_at k t = Ok (Some g) -> Q t = rotation_matrix (rotation g)) -> ~ continuity_pt (fun t => m00 (Q t)) s.
Proof. exact orientation_refuted. Qed.
Print Assumptions c38_orientation_continuous_refuted.

Example c38_example : d_built corner /\ d_plain corner /\ length (d_control_pts corner) = 3%nat /\ dc_length corner = Ok 2 /\
  (forall a b, d_neighbours corner a b -> arc_length a < arc_length b).
Proof.
  destruct corner_facts as (B & a & b & c & E & A0 & A1 & A2 & Ra & Rb & Rc). pose proof (d_built_inv _ B) as I. split; [exact B|].
  assert (Nb : forall x y, d_neighbours corner x y -> (x = a /\ y = b) \/ (x = b /\ y = c)).
  { intros x y (l & r & X). rewrite E in X. destruct l as [|x1 l]; [injection X as <- <- _; auto|].
    injection X as _ X. destruct l as [|x2 l]; [injection X as <- <- _; auto|]. injection X as _ X. destruct l as [|x3 l]; discriminate X || destruct l; discriminate X. }
  split; [|split; [rewrite E; reflexivity|split; [rewrite <- A2; apply (proj2 (d_length_spec corner) [a; b] c E)|]]].
  - intros x y m N Rl. destruct (d_neighbours_facts corner x y I N) as (Wx & Wy & _). left.
    destruct (relative_bare _ _ m Wx Wy Rl) as [-> _]; [|unfold norm2; cbn [trot]; vsimpl; ring].
    destruct (Nb x y N) as [[-> ->]|[-> ->]]; rewrite ?Ra, ?Rb, ?Rc; reflexivity.
  - intros x y N. destruct (Nb x y N) as [[-> ->]|[-> ->]]; lra.
Qed.
