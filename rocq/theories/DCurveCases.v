(** Distance curves with corners and turns in place. *)
From Verif Require Import Cpp UuidModel RotSpec GeomModel DerivSpec DerivProofs FrameSpec ScrewSpec LieSpec
  FrameProofs RotProofs CoeffProofs LieProofs DiffProofs JetModel JetSpec JetLaws JetProofs CurveModel CurveSpec CurveProofs
  TCurveProofs DCurveSpec DCurveProofs.
Local Open Scope R_scope.

(** Poses without frames. *)
Definition bare (m : mat3) (t : vec3) : se3 := SE3 (unframed m) t null_frame null_frame.
Lemma bare_wf m t : is_rotation m -> se3_wf (bare m t).
Proof. intro H. split; [exact H|]. split; [apply frames_ok_null|split; reflexivity]. Qed.
Lemma bare_unframed m t : ~ framed (bare m t).
Proof. intro H. apply H. reflexivity. Qed.
(** A curve through bare poses. *)
Definition bare_curve (gs : list (mat3 * vec3)) : dcurve := after_dappends (map (fun g => bare (fst g) (snd g)) gs) dc_empty.
Lemma bare_curve_spec gs : Forall (fun g => is_rotation (fst g)) gs ->
  d_built (bare_curve gs) /\ refs (bare_curve gs) = map (fun g => bare (fst g) (snd g)) gs.
Proof.
  intro F. assert (W : Forall se3_wf (map (fun g => bare (fst g) (snd g)) gs)).
  { rewrite Forall_map. revert F. apply Forall_impl. intros g H. apply bare_wf, H. }
  split; [exists (map (fun g => bare (fst g) (snd g)) gs); split; [exact W|reflexivity]|].
  destruct (d_make_spec _ W) as [H _]. apply H. apply d_takes_all. intros l g r E.
  assert (B : forall x, In x (l ++ g :: r) -> ~ framed x).
  { rewrite <- E. intros x Hx. apply in_map_iff in Hx as (y & <- & _). apply bare_unframed. }
  destruct (list_cases l) as [->|(l' & b & El)]; [left; reflexivity|]. right. destruct l as [|f m]; [destruct l'; discriminate El|].
  exists f, m, l', b. split; [reflexivity|]. split; [exact El|]. split; intro X; exfalso; revert X; apply B.
  - left. reflexivity.
  - rewrite El. apply in_or_app. left. apply in_or_app. right. left. reflexivity.
Qed.
(** Relative poses: without turning, and in place. *)
Lemma log_id g : se3_wf g -> rotation_matrix (rotation g) = mid -> se3_log g = T6 vzero (translation g).
Proof.
  intros [W F] E. assert (L : so3_log (rotation g) = vzero).
  { apply norm_zero. apply Rle_antisym; [|apply norm_nonneg]. rewrite <- norm_vzero. apply log_shortest; [|rewrite E; apply mexp_zero].
    split; [exact W|]. destruct F as (_ & A & B). unfold so3_framing, frames_ok. rewrite A, B. tauto. }
  unfold se3_log. rewrite L. f_equal. generalize (log_order_2_coeff (norm2 vzero)). intro. generalize (translation g). intro. vring.
Qed.
Lemma log_in_place g : translation g = vzero -> ttrans (se3_log g) = vzero.
Proof. intro E. unfold se3_log. rewrite E. cbn [ttrans]. generalize (so3_log (rotation g)) (log_order_2_coeff (norm2 (so3_log (rotation g)))). intros. vring. Qed.
Lemma relative_bare a b m : se3_wf a -> se3_wf b -> relative a b m -> rotation_matrix (rotation a) = rotation_matrix (rotation b) ->
  se3_log m = T6 vzero (mvec (mtrans (se3_mat a)) (vsub (translation b) (translation a))) /\ se3_arc_length m = norm (vsub (translation b) (translation a)).
Proof.
  intros Wa Wb Rl E. destruct (relative_spec a b m Wa Wb Rl) as (Wm & _ & _ & M & Tb). unfold se3_mat in M. rewrite <- E in M.
  assert (Em : rotation_matrix (rotation m) = mid).
  { pose proof (proj1 Wa) as Ra. apply (f_equal (mmul (mtrans (rotation_matrix (rotation a))))) in M.
    rewrite mmul_assoc, rot_mtrans_l, mmul_1_l in M by exact Ra. symmetry. exact M. }
  assert (Et : translation m = mvec (mtrans (se3_mat a)) (vsub (translation b) (translation a))).
  { rewrite Tb. replace (vsub (vadd (mvec (se3_mat a) (translation m)) (translation a)) (translation a)) with (mvec (se3_mat a) (translation m))
      by (generalize (mvec (se3_mat a) (translation m)) (translation a); intros; vring).
    rewrite <- mvec_mmul, rot_mtrans_l, mvec_1 by apply Wa. reflexivity. }
  rewrite <- Et. rewrite (log_id m Wm Em). split; [reflexivity|]. unfold se3_arc_length. rewrite (log_id m Wm Em). cbn [ttrans].
  rewrite Et. apply rot_norm. apply rot_mtrans, Wa.
Qed.
Lemma relative_in_place a b m : se3_wf a -> se3_wf b -> relative a b m -> translation a = translation b -> se3_arc_length m = 0.
Proof.
  intros Wa Wb Rl E. destruct (relative_spec a b m Wa Wb Rl) as (Wm & _ & _ & M & Tb).
  unfold se3_arc_length. rewrite log_in_place, norm_vzero; [reflexivity|]. rewrite E in Tb.
  assert (Z : mvec (se3_mat a) (translation m) = vzero).
  { replace (mvec (se3_mat a) (translation m)) with (vsub (vadd (mvec (se3_mat a) (translation m)) (translation b)) (translation b))
      by (generalize (mvec (se3_mat a) (translation m)) (translation b); intros; vring). rewrite <- Tb. vring. }
  rewrite <- (mvec_1 (translation m)), <- (rot_mtrans_l (se3_mat a)), mvec_mmul, Z, mvec_zero by apply Wa. reflexivity.
Qed.
(** The arc lengths and segments of a curve, from its poses. *)
Lemma d_unfold2 k g0 g1 gs : d_inv k -> refs k = g0 :: g1 :: gs -> exists a b l, d_control_pts k = a :: b :: l /\ arc_length a = 0 /\
  ref_from_control a = g0 /\ ref_from_control b = g1 /\ map ref_from_control l = gs.
Proof.
  intros (_ & I2 & _) E. unfold refs in E. destruct (d_control_pts k) as [|a [|b l]] eqn:Q; try discriminate E. cbn in E.
  injection E as E1 E2 E3. exists a, b, l. destruct (I2 a (b :: l) eq_refl) as [A0 _]. auto 6.
Qed.
Lemma straight_step k a b : d_inv k -> d_neighbours k a b -> 
  rotation_matrix (rotation (ref_from_control a)) = rotation_matrix (rotation (ref_from_control b)) ->
  arc_length b = arc_length a + norm (vsub (translation (ref_from_control b)) (translation (ref_from_control a))).
Proof.
  intros I N E. destruct (d_neighbours_facts k a b I N) as (Wa & Wb & sg & _ & (_ & _ & _ & _ & Rl & L)). rewrite L.
  rewrite (proj2 (relative_bare _ _ _ Wa Wb Rl E)). reflexivity.
Qed.
Lemma turn_step k a b : d_inv k -> d_neighbours k a b -> translation (ref_from_control a) = translation (ref_from_control b) ->
  arc_length b = arc_length a.
Proof.
  intros I N E. destruct (d_neighbours_facts k a b I N) as (Wa & Wb & sg & _ & (_ & _ & _ & _ & Rl & L)). rewrite L.
  rewrite (relative_in_place _ _ _ Wa Wb Rl E). ring.
Qed.
Lemma nb k l a b r : d_control_pts k = l ++ a :: b :: r -> d_neighbours k a b.
Proof. intro E. exists l, r. exact E. Qed.
(** A straight segment is traversed at unit speed, with fixed orientation. *)
Lemma straight_point k l1 a b l2 s : d_inv k -> d_control_pts k = l1 ++ a :: b :: l2 ->
  rotation_matrix (rotation (ref_from_control a)) = rotation_matrix (rotation (ref_from_control b)) ->
  arc_length a < arc_length b -> arc_length a <= s <= arc_length b -> (l1 = [] \/ arc_length a < s) ->
  exists g, dc_point_at k s = Ok (Some g) /\ rotation_matrix (rotation g) = rotation_matrix (rotation (ref_from_control a)) /\
    position g = vadd (translation (ref_from_control a)) (vscale ((s - arc_length a) / (arc_length b - arc_length a))
      (vsub (translation (ref_from_control b)) (translation (ref_from_control a)))).
Proof.
  intros I E Er Hab Hs S. pose proof (nb k l1 a b l2 E) as Nb. destruct (d_neighbours_facts k a b I Nb) as (Wa & Wb & sg & _ & J).
  pose proof J as (J1 & J2 & J3 & J4 & J5 & J6).
  destruct (d_owner k l1 a b l2 _ s I E J5 Hab Hs S) as (q & g & Eq & Eg & Ep). exists g. split; [exact Ep|].
  destruct (d_eval_at k a b _ sg s q g I Nb J Hab eq_refl Hs Eq Eg) as (_ & Mg & Pg).
  destruct (relative_bare _ _ _ Wa Wb J5 Er) as [Lg _]. rewrite Lg in Pg. cbn [trot] in Pg.
  split.
  - change (se3_mat g = se3_mat (ref_from_control a)). rewrite Mg. unfold seg_orient. rewrite Lg, J3. cbn [trot].
    rewrite vscale_zero, mexp_zero. apply mmul_1_r.
  - rewrite Pg by (unfold norm2; vsimpl; ring). unfold seg_path. rewrite Lg, J3. cbn [trot ttrans]. rewrite screw_zero_w, mvec_scale.
    rewrite mvec_inv_r by apply Wa. unfold seg_fraction, position. rewrite J1, J2.
    generalize ((s - arc_length a) / (arc_length b - arc_length a)) (translation (ref_from_control a)) (translation (ref_from_control b)). intros. vring.
Qed.

(** Witnesses: right angle without turning, turn in place at the start, in the middle. *)
Definition corner : dcurve := bare_curve [(mid, vzero); (mid, V3 1 0 0); (mid, V3 1 1 0)].
Definition turn_first : dcurve := bare_curve [(mid, vzero); (quarter_z, vzero); (quarter_z, V3 1 0 0)].
Definition turn_last : dcurve := bare_curve [(mid, vzero); (mid, V3 1 0 0); (quarter_z, V3 1 0 0)].
Definition turn_middle : dcurve := bare_curve [(mid, vzero); (mid, V3 1 0 0); (quarter_z, V3 1 0 0); (quarter_z, V3 1 1 0)].
Lemma norm_x : norm (V3 1 0 0) = 1.
Proof. unfold norm, norm2. vsimpl. replace (1 * 1 + 0 * 0 + 0 * 0) with 1 by ring. apply sqrt_1. Qed.
Lemma norm_y : norm (V3 0 1 0) = 1.
Proof. unfold norm, norm2. vsimpl. replace (0 * 0 + 1 * 1 + 0 * 0) with 1 by ring. apply sqrt_1. Qed.
Lemma sub_x : vsub (V3 1 0 0) vzero = V3 1 0 0. Proof. vring. Qed.
Lemma sub_y : vsub (V3 1 1 0) (V3 1 0 0) = V3 0 1 0. Proof. vring. Qed.

Lemma corner_facts : d_built corner /\ exists a b c, d_control_pts corner = [a; b; c] /\
  arc_length a = 0 /\ arc_length b = 1 /\ arc_length c = 2 /\
  ref_from_control a = bare mid vzero /\ ref_from_control b = bare mid (V3 1 0 0) /\ ref_from_control c = bare mid (V3 1 1 0).
Proof.
  destruct (bare_curve_spec [(mid, vzero); (mid, V3 1 0 0); (mid, V3 1 1 0)]) as [B Rf]; [repeat constructor; apply rot_mid|].
  fold corner in B, Rf. split; [exact B|]. pose proof (d_built_inv _ B) as I. cbn [map fst snd] in Rf.
  destruct (d_unfold2 _ _ _ _ I Rf) as (a & b & l & E & A0 & Ra & Rb & Rl). destruct l as [|c [|? ?]]; try discriminate Rl.
  injection Rl as Rc. exists a, b, c. split; [exact E|].
  pose proof (straight_step _ a b I (nb _ [] a b [c] E)) as S1. pose proof (straight_step _ b c I (nb _ [a] b c [] E)) as S2.
  rewrite Ra, Rb in S1. rewrite Rb, Rc in S2. cbn in S1, S2. specialize (S1 eq_refl). specialize (S2 eq_refl).
  change (V3 0 0 0) with vzero in *. rewrite sub_x, norm_x in S1. rewrite sub_y, norm_y in S2. 
  repeat split; try assumption; lra.
Qed.
Lemma turn_first_facts : d_built turn_first /\ exists a b c, d_control_pts turn_first = [a; b; c] /\
  arc_length a = 0 /\ arc_length b = 0 /\ arc_length c = 1.
Proof.
  destruct (bare_curve_spec [(mid, vzero); (quarter_z, vzero); (quarter_z, V3 1 0 0)]) as [B Rf];
    [repeat constructor; first [apply rot_mid|apply quarter_z_rot]|].
  fold turn_first in B, Rf. split; [exact B|]. pose proof (d_built_inv _ B) as I. cbn [map fst snd] in Rf.
  destruct (d_unfold2 _ _ _ _ I Rf) as (a & b & l & E & A0 & Ra & Rb & Rl). destruct l as [|c [|? ?]]; try discriminate Rl.
  injection Rl as Rc. exists a, b, c. split; [exact E|].
  pose proof (turn_step _ a b I (nb _ [] a b [c] E)) as S1. pose proof (straight_step _ b c I (nb _ [a] b c [] E)) as S2.
  rewrite Ra, Rb in S1. rewrite Rb, Rc in S2. cbn in S1, S2. specialize (S1 eq_refl). specialize (S2 eq_refl).
  change (V3 0 0 0) with vzero in *. rewrite sub_x, norm_x in S2. repeat split; lra.
Qed.
Lemma turn_last_facts : d_built turn_last /\ exists a b c, d_control_pts turn_last = [a; b; c] /\
  arc_length a = 0 /\ arc_length b = 1 /\ arc_length c = 1 /\
  ref_from_control a = bare mid vzero /\ ref_from_control b = bare mid (V3 1 0 0) /\ ref_from_control c = bare quarter_z (V3 1 0 0).
Proof.
  destruct (bare_curve_spec [(mid, vzero); (mid, V3 1 0 0); (quarter_z, V3 1 0 0)]) as [B Rf];
    [repeat constructor; first [apply rot_mid|apply quarter_z_rot]|].
  fold turn_last in B, Rf. split; [exact B|]. pose proof (d_built_inv _ B) as I. cbn [map fst snd] in Rf.
  destruct (d_unfold2 _ _ _ _ I Rf) as (a & b & l & E & A0 & Ra & Rb & Rl). destruct l as [|c [|? ?]]; try discriminate Rl.
  injection Rl as Rc. exists a, b, c. split; [exact E|].
  pose proof (straight_step _ a b I (nb _ [] a b [c] E)) as S1. pose proof (turn_step _ b c I (nb _ [a] b c [] E)) as S2.
  rewrite Ra, Rb in S1. rewrite Rb, Rc in S2. cbn in S1, S2. specialize (S1 eq_refl). specialize (S2 eq_refl).
  change (V3 0 0 0) with vzero in *. rewrite sub_x, norm_x in S1. repeat split; try assumption; lra.
Qed.
Lemma turn_middle_facts : d_built turn_middle /\ exists a b c d, d_control_pts turn_middle = [a; b; c; d] /\
  arc_length a = 0 /\ arc_length b = 1 /\ arc_length c = 1 /\ arc_length d = 2 /\
  ref_from_control a = bare mid vzero /\ ref_from_control b = bare mid (V3 1 0 0) /\ ref_from_control c = bare quarter_z (V3 1 0 0) /\
  ref_from_control d = bare quarter_z (V3 1 1 0).
Proof.
  destruct (bare_curve_spec [(mid, vzero); (mid, V3 1 0 0); (quarter_z, V3 1 0 0); (quarter_z, V3 1 1 0)]) as [B Rf];
    [repeat constructor; first [apply rot_mid|apply quarter_z_rot]|].
  fold turn_middle in B, Rf. split; [exact B|]. pose proof (d_built_inv _ B) as I. cbn [map fst snd] in Rf.
  destruct (d_unfold2 _ _ _ _ I Rf) as (a & b & l & E & A0 & Ra & Rb & Rl). destruct l as [|c [|d [|? ?]]]; try discriminate Rl.
  injection Rl as Rc Rd. exists a, b, c, d. split; [exact E|].
  pose proof (straight_step _ a b I (nb _ [] a b [c; d] E)) as S1. pose proof (turn_step _ b c I (nb _ [a] b c [d] E)) as S2.
  pose proof (straight_step _ c d I (nb _ [a; b] c d [] E)) as S3.
  rewrite Ra, Rb in S1. rewrite Rb, Rc in S2. rewrite Rc, Rd in S3. cbn in S1, S2, S3. specialize (S1 eq_refl). specialize (S2 eq_refl). specialize (S3 eq_refl).
  change (V3 0 0 0) with vzero in *. rewrite sub_x, norm_x in S1. rewrite sub_y, norm_y in S3. repeat split; try assumption; lra.
Qed.
Lemma meets_all_refuted : exists k p g, d_built k /\ In p (d_control_pts k) /\ dc_point_at k (arc_length p) = Ok (Some g) /\
  rotation_matrix (rotation g) <> rotation_matrix (rotation (ref_from_control p)).
Proof.
  destruct turn_last_facts as (B & a & b & c & E & A0 & A1 & A2 & Ra & Rb & Rc). pose proof (d_built_inv _ B) as I.
  destruct (straight_point turn_last [] a b [c] 1 I E ltac:(rewrite Ra, Rb; reflexivity) ltac:(lra) ltac:(lra) ltac:(left; reflexivity)) as (g & Eg & Mg & _).
  exists turn_last, c, g. split; [exact B|]. split; [rewrite E; right; right; left; reflexivity|]. rewrite A2. split; [exact Eg|].
  rewrite Mg, Ra, Rc. cbn. intro X. apply (f_equal m00) in X. unfold mid, quarter_z in X. cbn in X. lra.
Qed.
Lemma start_refuted : exists k len, d_built k /\ (2 <= length (d_control_pts k))%nat /\ dc_length k = Ok len /\ 0 < len /\ dc_point_at k 0 = Ok None.
Proof.
  destruct turn_first_facts as (B & a & b & c & E & A0 & A1 & A2). pose proof (d_built_inv _ B) as I.
  exists turn_first, 1. split; [exact B|]. rewrite E. split; [cbn; lia|].
  split; [rewrite <- A2; apply (proj2 (d_length_spec turn_first) [a; b] c E)|]. split; [lra|].
  apply (d_nan_iff _ _ I). split; [reflexivity|]. exists a, b, [c]. auto.
Qed.
Lemma smooth_refuted : exists k len s, d_built k /\ dc_length k = Ok len /\ 0 < s < len /\
  (forall a b, d_neighbours k a b -> arc_length a < arc_length b) /\
  forall P, (forall t g, dc_point_at k t = Ok (Some g) -> P t = position g) -> ~ exists v, dV P s v.
Proof.
  destruct corner_facts as (B & a & b & c & E & A0 & A1 & A2 & Ra & Rb & Rc). pose proof (d_built_inv _ B) as I.
  exists corner, 2, 1. split; [exact B|]. split; [rewrite <- A2; apply (proj2 (d_length_spec corner) [a; b] c E)|]. split; [lra|]. split.
  { intros x y (l & r & X). rewrite E in X. destruct l as [|x1 l]; [injection X as <- <- _; lra|].
    injection X as _ X. destruct l as [|x2 l]; [injection X as <- <- _; lra|]. injection X as _ X. destruct l as [|x3 l]; discriminate X || destruct l; discriminate X. }
  intros P HP (v & Dx & Dy & _).
  assert (L : forall t, 0 <= t <= 1 -> P t = V3 t 0 0).
  { intros t Ht. destruct (straight_point corner [] a b [c] t I E ltac:(rewrite Ra, Rb; reflexivity) ltac:(lra) ltac:(lra) ltac:(left; reflexivity)) as (g & Eg & _ & Pg).
    rewrite (HP t g Eg), Pg, Ra, Rb, A0, A1. unfold bare. cbn [translation]. unfold vzero. vsimpl. f_equal; field. }
  assert (U : forall t, 1 < t <= 2 -> P t = V3 1 (t - 1) 0).
  { intros t Ht. destruct (straight_point corner [a] b c [] t I E ltac:(rewrite Rb, Rc; reflexivity) ltac:(lra) ltac:(lra) ltac:(right; lra)) as (g & Eg & _ & Pg).
    rewrite (HP t g Eg), Pg, Rb, Rc, A1, A2. unfold bare. cbn [translation]. vsimpl. f_equal; field. }
  assert (P1 : P 1 = V3 1 0 0) by (apply L; lra).
  destruct (Dx (1/2) ltac:(lra)) as [d Hd]. set (h := Rmin (d / 2) (1 / 2)).
  pose proof (cond_pos d) as Pd. assert (Hh : 0 < h /\ h < d /\ h <= 1 / 2).
  { unfold h. pose proof (Rmin_l (d / 2) (1 / 2)). pose proof (Rmin_r (d / 2) (1 / 2)). split; [apply Rmin_pos; lra|lra]. }
  pose proof (Hd h ltac:(lra) ltac:(rewrite Rabs_right; lra)) as X1. pose proof (Hd (- h) ltac:(lra) ltac:(rewrite Rabs_left; lra)) as X2.
  rewrite P1, (U (1 + h)) in X1 by lra. rewrite P1, (L (1 + - h)) in X2 by lra. cbn [vx] in X1, X2.
  replace ((1 - 1) / h - vx v) with (- vx v) in X1 by (field; lra). replace ((1 + - h - 1) / - h - vx v) with (1 - vx v) in X2 by (field; lra).
  apply Rabs_def2 in X1. apply Rabs_def2 in X2. lra.
Qed.
Lemma orientation_refuted : exists k len s, d_built k /\ dc_length k = Ok len /\ 0 < s < len /\
  (forall t, 0 <= t <= len -> exists g, dc_point_at k t = Ok (Some g)) /\
  forall Q, (forall t g, dc_point_at k t = Ok (Some g) -> Q t = rotation_matrix (rotation g)) -> ~ continuity_pt (fun t => m00 (Q t)) s.
Proof.
  destruct turn_middle_facts as (B & a & b & c & d & E & A0 & A1 & A2 & A3 & Ra & Rb & Rc & Rd). pose proof (d_built_inv _ B) as I.
  assert (L : forall t, 0 <= t <= 1 -> exists g, dc_point_at turn_middle t = Ok (Some g) /\ rotation_matrix (rotation g) = mid).
  { intros t Ht. destruct (straight_point turn_middle [] a b [c; d] t I E ltac:(rewrite Ra, Rb; reflexivity) ltac:(lra) ltac:(lra) ltac:(left; reflexivity)) as (g & Eg & Mg & _).
    exists g. split; [exact Eg|]. rewrite Mg, Ra. reflexivity. }
  assert (U : forall t, 1 < t <= 2 -> exists g, dc_point_at turn_middle t = Ok (Some g) /\ rotation_matrix (rotation g) = quarter_z).
  { intros t Ht. destruct (straight_point turn_middle [a; b] c d [] t I E ltac:(rewrite Rc, Rd; reflexivity) ltac:(lra) ltac:(lra) ltac:(right; lra)) as (g & Eg & Mg & _).
    exists g. split; [exact Eg|]. rewrite Mg, Rc. reflexivity. }
  exists turn_middle, 2, 1. split; [exact B|]. split; [rewrite <- A3; apply (proj2 (d_length_spec turn_middle) [a; b; c] d E)|]. split; [lra|]. split.
  { intros t Ht. destruct (Rle_lt_dec t 1) as [T|T]; [destruct (L t ltac:(lra)) as (g & Eg & _)|destruct (U t ltac:(lra)) as (g & Eg & _)]; exists g; exact Eg. }
  intros Q HQ C. destruct (C (1/2) ltac:(lra)) as (e & Pe & He). set (h := Rmin (e / 2) (1 / 2)).
  assert (Hh : 0 < h /\ h < e /\ h <= 1 / 2).
  { unfold h. pose proof (Rmin_l (e / 2) (1 / 2)). pose proof (Rmin_r (e / 2) (1 / 2)). split; [apply Rmin_pos; lra|lra]. }
  destruct (L 1 ltac:(lra)) as (g1 & E1 & M1). destruct (U (1 + h) ltac:(lra)) as (g2 & E2 & M2).
  specialize (He (1 + h)). cbn in He. unfold R_dist, D_x, no_cond in He. rewrite (HQ _ _ E1), (HQ _ _ E2), M1, M2 in He.
  unfold mid, quarter_z in He. cbn in He. replace (1 + h - 1) with h in He by ring. rewrite (Rabs_right h) in He by lra.
  specialize (He ltac:(split; [split; [exact Logic.I|lra]|lra])). rewrite Rabs_left in He by lra. lra.
Qed.

(** ** Statements of the property files *)
Lemma d_build_history gs : Forall se3_wf gs -> let k := after_dappends gs dc_empty in
  d_takes gs (map ref_from_control (d_control_pts k)) /\
  (forall p l, d_control_pts k = p :: l -> arc_length p = 0 /\
     (framed (ref_from_control p) -> forall q, In q l -> same_frames se3_ops (ref_from_control q) (ref_from_control p))) /\
  StronglySorted (fun a b => arc_length a <= arc_length b) (d_control_pts k) /\
  Forall2 (fun ab s => d_joins (fst ab) (snd ab) s) (consecutive (d_control_pts k)) (d_segments k) /\
  (forall l b, d_control_pts k = l ++ [b] -> dc_length k = Ok (arc_length b)).
Proof.
  intros F k. destruct (d_history gs F) as [I T]. fold k in I, T. split; [exact T|]. pose proof I as (_ & I2 & I3).
  split; [exact I2|]. split; [apply d_sorted, I|]. split; [exact I3|]. apply d_length_spec.
Qed.
Lemma d_geodesic k l1 a b l2 m s : d_built k -> d_control_pts k = l1 ++ a :: b :: l2 ->
  relative (ref_from_control a) (ref_from_control b) m ->
  arc_length a < arc_length b -> arc_length a <= s <= arc_length b -> (l1 = [] \/ arc_length a < s) ->
  exists g, dc_point_at k s = Ok (Some g) /\ se3_wf g /\
    (same_frames se3_ops (ref_from_control a) (ref_from_control b) -> same_frames se3_ops g (ref_from_control a)) /\
    let f := (s - arc_length a) / (arc_length b - arc_length a) in
    let w := trot (se3_log m) in let v := ttrans (se3_log m) in
    rotation_matrix (rotation g) = mmul (rotation_matrix (rotation (ref_from_control a))) (mexp (vscale f w)) /\
    norm (vsub (position g) (se3_act (ref_from_control a) (screw w v f))) <= / 10^23 * (s - arc_length a) /\
    (plain_angle (f * f * norm2 w) -> position g = se3_act (ref_from_control a) (screw w v f)).
Proof.
  intros B E Rl Hab Hs S. pose proof (d_built_inv k B) as I. pose proof (nb k l1 a b l2 E) as N.
  destruct (d_neighbours_facts k a b I N) as (Wa & Wb & sg & _ & J).
  destruct (d_owner k l1 a b l2 m s I E Rl Hab Hs S) as (q & g & Eq & Eg & Ep). exists g. split; [exact Ep|]. clear Ep.
  set (f := (s - arc_length a) / (arc_length b - arc_length a)) in *. cbv zeta.
  destruct (d_eval _ _ m f Wa Wb Rl) as (q' & g' & Eq' & Eg' & Wg & Sf & Rq & Mg & Tg & Bq & Xq).
  rewrite Eq in Eq'. injection Eq' as <-. rewrite Eg in Eg'. injection Eg' as <-.
  split; [exact Wg|]. split; [exact Sf|]. split; [unfold se3_mat in Mg; rewrite Mg, Rq; reflexivity|].
  assert (A : forall x, se3_act (ref_from_control a) x = vadd (mvec (se3_mat (ref_from_control a)) x) (translation (ref_from_control a))) by reflexivity.
  unfold position. rewrite A, Tg. split.
  - replace (vsub _ _) with (mvec (se3_mat (ref_from_control a)) (vsub (translation q) (screw (trot (se3_log m)) (ttrans (se3_log m)) f))).
    2:{ rewrite mvec_sub. generalize (mvec (se3_mat (ref_from_control a)) (translation q))
          (mvec (se3_mat (ref_from_control a)) (screw (trot (se3_log m)) (ttrans (se3_log m)) f)) (translation (ref_from_control a)). intros. vring. }
    rewrite rot_norm by apply Wa. eapply Rle_trans; [exact Bq|].
    assert (Lm : se3_arc_length m = arc_length b - arc_length a).
    { destruct J as (_ & _ & _ & _ & Rl' & J6). rewrite (relative_unique _ _ _ _ Rl Rl'). lra. }
    assert (F0 : 0 <= f) by (unfold f; apply Rmult_le_pos; [lra|apply Rlt_le, Rinv_0_lt_compat; lra]).
    rewrite Rabs_right, Rmult_assoc, Lm by lra. right. f_equal. unfold f. field. lra.
  - intro P. rewrite (Xq P). reflexivity.
Qed.
Definition in_frame (i f : N) : se3 := SE3 (unframed mid) vzero (repeat i 16) (repeat f 16).
Lemma d_frames_refuted : exists gs k, Forall se3_wf gs /\ dc_make gs = Ok k /\
  exists p q, In p (d_control_pts k) /\ In q (d_control_pts k) /\ framed (ref_from_control p) /\ framed (ref_from_control q) /\
    ~ same_frames se3_ops (ref_from_control p) (ref_from_control q).
Proof.
  set (gs := [bare mid vzero; in_frame 1 2; in_frame 1 3]).
  assert (Wf : forall i f, i <> 0%N -> f <> 0%N -> se3_wf (in_frame i f)).
  { intros i f Hi Hf. split; [apply rot_mid|]. split; [|split; reflexivity]. unfold frames_ok, in_frame, null_frame. cbn. split; intro E; injection E; intros; contradiction. }
  assert (W : Forall se3_wf gs).
  { unfold gs. constructor; [apply bare_wf, rot_mid|]. repeat (constructor; [apply Wf; discriminate|]). constructor. }
  assert (Fr : forall i f, i <> 0%N -> framed (in_frame i f)).
  { intros i f Hi E. unfold in_frame, null_frame in E. cbn in E. injection E as E. contradiction. }
  assert (T : d_takes gs gs).
  { apply d_takes_all. intros l g r E. destruct l as [|x [|y [|z l]]]; unfold gs in E; cbn in E.
    - left. reflexivity.
    - injection E as <- <- _. right. exists (bare mid vzero), [], [], (bare mid vzero). split; [reflexivity|]. split; [reflexivity|]. split; intro X; elim (bare_unframed _ _ X).
    - injection E as <- <- <- _. right. exists (bare mid vzero), [in_frame 1 2], [bare mid vzero], (in_frame 1 2). split; [reflexivity|]. split; [reflexivity|]. split; [intro X; elim (bare_unframed _ _ X)|reflexivity].
    - injection E as _ _ _ E. destruct l; discriminate E. }
  destruct (proj1 (d_make_spec gs W) T) as [M Rf]. exists gs, (after_dappends gs dc_empty). split; [exact W|]. split; [exact M|].
  unfold refs in Rf. destruct (d_control_pts (after_dappends gs dc_empty)) as [|a [|p [|q [|? ?]]]]; try discriminate Rf.
  injection Rf as _ Ep Eq. exists p, q. split; [right; left; reflexivity|]. split; [right; right; left; reflexivity|]. rewrite Ep, Eq.
  split; [apply Fr; discriminate|]. split; [apply Fr; discriminate|]. intros [_ X]. discriminate X.
Qed.
