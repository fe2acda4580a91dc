(** Distance curves on one screw motion, seen from elsewhere, or carrying a sensor. *)
From Verif Require Import Cpp UuidModel RotSpec GeomModel DerivSpec DerivProofs FrameSpec ScrewSpec LieSpec
  FrameProofs RotProofs CoeffProofs LieProofs DiffProofs JetModel JetSpec JetLaws JetProofs CurveModel CurveSpec CurveProofs
  TCurveProofs DCurveSpec DCurveProofs DCurveCases SymSpec SymProofs SymProofs2 DSymSpec.
Local Open Scope R_scope.

Lemma mmul_cancel r a b : is_rotation r -> mmul r a = mmul r b -> a = b.
Proof.
  intros H E. apply (f_equal (mmul (mtrans r))) in E. rewrite !mmul_assoc, rot_mtrans_l, !mmul_1_l in E by exact H. exact E.
Qed.
Lemma mvec_cancel r a b : is_rotation r -> mvec r a = mvec r b -> a = b.
Proof. intros H E. apply (f_equal (mvec (mtrans r))) in E. rewrite !mvec_inv_l in E by exact H. exact E. Qed.
Lemma vadd_cancel a b c : vadd a c = vadd b c -> a = b.
Proof. destruct a, b, c. unfold vadd. cbn. intro E. injection E. intros. f_equal; lra. Qed.

(** ** The logarithm of a screw step *)
Lemma log_of_screw m w v : norm w < PI -> plain_angle (norm2 w) -> se3_mat m = mexp w -> translation m = screw w v 1 -> se3_log m = T6 w v.
Proof.
  intros N P M T. set (e := SE3 (unframed (mexp w)) (Vmap w v) null_frame null_frame).
  assert (V : Vmap w v = screw w v 1).
  { rewrite <- (vscale_1 w) at 1. rewrite <- (vscale_1 v) at 1. apply Vmap_screw. rewrite vscale_1. exact P. }
  assert (E : se3_log m = se3_log e).
  { rewrite !se3_log_eq. unfold so3_log. unfold se3_mat in M. rewrite M, T. unfold e. cbn [rotation unframed rotation_matrix translation]. rewrite V. reflexivity. }
  rewrite E. apply (proj2 (proj2 (se3_log_exp (T6 w v) None e N eq_refl)) P).
Qed.
Lemma relative_on_screw r p w v x y a b m : is_rotation r -> se3_wf a -> se3_wf b -> relative a b m ->
  on_screw r p w v x a -> on_screw r p w v y b ->
  se3_mat m = mexp (vscale (y - x) w) /\ translation m = screw w v (y - x).
Proof.
  intros Hr Wa Wb Rl [Ra Ta] [Rb Tb]. destruct (relative_spec a b m Wa Wb Rl) as (_ & _ & _ & Mb & Eb).
  unfold position in *. fold (se3_mat a) in Ra. fold (se3_mat b) in Rb. pose proof (proj1 Wa) as Ha. fold (se3_mat a) in Ha.
  replace y with (x + (y - x)) in Rb, Tb by ring. split.
  - apply (mmul_cancel (se3_mat a)); [exact Ha|]. rewrite <- Mb, Rb, <- mexp_add, mmul_assoc, <- Ra. reflexivity.
  - apply (mvec_cancel (se3_mat a)); [exact Ha|]. rewrite Eb, Ta, screw_add, mvec_add, <- mvec_mmul, <- Ra in Tb.
    apply (vadd_cancel _ _ (vadd (mvec r (screw w v x)) p)). rewrite Tb.
    generalize (mvec (se3_mat a) (screw w v (y - x))) (mvec r (screw w v x)). intros. vring.
Qed.
Lemma norm2_norm w : norm2 w = norm w * norm w.
Proof. symmetry. apply norm_sqr. Qed.
Lemma log_on_screw r p w v x y a b m : is_rotation r -> se3_wf a -> se3_wf b -> relative a b m ->
  on_screw r p w v x a -> on_screw r p w v y b -> good_step w x y ->
  se3_log m = T6 (vscale (y - x) w) (vscale (y - x) v) /\ se3_arc_length m = (y - x) * norm v.
Proof.
  intros Hr Wa Wb Rl Oa Ob (L & S & P). destruct (relative_on_screw r p w v x y a b m Hr Wa Wb Rl Oa Ob) as [M T].
  assert (E : se3_log m = T6 (vscale (y - x) w) (vscale (y - x) v)).
  { apply log_of_screw.
    - rewrite norm_scale, Rabs_right by lra. exact S.
    - rewrite norm2_scale. exact P.
    - exact M.
    - rewrite screw_scale, Rmult_1_r. exact T. }
  split; [exact E|]. unfold se3_arc_length. rewrite E. cbn [ttrans]. rewrite norm_scale, Rabs_right by lra. reflexivity.
Qed.

(** ** One segment *)
Lemma steady_segment k l1 a b l2 r p w v x y z : d_built k -> d_control_pts k = l1 ++ a :: b :: l2 -> is_rotation r -> 0 < norm v ->
  on_screw r p w v x (ref_from_control a) -> on_screw r p w v y (ref_from_control b) -> good_step w x y ->
  x <= z <= y -> (l1 = [] \/ x < z) ->
  arc_length b = arc_length a + (y - x) * norm v /\
  exists g, dc_point_at k (arc_length a + (z - x) * norm v) = Ok (Some g) /\ se3_wf g /\
    (same_frames se3_ops (ref_from_control a) (ref_from_control b) -> same_frames se3_ops g (ref_from_control a)) /\
    near_screw (/ 10^23 * ((z - x) * norm v)) r p w v z g /\
    (plain_angle ((z - x) * (z - x) * norm2 w) -> on_screw r p w v z g).
Proof.
  intros B E Hr Nv Oa Ob G Hz Hl. pose proof (d_built_inv k B) as I.
  assert (Nb : d_neighbours k a b) by (exists l1, l2; exact E).
  destruct (d_neighbours_facts k a b I Nb) as (Wa & Wb & sg & _ & (_ & _ & _ & _ & Rl & La)).
  destruct (log_on_screw r p w v x y _ _ _ Hr Wa Wb Rl Oa Ob G) as [Lg Ar]. rewrite Ar in La. split; [exact La|].
  destruct G as (Lxy & _ & _). assert (Pos : 0 < (y - x) * norm v) by (apply Rmult_lt_0_compat; lra).
  destruct (d_geodesic k l1 a b l2 (orig_from_dest sg) (arc_length a + (z - x) * norm v) B E Rl) as (g & Eg & Wg & Sf & Q).
  - lra.
  - rewrite La. assert (0 <= (z - x) * norm v) by (apply Rmult_le_pos; lra).
    assert ((z - x) * norm v <= (y - x) * norm v) by (apply Rmult_le_compat_r; lra). lra.
  - destruct Hl as [Hl|Hl]; [left; exact Hl|right]. assert (0 < (z - x) * norm v) by (apply Rmult_lt_0_compat; lra). lra.
  - cbv zeta in Q. exists g. split; [exact Eg|]. split; [exact Wg|]. split; [exact Sf|].
    replace ((arc_length a + (z - x) * norm v - arc_length a) / (arc_length b - arc_length a)) with ((z - x) / (y - x)) in Q
      by (rewrite La; field; lra).
    rewrite Lg in Q. cbn [trot ttrans] in Q. rewrite vscale_vscale, screw_scale, norm2_scale in Q.
    replace ((y - x) * ((z - x) / (y - x))) with (z - x) in Q by (field; lra).
    replace ((z - x) / (y - x) * (y - x)) with (z - x) in Q by (field; lra).
    replace ((z - x) / (y - x) * ((z - x) / (y - x)) * ((y - x) * (y - x) * norm2 w)) with ((z - x) * (z - x) * norm2 w) in Q by (field; lra).
    replace (arc_length a + (z - x) * norm v - arc_length a) with ((z - x) * norm v) in Q by ring.
    destruct Q as (Qr & Qt & Qx). destruct Oa as [Ra Ta].
    assert (Rg : rotation_matrix (rotation g) = mmul r (mexp (vscale z w))).
    { rewrite Qr, Ra, <- mmul_assoc, mexp_add. f_equal. f_equal. f_equal. ring. }
    assert (Tg : se3_act (ref_from_control a) (screw w v (z - x)) = vadd (mvec r (screw w v z)) p).
    { unfold se3_act, so3_act. unfold position in Ta. rewrite Ta, Ra, mvec_mmul. replace z with (x + (z - x)) at 2 by ring. rewrite screw_add, mvec_add.
      generalize (mvec r (mvec (mexp (vscale x w)) (screw w v (z - x)))) (mvec r (screw w v x)). intros. vring. }
    rewrite Tg in Qt, Qx. split; [split; [exact Rg|exact Qt]|]. intro P. split; [exact Rg|exact (Qx P)].
Qed.

(** ** The whole curve *)
Lemma in_consecutive {A} (l1 : list A) x y l2 : In (x, y) (consecutive (l1 ++ x :: y :: l2)).
Proof.
  induction l1 as [|z l1 IH]; [left; reflexivity|]. cbn [app]. destruct (l1 ++ x :: y :: l2) as [|u m] eqn:Q; [destruct l1; discriminate Q|].
  right. exact IH.
Qed.
Lemma steady_arcs r p w v (Hr : is_rotation r) : forall xs pts, Forall2 (fun x c => on_screw r p w v x (ref_from_control c)) xs pts ->
  forall segs, Forall2 (fun ab s => d_joins (fst ab) (snd ab) s) (consecutive pts) segs ->
  (forall q, In q pts -> se3_wf (ref_from_control q)) ->
  (forall x y, In (x, y) (consecutive xs) -> good_step w x y) ->
  (forall x c xs' pts', xs = x :: xs' -> pts = c :: pts' -> arc_length c = x * norm v) ->
  Forall2 (fun x c => arc_length c = x * norm v) xs pts.
Proof.
  intros xs pts F. induction F as [|x a xs pts Oa F IH]; intros segs J W G H; [constructor|].
  constructor; [apply (H x a xs pts); reflexivity|]. destruct F as [|y b xs pts Ob F]; [constructor|].
  cbn in J. inversion J as [|ab sg cs ss J1 J2]; subst. cbn [fst snd] in J1. apply (IH ss).
  - exact J2.
  - intros q Hq. apply W. right. exact Hq.
  - intros u u' Hu. apply G. right. exact Hu.
  - intros x' c xs' pts' E1 E2. injection E1 as <- <-. injection E2 as <- <-. destruct J1 as (_ & _ & _ & _ & Rl & La).
    rewrite La, (H x a (y :: xs) (b :: pts) eq_refl eq_refl).
    rewrite (proj2 (log_on_screw r p w v x y _ _ _ Hr (W a (or_introl eq_refl)) (W b (or_intror (or_introl eq_refl))) Rl Oa Ob (G x y (or_introl eq_refl)))). ring.
Qed.
Lemma Forall2_and {A B} (P Q : A -> B -> Prop) l l' : Forall2 P l l' -> Forall2 Q l l' -> Forall2 (fun a b => P a b /\ Q a b) l l'.
Proof. intro F. induction F; intro G; inversion G; subst; constructor; auto. Qed.
Lemma Forall2_flip' {A B} (P : A -> B -> Prop) l l' : Forall2 P l l' -> Forall2 (fun b a => P a b) l' l.
Proof. induction 1; constructor; auto. Qed.
Lemma Forall2_map_r {A B C} (P : A -> C -> Prop) (f : B -> C) l l' : Forall2 P l (map f l') -> Forall2 (fun a b => P a (f b)) l l'.
Proof. revert l. induction l' as [|b l' IH]; intros l F; cbn in F; inversion F; subst; constructor; auto. Qed.
Lemma Forall2_last {A B} (P : A -> B -> Prop) l l' : Forall2 P l l' -> forall m z d, l' = m ++ [z] -> P (last l d) z.
Proof.
  intros F m z d ->. apply Forall2_app_inv_r in F as (l1 & l2 & _ & F2 & ->). inversion F2 as [|x ? l3 ? Pz F3]; subst. inversion F3; subst.
  rewrite last_last. exact Pz.
Qed.
Lemma steady_curve k r p w v xs : d_built k -> is_rotation r -> 0 < norm v -> hd 0 xs = 0 ->
  Forall2 (on_screw r p w v) xs (map ref_from_control (d_control_pts k)) ->
  (forall x y, In (x, y) (consecutive xs) -> good_step w x y) ->
  map arc_length (d_control_pts k) = map (fun x => x * norm v) xs /\ dc_length k = Ok (last xs 0 * norm v) /\
  forall z, (2 <= length xs)%nat -> 0 <= z <= last xs 0 -> exists g, dc_point_at k (z * norm v) = Ok (Some g) /\ se3_wf g /\
    near_screw (/ 10^23 * (z * norm v)) r p w v z g /\
    ((forall x, In x xs -> plain_angle ((z - x) * (z - x) * norm2 w)) -> on_screw r p w v z g).
Proof.
  intros B Hr Nv H0 F G. pose proof (d_built_inv k B) as I. apply Forall2_map_r in F.
  assert (A : Forall2 (fun x c => arc_length c = x * norm v) xs (d_control_pts k)).
  { destruct I as (I1 & I2 & I3). apply (steady_arcs r p w v Hr xs _ F (d_segments k) I3 I1 G).
    intros x c xs' pts' -> Ep. cbn in H0. rewrite (proj1 (I2 c pts' Ep)), H0. ring. }
  split.
  { clear - A. induction A as [|x c xs pts E _ IH]; [reflexivity|]. cbn. rewrite E, IH. reflexivity. }
  assert (Ln : length xs = length (d_control_pts k)) by (clear - A; induction A; cbn; congruence).
  split.
  { destruct (list_cases (d_control_pts k)) as [E|(l & z & E)].
    - rewrite E in A. inversion A; subst. rewrite (proj1 (d_length_spec k) E). cbn. f_equal. ring.
    - rewrite (proj2 (d_length_spec k) l z E). f_equal. exact (Forall2_last _ _ _ A l z 0 E). }
  intros z L2 Hz. rewrite Ln in L2. destruct (d_two k L2) as (l & c & Ek & N).
  pose proof (Forall2_last _ _ _ A l c 0 Ek) as Lc.
  assert (Hs : 0 <= z * norm v <= arc_length c).
  { rewrite Lc. split; [apply Rmult_le_pos; lra|apply Rmult_le_compat_r; lra]. }
  destruct (proj2 (d_query k (z * norm v) I) l c Ek N Hs) as (l1 & a & b & l2 & m & E' & S & Ht & Rl & La & _).
  pose proof (Forall2_flip' _ _ _ (Forall2_and _ _ _ _ F A)) as FA. rewrite E' in FA.
  destruct (Forall2_split _ l1 a b l2 xs FA) as (m1 & x & y & m2 & Ex & [Oa Aa] & [Ob Ab] & Hm).
  assert (Gs : good_step w x y) by (apply G; rewrite Ex; apply in_consecutive).
  assert (Zx : x <= z <= y).
  { rewrite Aa, Ab in Ht. split; apply (Rmult_le_reg_r (norm v)); lra. }
  assert (Zs : l1 = [] \/ x < z).
  { destruct S as [S|S]; [left; exact S|right]. rewrite Aa in S. apply (Rmult_lt_reg_r (norm v)); lra. }
  destruct (steady_segment k l1 a b l2 r p w v x y z B E' Hr Nv Oa Ob Gs Zx Zs) as (_ & g & Eg & Wg & _ & Ng & Xg).
  rewrite Aa in Eg. replace (x * norm v + (z - x) * norm v) with (z * norm v) in Eg by ring.
  exists g. split; [exact Eg|]. split; [exact Wg|]. split.
  - destruct Ng as [N1 N2]. split; [exact N1|]. eapply Rle_trans; [exact N2|]. apply Rmult_le_compat_l; [lra|].
    apply Rmult_le_compat_r; [lra|]. assert (X0 : 0 <= x).
    { destruct I as (I1 & I2 & I3). pose proof (d_sorted k (conj I1 (conj I2 I3))) as Sr. rewrite E' in Sr, I2.
      assert (0 <= arc_length a).
      { destruct l1 as [|u l1]; [rewrite (proj1 (I2 a (b :: l2) eq_refl)); lra|].
        rewrite <- (proj1 (I2 u _ eq_refl)). cbn in Sr. inversion Sr as [|? ? _ Fu]; subst. rewrite Forall_forall in Fu.
        apply Fu. apply in_or_app. right. left. reflexivity. }
      rewrite Aa in H. destruct (Rlt_le_dec x 0) as [Q|Q]; [|exact Q]. assert (x * norm v < 0) by nra. lra. }
    lra.
  - intro P. apply Xg. apply P. rewrite Ex. apply in_or_app. right. left. reflexivity.
Qed.
