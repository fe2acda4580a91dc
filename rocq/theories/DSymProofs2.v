(** Distance curves seen from another reference frame, and of a mounted sensor. *)
From Verif Require Import Cpp UuidModel RotSpec GeomModel DerivSpec DerivProofs FrameSpec ScrewSpec LieSpec
  FrameProofs RotProofs CoeffProofs LieProofs DiffProofs JetModel JetSpec JetLaws JetProofs CurveModel CurveSpec CurveProofs
  TCurveProofs DCurveSpec DCurveProofs DCurveCases SymSpec SymProofs SymProofs2 DSymSpec DSymProofs.
Local Open Scope R_scope.

Lemma frames_same (a b : se3) : same_frames se3_ops a b <-> se3_into a = se3_into b /\ se3_from a = se3_from b.
Proof. reflexivity. Qed.
Lemma null_iff g : se3_wf g -> (se3_into g = null_frame <-> se3_from g = null_frame).
Proof. intros [_ [H _]]. exact H. Qed.

(** ** Which poses are taken *)
Section Transfer.
Variable P : se3 -> se3 -> Prop.
Hypothesis Pframed : forall x x', P x x' -> (framed x <-> framed x').
Hypothesis Psame : forall x x' y y', P x x' -> P y y' -> (same_frames se3_ops x y <-> same_frames se3_ops x' y').
Hypothesis Pinto : forall x x' y y', P x x' -> P y y' -> (se3_into x = se3_into y <-> se3_into x' = se3_into y').
Lemma acceptable_transfer t t' g g' : Forall2 P t t' -> P g g' -> (d_acceptable t g <-> d_acceptable t' g').
Proof.
  intros F Pg. destruct (list_cases t) as [->|(l & b & E)].
  { inversion F; subst. split; intros _; left; reflexivity. }
  subst t. pose proof F as Fb. apply Forall2_app_inv_l in Fb as (m & n & Fm & Fn & ->).
  inversion Fn as [|? b' ? ? Pb X]; subst. inversion X; subst. clear Fn X.
  assert (H : exists f f' r r', l ++ [b] = f :: r /\ m ++ [b'] = f' :: r' /\ P f f').
  { destruct Fm as [|f f' r r' Pf Fm]; cbn; eauto 8. }
  clear Fm. destruct H as (f & f' & r & r' & E1 & E2 & Pf).
  assert (A : forall l b f r g, l ++ [b] = f :: r -> (d_acceptable (l ++ [b]) g <->
    (framed f -> same_frames se3_ops g f) /\ (framed b -> framed g -> se3_into b = se3_into g))).
  { clear. intros l b f r g E. split.
    - intros [X|(f1 & m1 & l1 & b1 & X1 & X2 & X3 & X4)]; [destruct l; discriminate X|].
      rewrite E in X1. injection X1 as <- _. apply app_last_inj in X2 as [_ <-]. auto.
    - intros [X3 X4]. right. exists f, r, l, b. auto. }
  rewrite (A l b f r g E1), (A m b' f' r' g' E2), (Pframed f f' Pf), (Pframed b b' Pb), (Pframed g g' Pg), (Psame g g' f f' Pg Pf), (Pinto b b' g g' Pb Pg).
  reflexivity.
Qed.
Lemma history_transfer gs gs' : Forall2 P gs gs' -> Forall se3_wf gs -> Forall se3_wf gs' ->
  Forall2 P (refs (after_dappends gs dc_empty)) (refs (after_dappends gs' dc_empty)).
Proof.
  revert gs'. induction gs as [|g gs IH] using rev_ind; intros gs' F W W'.
  - inversion F; subst. constructor.
  - apply Forall2_app_inv_l in F as (m & n & Fm & Fn & ->). inversion Fn as [|? g' ? ? Pg X]; subst. inversion X; subst. clear Fn X.
    apply Forall_app in W as [W Wg]. apply Forall_app in W' as [W' Wg']. inversion Wg; subst. inversion Wg'; subst.
    specialize (IH m Fm W W'). rewrite !d_after_snoc.
    pose proof (acceptable_transfer _ _ g g' IH Pg) as A.
    destruct (d_append_cases g _ H1 (proj1 (d_history gs W))) as [(B & _ & E & _)|(B & E)];
    destruct (d_append_cases g' _ H3 (proj1 (d_history m W'))) as [(B' & _ & E' & _)|(B' & E')]; try tauto.
    + rewrite E, E'. apply Forall2_app; [exact IH|]. constructor; [exact Pg|constructor].
    + rewrite E, E'. exact IH.
Qed.
End Transfer.

Lemma mul_shape a b r : se3_wf a -> se3_wf b -> se3_from a = se3_into b -> se3_mul a b = Ok r ->
  se3_wf r /\ se3_into r = se3_into a /\ se3_from r = se3_from b /\ se3_mat r = mmul (se3_mat a) (se3_mat b) /\
  translation r = vadd (mvec (se3_mat a) (translation b)) (translation a).
Proof.
  intros Wa Wb E M. split; [exact (proj1 (se3_mul_closed _ _ _ Wa Wb M))|].
  rewrite se3_mul_match in M by (try apply Wa; try apply Wb; exact E). apply Ok_inj in M. subst r.
  repeat split; reflexivity.
Qed.
Lemma se3_ext a b : se3_wf a -> se3_wf b -> se3_mat a = se3_mat b -> translation a = translation b ->
  se3_into a = se3_into b -> se3_from a = se3_from b -> a = b.
Proof.
  intros Wa Wb M T I F. pose proof (se3_rotation_unframed a (proj2 Wa)) as Ra. pose proof (se3_rotation_unframed b (proj2 Wb)) as Rb.
  fold (se3_mat a) in Ra. fold (se3_mat b) in Rb. destruct a as [ra ta ia fa], b as [rb tb ib fb]. cbn in T, I, F, Ra, Rb. subst. rewrite Ra, Rb, M. reflexivity.
Qed.
(** The relative pose of poses in the same reference frame. *)
Lemma relative_matched a b : se3_wf a -> se3_wf b -> se3_into a = se3_into b ->
  exists m, relative a b m /\ se3_wf m /\ se3_into m = se3_from a /\ se3_from m = se3_from b /\
    se3_mat m = mmul (mtrans (se3_mat a)) (se3_mat b) /\
    translation m = mvec (mtrans (se3_mat a)) (vsub (translation b) (translation a)).
Proof.
  intros Wa Wb E. destruct (se3_inverse_laws a Wa) as (ai & Ei & Wi & _).
  destruct (inverse_framed a ai Wa Ei) as (_ & Ii & Fi & _ & Mi & Ti).
  pose proof (se3_mul_match ai b (proj2 Wi) (proj2 Wb) (eq_trans Fi E)) as M.
  destruct (mul_shape ai b _ Wi Wb (eq_trans Fi E) M) as (Wm & Im & Fm & Mm & Tm).
  eexists. split; [exists ai; split; [exact Ei|exact M]|]. split; [exact Wm|].
  split; [exact (eq_trans Im Ii)|]. split; [exact Fm|]. rewrite Mm, Mi, Tm, Mi, Ti.
  split; [reflexivity|]. rewrite <- mvec_add. f_equal.
Qed.

Lemma fdiv_cases a b : (b = 0 /\ fdiv a b = None) \/ (b <> 0 /\ fdiv a b = Some (a / b)).
Proof. unfold fdiv. destruct (Req_EM_T b 0); auto. Qed.

(** ** Another reference frame *)
Section Reference.
Variable h : se3.
Hypothesis Wh : se3_wf h.
Definition seen (x x' : se3) : Prop := se3_wf x /\ se3_from h = se3_into x /\ se3_mul h x = Ok x'.
Lemma seen_shape x x' : seen x x' -> se3_wf x' /\ se3_into x' = se3_into h /\ se3_from x' = se3_from x /\
  se3_mat x' = mmul (se3_mat h) (se3_mat x) /\ translation x' = vadd (mvec (se3_mat h) (translation x)) (translation h).
Proof. intros (W & E & M). exact (mul_shape h x x' Wh W E M). Qed.
Lemma seen_framed x x' : seen x x' -> (framed x <-> framed x').
Proof.
  intro S. destruct (seen_shape x x' S) as (_ & I & _). destruct S as (_ & E & _). unfold framed. rewrite I, <- E.
  pose proof (null_iff h Wh). tauto.
Qed.
Lemma seen_into x x' y y' : seen x x' -> seen y y' -> (se3_into x = se3_into y <-> se3_into x' = se3_into y').
Proof.
  intros S S'. destruct (seen_shape x x' S) as (_ & I & _). destruct (seen_shape y y' S') as (_ & I' & _).
  destruct S as (_ & E & _). destruct S' as (_ & E' & _). split; intros _; congruence.
Qed.
Lemma seen_same x x' y y' : seen x x' -> seen y y' -> (same_frames se3_ops x y <-> same_frames se3_ops x' y').
Proof.
  intros S S'. rewrite !frames_same, (seen_into x x' y y' S S').
  destruct (seen_shape x x' S) as (_ & _ & F & _). destruct (seen_shape y y' S') as (_ & _ & F' & _). rewrite F, F'. reflexivity.
Qed.
Lemma seen_relative a a' b b' m : seen a a' -> seen b b' -> relative a b m -> relative a' b' m.
Proof.
  intros Sa Sb Rl. destruct (seen_shape a a' Sa) as (Wa' & Ia' & Fa' & Ma' & Ta'). destruct (seen_shape b b' Sb) as (Wb' & Ib' & Fb' & Mb' & Tb').
  destruct Sa as (Wa & Ea & _). destruct Sb as (Wb & Eb & _).
  destruct (relative_matched a b Wa Wb ltac:(congruence)) as (m1 & R1 & W1 & I1 & F1 & M1 & T1).
  destruct (relative_matched a' b' Wa' Wb' ltac:(congruence)) as (m2 & R2 & W2 & I2 & F2 & M2 & T2).
  rewrite (relative_unique _ _ _ _ Rl R1). replace m1 with m2; [exact R2|]. pose proof (proj1 Wh) as Hh. fold (se3_mat h) in Hh.
  apply se3_ext; try assumption; try congruence.
  - rewrite M1, M2, Ma', Mb', mtrans_mmul, <- mmul_assoc. f_equal. rewrite mmul_assoc, rot_mtrans_l, mmul_1_l by exact Hh. reflexivity.
  - rewrite T1, T2, Ma', Ta', Tb', mtrans_mmul, mvec_mmul. f_equal.
    replace (vsub _ _) with (mvec (se3_mat h) (vsub (translation b) (translation a))).
    + apply mvec_inv_l, Hh.
    + rewrite mvec_sub. generalize (mvec (se3_mat h) (translation a)) (mvec (se3_mat h) (translation b)) (translation h). intros. vring.
Qed.
Lemma seen_point a a' q g : seen a a' -> se3_wf q -> se3_from a = se3_into q -> se3_mul a q = Ok g ->
  exists g', se3_mul h g = Ok g' /\ se3_mul a' q = Ok g'.
Proof.
  intros Sa Wq E M. pose proof Sa as (Wa & Ea & Mh).
  pose proof (assoc_ok se3_laws h a q a' g Wh Wa Wq Ea E Mh M) as A. cbn [g_mul se3_ops] in A.
  destruct (seen_shape a a' Sa) as (Wa' & _ & Fa' & _).
  pose proof (se3_mul_match a' q (proj2 Wa') (proj2 Wq) (eq_trans Fa' E)) as X. eexists. rewrite <- A. split; exact X.
Qed.
Lemma reference_arcs : forall pts pts' segs segs', Forall2 seen (map ref_from_control pts) (map ref_from_control pts') ->
  Forall2 (fun ab s => d_joins (fst ab) (snd ab) s) (consecutive pts) segs ->
  Forall2 (fun ab s => d_joins (fst ab) (snd ab) s) (consecutive pts') segs' ->
  (forall c c' r r', pts = c :: r -> pts' = c' :: r' -> arc_length c = arc_length c') ->
  Forall2 (fun c c' => arc_length c = arc_length c' /\ seen (ref_from_control c) (ref_from_control c')) pts pts'.
Proof.
  induction pts as [|a pts IH]; intros [|a' pts'] segs segs' F J J' H; cbn in F; inversion F as [|? ? ? ? Sa F1]; subst; [constructor|].
  constructor; [split; [apply (H a a' pts pts'); reflexivity|exact Sa]|].
  destruct pts as [|b pts]; destruct pts' as [|b' pts']; cbn in F1; try (inversion F1; fail); [constructor|].
  pose proof F1 as F2. inversion F2 as [|? ? ? ? Sb F3]; subst.
  cbn in J, J'. inversion J as [|? sg ? ss J1 J2]; subst. inversion J' as [|? sg' ? ss' J1' J2']; subst. cbn [fst snd] in J1, J1'.
  apply (IH (b' :: pts') ss ss' F1 J2 J2'). intros c c' r r' E E'. injection E as <- <-. injection E' as <- <-.
  destruct J1 as (_ & _ & _ & _ & Rl & L). destruct J1' as (_ & _ & _ & _ & Rl' & L').
  rewrite (relative_unique _ _ _ _ Rl' (seen_relative _ _ _ _ _ Sa Sb Rl)) in L'. rewrite L, L', (H a a' _ _ eq_refl eq_refl). reflexivity.
Qed.
Lemma reference_curve gs gs' : Forall se3_wf gs -> (forall g, In g gs -> se3_from h = se3_into g) ->
  Forall2 (fun g g' => se3_mul h g = Ok g') gs gs' ->
  let k := after_dappends gs dc_empty in let k' := after_dappends gs' dc_empty in
  length (d_control_pts k') = length (d_control_pts k) /\ dc_length k' = dc_length k /\
  forall s, (dc_point_at k' s = Throw <-> dc_point_at k s = Throw) /\ (dc_point_at k' s = Ok None <-> dc_point_at k s = Ok None) /\
    forall g, dc_point_at k s = Ok (Some g) -> exists g', se3_mul h g = Ok g' /\ dc_point_at k' s = Ok (Some g').
Proof.
  intros W E F k k'.
  assert (FS : Forall2 seen gs gs').
  { clear k k'. induction F as [|g g' gs gs' M F IH]; [constructor|]. inversion W; subst. constructor.
    - split; [assumption|]. split; [apply E; left; reflexivity|exact M].
    - apply IH; [assumption|]. intros x Hx. apply E. right. exact Hx. }
  assert (W' : Forall se3_wf gs').
  { clear - FS Wh. induction FS as [|g g' gs gs' S _ IH]; constructor; [apply (seen_shape _ _ S)|exact IH]. }
  pose proof (history_transfer seen seen_framed seen_same seen_into gs gs' FS W W') as R.
  pose proof (proj1 (d_history gs W)) as I. pose proof (proj1 (d_history gs' W')) as I'. fold k in R, I. fold k' in R, I'.
  assert (C : Forall2 (fun c c' => arc_length c = arc_length c' /\ seen (ref_from_control c) (ref_from_control c')) (d_control_pts k) (d_control_pts k')).
  { destruct I as (_ & I2 & I3). destruct I' as (_ & I2' & I3'). apply (reference_arcs _ _ (d_segments k) (d_segments k') R I3 I3').
    intros c c' r r' E1 E2. rewrite (proj1 (I2 c r E1)), (proj1 (I2' c' r' E2)). reflexivity. }
  clearbody k k'. clear gs gs' W E F FS W' R.
  assert (Ln : length (d_control_pts k') = length (d_control_pts k)) by (clear - C; induction C; cbn; congruence).
  assert (Len : dc_length k' = dc_length k).
  { destruct (list_cases (d_control_pts k)) as [E|(l & z & E)].
    - rewrite E in C. inversion C. rewrite (proj1 (d_length_spec k) E), (proj1 (d_length_spec k')) by congruence. reflexivity.
    - rewrite E in C. apply Forall2_app_inv_l in C as (m & n & _ & Cn & En). inversion Cn as [|? z' ? ? [A _] X]; subst. inversion X; subst.
      rewrite (proj2 (d_length_spec k) l z E), (proj2 (d_length_spec k') m z' En), A. reflexivity. }
  split; [exact Ln|]. split; [exact Len|]. intro s.
  assert (T : dc_point_at k' s = Throw <-> dc_point_at k s = Throw).
  { rewrite (d_throws_iff k s I), (d_throws_iff k' s I'), Ln, Len. reflexivity. }
  split; [exact T|]. split.
  - rewrite (d_nan_iff k s I), (d_nan_iff k' s I').
    split; intros (Z & a & b & l & E & B); (split; [exact Z|]); rewrite E in C.
    + inversion C as [|a1 ? r1 ? _ C1 X]; subst. inversion C1 as [|b1 ? r2 ? [B1 _] C2]; subst. exists a1, b1, r2. split; [reflexivity|congruence].
    + inversion C as [|? a1 ? r1 _ C1 X]; subst. inversion C1 as [|? b1 ? r2 [B1 _] C2]; subst. exists a1, b1, r2. split; [reflexivity|congruence].
  - intros g Eg. assert (NT : dc_point_at k s <> Throw) by (rewrite Eg; discriminate). rewrite (d_throws_iff k s I) in NT.
    assert (L2 : (2 <= length (d_control_pts k))%nat) by (destruct (le_lt_dec 2 (length (d_control_pts k))); [assumption|tauto]).
    destruct (d_two k L2) as (l & z & Ek & N).
    assert (Hs : 0 <= s <= arc_length z).
    { split; [destruct (Rlt_le_dec s 0); [tauto|assumption]|]. destruct (Rlt_le_dec (arc_length z) s) as [X|X]; [|exact X].
      elim NT. right. right. exists (arc_length z). split; [apply (proj2 (d_length_spec k) l z Ek)|exact X]. }
    destruct (proj2 (d_query k s I) l z Ek N Hs) as (l1 & a & b & l2 & m & E' & S & Ht & Rl & La & Q).
    rewrite Eg in Q. rewrite E' in C. destruct (Forall2_split _ l1 a b l2 _ C) as (m1 & a' & b' & m2 & Ek' & [Aa Sa] & [Ab Sb] & Hm).
    destruct (fdiv_cases (s - arc_length a) (arc_length b - arc_length a)) as [[Z X]|[Z X]]; rewrite X in Q; [discriminate Q|].
    destruct (d_owner k' m1 a' b' m2 m s I' Ek' (seen_relative _ _ _ _ _ Sa Sb Rl)) as (q & g' & Eq & Eg' & Ed).
    + rewrite <- Aa, <- Ab. lra.
    + rewrite <- Aa, <- Ab. exact Ht.
    + rewrite <- Aa. destruct S as [S|S]; [left; exact (Hm S)|right; exact S].
    + rewrite <- Aa, <- Ab in Eq. rewrite Eq in Q. cbn [obind] in Q. symmetry in Q. apply obind_ok in Q as (g1 & Eg1 & Q). injection Q as <-.
      pose proof Sa as (Wa & Ea & _). pose proof Sb as (Wb & Eb & _).
      destruct (relative_matched _ _ Wa Wb ltac:(congruence)) as (m3 & R3 & W3 & I3 & _).
      rewrite (relative_unique _ _ _ _ Rl R3) in Eq. destruct (se3_interp_screw m3 _ q W3 Eq) as (_ & Iq & _).
      destruct (se3_exp_framing_total m3 ((s - arc_length a) / (arc_length b - arc_length a)) W3) as (q' & Eq' & Wq). rewrite Eq in Eq'. apply Ok_inj in Eq'. subst q'.
      destruct (seen_point _ _ q g1 Sa Wq ltac:(congruence) Eg1) as (g2 & M1 & M2).
      exists g2. split; [exact M1|]. rewrite Ed. rewrite M2 in Eg'. apply Ok_inj in Eg'. subst g2. reflexivity.
Qed.
End Reference.

(** ** A mounted sensor *)
Section Mounted.
Variable h : se3.
Hypothesis Wh : se3_wf h.
Definition mounted (x x' : se3) : Prop := se3_wf x /\ se3_from x = se3_into h /\ se3_mul x h = Ok x'.
Lemma mounted_shape x x' : mounted x x' -> se3_wf x' /\ se3_into x' = se3_into x /\ se3_from x' = se3_from h /\
  se3_mat x' = mmul (se3_mat x) (se3_mat h) /\ translation x' = vadd (mvec (se3_mat x) (translation h)) (translation x).
Proof. intros (W & E & M). exact (mul_shape x h x' W Wh E M). Qed.
Lemma mounted_framed x x' : mounted x x' -> (framed x <-> framed x').
Proof. intro S. destruct (mounted_shape x x' S) as (_ & I & _). unfold framed. rewrite I. reflexivity. Qed.
Lemma mounted_into x x' y y' : mounted x x' -> mounted y y' -> (se3_into x = se3_into y <-> se3_into x' = se3_into y').
Proof.
  intros S S'. destruct (mounted_shape x x' S) as (_ & I & _). destruct (mounted_shape y y' S') as (_ & I' & _). rewrite I, I'. reflexivity.
Qed.
Lemma mounted_same x x' y y' : mounted x x' -> mounted y y' -> (same_frames se3_ops x y <-> same_frames se3_ops x' y').
Proof.
  intros S S'. rewrite !frames_same, (mounted_into x x' y y' S S').
  destruct (mounted_shape x x' S) as (_ & _ & F & _). destruct (mounted_shape y y' S') as (_ & _ & F' & _).
  destruct S as (_ & E & _). destruct S' as (_ & E' & _). rewrite F, F', E, E'. tauto.
Qed.
Lemma mounted_log a a' b b' m m' : mounted a a' -> mounted b b' -> se3_into a = se3_into b -> relative a b m -> relative a' b' m' ->
  norm (trot (se3_log m)) < PI -> plain_angle (norm2 (trot (se3_log m))) ->
  se3_log m' = T6 (mvec (mtrans (se3_mat h)) (trot (se3_log m)))
                  (mvec (mtrans (se3_mat h)) (point_velocity (trot (se3_log m)) (ttrans (se3_log m)) (translation h))).
Proof.
  intros Sa Sb Ei Rl Rl' N P. destruct (mounted_shape a a' Sa) as (Wa' & Ia' & Fa' & Ma' & Ta'). destruct (mounted_shape b b' Sb) as (Wb' & Ib' & Fb' & Mb' & Tb').
  destruct Sa as (Wa & Ea & _). destruct Sb as (Wb & Eb & _).
  destruct (relative_matched a b Wa Wb Ei) as (m1 & R1 & W1 & _ & _ & M1 & T1).
  destruct (relative_matched a' b' Wa' Wb' ltac:(congruence)) as (m2 & R2 & W2 & _ & _ & M2 & T2).
  pose proof (relative_unique _ _ _ _ Rl R1). subst m1. pose proof (relative_unique _ _ _ _ Rl' R2). subst m2.
  pose proof (proj1 Wh) as Hh. fold (se3_mat h) in Hh. pose proof (rot_mtrans _ Hh) as Ht. set (w := trot (se3_log m)) in *. set (v := ttrans (se3_log m)) in *.
  assert (Mm : se3_mat m = mexp w).
  { unfold w. rewrite se3_log_eq. cbn [trot]. unfold so3_log. rewrite mexp_mlog by apply W1. reflexivity. }
  assert (Tm : translation m = screw w v 1).
  { rewrite <- (vscale_1 w) at 1. replace (screw (vscale 1 w) v 1) with (screw w v 1) by (rewrite vscale_1; reflexivity).
    rewrite <- Vmap_screw by (rewrite vscale_1; exact P). rewrite !vscale_1. unfold w, v. rewrite se3_log_eq. cbn [trot ttrans].
    symmetry. apply V_Vinv_regular; [exact P|]. rewrite <- norm_sqr. pose proof (norm_nonneg (so3_log (rotation m))).
    assert (norm (so3_log (rotation m)) < PI) by exact N. nra. }
  apply log_of_screw.
  - rewrite rot_norm by exact Ht. exact N.
  - rewrite rot_norm2 by exact Ht. exact P.
  - rewrite <- mexp_conj by exact Ht. rewrite <- Mm, M1, M2, Ma', Mb', mtrans_mmul, mtrans_mtrans, !mmul_assoc. reflexivity.
  - rewrite screw_rot by exact Ht. unfold point_velocity. rewrite screw_add_v, screw_cross, vscale_1, <- Tm, <- Mm, T1, T2, Ma', Ta', Tb', mtrans_mmul, mvec_mmul.
    f_equal. rewrite M1, mvec_mmul. pose proof (proj1 Wa) as Ha. fold (se3_mat a) in Ha.
    rewrite !mvec_sub, !mvec_add, !mvec_inv_l by exact Ha.
    generalize (mvec (mtrans (se3_mat a)) (mvec (se3_mat b) (translation h))) (mvec (mtrans (se3_mat a)) (translation a)) (mvec (mtrans (se3_mat a)) (translation b)) (translation h).
    intros. vring.
Qed.
Lemma mounted_segment k k' l1 a b l2 l1' a' b' l2' m f : d_built k -> d_built k' ->
  d_control_pts k = l1 ++ a :: b :: l2 -> d_control_pts k' = l1' ++ a' :: b' :: l2' -> (l1 = [] -> l1' = []) ->
  mounted (ref_from_control a) (ref_from_control a') -> mounted (ref_from_control b) (ref_from_control b') ->
  se3_into (ref_from_control a) = se3_into (ref_from_control b) ->
  relative (ref_from_control a) (ref_from_control b) m ->
  norm (trot (se3_log m)) < PI -> plain_angle (norm2 (trot (se3_log m))) ->
  arc_length b' - arc_length a' = norm (point_velocity (trot (se3_log m)) (ttrans (se3_log m)) (translation h)) /\
  (0 <= f <= 1 -> (l1 = [] \/ 0 < f) -> arc_length a < arc_length b -> arc_length a' < arc_length b' ->
   exists g g' gh, dc_point_at k (arc_length a + f * (arc_length b - arc_length a)) = Ok (Some g) /\
     dc_point_at k' (arc_length a' + f * (arc_length b' - arc_length a')) = Ok (Some g') /\ se3_mul g h = Ok gh /\
     same_pose_within (/ 10^23 * (f * (arc_length b - arc_length a + (arc_length b' - arc_length a')))) g' gh /\
     (plain_angle (f * f * norm2 (trot (se3_log m))) -> g' = gh)).
Proof.
  intros B B' E E' Hl Sa Sb Ei Rl N P. pose proof (d_built_inv k B) as I. pose proof (d_built_inv k' B') as I'.
  assert (Nb' : d_neighbours k' a' b') by (exists l1', l2'; exact E').
  destruct (d_neighbours_facts k' a' b' I' Nb') as (Wa' & Wb' & sg' & _ & (_ & _ & _ & _ & Rl' & La')).
  pose proof (mounted_log _ _ _ _ m _ Sa Sb Ei Rl Rl' N P) as Lg.
  pose proof (proj1 Wh) as Hh. fold (se3_mat h) in Hh. pose proof (rot_mtrans _ Hh) as Ht.
  set (m' := orig_from_dest sg') in *. set (w := trot (se3_log m)) in *. set (v := ttrans (se3_log m)) in *.
  assert (D : arc_length b' - arc_length a' = norm (point_velocity w v (translation h))).
  { rewrite La'. unfold se3_arc_length. rewrite Lg. cbn [ttrans]. rewrite rot_norm by exact Ht. ring. }
  split; [exact D|]. intros Hf Hs Lab Lab'.
  assert (X0 : 0 <= f * (arc_length b - arc_length a)) by (apply Rmult_le_pos; lra).
  assert (X1 : f * (arc_length b - arc_length a) <= 1 * (arc_length b - arc_length a)) by (apply Rmult_le_compat_r; lra).
  assert (Y0 : 0 <= f * (arc_length b' - arc_length a')) by (apply Rmult_le_pos; lra).
  assert (Y1 : f * (arc_length b' - arc_length a') <= 1 * (arc_length b' - arc_length a')) by (apply Rmult_le_compat_r; lra).
  destruct (d_geodesic k l1 a b l2 m (arc_length a + f * (arc_length b - arc_length a)) B E Rl Lab) as (g & Eg & Wg & Sg & Q);
    [lra|destruct Hs as [Hs|Hs]; [left; exact Hs|right]; assert (0 < f * (arc_length b - arc_length a)) by (apply Rmult_lt_0_compat; lra); lra|].
  destruct (d_geodesic k' l1' a' b' l2' m' (arc_length a' + f * (arc_length b' - arc_length a')) B' E' Rl' Lab') as (g' & Eg' & Wg' & Sg' & Q');
    [lra|destruct Hs as [Hs|Hs]; [left; exact (Hl Hs)|right]; assert (0 < f * (arc_length b' - arc_length a')) by (apply Rmult_lt_0_compat; lra); lra|].
  cbv zeta in Q, Q'.
  replace ((arc_length a + f * (arc_length b - arc_length a) - arc_length a) / (arc_length b - arc_length a)) with f in Q by (field; lra).
  replace ((arc_length a' + f * (arc_length b' - arc_length a') - arc_length a') / (arc_length b' - arc_length a')) with f in Q' by (field; lra).
  replace (arc_length a + f * (arc_length b - arc_length a) - arc_length a) with (f * (arc_length b - arc_length a)) in Q by ring.
  replace (arc_length a' + f * (arc_length b' - arc_length a') - arc_length a') with (f * (arc_length b' - arc_length a')) in Q' by ring.
  rewrite Lg in Q'. cbn [trot ttrans] in Q'. rewrite rot_norm2, screw_rot in Q' by exact Ht. fold w v in Q.
  destruct (mounted_shape _ _ Sa) as (_ & Ia' & Fa' & Ma' & Ta'). destruct (mounted_shape _ _ Sb) as (_ & Ib' & Fb' & _).
  pose proof Sa as (Wa & Ea & _). pose proof Sb as (Wb & Eb & _).
  assert (SF : same_frames se3_ops (ref_from_control a) (ref_from_control b)) by (apply frames_same; split; congruence).
  assert (SF' : same_frames se3_ops (ref_from_control a') (ref_from_control b')) by (apply frames_same; split; congruence).
  destruct (proj1 (frames_same _ _) (Sg SF)) as [Ig Fg]. destruct (proj1 (frames_same _ _) (Sg' SF')) as [Ig' Fg'].
  assert (Ef : se3_from g = se3_into h) by congruence.
  pose proof (se3_mul_match g h (proj2 Wg) (proj2 Wh) Ef) as Mh.
  destruct (mul_shape g h _ Wg Wh Ef Mh) as (Wgh & Igh & Fgh & Mgh & Tgh).
  set (gh := se3_times g h (se3_into g) (se3_from h)) in *. exists g, g', gh. split; [exact Eg|]. split; [exact Eg'|]. split; [exact Mh|].
  destruct Q as (Qr & Qt & Qx). destruct Q' as (Qr' & Qt' & Qx'). fold (se3_mat g) (se3_mat (ref_from_control a)) in Qr.
  fold (se3_mat g') (se3_mat (ref_from_control a')) in Qr'.
  assert (Mq : se3_mat g' = se3_mat gh).
  { rewrite Qr', Mgh, Qr, Ma', <- mvec_scale, <- (mexp_conj (mtrans (se3_mat h))), mtrans_mtrans by exact Ht.
    rewrite <- !mmul_assoc. f_equal. rewrite !mmul_assoc, rot_mtrans_r, mmul_1_l by exact Hh. reflexivity. }
  assert (Tq : se3_act (ref_from_control a') (mvec (mtrans (se3_mat h)) (screw w (point_velocity w v (translation h)) f)) =
    vadd (mvec (se3_mat g) (translation h)) (se3_act (ref_from_control a) (screw w v f))).
  { unfold se3_act, so3_act. fold (se3_mat (ref_from_control a)) (se3_mat (ref_from_control a')). rewrite Ma', Ta', mvec_mmul, mvec_inv_r by exact Hh.
    unfold point_velocity. rewrite screw_add_v, screw_cross, Qr, mvec_mmul, mvec_add, mvec_sub.
    generalize (mvec (se3_mat (ref_from_control a)) (screw w v f)) (mvec (se3_mat (ref_from_control a)) (mvec (mexp (vscale f w)) (translation h)))
      (mvec (se3_mat (ref_from_control a)) (translation h)) (translation (ref_from_control a)). intros. vring. }
  rewrite Tq in Qt', Qx'. unfold position in *. split.
  - split; [exact Mq|]. split; [congruence|]. split; [congruence|]. unfold position. rewrite Tgh.
    eapply Rle_trans; [apply (norm_triangle_sub _ (vadd (mvec (se3_mat g) (translation h)) (se3_act (ref_from_control a) (screw w v f))))|].
    replace (vsub (vadd (mvec (se3_mat g) (translation h)) (se3_act (ref_from_control a) (screw w v f))) (vadd (mvec (se3_mat g) (translation h)) (translation g)))
      with (vsub (se3_act (ref_from_control a) (screw w v f)) (translation g))
      by (generalize (mvec (se3_mat g) (translation h)) (se3_act (ref_from_control a) (screw w v f)) (translation g); intros; vring).
    rewrite (norm_vsub_sym (se3_act _ _)). lra.
  - intro Pf. apply se3_ext; try assumption; try congruence. rewrite (Qx' Pf), Tgh, (Qx Pf). reflexivity.
Qed.
Lemma mounted_curve gs gs' : Forall se3_wf gs -> (forall g, In g gs -> se3_from g = se3_into h) ->
  Forall2 (fun g g' => se3_mul g h = Ok g') gs gs' ->
  let k := after_dappends gs dc_empty in let k' := after_dappends gs' dc_empty in
  Forall2 (fun p p' => se3_mul (ref_from_control p) h = Ok (ref_from_control p')) (d_control_pts k) (d_control_pts k') /\
  forall l1 a b l2 l1' a' b' l2' m, d_control_pts k = l1 ++ a :: b :: l2 -> d_control_pts k' = l1' ++ a' :: b' :: l2' ->
    length l1 = length l1' -> relative (ref_from_control a) (ref_from_control b) m ->
    norm (trot (se3_log m)) < PI -> plain_angle (norm2 (trot (se3_log m))) ->
    arc_length b' - arc_length a' = norm (point_velocity (trot (se3_log m)) (ttrans (se3_log m)) (translation h)) /\
    forall f, 0 <= f <= 1 -> (l1 = [] \/ 0 < f) -> arc_length a < arc_length b -> arc_length a' < arc_length b' ->
    exists g g' gh, dc_point_at k (arc_length a + f * (arc_length b - arc_length a)) = Ok (Some g) /\
      dc_point_at k' (arc_length a' + f * (arc_length b' - arc_length a')) = Ok (Some g') /\ se3_mul g h = Ok gh /\
      same_pose_within (/ 10^23 * (f * (arc_length b - arc_length a + (arc_length b' - arc_length a')))) g' gh /\
      (plain_angle (f * f * norm2 (trot (se3_log m))) -> g' = gh).
Proof.
  intros W E F k k'.
  assert (FS : Forall2 mounted gs gs').
  { clear k k'. induction F as [|g g' gs gs' M F IH]; [constructor|]. inversion W; subst. constructor.
    - split; [assumption|]. split; [apply E; left; reflexivity|exact M].
    - apply IH; [assumption|]. intros x Hx. apply E. right. exact Hx. }
  assert (W' : Forall se3_wf gs').
  { clear - FS Wh. induction FS as [|g g' gs gs' S _ IH]; constructor; [apply (mounted_shape _ _ S)|exact IH]. }
  pose proof (history_transfer mounted mounted_framed mounted_same mounted_into gs gs' FS W W') as R. fold k k' in R. unfold refs in R.
  assert (R2 : Forall2 (fun p p' => mounted (ref_from_control p) (ref_from_control p')) (d_control_pts k) (d_control_pts k')).
  { revert R. generalize (d_control_pts k) (d_control_pts k'). clear. induction l as [|c l IH]; intros [|c' l'] R; cbn in R; inversion R; subst; constructor; auto. }
  assert (B : d_built k) by (exists gs; split; [exact W|reflexivity]).
  assert (B' : d_built k') by (exists gs'; split; [exact W'|reflexivity]).
  split.
  { revert R2. generalize (d_control_pts k) (d_control_pts k'). clear. induction 1 as [|c c' l l' S _ IH]; constructor; [apply S|exact IH]. }
  intros l1 a b l2 l1' a' b' l2' m Ek Ek' Ln Rl N P.
  pose proof R2 as R3. rewrite Ek, Ek' in R3.
  assert (S2 : mounted (ref_from_control a) (ref_from_control a') /\ mounted (ref_from_control b) (ref_from_control b')).
  { clear - R3 Ln. revert l1' Ln R3. induction l1 as [|c l1 IH]; intros [|c' l1'] Ln R3; try discriminate Ln; cbn in R3; inversion R3 as [|? ? ? ? S1 R4]; subst.
    - inversion R4 as [|? ? ? ? S2 R5]; subst. auto.
    - apply (IH l1'); [injection Ln; auto|exact R4]. }
  destruct S2 as [Sa Sb].
  assert (Ei : se3_into (ref_from_control a) = se3_into (ref_from_control b)).
  { destruct (d_built_inv k B) as (I1 & I2 & _). destruct (d_control_pts k) as [|c r] eqn:Q; [destruct l1; discriminate Ek|].
    assert (Hi : forall q, In q (c :: r) -> se3_into (ref_from_control q) = se3_into (ref_from_control c)).
    { destruct (framed_dec (ref_from_control c)) as [Fc|Fc].
      - intros q [<-|Hq]; [reflexivity|]. apply (proj2 (I2 c r eq_refl) Fc q Hq).
      - intros q Hq.
        assert (Hm : forall q, In q (c :: r) -> se3_from (ref_from_control q) = se3_into h).
        { intros q0 Hq0. clear - R2 Hq0. revert Hq0. induction R2 as [|x x' l l' S _ IH]; [intros []|]. intros [<-|Hq0]; [apply S|apply IH, Hq0]. }
        destruct (unframed_frames _ (I1 c (or_introl eq_refl)) Fc) as [Nc Nc'].
        rewrite Nc. apply (null_iff _ (I1 q Hq)). rewrite (Hm q Hq), <- (Hm c (or_introl eq_refl)). exact Nc'. }
    rewrite (Hi a), (Hi b); [reflexivity| |]; rewrite Ek; apply in_or_app; right; [right|]; left; reflexivity. }
  assert (Hl : l1 = [] -> l1' = []) by (intros ->; destruct l1'; [reflexivity|discriminate Ln]).
  split; [exact (proj1 (mounted_segment k k' l1 a b l2 l1' a' b' l2' m 0 B B' Ek Ek' Hl Sa Sb Ei Rl N P))|].
  intros f. exact (proj2 (mounted_segment k k' l1 a b l2 l1' a' b' l2' m f B B' Ek Ek' Hl Sa Sb Ei Rl N P)).
Qed.
End Mounted.
