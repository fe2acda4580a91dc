(** Curves related by a change of frames or clocks. *)
From Verif Require Import Cpp UuidModel RotSpec GeomModel RotProofs CoeffProofs TransProtoSpec DerivSpec DerivProofs FrameSpec FrameProofs LieSpec
  ScrewSpec LieProofs DiffProofs JetModel JetSpec JetLaws JetProofs CurveModel CurveSpec CurveProofs TCurveProofs SegClose SymSpec SymProofs.
Local Open Scope R_scope.

Section Changes.
Context {G T : Type} {o : lie_ops G T} {c : lie_calc G T} (L : lie_laws o c).

Ltac teq := apply (coord_ext _ _ L); intro;
  repeat first [rewrite (coord_add _ _ L)|rewrite (coord_scale _ _ L)|rewrite (coord_zero _ _ L)]; try ring.

Lemma Forall2_split {A B} (P : A -> B -> Prop) l1 a b l2 l' : Forall2 P (l1 ++ a :: b :: l2) l' ->
  exists m1 a' b' m2, l' = m1 ++ a' :: b' :: m2 /\ P a a' /\ P b b' /\ (l1 = [] -> m1 = []).
Proof.
  revert l'. induction l1 as [|x l1 IH]; intros l' F.
  - cbn in F. inversion F as [|? a' ? r Pa F1]; subst. inversion F1 as [|? b' ? r' Pb F2]; subst. exists [], a', b', r'. auto.
  - cbn in F. inversion F as [|? x' ? r Px F1]; subst. destruct (IH r F1) as (m1 & a' & b' & m2 & -> & Pa & Pb & _).
    exists (x' :: m1), a', b', m2. split; [reflexivity|]. split; [exact Pa|]. split; [exact Pb|discriminate].
Qed.
Lemma Forall2_ends {A B} (P : A -> B -> Prop) a l b l' : Forall2 P (a :: l ++ [b]) l' ->
  exists a' m b', l' = a' :: m ++ [b'] /\ P a a' /\ P b b'.
Proof.
  intro F. inversion F as [|? a' ? r Pa F1]; subst. apply Forall2_app_inv_l in F1 as (m & n & _ & F2 & ->).
  inversion F2 as [|? b' ? r' Pb F3]; subst. inversion F3; subst. exists a', m, b'. auto.
Qed.
Lemma Forall2_ends_r {A B} (P : A -> B -> Prop) a l b l' : Forall2 P l' (a :: l ++ [b]) ->
  exists a' m b', l' = a' :: m ++ [b'] /\ P a' a /\ P b' b.
Proof.
  intro F. inversion F as [|a' ? r ? Pa F1]; subst. apply Forall2_app_inv_r in F1 as (m & n & _ & F2 & ->).
  inversion F2 as [|b' ? r' ? Pb F3]; subst. inversion F3; subst. exists a', m, b'. auto.
Qed.

Lemma covers_length (k : tcurve G T) t : covers k t -> (2 <= length (control_pts k))%nat.
Proof. intros (a & l & b & -> & _). cbn [length]. rewrite app_length. cbn [length]. lia. Qed.
Lemma covers_dec (k : tcurve G T) t : covers k t \/ ~ covers k t.
Proof.
  destruct (control_pts k) as [|a l] eqn:E.
  - right. intros (a & l & b & E' & _). rewrite E in E'. discriminate E'.
  - destruct (list_cases l) as [->|(m & b & ->)].
    + right. intros (a' & l & b & E' & _). rewrite E in E'. destruct l; discriminate E'.
    + destruct (Rle_dec (c_time a) t) as [A|A]; [destruct (Rle_dec t (c_time b)) as [B|B]|].
      * left. exists a, m, b. auto.
      * right. intros (a' & m' & b' & E' & _ & H). rewrite E in E'. injection E' as <- E'. apply app_last_inj in E' as [_ <-]. lra.
      * right. intros (a' & m' & b' & E' & H & _). rewrite E in E'. injection E' as <- _. lra.
Qed.
(** It is enough to compare segments. *)
Lemma answer_by_segments (clock : R -> R) rel k k' : (forall x y, x <= y <-> clock x <= clock y) ->
  curve_wf o c k -> curve_wf o c k' -> correspond clock rel k k' ->
  (forall a b a' b' t j, neighbours k a b -> neighbours k' a' b' -> c_time a' = clock (c_time a) -> c_time b' = clock (c_time b) ->
     rel (c_point a) (c_point a') -> rel (c_point b) (c_point b') -> c_time a <= t <= c_time b ->
     segment_jet (o:=o) a b t = Ok j -> exists j', segment_jet (o:=o) a' b' (clock t) = Ok j' /\ rel j j') ->
  answer o clock rel k k'.
Proof.
  intros Mono W W' Cr Seg t. pose proof (curve_inv k W) as I. pose proof (curve_inv k' W') as I'.
  assert (Cov : covers k t <-> covers k' (clock t)).
  { unfold correspond in Cr. split; intros (a & l & b & E & H1 & H2).
    - rewrite E in Cr. destruct (Forall2_ends _ _ _ _ _ Cr) as (a' & m & b' & E' & [Ta _] & [Tb _]).
      exists a', m, b'. split; [exact E'|]. rewrite Ta, Tb. split; apply (proj1 (Mono _ _)); assumption.
    - rewrite E in Cr. destruct (Forall2_ends_r _ _ _ _ _ Cr) as (a' & m & b' & E' & [Ta _] & [Tb _]).
      exists a', m, b'. split; [exact E'|]. rewrite Ta in H1. rewrite Tb in H2. split; apply (proj2 (Mono _ _)); assumption. }
  assert (Th : tc_point_at o k t = Throw <-> ~ covers k t).
  { rewrite (proj1 (point_at_throws L k t I)). split; [|auto]. intros [H|H]; [exact H|]. intro C. pose proof (covers_length k t C). lia. }
  assert (Th' : tc_point_at o k' (clock t) = Throw <-> ~ covers k' (clock t)).
  { rewrite (proj1 (point_at_throws L k' (clock t) I')). split; [|auto]. intros [H|H]; [exact H|]. intro C. pose proof (covers_length k' _ C). lia. }
  split.
  - intros j Ej.
    assert (C : covers k t).
    { destruct (covers_dec k t) as [C|C]; [exact C|]. apply Th in C. rewrite C in Ej. discriminate Ej. }
    destruct (point_at_eval k t I C) as (l1 & a & b & l2 & E & S & Ht & Q).
    rewrite (point_at_owner k l1 a b l2 t I E S Ht) in Ej.
    pose proof Cr as Cr'. unfold correspond in Cr'. rewrite E in Cr'.
    destruct (Forall2_split _ _ _ _ _ _ Cr') as (m1 & a' & b' & m2 & E' & [Ta Ra] & [Tb Rb] & Em).
    destruct (Seg a b a' b' t j) as (j' & Ej' & R'); try assumption; try (eexists _, _; eassumption).
    exists j'. split; [|exact R'].
    rewrite (point_at_owner k' m1 a' b' m2 (clock t) I' E'); [exact Ej'| |].
    + destruct S as [S|S]; [left; apply Em, S|right]. rewrite Ta. apply Rnot_le_lt. intro H. apply (proj2 (Mono _ _)) in H. lra.
    + rewrite Ta, Tb. split; apply (proj1 (Mono _ _)), Ht.
  - rewrite Th, Th', Cov. reflexivity.
Qed.

(** *** Another clock *)
Lemma clock_segment rate a b a' b' t shift j : 0 < rate -> c_time a < c_time b ->
  c_time a' = rate * c_time a + shift -> c_time b' = rate * c_time b + shift ->
  on_clock o rate (c_point a) (c_point a') -> on_clock o rate (c_point b) (c_point b') ->
  segment_jet (o:=o) a b t = Ok j -> exists j', segment_jet (o:=o) a' b' (rate * t + shift) = Ok j' /\ on_clock o rate j j'.
Proof.
  intros P Hab Ta Tb (A1 & A2 & A3) (B1 & B2 & B3). unfold segment_jet. rewrite Ta, Tb. set (dt := c_time b - c_time a).
  assert (Hd : 0 < dt) by (unfold dt; lra).
  assert (Q : curve (new_segment (o:=o) a' b') = curve (new_segment (o:=o) a b)).
  { unfold new_segment, normalized. cbn [curve]. rewrite A1, A2, A3, B1, B2, B3, Ta, Tb.
    f_equal; f_equal; teq; field; lra. }
  rewrite Q. replace (rate * c_time b + shift - (rate * c_time a + shift)) with (rate * dt) by (unfold dt; ring).
  replace (1 / (rate * dt) * (rate * t + shift - (rate * c_time a + shift))) with (1 / dt * (t - c_time a)) by (field; lra).
  intro E. apply obind_ok in E as (u & -> & E). cbn [obind]. injection E as <-. eexists. split; [reflexivity|].
  unfold on_clock, unnormalize, jl_set_d, jl_set_d2. cbn [frame_from_ref d_frame_from_ref d2_frame_from_ref].
  split; [reflexivity|]. split; teq; field; lra.
Qed.
Lemma clock_answer rate shift k k' : 0 < rate -> curve_wf o c k -> curve_wf o c k' ->
  correspond (fun t => rate * t + shift) (on_clock o rate) k k' -> answer o (fun t => rate * t + shift) (on_clock o rate) k k'.
Proof.
  intros P W W' Cr. apply (answer_by_segments _ _ k k'); try assumption.
  - intros x y. split; intro H; nra.
  - intros a b a' b' t j N _ Ta Tb Ra Rb _ E. destruct (neighbours_facts k a b (curve_inv k W) N) as (_ & _ & Hab & _).
    exact (clock_segment rate a b a' b' t shift j P Hab Ta Tb Ra Rb E).
Qed.

(** *** Another reference frame *)
Lemma step_same sg sg' q v j : seg_point_frame o sg' = seg_point_frame o sg -> step (o:=o) sg' q v j = step (o:=o) sg q v j.
Proof. intro E. unfold step, point_value_accumulator. rewrite E. reflexivity. Qed.
Lemma rel_point_same sg sg' m t : seg_point_frame o sg' = seg_point_frame o sg ->
  d_frame_from_ref (seg_orig sg') = d_frame_from_ref (seg_orig sg) -> d2_frame_from_ref (seg_orig sg') = d2_frame_from_ref (seg_orig sg) ->
  d_frame_from_ref (seg_dest sg') = d_frame_from_ref (seg_dest sg) -> d2_frame_from_ref (seg_dest sg') = d2_frame_from_ref (seg_dest sg) ->
  rel_point (o:=o) sg' m t = rel_point (o:=o) sg m t.
Proof.
  intros E E1 E2 E3 E4. unfold rel_point. rewrite !(step_same sg sg') by exact E. rewrite E1, E2, E3, E4. unfold start_jet. rewrite E. reflexivity.
Qed.
Lemma mul_ok_frames a b r : well_formed c a -> well_formed c b -> g_from o a = g_into o b -> g_mul o a b = Ok r ->
  well_formed c r /\ g_into o r = g_into o a /\ g_from o r = g_from o b.
Proof.
  intros A B E M. split; [exact (mul_wf _ _ L _ _ _ A B M)|]. destruct (mul_match _ _ L a b A B E) as (r' & M' & I & F).
  rewrite M in M'. injection M' as <-. auto.
Qed.
Lemma assoc_ok a b d ab bd : well_formed c a -> well_formed c b -> well_formed c d -> g_from o a = g_into o b -> g_from o b = g_into o d ->
  g_mul o a b = Ok ab -> g_mul o b d = Ok bd -> g_mul o ab d = g_mul o a bd.
Proof.
  intros A B D E1 E2 M1 M2. pose proof (mul_assoc _ _ L a b d A B D E1 E2) as H. rewrite M1, M2 in H. exact H.
Qed.
(** Right cancellation. *)
Lemma cancel_right a b d : well_formed c a -> well_formed c b -> well_formed c d -> g_from o a = g_into o d -> g_from o b = g_into o d ->
  g_mul o a d = g_mul o b d -> a = b.
Proof.
  intros A B D Ea Eb H. destruct (inverse_ok _ _ L d D) as (e & _ & We & Ie & Fe & M & _).
  destruct (mul_match _ _ L a d A D Ea) as (x & Ex & _). pose proof Ex as Ex'. rewrite H in Ex'.
  destruct (identity_some _ _ L (g_into o d)) as (u & Eu & _ & _ & _ & _ & _ & N). rewrite Eu in M.
  pose proof (assoc_ok a d e x u A D We Ea (eq_sym Ie) Ex M) as Q1. pose proof (assoc_ok b d e x u B D We Eb (eq_sym Ie) Ex' M) as Q2.
  rewrite Q2, (N a A Ea), (N b B Eb) in Q1. injection Q1 as ->. reflexivity.
Qed.
Lemma reference_segment g sg sg' t j : well_formed c g -> segment_wf o c sg -> segment_wf o c sg' -> g_from o (frame_from_ref (seg_orig sg)) = g_into o g ->
  seen_from o g (seg_orig sg) (seg_orig sg') -> seen_from o g (seg_dest sg) (seg_dest sg') ->
  seg_point_at o sg t = Ok j -> exists j', seg_point_at o sg' t = Ok j' /\ seen_from o g j j'.
Proof.
  intros Wg W W' Fg (A1 & A2 & A3) (B1 & B2 & B3) E.
  destruct (motion_ok L sg W) as (_ & m & _ & _ & Mm & (Wm & Im & Fm) & Md).
  destruct (motion_ok L sg' W') as (_ & m' & _ & _ & Mm' & (Wm' & Im' & Fm') & Md').
  pose proof W as (Wo & Wd & So & Sf). pose proof W' as (Wo' & Wd' & _). unfold jet_l_wf in *.
  destruct (mul_ok_frames _ _ _ Wo Wg Fg A1) as (_ & Ia & Fa).
  assert (Pf : seg_point_frame o sg' = seg_point_frame o sg) by exact Ia.
  assert (Em : m' = m).
  { apply (cancel_right m' m (frame_from_ref (seg_orig sg')) Wm' Wm Wo'); [exact Fm'|rewrite Fm; symmetry; exact Ia|].
    rewrite Md'. rewrite <- B1. rewrite (assoc_ok m (frame_from_ref (seg_orig sg)) g _ _ Wm Wo Wg Fm Fg Md A1). reflexivity. }
  subst m'. destruct (seg_point_at_eq L sg t W) as (m1 & p & M1 & Ep & Eq & Wp & Sp). rewrite (motion_unique _ _ _ _ M1 Mm) in *.
  destruct (seg_point_at_eq L sg' t W') as (m2 & p' & M2 & Ep' & Eq' & Wp' & Sp'). rewrite (motion_unique _ _ _ _ M2 Mm') in *.
  rewrite (rel_point_same sg sg' m t Pf A2 A3 B2 B3) in *.
  rewrite Eq in E. injection E as <-. eexists. split; [exact Eq'|].
  unfold seen_from. cbn [jl_set_frame frame_from_ref d_frame_from_ref d2_frame_from_ref]. split; [|split; reflexivity].
  destruct (rel_point_ok L sg m t) as (Wr & Ir & Fr).
  rewrite <- Ep'. rewrite (assoc_ok _ _ g _ _ Wr Wo Wg Fr Fg Ep A1). reflexivity.
Qed.
Lemma reference_answer g k k' : well_formed c g -> curve_wf o c k -> curve_wf o c k' ->
  (forall p, In p (control_pts k) -> g_from o (frame_from_ref (c_point p)) = g_into o g) ->
  correspond (fun t => t) (seen_from o g) k k' -> answer o (fun t => t) (seen_from o g) k k'.
Proof.
  intros Wg W W' Fg Cr. apply (answer_by_segments _ _ k k'); try assumption.
  - intros x y. split; intro H; exact H.
  - intros a b a' b' t j N N' Ta Tb Ra Rb _ E.
    destruct (neighbours_facts k a b (curve_inv k W) N) as (Ia & _ & _ & Wf).
    destruct (neighbours_facts k' a' b' (curve_inv k' W') N') as (_ & _ & _ & Wf').
    unfold segment_jet in *. rewrite Ta, Tb. apply obind_ok in E as (u & Eu & E). injection E as <-.
    destruct (reference_segment g _ _ (1 / (c_time b - c_time a) * (t - c_time a)) u Wg Wf Wf' (Fg a Ia)) as (u' & Eu' & Ru).
    + destruct Ra as (R1 & R2 & R3). unfold seen_from, new_segment, normalized. cbn [curve seg_orig frame_from_ref d_frame_from_ref d2_frame_from_ref].
      rewrite R1, R2, R3, Ta, Tb. auto.
    + destruct Rb as (R1 & R2 & R3). unfold seen_from, new_segment, normalized. cbn [curve seg_dest frame_from_ref d_frame_from_ref d2_frame_from_ref].
      rewrite R1, R2, R3, Ta, Tb. auto.
    + exact Eu.
    + rewrite Eu'. cbn [obind]. eexists. split; [reflexivity|]. destruct Ru as (R1 & R2 & R3).
      unfold seen_from, unnormalize, jl_set_d, jl_set_d2. cbn [frame_from_ref d_frame_from_ref d2_frame_from_ref]. rewrite R1, R2, R3. auto.
Qed.

(** *** Another point frame *)
(** [x'] is [x] seen from the other frame. *)
Definition conjugate (h x x' : G) : Prop := g_mul o h x = g_mul o x' h.
(** Where exp respects the change of frames. *)
Definition exp_respects (h : G) (v : T) : Prop := forall e e',
  g_exp o v (Some (g_from o h, g_from o h)) = Ok e -> g_exp o (g_adjoint_times o h v) (Some (g_into o h, g_into o h)) = Ok e' -> conjugate h e e'.
Definition conj_jet (h : G) (j j' : jet_l G T) : Prop :=
  conjugate h (frame_from_ref j) (frame_from_ref j') /\ d_frame_from_ref j' = g_adjoint_times o h (d_frame_from_ref j) /\
  d2_frame_from_ref j' = g_adjoint_times o h (d2_frame_from_ref j).
Lemma conjugate_mul h x x' y y' xy xy' : well_formed c h -> at_frame (o:=o) (c:=c) (g_from o h) x -> at_frame (o:=o) (c:=c) (g_from o h) y ->
  at_frame (o:=o) (c:=c) (g_into o h) x' -> at_frame (o:=o) (c:=c) (g_into o h) y' -> conjugate h x x' -> conjugate h y y' ->
  g_mul o x y = Ok xy -> g_mul o x' y' = Ok xy' -> conjugate h xy xy'.
Proof.
  intros Wh (Wx & Ix & Fx) (Wy & Iy & Fy) (Wx' & Ix' & Fx') (Wy' & Iy' & Fy') Cx Cy M M'. unfold conjugate in *.
  destruct (mul_match _ _ L h x Wh Wx (eq_sym Ix)) as (hx & Ehx & _ & Fhx). destruct (mul_match _ _ L h y Wh Wy (eq_sym Iy)) as (hy & Ehy & Ihy & _).
  assert (E1 : g_from o x = g_into o y) by congruence. assert (E2 : g_from o x' = g_into o y') by congruence.
  rewrite <- (assoc_ok h x y hx xy Wh Wx Wy (eq_sym Ix) E1 Ehx M).
  rewrite (assoc_ok x' y' h xy' hy Wx' Wy' Wh E2 Fy' M' (eq_trans (eq_sym Cy) Ehy)).
  rewrite <- (assoc_ok x' h y hx hy Wx' Wh Wy Fx' (eq_sym Iy) (eq_trans (eq_sym Cx) Ehx) Ehy). reflexivity.
Qed.
Lemma conjugate_ad h x x' v : well_formed c h -> at_frame (o:=o) (c:=c) (g_from o h) x -> at_frame (o:=o) (c:=c) (g_into o h) x' -> conjugate h x x' ->
  g_adjoint_times o h (g_adjoint_times o x v) = g_adjoint_times o x' (g_adjoint_times o h v).
Proof.
  intros Wh (Wx & Ix & Fx) (Wx' & Ix' & Fx') C. destruct (mul_match _ _ L h x Wh Wx (eq_sym Ix)) as (hx & Ehx & _ & Fhx).
  rewrite <- (mul_ad _ _ L h x hx v Wh Wx Ehx). apply (mul_ad _ _ L x' h hx v Wx' Wh). unfold conjugate in C. congruence.
Qed.
Lemma step_conj h sg sg' q v j j' : well_formed c h -> seg_point_frame o sg = g_from o h -> seg_point_frame o sg' = g_into o h ->
  exp_respects h (t_scale o (pc_a q) v) -> at_frame (o:=o) (c:=c) (g_from o h) (frame_from_ref j) -> at_frame (o:=o) (c:=c) (g_into o h) (frame_from_ref j') ->
  conj_jet h j j' -> conj_jet h (step (o:=o) sg q v j) (step (o:=o) sg' q (g_adjoint_times o h v) j').
Proof.
  intros Wh Pf Pf' X Aj Aj' (C1 & C2 & C3).
  rewrite <- Pf in Aj. rewrite <- Pf' in Aj'.
  destruct (accumulate_ok L sg q v j Aj) as (g & r & Eg & Ag & Mr & Er & Ar).
  destruct (accumulate_ok L sg' q (g_adjoint_times o h v) j' Aj') as (g' & r' & Eg' & Ag' & Mr' & Er' & Ar').
  unfold step. rewrite Er, Er'. rewrite Pf, Pf' in *.
  assert (Cg : conjugate h g g') by (apply X; [exact Eg|rewrite (ad_scale _ _ L); exact Eg']).
  unfold jl_mul in Mr, Mr'. cbn [frame_from_ref d_frame_from_ref d2_frame_from_ref] in Mr, Mr'.
  apply obind_ok in Mr as (y & Ey & Mr). apply obind_ok in Mr' as (y' & Ey' & Mr'). injection Mr as <-. injection Mr' as <-.
  unfold conj_jet. cbn [frame_from_ref d_frame_from_ref d2_frame_from_ref]. split; [|split].
  - exact (conjugate_mul h g g' _ _ y y' Wh Ag Aj Ag' Aj' Cg C1 Ey Ey').
  - rewrite C2, (ad_add _ _ L), (ad_scale _ _ L), (conjugate_ad h g g' _ Wh Ag Ag' Cg). reflexivity.
  - rewrite C2, C3, !(ad_add _ _ L), !(ad_scale _ _ L), (ad_br _ _ L) by exact Wh.
    rewrite !(conjugate_ad h g g' _ Wh Ag Ag' Cg), (ad_scale _ _ L). reflexivity.
Qed.
(** The increments of a segment. *)
Definition exp_respects_all (h : G) (sg : tcurve_segment G T) (m : G) (t : R) : Prop :=
  exp_respects h (t_scale o (pc_a (q_dest_from_orig t)) (g_log o m)) /\
  exp_respects h (t_scale o (pc_a (q_d_orig t)) (d_frame_from_ref (seg_orig sg))) /\
  exp_respects h (t_scale o (pc_a (q_d_dest t)) (d_frame_from_ref (seg_dest sg))) /\
  exp_respects h (t_scale o (pc_a (q_d2_orig t)) (d2_frame_from_ref (seg_orig sg))) /\
  exp_respects h (t_scale o (pc_a (q_d2_dest t)) (d2_frame_from_ref (seg_dest sg))).
Lemma carried_segment h sg sg' m m' t j : well_formed c h -> segment_wf o c sg -> segment_wf o c sg' -> g_from o h = seg_point_frame o sg ->
  carried_by o h (seg_orig sg) (seg_orig sg') -> carried_by o h (seg_dest sg) (seg_dest sg') ->
  motion o (seg_orig sg) (seg_dest sg) m -> motion o (seg_orig sg') (seg_dest sg') m' ->
  g_log o m' = g_adjoint_times o h (g_log o m) -> exp_respects_all h sg m t ->
  seg_point_at o sg t = Ok j -> exists j', seg_point_at o sg' t = Ok j' /\ carried_by o h j j'.
Proof.
  intros Wh W W' Fh (A1 & A2 & A3) (B1 & B2 & B3) Mm Mm' Lm (X1 & X2 & X3 & X4 & X5) E.
  pose proof W as (Wo & Wd & So & Sf). pose proof W' as (Wo' & Wd' & _). unfold jet_l_wf in *.
  destruct (mul_ok_frames _ _ _ Wh Wo Fh A1) as (_ & Ia & Fa). change (seg_point_frame o sg' = g_into o h) in Ia. symmetry in Fh.
  destruct (seg_point_at_eq L sg t W) as (m1 & p & M1 & Ep & Eq & Wp & Sp). rewrite (motion_unique _ _ _ _ M1 Mm) in *.
  destruct (seg_point_at_eq L sg' t W') as (m2 & p' & M2 & Ep' & Eq' & Wp' & Sp'). rewrite (motion_unique _ _ _ _ M2 Mm') in *.
  rewrite Eq in E. injection E as <-. eexists. split; [exact Eq'|].
  assert (Cj : conj_jet h (rel_point (o:=o) sg m t) (rel_point (o:=o) sg' m' t)).
  { unfold rel_point. rewrite Lm, A2, A3, B2, B3.
    destruct (start_ok L sg) as (S0 & Es & D & D2). destruct (start_ok L sg') as (S0' & Es' & D' & D2').
    assert (C0 : conj_jet h (start_jet (o:=o) sg) (start_jet (o:=o) sg')).
    { unfold conj_jet. rewrite D, D2, D', D2', (ad_zero L). split; [|split; reflexivity]. unfold conjugate.
      rewrite Fh in Es. rewrite Ia in Es'.
      destruct (identity_some _ _ L (g_from o h)) as (u & Eu & _ & _ & _ & _ & _ & N). rewrite Eu in Es. injection Es as <-.
      destruct (identity_some _ _ L (g_into o h)) as (u' & Eu' & _ & _ & _ & _ & N' & _). rewrite Eu' in Es'. injection Es' as <-.
      rewrite (N h Wh eq_refl), (N' h Wh eq_refl). reflexivity. }
    repeat (apply step_conj; [exact Wh|congruence|congruence|assumption| | |];
      [rewrite <- Fh; repeat (apply (step_ok L)); exact S0|rewrite <- Ia; repeat (apply (step_ok L)); exact S0'|]). exact C0. }
  destruct Cj as (C1 & C2 & C3).
  unfold carried_by. cbn [jl_set_frame frame_from_ref d_frame_from_ref d2_frame_from_ref]. split; [|split; assumption].
  destruct (rel_point_ok L sg m t) as (Wr & Ir & Fr). destruct (rel_point_ok L sg' m' t) as (Wr' & Ir' & Fr').
  destruct (mul_match _ _ L h _ Wh Wr (eq_sym (eq_trans Ir Fh))) as (hr & Ehr & _).
  rewrite <- (assoc_ok h _ _ hr _ Wh Wr Wo (eq_sym (eq_trans Ir Fh)) Fr Ehr Ep).
  rewrite <- Ep'. apply (assoc_ok _ h _ hr _ Wr' Wh Wo (eq_trans Fr' Ia) (eq_sym Fh)); [|exact A1].
  rewrite <- C1. exact Ehr.
Qed.
Lemma motion_conj h sg sg' m m' : well_formed c h -> segment_wf o c sg -> segment_wf o c sg' -> g_from o h = seg_point_frame o sg ->
  carried_by o h (seg_orig sg) (seg_orig sg') -> carried_by o h (seg_dest sg) (seg_dest sg') ->
  motion o (seg_orig sg) (seg_dest sg) m -> motion o (seg_orig sg') (seg_dest sg') m' ->
  conjugate h m m' /\ at_frame (o:=o) (c:=c) (g_from o h) m /\ at_frame (o:=o) (c:=c) (g_into o h) m'.
Proof.
  intros Wh W W' Fh (A1 & _) (B1 & _) Mm Mm'.
  destruct (motion_ok L sg W) as (_ & m1 & _ & _ & M1 & Am & Md). rewrite (motion_unique _ _ _ _ M1 Mm) in *.
  destruct (motion_ok L sg' W') as (_ & m2 & _ & _ & M2 & Am' & Md'). rewrite (motion_unique _ _ _ _ M2 Mm') in *.
  pose proof W as (Wo & Wd & So & Sf). unfold jet_l_wf in *.
  destruct (mul_ok_frames _ _ _ Wh Wo Fh A1) as (_ & Ia & Fa). change (seg_point_frame o sg' = g_into o h) in Ia.
  rewrite Ia in Am'. rewrite <- Fh in Am. split; [|split; assumption].
  destruct Am as (Wm & Im & Fm), Am' as (Wm' & Im' & Fm'). unfold conjugate.
  destruct (mul_match _ _ L h m Wh Wm (eq_sym Im)) as (x & Ex & Ix & Fx). destruct (mul_match _ _ L m' h Wm' Wh Fm') as (y & Ey & Iy & Fy).
  rewrite Ex, Ey. f_equal.
  apply (cancel_right x y (frame_from_ref (seg_orig sg))).
  - exact (mul_wf _ _ L _ _ _ Wh Wm Ex).
  - exact (mul_wf _ _ L _ _ _ Wm' Wh Ey).
  - exact Wo.
  - rewrite Fx, Fm, Fh. reflexivity.
  - rewrite Fy. exact Fh.
  - rewrite (assoc_ok h m _ x _ Wh Wm Wo (eq_sym Im) (eq_trans Fm Fh) Ex Md).
    rewrite (assoc_ok m' h _ y _ Wm' Wh Wo Fm' Fh Ey A1). rewrite Md', B1. reflexivity.
Qed.
(** Where exp undoes log and respects the change of frames, log respects it too. *)
Lemma log_conj h m m' : well_formed c h -> at_frame (o:=o) (c:=c) (g_from o h) m -> at_frame (o:=o) (c:=c) (g_into o h) m' -> conjugate h m m' ->
  exact_log c m -> exp_respects h (g_log o m) -> g_exp o (g_adjoint_times o h (g_log o m)) (Some (g_into o h, g_into o h)) = Ok m'.
Proof.
  intros Wh (Wm & Im & Fm) (Wm' & Im' & Fm') C X R. pose proof (exp_log _ _ L m Wm X) as E. rewrite Im, Fm in E.
  destruct (exp_ok L (g_adjoint_times o h (g_log o m)) (g_into o h)) as (e & Ee & We & Ie & Fe). rewrite Ee. f_equal.
  apply (cancel_right e m' h We Wm' Wh Fe Fm'). rewrite <- C. symmetry. exact (R m e E Ee).
Qed.
(** Curves. *)
Lemma carried_answer h k k' : well_formed c h -> curve_wf o c k -> curve_wf o c k' ->
  (forall p, In p (control_pts k) -> g_from o h = g_into o (frame_from_ref (c_point p))) ->
  correspond (fun t => t) (carried_by o h) k k' ->
  (forall v, exp_respects h v) -> exact_motions o c k ->
  (forall a b m m', neighbours k a b -> motion o (c_point a) (c_point b) m ->
     g_exp o (g_adjoint_times o h (g_log o m)) (Some (g_into o h, g_into o h)) = Ok m' -> g_log o m' = g_adjoint_times o h (g_log o m)) ->
  answer o (fun t => t) (carried_by o h) k k'.
Proof.
  intros Wh W W' Fh Cr R X Lg. apply (answer_by_segments _ _ k k'); try assumption.
  - intros x y. split; intro H; exact H.
  - intros a b a' b' t j N N' Ta Tb Ra Rb _ E.
    destruct (neighbours_facts k a b (curve_inv k W) N) as (Ia & _ & _ & Wf).
    destruct (neighbours_facts k' a' b' (curve_inv k' W') N') as (_ & _ & _ & Wf').
    unfold segment_jet in *. rewrite Ta, Tb. apply obind_ok in E as (u & Eu & E). injection E as <-.
    assert (Ca : carried_by o h (seg_orig (curve (new_segment (o:=o) a b))) (seg_orig (curve (new_segment (o:=o) a' b')))).
    { destruct Ra as (R1 & R2 & R3). unfold carried_by, new_segment, normalized. cbn [curve seg_orig frame_from_ref d_frame_from_ref d2_frame_from_ref].
      rewrite R1, R2, R3, Ta, Tb, !(ad_scale _ _ L). auto. }
    assert (Cb : carried_by o h (seg_dest (curve (new_segment (o:=o) a b))) (seg_dest (curve (new_segment (o:=o) a' b')))).
    { destruct Rb as (R1 & R2 & R3). unfold carried_by, new_segment, normalized. cbn [curve seg_dest frame_from_ref d_frame_from_ref d2_frame_from_ref].
      rewrite R1, R2, R3, Ta, Tb, !(ad_scale _ _ L). auto. }
    destruct (motion_ok L _ Wf) as (_ & m & _ & _ & Mm & _). destruct (motion_ok L _ Wf') as (_ & m' & _ & _ & Mm' & _).
    destruct (motion_conj h _ _ m m' Wh Wf Wf' (Fh a Ia) Ca Cb Mm Mm') as (Cm & Am & Am').
    assert (Lm : g_log o m' = g_adjoint_times o h (g_log o m)).
    { apply (Lg a b m m' N Mm). exact (log_conj h m m' Wh Am Am' Cm (X a b N m Mm) (R _)). }
    destruct (carried_segment h _ _ m m' (1 / (c_time b - c_time a) * (t - c_time a)) u Wh Wf Wf' (Fh a Ia) Ca Cb Mm Mm' Lm) as (u' & Eu' & R1 & R2 & R3).
    { repeat split; apply R. }
    { exact Eu. }
    rewrite Eu'. cbn [obind]. eexists. split; [reflexivity|].
    unfold carried_by, unnormalize, jl_set_d, jl_set_d2. cbn [frame_from_ref d_frame_from_ref d2_frame_from_ref]. rewrite R1, R2, R3, !(ad_scale _ _ L). auto.
Qed.
End Changes.

(** ** The two groups *)
Lemma so3_exp_respects h v : so3_wf h -> exp_respects (o:=so3_ops) h v.
Proof.
  intros [H F] e e'. cbn [g_exp g_adjoint_times g_into g_from so3_ops]. unfold conjugate. cbn [g_mul so3_ops].
  rewrite !so3_exp_eq by apply frames_ok_self. intros E E'. injection E as <-. injection E' as <-.
  rewrite !so3_mul_match; try assumption; try apply frames_ok_self; try reflexivity.
  cbn [rotation_matrix so3_into so3_from]. f_equal. f_equal. unfold so3_adjoint_times. rewrite <- mexp_conj by exact H.
  rewrite <- mmul_assoc, rot_mtrans_l, mmul_1_r by exact H. reflexivity.
Qed.
Lemma screw_add_v w v v' s : screw w (vadd v v') s = vadd (screw w v s) (screw w v' s).
Proof. unfold screw. destruct (Req_EM_T _ _); [vring|]. generalize (sin (s * norm w) / norm w) ((1 - cos (s * norm w)) / (norm w * norm w)) ((s * norm w - sin (s * norm w)) / (norm w * norm w * norm w)). vring. Qed.
Lemma screw_rot m w v s : is_rotation m -> screw (mvec m w) (mvec m v) s = mvec m (screw w v s).
Proof.
  intro H. unfold screw. rewrite rot_norm, rot_dot, rot_cross by exact H. destruct (Req_EM_T _ _); rewrite ?mvec_add, ?mvec_scale; reflexivity.
Qed.
Lemma screw_cross w v s : screw w (cross w v) s = vsub (mvec (mexp (vscale s w)) v) v.
Proof.
  rewrite screw_ode. assert (Q : screw w (cross w v) s = cross w (screw w v s)).
  { unfold screw. destruct (Req_EM_T _ _); [vring|]. generalize (sin (s * norm w) / norm w) ((1 - cos (s * norm w)) / (norm w * norm w)) ((s * norm w - sin (s * norm w)) / (norm w * norm w * norm w)). vring. }
  rewrite Q. generalize (cross w (screw w v s)). vring.
Qed.
Lemma ideal_exp_respects h v : se3_wf h -> exp_respects (o:=se3_ideal_ops) h v.
Proof.
  intros [H F] e e'. cbn [g_exp g_adjoint_times g_into g_from se3_ideal_ops]. unfold conjugate. cbn [g_mul se3_ideal_ops].
  rewrite !se3_ideal_exp_eq by apply frames_ok_self. intros E E'. injection E as <-. injection E' as <-.
  assert (K : forall i m t, se3_framing (SE3 (unframed m) t i i)) by (intros; split; [apply frames_ok_self|split; reflexivity]).
  rewrite !se3_mul_match; try assumption; try apply K; try reflexivity. f_equal.
  unfold se3_times, se3_adjoint_times, se3_mat. cbn [rotation translation se3_into se3_from trot ttrans]. unfold unframed. cbn [rotation_matrix].
  f_equal.
  - f_equal. rewrite <- mexp_conj by exact H. rewrite <- mmul_assoc, rot_mtrans_l, mmul_1_r by exact H. reflexivity.
  - set (m := rotation_matrix (rotation h)) in *. rewrite screw_add_v, screw_rot by exact H.
    rewrite cross_anti. replace (vneg (cross (mvec m (trot v)) (translation h))) with (cross (mvec m (trot v)) (vneg (translation h))) by vring.
    rewrite screw_cross, vscale_1, mvec_neg. generalize (mvec (mexp (mvec m (trot v))) (translation h)) (mvec m (screw (trot v) (ttrans v) 1)). vring.
Qed.

(** ** SO3 curves *)
Lemma point_so3 h k k' : so3_wf h -> curve_wf so3_ops so3_calc k -> curve_wf so3_ops so3_calc k' ->
  (forall p, In p (control_pts k) -> so3_from h = so3_into (frame_from_ref (c_point p))) ->
  correspond (fun t => t) (carried_by so3_ops h) k k' ->
  (forall a b m, neighbours k a b -> motion so3_ops (c_point a) (c_point b) m -> norm (so3_log m) < PI) ->
  answer so3_ops (fun t => t) (carried_by so3_ops h) k k'.
Proof.
  intros Wh W W' Fh Cr Small. apply (carried_answer so3_laws h k k'); try assumption.
  - intro v. apply so3_exp_respects, Wh.
  - intros a b N m M. exact Logic.I.
  - intros a b m m' N M E. cbn [g_log g_adjoint_times g_exp g_into so3_ops] in *. rewrite so3_exp_eq in E by apply frames_ok_self. injection E as <-.
    unfold so3_log at 1. cbn [rotation_matrix]. apply mlog_mexp. unfold so3_adjoint_times. rewrite rot_norm by apply Wh. exact (Small a b m N M).
Qed.

(** ** SE3 curves *)
Lemma point_ideal h k k' : se3_wf h -> curve_wf se3_ops se3_calc k -> curve_wf se3_ops se3_calc k' ->
  (forall p, In p (control_pts k) -> se3_from h = se3_into (frame_from_ref (c_point p))) ->
  correspond (fun t => t) (carried_by se3_ops h) k k' ->
  (forall a b m, neighbours k a b -> motion se3_ops (c_point a) (c_point b) m -> norm (trot (se3_log m)) < PI /\ plain_angle (norm2 (trot (se3_log m)))) ->
  answer se3_ideal_ops (fun t => t) (carried_by se3_ideal_ops h) k k'.
Proof.
  intros Wh W W' Fh Cr Small. apply (carried_answer se3_ideal_laws h k k'); try assumption.
  - intro v. apply ideal_exp_respects, Wh.
  - intros a b N m M. apply motion_ideal in M. exact (proj2 (Small a b m N M)).
  - intros a b m m' N M E. apply motion_ideal in M. destruct (Small a b m N M) as [S1 S2].
    cbn [g_log g_adjoint_times g_exp g_into se3_ideal_ops] in *.
    assert (Q : norm (trot (se3_adjoint_times h (se3_log m))) = norm (trot (se3_log m))).
    { unfold se3_adjoint_times. cbn [trot]. apply rot_norm, Wh. }
    assert (Q2 : norm2 (trot (se3_adjoint_times h (se3_log m))) = norm2 (trot (se3_log m))).
    { unfold se3_adjoint_times. cbn [trot]. apply rot_norm2, Wh. }
    rewrite se3_ideal_exp_regular in E by (rewrite Q2; exact S2).
    refine (proj2 (proj2 (se3_log_exp _ _ _ _ E)) _); [rewrite Q; exact S1|rewrite Q2; exact S2].
Qed.
Lemma Ok_inj {A} (a b : A) : Ok a = Ok b -> a = b.
Proof. intro H. injection H. auto. Qed.
Lemma ok_covers {G T} {o : lie_ops G T} {c : lie_calc G T} (L : lie_laws o c) k t j : curve_wf o c k -> tc_point_at o k t = Ok j -> covers k t.
Proof.
  intros W E. destruct (covers_dec k t) as [C|C]; [exact C|].
  rewrite (proj2 (proj1 (point_at_throws L k t (curve_inv k W))) (or_introl C)) in E. discriminate E.
Qed.
Lemma point_se3 h k k' t : se3_wf h -> curve_wf se3_ops se3_calc k -> curve_wf se3_ops se3_calc k' ->
  (forall p, In p (control_pts k) -> se3_from h = se3_into (frame_from_ref (c_point p))) ->
  correspond (fun t => t) (carried_by se3_ops h) k k' ->
  (forall a b m, neighbours k a b -> motion se3_ops (c_point a) (c_point b) m -> norm (trot (se3_log m)) < PI /\ plain_angle (norm2 (trot (se3_log m)))) ->
  (tc_point_at se3_ops k t = Throw <-> tc_point_at se3_ops k' t = Throw) /\
  forall j, tc_point_at se3_ops k t = Ok j -> exists j' g l l', tc_point_at se3_ops k' t = Ok j' /\
    increments_at k t l /\ increments_at k' t l' /\ se3_mul h (frame_from_ref j) = Ok g /\
    pose_close (/ 10^23 * (travel l + travel l')) (frame_from_ref j') g /\
    trot (d_frame_from_ref j') = trot (se3_adjoint_times h (d_frame_from_ref j)) /\
    trot (d2_frame_from_ref j') = trot (se3_adjoint_times h (d2_frame_from_ref j)) /\
    (none_tiny l -> none_tiny l' -> carried_by se3_ops h j j').
Proof.
  intros Wh W W' Fh Cr Small. destruct (point_ideal h k k' Wh W W' Fh Cr Small t) as [A B].
  assert (Cv : forall k, curve_wf se3_ops se3_calc k -> forall t, tc_point_at se3_ops k t = Throw <-> tc_point_at se3_ideal_ops k t = Throw).
  { clear. intros k W t. assert (W' : curve_wf se3_ideal_ops se3_ideal_calc k) by exact W.
    rewrite (proj1 (point_at_throws se3_laws k t (curve_inv k W))), (proj1 (point_at_throws se3_ideal_laws k t (curve_inv k W'))). reflexivity. }
  split; [rewrite (Cv k W t), (Cv k' W' t); exact B|]. intros j Ej.
  pose proof (ok_covers se3_laws k t j W Ej) as C.
  destruct (curve_close k t W (covers_length k t C) C) as (a & b & s & m & j1 & i & N & Ht & Is & Js & M & E1 & Ei & Cl & Ex).
  rewrite Ej in E1. apply Ok_inj in E1. subst j1.
  destruct (A i Ei) as (i' & Ei' & Ri & Rd & Rd2).
  assert (Wi' : curve_wf se3_ideal_ops se3_ideal_calc k') by exact W'.
  pose proof (ok_covers se3_ideal_laws k' t i' Wi' Ei') as C'.
  destruct (curve_close k' t W' (covers_length k' t C') C') as (a' & b' & s' & m' & j' & i1 & N' & Ht' & Is' & Js' & M' & E1 & Ei1 & Cl' & Ex').
  rewrite Ei' in Ei1. apply Ok_inj in Ei1. subst i1.
  set (l := increments _ _ _) in Cl, Ex. set (l' := increments _ _ _) in Cl', Ex'.
  destruct Cl as ((P1 & P2 & P3 & P4) & D1 & D2), Cl' as ((P1' & P2' & P3' & P4') & D1' & D2').
  cbn [g_mul g_adjoint_times se3_ideal_ops] in Ri, Rd, Rd2.
  destruct (proj2 (point_at_throws se3_laws k t (curve_inv k W)) C (covers_length k t C)) as (x & Ex1 & Wx & Fx).
  rewrite Ej in Ex1. apply Ok_inj in Ex1. subst x.
  assert (Wi : curve_wf se3_ideal_ops se3_ideal_calc k) by exact W.
  destruct (proj2 (point_at_throws se3_ideal_laws k t (curve_inv k Wi)) C (covers_length k t C)) as (x & Ex1 & Wy & _).
  rewrite Ei in Ex1. apply Ok_inj in Ex1. subst x. unfold jet_l_wf in Wx, Wy. cbn [well_formed se3_calc se3_ideal_calc] in Wx, Wy.
  destruct (neighbours_facts k a b (curve_inv k W) N) as (Ia & _).
  assert (Fj : se3_from h = se3_into (frame_from_ref j)).
  { rewrite (Fh a Ia). symmetry. exact (proj1 (Fx a Ia)). }
  destruct (mul_match _ _ se3_laws h (frame_from_ref j) Wh Wx Fj) as (g & Eg & _). cbn [g_mul se3_ops] in Eg.
  exists j', g, l, l'. split; [exact E1|]. split; [exists a, b, s, m; auto 8|]. split; [exists a', b', s', m'; auto 8|]. split; [exact Eg|].
  split; [|split; [|split]].
  - assert (Z : pose_close 0 h h) by (split; [reflexivity|split; [reflexivity|split; [reflexivity|rewrite norm_vsub_self; lra]]]).
    assert (Y : pose_close (/ 10^23 * travel l) (frame_from_ref j) (frame_from_ref i)) by (repeat (split; [assumption|]); assumption).
    destruct (mul_close _ _ _ _ _ _ _ _ Wh Wh Wx Wy Z Y Eg Ri Fj) as (X1 & X2 & X3 & X4).
    split; [congruence|]. split; [congruence|]. split; [congruence|].
    eapply Rle_trans; [apply (norm_triangle_sub _ (translation (frame_from_ref i')))|].
    assert (Sw : norm (vsub (translation (frame_from_ref i')) (translation g)) = norm (vsub (translation g) (translation (frame_from_ref i')))).
    { rewrite <- norm_neg. f_equal. vring. }
    rewrite Sw. lra.
  - rewrite D1', Rd. unfold se3_adjoint_times. cbn [trot]. rewrite D1. reflexivity.
  - rewrite D2', Rd2. unfold se3_adjoint_times. cbn [trot]. rewrite D2. reflexivity.
  - intros T1 T2. rewrite (Ex T1), (Ex' T2). split; [exact Ri|]. split; [exact Rd|exact Rd2].
Qed.
