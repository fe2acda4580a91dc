(** Two-jets: composition, inversion and conversion, for any group with [lie_laws]. *)
From Verif Require Import Cpp UuidModel RotSpec GeomModel TransProtoSpec DerivSpec DerivProofs FrameSpec LieSpec
  JetModel JetSpec JetLaws.
Local Open Scope R_scope.

Section Jets.
Context {G T : Type} {o : lie_ops G T} {c : lie_calc G T} (L : lie_laws o c).

(** Equations between tangent vectors, by coordinates. *)
Ltac teq := unfold t_sub, t_neg; apply (coord_ext _ _ L); intro;
  repeat first [rewrite (coord_add _ _ L)|rewrite (coord_scale _ _ L)|rewrite (coord_zero _ _ L)]; try ring.

Lemma br_self a : g_adjoint_times_alg o a a = t_zero o.
Proof.
  teq. pose proof (f_equal (fun x => coord c x n) (br_anti _ _ L a a)) as E. cbn beta in E.
  rewrite (coord_scale _ _ L) in E. lra.
Qed.
Lemma t_scale_one v : t_scale o 1 v = v.
Proof. teq. Qed.
Lemma t_scale_zero v : t_scale o 0 v = t_zero o.
Proof. teq. Qed.
Lemma t_scale_zero_r k : t_scale o k (t_zero o) = t_zero o.
Proof. teq. Qed.
Lemma t_add_zero_l v : t_add o (t_zero o) v = v.
Proof. teq. Qed.
Lemma t_add_zero_r v : t_add o v (t_zero o) = v.
Proof. teq. Qed.
Lemma ad_zero g : g_adjoint_times o g (t_zero o) = t_zero o.
Proof. rewrite <- (t_scale_zero (t_zero o)), (ad_scale _ _ L), !t_scale_zero. reflexivity. Qed.
Lemma br_zero_l v : g_adjoint_times_alg o (t_zero o) v = t_zero o.
Proof. rewrite <- (t_scale_zero (t_zero o)), (br_scale_l _ _ L), !t_scale_zero. reflexivity. Qed.
Lemma br_zero_r v : g_adjoint_times_alg o v (t_zero o) = t_zero o.
Proof. rewrite <- (t_scale_zero (t_zero o)), (br_scale_r _ _ L), !t_scale_zero. reflexivity. Qed.
Lemma neg_neg v : t_neg o (t_neg o v) = v.
Proof. teq. Qed.

(** ** Derivatives of curves of tangent vectors *)
Lemma td_eq u t a b : tangent_derivative c u t a -> a = b -> tangent_derivative c u t b.
Proof. intros H <-. exact H. Qed.
Lemma td_add u w t a b : tangent_derivative c u t a -> tangent_derivative c w t b ->
  tangent_derivative c (fun s => t_add o (u s) (w s)) t (t_add o a b).
Proof.
  intros A B n. rewrite (coord_add _ _ L). apply (dl_ext (fun s => coord c (u s) n + coord c (w s) n)).
  { intro s. symmetry. apply (coord_add _ _ L). } apply dl_plus; [apply A|apply B].
Qed.
Lemma td_scale k k' u t u' : derivable_pt_lim k t k' -> tangent_derivative c u t u' ->
  tangent_derivative c (fun s => t_scale o (k s) (u s)) t (t_add o (t_scale o k' (u t)) (t_scale o (k t) u')).
Proof.
  intros A B n. rewrite (coord_add _ _ L), !(coord_scale _ _ L).
  apply (dl_ext (fun s => k s * coord c (u s) n)). { intro s. symmetry. apply (coord_scale _ _ L). }
  eapply dl_eq; [apply (dl_mult k (fun s => coord c (u s) n)); [exact A|apply B]|]. ring.
Qed.
Lemma td_const v t : tangent_derivative c (fun _ => v) t (t_zero o).
Proof. intro n. rewrite (coord_zero _ _ L). apply dl_const. Qed.
Lemma td_neg u t a : tangent_derivative c u t a -> tangent_derivative c (fun s => t_neg o (u s)) t (t_neg o a).
Proof.
  intro H. eapply td_eq; [apply (td_scale (fun _ => -1) 0 u); [apply dl_const|exact H]|]. teq.
Qed.
Lemma td_chain u f t u' f' : derivable_pt_lim f t f' -> tangent_derivative c u (f t) u' ->
  tangent_derivative c (fun s => u (f s)) t (t_scale o f' u').
Proof.
  intros A B n. rewrite (coord_scale _ _ L). eapply dl_eq; [apply (dl_comp (fun x => coord c (u x) n) f); [exact A|apply B]|]. ring.
Qed.
Lemma td_near u w t a r : 0 < r -> (forall s, Rabs (s - t) < r -> u s = w s) -> tangent_derivative c u t a ->
  tangent_derivative c w t a.
Proof.
  intros P E H n. apply (dl_ext_near (fun s => coord c (u s) n) _ _ _ r P); [|apply H].
  intros s Hs. rewrite E by exact Hs. reflexivity.
Qed.
Lemma td_unique u t a b : tangent_derivative c u t a -> tangent_derivative c u t b -> a = b.
Proof. intros A B. apply (coord_ext _ _ L). intro n. exact (uniqueness_limite _ _ _ _ (A n) (B n)). Qed.
Lemma td_glue u a b t w r : 0 < r -> u t = a t -> u t = b t ->
  (forall s, t - r < s < t -> u s = a s) -> (forall s, t < s < t + r -> u s = b s) ->
  tangent_derivative c a t w -> tangent_derivative c b t w -> tangent_derivative c u t w.
Proof.
  intros P Ea Eb La Lb A B n.
  apply (dl_glue _ (fun s => coord c (a s) n) (fun s => coord c (b s) n) _ _ r P); try congruence; try apply A; try apply B.
  - intros s Hs. rewrite La by exact Hs. reflexivity.
  - intros s Hs. rewrite Lb by exact Hs. reflexivity.
Qed.

(** ** Inverses *)
Lemma ad_inverse g h v : well_formed c g -> g_inverse o g = Ok h ->
  g_adjoint_times o g (g_adjoint_times o h v) = v /\ g_adjoint_times o h (g_adjoint_times o g v) = v.
Proof.
  intros W E. destruct (inverse_ok _ _ L g W) as (h' & E' & Wh & I & F & M1 & M2 & _).
  rewrite E in E'. injection E' as <-.
  destruct (identity_some _ _ L (g_into o g)) as (e1 & X1 & _ & _ & _ & A1 & _).
  destruct (identity_some _ _ L (g_from o g)) as (e2 & X2 & _ & _ & _ & A2 & _).
  rewrite X1 in M1. rewrite X2 in M2. split.
  - rewrite <- (mul_ad _ _ L _ _ _ v W Wh M1). apply A1.
  - rewrite <- (mul_ad _ _ L _ _ _ v Wh W M2). apply A2.
Qed.
(** The inverse as a total function. *)
Definition inv_of (g : G) : G := match g_inverse o g with Ok h => h | _ => g_default o end.
Lemma inv_of_ok g : well_formed c g -> g_inverse o g = Ok (inv_of g).
Proof. intro W. unfold inv_of. destruct (inverse_ok _ _ L g W) as (h & -> & _). reflexivity. Qed.
Lemma inv_of_wf g : well_formed c g -> well_formed c (inv_of g).
Proof. intro W. destruct (inverse_ok _ _ L g W) as (h & E & Wh & _). unfold inv_of. rewrite E. exact Wh. Qed.

(** ** Composition of curves *)
Lemma describes_l_mul a b p t ja jb :
  (forall s, well_formed c (a s)) -> (forall s, well_formed c (b s)) -> (forall s, g_mul o (a s) (b s) = Ok (p s)) ->
  describes_l c a t ja -> describes_l c b t jb -> exists j, jl_mul o ja jb = Ok j /\ describes_l c p t j.
Proof.
  intros Wa Wb M (Ea & w & r & Pr & Vw & Ew & Dw) (Eb & u & q & Pq & Vu & Eu & Du).
  unfold jl_mul. rewrite <- Ea, <- Eb, M. cbn [obind]. eexists. split; [reflexivity|].
  split; [reflexivity|]. cbn [frame_from_ref d_frame_from_ref d2_frame_from_ref].
  exists (fun s => t_add o (w s) (g_adjoint_times o (a s) (u s))), (Rmin r q).
  split; [apply Rmin_pos; assumption|]. split; [|split].
  - intros s Hs. apply (vel_mul _ _ L a b p s _ _ Wa Wb M); [apply Vw|apply Vu];
      (eapply Rlt_le_trans; [exact Hs|]); [apply Rmin_l|apply Rmin_r].
  - rewrite Ew, Eu. reflexivity.
  - eapply td_eq; [apply td_add; [exact Dw|apply (vel_ad _ _ L a t (w t)); [apply Vw, near_self, Pr|exact Du]]|].
    rewrite Ew, Eu. teq.
Qed.
Lemma describes_r_mul a b p t ja jb :
  (forall s, well_formed c (a s)) -> (forall s, well_formed c (b s)) -> (forall s, g_mul o (a s) (b s) = Ok (p s)) ->
  describes_r c a t ja -> describes_r c b t jb -> exists j, jr_mul o ja jb = Ok j /\ describes_r c p t j.
Proof.
  intros Wa Wb M (Ea & w & r & Pr & Vw & Ew & Dw) (Eb & u & q & Pq & Vu & Eu & Du).
  unfold jr_mul. rewrite <- Ea, <- Eb, M, (inv_of_ok _ (Wb t)). cbn [obind]. eexists. split; [reflexivity|].
  split; [reflexivity|]. cbn [ref_from_frame d_ref_from_frame d2_ref_from_frame].
  assert (Iv := fun s => inv_of_ok _ (Wb s)).
  assert (Vl : forall s, Rabs (s - t) < q -> left_velocity c b s (g_adjoint_times o (b s) (u s))).
  { intros s Hs. apply (vel_right _ _ L b s _ (Wb s)), Vu, Hs. }
  exists (fun s => t_add o (u s) (g_adjoint_times o (inv_of (b s)) (w s))), (Rmin r q).
  split; [apply Rmin_pos; assumption|]. split; [|split].
  - intros s Hs. apply (vel_right _ _ L p s _ (mul_wf _ _ L _ _ _ (Wa s) (Wb s) (M s))).
    rewrite (mul_ad _ _ L _ _ _ _ (Wa s) (Wb s) (M s)), (ad_add _ _ L), (proj1 (ad_inverse _ _ _ (Wb s) (Iv s))).
    replace (g_adjoint_times o (a s) (t_add o (g_adjoint_times o (b s) (u s)) (w s))) with
      (t_add o (g_adjoint_times o (a s) (w s)) (g_adjoint_times o (a s) (g_adjoint_times o (b s) (u s))))
      by (rewrite (ad_add _ _ L); teq).
    apply (vel_mul _ _ L a b p s _ _ Wa Wb M).
    + apply (vel_right _ _ L a s _ (Wa s)), Vw. eapply Rlt_le_trans; [exact Hs|apply Rmin_l].
    + apply Vl. eapply Rlt_le_trans; [exact Hs|apply Rmin_r].
  - rewrite Ew, Eu. reflexivity.
  - eapply td_eq; [apply td_add; [exact Du|]|].
    + apply (vel_ad _ _ L (fun s => inv_of (b s)) t (t_neg o (u t))); [|exact Dw].
      pose proof (vel_inverse _ _ L b (fun s => inv_of (b s)) t _ Wb Iv (Vl t (near_self t q Pq))) as H. cbn beta in H.
      rewrite (proj2 (ad_inverse _ _ _ (Wb t) (Iv t))) in H. exact H.
    + cbn beta. rewrite Ew, Eu. unfold t_neg at 1. rewrite (br_scale_l _ _ L). teq.
Qed.

(** ** Inverse curves *)
Lemma describes_l_inverse a p t j : (forall s, well_formed c (a s)) -> (forall s, g_inverse o (a s) = Ok (p s)) ->
  describes_l c a t j -> exists i, jl_inverse o j = Ok i /\ describes_l c p t i.
Proof.
  intros Wa I (Ea & w & r & Pr & Vw & Ew & Dw). unfold jl_inverse, jl_identity.
  destruct (identity_none _ _ L) as (e & ->). cbn [obind]. rewrite <- Ea, I. cbn [obind].
  eexists. split; [reflexivity|]. split; [reflexivity|].
  cbn [frame_from_ref d_frame_from_ref d2_frame_from_ref jl_set_d jl_set_d2 jl_set_frame].
  assert (Vp : forall s, Rabs (s - t) < r -> left_velocity c p s (t_neg o (g_adjoint_times o (p s) (w s)))).
  { intros s Hs. apply (vel_inverse _ _ L a p s _ Wa I), Vw, Hs. }
  exists (fun s => t_neg o (g_adjoint_times o (p s) (w s))), r.
  split; [exact Pr|]. split; [exact Vp|]. split; [rewrite Ew; reflexivity|].
  eapply td_eq; [apply td_neg, (vel_ad _ _ L p t _ _ _ (Vp t (near_self t r Pr)) Dw)|].
  unfold t_neg. rewrite (br_scale_l _ _ L), br_self. cbn beta. teq.
Qed.
Lemma describes_right_two_jet a p t j : (forall s, well_formed c (a s)) -> (forall s, g_inverse o (a s) = Ok (p s)) ->
  describes_l c a t j -> exists i, right_two_jet o j = Ok i /\ describes_r c p t i.
Proof.
  intros Wa I (Ea & w & r & Pr & Vw & Ew & Dw). unfold right_two_jet. rewrite <- Ea, I. cbn [obind].
  eexists. split; [reflexivity|]. split; [reflexivity|]. cbn [d_ref_from_frame d2_ref_from_frame].
  assert (Wp : forall s, well_formed c (p s)).
  { intro s. destruct (inverse_ok _ _ L _ (Wa s)) as (h & E & W & _). rewrite I in E. injection E as ->. exact W. }
  exists (fun s => t_neg o (w s)), r. split; [exact Pr|]. split; [|split].
  - intros s Hs. apply (vel_right _ _ L p s _ (Wp s)). unfold t_neg. rewrite (ad_scale _ _ L).
    apply (vel_inverse _ _ L a p s _ Wa I), Vw, Hs.
  - rewrite Ew. reflexivity.
  - apply td_neg, Dw.
Qed.
Lemma describes_r_inverse a p t j : (forall s, well_formed c (a s)) -> (forall s, g_inverse o (a s) = Ok (p s)) ->
  describes_r c a t j -> exists i, jr_inverse o j = Ok i /\ describes_r c p t i.
Proof.
  intros Wa I (Ea & w & r & Pr & Vw & Ew & Dw). unfold jr_inverse, jr_identity.
  destruct (identity_none _ _ L) as (e & ->). cbn [obind]. rewrite <- Ea, I. cbn [obind].
  eexists. split; [reflexivity|]. split; [reflexivity|].
  cbn [ref_from_frame d_ref_from_frame d2_ref_from_frame jr_set_d jr_set_d2 jr_set_frame].
  assert (Wp : forall s, well_formed c (p s)).
  { intro s. destruct (inverse_ok _ _ L _ (Wa s)) as (h & E & W & _). rewrite I in E. injection E as ->. exact W. }
  assert (Vl : forall s, Rabs (s - t) < r -> left_velocity c a s (g_adjoint_times o (a s) (w s))).
  { intros s Hs. apply (vel_right _ _ L a s _ (Wa s)), Vw, Hs. }
  exists (fun s => t_neg o (g_adjoint_times o (a s) (w s))), r. split; [exact Pr|]. split; [|split].
  - intros s Hs. apply (vel_right _ _ L p s _ (Wp s)). unfold t_neg. rewrite (ad_scale _ _ L).
    apply (vel_inverse _ _ L a p s _ Wa I), Vl, Hs.
  - rewrite Ew. reflexivity.
  - eapply td_eq; [apply td_neg, (vel_ad _ _ L a t _ _ _ (Vl t (near_self t r Pr)) Dw)|].
    rewrite br_self. teq.
Qed.
Lemma describes_left_two_jet a p t j : (forall s, well_formed c (a s)) -> (forall s, g_inverse o (a s) = Ok (p s)) ->
  describes_r c a t j -> exists i, left_two_jet o j = Ok i /\ describes_l c p t i.
Proof.
  intros Wa I (Ea & w & r & Pr & Vw & Ew & Dw). unfold left_two_jet. rewrite <- Ea, I. cbn [obind].
  eexists. split; [reflexivity|]. split; [reflexivity|]. cbn [d_frame_from_ref d2_frame_from_ref].
  exists (fun s => t_neg o (w s)), r. split; [exact Pr|]. split; [|split].
  - intros s Hs. pose proof (proj1 (vel_right _ _ L a s _ (Wa s)) (Vw s Hs)) as V.
    apply (vel_inverse _ _ L a p s _ Wa I) in V. rewrite (proj2 (ad_inverse _ _ _ (Wa s) (I s))) in V. exact V.
  - rewrite Ew. reflexivity.
  - apply td_neg, Dw.
Qed.
(** A curve has at most one jet of each kind. *)
Lemma describes_l_unique p t j k : (forall s, well_formed c (p s)) -> describes_l c p t j -> describes_l c p t k -> j = k.
Proof.
  intros W (Ea & w & r & Pr & Vw & Ew & Dw) (Eb & u & q & Pq & Vu & Eu & Du).
  assert (E : forall s, Rabs (s - t) < Rmin r q -> w s = u s).
  { intros s Hs. apply (vel_unique _ _ L p s); [apply W|apply Vw|apply Vu]; (eapply Rlt_le_trans; [exact Hs|]);
      [apply Rmin_l|apply Rmin_r]. }
  assert (P : 0 < Rmin r q) by (apply Rmin_pos; assumption).
  pose proof (td_unique _ _ _ _ (td_near _ _ _ _ _ P E Dw) Du) as E2.
  pose proof (E t (near_self t _ P)) as E1.
  destruct j as [g d d2], k as [g' d' d2']. cbn in *. subst. f_equal. exact E1.
Qed.
Lemma describes_r_unique p t j k : (forall s, well_formed c (p s)) -> describes_r c p t j -> describes_r c p t k -> j = k.
Proof.
  intros W (Ea & w & r & Pr & Vw & Ew & Dw) (Eb & u & q & Pq & Vu & Eu & Du).
  assert (E : forall s, Rabs (s - t) < Rmin r q -> w s = u s).
  { intros s Hs.
    assert (H : g_adjoint_times o (p s) (w s) = g_adjoint_times o (p s) (u s)).
    { apply (vel_unique _ _ L p s); [apply W|apply (vel_right _ _ L p s _ (W s)), Vw
        |apply (vel_right _ _ L p s _ (W s)), Vu]; (eapply Rlt_le_trans; [exact Hs|]); [apply Rmin_l|apply Rmin_r]. }
    rewrite <- (proj2 (ad_inverse _ _ (w s) (W s) (inv_of_ok _ (W s)))), H.
    apply (proj2 (ad_inverse _ _ (u s) (W s) (inv_of_ok _ (W s)))). }
  assert (P : 0 < Rmin r q) by (apply Rmin_pos; assumption).
  pose proof (td_unique _ _ _ _ (td_near _ _ _ _ _ P E Dw) Du) as E2.
  pose proof (E t (near_self t _ P)) as E1.
  destruct j as [g d d2], k as [g' d' d2']. cbn in *. subst. f_equal. exact E1.
Qed.

(** ** The group of two-jets *)
Lemma jl_inverse_eq j : well_formed c (frame_from_ref j) -> jl_inverse o j =
  Ok (JetL (inv_of (frame_from_ref j)) (t_neg o (g_adjoint_times o (inv_of (frame_from_ref j)) (d_frame_from_ref j)))
        (t_neg o (g_adjoint_times o (inv_of (frame_from_ref j)) (d2_frame_from_ref j)))).
Proof.
  intro W. unfold jl_inverse, jl_identity. destruct (identity_none _ _ L) as (e & ->). cbn [obind].
  rewrite (inv_of_ok _ W). reflexivity.
Qed.
Lemma jr_inverse_eq j : well_formed c (ref_from_frame j) -> jr_inverse o j =
  Ok (JetR (inv_of (ref_from_frame j)) (t_neg o (g_adjoint_times o (ref_from_frame j) (d_ref_from_frame j)))
        (t_neg o (g_adjoint_times o (ref_from_frame j) (d2_ref_from_frame j)))).
Proof.
  intro W. unfold jr_inverse, jr_identity. destruct (identity_none _ _ L) as (e & ->). cbn [obind].
  rewrite (inv_of_ok _ W). reflexivity.
Qed.
Lemma inv_facts g : well_formed c g ->
  g_inverse o g = Ok (inv_of g) /\ well_formed c (inv_of g) /\
  g_into o (inv_of g) = g_from o g /\ g_from o (inv_of g) = g_into o g /\
  g_mul o g (inv_of g) = g_identity o (Some (g_into o g, g_into o g)) /\
  g_mul o (inv_of g) g = g_identity o (Some (g_from o g, g_from o g)) /\ inv_of (inv_of g) = g.
Proof.
  intro W. destruct (inverse_ok _ _ L g W) as (h & E & Wh & I & F & M1 & M2 & II). unfold inv_of at 1 2 3 4 5 6 8.
  rewrite E. unfold inv_of. rewrite II. auto 10.
Qed.

Lemma jl_neutral j : jet_l_wf c j -> exists e1 e2,
  jl_identity o (Some (g_into o (frame_from_ref j), g_into o (frame_from_ref j))) = Ok e1 /\
  jl_identity o (Some (g_from o (frame_from_ref j), g_from o (frame_from_ref j))) = Ok e2 /\
  jl_mul o e1 j = Ok j /\ jl_mul o j e2 = Ok j.
Proof.
  intro W. unfold jet_l_wf in W. unfold jl_identity, jl_mul.
  destruct (identity_some _ _ L (g_into o (frame_from_ref j))) as (e1 & -> & _ & _ & _ & A1 & L1 & _).
  destruct (identity_some _ _ L (g_from o (frame_from_ref j))) as (e2 & -> & _ & _ & _ & A2 & _ & R2).
  cbn [obind]. do 2 eexists. split; [reflexivity|]. split; [reflexivity|].
  cbn [frame_from_ref d_frame_from_ref d2_frame_from_ref]. rewrite L1, R2 by (auto). cbn [obind].
  rewrite !A1, !ad_zero, br_zero_l, br_zero_r, !t_add_zero_l, !t_add_zero_r. destruct j as [g d d2]. split; reflexivity.
Qed.
Lemma jr_neutral j : jet_r_wf c j -> exists e1 e2,
  jr_identity o (Some (g_into o (ref_from_frame j), g_into o (ref_from_frame j))) = Ok e1 /\
  jr_identity o (Some (g_from o (ref_from_frame j), g_from o (ref_from_frame j))) = Ok e2 /\
  jr_mul o e1 j = Ok j /\ jr_mul o j e2 = Ok j.
Proof.
  intro W. unfold jet_r_wf in W. unfold jr_identity, jr_mul.
  destruct (identity_some _ _ L (g_into o (ref_from_frame j))) as (e1 & -> & _ & _ & _ & A1 & L1 & _).
  destruct (identity_some _ _ L (g_from o (ref_from_frame j))) as (e2 & -> & W2 & _ & _ & A2 & _ & R2).
  cbn [obind]. do 2 eexists. split; [reflexivity|]. split; [reflexivity|].
  cbn [ref_from_frame d_ref_from_frame d2_ref_from_frame]. rewrite L1, R2 by (auto). cbn [obind].
  rewrite (inv_of_ok _ W), (inv_of_ok _ W2). cbn [obind].
  assert (A2' : forall v, g_adjoint_times o (inv_of e2) v = v).
  { intro v. rewrite <- (A2 (g_adjoint_times o (inv_of e2) v)). exact (proj1 (ad_inverse _ _ v W2 (inv_of_ok _ W2))). }
  rewrite !A2', !ad_zero, br_zero_r, br_zero_l. unfold t_sub, t_neg. rewrite !t_scale_zero_r, !t_add_zero_r, !t_add_zero_l.
  destruct j as [g d d2]. split; reflexivity.
Qed.
Lemma jl_inverse_law j : jet_l_wf c j -> exists i, jl_inverse o j = Ok i /\ jet_l_wf c i /\
  jl_mul o j i = jl_identity o (Some (g_into o (frame_from_ref j), g_into o (frame_from_ref j))) /\
  jl_mul o i j = jl_identity o (Some (g_from o (frame_from_ref j), g_from o (frame_from_ref j))) /\
  jl_inverse o i = Ok j.
Proof.
  intro W. unfold jet_l_wf in *. rewrite jl_inverse_eq by exact W. eexists. split; [reflexivity|].
  destruct (inv_facts _ W) as (E & Wi & I & F & M1 & M2 & II). cbn [frame_from_ref].
  split; [exact Wi|]. split; [|split].
  - unfold jl_mul, jl_identity. cbn [frame_from_ref d_frame_from_ref d2_frame_from_ref]. rewrite M1.
    destruct (identity_some _ _ L (g_into o (frame_from_ref j))) as (e1 & -> & _). cbn [obind].
    unfold t_neg. rewrite !(ad_scale _ _ L), !(proj1 (ad_inverse _ _ _ W E)), (br_scale_r _ _ L), br_self.
    do 2 f_equal; teq.
  - unfold jl_mul, jl_identity. cbn [frame_from_ref d_frame_from_ref d2_frame_from_ref]. rewrite M2.
    destruct (identity_some _ _ L (g_from o (frame_from_ref j))) as (e1 & -> & _). cbn [obind].
    unfold t_neg. rewrite (br_scale_l _ _ L), br_self.
    do 2 f_equal; teq.
  - rewrite jl_inverse_eq by exact Wi. cbn [frame_from_ref d_frame_from_ref d2_frame_from_ref]. rewrite II.
    unfold t_neg. rewrite !(ad_scale _ _ L), !(proj1 (ad_inverse _ _ _ W E)). destruct j as [g d d2].
    cbn [frame_from_ref d_frame_from_ref d2_frame_from_ref]. do 2 f_equal; teq.
Qed.
Lemma jr_inverse_law j : jet_r_wf c j -> exists i, jr_inverse o j = Ok i /\ jet_r_wf c i /\
  jr_mul o j i = jr_identity o (Some (g_into o (ref_from_frame j), g_into o (ref_from_frame j))) /\
  jr_mul o i j = jr_identity o (Some (g_from o (ref_from_frame j), g_from o (ref_from_frame j))) /\
  jr_inverse o i = Ok j.
Proof.
  intro W. unfold jet_r_wf in *. rewrite jr_inverse_eq by exact W. eexists. split; [reflexivity|].
  destruct (inv_facts _ W) as (E & Wi & I & F & M1 & M2 & II). cbn [ref_from_frame].
  split; [exact Wi|]. split; [|split].
  - unfold jr_mul, jr_identity. cbn [ref_from_frame d_ref_from_frame d2_ref_from_frame]. rewrite M1.
    destruct (identity_some _ _ L (g_into o (ref_from_frame j))) as (e1 & -> & _). cbn [obind].
    rewrite (inv_of_ok _ Wi), II. cbn [obind].
    unfold t_neg. rewrite !(br_scale_l _ _ L), br_self. do 2 f_equal; teq.
  - unfold jr_mul, jr_identity. cbn [ref_from_frame d_ref_from_frame d2_ref_from_frame]. rewrite M2.
    destruct (identity_some _ _ L (g_from o (ref_from_frame j))) as (e1 & -> & _). cbn [obind].
    rewrite E. cbn [obind].
    unfold t_neg. rewrite !(ad_scale _ _ L), !(proj2 (ad_inverse _ _ _ W E)), (br_scale_r _ _ L), br_self.
    do 2 f_equal; teq.
  - rewrite jr_inverse_eq by exact Wi. cbn [ref_from_frame d_ref_from_frame d2_ref_from_frame]. rewrite II.
    unfold t_neg. rewrite !(ad_scale _ _ L), !(proj2 (ad_inverse _ _ _ W E)). destruct j as [g d d2].
    cbn [ref_from_frame d_ref_from_frame d2_ref_from_frame]. do 2 f_equal; teq.
Qed.
Lemma jl_assoc a b d : jet_l_wf c a -> jet_l_wf c b -> jet_l_wf c d ->
  g_from o (frame_from_ref a) = g_into o (frame_from_ref b) -> g_from o (frame_from_ref b) = g_into o (frame_from_ref d) ->
  exists r, (let* ab := jl_mul o a b in jl_mul o ab d) = Ok r /\ (let* bd := jl_mul o b d in jl_mul o a bd) = Ok r.
Proof.
  intros Wa Wb Wd E1 E2. unfold jet_l_wf in *. destruct a as [a wa ha], b as [b wb hb], d as [d wd hd].
  unfold jl_mul. cbn [frame_from_ref d_frame_from_ref d2_frame_from_ref] in *.
  pose proof (mul_assoc _ _ L a b d Wa Wb Wd E1 E2) as A.
  destruct (mul_match _ _ L a b Wa Wb E1) as (ab & M1 & I1 & F1). destruct (mul_match _ _ L b d Wb Wd E2) as (bd & M2 & I2 & F2).
  rewrite M1, M2 in *. cbn [obind frame_from_ref d_frame_from_ref d2_frame_from_ref] in *.
  assert (Wbd := mul_wf _ _ L _ _ _ Wb Wd M2).
  assert (Q : g_from o a = g_into o bd) by congruence.
  destruct (mul_match _ _ L a bd Wa Wbd Q) as (r & M3 & _).
  rewrite A, M3. cbn [obind]. eexists. split; [|reflexivity].
  rewrite !(mul_ad _ _ L a b ab _ Wa Wb M1). do 2 f_equal.
  - rewrite (ad_add _ _ L). teq.
  - rewrite !(ad_add _ _ L), !(br_add_l _ _ L), !(br_add_r _ _ L), (ad_br _ _ L a _ _ Wa). teq.
Qed.
(** Conversion. *)
Lemma jr_left_right j : jet_l_wf c j -> exists r, right_two_jet o j = Ok r /\ jet_r_wf c r /\ left_two_jet o r = Ok j.
Proof.
  intro W. unfold jet_l_wf, jet_r_wf in *. destruct (inv_facts _ W) as (E & Wi & _ & _ & _ & _ & II).
  unfold right_two_jet, left_two_jet. rewrite E. cbn [obind]. eexists. split; [reflexivity|].
  cbn [ref_from_frame d_ref_from_frame d2_ref_from_frame]. split; [exact Wi|]. rewrite (inv_of_ok _ Wi), II. cbn [obind].
  rewrite !neg_neg. destruct j as [g d d2]. reflexivity.
Qed.
Lemma jl_right_left j : jet_r_wf c j -> exists r, left_two_jet o j = Ok r /\ jet_l_wf c r /\ right_two_jet o r = Ok j.
Proof.
  intro W. unfold jet_l_wf, jet_r_wf in *. destruct (inv_facts _ W) as (E & Wi & _ & _ & _ & _ & II).
  unfold right_two_jet, left_two_jet. rewrite E. cbn [obind]. eexists. split; [reflexivity|].
  cbn [frame_from_ref d_frame_from_ref d2_frame_from_ref]. split; [exact Wi|]. rewrite (inv_of_ok _ Wi), II. cbn [obind].
  rewrite !neg_neg. destruct j as [g d d2]. reflexivity.
Qed.
Lemma right_mul a b : jet_l_wf c a -> jet_l_wf c b -> g_from o (frame_from_ref a) = g_into o (frame_from_ref b) ->
  exists r, (let* ab := jl_mul o a b in right_two_jet o ab) = Ok r /\
    (let* ra := right_two_jet o a in let* rb := right_two_jet o b in jr_mul o rb ra) = Ok r.
Proof.
  intros Wa Wb E1. unfold jet_l_wf in *. destruct a as [a wa ha], b as [b wb hb].
  unfold jl_mul, jr_mul, right_two_jet. cbn [frame_from_ref d_frame_from_ref d2_frame_from_ref] in *.
  destruct (inv_facts _ Wa) as (Ea & Wia & Ia & Fa & _ & _ & IIa). destruct (inv_facts _ Wb) as (Eb & Wib & Ib & Fb & _ & _ & IIb).
  destruct (mul_match _ _ L a b Wa Wb E1) as (ab & M1 & I1 & F1). rewrite M1, Ea, Eb. cbn [obind].
  cbn [frame_from_ref d_frame_from_ref d2_frame_from_ref ref_from_frame d_ref_from_frame d2_ref_from_frame].
  assert (Q : g_from o (inv_of b) = g_into o (inv_of a)) by congruence.
  destruct (mul_match _ _ L _ _ Wib Wia Q) as (r & M2 & _).
  rewrite (inverse_mul _ _ L a b ab _ _ Wa Wb E1 M1 Ea Eb), M2, (inv_of_ok _ Wia), IIa. cbn [obind].
  eexists. split; [reflexivity|]. unfold t_neg. do 2 f_equal.
  - rewrite !(ad_scale _ _ L). teq.
  - rewrite !(ad_scale _ _ L), !(br_scale_l _ _ L), !(br_scale_r _ _ L). teq.
Qed.
Lemma jr_assoc a b d : jet_r_wf c a -> jet_r_wf c b -> jet_r_wf c d ->
  g_from o (ref_from_frame a) = g_into o (ref_from_frame b) -> g_from o (ref_from_frame b) = g_into o (ref_from_frame d) ->
  exists r, (let* ab := jr_mul o a b in jr_mul o ab d) = Ok r /\ (let* bd := jr_mul o b d in jr_mul o a bd) = Ok r.
Proof.
  intros Wa Wb Wd E1 E2. unfold jet_r_wf in *. destruct a as [a wa ha], b as [b wb hb], d as [d wd hd].
  unfold jr_mul. cbn [ref_from_frame d_ref_from_frame d2_ref_from_frame] in *.
  pose proof (mul_assoc _ _ L a b d Wa Wb Wd E1 E2) as A.
  destruct (mul_match _ _ L a b Wa Wb E1) as (ab & M1 & I1 & F1). destruct (mul_match _ _ L b d Wb Wd E2) as (bd & M2 & I2 & F2).
  assert (Wbd := mul_wf _ _ L _ _ _ Wb Wd M2).
  destruct (inv_facts _ Wb) as (Eb & Wib & Ib & Fb & _ & _ & _). destruct (inv_facts _ Wd) as (Ed & Wid & Id & Fd & _ & _ & _).
  assert (P : g_from o (inv_of d) = g_into o (inv_of b)) by congruence.
  destruct (mul_match _ _ L _ _ Wid Wib P) as (bd' & M4 & _).
  pose proof (inverse_mul _ _ L b d bd _ _ Wb Wd E2 M2 Eb Ed) as Ebd. rewrite M4 in Ebd.
  rewrite M1, M2, Eb, Ed in *. cbn [obind ref_from_frame d_ref_from_frame d2_ref_from_frame] in *.
  assert (Q : g_from o a = g_into o bd) by congruence.
  destruct (mul_match _ _ L a bd Wa Wbd Q) as (r & M3 & _).
  rewrite A, M3, Ebd. cbn [obind]. eexists. split; [reflexivity|].
  rewrite !(mul_ad _ _ L _ _ _ _ Wid Wib M4). unfold t_sub, t_neg. do 2 f_equal.
  - rewrite (ad_add _ _ L). teq.
  - rewrite !(ad_add _ _ L), !(ad_scale _ _ L), !(br_add_l _ _ L), !(br_add_r _ _ L), (ad_br _ _ L _ _ _ Wid). teq.
Qed.
(** A frame mismatch is an error for jets too. *)
Lemma jl_mul_mismatch a b : jet_l_wf c a -> jet_l_wf c b -> g_into o (frame_from_ref a) <> null_frame ->
  g_into o (frame_from_ref b) <> null_frame -> g_from o (frame_from_ref a) <> g_into o (frame_from_ref b) ->
  jl_mul o a b = Throw.
Proof. intros Wa Wb Na Nb M. unfold jl_mul. rewrite (mul_mismatch _ _ L _ _ Wa Wb Na Nb M). reflexivity. Qed.
Lemma jr_mul_mismatch a b : jet_r_wf c a -> jet_r_wf c b -> g_into o (ref_from_frame a) <> null_frame ->
  g_into o (ref_from_frame b) <> null_frame -> g_from o (ref_from_frame a) <> g_into o (ref_from_frame b) ->
  jr_mul o a b = Throw.
Proof. intros Wa Wb Na Nb M. unfold jr_mul. rewrite (mul_mismatch _ _ L _ _ Wa Wb Na Nb M). reflexivity. Qed.

(** One-parameter motions k |-> exp(a(k) v). *)
Lemma describes_exp a a1 a2 v i f p t r : 0 < r ->
  (forall s, Rabs (s - t) < r -> derivable_pt_lim a s (a1 s)) -> derivable_pt_lim a1 t a2 ->
  (forall s, Rabs (s - t) < r -> exact_exp c (a s) v) ->
  (forall s, g_exp o (t_scale o (a s) v) (Some (i, f)) = Ok (p s)) ->
  describes_l c p t (JetL (p t) (t_scale o (a1 t) v) (t_scale o a2 v)).
Proof.
  intros P D D2 X E. split; [reflexivity|]. cbn [d_frame_from_ref d2_frame_from_ref].
  exists (fun s => t_scale o (a1 s) v), r. split; [exact P|]. split; [|split; [reflexivity|]].
  - intros s Hs. apply (vel_exp _ _ L a (a1 s) v i f p s (D s Hs) (X s Hs) E).
  - eapply td_eq; [apply (td_scale a1 a2 (fun _ => v)); [exact D2|apply td_const]|]. teq.
Qed.
End Jets.

Lemma set_l_last {G T} (calls : list (jet_set G T)) (j : jet_l G T) :
  frame_from_ref (fold_left set_l calls j) = last_given pose_given (frame_from_ref j) calls /\
  d_frame_from_ref (fold_left set_l calls j) = last_given velocity_given (d_frame_from_ref j) calls /\
  d2_frame_from_ref (fold_left set_l calls j) = last_given acceleration_given (d2_frame_from_ref j) calls.
Proof.
  revert j. induction calls as [|c calls IH]; intro j; [auto|]. cbn [fold_left last_given].
  destruct (IH (set_l j c)) as (A & B & C). rewrite A, B, C. destruct c; repeat split; reflexivity.
Qed.
Lemma set_r_last {G T} (calls : list (jet_set G T)) (j : jet_r G T) :
  ref_from_frame (fold_left set_r calls j) = last_given pose_given (ref_from_frame j) calls /\
  d_ref_from_frame (fold_left set_r calls j) = last_given velocity_given (d_ref_from_frame j) calls /\
  d2_ref_from_frame (fold_left set_r calls j) = last_given acceleration_given (d2_ref_from_frame j) calls.
Proof.
  revert j. induction calls as [|c calls IH]; intro j; [auto|]. cbn [fold_left last_given].
  destruct (IH (set_r j c)) as (A & B & C). rewrite A, B, C. destruct c; repeat split; reflexivity.
Qed.

(** ** Default jets *)
Lemma default_neutral G T (o : lie_ops G T) (c : lie_calc G T) : curve_group o c ->
  (forall j, jet_l_wf c j -> g_into o (frame_from_ref j) = null_frame -> g_from o (frame_from_ref j) = null_frame ->
     jl_mul o (jl_default o) j = Ok j /\ jl_mul o j (jl_default o) = Ok j) /\
  (forall j, jet_r_wf c j -> g_into o (ref_from_frame j) = null_frame -> g_from o (ref_from_frame j) = null_frame ->
     jr_mul o (jr_default o) j = Ok j /\ jr_mul o j (jr_default o) = Ok j).
Proof.
  intro H. assert (El : jl_identity o (Some (null_frame, null_frame)) = Ok (jl_default o)) by (destruct H; reflexivity).
  assert (Er : jr_identity o (Some (null_frame, null_frame)) = Ok (jr_default o)) by (destruct H; reflexivity). split; intros j W F1 F2.
  - destruct (jl_neutral (group_laws _ _ _ _ H) j W) as (e1 & e2 & E1 & E2 & M1 & M2). rewrite F1, El in E1. rewrite F2, El in E2.
    replace e1 with (jl_default o) in M1 by congruence. replace e2 with (jl_default o) in M2 by congruence. split; assumption.
  - destruct (jr_neutral (group_laws _ _ _ _ H) j W) as (e1 & e2 & E1 & E2 & M1 & M2). rewrite F1, Er in E1. rewrite F2, Er in E2.
    replace e1 with (jr_default o) in M1 by congruence. replace e2 with (jr_default o) in M2 by congruence. split; assumption.
Qed.
