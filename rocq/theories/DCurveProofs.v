(** Building and querying distance curves. *)
From Verif Require Import Cpp UuidModel RotSpec GeomModel DerivSpec DerivProofs FrameSpec ScrewSpec LieSpec
  FrameProofs RotProofs CoeffProofs LieProofs DiffProofs JetModel JetSpec JetLaws JetProofs CurveModel CurveSpec CurveProofs
  TCurveProofs DCurveSpec.
Local Open Scope R_scope.

Lemma arc_nonneg g : 0 <= se3_arc_length g.
Proof. unfold se3_arc_length. apply norm_nonneg. Qed.
Lemma framed_iff g : framed g <-> se3_is_framed g = true.
Proof. unfold framed. symmetry. apply se3_framed_iff. Qed.
Lemma framed_dec g : {framed g} + {~ framed g}.
Proof. unfold framed. destruct (frame_null_dec (se3_into g)) as [E|E]; [right; tauto|left; exact E]. Qed.
Lemma unframed_iff g : ~ framed g <-> se3_is_framed g = false.
Proof. rewrite framed_iff. destruct (se3_is_framed g); split; intro; congruence. Qed.
Lemma se3_verify_iff g f : g_verify_frames se3_ops g (se3_into f) (se3_from f) = true <-> same_frames se3_ops g f.
Proof. exact (verify_frames_iff g f). Qed.
Lemma unframed_frames g : se3_wf g -> ~ framed g -> se3_into g = null_frame /\ se3_from g = null_frame.
Proof.
  intros [_ [[A _] _]] N. assert (E : se3_into g = null_frame).
  { destruct (frame_null_dec (se3_into g)) as [E|E]; [exact E|]. elim N. exact E. }
  split; [exact E|exact (A E)].
Qed.
(** The product inverse(b) * g. *)
Definition compatible (b g : se3) : Prop := framed b -> framed g -> se3_into b = se3_into g.
Lemma compatible_dec b g : {compatible b g} + {~ compatible b g}.
Proof.
  unfold compatible. destruct (framed_dec b) as [B|B]; [|left; tauto]. destruct (framed_dec g) as [H|H]; [|left; tauto].
  destruct (frame_dec (se3_into b) (se3_into g)) as [E|E]; [left|right]; tauto.
Qed.
Lemma product_ok a b : se3_wf a -> se3_wf b -> (framed a -> framed b -> se3_from a = se3_into b) ->
  exists m, se3_mul a b = Ok m /\ se3_wf m /\ (framed m <-> framed a /\ framed b) /\
    (framed a -> framed b -> se3_into m = se3_into a /\ se3_from m = se3_from b) /\
    se3_mat m = mmul (se3_mat a) (se3_mat b) /\ translation m = vadd (mvec (se3_mat a) (translation b)) (translation a).
Proof.
  intros Wa Wb H. destruct (framed_dec a) as [Fa|Fa]; [destruct (framed_dec b) as [Fb|Fb]|].
  - pose proof (se3_mul_framed a b (proj2 Wa) (proj2 Wb) (proj1 (framed_iff _) Fa) (proj1 (framed_iff _) Fb)) as E.
    rewrite (H Fa Fb), frame_eqb_refl in E. eexists. split; [exact E|].
    split; [exact (proj1 (se3_mul_closed _ _ _ Wa Wb E))|]. split; [|split; [|split; reflexivity]].
    + split; [auto|]. intros _. exact Fa.
    + intros _ _. split; reflexivity.
  - assert (Q : se3_is_framed a && se3_is_framed b = false) by (rewrite (proj1 (unframed_iff b) Fb); apply andb_false_r).
    pose proof (se3_mul_unframed a b (proj2 Wa) (proj2 Wb) Q) as E. eexists. split; [exact E|].
    split; [exact (proj1 (se3_mul_closed _ _ _ Wa Wb E))|]. split; [|split; [tauto|split; reflexivity]].
    split; [|tauto]. intro X. elim X. reflexivity.
  - assert (Q : se3_is_framed a && se3_is_framed b = false) by (rewrite (proj1 (unframed_iff a) Fa); reflexivity).
    pose proof (se3_mul_unframed a b (proj2 Wa) (proj2 Wb) Q) as E. eexists. split; [exact E|].
    split; [exact (proj1 (se3_mul_closed _ _ _ Wa Wb E))|]. split; [|split; [tauto|split; reflexivity]].
    split; [|tauto]. intro X. elim X. reflexivity.
Qed.
Lemma inverse_framed b bi : se3_wf b -> se3_inverse b = Ok bi -> se3_wf bi /\ se3_into bi = se3_from b /\ se3_from bi = se3_into b /\
  (framed bi <-> framed b) /\ se3_mat bi = mtrans (se3_mat b) /\ translation bi = mvec (mtrans (se3_mat b)) (vneg (translation b)).
Proof.
  intros W E. destruct (se3_inverse_laws b W) as (h & E' & Wh & _). rewrite E in E'. injection E' as <-.
  pose proof (se3_inverse_eq b (proj2 W)) as Q. rewrite E in Q. injection Q as ->.
  split; [exact Wh|]. split; [reflexivity|]. split; [reflexivity|]. split; [|split; reflexivity].
  unfold framed. destruct W as [_ [[A B] _]]. change (se3_into (se3_inv b)) with (se3_from b). tauto.
Qed.
Lemma relative_product b g : se3_wf b -> se3_wf g -> exists bi, se3_inverse b = Ok bi /\
  (compatible b g -> exists m, se3_mul bi g = Ok m) /\ (~ compatible b g -> se3_mul bi g = Throw).
Proof.
  intros Wb Wg. destruct (se3_inverse_laws b Wb) as (bi & E & _). exists bi. split; [exact E|].
  destruct (inverse_framed b bi Wb E) as (Wi & Ii & Fi & Fr & _). split.
  - intro H. destruct (product_ok bi g Wi Wg) as (m & Em & _); [|exists m; exact Em].
    intros F1 F2. exact (eq_trans Fi (H (proj1 Fr F1) F2)).
  - intro N. assert (F : framed b /\ framed g /\ se3_into b <> se3_into g).
    { unfold compatible in N. destruct (framed_dec b), (framed_dec g); tauto. }
    destruct F as (F1 & F2 & N'). rewrite se3_mul_framed by (try apply Wi; try apply Wg; apply framed_iff; tauto).
    rewrite frame_eqb_neq; [reflexivity|]. intro X. apply N'. exact (eq_trans (eq_sym Fi) X).
Qed.
(** What the relative pose says. *)
Lemma relative_spec a b m : se3_wf a -> se3_wf b -> relative a b m -> se3_wf m /\
  (framed m -> framed a /\ se3_into m = se3_from a) /\
  (same_frames se3_ops a b -> framed a -> framed m /\ se3_from m = se3_from a) /\
  se3_mat b = mmul (se3_mat a) (se3_mat m) /\ translation b = vadd (mvec (se3_mat a) (translation m)) (translation a).
Proof.
  intros Wa Wb (ai & Ei & Em). destruct (inverse_framed a ai Wa Ei) as (Wi & Ii & Fi & Fr & Mi & Ti).
  pose proof (proj1 (se3_mul_closed ai b m Wi Wb Em)) as Wm.
  assert (H : framed ai -> framed b -> se3_from ai = se3_into b).
  { intros F1 F2. pose proof Em as Em'. rewrite se3_mul_framed in Em' by (try apply Wi; try apply Wb; apply framed_iff; assumption).
    destruct (frame_eqb (se3_from ai) (se3_into b)) eqn:Q; [apply frame_eqb_eq, Q|discriminate Em']. }
  destruct (product_ok ai b Wi Wb H) as (m' & Em' & _ & Fm & Ff & Mm & Tm). rewrite Em in Em'. injection Em' as <-.
  split; [exact Wm|]. split; [|split].
  - intro F. apply Fm in F as [F1 F2]. split; [tauto|]. exact (eq_trans (proj1 (Ff F1 F2)) Ii).
  - intros [S1 S2] F. cbn [g_into g_from se3_ops] in S1, S2.
    assert (Fb : framed b) by (unfold framed in *; intro X; apply F; exact (eq_trans S1 X)).
    assert (Fai : framed ai) by tauto. split; [tauto|]. exact (eq_trans (proj2 (Ff Fai Fb)) (eq_sym S2)).
  - destruct Wa as [Ra _]. fold (se3_mat a) in Ra. rewrite Mm, Tm, Mi, Ti. split.
    + rewrite mmul_assoc, rot_mtrans_r, mmul_1_l by exact Ra. reflexivity.
    + rewrite mvec_add, !mvec_inv_r by exact Ra. generalize (translation a) (translation b). intros. vring.
Qed.

(** ** Building *)
Definition d_inv (k : dcurve) : Prop :=
  (forall p, In p (d_control_pts k) -> se3_wf (ref_from_control p)) /\
  (forall p l, d_control_pts k = p :: l -> arc_length p = 0 /\
     (framed (ref_from_control p) -> forall q, In q l -> same_frames se3_ops (ref_from_control q) (ref_from_control p))) /\
  Forall2 (fun ab s => d_joins (fst ab) (snd ab) s) (consecutive (d_control_pts k)) (d_segments k).
Lemma d_inv_empty : d_inv dc_empty.
Proof. split; [intros p []|]. split; [intros p l E; discriminate E|constructor]. Qed.
Definition refs (k : dcurve) : list se3 := map ref_from_control (d_control_pts k).

Lemma d_append_first g k : d_control_pts k = [] -> dc_append g k = (dpush_control (DControl 0 g) k, Ok tt).
Proof. destruct k as [pts segs]. cbn [d_control_pts]. intros ->. reflexivity. Qed.
Definition new_dsegment (b : dcontrol) (g m : se3) : dsegment :=
  DSegment (arc_length b) (arc_length b + se3_arc_length m) (ref_from_control b) g m.
Lemma d_acceptable_at k f m l b g : d_control_pts k = f :: m -> d_control_pts k = l ++ [b] ->
  (d_acceptable (refs k) g <-> (framed (ref_from_control f) -> same_frames se3_ops g (ref_from_control f)) /\
     compatible (ref_from_control b) g).
Proof.
  intros E1 E2. unfold refs. split.
  - intros [X|(f' & m' & l' & b' & X1 & X2 & X3 & X4)]; [rewrite E1 in X; discriminate X|].
    rewrite E1 in X1. cbn in X1. injection X1 as <- _. rewrite E2, map_app in X2. cbn in X2. apply app_last_inj in X2 as [_ <-].
    split; assumption.
  - intros [X3 X4]. right. exists (ref_from_control f), (map ref_from_control m), (map ref_from_control l), (ref_from_control b).
    split; [rewrite E1; reflexivity|]. split; [rewrite E2, map_app; reflexivity|]. split; assumption.
Qed.
Ltac dvecs E1 E2 := repeat (cbv beta iota; cbn [negb reassert obind vec_front vec_empty];
  first [rewrite E1|rewrite vec_empty_app|rewrite vec_back_app]); cbv beta iota; cbn [negb reassert obind vec_front vec_empty].
Lemma d_append_cases g k : se3_wf g -> d_inv k ->
  (d_acceptable (refs k) g /\ snd (dc_append g k) = Ok tt /\ refs (fst (dc_append g k)) = refs k ++ [g] /\ d_inv (fst (dc_append g k))) \/
  (~ d_acceptable (refs k) g /\ dc_append g k = (k, Throw)).
Proof.
  intros Wg (I1 & I2 & I3). destruct (list_cases (d_control_pts k)) as [E|(l & b & E)].
  - left. rewrite (d_append_first g k E). cbn [fst snd]. unfold refs, dpush_control. cbn [d_control_pts]. rewrite E. cbn [map app].
    split; [left; reflexivity|]. split; [reflexivity|]. split; [reflexivity|]. split; [|split].
    + cbn [d_control_pts]. intros p [<-|[]]. exact Wg.
    + cbn [d_control_pts]. intros p m X. injection X as <- <-. split; [reflexivity|]. intros _ q [].
    + cbn [d_control_pts d_segments]. rewrite E in I3. inversion I3. constructor.
  - destruct (d_control_pts k) as [|f m] eqn:Ek; [destruct l; discriminate E|].
    pose proof (d_acceptable_at k f m l b g Ek (eq_trans Ek E)) as HA.
    assert (Ib : In b (f :: m)) by (rewrite E; apply in_or_app; right; left; reflexivity).
    assert (Wb : se3_wf (ref_from_control b)) by (apply I1, Ib).
    destruct (relative_product (ref_from_control b) g Wb Wg) as (bi & Ei & Pok & Pno).
    assert (Eb : vec_back (f :: m) = Ok b) by (rewrite E; apply vec_back_app).
    (* the frame check *)
    assert (Chk : dc_append g k =
      if (negb (se3_is_framed (ref_from_control f)) || g_verify_frames se3_ops g (se3_into (ref_from_control f)) (se3_from (ref_from_control f)))%bool
      then match se3_mul bi g with
           | Ok r => (DCurve (d_control_pts k ++ [DControl (arc_length b + se3_arc_length r) g]) (d_segments k ++ [new_dsegment b g r]), Ok tt)
           | Throw => (k, Throw) | UB => (k, UB) end
      else (k, Throw)).
    { clear HA I1 I2 I3. destruct k as [pts segs]. cbn [d_control_pts d_segments] in *. subst pts.
      unfold dc_append, cbind, calc, ret, dc_is_framed, dc_reference_frame, dc_point_frame.
      cbn [d_control_pts d_segments vec_empty negb reassert obind vec_front].
      destruct (se3_is_framed (ref_from_control f)) eqn:Ff; cbv beta iota; cbn [d_control_pts vec_empty negb reassert obind vec_front orb].
      - destruct (g_verify_frames _ _ _ _) eqn:V; cbn [reassert]; [|reflexivity].
        cbv beta iota. cbn [d_control_pts vec_empty]. cbv beta iota. cbn [d_control_pts]. rewrite Eb, Ei. cbv beta iota.
        destruct (se3_mul bi g) as [r| |]; try reflexivity.
        unfold update, dpush_control, dpush_segment. cbv beta iota. cbn [d_control_pts d_segments]. rewrite vec_back_app. reflexivity.
      - rewrite Eb, Ei. cbv beta iota. destruct (se3_mul bi g) as [r| |]; try reflexivity.
        unfold update, dpush_control, dpush_segment. cbv beta iota. cbn [d_control_pts d_segments]. rewrite vec_back_app. reflexivity. }
    assert (Cond : (negb (se3_is_framed (ref_from_control f)) || g_verify_frames se3_ops g (se3_into (ref_from_control f)) (se3_from (ref_from_control f)))%bool = true <->
      (framed (ref_from_control f) -> same_frames se3_ops g (ref_from_control f))).
    { rewrite orb_true_iff, negb_true_iff, <- unframed_iff, se3_verify_iff. destruct (framed_dec (ref_from_control f)); tauto. }
    destruct (negb _ || _)%bool eqn:Ec in Chk, Cond.
    + assert (C1 := proj1 Cond eq_refl). destruct (compatible_dec (ref_from_control b) g) as [C2|C2].
      * left. destruct (Pok C2) as (r & Er). rewrite Er in Chk. rewrite Chk. cbn [fst snd].
        split; [apply HA; auto|]. split; [reflexivity|]. split; [unfold refs; cbn [d_control_pts]; rewrite map_app; reflexivity|].
        split; [|split]; cbn [d_control_pts d_segments]; rewrite Ek.
        -- intros p Hp. apply in_app_or in Hp as [Hp|[<-|[]]]; [apply I1, Hp|exact Wg].
        -- intros p l0 X. cbn in X. injection X as <- <-. destruct (I2 f m eq_refl) as [A0 Fr]. split; [exact A0|].
           intros F q Hq. apply in_app_or in Hq as [Hq|[<-|[]]]; [apply (Fr F q Hq)|exact (C1 F)].
        -- rewrite E, <- app_assoc, consecutive_snoc. apply Forall2_app; [rewrite <- E; exact I3|]. constructor; [|constructor].
           cbn [fst snd]. unfold d_joins, new_dsegment. cbn [orig_arc_length dest_arc_length ref_from_orig ref_from_dest orig_from_dest arc_length ref_from_control].
           repeat (split; [reflexivity|]). split; [exists bi; auto|reflexivity].
      * right. split; [rewrite HA; tauto|]. rewrite Chk, (Pno C2). reflexivity.
    + right. split; [|exact Chk]. rewrite HA. intros [C1 _]. apply Cond in C1. discriminate C1.
Qed.

Lemma d_after_snoc gs g k : after_dappends (gs ++ [g]) k = fst (dc_append g (after_dappends gs k)).
Proof. revert k. induction gs as [|x gs IH]; intro k; [reflexivity|]. cbn [app after_dappends]. apply IH. Qed.
Lemma d_history gs : Forall se3_wf gs -> d_inv (after_dappends gs dc_empty) /\ d_takes gs (refs (after_dappends gs dc_empty)).
Proof.
  induction gs as [|g gs IH] using rev_ind; intro F; [split; [apply d_inv_empty|constructor]|].
  apply Forall_app in F as [F Fg]. inversion Fg as [|? ? Wg _]; subst. destruct (IH F) as [I T]. rewrite d_after_snoc.
  destruct (d_append_cases g _ Wg I) as [(A & _ & R & I')|(A & R)].
  - split; [exact I'|]. rewrite R. apply d_takes_yes; assumption.
  - rewrite R. split; [exact I|]. apply d_takes_no; assumption.
Qed.
Lemma d_built_inv k : d_built k -> d_inv k.
Proof. intros (gs & F & ->). apply d_history, F. Qed.
Lemma d_takes_fun gs : forall a b, d_takes gs a -> d_takes gs b -> a = b.
Proof.
  induction gs as [|p ps IH] using rev_ind; intros a b A B.
  - inversion A; inversion B; subst; try reflexivity; destruct gs; try discriminate; destruct gs0; discriminate.
  - inversion A as [X|ps1 t1 p1 A1 A2 X|ps1 t1 p1 A1 A2 X]; [destruct ps; discriminate| |];
    inversion B as [Y|ps2 t2 p2 B1 B2 Y|ps2 t2 p2 B1 B2 Y]; try (destruct ps; discriminate);
    apply app_last_inj in X as [-> ->]; apply app_last_inj in Y as [-> ->]; subst;
    pose proof (IH _ _ A1 B1) as E; subst; try reflexivity; contradiction.
Qed.
Lemma d_append_iff g k : se3_wf g -> d_built k ->
  (snd (dc_append g k) = Ok tt <-> d_acceptable (refs k) g) /\
  (snd (dc_append g k) = Throw <-> ~ d_acceptable (refs k) g) /\
  (d_acceptable (refs k) g -> refs (fst (dc_append g k)) = refs k ++ [g]) /\
  (~ d_acceptable (refs k) g -> fst (dc_append g k) = k).
Proof.
  intros Wg B. destruct (d_append_cases g k Wg (d_built_inv k B)) as [(A & E & C & _)|(A & E)].
  - rewrite E. repeat split; try tauto; try discriminate.
  - rewrite E. cbn [fst snd]. repeat split; try tauto; try discriminate.
Qed.
Lemma d_append_list_spec gs : Forall se3_wf gs -> forall k, d_inv k ->
  (exists k', dc_append_list gs k = (k', Ok tt) /\ refs k' = refs k ++ gs /\ k' = after_dappends gs k /\
     forall l g r, gs = l ++ g :: r -> d_acceptable (refs k ++ l) g) \/
  (exists l g r, gs = l ++ g :: r /\ ~ d_acceptable (refs k ++ l) g /\
     refs (after_dappends l k) = refs k ++ l /\ dc_append_list gs k = (after_dappends l k, Throw)).
Proof.
  unfold dc_append_list. induction gs as [|g gs IH]; intros F k I.
  - left. exists k. cbn. rewrite app_nil_r. split; [reflexivity|]. split; [reflexivity|]. split; [reflexivity|].
    intros l q r E. destruct l; discriminate E.
  - inversion F as [|? ? Wg F']; subst. cbn [for_each]. unfold cbind.
    destruct (d_append_cases g k Wg I) as [(A & E & C & I')|(A & E)].
    + destruct (dc_append g k) as [k1 out] eqn:Ek. cbn [fst snd] in *. subst out.
      destruct (IH F' k1 I') as [(k' & E' & C' & K' & Q)|(l & q & r & Eq & N & C' & E')].
      * left. exists k'. split; [exact E'|]. rewrite C', C, <- app_assoc. split; [reflexivity|].
        cbn [after_dappends]. rewrite Ek. cbn [fst]. split; [exact K'|].
        intros [|x l] q r X; cbn in X; injection X as <- ->.
        -- rewrite app_nil_r. exact A.
        -- specialize (Q l q r eq_refl). rewrite C, <- app_assoc in Q. exact Q.
      * right. exists (g :: l), q, r. subst gs. split; [reflexivity|]. rewrite C, <- app_assoc in N. split; [exact N|].
        cbn [after_dappends]. rewrite Ek. cbn [fst]. rewrite C', C, <- app_assoc. split; [reflexivity|exact E'].
    + rewrite E. right. exists [], g, gs. rewrite app_nil_r. auto.
Qed.
Lemma d_takes_all gs : (forall l g r, gs = l ++ g :: r -> d_acceptable l g) <-> d_takes gs gs.
Proof.
  split.
  - induction gs as [|p ps IH] using rev_ind; intro H; [constructor|]. apply d_takes_yes; [|apply (H ps p []); reflexivity].
    apply IH. intros l q r E. apply (H l q (r ++ [p])). rewrite E, <- app_assoc. reflexivity.
  - assert (Len : forall qs t, d_takes qs t -> (length t <= length qs)%nat).
    { induction 1 as [|qs t q _ IH _|qs t q _ IH _]; rewrite ?app_length in *; cbn in *; lia. }
    induction gs as [|q ps IH] using rev_ind; intros H l p r E; [destruct l; discriminate E|].
    inversion H as [X|ps1 t1 p1 A1 A2 X Y|ps1 t1 p1 A1 A2 X Y].
    + destruct ps; discriminate.
    + apply app_last_inj in X as [-> ->]. apply app_last_inj in Y as [-> _].
      destruct (list_cases r) as [->|(r' & z & ->)].
      * apply app_last_inj in E as [-> ->]. exact A2.
      * rewrite app_comm_cons, app_assoc in E. apply app_last_inj in E as [E ->]. apply (IH A1 l p r' E).
    + apply Len in A1. subst t1. apply app_last_inj in X as [-> _]. rewrite app_length in A1. cbn in A1. lia.
Qed.
Lemma d_make_spec gs : Forall se3_wf gs ->
  (d_takes gs gs -> dc_make gs = Ok (after_dappends gs dc_empty) /\ refs (after_dappends gs dc_empty) = gs) /\
  (~ d_takes gs gs -> dc_make gs = Throw).
Proof.
  intro F. unfold dc_make, construct. destruct (d_append_list_spec gs F dc_empty d_inv_empty) as [(k' & -> & C & -> & Q)|(l & p & r & E & N & _ & ->)].
  - split; [intros _; split; [reflexivity|exact C]|]. intro N. elim N. apply d_takes_all. exact Q.
  - split; [|reflexivity]. intro H. elim N. exact (proj2 (d_takes_all gs) H l p r E).
Qed.
(** Arc lengths never decrease. *)
Lemma d_joins_le a b s : d_joins a b s -> arc_length a <= arc_length b.
Proof. intros (_ & _ & _ & _ & _ & E). rewrite E. pose proof (arc_nonneg (orig_from_dest s)). lra. Qed.
Lemma d_sorted_from (pts : list dcontrol) : forall segs, Forall2 (fun ab s => d_joins (fst ab) (snd ab) s) (consecutive pts) segs ->
  StronglySorted (fun a b => arc_length a <= arc_length b) pts.
Proof.
  induction pts as [|a pts IH]; intros segs F; [constructor|]. destruct pts as [|b pts]; [repeat constructor|].
  cbn in F. inversion F as [|ab s cs ss J F']; subst. apply d_joins_le in J. cbn [fst snd] in J. specialize (IH ss F').
  constructor; [exact IH|]. constructor; [exact J|]. inversion IH as [|? ? _ Fb]; subst.
  rewrite Forall_forall in *. intros x Hx. specialize (Fb x Hx). lra.
Qed.
Lemma d_sorted k : d_inv k -> StronglySorted (fun a b => arc_length a <= arc_length b) (d_control_pts k).
Proof. intros (_ & _ & F). exact (d_sorted_from _ _ F). Qed.

(** ** Queries *)
Lemma Rleb_true a b : Rleb a b = true <-> a <= b.
Proof. unfold Rleb. destruct (Rle_dec a b); split; intro; auto; try discriminate; contradiction. Qed.
Lemma Rleb_false a b : Rleb a b = false <-> b < a.
Proof. unfold Rleb. destruct (Rle_dec a b); split; intro; auto; try discriminate; lra. Qed.
Lemma d_find_spec pts : forall segs s, Forall2 (fun ab s => d_joins (fst ab) (snd ab) s) (consecutive pts) segs ->
  forall l z, pts = l ++ [z] -> l <> [] -> s <= arc_length z ->
  exists l1 a b l2 seg, pts = l1 ++ a :: b :: l2 /\ find (fun seg => Rleb s (dest_arc_length seg)) segs = Some seg /\
    d_joins a b seg /\ s <= arc_length b /\ (l1 = [] \/ arc_length a < s).
Proof.
  induction pts as [|a pts IH]; intros segs s F l z E N Hz; [destruct l; discriminate E|].
  destruct pts as [|b pts].
  { destruct l as [|x l]; [elim N; reflexivity|]. injection E as _ E. destruct l; discriminate E. }
  cbn in F. inversion F as [|ab sg cs ss J F' X Y]; subst. cbn [fst snd] in J. cbn [find].
  assert (Ed : dest_arc_length sg = arc_length b) by apply J. rewrite Ed.
  destruct (Rleb s (arc_length b)) eqn:Eb.
  - apply Rleb_true in Eb. exists [], a, b, pts, sg. repeat (split; [first [reflexivity|assumption]|]). left. reflexivity.
  - apply Rleb_false in Eb. destruct l as [|x l]; [discriminate E|]. injection E as <- E.
    assert (N' : l <> []).
    { intros ->. injection E as -> ->. lra. }
    destruct (IH ss s F' l z E N' Hz) as (l1 & a' & b' & l2 & sg' & E' & Lb & Jn & T1 & T2).
    exists (a :: l1), a', b', l2, sg'. rewrite E'. split; [reflexivity|]. split; [exact Lb|]. split; [exact Jn|]. split; [exact T1|]. right.
    destruct T2 as [->|T2]; [|exact T2]. injection E' as -> _. exact Eb.
Qed.
Lemma d_length_spec k : (d_control_pts k = [] -> dc_length k = Ok 0) /\
  (forall l b, d_control_pts k = l ++ [b] -> dc_length k = Ok (arc_length b)).
Proof.
  unfold dc_length. split; [intros ->; reflexivity|]. intros l b ->. rewrite vec_empty_app, vec_back_app. reflexivity.
Qed.
Lemma d_neighbours_facts k a b : d_inv k -> d_neighbours k a b ->
  se3_wf (ref_from_control a) /\ se3_wf (ref_from_control b) /\ exists sg, In sg (d_segments k) /\ d_joins a b sg.
Proof.
  intros (I1 & _ & I3) (l & r & E). split; [apply I1; rewrite E; apply in_or_app; right; left; reflexivity|].
  split; [apply I1; rewrite E; apply in_or_app; right; right; left; reflexivity|].
  rewrite E in I3. clear E. revert I3. generalize (d_segments k). induction l as [|x l IH]; intros ss F.
  - cbn in F. inversion F as [|? sg ? ? J]; subst. exists sg. split; [left; reflexivity|exact J].
  - destruct (l ++ a :: b :: r) as [|y m] eqn:Q; [destruct l; discriminate Q|].
    change ((x :: l) ++ a :: b :: r) with (x :: (l ++ a :: b :: r)) in F. rewrite Q in F. cbn in F.
    inversion F as [|? ? ? ss' J F']; subst. destruct (IH ss' F') as (sg & I & J'). exists sg. split; [right; exact I|exact J'].
Qed.
Lemma relative_unique a b m m' : relative a b m -> relative a b m' -> m = m'.
Proof. intros (ai & E & M) (ai' & E' & M'). rewrite E in E'. injection E' as <-. rewrite M in M'. injection M' as <-. reflexivity. Qed.
Lemma se3_exp_framing_total m f : se3_wf m -> exists q, se3_interp m f = Ok q /\ se3_wf q.
Proof.
  intro W. pose proof (se3_interp_eq m f W) as E. eexists. split; [exact E|]. unfold se3_interp in E. exact (proj1 (se3_exp_spec _ _ _ E)).
Qed.
(** Evaluation of a segment. *)
Lemma d_eval a b m f : se3_wf a -> se3_wf b -> relative a b m -> exists q g,
  se3_interp m f = Ok q /\ se3_mul a q = Ok g /\ se3_wf g /\
  (same_frames se3_ops a b -> same_frames se3_ops g a) /\
  rotation_matrix (rotation q) = mexp (vscale f (trot (se3_log m))) /\
  se3_mat g = mmul (se3_mat a) (rotation_matrix (rotation q)) /\
  translation g = vadd (mvec (se3_mat a) (translation q)) (translation a) /\
  norm (vsub (translation q) (screw (trot (se3_log m)) (ttrans (se3_log m)) f)) <= / 10^23 * Rabs f * se3_arc_length m /\
  (plain_angle (f * f * norm2 (trot (se3_log m))) -> translation q = screw (trot (se3_log m)) (ttrans (se3_log m)) f).
Proof.
  intros Wa Wb Rl. destruct (relative_spec a b m Wa Wb Rl) as (Wm & Fm & Sm & _ & _).
  destruct (se3_exp_framing_total m f Wm) as (q & Eq & Wq). exists q.
  destruct (se3_interp_screw m f q Wm Eq) as (Rq & Iq & Fq & Bq & Xq).
  assert (Fr : framed q <-> framed m) by (unfold framed; rewrite Iq; tauto).
  destruct (product_ok a q Wa Wq) as (g & Eg & Wg & Fg & Ff & Mg & Tg).
  { intros F1 F2. apply Fr in F2. destruct (Fm F2) as [_ X]. exact (eq_sym (eq_trans Iq X)). }
  exists g. split; [exact Eq|]. split; [exact Eg|]. split; [exact Wg|]. split.
  { intro S. destruct (framed_dec a) as [F|F].
    - destruct (Sm S F) as [F' X]. destruct (Ff F (proj2 Fr F')) as [Y Z].
      split; [exact Y|exact (eq_trans Z (eq_trans Fq X))].
    - assert (Ng : ~ framed g) by tauto. destruct (unframed_frames a Wa F) as [A1 A2]. destruct (unframed_frames g Wg Ng) as [B1 B2].
      split; [exact (eq_trans B1 (eq_sym A1))|exact (eq_trans B2 (eq_sym A2))]. }
  repeat (split; [assumption|]). exact Xq.
Qed.
(** The whole query. *)
Lemma d_query k s : d_inv k ->
  ((s < 0 \/ (length (d_control_pts k) < 2)%nat \/ (exists len, dc_length k = Ok len /\ len < s)) -> dc_point_at k s = Throw) /\
  (forall l z, d_control_pts k = l ++ [z] -> l <> [] -> 0 <= s <= arc_length z ->
     exists l1 a b l2 m, d_control_pts k = l1 ++ a :: b :: l2 /\ (l1 = [] \/ arc_length a < s) /\ arc_length a <= s <= arc_length b /\
       relative (ref_from_control a) (ref_from_control b) m /\ arc_length b = arc_length a + se3_arc_length m /\
       dc_point_at k s = match fdiv (s - arc_length a) (arc_length b - arc_length a) with
                         | None => Ok None
                         | Some f => let* q := se3_interp m f in let* g := se3_mul (ref_from_control a) q in Ok (Some g)
                         end).
Proof.
  intro I. split.
  - intro H. unfold dc_point_at, dc_point_at_impl. destruct (Rleb 0 s) eqn:E0; [|reflexivity]. cbn [reassert obind].
    apply Rleb_true in E0. destruct (d_length_spec k) as [L0 L1]. destruct (list_cases (d_control_pts k)) as [E|(l & z & E)].
    + rewrite (L0 E). cbn [obind]. destruct (Rleb s 0); [|reflexivity]. cbn [reassert obind].
      destruct I as (_ & _ & F). rewrite E in F. inversion F. reflexivity.
    + rewrite (L1 l z E). cbn [obind]. destruct (Rleb s (arc_length z)) eqn:E1; [|reflexivity]. cbn [reassert obind].
      apply Rleb_true in E1. destruct H as [H|[H|(len & H1 & H2)]]; [lra| |rewrite (L1 l z E) in H1; injection H1 as <-; lra].
      destruct l as [|y l]; [|rewrite E, app_length in H; cbn in H; lia].
      destruct I as (_ & _ & F). rewrite E in F. cbn in F. inversion F. reflexivity.
  - intros l z E N Hs. pose proof I as (I1 & I2 & I3).
    destruct (d_find_spec (d_control_pts k) (d_segments k) s I3 l z E N (proj2 Hs)) as (l1 & a & b & l2 & sg & E' & Fs & J & T1 & T2).
    pose proof J as (J1 & J2 & J3 & J4 & J5 & J6).
    exists l1, a, b, l2, (orig_from_dest sg). split; [exact E'|]. split; [exact T2|]. split.
    { split; [|exact T1]. destruct T2 as [->|T2]; [|lra]. destruct (I2 a (b :: l2) E') as [-> _]. lra. }
    split; [exact J5|]. split; [exact J6|].
    unfold dc_point_at, dc_point_at_impl. rewrite (proj2 (Rleb_true 0 s)) by lra. cbn [reassert obind].
    rewrite (proj2 (d_length_spec k) l z E). cbn [obind]. rewrite (proj2 (Rleb_true s _)) by lra. cbn [reassert obind].
    rewrite Fs. cbn [obind]. rewrite J1, J2, J3. reflexivity.
Qed.
Lemma fdiv_some a b : b <> 0 -> fdiv a b = Some (a / b).
Proof. intro H. unfold fdiv. destruct (Req_EM_T b 0); [contradiction|reflexivity]. Qed.
Lemma fdiv_none a : fdiv a 0 = None.
Proof. unfold fdiv. destruct (Req_EM_T 0 0); [reflexivity|lra]. Qed.
Lemma d_two k : (2 <= length (d_control_pts k))%nat -> exists l z, d_control_pts k = l ++ [z] /\ l <> [].
Proof.
  intro H. destruct (list_cases (d_control_pts k)) as [E|(l & z & E)]; [rewrite E in H; cbn in H; lia|]. exists l, z. split; [exact E|].
  intros ->. rewrite E in H. cbn in H. lia.
Qed.
(** Range: throws exactly outside. *)
Lemma d_throws_iff k s : d_inv k ->
  (dc_point_at k s = Throw <-> s < 0 \/ (length (d_control_pts k) < 2)%nat \/ (exists len, dc_length k = Ok len /\ len < s)).
Proof.
  intro I. split; [|apply d_query, I]. intro E.
  destruct (Rlt_le_dec s 0) as [H|H]; [left; exact H|]. destruct (le_lt_dec 2 (length (d_control_pts k))) as [Ln|Ln]; [|right; left; exact Ln].
  right. right. destruct (d_two k Ln) as (l & z & Ek & N). exists (arc_length z). split; [apply (proj2 (d_length_spec k) l z Ek)|].
  destruct (Rlt_le_dec (arc_length z) s) as [X|X]; [exact X|]. exfalso.
  destruct (proj2 (d_query k s I) l z Ek N (conj H X)) as (l1 & a & b & l2 & m & E' & _ & _ & Rl & _ & Q).
  rewrite E in Q. destruct (fdiv _ _) as [f|]; [|discriminate Q].
  assert (Nb : d_neighbours k a b) by (exists l1, l2; exact E'). destruct (d_neighbours_facts k a b I Nb) as (Wa & Wb & _).
  destruct (d_eval _ _ m f Wa Wb Rl) as (q & g & Eq & Eg & _). rewrite Eq in Q. cbn [obind] in Q. rewrite Eg in Q. discriminate Q.
Qed.
Lemma d_nan_iff k s : d_inv k ->
  (dc_point_at k s = Ok None <-> s = 0 /\ exists a b l, d_control_pts k = a :: b :: l /\ arc_length b = 0).
Proof.
  intro I. split.
  - intro E. assert (NT : dc_point_at k s <> Throw) by (rewrite E; discriminate). rewrite (d_throws_iff k s I) in NT.
    assert (Ln : (2 <= length (d_control_pts k))%nat) by (destruct (le_lt_dec 2 (length (d_control_pts k))) as [Q|Q]; [exact Q|tauto]).
    destruct (d_two k Ln) as (l & z & Ek & N).
    assert (Hs : 0 <= s <= arc_length z).
    { split; [destruct (Rlt_le_dec s 0); [tauto|assumption]|]. destruct (Rlt_le_dec (arc_length z) s) as [X|X]; [|exact X].
      elim NT. right. right. exists (arc_length z). split; [apply (proj2 (d_length_spec k) l z Ek)|exact X]. }
    destruct (proj2 (d_query k s I) l z Ek N Hs) as (l1 & a & b & l2 & m & E' & S & Ht & Rl & La & Q).
    rewrite E in Q. assert (Nb : d_neighbours k a b) by (exists l1, l2; exact E'). destruct (d_neighbours_facts k a b I Nb) as (Wa & Wb & _).
    destruct (Req_dec (arc_length b - arc_length a) 0) as [Z|Z].
    2:{ rewrite (fdiv_some _ _ Z) in Q. destruct (d_eval _ _ m ((s - arc_length a) / (arc_length b - arc_length a)) Wa Wb Rl) as (q & g & Eq & Eg & _).
        rewrite Eq in Q. cbn [obind] in Q. rewrite Eg in Q. discriminate Q. }
    destruct S as [->|S]; [|lra]. destruct I as (_ & I2 & _). destruct (I2 a (b :: l2) E') as [A0 _].
    split; [lra|]. exists a, b, l2. split; [exact E'|lra].
  - intros (-> & a & b & l & E & B0). pose proof I as (_ & I2 & _). destruct (I2 a (b :: l) E) as [A0 _].
    destruct (list_cases (b :: l)) as [X|(l' & z & X)]; [discriminate X|].
    assert (Ek : d_control_pts k = (a :: l') ++ [z]) by (rewrite E, X; reflexivity).
    assert (Hz : 0 <= arc_length z).
    { pose proof (d_sorted k I) as S. rewrite E, X in S. inversion S as [|? ? _ F]; subst. rewrite Forall_forall in F.
      specialize (F z ltac:(apply in_or_app; right; left; reflexivity)). lra. }
    destruct (proj2 (d_query k 0 I) (a :: l') z Ek ltac:(discriminate) (conj (Rle_refl 0) Hz)) as (l1 & a' & b' & l2 & m & E' & S & Ht & Rl & La & Q).
    rewrite Q. rewrite E in E'. destruct l1 as [|x l1].
    + injection E' as -> -> _. rewrite A0, B0. replace (0 - 0) with 0 by ring. rewrite fdiv_none. reflexivity.
    + exfalso. destruct S as [S|S]; [discriminate S|]. injection E' as <- E'. 
      assert (Ia : In a' (b :: l)) by (rewrite E'; apply in_or_app; right; left; reflexivity).
      pose proof (d_sorted k I) as Sr. rewrite E in Sr. inversion Sr as [|? ? _ F]; subst. rewrite Forall_forall in F.
      specialize (F a' Ia). lra.
Qed.
(** The pose reported for an arc length in a segment of positive length. *)
Lemma d_on_segment k s : d_inv k -> (2 <= length (d_control_pts k))%nat -> (exists len, dc_length k = Ok len /\ 0 <= s <= len) ->
  dc_point_at k s <> Ok None -> exists a b m q g, d_neighbours k a b /\ arc_length a <= s <= arc_length b /\ arc_length a < arc_length b /\
    relative (ref_from_control a) (ref_from_control b) m /\
    let f := (s - arc_length a) / (arc_length b - arc_length a) in
    se3_interp m f = Ok q /\ se3_mul (ref_from_control a) q = Ok g /\ dc_point_at k s = Ok (Some g).
Proof.
  intros I Ln (len & El & Hs) NN. destruct (d_two k Ln) as (l & z & Ek & N). rewrite (proj2 (d_length_spec k) l z Ek) in El. injection El as <-.
  destruct (proj2 (d_query k s I) l z Ek N Hs) as (l1 & a & b & l2 & m & E' & S & Ht & Rl & La & Q).
  assert (Nb : d_neighbours k a b) by (exists l1, l2; exact E'). destruct (d_neighbours_facts k a b I Nb) as (Wa & Wb & _).
  destruct (Req_dec (arc_length b - arc_length a) 0) as [Z|Z]; [rewrite Z, fdiv_none in Q; contradiction|].
  rewrite (fdiv_some _ _ Z) in Q.
  destruct (d_eval _ _ m ((s - arc_length a) / (arc_length b - arc_length a)) Wa Wb Rl) as (q & g & Eq & Eg & _).
  exists a, b, m, q, g. split; [exact Nb|]. split; [exact Ht|]. split; [lra|]. split; [exact Rl|]. cbv zeta.
  split; [exact Eq|]. split; [exact Eg|]. rewrite Q, Eq. cbn [obind]. rewrite Eg. reflexivity.
Qed.
(** A segment of positive length is used on its whole span except its start, which belongs
    to the segment before. *)
Lemma d_sorted_split (pts : list dcontrol) : StronglySorted (fun a b => arc_length a <= arc_length b) pts -> forall l a r, pts = l ++ a :: r ->
  (forall x, In x l -> arc_length x <= arc_length a) /\ (forall x, In x r -> arc_length a <= arc_length x).
Proof.
  intros S. induction S as [|y m S IH F]; intros l a r E; [destruct l; discriminate E|].
  destruct l as [|x l]; injection E as -> ->.
  - split; [intros x []|]. rewrite Forall_forall in F. exact F.
  - destruct (IH l a r eq_refl) as [A B]. split; [|exact B]. intros z [<-|Hz]; [|apply A, Hz].
    rewrite Forall_forall in F. apply F, in_or_app. right. left. reflexivity.
Qed.
Lemma app_compare {A} (l1 : list A) : forall x r1 l2 y r2, l1 ++ x :: r1 = l2 ++ y :: r2 ->
  (l1 = l2 /\ x = y /\ r1 = r2) \/ (exists u, l2 = l1 ++ x :: u /\ r1 = u ++ y :: r2) \/ (exists u, l1 = l2 ++ y :: u /\ r2 = u ++ x :: r1).
Proof.
  induction l1 as [|a l1 IH]; intros x r1 [|b l2] y r2 E; cbn in E; injection E as E1 E2.
  - left. auto.
  - right. left. subst b. exists l2. auto.
  - right. right. subst a. exists l1. auto.
  - subst b. destruct (IH x r1 l2 y r2 E2) as [(-> & -> & ->)|[(u & -> & ->)|(u & -> & ->)]].
    + left. auto.
    + right. left. exists u. auto.
    + right. right. exists u. auto.
Qed.
Lemma d_owner k l1 a b l2 m s : d_inv k -> d_control_pts k = l1 ++ a :: b :: l2 -> relative (ref_from_control a) (ref_from_control b) m ->
  arc_length a < arc_length b -> arc_length a <= s <= arc_length b -> (l1 = [] \/ arc_length a < s) ->
  exists q g, se3_interp m ((s - arc_length a) / (arc_length b - arc_length a)) = Ok q /\ se3_mul (ref_from_control a) q = Ok g /\
    dc_point_at k s = Ok (Some g).
Proof.
  intros I E Rl Hab Hs S.
  pose proof (d_sorted k I) as Sr. destruct (d_sorted_split _ Sr l1 a (b :: l2) E) as [A1 A2].
  destruct (d_sorted_split _ Sr (l1 ++ [a]) b l2) as [B1 B2]; [rewrite E, <- app_assoc; reflexivity|].
  assert (Ln : (2 <= length (d_control_pts k))%nat) by (rewrite E, app_length; cbn; lia).
  destruct (d_two k Ln) as (l & z & Ek & N).
  assert (Hz : arc_length b <= arc_length z).
  { rewrite E in Ek. destruct (list_cases l2) as [->|(l' & z' & ->)].
    - change (l1 ++ [a; b]) with (l1 ++ [a] ++ [b]) in Ek. rewrite app_assoc in Ek. apply app_last_inj in Ek as [_ ->]. lra.
    - change (l1 ++ a :: b :: l' ++ [z']) with (l1 ++ (a :: b :: l') ++ [z']) in Ek. rewrite app_assoc in Ek.
      apply app_last_inj in Ek as [_ ->]. apply B2. apply in_or_app. right. left. reflexivity. }
  assert (H0 : 0 <= s).
  { pose proof I as (_ & I2 & _). destruct l1 as [|x l1]; [destruct (I2 a (b :: l2) E); lra|].
    destruct (I2 x (l1 ++ a :: b :: l2) E) as [X0 _]. specialize (A1 x (or_introl eq_refl)). lra. }
  destruct (proj2 (d_query k s I) l z Ek N (conj H0 (Rle_trans _ _ _ (proj2 Hs) Hz))) as (m1 & a' & b' & m2 & m' & E' & S' & Hs' & Rl' & La' & Q).
  assert (Same : a' = a /\ b' = b).
  { rewrite E in E'. destruct (app_compare l1 a (b :: l2) m1 a' (b' :: m2) E') as [(-> & -> & X)|[(u & -> & X)|(u & -> & X)]].
    - injection X as -> _. auto.
    - (* a' after a *)
      exfalso. destruct u as [|y u]; injection X as X1 X2.
      + subst. destruct S' as [S'|S']; [destruct l1; discriminate S'|lra].
      + assert (In a' l2) by (rewrite X2; apply in_or_app; right; left; reflexivity). specialize (B2 _ H).
        destruct S' as [S'|S']; [destruct l1; discriminate S'|lra].
    - (* a' before a *)
      exfalso. assert (Hb' : arc_length b' <= arc_length a).
      { destruct u as [|y u]; injection X as X1 X2; [subst; lra|]. subst y. apply A1. apply in_or_app. right. right. left. reflexivity. }
      destruct S as [S|S]; [destruct m1; discriminate S|lra]. }
  destruct Same as [-> ->]. rewrite (relative_unique _ _ _ _ Rl' Rl) in *.
  assert (Nb : d_neighbours k a b) by (exists l1, l2; exact E). destruct (d_neighbours_facts k a b I Nb) as (Wa & Wb & _).
  destruct (d_eval _ _ m ((s - arc_length a) / (arc_length b - arc_length a)) Wa Wb Rl) as (q & g & Eq & Eg & _).
  exists q, g. split; [exact Eq|]. split; [exact Eg|]. rewrite Q, fdiv_some by lra. rewrite Eq. cbn [obind]. rewrite Eg. reflexivity.
Qed.
(** A control point at the end of a segment of positive length is met. *)
Lemma d_meets k a b m : d_inv k -> d_neighbours k a b -> relative (ref_from_control a) (ref_from_control b) m -> arc_length a < arc_length b ->
  exists g, dc_point_at k (arc_length b) = Ok (Some g) /\ se3_wf g /\
    rotation_matrix (rotation g) = rotation_matrix (rotation (ref_from_control b)) /\
    norm (vsub (position g) (position (ref_from_control b))) <= / 10^15 * norm (translation m) /\
    (plain_angle (norm2 (trot (se3_log m))) -> position g = position (ref_from_control b)) /\
    (same_frames se3_ops (ref_from_control a) (ref_from_control b) -> same_frames se3_ops g (ref_from_control b)).
Proof.
  intros I (l1 & l2 & E) Rl Hab. assert (Nb : d_neighbours k a b) by (exists l1, l2; exact E).
  destruct (d_neighbours_facts k a b I Nb) as (Wa & Wb & _).
  destruct (d_owner k l1 a b l2 m (arc_length b) I E Rl Hab) as (q & g & Eq & Eg & ->); [lra|right; exact Hab|].
  destruct (d_eval _ _ m ((arc_length b - arc_length a) / (arc_length b - arc_length a)) Wa Wb Rl) as (q' & g' & Eq' & Eg' & Wg & Sf & _ & Mg & Tg & _).
  rewrite Eq in Eq'. injection Eq' as <-. rewrite Eg in Eg'. injection Eg' as <-.
  destruct (relative_spec _ _ m Wa Wb Rl) as (Wm & _ & _ & Mb & Tb).
  replace ((arc_length b - arc_length a) / (arc_length b - arc_length a)) with 1 in Eq by (field; lra).
  destruct (proj2 (se3_interp_ends m Wm)) as (h & Eh & Rh & _ & _ & Th & Xh). rewrite Eq in Eh. injection Eh as <-.
  exists g. split; [reflexivity|]. split; [exact Wg|].
  assert (EM : se3_mat g = se3_mat (ref_from_control b)) by (rewrite Mg, Mb, Rh; reflexivity).
  split; [exact EM|]. unfold position. split; [|split].
  - rewrite Tg, Tb. replace (vsub _ _) with (mvec (se3_mat (ref_from_control a)) (vsub (translation q) (translation m))).
    2:{ rewrite mvec_sub. generalize (mvec (se3_mat (ref_from_control a)) (translation q)) (mvec (se3_mat (ref_from_control a)) (translation m)) (translation (ref_from_control a)).
        intros. vring. }
    rewrite rot_norm by apply Wa. exact Th.
  - intro P. rewrite Tg, Tb, (Xh P). reflexivity.
  - intro S. destruct (Sf S) as [X Y]. destruct S as [S1 S2]. split; [exact (eq_trans X S1)|exact (eq_trans Y S2)].
Qed.
(** The start. *)
Lemma d_meets_first k a b l : d_inv k -> d_control_pts k = a :: b :: l -> 0 < arc_length b ->
  exists g, dc_point_at k 0 = Ok (Some g) /\ se3_wf g /\
    rotation_matrix (rotation g) = rotation_matrix (rotation (ref_from_control a)) /\ position g = position (ref_from_control a) /\
    (same_frames se3_ops (ref_from_control a) (ref_from_control b) -> same_frames se3_ops g (ref_from_control a)).
Proof.
  intros I E Hb. pose proof I as (_ & I2 & _). destruct (I2 a (b :: l) E) as [A0 _].
  assert (Nb : d_neighbours k a b) by (exists [], l; exact E).
  destruct (d_neighbours_facts k a b I Nb) as (Wa & Wb & sg & _ & (_ & _ & _ & _ & Rl & _)).
  destruct (d_owner k [] a b l _ 0 I E Rl) as (q & g & Eq & Eg & ->); [lra|lra|left; reflexivity|].
  destruct (d_eval _ _ (orig_from_dest sg) ((0 - arc_length a) / (arc_length b - arc_length a)) Wa Wb Rl) as (q' & g' & Eq' & Eg' & Wg & Sf & _ & Mg & Tg & _).
  rewrite Eq in Eq'. injection Eq' as <-. rewrite Eg in Eg'. injection Eg' as <-.
  destruct (relative_spec _ _ _ Wa Wb Rl) as (Wm & _). rewrite A0 in Eq. replace ((0 - 0) / (arc_length b - 0)) with 0 in Eq by (field; lra).
  rewrite (proj1 (se3_interp_ends _ Wm)) in Eq. injection Eq as <-.
  exists g. split; [reflexivity|]. split; [exact Wg|]. split; [|split; [|exact Sf]].
  - change (se3_mat g = se3_mat (ref_from_control a)). rewrite Mg. unfold se3_id. cbn [rotation rotation_matrix]. apply mmul_1_r.
  - unfold position. rewrite Tg. unfold se3_id. cbn [translation]. rewrite mvec_zero. apply vadd_0_l.
Qed.

(** ** The path of the curve *)
Lemma screw_lip w v x y : norm (vsub (screw w v x) (screw w v y)) <= Rabs (x - y) * norm v.
Proof.
  destruct (Rle_lt_dec y x) as [H|H].
  - replace x with (y + (x - y)) at 1 by ring. rewrite screw_chord, Rabs_right by lra. apply screw_bound. lra.
  - replace (vsub _ _) with (vneg (vsub (screw w v y) (screw w v x))) by (generalize (screw w v y) (screw w v x); intros; vring).
    rewrite norm_neg. replace y with (x + (y - x)) at 1 by ring. rewrite screw_chord, Rabs_minus_sym, Rabs_right by lra. apply screw_bound. lra.
Qed.
Lemma rot_lip w x y u : norm (vsub (mvec (mexp (vscale x w)) u) (mvec (mexp (vscale y w)) u)) <= Rabs (x - y) * norm w * norm u.
Proof.
  rewrite !screw_ode. replace (vsub _ _) with (cross w (vsub (screw w u x) (screw w u y))).
  2:{ generalize (screw w u x) (screw w u y). intros. vring. }
  eapply Rle_trans; [apply norm_cross_le|]. pose proof (screw_lip w u x y). pose proof (norm_nonneg w). nra.
Qed.
Lemma screw_no_v w s : screw w vzero s = vzero.
Proof. pose proof (screw_lip w vzero s 0) as H. rewrite screw_zero, norm_vzero in H.
  assert (E : vsub (screw w vzero s) vzero = screw w vzero s) by (generalize (screw w vzero s); intro; vring). rewrite E in H.
  apply norm_zero. pose proof (norm_nonneg (screw w vzero s)). lra. Qed.
Definition seg_fraction (sg : dsegment) (s : R) : R := (s - orig_arc_length sg) / (dest_arc_length sg - orig_arc_length sg).
Definition seg_path (sg : dsegment) (s : R) : vec3 :=
  vadd (mvec (se3_mat (ref_from_orig sg)) (screw (trot (se3_log (orig_from_dest sg))) (ttrans (se3_log (orig_from_dest sg))) (seg_fraction sg s)))
       (position (ref_from_orig sg)).
Definition seg_orient (sg : dsegment) (s : R) : mat3 :=
  mmul (se3_mat (ref_from_orig sg)) (mexp (vscale (seg_fraction sg s) (trot (se3_log (orig_from_dest sg))))).
Fixpoint along {A} (f : dsegment -> R -> A) (d : A) (segs : list dsegment) (s : R) : A :=
  match segs with
  | [] => d
  | sg :: r => if Rleb s (dest_arc_length sg) then f sg s else along f d r s
  end.
Section SegPath.
Context (a b : dcontrol) (sg : dsegment) (J : d_joins a b sg)
  (Wa : se3_wf (ref_from_control a)) (Wb : se3_wf (ref_from_control b)).
Let m := orig_from_dest sg.
Lemma seg_path_lip s s' : norm (vsub (seg_path sg s) (seg_path sg s')) <= Rabs (s - s').
Proof.
  destruct J as (J1 & J2 & J3 & J4 & J5 & J6). unfold seg_path. rewrite J3. fold m.
  replace (vsub _ _) with (mvec (se3_mat (ref_from_control a))
    (vsub (screw (trot (se3_log m)) (ttrans (se3_log m)) (seg_fraction sg s)) (screw (trot (se3_log m)) (ttrans (se3_log m)) (seg_fraction sg s')))).
  2:{ rewrite mvec_sub. generalize (mvec (se3_mat (ref_from_control a)) (screw (trot (se3_log m)) (ttrans (se3_log m)) (seg_fraction sg s)))
        (mvec (se3_mat (ref_from_control a)) (screw (trot (se3_log m)) (ttrans (se3_log m)) (seg_fraction sg s'))) (position (ref_from_control a)). intros. vring. }
  rewrite rot_norm by apply Wa. eapply Rle_trans; [apply screw_lip|].
  unfold se3_arc_length in J6. fold m in J6. unfold seg_fraction. rewrite J1, J2, J6.
  replace (arc_length a + norm (ttrans (se3_log m)) - arc_length a) with (norm (ttrans (se3_log m))) by ring.
  pose proof (norm_nonneg (ttrans (se3_log m))). destruct (Req_dec (norm (ttrans (se3_log m))) 0) as [Z|Z].
  - rewrite Z. pose proof (Rabs_pos (s - s')). lra.
  - replace ((s - arc_length a) / norm (ttrans (se3_log m)) - (s' - arc_length a) / norm (ttrans (se3_log m)))
      with ((s - s') * / norm (ttrans (se3_log m))) by (field; exact Z).
    rewrite Rabs_mult, (Rabs_right (/ _)) by (apply Rle_ge, Rlt_le, Rinv_0_lt_compat; lra). right. field. exact Z.
Qed.
Lemma seg_path_start : seg_path sg (arc_length a) = position (ref_from_control a).
Proof.
  destruct J as (J1 & J2 & J3 & J4 & J5 & J6). unfold seg_path, seg_fraction. rewrite J1, J3.
  replace (arc_length a - arc_length a) with 0 by ring. unfold Rdiv. rewrite Rmult_0_l, screw_zero, mvec_zero. apply vadd_0_l.
Qed.
Lemma seg_path_end : plain_angle (norm2 (trot (se3_log m))) -> seg_path sg (arc_length b) = position (ref_from_control b).
Proof.
  intro P. destruct J as (J1 & J2 & J3 & J4 & J5 & J6). unfold seg_path, seg_fraction. rewrite J1, J2, J3.
  destruct (relative_spec _ _ _ Wa Wb J5) as (Wm & _ & _ & _ & Tb). unfold position. rewrite Tb. f_equal. f_equal. fold m in J6 |- *.
  pose proof (proj2 (se3_interp_ends m Wm)) as (h & Eh & _ & _ & _ & _ & X). rewrite (X P) in Eh.
  assert (T1 : translation m = screw (trot (se3_log m)) (ttrans (se3_log m)) 1).
  { apply (proj2 (proj2 (proj2 (proj2 (se3_interp_screw m 1 m Wm Eh))))). rewrite !Rmult_1_l. exact P. }
  rewrite T1. destruct (Req_dec (se3_arc_length m) 0) as [Z|Z].
  - apply norm_zero in Z. rewrite Z, !screw_no_v. reflexivity.
  - f_equal. field. lra.
Qed.
Lemma seg_path_speed s : arc_length a < arc_length b -> exists v, dV (seg_path sg) s v /\ norm v = 1.
Proof.
  intro H. destruct J as (J1 & J2 & J3 & J4 & J5 & J6).
  set (w := trot (se3_log m)). set (v := ttrans (se3_log m)). set (len := arc_length b - arc_length a).
  exists (mvec (se3_mat (ref_from_control a)) (vscale (/ len) (mvec (mexp (vscale (seg_fraction sg s) w)) v))). split.
  - unfold seg_path. rewrite J3. fold m w v. eapply dV_eq.
    + apply dV_add; [|apply dV_const]. apply dV_mvec; [apply dM_const|].
      apply (dV_chain (screw w v) (seg_fraction sg) s (mvec (mexp (vscale (seg_fraction sg s) w)) v) (/ len)); [|apply screw_deriv].
      unfold seg_fraction, Rdiv. rewrite J1, J2. fold len.
      eapply dl_eq; [apply derivable_pt_lim_mult; [apply derivable_pt_lim_minus; [apply derivable_pt_lim_id|apply derivable_pt_lim_const]|apply derivable_pt_lim_const]|].
      unfold mult_fct. ring.
    + generalize (mvec (mexp (vscale (seg_fraction sg s) w)) v) (se3_mat (ref_from_control a)) (screw w v (seg_fraction sg s)). intros. unfold mzero3. vring.
  - rewrite rot_norm by apply Wa. rewrite norm_scale, rot_norm by apply mexp_rot.
    unfold se3_arc_length in J6. fold m v in J6. rewrite Rabs_right by (apply Rle_ge, Rlt_le, Rinv_0_lt_compat; unfold len; lra).
    replace (norm v) with len by (unfold len; lra). field. unfold len. lra.
Qed.
Lemma seg_orient_lip s s' u : arc_length a < arc_length b -> norm (vsub (mvec (seg_orient sg s) u) (mvec (seg_orient sg s') u)) <=
  norm (trot (se3_log m)) / (arc_length b - arc_length a) * Rabs (s - s') * norm u.
Proof.
  intro H. destruct J as (J1 & J2 & J3 & J4 & J5 & J6). unfold seg_orient. rewrite J3, !mvec_mmul, <- mvec_sub, rot_norm by apply Wa.
  eapply Rle_trans; [apply rot_lip|]. fold m. right. unfold seg_fraction. rewrite J1, J2.
  replace ((s - arc_length a) / (arc_length b - arc_length a) - (s' - arc_length a) / (arc_length b - arc_length a))
    with ((s - s') * / (arc_length b - arc_length a)) by (field; lra).
  rewrite Rabs_mult, (Rabs_right (/ _)) by (apply Rle_ge, Rlt_le, Rinv_0_lt_compat; lra). field. lra.
Qed.
Lemma seg_orient_start : seg_orient sg (arc_length a) = se3_mat (ref_from_control a).
Proof.
  destruct J as (J1 & J2 & J3 & J4 & J5 & J6). unfold seg_orient, seg_fraction. rewrite J1, J3.
  replace (arc_length a - arc_length a) with 0 by ring. unfold Rdiv. rewrite Rmult_0_l, vscale_0, mexp_zero. apply mmul_1_r.
Qed.
Lemma seg_orient_end : arc_length a < arc_length b -> seg_orient sg (arc_length b) = se3_mat (ref_from_control b).
Proof.
  intro H. destruct J as (J1 & J2 & J3 & J4 & J5 & J6). unfold seg_orient, seg_fraction. rewrite J1, J2, J3.
  destruct (relative_spec _ _ _ Wa Wb J5) as (Wm & _ & _ & Mb & _). rewrite Mb. f_equal. fold m.
  destruct (se3_interp_ends m Wm) as (_ & h & Eh & Rh & _). destruct (se3_interp_screw m 1 h Wm Eh) as (R1 & _). rewrite Rh in R1.
  unfold se3_mat. rewrite R1. f_equal. f_equal. field. lra.
Qed.
End SegPath.

(** Gluing Lipschitz maps along the control points. *)
Definition d_chain (pts : list dcontrol) (segs : list dsegment) : Prop := Forall2 (fun ab s => d_joins (fst ab) (snd ab) s) (consecutive pts) segs.
Lemma along_glue {A} (dist : A -> A -> R) (f : dsegment -> R -> A) (d : A) (val : dcontrol -> A) (K : R) :
  (forall x y z, dist x z <= dist x y + dist y z) -> (forall x y, dist x y = dist y x) -> (forall x, dist x x = 0) -> 0 <= K ->
  forall pts segs, d_chain pts segs ->
  (forall a b sg, In (a, b) (consecutive pts) -> In sg segs -> d_joins a b sg -> 
     f sg (arc_length a) = val a /\ f sg (arc_length b) = val b /\ forall s s', dist (f sg s) (f sg s') <= K * Rabs (s - s')) ->
  forall a l z r, pts = a :: l -> pts = r ++ [z] -> l <> [] ->
    along f d segs (arc_length a) = val a /\
    (forall p, In p pts -> along f d segs (arc_length p) = val p) /\
    (forall s s', arc_length a <= s -> s <= s' -> s' <= arc_length z -> dist (along f d segs s) (along f d segs s') <= K * Rabs (s - s')).
Proof.
  intros Tr Sy Re HK. induction pts as [|a0 pts IH]; intros segs C H a l z r E1 E2 N; [discriminate E1|].
  injection E1 as -> ->. destruct l as [|b l]; [elim N; reflexivity|]. clear N.
  unfold d_chain in C. cbn in C. inversion C as [|ab sg cs ss J C' X Y]; subst. cbn [fst snd] in J.
  destruct (H a b sg ltac:(left; reflexivity) ltac:(left; reflexivity) J) as (Sa & Sb & Lp).
  pose proof (d_joins_le _ _ _ J) as Lab. assert (Ed : dest_arc_length sg = arc_length b) by apply J. cbn [along]. rewrite Ed.
  assert (Hs : forall s, s <= arc_length b -> (if Rleb s (arc_length b) then f sg s else along f d ss s) = f sg s).
  { intros s Hs. rewrite (proj2 (Rleb_true _ _) Hs). reflexivity. }
  assert (Ht : forall s, arc_length b < s -> (if Rleb s (arc_length b) then f sg s else along f d ss s) = along f d ss s).
  { intros s Ht. rewrite (proj2 (Rleb_false _ _) Ht). reflexivity. }
  split; [rewrite Hs by exact Lab; exact Sa|].
  destruct l as [|c l].
  { destruct r as [|x r]; [discriminate E2|]. injection E2 as <- E2. destruct r as [|y r]; [|destruct r; discriminate E2]. injection E2 as <-.
    split.
    - intros p [<-|[<-|[]]]; rewrite Hs by (exact Lab || lra); assumption.
    - intros s s' H1 H2 H3. rewrite !Hs by lra. apply Lp. }
  destruct r as [|x r]; [discriminate E2|]. injection E2 as <- E2.
  destruct (IH ss C' ltac:(intros a' b' sg' I1 I2; apply H; right; assumption) b (c :: l) z r eq_refl E2 ltac:(discriminate)) as (T0 & T1 & T2).
  split.
  - intros p [<-|Hp]; [rewrite Hs by exact Lab; exact Sa|].
    assert (Lp' : arc_length b <= arc_length p).
    { pose proof (d_sorted_from (b :: c :: l) ss C') as So. inversion So as [|? ? _ F]; subst. destruct Hp as [<-|Hp]; [lra|]. rewrite Forall_forall in F. apply F, Hp. }
    destruct (Rle_lt_or_eq_dec _ _ Lp') as [Q|Q].
    + rewrite Ht by exact Q. apply T1, Hp.
    + rewrite Hs by lra. rewrite <- Q, Sb, <- (T1 p Hp), <- Q. symmetry. exact T0.
  - intros s s' H1 H2 H3. destruct (Rle_lt_dec s' (arc_length b)) as [A1|A1]; [rewrite !Hs by lra; apply Lp|].
    destruct (Rle_lt_dec s (arc_length b)) as [A2|A2]; [|rewrite !Ht by lra; apply T2; lra].
    rewrite (Hs s A2), (Ht s' A1). eapply Rle_trans; [apply (Tr _ (val b))|]. rewrite <- Sb at 1. rewrite <- T0.
    pose proof (Lp s (arc_length b)) as L1. pose proof (T2 (arc_length b) s' ltac:(lra) ltac:(lra) H3) as L2.
    rewrite Rabs_left1 in L1, L2 |- * by lra. nra.
Qed.
Lemma along_at {A} (f : dsegment -> R -> A) d pts : forall segs, d_chain pts segs -> forall l1 a b l2 s, pts = l1 ++ a :: b :: l2 ->
  (l1 = [] \/ arc_length a < s) -> s <= arc_length b -> exists sg, In sg segs /\ d_joins a b sg /\ along f d segs s = f sg s.
Proof.
  induction pts as [|x pts IH]; intros segs C l1 a b l2 s E S Hs; [destruct l1; discriminate E|].
  destruct l1 as [|y l1]; injection E as -> ->.
  - unfold d_chain in C. cbn in C. inversion C as [|ab sg cs ss J C' X Y]; subst. cbn [fst snd] in J. exists sg.
    split; [left; reflexivity|]. split; [exact J|]. cbn [along]. assert (Ed : dest_arc_length sg = arc_length b) by apply J.
    rewrite Ed, (proj2 (Rleb_true _ _) Hs). reflexivity.
  - destruct S as [S|S]; [discriminate S|].
    destruct (l1 ++ a :: b :: l2) as [|x' m'] eqn:Q; [destruct l1; discriminate Q|].
    unfold d_chain in C. cbn in C. inversion C as [|ab sg cs ss J C' X Y]; subst. cbn [fst snd] in J.
    destruct (IH ss C' l1 a b l2 s ltac:(symmetry; exact Q) (or_intror S) Hs) as (sg' & I' & J' & E').
    exists sg'. split; [right; exact I'|]. split; [exact J'|]. cbn [along]. assert (Ed : dest_arc_length sg = arc_length x') by apply J.
    rewrite Ed. assert (Lx : arc_length x' <= arc_length a).
    { pose proof (d_sorted_from (x' :: m') ss C') as So. rewrite <- Q in So. destruct l1 as [|w l1]; injection Q as <- _; [lra|].
      cbn in So. inversion So as [|? ? _ F]; subst. rewrite Forall_forall in F. apply F. apply in_or_app. right. left. reflexivity. }
    rewrite (proj2 (Rleb_false _ _)) by lra. exact E'.
Qed.
Lemma consecutive_in {A} (a b : A) pts : In (a, b) (consecutive pts) -> exists l r, pts = l ++ a :: b :: r.
Proof.
  induction pts as [|x pts IH]; [intros []|]. destruct pts as [|y pts]; [intros []|]. cbn. intros [E|H].
  - injection E as -> ->. exists [], pts. reflexivity.
  - destruct (IH H) as (l & r & E). exists (x :: l), r. rewrite E. reflexivity.
Qed.
Lemma d_length_last k len : (2 <= length (d_control_pts k))%nat -> dc_length k = Ok len ->
  exists a l z r, d_control_pts k = a :: l /\ d_control_pts k = r ++ [z] /\ l <> [] /\ len = arc_length z.
Proof.
  intros Ln E. destruct (d_two k Ln) as (r & z & Ez & N). rewrite (proj2 (d_length_spec k) r z Ez) in E. injection E as <-.
  destruct (d_control_pts k) as [|a [|b l]] eqn:Q; [cbn in Ln; lia|cbn in Ln; lia|].
  exists a, (b :: l), z, r. repeat split; try assumption. discriminate.
Qed.
Lemma d_eval_at k a b m sg s q g : d_inv k -> d_neighbours k a b -> d_joins a b sg -> arc_length a < arc_length b -> m = orig_from_dest sg ->
  arc_length a <= s <= arc_length b ->
  se3_interp m ((s - arc_length a) / (arc_length b - arc_length a)) = Ok q -> se3_mul (ref_from_control a) q = Ok g ->
  norm (vsub (position g) (seg_path sg s)) <= / 10^23 * (arc_length b - arc_length a) /\ se3_mat g = seg_orient sg s /\
  (norm2 (trot (se3_log m)) = 0 -> position g = seg_path sg s).
Proof.
  intros I Nb J Hab -> Hs Eq Eg. destruct (d_neighbours_facts k a b I Nb) as (Wa & Wb & _). pose proof J as (J1 & J2 & J3 & J4 & J5 & J6).
  set (f := (s - arc_length a) / (arc_length b - arc_length a)) in *. set (m := orig_from_dest sg) in *.
  destruct (d_eval _ _ m f Wa Wb J5) as (q' & g' & Eq' & Eg' & Wg & Sf & Rq & Mg & Tg & Bq & Xq).
  rewrite Eq in Eq'. injection Eq' as <-. rewrite Eg in Eg'. injection Eg' as <-.
  assert (Ef : seg_fraction sg s = f) by (unfold seg_fraction; rewrite J1, J2; reflexivity).
  assert (F01 : 0 <= f <= 1).
  { unfold f. split; [apply Rmult_le_pos; [lra|apply Rlt_le, Rinv_0_lt_compat; lra]|].
    apply Rmult_le_reg_r with (arc_length b - arc_length a); [lra|]. unfold Rdiv. rewrite Rmult_assoc, Rinv_l by lra. lra. }
  unfold position, seg_path, seg_orient. rewrite Ef, J3. fold m. split; [|split].
  - rewrite Tg. unfold position.
    replace (vsub _ _) with (mvec (se3_mat (ref_from_control a)) (vsub (translation q) (screw (trot (se3_log m)) (ttrans (se3_log m)) f))).
    2:{ rewrite mvec_sub. generalize (mvec (se3_mat (ref_from_control a)) (translation q))
          (mvec (se3_mat (ref_from_control a)) (screw (trot (se3_log m)) (ttrans (se3_log m)) f)) (translation (ref_from_control a)). intros. vring. }
    rewrite rot_norm by apply Wa. eapply Rle_trans; [exact Bq|]. rewrite Rabs_right by lra. rewrite Rmult_assoc.
    apply Rmult_le_compat_l; [apply Rlt_le, Rinv_0_lt_compat, pow_lt; lra|]. rewrite J6. pose proof (arc_nonneg m). nra.
  - rewrite Mg, Rq. reflexivity.
  - intro Z. rewrite Tg. unfold position. rewrite Xq; [reflexivity|]. left. rewrite Z. ring.
Qed.
Lemma d_path k len : d_built k -> d_plain k -> (2 <= length (d_control_pts k))%nat -> dc_length k = Ok len ->
  exists P : R -> vec3,
    (forall s s', 0 <= s <= len -> 0 <= s' <= len -> norm (vsub (P s) (P s')) <= Rabs (s - s')) /\
    (forall p, In p (d_control_pts k) -> P (arc_length p) = position (ref_from_control p)) /\
    (forall a b s, d_neighbours k a b -> arc_length a < s < arc_length b -> exists v, dV P s v /\ norm v = 1) /\
    (forall s g, dc_point_at k s = Ok (Some g) -> norm (vsub (position g) (P s)) <= / 10^23 * len) /\
    ((forall a b m, d_neighbours k a b -> relative (ref_from_control a) (ref_from_control b) m -> norm2 (trot (se3_log m)) = 0) ->
       forall s g, dc_point_at k s = Ok (Some g) -> position g = P s).
Proof.
  intros B Pl Ln El. pose proof (d_built_inv k B) as I. pose proof I as (I1 & I2 & I3).
  destruct (d_length_last k len Ln El) as (a0 & l0 & z & r & Ea & Ez & N & ->).
  assert (A0 : arc_length a0 = 0) by apply (I2 a0 l0 Ea).
  set (P := along seg_path (position (ref_from_control z)) (d_segments k)).
  destruct (along_glue (fun x y => norm (vsub x y)) seg_path (position (ref_from_control z)) (fun p => position (ref_from_control p)) 1) with
    (pts := d_control_pts k) (segs := d_segments k) (a := a0) (l := l0) (z := z) (r := r) as (G0 & G1 & G2); try assumption.
  { intros. apply norm_triangle_sub. }
  { intros x y. replace (vsub x y) with (vneg (vsub y x)) by vring. apply norm_neg. }
  { apply norm_vsub_self. }
  { lra. }
  { intros a b sg Hab Hsg J. apply consecutive_in in Hab. destruct (d_neighbours_facts k a b I Hab) as (Wa & Wb & _).
    split; [apply (seg_path_start a b), J|]. split; [apply (seg_path_end a b); try assumption; apply (Pl a b); [exact Hab|apply J]|].
    intros s s'. rewrite Rmult_1_l. apply (seg_path_lip a b); assumption. }
  fold P in G0, G1, G2.
  assert (Found : forall s g, dc_point_at k s = Ok (Some g) -> exists a b sg q, d_neighbours k a b /\ d_joins a b sg /\ arc_length a < arc_length b /\
      arc_length a <= s <= arc_length b /\ arc_length b - arc_length a <= arc_length z /\ P s = seg_path sg s /\
      se3_interp (orig_from_dest sg) ((s - arc_length a) / (arc_length b - arc_length a)) = Ok q /\ se3_mul (ref_from_control a) q = Ok g).
  { intros s g E. assert (NT : dc_point_at k s <> Throw) by (rewrite E; discriminate). rewrite (d_throws_iff k s I) in NT.
    assert (Hs : 0 <= s <= arc_length z).
    { split; [destruct (Rlt_le_dec s 0); [tauto|assumption]|]. destruct (Rlt_le_dec (arc_length z) s) as [X|X]; [|exact X].
      elim NT. right. right. exists (arc_length z). split; [exact El|exact X]. }
    destruct (proj2 (d_query k s I) r z Ez ltac:(intros ->; rewrite Ez in Ln; cbn in Ln; lia) Hs) as (l1 & a & b & l2 & m & E' & S & Ht & Rl & La & Q).
    rewrite E in Q. destruct (along_at seg_path (position (ref_from_control z)) (d_control_pts k) (d_segments k) I3 l1 a b l2 s E' S (proj2 Ht)) as (sg & _ & J & Es).
    assert (Em : m = orig_from_dest sg) by (apply (relative_unique _ _ _ _ Rl), J).
    destruct (Req_dec (arc_length b - arc_length a) 0) as [Z|Z]; [rewrite Z, fdiv_none in Q; discriminate Q|]. rewrite (fdiv_some _ _ Z) in Q.
    assert (Nb : d_neighbours k a b) by (exists l1, l2; exact E').
    destruct (d_neighbours_facts k a b I Nb) as (Wa & Wb & _).
    destruct (d_eval _ _ m ((s - arc_length a) / (arc_length b - arc_length a)) Wa Wb Rl) as (q & g' & Eq & Eg & _).
    rewrite Eq in Q. cbn [obind] in Q. rewrite Eg in Q. injection Q as ->.
    exists a, b, sg, q. split; [exact Nb|]. split; [exact J|]. split; [lra|]. split; [exact Ht|]. split; [|split; [exact Es|subst m; split; assumption]].
    pose proof (d_sorted k I) as So. pose proof (d_sorted_split _ So (l1 ++ [a]) b l2 ltac:(rewrite E', <- app_assoc; reflexivity)) as [_ B2].
    assert (Hbz : arc_length b <= arc_length z).
    { rewrite E' in Ez. destruct (list_cases l2) as [->|(l' & z' & ->)].
      - change (l1 ++ [a; b]) with (l1 ++ [a] ++ [b]) in Ez. rewrite app_assoc in Ez. apply app_last_inj in Ez as [_ ->]. lra.
      - change (l1 ++ a :: b :: l' ++ [z']) with (l1 ++ (a :: b :: l') ++ [z']) in Ez. rewrite app_assoc in Ez.
        apply app_last_inj in Ez as [_ ->]. apply B2. apply in_or_app. right. left. reflexivity. }
    assert (Ha0 : 0 <= arc_length a).
    { rewrite E' in Ea. destruct l1 as [|x l1]; injection Ea as -> _; [lra|].
      destruct (d_sorted_split _ So [] a0 (l1 ++ a :: b :: l2) E') as [_ X]. rewrite <- A0. apply X. apply in_or_app. right. left. reflexivity. }
    lra. }
  exists P. split; [|split; [|split; [|split]]].
  - intros s s' H1 H2. destruct (Rle_lt_dec s s') as [Q|Q]; [pose proof (G2 s s' ltac:(lra) Q ltac:(lra)); lra|].
    rewrite Rabs_minus_sym. replace (vsub (P s) (P s')) with (vneg (vsub (P s') (P s))) by (generalize (P s) (P s'); intros; vring). rewrite norm_neg.
    pose proof (G2 s' s ltac:(lra) ltac:(lra) ltac:(lra)). lra.
  - exact G1.
  - intros a b s Nb Hs. pose proof Nb as (l1 & l2 & E'). destruct (d_neighbours_facts k a b I Nb) as (Wa & Wb & _).
    destruct (along_at seg_path (position (ref_from_control z)) (d_control_pts k) (d_segments k) I3 l1 a b l2 s E' (or_intror (proj1 Hs)) (Rlt_le _ _ (proj2 Hs))) as (sg & _ & J & _).
    destruct (seg_path_speed a b sg J Wa s ltac:(lra)) as (v & Dv & Nv). exists v. split; [|exact Nv].
    revert Dv. apply (dV_near _ _ _ _ (Rmin (s - arc_length a) (arc_length b - s))); [apply Rmin_pos; lra|].
    intros t Ht. assert (arc_length a < t < arc_length b).
    { pose proof (Rmin_l (s - arc_length a) (arc_length b - s)). pose proof (Rmin_r (s - arc_length a) (arc_length b - s)).
      apply Rabs_def2 in Ht. lra. }
    destruct (along_at seg_path (position (ref_from_control z)) (d_control_pts k) (d_segments k) I3 l1 a b l2 t E' ltac:(right; lra) ltac:(lra)) as (sg' & _ & J' & E2).
    unfold P. rewrite E2. f_equal. destruct J as (S1 & S2 & S3 & S4 & S5 & _), J' as (T1 & T2 & T3 & T4 & T5 & _).
    pose proof (relative_unique _ _ _ _ S5 T5) as S6. destruct sg, sg'. cbn in *. congruence.
  - intros s g E. destruct (Found s g E) as (a & b & sg & q & Nb & J & Hab & Hs & Hl & -> & Eq & Eg).
    destruct (d_eval_at k a b _ sg s q g I Nb J Hab eq_refl Hs Eq Eg) as (D & _). eapply Rle_trans; [exact D|].
    apply Rmult_le_compat_l; [apply Rlt_le, Rinv_0_lt_compat, pow_lt; lra|exact Hl].
  - intros T s g E. destruct (Found s g E) as (a & b & sg & q & Nb & J & Hab & Hs & Hl & -> & Eq & Eg).
    apply (d_eval_at k a b _ sg s q g I Nb J Hab eq_refl Hs Eq Eg). apply (T a b); [exact Nb|apply J].
Qed.
(** Orientation. *)
Lemma mat_ext a b : (forall u, mvec a u = mvec b u) -> a = b.
Proof.
  intro H. pose proof (H (V3 1 0 0)) as X. pose proof (H (V3 0 1 0)) as Y. pose proof (H (V3 0 0 1)) as Z.
  destruct a, b. clear H. vsimpl. injection X as X1 X2 X3. injection Y as Y1 Y2 Y3. injection Z as Z1 Z2 Z3. f_equal; lra.
Qed.
Lemma sup_bound {A} (F : A -> R) (l : list A) : exists K, 0 <= K /\ forall x, In x l -> F x <= K.
Proof.
  induction l as [|x l (K & P & B)]; [exists 0; split; [lra|intros x []]|].
  exists (Rmax K (F x)). split; [eapply Rle_trans; [exact P|apply Rmax_l]|]. intros y [<-|Hy]; [apply Rmax_r|].
  eapply Rle_trans; [apply B, Hy|apply Rmax_l].
Qed.
Lemma d_orientation k len : d_built k -> (2 <= length (d_control_pts k))%nat -> dc_length k = Ok len ->
  (forall a b, d_neighbours k a b -> arc_length a < arc_length b) ->
  exists Q : R -> mat3, (exists K, 0 <= K /\ forall u s s', 0 <= s <= len -> 0 <= s' <= len ->
      norm (vsub (mvec (Q s) u) (mvec (Q s') u)) <= K * norm u * Rabs (s - s')) /\
    (forall p, In p (d_control_pts k) -> Q (arc_length p) = rotation_matrix (rotation (ref_from_control p))) /\
    (forall s, 0 <= s <= len -> exists g, dc_point_at k s = Ok (Some g) /\ rotation_matrix (rotation g) = Q s).
Proof.
  intros B Ln El Pos. pose proof (d_built_inv k B) as I. pose proof I as (I1 & I2 & I3).
  destruct (d_length_last k len Ln El) as (a0 & l0 & z & r & Ea & Ez & N & ->).
  assert (A0 : arc_length a0 = 0) by apply (I2 a0 l0 Ea).
  set (Q := along seg_orient (se3_mat (ref_from_control z)) (d_segments k)).
  destruct (sup_bound (fun sg => norm (trot (se3_log (orig_from_dest sg))) / (dest_arc_length sg - orig_arc_length sg)) (d_segments k)) as (K & PK & HK).
  assert (Glue : forall u, (forall p, In p (d_control_pts k) -> mvec (Q (arc_length p)) u = mvec (se3_mat (ref_from_control p)) u) /\
      forall s s', 0 <= s -> s <= s' -> s' <= arc_length z -> norm (vsub (mvec (Q s) u) (mvec (Q s') u)) <= K * norm u * Rabs (s - s')).
  { intro u.
    assert (EQ : forall segs s, mvec (along seg_orient (se3_mat (ref_from_control z)) segs s) u =
       along (fun sg s => mvec (seg_orient sg s) u) (mvec (se3_mat (ref_from_control z)) u) segs s).
    { induction segs as [|sg segs IH]; intro s; [reflexivity|]. cbn [along]. destruct (Rleb s (dest_arc_length sg)); [reflexivity|apply IH]. }
    destruct (along_glue (fun x y => norm (vsub x y)) (fun sg s => mvec (seg_orient sg s) u) (mvec (se3_mat (ref_from_control z)) u)
      (fun p => mvec (se3_mat (ref_from_control p)) u) (K * norm u)) with
      (pts := d_control_pts k) (segs := d_segments k) (a := a0) (l := l0) (z := z) (r := r) as (G0 & G1 & G2); try assumption.
    { intros. apply norm_triangle_sub. }
    { intros x y. replace (vsub x y) with (vneg (vsub y x)) by vring. apply norm_neg. }
    { apply norm_vsub_self. }
    { apply Rmult_le_pos; [exact PK|apply norm_nonneg]. }
    { intros a b sg Hab Hsg J. apply consecutive_in in Hab. destruct (d_neighbours_facts k a b I Hab) as (Wa & Wb & _). specialize (Pos a b Hab).
      split; [rewrite (seg_orient_start a b sg J); reflexivity|]. split; [rewrite (seg_orient_end a b sg J Wa Wb Pos); reflexivity|].
      intros s s'. eapply Rle_trans; [apply (seg_orient_lip a b); assumption|]. specialize (HK sg Hsg). cbv beta in HK.
      destruct J as (J1 & J2 & _). rewrite J1, J2 in HK. pose proof (norm_nonneg u) as Nu. pose proof (Rabs_pos (s - s')) as Na.
      assert (X : 0 <= Rabs (s - s') * norm u) by nra. nra. }
    split.
    - intros p Hp. unfold Q. rewrite EQ. apply G1, Hp.
    - intros s s' H1 H2 H3. unfold Q. rewrite !EQ. apply G2; lra. }
  exists Q. split; [|split].
  - exists K. split; [exact PK|]. intros u s s' H1 H2. destruct (Glue u) as [_ G2].
    destruct (Rle_lt_dec s s') as [T|T]; [apply G2; lra|].
    rewrite Rabs_minus_sym. replace (vsub (mvec (Q s) u) (mvec (Q s') u)) with (vneg (vsub (mvec (Q s') u) (mvec (Q s) u)))
      by (generalize (mvec (Q s) u) (mvec (Q s') u); intros; vring). rewrite norm_neg. apply G2; lra.
  - intros p Hp. apply mat_ext. intro u. destruct (Glue u) as [G1 _]. apply G1, Hp.
  - intros s Hs. destruct (proj2 (d_query k s I) r z Ez ltac:(intros ->; rewrite Ez in Ln; cbn in Ln; lia) Hs) as (l1 & a & b & l2 & m & E' & S & Ht & Rl & La & Qy).
    destruct (along_at seg_orient (se3_mat (ref_from_control z)) (d_control_pts k) (d_segments k) I3 l1 a b l2 s E' S (proj2 Ht)) as (sg & _ & J & Es).
    assert (Em : m = orig_from_dest sg) by (apply (relative_unique _ _ _ _ Rl), J).
    assert (Nb : d_neighbours k a b) by (exists l1, l2; exact E'). specialize (Pos a b Nb).
    destruct (d_neighbours_facts k a b I Nb) as (Wa & Wb & _).
    destruct (d_eval _ _ m ((s - arc_length a) / (arc_length b - arc_length a)) Wa Wb Rl) as (q & g & Eq & Eg & _).
    exists g. rewrite Qy, fdiv_some, Eq by lra. cbn [obind]. rewrite Eg. split; [reflexivity|]. unfold Q. rewrite Es.
    apply (d_eval_at k a b m sg s q g I Nb J Pos Em Ht Eq Eg).
Qed.
