(** Building and querying time curves. *)
From Verif Require Import Cpp UuidModel RotSpec GeomModel TransProtoSpec DerivSpec DerivProofs FrameSpec LieSpec
  FrameProofs JetModel JetSpec JetLaws JetProofs CurveModel CurveSpec CurveProofs.
Local Open Scope R_scope.

Lemma Rltb_true a b : Rltb a b = true <-> a < b.
Proof. unfold Rltb. destruct (Rlt_dec a b); split; intro; auto; try discriminate; contradiction. Qed.
Lemma Rltb_false a b : Rltb a b = false <-> b <= a.
Proof. unfold Rltb. destruct (Rlt_dec a b); split; intro; auto; try discriminate; lra. Qed.
Lemma vec_back_app {A} (l : list A) b : vec_back (l ++ [b]) = Ok b.
Proof. unfold vec_back. rewrite rev_app_distr. reflexivity. Qed.
Lemma vec_empty_app {A} (l : list A) b : vec_empty (l ++ [b]) = false.
Proof. destruct l; reflexivity. Qed.
Lemma list_cases {A} (l : list A) : l = [] \/ exists l' b, l = l' ++ [b].
Proof. destruct l as [|a l] using rev_ind; [left; reflexivity|right; exists l, a; reflexivity]. Qed.
Lemma app_last_inj {A} (l l' : list A) a b : l ++ [a] = l' ++ [b] -> l = l' /\ a = b.
Proof. apply app_inj_tail. Qed.

Ltac vecs E := repeat (cbv beta iota; cbn [negb reassert obind]; first [rewrite E|rewrite vec_empty_app|rewrite vec_back_app]);
  cbv beta iota; cbn [negb reassert obind].
Section Build.
Context {G T : Type} {o : lie_ops G T}.

Definition new_segment (b p : control G T) : tsegment G T :=
  TSegment (c_time b) (c_time p) (TCurveSegment (normalized o (c_time p - c_time b) (c_point b))
    (normalized o (c_time p - c_time b) (c_point p))).
Lemma verify_frames_iff (g h : G) : g_verify_frames o g (g_into o h) (g_from o h) = true <-> same_frames o g h.
Proof. unfold g_verify_frames, same_frames. rewrite andb_true_iff, !frame_eqb_eq. tauto. Qed.
Lemma append_first p (k : tcurve G T) : control_pts k = [] -> tc_append o p k = (push_control p k, Ok tt).
Proof. intro E. unfold tc_append, cbind, calc. rewrite E. reflexivity. Qed.
Lemma append_next p (k : tcurve G T) l b : control_pts k = l ++ [b] ->
  c_time b < c_time p /\ same_frames o (frame_from_ref (c_point p)) (frame_from_ref (c_point b)) ->
  tc_append o p k = (TCurve (control_pts k ++ [p]) (segments k ++ [new_segment b p]), Ok tt).
Proof.
  intros E [Ht Hf]. unfold tc_append, cbind, calc, tc_point_frame, tc_reference_frame.
  vecs E. rewrite (proj2 (Rltb_true _ _) Ht). vecs E.
  rewrite (proj2 (verify_frames_iff _ _) Hf). cbn [reassert]. cbv beta iota.
  unfold make_segment, normalized. cbn [frame_from_ref].
  rewrite (proj2 (verify_frames_iff _ _)) by (destruct Hf; split; symmetry; assumption). cbn [reassert obind].
  unfold update, push_segment, push_control. cbn [control_pts segments]. rewrite E. reflexivity.
Qed.
Lemma append_refused p (k : tcurve G T) l b : control_pts k = l ++ [b] ->
  ~ (c_time b < c_time p /\ same_frames o (frame_from_ref (c_point p)) (frame_from_ref (c_point b))) ->
  tc_append o p k = (k, Throw).
Proof.
  intros E N. unfold tc_append, cbind, calc, tc_point_frame, tc_reference_frame.
  vecs E. destruct (Rltb (c_time b) (c_time p)) eqn:Et; cbn [reassert]; [|reflexivity]. vecs E.
  destruct (g_verify_frames _ _ _ _) eqn:Ef; cbn [reassert]; [|reflexivity].
  exfalso. apply N. split; [apply Rltb_true, Et|apply verify_frames_iff, Ef].
Qed.
Lemma acceptable_last l b (p : control G T) : acceptable o (l ++ [b]) p <->
  c_time b < c_time p /\ same_frames o (frame_from_ref (c_point p)) (frame_from_ref (c_point b)).
Proof.
  split.
  - intros [E|(l' & b' & E & H)]; [destruct l; discriminate E|]. apply app_last_inj in E as [_ <-]. exact H.
  - intro H. right. exists l, b. auto.
Qed.
(** One call. *)
Lemma append_cases p (k : tcurve G T) :
  (acceptable o (control_pts k) p /\ snd (tc_append o p k) = Ok tt /\
     control_pts (fst (tc_append o p k)) = control_pts k ++ [p]) \/
  (~ acceptable o (control_pts k) p /\ tc_append o p k = (k, Throw)).
Proof.
  destruct (list_cases (control_pts k)) as [E|(l & b & E)].
  - left. rewrite (append_first p k E). split; [left; exact E|]. split; reflexivity.
  - destruct (Classical_Prop.classic (c_time b < c_time p /\ same_frames o (frame_from_ref (c_point p)) (frame_from_ref (c_point b)))) as [H|H].
    + left. rewrite (append_next p k l b E H). split; [rewrite E; apply acceptable_last, H|]. split; reflexivity.
    + right. rewrite (append_refused p k l b E H). split; [|reflexivity]. rewrite E. rewrite acceptable_last. exact H.
Qed.
Lemma append_iff p (k : tcurve G T) :
  (snd (tc_append o p k) = Ok tt <-> acceptable o (control_pts k) p) /\
  (snd (tc_append o p k) = Throw <-> ~ acceptable o (control_pts k) p) /\
  (acceptable o (control_pts k) p -> control_pts (fst (tc_append o p k)) = control_pts k ++ [p]) /\
  (~ acceptable o (control_pts k) p -> fst (tc_append o p k) = k).
Proof.
  destruct (append_cases p k) as [(A & E & C)|(A & E)].
  - rewrite E. repeat split; try tauto; try discriminate.
  - rewrite E. cbn [fst snd]. repeat split; try tauto; try discriminate.
Qed.

Lemma after_snoc ps p (k : tcurve G T) : after_appends o (ps ++ [p]) k = fst (tc_append o p (after_appends o ps k)).
Proof. revert k. induction ps as [|q ps IH]; intro k; [reflexivity|]. cbn [app after_appends]. apply IH. Qed.

(** Consecutive elements. *)
Lemma consecutive_snoc {A} (l : list A) a b : consecutive (l ++ [a] ++ [b]) = consecutive (l ++ [a]) ++ [(a, b)].
Proof.
  induction l as [|x l IH]; [reflexivity|]. destruct l as [|y l]; [reflexivity|].
  change (consecutive ((x :: y :: l) ++ [a] ++ [b])) with ((x, y) :: consecutive ((y :: l) ++ [a] ++ [b])).
  rewrite IH. reflexivity.
Qed.
Definition joined (ab : control G T * control G T) (s : tsegment G T) : Prop := s = new_segment (fst ab) (snd ab).
Lemma build_segments ps : Forall2 joined (consecutive (control_pts (after_appends o ps tc_empty)))
  (segments (after_appends o ps tc_empty)).
Proof.
  induction ps as [|p ps IH] using rev_ind; [constructor|]. rewrite after_snoc.
  set (k := after_appends o ps tc_empty) in *. clearbody k.
  destruct (list_cases (control_pts k)) as [E|(l & b & E)].
  - rewrite (append_first p k E). cbn [fst]. unfold push_control. cbn [control_pts segments]. rewrite E in *.
    inversion IH. constructor.
  - destruct (Classical_Prop.classic (c_time b < c_time p /\ same_frames o (frame_from_ref (c_point p)) (frame_from_ref (c_point b)))) as [H|H].
    + rewrite (append_next p k l b E H). cbn [fst control_pts segments]. rewrite E in *. rewrite <- app_assoc, consecutive_snoc.
      apply Forall2_app; [exact IH|]. constructor; [reflexivity|constructor].
    + rewrite (append_refused p k l b E H). exact IH.
Qed.
Lemma build_takes ps : takes o ps (control_pts (after_appends o ps tc_empty)).
Proof.
  induction ps as [|p ps IH] using rev_ind; [constructor|]. rewrite after_snoc.
  destruct (append_cases p (after_appends o ps tc_empty)) as [(A & _ & ->)|(A & ->)].
  - apply takes_yes; assumption.
  - apply takes_no; assumption.
Qed.
Lemma takes_fun ps : forall a b, takes o ps a -> takes o ps b -> a = b.
Proof.
  induction ps as [|p ps IH] using rev_ind; intros a b A B.
  - inversion A; inversion B; subst; try reflexivity; destruct ps; try discriminate; destruct ps0; discriminate.
  - inversion A as [X|ps1 t1 p1 A1 A2 X|ps1 t1 p1 A1 A2 X]; [destruct ps; discriminate| |];
    inversion B as [Y|ps2 t2 p2 B1 B2 Y|ps2 t2 p2 B1 B2 Y]; try (destruct ps; discriminate);
    apply app_last_inj in X as [-> ->]; apply app_last_inj in Y as [-> ->]; subst;
    pose proof (IH _ _ A1 B1) as E; subst; try reflexivity; contradiction.
Qed.
(** Order and frames of what is taken. *)
Lemma takes_facts ps taken : takes o ps taken ->
  StronglySorted (fun a b => c_time a < c_time b) taken /\
  (forall a b, In a taken -> In b taken -> same_frames o (frame_from_ref (c_point a)) (frame_from_ref (c_point b))).
Proof.
  induction 1 as [|ps taken p H [S F] A|ps taken p H IH N]; [split; [constructor|intros a b []]| |exact IH].
  assert (Q : taken = [] \/ exists l b, taken = l ++ [b] /\ c_time b < c_time p /\
    same_frames o (frame_from_ref (c_point p)) (frame_from_ref (c_point b))) by exact A.
  destruct Q as [->|(l & b & -> & Ht & Hf)].
  - cbn. split; [repeat constructor|]. intros x y [<-|[]] [<-|[]]. split; reflexivity.
  - assert (B : forall x, In x (l ++ [b]) -> c_time x < c_time p).
    { intros x Hx. apply in_app_or in Hx as [Hx|[<-|[]]]; [|exact Ht]. eapply Rlt_trans; [|exact Ht].
      clear - S Hx. induction l as [|y l IH]; [destruct Hx|]. cbn in S. inversion S as [|? ? S' Fl]; subst.
      destruct Hx as [<-|Hx]; [|exact (IH S' Hx)]. rewrite Forall_forall in Fl. apply Fl, in_or_app. right. left. reflexivity. }
    split.
    + clear - S B. induction (l ++ [b]) as [|y m IH]; [repeat constructor|].
      inversion S as [|? ? S' Fl]; subst. cbn. constructor.
      * apply IH; [exact S'|]. intros x Hx. apply B. right. exact Hx.
      * rewrite Forall_forall in *. intros x Hx. apply in_app_or in Hx as [Hx|[<-|[]]]; [apply Fl, Hx|]. apply B. left. reflexivity.
    + assert (P : forall x, In x (l ++ [b]) -> same_frames o (frame_from_ref (c_point x)) (frame_from_ref (c_point p))).
      { intros x Hx. destruct (F x b Hx) as [F1 F2]; [apply in_or_app; right; left; reflexivity|]. destruct Hf. split; congruence. }
      intros x y Hx Hy. apply in_app_or in Hx as [Hx|[<-|[]]]; apply in_app_or in Hy as [Hy|[<-|[]]].
      * apply F; assumption.
      * apply P, Hx.
      * destruct (P y Hy). split; congruence.
      * split; reflexivity.
Qed.
(** append(initializer_list) and construction: they stop at the first refused point. *)
Lemma append_list_spec ps : forall k : tcurve G T,
  (exists k', tc_append_list o ps k = (k', Ok tt) /\ control_pts k' = control_pts k ++ ps /\ k' = after_appends o ps k /\
     forall l p r, ps = l ++ p :: r -> acceptable o (control_pts k ++ l) p) \/
  (exists l p r, ps = l ++ p :: r /\ ~ acceptable o (control_pts k ++ l) p /\
     control_pts (after_appends o l k) = control_pts k ++ l /\ tc_append_list o ps k = (after_appends o l k, Throw)).
Proof.
  unfold tc_append_list. induction ps as [|p ps IH]; intro k.
  - left. exists k. cbn. rewrite app_nil_r. split; [reflexivity|]. split; [reflexivity|]. split; [reflexivity|].
    intros l q r E. destruct l; discriminate E.
  - cbn [for_each]. unfold cbind. destruct (append_cases p k) as [(A & E & C)|(A & E)].
    + destruct (tc_append o p k) as [k1 out] eqn:Ek. cbn [fst snd] in *. subst out.
      destruct (IH k1) as [(k' & E' & C' & K' & Q)|(l & q & r & Eq & N & C' & E')].
      * left. exists k'. split; [exact E'|]. rewrite C', C, <- app_assoc. split; [reflexivity|].
        cbn [after_appends]. rewrite Ek. cbn [fst]. split; [exact K'|].
        intros [|x l] q r X; cbn in X; injection X as <- ->.
        -- rewrite app_nil_r. exact A.
        -- specialize (Q l q r eq_refl). rewrite C, <- app_assoc in Q. exact Q.
      * right. exists (p :: l), q, r. subst ps. split; [reflexivity|]. rewrite C, <- app_assoc in N. split; [exact N|].
        cbn [after_appends]. rewrite Ek. cbn [fst]. rewrite C', C, <- app_assoc. split; [reflexivity|exact E'].
    + rewrite E. right. exists [], p, ps. rewrite app_nil_r. auto.
Qed.
Lemma takes_all ps : (forall l p r, ps = l ++ p :: r -> acceptable o l p) -> takes o ps ps.
Proof.
  induction ps as [|p ps IH] using rev_ind; intro H; [constructor|]. apply takes_yes; [|apply (H ps p []); reflexivity].
  apply IH. intros l q r E. apply (H l q (r ++ [p])). rewrite E, <- app_assoc. reflexivity.
Qed.
Lemma takes_all_inv ps : takes o ps ps -> forall l p r, ps = l ++ p :: r -> acceptable o l p.
Proof.
  assert (Len : forall qs t, takes o qs t -> (length t <= length qs)%nat).
  { induction 1 as [|qs t q _ IH _|qs t q _ IH _]; rewrite ?app_length in *; cbn in *; lia. }
  induction ps as [|q ps IH] using rev_ind; intros H l p r E; [destruct l; discriminate E|].
  inversion H as [X|ps1 t1 p1 A1 A2 X Y|ps1 t1 p1 A1 A2 X Y].
  - destruct ps; discriminate.
  - apply app_last_inj in X as [-> ->]. apply app_last_inj in Y as [-> _].
    destruct (list_cases r) as [->|(r' & z & ->)].
    + apply app_last_inj in E as [-> ->]. exact A2.
    + rewrite app_comm_cons, app_assoc in E. apply app_last_inj in E as [E ->]. apply (IH A1 l p r' E).
  - apply Len in A1. subst t1. apply app_last_inj in X as [-> _]. rewrite app_length in A1. cbn in A1. lia.
Qed.
Lemma make_spec ps :
  (takes o ps ps -> tc_make o ps = Ok (after_appends o ps tc_empty) /\ control_pts (after_appends o ps tc_empty) = ps) /\
  (~ takes o ps ps -> tc_make o ps = Throw).
Proof.
  unfold tc_make, construct. destruct (append_list_spec ps tc_empty) as [(k' & -> & C & -> & Q)|(l & p & r & E & N & _ & ->)].
  - split; [intros _; split; [reflexivity|exact C]|]. intro N. elim N. apply takes_all. exact Q.
  - split; [|reflexivity]. intro H. elim N. exact (takes_all_inv ps H l p r E).
Qed.
End Build.

(** ** Queries *)
Section Query.
Context {G T : Type} {o : lie_ops G T} {c : lie_calc G T} (L : lie_laws o c).

Lemma new_segment_joins a b : joins o a b (new_segment (o:=o) a b).
Proof.
  unfold joins, new_segment. cbn [orig_time dest_time curve seg_orig seg_dest normalized frame_from_ref d_frame_from_ref d2_frame_from_ref].
  repeat split; apply (coord_ext _ _ L); intro n; rewrite !(coord_scale _ _ L); ring.
Qed.
Lemma new_segment_wf (a b : control G T) : jet_l_wf c (c_point a) -> jet_l_wf c (c_point b) ->
  same_frames o (frame_from_ref (c_point a)) (frame_from_ref (c_point b)) -> segment_wf o c (curve (new_segment (o:=o) a b)).
Proof. intros A B F. split; [exact A|]. split; [exact B|exact F]. Qed.

(** The facts about a curve that queries use. *)
Record tc_inv (k : tcurve G T) : Prop := TcInv {
  inv_segments : Forall2 (joined (o:=o)) (consecutive (control_pts k)) (segments k);
  inv_sorted : StronglySorted (fun a b => c_time a < c_time b) (control_pts k);
  inv_frames : forall a b, In a (control_pts k) -> In b (control_pts k) ->
    same_frames o (frame_from_ref (c_point a)) (frame_from_ref (c_point b));
  inv_wf : forall p, In p (control_pts k) -> jet_l_wf c (c_point p) }.
Lemma curve_inv k : curve_wf o c k -> tc_inv k.
Proof.
  intros [(ps & ->) W]. destruct (takes_facts (o:=o) _ _ (build_takes ps)) as [S F].
  constructor; [apply build_segments|exact S|exact F|exact W].
Qed.

Lemma lower_bound_spec pts : forall segs t, Forall2 (joined (o:=o)) (consecutive pts) segs ->
  StronglySorted (fun a b => c_time a < c_time b) pts ->
  forall l z, pts = l ++ [z] -> l <> [] -> t <= c_time z ->
  exists l1 a b l2, pts = l1 ++ a :: b :: l2 /\ lower_bound t segs = Ok (Some (new_segment (o:=o) a b)) /\
    t <= c_time b /\ (l1 = [] \/ c_time a < t).
Proof.
  induction pts as [|a pts IH]; intros segs t F S l z E N Hz; [destruct l; discriminate E|].
  destruct pts as [|b pts].
  { destruct l as [|x l]; [elim N; reflexivity|]. injection E as _ E. destruct l; discriminate E. }
  cbn in F. inversion F as [|ab s cs ss J F' X Y]; subst. unfold joined in J. cbn [fst snd] in J. subst s.
  cbn [lower_bound new_segment dest_time]. inversion S as [|? ? S' Fa]; subst.
  destruct (Rltb (c_time b) t) eqn:Eb.
  - apply Rltb_true in Eb. destruct l as [|x l]; [discriminate E|]. injection E as <- E.
    assert (N' : l <> []).
    { intros ->. injection E as -> ->. lra. }
    destruct (IH ss t F' S' l z E N' Hz) as (l1 & a' & b' & l2 & E' & Lb & T1 & T2).
    exists (a :: l1), a', b', l2. rewrite E'. split; [reflexivity|]. split; [exact Lb|]. split; [exact T1|]. right.
    destruct T2 as [->|T2]; [|exact T2]. injection E' as -> _. exact Eb.
  - apply Rltb_false in Eb.
    assert (Q : existsb (fun s' => Rltb (dest_time s') t) ss = false).
    { clear - F' S' Eb. revert b ss F' S' Eb. induction pts as [|d pts IH]; intros b ss F' S' Eb; cbn in F'; inversion F'; subst; [reflexivity|].
      match goal with H : joined _ _ |- _ => unfold joined in H; cbn [fst snd] in H; subst end.
      inversion S' as [|? ? S2 F2]; subst. inversion F2; subst. cbn [existsb new_segment dest_time].
      rewrite (proj2 (Rltb_false _ _)) by lra. cbn [orb]. apply (IH d); [assumption|assumption|lra]. }
    rewrite Q. exists [], a, b, pts. split; [reflexivity|]. split; [reflexivity|]. split; [exact Eb|left; reflexivity].
Qed.

(** The jet of the segment from [a] to [b] at the time [t], in unnormalized time. *)
Definition segment_jet (a b : control G T) (t : R) : outcome (jet_l G T) :=
  let dt := c_time b - c_time a in
  let* j := seg_point_at o (curve (new_segment (o:=o) a b)) (1 / dt * (t - c_time a)) in
  Ok (unnormalize o (1 / dt) j).
Lemma neighbours_facts k a b : tc_inv k -> neighbours k a b ->
  In a (control_pts k) /\ In b (control_pts k) /\ c_time a < c_time b /\ segment_wf o c (curve (new_segment (o:=o) a b)).
Proof.
  intros I (l & r & E).
  assert (Ia : In a (control_pts k)) by (rewrite E; apply in_or_app; right; left; reflexivity).
  assert (Ib : In b (control_pts k)) by (rewrite E; apply in_or_app; right; right; left; reflexivity).
  split; [exact Ia|]. split; [exact Ib|]. split.
  - pose proof (inv_sorted k I) as S. rewrite E in S. clear - S. induction l as [|x l IH].
    + inversion S as [|? ? S' F]; subst. inversion F. assumption.
    + inversion S; subst. apply IH. assumption.
  - apply new_segment_wf; [apply (inv_wf k I), Ia|apply (inv_wf k I), Ib|apply (inv_frames k I); assumption].
Qed.
(** In a strictly sorted curve the segment for a time is unique. *)
Lemma sorted_split (pts : list (control G T)) : StronglySorted (fun a b => c_time a < c_time b) pts -> forall l a r, pts = l ++ a :: r ->
  (forall x, In x l -> c_time x < c_time a) /\ (forall x, In x r -> c_time a < c_time x).
Proof.
  intros S. induction S as [|y m S IH F]; intros l a r E; [destruct l; discriminate E|].
  destruct l as [|x l]; injection E as -> ->.
  - split; [intros x []|]. rewrite Forall_forall in F. exact F.
  - destruct (IH l a r eq_refl) as [A B]. split; [|exact B]. intros z [<-|Hz]; [|apply A, Hz].
    rewrite Forall_forall in F. apply F, in_or_app. right. left. reflexivity.
Qed.
Lemma split_unique (pts : list (control G T)) : StronglySorted (fun a b => c_time a < c_time b) pts ->
  forall a l r l' r', pts = l ++ a :: r -> pts = l' ++ a :: r' -> l = l' /\ r = r'.
Proof.
  intros S a. induction S as [|y m S IH F]; intros l r l' r' E E'; [destruct l; discriminate E|].
  rewrite Forall_forall in F.
  destruct l as [|x l], l' as [|x' l']; cbn in E, E'.
  - injection E as _ <-. injection E' as _ <-. auto.
  - exfalso. injection E as -> _. injection E' as _ E'. specialize (F a). rewrite E' in F.
    specialize (F ltac:(apply in_or_app; right; left; reflexivity)). lra.
  - exfalso. injection E' as -> _. injection E as _ E. specialize (F a). rewrite E in F.
    specialize (F ltac:(apply in_or_app; right; left; reflexivity)). lra.
  - injection E as <- E. injection E' as <- E'. destruct (IH l r l' r' E E') as [-> ->]. auto.
Qed.
Lemma segments_empty_iff k : tc_inv k -> (segments k = [] <-> (length (control_pts k) < 2)%nat).
Proof.
  intro I. pose proof (inv_segments k I) as F. destruct (control_pts k) as [|a [|b l]]; cbn in *.
  - inversion F. split; [intros _; lia|reflexivity].
  - inversion F. split; [intros _; lia|reflexivity].
  - inversion F; subst. split; [discriminate|lia].
Qed.
Lemma point_at_eval k t : tc_inv k -> covers k t ->
  exists l1 a b l2, control_pts k = l1 ++ a :: b :: l2 /\ (l1 = [] \/ c_time a < t) /\ c_time a <= t <= c_time b /\
    tc_point_at_impl k t = Ok (new_segment (o:=o) a b, 1 / (c_time b - c_time a), 1 / (c_time b - c_time a) * (t - c_time a)).
Proof.
  intros I (f & m & z & E & Hf & Hz).
  destruct (lower_bound_spec (control_pts k) (segments k) t (inv_segments k I) (inv_sorted k I) (f :: m) z E ltac:(discriminate) Hz)
    as (l1 & a & b & l2 & E' & Lb & T1 & T2).
  exists l1, a, b, l2. split; [exact E'|]. split; [exact T2|]. split.
  - split; [|exact T1]. destruct T2 as [->|T2]; [|lra]. rewrite E in E'. injection E' as <- _. exact Hf.
  - unfold tc_point_at_impl.
    replace (vec_empty (segments k)) with false.
    2:{ destruct (segments k) eqn:Es; [|reflexivity]. cbn in Lb. discriminate Lb. }
    cbn [negb reassert obind].
    replace (vec_front (control_pts k)) with (Ok f) by (rewrite E; reflexivity). cbn [obind].
    replace (vec_back (control_pts k)) with (Ok z) by (rewrite E, app_comm_cons, vec_back_app; reflexivity). cbn [obind].
    rewrite (proj2 (Rltb_false t (c_time f))) by lra. rewrite (proj2 (Rltb_false (c_time z) t)) by lra.
    cbn [negb andb reassert obind]. rewrite Lb. cbn [obind deref]. reflexivity.
Qed.
Lemma segment_jet_ok k a b t : tc_inv k -> neighbours k a b -> exists j, segment_jet a b t = Ok j /\
  jet_l_wf c j /\ same_frames o (frame_from_ref j) (frame_from_ref (c_point a)).
Proof.
  intros I N. destruct (neighbours_facts k a b I N) as (_ & _ & _ & W). unfold segment_jet.
  destruct (seg_point_at_eq L _ (1 / (c_time b - c_time a) * (t - c_time a)) W) as (m & g & _ & _ & -> & Wg & Fg).
  cbn [obind]. eexists. split; [reflexivity|]. split; [exact Wg|exact Fg].
Qed.
(** The value at neighbouring control points. *)
Lemma segment_jet_start k a b : tc_inv k -> neighbours k a b -> segment_jet a b (c_time a) = Ok (c_point a).
Proof.
  intros I N. destruct (neighbours_facts k a b I N) as (_ & _ & Hab & W). unfold segment_jet.
  replace (1 / (c_time b - c_time a) * (c_time a - c_time a)) with 0 by ring.
  rewrite (seg_at_0 L _ W). cbn [obind]. f_equal. unfold unnormalize, jl_set_d, jl_set_d2.
  cbn [new_segment curve seg_orig normalized frame_from_ref d_frame_from_ref d2_frame_from_ref].
  destruct (c_point a) as [g d d2]. cbn [frame_from_ref d_frame_from_ref d2_frame_from_ref].
  f_equal; apply (coord_ext _ _ L); intro n; rewrite !(coord_scale _ _ L); field; lra.
Qed.
Lemma segment_jet_end k a b : tc_inv k -> neighbours k a b -> exact_motion o c (c_point a) (c_point b) ->
  segment_jet a b (c_time b) = Ok (c_point b).
Proof.
  intros I N X. destruct (neighbours_facts k a b I N) as (_ & _ & Hab & W). unfold segment_jet.
  replace (1 / (c_time b - c_time a) * (c_time b - c_time a)) with 1 by (field; lra).
  rewrite (seg_at_1 L _ W). 2:{ exact X. } cbn [obind]. f_equal. unfold unnormalize, jl_set_d, jl_set_d2.
  cbn [new_segment curve seg_dest normalized frame_from_ref d_frame_from_ref d2_frame_from_ref].
  destruct (c_point b) as [g d d2]. cbn [frame_from_ref d_frame_from_ref d2_frame_from_ref].
  f_equal; apply (coord_ext _ _ L); intro n; rewrite !(coord_scale _ _ L); field; lra.
Qed.
(** Which segment is used. *)
Lemma covers_split k l1 a b l2 t : tc_inv k -> control_pts k = l1 ++ a :: b :: l2 -> c_time a <= t <= c_time b -> covers k t.
Proof.
  intros I E Ht. destruct l1 as [|f l1].
  - destruct (list_cases (b :: l2)) as [Q|(m & z & Q)]; [discriminate Q|]. exists a, m, z. rewrite E. cbn [app]. rewrite Q.
    split; [reflexivity|]. split; [lra|].
    destruct (sorted_split _ (inv_sorted k I) [a] b l2 E) as [_ B].
    destruct m as [|y m]; injection Q as <- Q; [lra|]. left.
    eapply Rle_lt_trans; [apply Ht|]. apply B. rewrite Q. apply in_or_app. right. left. reflexivity.
  - destruct (list_cases (b :: l2)) as [Q|(m & z & Q)]; [discriminate Q|]. exists f, (l1 ++ a :: m), z. rewrite E.
    split; [rewrite Q; cbn [app]; rewrite <- app_assoc; reflexivity|].
    destruct (sorted_split _ (inv_sorted k I) (f :: l1) a (b :: l2) E) as [A _].
    split; [left; eapply Rlt_le_trans; [apply A; left; reflexivity|apply Ht]|].
    destruct (sorted_split _ (inv_sorted k I) ((f :: l1) ++ [a]) b l2) as [_ B]; [rewrite E, <- app_assoc; reflexivity|].
    destruct m as [|y m]; injection Q as <- Q; [lra|]. left.
    eapply Rle_lt_trans; [apply Ht|]. apply B. rewrite Q. apply in_or_app. right. left. reflexivity.
Qed.
Lemma span_unique k l1 a b l2 m1 a' b' m2 t : tc_inv k ->
  control_pts k = l1 ++ a :: b :: l2 -> (l1 = [] \/ c_time a < t) -> c_time a <= t <= c_time b ->
  control_pts k = m1 ++ a' :: b' :: m2 -> (m1 = [] \/ c_time a' < t) -> c_time a' <= t <= c_time b' -> a' = a /\ b' = b.
Proof.
  intros I E S0 Ht E' S Ht'.
  assert (N : neighbours k a b) by (exists l1, l2; exact E). assert (N' : neighbours k a' b') by (exists m1, m2; exact E').
  assert (Q : m1 ++ a' :: b' :: m2 = l1 ++ a :: b :: l2) by congruence.
  destruct (neighbours_facts k a b I N) as (Ia & Ib & Hab & _). destruct (neighbours_facts k a' b' I N') as (Ia' & Ib' & Hab' & _).
  destruct (sorted_split _ (inv_sorted k I) l1 a (b :: l2) E) as [A1 A2].
  destruct (sorted_split _ (inv_sorted k I) (l1 ++ [a]) b l2) as [B1 B2]; [rewrite E, <- app_assoc; reflexivity|].
  assert (P : In a' l1 \/ a' = a \/ In a' (b :: l2)).
  { rewrite E in Ia'. apply in_app_or in Ia' as [H|[H|H]]; auto. }
  destruct P as [P|[P|P]].
  - exfalso. assert (Hb : c_time b' <= c_time a).
    { apply in_split in P as (u & v & P). subst l1.
      assert (R : b' = a \/ In b' v).
      { rewrite <- app_assoc in E. cbn in E.
        destruct (split_unique _ (inv_sorted k I) a' u (v ++ a :: b :: l2) m1 (b' :: m2) E E') as [_ U].
        destruct v as [|y v]; injection U as <- _; [left; reflexivity|right; left; reflexivity]. }
      destruct R as [->|R]; [lra|]. left. apply A1. apply in_or_app. right. right. exact R. }
    destruct S0 as [->|S0]; [destruct P|lra].
  - subst a'. split; [reflexivity|].
    destruct (split_unique _ (inv_sorted k I) a m1 (b' :: m2) l1 (b :: l2) E' E) as [_ U].
    injection U as -> _. reflexivity.
  - exfalso. destruct S as [->|S]; [|destruct P as [<-|P]; [lra|specialize (B2 _ P); lra]].
    cbn in Q. destruct l1 as [|x l1]; cbn in Q; injection Q as H1 H2.
    + subst a'. destruct P as [<-|P]; [lra|specialize (B2 _ P); lra].
    + subst x. specialize (A1 a' (or_introl eq_refl)). destruct P as [<-|P]; [lra|specialize (B2 _ P); lra].
Qed.
Lemma impl_segment_jet k a b t :
  tc_point_at_impl k t = Ok (new_segment (o:=o) a b, 1 / (c_time b - c_time a), 1 / (c_time b - c_time a) * (t - c_time a)) ->
  tc_point_at o k t = segment_jet a b t.
Proof. unfold tc_point_at. intros ->. reflexivity. Qed.
Lemma point_at_owner k l1 a b l2 t : tc_inv k -> control_pts k = l1 ++ a :: b :: l2 -> (l1 = [] \/ c_time a < t) ->
  c_time a <= t <= c_time b -> tc_point_at o k t = segment_jet a b t.
Proof.
  intros I E S Ht. destruct (point_at_eval k t I (covers_split k l1 a b l2 t I E Ht)) as (m1 & a' & b' & m2 & E' & S' & Ht' & Q).
  destruct (span_unique k l1 a b l2 m1 a' b' m2 t I E S Ht E' S' Ht') as [-> ->]. apply impl_segment_jet, Q.
Qed.
(** Every segment is used on the whole of its time span. *)
Lemma point_at_segment k l1 a b l2 t : tc_inv k -> exact_motions o c k -> control_pts k = l1 ++ a :: b :: l2 ->
  c_time a <= t <= c_time b -> tc_point_at o k t = segment_jet a b t.
Proof.
  intros I X E Ht. destruct (list_cases l1) as [->|(l & z & ->)]; [apply (point_at_owner k [] a b l2 t I E); auto|].
  destruct (Rle_lt_or_eq_dec _ _ (proj1 Ht)) as [H|H]; [apply (point_at_owner k (l ++ [z]) a b l2 t I E); auto|].
  assert (N : neighbours k a b) by (exists (l ++ [z]), l2; exact E).
  rewrite <- app_assoc in E. cbn in E. assert (N' : neighbours k z a) by (exists l, (b :: l2); exact E).
  destruct (neighbours_facts k z a I N') as (_ & _ & Hz & _). rewrite <- H.
  rewrite (point_at_owner k l z a (b :: l2) (c_time a) I E (or_intror Hz)) by lra.
  rewrite (segment_jet_end k z a I N' (X _ _ N')), (segment_jet_start k a b I N). reflexivity.
Qed.
Lemma point_at_throws k t : tc_inv k ->
  (tc_point_at o k t = Throw <-> ~ covers k t \/ (length (control_pts k) < 2)%nat) /\
  (covers k t -> (2 <= length (control_pts k))%nat -> exists j, tc_point_at o k t = Ok j /\ jet_l_wf c j /\
     forall p, In p (control_pts k) -> same_frames o (frame_from_ref j) (frame_from_ref (c_point p))).
Proof.
  intro I.
  assert (Pos : covers k t -> (2 <= length (control_pts k))%nat -> exists j, tc_point_at o k t = Ok j /\ jet_l_wf c j /\
     forall p, In p (control_pts k) -> same_frames o (frame_from_ref j) (frame_from_ref (c_point p))).
  { intros Cv _. destruct (point_at_eval k t I Cv) as (l1 & a & b & l2 & E & _ & _ & Q). rewrite (impl_segment_jet _ _ _ _ Q). clear Q.
    assert (N : neighbours k a b) by (exists l1, l2; exact E).
    destruct (segment_jet_ok k a b t I N) as (j & -> & W & F). exists j. split; [reflexivity|]. split; [exact W|].
    intros p Hp. destruct (neighbours_facts k a b I N) as (Ia & _). destruct (inv_frames k I a p Ia Hp), F. split; congruence. }
  split; [|exact Pos]. split.
  - intro E. destruct (Classical_Prop.classic (covers k t)) as [Cv|N]; [|left; exact N]. right.
    destruct (le_lt_dec 2 (length (control_pts k))) as [H|H]; [|exact H]. destruct (Pos Cv H) as (j & E' & _). rewrite E in E'. discriminate E'.
  - intro H. unfold tc_point_at, tc_point_at_impl.
    destruct (vec_empty (segments k)) eqn:Es; [reflexivity|]. cbn [negb reassert obind].
    assert (Ln : (2 <= length (control_pts k))%nat).
    { destruct (le_lt_dec 2 (length (control_pts k))) as [Q|Q]; [exact Q|]. apply (segments_empty_iff k I) in Q. rewrite Q in Es. discriminate Es. }
    destruct H as [H|H]; [|lia].
    destruct (control_pts k) as [|f m] eqn:Ek; [cbn in Ln; lia|].
    destruct (list_cases m) as [->|(m' & z & ->)]; [cbn in Ln; lia|].
    cbn [vec_front obind]. rewrite app_comm_cons, vec_back_app. cbn [obind].
    destruct (Rltb t (c_time f)) eqn:E1; [reflexivity|]. destruct (Rltb (c_time z) t) eqn:E2; [reflexivity|].
    elim H. exists f, m', z. split; [exact Ek|]. apply Rltb_false in E1. apply Rltb_false in E2. lra.
Qed.
(** The control points themselves. *)
Lemma point_at_control k p : tc_inv k -> exact_motions o c k -> (2 <= length (control_pts k))%nat -> In p (control_pts k) ->
  tc_point_at o k (c_time p) = Ok (c_point p).
Proof.
  intros I X Ln Hp. apply in_split in Hp as (l & r & E). destruct r as [|b r].
  - destruct (list_cases l) as [->|(l' & a & ->)]; [rewrite E in Ln; cbn in Ln; lia|].
    rewrite <- app_assoc in E. cbn in E. assert (N : neighbours k a p) by (exists l', []; exact E).
    destruct (neighbours_facts k a p I N) as (_ & _ & Ha & _).
    rewrite (point_at_segment k l' a p [] (c_time p) I X E) by lra. apply (segment_jet_end k a p I N (X _ _ N)).
  - assert (N : neighbours k p b) by (exists l, r; exact E). destruct (neighbours_facts k p b I N) as (_ & _ & Ha & _).
    rewrite (point_at_segment k l p b r (c_time p) I X E) by lra. apply (segment_jet_start k p b I N).
Qed.

(** Without exactness: the first control point is met exactly; any other one is the end of
    the segment before it. *)
Lemma point_at_first k a b l : tc_inv k -> control_pts k = a :: b :: l -> tc_point_at o k (c_time a) = Ok (c_point a).
Proof.
  intros I E. assert (N : neighbours k a b) by (exists [], l; exact E). destruct (neighbours_facts k a b I N) as (_ & _ & H & _).
  rewrite (point_at_owner k [] a b l (c_time a) I E) by (auto; lra). apply (segment_jet_start k a b I N).
Qed.
Lemma point_at_later k a b : tc_inv k -> neighbours k a b -> tc_point_at o k (c_time b) = segment_jet a b (c_time b).
Proof.
  intros I N. destruct (neighbours_facts k a b I N) as (_ & _ & H & _). destruct N as (l & r & E).
  apply (point_at_owner k l a b r (c_time b) I E); [right; exact H|lra].
Qed.

(** ** Smoothness *)
Lemma segment_jet_sound k a b J t : tc_inv k -> neighbours k a b -> (forall s, segment_jet a b s = Ok (J s)) ->
  exact_at o c (curve (new_segment (o:=o) a b)) (1 / (c_time b - c_time a) * (t - c_time a)) -> sound (c:=c) J t.
Proof.
  intros I N E X. destruct (neighbours_facts k a b I N) as (_ & _ & Hab & W).
  set (h := 1 / (c_time b - c_time a)) in *. set (f := fun s => h * (s - c_time a)).
  set (S := fun u => match seg_point_at o (curve (new_segment (o:=o) a b)) u with Ok j => j | _ => jl_default o end).
  assert (ES : forall u, seg_point_at o (curve (new_segment (o:=o) a b)) u = Ok (S u)).
  { intro u. unfold S. destruct (seg_point_at_eq L _ u W) as (m & g & _ & _ & -> & _). reflexivity. }
  assert (EJ : forall s, J s = unnormalize o h (S (f s))).
  { intro s. specialize (E s). unfold segment_jet in E. fold h in E. change (h * (s - c_time a)) with (f s) in E. rewrite ES in E.
    cbn [obind] in E. injection E as <-. reflexivity. }
  destruct (seg_sound L _ S (f t) W ES X) as [[V D] [d3 D3]].
  assert (Df : derivable_pt_lim f t h).
  { eapply dl_eq; [apply (dl_mult (fun _ => h) (fun s => s - c_time a)); [apply dl_const|
      apply (dl_minus (fun s => s) (fun _ => c_time a)); [apply dl_id|apply dl_const]]|]. ring. }
  split; [split|].
  - rewrite EJ. unfold unnormalize, jl_set_d, jl_set_d2. cbn [frame_from_ref d_frame_from_ref d2_frame_from_ref].
    apply (vel_near _ _ L (fun s => frame_from_ref (S (f s))) _ _ _ 1 Rlt_0_1).
    { intros s _. rewrite EJ. reflexivity. }
    exact (vel_chain _ _ L _ f h t _ Df V).
  - rewrite EJ. unfold unnormalize, jl_set_d, jl_set_d2. cbn [frame_from_ref d_frame_from_ref d2_frame_from_ref].
    apply (td_near (fun s => t_scale o h (d_frame_from_ref (S (f s)))) _ _ _ 1 Rlt_0_1).
    { intros s _. rewrite EJ. reflexivity. }
    eapply td_eq; [apply (td_scale L (fun _ => h) 0 (fun s => d_frame_from_ref (S (f s)))); [apply dl_const|exact (td_chain L _ f t _ h Df D)]|].
    apply (coord_ext _ _ L). intro n. rewrite !(coord_add _ _ L), !(coord_scale _ _ L). ring.
  - eexists. apply (td_near (fun s => t_scale o h (t_scale o h (d2_frame_from_ref (S (f s))))) _ _ _ 1 Rlt_0_1).
    { intros s _. rewrite EJ. reflexivity. }
    apply (td_scale L (fun _ => h) 0 (fun s => t_scale o h (d2_frame_from_ref (S (f s))))); [apply dl_const|].
    apply (td_scale L (fun _ => h) 0 (fun s => d2_frame_from_ref (S (f s)))); [apply dl_const|exact (td_chain L _ f t _ h Df D3)].
Qed.
(** Continuity of joined functions. *)
Lemma continuity_glue f g h t r : 0 < r -> f t = g t -> f t = h t ->
  (forall s, t - r < s < t -> f s = g s) -> (forall s, t < s < t + r -> f s = h s) ->
  continuity_pt g t -> continuity_pt h t -> continuity_pt f t.
Proof.
  intros P Eg Eh Lg Lh Cg Ch eps He. destruct (Cg eps He) as (d1 & P1 & H1). destruct (Ch eps He) as (d2 & P2 & H2).
  exists (Rmin r (Rmin d1 d2)). split; [repeat apply Rmin_pos; assumption|]. intros x [Dx Hx].
  assert (B1 : Rabs (x - t) < r) by (eapply Rlt_le_trans; [exact Hx|apply Rmin_l]).
  assert (B2 : Rabs (x - t) < d1).
  { eapply Rlt_le_trans; [exact Hx|]. eapply Rle_trans; [apply Rmin_r|apply Rmin_l]. }
  assert (B3 : Rabs (x - t) < d2).
  { eapply Rlt_le_trans; [exact Hx|]. eapply Rle_trans; [apply Rmin_r|apply Rmin_r]. }
  apply Rabs_def2 in B1. destruct (Rtotal_order x t) as [N|[N|N]].
  - cbn. unfold R_dist. rewrite Lg, Eg by lra. apply H1. split; [exact Dx|exact B2].
  - subst x. cbn. unfold R_dist. replace (f t - f t) with 0 by ring. rewrite Rabs_R0. exact He.
  - cbn. unfold R_dist. rewrite Lh, Eh by lra. apply H2. split; [exact Dx|exact B3].
Qed.
Lemma differentiable_continuous u t : differentiable (c:=c) u t -> tangent_continuous c u t.
Proof. intros [u' D] n. apply derivable_continuous_pt. exists (coord c u' n). apply D. Qed.
Definition smooth (J : R -> jet_l G T) (t : R) : Prop :=
  true_derivatives c J t /\ tangent_continuous c (fun s => d2_frame_from_ref (J s)) t.
Lemma smooth_near A J t r : 0 < r -> (forall s, Rabs (s - t) < r -> J s = A s) -> sound (c:=c) A t -> smooth J t.
Proof.
  intros P E [[V D] D3]. pose proof (E t (near_self t r P)) as Et. split; [split|].
  - rewrite Et. apply (vel_near _ _ L (fun s => frame_from_ref (A s)) _ _ _ r P); [|exact V].
    intros s Hs. rewrite E by exact Hs. reflexivity.
  - rewrite Et. apply (td_near (fun s => d_frame_from_ref (A s)) _ _ _ r P); [|exact D].
    intros s Hs. rewrite E by exact Hs. reflexivity.
  - apply differentiable_continuous. destruct D3 as [d3 D3]. exists d3.
    apply (td_near (fun s => d2_frame_from_ref (A s)) _ _ _ r P); [|exact D3].
    intros s Hs. rewrite E by exact Hs. reflexivity.
Qed.
Lemma smooth_glue A B J t r : 0 < r -> J t = A t -> J t = B t ->
  (forall s, t - r < s < t -> J s = A s) -> (forall s, t < s < t + r -> J s = B s) ->
  sound (c:=c) A t -> sound (c:=c) B t -> smooth J t.
Proof.
  intros P Ea Eb La Lb [[VA DA] D3A] [[VB DB] D3B]. rewrite <- Ea in VA, DA. rewrite <- Eb in VB, DB. split; [split|].
  - apply (vel_glue _ _ L _ (fun s => frame_from_ref (A s)) (fun s => frame_from_ref (B s)) _ _ r P); try congruence; try assumption.
    + intros s Hs. rewrite La by exact Hs. reflexivity.
    + intros s Hs. rewrite Lb by exact Hs. reflexivity.
  - apply (td_glue _ (fun s => d_frame_from_ref (A s)) (fun s => d_frame_from_ref (B s)) _ _ r P); try congruence; try assumption.
    + intros s Hs. rewrite La by exact Hs. reflexivity.
    + intros s Hs. rewrite Lb by exact Hs. reflexivity.
  - apply differentiable_continuous in D3A. apply differentiable_continuous in D3B. intro n.
    apply (continuity_glue _ (fun s => coord c (d2_frame_from_ref (A s)) n) (fun s => coord c (d2_frame_from_ref (B s)) n) _ r P);
      try congruence; [| |apply D3A|apply D3B].
    + intros s Hs. rewrite La by exact Hs. reflexivity.
    + intros s Hs. rewrite Lb by exact Hs. reflexivity.
Qed.
Definition total_jet (a b : control G T) (s : R) : jet_l G T := match segment_jet a b s with Ok j => j | _ => jl_default o end.
Lemma total_jet_ok k a b s : tc_inv k -> neighbours k a b -> segment_jet a b s = Ok (total_jet a b s).
Proof. intros I N. unfold total_jet. destruct (segment_jet_ok k a b s I N) as (j & -> & _). reflexivity. Qed.
(** Strictly within a segment. *)
Lemma curve_smooth_within k a b J t : tc_inv k -> exact_motions o c k -> neighbours k a b -> c_time a < t < c_time b ->
  (forall s, covers k s -> tc_point_at o k s = Ok (J s)) ->
  exact_at o c (curve (new_segment (o:=o) a b)) (1 / (c_time b - c_time a) * (t - c_time a)) -> smooth J t.
Proof.
  intros I X (l & r & E) Ht H Xt. assert (N : neighbours k a b) by (exists l, r; exact E).
  assert (P : 0 < Rmin (t - c_time a) (c_time b - t)) by (apply Rmin_pos; lra).
  apply (smooth_near (total_jet a b) J t _ P).
  - intros s Hs.
    assert (B : c_time a <= s <= c_time b).
    { assert (B1 : Rabs (s - t) < t - c_time a) by (eapply Rlt_le_trans; [exact Hs|apply Rmin_l]).
      assert (B2 : Rabs (s - t) < c_time b - t) by (eapply Rlt_le_trans; [exact Hs|apply Rmin_r]).
      apply Rabs_def2 in B1. apply Rabs_def2 in B2. lra. }
    pose proof (point_at_segment k l a b r s I X E B) as Q. rewrite (total_jet_ok k a b s I N) in Q.
    assert (Cv : covers k s).
    { destruct (Classical_Prop.classic (covers k s)) as [Y|Y]; [exact Y|].
      rewrite (proj2 (proj1 (point_at_throws k s I)) (or_introl Y)) in Q. discriminate Q. }
    rewrite (H s Cv) in Q. injection Q as ->. reflexivity.
  - apply (segment_jet_sound k a b); [exact I|exact N|intro s; apply (total_jet_ok k a b s I N)|exact Xt].
Qed.
(** At every inner time, if the exponentials are exact everywhere. *)
Lemma curve_smooth k J t : (forall x v, exact_exp c x v) -> tc_inv k -> exact_motions o c k -> inside k t ->
  (forall s, covers k s -> tc_point_at o k s = Ok (J s)) -> smooth J t.
Proof.
  intros Xe I X (f & m & z & E & Hf & Hz) H.
  assert (Xa : forall sg u, exact_at o c sg u) by (intros sg u; repeat split; intros; apply Xe).
  assert (Hc : forall s j, tc_point_at o k s = Ok j -> J s = j).
  { intros s j Q. assert (Cv : covers k s).
    { destruct (Classical_Prop.classic (covers k s)) as [Y|Y]; [exact Y|].
      rewrite (proj2 (proj1 (point_at_throws k s I)) (or_introl Y)) in Q. discriminate Q. }
    rewrite (H s Cv) in Q. injection Q as ->. reflexivity. }
  assert (Cv : covers k t) by (exists f, m, z; split; [exact E|lra]).
  destruct (point_at_eval k t I Cv) as (l1 & a & b & l2 & E' & S & Ht & _).
  assert (N : neighbours k a b) by (exists l1, l2; exact E').
  destruct (neighbours_facts k a b I N) as (_ & _ & Hab & _).
  assert (At : c_time a < t).
  { destruct S as [->|S]; [|exact S]. rewrite E in E'. injection E' as <- _. exact Hf. }
  destruct (Rlt_le_dec t (c_time b)) as [Bt|Bt].
  { apply (curve_smooth_within k a b J t I X N); [lra|exact H|apply Xa]. }
  assert (Et : t = c_time b) by lra. destruct l2 as [|d l2].
  { exfalso. rewrite E in E'. change (l1 ++ [a; b]) with (l1 ++ [a] ++ [b]) in E'. rewrite app_comm_cons, app_assoc in E'.
    apply app_last_inj in E' as [_ ->]. lra. }
  assert (E2 : control_pts k = (l1 ++ [a]) ++ b :: d :: l2) by (rewrite E', <- app_assoc; reflexivity).
  assert (N2 : neighbours k b d) by (exists (l1 ++ [a]), l2; exact E2).
  destruct (neighbours_facts k b d I N2) as (_ & _ & Hbd & _).
  assert (P : 0 < Rmin (c_time b - c_time a) (c_time d - c_time b)) by (apply Rmin_pos; lra).
  pose proof (Rmin_l (c_time b - c_time a) (c_time d - c_time b)) as M1.
  pose proof (Rmin_r (c_time b - c_time a) (c_time d - c_time b)) as M2.
  apply (smooth_glue (total_jet a b) (total_jet b d) J t _ P).
  - apply Hc. rewrite (point_at_segment k l1 a b (d :: l2) t I X E') by lra. apply (total_jet_ok k a b t I N).
  - apply Hc. rewrite (point_at_segment k (l1 ++ [a]) b d l2 t I X E2) by lra. apply (total_jet_ok k b d t I N2).
  - intros s Hs. apply Hc. rewrite (point_at_segment k l1 a b (d :: l2) s I X E') by lra. apply (total_jet_ok k a b s I N).
  - intros s Hs. apply Hc. rewrite (point_at_segment k (l1 ++ [a]) b d l2 s I X E2) by lra. apply (total_jet_ok k b d s I N2).
  - apply (segment_jet_sound k a b); [exact I|exact N|intro s; apply (total_jet_ok k a b s I N)|apply Xa].
  - apply (segment_jet_sound k b d); [exact I|exact N2|intro s; apply (total_jet_ok k b d s I N2)|apply Xa].
Qed.
End Query.
