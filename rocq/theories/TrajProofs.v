(** Proofs about trajectories. *)
From Flocq Require Import Core BinarySingleNaN.
From Verif Require Import Cpp UuidModel RotSpec RotProofs GeomModel DerivSpec FrameSpec FrameProofs LieSpec LieProofs JetModel JetSpec JetLaws JetProofs
  CurveModel CurveSpec TCurveProofs SegClose TimeModel FloatModel FloatSpec FloatProofs StateModel StateSpec StateProofs.
Local Open Scope R_scope.

Lemma left_ok s : state_wf s -> exists j, left_two_jet se3_ops (ref_from_body_two_jet s) = Ok j /\ jet_l_wf se3_calc j /\
  right_two_jet se3_ops j = Ok (ref_from_body_two_jet s) /\ se3_inverse (ref_from_body s) = Ok (frame_from_ref j) /\
  se3_into (frame_from_ref j) = se3_from (ref_from_body s) /\ se3_from (frame_from_ref j) = se3_into (ref_from_body s).
Proof.
  intro W. destruct (jl_right_left se3_laws _ W) as (j & E & Wj & R). exists j. split; [exact E|]. split; [exact Wj|]. split; [exact R|].
  destruct (inv_facts se3_laws _ W) as (Ei & _ & I & F & _). unfold left_two_jet in E. unfold ref_from_body in Ei, I, F |- *. rewrite Ei in E. injection E as <-.
  split; [exact Ei|]. split; [exact I|exact F].
Qed.
Lemma seconds_zero : seconds 0 = 0.
Proof.
  unfold seconds. destruct (as_seconds_val 0) as [_ ->]; [unfold in64, INT64_MIN, INT64_MAX; lia|].
  unfold secs_of. rewrite rd_0. unfold Rdiv. rewrite Rmult_0_l. apply rd_0.
Qed.
Lemma hd_last {A} (l : list A) b : exists a, hd_error (l ++ [b]) = Some a.
Proof. destruct l; cbn; eauto. Qed.
Lemma hd_app {A} (l r : list A) a : hd_error l = Some a -> hd_error (l ++ r) = Some a.
Proof. destruct l; cbn; congruence. Qed.
Lemma curve_wf_append k p : curve_wf se3_ops se3_calc k -> jet_l_wf se3_calc (c_point p) -> curve_wf se3_ops se3_calc (fst (tc_append se3_ops p k)).
Proof.
  intros [(ps & E) W] Wp. split; [exists (ps ++ [p]); rewrite after_snoc, <- E; reflexivity|].
  destruct (append_cases (o:=se3_ops) p k) as [(_ & _ & C)|(_ & C)].
  - rewrite C. intros q H. apply in_app_or in H as [H|[<-|[]]]; [apply W, H|exact Wp].
  - rewrite C. exact W.
Qed.

(** One append. *)
Lemma tr_append_first t p : consists_of t [] -> state_wf (state p) ->
  exists t', tr_append p t = (t', Ok tt) /\ consists_of t' [p].
Proof.
  intros (_ & F & W & _) Wp. assert (E : [] = control_pts (tr_curve t)) by (inversion F; reflexivity).
  destruct (left_ok _ Wp) as (j & Ej & Wj & _).
  unfold tr_append, cbind, calc. rewrite <- E. cbn [vec_empty]. unfold update. cbn [tr_start_time tr_start].
  unfold sub64. rewrite Z.sub_diag, chk64_ok by (unfold in64, INT64_MIN, INT64_MAX; lia). rewrite Ej. unfold on_curve. cbn [tr_curve tr_start].
  rewrite (append_first (o:=se3_ops) (Control (seconds 0) j) (tr_curve t) (eq_sym E)). eexists. split; [reflexivity|].
  split. { intros a X. injection X as <-. reflexivity. }
  pose proof (curve_wf_append _ (Control (seconds 0) j) W Wj) as W'. rewrite append_first in W' by (symmetry; exact E).
  cbn [tr_start_time tr_start tr_curve]. split; [|split; [exact W'|constructor; [exact Wp|constructor]]].
  cbn [push_control control_pts]. rewrite <- E. constructor; [|constructor]. split; [|exact Ej]. cbn [c_time]. unfold since. rewrite Z.sub_diag. reflexivity.
Qed.
Lemma consists_last t l b : consists_of t (l ++ [b]) -> exists cs c, control_pts (tr_curve t) = cs ++ [c] /\ holds (tr_start_time t) b c /\
  Forall2 (holds (tr_start_time t)) l cs /\ state_wf (state b).
Proof.
  intros (_ & F & _ & Wl). apply Forall2_app_inv_l in F as (cs & r & F1 & F2 & E).
  inversion F2 as [|x c l0 r0 H F3]; subst. inversion F3; subst. exists cs, c. apply Forall_app in Wl as [_ Wb]. inversion Wb; subst. auto.
Qed.
Lemma holds_frames start p c : state_wf (state p) -> holds start p c -> jet_l_wf se3_calc (c_point c) /\
  right_two_jet se3_ops (c_point c) = Ok (ref_from_body_two_jet (state p)) /\ se3_inverse (ref_from_body (state p)) = Ok (frame_from_ref (c_point c)) /\
  se3_into (frame_from_ref (c_point c)) = se3_from (ref_from_body (state p)) /\ se3_from (frame_from_ref (c_point c)) = se3_into (ref_from_body (state p)).
Proof.
  intros W [_ E]. destruct (left_ok _ W) as (j & E' & H). rewrite E in E'. injection E' as <-. exact H.
Qed.
Lemma tr_append_next t l b p : consists_of t (l ++ [b]) -> state_wf (state p) ->
  let mismatch := se3_from (ref_from_body (state p)) <> se3_from (ref_from_body (state b)) in
  (mismatch -> tr_append p t = (t, Throw)) /\
  (~ mismatch -> ~ in64 (at_time p - tr_start_time t) -> tr_append p t = (t, UB)) /\
  (in64 (at_time p - tr_start_time t) -> follows (tr_start_time t) b p -> exists t', tr_append p t = (t', Ok tt) /\ consists_of t' (l ++ [b; p])) /\
  (~ mismatch -> in64 (at_time p - tr_start_time t) -> ~ follows (tr_start_time t) b p -> tr_append p t = (t, Throw)).
Proof.
  intros C Wp. destruct (consists_last t l b C) as (cs & c & Ec & Hb & F & Wb). destruct C as (Hs & F2 & W & Wl).
  destruct (holds_frames _ _ _ Wb Hb) as (Wc & _ & _ & Ic & Fc). cbv zeta.
  destruct (left_ok _ Wp) as (j & Ej & Wj & _ & _ & Ij & Fj).
  assert (Bf : tr_body_frame t = Ok (se3_from (ref_from_body (state b)))).
  { unfold tr_body_frame. rewrite Ec, vec_empty_app, vec_back_app. cbn. rewrite Ic. reflexivity. }
  assert (Unf : tr_append p t = (if frame_eqb (se3_from (ref_from_body (state p))) (se3_from (ref_from_body (state b)))
    then match sub64 (at_time p) (tr_start_time t) with
         | Ok d => on_curve (tc_append se3_ops (Control (seconds d) j)) t | Throw => (t, Throw) | UB => (t, UB) end
    else (t, Throw))).
  { unfold tr_append, cbind, calc. rewrite Ec, vec_empty_app. cbv iota beta. rewrite Bf. cbv iota beta. cbn [obind].
    destruct (frame_eqb _ _); cbn [reassert]; [|reflexivity]. destruct (sub64 _ _); [|reflexivity|reflexivity]. rewrite Ej. reflexivity. }
  assert (Fol : forall d, d = (at_time p - tr_start_time t)%Z -> follows (tr_start_time t) b p <->
    c_time c < c_time (Control (seconds d) j) /\ same_frames se3_ops (frame_from_ref (c_point (Control (seconds d) j))) (frame_from_ref (c_point c))).
  { intros d ->. cbn [c_time c_point]. destruct Hb as [-> _]. unfold follows, same_frames, same_poses_frames, since, seconds. cbn [g_into g_from se3_ops].
    rewrite Ij, Fj, Ic, Fc. tauto. }
  rewrite Unf. split; [|split; [|split]].
  - intro M. rewrite (frame_eqb_neq _ _ M). reflexivity.
  - intros M U. unfold sub64. rewrite (chk64_ub _ U). destruct (frame_eqb _ _) eqn:Ef; [reflexivity|]. elim M. intro X.
    apply frame_eqb_eq in X. rewrite X in Ef. discriminate Ef.
  - intros D Fo. pose proof Fo as (_ & _ & X). apply frame_eqb_eq in X. rewrite X. unfold sub64. rewrite (chk64_ok _ D).
    unfold on_curve. pose proof (append_next (o:=se3_ops) _ (tr_curve t) cs c Ec (proj1 (Fol _ eq_refl) Fo)) as A.
    pose proof (curve_wf_append _ (Control (seconds (at_time p - tr_start_time t)) j) W Wj) as W'. rewrite A in W' |- *. cbn [fst] in W'.
    eexists. split; [reflexivity|]. split; [|split; [|split]].
    + cbn [tr_start_time tr_start]. intros a Ha. apply Hs. destruct (hd_last l b) as (a' & Ea'). rewrite Ea'. apply (hd_app _ [p]) in Ea'.
      rewrite <- app_assoc in Ea'. cbn in Ea'. congruence.
    + cbn [tr_start_time tr_start tr_curve control_pts]. change [b; p] with ([b] ++ [p]). rewrite app_assoc.
      apply Forall2_app; [exact F2|]. constructor; [|constructor]. split; [reflexivity|exact Ej].
    + exact W'.
    + change [b; p] with ([b] ++ [p]). rewrite app_assoc. apply Forall_app. split; [exact Wl|]. constructor; [exact Wp|constructor].
  - intros M D N. unfold sub64. rewrite (chk64_ok _ D). destruct (frame_eqb _ _) eqn:Ef; [|reflexivity].
    unfold on_curve. rewrite (append_refused (o:=se3_ops) _ (tr_curve t) cs c Ec); [destruct t; reflexivity|].
    rewrite <- (Fol _ eq_refl). exact N.
Qed.
Lemma acceptable_follows t l b p : consists_of t (l ++ [b]) -> (tr_acceptable (l ++ [b]) p <-> follows (tr_start_time t) b p).
Proof.
  intros (Hs & _). split.
  - intros [E|(a & l' & b' & Ha & E & Fo)]; [destruct l; discriminate E|]. apply app_last_inj in E as [_ <-]. rewrite (Hs a Ha). exact Fo.
  - intro Fo. right. destruct (hd_last l b) as (a & Ha). exists a, l, b. rewrite <- (Hs a Ha). auto.
Qed.
Lemma defined_start t l b p : consists_of t (l ++ [b]) -> (tr_defined (l ++ [b]) p <-> in64 (at_time p - tr_start_time t)).
Proof.
  intros (Hs & _). destruct (hd_last l b) as (a & Ha). rewrite (Hs a Ha). split.
  - intro H. apply H, Ha.
  - intros H a' Ha'. rewrite Ha in Ha'. injection Ha' as <-. exact H.
Qed.
Lemma tr_append_spec t taken p : consists_of t taken -> state_wf (state p) ->
  (snd (tr_append p t) = UB <-> ~ tr_defined taken p /\
     exists l b, taken = l ++ [b] /\ se3_from (ref_from_body (state p)) = se3_from (ref_from_body (state b))) /\
  (snd (tr_append p t) = Ok tt <-> tr_defined taken p /\ tr_acceptable taken p) /\
  (tr_defined taken p -> tr_acceptable taken p -> consists_of (fst (tr_append p t)) (taken ++ [p])) /\
  (snd (tr_append p t) <> Ok tt -> fst (tr_append p t) = t).
Proof.
  intros C Wp. destruct (list_cases taken) as [->|(l & b & ->)].
  - destruct (tr_append_first t p C Wp) as (t' & E & C'). rewrite E. cbn [fst snd]. split; [|split; [|split]].
    + split; [discriminate|]. intros [_ (l & b & X & _)]. destruct l; discriminate X.
    + split; [|reflexivity]. intros _. split; [intros a X; discriminate X|left; reflexivity].
    + intros _ _. exact C'.
    + intro X. elim X. reflexivity.
  - rewrite (acceptable_follows t l b p C), (defined_start t l b p C). destruct (tr_append_next t l b p C Wp) as (A1 & A2 & A3 & A4).
    destruct (frame_dec (se3_from (ref_from_body (state p))) (se3_from (ref_from_body (state b)))) as [Ef|Nf].
    + assert (Nm : ~ se3_from (ref_from_body (state p)) <> se3_from (ref_from_body (state b))) by (intro X; exact (X Ef)).
      destruct (Classical_Prop.classic (in64 (at_time p - tr_start_time t))) as [D|U].
      * destruct (Classical_Prop.classic (follows (tr_start_time t) b p)) as [Fo|Fo].
        -- destruct (A3 D Fo) as (t' & E & C'). rewrite E. cbn [fst snd]. split; [|split; [|split]].
           ++ split; [discriminate|]. intros [X _]. contradiction.
           ++ tauto.
           ++ intros _ _. rewrite <- app_assoc. exact C'.
           ++ intro X. elim X. reflexivity.
        -- rewrite (A4 Nm D Fo). cbn [fst snd]. split; [|split; [|split]].
           ++ split; [discriminate|]. intros [X _]. contradiction.
           ++ split; [discriminate|]. intros [_ X]. contradiction.
           ++ intros _ X. contradiction.
           ++ reflexivity.
      * rewrite (A2 Nm U). cbn [fst snd]. split; [|split; [|split]].
        -- split; [|reflexivity]. intros _. split; [exact U|]. exists l, b. auto.
        -- split; [discriminate|]. intros [X _]. contradiction.
        -- intros X. contradiction.
        -- reflexivity.
    + rewrite (A1 Nf). cbn [fst snd]. assert (Q : ~ follows (tr_start_time t) b p) by (intros (_ & _ & X); exact (Nf X)).
      split; [|split; [|split]].
      * split; [discriminate|]. intros [_ (l' & b' & X & Y)]. apply app_last_inj in X as [_ <-]. contradiction.
      * split; [discriminate|]. intros [_ X]. contradiction.
      * intros _ X. contradiction.
      * reflexivity.
Qed.

(** Histories. *)
Lemma consists_empty : consists_of tr_empty [].
Proof.
  split; [intros a X; discriminate X|]. split; [constructor|]. split; [|constructor].
  split; [exists []; reflexivity|]. intros p [].
Qed.
Lemma new_trajectory : exists t, tr_make [] = Ok t /\ consists_of t [] /\ tr_start_time t = 0%Z.
Proof. exists tr_empty. split; [reflexivity|]. split; [exact consists_empty|reflexivity]. Qed.
Lemma tr_history_spec ps t : tr_history ps t -> Forall (fun p => state_wf (state p)) ps ->
  exists taken, tr_takes ps taken /\ consists_of t taken.
Proof.
  intro H. induction H as [|ps t p H IH U]; intro W.
  - exists []. split; [constructor|apply consists_empty].
  - apply Forall_app in W as [W Wp]. inversion Wp as [|x l Wp' _]; subst. destruct (IH W) as (taken & T & C).
    destruct (tr_append_spec t taken p C Wp') as (S1 & S2 & S3 & S4).
    destruct (snd (tr_append p t)) as [[]| |] eqn:E.
    + destruct (proj1 S2 eq_refl) as [D A]. exists (taken ++ [p]). split; [apply tr_takes_yes; assumption|apply S3; assumption].
    + exists taken. rewrite S4 by discriminate. split; [|exact C]. apply tr_takes_no; [exact T|]. intro A.
      destruct (list_cases taken) as [->|(l & b & ->)].
      * assert (D : tr_defined [] p) by (intros a X; discriminate X). pose proof (proj2 S2 (conj D A)) as X. discriminate X.
      * assert (D : ~ tr_defined (l ++ [b]) p) by (intro D; pose proof (proj2 S2 (conj D A)) as X; discriminate X).
        apply (acceptable_follows t l b p C) in A. destruct A as (_ & _ & Ef).
        pose proof (proj2 S1 (conj D (ex_intro _ l (ex_intro _ b (conj eq_refl Ef))))) as X. discriminate X.
    + elim U. reflexivity.
Qed.
Lemma tr_takes_fun ps a b : tr_takes ps a -> tr_takes ps b -> a = b.
Proof.
  intro H. revert b. induction H as [|ps taken p H IH D A|ps taken p H IH N]; intros b Hb.
  - inversion Hb as [|? ? ? ? ? ? E|? ? ? ? ? E]; [reflexivity|destruct ps; discriminate E|destruct ps; discriminate E].
  - inversion Hb as [E|ps' tk' p' H' D' A' E|ps' tk' p' H' N' E]; [destruct ps; discriminate E| |];
      apply app_last_inj in E as [-> ->]; rewrite (IH _ H') in *; [reflexivity|contradiction].
  - inversion Hb as [E|ps' tk' p' H' D' A' E|ps' tk' p' H' N' E]; [destruct ps; discriminate E| |];
      apply app_last_inj in E as [-> ->]; rewrite (IH _ H') in *; [contradiction|reflexivity].
Qed.
Lemma takes_first ps taken : tr_takes ps taken -> hd_error taken = hd_error ps.
Proof.
  intro H. induction H as [|ps taken p H IH D A|ps taken p H IH N]; [reflexivity| |].
  - destruct ps as [|a ps]; [inversion H as [E|? ? ? ? ? ? E|? ? ? ? ? E]; [reflexivity|destruct ps; discriminate E|destruct ps; discriminate E]|].
    cbn [hd_error app] in *. apply hd_app, IH.
  - destruct ps as [|a ps]; [|exact IH]. inversion H as [E|? ? ? ? ? ? E|? ? ? ? ? E]; [|destruct ps; discriminate E|destruct ps; discriminate E].
    subst. elim N. left. reflexivity.
Qed.

(** The points taken. *)
Lemma takes_defined ps taken : tr_takes ps taken -> forall a, hd_error taken = Some a -> Forall (fun p => in64 (at_time p - at_time a)) taken.
Proof.
  intro H. induction H as [|ps taken p H IH D A|ps taken p H IH N]; intros a Ha; [constructor| |apply IH, Ha].
  destruct (list_cases taken) as [->|(l & b & ->)].
  - injection Ha as <-. constructor; [|constructor]. rewrite Z.sub_diag. unfold in64, INT64_MIN, INT64_MAX. lia.
  - destruct (hd_last l b) as (a' & Ea'). pose proof (hd_app _ [p] _ Ea') as E. rewrite Ha in E. injection E as <-.
    apply Forall_app. split; [apply IH, Ea'|]. constructor; [apply D, Ea'|constructor].
Qed.
Lemma since_mono start a b : in64 (at_time a - start) -> in64 (at_time b - start) -> since start a < since start b -> (at_time a < at_time b)%Z.
Proof.
  intros Ia Ib H. unfold since in H. rewrite (proj2 (as_seconds_val _ Ia)), (proj2 (as_seconds_val _ Ib)) in H.
  destruct (Z_lt_le_dec (at_time a) (at_time b)) as [L|L]; [exact L|].
  pose proof (secs_mono (at_time b - start) (at_time a - start) ltac:(lia)). lra.
Qed.
Lemma sorted_transfer {A B} (Q : A -> B -> Prop) (ra : A -> A -> Prop) (rb : B -> B -> Prop) :
  (forall x y u v, Q x u -> Q y v -> rb u v -> ra x y) -> forall l m, Forall2 Q l m -> StronglySorted rb m -> StronglySorted ra l.
Proof.
  intros H l m F. induction F as [|x u l m Q1 F IH]; intro S; [constructor|]. inversion S as [|u' m' S' Fa]; subst. constructor; [apply IH, S'|].
  clear IH S S'. induction F as [|y v l m Q2 F IH]; [constructor|]. inversion Fa; subst. constructor; [eapply H; eassumption|apply IH; assumption].
Qed.
Lemma Forall2_same_length {A B} (Q : A -> B -> Prop) l m : Forall2 Q l m -> length l = length m.
Proof. intro F. induction F; cbn; congruence. Qed.
Lemma Forall2_and_l {A B} (Q : A -> B -> Prop) (P : A -> Prop) l m : Forall2 Q l m -> Forall P l -> Forall2 (fun x y => Q x y /\ P x) l m.
Proof. intro F. induction F as [|x u l m Q1 F IH]; intro H; [constructor|]. inversion H; subst. constructor; auto. Qed.
Lemma Forall2_in_l {A B} (Q : A -> B -> Prop) l m x : Forall2 Q l m -> In x l -> exists y, In y m /\ Q x y.
Proof.
  intro F. induction F as [|a b l m Q1 F IH]; intros [].
  - subst. exists b. split; [left; reflexivity|exact Q1].
  - destruct (IH H) as (y & I & Qy). exists y. split; [right; exact I|exact Qy].
Qed.
Lemma taken_sorted ps t taken : tr_takes ps taken -> consists_of t taken -> StronglySorted (fun a b => at_time a < at_time b)%Z taken.
Proof.
  intros T (Hs & F & W & _). destruct taken as [|a l]; [constructor|].
  pose proof (takes_defined ps _ T a eq_refl) as D. pose proof (Hs a eq_refl) as E. rewrite <- E in D.
  apply (sorted_transfer _ _ (fun u v => c_time u < c_time v)) with (2 := Forall2_and_l _ _ _ _ F D); [|apply (inv_sorted _ (curve_inv _ W))].
  intros x y u v [[Q1 _] D1] [[Q2 _] D2] L. rewrite Q1, Q2 in L. apply (since_mono (tr_start_time t)); assumption.
Qed.
Lemma taken_frames t taken a b : consists_of t taken -> In a taken -> In b taken -> same_poses_frames (state a) (state b).
Proof.
  intros (_ & F & W & Wl) Ia Ib. rewrite Forall_forall in Wl.
  destruct (Forall2_in_l _ _ _ _ F Ia) as (ca & Ica & Ha). destruct (Forall2_in_l _ _ _ _ F Ib) as (cb & Icb & Hb).
  destruct (holds_frames _ _ _ (Wl a Ia) Ha) as (_ & _ & _ & I1 & F1). destruct (holds_frames _ _ _ (Wl b Ib) Hb) as (_ & _ & _ & I2 & F2).
  destruct (inv_frames _ (curve_inv _ W) ca cb Ica Icb) as [X Y]. cbn [g_into g_from se3_ops] in X, Y.
  split; [rewrite <- F1, <- F2; exact Y|rewrite <- I1, <- I2; exact X].
Qed.
Lemma frames_of t taken p : consists_of t taken -> In p taken ->
  tr_reference_frame t = Ok (se3_into (ref_from_body (state p))) /\ tr_body_frame t = Ok (se3_from (ref_from_body (state p))).
Proof.
  intros C Ip. destruct (list_cases taken) as [->|(l & b & ->)]; [destruct Ip|].
  destruct (consists_last t l b C) as (cs & c & Ec & Hb & _ & Wb). destruct (holds_frames _ _ _ Wb Hb) as (_ & _ & _ & I1 & F1).
  destruct (taken_frames t _ p b C Ip (in_elt b l [])) as [X Y].
  unfold tr_reference_frame, tr_body_frame. rewrite Ec, vec_empty_app, vec_back_app. cbn [negb reassert obind]. rewrite I1, F1, X, Y. auto.
Qed.
Lemma frames_none t : consists_of t [] -> tr_reference_frame t = Throw /\ tr_body_frame t = Throw /\ tr_time_duration t = UB /\ tr_end_time t = UB.
Proof.
  intros (_ & F & _). assert (E : control_pts (tr_curve t) = []) by (inversion F; reflexivity).
  unfold tr_end_time, tr_reference_frame, tr_body_frame, tr_time_duration. rewrite E. cbn. auto.
Qed.

(** Queries. *)
Lemma covers_within t a l0 x : consists_of t (a :: l0) -> (covers (tr_curve t) (seconds (x - tr_start_time t)) <-> within (tr_start_time t) (a :: l0) x).
Proof.
  intros (Hs & F & _). pose proof (Hs a eq_refl) as Es. inversion F as [|? ca ? l1 Ha F' E1 E2]. subst.
  assert (Z0 : c_time ca = 0). { rewrite (proj1 Ha). unfold since. rewrite Es, Z.sub_diag. exact seconds_zero. }
  unfold covers, within. rewrite <- E2. split.
  - intros (a' & l & b & E & B). injection E as <- E. subst l1. apply Forall2_app_inv_r in F' as (m & r & F1 & F2 & ->).
    inversion F2 as [|p q ? ? Hb F3 X Y]; subst. inversion F3; subst. exists a, m, p. split; [reflexivity|].
    rewrite Z0, (proj1 Hb) in B. exact B.
  - intros (a' & l & b & E & B). injection E as <- E. subst l0. apply Forall2_app_inv_l in F' as (m & r & F1 & F2 & ->).
    inversion F2 as [|p q ? ? Hb F3 X Y]; subst. inversion F3; subst. exists ca, m, q. split; [reflexivity|].
    rewrite Z0, (proj1 Hb). exact B.
Qed.
Lemma right_state j s r : right_two_jet se3_ops j = Ok r -> rs_of_jet r = s -> (let* r := right_two_jet se3_ops j in Ok (rs_of_jet r)) = Ok s.
Proof. intros -> <-. reflexivity. Qed.
Lemma right_ok j : jet_l_wf se3_calc j -> exists s, (let* r := right_two_jet se3_ops j in Ok (rs_of_jet r)) = Ok s /\ state_wf s /\
  se3_into (ref_from_body s) = se3_from (frame_from_ref j) /\ se3_from (ref_from_body s) = se3_into (frame_from_ref j).
Proof.
  intro W. destruct (jr_left_right se3_laws j W) as (r & E & Wr & _). exists (rs_of_jet r). rewrite E. split; [reflexivity|]. split; [exact Wr|].
  destruct (inv_facts se3_laws _ W) as (Ei & _ & I & F & _). unfold right_two_jet in E. rewrite Ei in E. injection E as <-. split; [exact I|exact F].
Qed.
Lemma point_at_ok ps t taken x : tr_takes ps taken -> consists_of t taken -> in64 (x - tr_start_time t) ->
  (within (tr_start_time t) taken x -> exists s, tr_point_at t x = Ok s /\ state_wf s /\ forall p, In p taken -> same_poses_frames s (state p)) /\
  (~ within (tr_start_time t) taken x -> tr_point_at t x = Throw).
Proof.
  intros T C D. unfold tr_point_at, sub64. rewrite (chk64_ok _ D). cbn [obind].
  pose proof C as (Hs & F & W & Wl). destruct (point_at_throws se3_laws _ (seconds (x - tr_start_time t)) (curve_inv _ W)) as [P1 P2].
  destruct taken as [|a l0].
  - assert (E : control_pts (tr_curve t) = []) by (inversion F; reflexivity). split; [intros (a & l & b & X & _); discriminate X|].
    intros _. rewrite (proj2 P1); [reflexivity|]. right. rewrite E. cbn. lia.
  - pose proof (covers_within t a l0 x C) as Cw. split; intro H.
    + apply Cw in H. assert (Ln : (2 <= length (control_pts (tr_curve t)))%nat).
      { destruct H as (p & l & q & -> & _). cbn. rewrite app_length. cbn. lia. }
      destruct (P2 H Ln) as (j & Ej & Wj & Fj). rewrite Ej. cbn [obind]. destruct (right_ok j Wj) as (s & Es & Ws & I1 & F1). exists s. split; [exact Es|].
      split; [exact Ws|]. intros p Ip. destruct (Forall2_in_l _ _ _ _ F Ip) as (c & Ic & Hc). rewrite Forall_forall in Wl.
      destruct (holds_frames _ _ _ (Wl p Ip) Hc) as (_ & _ & _ & I2 & F2). destruct (Fj c Ic) as [X Y]. cbn [g_into g_from se3_ops] in X, Y.
      split; [rewrite I1, Y; exact F2|rewrite F1, X; exact I2].
    + rewrite (proj2 P1); [reflexivity|]. left. intro X. apply H, Cw, X.
Qed.
Lemma sorted_last (taken : list tpoint) l b : StronglySorted (fun a b => at_time a < at_time b)%Z taken -> taken = l ++ [b] ->
  forall p, In p taken -> (at_time p <= at_time b)%Z.
Proof.
  intros S ->. induction l as [|a l IH].
  - intros p [<-|[]]. lia.
  - inversion S as [|? ? S' Fa]; subst. intros p [<-|I]; [|apply IH; assumption]. rewrite Forall_forall in Fa.
    pose proof (Fa b (in_elt b l [])). lia.
Qed.
(** Between the first and the last timestamp a query is always inside; and while all times
    are precise, only there. *)
Lemma inside_within ps t a l b x : tr_takes ps (a :: l ++ [b]) -> consists_of t (a :: l ++ [b]) -> in64 (x - tr_start_time t) ->
  ((at_time a <= x <= at_time b)%Z -> within (tr_start_time t) (a :: l ++ [b]) x) /\
  ((Z.abs (x - at_time a) <= PRECISE)%Z -> (at_time b - at_time a <= PRECISE)%Z -> within (tr_start_time t) (a :: l ++ [b]) x -> (at_time a <= x <= at_time b)%Z).
Proof.
  intros T C D. pose proof (takes_defined ps _ T a eq_refl) as Df. pose proof (proj1 C a eq_refl) as Es. rewrite Es in D |- *.
  assert (Db : in64 (at_time b - at_time a)). { rewrite Forall_forall in Df. apply Df. right. apply in_elt. }
  pose proof (sorted_last _ (a :: l) b (taken_sorted ps t _ T C) eq_refl a (or_introl eq_refl)) as Lab.
  assert (V0 : secs_of 0 = 0). { rewrite <- seconds_zero. unfold seconds. destruct (as_seconds_val 0) as [_ ->]; [unfold in64, INT64_MIN, INT64_MAX; lia|reflexivity]. }
  split.
  - intros [L1 L2]. exists a, l, b. split; [reflexivity|]. unfold since. rewrite (proj2 (as_seconds_val _ D)), (proj2 (as_seconds_val _ Db)).
    rewrite <- V0. split; apply secs_mono; lia.
  - intros P1 P2 (a' & l' & b' & E & B). injection E as <- E. apply app_last_inj in E as [<- <-]. unfold since in B.
    rewrite (proj2 (as_seconds_val _ D)), (proj2 (as_seconds_val _ Db)), <- V0 in B. destruct B as [B1 B2].
    split.
    + destruct (Z_lt_le_dec x (at_time a)) as [L|L]; [|exact L].
      pose proof (secs_strict (x - at_time a) 0 P1 ltac:(vm_compute; discriminate) ltac:(lia)). lra.
    + destruct (Z_lt_le_dec (at_time b) x) as [L|L]; [|exact L].
      pose proof (secs_strict (at_time b - at_time a) (x - at_time a) ltac:(unfold PRECISE, DAYS97 in *; lia) P1 ltac:(lia)). lra.
Qed.
Lemma from_start t d : in64 d -> tr_point_from_start t d = tr_point_at t (tr_start_time t + d).
Proof.
  intro D. unfold tr_point_from_start, tr_point_at, sub64. replace (tr_start_time t + d - tr_start_time t)%Z with d by ring. rewrite (chk64_ok _ D). reflexivity.
Qed.

(** Control points. *)
Lemma pose_change_motion start a b ca cb m : state_wf (state a) -> state_wf (state b) -> holds start a ca -> holds start b cb ->
  (motion se3_ops (c_point ca) (c_point cb) m <-> pose_change a b m).
Proof.
  intros Wa Wb Ha Hb. destruct (holds_frames _ _ _ Wa Ha) as (Wca & _ & Ea & _). destruct (holds_frames _ _ _ Wb Hb) as (_ & _ & Eb & _).
  destruct (inverse_ok _ _ se3_laws _ Wa) as (h & E & _ & _ & _ & _ & _ & II). cbn [g_inverse se3_ops] in E, II. rewrite Ea in E. injection E as <-.
  unfold motion, pose_change. cbn [g_inverse g_mul se3_ops]. rewrite II, Eb. split.
  - intros (ai & X & M). injection X as <-. eauto.
  - intros (bi & X & M). injection X as <-. eauto.
Qed.
Lemma neighbours_taken t taken ca cb : consists_of t taken -> neighbours (tr_curve t) ca cb ->
  exists l a b r, taken = l ++ a :: b :: r /\ holds (tr_start_time t) a ca /\ holds (tr_start_time t) b cb /\ state_wf (state a) /\ state_wf (state b).
Proof.
  intros (_ & F & _ & Wl) (cl & cr & E). rewrite E in F. apply Forall2_app_inv_r in F as (l & r1 & F1 & F2 & ->).
  inversion F2 as [|a ? r2 ? Ha F3]; subst. inversion F3 as [|b ? r3 ? Hb F4]; subst. exists l, a, b, r3.
  apply Forall_app in Wl as [_ Wl]. inversion Wl as [|? ? Wa Wl']; subst. inversion Wl'; subst. auto 10.
Qed.
Lemma taken_neighbours t l a b r : consists_of t (l ++ a :: b :: r) -> exists ca cb, neighbours (tr_curve t) ca cb /\
  holds (tr_start_time t) a ca /\ holds (tr_start_time t) b cb /\ state_wf (state a) /\ state_wf (state b).
Proof.
  intros (_ & F & _ & Wl). apply Forall2_app_inv_l in F as (cl & c1 & F1 & F2 & E). inversion F2 as [|? ca ? c2 Ha F3]; subst.
  inversion F3 as [|? cb ? c3 Hb F4]; subst. exists ca, cb. split; [exists cl, c3; exact E|].
  apply Forall_app in Wl as [_ Wl]. inversion Wl as [|? ? Wa Wl']; subst. inversion Wl'; subst. auto.
Qed.
Lemma control_query ps t taken p c : tr_takes ps taken -> consists_of t taken -> In p taken -> holds (tr_start_time t) p c ->
  tr_point_at t (at_time p) = (let* j := tc_point_at se3_ops (tr_curve t) (c_time c) in let* r := right_two_jet se3_ops j in Ok (rs_of_jet r)).
Proof.
  intros T C Ip [Et _]. destruct taken as [|a l]; [destruct Ip|]. pose proof (takes_defined ps _ T a eq_refl) as D. rewrite Forall_forall in D.
  pose proof (proj1 C a eq_refl) as Es. unfold tr_point_at, sub64. rewrite Es, (chk64_ok _ (D p Ip)). cbn [obind]. rewrite Et, Es. reflexivity.
Qed.
Lemma control_states ps t taken p : tr_takes ps taken -> consists_of t taken -> exact_changes taken -> (2 <= length taken)%nat -> In p taken ->
  tr_point_at t (at_time p) = Ok (state p).
Proof.
  intros T C X Ln Ip. pose proof C as (_ & F & W & Wl). destruct (Forall2_in_l _ _ _ _ F Ip) as (c & Ic & Hc).
  rewrite (control_query ps t taken p c T C Ip Hc). rewrite Forall_forall in Wl. destruct (holds_frames _ _ _ (Wl p Ip) Hc) as (_ & R & _).
  rewrite (point_at_control se3_laws _ c (curve_inv _ W)); [cbn [obind]; rewrite R; destruct (state p); reflexivity| | |exact Ic].
  - intros ca cb N m M. destruct (neighbours_taken t taken ca cb C N) as (l & a & b & r & E & Ha & Hb & Wa & Wb).
    apply (X l a b r m E). apply (pose_change_motion _ _ _ _ _ _ Wa Wb Ha Hb), M.
  - rewrite <- (Forall2_same_length _ _ _ F). exact Ln.
Qed.
Lemma first_state ps t a b l : tr_takes ps (a :: b :: l) -> consists_of t (a :: b :: l) -> tr_point_at t (at_time a) = Ok (state a).
Proof.
  intros T C. pose proof C as (_ & F & W & Wl). inversion F as [|? ca ? l1 Ha F' E1 E2]; subst. inversion F' as [|? cb ? l2 Hb F'']; subst.
  rewrite (control_query ps t _ a ca T C (or_introl eq_refl) Ha). inversion Wl as [|? ? Wa _]; subst. destruct (holds_frames _ _ _ Wa Ha) as (_ & R & _).
  rewrite (point_at_first se3_laws _ ca cb l2 (curve_inv _ W) (eq_sym E2)). cbn [obind]. rewrite R. destruct (state a). reflexivity.
Qed.
Lemma pose_close_inverse e g h g' h' : se3_wf g -> se3_wf h -> pose_close e g h -> se3_inverse g = Ok g' -> se3_inverse h = Ok h' -> pose_close e g' h'.
Proof.
  intros Wg Wh (R & I & F & N) Eg Eh. rewrite (se3_inverse_eq g (proj2 Wg)) in Eg. rewrite (se3_inverse_eq h (proj2 Wh)) in Eh.
  injection Eg as <-. injection Eh as <-. unfold se3_inv. split; [|split; [|split]].
  - cbn [rotation]. unfold se3_mat. rewrite R. reflexivity.
  - exact F.
  - exact I.
  - cbn [translation]. unfold se3_mat. rewrite R.
    replace (vsub (mvec (mtrans (rotation_matrix (rotation h))) (vneg (translation g))) (mvec (mtrans (rotation_matrix (rotation h))) (vneg (translation h))))
      with (vneg (mvec (mtrans (rotation_matrix (rotation h))) (vsub (translation g) (translation h)))).
    + rewrite norm_neg, rot_norm; [exact N|]. apply rot_mtrans, Wh.
    + generalize (mtrans (rotation_matrix (rotation h))) (translation g) (translation h). intros. vring.
Qed.
Lemma close_states ps t l a b r m : tr_takes ps (l ++ a :: b :: r) -> consists_of t (l ++ a :: b :: r) -> pose_change a b m ->
  exists s, tr_point_at t (at_time b) = Ok s /\ rs_derivatives s = rs_derivatives (state b) /\
    pose_close (/ 10^15 * norm (translation m)) (ref_from_body s) (ref_from_body (state b)) /\
    (plain_angle (norm2 (trot (se3_log m))) -> s = state b).
Proof.
  intros T C M. destruct (taken_neighbours t l a b r C) as (ca & cb & N & Ha & Hb & Wa & Wb).
  assert (Ib : In b (l ++ a :: b :: r)) by (apply in_or_app; right; right; left; reflexivity).
  rewrite (control_query ps t _ b cb T C Ib Hb). pose proof C as (_ & _ & W & _).
  destruct (curve_control_close (tr_curve t) ca cb m W N) as (g & E & Cl & X); [apply (pose_change_motion _ _ _ _ _ _ Wa Wb Ha Hb), M|].
  rewrite E. cbn [obind]. destruct (holds_frames _ _ _ Wb Hb) as (Wcb & R & Ei & _).
  assert (Wg : se3_wf g).
  { destruct Cl as (Rg & Ig & Fg & _). destruct Wcb as [Q1 (Q2 & Q3 & Q4)]. split; [rewrite Rg; exact Q1|]. unfold se3_framing. rewrite Rg, Ig, Fg. auto. }
  destruct (inverse_ok _ _ se3_laws g Wg) as (gi & Eg & _). destruct (inverse_ok _ _ se3_laws _ Wcb) as (hi & Eh & _). cbn [g_inverse se3_ops] in Eg, Eh.
  unfold right_two_jet in R |- *. cbn [g_inverse se3_ops frame_from_ref d_frame_from_ref d2_frame_from_ref] in R |- *.
  rewrite Eh in R. cbn [obind] in R. rewrite Eg. cbn [obind]. eexists. split; [reflexivity|]. injection R as R.
  destruct (state b) as [[pb db d2b]] eqn:Es. cbn [ref_from_body_two_jet] in R. injection R as R1 R2 R3. split; [|split].
  - unfold rs_derivatives, linear_velocity, angular_velocity, linear_acceleration, angular_acceleration. cbn. rewrite <- R2, <- R3. reflexivity.
  - unfold ref_from_body. cbn. rewrite <- R1. exact (pose_close_inverse _ _ _ _ _ Wg Wcb Cl Eg Eh).
  - intro P. rewrite (X P), Eh in Eg. injection Eg as <-. unfold rs_of_jet. rewrite <- R1, <- R2, <- R3. reflexivity.
Qed.

(** ** Lists *)
Lemma for_each_snoc {S A} (f : A -> CurveModel.call S unit) l x s :
  for_each f (l ++ [x]) s = match for_each f l s with (s', Ok _) => f x s' | (s', Throw) => (s', Throw) | (s', UB) => (s', UB) end.
Proof.
  revert s. induction l as [|y l IH]; intro s.
  - cbn. unfold cbind, ret. destruct (f x s) as [s' [[]| |]]; reflexivity.
  - cbn [for_each app]. unfold cbind. destruct (f y s) as [s' [a| |]]; [apply IH|reflexivity|reflexivity].
Qed.
Lemma append_list ps t taken : consists_of t taken -> Forall (fun p => state_wf (state p)) ps ->
  (exists t', tr_append_list ps t = (t', Ok tt) /\ consists_of t' (taken ++ ps)) \/
  (exists l p r t', ps = l ++ p :: r /\ consists_of t' (taken ++ l) /\ snd (tr_append p t') <> Ok tt /\ tr_append_list ps t = (t', snd (tr_append p t'))).
Proof.
  intros C W. unfold tr_append_list. induction ps as [|p ps IH] using rev_ind.
  - left. exists t. rewrite app_nil_r. split; [reflexivity|exact C].
  - apply Forall_app in W as [W Wp]. inversion Wp as [|? ? Wp' _]; subst. rewrite for_each_snoc.
    destruct (IH W) as [(t' & E & C')|(l & q & r & t' & E & C' & N & E')].
    + rewrite E. destruct (tr_append_spec t' _ p C' Wp') as (_ & S2 & S3 & S4). destruct (snd (tr_append p t')) as [[]| |] eqn:Es.
      * destruct (proj1 S2 eq_refl) as [D A]. left. exists (fst (tr_append p t')). split; [rewrite (surjective_pairing (tr_append p t')), Es; reflexivity|].
        rewrite app_assoc. apply S3; assumption.
      * right. exists ps, p, [], t'. split; [reflexivity|]. split; [exact C'|]. rewrite Es. split; [discriminate|].
        rewrite (surjective_pairing (tr_append p t')), Es, S4 by discriminate. reflexivity.
      * right. exists ps, p, [], t'. split; [reflexivity|]. split; [exact C'|]. rewrite Es. split; [discriminate|].
        rewrite (surjective_pairing (tr_append p t')), Es, S4 by discriminate. reflexivity.
    + right. exists l, q, (r ++ [p]), t'. split; [rewrite E, <- app_assoc; reflexivity|]. split; [exact C'|]. split; [exact N|].
      rewrite E'. destruct (snd (tr_append q t')) as [[]| |]; [elim N; reflexivity|reflexivity|reflexivity].
Qed.
(** A list that is taken as a whole. *)
Lemma takes_prefix ps : tr_takes ps ps -> forall l p r, ps = l ++ p :: r -> tr_defined l p /\ tr_acceptable l p.
Proof.
  induction ps as [|q ps IH] using rev_ind; intros T l p r E; [destruct l; discriminate E|].
  inversion T as [X|ps' tk p' H D A X Y|ps' tk p' H N X Y].
  - destruct ps; discriminate X.
  - apply app_last_inj in X as [-> ->]. apply app_last_inj in Y as [-> _]. destruct (list_cases r) as [->|(r' & z & ->)].
    + apply app_last_inj in E as [-> ->]. auto.
    + change (l ++ p :: r' ++ [z]) with (l ++ (p :: r') ++ [z]) in E. rewrite app_assoc in E. apply app_last_inj in E as [E _].
      apply (IH H l p r' E).
  - exfalso. apply app_last_inj in X as [-> ->].
    assert (Sub : forall ps tk, tr_takes ps tk -> (length tk <= length ps)%nat).
    { intros a b Hab. induction Hab; rewrite ?app_length in *; cbn in *; lia. }
    pose proof (Sub _ _ H) as Q. subst; rewrite app_length in Q. cbn in Q. lia.
Qed.
Lemma takes_whole ps : (forall l p r, ps = l ++ p :: r -> tr_defined l p /\ tr_acceptable l p) -> tr_takes ps ps.
Proof.
  induction ps as [|q ps IH] using rev_ind; intro H; [constructor|]. destruct (H ps q [] eq_refl) as [D A]. apply tr_takes_yes; [|exact D|exact A].
  apply IH. intros l p r E. apply (H l p (r ++ [q])). rewrite E, <- app_assoc. reflexivity.
Qed.
Lemma make_whole ps : Forall (fun p => state_wf (state p)) ps -> tr_takes ps ps -> exists t, tr_make ps = Ok t /\ consists_of t ps.
Proof.
  intros W T. unfold tr_make, construct. destruct (append_list ps tr_empty [] consists_empty W) as [(t & E & C)|(l & p & r & t & E & C & N & _)].
  - rewrite E. exists t. auto.
  - exfalso. apply N. destruct (takes_prefix ps T l p r E) as [D A]. cbn [app] in C.
    assert (Wp : state_wf (state p)). { rewrite Forall_forall in W. apply W. rewrite E. apply in_elt. }
    destruct (tr_append_spec t l p C Wp) as (_ & S2 & _). apply S2. auto.
Qed.
Lemma make_not_whole ps : Forall (fun p => state_wf (state p)) ps -> ~ tr_takes ps ps -> forall t, tr_make ps <> Ok t.
Proof.
  intros W N t E. apply N. unfold tr_make, construct in E. destruct (append_list ps tr_empty [] consists_empty W) as [(t' & E' & C)|(l & p & r & t' & _ & _ & Q & E')].
  - clear E. apply takes_whole. intros l p r X.
    assert (Q : forall l r, ps = l ++ r -> exists t1, tr_append_list l tr_empty = (t1, Ok tt) /\ consists_of t1 l).
    { clear X l p r. intros l r X. assert (Wl : Forall (fun p => state_wf (state p)) l). { rewrite X in W. apply Forall_app in W as [W _]. exact W. }
      destruct (append_list l tr_empty [] consists_empty Wl) as [(t1 & E1 & C1)|(l1 & p1 & r1 & t1 & X1 & C1 & Q1 & E1)]; [exists t1; auto|].
      exfalso. subst ps. revert E' E1 Q1. unfold tr_append_list. clear. revert t1. generalize tr_empty.
      induction l as [|y l IH]; intros s t1 E' E1 Q1.
      - cbn [for_each] in E1. unfold ret in E1. injection E1 as _ E1. elim Q1. symmetry. exact E1.
      - cbn [for_each app] in E', E1. unfold cbind in E', E1. destruct (tr_append y s) as [s' [[]| |]]; [apply (IH s' t1 E' E1 Q1)|discriminate E'|discriminate E']. }
    destruct (Q l (p :: r) X) as (t1 & E1 & C1). destruct (Q (l ++ [p]) r) as (t2 & E2 & C2); [rewrite X, <- app_assoc; reflexivity|].
    assert (Wp : state_wf (state p)). { rewrite Forall_forall in W. apply W. rewrite X. apply in_elt. }
    destruct (tr_append_spec t1 l p C1 Wp) as (_ & S2 & _). apply S2. unfold tr_append_list in E1, E2. rewrite for_each_snoc, E1 in E2.
    rewrite E2. reflexivity.
  - rewrite E' in E. destruct (snd (tr_append p t')) as [[]| |]; [elim Q; reflexivity|discriminate E|discriminate E].
Qed.
(** Strictly increasing timestamps that are precise are taken. *)
Lemma precise_taken ps : StronglySorted (fun a b => at_time a < at_time b)%Z ps ->
  (forall a b, In a ps -> In b ps -> same_poses_frames (state a) (state b)) ->
  (forall a p, hd_error ps = Some a -> In p ps -> (at_time p - at_time a <= PRECISE)%Z) -> tr_takes ps ps.
Proof.
  intros S F P. apply takes_whole. intros l p r E.
  assert (Before : forall a, In a l -> (at_time a < at_time p)%Z).
  { rewrite E in S. clear E F P. induction l as [|x l IH]; intros a []; inversion S as [|? ? S' Fa]; subst.
    - rewrite Forall_forall in Fa. apply Fa, in_elt.
    - apply IH; assumption. }
  assert (Near : forall a q, hd_error l = Some a -> In q (l ++ [p]) -> (0 <= at_time q - at_time a <= PRECISE)%Z).
  { intros a q Ha Iq. assert (Ip : In q ps). { rewrite E. apply in_app_or in Iq as [I|[<-|[]]]; [apply in_or_app; left; exact I|apply in_elt]. }
    assert (Hd : hd_error ps = Some a) by (rewrite E; apply hd_app, Ha). split; [|apply (P a q Hd Ip)].
    destruct ps as [|a0 ps]; [discriminate Hd|]. injection Hd as ->. inversion S as [|? ? _ Fa]; subst. rewrite Forall_forall in Fa.
    destruct Ip as [<-|Ip]; [lia|]. pose proof (Fa q Ip). lia. }
  assert (In64 : forall z, (0 <= z <= PRECISE)%Z -> in64 z) by (unfold PRECISE, in64, INT64_MIN, INT64_MAX; lia).
  split.
  - intros a Ha. apply In64, (Near a p Ha), in_elt.
  - destruct (list_cases l) as [->|(l' & b & ->)]; [left; reflexivity|]. right. destruct (hd_last l' b) as (a & Ha). exists a, l', b.
    split; [exact Ha|]. split; [reflexivity|].
    assert (Ib : In b (l' ++ [b])) by apply in_elt.
    pose proof (Near a b Ha (in_or_app _ _ _ (or_introl Ib))) as Nb. pose proof (Near a p Ha (in_elt _ _ _)) as Np. split.
    + unfold since. rewrite (proj2 (as_seconds_val _ (In64 _ Nb))), (proj2 (as_seconds_val _ (In64 _ Np))).
      pose proof (Before b Ib). apply secs_strict; unfold PRECISE, DAYS97 in *; lia.
    + apply F; rewrite E; [apply in_elt|]. apply in_or_app. left. exact Ib.
Qed.

(** ** End times *)
Lemma Ztrunc_big x k : (1 <= k)%Z -> IZR k <= Rabs x -> (k <= Z.abs (Ztrunc x))%Z.
Proof. intros _ H. rewrite <- Ztrunc_abs, Ztrunc_floor by apply Rabs_pos. apply Zfloor_lub, H. Qed.
Lemma as_duration_real t : finite t -> as_duration t = real_as_duration (val t).
Proof.
  intro F. destruct nano_val as [Fn Vn].
  assert (V9 : IZR NANO = 10 ^ 9) by (unfold NANO; lra).
  destruct (Rle_lt_dec (Rabs (val t)) (2 ^ 63)) as [S|B].
  - rewrite (as_duration_val t F S). unfold real_as_duration, chk64, in64b, nanos_of. rewrite V9. reflexivity.
  - assert (Big : (2 ^ 63 + 1 <= Z.abs (Ztrunc (rd (val t * IZR NANO))))%Z).
    { apply Ztrunc_big; [lia|]. rewrite <- rd_abs. apply Rle_trans with (IZR (2 ^ 64)); [apply IZR_le; lia|].
      replace (IZR (2 ^ 64)) with (rd (IZR (2 ^ 64))).
      2: { apply rd_id. replace (IZR (2 ^ 64)) with (bpow radix2 64) by reflexivity. apply generic_format_bpow. unfold FLT_exp. lia. }
      apply rd_le. rewrite Rabs_mult, V9, (Rabs_right (10 ^ 9)) by lra.
      replace (IZR (2 ^ 64)) with (2 * 2 ^ 63) by (rewrite (pow_IZR 2), <- mult_IZR; reflexivity). pose proof (Rabs_pos (val t)). nra. }
    assert (U : forall z, (2 ^ 63 + 1 <= Z.abs z)%Z -> ((INT64_MIN <=? z) && (z <=? INT64_MAX))%Z%bool = false).
    { intros z H. apply andb_false_iff. rewrite !Z.leb_gt. unfold INT64_MIN, INT64_MAX. lia. }
    unfold real_as_duration, chk64, in64b. rewrite (U _ Big).
    unfold as_duration. pose proof (Bmult_correct 53 1024 prec_pos prec_emax mode_NE t (of_int NANO)) as M. fold (fmul t (of_int NANO)) in M.
    change (round radix2 (SpecFloat.fexp 53 1024) (round_mode mode_NE)) with rd in M. fold (val t) in M. fold (val (of_int NANO)) in M.
    destruct (Rlt_bool _ _).
    + destruct M as (Vm & Fm & _). assert (Fm' : finite (fmul t (of_int NANO))) by (unfold finite; rewrite Fm, F, Fn; reflexivity).
      rewrite (to_int_spec _ _ _ Fm'). unfold val at 1 2 3. rewrite Vm, Vn, <- V9, (U _ Big). reflexivity.
    + unfold to_int. replace (is_finite (fmul t (of_int NANO))) with false; [reflexivity|].
      destruct (fmul t (of_int NANO)); try reflexivity; cbn in M; unfold binary_overflow in M; cbn in M; try discriminate M;
      destruct (xorb _ _); discriminate M.
Qed.
Lemma end_spec t l b : consists_of t (l ++ [b]) -> in64 (at_time b - tr_start_time t) ->
  tr_time_duration t = as_duration (as_seconds (at_time b - tr_start_time t)) /\
  tr_end_time t = (let* d := as_duration (as_seconds (at_time b - tr_start_time t)) in add64 (tr_start_time t) d).
Proof.
  intros C D. destruct (consists_last t l b C) as (cs & c & Ec & [Et _] & _).
  assert (E : tr_time_duration t = as_duration (as_seconds (at_time b - tr_start_time t))).
  { unfold tr_time_duration. rewrite Ec, vec_back_app. cbn [obind]. rewrite Et. symmetry. apply as_duration_real. apply (as_seconds_val _ D). }
  split; [exact E|]. unfold tr_end_time. rewrite E. reflexivity.
Qed.
Lemma end_precise ps t a l b : tr_takes ps (a :: l ++ [b]) -> consists_of t (a :: l ++ [b]) -> in64 (at_time a) -> in64 (at_time b) ->
  (at_time b - at_time a <= PRECISE)%Z ->
  exists e, tr_end_time t = Ok e /\ (e = at_time b \/ e = at_time b - 1)%Z /\ (2 ^ 52 < at_time b - at_time a -> e = at_time b)%Z /\
    exists s, tr_point_at t e = Ok s /\ forall p, In p (a :: l ++ [b]) -> same_poses_frames s (state p).
Proof.
  intros T C Ia Ib P. pose proof (proj1 C a eq_refl) as Es.
  pose proof (taken_sorted ps t _ T C) as S. inversion S as [|? ? _ Fa]; subst. rewrite Forall_forall in Fa. pose proof (Fa b (in_elt b l [])) as Lab.
  set (d := (at_time b - at_time a)%Z) in *. assert (Hd : (0 < d <= PRECISE)%Z) by (unfold d; lia).
  assert (D : in64 d) by (unfold in64, INT64_MIN, INT64_MAX, PRECISE in *; lia).
  destruct (end_spec t (a :: l) b C) as [_ E]; [rewrite Es; exact D|]. rewrite Es in E. fold d in E.
  destruct (back_97 d) as [B1 B2]; [unfold DAYS97, PRECISE in *; lia|].
  assert (Bd : (back d = d \/ back d = d - 1)%Z) by (assert (Z.sgn d = 1%Z) by (apply Z.sgn_pos; lia); lia).
  assert (Q : tr_end_time t = Ok (at_time a + back d)%Z).
  { rewrite E, (round_trip_ok d D) by (unfold in64, INT64_MIN, INT64_MAX, PRECISE in *; lia). cbn [obind]. unfold add64. apply chk64_ok.
    unfold in64, d in *. lia. }
  exists (at_time a + back d)%Z. split; [exact Q|]. split; [unfold d in *; lia|]. split; [intro H; rewrite B2 by (rewrite Z.abs_eq; lia); unfold d; lia|].
  assert (D' : in64 (at_time a + back d - tr_start_time t)) by (rewrite Es; unfold in64, INT64_MIN, INT64_MAX, PRECISE in *; lia).
  destruct (point_at_ok ps t _ (at_time a + back d) T C D') as [H _].
  destruct (inside_within ps t a l b _ T C D') as [Iw _].
  destruct H as (s & E' & _ & F); [apply Iw; unfold d in *; lia|]. exists s. split; assumption.
Qed.
Lemma history_facts ps t : tr_history ps t -> Forall (fun p => state_wf (state p)) ps ->
  exists taken, tr_takes ps taken /\ consists_of t taken /\ hd_error taken = hd_error ps /\
    StronglySorted (fun a b => at_time a < at_time b)%Z taken /\
    (forall p, In p taken -> tr_reference_frame t = Ok (se3_into (ref_from_body (state p))) /\ tr_body_frame t = Ok (se3_from (ref_from_body (state p)))).
Proof.
  intros H W. destruct (tr_history_spec ps t H W) as (taken & T & C). exists taken. split; [exact T|]. split; [exact C|].
  split; [apply takes_first, T|]. split; [apply (taken_sorted ps t taken T C)|]. intros p Ip. apply (frames_of t taken p C Ip).
Qed.
Lemma point_at_ub t x : ~ in64 (x - tr_start_time t) -> tr_point_at t x = UB.
Proof. intro U. unfold tr_point_at, sub64. rewrite (chk64_ub _ U). reflexivity. Qed.
Lemma seconds_order' d d' : in64 d -> in64 d' -> flt (as_seconds d) (as_seconds d') = true -> val (as_seconds d) < val (as_seconds d').
Proof. intros D D'. apply flt_val; [apply (as_seconds_val d D)|apply (as_seconds_val d' D')]. Qed.
Lemma same_seconds d d' : B2SF (as_seconds d) = B2SF (as_seconds d') -> ~ val (as_seconds d) < val (as_seconds d').
Proof. intro E. rewrite !val_sf, E. lra. Qed.
