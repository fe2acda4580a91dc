(** Proofs about framing. *)
From Verif Require Import Cpp UuidModel UuidProofs RotSpec GeomModel RotProofs TransProtoModel FrameSpec.
Local Open Scope R_scope.

Lemma frame_eqb_eq a b : frame_eqb a b = true <-> a = b.
Proof. apply bytes_eqb_eq. Qed.
Lemma frame_eqb_refl a : frame_eqb a a = true.
Proof. apply frame_eqb_eq. reflexivity. Qed.
Lemma frame_eqb_neq a b : a <> b -> frame_eqb a b = false.
Proof. intro H. apply not_true_is_false. intro E. apply frame_eqb_eq in E. contradiction. Qed.
Lemma frame_is_null_eq a : frame_is_null a = true <-> a = null_frame.
Proof. apply frame_eqb_eq. Qed.
Lemma frame_is_null_null : frame_is_null null_frame = true.
Proof. reflexivity. Qed.
Lemma frame_is_null_neq a : a <> null_frame -> frame_is_null a = false.
Proof. intro H. apply not_true_is_false. intro E. apply frame_is_null_eq in E. contradiction. Qed.
Lemma frame_null_dec (a : frame) : {a = null_frame} + {a <> null_frame}.
Proof.
  destruct (frame_is_null a) eqn:E; [left; apply frame_is_null_eq, E|right].
  intros ->. discriminate.
Qed.
Lemma frame_dec (a b : frame) : {a = b} + {a <> b}.
Proof.
  destruct (frame_eqb a b) eqn:E; [left; apply frame_eqb_eq, E|right].
  intros ->. rewrite frame_eqb_refl in E. discriminate.
Qed.

Lemma make_frames_ok i f : frames_ok i f -> make_frames (Some (i, f)) = Ok (i, f).
Proof.
  intro H. unfold make_frames. destruct (frame_null_dec i) as [E|E].
  - rewrite E, (proj1 H E). reflexivity.
  - rewrite !frame_is_null_neq; [reflexivity| |exact E]. intro F. apply E, H, F.
Qed.
Lemma make_frames_none : make_frames None = Ok (null_frame, null_frame).
Proof. reflexivity. Qed.
Lemma make_frames_inv a i f : make_frames a = Ok (i, f) -> frames_ok i f /\
  (a = Some (i, f) \/ a = None /\ i = null_frame /\ f = null_frame).
Proof.
  unfold make_frames. destruct a as [(i', f')|].
  - destruct (Bool.eqb _ _) eqn:E; cbn [reassert obind]; [|discriminate].
    intro H. injection H as -> ->. split; [|left; reflexivity].
    apply eqb_prop in E. unfold frames_ok. rewrite <- !frame_is_null_eq, E. tauto.
  - intro H. injection H as <- <-. split; [unfold frames_ok; tauto|right; auto].
Qed.
Lemma make_frames_throw i f : make_frames (Some (i, f)) = Throw <-> ~ frames_ok i f.
Proof.
  split.
  - intros H F. rewrite make_frames_ok in H by exact F. discriminate.
  - intro H. unfold make_frames. destruct (Bool.eqb _ _) eqn:E; [|reflexivity].
    elim H. apply eqb_prop in E. unfold frames_ok. rewrite <- !frame_is_null_eq, E. tauto.
Qed.
Lemma make_frames_not_UB a : make_frames a <> UB.
Proof. destruct a as [(i, f)|]; cbn; [|discriminate]. destruct (Bool.eqb _ _); discriminate. Qed.
Lemma frames_ok_sym i f : frames_ok i f -> frames_ok f i.
Proof. unfold frames_ok. tauto. Qed.
Lemma frames_ok_null : frames_ok null_frame null_frame.
Proof. unfold frames_ok. tauto. Qed.
Lemma frames_ok_both i f : i <> null_frame -> f <> null_frame -> frames_ok i f.
Proof. unfold frames_ok. tauto. Qed.

(** ** is_framed *)
Lemma so3_framed_iff g : so3_is_framed g = true <-> so3_into g <> null_frame.
Proof. unfold so3_is_framed. rewrite negb_true_iff, <- not_true_iff_false, frame_is_null_eq. tauto. Qed.
Lemma se3_framed_iff g : se3_is_framed g = true <-> se3_into g <> null_frame.
Proof. unfold se3_is_framed. rewrite negb_true_iff, <- not_true_iff_false, frame_is_null_eq. tauto. Qed.
Lemma so3_unframed_iff g : so3_is_framed g = false <-> so3_into g = null_frame.
Proof. unfold so3_is_framed. rewrite negb_false_iff, frame_is_null_eq. tauto. Qed.
Lemma se3_unframed_iff g : se3_is_framed g = false <-> se3_into g = null_frame.
Proof. unfold se3_is_framed. rewrite negb_false_iff, frame_is_null_eq. tauto. Qed.

(** ** Composition *)
Lemma so3_of_matrix_none m : so3_of_matrix m None = Ok (SO3 m null_frame null_frame).
Proof. reflexivity. Qed.
Lemma so3_of_matrix_some m i f : frames_ok i f -> so3_of_matrix m (Some (i, f)) = Ok (SO3 m i f).
Proof. intro H. unfold so3_of_matrix. rewrite make_frames_ok by exact H. reflexivity. Qed.
Lemma so3_mul_unframed a b : so3_is_framed a && so3_is_framed b = false ->
  so3_mul a b = Ok (SO3 (mmul (rotation_matrix a) (rotation_matrix b)) null_frame null_frame).
Proof. intro H. unfold so3_mul. rewrite <- negb_andb, H. reflexivity. Qed.
Lemma so3_mul_framed a b : so3_framing a -> so3_framing b ->
  so3_is_framed a = true -> so3_is_framed b = true ->
  so3_mul a b =
    if frame_eqb (so3_from a) (so3_into b)
    then Ok (SO3 (mmul (rotation_matrix a) (rotation_matrix b)) (so3_into a) (so3_from b))
    else Throw.
Proof.
  intros Fa Fb Ha Hb. unfold so3_mul. rewrite Ha, Hb. cbn [negb orb].
  destruct (frame_eqb _ _); [|reflexivity]. cbn [reassert obind].
  apply so3_of_matrix_some. apply so3_framed_iff in Ha. apply so3_framed_iff in Hb.
  apply frames_ok_both; [exact Ha|]. intro E. apply Hb. apply Fb. exact E.
Qed.
Lemma se3_make_none r t : se3_make r t None = Ok (SE3 (so3_set_unframed r) t null_frame null_frame).
Proof. reflexivity. Qed.
Lemma se3_make_some r t i f : frames_ok i f ->
  se3_make r t (Some (i, f)) = Ok (SE3 (so3_set_unframed r) t i f).
Proof. intro H. unfold se3_make. rewrite make_frames_ok by exact H. reflexivity. Qed.

(** The product of two unframed rotations never throws. *)
Definition unframed (m : mat3) : so3 := SO3 m null_frame null_frame.
Lemma so3_mul_unframed' m n : so3_mul (unframed m) (unframed n) = Ok (unframed (mmul m n)).
Proof. reflexivity. Qed.
Lemma se3_rotation_unframed g : se3_framing g -> rotation g = unframed (rotation_matrix (rotation g)).
Proof. intros (_ & I & F). destruct (rotation g). cbn in *. subst. reflexivity. Qed.

Definition se3_mat (g : se3) : mat3 := rotation_matrix (rotation g).
(** What composition computes on the matrices. *)
Definition se3_times (a b : se3) (i f : frame) : se3 :=
  SE3 (unframed (mmul (se3_mat a) (se3_mat b)))
      (vadd (mvec (se3_mat a) (translation b)) (translation a)) i f.
Lemma se3_mul_unframed a b : se3_framing a -> se3_framing b ->
  se3_is_framed a && se3_is_framed b = false ->
  se3_mul a b = Ok (se3_times a b null_frame null_frame).
Proof.
  intros Fa Fb H. unfold se3_mul. rewrite (se3_rotation_unframed a Fa), (se3_rotation_unframed b Fb).
  rewrite so3_mul_unframed'. cbn [obind]. rewrite <- negb_andb, H. reflexivity.
Qed.
Lemma se3_mul_framed a b : se3_framing a -> se3_framing b ->
  se3_is_framed a = true -> se3_is_framed b = true ->
  se3_mul a b =
    if frame_eqb (se3_from a) (se3_into b) then Ok (se3_times a b (se3_into a) (se3_from b)) else Throw.
Proof.
  intros Fa Fb Ha Hb. unfold se3_mul.
  rewrite (se3_rotation_unframed a Fa), (se3_rotation_unframed b Fb), so3_mul_unframed'.
  cbn [obind]. rewrite Ha, Hb. cbn [negb orb].
  destruct (frame_eqb _ _); [|reflexivity]. cbn [reassert obind].
  apply se3_make_some. apply se3_framed_iff in Ha. apply se3_framed_iff in Hb.
  apply frames_ok_both; [exact Ha|]. intro E. apply Hb. apply Fb. exact E.
Qed.
Lemma so3_inverse_eq a : so3_framing a ->
  so3_inverse a = Ok (SO3 (mtrans (rotation_matrix a)) (so3_from a) (so3_into a)).
Proof. intro H. apply so3_of_matrix_some, frames_ok_sym, H. Qed.
Definition se3_inv (a : se3) : se3 :=
  SE3 (unframed (mtrans (se3_mat a))) (mvec (mtrans (se3_mat a)) (vneg (translation a)))
      (se3_from a) (se3_into a).
Lemma se3_inverse_eq a : se3_framing a -> se3_inverse a = Ok (se3_inv a).
Proof.
  intro H. pose proof (se3_rotation_unframed a H) as U. unfold se3_inverse. rewrite U.
  rewrite so3_inverse_eq by apply frames_ok_null. cbn [obind].
  rewrite se3_make_some by apply frames_ok_sym, H. reflexivity.
Qed.
Lemma so3_exp_eq v i f : frames_ok i f -> so3_exp v (Some (i, f)) = Ok (SO3 (mexp v) i f).
Proof. intro H. unfold so3_exp, so3_of_angle_axis. rewrite make_frames_ok by exact H. reflexivity. Qed.

(** ** Histories *)
Definition obj_ok (o : obj) : Prop :=
  match o with OSO3 g => so3_framing g | OSE3 g => se3_framing g end.

Lemma so3_of_matrix_framing m a g : so3_of_matrix m a = Ok g -> so3_framing g.
Proof.
  unfold so3_of_matrix. destruct (make_frames a) as [(i, f)| |] eqn:E; cbn [obind]; try discriminate.
  intro H. injection H as <-. exact (proj1 (make_frames_inv _ _ _ E)).
Qed.
Lemma so3_of_angle_axis_framing t u a g : so3_of_angle_axis t u a = Ok g -> so3_framing g.
Proof. apply so3_of_matrix_framing. Qed.
Lemma so3_of_quat_framing q a g : so3_of_quat q a = Ok g -> so3_framing g.
Proof. apply so3_of_matrix_framing. Qed.
Lemma so3_exp_framing v a g : so3_exp v a = Ok g -> so3_framing g.
Proof. apply so3_of_angle_axis_framing. Qed.
Lemma se3_make_framing r t a g : se3_make r t a = Ok g -> se3_framing g.
Proof.
  unfold se3_make. destruct (make_frames a) as [(i, f)| |] eqn:E; cbn [obind]; try discriminate.
  intro H. injection H as <-. split; [exact (proj1 (make_frames_inv _ _ _ E))|split; reflexivity].
Qed.
Lemma obind_ok {A B} (x : outcome A) (f : A -> outcome B) b :
  obind x f = Ok b -> exists a, x = Ok a /\ f a = Ok b.
Proof. destruct x; cbn; try discriminate. eauto. Qed.
Lemma se3_exp_framing v a g : se3_exp v a = Ok g -> se3_framing g.
Proof. unfold se3_exp. intro H. apply obind_ok in H as (r & _ & H). eapply se3_make_framing, H. Qed.
Lemma so3_mul_framing a b g : so3_mul a b = Ok g -> so3_framing g.
Proof.
  unfold so3_mul. destruct (_ || _); intro H; [eapply so3_of_matrix_framing, H|].
  apply obind_ok in H as (? & _ & H). eapply so3_of_matrix_framing, H.
Qed.
Lemma se3_mul_framing a b g : se3_mul a b = Ok g -> se3_framing g.
Proof.
  unfold se3_mul. intro H. apply obind_ok in H as (r & _ & H).
  destruct (_ || _); [eapply se3_make_framing, H|].
  apply obind_ok in H as (? & _ & H). eapply se3_make_framing, H.
Qed.
Lemma se3_inverse_framing a g : se3_inverse a = Ok g -> se3_framing g.
Proof. unfold se3_inverse. intro H. apply obind_ok in H as (r & _ & H). eapply se3_make_framing, H. Qed.

Lemma put_ok s i o : Forall obj_ok s -> obj_ok o -> Forall obj_ok (put s i o).
Proof.
  intros H Ho. revert i. induction H as [|x s Hx H IH]; intros [|i]; cbn; auto.
Qed.
Lemma nth_ok s i o : Forall obj_ok s -> nth_error s i = Some o -> obj_ok o.
Proof. intros H E. eapply Forall_forall; [exact H|]. eapply nth_error_In, E. Qed.
Lemma new_so3_ok s r s' : Forall obj_ok s -> (forall g, r = Ok g -> so3_framing g) ->
  new_so3 s r = Ok s' -> Forall obj_ok s'.
Proof.
  intros H Hr E. unfold new_so3 in E. apply obind_ok in E as (g & Eg & E). injection E as <-.
  apply Forall_app. split; [exact H|]. constructor; [exact (Hr _ Eg)|constructor].
Qed.
Lemma new_se3_ok s r s' : Forall obj_ok s -> (forall g, r = Ok g -> se3_framing g) ->
  new_se3 s r = Ok s' -> Forall obj_ok s'.
Proof.
  intros H Hr E. unfold new_se3 in E. apply obind_ok in E as (g & Eg & E). injection E as <-.
  apply Forall_app. split; [exact H|]. constructor; [exact (Hr _ Eg)|constructor].
Qed.
Lemma se3_default_framing : se3_framing se3_default.
Proof. split; [apply frames_ok_null|split; reflexivity]. Qed.

Lemma call_ok s c s' : Forall obj_ok s -> call_result s c = Ok s' -> Forall obj_ok s'.
Proof.
  intros H. destruct c; cbn [call_result]; intro E;
    repeat match type of E with
           | context [match nth_error ?s ?i with _ => _ end] =>
               let N := fresh "N" in destruct (nth_error s i) as [[?|?]|] eqn:N
           end;
    try (injection E as <-; exact H);
    try (eapply new_so3_ok; [exact H| |exact E]; intros ? ?);
    try (eapply new_se3_ok; [exact H| |exact E]; intros ? ?);
    try (injection E as <-; apply put_ok; [exact H|]; exact (nth_ok _ _ _ H ltac:(eassumption)));
    try (injection E as <-; apply Forall_app; split; [exact H|]; constructor; [|constructor]).
  - match goal with X : Ok _ = Ok _ |- _ => injection X as <- end. apply frames_ok_null.
  - eapply so3_of_matrix_framing; eassumption.
  - eapply so3_of_angle_axis_framing; eassumption.
  - eapply so3_of_quat_framing; eassumption.
  - eapply so3_of_matrix_framing; eassumption.
  - eapply so3_exp_framing; eassumption.
  - match goal with X : unpack_so3 _ = Ok _ |- _ => unfold unpack_so3 in X;
      apply obind_ok in X as (? & _ & X); apply obind_ok in X as (? & _ & X);
      apply obind_ok in X as (? & _ & X); eapply so3_exp_framing, X end.
  - match goal with X : Ok _ = Ok _ |- _ => injection X as <- end. apply se3_default_framing.
  - eapply (se3_make_framing _ vzero). eassumption.
  - match goal with X : se3_of_translation _ _ = Ok _ |- _ =>
      change (se3_of_translation t a) with (se3_make so3_default t a) in X end.
    eapply se3_make_framing; eassumption.
  - eapply se3_make_framing; eassumption.
  - eapply (se3_make_framing so3_default vzero); eassumption.
  - eapply se3_exp_framing; eassumption.
  - match goal with X : unpack_se3 _ = Ok _ |- _ => unfold unpack_se3 in X;
      apply obind_ok in X as (? & _ & X); apply obind_ok in X as (? & _ & X);
      apply obind_ok in X as (? & _ & X); eapply se3_exp_framing, X end.
  - exact (nth_ok _ _ _ H N).
  - exact (nth_ok _ _ _ H N).
  - destruct (nth_ok _ _ _ H N) as (_ & A & B). unfold obj_ok, so3_framing. rewrite A, B. apply frames_ok_null.
  - eapply so3_mul_framing; eassumption.
  - eapply se3_mul_framing; eassumption.
  - eapply so3_of_matrix_framing; eassumption.
  - eapply se3_inverse_framing; eassumption.
  - eapply so3_exp_framing; eassumption.
  - eapply se3_exp_framing; eassumption.
  - match goal with X : so3_interp_from _ _ _ = Ok _ |- _ => unfold so3_interp_from in X;
      apply obind_ok in X as (? & _ & X); eapply so3_exp_framing, X end.
  - match goal with X : se3_interp_from _ _ _ = Ok _ |- _ => unfold se3_interp_from in X;
      apply obind_ok in X as (? & _ & X); eapply se3_exp_framing, X end.
  - apply obind_ok in E as (g' & Eg & E). injection E as <-. apply put_ok; [exact H|].
    unfold so3_set_frames in Eg. destruct (frame_is_null into) eqn:A, (frame_is_null from) eqn:B;
      cbn in Eg; try discriminate. injection Eg as <-. unfold obj_ok, so3_framing. cbn.
    apply frames_ok_both; intros ->; [rewrite frame_is_null_null in A|rewrite frame_is_null_null in B];
      discriminate.
  - apply obind_ok in E as (g' & Eg & E). injection E as <-. apply put_ok; [exact H|].
    unfold se3_set_frames in Eg. destruct (frame_is_null into) eqn:A, (frame_is_null from) eqn:B;
      cbn in Eg; try discriminate. injection Eg as <-. split; [|exact (proj2 (nth_ok _ _ _ H N))]. cbn.
    apply frames_ok_both; intros ->; [rewrite frame_is_null_null in A|rewrite frame_is_null_null in B];
      discriminate.
  - injection E as <-. apply put_ok; [exact H|]. apply frames_ok_null.
  - injection E as <-. apply put_ok; [exact H|]. split; [apply frames_ok_null|].
    exact (proj2 (nth_ok _ _ _ H N)).
Qed.

Lemma history_ok s cs : Forall obj_ok s -> Forall obj_ok (history s cs).
Proof.
  revert s. induction cs as [|c cs IH]; intros s H; cbn [history]; [exact H|].
  apply IH. destruct (call_result s c) eqn:E; try exact H. eapply call_ok; eassumption.
Qed.

(** ** Statements for the property file *)
Lemma never_half_framed cs o : In o (history [] cs) ->
  frames_ok (into_of o) (from_of o) /\
  (framed_of o = true <-> into_of o <> null_frame /\ from_of o <> null_frame).
Proof.
  intro I. pose proof (history_ok [] cs (Forall_nil _)) as H.
  rewrite Forall_forall in H. specialize (H o I).
  assert (F : frames_ok (into_of o) (from_of o)) by (destruct o; [exact H|exact (proj1 H)]).
  split; [exact F|]. destruct o as [g|g]; cbn [framed_of into_of from_of] in *;
    [rewrite so3_framed_iff|rewrite se3_framed_iff]; unfold frames_ok in F; tauto.
Qed.

Lemma half_framed_throws i f (r : so3) m angle axis q v t w :
  ~ frames_ok i f ->
  let a := Some (i, f) in
  so3_of_matrix m a = Throw /\ so3_of_angle_axis angle axis a = Throw /\ so3_of_quat q a = Throw /\
  so3_identity a = Throw /\ so3_exp v a = Throw /\
  se3_of_rotation r a = Throw /\ se3_of_translation t a = Throw /\ se3_make r t a = Throw /\
  se3_identity a = Throw /\ se3_exp w a = Throw.
Proof.
  intro H. cbv zeta. pose proof (proj2 (make_frames_throw i f) H) as T.
  unfold so3_exp, so3_identity, so3_of_matrix, so3_of_angle_axis, so3_of_quat, se3_of_rotation,
    se3_of_translation, se3_identity, se3_exp, so3_exp, so3_of_angle_axis, se3_make, so3_identity,
    so3_of_matrix.
  rewrite T. repeat split.
Qed.

Lemma set_frames_iff (g : so3) (h : se3) i f :
  (i = null_frame \/ f = null_frame ->
     so3_set_frames g i f = Throw /\ se3_set_frames h i f = Throw) /\
  (i <> null_frame /\ f <> null_frame ->
     so3_set_frames g i f = Ok (SO3 (rotation_matrix g) i f) /\
     se3_set_frames h i f = Ok (SE3 (rotation h) (translation h) i f)).
Proof.
  unfold so3_set_frames, se3_set_frames. split.
  - intros [-> | ->]; rewrite frame_is_null_null, ?orb_true_r; split; reflexivity.
  - intros [A B]. rewrite !frame_is_null_neq by assumption. split; reflexivity.
Qed.

(** Which object a call modifies. *)
Definition modifies (c : call) (j : nat) : Prop :=
  match c with
  | Assign i _ | SetFrames i _ _ | SetUnframed i => i = j
  | _ => False
  end.
Lemma nth_put s i o j : i <> j -> nth_error (put s i o) j = nth_error s j.
Proof.
  revert i j. induction s as [|x s IH]; intros [|i] [|j] H; cbn; auto; try congruence.
  all: try (now destruct j).
Qed.
Lemma nth_app_some {A} (s s2 : list A) j o : nth_error s j = Some o -> nth_error (s ++ s2) j = Some o.
Proof. intro H. rewrite nth_error_app1; [exact H|]. apply nth_error_Some. congruence. Qed.
Lemma call_frame s c s' j o : call_result s c = Ok s' -> ~ modifies c j ->
  nth_error s j = Some o -> nth_error s' j = Some o.
Proof.
  intros E M H.
  destruct c; cbn [call_result modifies] in E, M; unfold new_so3, new_se3 in E;
    repeat match type of E with
           | context [match nth_error ?s ?i with _ => _ end] =>
               let N := fresh "N" in destruct (nth_error s i) as [[?|?]|] eqn:N
           end;
    repeat match type of E with obind _ _ = Ok _ => apply obind_ok in E as (? & _ & E) end;
    injection E as <-; try exact H; try (apply nth_app_some; exact H);
    rewrite nth_put by exact M; exact H.
Qed.

(** Composition, stated for both kinds at once through projections. *)
Lemma so3_compose a b : so3_framing a -> so3_framing b ->
  (so3_is_framed a = true -> so3_is_framed b = true ->
     (so3_from a = so3_into b ->
        exists r, so3_mul a b = Ok r /\ so3_into r = so3_into a /\ so3_from r = so3_from b /\
                  so3_is_framed r = true) /\
     (so3_from a <> so3_into b -> so3_mul a b = Throw)) /\
  (so3_is_framed a = false \/ so3_is_framed b = false ->
     exists r, so3_mul a b = Ok r /\ so3_is_framed r = false).
Proof.
  intros Fa Fb. split.
  - intros Ha Hb. rewrite so3_mul_framed by assumption. split.
    + intros E. rewrite (proj2 (frame_eqb_eq _ _) E). eexists. split; [reflexivity|].
      split; [reflexivity|split; [reflexivity|exact Ha]].
    + intros N. rewrite frame_eqb_neq by exact N. reflexivity.
  - intros H. rewrite so3_mul_unframed.
    + eexists. split; reflexivity.
    + destruct H as [-> | ->]; [reflexivity|apply andb_false_r].
Qed.
Lemma se3_compose a b : se3_framing a -> se3_framing b ->
  (se3_is_framed a = true -> se3_is_framed b = true ->
     (se3_from a = se3_into b ->
        exists r, se3_mul a b = Ok r /\ se3_into r = se3_into a /\ se3_from r = se3_from b /\
                  se3_is_framed r = true) /\
     (se3_from a <> se3_into b -> se3_mul a b = Throw)) /\
  (se3_is_framed a = false \/ se3_is_framed b = false ->
     exists r, se3_mul a b = Ok r /\ se3_is_framed r = false).
Proof.
  intros Fa Fb. split.
  - intros Ha Hb. rewrite se3_mul_framed by assumption. split.
    + intros E. rewrite (proj2 (frame_eqb_eq _ _) E). eexists. split; [reflexivity|].
      split; [reflexivity|split; [reflexivity|exact Ha]].
    + intros N. rewrite frame_eqb_neq by exact N. reflexivity.
  - intros H. rewrite se3_mul_unframed; [|assumption|assumption|].
    + eexists. split; reflexivity.
    + destruct H as [-> | ->]; [reflexivity|apply andb_false_r].
Qed.

Lemma so3_assoc a b c : so3_framing a -> so3_framing b -> so3_framing c ->
  so3_is_framed a = so3_is_framed b -> so3_is_framed b = so3_is_framed c ->
  (let* ab := so3_mul a b in so3_mul ab c) = (let* bc := so3_mul b c in so3_mul a bc).
Proof.
  intros Fa Fb Fc E1 E2. destruct (so3_is_framed c) eqn:Hc; rewrite E2 in E1.
  - rewrite (so3_mul_framed a b), (so3_mul_framed b c) by assumption.
    assert (Fin : forall m x y, x <> null_frame -> so3_framing (SO3 m x y) \/ y = null_frame).
    { intros m x y Hx. destruct (frame_null_dec y); [right; assumption|left].
      apply frames_ok_both; assumption. }
    assert (Na := proj1 (so3_framed_iff a) E1). assert (Nb := proj1 (so3_framed_iff b) E2).
    assert (Nc := proj1 (so3_framed_iff c) Hc).
    assert (Nb' : so3_from b <> null_frame) by (intro X; apply Nb, Fb, X).
    assert (Nc' : so3_from c <> null_frame) by (intro X; apply Nc, Fc, X).
    destruct (frame_eqb (so3_from a) (so3_into b)) eqn:Q1, (frame_eqb (so3_from b) (so3_into c)) eqn:Q2;
      cbn [obind]; try reflexivity.
    + rewrite !so3_mul_framed; try assumption; try (apply frames_ok_both; assumption);
        try (apply so3_framed_iff; assumption). cbn [so3_from so3_into rotation_matrix].
      rewrite Q1, Q2, mmul_assoc. reflexivity.
    + rewrite so3_mul_framed; try assumption; try (apply frames_ok_both; assumption);
        try (apply so3_framed_iff; assumption). cbn [so3_from so3_into rotation_matrix].
      rewrite Q2. reflexivity.
    + rewrite so3_mul_framed; try assumption; try (apply frames_ok_both; assumption);
        try (apply so3_framed_iff; assumption). cbn [so3_from so3_into rotation_matrix].
      rewrite Q1. reflexivity.
  - rewrite (so3_mul_unframed a b), (so3_mul_unframed b c) by (rewrite ?E1, ?E2; reflexivity).
    cbn [obind]. rewrite !so3_mul_unframed by (rewrite ?E1; reflexivity).
    cbn [rotation_matrix]. rewrite mmul_assoc. reflexivity.
Qed.
Lemma se3_times_assoc a b c i f i1 f1 i2 f2 :
  se3_times (se3_times a b i1 f1) c i f = se3_times a (se3_times b c i2 f2) i f.
Proof.
  unfold se3_times, se3_mat. cbn [rotation rotation_matrix unframed translation].
  rewrite mmul_assoc, mvec_mmul, mvec_add, vadd_assoc. reflexivity.
Qed.
Lemma se3_times_framing a b i f : frames_ok i f -> se3_framing (se3_times a b i f).
Proof. intro H. split; [exact H|split; reflexivity]. Qed.
Lemma se3_assoc a b c : se3_framing a -> se3_framing b -> se3_framing c ->
  se3_is_framed a = se3_is_framed b -> se3_is_framed b = se3_is_framed c ->
  (let* ab := se3_mul a b in se3_mul ab c) = (let* bc := se3_mul b c in se3_mul a bc).
Proof.
  intros Fa Fb Fc E1 E2. destruct (se3_is_framed c) eqn:Hc; rewrite E2 in E1.
  - rewrite (se3_mul_framed a b), (se3_mul_framed b c) by assumption.
    assert (Na := proj1 (se3_framed_iff a) E1). assert (Nb := proj1 (se3_framed_iff b) E2).
    assert (Nc := proj1 (se3_framed_iff c) Hc).
    assert (Nb' : se3_from b <> null_frame) by (intro X; apply Nb, Fb, X).
    assert (Nc' : se3_from c <> null_frame) by (intro X; apply Nc, Fc, X).
    destruct (frame_eqb (se3_from a) (se3_into b)) eqn:Q1, (frame_eqb (se3_from b) (se3_into c)) eqn:Q2;
      cbn [obind]; try reflexivity.
    + rewrite !se3_mul_framed; try assumption;
        try (apply se3_times_framing, frames_ok_both; assumption);
        try (apply se3_framed_iff; assumption).
      cbn [se3_times se3_from se3_into]. rewrite Q1, Q2. f_equal. apply se3_times_assoc.
    + rewrite se3_mul_framed; try assumption;
        try (apply se3_times_framing, frames_ok_both; assumption);
        try (apply se3_framed_iff; assumption).
      cbn [se3_times se3_from se3_into]. rewrite Q2. reflexivity.
    + rewrite se3_mul_framed; try assumption;
        try (apply se3_times_framing, frames_ok_both; assumption);
        try (apply se3_framed_iff; assumption).
      cbn [se3_times se3_from se3_into]. rewrite Q1. reflexivity.
  - rewrite (se3_mul_unframed a b), (se3_mul_unframed b c) by (try assumption; rewrite ?E1, ?E2; reflexivity).
    cbn [obind]. rewrite !se3_mul_unframed by
      (try assumption; try (apply se3_times_framing, frames_ok_null); rewrite ?E1; reflexivity).
    f_equal. apply se3_times_assoc.
Qed.

Lemma inverse_swaps (a : so3) (b : se3) : so3_framing a -> se3_framing b ->
  (exists r, so3_inverse a = Ok r /\ so3_into r = so3_from a /\ so3_from r = so3_into a) /\
  (exists r, se3_inverse b = Ok r /\ se3_into r = se3_from b /\ se3_from r = se3_into b).
Proof.
  intros Fa Fb. rewrite so3_inverse_eq, se3_inverse_eq by assumption.
  split; eexists; (split; [reflexivity|split; reflexivity]).
Qed.

(** ** Chains *)
Lemma se3_times_act a b i f p : se3_act (se3_times a b i f) p = se3_act a (se3_act b p).
Proof.
  unfold se3_act, se3_times, so3_act, se3_mat. cbn [rotation rotation_matrix unframed translation].
  rewrite mvec_mmul, mvec_add. vring.
Qed.
Lemma last_cons {A} (l : list A) h d : last l h = last (h :: l) d.
Proof. revert h. induction l as [|x l IH]; intro h; [reflexivity|]. cbn [last]. destruct l; [reflexivity|]. 
  change (last (x :: a :: l) h = last (h :: x :: a :: l) d). 
  change (last (a :: l) h = last (a :: l) d). 
  clear. revert a. induction l as [|y l IH]; intro a; [reflexivity|]. exact (IH y). Qed.

Lemma se3_chain_ok g hs : Forall se3_framing (g :: hs) ->
  Forall (fun h => se3_is_framed h = true) (g :: hs) ->
  (linked se3_into se3_from g hs ->
     exists r, se3_chain g hs = Ok r /\ se3_into r = se3_into g /\ se3_from r = se3_from (last hs g) /\
       forall p, se3_act r p = apply_chain se3_act g hs p) /\
  (~ linked se3_into se3_from g hs -> se3_chain g hs = Throw).
Proof.
  revert g. induction hs as [|h hs IH]; intros g F Fr; cbn [linked se3_chain].
  - split; [|tauto]. intros _. exists g. repeat split.
  - inversion F as [|? ? Fg F']; subst. inversion F' as [|? ? Fh F'']; subst.
    inversion Fr as [|? ? Hg Fr']; subst. inversion Fr' as [|? ? Hh Fr'']; subst.
    rewrite se3_mul_framed by assumption.
    assert (Ng := proj1 (se3_framed_iff g) Hg). assert (Nh := proj1 (se3_framed_iff h) Hh).
    assert (Nh' : se3_from h <> null_frame) by (intro X; apply Nh, Fh, X).
    destruct (frame_dec (se3_from g) (se3_into h)) as [E|E].
    + rewrite (proj2 (frame_eqb_eq _ _) E). cbn [obind].
      set (gh := se3_times g h (se3_into g) (se3_from h)).
      assert (Fgh : se3_framing gh) by (apply se3_times_framing, frames_ok_both; assumption).
      assert (Hgh : se3_is_framed gh = true) by (apply se3_framed_iff; exact Ng).
      destruct (IH gh) as [IH1 IH2]; [constructor; assumption|constructor; assumption|].
      assert (L : linked se3_into se3_from gh hs <-> linked se3_into se3_from h hs)
        by (destruct hs; cbn [linked]; [tauto|reflexivity]).
      split.
      * intros [_ Lk]. destruct (IH1 (proj2 L Lk)) as (r & R1 & R2 & R3 & R4).
        exists r. split; [exact R1|]. split; [exact R2|]. split.
        { rewrite R3. destruct hs as [|x hs]; [reflexivity|].
          change (last (h :: x :: hs) g) with (last (x :: hs) g).
          rewrite <- (last_cons hs x gh), <- (last_cons hs x g). reflexivity. }
        intro p. rewrite R4. unfold apply_chain. cbn [fold_right]. apply se3_times_act.
      * intro N. apply IH2. rewrite L. tauto.
    + rewrite frame_eqb_neq by exact E. cbn [obind]. split; [intros [X _]; contradiction|reflexivity].
Qed.

Lemma so3_chain_ok g hs : Forall so3_framing (g :: hs) ->
  Forall (fun h => so3_is_framed h = true) (g :: hs) ->
  (linked so3_into so3_from g hs ->
     exists r, so3_chain g hs = Ok r /\ so3_into r = so3_into g /\ so3_from r = so3_from (last hs g) /\
       forall p, so3_act r p = apply_chain so3_act g hs p) /\
  (~ linked so3_into so3_from g hs -> so3_chain g hs = Throw).
Proof.
  revert g. induction hs as [|h hs IH]; intros g F Fr; cbn [linked so3_chain].
  - split; [|tauto]. intros _. exists g. repeat split.
  - inversion F as [|? ? Fg F']; subst. inversion F' as [|? ? Fh F'']; subst.
    inversion Fr as [|? ? Hg Fr']; subst. inversion Fr' as [|? ? Hh Fr'']; subst.
    rewrite so3_mul_framed by assumption.
    assert (Ng := proj1 (so3_framed_iff g) Hg). assert (Nh := proj1 (so3_framed_iff h) Hh).
    assert (Nh' : so3_from h <> null_frame) by (intro X; apply Nh, Fh, X).
    destruct (frame_dec (so3_from g) (so3_into h)) as [E|E].
    + rewrite (proj2 (frame_eqb_eq _ _) E). cbn [obind].
      set (gh := SO3 _ (so3_into g) (so3_from h)).
      assert (Fgh : so3_framing gh) by (apply frames_ok_both; assumption).
      assert (Hgh : so3_is_framed gh = true) by (apply so3_framed_iff; exact Ng).
      destruct (IH gh) as [IH1 IH2]; [constructor; assumption|constructor; assumption|].
      assert (L : linked so3_into so3_from gh hs <-> linked so3_into so3_from h hs)
        by (destruct hs; cbn [linked]; [tauto|reflexivity]).
      split.
      * intros [_ Lk]. destruct (IH1 (proj2 L Lk)) as (r & R1 & R2 & R3 & R4).
        exists r. split; [exact R1|]. split; [exact R2|]. split.
        { rewrite R3. destruct hs as [|x hs]; [reflexivity|].
          change (last (h :: x :: hs) g) with (last (x :: hs) g).
          rewrite <- (last_cons hs x gh), <- (last_cons hs x g). reflexivity. }
        intro p. rewrite R4. unfold apply_chain. cbn [fold_right].
        unfold so3_act at 1. cbn [rotation_matrix gh]. apply mvec_mmul.
      * intro N. apply IH2. rewrite L. tauto.
    + rewrite frame_eqb_neq by exact E. cbn [obind]. split; [intros [X _]; contradiction|reflexivity].
Qed.

(** ** Framed vectors *)
Lemma fv_add_spec a b :
  (fv_frame a = fv_frame b ->
     fv_add a b = Ok (FV (vadd (fv_vector a) (fv_vector b)) (fv_frame a))) /\
  (fv_frame a <> fv_frame b -> fv_add a b = Throw).
Proof.
  unfold fv_add. split; intro H.
  - rewrite (proj2 (frame_eqb_eq _ _) H). reflexivity.
  - rewrite frame_eqb_neq by exact H. reflexivity.
Qed.
Lemma vec_eqb_eq a b : vec_eqb a b = true <-> a = b.
Proof.
  unfold vec_eqb, Reqb. destruct a as [x y z], b as [p q r]. cbn [vx vy vz].
  destruct (Req_EM_T x p), (Req_EM_T y q), (Req_EM_T z r); cbn; split; intro H;
    try congruence; try discriminate.
Qed.
Lemma fv_eqb_eq a b : fv_eqb a b = true <-> a = b.
Proof.
  unfold fv_eqb. rewrite andb_true_iff, vec_eqb_eq, frame_eqb_eq.
  destruct a, b. cbn. split; [intros [-> ->]; reflexivity|intro H; injection H; auto].
Qed.
Lemma rotate_spec (g : so3) (h : se3) v :
  (so3_is_framed g = true /\ so3_from g = fv_frame v ->
     so3_rotate_framed g v = Ok (FV (so3_act g (fv_vector v)) (so3_into g))) /\
  (so3_is_framed g = false \/ so3_from g <> fv_frame v -> so3_rotate_framed g v = Throw) /\
  (se3_is_framed h = true /\ se3_from h = fv_frame v ->
     se3_rotate_framed h v = Ok (FV (so3_act (rotation h) (fv_vector v)) (se3_into h))) /\
  (se3_is_framed h = false \/ se3_from h <> fv_frame v -> se3_rotate_framed h v = Throw).
Proof.
  unfold so3_rotate_framed, se3_rotate_framed. split; [|split; [|split]].
  - intros [-> E]. rewrite (proj2 (frame_eqb_eq _ _) E). reflexivity.
  - intros [-> | E]; [reflexivity|]. rewrite frame_eqb_neq by exact E. destruct (so3_is_framed g); reflexivity.
  - intros [-> E]. rewrite (proj2 (frame_eqb_eq _ _) E). reflexivity.
  - intros [-> | E]; [reflexivity|]. rewrite frame_eqb_neq by exact E. destruct (se3_is_framed h); reflexivity.
Qed.
Lemma fv_eqb_spec a b :
  fv_eqb a b = true <-> (fv_vector a = fv_vector b /\ fv_frame a = fv_frame b).
Proof. unfold fv_eqb. rewrite andb_true_iff, vec_eqb_eq, frame_eqb_eq. tauto. Qed.
Lemma fv_scale_laws d e a b :
  fv_frame (fv_scale d a) = fv_frame a /\
  fv_scale d (fv_scale e a) = fv_scale (d * e) a /\ fv_scale 1 a = a /\
  fv_add a b = fv_add b a /\
  (let* s := fv_add a b in Ok (fv_scale d s)) = fv_add (fv_scale d a) (fv_scale d b).
Proof.
  destruct a as [v f], b as [w g]. unfold fv_scale, fv_add. cbn [fv_vector fv_frame].
  rewrite vscale_vscale, vscale_1. split; [reflexivity|split; [reflexivity|split; [reflexivity|]]].
  destruct (frame_dec f g) as [->|N].
  - rewrite frame_eqb_refl. cbn [reassert obind]. cbn [fv_vector fv_frame].
    rewrite vscale_add, (vadd_comm v w). split; reflexivity.
  - rewrite (frame_eqb_neq f g), (frame_eqb_neq g f) by congruence. split; reflexivity.
Qed.
Lemma fv_is_approx_const close a b :
  fv_is_approx close ConstLvalue a b = true <->
  close (fv_vector a) (fv_vector b) = true /\ fv_frame a = fv_frame b.
Proof. unfold fv_is_approx. rewrite andb_true_iff, frame_eqb_eq. tauto. Qed.
Lemma fv_is_approx_refuted cat : cat <> ConstLvalue ->
  exists a b, fv_frame a <> fv_frame b /\
    forall close : vec3 -> vec3 -> bool, (forall v, close v v = true) ->
      fv_is_approx close cat a b = true.
Proof.
  intro H. exists (FV (V3 1 2 3) (repeat 1%N 16)), (FV (V3 1 2 3) (repeat 2%N 16)).
  split; [discriminate|]. intros close Hc. destruct cat; [contradiction|apply Hc|apply Hc].
Qed.

Lemma fv_relabel a b : (forall r, fv_add a b = Ok r -> fv_add_vector a (fv_vector b) = fv_vector r) /\
  fv_add (fv_set_frame a (fv_frame b)) b = Ok (FV (fv_add_vector a (fv_vector b)) (fv_frame b)).
Proof.
  split.
  - intros r E. destruct (fv_add_spec a b) as [A B]. destruct (Classical_Prop.classic (fv_frame a = fv_frame b)) as [H|H].
    + rewrite (A H) in E. injection E as <-. reflexivity.
    + rewrite (B H) in E. discriminate E.
  - rewrite (proj1 (fv_add_spec _ _)) by reflexivity. reflexivity.
Qed.
