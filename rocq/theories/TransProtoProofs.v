(** Proofs about the wire forms of matrices, frames, framed vectors and transforms. *)
From Coq Require Import Ascii.
From Verif Require Import Cpp UuidModel UuidSpec UuidProofs RotSpec GeomModel RotProofs TransProtoModel TransProtoSpec
  FrameSpec LieSpec FrameProofs LieProofs.
Local Open Scope R_scope.

(** ** Matrices *)
Lemma flat_map_length {A} (f : nat -> nat -> A) r c0 c :
  length (flat_map (fun j => map (fun i => f i j) (seq 0 r)) (seq c0 c)) = (r * c)%nat.
Proof.
  revert c0. induction c as [|c IH]; intro c0; cbn [seq flat_map]; [rewrite Nat.mul_0_r; reflexivity|].
  rewrite app_length, map_length, seq_length, IH. lia.
Qed.
Lemma flat_map_nth {A} (f : nat -> nat -> A) r c : forall c0 i j, (i < r)%nat -> (j < c)%nat ->
  nth_error (flat_map (fun j => map (fun i => f i j) (seq 0 r)) (seq c0 c)) (j * r + i) = Some (f i (c0 + j)%nat).
Proof.
  induction c as [|c IH]; intros c0 i j Hi Hj; [lia|]. cbn [seq flat_map].
  destruct j as [|j].
  - rewrite nth_error_app1 by (rewrite map_length, seq_length; lia).
    rewrite Nat.mul_0_l, !Nat.add_0_l, Nat.add_0_r. erewrite map_nth_error; [reflexivity|].
    rewrite (nth_error_nth' _ 0%nat) by (rewrite seq_length; lia). rewrite seq_nth by lia. reflexivity.
  - rewrite nth_error_app2 by (rewrite map_length, seq_length; lia).
    rewrite map_length, seq_length. replace (S j * r + i - r)%nat with (j * r + i)%nat by lia.
    rewrite IH by lia. do 2 f_equal. lia.
Qed.

Lemma pack_column_major {A} (m : matrix A) : column_major m (pack_matrix m).
Proof.
  split; [apply flat_map_length|]. intros i j Hi Hj. unfold pack_matrix, reshaped.
  rewrite (flat_map_nth (coeff m)) by assumption. reflexivity.
Qed.

Lemma index_split r c k : (k < r * c)%nat -> exists i j, (i < r)%nat /\ (j < c)%nat /\ k = (j * r + i)%nat.
Proof.
  intro H. assert (r <> 0)%nat by lia. exists (k mod r)%nat, (k / r)%nat.
  pose proof (Nat.mod_upper_bound k r). pose proof (Nat.div_mod k r). split; [lia|]. split; [|nia].
  apply Nat.div_lt_upper_bound; lia.
Qed.

Lemma nth_error_same {A} (l : list A) : forall l', (forall k, nth_error l k = nth_error l' k) -> l = l'.
Proof.
  induction l as [|a l IH]; intros [|b l'] H; [reflexivity|discriminate (H 0%nat)|discriminate (H 0%nat)|].
  pose proof (H 0%nat) as E. cbn in E. injection E as ->. f_equal. apply IH. intro k. exact (H (S k)).
Qed.
Lemma column_major_unique {A} (m : matrix A) l l' : column_major m l -> column_major m l' -> l = l'.
Proof.
  intros [L H] [L' H']. apply nth_error_same. intro k.
  destruct (Nat.lt_ge_cases k (rows m * cols m)) as [K|K].
  - destruct (index_split _ _ _ K) as (i & j & Hi & Hj & ->). rewrite H, H' by assumption. reflexivity.
  - rewrite (proj2 (nth_error_None l k)), (proj2 (nth_error_None l' k)) by lia. reflexivity.
Qed.

Lemma unpack_matrix_spec {A} (l : list A) (out : matrix A) :
  (length l = (rows out * cols out)%nat ->
   exists m, unpack_matrix l out = Ok m /\ rows m = rows out /\ cols m = cols out /\ column_major m l) /\
  (length l <> (rows out * cols out)%nat -> unpack_matrix l out = Throw).
Proof.
  unfold unpack_matrix, reassert. split; intro H.
  - rewrite (proj2 (Nat.eqb_eq _ _) H). cbn [obind]. eexists. split; [reflexivity|]. cbn [rows cols].
    split; [reflexivity|]. split; [reflexivity|]. split; [exact H|]. cbn [rows cols coeff]. intros i j Hi Hj.
    apply nth_error_nth'. nia.
  - rewrite (proj2 (Nat.eqb_neq _ _) H). reflexivity.
Qed.

Lemma matrix_round_trip {A} (m out : matrix A) : rows out = rows m -> cols out = cols m ->
  exists m', unpack_matrix (pack_matrix m) out = Ok m' /\ same_matrix m' m.
Proof.
  intros Hr Hc. destruct (pack_column_major m) as [L P].
  destruct (proj1 (unpack_matrix_spec (pack_matrix m) out)) as (m' & E & R1 & C1 & _ & P'); [rewrite Hr, Hc; exact L|].
  exists m'. split; [exact E|]. split; [congruence|]. split; [congruence|]. intros i j Hi Hj.
  specialize (P' i j Hi Hj). rewrite R1, Hr in P'. rewrite P in P' by congruence. congruence.
Qed.
Lemma matrix_round_trip_back {A} (l : list A) (out m : matrix A) : unpack_matrix l out = Ok m -> pack_matrix m = l.
Proof.
  intro E. destruct (unpack_matrix_spec l out) as [H1 H2].
  destruct (Nat.eq_dec (length l) (rows out * cols out)) as [D|D]; [|rewrite (H2 D) in E; discriminate].
  destruct (H1 D) as (m' & E' & _ & _ & CM). assert (m' = m) by congruence. subst m'.
  apply (column_major_unique m); [apply pack_column_major|exact CM].
Qed.
Lemma pack_matrix_same {A} (m n : matrix A) : rows m = rows n -> cols m = cols n ->
  (pack_matrix m = pack_matrix n <-> same_matrix m n).
Proof.
  intros Hr Hc. split; intro H.
  - split; [exact Hr|]. split; [exact Hc|]. intros i j Hi Hj.
    destruct (pack_column_major m) as [_ P]. destruct (pack_column_major n) as [_ P'].
    specialize (P i j Hi Hj). rewrite H, Hr in P. rewrite P' in P by congruence. congruence.
  - destruct H as (_ & _ & H). apply (column_major_unique m); [apply pack_column_major|].
    destruct (pack_column_major n) as [L P]. split; [congruence|]. intros i j Hi Hj.
    rewrite H by assumption. rewrite Hr. apply P; congruence.
Qed.

(** ** Fixed-size vectors *)
Lemma pack_vec3_eq v : pack_vec3 v = list3 v.
Proof. reflexivity. Qed.
Lemma pack_tan6_eq v : pack_tan6 v = list6 v.
Proof. reflexivity. Qed.
Lemma unpack_vec3_ok v : unpack_vec3 (list3 v) = Ok v.
Proof. destruct v. reflexivity. Qed.
Lemma unpack_tan6_ok v : unpack_tan6 (list6 v) = Ok v.
Proof. destruct v as [[x y z] [x' y' z']]. reflexivity. Qed.
Lemma unpack_vec3_cases l :
  (exists v, l = list3 v /\ unpack_vec3 l = Ok v) \/ (length l <> 3%nat /\ unpack_vec3 l = Throw).
Proof.
  destruct l as [|a [|b [|c [|d l]]]]; try (right; split; [discriminate|reflexivity]).
  left. exists (V3 a b c). split; reflexivity.
Qed.
Lemma unpack_tan6_cases l :
  (exists v, l = list6 v /\ unpack_tan6 l = Ok v) \/ (length l <> 6%nat /\ unpack_tan6 l = Throw).
Proof.
  destruct l as [|a [|b [|c [|d [|e [|f [|g l]]]]]]]; try (right; split; [discriminate|reflexivity]).
  left. exists (T6 (V3 a b c) (V3 d e f)). split; reflexivity.
Qed.

(** ** Frames *)
Lemma frame_round_trip f : uuid_wf f -> unpack_frame (pack_frame f) = Ok f.
Proof. apply string_round_trip. Qed.
Lemma id_text_unpack t u : id_text t u <-> unpack_frame t = Ok u.
Proof.
  destruct (of_string_grammar t) as (G1 & _ & G3). split.
  - intros (A & W & S). apply G1 in A as (u' & E). destruct (G3 u' E) as [W' S'].
    change (uuid_of_string t = Ok u). rewrite E. f_equal.
    assert (K : Ok u' = Ok u); [|congruence]. rewrite <- (string_round_trip u') by exact W'.
    rewrite S', <- S. apply string_round_trip. exact W.
  - intro E. change (uuid_of_string t = Ok u) in E. destruct (G3 u E). split; [apply G1; eauto|]. auto.
Qed.
Lemma not_id_unpack t : not_id t <-> unpack_frame t = Throw.
Proof. apply of_string_grammar. Qed.
Lemma frame_cases t : (exists u, id_text t u /\ unpack_frame t = Ok u) \/ (not_id t /\ unpack_frame t = Throw).
Proof.
  destruct (unpack_frame t) as [u| |] eqn:E.
  - left. exists u. split; [apply id_text_unpack; exact E|reflexivity].
  - right. split; [apply not_id_unpack; exact E|reflexivity].
  - unfold unpack_frame, unpack_uuid, uuid_of_string in E. destruct (uuid_parse (c_str t)); discriminate.
Qed.
Lemma empty_not_id : not_id [].
Proof. intros [L _]. discriminate. Qed.
Lemma id_text_not_not t u : id_text t u -> ~ not_id t.
Proof. intros (A & _) N. exact (N A). Qed.

(** ** Framed vectors *)
Lemma framed_vector_round_trip v : uuid_wf (fv_frame v) -> unpack_framed_vector (pack_framed_vector v) = Ok v.
Proof.
  intro H. destruct v as [v f]. cbn [fv_frame] in H. unfold unpack_framed_vector, pack_framed_vector.
  cbn [fv_msg_algebra fv_msg_frame fv_vector fv_frame].
  rewrite pack_vec3_eq, unpack_vec3_ok. cbn [obind]. rewrite frame_round_trip by exact H. reflexivity.
Qed.
Lemma unpack_framed_vector_spec msg :
  (forall v, unpack_framed_vector msg = Ok v <->
     fv_msg_algebra msg = list3 (fv_vector v) /\ id_text (fv_msg_frame msg) (fv_frame v)) /\
  (unpack_framed_vector msg = Throw <-> length (fv_msg_algebra msg) <> 3%nat \/ not_id (fv_msg_frame msg)).
Proof.
  destruct msg as [l t]. unfold unpack_framed_vector. cbn [fv_msg_algebra fv_msg_frame].
  destruct (unpack_vec3_cases l) as [(w & -> & Ev)|(L & Ev)]; rewrite Ev; cbn [obind].
  - destruct (frame_cases t) as [(u & I & Eu)|(N & Eu)]; rewrite Eu; cbn [obind]; split.
    + intros [v f]. cbn [fv_vector fv_frame]. split.
      * intro E. injection E as <- <-. auto.
      * intros [E I']. apply id_text_unpack in I'. rewrite Eu in I'. injection I' as <-.
        pose proof (unpack_vec3_ok v) as K. rewrite <- E, Ev in K. injection K as <-. reflexivity.
    + split; [discriminate|]. intros [H|H]; [elim H; reflexivity|]. elim (id_text_not_not _ _ I H).
    + intros [v f]. cbn [fv_vector fv_frame]. split; [discriminate|]. intros [_ I]. elim (id_text_not_not _ _ I N).
    + split; auto.
  - split.
    + intros [v f]. cbn [fv_vector fv_frame]. split; [discriminate|]. intros [-> _]. elim L. reflexivity.
    + split; auto.
Qed.

(** ** Transforms *)
Lemma frames_ok_dec i f : {frames_ok i f} + {~ frames_ok i f}.
Proof.
  destruct (make_frames (Some (i, f))) as [[i' f']| |] eqn:E.
  - left. apply make_frames_inv in E as [F [H|[H _]]]; [|discriminate].
    injection H as -> ->. exact F.
  - right. apply make_frames_throw. exact E.
  - elim (make_frames_not_UB _ E).
Qed.
Lemma so3_exp_ok v i f : frames_ok i f -> so3_exp v (Some (i, f)) = Ok (SO3 (mexp v) i f).
Proof. intro H. unfold so3_exp, so3_of_angle_axis. rewrite make_frames_ok by exact H. reflexivity. Qed.

Lemma so3_round_trip g : so3_wf g -> uuid_wf (so3_into g) -> uuid_wf (so3_from g) ->
  unpack_so3 (pack_so3 g) = Ok g.
Proof.
  intros W Wi Wf. unfold unpack_so3, pack_so3. cbn [algebra msg_into msg_from].
  rewrite pack_vec3_eq, unpack_vec3_ok. cbn [obind]. rewrite !frame_round_trip by assumption. cbn [obind].
  apply so3_exp_log. exact W.
Qed.
Lemma se3_round_trip g : se3_wf g -> uuid_wf (se3_into g) -> uuid_wf (se3_from g) ->
  exists h, unpack_se3 (pack_se3 g) = Ok h /\
    rotation h = rotation g /\ se3_into h = se3_into g /\ se3_from h = se3_from g /\
    norm (vsub (translation h) (translation g)) <= / 10^15 * norm (translation g) /\
    (plain_angle (norm2 (trot (se3_log g))) -> h = g).
Proof.
  intros W Wi Wf. unfold unpack_se3, pack_se3. cbn [algebra msg_into msg_from].
  rewrite pack_tan6_eq, unpack_tan6_ok. cbn [obind]. rewrite !frame_round_trip by assumption. cbn [obind].
  apply se3_exp_log. exact W.
Qed.

Section Unpack.
Context {T G : Type} (unpack_alg : list R -> outcome T) (to_list : T -> list R) (n : nat)
  (exp_ : T -> frame_args -> outcome G).
Hypothesis cases : forall l, (exists v, l = to_list v /\ unpack_alg l = Ok v) \/ (length l <> n /\ unpack_alg l = Throw).
Hypothesis len : forall v, length (to_list v) = n.
Hypothesis exp_ok : forall v i f, frames_ok i f -> exists g, exp_ v (Some (i, f)) = Ok g.
Hypothesis exp_throw : forall v i f, ~ frames_ok i f -> exp_ v (Some (i, f)) = Throw.
Lemma unpack_group_spec msg :
  let r := (let* alg := unpack_alg (algebra msg) in
            let* i := unpack_frame (msg_into msg) in
            let* f := unpack_frame (msg_from msg) in
            exp_ alg (Some (i, f))) in
  (forall g, r = Ok g <-> exists v i f, algebra msg = to_list v /\ unpack_alg (algebra msg) = Ok v /\ id_text (msg_into msg) i /\
     id_text (msg_from msg) f /\ frames_ok i f /\ exp_ v (Some (i, f)) = Ok g) /\
  (r = Throw <-> length (algebra msg) <> n \/ not_id (msg_into msg) \/ not_id (msg_from msg) \/
     exists i f, id_text (msg_into msg) i /\ id_text (msg_from msg) f /\ ~ frames_ok i f).
Proof.
  destruct msg as [l ti tf]. cbn [algebra msg_into msg_from].
  destruct (cases l) as [(w & -> & Ev)|(L & Ev)]; rewrite Ev; cbn [obind].
  2:{ split; [|split; [left; exact L|reflexivity]]. intro g. split; [discriminate|].
      intros (v & i & f & -> & _). elim L. apply len. }
  destruct (frame_cases ti) as [(i & Ii & Ei)|(Ni & Ei)]; rewrite Ei; cbn [obind].
  2:{ split; [|split; auto]. intro g. split; [discriminate|].
      intros (v & i & f & _ & _ & I & _). elim (id_text_not_not _ _ I Ni). }
  destruct (frame_cases tf) as [(f & If & Ef)|(Nf & Ef)]; rewrite Ef; cbn [obind].
  2:{ split; [|split; auto]. intro g. split; [discriminate|].
      intros (v & i' & f & _ & _ & _ & I & _). elim (id_text_not_not _ _ I Nf). }
  assert (Ui : forall i', id_text ti i' -> i' = i).
  { intros i' I'. apply id_text_unpack in I'. congruence. }
  assert (Uf : forall f', id_text tf f' -> f' = f).
  { intros f' I'. apply id_text_unpack in I'. congruence. }
  destruct (frames_ok_dec i f) as [F|F].
  - destruct (exp_ok w i f F) as (g0 & E0). rewrite E0. split.
    + intro g. split.
      * intro E. injection E as <-. exists w, i, f. auto 8.
      * intros (v & i' & f' & _ & Ev' & I' & J' & _ & E'). apply Ui in I'. apply Uf in J'. subst i' f'.
        injection Ev' as <-. exact (eq_trans (eq_sym E0) E').
    + split; [discriminate|]. intros [H|[H|[H|H]]].
      * elim H. apply len.
      * elim (id_text_not_not _ _ Ii H).
      * elim (id_text_not_not _ _ If H).
      * destruct H as (i' & f' & I' & J' & K). apply Ui in I'. apply Uf in J'. subst. contradiction.
  - rewrite exp_throw by exact F. split.
    + intro g. split; [discriminate|]. intros (v & i' & f' & _ & _ & I' & J' & K & _).
      apply Ui in I'. apply Uf in J'. subst. contradiction.
    + split; [|reflexivity]. intros _. right. right. right. exists i, f. auto.
Qed.
End Unpack.

Lemma list6_inj v w : list6 v = list6 w -> v = w.
Proof. intro H. pose proof (unpack_tan6_ok v) as K. rewrite H, unpack_tan6_ok in K. congruence. Qed.
Lemma list3_inj v w : list3 v = list3 w -> v = w.
Proof. intro H. pose proof (unpack_vec3_ok v) as K. rewrite H, unpack_vec3_ok in K. congruence. Qed.

Lemma unpack_so3_spec msg :
  (forall g, unpack_so3 msg = Ok g <-> exists v i f, algebra msg = list3 v /\ id_text (msg_into msg) i /\
     id_text (msg_from msg) f /\ frames_ok i f /\ so3_exp v (Some (i, f)) = Ok g) /\
  (unpack_so3 msg = Throw <-> length (algebra msg) <> 3%nat \/ not_id (msg_into msg) \/ not_id (msg_from msg) \/
     exists i f, id_text (msg_into msg) i /\ id_text (msg_from msg) f /\ ~ frames_ok i f).
Proof.
  destruct (unpack_group_spec unpack_vec3 list3 3 so3_exp unpack_vec3_cases (fun _ => eq_refl)
    (fun v i f H => ex_intro _ _ (so3_exp_ok v i f H)) so3_exp_throw msg) as [H1 H2].
  split; [|exact H2]. intro g. split; intro H.
  - apply H1 in H as (v & i & f & A & _ & B). eauto.
  - destruct H as (v & i & f & A & B). apply H1. exists v, i, f. split; [exact A|].
    split; [rewrite A; apply unpack_vec3_ok|exact B].
Qed.
Lemma unpack_se3_spec msg :
  (forall g, unpack_se3 msg = Ok g <-> exists v i f, algebra msg = list6 v /\ id_text (msg_into msg) i /\
     id_text (msg_from msg) f /\ frames_ok i f /\ se3_exp v (Some (i, f)) = Ok g) /\
  (unpack_se3 msg = Throw <-> length (algebra msg) <> 6%nat \/ not_id (msg_into msg) \/ not_id (msg_from msg) \/
     exists i f, id_text (msg_into msg) i /\ id_text (msg_from msg) f /\ ~ frames_ok i f).
Proof.
  destruct (unpack_group_spec unpack_tan6 list6 6 se3_exp unpack_tan6_cases (fun _ => eq_refl)
    (fun v i f H => ex_intro _ _ (se3_exp_eq v i f H)) se3_exp_throw msg) as [H1 H2].
  split; [|exact H2]. intro g. split; intro H.
  - apply H1 in H as (v & i & f & A & _ & B). eauto.
  - destruct H as (v & i & f & A & B). apply H1. exists v, i, f. split; [exact A|].
    split; [rewrite A; apply unpack_tan6_ok|exact B].
Qed.
