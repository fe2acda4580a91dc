(** Lemmas about the jets, curves, payloads and primitives made for the tests. *)
From Coq Require Import Reals ZArith Lia Lra List String Bool.
From Flocq Require Import Core BinarySingleNaN.
From Verif Require Import Cpp FloatModel FloatSpec FloatProofs NrmSpec NrmProofs UuidModel GeomModel FrameSpec FrameProofs JetModel CurveModel ExamModel StateModel DriftModel DriftProofs2 FpsModel StmtModel TvModel TvSpec TvProofs CthModel CthSpec.
Import ListNotations.

(** ** Jets *)
Lemma state_step {S V} (k : kind S V) i : forall s, snd (k_random k (state_after k s i)) = state_after k s (Datatypes.S i).
Proof. induction i as [|i IH]; intro s; [reflexivity|]. cbn [state_after]. rewrite IH. reflexivity. Qed.
Lemma state_add {S V} (k : kind S V) i : forall s j, state_after k (state_after k s i) j = state_after k s (i + j).
Proof. induction i as [|i IH]; intros s j; [reflexivity|]. cbn [state_after Nat.add]. apply IH. Qed.
Lemma nth_add {S V} (k : kind S V) s i j : nth_vector k (state_after k s i) j = nth_vector k s (i + j).
Proof. unfold nth_vector. rewrite state_add. reflexivity. Qed.
Lemma set_ok {G} (g : framed G) i f : i <> null_frame -> f <> null_frame -> set_frames g i f = Ok (Framed (f_value g) i f).
Proof. intros I F. unfold set_frames. rewrite (frame_is_null_neq _ I), (frame_is_null_neq _ F). reflexivity. Qed.
Lemma with_ok {G} (g : G) i f : frames_ok i f -> with_frames g i f = Ok (Framed g i f).
Proof.
  intros [A B]. unfold with_frames. destruct (frame_is_null i) eqn:I, (frame_is_null f) eqn:F; try reflexivity; exfalso.
  - apply frame_is_null_eq in I. apply A in I. subst. rewrite frame_is_null_null in F. discriminate.
  - apply frame_is_null_eq in F. apply B in F. subst. rewrite frame_is_null_null in I. discriminate.
Qed.
Definition jet_of {S G V} (k : kind S V) (exp : V -> G) (keep : bool) (i f : frame) (s : S) (n : nat) : test_jet G V :=
  TestJet (Framed (exp (nth_vector k s n)) i f) (fst (swapped keep (nth_vector k s (n + 1)) (nth_vector k s (n + 2)))) (snd (swapped keep (nth_vector k s (n + 1)) (nth_vector k s (n + 2)))).
Lemma one_jet {S G V} (k : kind S V) (exp : V -> G) keep i f s : frames_ok i f ->
  make_test_two_jet k exp keep i f s = Ok (jet_of k exp keep i f s 0, state_after k s 3).
Proof.
  intro FO. unfold make_test_two_jet, jet_of, nth_vector. cbn [Nat.add state_after]. destruct (k_random k s) as [v s1]. cbn [fst snd]. rewrite with_ok by exact FO. cbn [obind].
  destruct (k_random k s1) as [a s2]. cbn [fst snd]. destruct (k_random k s2) as [b s3]. cbn [fst snd]. destruct keep; reflexivity.
Qed.
Lemma at_ok {A} (l : list A) (l1 : list A) a l2 i : l = l1 ++ a :: l2 -> i = Z.of_nat (length l1) -> at_index l i = Ok a.
Proof. intros -> ->. unfold at_index. rewrite Nat2Z.id, nth_error_app2, Nat.sub_diag by lia. reflexivity. Qed.
Definition doubled {G V} (exp : V -> G) (i f : frame) (v : V) : test_jet G V := TestJet (Framed (exp v) i f) v v.
Lemma collect_ok {G V} (exp : V -> G) i f (els : list V) : i <> null_frame -> f <> null_frame -> (Z.of_nat (length els) <= INT_MAX)%Z ->
  forall rest done, els = done ++ rest -> forall l,
  collect_jets i f (map (fun a => no_frames (exp a)) els) els els (length rest) (Z.of_nat (length done)) l = Ok (l ++ map (doubled exp i f) rest).
Proof.
  intros I F L. induction rest as [|v rest IH]; intros done E l; cbn [length collect_jets map]; [rewrite app_nil_r; reflexivity|].
  rewrite (at_ok _ (map (fun a => no_frames (exp a)) done) (no_frames (exp v)) (map (fun a => no_frames (exp a)) rest)); [|rewrite E, map_app; reflexivity|rewrite map_length; reflexivity].
  cbn [obind]. rewrite set_ok by assumption. cbn [obind]. rewrite (at_ok els done v rest) by (exact E || reflexivity). cbn [obind].
  rewrite (proj2 (Z.eqb_neq _ _)); [|rewrite E, app_length in L; cbn [length] in L; lia].
  replace (Z.of_nat (length done) + 1)%Z with (Z.of_nat (length (done ++ [v]))) by (rewrite app_length; cbn [length]; lia).
  rewrite (IH (done ++ [v])); [|rewrite E, <- app_assoc; reflexivity]. rewrite <- app_assoc. reflexivity.
Qed.
Lemma jets {S G V} (k : kind S V) (exp : V -> G) x xj i f s : i <> null_frame -> f <> null_frame ->
  limits (make_test_two_jet_elements k exp x xj i f s) /\
  forall count, (7 <= count < 2 ^ 31)%Z -> exists els, make_test_vectors k x s count = Ok els /\ Z.of_nat (length els) = count /\
    make_test_two_jet_elements k exp x xj i f s count = Ok (map (doubled exp i f) els).
Proof.
  intros I F. unfold limits, make_test_two_jet_elements, make_test_group_elements, min_test_elements. split; [split|]; intros count H.
  - rewrite (proj2 (Z.leb_gt _ _)) by lia. reflexivity.
  - rewrite (proj2 (Z.leb_le _ _)) by lia. cbn [reassert obind]. rewrite (proj2 (proj2 (counts k x s count))) by lia. reflexivity.
  - rewrite (proj2 (Z.leb_le _ _)) by lia. cbn [reassert obind]. destruct (proj1 (proj2 (counts k x s count)) H) as (l & E & L). exists l. split; [exact E|]. split; [exact L|].
    rewrite E. cbn [obind]. replace (Z.to_nat count) with (length l) by lia. assert (M : (Z.of_nat (length l) <= INT_MAX)%Z) by (unfold INT_MAX; lia).
    pose proof (collect_ok exp i f l I F M l [] eq_refl []) as C. cbn [length Z.of_nat app] in C. rewrite C. cbn [obind].
    rewrite resize_same; [reflexivity|]. apply map_length.
Qed.

(** ** Time curves *)
Lemma less_flt a b : flt a b = true <-> less a b.
Proof.
  unfold less. split.
  - intro H. destruct (flt_not_nan _ _ H) as [A B]. split; [exact A|]. split; [exact B|]. apply flt_place; assumption.
  - intros (A & B & C). apply flt_place; assumption.
Qed.
Fixpoint chain (prev : option f64) (times : list f64) : bool :=
  match times with
  | [] => true
  | t :: times => (match prev with None => true | Some p => flt p t end) && chain (Some t) times
  end.
Lemma chain_some p times : chain (Some p) times = true <-> increasing (p :: times).
Proof.
  revert p. induction times as [|t times IH]; intro p; cbn [chain].
  - split; [|reflexivity]. intros _ [|i] a b; cbn; [discriminate|]. destruct i; discriminate.
  - rewrite andb_true_iff, IH. split.
    + intros [A B] [|i] a b; cbn [nth_error]; [|apply B]. intros X Y. injection X as <-. injection Y as <-. apply less_flt, A.
    + intro H. split; [apply less_flt, (H 0%nat); reflexivity|]. intros i a b X Y. apply (H (Datatypes.S i)); assumption.
Qed.
Lemma chain_none times : chain None times = true <-> increasing times.
Proof.
  destruct times as [|t times]; cbn [chain andb]; [|apply chain_some]. split; [|reflexivity]. intros _ [|i] a b; discriminate.
Qed.
Definition last_time {G V} (c : list (test_control G V)) : option f64 := match rev c with [] => None | b :: _ => Some (t_time b) end.
Definition ends_in {G V} (i f : frame) (c : list (test_control G V)) : Prop :=
  match rev c with [] => True | b :: _ => f_into (t_pose (t_point b)) = i /\ f_from (t_pose (t_point b)) = f end.
Lemma append_one {G V} i f (c : list (test_control G V)) p : ends_in i f c -> f_into (t_pose (t_point p)) = i -> f_from (t_pose (t_point p)) = f ->
  t_append c p = (if match last_time c with None => true | Some q => flt q (t_time p) end then Ok (c ++ [p]) else Throw) /\ ends_in i f (c ++ [p]) /\ last_time (c ++ [p]) = Some (t_time p).
Proof.
  intros E I F. split; [|unfold ends_in, last_time; rewrite rev_app_distr; cbn; tauto].
  unfold t_append, last_time, ends_in in *. destruct (rev c) as [|b l] eqn:R.
  - assert (c = []) as -> by (rewrite <- (rev_involutive c), R; reflexivity). reflexivity.
  - destruct E as [A B]. destruct (flt (t_time b) (t_time p)); [|reflexivity]. cbn [reassert obind]. unfold verify_frames. rewrite I, F, A, B, !frame_eqb_refl. reflexivity.
Qed.
Definition control_of {S G V} (k : kind S V) (exp : V -> G) (keep framed_ : bool) (p r : frame) (s : S) (t : f64) (n : nat) : test_control G V :=
  TestControl t (jet_of k exp keep (if framed_ then p else null_frame) (if framed_ then r else null_frame) s n).
Fixpoint controls_of {S G V} (k : kind S V) (exp : V -> G) (keep framed_ : bool) (p r : frame) (s : S) (times : list f64) (n : nat) : list (test_control G V) :=
  match times with [] => [] | t :: times => control_of k exp keep framed_ p r s t n :: controls_of k exp keep framed_ p r s times (n + 3) end.
Lemma extend_is {S G V} (k : kind S V) (exp : V -> G) (keep : bool) i f p r (framed_ : bool) s : frames_ok i f -> p <> null_frame -> r <> null_frame ->
  forall times n c, ends_in (if framed_ then p else null_frame) (if framed_ then r else null_frame) c ->
  extend_t_curve k exp keep i f p r framed_ times (state_after k s n) c =
    if chain (last_time c) times then Ok (c ++ controls_of k exp keep framed_ p r s times n, state_after k s (n + 3 * length times)) else Throw.
Proof.
  intros FO P R. induction times as [|t times IH]; intros n c E; cbn [extend_t_curve chain controls_of length].
  - rewrite app_nil_r. replace (n + 3 * 0)%nat with n by lia. reflexivity.
  - rewrite one_jet by exact FO. cbn [obind]. set (o := jet_of k exp keep i f (state_after k s n) 0).
    assert (T : (if framed_ then set_frames (t_pose o) p r else Ok (set_unframed (t_pose o))) = Ok (t_pose (t_point (control_of k exp keep framed_ p r s t n))) /\
      TestControl t (TestJet (t_pose (t_point (control_of k exp keep framed_ p r s t n))) (t_d o) (t_d2 o)) = control_of k exp keep framed_ p r s t n).
    { unfold o, control_of, jet_of. rewrite !nth_add. cbn [t_pose t_point t_d t_d2]. replace (n + 0)%nat with n by lia. replace (n + (0 + 1))%nat with (n + 1)%nat by lia. replace (n + (0 + 2))%nat with (n + 2)%nat by lia.
      split; [|reflexivity]. destruct framed_; [rewrite set_ok by assumption|]; reflexivity. }
    destruct T as [T1 T2]. rewrite T1. cbn [obind]. rewrite T2, state_add. clear T1 T2.
    destruct (append_one _ _ c (control_of k exp keep framed_ p r s t n) E) as (A & B & D); [reflexivity|reflexivity|]. rewrite A. cbn [control_of t_time].
    destruct (match last_time c with None => true | Some q => flt q t end); cbn [andb obind]; [|reflexivity].
    rewrite (IH (n + 3)%nat _ B), D. cbn [control_of t_time]. rewrite <- app_assoc. replace (n + 3 + 3 * length times)%nat with (n + 3 * Datatypes.S (length times))%nat by lia. reflexivity.
Qed.
Lemma controls_nth {S G V} (k : kind S V) (exp : V -> G) keep framed_ p r s : forall times n i t, nth_error times i = Some t ->
  nth_error (controls_of k exp keep framed_ p r s times n) i = Some (control_of k exp keep framed_ p r s t (n + 3 * i)).
Proof.
  induction times as [|u times IH]; intros n [|i] t E; try discriminate; cbn [controls_of nth_error] in *.
  - injection E as ->. do 2 f_equal. lia.
  - rewrite (IH _ _ _ E). do 2 f_equal. lia.
Qed.
Lemma controls_length {S G V} (k : kind S V) (exp : V -> G) keep framed_ p r s : forall times n, length (controls_of k exp keep framed_ p r s times n) = length times.
Proof. induction times as [|t times IH]; intro n; cbn [controls_of length]; [reflexivity|]. rewrite IH. reflexivity. Qed.
Lemma t_curve_ok {S G V} (k : kind S V) (exp : V -> G) keep i f p r times framed_ s : frames_ok i f -> p <> null_frame -> r <> null_frame ->
  (increasing times -> exists c, make_t_curve k exp keep i f p r times framed_ s = Ok (c, state_after k s (3 * length times)) /\ length c = length times /\
     forall n t, nth_error times n = Some t -> nth_error c n = Some (control_of k exp keep framed_ p r s t (3 * n))) /\
  (~ increasing times -> make_t_curve k exp keep i f p r times framed_ s = Throw).
Proof.
  intros FO P R. unfold make_t_curve. pose proof (extend_is k exp keep i f p r framed_ s FO P R times 0 [] I) as E. cbn [state_after last_time rev app Nat.add] in E. rewrite E. clear E. split; intro H.
  - apply chain_none in H. rewrite H. eexists. split; [reflexivity|]. split; [apply controls_length|]. intros n t N. apply (controls_nth k exp keep framed_ p r s times 0 n t N).
  - destruct (chain None times) eqn:C; [|reflexivity]. exfalso. apply H, chain_none, C.
Qed.
