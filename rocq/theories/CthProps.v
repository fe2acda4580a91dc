(** C90: jets, curves, payloads and primitives made for the tests. *)
From Coq Require Import Reals ZArith Lia Lra List String.
From Flocq Require Import Core BinarySingleNaN.
From Verif Require Import Cpp FloatModel FloatSpec NrmSpec UuidModel RotSpec GeomModel FrameSpec JetModel CurveModel ExamModel ExamSpec StateModel DriftModel FtsModel FpsModel FstModel StmtModel TvModel TvSpec TvProofs CthModel CthSpec CthProofs CthProofs2 CthProofs3.
Import ListNotations.
Local Open Scope R_scope.

(** ** Jets *)
(** The list of test jets: from seven to 2^31 - 1 of them, and in each of them the velocity and
    the acceleration are the same test vector, and the pose is its exponential. *)
Theorem c90_jets : forall {S G V} (k : kind S V) (exp : V -> G) x xj i f s, i <> null_frame -> f <> null_frame ->
  limits (make_test_two_jet_elements k exp x xj i f s) /\
  forall count, (7 <= count < 2 ^ 31)%Z -> exists els l, make_test_vectors k x s count = Ok els /\ make_test_two_jet_elements k exp x xj i f s count = Ok l /\
    Z.of_nat (length els) = count /\ Z.of_nat (length l) = count /\
    forall n v, nth_error els n = Some v -> nth_error l n = Some (TestJet (Framed (exp v) i f) v v).
Proof.
  intros S G V k exp x xj i f s I F. destruct (jets k exp x xj i f s I F) as [L J]. split; [exact L|]. intros count H. destruct (J count H) as (els & E & N & M).
  exists els. eexists. split; [exact E|]. split; [exact M|]. split; [exact N|]. split; [rewrite map_length; exact N|]. intros n v X. rewrite nth_error_map, X. reflexivity.
Qed.
Print Assumptions c90_jets.
(** So no generator makes a list in which the accelerations are populated by themselves, one in
    which one of them differs from the velocity. *)
Theorem c90_alike : forall {S G V} (k : kind S V) (exp : V -> G) x xj i f s count l, i <> null_frame -> f <> null_frame ->
  make_test_two_jet_elements k exp x xj i f s count = Ok l -> ~ exists j, In j l /\ t_d j <> t_d2 j.
Proof.
  intros S G V k exp x xj i f s count l I F E (j & J & D). destruct (jets k exp x xj i f s I F) as [[L1 L2] M].
  destruct (Z.lt_ge_cases count 7) as [A|A]; [rewrite L1 in E by exact A; discriminate|]. destruct (Z.lt_ge_cases count (2 ^ 31)) as [B|B]; [|rewrite L2 in E by exact B; discriminate].
  destruct (M count (conj A B)) as (els & _ & _ & X). rewrite X in E. injection E as <-. apply in_map_iff in J as (v & <- & _). apply D. reflexivity.
Qed.
Print Assumptions c90_alike.
(** A single test jet: the pose is from the first vector drawn, and the velocity and the
    acceleration are the next two, in the order in which the compiler has them computed. *)
Theorem c90_jet : forall {S G V} (k : kind S V) (exp : V -> G) in_order i f s, frames_ok i f ->
  exists j, make_test_two_jet k exp in_order i f s = Ok (j, state_after k s 3) /\ t_pose j = Framed (exp (nth_vector k s 0)) i f /\
    (t_d j, t_d2 j) = swapped in_order (nth_vector k s 1) (nth_vector k s 2).
Proof. intros S G V k exp b i f s H. eexists. split; [apply one_jet, H|]. split; [reflexivity|]. destruct b; reflexivity. Qed.
Print Assumptions c90_jet.

(** ** Time curves *)
(** make_t_curve makes a curve if every time is less than the next, and throws otherwise.  The
    curve has one control point per time, in order, each from three vectors drawn, and its poses
    are in the frames of the helper or in none. *)
Theorem c90_t_curve : forall {S G V} (k : kind S V) (exp : V -> G) in_order i f p r times (framed : bool) s, frames_ok i f -> p <> null_frame -> r <> null_frame ->
  (increasing times -> exists c, make_t_curve k exp in_order i f p r times framed s = Ok (c, state_after k s (3 * length times)) /\ length c = length times /\
     forall n t, nth_error times n = Some t -> exists a b, (a, b) = swapped in_order (nth_vector k s (3 * n + 1)) (nth_vector k s (3 * n + 2)) /\
       nth_error c n = Some (TestControl t (TestJet (Framed (exp (nth_vector k s (3 * n))) (if framed then p else null_frame) (if framed then r else null_frame)) a b))) /\
  (~ increasing times -> make_t_curve k exp in_order i f p r times framed s = Throw).
Proof.
  intros S G V k exp b i f p r times fr s FO P R. destruct (t_curve_ok k exp b i f p r times fr s FO P R) as [A B]. split; [|exact B].
  intro H. destruct (A H) as (c & E & L & X). exists c. split; [exact E|]. split; [exact L|]. intros n t T. do 2 eexists. split; [symmetry; apply surjective_pairing|]. exact (X n t T).
Qed.
Print Assumptions c90_t_curve.
(** A single time may be NaN; among others it is refused. *)
Theorem c90_nan_time : forall {S G V} (k : kind S V) (exp : V -> G) in_order i f p r (framed : bool) s t, frames_ok i f -> p <> null_frame -> r <> null_frame ->
  (exists c s', make_t_curve k exp in_order i f p r [B754_nan] framed s = Ok (c, s') /\ length c = 1%nat) /\
  make_t_curve k exp in_order i f p r [t; B754_nan] framed s = Throw /\ make_t_curve k exp in_order i f p r [B754_nan; t] framed s = Throw.
Proof.
  intros S G V k exp b i f p r fr s t FO P R. split; [|split].
  - destruct (proj1 (t_curve_ok k exp b i f p r [B754_nan] fr s FO P R)) as (c & E & L & _); [|exists c; eexists; split; [exact E|exact L]]. intros [|[|n]] u v X Y; discriminate.
  - apply (t_curve_ok k exp b i f p r _ fr s FO P R). intro H. destruct (H 0%nat _ _ eq_refl eq_refl) as (_ & N & _). apply N. reflexivity.
  - apply (t_curve_ok k exp b i f p r _ fr s FO P R). intro H. destruct (H 0%nat _ _ eq_refl eq_refl) as (N & _). apply N. reflexivity.
Qed.
Print Assumptions c90_nan_time.

(** ** The circle *)
(** The four poses make a curve that is three quarters of the unit circle, and the first pose
    again at the end makes it the whole circle: at every arc length the pose is the one on the
    circle at that angle, facing outwards, in the frames asked for. *)
Theorem c90_circle : forall i f, frames_ok i f -> exists pts first k k', circle_points i f = Ok pts /\ length pts = 4%nat /\ nth_error pts 0 = Some first /\
  dc_make pts = Ok k /\ dc_length k = Ok (3 * PI / 2) /\ (forall a, 0 <= a <= 3 * PI / 2 -> exists g, dc_point_at k a = Ok (Some g) /\ posed (/ 10^23 * a) (yaw a) (V3 (cos a) (sin a) 0) i f g) /\
  dc_make (pts ++ [first]) = Ok k' /\ dc_length k' = Ok (2 * PI) /\ forall a, 0 <= a <= 2 * PI -> exists g, dc_point_at k' a = Ok (Some g) /\ posed (/ 10^23 * a) (yaw a) (V3 (cos a) (sin a) 0) i f g.
Proof.
  intros i f FO. destruct (four_curve i f FO) as (k & A & _ & B & C). destruct (closed_curve i f FO) as (g & k' & D & E & F & H). exists (four i f), g, k, k'.
  split; [apply circle_points_is, FO|]. split; [reflexivity|]. tauto.
Qed.
Print Assumptions c90_circle.

(** ** Payloads *)
(** Frames: one new frame after the other. *)
Theorem c90_frames : forall ids next, limits (fun count => payload_frames ids count next) /\
  forall count, (7 <= count < 2 ^ 31)%Z -> exists l, payload_frames ids count next = Ok (l, (next + Z.to_nat count)%nat) /\ Z.of_nat (length l) = count /\
    (forall n, (n < length l)%nat -> nth_error l n = Some (ids (next + n)%nat)) /\ (fresh_ids ids next (length l) -> NoDup l /\ ~ In null_frame l).
Proof.
  intros ids next. destruct (frames_payload ids next) as [L P]. split; [exact L|]. intros count H. eexists. split; [apply P, H|]. rewrite turns_length. split; [lia|].
  assert (X : forall n a, nth_error (turns ids 1 (Z.to_nat count) next) n = Some a <-> (n < Z.to_nat count)%nat /\ a = ids (next + n)%nat) by (intros n a; rewrite turns_nth; replace (next + 1 * n)%nat with (next + n)%nat by lia; reflexivity).
  split; [intros n N; apply X; tauto|]. intros [F1 F2]. split.
  - apply NoDup_nth_error. intros a b A E. rewrite turns_length in A. assert (XA := proj2 (X a _) (conj A eq_refl)). assert (E2 := eq_trans (eq_sym E) XA). apply X in E2 as [Hb E2]. apply F2 in E2; [congruence|assumption..].
  - intro I. apply In_nth_error in I as [n I]. apply X in I as [Hn I]. exact (F1 n Hn (eq_sym I)).
Qed.
Print Assumptions c90_frames.
(** Poses and rotations: the exponentials of the test vectors, each with two new frames of its
    own or with none. *)
Theorem c90_poses : forall {S G V} (k : kind S V) (exp : V -> G) x s ids framed next, (forall n, ids n <> null_frame) ->
  limits (fun count => payload_poses k exp x s ids count framed next) /\
  forall count, (7 <= count < 2 ^ 31)%Z -> exists els l, make_test_vectors k x s count = Ok els /\ payload_poses k exp x s ids count framed next = Ok (l, (next + (if framed then 2 * Z.to_nat count else 0))%nat) /\
    Z.of_nat (length els) = count /\ Z.of_nat (length l) = count /\ forall n v, nth_error els n = Some v ->
    nth_error l n = Some (if framed then Framed (exp v) (ids (next + 2 * n + 1)%nat) (ids (next + 2 * n)%nat) else Framed (exp v) null_frame null_frame).
Proof. exact (fun S G V => poses_payload). Qed.
Print Assumptions c90_poses.
(** Distance curves: all the same circle, but without frames the first is empty. *)
Theorem c90_d_curves : forall r p, r <> null_frame -> p <> null_frame -> limits (fun count => payload_d_curves r p count true) /\ limits (fun count => payload_d_curves r p count false) /\
  exists pts pts0 k k0, circle_points r p = Ok pts /\ dc_make pts = Ok k /\ circle_points null_frame null_frame = Ok pts0 /\ dc_make pts0 = Ok k0 /\ forall count, (7 <= count < 2 ^ 31)%Z ->
    payload_d_curves r p count true = Ok (repeat k (Z.to_nat count)) /\ payload_d_curves r p count false = Ok (DCurve [] [] :: repeat k0 (Z.to_nat count - 1)).
Proof.
  intros r p R P. destruct (d_curves_payload r p R P) as (A & B & k & k0 & K & K0 & C). split; [exact A|]. split; [exact B|]. exists (four r p), (four null_frame null_frame), k, k0.
  split; [apply circle_points_is; unfold frames_ok; tauto|]. split; [exact K|]. split; [apply circle_points_is; unfold frames_ok; tauto|]. split; [exact K0|exact C].
Qed.
Print Assumptions c90_d_curves.
(** Time curves and trajectories: all the same circle, between two new frames or none; a
    trajectory always has frames, whatever is asked for. *)
Theorem c90_t_curves : forall ids framed next, (forall n, ids n <> null_frame) -> limits (fun count => payload_t_curves ids count framed next) /\
  exists k, make_circle_curve (if framed then ids next else null_frame) (if framed then ids (next + 1)%nat else null_frame) = Ok k /\ forall count, (7 <= count < 2 ^ 31)%Z ->
    payload_t_curves ids count framed next = Ok (repeat k (Z.to_nat count), (next + if framed then 2 else 0)%nat).
Proof. exact t_curves_payload. Qed.
Print Assumptions c90_t_curves.
Theorem c90_trajectories : forall ids framed next, (forall n, ids n <> null_frame) -> limits (fun count => payload_trajectories ids count framed next) /\
  exists k, make_circle_curve (ids next) (ids (next + 1)%nat) = Ok k /\ forall count, (7 <= count < 2 ^ 31)%Z ->
    payload_trajectories ids count framed next = Ok (repeat (Traj k 0) (Z.to_nat count), (next + 2)%nat).
Proof. exact trajectories_payload. Qed.
Print Assumptions c90_trajectories.
(** Vectors: all of them the same vector, the first three numbers drawn, in new frames, also
    when frames are not asked for. *)
Theorem c90_vectors : forall {S} (draw : source S) s ids framed next,
  (forall count, (0 <= count < 2 ^ 31)%Z -> exists l, payload_vectors draw s ids count framed next = Ok (l, (next + Z.to_nat count)%nat) /\ Z.of_nat (length l) = count /\
     forall n, (n < length l)%nat -> nth_error l n = Some (drawn3 draw s 0, ids (next + n)%nat)) /\
  forall count, (2 ^ 31 <= count)%Z -> payload_vectors draw s ids count framed next = UB.
Proof.
  intros S draw s ids fr next. destruct (vectors_payload draw s ids fr next) as [A B]. split; [|exact B]. intros count H. eexists. split; [apply A, H|]. rewrite turns_length. split; [lia|].
  intros n N. apply turns_nth. replace (next + 1 * n)%nat with (next + n)%nat by lia. tauto.
Qed.
Print Assumptions c90_vectors.
(** "The minimum is seven. If you request less the function will check-fail": not for vectors,
    of which any smaller number is given. *)
Theorem c90_minimum_refuted : forall {S} (draw : source S) s ids framed next count, (0 <= count < 7)%Z ->
  exists l next', payload_vectors draw s ids count framed next = Ok (l, next') /\ Z.of_nat (length l) = count.
Proof. intros S draw s ids fr next count H. destruct (proj1 (c90_vectors draw s ids fr next) count) as (l & E & L & _); [lia|]. exists l. eexists. split; [exact E|exact L]. Qed.
Print Assumptions c90_minimum_refuted.

(** ** Objects and primitives *)
(** The test curve of the conversions is always made: ten poses, the exponentials of the test
    vectors, between two new frames, at the times 0 to 9 exactly, with velocities and
    accelerations drawn in turn. *)
Theorem c90_test_curve : forall {S G V} (k : kind S V) (exp : V -> G) x s0 s ids next, (forall n, ids n <> null_frame) ->
  exists els c, make_test_vectors k x s0 10 = Ok els /\ length els = 10%nat /\ generate_test_t_curve k exp x s0 s ids next = Ok (c, (next + 2)%nat) /\ length c = 10%nat /\
  forall n v, nth_error els n = Some v -> exists t, nth_error c n = Some (TestControl t (TestJet (Framed (exp v) (ids next) (ids (next + 1)%nat)) (nth_vector k s (2 * n)) (nth_vector k s (2 * n + 1)))) /\ finite t /\ val t = INR n.
Proof. exact (fun S G V => test_curve_ok). Qed.
Print Assumptions c90_test_curve.
(** A primitive with such a curve or with a pose: its id is new, and the file, the line and the
    name are those given. *)
Theorem c90_primitive : forall {S G V} (k : kind S V) (exp : V -> G) x s0 s ids name next, (forall n, ids n <> null_frame) ->
  generate_test_primitive (test_object_pose k exp s ids) name next =
    Ok (Primitive next (Framed (exp (nth_vector k s 0)) (ids (next + 1)%nat) (ids (next + 2)%nat)) name "test_file_name" 42, (next + 3)%nat) /\
  exists c, generate_test_t_curve k exp x s0 s ids (next + 1)%nat = Ok (c, (next + 3)%nat) /\
    generate_test_primitive (generate_test_t_curve k exp x s0 s ids) name next = Ok (Primitive next c name "test_file_name" 42, (next + 3)%nat).
Proof.
  intros S G V k exp x s0 s ids name next N. unfold generate_test_primitive. replace (Datatypes.S next) with (next + 1)%nat by lia. split.
  - rewrite pose_object by exact N. cbn [obind]. replace (next + 1 + 1)%nat with (next + 2)%nat by lia. replace (next + 1 + 2)%nat with (next + 3)%nat by lia. reflexivity.
  - destruct (test_curve_ok k exp x s0 s ids (next + 1) N) as (_ & c & _ & _ & E & _). replace (next + 1 + 2)%nat with (next + 3)%nat in E by lia. exists c. split; [exact E|]. rewrite E. reflexivity.
Qed.
Print Assumptions c90_primitive.

(** Ids that are all different, a generator, and three times. *)
Definition counted (n : nat) : uuid := N.of_nat n :: repeat 1%N 15.
Definition steady : source nat := fun n => (of_int (Z.of_nat n), Datatypes.S n).
Example c90_case : fresh_ids counted 0 200 /\ increasing [of_int 0; of_int 1; of_int 3] /\ ~ increasing [of_int 0; of_int 3; of_int 1] /\
  (exists c s, make_t_curve (kind3 steady) (fun v => v) true (counted 0) (counted 1) (counted 2) (counted 3) [of_int 0; of_int 1; of_int 3] true 0%nat = Ok (c, s) /\ length c = 3%nat /\ s = 27%nat) /\
  exists l, make_test_two_jet_elements (kind3 steady) (fun v => v) fvzero (TestJet (no_frames fvzero) fvzero fvzero) (counted 0) (counted 1) 0%nat 8 = Ok l /\ length l = 8%nat /\
    nth_error l 5 = Some (TestJet (Framed (FV (of_int 3) (of_int 4) (of_int 5)) (counted 0) (counted 1)) (FV (of_int 3) (of_int 4) (of_int 5)) (FV (of_int 3) (of_int 4) (of_int 5))).
Proof.
  assert (NN : forall n, counted n <> null_frame) by (intros n E; discriminate E).
  assert (U : fresh_ids counted 0 200). { split; [intros n _ E; discriminate E|]. intros m n _ _ E. injection E. lia. }
  assert (C : forall a b c, flt a b = true -> flt b c = true -> increasing [a; b; c]).
  { intros a b c A B [|[|[|i]]] x y X Y; cbn in X, Y; try discriminate; try (destruct i; discriminate); injection X as <-; injection Y as <-; apply less_flt; assumption. }
  assert (I : increasing [of_int 0; of_int 1; of_int 3]) by (apply C; vm_compute; reflexivity).
  split; [exact U|]. split; [exact I|]. split.
  { intro H. specialize (H 1%nat _ _ eq_refl eq_refl). apply less_flt in H. vm_compute in H. discriminate H. }
  destruct U as [U _]. split.
  - destruct (proj1 (c90_t_curve (kind3 steady) (fun v => v) true (counted 0) (counted 1) (counted 2) (counted 3) [of_int 0; of_int 1; of_int 3] true 0%nat ltac:(unfold frames_ok; pose proof (NN 0%nat); pose proof (NN 1%nat); tauto) (NN _) (NN _)) I) as (c & E & L & _). exists c. eexists. split; [exact E|]. split; [exact L|reflexivity].
  - destruct (jets (kind3 steady) (fun v => v) fvzero (TestJet (no_frames fvzero) fvzero fvzero) (counted 0) (counted 1) 0%nat (NN _) (NN _)) as [_ J]. destruct (J 8%Z) as (els & E & N & M); [lia|].
    eexists. split; [exact M|]. split; [rewrite map_length; lia|]. apply (elements3 steady) in E. destruct E as (rest & -> & LL & X).
    rewrite nth_error_map, nth_error_app2 by (cbn [length]; lia). cbn [length Nat.sub]. rewrite (X 0%nat) by lia. cbn [option_map doubled]. unfold doubled.
    assert (D : drawn3 steady 0%nat (3 + 3 * 0) = FV (of_int 3) (of_int 4) (of_int 5)) by (cbn [drawn3 nth_draw steady fst snd Nat.add Nat.mul]; reflexivity).
    rewrite D. reflexivity.
Qed.
