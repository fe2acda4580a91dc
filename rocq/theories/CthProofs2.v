(** Lemmas about the circle, the payloads and the primitives made for the tests. *)
From Coq Require Import Reals ZArith Lia Lra List String Bool.
From Flocq Require Import Core BinarySingleNaN.
From Verif Require Import Cpp FloatModel FloatSpec FloatProofs NrmSpec NrmProofs UuidModel RotSpec GeomModel RotProofs FrameSpec FrameProofs LieSpec JetModel CurveModel CurveSpec DCurveSpec DSymSpec DSymProofs ExamModel ExamSpec ExamProofs ExamProofs3 StateModel DriftModel FpsModel StmtModel TvModel TvSpec TvProofs CthModel CthSpec CthProofs.
Import ListNotations.

(** ** The circle *)
Section circle.
Local Open Scope R_scope.
Lemma vneg_x : vneg unit_x = V3 (-1) 0 0. Proof. unfold vneg, unit_x. cbn. f_equal; ring. Qed.
Lemma vneg_y : vneg unit_y = V3 0 (-1) 0. Proof. unfold vneg, unit_y. cbn. f_equal; ring. Qed.
Lemma frames_args i f : frames_ok i f -> make_frames (Some (i, f)) = Ok (i, f).
Proof.
  intros [A B]. unfold make_frames. destruct (frame_is_null i) eqn:I, (frame_is_null f) eqn:F; try reflexivity; exfalso.
  - apply frame_is_null_eq in I. apply A in I. subst. rewrite frame_is_null_null in F. discriminate.
  - apply frame_is_null_eq in F. apply B in F. subst. rewrite frame_is_null_null in I. discriminate.
Qed.
Definition four (i f : frame) : list se3 := firstn 4 (circle_list i f 0 0 0 1).
Lemma circle_points_is i f : frames_ok i f -> circle_points i f = Ok (four i f).
Proof.
  intro FO. unfold circle_points. unfold se3_of_translation, se3_make. rewrite (frames_args i f FO). cbn [obind so3_identity so3_of_matrix so3_of_angle_axis make_frames].
  unfold four, circle_list, circle_pose, unframed, so3_set_unframed. cbn [firstn rotation_matrix]. rewrite !turn_yaw, vneg_x, vneg_y. unfold unit_x, unit_y.
  repeat f_equal; ring.
Qed.
Lemma four_curve i f : frames_ok i f -> exists k, dc_make (four i f) = Ok k /\ map ref_from_control (d_control_pts k) = four i f /\ dc_length k = Ok (3 * PI / 2) /\
  forall a, 0 <= a <= 3 * PI / 2 -> exists g, dc_point_at k a = Ok (Some g) /\ posed (/ 10^23 * a) (yaw a) (V3 (cos a) (sin a) 0) i f g.
Proof.
  intro FO. pose proof (circle_in i f 0 0 0 1 FO) as In5. pose proof (circle_on i f 0 0 0 1) as On5.
  assert (I4 : Forall (in_frames i f) (four i f)).
  { unfold four. rewrite <- (firstn_skipn 4) in In5. apply Forall_app in In5. apply In5. }
  assert (O4 : Forall2 (on_screw mid (V3 (1 * (1 + 0)) (1 * 0) (1 * 0)) unit_z (V3 0 1 0)) [0; PI / 2; PI; 3 * (PI / 2)] (four i f)).
  { unfold quarters, circle_list in On5. unfold four, circle_list. cbn [firstn]. inversion On5 as [|? ? ? ? P1 R1]; subst. inversion R1 as [|? ? ? ? P2 R2]; subst. inversion R2 as [|? ? ? ? P3 R3]; subst. inversion R3 as [|? ? ? ? P4 R4]; subst.
    apply Forall2_cons; [exact P1|]. apply Forall2_cons; [exact P2|]. apply Forall2_cons; [exact P3|]. apply Forall2_cons; [exact P4|]. apply Forall2_nil. }
  destruct (framed_curve i f _ I4) as (k & Ek & B & R). exists k. split; [exact Ek|]. split; [exact R|]. rewrite <- R in O4, I4.
  assert (N1 : norm (V3 0 1 0) = 1) by (rewrite norm_y; apply Rabs_R1).
  assert (N0 : 0 < norm (V3 0 1 0)) by (rewrite N1; lra). destruct (steady_curve k mid _ unit_z (V3 0 1 0) [0; PI / 2; PI; 3 * (PI / 2)] B rot_mid N0 eq_refl O4) as (_ & L & Q).
  { intros x y H. apply quarter_good; [exact norm_unit_z|]. cbn [consecutive quarters In] in *. tauto. }
  split; [rewrite L, N1; cbn [last]; f_equal; field|]. intros a Ha.
  destruct (Q a) as (g & Eg & Wg & [P1 P2] & _); [cbn [length]; lia|cbn [last]; lra|]. rewrite N1, Rmult_1_r in Eg, P2. exists g. split; [exact Eg|].
  destruct (answer_frames i f k _ g B I4 Eg) as [I1 I2]. rewrite mmul_1_l, mexp_z in P1. split; [exact P1|]. split; [|split; assumption].
  rewrite mvec_1, screw_z in P2. cbn [vx vy vz] in P2. replace (vadd _ _) with (V3 (cos a) (sin a) 0) in P2; [exact P2|]. vsimpl. f_equal; ring.
Qed.
Lemma closed_curve i f : frames_ok i f -> exists g k, nth_error (four i f) 0 = Some g /\ dc_make (four i f ++ [g]) = Ok k /\ dc_length k = Ok (2 * PI) /\
  forall a, 0 <= a <= 2 * PI -> exists h, dc_point_at k a = Ok (Some h) /\ posed (/ 10^23 * a) (yaw a) (V3 (cos a) (sin a) 0) i f h.
Proof.
  intro FO. destruct (circle_curve_ok i f 0 0 0 1 FO ltac:(lra)) as (k & E & L & Q). eexists. exists k. split; [reflexivity|]. split; [exact E|]. rewrite Rabs_R1, Rmult_1_r in L. split; [exact L|].
  intros a Ha. destruct (Q a Ha) as (g & Eg & P). rewrite Rabs_R1, Rmult_1_r in Eg, P. exists g. split; [exact Eg|].
  replace (V3 (1 * (cos a + 0)) (1 * (sin a + 0)) (1 * 0)) with (V3 (cos a) (sin a) 0) in P by (f_equal; ring). exact P.
Qed.
End circle.

(** ** Payloads *)
Definition turns {A} (f : nat -> A) (step n next : nat) : list A := map (fun j => f (next + step * j)%nat) (seq 0 n).
Lemma turns_step {A} (f : nat -> A) step n next : turns f step (Datatypes.S n) next = f next :: turns f step n (next + step).
Proof. unfold turns. cbn [seq map]. f_equal; [f_equal; lia|]. rewrite <- seq_shift, map_map. apply map_ext. intro j. f_equal. lia. Qed.
Lemma turns_nth {A} (f : nat -> A) step n next j a : nth_error (turns f step n next) j = Some a <-> (j < n)%nat /\ a = f (next + step * j)%nat.
Proof.
  unfold turns. rewrite nth_error_map. destruct (Nat.lt_ge_cases j n) as [L|L].
  - rewrite (nth_error_nth' _ 0%nat) by (rewrite seq_length; exact L). rewrite seq_nth by exact L. cbn. split; [intro E; injection E as <-; tauto|]. intros [_ ->]. reflexivity.
  - rewrite (proj2 (nth_error_None _ _)) by (rewrite seq_length; exact L). cbn. split; [discriminate|lia].
Qed.
Lemma turns_length {A} (f : nat -> A) step n next : length (turns f step n next) = n.
Proof. unfold turns. rewrite map_length. apply seq_length. Qed.
Lemma push_ok {A} (make : nat -> outcome (A * nat)) f step : (forall m, make m = Ok (f m, (m + step)%nat)) -> forall n i next l, (i + Z.of_nat n <= INT_MAX)%Z ->
  push_loop make n i next l = Ok (l ++ turns f step n next, (next + step * n)%nat).
Proof.
  intro M. induction n as [|n IH]; intros i next l H; cbn [push_loop].
  - rewrite app_nil_r. do 2 f_equal. lia.
  - rewrite M. cbn [obind]. rewrite (proj2 (Z.eqb_neq _ _)) by lia. rewrite IH by lia. rewrite turns_step, <- app_assoc. do 2 f_equal. lia.
Qed.
Lemma push_ub {A} (make : nat -> outcome (A * nat)) f step : (forall m, make m = Ok (f m, (m + step)%nat)) -> forall n i next l, (i <= INT_MAX)%Z -> (INT_MAX < i + Z.of_nat n)%Z ->
  push_loop make n i next l = UB.
Proof.
  intro M. induction n as [|n IH]; intros i next l H K; cbn [push_loop]; [lia|]. rewrite M. cbn [obind]. destruct (Z.eqb_spec i INT_MAX); [reflexivity|]. apply IH; lia.
Qed.
(** A loop over [count] turns, after the check. *)
Lemma checked_loop {A} (make : nat -> outcome (A * nat)) f step next : (forall m, make m = Ok (f m, (m + step)%nat)) ->
  let call := fun count => let* _ := reassert (min_test_elements <=? count)%Z in push_loop make (Z.to_nat count) 0 next [] in
  limits call /\ forall count, (7 <= count < 2 ^ 31)%Z -> call count = Ok (turns f step (Z.to_nat count) next, (next + step * Z.to_nat count)%nat).
Proof.
  intro M. cbn zeta. unfold limits, min_test_elements. split; [split|]; intros count H.
  - rewrite (proj2 (Z.leb_gt _ _)) by lia. reflexivity.
  - rewrite (proj2 (Z.leb_le _ _)) by lia. cbn [reassert obind]. apply (push_ub make f step M); unfold INT_MAX; lia.
  - rewrite (proj2 (Z.leb_le _ _)) by lia. cbn [reassert obind]. rewrite (push_ok make f step M) by (unfold INT_MAX; lia). reflexivity.
Qed.
Lemma frames_payload ids next : limits (fun count => payload_frames ids count next) /\
  forall count, (7 <= count < 2 ^ 31)%Z -> payload_frames ids count next = Ok (turns ids 1 (Z.to_nat count) next, (next + Z.to_nat count)%nat).
Proof.
  destruct (checked_loop (fun n => Ok (new_frame ids n)) ids 1 next) as [A B].
  { intro m. unfold new_frame. do 2 f_equal. lia. }
  split; [exact A|]. intros count H. unfold payload_frames. rewrite (B count H). do 2 f_equal. lia.
Qed.
Lemma push_poses_is {G} ids framed_ : (forall n, ids n <> null_frame) -> forall (elements : list (framed G)) next l,
  push_poses ids framed_ elements next l =
    Ok (l ++ map (fun '(j, g) => if framed_ then Framed (f_value g) (ids (next + 2 * j + 1)%nat) (ids (next + 2 * j)%nat) else no_frames (f_value g)) (combine (seq 0 (length elements)) elements),
        (next + (if framed_ then 2 * length elements else 0))%nat).
Proof.
  intro N. induction elements as [|g elements IH]; intros next l; cbn [push_poses length seq combine map].
  - rewrite app_nil_r. do 2 f_equal. destruct framed_; lia.
  - destruct framed_.
    + cbn [new_frame]. rewrite set_ok by apply N. cbn [obind]. rewrite IH, <- app_assoc. cbn [app]. replace (next + 2 * 0 + 1)%nat with (Datatypes.S next) by lia. replace (next + 2 * 0)%nat with next by lia.
      do 2 f_equal; [|lia]. f_equal. f_equal. rewrite <- seq_shift. clear. generalize (seq 0 (length elements)). intro q. revert elements. induction q as [|j q IH]; intros [|g elements]; cbn [map combine]; try reflexivity. rewrite IH.
      f_equal. f_equal; f_equal; lia.
    + cbn [obind]. rewrite IH, <- app_assoc. cbn [app]. do 2 f_equal. f_equal. f_equal. rewrite <- seq_shift. clear. generalize (seq 0 (length elements)). intro q. revert elements. induction q as [|j q IH]; intros [|g elements]; cbn [map combine]; try reflexivity. rewrite IH. reflexivity.
Qed.
Lemma combine_nth {A} (l : list A) : forall j a n, nth_error l j = Some a -> nth_error (combine (seq n (length l)) l) j = Some ((n + j)%nat, a).
Proof.
  induction l as [|b l IH]; intros [|j] a n E; try discriminate; cbn [length seq combine nth_error] in *.
  - injection E as ->. do 2 f_equal. lia.
  - rewrite (IH j a (Datatypes.S n) E). do 2 f_equal. lia.
Qed.
Lemma poses_payload {S G V} (k : kind S V) (exp : V -> G) x s ids framed_ next : (forall n, ids n <> null_frame) ->
  limits (fun count => payload_poses k exp x s ids count framed_ next) /\
  forall count, (7 <= count < 2 ^ 31)%Z -> exists els l, make_test_vectors k x s count = Ok els /\ payload_poses k exp x s ids count framed_ next = Ok (l, (next + (if framed_ then 2 * Z.to_nat count else 0))%nat) /\
    Z.of_nat (length els) = count /\ Z.of_nat (length l) = count /\ forall j v, nth_error els j = Some v ->
    nth_error l j = Some (if framed_ then Framed (exp v) (ids (next + 2 * j + 1)%nat) (ids (next + 2 * j)%nat) else Framed (exp v) null_frame null_frame).
Proof.
  intro N. unfold limits, payload_poses, make_test_group_elements, min_test_elements. split; [split|]; intros count H.
  - rewrite (proj2 (Z.leb_gt _ _)) by lia. reflexivity.
  - rewrite (proj2 (Z.leb_le _ _)) by lia. cbn [reassert obind]. rewrite (proj2 (proj2 (counts k x s count))) by lia. reflexivity.
  - rewrite (proj2 (Z.leb_le _ _)) by lia. cbn [reassert obind]. destruct (proj1 (proj2 (counts k x s count)) H) as (els & E & L). exists els. eexists. split; [exact E|]. rewrite E. cbn [obind]. rewrite push_poses_is by exact N. rewrite map_length.
    replace (Z.to_nat count) with (length els) by lia. split; [reflexivity|]. split; [exact L|]. cbn [app]. split; [rewrite map_length, combine_length, seq_length, map_length; lia|].
    intros j v J. assert (J' : nth_error (map (fun a => no_frames (exp a)) els) j = Some (no_frames (exp v))) by (rewrite nth_error_map, J; reflexivity).
    rewrite nth_error_map. rewrite <- (map_length (fun a => no_frames (exp a)) els). rewrite (combine_nth _ j _ 0 J'). cbn. destruct framed_; reflexivity.
Qed.
Lemma d_curves_payload r p : r <> null_frame -> p <> null_frame -> limits (fun count => payload_d_curves r p count true) /\ limits (fun count => payload_d_curves r p count false) /\
  exists k k0, dc_make (four r p) = Ok k /\ dc_make (four null_frame null_frame) = Ok k0 /\ forall count, (7 <= count < 2 ^ 31)%Z ->
    payload_d_curves r p count true = Ok (repeat k (Z.to_nat count)) /\ payload_d_curves r p count false = Ok (dc_empty :: repeat k0 (Z.to_nat count - 1)).
Proof.
  intros R P. assert (FO : frames_ok r p) by (unfold frames_ok; tauto). assert (FN : frames_ok null_frame null_frame) by (unfold frames_ok; tauto).
  destruct (four_curve r p FO) as (k & K & _). destruct (four_curve _ _ FN) as (k0 & K0 & _).
  assert (U : forall (c : dcurve) n next, turns (fun _ => c) 0 n next = repeat c n).
  { intros c n next. unfold turns. rewrite <- (seq_length n 0) at 2. generalize (seq 0 n). induction l as [|j l IH]; cbn; [reflexivity|]. rewrite IH. reflexivity. }
  assert (W : forall framed_ : bool, let c := if framed_ then k else k0 in
    let make := fun next : nat => let* points := if framed_ then circle_points r p else circle_points null_frame null_frame in let* curve := dc_make points in Ok (curve, next) in
    limits (fun count => let* _ := reassert (min_test_elements <=? count)%Z in push_loop make (Z.to_nat count) 0 0%nat []) /\
    forall count, (7 <= count < 2 ^ 31)%Z -> (let* _ := reassert (min_test_elements <=? count)%Z in push_loop make (Z.to_nat count) 0 0%nat []) = Ok (repeat c (Z.to_nat count), 0%nat)).
  { intro framed_. cbn zeta. set (c := if framed_ then k else k0).
    destruct (checked_loop (fun next : nat => let* points := if framed_ then circle_points r p else circle_points null_frame null_frame in let* curve := dc_make points in Ok (curve, next)) (fun _ => c) 0 0) as [A B].
    - intro m. destruct framed_; rewrite circle_points_is by assumption; cbn [obind]; [rewrite K|rewrite K0]; cbn [obind]; do 2 f_equal; lia.
    - split; [exact A|]. intros count H. rewrite (B count H), U. reflexivity. }
  destruct (W true) as [A1 B1]. destruct (W false) as [A2 B2]. clear W. cbn zeta in *.
  assert (D : forall framed_ count, payload_d_curves r p count framed_ =
    let* (d, _) := (let* _ := reassert (min_test_elements <=? count)%Z in push_loop (fun next : nat => let* points := if framed_ then circle_points r p else circle_points null_frame null_frame in let* curve := dc_make points in Ok (curve, next)) (Z.to_nat count) 0 0%nat []) in
    if negb framed_ then assign_front d dc_empty else Ok d).
  { intros framed_ count. unfold payload_d_curves. destruct (reassert (min_test_elements <=? count)%Z); reflexivity. }
  split; [|split].
  - destruct A1 as [X Y]. split; intros count H; rewrite D; [rewrite (X count H)|rewrite (Y count H)]; reflexivity.
  - destruct A2 as [X Y]. split; intros count H; rewrite D; [rewrite (X count H)|rewrite (Y count H)]; reflexivity.
  - exists k, k0. split; [exact K|]. split; [exact K0|]. intros count H. rewrite !D, (B1 count H), (B2 count H). cbn [obind negb]. split; [reflexivity|].
    replace (Z.to_nat count) with (Datatypes.S (Z.to_nat count - 1)) at 1 by lia. reflexivity.
Qed.
Lemma t_curves_payload ids framed_ next : (forall n, ids n <> null_frame) -> limits (fun count => payload_t_curves ids count framed_ next) /\
  exists k, make_circle_curve (if framed_ then ids next else null_frame) (if framed_ then ids (next + 1)%nat else null_frame) = Ok k /\ forall count, (7 <= count < 2 ^ 31)%Z ->
    payload_t_curves ids count framed_ next = Ok (repeat k (Z.to_nat count), (next + if framed_ then 2 else 0)%nat).
Proof.
  intro N. assert (FO : frames_ok (if framed_ then ids next else null_frame) (if framed_ then ids (next + 1)%nat else null_frame)).
  { destruct framed_; unfold frames_ok; [|tauto]. pose proof (N next). pose proof (N (next + 1)%nat). tauto. }
  destruct (circle_time _ _ FO) as (k & K & _). set (n' := (next + if framed_ then 2 else 0)%nat).
  assert (P : forall count, payload_t_curves ids count framed_ next = let* _ := reassert (min_test_elements <=? count)%Z in
    push_loop (fun m => let* test_curve := make_circle_curve (if framed_ then ids next else null_frame) (if framed_ then ids (next + 1)%nat else null_frame) in Ok (test_curve, m)) (Z.to_nat count) 0 n' []).
  { intro count. unfold payload_t_curves, n'. destruct (reassert _); try reflexivity. cbn [obind]. destruct framed_; cbn [new_frame]; replace (next + 1)%nat with (Datatypes.S next) by lia; [replace (next + 2)%nat with (Datatypes.S (Datatypes.S next)) by lia|replace (next + 0)%nat with next by lia]; reflexivity. }
  destruct (checked_loop (fun m => let* test_curve := make_circle_curve (if framed_ then ids next else null_frame) (if framed_ then ids (next + 1)%nat else null_frame) in Ok (test_curve, m)) (fun _ => k) 0 n') as [[A A'] B].
  { intro m. rewrite K. cbn [obind]. do 2 f_equal. lia. }
  split; [split; intros count H; rewrite P; [apply A, H|apply A', H]|]. exists k. split; [exact K|]. intros count H. rewrite P, (B count H). f_equal. f_equal; [|lia].
  unfold turns. rewrite <- (seq_length (Z.to_nat count) 0) at 2. generalize (seq 0 (Z.to_nat count)). induction l as [|j l IH]; cbn; [reflexivity|]. rewrite IH. reflexivity.
Qed.
Lemma push_traj (c : tcurve se3 tan6) total : (Z.of_nat total <= INT_MAX)%Z -> forall n i l, (Z.to_nat i + n = total)%nat -> (0 <= i)%Z ->
  push_trajectories (repeat c total) n i l = Ok (l ++ repeat (tr_of_curve c 0) n).
Proof.
  intro T. induction n as [|n IH]; intros i l E I; cbn [push_trajectories repeat]; [rewrite app_nil_r; reflexivity|].
  rewrite (nth_error_nth' _ c) by (rewrite repeat_length; lia). rewrite nth_repeat. cbn [obind]. rewrite (proj2 (Z.eqb_neq _ _)) by lia. rewrite IH by lia. rewrite <- app_assoc. reflexivity.
Qed.
Lemma trajectories_payload ids framed_ next : (forall n, ids n <> null_frame) -> limits (fun count => payload_trajectories ids count framed_ next) /\
  exists k, make_circle_curve (ids next) (ids (next + 1)%nat) = Ok k /\ forall count, (7 <= count < 2 ^ 31)%Z ->
    payload_trajectories ids count framed_ next = Ok (repeat (Traj k 0) (Z.to_nat count), (next + 2)%nat).
Proof.
  intro N. destruct (t_curves_payload ids true next N) as ([A A'] & k & K & B). unfold payload_trajectories, limits, min_test_elements. split; [split|exists k; split; [exact K|]]; intros count H.
  - rewrite (proj2 (Z.leb_gt _ _)) by lia. reflexivity.
  - rewrite (A' count H). rewrite (proj2 (Z.leb_le _ _)) by lia. reflexivity.
  - rewrite (B count H). rewrite (proj2 (Z.leb_le _ _)) by lia. cbn [reassert obind]. rewrite push_traj; [reflexivity|unfold INT_MAX; lia|reflexivity|lia].
Qed.
Lemma vectors_payload {S} (draw : source S) s ids framed_ next :
  (forall count, (0 <= count < 2 ^ 31)%Z -> payload_vectors draw s ids count framed_ next = Ok (turns (fun n => (drawn3 draw s 0, ids n)) 1 (Z.to_nat count) next, (next + Z.to_nat count)%nat)) /\
  forall count, (2 ^ 31 <= count)%Z -> payload_vectors draw s ids count framed_ next = UB.
Proof.
  assert (M : forall m, (let '(v, _) := random3 draw s in let '(f, next) := new_frame ids m in Ok ((v, f), next)) = Ok ((fun n => (drawn3 draw s 0, ids n)) m, (m + 1)%nat)).
  { intro m. rewrite random3_draws. cbn [new_frame]. do 2 f_equal. lia. }
  unfold payload_vectors. split; intros count H.
  - rewrite (push_ok _ (fun n => (drawn3 draw s 0, ids n)) 1 M) by (unfold INT_MAX; lia). do 2 f_equal. lia.
  - apply (push_ub _ (fun n => (drawn3 draw s 0, ids n)) 1 M); unfold INT_MAX; lia.
Qed.
