(** Lemmas about the curves and primitives made for the tests of the conversions. *)
From Coq Require Import Reals ZArith Lia Lra List String Bool.
From Flocq Require Import Core BinarySingleNaN.
From Verif Require Import Cpp FloatModel FloatSpec FloatProofs NrmSpec NrmProofs UuidModel GeomModel FrameSpec FrameProofs DriftModel FpsModel StmtModel TvModel TvSpec TvProofs CthModel CthSpec CthProofs.
Import ListNotations.

Fixpoint tick (n : nat) : f64 := match n with O => of_int 0 | Datatypes.S n => fadd (tick n) (of_int 1) end.
Lemma tick_val n : (n <= 1000)%nat -> finite (tick n) /\ val (tick n) = INR n.
Proof.
  induction n as [|n IH]; intro L.
  - cbn [tick INR]. apply (of_small 0). lia.
  - destruct IH as [F E]; [lia|]. destruct (of_small 1) as [F1 E1]; [lia|]. cbn [tick]. rewrite S_INR.
    assert (X : (val (tick n) + val (of_int 1) = IZR (Z.of_nat n + 1))%R) by (rewrite E, E1, plus_IZR, <- INR_IZR_INZ; reflexivity).
    destruct (fadd_val (tick n) (of_int 1) F F1) as [A B].
    + rewrite X. apply small_no_overflow. rewrite <- abs_IZR. apply Rle_lt_trans with 1001%R; [apply IZR_le; lia|]. rewrite (pow_IZR 2 1023). apply IZR_lt. reflexivity.
    + split; [exact A|]. rewrite B, X, rd_int by lia. rewrite plus_IZR, <- INR_IZR_INZ. reflexivity.
Qed.
Definition slot {S G V} (k : kind S V) (exp : V -> G) (i f : frame) (s : S) (n : nat) (v : V) : test_control G V :=
  TestControl (tick n) (TestJet (Framed (exp v) i f) (nth_vector k s (2 * n)) (nth_vector k s (2 * n + 1))).
Fixpoint slots {S G V} (k : kind S V) (exp : V -> G) (i f : frame) (s : S) (n : nat) (els : list V) : list (test_control G V) :=
  match els with [] => [] | v :: els => slot k exp i f s n v :: slots k exp i f s (n + 1) els end.
Lemma test_controls_is {S G V} (k : kind S V) (exp : V -> G) i f s : i <> null_frame -> f <> null_frame -> forall els n l,
  test_controls k i f (map (fun v => no_frames (exp v)) els) (tick n) (state_after k s (2 * n)) l = Ok (l ++ slots k exp i f s n els).
Proof.
  intros I F. induction els as [|v els IH]; intros n l; cbn [map test_controls slots]; [rewrite app_nil_r; reflexivity|].
  rewrite set_ok by assumption. cbn [obind no_frames f_value].
  destruct (k_random k (state_after k s (2 * n))) as [a s1] eqn:A. destruct (k_random k s1) as [b s2] eqn:B.
  assert (S1 : s1 = state_after k s (2 * n + 1)) by (replace (2 * n + 1)%nat with (Datatypes.S (2 * n)) by lia; rewrite <- state_step, A; reflexivity).
  assert (S2 : s2 = state_after k s (2 * (n + 1))) by (replace (2 * (n + 1))%nat with (Datatypes.S (2 * n + 1)) by lia; rewrite <- state_step, <- S1, B; reflexivity).
  assert (VA : a = nth_vector k s (2 * n)) by (unfold nth_vector; rewrite A; reflexivity). assert (VB : b = nth_vector k s (2 * n + 1)) by (unfold nth_vector; rewrite <- S1, B; reflexivity).
  change (fadd (tick n) (of_int 1)) with (tick (Datatypes.S n)). replace (Datatypes.S n) with (n + 1)%nat by lia. rewrite S2, IH, <- app_assoc, VA, VB. reflexivity.
Qed.
Lemma slots_nth {S G V} (k : kind S V) (exp : V -> G) i f s : forall els n j v, nth_error els j = Some v -> nth_error (slots k exp i f s n els) j = Some (slot k exp i f s (n + j) v).
Proof.
  induction els as [|u els IH]; intros n [|j] v E; try discriminate; cbn [slots nth_error] in *.
  - injection E as ->. do 2 f_equal. lia.
  - rewrite (IH _ _ _ E). do 2 f_equal. lia.
Qed.
Lemma slots_length {S G V} (k : kind S V) (exp : V -> G) i f s : forall els n, length (slots k exp i f s n els) = length els.
Proof. induction els as [|v els IH]; intro n; cbn [slots length]; [reflexivity|]. rewrite IH. reflexivity. Qed.
Lemma appends_slots {S G V} (k : kind S V) (exp : V -> G) i f s : forall els n c, (n + length els <= 1000)%nat -> ends_in i f c ->
  match last_time c with None => True | Some t => (0 < n)%nat /\ t = tick (n - 1) end -> t_appends c (slots k exp i f s n els) = Ok (c ++ slots k exp i f s n els).
Proof.
  induction els as [|v els IH]; intros n c N E L; cbn [slots t_appends length] in *; [rewrite app_nil_r; reflexivity|].
  destruct (append_one i f c (slot k exp i f s n v) E) as (A & B & D); [reflexivity|reflexivity|]. rewrite A.
  assert (X : match last_time c with None => true | Some q => flt q (t_time (slot k exp i f s n v)) end = true).
  { destruct (last_time c) as [q|]; [|reflexivity]. destruct L as [P ->]. cbn [slot t_time]. destruct (tick_val (n - 1)) as [F1 V1]; [lia|]. destruct (tick_val n) as [F2 V2]; [lia|]. apply flt_val; [exact F1|exact F2|]. rewrite V1, V2. apply lt_INR. lia. }
  rewrite X. cbn [obind]. rewrite IH; [rewrite <- app_assoc; reflexivity|lia|exact B|]. rewrite D. cbn [slot t_time]. split; [lia|]. f_equal. lia.
Qed.
Lemma test_curve_ok {S G V} (k : kind S V) (exp : V -> G) x s0 s ids next : (forall n, ids n <> null_frame) ->
  exists els c, make_test_vectors k x s0 10 = Ok els /\ length els = 10%nat /\ generate_test_t_curve k exp x s0 s ids next = Ok (c, (next + 2)%nat) /\ length c = 10%nat /\
  forall j v, nth_error els j = Some v -> exists t, nth_error c j = Some (TestControl t (TestJet (Framed (exp v) (ids next) (ids (next + 1)%nat)) (nth_vector k s (2 * j)) (nth_vector k s (2 * j + 1)))) /\ finite t /\ val t = INR j.
Proof.
  intro N. destruct (proj1 (proj2 (counts k x s0 10))) as (els & E & L); [lia|]. exists els, (slots k exp (ids next) (ids (next + 1)%nat) s 0 els).
  split; [exact E|]. split; [lia|]. split.
  - unfold generate_test_t_curve, make_test_group_elements, num_group_points. rewrite E. cbn [obind new_frame]. replace (next + 1)%nat with (Datatypes.S next) by lia.
    pose proof (test_controls_is k exp (ids next) (ids (Datatypes.S next)) s (N _) (N _) els 0 []) as T. change (state_after k s (2 * 0)) with s in T. cbn [tick app] in T. rewrite T. cbn [obind].
    rewrite (appends_slots k exp (ids next) (ids (Datatypes.S next)) s els 0 []) by (lia || exact I). cbn [obind app]. do 2 f_equal. lia.
  - split; [rewrite slots_length; lia|]. intros j v J. exists (tick j). split; [rewrite (slots_nth _ _ _ _ _ _ _ _ _ J); reflexivity|]. apply tick_val.
    assert (j < length els)%nat by (apply nth_error_Some; rewrite J; discriminate). lia.
Qed.
Lemma pose_object {S G V} (k : kind S V) (exp : V -> G) s ids next : (forall n, ids n <> null_frame) ->
  test_object_pose k exp s ids next = Ok (Framed (exp (nth_vector k s 0)) (ids next) (ids (next + 1)%nat), (next + 2)%nat).
Proof.
  intro N. unfold test_object_pose, nth_vector. cbn [new_frame state_after]. destruct (k_random k s) as [v s1]. cbn [fst]. rewrite with_ok; [|unfold frames_ok; pose proof (N next); pose proof (N (Datatypes.S next)); tauto].
  cbn [obind]. replace (next + 1)%nat with (Datatypes.S next) by lia. do 2 f_equal. lia.
Qed.
