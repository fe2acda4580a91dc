(** Time curves of poses: making them, control points, times that are no numbers, and a case. *)
From Coq Require Import Reals Lra Lia List.
From Flocq Require Import Core BinarySingleNaN.
From Verif Require Import Cpp Vec RotSpec RotProofs FloatModel FloatSpec FloatProofs NrmModel NrmSpec NrmProofs DriftModel DriftSpec DriftProofs SpinModel SpinSpec SpinProofs2 QfModel TlogModel TlogProofs6 FtsModel FtsSpec FtsProofs5 FtcModel FtcSpec FtcProofs FtcProofs3 FtcProofs4 FtcProofs5 FpsModel FpsSpec FpsProofs7 FpcModel FpcSpec FpcProofs FpcProofs3 FpcProofs4.
Import ListNotations.
Local Open Scope R_scope.

Lemma pmakes fs : let ordered := forall i f g, follow fs i f g -> ~ not_a_number (fptime f) /\ ~ not_a_number (fptime g) /\ NrmSpec.place (fptime f) < NrmSpec.place (fptime g) in
  (ordered -> exists c, fp_make fs = Ok c) /\ (~ ordered -> fp_make fs = Throw).
Proof.
  cbv zeta. destruct (pmade_shape fs) as (A & B & N). split.
  - intro H. eexists. apply B. intros i f g F. destruct (H i f g F) as (F1 & F2 & L). apply flt_place; assumption.
  - intro H. destruct (fp_make fs) as [c| |] eqn:E; [|reflexivity|congruence]. destruct H. destruct (A c eq_refl) as [_ I]. intros i f g F. pose proof (I i f g F) as T. destruct (flt_not_nan _ _ T) as [F1 F2]. split; [exact F1|]. split; [exact F2|]. apply flt_place; assumption.
Qed.

Lemma pin_range cs a i : pproper cs -> nth_error cs i = Some a -> exists first last, pfrom_to cs first last /\ first <= pat_time a <= last.
Proof.
  intros (L & R & T) A. destruct (nth_error cs 0) as [x|] eqn:X; [|apply nth_error_None in X; lia]. destruct (nth_error cs (length cs - 1)) as [y|] eqn:Y; [|apply nth_error_None in Y; lia].
  assert (M : forall j k b c, nth_error cs j = Some b -> nth_error cs (k + j) = Some c -> pat_time b <= pat_time c).
  { intros j k. induction k as [|k IH]; intros b c B C; [cbn in C; assert (b = c) by congruence; subst; lra|].
    assert (K : (S k + j < length cs)%nat) by (apply nth_error_Some; congruence). destruct (nth_error cs (k + j)) as [z|] eqn:Z; [|apply nth_error_None in Z; lia]. destruct (T _ z c (conj Z C)) as [H _]. pose proof (IH b z B eq_refl). lra. }
  exists (pat_time x), (pat_time y). split; [split; [exists x; auto|exists y; auto]|]. assert (I : (i < length cs)%nat) by (apply nth_error_Some; congruence). split.
  - apply (M 0%nat i x a X). rewrite Nat.add_0_r. exact A.
  - apply (M i (length cs - 1 - i)%nat a y A). replace (length cs - 1 - i + i)%nat with (length cs - 1)%nat by lia. exact Y.
Qed.
Lemma pcontrols_back e m r fs cs c i g a : 0 <= e -> u <= m -> / 2 ^ 400 <= r <= 2 ^ 200 -> (1 + m) * (e + 105 * u) <= / 10 ^ 5 -> pproper cs -> all_pstored e m r fs cs -> fp_make fs = Ok c -> nth_error fs i = Some g -> nth_error cs i = Some a ->
  (exists f, fp_point_at c (fptime g) (Ok f)) /\
  forall result, fp_point_at c (fptime g) result -> exists f j p q, result = Ok f /\ follow cs j p q /\ pat_time p <= pat_time a <= pat_time q /\ let d := pat_time q - pat_time p in
    pjet_within (79 * ((1 + m) * (e + 105 * u))) (341 * ((1 + m) ^ 2 * (e + 105 * u)) / d) (2565 * ((1 + m) ^ 3 * (e + 105 * u)) / (d * d))
      (576 * ((1 + m) ^ 2 * (e + 105 * u)) * r) (1781 * ((1 + m) ^ 3 * (e + 105 * u)) * r / d) (14620 * ((1 + m) ^ 4 * (e + 105 * u)) * r / (d * d)) f (pat_flight a).
Proof.
  intros E M Hr X Pr S MK G A. pose proof Pr as (L & _). destruct (pstored_at e m r fs cs i g a L S G A) as [F V]. destruct (pin_range cs a i Pr A) as (x & y & FT & R). rewrite <- V in R.
  destruct (journey_answers e m r fs cs c (fptime g) x y E M Hr X Pr S MK F FT R) as [Ex H]. split; [exact Ex|]. intros result P. rewrite <- V. apply (H result (pat_flight a) P).
  destruct (the_journey cs x y Pr FT) as (p & PC & PE & _). apply PC. split; [exact R|]. rewrite V. symmetry. apply PE, (nth_error_In _ _ A).
Qed.

(** ** Times that are no numbers *)
Definition no_part (v : ftan) : Prop := no_numbers (frot_part v) /\ no_numbers (ftrans_part v).
Lemma no_part_add v w : no_part v -> no_part (ftadd v w).
Proof. intros [A B]. split; apply none_add; assumption. Qed.
Lemma no_part_scale v : no_part (ftscale B754_nan v).
Proof. split; apply none_scale. Qed.
Lemma no_part_times v k : no_part v -> no_part (fttimes v k).
Proof. intros [A B]. split; apply none_times; assumption. Qed.
Lemma pnan_query fs c : (2 <= length fs)%nat -> fp_make fs = Ok c -> (exists f, fp_point_at c B754_nan (Ok f)) /\
  forall result, fp_point_at c B754_nan result -> exists f, result = Ok f /\ (no_numbers (frot_part (pd f)) /\ no_numbers (ftrans_part (pd f))) /\ no_numbers (frot_part (pd2 f)) /\ no_numbers (ftrans_part (pd2 f)).
Proof.
  intros L MK. destruct (proj1 (pmade_shape fs) c MK) as [-> _]. unfold fp_point_at. rewrite plookup_same. destruct (point_at_nan (map fptime fs)) as (x & y & X & Y & ->); [rewrite map_length; exact L|]. cbn [in_segment inv_dt time_nrm].
  destruct fs as [|a [|b fs]]; try (cbn in L; lia). cbn [psegs map combine tl nth_error].
  split.
  - destruct (some_pose_point (fporig (pseg_of (a, b))) (fpdest (pseg_of (a, b))) B754_nan) as [f F]. eexists. exists f. split; [exact F|reflexivity].
  - intros result (f & F & ->). eexists. split; [reflexivity|]. destruct F as (inv & dfo & w0 & v0 & p1 & p2 & p3 & p4 & p5 & _ & _ & _ & _ & _ & _ & _ & (m & _ & M) & _ & D1 & D2). destruct M as (_ & (w & _ & W) & (w2 & w' & _ & _ & W2)). cbn [pd pd2] in W, W2. destruct nan_coeffs as [N1 N2]. rewrite N1 in W, W2. rewrite N2 in W2.
    unfold fpunnormalize. cbn [pd pd2]. split; [apply (no_part_times (pd f)); rewrite D1, W; apply no_part_add, no_part_scale|apply (no_part_times (fttimes (pd2 f) _)), no_part_times; rewrite D2, W2; apply no_part_add, no_part_add, no_part_scale].
Qed.

(** ** A case *)
Lemma pcurve_case : exists fs cs c, pproper cs /\ pfrom_to cs 0 3 /\ all_pstored (63 * u) 12 6 fs cs /\ (1 + 12) * (63 * u + 105 * u) <= / 10 ^ 5 /\ u <= 12 /\ / 2 ^ 400 <= 6 <= 2 ^ 200 /\ fp_make fs = Ok c /\
  map pat_time cs = [0; 2; 3] /\ (exists a b, cs = [a; b; PControl 3 (pat_flight b)] /\ place (pat_flight a) = V3 1 2 (-1) /\ slide (pat_flight a) = V3 4 (-3) 0 /\ surge (pat_flight b) = V3 0 9 2) /\
  finite (of_int 1) /\ val (of_int 1) = 1 /\ (exists f p, fp_point_at c (of_int 1) (Ok f) /\ on_journey cs 1 p) /\ map fptime fs = [of_int 0; of_int 2; of_int 3] /\
  576 * ((1 + 12) ^ 2 * (63 * u + 105 * u)) * 6 <= 2 / 10 ^ 8 /\ 1781 * ((1 + 12) ^ 3 * (63 * u + 105 * u)) * 6 <= 5 / 10 ^ 7 /\ 14620 * ((1 + 12) ^ 4 * (63 * u + 105 * u)) * 6 <= 5 / 10 ^ 5.
Proof.
  destruct pose_segment_case as (fo & fd & orig & dest & _ & O & D & _ & _ & _ & _ & _ & R & N & P1 & _ & S1 & _ & S2 & _).
  set (fs := [FPControl (of_int 0) fo; FPControl (of_int 2) fd; FPControl (of_int 3) fd]). set (cs := [PControl 0 orig; PControl 2 dest; PControl 3 dest]).
  assert (Pr : pproper cs).
  { split; [cbn; lia|]. destruct O as ((((_ & O & _) & _) & _) & _). destruct D as ((((_ & D & _) & _) & _) & _). cbn [fst snd] in O, D. split; [repeat (apply Forall_cons; [assumption|]); apply Forall_nil|]. intros i a b [A B]. destruct i as [|[|[|i]]]; cbn in A, B; try discriminate; injection A as <-; injection B as <-; cbn [pat_time pat_flight].
    - split; [lra|]. exists (V3 1 2 2). split; [exact R|rewrite N; lra].
    - split; [lra|]. exists vzero. split; [left; split; [reflexivity|apply rot_mtrans_r, D]|]. unfold norm, norm2, dot, vzero. cbn [vx vy vz]. replace (_ + _) with 0 by ring. rewrite sqrt_0. lra. }
  assert (T : forall n, (Z.abs n <= 3)%Z -> finite (of_int n) /\ val (of_int n) = IZR n). { intros n H. destruct (of_small n) as (F & V); [lia|]. auto. }
  assert (W : forall d f x n, (d = 1 \/ d = 2) -> pose_end_near (63 * u) 3 6 f x -> (Z.abs n <= 3)%Z -> pstored (63 * u) 12 6 d (FPControl (of_int n) f) (PControl (IZR n) x)).
  { intros d f x n Hd (((J0 & (J1 & K1) & (J2 & K2)) & (J3 & K3) & (J4 & K4) & (J5 & K5)) & N1 & N2 & N3 & N4 & N5) Hn. destruct (T n Hn) as [F V]. assert (U : 0 < u) by (rewrite u_num; lra).
    split; [exact F|]. split; [exact V|]. cbn [fppoint pat_flight]. split; [split; [split; [exact J0|split; split]|split; [|split]; split]|repeat split]; try assumption; destruct Hd; subst d; lra. }
  assert (St : all_pstored (63 * u) 12 6 fs cs).
  { assert (P2 : 2 <= 2 ^ 100) by (apply Rle_trans with (2 ^ 1); [simpl; lra|apply Rle_pow; [lra|lia]]). assert (P3 : forall d, d = 1 \/ d = 2 -> / 2 ^ 100 <= d <= 2 ^ 100).
    { generalize (2 ^ 100) P2. intros P HP d Hd. assert (/ P <= 1) by (rewrite <- Rinv_1; apply Rinv_le; lra). destruct Hd; subst d; lra. }
    clear P2. split; [reflexivity|]. intros i f g a b [F G] [A B]. destruct i as [|[|[|i]]]; cbn in A, B, F, G; try discriminate; injection A as <-; injection B as <-; injection F as <-; injection G as <-; cbn [pat_time]; cbv zeta.
    - assert (Z : 2 - 0 = 1 \/ 2 - 0 = 2) by (right; ring). split; [exact (P3 _ Z)|]. split; [apply (W _ _ _ 0%Z Z O)|apply (W _ _ _ 2%Z Z D)]; lia.
    - assert (Z : 3 - 2 = 1 \/ 3 - 2 = 2) by (left; ring). split; [exact (P3 _ Z)|]. split; [apply (W _ _ _ 2%Z Z D)|apply (W _ _ _ 3%Z Z D)]; lia. }
  assert (FT' : pfrom_to cs 0 3) by (split; eexists; split; reflexivity).
  destruct (T 1%Z ltac:(lia)) as [F1 E1]. pose proof (pstored_increasing _ _ _ _ _ Pr St) as INC. pose proof (proj1 (proj2 (pmade_shape fs)) INC) as MK.
  assert (X : (1 + 12) * (63 * u + 105 * u) <= / 10 ^ 5) by (rewrite u_num; lra). assert (M : u <= 12) by (rewrite u_num; lra). assert (E0 : 0 <= 63 * u) by (rewrite u_num; lra).
  assert (B6 : / 2 ^ 400 <= 6 <= 2 ^ 200). { assert (/ 2 ^ 400 <= 1) by (apply Rle_trans with (/ 1); [apply Rinv_le_contravar; [lra|apply pow_R1_Rle; lra]|lra]). assert (8 <= 2 ^ 200) by (apply Rle_trans with (2 ^ 3); [lra|apply Rle_pow; [lra|lia]]). lra. }
  exists fs, cs, (FPCurve fs (psegs fs)). split; [exact Pr|]. split; [exact FT'|]. split; [exact St|]. split; [exact X|]. split; [exact M|]. split; [exact B6|]. split; [exact MK|].
  split; [reflexivity|]. split; [exists (PControl 0 orig), (PControl 2 dest); cbn [pat_flight]; auto|]. split; [exact F1|]. split; [exact E1|].
  split. { destruct (journey_answers _ _ 6 fs cs _ (of_int 1) 0 3 E0 M B6 X Pr St MK F1 FT' ltac:(lra)) as [[f P] _]. destruct (the_journey cs 0 3 Pr FT') as (p & PC & _). exists f, (p 1). split; [exact P|]. apply PC. split; [lra|reflexivity]. }
  split; [reflexivity|]. rewrite u_num. repeat split; lra.
Qed.
