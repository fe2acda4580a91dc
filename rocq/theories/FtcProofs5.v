(** Time curves of rotations: making them, control points, times that are no numbers, and a case. *)
From Coq Require Import Reals Lra Lia List.
From Flocq Require Import Core BinarySingleNaN.
From Verif Require Import Cpp Vec RotSpec RotProofs FloatModel FloatSpec FloatProofs NrmModel NrmSpec NrmProofs DriftModel DriftSpec DriftProofs SpinModel SpinSpec SpinProofs2 QfModel TlogModel TlogProofs6 FtsModel FtsSpec FtsProofs5 FtcModel FtcSpec FtcProofs FtcProofs3 FtcProofs4.
Import ListNotations.
Local Open Scope R_scope.

Lemma makes fs : let ordered := forall i f g, follow fs i f g -> ~ not_a_number (ftime f) /\ ~ not_a_number (ftime g) /\ place (ftime f) < place (ftime g) in
  (ordered -> exists c, ft_make fs = Ok c) /\ (~ ordered -> ft_make fs = Throw).
Proof.
  cbv zeta. destruct (made_shape fs) as (A & B & N). split.
  - intro H. eexists. apply B. intros i f g F. destruct (H i f g F) as (F1 & F2 & L). apply flt_place; assumption.
  - intro H. destruct (ft_make fs) as [c| |] eqn:E; [|reflexivity|congruence]. destruct H. destruct (A c eq_refl) as [_ I]. intros i f g F. pose proof (I i f g F) as T. destruct (flt_not_nan _ _ T) as [F1 F2]. split; [exact F1|]. split; [exact F2|]. apply flt_place; assumption.
Qed.

Lemma in_range cs a i : proper cs -> nth_error cs i = Some a -> exists first last, from_to cs first last /\ first <= at_time a <= last.
Proof.
  intros (L & R & T) A. destruct (nth_error cs 0) as [x|] eqn:X; [|apply nth_error_None in X; lia]. destruct (nth_error cs (length cs - 1)) as [y|] eqn:Y; [|apply nth_error_None in Y; lia].
  assert (M : forall j k b c, nth_error cs j = Some b -> nth_error cs (k + j) = Some c -> at_time b <= at_time c).
  { intros j k. induction k as [|k IH]; intros b c B C; [cbn in C; assert (b = c) by congruence; subst; lra|].
    assert (K : (S k + j < length cs)%nat) by (apply nth_error_Some; congruence). destruct (nth_error cs (k + j)) as [z|] eqn:Z; [|apply nth_error_None in Z; lia]. destruct (T _ z c (conj Z C)) as [H _]. pose proof (IH b z B eq_refl). lra. }
  exists (at_time x), (at_time y). split; [split; [exists x; auto|exists y; auto]|]. assert (I : (i < length cs)%nat) by (apply nth_error_Some; congruence). split.
  - apply (M 0%nat i x a X). rewrite Nat.add_0_r. exact A.
  - apply (M i (length cs - 1 - i)%nat a y A). replace (length cs - 1 - i + i)%nat with (length cs - 1)%nat by lia. exact Y.
Qed.
Lemma controls_back e m fs cs c i g a : 0 <= e -> u <= m -> (1 + m) * (e + 105 * u) <= / 10 ^ 5 -> proper cs -> all_stored e m fs cs -> ft_make fs = Ok c -> nth_error fs i = Some g -> nth_error cs i = Some a ->
  (exists f, ft_point_at c (ftime g) (Ok f)) /\
  forall result, ft_point_at c (ftime g) result -> exists f j p q, result = Ok f /\ follow cs j p q /\ at_time p <= at_time a <= at_time q /\ let d := at_time q - at_time p in
    jet_within (79 * ((1 + m) * (e + 105 * u))) (341 * ((1 + m) ^ 2 * (e + 105 * u)) / d) (2565 * ((1 + m) ^ 3 * (e + 105 * u)) / (d * d)) f (at_state a).
Proof.
  intros E M X Pr S MK G A. pose proof Pr as (L & _). destruct (stored_at e m fs cs i g a L S G A) as [F V]. destruct (in_range cs a i Pr A) as (x & y & FT & R). rewrite <- V in R.
  destruct (curve_answers e m fs cs c (ftime g) x y E M X Pr S MK F FT R) as [Ex H]. split; [exact Ex|]. intros result P. rewrite <- V. apply (H result (at_state a) P).
  destruct (the_curve cs x y Pr FT) as (p & PC & PE & _). apply PC. split; [exact R|]. rewrite V. symmetry. apply PE, (nth_error_In _ _ A).
Qed.

(** ** Times that are no numbers *)
Lemma add_nan_l x : fadd B754_nan x = B754_nan.
Proof. destruct x; reflexivity. Qed.
Lemma mul_nan_l x : fmul B754_nan x = B754_nan.
Proof. destruct x; reflexivity. Qed.
Lemma none_add v w : no_numbers v -> no_numbers (fvadd v w).
Proof. destruct v as [a b c], w as [a' b' c']. unfold no_numbers, not_a_number, fvadd. cbn [fx fy fz]. intros (-> & -> & ->). rewrite !add_nan_l. auto. Qed.
Lemma none_scale v : no_numbers (fscale B754_nan v).
Proof. destruct v as [a b c]. unfold no_numbers, not_a_number, fscale. cbn [fx fy fz]. rewrite !mul_nan_l. auto. Qed.
Lemma none_times v k : no_numbers v -> no_numbers (ftimes v k).
Proof. destruct v as [a b c]. unfold no_numbers, not_a_number, ftimes. cbn [fx fy fz]. intros (-> & -> & ->). rewrite !mul_nan_l. auto. Qed.
Lemma nan_coeffs : f_da (f_d2_dest B754_nan) = B754_nan /\ f_d2a (f_d2_dest B754_nan) = B754_nan.
Proof. split; apply is_nan_eq; vm_compute; reflexivity. Qed.
Lemma nan_query fs c : (2 <= length fs)%nat -> ft_make fs = Ok c -> (exists f, ft_point_at c B754_nan (Ok f)) /\
  forall result, ft_point_at c B754_nan result -> exists f, result = Ok f /\ no_numbers (jd f) /\ no_numbers (jd2 f).
Proof.
  intros L MK. destruct (proj1 (made_shape fs) c MK) as [-> _]. unfold ft_point_at. rewrite lookup_same. destruct (point_at_nan (map ftime fs)) as (x & y & X & Y & ->); [rewrite map_length; exact L|]. cbn [in_segment inv_dt time_nrm].
  destruct fs as [|a [|b fs]]; try (cbn in L; lia). cbn [segs map combine tl nth_error].
  split.
  - destruct (some_point (forig (seg_of (a, b))) (fdest (seg_of (a, b))) B754_nan) as [f F]. eexists. exists f. split; [exact F|reflexivity].
  - intros result (f & F & ->). eexists. split; [reflexivity|]. destruct F as (dfo & alg & p1 & p2 & p3 & p4 & p5 & _ & _ & _ & _ & _ & _ & (m & _ & M) & _ & D1 & D2). destruct M as (_ & (w & _ & W) & (w2 & w' & _ & _ & W2)). cbn [jd jd2] in W, W2. destruct nan_coeffs as [N1 N2]. rewrite N1 in W, W2. rewrite N2 in W2.
    unfold funnormalize. cbn [jd jd2]. split; [apply none_times; rewrite D1, W; apply none_add, none_scale|apply none_times, none_times; rewrite D2, W2; apply none_add, none_add, none_scale].
Qed.

(** ** A case *)
Lemma tcurve_case : exists fs cs c, proper cs /\ from_to cs 0 3 /\ all_stored (63 * u) 12 fs cs /\ (1 + 12) * (63 * u + 105 * u) <= / 10 ^ 5 /\ u <= 12 /\ ft_make fs = Ok c /\
  map at_time cs = [0; 2; 3] /\ map (fun x => vel (at_state x)) cs = [V3 1 2 2; V3 0 (-3) 0; V3 0 (-3) 0] /\ map (fun x => acc (at_state x)) cs = [V3 0 0 (-1); V3 2 1 0; V3 2 1 0] /\
  finite (of_int 1) /\ val (of_int 1) = 1 /\ (exists f p, ft_point_at c (of_int 1) (Ok f) /\ on_tcurve cs 1 p) /\ map ftime fs = [of_int 0; of_int 2; of_int 3] /\
  79 * ((1 + 12) * (63 * u + 105 * u)) <= 2 / 10 ^ 11 /\ 341 * ((1 + 12) ^ 2 * (63 * u + 105 * u)) <= 2 / 10 ^ 9 /\ 2565 * ((1 + 12) ^ 3 * (63 * u + 105 * u)) <= 2 / 10 ^ 7.
Proof.
  destruct segment_case as (fo & fd & orig & dest & _ & (O & _) & (D & _) & _ & _ & _ & _ & R & N & V1 & A1 & V2 & A2 & _).
  set (fs := [FTControl (of_int 0) fo; FTControl (of_int 2) fd; FTControl (of_int 3) fd]). set (cs := [Control 0 orig; Control 2 dest; Control 3 dest]).
  assert (Pr : proper cs).
  { split; [cbn; lia|]. destruct O as ((_ & O & _) & _). destruct D as ((_ & D & _) & _). cbn [fst snd] in O, D. split; [repeat (apply Forall_cons; [assumption|]); apply Forall_nil|]. intros i a b [A B]. destruct i as [|[|[|i]]]; cbn in A, B; try discriminate; injection A as <-; injection B as <-; cbn [at_time at_state].
    - split; [lra|]. exists (V3 1 2 2). split; [exact R|rewrite N; lra].
    - split; [lra|]. exists vzero. split; [left; split; [reflexivity|apply rot_mtrans_r, D]|]. unfold norm, norm2, dot, vzero. cbn [vx vy vz]. replace (_ + _) with 0 by ring. rewrite sqrt_0. lra. }
  assert (T : forall n, (Z.abs n <= 3)%Z -> finite (of_int n) /\ val (of_int n) = IZR n). { intros n H. destruct (of_small n) as (F & V); [lia|]. auto. }
  assert (L : forall v k, (dot v v <= k * k) -> 0 <= k -> norm v <= k). { intros v k H K. unfold norm, norm2. rewrite <- (sqrt_square k K). apply sqrt_le_1_alt. exact H. }
  assert (W : forall d f x v a n, (d = 1 \/ d = 2) -> jet_within (63 * u) (63 * u * 3) (63 * u * 3) f x -> vel x = v -> acc x = a -> dot v v <= 36 -> dot a a <= 9 -> (Z.abs n <= 3)%Z -> stored (63 * u) 12 d (FTControl (of_int n) f) (Control (IZR n) x)).
  { intros d f x v a n Hd (J0 & (J1 & K1) & (J2 & K2)) Vx Ax Hv Ha Hn. destruct (T n Hn) as [F V]. assert (U : 0 < u) by (rewrite u_num; lra).
    split; [exact F|]. split; [exact V|]. cbn [fpoint at_state]. split; [split; [exact J0|split; split; try assumption; destruct Hd; subst d; lra]|]. rewrite Vx, Ax. split; apply L; destruct Hd; subst d; lra. }
  assert (St : all_stored (63 * u) 12 fs cs).
  { assert (P2 : 2 <= 2 ^ 200) by (apply Rle_trans with (2 ^ 1); [simpl; lra|apply Rle_pow; [lra|lia]]). assert (P3 : forall d, d = 1 \/ d = 2 -> / 2 ^ 200 <= d <= 2 ^ 200).
    { generalize (2 ^ 200) P2. intros P HP d Hd. assert (/ P <= 1) by (rewrite <- Rinv_1; apply Rinv_le; lra). destruct Hd; subst d; lra. }
    clear P2. split; [reflexivity|]. intros i f g a b [F G] [A B]. destruct i as [|[|[|i]]]; cbn in A, B, F, G; try discriminate; injection A as <-; injection B as <-; injection F as <-; injection G as <-; cbn [at_time]; cbv zeta.
    - assert (Z : 2 - 0 = 1 \/ 2 - 0 = 2) by (right; ring). split; [exact (P3 _ Z)|]. split; [apply (W _ _ _ _ _ 0%Z Z O V1 A1)|apply (W _ _ _ _ _ 2%Z Z D V2 A2)]; try lia; unfold dot; cbn [vx vy vz]; lra.
    - assert (Z : 3 - 2 = 1 \/ 3 - 2 = 2) by (left; ring). split; [exact (P3 _ Z)|]. split; [apply (W _ _ _ _ _ 2%Z Z D V2 A2)|apply (W _ _ _ _ _ 3%Z Z D V2 A2)]; try lia; unfold dot; cbn [vx vy vz]; lra. }
  assert (FT : from_to cs 0 3) by (split; eexists; split; reflexivity).
  destruct (T 1%Z ltac:(lia)) as [F1 E1]. pose proof (stored_increasing _ _ _ _ Pr St) as INC. pose proof (proj1 (proj2 (made_shape fs)) INC) as MK.
  assert (X : (1 + 12) * (63 * u + 105 * u) <= / 10 ^ 5) by (rewrite u_num; lra). assert (M : u <= 12) by (rewrite u_num; lra). assert (E0 : 0 <= 63 * u) by (rewrite u_num; lra).
  exists fs, cs, (FTCurve fs (segs fs)). split; [exact Pr|]. split; [exact FT|]. split; [exact St|]. split; [exact X|]. split; [exact M|]. split; [exact MK|].
  split; [reflexivity|]. split; [cbn; rewrite V1, V2; reflexivity|]. split; [cbn; rewrite A1, A2; reflexivity|]. split; [exact F1|]. split; [exact E1|].
  split. { destruct (curve_answers _ _ fs cs _ (of_int 1) 0 3 E0 M X Pr St MK F1 FT ltac:(lra)) as [[f P] _]. destruct (the_curve cs 0 3 Pr FT) as (p & PC & _). exists f, (p 1). split; [exact P|]. apply PC. split; [lra|reflexivity]. }
  split; [reflexivity|]. rewrite u_num. repeat split; lra.
Qed.
