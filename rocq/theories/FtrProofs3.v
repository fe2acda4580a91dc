(** Trajectories near the exact rides. *)
From Coq Require Import Reals Lra Lia List.
From Flocq Require Import Core BinarySingleNaN.
From Verif Require Import Cpp Vec RotSpec GeomModel RotProofs LieProofs FloatModel FloatSpec FloatProofs NrmModel NrmSpec NrmProofs DriftModel DriftSpec DriftProofs SpinModel SpinSpec FdcSpec FdcProofs2 FtsModel FtsSpec FtcModel FtcSpec FtcProofs3 FpsModel FpsSpec FpcModel FpcSpec FpcProofs FpcProofs2 FpcProofs3 FpcProofs4 FpcProofs5 FtrModel FtrSpec FtrProofs FtrProofs2.
Import ListNotations.
Local Open Scope R_scope.

Lemma neg_within d v w : vec_within d v w -> vec_within d (fvneg v) (vneg w).
Proof.
  intros ((F1 & F2 & F3) & D). split; [unfold vfinite, fvneg, fneg, finite; cbn [fx fy fz]; rewrite !is_finite_Bopp; repeat split; assumption|].
  replace (vsub (vval (fvneg v)) (vneg w)) with (vneg (vsub (vval v) w)); [rewrite norm_neg; exact D|]. unfold vval, fvneg, fneg, vneg, vsub, val. cbn [fx fy fz vx vy vz]. rewrite !B2R_Bopp. f_equal; ring.
Qed.
Lemma h_little b : / 2 ^ 400 <= b -> 7 * h <= u * b / 10.
Proof.
  intro B. assert (P : 0 <= 1 <= 2 ^ 100) by (split; [lra|apply pow_R1_Rle; lra]). destruct (h_scaled_b 1 b P B) as (_ & _ & H). assert (0 < / 2 ^ 400) by (apply Rinv_0_lt_compat, pow_lt; lra). assert (U : u <= 1) by (rewrite u_num; lra). pose proof u_pos.
  assert (u * u * b <= u * b). { apply Rmult_le_compat_r; [lra|]. rewrite <- (Rmult_1_r u) at 3. apply Rmult_le_compat_l; lra. } assert (0 <= u * b) by (apply Rmult_le_pos; lra). lra.
Qed.
Lemma left_stored e m b d j x l t s : 0 <= e <= / 10 ^ 5 -> 0 <= m -> / 2 ^ 400 <= b <= 2 ^ 200 -> 0 < d -> ride_stored e m b d j x -> fleft_two_jet j l -> finite t -> val t = s ->
  pstored (3 * e + 7 * u) m b d (FPControl t l) (PControl s (world_of x)).
Proof.
  intros He Hm Hb Hd ((R & S & W & V & W' & V') & N1 & N2 & N3 & N4 & N5) (I & D1 & D2) Ft Vt. pose proof u_pos as Up.
  assert (b0 : 0 < b) by (assert (0 < / 2 ^ 400) by (apply Rinv_0_lt_compat, pow_lt; lra); lra). pose proof (h_little b ltac:(lra)) as H7. assert (ub : 0 < u * b) by (apply Rmult_lt_0_compat; lra).
  assert (eb : 0 <= e * b <= / 10 ^ 5 * b) by (split; [apply Rmult_le_pos; lra|apply Rmult_le_compat_r; lra]). assert (X9 : b + e * b <= 2 ^ 900). { assert (2 * 2 ^ 200 <= 2 ^ 900) by (replace (2 * 2 ^ 200) with (2 ^ 201) by (simpl; ring); apply Rle_pow; [lra|lia]). lra. }
  assert (ID : 0 < / d) by (apply Rinv_0_lt_compat; exact Hd). assert (dd : 0 < d * d) by (apply Rmult_lt_0_compat; exact Hd). assert (ID2 : 0 < / (d * d)) by (apply Rinv_0_lt_compat; exact dd).
  assert (mb : 0 <= m * b) by (apply Rmult_le_pos; lra).
  assert (G : forall k i, 0 <= k -> 0 < i -> e * k * i <= (3 * e + 7 * u) * k * i). { intros k i K J. apply Rmult_le_compat_r; [lra|]. apply Rmult_le_compat_r; lra. }
  pose proof (inverse_within e (e * b) (rf j) (pf l) (facing x) (spot x) (b + e * b) (conj R S) ltac:(lra) ltac:(lra) X9 I) as ((F1 & F2 & F3) & F4 & F5). cbn [fst snd] in *.
  unfold pstored. cbn [fptime fppoint pat_time pat_flight]. split; [exact Ft|]. split; [exact Vt|]. unfold world_of. cbn [spin place slide surge vel acc rot]. rewrite !norm_neg. rewrite rot_norm by apply rot_mtrans, R.
  split; [|split; [exact N1|]; split; [exact N2|]; split; [exact N3|]; split; [exact N4|exact N5]].
  split; [split; [split; [exact F1|split; [exact F2|cbn [fst snd rot jet_turns jf spin] in *; lra]]|]|]; cbn [jet_turns jd jd2 spin vel acc place slide surge fst snd].
  - rewrite D1, D2. cbn [ftneg frot_part]. split; [apply (within_le (e * m / d)); [apply neg_within; exact W|apply G; lra]|apply (within_le (e * m / (d * d))); [apply neg_within; exact W'|apply G; lra]].
  - split; [|rewrite D1, D2; cbn [ftneg ftrans_part]; split; [apply (within_le (e * (m * b) / d)); [apply neg_within; exact V|apply G; lra]|apply (within_le (e * (m * b) / (d * d))); [apply neg_within; exact V'|apply G; lra]]].
    split; [exact F4|]. rewrite <- mvec_vneg. eapply Rle_trans; [exact F5|]. replace ((e + 6 * u) * (b + e * b)) with (e * b + e * (e * b) + 6 * (u * b) + 6 * (u * (e * b))) by ring.
    assert (e * (e * b) <= / 10 ^ 5 * (e * b)) by (apply Rmult_le_compat_r; lra). assert (u * (e * b) <= u * (/ 10 ^ 5 * b)) by (apply Rmult_le_compat_l; lra). replace (u * (/ 10 ^ 5 * b)) with (/ 10 ^ 5 * (u * b)) in * by ring. lra.
Qed.
Lemma right_within e0 e1 e2 d0 d1 d2 P j x r : pjet_within e0 e1 e2 d0 d1 d2 j (world_of x) -> is_rotation (facing x) -> e0 <= 1 / 9 -> norm (spot x) + d0 <= P -> P <= 2 ^ 900 -> fright_two_jet j r ->
  ride_within e0 e1 e2 ((e0 + 6 * u) * P + 7 * h + d0) d1 d2 r x.
Proof.
  intros ((R & W & W') & S & V & V') RX E0 HP HB (I & D1 & D2). unfold world_of in *. cbn [spin place slide surge rot vel acc jet_turns jf jd jd2 fst snd] in *.
  assert (E : mvec (facing x) (vneg (vneg (mvec (mtrans (facing x)) (spot x)))) = spot x) by (rewrite vneg_neg, <- mvec_mmul, rot_mtrans_r, mid_vec by exact RX; reflexivity).
  pose proof (inverse_within e0 d0 (pf j) (rf r) (mtrans (facing x)) (vneg (mvec (mtrans (facing x)) (spot x))) P (conj R S) E0 ltac:(rewrite norm_neg, rot_norm by apply rot_mtrans, RX; exact HP) HB I) as (F1 & F2). cbn [fst snd] in F1, F2. rewrite mtrans_mtrans in F1, F2. rewrite E in F2.
  split; [exact F1|]. split; [exact F2|]. rewrite D1, D2. cbn [ftneg frot_part ftrans_part]. apply neg_within in W, W', V, V'. rewrite vneg_neg in W, W', V, V'. auto.
Qed.
(** The points and what is behind them. *)
Lemma forall2_nth {A B} (P : A -> B -> Prop) l l' : Forall2 P l l' -> length l = length l' /\ forall i a b, nth_error l i = Some a -> nth_error l' i = Some b -> P a b.
Proof.
  induction 1 as [|x y l l' H F [IL IN]]; [split; [reflexivity|intros [|i] a b Q; discriminate Q]|]. split; [cbn; lia|]. intros [|i] a b X Y; cbn in X, Y; [congruence|]. exact (IN i a b X Y).
Qed.
Lemma nth_same {A B} (l : list A) (l' : list B) i b : length l = length l' -> nth_error l' i = Some b -> exists a, nth_error l i = Some a.
Proof. intros L H. destruct (nth_error l i) as [a|] eqn:E; [exists a; reflexivity|]. apply nth_error_None in E. assert (nth_error l' i <> None) by congruence. apply nth_error_Some in H0. lia. Qed.
Lemma stored_moments e m b a ps cs : all_rides_stored e m b (a :: ps) cs -> forall i p c, nth_error (a :: ps) i = Some p -> nth_error cs i = Some c -> in64 (fat_time p - fat_time a) /\ rat_time c = val (as_seconds (fat_time p - fat_time a)).
Proof. intros (_ & T & _) i p c P C. exact (T a i p c eq_refl P C). Qed.
Lemma moments_positive e m b a ps cs : rproper cs -> all_rides_stored e m b (a :: ps) cs -> forall i p, nth_error (a :: ps) i = Some p -> (0 <= fat_time p - fat_time a)%Z.
Proof.
  intros (_ & _ & F) S. pose proof S as (L & _). assert (K : forall i c, nth_error cs i = Some c -> 0 <= rat_time c).
  { induction i as [|i IH]; intros c C.
    - destruct (stored_moments _ _ _ _ _ _ S 0%nat a c eq_refl C) as [_ ->]. rewrite Z.sub_diag, seconds_0. lra.
    - destruct (nth_error cs i) as [c'|] eqn:C'; [|apply nth_error_None in C'; assert (nth_error cs (Datatypes.S i) <> None) as X by congruence; apply nth_error_Some in X; lia]. specialize (IH c' eq_refl). destruct (F i c' c (conj C' C)) as [T _]. lra. }
  intros i p P. destruct (nth_same cs (a :: ps) i p (eq_sym L) P) as [c C]. destruct (stored_moments _ _ _ _ _ _ S i p c P C) as [D V]. specialize (K i c C). destruct (Z_lt_le_dec (fat_time p - fat_time a) 0) as [N|N]; [|exact N].
  apply (proj2 (seconds_sign _ D)) in N. lra.
Qed.
Lemma behind_stored e m b a ps cs fs : 0 <= e <= / 10 ^ 5 -> 0 <= m -> / 2 ^ 400 <= b <= 2 ^ 200 -> rproper cs -> all_rides_stored e m b (a :: ps) cs -> Forall2 (behind (fat_time a)) (a :: ps) fs ->
  all_pstored (3 * e + 7 * u) m b fs (worlds cs).
Proof.
  intros He Hm Hb Pr S B. pose proof S as (L & _ & ST). destruct (forall2_nth _ _ _ B) as [LF FN]. pose proof Pr as (_ & _ & PR). split; [unfold worlds; rewrite map_length; lia|].
  intros i f g x y [Ff Fg] FC. destruct (worlds_follow cs i x y FC) as (c & c' & [C C'] & -> & ->). cbn [pat_time].
  destruct (nth_same (a :: ps) cs i c L C) as [p P]. destruct (nth_same (a :: ps) cs (Datatypes.S i) c' L C') as [p' P']. destruct (stored_moments _ _ _ _ _ _ S i p c P C) as [D V]. destruct (stored_moments _ _ _ _ _ _ S _ p' c' P' C') as [D' V'].
  destruct (FN i p f P Ff) as [Tf Lf]. destruct (FN _ p' g P' Fg) as [Tg Lg]. destruct (PR i c c' (conj C C')) as [T _]. destruct (ST i p p' c c' (conj P P') (conj C C')) as [S1 S2].
  assert (R : / 2 ^ 100 <= rat_time c' - rat_time c <= 2 ^ 100). { rewrite V, V' in *. apply moments_apart; try assumption. exact (moments_positive _ _ _ _ _ _ Pr S i p P). }
  assert (P0 : 0 < / 2 ^ 100) by (apply Rinv_0_lt_compat, pow_lt; lra). split; [exact R|]. destruct f as [tf lf]. destruct g as [tg lg]. cbn [fptime fppoint] in *. subst tf tg.
  split; eapply left_stored; try eassumption; try lra; try apply as_seconds_val; try assumption; symmetry; assumption.
Qed.
(** ** The answer *)
Definition ride_near (e m r d : R) (j : frjet) (x : ride) : Prop :=
  ride_within (79 * ((1 + m) * (3 * e + 112 * u))) (341 * ((1 + m) ^ 2 * (3 * e + 112 * u)) / d) (2565 * ((1 + m) ^ 3 * (3 * e + 112 * u)) / (d * d))
    (1036 * ((1 + m) ^ 2 * (3 * e + 112 * u)) * r) (1781 * ((1 + m) ^ 3 * (3 * e + 112 * u)) * r / d) (14620 * ((1 + m) ^ 4 * (3 * e + 112 * u)) * r / (d * d)) j x.
Lemma position_room K X r : 1 <= K -> K * (112 * u) <= X -> X <= / 10 ^ 5 -> / 2 ^ 400 <= r -> K * r <= 2 ^ 800 ->
  (79 * X + 6 * u) * (58 / 10 * K * r + 576 * (X * K) * r) + 7 * h + 576 * (X * K) * r <= 1036 * (X * K) * r /\ 58 / 10 * K * r + 576 * (X * K) * r <= 2 ^ 900.
Proof.
  intros K1 XL XS Hr HK. pose proof (h_little r Hr) as H7. pose proof u_pos as Up. assert (r0 : 0 < r) by (assert (0 < / 2 ^ 400) by (apply Rinv_0_lt_compat, pow_lt; lra); lra).
  assert (KU : 112 * u <= K * (112 * u)) by (rewrite <- (Rmult_1_l (112 * u)) at 1; apply Rmult_le_compat_r; lra). assert (kr : r <= K * r) by (rewrite <- (Rmult_1_l r) at 1; apply Rmult_le_compat_r; lra).
  set (q := K * r) in *. assert (X0 : 0 < X) by lra. assert (xq : 0 < X * q) by (apply Rmult_lt_0_compat; lra). replace (58 / 10 * K * r) with (58 / 10 * q) by (unfold q; ring). replace (576 * (X * K) * r) with (576 * (X * q)) by (unfold q; ring). replace (1036 * (X * K) * r) with (1036 * (X * q)) by (unfold q; ring).
  assert (xx : X * (X * q) <= / 10 ^ 5 * (X * q)) by (apply Rmult_le_compat_r; lra). assert (uq : 112 * (u * q) <= X * q). { replace (112 * (u * q)) with (112 * u * q) by ring. apply Rmult_le_compat_r; lra. }
  assert (ur : u * r <= u * q) by (apply Rmult_le_compat_l; lra). assert (ux : u * (X * q) <= / 10 ^ 5 * (X * q)). { apply Rmult_le_compat_r; [lra|]. rewrite u_num. lra. }
  split.
  - replace ((79 * X + 6 * u) * (58 / 10 * q + 576 * (X * q))) with (79 * (58 / 10) * (X * q) + 79 * 576 * (X * (X * q)) + 6 * (58 / 10) * (u * q) + 6 * 576 * (u * (X * q))) by ring. lra.
  - assert (X * q <= / 10 ^ 5 * q) by (apply Rmult_le_compat_r; lra). assert (16 * 2 ^ 800 <= 2 ^ 900) by (replace (16 * 2 ^ 800) with (2 ^ 804) by (replace 804%nat with (4 + 800)%nat by reflexivity; rewrite pow_add; simpl (2 ^ 4); ring); apply Rle_pow; [lra|lia]). lra.
Qed.
Lemma ride_turned cs t x : rproper cs -> on_ride cs t x -> is_rotation (facing x).
Proof. intros Pr O. pose proof (journey_turned _ _ _ (worlds_proper _ Pr) O) as R. unfold turned, world_of in R. cbn [spin rot] in R. rewrite <- (mtrans_mtrans (facing x)). apply rot_mtrans, R. Qed.
Lemma ride_answers e m r ps cs tr a b z : 0 <= e -> u <= m -> / 2 ^ 400 <= r <= 2 ^ 200 -> (1 + m) * (3 * e + 112 * u) <= / 10 ^ 5 ->
  rproper cs -> all_rides_stored e m r ps cs -> ftr_make ps (Ok tr) -> nth_error ps 0 = Some a -> nth_error ps (length ps - 1) = Some b -> (fat_time a <= z <= fat_time b)%Z ->
  (exists f, ftr_point_at tr z (Ok f)) /\
  forall result x, ftr_point_at tr z result -> on_ride cs (moment (fat_time a) z) x ->
  exists f i c c', result = Ok f /\ follow cs i c c' /\ rat_time c <= moment (fat_time a) z <= rat_time c' /\ ride_near e m r (rat_time c' - rat_time c) f x.
Proof.
  intros E M Hr XS Pr S MK A B T. destruct ps as [|a' ps]; [discriminate A|]. injection A as ->. pose proof S as (L & _ & _). pose proof u_pos as Up.
  set (K := 1 + m) in *. assert (K1 : 1 <= K) by (unfold K; lra). assert (X0 : 0 <= 3 * e + 112 * u) by lra. assert (EX : 3 * e + 112 * u <= K * (3 * e + 112 * u)) by (rewrite <- (Rmult_1_l (3 * e + 112 * u)) at 1; apply Rmult_le_compat_r; lra).
  assert (EE : 3 * e + 7 * u + 105 * u = 3 * e + 112 * u) by ring.
  assert (IN : forall p, In p ps -> in64 (fat_time p - fat_time a)). { intros p Q. apply In_nth_error in Q. destruct Q as [i Q]. destruct (nth_same cs (a :: ps) (Datatypes.S i) p (eq_sym L) Q) as [c C]. exact (proj1 (stored_moments _ _ _ _ _ _ S (Datatypes.S i) p c Q C)). }
  destruct (proj2 (make_shape a ps IN) _ MK) as (fs & BH & EQ). destruct (fp_make fs) as [k| |] eqn:FM; try discriminate EQ. cbn [obind] in EQ. injection EQ as ->.
  pose proof (behind_stored e m r a ps cs fs ltac:(lra) ltac:(lra) Hr Pr S BH) as ST.
  destruct (nth_same cs (a :: ps) _ b (eq_sym L) B) as [cb CB]. destruct (nth_same cs (a :: ps) 0%nat a (eq_sym L) eq_refl) as [ca CA]. destruct (stored_moments _ _ _ _ _ _ S _ b cb B CB) as [Db Vb]. destruct (stored_moments _ _ _ _ _ _ S 0%nat a ca eq_refl CA) as [Da Va]. rewrite Z.sub_diag, seconds_0 in Va.
  assert (Dz : in64 (z - fat_time a)) by (unfold in64, INT64_MIN, INT64_MAX in *; lia). destruct (as_seconds_val _ Dz) as [Fz _].
  assert (Z1 : 0 <= val (as_seconds (z - fat_time a)) <= rat_time cb). { rewrite Vb, <- seconds_0. split; apply seconds_order; try assumption; try lia. apply in64_small. lia. }
  assert (FT : pfrom_to (worlds cs) 0 (rat_time cb)). { apply worlds_from_to. split; [exists ca; auto|]. exists cb. rewrite L in CB. auto. }
  assert (SB : sub64 z (fat_time a) = Ok (z - fat_time a)%Z) by (apply chk64_ok, Dz).
  destruct (journey_answers_far (3 * e + 7 * u) m r fs (worlds cs) k (as_seconds (z - fat_time a)) 0 (rat_time cb) ltac:(lra) M Hr ltac:(rewrite EE; exact XS) (worlds_proper _ Pr) ST FM Fz FT Z1) as [[f F] H]. rewrite EE in H. fold K in H.
  unfold ftr_point_at. cbn [fstart]. rewrite SB. unfold ftr_point_from_start. cbn [fcurve]. split.
  - destruct (some_right f) as [j J]. exists j, (Ok f). split; [exact F|]. exists j. auto.
  - intros result x (o & PO & RO) O. destruct (H o (world_of x) PO O) as (g & i & c & c' & -> & FC & TT & J & N). destruct (worlds_follow cs i c c' FC) as (w & w' & FW & -> & ->). cbn [pat_time] in *. destruct RO as (j & RJ & ->). exists j, i, w, w'. split; [reflexivity|]. split; [exact FW|]. split; [exact TT|].
    pose proof (ride_turned _ _ _ Pr O) as RX. unfold world_of in N. cbn [place] in N. rewrite norm_neg, rot_norm in N by apply rot_mtrans, RX.
    assert (XL : K * (112 * u) <= K * (3 * e + 112 * u)) by (apply Rmult_le_compat_l; lra).
    assert (KB : K <= 10 ^ 12) by (rewrite u_num in *; lra). assert (KR : K * r <= 2 ^ 800). { apply Rle_trans with (2 ^ 40 * 2 ^ 200); [apply Rmult_le_compat; try lra; assert (0 < / 2 ^ 400) by (apply Rinv_0_lt_compat, pow_lt; lra); lra|]. rewrite <- pow_add. apply Rle_pow; [lra|lia]. }
    destruct (position_room K (K * (3 * e + 112 * u)) r K1 XL XS ltac:(lra) KR) as [R1 R2].
    replace (576 * (K * (3 * e + 112 * u) * K) * r) with (576 * (K ^ 2 * (3 * e + 112 * u)) * r) in R1, R2 by ring. replace (1036 * (K * (3 * e + 112 * u) * K) * r) with (1036 * (K ^ 2 * (3 * e + 112 * u)) * r) in R1 by ring.
    pose proof (right_within _ _ _ _ _ _ (58 / 10 * K * r + 576 * (K ^ 2 * (3 * e + 112 * u)) * r) g x j J RX ltac:(lra) ltac:(lra) R2 RJ) as (Q1 & Q2 & Q3). unfold ride_near. fold K. split; [exact Q1|]. split; [exact (within_le _ _ _ _ Q2 R1)|exact Q3].
Qed.
