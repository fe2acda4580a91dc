(** Trajectories: making them, what they refuse, control points, and a case. *)
From Coq Require Import Reals Lra Lia List.
From Flocq Require Import Core BinarySingleNaN.
From Verif Require Import Cpp Vec RotSpec GeomModel RotProofs LieProofs FloatModel FloatSpec FloatProofs NrmModel NrmSpec NrmProofs DriftModel DriftSpec DriftProofs DriftProofs2 SpinModel SpinSpec FdcSpec FdcProofs2 QfModel TlogModel TlogProofs6 FtsModel FtsSpec FtcModel FtcSpec FtcProofs3 FpsModel FpsSpec FpsProofs7 FpcModel FpcSpec FpcProofs FpcProofs2 FpcProofs3 FpcProofs4 FpcProofs5 FtrModel FtrSpec FtrProofs FtrProofs2 FtrProofs3.
Import ListNotations.
Local Open Scope R_scope.

Lemma in_reach_tail a ps : in_reach (a :: ps) -> forall p, In p ps -> in64 (fat_time p - fat_time a).
Proof. intros H p P. exact (H a p eq_refl (or_intror P)). Qed.
Lemma make_start a ps tr : in_reach (a :: ps) -> ftr_make (a :: ps) (Ok tr) -> fstart tr = fat_time a.
Proof. intros I MK. destruct (proj2 (make_shape a ps (in_reach_tail a ps I)) _ MK) as (fs & _ & E). destruct (fp_make fs); try discriminate E. injection E as ->. reflexivity. Qed.
Lemma trajectory_made ps : in_reach ps -> let ordered := forall a i p q, nth_error ps 0 = Some a -> follow ps i p q -> moment (fat_time a) (fat_time p) < moment (fat_time a) (fat_time q) in
  (ordered -> (exists tr, ftr_make ps (Ok tr)) /\ forall result, ftr_make ps result -> exists tr, result = Ok tr) /\ (~ ordered -> forall result, ftr_make ps result <-> result = Throw).
Proof.
  intros I ordered. destruct ps as [|a ps].
  - split.
    + intros _. split; [eexists; reflexivity|]. intros result ->. eexists. reflexivity.
    + intro N. destruct N. intros a i p q A. discriminate A.
  - destruct (make_shape a ps (in_reach_tail a ps I)) as [[r0 R0] SH]. assert (NU : forall fs, fp_make fs <> UB) by (intro fs; apply pmade_shape).
    assert (KEY : forall fs, Forall2 (behind (fat_time a)) (a :: ps) fs -> (ordered <-> forall i f g, follow fs i f g -> ~ not_a_number (fptime f) /\ ~ not_a_number (fptime g) /\ NrmSpec.place (fptime f) < NrmSpec.place (fptime g))).
    { intros fs B. destruct (forall2_nth _ _ _ B) as [L N]. assert (FI : forall p, In p (a :: ps) -> finite (as_seconds (fat_time p - fat_time a))) by (intros p P; apply as_seconds_val, (I a p eq_refl P)). split.
      - intros O i f g [F G]. destruct (nth_same (a :: ps) fs i f L F) as [p P]. destruct (nth_same (a :: ps) fs (S i) g L G) as [q Q]. pose proof (FI p (nth_error_In _ _ P)) as FP. pose proof (FI q (nth_error_In _ _ Q)) as FQ. rewrite (proj1 (N i p f P F)), (proj1 (N (S i) q g Q G)).
        split; [apply finite_not_nan, FP|]. split; [apply finite_not_nan, FQ|]. rewrite !place_finite by assumption. exact (O a i p q eq_refl (conj P Q)).
      - intros O a' i p q A' [P Q]. injection A' as <-. destruct (nth_same fs (a :: ps) i p (eq_sym L) P) as [f F]. destruct (nth_same fs (a :: ps) (S i) q (eq_sym L) Q) as [g G]. destruct (O i f g (conj F G)) as (_ & _ & H). rewrite (proj1 (N i p f P F)), (proj1 (N (S i) q g Q G)) in H.
        rewrite !place_finite in H by (apply FI; eapply nth_error_In; eassumption). exact H. }
    split.
    + intro O. assert (ALL : forall result, ftr_make (a :: ps) result -> exists tr, result = Ok tr).
      { intros result R. destruct (SH result R) as (fs & B & ->). destruct (proj1 (pmakes fs) (proj1 (KEY fs B) O)) as [c ->]. eexists. reflexivity. }
      split; [destruct (ALL r0 R0) as [tr ->]; exists tr; exact R0|exact ALL].
    + intros NO. assert (ALL : forall result, ftr_make (a :: ps) result -> result = Throw).
      { intros result R. destruct (SH result R) as (fs & B & ->). rewrite (proj2 (pmakes fs)); [reflexivity|]. intro O. apply NO, (KEY fs B), O. }
      intro result. split; [apply ALL|]. intros ->. rewrite <- (ALL r0 R0). exact R0.
Qed.
Lemma same_question ps tr a z : in_reach ps -> ftr_make ps (Ok tr) -> nth_error ps 0 = Some a ->
  (in64 (z - fat_time a) -> forall result, ftr_point_at tr z result <-> ftr_point_from_start tr (z - fat_time a) result) /\ (~ in64 (z - fat_time a) -> forall result, ftr_point_at tr z result <-> result = UB).
Proof.
  intros I MK A. destruct ps as [|b ps]; [discriminate A|]. injection A as ->. unfold ftr_point_at. rewrite (make_start a ps tr I MK). unfold sub64. split; intro H; [rewrite chk64_ok|rewrite chk64_ub]; tauto.
Qed.
Lemma trajectory_refuses ps tr z : in_reach ps -> ftr_make ps (Ok tr) ->
  ((length ps < 2)%nat \/ exists a b, nth_error ps 0 = Some a /\ nth_error ps (length ps - 1) = Some b /\ in64 z /\ ((z < 0)%Z \/ moment (fat_time a) (fat_time b) < val (as_seconds z))) ->
  forall result, ftr_point_from_start tr z result <-> result = Throw.
Proof.
  intros I MK H result. unfold ftr_point_from_start.
  assert (K : forall o, fp_point_at (fcurve tr) (as_seconds z) o <-> o = Throw).
  { destruct ps as [|a ps].
    - cbn in MK. injection MK as ->. intro o. cbn. tauto.
    - destruct (proj2 (make_shape a ps (in_reach_tail a ps I)) _ MK) as (fs & B & E). destruct (fp_make fs) as [c| |] eqn:FM; try discriminate E. injection E as ->. cbn [fcurve]. apply (journey_refuses fs c _ FM). destruct (forall2_nth _ _ _ B) as [L N].
      destruct H as [H|(a' & b & A & BB & Z & H)]; [left; lia|]. right. injection A as <-. rewrite L in BB. destruct (nth_same fs (a :: ps) 0%nat a (eq_sym L) eq_refl) as [f F]. destruct (nth_same fs (a :: ps) _ b (eq_sym L) BB) as [g G]. exists f, g. split; [exact F|]. split; [exact G|].
      destruct (as_seconds_val z Z) as [Fz _]. split; [apply finite_not_nan, Fz|]. rewrite (proj1 (N 0%nat a f eq_refl F)), (proj1 (N _ b g BB G)). pose proof (I a a eq_refl (or_introl eq_refl)) as Ia. pose proof (I a b eq_refl (nth_error_In _ _ BB)) as Ib.
      rewrite !place_finite by (assumption || apply as_seconds_val; assumption). destruct H as [H|H]; [left; rewrite Z.sub_diag, seconds_0; apply (seconds_sign z Z), H|right; exact H]. }
  split.
  - intros (o & O & R). apply K in O. subst o. exact R.
  - intros ->. exists Throw. split; [apply K; reflexivity|reflexivity].
Qed.
Lemma last_is {A} (l : list A) i a : nth_error l i = Some a -> exists b, nth_error l (length l - 1) = Some b.
Proof. intro H. assert (i < length l)%nat by (apply nth_error_Some; congruence). destruct (nth_error l (length l - 1)) as [b|] eqn:E; [exists b; reflexivity|]. apply nth_error_None in E. lia. Qed.
Lemma rin_range cs c i : rproper cs -> nth_error cs i = Some c -> exists first last, rfrom_to cs first last /\ first <= rat_time c <= last.
Proof.
  intros Pr C. destruct (pin_range (worlds cs) (PControl (rat_time c) (world_of (rat_ride c))) i (worlds_proper _ Pr) ltac:(rewrite worlds_nth, C; reflexivity)) as (first & last & ((x & X & TX) & (y & Y & TY)) & T). exists first, last. split; [|exact T].
  unfold worlds in Y. rewrite map_length in Y. fold (worlds cs) in Y. rewrite worlds_nth in X, Y. split; [destruct (nth_error cs 0) as [a|] eqn:A|destruct (nth_error cs (length cs - 1)) as [b|] eqn:B]; try discriminate; eexists; (split; [eassumption || reflexivity|]).
  - injection X as <-. exact TX.
  - injection Y as <-. exact TY.
Qed.
Lemma stored_in_reach e m r ps cs : all_rides_stored e m r ps cs -> in_reach ps.
Proof. intros (L & T & _) a p A P. apply In_nth_error in P. destruct P as [i P]. destruct (nth_same cs ps i p (eq_sym L) P) as [c C]. exact (proj1 (T a i p c A P C)). Qed.
Lemma between_times cs : rproper cs -> forall i j c c', (i <= j)%nat -> nth_error cs i = Some c -> nth_error cs j = Some c' -> rat_time c <= rat_time c'.
Proof.
  intros (_ & _ & F) i j. induction j as [|j IH]; intros c c' L C C'; [assert (i = 0)%nat by lia; subst i; replace c' with c by congruence; lra|]. destruct (Nat.eq_dec i (S j)) as [->|N]; [replace c' with c by congruence; lra|].
  destruct (nth_error cs j) as [d|] eqn:D; [|apply nth_error_None in D; assert (S j < length cs)%nat by (apply nth_error_Some; congruence); lia]. specialize (IH c d ltac:(lia) C eq_refl). destruct (F j d c' (conj D C')) as [T _]. lra.
Qed.
(** A control point comes back at its own time. *)
Lemma rides_back e m r ps cs tr i p c : 0 <= e -> u <= m -> / 2 ^ 400 <= r <= 2 ^ 200 -> (1 + m) * (3 * e + 112 * u) <= / 10 ^ 5 ->
  rproper cs -> all_rides_stored e m r ps cs -> ftr_make ps (Ok tr) -> nth_error ps i = Some p -> nth_error cs i = Some c ->
  (exists f, ftr_point_at tr (fat_time p) (Ok f)) /\
  forall result, ftr_point_at tr (fat_time p) result -> exists f j x y, result = Ok f /\ follow cs j x y /\ rat_time x <= rat_time c <= rat_time y /\ ride_near e m r (rat_time y - rat_time x) f (rat_ride c).
Proof.
  intros E M Hr XS Pr S MK P C. pose proof S as (L & T & _). destruct (last_is ps i p P) as [b B]. destruct ps as [|a ps]; [destruct i; discriminate P|]. destruct (T a i p c eq_refl P C) as [D V].
  assert (IL : (i <= length (a :: ps) - 1)%nat) by (assert (i < length (a :: ps))%nat by (apply nth_error_Some; congruence); lia).
  assert (R : (fat_time a <= fat_time p <= fat_time b)%Z).
  { destruct (nth_same cs (a :: ps) _ b (eq_sym L) B) as [cb CB]. destruct (T a _ b cb eq_refl B CB) as [Db Vb]. pose proof (between_times cs Pr _ _ c cb IL C CB) as TB. pose proof (moments_positive _ _ _ _ _ _ Pr S i p P). split; [lia|].
    destruct (Z_lt_le_dec (fat_time b) (fat_time p)) as [N|N]; [|exact N]. destruct (Nat.eq_dec i (length (a :: ps) - 1)) as [Q|Q]; [rewrite Q in P; replace b with p in N by congruence; lia|].
    assert (LT : rat_time c < rat_time cb). { destruct (nth_error cs (Datatypes.S i)) as [d|] eqn:Dn; [|apply nth_error_None in Dn; lia]. pose proof (proj1 (proj2 (proj2 Pr) i c d (conj C Dn))). pose proof (between_times cs Pr (Datatypes.S i) (length (a :: ps) - 1) d cb ltac:(lia) Dn CB). lra. }
    unfold moment in V, Vb. rewrite V, Vb in LT. destruct (seconds_order (fat_time b - fat_time a) (fat_time p - fat_time a) Db D) as (_ & MO & _). specialize (MO ltac:(lia)). lra. }
  destruct (ride_answers e m r (a :: ps) cs tr a b (fat_time p) E M Hr XS Pr S MK eq_refl B R) as [X H]. split; [exact X|]. intros result RES. destruct (rin_range cs c i Pr C) as (first & last & FT & TT). destruct (the_ride cs first last Pr FT) as (q & Q & QC & _).
  destruct (H result (rat_ride c) RES) as (f & j & x & y & -> & FW & TM & N).
  - apply Q. rewrite <- V. split; [exact TT|]. symmetry. apply QC. exact (nth_error_In _ _ C).
  - exists f, j, x, y. split; [reflexivity|]. split; [exact FW|]. split; [rewrite V; exact TM|exact N].
Qed.

(** ** A case *)
Definition turned_around (j : fpjet) : frjet := FRJ (FP (fmtrans (frot (pf j))) (ftrans (pf j))) (pd j) (pd2 j).
Definition ride_around (x : flight) : ride := Ride (mtrans (turned x)) (place x) (vel (spin x)) (slide x) (acc (spin x)) (surge x).
Lemma seconds_whole n : (n = 0 \/ n = 1 \/ n = 2 \/ n = 3)%Z -> val (as_seconds (n * 1000000000)) = IZR n.
Proof.
  intro H. destruct (of_small n) as [_ <-]; [lia|]. rewrite !val_sf. f_equal. destruct H as [->|[->|[->| ->]]]; vm_compute; reflexivity.
Qed.
Lemma ride_case : exists ps cs tr, rproper cs /\ rfrom_to cs 0 3 /\ all_rides_stored (63 * u) 12 6 ps cs /\ (1 + 12) * (3 * (63 * u) + 112 * u) <= / 10 ^ 5 /\ u <= 12 /\ / 2 ^ 400 <= 6 <= 2 ^ 200 /\ ftr_make ps (Ok tr) /\
  map fat_time ps = [5000000000; 7000000000; 8000000000]%Z /\ map rat_time cs = [0; 2; 3] /\
  (exists a b, cs = [a; b; RControl 3 (rat_ride b)] /\ spot (rat_ride a) = V3 1 2 (-1) /\ drive (rat_ride a) = V3 4 (-3) 0 /\ swing (rat_ride a) = V3 1 2 2 /\ drive' (rat_ride b) = V3 0 9 2) /\
  (exists f x, ftr_point_at tr 6000000000 (Ok f) /\ moment 5000000000 6000000000 = 1 /\ on_ride cs 1 x) /\
  1036 * ((1 + 12) ^ 2 * (3 * (63 * u) + 112 * u)) * 6 <= 4 / 10 ^ 8 /\ 1781 * ((1 + 12) ^ 3 * (3 * (63 * u) + 112 * u)) * 6 <= 8 / 10 ^ 7 /\ 14620 * ((1 + 12) ^ 4 * (3 * (63 * u) + 112 * u)) * 6 <= 1 / 10 ^ 4.
Proof.
  destruct pose_segment_case as (fo & fd & orig & dest & _ & O & D & _ & _ & _ & _ & _ & R & N & P1 & W1 & S1 & _ & S2 & _).
  set (ps := [FTPoint 5000000000 (turned_around fo); FTPoint 7000000000 (turned_around fd); FTPoint 8000000000 (turned_around fd)]). set (cs := [RControl 0 (ride_around orig); RControl 2 (ride_around dest); RControl 3 (ride_around dest)]).
  assert (Ro : is_rotation (turned orig)) by (destruct O as ((((_ & H & _) & _) & _) & _); exact H). assert (Rd : is_rotation (turned dest)) by (destruct D as ((((_ & H & _) & _) & _) & _); exact H).
  assert (Pr : rproper cs).
  { split; [cbn; lia|]. split; [repeat (apply Forall_cons; [cbn; apply rot_mtrans; assumption|]); apply Forall_nil|]. intros i a b [A B]. destruct i as [|[|[|i]]]; cbn in A, B; try discriminate; injection A as <-; injection B as <-; cbn [rat_time rat_ride ride_around facing]; rewrite mtrans_mtrans.
    - split; [lra|]. exists (V3 1 2 2). split; [exact R|rewrite N; lra].
    - split; [lra|]. exists vzero. split; [left; split; [reflexivity|apply rot_mtrans_r, Rd]|]. unfold norm, norm2, dot, vzero. cbn [vx vy vz]. replace (_ + _) with 0 by ring. rewrite sqrt_0. lra. }
  assert (W : forall d f x, (d = 1 \/ d = 2) -> pose_end_near (63 * u) 3 6 f x -> ride_stored (63 * u) 12 6 d (turned_around f) (ride_around x)).
  { intros d f x Hd ((((J0 & J00 & K0) & (J1 & K1) & (J2 & K2)) & (J3 & K3) & (J4 & K4) & (J5 & K5)) & N1 & N2 & N3 & N4 & N5). assert (U : 0 < u) by (rewrite u_num; lra). cbn [fst snd jet_turns jf jd jd2] in *.
    split; [split; [split; [|split; [apply rot_mtrans, J00|]]|split; [|split; [|split; [|split]]]; split]|cbn [ride_around swing swing' drive drive' spot]; repeat split]; try assumption; cbn [ride_around turned_around facing spot swing drive swing' drive' rf rd1 rd2 frot ftrans fst snd]; try (destruct Hd; subst d; lra).
    - destruct J0 as (? & ? & ? & ? & ? & ? & ? & ? & ?); repeat split; assumption.
    - change (mval (fmtrans (frot (pf f)))) with (mtrans (mval (frot (pf f)))). unfold turned. rewrite apart_mtrans. exact K0. }
  pose proof (seconds_whole 0 ltac:(lia)) as V0. pose proof (seconds_whole 1 ltac:(lia)) as V1. pose proof (seconds_whole 2 ltac:(lia)) as V2. pose proof (seconds_whole 3 ltac:(lia)) as V3'. cbn [Z.mul Pos.mul] in V0, V1, V2, V3'.
  assert (St : all_rides_stored (63 * u) 12 6 ps cs).
  { split; [reflexivity|]. split.
    - intros a i p c A P C. injection A as <-. destruct i as [|[|[|i]]]; cbn in P, C; try (destruct i; discriminate); injection P as <-; injection C as <-; cbn [fat_time rat_time]; unfold moment; (split; [unfold in64, INT64_MIN, INT64_MAX; lia|symmetry; assumption]).
    - intros i f g a b [F G] [A B]. destruct i as [|[|[|i]]]; cbn in A, B, F, G; try discriminate; injection A as <-; injection B as <-; injection F as <-; injection G as <-; cbn [rat_time fstate rat_ride]; cbv zeta; split; apply W; try assumption; (right; ring) || (left; ring). }
  assert (FT : rfrom_to cs 0 3) by (split; eexists; split; reflexivity).
  assert (X : (1 + 12) * (3 * (63 * u) + 112 * u) <= / 10 ^ 5) by (rewrite u_num; lra). assert (M : u <= 12) by (rewrite u_num; lra). assert (E0 : 0 <= 63 * u) by (rewrite u_num; lra).
  assert (B6 : / 2 ^ 400 <= 6 <= 2 ^ 200). { assert (/ 2 ^ 400 <= 1) by (apply Rle_trans with (/ 1); [apply Rinv_le_contravar; [lra|apply pow_R1_Rle; lra]|lra]). assert (8 <= 2 ^ 200) by (apply Rle_trans with (2 ^ 3); [lra|apply Rle_pow; [lra|lia]]). lra. }
  destruct (proj1 (trajectory_made ps (stored_in_reach _ _ _ _ _ St))) as [[tr MK] _].
  { assert (M5 : moment 5000000000 5000000000 = 0) by exact V0. assert (M7 : moment 5000000000 7000000000 = 2) by exact V2. assert (M8 : moment 5000000000 8000000000 = 3) by exact V3'.
    intros a i p q A [P Q]. injection A as <-. destruct i as [|[|[|i]]]; cbn in P, Q; try discriminate; injection P as <-; injection Q as <-; cbn [fat_time]; rewrite ?M5, ?M7, ?M8; lra. }
  exists ps, cs, tr. split; [exact Pr|]. split; [exact FT|]. split; [exact St|]. split; [exact X|]. split; [exact M|]. split; [exact B6|]. split; [exact MK|]. split; [reflexivity|]. split; [reflexivity|]. split; [exists (RControl 0 (ride_around orig)), (RControl 2 (ride_around dest)); cbn [rat_ride ride_around spot drive swing drive']; auto|].
  split. { destruct (ride_answers _ _ 6 ps cs tr _ _ 6000000000 E0 M B6 X Pr St MK eq_refl eq_refl ltac:(cbn [fat_time]; lia)) as [[f F] _]. destruct (the_ride cs 0 3 Pr FT) as (q & Q & _). exists f, (q 1). split; [exact F|]. split; [exact V1|]. apply Q. split; [lra|reflexivity]. }
  rewrite u_num. repeat split; lra.
Qed.
