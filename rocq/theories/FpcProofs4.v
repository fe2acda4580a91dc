(** Time curves of poses from control points to queries. *)
From Coq Require Import Reals Lra Lia List.
From Flocq Require Import Core BinarySingleNaN.
From Verif Require Import Cpp Vec RotSpec RotProofs FloatModel FloatSpec FloatProofs NrmModel NrmSpec NrmProofs DriftModel DriftSpec DriftProofs SpinModel SpinSpec SpinProofs2 FtsModel FtsSpec FtsProofs2 FtsProofs4 FtsProofs5 FtcModel FtcSpec FtcProofs FtcProofs2 FtcProofs3 FtcProofs4 FpsModel FpsSpec FpsProofs5 FpsProofs7 FpcModel FpcSpec FpcProofs FpcProofs2 FpcProofs3.
Import ListNotations.
Local Open Scope R_scope.

(** ** The list *)
Lemma pstored_at e m r fs cs i f a : (2 <= length cs)%nat -> all_pstored e m r fs cs -> nth_error fs i = Some f -> nth_error cs i = Some a -> finite (fptime f) /\ val (fptime f) = pat_time a.
Proof.
  intros L [E ST] F A. assert (I : (i < length cs)%nat) by (apply nth_error_Some; congruence). destruct (Nat.eq_dec (S i) (length cs)) as [Z|Z].
  - destruct i as [|i]; [lia|]. destruct (nth_error fs i) as [g|] eqn:G; [|apply nth_error_None in G; lia]. destruct (nth_error cs i) as [b|] eqn:B; [|apply nth_error_None in B; lia].
    destruct (ST i g f b a (conj G F) (conj B A)) as (_ & _ & (H1 & H2 & _)). auto.
  - destruct (nth_error fs (Datatypes.S i)) as [g|] eqn:G; [|apply nth_error_None in G; lia]. destruct (nth_error cs (Datatypes.S i)) as [b|] eqn:B; [|apply nth_error_None in B; lia].
    destruct (ST i f g a b (conj F G) (conj A B)) as (_ & (H1 & H2 & _) & _). auto.
Qed.
Lemma pstored_increasing e m r fs cs : pproper cs -> all_pstored e m r fs cs -> forall i f g, follow fs i f g -> flt (fptime f) (fptime g) = true.
Proof.
  intros (L & _ & T) S i f g [F G]. pose proof S as [E _]. assert (I : (Datatypes.S i < length fs)%nat) by (apply nth_error_Some; congruence).
  destruct (nth_error cs i) as [a|] eqn:A; [|apply nth_error_None in A; lia]. destruct (nth_error cs (Datatypes.S i)) as [b|] eqn:B; [|apply nth_error_None in B; lia].
  destruct (pstored_at e m r fs cs i f a L S F A) as [Ff Vf]. destruct (pstored_at e m r fs cs _ g b L S G B) as [Fg Vg]. destruct (T i a b (conj A B)) as [H _].
  apply flt_place; [apply finite_not_nan, Ff|apply finite_not_nan, Fg|]. rewrite !place_finite by assumption. lra.
Qed.
Lemma pchain_times fs : (2 <= length fs)%nat -> (forall i f g, follow fs i f g -> flt (fptime f) (fptime g) = true) -> Forall (fun t => t <> B754_nan) (map fptime fs) /\ increasing (map fptime fs).
Proof.
  intros L H. split.
  - apply Forall_forall. intros t T. apply in_map_iff in T. destruct T as (f & <- & T). apply In_nth_error in T. destruct T as [i T]. assert (I : (i < length fs)%nat) by (apply nth_error_Some; congruence).
    destruct i as [|i].
    + destruct (nth_error fs 1) as [g|] eqn:G; [|apply nth_error_None in G; lia]. exact (proj1 (flt_not_nan _ _ (H 0%nat f g (conj T G)))).
    + destruct (nth_error fs i) as [g|] eqn:G; [|apply nth_error_None in G; lia]. exact (proj2 (flt_not_nan _ _ (H i g f (conj G T)))).
  - clear L. induction fs as [|a [|b fs] IH]; try exact I. cbn [map increasing]. split.
    + pose proof (H 0%nat a b (conj eq_refl eq_refl)) as T. destruct (flt_not_nan _ _ T). apply flt_place; assumption.
    + apply IH. intros i f g F. apply (H (S i)). apply follow_cons. right. exists i. auto.
Qed.

(** ** The answer *)
Lemma pone_answer e m r d f g a b k t s inv x p : 0 <= e -> u <= m -> / 2 ^ 400 <= r <= 2 ^ 200 -> (1 + m) * (e + 105 * u) <= / 10 ^ 5 -> / 2 ^ 100 <= d <= 2 ^ 100 -> nearly k d 1 -> nearly inv (/ d) 3 -> pstored e m r d f a -> pstored e m r d g b -> near_time t s ->
  fpsegment_point_at (fpnormalized (fppoint f) k) (fpnormalized (fppoint g) k) t x -> between_poses (flight_units d (pat_flight a)) (flight_units d (pat_flight b)) s p ->
  pjet_within (79 * ((1 + m) * (e + 105 * u))) (341 * ((1 + m) ^ 2 * (e + 105 * u)) / d) (2565 * ((1 + m) ^ 3 * (e + 105 * u)) / (d * d))
      (576 * ((1 + m) ^ 2 * (e + 105 * u)) * r) (1781 * ((1 + m) ^ 3 * (e + 105 * u)) * r / d) (14620 * ((1 + m) ^ 4 * (e + 105 * u)) * r / (d * d)) (fpunnormalize inv x) (flight_units (/ d) p) /\ norm (place (flight_units (/ d) p)) <= 58 / 10 * (1 + m) * r.
Proof.
  intros E M Hr XS Dr NK NI SF SG NT P B. pose proof u_pos as Up. set (K := 1 + m). set (X := K * (e + 105 * u)).
  assert (K1 : 1 <= K) by (unfold K; lra). assert (XL : K * (105 * u) <= X) by (unfold X; apply Rmult_le_compat_l; lra). assert (XE : X = e + 105 * u + m * (e + 105 * u)) by (unfold X, K; ring).
  assert (m0 : 0 <= m * (e + 105 * u)) by (apply Rmult_le_pos; lra). assert (e5 : e <= / 10 ^ 5) by (fold K X in XS; lra). assert (m12 : m <= 10 ^ 12). { assert (K * (105 * u) <= / 10 ^ 5) by (fold K X in XS; lra). unfold K in *. rewrite u_num in *. lra. }
  pose proof (pnormalized_end e m r d k f a NK Dr SF ltac:(lra) ltac:(lra) Hr) as EF. pose proof (pnormalized_end e m r d k g b NK Dr SG ltac:(lra) ltac:(lra) Hr) as EG.
  assert (XX : (1 + m) * (e + 5 * u + 100 * u) = X) by (unfold X, K; ring). assert (r450 : r <= 2 ^ 450). { apply Rle_trans with (2 ^ 200); [lra|apply Rle_pow; [lra|lia]]. }
  destruct (pose_segment_near (e + 5 * u) m r ltac:(lra) ltac:(lra) ltac:(lra) r450 ltac:(rewrite XX; exact XS) _ _ _ _ t s x p EF EG NT P B) as (J & V & A & PL & V' & A'). rewrite XX in J. fold K in J, V, A, PL, V', A'.
  replace (K ^ 2 * (e + 105 * u)) with (X * K) by (unfold X; ring). replace (K ^ 3 * (e + 105 * u)) with (X * (K * K)) by (unfold X; ring). replace (K ^ 4 * (e + 105 * u)) with (X * (K * K * K)) by (unfold X; ring). replace (K * (e + 105 * u)) with X by reflexivity.
  replace (576 * (X * K) * r) with (576 * (X * (K * r))) by ring. replace (1781 * (X * (K * K)) * r) with (1781 * (X * (K * r * K))) by ring. replace (14620 * (X * (K * K * K)) * r) with (14620 * (X * (K * r * (K * K)))) by ring.
  split; [exact (punnormalized inv d r x p X K NI Dr Hr K1 XL XS J V A V' A')|]. cbn [flight_units place]. lra.
Qed.
Lemma plooked_up fs cs t first last e m r : pproper cs -> all_pstored e m r fs cs -> finite t -> pfrom_to cs first last -> first <= val t <= last ->
  exists i f g a b, follow fs i f g /\ follow cs i a b /\ pat_time a <= val t <= pat_time b /\
    fp_point_at_impl (FPCurve fs (psegs fs)) t = Ok (pseg_of (f, g), seg_inv_dt (fptime f) (fptime g), seg_time_nrm (fptime f) (fptime g) t).
Proof.
  intros Pr S Ft ((x & X & <-) & (y & Y & <-)) T. pose proof Pr as (L & _ & _). pose proof S as [E _]. pose proof (pstored_increasing e m r fs cs Pr S) as INC.
  destruct (pchain_times fs ltac:(lia) INC) as [NN I]. assert (L2 : (2 <= length (map fptime fs))%nat) by (rewrite map_length; lia).
  destruct (point_at_spec (map fptime fs) t L2 NN I (finite_not_nan t Ft)) as (fr & bk & Fr & Bk & _ & H). apply map_nth in Fr, Bk. destruct Fr as (f0 & F0 & ->). destruct Bk as (f9 & F9 & ->). rewrite map_length, E in F9.
  destruct (pstored_at e m r fs cs _ _ _ L S F0 X) as [FF0 V0]. destruct (pstored_at e m r fs cs _ _ _ L S F9 Y) as [FF9 V9]. rewrite !place_finite in H by assumption. rewrite V0, V9 in H.
  destruct (H T) as (i & o & d & O & D & R & _ & PA). apply map_nth in O, D. destruct O as (f & F & ->). destruct D as (g & G & ->). assert (IL : (Datatypes.S i < length fs)%nat) by (apply nth_error_Some; congruence).
  destruct (nth_error cs i) as [a|] eqn:A; [|apply nth_error_None in A; lia]. destruct (nth_error cs (Datatypes.S i)) as [b|] eqn:B; [|apply nth_error_None in B; lia].
  destruct (pstored_at e m r fs cs _ _ _ L S F A) as [FF V]. destruct (pstored_at e m r fs cs _ _ _ L S G B) as [FG VG]. rewrite !place_finite in R by assumption. rewrite V, VG in R.
  exists i, f, g, a, b. split; [split; assumption|]. split; [split; assumption|]. split; [exact R|]. rewrite plookup_same, PA. cbn [in_segment inv_dt time_nrm]. rewrite (psegs_nth fs i f g (conj F G)). reflexivity.
Qed.
(** Nor does the journey go far. *)
Lemma journey_answers_far e m r fs cs c t first last : 0 <= e -> u <= m -> / 2 ^ 400 <= r <= 2 ^ 200 -> (1 + m) * (e + 105 * u) <= / 10 ^ 5 -> pproper cs -> all_pstored e m r fs cs -> fp_make fs = Ok c -> finite t -> pfrom_to cs first last -> first <= val t <= last ->
  (exists f, fp_point_at c t (Ok f)) /\
  forall result p, fp_point_at c t result -> on_journey cs (val t) p ->
  exists f i a b, result = Ok f /\ follow cs i a b /\ pat_time a <= val t <= pat_time b /\ let d := pat_time b - pat_time a in
    pjet_within (79 * ((1 + m) * (e + 105 * u))) (341 * ((1 + m) ^ 2 * (e + 105 * u)) / d) (2565 * ((1 + m) ^ 3 * (e + 105 * u)) / (d * d))
      (576 * ((1 + m) ^ 2 * (e + 105 * u)) * r) (1781 * ((1 + m) ^ 3 * (e + 105 * u)) * r / d) (14620 * ((1 + m) ^ 4 * (e + 105 * u)) * r / (d * d)) f p /\ norm (place p) <= 58 / 10 * (1 + m) * r.
Proof.
  intros E M Hr XS Pr S MK Ft FT T. destruct (proj1 (pmade_shape fs) c MK) as [-> _]. destruct (plooked_up fs cs t first last e m r Pr S Ft FT T) as (i & f & g & a & b & FF & FC & R & LU).
  unfold fp_point_at. rewrite LU. cbn [pseg_of fst snd fporig fpdest]. set (k := fsub (fptime g) (fptime f)). split.
  - destruct (some_pose_point (fpnormalized (fppoint f) k) (fpnormalized (fppoint g) k) (seg_time_nrm (fptime f) (fptime g) t)) as [x X]. eexists. exists x. split; [exact X|reflexivity].
  - intros result p (x & X & ->) O. exists (fpunnormalize (seg_inv_dt (fptime f) (fptime g)) x), i, a, b. split; [reflexivity|]. split; [exact FC|]. split; [exact R|]. cbv zeta. set (d := pat_time b - pat_time a).
    destruct S as [_ ST]. destruct (ST i f g a b FF FC) as (D & SF & SG). fold d in D, SF, SG. pose proof SF as (Ff & Vf & _). pose proof SG as (Fg & Vg & _).
    assert (FA : fair (fptime f) (fptime g)) by (split; [exact Ff|]; split; [exact Fg|]; rewrite Vf, Vg; exact (range_100_200 _ D)). pose proof (dt_near _ _ FA) as NK. pose proof (inv_near _ _ FA) as NI. pose proof (nrm_near _ _ t FA Ft ltac:(lra)) as NT. rewrite Vf, Vg in NK, NI, NT. fold d in NK, NI, NT. fold k in NK.
    destruct (the_journey cs first last Pr FT) as (P & PC & _). destruct Pr as (_ & RO & PR). destruct (PR i a b FC) as (Tab & W). destruct FC as [CA CB].
    assert (GP : good_leg a b). { split; [exact (proj1 (Forall_forall _ _) RO a (nth_error_In _ _ CA))|]. split; [exact (proj1 (Forall_forall _ _) RO b (nth_error_In _ _ CB))|]. auto. }
    destruct (the_leg a b GP) as (Q & QC & _). assert (OP : on_leg a b (val t) (Q (val t))) by (apply QC; auto). assert (OT : on_journey cs (val t) (Q (val t))) by (exists i, a, b; split; [split; assumption|exact OP]).
    apply PC in OT. apply PC in O. destruct OT as [_ OT]. destruct O as [_ O]. rewrite O, <- OT. destruct OP as [_ (q & BQ & EQ)]. fold d in BQ, EQ. rewrite EQ.
    exact (pone_answer e m r d f g a b k _ _ _ x q E M Hr XS D NK NI SF SG NT X BQ).
Qed.
Lemma journey_answers e m r fs cs c t first last : 0 <= e -> u <= m -> / 2 ^ 400 <= r <= 2 ^ 200 -> (1 + m) * (e + 105 * u) <= / 10 ^ 5 -> pproper cs -> all_pstored e m r fs cs -> fp_make fs = Ok c -> finite t -> pfrom_to cs first last -> first <= val t <= last ->
  (exists f, fp_point_at c t (Ok f)) /\
  forall result p, fp_point_at c t result -> on_journey cs (val t) p ->
  exists f i a b, result = Ok f /\ follow cs i a b /\ pat_time a <= val t <= pat_time b /\ let d := pat_time b - pat_time a in
    pjet_within (79 * ((1 + m) * (e + 105 * u))) (341 * ((1 + m) ^ 2 * (e + 105 * u)) / d) (2565 * ((1 + m) ^ 3 * (e + 105 * u)) / (d * d))
      (576 * ((1 + m) ^ 2 * (e + 105 * u)) * r) (1781 * ((1 + m) ^ 3 * (e + 105 * u)) * r / d) (14620 * ((1 + m) ^ 4 * (e + 105 * u)) * r / (d * d)) f p.
Proof.
  intros E M Hr XS Pr S MK Ft FT T. destruct (journey_answers_far e m r fs cs c t first last E M Hr XS Pr S MK Ft FT T) as [X H]. split; [exact X|]. intros result p A O. destruct (H result p A O) as (f & i & a & b & R & F & TT & J & _). exists f, i, a, b. auto.
Qed.
Lemma journey_refuses fs c t : fp_make fs = Ok c -> ((length fs < 2)%nat \/ exists front back, nth_error fs 0 = Some front /\ nth_error fs (length fs - 1) = Some back /\ ~ not_a_number t /\ (NrmSpec.place t < NrmSpec.place (fptime front) \/ NrmSpec.place (fptime back) < NrmSpec.place t)) ->
  forall result, fp_point_at c t result <-> result = Throw.
Proof.
  intros MK H result. destruct (proj1 (pmade_shape fs) c MK) as [-> INC]. unfold fp_point_at. destruct (le_lt_dec 2 (length fs)) as [L|L].
  - destruct H as [H|(fr & bk & F & B & NT & H)]; [lia|]. destruct (pchain_times fs L INC) as [NN I]. destruct (point_at_spec (map fptime fs) t ltac:(rewrite map_length; exact L) NN I NT) as (fr' & bk' & F' & B' & TH & _).
    apply map_nth in F', B'. destruct F' as (x & F' & ->). destruct B' as (y & B' & ->). rewrite map_length in B'. assert (x = fr) by congruence. assert (y = bk) by congruence. subst x y. rewrite plookup_same, (TH H). tauto.
  - destruct fs as [|a [|b fs]]; [tauto|cbn; tauto|cbn in L; lia].
Qed.
