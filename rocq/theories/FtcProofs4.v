(** Time curves of rotations from control points to queries. *)
From Coq Require Import Reals Lra Lia List.
From Flocq Require Import Core BinarySingleNaN.
From Verif Require Import Cpp Vec RotSpec RotProofs FloatModel FloatSpec FloatProofs NrmModel NrmSpec NrmProofs DriftModel DriftSpec DriftProofs SpinModel SpinSpec SpinProofs2 FtsModel FtsSpec FtsProofs2 FtsProofs4 FtsProofs5 FtcModel FtcSpec FtcProofs FtcProofs2 FtcProofs3.
Import ListNotations.
Local Open Scope R_scope.

(** ** Times *)
Definition fair (a b : f64) : Prop := finite a /\ finite b /\ / 2 ^ 200 <= val b - val a <= 2 ^ 200.
Lemma fair_usual a b : fair a b -> usual_length a b.
Proof.
  intros (_ & _ & L & H). unfold usual_length. assert (2 ^ 200 <= 2 ^ 1021) by (apply Rle_pow; [lra|lia]). assert (/ 2 ^ 1021 <= / 2 ^ 200) by (apply Rinv_le; [apply pow_lt; lra|assumption]). lra.
Qed.
Lemma inv_fair d : / 2 ^ 200 <= d <= 2 ^ 200 -> 0 < d /\ / 2 ^ 200 <= / d <= 2 ^ 200.
Proof.
  intros [L H]. assert (P : 0 < / 2 ^ 200) by (apply Rinv_0_lt_compat, pow_lt; lra). split; [lra|]. split; [apply Rinv_le; lra|]. rewrite <- (Rinv_inv (2 ^ 200)). apply Rinv_le; lra.
Qed.
Lemma dt_near a b : fair a b -> nearly (fsub b a) (val b - val a) 1.
Proof.
  intros (Fa & Fb & R). destruct (inv_fair _ R) as [P _]. destruct (fsub_val b a Fb Fa) as [F V].
  { apply usual_no_overflow. rewrite Rabs_right by lra. rewrite p1021. assert (2 ^ 200 <= 2 ^ 1021) by (apply Rle_pow; [lra|lia]). lra. }
  destruct (rd_minus (val b) (val a) (val_fmt b) (val_fmt a)) as (e & E & D). split; [exact F|]. split; [exact R|]. split; [|lra].
  rewrite V, D. replace ((val b - val a) * (1 + e) - (val b - val a)) with (e * (val b - val a)) by ring. rewrite Rabs_mult, (Rabs_right (val b - val a)) by lra. pose proof tight_lt. apply Rmult_le_compat_r; lra.
Qed.
Lemma inv_near a b : fair a b -> nearly (seg_inv_dt a b) (/ (val b - val a)) 3.
Proof.
  intro H. pose proof (fair_usual a b H) as U. destruct H as (Fa & Fb & R). destruct (inv_fair _ R) as [P I]. destruct (seg_values a b a Fa Fb Fa U ltac:(lra)) as (F & V & _). split; [exact F|]. split; [exact I|]. split; [|lra].
  rewrite V. apply usual_bpow in U. destruct (inv_err _ (proj1 U) (proj2 U)) as (e2 & E2 & ->). destruct (rd_minus (val b) (val a) (val_fmt b) (val_fmt a)) as (e1 & E1 & D1). rewrite D1. set (d := val b - val a) in *.
  pose proof tight_lt as T. pose proof u_pos. assert (U6 : u <= / 10 ^ 6) by (rewrite u_num; lra). apply Rabs_le_inv in E1. apply Rabs_le_inv in E2.
  assert (Z : 1 / (d * (1 + e1)) * (1 + e2) - / d = (e2 - e1) / (1 + e1) * / d) by (field; lra). rewrite Z, Rabs_mult, (Rabs_right (/ d)) by lra. apply Rmult_le_compat_r; [lra|].
  unfold Rdiv. rewrite Rabs_mult. assert (J : 0 < / (1 + e1) <= 11 / 10). { split; [apply Rinv_0_lt_compat; lra|]. rewrite <- (Rinv_inv (11 / 10)). apply Rinv_le; [lra|lra]. }
  rewrite (Rabs_right (/ (1 + e1))) by lra. apply Rle_trans with (2 * u * (11 / 10)); [|lra]. apply Rmult_le_compat; try lra; [apply Rabs_pos|apply Rabs_le; lra].
Qed.
Lemma nrm_near a b t : fair a b -> finite t -> val a <= val t <= val b -> near_time (seg_time_nrm a b t) ((val t - val a) / (val b - val a)).
Proof.
  intros H Ft T. pose proof (fair_usual a b H) as U. destruct H as (Fa & Fb & R). destruct (inv_fair _ R) as [P _]. destruct (seg_values a b t Fa Fb Ft U T) as (_ & _ & F & V). apply usual_bpow in U. destruct U as [Lo Hi].
  set (d := val b - val a) in *. set (y := (val t - val a) / d). assert (Y : y * d = val t - val a) by (unfold y; field; lra). assert (X : 0 <= val t - val a <= d) by (unfold d; lra). assert (Y0 : 0 <= y <= 1) by (split; apply Rmult_le_reg_r with d; lra).
  split; [exact F|]. rewrite V. split; [apply nrm_range; assumption|]. split; [exact Y0|].
  destruct (rd_minus (val t) (val a) (val_fmt t) (val_fmt a)) as (e & B & E). pose proof (nrm_accuracy d Lo Hi (val t - val a) e ltac:(lra) B E) as A. fold y in A. fold h in A.
  assert (u * y <= u * 1) by (apply Rmult_le_compat_l; [pose proof u_pos|]; lra). pose proof TwistProofs2.h_small_u. pose proof u_pos. lra.
Qed.

(** ** The list *)
Lemma stored_at e m fs cs i f a : (2 <= length cs)%nat -> all_stored e m fs cs -> nth_error fs i = Some f -> nth_error cs i = Some a -> finite (ftime f) /\ val (ftime f) = at_time a.
Proof.
  intros L [E ST] F A. assert (I : (i < length cs)%nat) by (apply nth_error_Some; congruence). destruct (Nat.eq_dec (S i) (length cs)) as [Z|Z].
  - destruct i as [|i]; [lia|]. destruct (nth_error fs i) as [g|] eqn:G; [|apply nth_error_None in G; lia]. destruct (nth_error cs i) as [b|] eqn:B; [|apply nth_error_None in B; lia].
    destruct (ST i g f b a (conj G F) (conj B A)) as (_ & _ & H1 & H2 & _). auto.
  - destruct (nth_error fs (Datatypes.S i)) as [g|] eqn:G; [|apply nth_error_None in G; lia]. destruct (nth_error cs (Datatypes.S i)) as [b|] eqn:B; [|apply nth_error_None in B; lia].
    destruct (ST i f g a b (conj F G) (conj A B)) as (_ & (H1 & H2 & _) & _). auto.
Qed.
Lemma stored_increasing e m fs cs : proper cs -> all_stored e m fs cs -> forall i f g, follow fs i f g -> flt (ftime f) (ftime g) = true.
Proof.
  intros (L & _ & T) S i f g [F G]. pose proof S as [E _]. assert (I : (Datatypes.S i < length fs)%nat) by (apply nth_error_Some; congruence).
  destruct (nth_error cs i) as [a|] eqn:A; [|apply nth_error_None in A; lia]. destruct (nth_error cs (Datatypes.S i)) as [b|] eqn:B; [|apply nth_error_None in B; lia].
  destruct (stored_at e m fs cs i f a L S F A) as [Ff Vf]. destruct (stored_at e m fs cs _ g b L S G B) as [Fg Vg]. destruct (T i a b (conj A B)) as [H _].
  apply flt_place; [apply finite_not_nan, Ff|apply finite_not_nan, Fg|]. rewrite !place_finite by assumption. lra.
Qed.
Lemma chain_times fs : (2 <= length fs)%nat -> (forall i f g, follow fs i f g -> flt (ftime f) (ftime g) = true) -> Forall (fun t => t <> B754_nan) (map ftime fs) /\ increasing (map ftime fs).
Proof.
  intros L H. split.
  - apply Forall_forall. intros t T. apply in_map_iff in T. destruct T as (f & <- & T). apply In_nth_error in T. destruct T as [i T]. assert (I : (i < length fs)%nat) by (apply nth_error_Some; congruence).
    destruct i as [|i].
    + destruct (nth_error fs 1) as [g|] eqn:G; [|apply nth_error_None in G; lia]. exact (proj1 (flt_not_nan _ _ (H 0%nat f g (conj T G)))).
    + destruct (nth_error fs i) as [g|] eqn:G; [|apply nth_error_None in G; lia]. exact (proj2 (flt_not_nan _ _ (H i g f (conj G T)))).
  - clear L. induction fs as [|a [|b fs] IH]; try exact I. cbn [map increasing]. split.
    + pose proof (H 0%nat a b (conj eq_refl eq_refl)) as T. destruct (flt_not_nan _ _ T). apply flt_place; assumption.
    + apply IH. intros i f g F. apply (H (S i)). apply follow_cons. right. exists i. auto.
Qed.
Lemma map_nth {A B} (f : A -> B) l i y : nth_error (map f l) i = Some y -> exists x, nth_error l i = Some x /\ y = f x.
Proof. rewrite nth_error_map. destruct (nth_error l i) as [x|]; cbn; [|discriminate]. intro H. injection H as <-. exists x. auto. Qed.

(** ** The answer *)
Lemma one_answer e m d f g a b k t s inv x p : 0 <= e -> u <= m -> (1 + m) * (e + 105 * u) <= / 10 ^ 5 -> d = at_time b - at_time a -> nearly k d 1 -> nearly inv (/ d) 3 -> stored e m d f a -> stored e m d g b -> near_time t s ->
  fsegment_point_at (fnormalized (fpoint f) k) (fnormalized (fpoint g) k) t x -> between (in_units d (at_state a)) (in_units d (at_state b)) s p ->
  jet_within (79 * ((1 + m) * (e + 105 * u))) (341 * ((1 + m) ^ 2 * (e + 105 * u)) / d) (2565 * ((1 + m) ^ 3 * (e + 105 * u)) / (d * d)) (funnormalize inv x) (in_units (/ d) p).
Proof.
  intros E M XS Ed NK NI SF SG NT P B. pose proof u_pos as Up. set (K := 1 + m). set (X := K * (e + 105 * u)).
  assert (K1 : 1 <= K) by (unfold K; lra). assert (XL : K * (105 * u) <= X) by (unfold X; apply Rmult_le_compat_l; lra). assert (XE : X = e + 105 * u + m * (e + 105 * u)) by (unfold X, K; ring).
  assert (m0 : 0 <= m * (e + 105 * u)) by (apply Rmult_le_pos; lra). assert (e5 : e <= / 10 ^ 5) by (fold K X in XS; lra). assert (m12 : m <= 10 ^ 12). { assert (K * (105 * u) <= / 10 ^ 5) by (fold K X in XS; lra). unfold K in *. rewrite u_num in *. lra. }
  pose proof (normalized_end e m d k f a NK SF ltac:(lra) ltac:(lra)) as EF. pose proof (normalized_end e m d k g b NK SG ltac:(lra) ltac:(lra)) as EG.
  assert (XX : (1 + m) * (e + 5 * u + 100 * u) = X) by (unfold X, K; ring).
  destruct (segment_near (e + 5 * u) m ltac:(lra) ltac:(lra) ltac:(rewrite XX; exact XS) _ _ _ _ t s x p EF EG NT P B) as (J & V & A). rewrite XX in J. fold K in J, V, A.
  replace (K ^ 2 * (e + 105 * u)) with (X * K) by (unfold X; ring). replace (K ^ 3 * (e + 105 * u)) with (X * (K * K)) by (unfold X; ring). replace (K * (e + 105 * u)) with X by reflexivity.
  pose proof NK as (_ & D & _). apply (unnormalized inv d x p X K NI D K1 XL XS J V A).
Qed.
Lemma looked_up fs cs t first last e m : proper cs -> all_stored e m fs cs -> finite t -> from_to cs first last -> first <= val t <= last ->
  exists i f g a b, follow fs i f g /\ follow cs i a b /\ at_time a <= val t <= at_time b /\
    ft_point_at_impl (FTCurve fs (segs fs)) t = Ok (seg_of (f, g), seg_inv_dt (ftime f) (ftime g), seg_time_nrm (ftime f) (ftime g) t).
Proof.
  intros Pr S Ft ((x & X & <-) & (y & Y & <-)) T. pose proof Pr as (L & _ & _). pose proof S as [E _]. pose proof (stored_increasing e m fs cs Pr S) as INC.
  destruct (chain_times fs ltac:(lia) INC) as [NN I]. assert (L2 : (2 <= length (map ftime fs))%nat) by (rewrite map_length; lia).
  destruct (point_at_spec (map ftime fs) t L2 NN I (finite_not_nan t Ft)) as (fr & bk & Fr & Bk & _ & H). apply map_nth in Fr, Bk. destruct Fr as (f0 & F0 & ->). destruct Bk as (f9 & F9 & ->). rewrite map_length, E in F9.
  destruct (stored_at e m fs cs _ _ _ L S F0 X) as [FF0 V0]. destruct (stored_at e m fs cs _ _ _ L S F9 Y) as [FF9 V9]. rewrite !place_finite in H by assumption. rewrite V0, V9 in H.
  destruct (H T) as (i & o & d & O & D & R & _ & PA). apply map_nth in O, D. destruct O as (f & F & ->). destruct D as (g & G & ->). assert (IL : (Datatypes.S i < length fs)%nat) by (apply nth_error_Some; congruence).
  destruct (nth_error cs i) as [a|] eqn:A; [|apply nth_error_None in A; lia]. destruct (nth_error cs (Datatypes.S i)) as [b|] eqn:B; [|apply nth_error_None in B; lia].
  destruct (stored_at e m fs cs _ _ _ L S F A) as [FF V]. destruct (stored_at e m fs cs _ _ _ L S G B) as [FG VG]. rewrite !place_finite in R by assumption. rewrite V, VG in R.
  exists i, f, g, a, b. split; [split; assumption|]. split; [split; assumption|]. split; [exact R|]. rewrite lookup_same, PA. cbn [in_segment inv_dt time_nrm]. rewrite (segs_nth fs i f g (conj F G)). reflexivity.
Qed.
Lemma curve_answers e m fs cs c t first last : 0 <= e -> u <= m -> (1 + m) * (e + 105 * u) <= / 10 ^ 5 -> proper cs -> all_stored e m fs cs -> ft_make fs = Ok c -> finite t -> from_to cs first last -> first <= val t <= last ->
  (exists f, ft_point_at c t (Ok f)) /\
  forall result p, ft_point_at c t result -> on_tcurve cs (val t) p ->
  exists f i a b, result = Ok f /\ follow cs i a b /\ at_time a <= val t <= at_time b /\ let d := at_time b - at_time a in
    jet_within (79 * ((1 + m) * (e + 105 * u))) (341 * ((1 + m) ^ 2 * (e + 105 * u)) / d) (2565 * ((1 + m) ^ 3 * (e + 105 * u)) / (d * d)) f p.
Proof.
  intros E M XS Pr S MK Ft FT T. destruct (proj1 (made_shape fs) c MK) as [-> _]. destruct (looked_up fs cs t first last e m Pr S Ft FT T) as (i & f & g & a & b & FF & FC & R & LU).
  unfold ft_point_at. rewrite LU. cbn [seg_of fst snd forig fdest]. set (k := fsub (ftime g) (ftime f)). split.
  - destruct (some_point (fnormalized (fpoint f) k) (fnormalized (fpoint g) k) (seg_time_nrm (ftime f) (ftime g) t)) as [x X]. eexists. exists x. split; [exact X|reflexivity].
  - intros result p (x & X & ->) O. exists (funnormalize (seg_inv_dt (ftime f) (ftime g)) x), i, a, b. split; [reflexivity|]. split; [exact FC|]. split; [exact R|]. cbv zeta. set (d := at_time b - at_time a).
    destruct S as [_ ST]. destruct (ST i f g a b FF FC) as (D & SF & SG). fold d in D, SF, SG. pose proof SF as (Ff & Vf & _). pose proof SG as (Fg & Vg & _).
    assert (FA : fair (ftime f) (ftime g)) by (split; [exact Ff|]; split; [exact Fg|]; rewrite Vf, Vg; exact D). pose proof (dt_near _ _ FA) as NK. pose proof (inv_near _ _ FA) as NI. pose proof (nrm_near _ _ t FA Ft ltac:(lra)) as NT. rewrite Vf, Vg in NK, NI, NT. fold d in NK, NI, NT. fold k in NK.
    destruct (the_curve cs first last Pr FT) as (P & PC & _). destruct Pr as (_ & RO & PR). destruct (PR i a b FC) as (Tab & W). destruct FC as [CA CB].
    assert (GP : good_pair a b). { split; [exact (proj1 (Forall_forall _ _) RO a (nth_error_In _ _ CA))|]. split; [exact (proj1 (Forall_forall _ _) RO b (nth_error_In _ _ CB))|]. auto. }
    destruct (the_piece a b GP) as (Q & QC & _). assert (OP : on_piece a b (val t) (Q (val t))) by (apply QC; auto). assert (OT : on_tcurve cs (val t) (Q (val t))) by (exists i, a, b; split; [split; assumption|exact OP]).
    apply PC in OT. apply PC in O. destruct OT as [_ OT]. destruct O as [_ O]. rewrite O, <- OT. destruct OP as [_ (q & BQ & EQ)]. fold d in BQ, EQ. rewrite EQ.
    exact (one_answer e m d f g a b k _ _ _ x q E M XS eq_refl NK NI SF SG NT X BQ).
Qed.
Lemma curve_refuses fs c t : ft_make fs = Ok c -> ((length fs < 2)%nat \/ exists front back, nth_error fs 0 = Some front /\ nth_error fs (length fs - 1) = Some back /\ ~ not_a_number t /\ (place t < place (ftime front) \/ place (ftime back) < place t)) ->
  forall result, ft_point_at c t result <-> result = Throw.
Proof.
  intros MK H result. destruct (proj1 (made_shape fs) c MK) as [-> INC]. unfold ft_point_at. destruct (le_lt_dec 2 (length fs)) as [L|L].
  - destruct H as [H|(fr & bk & F & B & NT & H)]; [lia|]. destruct (chain_times fs L INC) as [NN I]. destruct (point_at_spec (map ftime fs) t ltac:(rewrite map_length; exact L) NN I NT) as (fr' & bk' & F' & B' & TH & _).
    apply map_nth in F', B'. destruct F' as (x & F' & ->). destruct B' as (y & B' & ->). rewrite map_length in B'. assert (x = fr) by congruence. assert (y = bk) by congruence. subst x y. rewrite lookup_same, (TH H). tauto.
  - destruct fs as [|a [|b fs]]; [tauto|cbn; tauto|cbn in L; lia].
Qed.
