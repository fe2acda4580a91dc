(** What Gaussians in double precision accept, hold and draw. *)
From Coq Require Import Reals Lra Lia List Permutation Psatz Bool.
From Flocq Require Import Core BinarySingleNaN.
From Verif Require Import Cpp FloatModel FloatSpec FloatProofs NrmSpec NrmProofs LenModel LenSpec LenProofs Vec RotSpec RotProofs DriftModel DriftSpec DriftProofs DriftProofs2 SpinModel SpinProofs SpinProofs3 StatModel StatSpec StatProofs FstModel FstSpec FstProofs FstProofs2 FapModel FapSpec FapProofs FapProofs2 GsnModel GsnSpec GsnProofs GsnProofs2.
Import ListNotations.
Local Open Scope R_scope.

Lemma vcoeffs_in v x : In x (fvcoeffs v) <-> exists i, (i < fsize v)%nat /\ x = fcoef v i.
Proof.
  unfold fvcoeffs. rewrite in_map_iff. split; [intros (i & <- & I); apply in_seq in I; exists i; split; [lia|reflexivity]|]. intros (i & I & ->). exists i. split; [reflexivity|apply in_seq; lia].
Qed.
Lemma neg_val x : finite x -> finite (fneg x) /\ val (fneg x) = - val x.
Proof. intro F. split; [unfold finite, fneg in *; rewrite is_finite_Bopp; exact F|]. unfold val, fneg. apply B2R_Bopp. Qed.
Lemma zero_val : finite (of_int 0) /\ val (of_int 0) = 0.
Proof. apply DriftProofs2.of_int_0. Qed.

(** The smallest eigenvalue. *)
Lemma least_value n s e : solved n s -> fmin_coeff (fvcoeffs (fvalues s)) e -> finite e /\ (exists k, (k < n)%nat /\ val e = val (fcoef (fvalues s) k)) /\ forall k, (k < n)%nat -> val e <= val (fcoef (fvalues s) k).
Proof.
  intros (_ & L & F) [I M]. apply vcoeffs_in in I. destruct I as (k & K & ->). rewrite L in K. split; [apply F, K|]. split; [exists k; auto|]. intros j J. destruct M as [M|M].
  - apply vcoeffs_in in M. destruct M as (i & I & E). rewrite L in I. exfalso. apply (finite_not_nan _ (F i I)). symmetry. exact E.
  - assert (H : fle (fcoef (fvalues s) k) (fcoef (fvalues s) j) = true) by (apply M, vcoeffs_in; exists j; split; [lia|reflexivity]). apply fle_val in H; auto.
Qed.
(** The largest and the smallest entry of the covariance. *)
Lemma extremes c hi lo t : all_finite c -> no_bigger (2 ^ 1000) c -> StatSpec.tolerance (holds c) t -> fmax_coeff (fcoeffs c) hi -> fmin_coeff (fcoeffs c) lo ->
  finite (ftol hi lo) /\ Rabs (val (ftol hi lo) - t) <= 4 * u * t.
Proof.
  intros F B (i & j & k & l & I & J & K & L & E & T) [HI HM] [LI LM]. cbn [holds rows cols entry] in *.
  assert (N : ~ In B754_nan (fcoeffs c)) by (apply finite_no_nan; apply coeffs_all; exact F).
  destruct HM as [HM|HM]; [contradiction|]. destruct LM as [LM|LM]; [contradiction|].
  assert (G : forall p q, (p < frows c)%nat -> (q < fcols c)%nat -> In (fentry c p q) (fcoeffs c)) by (intros p q P Q; apply coeffs_in; exists p, q; auto).
  pose proof (HM _ (G k l K L)) as H1. pose proof (LM _ (G i j I J)) as H2. apply coeffs_in in HI, LI. destruct HI as (p & q & P & Q & ->). destruct LI as (p' & q' & P' & Q' & ->).
  apply fle_val in H1; [|apply F; assumption..]. apply fle_val in H2; [|apply F; assumption..].
  pose proof (E p q P Q) as E1. pose proof (E p' q' P' Q') as E2. pose proof (E i j I J) as E3.
  apply (tol_near _ _ (val (fentry c p q) - val (fentry c p' q')) t); [apply F; assumption|apply F; assumption|apply B; assumption|apply B; assumption|reflexivity|lra|].
  replace (val (fentry c p q) - val (fentry c p' q')) with (val (fentry c k l) - val (fentry c i j)) by lra. exact T.
Qed.
Lemma tolerance_pos c t : StatSpec.tolerance c t -> / 10 ^ 15 <= t.
Proof.
  intros (i & j & k & l & _ & _ & _ & _ & _ & [[-> _]|[-> H]]); [lra|]. unfold Rdiv. rewrite <- (Rmult_1_l (/ 10 ^ 15)) at 1. apply Rmult_le_compat_r; [|exact H]. left. apply Rinv_0_lt_compat, pow_lt. lra.
Qed.

Lemma mul_no_nan x y : finite x -> finite y -> fmul x y <> B754_nan.
Proof.
  intros X Y E. pose proof (Bmult_correct 53 1024 prec_pos prec_emax mode_NE x y) as C. change (Bmult mode_NE x y) with (fmul x y) in C. rewrite E in C.
  destruct (Rlt_bool _ _) in C; [destruct C as (_ & C & _); rewrite X, Y in C; discriminate C|]. unfold binary_overflow in C. cbn in C. discriminate C.
Qed.
Lemma neg_below x e : x <> B754_nan -> 0 < place x -> finite e -> 0 <= val e -> flt (fneg x) e = true.
Proof.
  intros N P F E. apply flt_place; [destruct x; try discriminate; contradiction|apply finite_not_nan, F|]. rewrite (place_finite e F). apply Rlt_le_trans with 0; [|exact E].
  destruct (is_finite x) eqn:X.
  - destruct (neg_val x X) as [FN VN]. rewrite (place_finite _ FN), VN. rewrite (place_finite x X) in P. lra.
  - destruct x as [s|[|]| |s m q b]; try discriminate X; [| |contradiction]; unfold place in P; cbn [fneg Bopp negb place]; pose proof pow_1024_pos; lra.
Qed.
Lemma mul_pos_no_nan x b : x <> B754_nan -> finite b -> 0 < val b -> fmul x b <> B754_nan.
Proof.
  intros X F P. destruct b as [s|s| |s m e q]; try discriminate F; [cbn in P; lra|]. destruct x as [sd|sd| |sd md ed pd]; [discriminate|discriminate|contradiction|]. apply mul_no_nan; reflexivity.
Qed.
Lemma base_pos : 0 < val tol_base.
Proof.
  destruct base_val as [_ EB]. apply Rabs_le_inv in EB. replace (/ 10 ^ 15) with (/ 1000000000000000) in EB by (f_equal; ring). pose proof h_tiny' as H. replace (10 ^ 60) with 1000000000000000000000000000000000000000000000000000000000000 in H by ring. rewrite u_num in EB. lra.
Qed.
Lemma tol_place d : d <> B754_nan -> fmaxi (fmul d tol_base) tol_base <> B754_nan /\ 0 < place (fmaxi (fmul d tol_base) tol_base).
Proof.
  intro D. destruct base_val as [FB _]. pose proof base_pos as BP. generalize dependent tol_base. intros b FB BP. pose proof (mul_pos_no_nan d b D FB BP) as N. unfold fmaxi. destruct (flt _ b) eqn:Q.
  - split; [apply finite_not_nan, FB|]. rewrite (place_finite b FB). exact BP.
  - split; [exact N|]. apply (flt_false _ _ N (finite_not_nan _ FB)) in Q. rewrite (place_finite b FB) in Q. lra.
Qed.
(** ** What is accepted *)
Lemma rejects_asymmetric solve n m c r : fmake_gaussian solve m c r -> sized n m c -> (n <= 1024)%nat -> all_finite c -> no_bigger (2 ^ 480) c -> / 2 ^ 700 <= weight c ->
  (1 + / 10 ^ 8) * ((/ 10 ^ 12) ^ 2 * weight c) <= asymmetry c -> r = Throw.
Proof.
  intros M S N F B W A. destruct n as [|n].
  - exfalso. destruct S as (_ & S & _). unfold weight in W. rewrite S in W. cbn in W. assert (0 < / 2 ^ 700) by (apply Rinv_0_lt_compat, pow_lt; lra). lra.
  - destruct (made_cases solve _ m c r M S) as (s & K & T & _); [lia|]. destruct S as (_ & S2 & S3 & _). destruct (checked_ordinary c s K) as [_ H]; [lia|lia|assumption..|]. apply T, H, A.
Qed.
Lemma rejects_nan solve n m c r i j : fmake_gaussian solve m c r -> sized n m c -> (i < n)%nat -> (j < n)%nat ->
  fentry c i j = B754_nan \/ (exists b, fentry c i j = B754_infinity b /\ fentry c j i = B754_infinity b) -> r = Throw.
Proof.
  intros M S I J H. destruct (made_cases solve _ m c r M S) as (s & K & T & _); [lia|]. destruct S as (_ & S2 & S3 & _). apply T. apply (checked_nan c s K); [lia|]. exists i, j. split; [lia|]. split; [lia|]. apply sub_nan. tauto.
Qed.
Lemma rejects_issue solve n m c r : fmake_gaussian solve m c r -> sized n m c -> (0 < n)%nat -> finfo (solve c) = NumericalIssue -> r = Throw.
Proof. intros M S N I. destruct (made_cases solve _ m c r M S N) as (s & K & T & T' & _). destruct s; auto. Qed.
Lemma rejects_negative solve n m c r t k : fmake_gaussian solve m c r -> sized n m c -> solved n (solve c) -> all_finite c -> no_bigger (2 ^ 1000) c -> StatSpec.tolerance (holds c) t -> (k < n)%nat ->
  val (fcoef (fvalues (solve c)) k) <= - ((1 + 4 * u) * t) -> r = Throw.
Proof.
  intros M S V F B T K H. destruct (made_cases solve _ m c r M S) as (s & _ & T1 & _ & T2); [lia|]. destruct s; [|auto]. destruct (T2 eq_refl V) as (hi & lo & e & A1 & A2 & A3 & R & _). apply R.
  destruct (extremes c hi lo t F B T A1 A2) as [FT ET]. destruct (least_value n _ e V A3) as (FE & _ & L). specialize (L k K). destruct (neg_val _ FT) as [FN VN]. apply Rabs_le_inv in ET.
  destruct (flt (fneg (ftol hi lo)) e) eqn:Q; [|reflexivity]. apply flt_val in Q; try assumption. lra.
Qed.
Lemma symmetric_checked n m c s : checked c s -> sized n m c -> all_finite c ->
  (forall i j, (i < n)%nat -> (j < n)%nat -> Rabs (val (fentry c i j) - val (fentry c j i)) <= / 2 ^ 538) \/
  (exists i j, (i < n)%nat /\ (j < n)%nat /\ 2 ^ 512 <= Rabs (val (fentry c i j))) \/
  ((n <= 1024)%nat /\ no_bigger (2 ^ 480) c /\ / 2 ^ 700 <= weight c /\ asymmetry c <= (1 - / 10 ^ 8) * ((/ 10 ^ 12) ^ 2 * weight c)) -> s = true.
Proof.
  intros K (_ & S2 & S3 & _) F [H|[(i & j & I & J & H)|(N & B & W & A)]].
  - apply (checked_same c s K); [lia|exact F|]. rewrite S2. exact H.
  - apply (checked_huge c s K F). exists i, j. rewrite S2, S3. auto.
  - apply (checked_ordinary c s K); try assumption; lia.
Qed.
Lemma accepts solve n m c r : fmake_gaussian solve m c r -> sized n m c -> (0 < n)%nat -> solved n (solve c) -> all_finite c ->
  (forall i j, (i < n)%nat -> (j < n)%nat -> Rabs (val (fentry c i j) - val (fentry c j i)) <= / 2 ^ 538) \/
  (exists i j, (i < n)%nat /\ (j < n)%nat /\ 2 ^ 512 <= Rabs (val (fentry c i j))) \/
  ((n <= 1024)%nat /\ no_bigger (2 ^ 480) c /\ / 2 ^ 700 <= weight c /\ asymmetry c <= (1 - / 10 ^ 8) * ((/ 10 ^ 12) ^ 2 * weight c)) ->
  (forall k, (k < n)%nat -> 0 <= val (fcoef (fvalues (solve c)) k)) \/
  (no_bigger (2 ^ 1000) c /\ exists t, StatSpec.tolerance (holds c) t /\ forall k, (k < n)%nat -> - ((1 - 4 * u) * t) < val (fcoef (fvalues (solve c)) k)) ->
  exists g, r = Ok g.
Proof.
  intros M S N V F Y P. destruct (made_cases solve _ m c r M S N) as (s & K & _ & _ & T2). rewrite (symmetric_checked n m c s K S F Y) in T2. destruct (T2 eq_refl V) as (hi & lo & e & A1 & A2 & A3 & _ & R). eexists. apply R.
  destruct (least_value n _ e V A3) as (FE & (k & KK & L) & _). destruct P as [P|(B & t & T & P)].
  - specialize (P k KK). assert (FH : finite hi) by (destruct A1 as [I _]; apply coeffs_in in I; destruct I as (p & q & ? & ? & ->); apply F; assumption).
    assert (FL : finite lo) by (destruct A2 as [I _]; apply coeffs_in in I; destruct I as (p & q & ? & ? & ->); apply F; assumption).
    destruct (tol_place _ (sub_no_nan hi lo FH FL)) as [NN PT]. fold (ftol hi lo) in NN, PT. apply neg_below; [exact NN|exact PT|exact FE|]. rewrite L. exact P.
  - destruct (extremes c hi lo t F B T A1 A2) as [FT ET]. destruct (neg_val _ FT) as [FN VN]. apply Rabs_le_inv in ET. specialize (P k KK). apply flt_val; try assumption. lra.
Qed.

(** ** Infinite entries *)
Lemma accepts_infinite solve n m c r : fmake_gaussian solve m c r -> sized n m c -> solved n (solve c) ->
  (forall i j, (i < n)%nat -> (j < n)%nat -> fentry c i j <> B754_nan /\ forall b, ~ (fentry c i j = B754_infinity b /\ fentry c j i = B754_infinity b)) ->
  (exists i j b, (i < n)%nat /\ (j < n)%nat /\ fentry c i j = B754_infinity b) -> exists g, r = Ok g.
Proof.
  intros M S V H (i & j & b & I & J & E). destruct (made_cases solve _ m c r M S) as (s & K & _ & _ & T2); [lia|]. pose proof S as (_ & S2 & S3 & _).
  assert (Y : s = true).
  { apply (checked_infinite c s K); [lia| |exists i, j, b; rewrite S2; auto]. rewrite S2. intros p q P Q D. apply sub_nan in D. destruct D as [D|[D|(b' & D)]]; [apply (H p q P Q), D|apply (H q p Q P), D|apply (proj2 (H p q P Q) b'), D]. }
  destruct (T2 Y V) as (hi & lo & e & A1 & A2 & A3 & _ & R). eexists. apply R. destruct (least_value n _ e V A3) as (FE & _ & _).
  assert (N : ~ In B754_nan (fcoeffs c)) by (intro D; apply coeffs_in in D; rewrite S2, S3 in D; destruct D as (p & q & P & Q & D); apply (proj1 (H p q P Q)); auto).
  destruct A1 as [HI [HM|HM]]; [contradiction|]. destruct A2 as [LI [LM|LM]]; [contradiction|].
  assert (G : forall p q, (p < n)%nat -> (q < n)%nat -> In (fentry c p q) (fcoeffs c)) by (intros p q P Q; apply coeffs_in; exists p, q; rewrite S2, S3; auto).
  (* some entry is infinite, the diagonal is not *)
  assert (D : fsub hi lo = B754_infinity false).
  { assert (FD : finite (fentry c 0 0)).
    { assert (Z : (0 < n)%nat) by lia. pose proof (H 0%nat 0%nat Z Z) as [D1 D2]. destruct (fentry c 0 0) as [|b'| |] eqn:Q; try reflexivity; [exfalso; apply (D2 b'); auto|contradiction]. }
    pose proof (HM _ (G 0%nat 0%nat ltac:(lia) ltac:(lia))) as H1. pose proof (LM _ (G 0%nat 0%nat ltac:(lia) ltac:(lia))) as L1.
    pose proof (HM _ (G i j I J)) as H2. pose proof (LM _ (G i j I J)) as L2. rewrite E in H2, L2.
    assert (NH : hi <> B754_nan) by (intros ->; contradiction). assert (NL : lo <> B754_nan) by (intros ->; contradiction).
    destruct (fentry c 0 0) as [s0|s0| |s0 m0 e0 b0] eqn:Q; try discriminate FD; destruct b; destruct hi as [sh|[|]| |[|] mh eh bh]; try contradiction; try discriminate H1; try discriminate H2;
      destruct lo as [sl|[|]| |[|] ml el bl]; try contradiction; try discriminate L1; try discriminate L2; try reflexivity. }
  assert (T : ftol hi lo = B754_infinity false).
  { unfold ftol. rewrite D. destruct base_val as [FB _]. pose proof base_pos as BP. generalize dependent tol_base. intros w FB BP. destruct w as [sw|sw| |sw mw ew bw]; try discriminate FB; [cbn in BP; lra|].
    destruct sw; [exfalso; apply Rlt_not_le in BP; apply BP; unfold val, B2R; left; apply F2R_lt_0; reflexivity|]. reflexivity. }
  rewrite T. destruct e as [|se| |se me ee be]; try discriminate FE; reflexivity.
Qed.
(** ** What a Gaussian holds *)
Lemma made solve n m c g : fmake_gaussian solve m c (Ok g) -> sized n m c -> (0 < n)%nat -> solved n (solve c) ->
  fdims g = Z.of_nat n /\ fmu g = m /\ fcov g = c /\ feigenvectors g = fvectors (solve c) /\ fsize (feigenvalues g) = n /\ fsize (fsqrt_eigenvalues g) = n /\
  forall k, (k < n)%nat -> finite (fcoef (feigenvalues g) k) /\ val (fcoef (feigenvalues g) k) = Rmax (val (fcoef (fvalues (solve c)) k)) 0 /\
    finite (fcoef (fsqrt_eigenvalues g) k) /\ 0 <= val (fcoef (fsqrt_eigenvalues g) k) /\
    Rabs (val (fcoef (fsqrt_eigenvalues g) k) - sqrt (val (fcoef (feigenvalues g) k))) <= u * sqrt (val (fcoef (feigenvalues g) k)).
Proof.
  intros M S N V. destruct (made_cases solve _ m c _ M S N) as (s & K & T & _ & T2). destruct s; [|discriminate (T eq_refl)]. destruct (T2 eq_refl V) as (hi & lo & e & _ & _ & _ & R1 & R2).
  destruct (flt (fneg (ftol hi lo)) e); [|discriminate (R1 eq_refl)]. specialize (R2 eq_refl). injection R2 as ->. cbn [fdims fmu fcov feigenvectors feigenvalues fsqrt_eigenvalues fsize fcoef].
  repeat (split; [reflexivity|]). intros k Hk. destruct V as (_ & _ & F). destruct zero_val as [FZ VZ]. destruct (maxi_val _ _ (F k Hk) FZ) as [FM VM]. rewrite VZ in VM. split; [exact FM|]. split; [exact VM|].
  assert (P : 0 <= val (fmaxi (fcoef (fvalues (solve c)) k) (of_int 0))) by (rewrite VM; apply Rmax_r). exact (fsqrt_rel _ FM P).
Qed.
(** Every eigenvalue that is accepted is above the tolerance. *)
Lemma made_above solve n m c g t k : fmake_gaussian solve m c (Ok g) -> sized n m c -> solved n (solve c) -> all_finite c -> no_bigger (2 ^ 1000) c -> StatSpec.tolerance (holds c) t -> (k < n)%nat ->
  - ((1 + 4 * u) * t) < val (fcoef (fvalues (solve c)) k).
Proof.
  intros M S V F B T K. destruct (Rle_or_lt (val (fcoef (fvalues (solve c)) k)) (- ((1 + 4 * u) * t))) as [H|H]; [|exact H]. discriminate (rejects_negative solve n m c (Ok g) t k M S V F B T K H).
Qed.
(** ** The covariance of the samples *)
Lemma total_abs_le n f g : (forall k, (k < n)%nat -> Rabs (f k) <= g k) -> Rabs (total n f) <= total n g.
Proof. intro H. eapply Rle_trans; [apply total_abs|]. apply total_le. exact H. Qed.
Lemma reproduces solve n m c g t d i j : fmake_gaussian solve m c (Ok g) -> sized n m c -> solved n (solve c) -> all_finite c -> no_bigger (2 ^ 1000) c -> StatSpec.tolerance (holds c) t ->
  let v p q := val (fentry (fvectors (solve c)) p q) in let e k := val (fcoef (fvalues (solve c)) k) in (i < n)%nat -> (j < n)%nat ->
  Rabs (total n (fun k => v i k * e k * v j k) - val (fentry c i j)) <= d ->
  Rabs (given_covariance n (fun p q => val (fentry (feigenvectors g) p q)) (fun k => val (fcoef (fsqrt_eigenvalues g) k)) i j - val (fentry c i j)) <=
  d + total n (fun k => Rabs (v i k * v j k) * (3 * u * Rabs (e k) + (1 + 4 * u) * t)).
Proof.
  intros M S V F B T v e I J D. destruct (made solve n m c g M S ltac:(lia) V) as (_ & _ & _ & EV & _ & _ & H). unfold given_covariance. rewrite EV. fold v.
  set (s := fun k => val (fcoef (fsqrt_eigenvalues g) k)). 
  replace (_ - val (fentry c i j)) with (total n (fun k => v i k * s k * (v j k * s k) - v i k * e k * v j k) + (total n (fun k => v i k * e k * v j k) - val (fentry c i j))) by (rewrite total_minus; unfold v, s; ring).
  eapply Rle_trans; [apply Rabs_triang|]. rewrite Rplus_comm. apply Rplus_le_compat; [exact D|]. apply total_abs_le. intros k K.
  replace (v i k * s k * (v j k * s k) - v i k * e k * v j k) with (v i k * v j k * (s k * s k - e k)) by ring. rewrite Rabs_mult. apply Rmult_le_compat_l; [apply Rabs_pos|].
  destruct (H k K) as (_ & VM & _ & S0 & ES). fold (s k) in S0, ES. fold (e k) in VM. pose proof (made_above solve n m c g t k M S V F B T K) as A. fold (e k) in A. pose proof (tolerance_pos _ _ T) as T0. assert (T1 : 0 < t) by (eapply Rlt_le_trans; [|exact T0]; apply Rinv_0_lt_compat, pow_lt; lra).
  rewrite VM in ES. set (x := Rmax (e k) 0) in *. assert (X0 : 0 <= x) by apply Rmax_r. pose proof (sqrt_sqrt x X0) as SS. pose proof (sqrt_pos x) as Q0. set (q := sqrt x) in *. apply Rabs_le_inv in ES.
  assert (P : Rabs (s k * s k - x) <= 3 * u * x).
  { rewrite <- SS. replace (s k * s k - q * q) with ((s k - q) * (s k + q)) by ring. rewrite Rabs_mult. apply Rle_trans with ((u * q) * ((2 + u) * q)); [|rewrite u_num; nra].
    apply Rmult_le_compat; try apply Rabs_pos; [apply Rabs_le; lra|]. rewrite Rabs_right by lra. lra. }
  pose proof u_num as U. apply Rabs_le_inv in P. unfold x, Rmax in *. destruct (Rle_dec (e k) 0) as [L|L].
  - rewrite (Rabs_left1 (e k)) by lra. apply Rabs_le. rewrite U in *. lra.
  - rewrite (Rabs_right (e k)) by lra. apply Rabs_le. rewrite U in *. lra.
Qed.
(** ** Samples *)
Lemma total_near n f g b : (forall k, (k < n)%nat -> Rabs (f k - g k) <= b k) -> Rabs (total n f - total n g) <= total n b.
Proof. intro H. rewrite <- total_minus. apply total_abs_le. exact H. Qed.
Lemma drawn_near g z y n i j : fsamples g z y -> frows (feigenvectors g) = n -> fcols z = n -> (n <= 2 ^ 20)%nat -> (i < frows z)%nat -> (j < n)%nat ->
  (forall k, (k < n)%nat -> finite (fentry z i k) /\ Rabs (val (fentry z i k)) <= 2 ^ 10) ->
  (forall k, (k < n)%nat -> finite (fcoef (feigenvalues g) k) /\ 0 <= val (fcoef (feigenvalues g) k)) ->
  (forall k, (k < n)%nat -> finite (fcoef (fsqrt_eigenvalues g) k) /\ Rabs (val (fcoef (fsqrt_eigenvalues g) k) - sqrt (val (fcoef (feigenvalues g) k))) <= u * sqrt (val (fcoef (feigenvalues g) k))) ->
  (forall k, (k < n)%nat -> finite (fentry (feigenvectors g) j k) /\ Rabs (val (fentry (feigenvectors g) j k)) <= 2) ->
  finite (fcoef (fmu g) j) -> Rabs (val (fcoef (fmu g) j)) <= 2 ^ 1000 ->
  let w k := val (fentry z i k) * sqrt (val (fcoef (feigenvalues g) k)) * val (fentry (feigenvectors g) j k) in
  finite (fentry y i j) /\ Rabs (val (fentry y i j) - (total n w + val (fcoef (fmu g) j))) <=
    (INR n + 6) * u * (total n (fun k => Rabs (w k)) + Rabs (val (fcoef (fmu g) j))) + 6 * INR n * tiny.
Proof.
  intros (_ & _ & Y) RV CZ N I J HZ HE HS HV FM BM w. rewrite RV, CZ in Y. destruct (Y i j I J) as (s & SS & ->). rewrite tiny_h. clear Y.
  set (mu := val (fcoef (fmu g) j)) in *. set (p := fun k => fmul (fmul (fentry z i k) (fcoef (fsqrt_eigenvalues g) k)) (fentry (feigenvectors g) j k)) in *.
  pose proof (many_u n N) as NU. pose proof (many_h n N) as NH. pose proof (pos_INR n) as N0. pose proof u_num as U. pose proof h_pos as H0. pose proof h_1 as H1.
  assert (H2 : h <= / 10000000000000000) by (pose proof h_tiny' as H; replace (10 ^ 60) with 1000000000000000000000000000000000000000000000000000000000000 in H by ring; lra).
  assert (Q1000 : 2 ^ 1000 = 2 ^ 440 * 2 ^ 560) by (rewrite <- pow_add; reflexivity). assert (Q440 : 1048576 <= 2 ^ 440) by (apply Rle_trans with (2 ^ 20); [lra|apply Rle_pow; [lra|apply Nat.leb_le; reflexivity]]).
  assert (Q560 : 1 <= 2 ^ 560) by (apply pow_R1_Rle; lra). assert (Q540 : 2 ^ 560 = 2 ^ 20 * 2 ^ 540) by (rewrite <- pow_add; reflexivity). assert (P540 : 1 <= 2 ^ 540) by (apply pow_R1_Rle; lra).
  assert (T : forall k, (k < n)%nat -> finite (p k) /\ Rabs (w k) <= 2 ^ 540 /\ Rabs (val (p k) - w k) <= 33 / 10 * u * Rabs (w k) + 4 * h).
  { intros k K. destruct (HZ k K) as [FZ BZ]. destruct (HE k K) as [FE PE]. destruct (HS k K) as [FS ES]. destruct (HV k K) as [FV BV]. unfold p, w.
    assert (BE : sqrt (val (fcoef (feigenvalues g) k)) <= 2 ^ 512).
    { rewrite <- (sqrt_square (2 ^ 512)) by (left; apply pow_lt; lra). apply sqrt_le_1_alt. rewrite <- pow_add. change (512 + 512)%nat with 1024%nat. pose proof (val_bound (fcoef (feigenvalues g) k)) as VB. apply Rabs_def2 in VB. lra. }
    pose proof (sqrt_pos (val (fcoef (feigenvalues g) k))) as Q0. set (q := sqrt (val (fcoef (feigenvalues g) k))) in *. set (z0 := val (fentry z i k)) in *. set (v := val (fentry (feigenvectors g) j k)) in *. set (r := val (fcoef (fsqrt_eigenvalues g) k)) in *.
    assert (P512 : 0 < 2 ^ 512) by (apply pow_lt; lra).
    assert (ZQ : Rabs (z0 * q) <= 2 ^ 522). { rewrite Rabs_mult, (Rabs_right q) by lra. replace (2 ^ 522) with (2 ^ 10 * 2 ^ 512) by (rewrite <- pow_add; reflexivity). apply Rmult_le_compat; [apply Rabs_pos|exact Q0|exact BZ|exact BE]. }
    assert (A : Rabs (z0 * r - z0 * q) <= u * Rabs (z0 * q)). { replace (z0 * r - z0 * q) with (z0 * (r - q)) by ring. rewrite !Rabs_mult, (Rabs_right q) by lra. pose proof (Rabs_pos z0). nra. }
    set (x := z0 * q) in *. assert (L522 : 2 ^ 522 <= 2 ^ 540) by (apply Rle_pow; [lra|apply Nat.leb_le; reflexivity]). assert (L523 : 2 * 2 ^ 522 <= 2 ^ 540) by (change (2 * 2 ^ 522) with (2 ^ 523); apply Rle_pow; [lra|apply Nat.leb_le; reflexivity]).
    assert (ZR : Rabs (z0 * r) <= (1 + u) * Rabs x). { replace (z0 * r) with (x + (z0 * r - x)) by ring. eapply Rle_trans; [apply Rabs_triang|]. lra. }
    assert (E540 : 2 * 2 ^ 540 <= 2 ^ 1000) by (rewrite Q1000, Q540; nra).
    destruct (mul_error _ _ FZ FS) as [F1 E1]; [fold z0 r; rewrite U in ZR; lra|]. fold z0 r in E1. set (a := val (fmul (fentry z i k) (fcoef (fsqrt_eigenvalues g) k))) in *.
    assert (EA : Rabs (a - x) <= 21 / 10 * u * Rabs x + h).
    { replace (a - x) with ((a - z0 * r) + (z0 * r - x)) by ring. eapply Rle_trans; [apply Rabs_triang|]. assert (u * Rabs (z0 * r) <= u * ((1 + u) * Rabs x)) by (apply Rmult_le_compat_l; [rewrite U; lra|exact ZR]). pose proof (Rabs_pos x). rewrite U in *. lra. }
    assert (EV : Rabs (a * v - x * v) <= 21 / 10 * u * Rabs (x * v) + 2 * h).
    { replace (a * v - x * v) with ((a - x) * v) by ring. rewrite !Rabs_mult. pose proof (Rabs_pos v). assert (Rabs (a - x) * Rabs v <= (21 / 10 * u * Rabs x + h) * Rabs v) by (apply Rmult_le_compat_r; assumption). assert (h * Rabs v <= h * 2) by (apply Rmult_le_compat_l; lra). lra. }
    assert (XV : Rabs (x * v) <= 2 ^ 540). { rewrite Rabs_mult. apply Rle_trans with (2 ^ 522 * 2); [apply Rmult_le_compat; try apply Rabs_pos; assumption|lra]. }
    assert (AV : Rabs (a * v) <= (1 + 21 / 10 * u) * Rabs (x * v) + 2 * h). { replace (a * v) with (x * v + (a * v - x * v)) by ring. eapply Rle_trans; [apply Rabs_triang|]. lra. }
    destruct (mul_error _ _ F1 FV) as [F2 E2]; [fold a v; rewrite U in AV; pose proof (Rabs_pos (x * v)); lra|]. fold a v in E2. split; [exact F2|]. split; [exact XV|].
    replace (val _ - x * v) with ((val (fmul (fmul (fentry z i k) (fcoef (fsqrt_eigenvalues g) k)) (fentry (feigenvectors g) j k)) - a * v) + (a * v - x * v)) by ring. eapply Rle_trans; [apply Rabs_triang|].
    assert (u * Rabs (a * v) <= u * ((1 + 21 / 10 * u) * Rabs (x * v) + 2 * h)) by (apply Rmult_le_compat_l; [rewrite U; lra|exact AV]). pose proof (Rabs_pos (x * v)). rewrite U in *. lra. }
  set (W := total n (fun k => Rabs (w k))). assert (W0 : 0 <= W) by (apply total_nonneg; intros; apply Rabs_pos).
  assert (WB : W <= INR n * 2 ^ 540). { unfold W. rewrite <- total_const. apply total_le. intros k K. apply (T k K). }
  assert (NB : INR n <= 1048576). { apply le_INR in N. rewrite pow_INR in N. replace (INR 2) with 2 in N by (cbn; lra). assert (E : 2 ^ 20 = 1048576) by ring. lra. }
  assert (WB' : W <= 2 ^ 560). { rewrite Q540. replace (2 ^ 20) with 1048576 by ring. eapply Rle_trans; [exact WB|]. apply Rmult_le_compat_r; lra. }
  assert (PF : Forall finite (map p (seq 0 n))) by (apply Forall_map, Forall_forall; intros k K; apply in_seq in K; apply T; lia).
  assert (PW : total n (fun k => Rabs (val (p k))) <= (1 + 33 / 10 * u) * W + 4 * INR n * h).
  { replace ((1 + 33 / 10 * u) * W + 4 * INR n * h) with (total n (fun k => (1 + 33 / 10 * u) * Rabs (w k) + 4 * h)) by (rewrite total_plus, total_scale, total_const; unfold W; ring).
    apply total_le. intros k K. destruct (T k K) as (_ & _ & E). replace (val (p k)) with (w k + (val (p k) - w k)) by ring. eapply Rle_trans; [apply Rabs_triang|]. lra. }
  assert (PE : Rabs (total n (fun k => val (p k)) - total n w) <= 33 / 10 * u * W + 4 * INR n * h).
  { replace (33 / 10 * u * W + 4 * INR n * h) with (total n (fun k => 33 / 10 * u * Rabs (w k) + 4 * h)) by (rewrite total_plus, total_scale, total_const; unfold W; ring). apply total_near. intros k K. apply (T k K). }
  assert (E1 : add_up (map Rabs (map val (map p (seq 0 n)))) = total n (fun k => Rabs (val (p k)))) by (rewrite !map_map; apply add_up_total).
  assert (E2 : add_up (map val (map p (seq 0 n))) = total n (fun k => val (p k))) by (rewrite !map_map; apply add_up_total).
  set (A := total n (fun k => Rabs (val (p k)))) in *. assert (A0 : 0 <= A) by (apply total_nonneg; intros; apply Rabs_pos).
  assert (AB : A <= 2 * 2 ^ 560) by (rewrite U in PW; lra). assert (L1000 : 4 * 2 ^ 560 <= 2 ^ 1000) by (rewrite Q1000; nra).
  destruct (sum_near _ _ SS PF) as (FS & ES & _); [rewrite E1; lra|rewrite map_length, seq_length; lra|]. rewrite E1, E2, map_length, seq_length in ES.
  assert (NA : INR (Nat.pred n) * u * A <= INR n * u * A) by (apply Rmult_le_compat_r; [exact A0|]; apply Rmult_le_compat_r; [rewrite U; lra|apply le_INR; lia]).
  set (sv := val s) in *. set (tw := total n w) in *. set (tp := total n (fun k => val (p k))) in *.
  assert (TA : Rabs tw <= W) by apply total_abs.
  assert (NUW : 0 <= INR n * u) by (apply Rmult_le_pos; [exact N0|rewrite U; lra]).
  assert (NA' : INR n * u * A <= INR n * u * W + / 1000000 * u * W + INR n * h).
  { apply Rle_trans with (INR n * u * ((1 + 33 / 10 * u) * W + 4 * INR n * h)); [apply Rmult_le_compat_l; assumption|]. 
    assert (INR n * u * (33 / 10 * u * W) <= / 8000000000 * (33 / 10 * u * W)) by (apply Rmult_le_compat_r; [rewrite U; lra|exact NU]).
    assert (INR n * u * (4 * INR n * h) <= / 8000000000 * (4 * INR n * h)) by (apply Rmult_le_compat_r; [|exact NU]; apply Rmult_le_pos; [lra|lra]).
    assert (0 <= INR n * h) by (apply Rmult_le_pos; lra). rewrite U in *. lra. }
  assert (ET : Rabs (sv - tw) <= (INR n + 34 / 10) * u * W + 5 * INR n * h).
  { replace (sv - tw) with ((sv - tp) + (tp - tw)) by ring. eapply Rle_trans; [apply Rabs_triang|]. assert (0 <= INR n * h) by (apply Rmult_le_pos; lra). assert (0 <= u * W) by (apply Rmult_le_pos; [rewrite U; lra|exact W0]). lra. }
  assert (SW : Rabs sv <= 2 * W + 5 * INR n * h).
  { replace sv with (tw + (sv - tw)) by ring. eapply Rle_trans; [apply Rabs_triang|]. assert ((INR n + 34 / 10) * u * W <= 1 * W) by (apply Rmult_le_compat_r; [exact W0|]; rewrite U in *; lra). lra. }
  assert (L2 : Rabs (sv + mu) <= 2 ^ 1000 * 8). { eapply Rle_trans; [apply Rabs_triang|]. pose proof (proj1 big_1000). lra. }
  destruct (add_error _ _ FS FM L2) as [FF EF]. split; [exact FF|]. fold sv mu in EF.
  replace (val _ - (tw + mu)) with ((val (fadd s (fcoef (fmu g) j)) - (sv + mu)) + (sv - tw)) by ring. eapply Rle_trans; [apply Rabs_triang|].
  assert (UM : u * Rabs (sv + mu) <= u * (2 * W + 5 * INR n * h + Rabs mu)) by (apply Rmult_le_compat_l; [rewrite U; lra|]; eapply Rle_trans; [apply Rabs_triang|]; lra).
  assert (0 <= INR n * h) by (apply Rmult_le_pos; lra). assert (u * (5 * INR n * h) <= / 10 * (INR n * h)) by (replace (u * (5 * INR n * h)) with (5 * u * (INR n * h)) by ring; apply Rmult_le_compat_r; [lra|rewrite U; lra]). pose proof (Rabs_pos mu) as MP.
  assert (0 <= INR n * u * Rabs mu) by (apply Rmult_le_pos; assumption). assert (0 <= u * W) by (apply Rmult_le_pos; [rewrite U; lra|exact W0]). assert (0 <= u * Rabs mu) by (apply Rmult_le_pos; [rewrite U; lra|exact MP]). lra.
Qed.
