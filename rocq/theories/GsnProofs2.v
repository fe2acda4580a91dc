(** The constructor of Gaussians and their samples in double precision. *)
From Coq Require Import Reals Lra Lia List Permutation Psatz Bool.
From Flocq Require Import Core BinarySingleNaN.
From Verif Require Import Cpp FloatModel FloatSpec FloatProofs NrmSpec NrmProofs LenModel LenSpec LenProofs Vec RotSpec RotProofs DriftModel DriftSpec DriftProofs DriftProofs2 SpinModel SpinProofs SpinProofs3 StatModel StatSpec StatProofs FstModel FstSpec FstProofs FstProofs2 FapModel FapSpec FapProofs FapProofs2 GsnModel GsnSpec GsnProofs.
Import ListNotations.
Local Open Scope R_scope.

(** ** Largest and smallest coefficients *)
Lemma nan_or (l : list f64) : In B754_nan l \/ ~ In B754_nan l.
Proof.
  induction l as [|x l [I|N]]; [right; intros []|left; right; exact I|]. destruct x as [s|s| |s m e b] eqn:E; [right|right|left; left; reflexivity|right]; intros [H|H]; (discriminate H || contradiction).
Qed.
Lemma fle_trans x y z : x <> B754_nan -> y <> B754_nan -> z <> B754_nan -> fle x y = true -> fle y z = true -> fle x z = true.
Proof. intros X Y Z A B. apply fle_place in A, B; try assumption. apply fle_place; try assumption. lra. Qed.
Lemma fle_self x : x <> B754_nan -> fle x x = true.
Proof. intro X. apply fle_place; try assumption. lra. Qed.
Lemma fle_total x y : x <> B754_nan -> y <> B754_nan -> fle x y = true \/ fle y x = true.
Proof. intros X Y. destruct (Rle_or_lt (place x) (place y)); [left|right]; apply fle_place; try assumption. lra. Qed.
Lemma max_exists l : l <> [] -> exists m, fmax_coeff l m.
Proof.
  intro E. destruct (nan_or l) as [N|N]; [exists B754_nan; split; [exact N|left; exact N]|].
  induction l as [|x l IH]; [contradiction|]. assert (X : x <> B754_nan) by (intro H; apply N; left; exact H). destruct l as [|y l].
  - exists x. split; [left; reflexivity|]. right. intros z [<-|[]]. apply fle_self, X.
  - destruct IH as (m & I & M); [discriminate|intro H; apply N; right; exact H|]. assert (Y : m <> B754_nan) by (intros ->; apply N; right; exact I). destruct M as [M|M]; [exfalso; apply N; right; exact M|].
    destruct (fle_total x m X Y) as [L|L].
    + exists m. split; [right; exact I|]. right. intros z [<-|Z]; [exact L|apply M, Z].
    + exists x. split; [left; reflexivity|]. right. intros z [<-|Z]; [apply fle_self, X|]. apply (fle_trans z m x); auto. intros ->. apply N. right. exact Z.
Qed.
Lemma min_exists l : l <> [] -> exists m, fmin_coeff l m.
Proof.
  intro E. destruct (nan_or l) as [N|N]; [exists B754_nan; split; [exact N|left; exact N]|].
  induction l as [|x l IH]; [contradiction|]. assert (X : x <> B754_nan) by (intro H; apply N; left; exact H). destruct l as [|y l].
  - exists x. split; [left; reflexivity|]. right. intros z [<-|[]]. apply fle_self, X.
  - destruct IH as (m & I & M); [discriminate|intro H; apply N; right; exact H|]. assert (Y : m <> B754_nan) by (intros ->; apply N; right; exact I). destruct M as [M|M]; [exfalso; apply N; right; exact M|].
    destruct (fle_total m x Y X) as [L|L].
    + exists m. split; [right; exact I|]. right. intros z [<-|Z]; [exact L|apply M, Z].
    + exists x. split; [left; reflexivity|]. right. intros z [<-|Z]; [apply fle_self, X|]. apply (fle_trans x m z); auto. intros ->. apply N. right. exact Z.
Qed.

(** ** The tolerance *)
Lemma base_val : finite tol_base /\ Rabs (val tol_base - / 10 ^ 15) <= u * / 10 ^ 15 + h.
Proof.
  destruct (of_small 1) as [F1 V1]; [lia|]. destruct (of_small (10 ^ 15)) as [F2 V2]; [lia|].
  assert (E : val (of_int 1) / val (of_int (10 ^ 15)) = / 10 ^ 15) by (rewrite V1, V2; cbn; lra).
  assert (P : 0 < / 10 ^ 15 <= 1) by (split; [apply Rinv_0_lt_compat, pow_lt; lra|]; rewrite <- Rinv_1; apply Rinv_le_contravar; [lra|apply pow_R1_Rle; lra]).
  destruct (fdiv_val (of_int 1) (of_int (10 ^ 15)) F1) as [F V].
  - rewrite V2. apply IZR_neq. discriminate.
  - rewrite E. apply no_overflow. rewrite Rabs_right by lra. pose proof (proj2 big_1000). lra.
  - split; [exact F|]. unfold tol_base. rewrite V, E. eapply Rle_trans; [apply rd_any|]. rewrite Rabs_right by lra. lra.
Qed.
Lemma maxi_val x y : finite x -> finite y -> finite (fmaxi x y) /\ val (fmaxi x y) = Rmax (val x) (val y).
Proof.
  intros X Y. unfold fmaxi. pose proof (flt_val x y X Y) as L. destruct (flt x y).
  - split; [exact Y|]. rewrite Rmax_right; [reflexivity|]. pose proof (proj1 L eq_refl). lra.
  - split; [exact X|]. rewrite Rmax_left; [reflexivity|]. destruct (Rle_lt_dec (val y) (val x)) as [K|K]; [exact K|]. apply L in K. discriminate K.
Qed.
Definition ftol (hi lo : f64) : f64 := fmaxi (fmul (fsub hi lo) tol_base) tol_base.
Lemma tol_near hi lo w t : finite hi -> finite lo -> Rabs (val hi) <= 2 ^ 1000 -> Rabs (val lo) <= 2 ^ 1000 -> w = val hi - val lo -> 0 <= w -> (t = / 10 ^ 15 /\ w <= 1 \/ t = w / 10 ^ 15 /\ 1 <= w) ->
  finite (ftol hi lo) /\ Rabs (val (ftol hi lo) - t) <= 4 * u * t.
Proof.
  intros FH FL BH BL W W0 T. destruct base_val as [FB EB]. pose proof (proj2 big_1000) as Q. assert (P : 0 < 2 ^ 1000) by (apply pow_lt; lra). pose proof h_pos as H0.
  assert (H2 : h <= / 1000000000000000000000000000000000000000000000000000000000000) by (pose proof h_tiny' as H; replace (10 ^ 60) with 1000000000000000000000000000000000000000000000000000000000000 in H by ring; exact H).
  replace (/ 10 ^ 15) with (/ 1000000000000000) in * by (f_equal; ring). replace (w / 10 ^ 15) with (w * / 1000000000000000) in T by (unfold Rdiv; do 2 f_equal; ring).
  set (b := val tol_base) in *. pose proof u_num as U. assert (EB' : Rabs (b - / 1000000000000000) <= 11 / 10 * u * / 1000000000000000) by (rewrite U in *; lra). clear EB. apply Rabs_le_inv in EB'.
  assert (BW : w <= 2 * 2 ^ 1000) by (apply Rabs_le_inv in BH, BL; lra).
  destruct (fsub_val hi lo FH FL) as [FS VS]; [apply no_overflow; rewrite <- W, Rabs_right by lra; lra|].
  assert (ES : Rabs (rd w - w) <= u * w).
  { assert (R : Rabs (rd (val hi + - val lo) - (val hi + - val lo)) <= u * Rabs (val hi + - val lo)) by (apply rd_sum; [apply val_fmt|]; apply generic_format_opp, val_fmt). replace (val hi + - val lo) with w in R by lra. rewrite (Rabs_right w) in R by lra. exact R. }
  rewrite <- W in VS. rewrite <- VS in ES. set (w' := val (fsub hi lo)) in *. apply Rabs_le_inv in ES.
  assert (W1 : 0 <= w') by (rewrite U in ES; lra).
  assert (WB : 0 <= w' * b) by (apply Rmult_le_pos; [exact W1|rewrite U in EB'; lra]).
  assert (D : Rabs (w' * b - w * / 1000000000000000) <= 22 / 10 * u * (w * / 1000000000000000)).
  { replace (w' * b - w * / 1000000000000000) with (w' * (b - / 1000000000000000) + (w' - w) * / 1000000000000000) by ring. eapply Rle_trans; [apply Rabs_triang|]. rewrite !Rabs_mult, (Rabs_right w'), (Rabs_right (/ 1000000000000000)) by lra.
    assert (Rabs (w' - w) <= u * w) by (apply Rabs_le; lra). assert (Rabs (b - / 1000000000000000) <= 11 / 10 * u * / 1000000000000000) by (apply Rabs_le; lra).
    assert (w' * Rabs (b - / 1000000000000000) <= (1 + u) * w * (11 / 10 * u * / 1000000000000000)) by (apply Rmult_le_compat; [exact W1|apply Rabs_pos|lra|assumption]). rewrite U in *. lra. }
  destruct (mul_error _ _ FS FB) as [FM EM]; [fold w' b; rewrite Rabs_right by lra; apply Rabs_le_inv in D; rewrite U in D; lra|]. fold w' b in EM. rewrite (Rabs_right (w' * b)) in EM by lra.
  destruct (maxi_val _ _ FM FB) as [FT VT]. split; [exact FT|]. unfold ftol. rewrite VT. fold b. set (p := val (fmul (fsub hi lo) tol_base)) in *.
  assert (EP : Rabs (p - w * / 1000000000000000) <= 33 / 10 * u * (w * / 1000000000000000) + h).
  { replace (p - w * / 1000000000000000) with ((p - w' * b) + (w' * b - w * / 1000000000000000)) by ring. eapply Rle_trans; [apply Rabs_triang|].
    assert (u * (w' * b) <= u * ((1 + 22 / 10 * u) * (w * / 1000000000000000))) by (apply Rmult_le_compat_l; [rewrite U; lra|]; apply Rabs_le_inv in D; lra). rewrite U in *. lra. }
  apply Rabs_le_inv in EP. apply Rabs_le. destruct T as [[-> T]|[-> T]]; unfold Rmax; destruct (Rle_dec p b) as [L|L]; rewrite U in *; lra.
Qed.

(** ** The constructor *)
Lemma fsqrt_rel x : finite x -> 0 <= val x -> finite (fsqrt x) /\ 0 <= val (fsqrt x) /\ Rabs (val (fsqrt x) - sqrt (val x)) <= u * sqrt (val x).
Proof.
  intros F P. destruct (fsqrt_val x F P) as [FS V]. split; [exact FS|]. rewrite V. pose proof (sqrt_pos (val x)) as S0. split; [apply rd_ge0, S0|].
  destruct (Req_dec (val x) 0) as [Z|Z]; [rewrite Z, sqrt_0, rd_0, Rminus_0_r, Rabs_R0, Rmult_0_r; lra|].
  assert (B : bpow radix2 (-1022) <= Rabs (sqrt (val x))).
  { rewrite Rabs_right by lra. assert (L : bpow radix2 (-1074) <= val x).
    { pose proof (generic_format_ge_bpow radix2 (FLT_exp (-1074) 53) (-1074)) as G. apply G; [intro e; unfold FLT_exp; lia|lra|apply val_fmt]. }
    rewrite <- (sqrt_square (bpow radix2 (-1022))) by apply bpow_ge_0. apply sqrt_le_1_alt. rewrite <- bpow_plus. eapply Rle_trans; [|exact L]. apply bpow_le. lia. }
  destruct (rd_rel _ B) as (e & E & R). rewrite R. replace (sqrt (val x) * (1 + e) - sqrt (val x)) with (e * sqrt (val x)) by ring. rewrite Rabs_mult, (Rabs_right (sqrt _)) by lra. apply Rmult_le_compat_r; [exact S0|]. replace u with (bpow radix2 (-53)); [exact E|]. unfold u. rewrite <- (bpow_pow 53), <- bpow_opp. reflexivity.
Qed.
Lemma unsigned_small n : (Z.of_nat n < 2 ^ 32)%Z -> to_unsigned n = Z.of_nat n.
Proof. intro N. apply Z.mod_small. lia. Qed.
Lemma made_cases solve n m c r : fmake_gaussian solve m c r -> sized n m c -> (0 < n)%nat ->
  exists s, checked c s /\ (s = false -> r = Throw) /\ (s = true -> finfo (solve c) = NumericalIssue -> r = Throw) /\
  (s = true -> solved n (solve c) -> exists hi lo e, fmax_coeff (fcoeffs c) hi /\ fmin_coeff (fcoeffs c) lo /\ fmin_coeff (fvcoeffs (fvalues (solve c))) e /\
     (flt (fneg (ftol hi lo)) e = false -> r = Throw) /\
     (flt (fneg (ftol hi lo)) e = true -> r = Ok (FGaussian (Z.of_nat n) m c (FVector n (fun i => fmaxi (fcoef (fvalues (solve c)) i) (of_int 0))) (fvectors (solve c))
        (FVector n (fun i => fsqrt (fmaxi (fcoef (fvalues (solve c)) i) (of_int 0))))))).
Proof.
  intros M (S1 & S2 & S3 & N) P. unfold fmake_gaussian in M. rewrite S1, S2, S3, (unsigned_small n N), Z.eqb_refl in M. cbn [andb negb] in M. destruct M as (s & K & M). exists s. split; [exact K|].
  destruct s; cbn [negb] in M; [|split; [auto|split; intro H; discriminate H]]. split; [discriminate|].
  replace (n =? 0)%nat with false in M by (symmetry; apply Nat.eqb_neq; lia). split; [intros _ H; rewrite H in M; exact M|]. intros _ (I & V & _).
  assert (M' : exists r0, fsanitize c (fvalues (solve c)) r0 /\ r = let* ev := r0 in Ok (FGaussian (Z.of_nat n) m c ev (fvectors (solve c)) (FVector (fsize ev) (fun i => fsqrt (fcoef ev i))))) by (destruct (finfo (solve c)); try contradiction; exact M).
  destruct M' as (r0 & Q & ->). unfold fsanitize in Q. assert (L1 : length (fcoeffs c) = (n * n)%nat) by (rewrite coeffs_length, S2, S3; reflexivity).
  assert (L2 : length (fvcoeffs (fvalues (solve c))) = n) by (unfold fvcoeffs; rewrite map_length, seq_length; exact V).
  destruct (fcoeffs c) as [|x xs]; [cbn in L1; nia|]. destruct (fvcoeffs (fvalues (solve c))) as [|y ys]; [cbn in L2; lia|].
  destruct Q as (hi & lo & e & A & B & C & ->). exists hi, lo, e. split; [exact A|]. split; [exact B|]. split; [exact C|]. change (fmaxi (fmul (fsub hi lo) tol_base) tol_base) with (ftol hi lo).
  split; intros ->; [reflexivity|]. cbn. rewrite V. reflexivity.
Qed.
Lemma made_exists solve m c : exists r, fmake_gaussian solve m c r.
Proof.
  unfold fmake_gaussian. destruct (negb _); [exists Throw; reflexivity|]. destruct (approx_some (fcoeffs c) (fcoeffs (ftransposed c))) as [s K].
  destruct s; [|exists Throw, false; split; [exact K|reflexivity]]. destruct (frows c =? 0)%nat eqn:Z; [exists UB, true; split; [exact K|reflexivity]|].
  assert (Q : exists r0, fsanitize c (fvalues (solve c)) r0).
  { unfold fsanitize. pose proof (max_exists (fcoeffs c)) as X. pose proof (min_exists (fcoeffs c)) as Y. pose proof (min_exists (fvcoeffs (fvalues (solve c)))) as W. destruct (fcoeffs c) as [|x xs]; [exists UB; reflexivity|]. destruct (fvcoeffs _) as [|y ys]; [exists UB; reflexivity|].
    destruct X as [hi X]; [discriminate|]. destruct Y as [lo Y]; [discriminate|]. destruct W as [e W]; [discriminate|]. eexists. exists hi, lo, e. split; [exact X|]. split; [exact Y|]. split; [exact W|]. reflexivity. }
  destruct Q as [r0 Q]. destruct (finfo (solve c)) eqn:I; [| exists Throw, true; split; [exact K|reflexivity] | |]; (eexists; exists true; split; [exact K|]; cbn [negb]; exists r0; split; [exact Q|reflexivity]).
Qed.
