(** Covariances that are accepted and should not be, and an ordinary one. *)
From Coq Require Import Reals Lra Lia List Permutation Psatz Bool.
From Flocq Require Import Core BinarySingleNaN.
From Verif Require Import Cpp FloatModel FloatSpec FloatProofs NrmSpec NrmProofs LenModel LenSpec LenProofs Vec RotSpec RotProofs DriftModel DriftSpec DriftProofs DriftProofs2 SpinModel SpinProofs SpinProofs3 StatModel StatSpec StatProofs FstModel FstSpec FstProofs FstProofs2 FapModel FapSpec FapProofs FapProofs2 GsnModel GsnSpec GsnProofs GsnProofs2 GsnProofs3.
Import ListNotations.
Local Open Scope R_scope.

Lemma below_2 (i : nat) : (i < 2)%nat -> i = 0%nat \/ i = 1%nat.
Proof. lia. Qed.
Definition two_by_two (a b c d : f64) : fmatrix := FMatrix 2 2 (fun i j => match i, j with O, O => a | O, _ => b | _, O => c | _, _ => d end).
Definition pair_of (a b : f64) : fvector := FVector 2 (fun i => match i with O => a | _ => b end).
Definition whole (a b : Z) : fvector := pair_of (of_int a) (of_int b).

(** A power of two as a double. *)
Lemma val_1023 : finite (NrmSpec.double 1 1023) /\ val (NrmSpec.double 1 1023) = 2 ^ 1023.
Proof.
  split; [reflexivity|]. rewrite val_sf. replace (B2SF (NrmSpec.double 1 1023)) with (SpecFloat.S754_finite false 4503599627370496 971) by (vm_compute; reflexivity). rewrite sf_value. cbn [cond_Zopp].
  change (IZR 4503599627370496) with (bpow radix2 52). rewrite <- bpow_plus, <- (bpow_pow 1023). reflexivity.
Qed.
Lemma val_600 : finite (NrmSpec.double 1 600) /\ val (NrmSpec.double 1 600) = 2 ^ 600.
Proof.
  split; [reflexivity|]. rewrite val_sf. replace (B2SF (NrmSpec.double 1 600)) with (SpecFloat.S754_finite false 4503599627370496 548) by (vm_compute; reflexivity). rewrite sf_value. cbn [cond_Zopp].
  change (IZR 4503599627370496) with (bpow radix2 52). rewrite <- bpow_plus, <- (bpow_pow 600). reflexivity.
Qed.
Lemma one_val : finite (of_int 1) /\ val (of_int 1) = 1. Proof. apply (of_small 1); lia. Qed.

(** One entry infinite, the mirrored one zero. *)
Definition lopsided : fmatrix := two_by_two (of_int 1) (B754_infinity false) (of_int 0) (of_int 1).
Lemma accepted_infinite : sized 2 (whole 0 0) lopsided /\ fentry lopsided 0 1 = B754_infinity false /\ fentry lopsided 1 0 = of_int 0 /\
  forall solve r, solved 2 (solve lopsided) -> fmake_gaussian solve (whole 0 0) lopsided r -> exists g, r = Ok g.
Proof.
  assert (S : sized 2 (whole 0 0) lopsided) by (repeat split). split; [exact S|]. split; [reflexivity|]. split; [reflexivity|]. intros solve r V M. apply (accepts_infinite solve 2 _ _ r M S V).
  - intros i j I J. apply below_2 in I, J. destruct I as [-> | ->], J as [-> | ->]; (split; [discriminate|intros b [A B]; discriminate A || discriminate B]).
  - exists 0%nat, 1%nat, false. repeat split; lia.
Qed.
(** Huge and antisymmetric. *)
Definition twisted : fmatrix := two_by_two (of_int 0) (NrmSpec.double 1 600) (NrmSpec.double (-1) 600) (of_int 0).
Lemma val_m600 : finite (NrmSpec.double (-1) 600) /\ val (NrmSpec.double (-1) 600) = - 2 ^ 600.
Proof.
  split; [reflexivity|]. rewrite val_sf. replace (B2SF (NrmSpec.double (-1) 600)) with (SpecFloat.S754_finite true 4503599627370496 548) by (vm_compute; reflexivity). rewrite sf_value. cbn [cond_Zopp].
  rewrite <- (bpow_pow 600). replace (IZR _) with (- bpow radix2 52) by (cbn; lra). rewrite Ropp_mult_distr_l_reverse, <- bpow_plus. reflexivity.
Qed.
Lemma accepted_huge : sized 2 (whole 0 0) twisted /\ all_finite twisted /\ asymmetry twisted = 4 * weight twisted /\ 0 < weight twisted /\
  forall solve r, solved 2 (solve twisted) -> (forall k, (k < 2)%nat -> 0 <= val (fcoef (fvalues (solve twisted)) k)) -> fmake_gaussian solve (whole 0 0) twisted r -> exists g, r = Ok g.
Proof.
  assert (S : sized 2 (whole 0 0) twisted) by (repeat split). destruct val_600 as [F1 V1]. destruct val_m600 as [F2 V2]. destruct zero_val as [F0 V0]. pose proof (pow_lt 2 600 ltac:(lra)) as P.
  assert (F : all_finite twisted) by (intros i j I J; apply below_2 in I, J; destruct I as [-> | ->], J as [-> | ->]; assumption).
  assert (W : weight twisted = 2 * (2 ^ 600 * 2 ^ 600)) by (unfold weight, squares; cbn [twisted two_by_two frows total fentry]; rewrite V0, V1, V2; ring).
  split; [exact S|]. split; [exact F|]. split; [rewrite W; unfold asymmetry, squares; cbn [twisted two_by_two frows total fentry]; rewrite V0, V1, V2; ring|]. split; [rewrite W; nra|].
  intros solve r V E M. apply (accepts solve 2 _ _ r M S ltac:(lia) V F); [right; left|left; exact E]. exists 0%nat, 1%nat. split; [lia|]. split; [lia|]. cbn [twisted two_by_two fentry]. rewrite V1, Rabs_right by lra. apply Rle_pow; [lra|apply Nat.leb_le; reflexivity].
Qed.
(** A diagonal matrix with a negative entry that is nowhere near zero. *)
Definition indefinite : fmatrix := two_by_two (NrmSpec.double 1 1023) (of_int 0) (of_int 0) (NrmSpec.double (-1) 1023).
Lemma val_m1023 : finite (NrmSpec.double (-1) 1023) /\ val (NrmSpec.double (-1) 1023) = - 2 ^ 1023.
Proof.
  split; [reflexivity|]. rewrite val_sf. replace (B2SF (NrmSpec.double (-1) 1023)) with (SpecFloat.S754_finite true 4503599627370496 971) by (vm_compute; reflexivity). rewrite sf_value. cbn [cond_Zopp].
  rewrite <- (bpow_pow 1023). replace (IZR _) with (- bpow radix2 52) by (cbn; lra). rewrite Ropp_mult_distr_l_reverse, <- bpow_plus. reflexivity.
Qed.
Lemma accepted_indefinite : sized 2 (whole 0 0) indefinite /\ all_finite indefinite /\ (forall i j, fentry indefinite i j = fentry indefinite j i) /\ val (fentry indefinite 1 1) = - 2 ^ 1023 /\
  forall solve r, solved 2 (solve indefinite) -> fmake_gaussian solve (whole 0 0) indefinite r -> exists g, r = Ok g.
Proof.
  assert (S : sized 2 (whole 0 0) indefinite) by (repeat split). destruct val_1023 as [F1 V1]. destruct val_m1023 as [F2 V2]. destruct zero_val as [F0 V0].
  assert (F : all_finite indefinite) by (intros i j I J; apply below_2 in I, J; destruct I as [-> | ->], J as [-> | ->]; assumption).
  assert (Y : forall i j, fentry indefinite i j = fentry indefinite j i) by (intros [|i] [|j]; reflexivity).
  split; [exact S|]. split; [exact F|]. split; [exact Y|]. split; [exact V2|]. intros solve r V M.
  destruct (made_cases solve _ _ _ r M S) as (s & K & _ & _ & T2); [lia|].
  assert (E : s = true). { apply (symmetric_checked 2 (whole 0 0) indefinite s K S F). left. intros i j _ _. rewrite Y, Rminus_eq_0, Rabs_R0. left. apply Rinv_0_lt_compat, pow_lt. lra. }
  destruct (T2 E V) as (hi & lo & e & A1 & A2 & A3 & _ & R). eexists. apply R. destruct (least_value 2 _ e V A3) as (FE & _ & _).
  assert (H : hi = NrmSpec.double 1 1023).
  { destruct A1 as [I [N|HM]]; [exfalso; revert N; apply finite_no_nan; apply coeffs_all; exact F|]. specialize (HM (NrmSpec.double 1 1023) ltac:(left; reflexivity)). destruct I as [<-|[<-|[<-|[<-|[]]]]]; [reflexivity|vm_compute in HM; discriminate HM..]. }
  assert (L : lo = NrmSpec.double (-1) 1023).
  { destruct A2 as [I [N|HM]]; [exfalso; revert N; apply finite_no_nan; apply coeffs_all; exact F|]. specialize (HM (NrmSpec.double (-1) 1023) ltac:(do 3 right; left; reflexivity)). destruct I as [<-|[<-|[<-|[<-|[]]]]]; [vm_compute in HM; discriminate HM..|reflexivity]. }
  assert (T : fneg (ftol hi lo) = B754_infinity true) by (rewrite H, L; vm_compute; reflexivity).
  rewrite T. destruct e as [|se| |se me ee be]; try discriminate FE; reflexivity.
Qed.
(** An ordinary covariance with its eigenvalues 1 and 3. *)
Definition ordinary : fmatrix := two_by_two (of_int 2) (of_int 1) (of_int 1) (of_int 2).
Definition ordinary_solution : fsolution := FSolution Success (whole 1 3) (two_by_two (of_int 1) (of_int 1) (of_int (-1)) (of_int 1)).
Lemma ints : (finite (of_int 2) /\ val (of_int 2) = 2) /\ (finite (of_int 3) /\ val (of_int 3) = 3) /\ (finite (of_int (-1)) /\ val (of_int (-1)) = -1).
Proof. split; [apply (of_small 2); lia|]. split; [apply (of_small 3); lia|apply (of_small (-1)); lia]. Qed.
Lemma ordinary_case : sized 2 (whole 5 7) ordinary /\ solved 2 ordinary_solution /\ all_finite ordinary /\ no_bigger (2 ^ 480) ordinary /\ no_bigger (2 ^ 1000) ordinary /\ weight ordinary = 10 /\ asymmetry ordinary = 0 /\
  StatSpec.tolerance (holds ordinary) (/ 10 ^ 15) /\ (forall k, (k < 2)%nat -> 0 <= val (fcoef (fvalues ordinary_solution) k)) /\ exists g, fmake_gaussian (fun _ => ordinary_solution) (whole 5 7) ordinary (Ok g).
Proof.
  destruct one_val as [F1 V1]. destruct ints as ((F2 & V2) & (F3 & V3) & _).
  assert (S : sized 2 (whole 5 7) ordinary) by (repeat split).
  assert (V : solved 2 ordinary_solution) by (split; [discriminate|]; split; [reflexivity|]; intros k K; apply below_2 in K; destruct K as [-> | ->]; assumption).
  assert (F : all_finite ordinary) by (intros i j I J; apply below_2 in I, J; destruct I as [-> | ->], J as [-> | ->]; assumption).
  assert (B : forall b, 2 <= b -> no_bigger b ordinary).
  { intros b Hb i j I J. apply below_2 in I, J. destruct I as [-> | ->], J as [-> | ->]; cbn [ordinary two_by_two fentry]; rewrite ?V1, ?V2, Rabs_right; lra. }
  assert (P : forall n : nat, (1 <= n)%nat -> 2 <= 2 ^ n) by (intros n N; rewrite <- (pow_1 2) at 1; apply Rle_pow; [lra|exact N]).
  assert (E : forall k, (k < 2)%nat -> 0 <= val (fcoef (fvalues ordinary_solution) k)).
  { intros k K. apply below_2 in K. destruct K as [-> | ->]; cbn [ordinary_solution fvalues whole pair_of fcoef]; lra. }
  split; [exact S|]. split; [exact V|]. split; [exact F|]. split; [apply B, P; apply Nat.leb_le; reflexivity|]. split; [apply B, P; apply Nat.leb_le; reflexivity|].
  split; [unfold weight, squares; cbn [ordinary two_by_two frows total fentry]; rewrite V1, V2; ring|]. split; [unfold asymmetry, squares; cbn [ordinary two_by_two frows total fentry]; rewrite V1, V2; ring|]. split; [|split; [exact E|]].
  - exists 0%nat, 1%nat, 0%nat, 0%nat. cbn [holds rows cols entry ordinary two_by_two frows fcols fentry]. repeat (split; [lia|]). rewrite V1, V2. split; [|left; split; [reflexivity|lra]].
    intros p q Hp Hq. apply below_2 in Hp, Hq. destruct Hp as [-> | ->], Hq as [-> | ->]; rewrite ?V1, ?V2; lra.
  - destruct (made_exists (fun _ => ordinary_solution) (whole 5 7) ordinary) as [r M]. destruct (accepts _ 2 _ _ r M S ltac:(lia) V F) as [g G]; [left|left; exact E|exists g; rewrite <- G; exact M].
    intros i j I J. apply below_2 in I, J. assert (Q : 0 <= / 2 ^ 538) by (left; apply Rinv_0_lt_compat, pow_lt; lra). destruct I as [-> | ->], J as [-> | ->]; cbn [ordinary two_by_two fentry]; rewrite ?V1, ?V2, Rminus_eq_0, Rabs_R0; exact Q.
Qed.
(** Samples are always defined. *)
Lemma samples_exist g z : exists y, fsamples g z y.
Proof.
  assert (H : forall i j, exists x, exists s, fsum_of (map (fun k => fmul (fmul (fentry z i k) (fcoef (fsqrt_eigenvalues g) k)) (fentry (feigenvectors g) j k)) (seq 0 (fcols z))) s /\ x = fadd s (fcoef (fmu g) j)).
  { intros i j. destruct (sum_exists (map (fun k => fmul (fmul (fentry z i k) (fcoef (fsqrt_eigenvalues g) k)) (fentry (feigenvectors g) j k)) (seq 0 (fcols z)))) as [s S]. eexists. exists s. split; [exact S|reflexivity]. }
  assert (X : exists f : nat -> nat -> f64, forall i j, (i < frows z)%nat -> (j < frows (feigenvectors g))%nat -> exists s, fsum_of (map (fun k => fmul (fmul (fentry z i k) (fcoef (fsqrt_eigenvalues g) k)) (fentry (feigenvectors g) j k)) (seq 0 (fcols z))) s /\ f i j = fadd s (fcoef (fmu g) j)).
  { generalize (frows z) as n. generalize (frows (feigenvectors g)) as d. intros d n. revert d. induction n as [|n IH]; intro d; [exists (fun _ _ => of_int 0); intros; lia|].
    destruct (IH d) as [f Hf]. assert (R : exists r : nat -> f64, forall j, (j < d)%nat -> exists s, fsum_of (map (fun k => fmul (fmul (fentry z n k) (fcoef (fsqrt_eigenvalues g) k)) (fentry (feigenvectors g) j k)) (seq 0 (fcols z))) s /\ r j = fadd s (fcoef (fmu g) j)).
    { clear - H. induction d as [|d ID]; [exists (fun _ => of_int 0); intros; lia|]. destruct ID as [r Hr]. destruct (H n d) as (x & s & S & X). exists (fun j => if (j =? d)%nat then x else r j). intros j J. destruct (j =? d)%nat eqn:E; [apply Nat.eqb_eq in E; subst j; exists s; auto|]. apply Nat.eqb_neq in E. apply Hr. lia. }
    destruct R as [r Hr]. exists (fun i j => if (i =? n)%nat then r j else f i j). intros i j I J. destruct (i =? n)%nat eqn:E; [apply Nat.eqb_eq in E; subst i; apply Hr, J|]. apply Nat.eqb_neq in E. apply Hf; [lia|exact J]. }
  destruct X as [f Hf]. exists (FMatrix (frows z) (frows (feigenvectors g)) f). split; [reflexivity|]. split; [reflexivity|]. intros i j I J. apply Hf; assumption.
Qed.
(** Put together with what the constructor makes. *)
Lemma samples_of solve n m c g z y i j : fmake_gaussian solve m c (Ok g) -> sized n m c -> solved n (solve c) -> frows (fvectors (solve c)) = n -> fcols z = n -> (n <= 2 ^ 20)%nat -> fsamples g z y ->
  (i < frows z)%nat -> (j < n)%nat -> (forall k, (k < n)%nat -> finite (fentry z i k) /\ Rabs (val (fentry z i k)) <= 2 ^ 10) ->
  (forall k, (k < n)%nat -> finite (fentry (fvectors (solve c)) j k) /\ Rabs (val (fentry (fvectors (solve c)) j k)) <= 2) -> finite (fcoef m j) -> Rabs (val (fcoef m j)) <= 2 ^ 1000 ->
  let w k := val (fentry z i k) * sqrt (Rmax (val (fcoef (fvalues (solve c)) k)) 0) * val (fentry (fvectors (solve c)) j k) in
  finite (fentry y i j) /\ Rabs (val (fentry y i j) - (total n w + val (fcoef m j))) <= (INR n + 6) * u * (total n (fun k => Rabs (w k)) + Rabs (val (fcoef m j))) + 6 * INR n * tiny.
Proof.
  intros M S V RV CZ N Y I J HZ HV FM BM w. destruct (made solve n m c g M S ltac:(lia) V) as (_ & EM & _ & EV & _ & _ & H).
  destruct (drawn_near g z y n i j Y) as [F E]; try assumption; [rewrite EV; exact RV| | |rewrite EV; exact HV|rewrite EM; exact FM|rewrite EM; exact BM|].
  - intros k K. destruct (H k K) as (F & VV & _). split; [exact F|]. rewrite VV. apply Rmax_r.
  - intros k K. destruct (H k K) as (_ & _ & F & _ & E). auto.
  - split; [exact F|]. rewrite EM, EV in E. assert (W : forall k, (k < n)%nat -> val (fentry z i k) * sqrt (val (fcoef (feigenvalues g) k)) * val (fentry (fvectors (solve c)) j k) = w k) by (intros k K; destruct (H k K) as (_ & VV & _); rewrite VV; reflexivity).
    rewrite (total_ext n _ w W) in E. rewrite (total_ext n (fun k => Rabs (val (fentry z i k) * sqrt (val (fcoef (feigenvalues g) k)) * val (fentry (fvectors (solve c)) j k))) (fun k => Rabs (w k))) in E by (intros k K; rewrite (W k K); reflexivity). exact E.
Qed.
(** Sizes. *)
Lemma sizes solve n m c r : fmake_gaussian solve m c r -> fsize m = n -> (Z.of_nat n < 2 ^ 32)%Z ->
  (~ (frows c = n /\ fcols c = n) -> r = Throw) /\ (frows c = n /\ fcols c = n -> (n = 0%nat -> r = UB) /\ ((0 < n)%nat -> fsize (fvalues (solve c)) = n -> r <> UB)).
Proof.
  intros M S N. split.
  - intro H. unfold fmake_gaussian in M. rewrite S, (unsigned_small n N) in M. destruct (_ && _)%bool eqn:E; [|exact M]. exfalso. apply andb_true_iff in E. destruct E as [E1 E2]. apply Z.eqb_eq in E1, E2. apply H. split; lia.
  - intros [R C]. assert (Z : sized n m c) by (repeat split; assumption). split.
    + intros ->. unfold fmake_gaussian in M. rewrite S, R, C in M. cbn [negb andb Z.of_nat to_unsigned] in M. change ((0 =? to_unsigned 0)%Z && (0 =? to_unsigned 0)%Z)%bool with true in M. cbn [negb] in M. destruct M as (s & K & M).
      assert (E : s = true). { apply (checked_same c s K); [lia| |]; intros i j I; rewrite R in I; lia. } rewrite E in M. cbn in M. exact M.
    + intros P V. unfold fmake_gaussian in M. rewrite S, R, C, (unsigned_small n N), Z.eqb_refl in M. cbn [andb negb] in M. destruct M as (s & K & M). destruct s; cbn [negb] in M; [|rewrite M; discriminate].
      replace (n =? 0)%nat with false in M by (symmetry; apply Nat.eqb_neq; lia).
      assert (Q : r = Throw \/ exists r0, fsanitize c (fvalues (solve c)) r0 /\ r = let* ev := r0 in Ok (FGaussian (Z.of_nat n) m c ev (fvectors (solve c)) (FVector (fsize ev) (fun i => fsqrt (fcoef ev i))))) by (destruct (finfo (solve c)); auto).
      destruct Q as [->|(r0 & Q & ->)]; [discriminate|]. unfold fsanitize in Q. assert (L1 : length (fcoeffs c) = (n * n)%nat) by (rewrite coeffs_length, R, C; reflexivity).
      assert (L2 : length (fvcoeffs (fvalues (solve c))) = n) by (unfold fvcoeffs; rewrite map_length, seq_length; exact V).
      destruct (fcoeffs c) as [|x xs]; [cbn in L1; nia|]. destruct (fvcoeffs (fvalues (solve c))) as [|y ys]; [cbn in L2; lia|]. destruct Q as (hi & lo & e & _ & _ & _ & ->). destruct (flt _ e); cbn; discriminate.
Qed.
Lemma asymmetric_case : let c := two_by_two (of_int 2) (of_int 1) (of_int 2) (of_int 2) in sized 2 (whole 5 7) c /\ all_finite c /\ no_bigger (2 ^ 480) c /\ weight c = 13 /\ asymmetry c = 2 /\
  (1 + / 10 ^ 8) * ((/ 10 ^ 12) ^ 2 * 13) <= 2 /\ / 2 ^ 700 <= 13.
Proof.
  intro c. destruct one_val as [F1 V1]. destruct ints as ((F2 & V2) & _). split; [repeat split|]. split; [intros i j I J; apply below_2 in I, J; destruct I as [-> | ->], J as [-> | ->]; assumption|].
  assert (P : 2 <= 2 ^ 480) by (rewrite <- (pow_1 2) at 1; apply Rle_pow; [lra|apply Nat.leb_le; reflexivity]).
  split; [intros i j I J; apply below_2 in I, J; destruct I as [-> | ->], J as [-> | ->]; cbn [c two_by_two fentry]; rewrite ?V1, ?V2, Rabs_right; lra|].
  split; [unfold weight, squares; cbn [c two_by_two frows total fentry]; rewrite V1, V2; ring|]. split; [unfold asymmetry, squares; cbn [c two_by_two frows total fentry]; rewrite V1, V2; ring|].
  split; [replace (10 ^ 8) with 100000000 by ring; replace (10 ^ 12) with 1000000000000 by ring; lra|]. apply Rle_trans with 1; [|lra]. rewrite <- Rinv_1. apply Rinv_le_contravar; [lra|apply pow_R1_Rle; lra].
Qed.
Lemma samples_case : let z := two_by_two (of_int 1) (of_int 2) (of_int (-1)) (of_int 3) in frows (fvectors ordinary_solution) = 2%nat /\ fcols z = 2%nat /\
  (forall i k, (i < 2)%nat -> (k < 2)%nat -> finite (fentry z i k) /\ Rabs (val (fentry z i k)) <= 2 ^ 10) /\
  (forall j k, (j < 2)%nat -> (k < 2)%nat -> finite (fentry (fvectors ordinary_solution) j k) /\ Rabs (val (fentry (fvectors ordinary_solution) j k)) <= 2) /\
  (forall j, (j < 2)%nat -> finite (fcoef (whole 5 7) j) /\ Rabs (val (fcoef (whole 5 7) j)) <= 2 ^ 1000).
Proof.
  intro z. destruct one_val as [F1 V1]. destruct ints as ((F2 & V2) & (F3 & V3) & F4 & V4). destruct (of_small 5) as [F5 V5]; [lia|]. destruct (of_small 7) as [F7 V7]; [lia|].
  split; [reflexivity|]. split; [reflexivity|]. assert (P : 8 <= 2 ^ 1000) by (apply Rle_trans with (2 ^ 3); [lra|apply Rle_pow; [lra|apply Nat.leb_le; reflexivity]]). split; [|split].
  - intros i k I K. apply below_2 in I, K. destruct I as [-> | ->], K as [-> | ->]; cbn [z two_by_two fentry]; (split; [assumption|]); rewrite ?V1, ?V2, ?V3, ?V4; apply Rabs_le; lra.
  - intros i k I K. apply below_2 in I, K. destruct I as [-> | ->], K as [-> | ->]; cbn [ordinary_solution fvectors two_by_two fentry]; (split; [assumption|]); rewrite ?V1, ?V4; apply Rabs_le; lra.
  - intros j J. apply below_2 in J. destruct J as [-> | ->]; cbn [whole pair_of fcoef]; (split; [assumption|]); rewrite ?V5, ?V7; apply Rabs_le; lra.
Qed.
