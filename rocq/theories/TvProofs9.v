(** C89: all tests over all elements. *)
From Coq Require Import Reals ZArith Lia Lra List Psatz.
From Flocq Require Import Core BinarySingleNaN.
From Verif Require Import Cpp FloatModel FloatSpec FloatProofs NrmSpec Vec RotSpec GeomModel RotProofs CoeffProofs LieProofs DriftModel DriftSpec DriftProofs DriftProofs2 SpinModel SpinSpec SpinProofs SpinProofs2 SpinProofs3 TwistModel TwistProofs3 TlogModel TlogProofs TlogProofs4 SlogModel SlogProofs5 FtsModel FpsModel FstModel FapModel FapSpec FapProofs FapProofs2 FapProofs3 FapProofs4 FapProofs5 AdjModel AdjSpec TvModel TvSpec TvProofs TvProofs2 TvProofs3 TvProofs4 TvProofs6 TvProofs7 TvProofs8.
Import ListNotations.
Local Open Scope R_scope.

Lemma some_so3_group l : exists m, so3_group_elements l m.
Proof. induction l as [|v l [m M]]; [exists []; constructor|]. destruct (some_exp v) as [g G]. exists (g :: m). constructor; assumption. Qed.
Lemma some_se3_group l : exists m, se3_group_elements l m.
Proof. induction l as [|v l [m M]]; [exists []; constructor|]. destruct (some_se3_exp (frot_part v) (ftrans_part v)) as [g G]. exists (g :: m). constructor; assumption. Qed.
Lemma forall2_in {A B} (P : A -> B -> Prop) l m : Forall2 P l m -> forall b, In b m -> exists a, In a l /\ P a b.
Proof. induction 1 as [|a b l m H _ IH]; intros c I; [contradiction|]. destruct I as [<-|I]; [exists a; split; [left; reflexivity|exact H]|]. destruct (IH c I) as (x & X & Y). exists x. split; [right; exact X|exact Y]. Qed.
Lemma count_both {S} (draw : source S) x y s count :
  ((count < 7)%Z -> so3_algebra_elements draw x s count = Throw /\ se3_algebra_elements draw y s count = Throw) /\
  ((7 <= count < 2 ^ 31)%Z -> (exists l, so3_algebra_elements draw x s count = Ok l /\ Z.of_nat (length l) = count) /\ exists l, se3_algebra_elements draw y s count = Ok l /\ Z.of_nat (length l) = count) /\
  ((2 ^ 31 <= count)%Z -> so3_algebra_elements draw x s count = UB /\ se3_algebra_elements draw y s count = UB).
Proof. destruct (counts (kind3 draw) x s count) as (A & B & C). destruct (counts (kind6 draw) y s count) as (A' & B' & C'). unfold so3_algebra_elements, se3_algebra_elements. auto 6. Qed.
Lemma lengths_both {S} (draw : source S) x y s count : uniform draw ->
  (forall l, so3_algebra_elements draw x s count = Ok l -> forall v, In v l -> vfinite v /\ norm (vval v) < PI) /\
  (forall l, se3_algebra_elements draw y s count = Ok l -> forall a, In a l -> vfinite (frot_part a) /\ norm (vval (frot_part a)) < PI /\ vfinite (ftrans_part a) /\ vwithin 1000000 (ftrans_part a)).
Proof.
  intro U. pose proof PI_low. split; intros l E v I.
  - destruct (sound3_all draw x s count l U E v I) as (F & _ & N). split; [exact F|lra].
  - destruct (sound6_all draw y s count l U E v I) as ((F & _ & N) & G & W). split; [exact F|]. split; [lra|]. split; assumption.
Qed.
Lemma so3_all {S} (draw : source S) x s count l m : uniform draw -> so3_algebra_elements draw x s count = Ok l -> so3_group_elements l m ->
  (forall a, In a m -> passes (so3_construction a) /\ passes (so3_interp_zero a) /\ passes (so3_interp_one a) /\ passes (so3_exp_of_log a)) /\
  (forall a b, In a m -> In b m -> passes (so3_by_adjoint a b) /\ forall alg, fso3_log b alg -> passes (so3_group_agrees a alg)) /\
  (forall v, In v l -> passes (so3_inverse_negative v)) /\
  (forall v w, In v l -> In w l -> passes (so3_algebra_agrees v w) /\ so3_anticommutes v w = true).
Proof.
  intros U E M. pose proof (sound3_all draw x s count l U E) as A. split; [|split; [|split]].
  - intros a I. destruct (forall2_in _ _ _ M a I) as (v & V & X). apply (rotation_tests a v (A v V) X).
  - intros a b I J. destruct (forall2_in _ _ _ M a I) as (v & V & X). destruct (forall2_in _ _ _ M b J) as (w & W & Y). apply (rotation_pairs a b v w (A v V) X (A w W) Y).
  - intros v V. apply vector_tests, A, V.
  - intros v w V W. apply vector_pairs; apply A; assumption.
Qed.
Lemma se3_all {S} (draw : source S) x s count l m d : uniform draw -> se3_algebra_elements draw x s count = Ok l -> se3_group_elements l m ->
  (forall a, In a m -> passes (se3_construction a) /\ passes (se3_interp_zero a) /\ passes (se3_interp_one a) /\ passes (se3_exp_of_log a)) /\
  (forall a, In a l -> passes (se3_inverse_negative a) /\ passes (se3_algebra_agrees a (last l d)) /\ se3_anticommutes a (last l d) = true).
Proof.
  intros U E M. pose proof (sound6_all draw x s count l U E) as A. split.
  - intros g I. destruct (forall2_in _ _ _ M g I) as (a & V & X). apply (pose_tests a g (A a V) X).
  - intros a I. split; [apply inverse_test, A, I|]. destruct (last_small draw x s count l d U E) as [F W]. apply (pair_tests a _ (A a I) F W).
Qed.
Lemma equality_both {S} (draw : source S) x y s count : uniform draw ->
  (forall l m, (forall j, reaches (/ 100000) (drawn3 draw s (3 * j))) -> so3_algebra_elements draw x s count = Ok l -> so3_group_elements l m -> exists first rest, m = first :: rest /\ forall a, In a rest -> passes (so3_equality first a)) /\
  (forall l m, (forall j, reaches (/ 100000) (drawn3 draw s (3 + 6 * j))) -> se3_algebra_elements draw y s count = Ok l -> se3_group_elements l m -> exists first rest, m = first :: rest /\ forall a, In a rest -> passes (se3_equality first a)).
Proof.
  intro U. split; intros l m R E M.
  - pose proof (sound3_all draw x s count l U E) as A. destruct (far_3 draw x s count l U R E) as (rest & -> & N). inversion M as [|? i ? m' I M']. subst. exists i, m'. split; [reflexivity|]. intros a H.
    destruct (forall2_in _ _ _ M' a H) as (v & V & X). apply (equality_3 v i a (A v (or_intror V)) (N v V) I X).
  - pose proof (sound6_all draw y s count l U E) as A. destruct (far_6 draw y s count l U R E) as (rest & -> & N). inversion M as [|? i ? m' I M']. subst. exists i, m'. split; [reflexivity|]. intros a H.
    destruct (forall2_in _ _ _ M' a H) as (v & V & X). apply (equality_6 v i a (A v (or_intror V)) (N v V) I X).
Qed.

(** ** A generator that gives only zeros *)
Definition zeros : source unit := fun s => (of_int 0, s).
Lemma zeros_uniform : uniform zeros.
Proof. intro s. cbn [zeros fst]. destruct of_int_0 as [F V]. rewrite V. split; [exact F|lra]. Qed.
Lemma nth_zeros i s : nth_draw zeros s i = of_int 0.
Proof. revert s. induction i as [|i IH]; intro s; [reflexivity|apply IH]. Qed.
Lemma not_told_6 i g c : fse3_exp (thrice (of_int 0)) (thrice (of_int 0)) i -> fse3_exp (thrice (of_int 0)) (thrice (of_int 0)) g -> fse3_is_approx i g c -> c = true.
Proof.
  intros I G (p & q & P & Q & ->). change (thrice (of_int 0)) with fvzero in *. destruct fvzero_val as [F V].
  rewrite (not_told fvzero _ _ p F V (proj1 I) (proj1 G) P). destruct (se3_exp_no_turn fvzero fvzero i F F V I) as (_ & _ & A & B). destruct (se3_exp_no_turn fvzero fvzero g F F V G) as (_ & _ & C & D). rewrite V in B, D.
  apply (zeros_same _ _ _ A C B D Q).
Qed.
Lemma six_of {A B} (P : A -> B -> Prop) v0 v1 v2 v3 v4 v5 rest m : Forall2 P (v0 :: v1 :: v2 :: v3 :: v4 :: v5 :: rest) m -> exists a b, nth_error m 0 = Some a /\ nth_error m 5 = Some b /\ P v0 a /\ P v5 b.
Proof.
  intro M. inversion M as [|? a0 ? m0 H0 M0]. subst. inversion M0 as [|? a1 ? m1 H1 M1]. subst. inversion M1 as [|? a2 ? m2 H2 M2]. subst. inversion M2 as [|? a3 ? m3 H3 M3]. subst. inversion M3 as [|? a4 ? m4 H4 M4]. subst. inversion M4 as [|? a5 ? m5 H5 M5]. subst.
  exists a0, a5. repeat split; assumption.
Qed.
Lemma tiny_zero : fmul test_tiny (of_int 0) = of_int 0. Proof. vm_compute. reflexivity. Qed.
Lemma alike3 : exists (draw : source unit) l m first a, uniform draw /\ so3_algebra_elements draw fvzero tt 7 = Ok l /\ so3_group_elements l m /\ nth_error l 4 = nth_error l 0 /\ nth_error m 0 = Some first /\ nth_error m 5 = Some a /\ forall c, so3_equality first a c -> c = false.
Proof.
  destruct (count_both zeros fvzero ftzero tt 7) as (_ & C & _). destruct C as [(l & L & _) _]; [lia|]. destruct (some_so3_group l) as [m M]. exists zeros, l, m.
  pose proof L as L'. apply elements3 in L. destruct L as (rest & E & LL & R). pose proof (R 0%nat ltac:(cbn; lia)) as R0. destruct rest as [|v rest]; [cbn in LL; lia|]. injection R0 as V.
  unfold drawn3, fscale in E, V. cbn [fx fy fz] in E. rewrite !nth_zeros in E, V. rewrite !tiny_zero in E. cbn [app] in E. revert E. generalize (FV test_large_rotation test_large_rotation (fneg test_large_rotation)) (thrice (fneg (of_int 1))) (thrice (of_int 1)). intros x y z E.
  rewrite E in M. destruct (six_of _ _ _ _ _ _ _ _ _ M) as (a & b & A & B & PA & PB). exists a, b. split; [exact zeros_uniform|]. split; [exact L'|]. split; [rewrite E; exact M|]. split; [rewrite E; reflexivity|]. split; [exact A|]. split; [exact B|].
  intros c (p & q & P & Q & ->). destruct fvzero_val as [F W]. rewrite V in PB. rewrite (not_told fvzero a b q F W PA PB Q). apply Bool.andb_false_r.
Qed.
Lemma alike6 : exists (draw : source unit) l m first a, uniform draw /\ se3_algebra_elements draw ftzero tt 7 = Ok l /\ se3_group_elements l m /\ nth_error l 4 = nth_error l 0 /\ nth_error m 0 = Some first /\ nth_error m 5 = Some a /\ forall c, se3_equality first a c -> c = false.
Proof.
  destruct (count_both zeros fvzero ftzero tt 7) as (_ & C & _). destruct C as [_ (l & L & _)]; [lia|]. destruct (some_se3_group l) as [m M]. exists zeros, l, m.
  pose proof L as L'. apply elements6 in L. destruct L as (rest & E & LL & R). pose proof (R 0%nat ltac:(cbn; lia)) as R0. destruct rest as [|v rest]; [cbn in LL; lia|]. injection R0 as V.
  unfold drawn6, drawn3, ftscale in E, V. cbn [frot_part ftrans_part] in E, V. rewrite !nth_zeros in E, V. revert E.
  assert (T : fscale test_tiny (FV (of_int 0) (of_int 0) (of_int 0)) = thrice (of_int 0)) by (unfold fscale; cbn [fx fy fz]; rewrite tiny_zero; reflexivity). rewrite T.
  generalize (fscale test_large (FV (of_int 0) (of_int 0) (of_int 0))) (FV test_large_rotation test_large_rotation (fneg test_large_rotation)) (thrice (fneg (of_int 1))) (thrice (of_int 1)). intros w x y z E. cbn [app] in E.
  rewrite E in M. destruct (six_of _ _ _ _ _ _ _ _ _ M) as (a & b & A & B & PA & PB). exists a, b. split; [exact zeros_uniform|]. split; [exact L'|]. split; [rewrite E; exact M|]. split; [rewrite E; reflexivity|]. split; [exact A|]. split; [exact B|].
  intros c (p & q & P & Q & ->). rewrite V in PB. rewrite (not_told_6 a b q PA PB Q). apply Bool.andb_false_r.
Qed.
Lemma constants :
  (let v := FV test_large_rotation test_large_rotation (fneg test_large_rotation) in vfinite v /\ 31316 / 10000 <= norm (vval v) <= 31318 / 10000) /\ 31318 / 10000 < PI /\
  (finite test_tiny /\ 999998 / 1000000000000 <= val test_tiny <= 1000002 / 1000000000000) /\ finite test_large /\ val test_large = 1000000.
Proof.
  split; [destruct large_bound as (A & _ & B); split; assumption|]. split; [exact PI_low|]. split; [|exact large_val].
  destruct (any_ratio 1 1000000) as [F E]; [lia|lia|lra|]. fold test_tiny in F, E. split; [exact F|]. apply Rabs_le_inv in E. pose proof h_tiny' as H1. assert (/ 10 ^ 60 <= / 10 ^ 20) by (apply Rinv_le_contravar; [apply pow_lt; lra|apply Rle_pow; [lra|lia]]). rewrite u_num in E. lra.
Qed.
Lemma forall2_nth {A B} (P : A -> B -> Prop) l m : Forall2 P l m -> length m = length l /\ forall i a b, nth_error l i = Some a -> nth_error m i = Some b -> P a b.
Proof.
  induction 1 as [|a b l m H _ [IL IN]]; [split; [reflexivity|intros [|i] a b; discriminate]|]. split; [cbn; congruence|]. intros [|i] x y; cbn [nth_error]; [intros [= <-] [= <-]; exact H|apply IN].
Qed.
Lemma groups : (forall l, exists m, so3_group_elements l m) /\ (forall l, exists m, se3_group_elements l m) /\
  (forall l m, so3_group_elements l m -> length m = length l /\ forall i v g, nth_error l i = Some v -> nth_error m i = Some g -> fso3_exp v g) /\
  (forall l m, se3_group_elements l m -> length m = length l /\ forall i a g, nth_error l i = Some a -> nth_error m i = Some g -> fse3_exp (frot_part a) (ftrans_part a) g).
Proof. split; [exact some_so3_group|]. split; [exact some_se3_group|]. split; intros l m M; apply (forall2_nth _ _ _ M). Qed.
