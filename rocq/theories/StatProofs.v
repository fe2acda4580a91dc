From Coq Require Import Reals Lra Permutation FinFun.
From Verif Require Import Cpp StatModel StatSpec.
Local Open Scope R_scope.

(** ** Sums *)
Lemma sum_snoc (f : nat -> R) l x : fold_right Rplus 0 (map f (l ++ [x])) = fold_right Rplus 0 (map f l) + f x.
Proof. induction l as [|y l IH]; cbn; [ring|rewrite IH; ring]. Qed.
Lemma sum_total n f : sum_to n f = total n f.
Proof. unfold sum_to. induction n as [|n IH]; [reflexivity|]. rewrite seq_S, sum_snoc, IH. reflexivity. Qed.
Lemma total_ext n f g : (forall i, (i < n)%nat -> f i = g i) -> total n f = total n g.
Proof. induction n as [|n IH]; intro H; [reflexivity|]. cbn. rewrite IH, H; auto. Qed.
Lemma total_plus n f g : total n (fun i => f i + g i) = total n f + total n g.
Proof. induction n as [|n IH]; cbn; [ring|rewrite IH; ring]. Qed.
Lemma total_minus n f g : total n (fun i => f i - g i) = total n f - total n g.
Proof. induction n as [|n IH]; cbn; [ring|rewrite IH; ring]. Qed.
Lemma total_scale n k f : total n (fun i => k * f i) = k * total n f.
Proof. induction n as [|n IH]; cbn; [ring|rewrite IH; ring]. Qed.
Lemma total_scale_r n k f : total n (fun i => f i * k) = total n f * k.
Proof. induction n as [|n IH]; cbn; [ring|rewrite IH; ring]. Qed.
Lemma total_const n k : total n (fun _ => k) = INR n * k.
Proof. induction n as [|n IH]; [cbn; ring|]. cbn [total]. rewrite IH, S_INR. ring. Qed.
Lemma total_zero n : total n (fun _ => 0) = 0.
Proof. rewrite total_const. ring. Qed.
Lemma total_swap n m f : total n (fun i => total m (fun j => f i j)) = total m (fun j => total n (fun i => f i j)).
Proof. induction n as [|n IH]; cbn; [rewrite total_zero; reflexivity|]. rewrite IH, <- total_plus. reflexivity. Qed.
Lemma total_nonneg n f : (forall i, (i < n)%nat -> 0 <= f i) -> 0 <= total n f.
Proof. induction n as [|n IH]; intro H; cbn; [lra|]. assert (0 <= f n) by auto. assert (0 <= total n f) by auto. lra. Qed.
Lemma total_le n f g : (forall i, (i < n)%nat -> f i <= g i) -> total n f <= total n g.
Proof. induction n as [|n IH]; intro H; cbn; [lra|]. assert (f n <= g n) by auto. assert (total n f <= total n g) by auto. lra. Qed.
Lemma total_nonneg_zero n f : (forall i, (i < n)%nat -> 0 <= f i) -> total n f = 0 -> forall i, (i < n)%nat -> f i = 0.
Proof.
  induction n as [|n IH]; intros H E i Hi; [lia|]. cbn in E. assert (0 <= f n) by auto.
  assert (0 <= total n f) by (apply total_nonneg; auto). assert (Hc : (i < n)%nat \/ i = n) by lia. destruct Hc as [?| ->]; [|lra]. apply IH; auto; lra.
Qed.
Lemma total_pick n f j : (j < n)%nat -> total n (fun i => unit_entry i j * f i) = f j.
Proof.
  induction n as [|n IH]; intro H; [lia|]. cbn. assert (Hc : (j < n)%nat \/ j = n) by lia. destruct Hc as [L| ->].
  - rewrite IH by exact L. unfold unit_entry. destruct (Nat.eqb_spec n j); [lia|]. ring.
  - rewrite (total_ext n _ (fun _ => 0)); [|intros i Hi; unfold unit_entry; destruct (Nat.eqb_spec i n); [lia|ring]].
    rewrite total_zero. unfold unit_entry. rewrite Nat.eqb_refl. ring.
Qed.
Lemma unit_sym i j : unit_entry i j = unit_entry j i.
Proof. unfold unit_entry. rewrite Nat.eqb_sym. reflexivity. Qed.
Lemma total_prod n m f g : total n f * total m g = total n (fun i => total m (fun j => f i * g j)).
Proof. rewrite <- total_scale_r. apply total_ext. intros i _. rewrite <- total_scale. reflexivity. Qed.
Lemma total_perm n p f : (forall i, (i < n)%nat -> (p i < n)%nat) -> (forall i j, (i < n)%nat -> (j < n)%nat -> p i = p j -> i = j) ->
  total n (fun i => f (p i)) = total n f.
Proof.
  intros R I. rewrite <- !sum_total. unfold sum_to. rewrite <- (map_map p f).
  assert (P : Permutation (map p (seq 0 n)) (seq 0 n)).
  { apply NoDup_Permutation_bis.
    - apply NoDup_nth with (d := O). rewrite map_length, seq_length. intros i j Hi Hj E.
      rewrite !nth_indep with (d := O) (d' := p O) in E by (rewrite map_length, seq_length; assumption).
      rewrite !map_nth, !seq_nth in E by assumption. apply I; assumption.
    - rewrite map_length. reflexivity.
    - intros x Hx. apply in_map_iff in Hx as (y & <- & Hy). apply in_seq in Hy. apply in_seq. specialize (R y). lia. }
  apply (Permutation_map f) in P. revert P. generalize (map f (map p (seq 0 n))), (map f (seq 0 n)). intros l l' P. induction P; cbn; lra.
Qed.

(** ** Sample statistics *)
Lemma two32 : (0 < 2^32)%Z. Proof. reflexivity. Qed.
Lemma to_unsigned_small n : (Z.of_nat n < 2^32)%Z -> to_unsigned n = Z.of_nat n.
Proof. intro H. unfold to_unsigned. apply Z.mod_small. lia. Qed.
Lemma INR_pos n : (n <> 0)%nat -> 0 < INR n.
Proof. intro H. apply lt_0_INR. lia. Qed.

Lemma mean_spec s : ((0 < rows s)%nat \/ cols s = O) -> exists m, mean s = Ok m /\ size m = cols s /\
  (rows s <> O -> forall j, INR (rows s) * coef m j = total (rows s) (fun i => entry s i j)).
Proof.
  intro H. unfold mean, colwise_mean. destruct (Nat.eqb_spec (rows s) 0) as [E|E]; cbn [andb].
  - destruct (Nat.eqb_spec (cols s) 0); [|lia]. cbn. eexists. split; [reflexivity|]. split; [reflexivity|]. intro N; elim N; exact E.
  - cbn. eexists. split; [reflexivity|]. split; [reflexivity|]. intros _ j. cbn. rewrite sum_total. field. pose proof (INR_pos _ E); lra.
Qed.
Lemma mean_ub s : mean s = UB <-> rows s = O /\ cols s <> O.
Proof.
  unfold mean, colwise_mean. destruct (Nat.eqb_spec (rows s) 0), (Nat.eqb_spec (cols s) 0); cbn; split; try discriminate; try tauto.
Qed.
Lemma colwise_mean_ok s : rows s <> O -> exists m, colwise_mean s = Ok m /\ forall j, INR (rows s) * m j = total (rows s) (fun i => entry s i j).
Proof.
  intro H. unfold colwise_mean. destruct (Nat.eqb_spec (rows s) 0); [contradiction|]. cbn [andb]. eexists. split; [reflexivity|].
  intro j. cbv beta. rewrite sum_total. field. pose proof (INR_pos _ H). lra.
Qed.
(** Centred sums are half the sum over pairs. *)
Lemma centred n x y mx my : n <> O -> INR n * mx = total n x -> INR n * my = total n y ->
  total n (fun k => (x k - mx) * (y k - my)) = total n (fun k => total n (fun l => (x k - x l) * (y k - y l))) / (2 * INR n).
Proof.
  intros N X Y. pose proof (INR_pos _ N) as P.
  rewrite (total_ext n (fun k => total n (fun l => (x k - x l) * (y k - y l)))
    (fun k => INR n * (x k * y k) - (total n y * x k + total n x * y k) + total n (fun l => x l * y l))).
  2:{ intros k _. rewrite (total_ext n (fun l => (x k - x l) * (y k - y l)) (fun l => (x k * y k - (x k * y l + y k * x l)) + x l * y l)) by (intros; ring).
      rewrite total_plus, total_minus, total_plus, total_const, !total_scale. ring. }
  rewrite total_plus, total_minus, total_plus, total_const, !total_scale.
  rewrite (total_ext n (fun k => (x k - mx) * (y k - my)) (fun k => (x k * y k - (mx * y k + my * x k)) + mx * my)) by (intros; ring).
  rewrite total_plus, total_minus, total_plus, total_const, !total_scale, <- X, <- Y. field. lra.
Qed.

Lemma covariance_cases s : (covariance s = Throw <-> (to_unsigned (rows s) <= 1)%Z) /\
  ((1 < to_unsigned (rows s))%Z -> exists c, covariance s = Ok c /\ rows c = cols s /\ cols c = cols s /\
     forall i j, entry c i j = pairwise_covariance s i j * (INR (rows s) - 1) / IZR (to_unsigned (rows s) - 1)).
Proof.
  unfold covariance. destruct (Z.ltb_spec 1 (to_unsigned (rows s))) as [L|L]; cbn [reassert obind].
  2:{ split; [split; [intros _; exact L|reflexivity]|]. lia. }
  assert (N : rows s <> O). { intro E. rewrite E in L. vm_compute in L. discriminate. }
  assert (N1 : rows s <> 1%nat). { intro E. rewrite E in L. vm_compute in L. discriminate. }
  destruct (colwise_mean_ok s N) as (m & -> & M). cbn [obind]. split; [split; [discriminate|lia]|]. intros _. eexists. split; [reflexivity|].
  split; [reflexivity|]. split; [reflexivity|]. intros i j. cbn [entry product transpose rowwise_sub cols rows]. rewrite sum_total.
  rewrite (centred (rows s) (fun k => entry s k i) (fun k => entry s k j) (m i) (m j) N (M i) (M j)). unfold pairwise_covariance.
  assert (P : 2 <= INR (rows s)) by (change 2 with (INR 2); apply le_INR; lia).
  assert (Q : 1 <= IZR (to_unsigned (rows s) - 1)) by (apply IZR_le; lia). field. lra.
Qed.
Lemma covariance_spec s : (Z.of_nat (rows s) < 2^32)%Z ->
  (covariance s = Throw <-> (rows s < 2)%nat) /\
  ((2 <= rows s)%nat -> exists c, covariance s = Ok c /\ rows c = cols s /\ cols c = cols s /\ forall i j, entry c i j = pairwise_covariance s i j).
Proof.
  intro H. destruct (covariance_cases s) as [C1 C2]. rewrite (to_unsigned_small _ H) in *. split; [rewrite C1; lia|].
  intro L. destruct C2 as (c & E & R & C & X); [lia|]. exists c. split; [exact E|]. split; [exact R|]. split; [exact C|].
  intros i j. rewrite X, minus_IZR, <- INR_IZR_INZ. field.
  assert (2 <= INR (rows s)) by (change 2 with (INR 2); apply le_INR; lia). lra.
Qed.

(** The mean is the centre of the samples. *)
Lemma spread_mean s m c : rows s <> O -> (forall j, (j < cols s)%nat -> INR (rows s) * coef m j = total (rows s) (fun i => entry s i j)) ->
  spread s c = spread s (coef m) + INR (rows s) * total (cols s) (fun j => (coef m j - c j) * (coef m j - c j)).
Proof.
  intros N M. unfold spread. rewrite (total_swap (rows s) (cols s)). rewrite (total_swap (rows s) (cols s)). rewrite <- total_scale, <- total_plus.
  apply total_ext. intros j Hj.
  rewrite (total_ext (rows s) (fun i => (entry s i j - c j) * (entry s i j - c j))
     (fun i => (entry s i j - coef m j) * (entry s i j - coef m j) + (2 * (coef m j - c j) * entry s i j + ((c j * c j) - (coef m j * coef m j))))) by (intros; ring).
  rewrite total_plus, total_plus, total_const, total_scale, <- (M j Hj). ring.
Qed.
Lemma mean_centre s m : rows s <> O -> mean s = Ok m -> (forall c, spread s (coef m) <= spread s c) /\
  (forall c, spread s c = spread s (coef m) -> forall j, (j < cols s)%nat -> c j = coef m j).
Proof.
  intros N E. destruct (mean_spec s) as (m' & E' & S & H); [left; lia|]. rewrite E in E'. injection E' as <-.
  pose proof (fun c => spread_mean s m c N (fun j _ => H N j)) as X. pose proof (INR_pos _ N) as P.
  assert (Q : forall c, 0 <= total (cols s) (fun j => (coef m j - c j) * (coef m j - c j))) by (intro c; apply total_nonneg; intros j _; apply (Rle_0_sqr (coef m j - c j))).
  split; intro c; rewrite (X c); specialize (Q c); [nra|]. intros F j Hj.
  assert (Z : total (cols s) (fun j => (coef m j - c j) * (coef m j - c j)) = 0) by nra.
  apply (total_nonneg_zero _ _ (fun j _ => Rle_0_sqr (coef m j - c j)) Z) in Hj. cbv beta in Hj. destruct (Rmult_integral _ _ Hj); lra.
Qed.

(** Affine maps. *)
Lemma mean_affine a b s y m : rows s <> O -> affine_image a b s y -> mean s = Ok m -> exists m', mean y = Ok m' /\ size m' = rows a /\
  forall i, (i < rows a)%nat -> coef m' i = total (cols a) (fun j => entry a i j * coef m j) + b i.
Proof.
  intros N (R & C & D & A) E. destruct (mean_spec s) as (m0 & E0 & S0 & H0); [left; lia|]. rewrite E in E0. injection E0 as <-.
  destruct (mean_spec y) as (m' & E' & S' & H'); [left; lia|]. exists m'. split; [exact E'|]. split; [congruence|]. intros i Hi.
  pose proof (INR_pos _ N) as P. apply (Rmult_eq_reg_l (INR (rows s))); [|lra]. rewrite <- R at 1. rewrite H' by lia. rewrite R.
  rewrite (total_ext (rows s) _ (fun k => total (cols a) (fun j => entry a i j * entry s k j) + b i)) by (intros k Hk; apply A; assumption).
  rewrite total_plus, total_const, total_swap, Rmult_plus_distr_l. f_equal. rewrite <- total_scale. apply total_ext. intros j _.
  rewrite total_scale, <- H0 by exact N. ring.
Qed.
Lemma pairwise_affine a b s y i j : affine_image a b s y -> (i < rows a)%nat -> (j < rows a)%nat ->
  pairwise_covariance y i j = total (cols a) (fun k => total (cols a) (fun l => entry a i k * pairwise_covariance s k l * entry a j l)).
Proof.
  intros (R & C & D & A) Hi Hj. unfold pairwise_covariance. rewrite R. set (q := 2 * INR (rows s) * (INR (rows s) - 1)).
  transitivity (total (cols a) (fun k => total (cols a) (fun l => / q * (entry a i k * entry a j l *
    total (rows s) (fun p => total (rows s) (fun r => (entry s p k - entry s r k) * (entry s p l - entry s r l))))))).
  2:{ apply total_ext. intros k _. apply total_ext. intros l _. unfold Rdiv. ring. }
  rewrite (total_ext (cols a) _ (fun k => / q * total (cols a) (fun l => entry a i k * entry a j l *
    total (rows s) (fun p => total (rows s) (fun r => (entry s p k - entry s r k) * (entry s p l - entry s r l)))))) by (intros; apply total_scale).
  rewrite total_scale. unfold Rdiv. rewrite Rmult_comm. f_equal.
  rewrite (total_ext (rows s) _ (fun p => total (rows s) (fun r => total (cols a) (fun k => total (cols a) (fun l =>
     entry a i k * entry a j l * ((entry s p k - entry s r k) * (entry s p l - entry s r l))))))).
  2:{ intros p Hp. apply total_ext. intros r Hr. rewrite !A by assumption.
      transitivity (total (cols a) (fun k => entry a i k * (entry s p k - entry s r k)) * total (cols a) (fun k => entry a j k * (entry s p k - entry s r k))).
      2:{ rewrite total_prod. apply total_ext. intros. apply total_ext. intros. ring. }
      rewrite (total_ext (cols a) (fun k => entry a i k * (entry s p k - entry s r k)) (fun k => entry a i k * entry s p k - entry a i k * entry s r k)) by (intros; ring).
      rewrite (total_ext (cols a) (fun k => entry a j k * (entry s p k - entry s r k)) (fun k => entry a j k * entry s p k - entry a j k * entry s r k)) by (intros; ring).
      rewrite !total_minus. ring. }
  rewrite (total_ext (rows s) _ (fun p => total (cols a) (fun k => total (rows s) (fun r => total (cols a) (fun l =>
     entry a i k * entry a j l * ((entry s p k - entry s r k) * (entry s p l - entry s r l))))))) by (intros; apply total_swap).
  rewrite total_swap. apply total_ext. intros k _.
  rewrite (total_ext (rows s) _ (fun p => total (cols a) (fun l => total (rows s) (fun r =>
     entry a i k * entry a j l * ((entry s p k - entry s r k) * (entry s p l - entry s r l)))))) by (intros; apply total_swap).
  rewrite total_swap. apply total_ext. intros l _. rewrite <- total_scale. apply total_ext. intros p _. apply total_scale.
Qed.
Lemma covariance_affine a b s y c : affine_image a b s y -> covariance s = Ok c -> exists d, covariance y = Ok d /\ transformed a c d.
Proof.
  intros A E. destruct (covariance_cases s) as [T1 T2]. destruct (covariance_cases y) as [U1 U2]. pose proof (proj1 A) as R. rewrite R in U1, U2.
  destruct (Z.leb_spec (to_unsigned (rows s)) 1) as [L|L]; [apply T1 in L; congruence|].
  destruct (T2 L) as (c' & E' & R1 & C1 & X1). rewrite E in E'. injection E' as <-. destruct (U2 L) as (d & Ed & R2 & C2 & X2).
  exists d. split; [exact Ed|]. pose proof A as (A1 & A2 & A3 & A4). split; [congruence|]. split; [congruence|]. intros i j Hi Hj. rewrite X2.
  rewrite (pairwise_affine a b s y i j A Hi Hj).
  unfold Rdiv. rewrite Rmult_assoc, <- total_scale_r. apply total_ext. intros k _. rewrite <- total_scale_r. apply total_ext. intros l _. rewrite X1.
  unfold Rdiv. ring.
Qed.

(** The order of the samples does not matter. *)
Lemma mean_reordered s t m : rows s <> O -> reordered s t -> mean s = Ok m -> exists m', mean t = Ok m' /\ same_vector m m'.
Proof.
  intros N (R & C & p & P1 & P2 & X) E. destruct (mean_spec s) as (m0 & E0 & S0 & H0); [left; lia|]. rewrite E in E0. injection E0 as <-.
  destruct (mean_spec t) as (m' & E' & S' & H'); [left; lia|]. exists m'. split; [exact E'|]. split; [congruence|]. intros j Hj. rewrite S0 in Hj.
  pose proof (INR_pos _ N) as P. apply (Rmult_eq_reg_l (INR (rows s))); [|lra]. rewrite H0 by exact N. rewrite <- R at 2. rewrite H' by congruence. rewrite R.
  rewrite (total_ext (rows s) (fun i => entry t i j) (fun i => entry s (p i) j)) by (intros i Hi; apply X; assumption).
  symmetry. apply (total_perm (rows s) p (fun i => entry s i j)); assumption.
Qed.
Lemma covariance_reordered s t c : reordered s t -> covariance s = Ok c -> exists d, covariance t = Ok d /\ same_matrix c d.
Proof.
  intros (R & C & p & P1 & P2 & X) E. destruct (covariance_cases s) as [T1 T2]. destruct (covariance_cases t) as [U1 U2]. rewrite R in U1, U2.
  destruct (Z.leb_spec (to_unsigned (rows s)) 1) as [L|L]; [apply T1 in L; congruence|].
  destruct (T2 L) as (c' & E' & R1 & C1 & X1). rewrite E in E'. injection E' as <-. destruct (U2 L) as (d & Ed & R2 & C2 & X2).
  exists d. split; [exact Ed|]. split; [congruence|]. split; [congruence|]. intros i j Hi Hj. rewrite R1 in Hi. rewrite C1 in Hj. rewrite X1, X2.
  f_equal. f_equal. unfold pairwise_covariance. rewrite R. f_equal. symmetry.
  rewrite (total_ext (rows s) _ (fun k => total (rows s) (fun l => (entry s (p k) i - entry s l i) * (entry s (p k) j - entry s l j)))).
  - apply (total_perm (rows s) p (fun k => total (rows s) (fun l => (entry s k i - entry s l i) * (entry s k j - entry s l j)))); assumption.
  - intros k Hk. rewrite <- (total_perm (rows s) p (fun l => (entry s (p k) i - entry s l i) * (entry s (p k) j - entry s l j))) by assumption.
    apply total_ext. intros l Hl. rewrite !X by assumption. reflexivity.
Qed.

(** Symmetric and positive semi-definite. *)
Lemma covariance_symmetric s c : covariance s = Ok c -> forall i j, entry c i j = entry c j i.
Proof.
  intros E i j. destruct (covariance_cases s) as [T1 T2]. destruct (Z.leb_spec (to_unsigned (rows s)) 1) as [L|L]; [apply T1 in L; congruence|].
  destruct (T2 L) as (c' & E' & _ & _ & X). rewrite E in E'. injection E' as <-. rewrite !X. f_equal. f_equal. unfold pairwise_covariance. f_equal.
  apply total_ext. intros k _. apply total_ext. intros l _. ring.
Qed.
Lemma covariance_psd s c y : covariance s = Ok c ->
  0 <= form (cols s) (entry c) y /\
  (form (cols s) (entry c) y = 0 <-> forall k l, (k < rows s)%nat -> (l < rows s)%nat ->
     total (cols s) (fun j => y j * entry s k j) = total (cols s) (fun j => y j * entry s l j)).
Proof.
  intro E. destruct (covariance_cases s) as [T1 T2]. destruct (Z.leb_spec (to_unsigned (rows s)) 1) as [L|L]; [apply T1 in L; congruence|].
  destruct (T2 L) as (c' & E' & _ & _ & X). rewrite E in E'. injection E' as <-.
  assert (N : (2 <= rows s)%nat).
  { destruct (rows s) as [|[|n]]; [vm_compute in L; discriminate|vm_compute in L; discriminate|lia]. }
  assert (P : 2 <= INR (rows s)) by (change 2 with (INR 2); apply le_INR; lia).
  assert (Q : 1 <= IZR (to_unsigned (rows s) - 1)) by (apply IZR_le; lia).
  set (q := / (2 * INR (rows s) * IZR (to_unsigned (rows s) - 1))).
  assert (Hq : 0 < q) by (apply Rinv_0_lt_compat; nra).
  set (v := fun k => total (cols s) (fun j => y j * entry s k j)).
  assert (F : form (cols s) (entry c) y = q * total (rows s) (fun k => total (rows s) (fun l => (v k - v l) * (v k - v l)))).
  { unfold form. rewrite <- total_scale.
    transitivity (total (rows s) (fun k => total (rows s) (fun l => total (cols s) (fun i => total (cols s) (fun j =>
       q * ((y i * (entry s k i - entry s l i)) * (y j * (entry s k j - entry s l j)))))))).
    - symmetry. rewrite (total_ext (rows s) _ (fun k => total (cols s) (fun i => total (rows s) (fun l => total (cols s) (fun j =>
       q * ((y i * (entry s k i - entry s l i)) * (y j * (entry s k j - entry s l j)))))))) by (intros; apply total_swap).
      rewrite total_swap. apply total_ext. intros i _.
      rewrite (total_ext (rows s) _ (fun k => total (cols s) (fun j => total (rows s) (fun l =>
       q * ((y i * (entry s k i - entry s l i)) * (y j * (entry s k j - entry s l j))))))) by (intros; apply total_swap).
      rewrite total_swap. apply total_ext. intros j _. rewrite X. unfold pairwise_covariance.
      rewrite (total_ext (rows s) (fun i0 => total (rows s) (fun l => q * (y i * (entry s i0 i - entry s l i) * (y j * (entry s i0 j - entry s l j)))))
        (fun k => (q * (y i * y j)) * total (rows s) (fun l => (entry s k i - entry s l i) * (entry s k j - entry s l j)))).
      2:{ intros k _. rewrite <- total_scale. apply total_ext. intros; ring. }
      rewrite total_scale. unfold q. field. lra.
    - apply total_ext. intros k _. rewrite <- total_scale. apply total_ext. intros l _.
      rewrite (total_ext (cols s) _ (fun i => q * total (cols s) (fun j => (y i * (entry s k i - entry s l i)) * (y j * (entry s k j - entry s l j))))) by (intros; apply total_scale).
      rewrite total_scale. f_equal. rewrite <- total_prod.
      assert (V : total (cols s) (fun i => y i * (entry s k i - entry s l i)) = v k - v l).
      { unfold v. rewrite <- total_minus. apply total_ext. intros; ring. }
      rewrite V. reflexivity. }
  rewrite F. assert (Nn : forall k, 0 <= total (rows s) (fun l => (v k - v l) * (v k - v l))) by (intro k; apply total_nonneg; intros l _; apply Rle_0_sqr).
  assert (T : 0 <= total (rows s) (fun k => total (rows s) (fun l => (v k - v l) * (v k - v l)))) by (apply total_nonneg; intros; apply Nn).
  split; [nra|]. split.
  - intros Z k l Hk Hl. assert (Z' : total (rows s) (fun k => total (rows s) (fun l => (v k - v l) * (v k - v l))) = 0) by nra.
    pose proof (total_nonneg_zero _ _ (fun k _ => Nn k) Z' k Hk) as Z2. cbv beta in Z2.
    pose proof (total_nonneg_zero _ _ (fun l _ => Rle_0_sqr (v k - v l)) Z2 l Hl) as Z3. cbv beta in Z3. fold (v k) (v l). destruct (Rmult_integral _ _ Z3); lra.
  - intro H. rewrite (total_ext (rows s) _ (fun _ => 0)), total_zero; [ring|]. intros k Hk. rewrite (total_ext (rows s) _ (fun _ => 0)); [apply total_zero|].
    intros l Hl. unfold v. rewrite (H k l Hk Hl). ring.
Qed.
Lemma total_two_unit n f i j : (i < n)%nat -> (j < n)%nat -> forall a b,
  total n (fun k => (a * unit_entry k i + b * unit_entry k j) * f k) = a * f i + b * f j.
Proof.
  intros Hi Hj a b. rewrite (total_ext n _ (fun k => a * (unit_entry k i * f k) + b * (unit_entry k j * f k))) by (intros; ring).
  rewrite total_plus, !total_scale, !total_pick by assumption. reflexivity.
Qed.
Lemma form_two n c i j a b : (i < n)%nat -> (j < n)%nat ->
  form n c (fun k => a * unit_entry k i + b * unit_entry k j) = a * a * c i i + a * b * c i j + a * b * c j i + b * b * c j j.
Proof.
  intros Hi Hj. unfold form.
  rewrite (total_ext n _ (fun k => (a * unit_entry k i + b * unit_entry k j) * total n (fun l => (a * unit_entry l i + b * unit_entry l j) * c k l))).
  2:{ intros k _. rewrite <- total_scale. apply total_ext. intros; ring. }
  rewrite (total_ext n _ (fun k => (a * unit_entry k i + b * unit_entry k j) * (a * c k i + b * c k j))).
  2:{ intros k _. f_equal. apply total_two_unit; assumption. }
  rewrite (total_two_unit n (fun k => a * c k i + b * c k j)) by assumption. ring.
Qed.
Lemma covariance_cauchy s c i j : covariance s = Ok c -> (i < cols s)%nat -> (j < cols s)%nat -> 0 <= entry c i i /\ (entry c i j)^2 <= entry c i i * entry c j j.
Proof.
  intros E Hi Hj. pose proof (covariance_symmetric s c E i j) as S.
  assert (P : forall a b, 0 <= a * a * entry c i i + 2 * (a * b) * entry c i j + b * b * entry c j j).
  { intros a b. pose proof (proj1 (covariance_psd s c (fun k => a * unit_entry k i + b * unit_entry k j) E)) as H. rewrite form_two in H by assumption. rewrite <- S in H. lra. }
  pose proof (P 1 0). pose proof (P 0 1). split; [lra|].
  set (A := entry c i i) in *. set (B := entry c i j) in *. set (D := entry c j j) in *.
  destruct (Rlt_dec 0 A) as [HA|HA].
  - pose proof (P (- B) A). assert (A * (A * D - B^2) >= 0) by nra. nra.
  - assert (A0 : A = 0) by lra. destruct (Req_dec B 0) as [B0|B0]; [rewrite A0, B0; lra|].
    pose proof (P (- (D + 1) / (2 * B)) 1) as K. rewrite A0 in K.
    replace (- (D + 1) / (2 * B) * (- (D + 1) / (2 * B)) * 0 + 2 * (- (D + 1) / (2 * B) * 1) * B + 1 * 1 * D) with (-1) in K by (field; exact B0). lra.
Qed.

(** ** Gaussians *)
Lemma fold_max l x : (forall y, y = x \/ In y l -> y <= max_of x l) /\ (max_of x l = x \/ In (max_of x l) l).
Proof.
  unfold max_of. revert x. induction l as [|z l IH]; intro x; cbn; [split; [intros y [->|[]]; lra|left; reflexivity]|].
  destruct (IH (Rmax x z)) as [A B]. pose proof (Rmax_l x z). pose proof (Rmax_r x z). split.
  - intros y [->|[->|H1]]; [specialize (A (Rmax x z) (or_introl eq_refl)); lra|specialize (A (Rmax x y) (or_introl eq_refl)); lra|apply A; auto].
  - destruct B as [B|B]; [|auto]. rewrite B. unfold Rmax. destruct (Rle_dec x z); auto.
Qed.
Lemma fold_min l x : (forall y, y = x \/ In y l -> min_of x l <= y) /\ (min_of x l = x \/ In (min_of x l) l).
Proof.
  unfold min_of. revert x. induction l as [|z l IH]; intro x; cbn; [split; [intros y [->|[]]; lra|left; reflexivity]|].
  destruct (IH (Rmin x z)) as [A B]. pose proof (Rmin_l x z). pose proof (Rmin_r x z). split.
  - intros y [->|[->|H1]]; [specialize (A (Rmin x z) (or_introl eq_refl)); lra|specialize (A (Rmin x y) (or_introl eq_refl)); lra|apply A; auto].
  - destruct B as [B|B]; [|auto]. rewrite B. unfold Rmin. destruct (Rle_dec x z); auto.
Qed.
Lemma reduce_max l : l <> [] -> exists m, reduce_coeffs max_of l = Ok m /\ In m l /\ forall y, In y l -> y <= m.
Proof.
  destruct l as [|x l]; intro H; [elim H; reflexivity|]. cbn. destruct (fold_max l x) as [A B]. exists (max_of x l). split; [reflexivity|].
  split; [destruct B as [B|B]; auto|]. intros y [->|Hy]; apply A; auto.
Qed.
Lemma reduce_min l : l <> [] -> exists m, reduce_coeffs min_of l = Ok m /\ In m l /\ forall y, In y l -> m <= y.
Proof.
  destruct l as [|x l]; intro H; [elim H; reflexivity|]. cbn. destruct (fold_min l x) as [A B]. exists (min_of x l). split; [reflexivity|].
  split; [destruct B as [B|B]; auto|]. intros y [->|Hy]; apply A; auto.
Qed.
Lemma coeffs_in c x : In x (coeffs c) <-> exists i j, (i < rows c)%nat /\ (j < cols c)%nat /\ entry c i j = x.
Proof.
  unfold coeffs. rewrite in_flat_map. split.
  - intros (j & Hj & H). apply in_map_iff in H as (i & <- & Hi). apply in_seq in Hi, Hj. exists i, j. repeat split; lia.
  - intros (i & j & Hi & Hj & <-). exists j. split; [apply in_seq; lia|]. apply in_map_iff. exists i. split; [reflexivity|apply in_seq; lia].
Qed.
Lemma vcoeffs_in v x : In x (vcoeffs v) <-> exists i, (i < size v)%nat /\ coef v i = x.
Proof.
  unfold vcoeffs. rewrite in_map_iff. split; intros (i & A & B).
  - apply in_seq in B. exists i. split; [lia|exact A].
  - exists i. split; [exact B|]. apply in_seq. lia.
Qed.
Lemma sanitize_spec c ev : (0 < rows c)%nat -> (0 < cols c)%nat -> (0 < size ev)%nat -> exists t, tolerance c t /\
  ((forall i, (i < size ev)%nat -> - t < coef ev i) -> sanitize_eigenvalues c ev = Ok (Vector (size ev) (fun i => Rmax (coef ev i) 0))) /\
  (~ (forall i, (i < size ev)%nat -> - t < coef ev i) -> sanitize_eigenvalues c ev = Throw).
Proof.
  intros Hr Hc Hs. unfold sanitize_eigenvalues.
  assert (N : coeffs c <> []). { intro E. assert (H : In (entry c 0 0) (coeffs c)) by (apply coeffs_in; exists O, O; auto). rewrite E in H. exact H. }
  assert (Nv : vcoeffs ev <> []). { intro E. assert (H : In (coef ev 0) (vcoeffs ev)) by (apply vcoeffs_in; exists O; auto). rewrite E in H. exact H. }
  destruct (reduce_max _ N) as (hi & -> & Ihi & Uhi). destruct (reduce_min _ N) as (lo & -> & Ilo & Ulo). destruct (reduce_min _ Nv) as (m & -> & Im & Um).
  cbn [obind]. apply coeffs_in in Ihi as (k & l & Hk & Hl & Ehi). apply coeffs_in in Ilo as (i & j & Hi & Hj & Elo). apply vcoeffs_in in Im as (q & Hq & Eq).
  set (t := Rmax ((hi - lo) * / 10^15) (/ 10^15)). exists t.
  assert (P15 : 0 < / 10^15) by (apply Rinv_0_lt_compat; lra).
  split.
  - exists i, j, k, l. do 4 (split; [assumption|]). split.
    + intros p r Hp Hr'. rewrite Ehi, Elo. split; [apply Ulo|apply Uhi]; apply coeffs_in; exists p, r; auto.
    + rewrite Ehi, Elo. unfold t, Rdiv. destruct (Rle_dec (hi - lo) 1) as [L|L]; [left|right].
      * split; [|exact L]. apply Rmax_right. nra.
      * split; [|lra]. apply Rmax_left. nra.
  - split; intro H.
    + destruct (Rlt_dec (- t) m) as [L|L]; [reflexivity|]. elim L. rewrite <- Eq. apply H, Hq.
    + destruct (Rlt_dec (- t) m) as [L|L]; [|reflexivity]. elim H. intros r Hr'. assert (m <= coef ev r) by (apply Um, vcoeffs_in; exists r; auto). lra.
Qed.
Lemma tolerance_unique c t u : tolerance c t -> tolerance c u -> t = u.
Proof.
  intros (i & j & k & l & Hi & Hj & Hk & Hl & B & T) (i' & j' & k' & l' & Hi' & Hj' & Hk' & Hl' & B' & U).
  assert (entry c i j = entry c i' j'). { pose proof (B i' j' Hi' Hj'). pose proof (B' i j Hi Hj). lra. }
  assert (entry c k l = entry c k' l'). { pose proof (B k' l' Hk' Hl'). pose proof (B' k l Hk Hl). lra. }
  rewrite H, H0 in *. destruct T as [[-> T]|[-> T]], U as [[-> U]|[-> U]]; try reflexivity; assert (E : entry c k' l' - entry c i' j' = 1) by lra; rewrite E; unfold Rdiv; lra.
Qed.
Lemma tolerance_pos c t : tolerance c t -> / 10^15 <= t.
Proof.
  intros (i & j & k & l & _ & _ & _ & _ & _ & [[-> _]|[-> T]]); [lra|]. unfold Rdiv. assert (0 < / 10^15) by (apply Rinv_0_lt_compat; lra). nra.
Qed.
Lemma is_approx_spec c : rows c = cols c -> is_approx c (transpose c) = true <-> near_symmetric c.
Proof.
  intro S. unfold is_approx, near_symmetric. assert (X : forall f, square_sum (rows c) (cols c) f = squares (rows c) f).
  { intro f. unfold square_sum, squares. rewrite <- S, sum_total. apply total_ext. intros i _. apply sum_total. }
  rewrite !X. cbn [transpose entry]. assert (T : squares (rows c) (fun i j => entry c j i) = squares (rows c) (entry c)) by (unfold squares; apply total_swap).
  rewrite T, Rmin_left by lra. replace ((/ 10^12)^2) with (/ 10^12 * / 10^12) by ring. destruct Rle_dec; split; intro H; try assumption; try reflexivity; try discriminate; contradiction.
Qed.

(** Orthonormal eigenvectors. *)
Section Decomposed.
Variables (n : nat) (c : nat -> nat -> R) (s : solution).
Hypothesis D : decomposes n c s.
Let V := entry (vectors s).
Let lam := coef (values s).
Lemma eigen i j : (i < n)%nat -> (j < n)%nat -> total n (fun k => c i k * V k j) = lam j * V i j.
Proof. apply D. Qed.
Lemma ortho_cols i j : (i < n)%nat -> (j < n)%nat -> total n (fun k => V k i * V k j) = unit_entry i j.
Proof. apply D. Qed.
Lemma ortho_rows i j : (i < n)%nat -> (j < n)%nat -> total n (fun k => V i k * V j k) = unit_entry i j.
Proof. apply D. Qed.
(** c = V diag(lam) V^T. *)
Lemma recompose i j : (i < n)%nat -> (j < n)%nat -> c i j = total n (fun k => V i k * lam k * V j k).
Proof.
  intros Hi Hj. transitivity (total n (fun k => total n (fun l => c i l * V l k) * V j k)).
  2:{ apply total_ext. intros k Hk. rewrite eigen by assumption. ring. }
  rewrite (total_ext n _ (fun k => total n (fun l => c i l * (V l k * V j k)))) by (intros; rewrite <- total_scale_r; apply total_ext; intros; ring).
  rewrite total_swap. rewrite (total_ext n _ (fun l => unit_entry l j * c i l)).
  2:{ intros l Hl. rewrite total_scale, ortho_rows by assumption. ring. }
  symmetry. apply total_pick. exact Hj.
Qed.
(** In the coordinates of the eigenvectors. *)
Definition along (x : nat -> R) (k : nat) : R := total n (fun i => V i k * x i).
Lemma square_along x : square n (along x) = square n x.
Proof.
  unfold square, along. rewrite (total_ext n _ (fun k => total n (fun i => total n (fun j => x i * x j * (V i k * V j k))))).
  2:{ intros k _. rewrite total_prod. apply total_ext. intros. apply total_ext. intros. ring. }
  rewrite total_swap. apply total_ext. intros i Hi. rewrite total_swap.
  rewrite (total_ext n _ (fun j => unit_entry j i * (x i * x j))).
  2:{ intros j Hj. rewrite total_scale, ortho_rows by assumption. rewrite (unit_sym i j). ring. }
  apply (total_pick n (fun j => x i * x j)). exact Hi.
Qed.
Lemma form_along e x : form n (fun i j => total n (fun k => V i k * e k * V j k)) x = total n (fun k => e k * (along x k * along x k)).
Proof.
  unfold form, along. symmetry.
  rewrite (total_ext n _ (fun k => total n (fun i => total n (fun j => x i * (V i k * e k * V j k) * x j)))).
  2:{ intros k _. rewrite total_prod, <- total_scale. apply total_ext. intros i _. rewrite <- total_scale. apply total_ext. intros. ring. }
  rewrite total_swap. apply total_ext. intros i _. rewrite total_swap. apply total_ext. intros j _.
  rewrite <- total_scale, <- total_scale_r. reflexivity.
Qed.
Lemma form_ext (a b : nat -> nat -> R) x : (forall i j, (i < n)%nat -> (j < n)%nat -> a i j = b i j) -> form n a x = form n b x.
Proof. intro H. unfold form. apply total_ext. intros i Hi. apply total_ext. intros j Hj. rewrite H by assumption. reflexivity. Qed.
Lemma form_c x : form n c x = total n (fun k => lam k * (along x k * along x k)).
Proof. rewrite (form_ext c (fun i j => total n (fun k => V i k * lam k * V j k))) by apply recompose. apply form_along. Qed.
Lemma along_column j k : (j < n)%nat -> (k < n)%nat -> along (fun i => V i j) k = unit_entry k j.
Proof. intros Hj Hk. unfold along. apply ortho_cols; assumption. Qed.
Lemma square_nonneg m x : 0 <= square m x.
Proof. apply total_nonneg. intros i _. apply Rle_0_sqr. Qed.
(** Eigenvalues above -t and the form above -t |x|^2. *)
Lemma values_form t : (forall i, (i < n)%nat -> - t < lam i) <-> (forall x, 0 < square n x -> - t * square n x < form n c x).
Proof.
  split.
  - intros H x Hx. rewrite form_c, <- square_along. rewrite <- square_along in Hx. unfold square in *. rewrite <- total_scale.
    assert (Q : 0 < total n (fun k => (lam k + t) * (along x k * along x k))).
    { assert (Nn : forall k, (k < n)%nat -> 0 <= (lam k + t) * (along x k * along x k)).
      { intros k Hk. pose proof (H k Hk). pose proof (Rle_0_sqr (along x k)) as Sq. unfold Rsqr in Sq. apply Rmult_le_pos; [lra|exact Sq]. }
      destruct (total_nonneg n _ Nn) as [L|E]; [exact L|]. exfalso. symmetry in E.
      assert (Z : total n (fun i => along x i * along x i) = 0); [|lra].
      rewrite <- (total_zero n). apply total_ext. intros k Hk. pose proof (total_nonneg_zero n _ Nn E k Hk) as Zk. cbv beta in Zk. pose proof (H k Hk).
      destruct (Rmult_integral _ _ Zk) as [B|B]; [lra|exact B]. }
    rewrite (total_ext n _ (fun k => lam k * (along x k * along x k) + t * (along x k * along x k))) in Q by (intros; ring).
    rewrite total_plus in Q. rewrite (total_ext n (fun i => - t * _) (fun k => - (1) * (t * (along x k * along x k)))) by (intros; ring). rewrite total_scale. lra.
  - intros H i Hi. specialize (H (fun k => V k i)).
    assert (S : square n (fun k => V k i) = 1). { unfold square. rewrite ortho_cols by assumption. unfold unit_entry. rewrite Nat.eqb_refl. reflexivity. }
    assert (F : form n c (fun k => V k i) = lam i).
    { rewrite form_c. rewrite (total_ext n _ (fun k => unit_entry k i * (unit_entry k i * lam k))).
      - rewrite (total_pick n (fun k => unit_entry k i * lam k)) by exact Hi. unfold unit_entry. rewrite Nat.eqb_refl. ring.
      - intros k Hk. rewrite along_column by assumption. ring. }
    rewrite S, F in H. lra.
Qed.
(** Changing the eigenvalues by at most t changes every entry by at most t. *)
Lemma entries_close (e : nat -> R) t i j : (i < n)%nat -> (j < n)%nat -> (forall k, (k < n)%nat -> Rabs (e k - lam k) <= t) ->
  Rabs (total n (fun k => V i k * e k * V j k) - c i j) <= t.
Proof.
  intros Hi Hj H. rewrite recompose by assumption. rewrite <- total_minus.
  rewrite (total_ext n _ (fun k => (e k - lam k) * (V i k * V j k))) by (intros; ring).
  assert (B : forall k, (k < n)%nat -> Rabs ((e k - lam k) * (V i k * V j k)) <= t * / 2 * (V i k * V i k + V j k * V j k)).
  { intros k Hk. rewrite Rabs_mult. pose proof (H k Hk). pose proof (Rabs_pos (e k - lam k)).
    assert (M : Rabs (V i k * V j k) <= / 2 * (V i k * V i k + V j k * V j k)).
    { apply Rabs_le. pose proof (Rle_0_sqr (V i k - V j k)) as A1. pose proof (Rle_0_sqr (V i k + V j k)) as A2. unfold Rsqr in *. lra. }
    pose proof (Rabs_pos (V i k * V j k)). nra. }
  assert (T : forall m f g, (forall k, (k < m)%nat -> Rabs (f k) <= g k) -> Rabs (total m f) <= total m g).
  { induction m as [|m IH]; intros f g Hf; cbn; [rewrite Rabs_R0; lra|]. pose proof (Rabs_triang (total m f) (f m)).
    assert (Rabs (total m f) <= total m g) by (apply IH; auto). pose proof (Hf m (Nat.lt_succ_diag_r m)). lra. }
  eapply Rle_trans; [apply T; exact B|]. rewrite total_scale, total_plus, !ortho_rows by assumption. unfold unit_entry. rewrite !Nat.eqb_refl. lra.
Qed.
End Decomposed.

(** The constructor. *)
Lemma make_sizes G solve m c : (Z.of_nat (size m) < 2^32)%Z ->
  (~ well_sized m c -> make_gaussian G solve m c = Throw) /\
  (well_sized m c -> size m = O -> make_gaussian G solve m c = UB).
Proof.
  intro H. unfold make_gaussian, well_sized. rewrite (to_unsigned_small _ H). split.
  - intro N. destruct (Z.eqb_spec (Z.of_nat (rows c)) (Z.of_nat (size m))), (Z.eqb_spec (Z.of_nat (cols c)) (Z.of_nat (size m))); cbn [andb reassert obind]; try reflexivity.
    elim N. lia.
  - intros [R C] Z. rewrite R, C, !Z.eqb_refl. cbn [andb reassert obind].
    assert (A : is_approx c (transpose c) = true).
    { apply is_approx_spec; [congruence|]. unfold near_symmetric, squares. rewrite R, Z. cbn. lra. }
    rewrite A. cbn [reassert obind]. rewrite Z. reflexivity.
Qed.
Lemma make_spec G solve m c t : (Z.of_nat (size m) < 2^32)%Z -> well_sized m c -> (0 < size m)%nat -> info (solve c) <> NumericalIssue ->
  decomposes (size m) (lower c) (solve c) -> tolerance c t ->
  ((near_symmetric c /\ forall x, 0 < square (size m) x -> - t * square (size m) x < form (size m) (lower c) x) ->
     make_gaussian G solve m c = Ok (Gaussian (Z.of_nat (size m)) m c (Vector (size m) (fun i => Rmax (coef (values (solve c)) i) 0)) (vectors (solve c))
       (Vector (size m) (fun i => sqrt (Rmax (coef (values (solve c)) i) 0))) (seeded G))) /\
  (~ (near_symmetric c /\ forall x, 0 < square (size m) x -> - t * square (size m) x < form (size m) (lower c) x) -> make_gaussian G solve m c = Throw).
Proof.
  intros H [R C] P I D T. unfold make_gaussian. rewrite (to_unsigned_small _ H), R, C, !Z.eqb_refl. cbn [andb reassert obind].
  assert (Sz : size (values (solve c)) = size m) by apply D.
  destruct (sanitize_spec c (values (solve c))) as (t' & T' & S1 & S2); [lia|lia|lia|]. rewrite (tolerance_unique c t' t T' T), Sz in *.
  pose proof (is_approx_spec c (eq_trans R (eq_sym C))) as A.
  destruct (Nat.eqb_spec (size m) 0) as [Z|_]; [lia|].
  destruct (is_approx c (transpose c)); cbn [reassert obind].
  2:{ split; [intros [Y _]; apply A in Y; discriminate|reflexivity]. }
  replace (reassert match info (solve c) with NumericalIssue => false | _ => true end) with (Ok tt) by (destruct (info (solve c)); try reflexivity; elim I; reflexivity).
  cbn [obind]. rewrite <- (values_form (size m) (lower c) (solve c) D t). split.
  - intros [_ F]. rewrite (S1 F). reflexivity.
  - intro F. rewrite S2; [reflexivity|]. intro F'. apply F. split; [apply A; reflexivity|exact F'].
Qed.

(** The matrix samples are made with. *)
Section Sampling.
Variables (n : nat) (c : matrix) (s : solution) (t : R).
Hypothesis D : decomposes n (lower c) s.
Hypothesis L : forall i, (i < n)%nat -> - t < coef (values s) i.
Let made (i j : nat) : R := total n (fun k => (entry (vectors s) i k * sqrt (Rmax (coef (values s) k) 0)) * (entry (vectors s) j k * sqrt (Rmax (coef (values s) k) 0))).
Lemma made_eq i j : made i j = total n (fun k => entry (vectors s) i k * Rmax (coef (values s) k) 0 * entry (vectors s) j k).
Proof.
  unfold made. apply total_ext. intros k _. pose proof (sqrt_sqrt (Rmax (coef (values s) k) 0) (Rmax_r _ _)) as H.
  transitivity (entry (vectors s) i k * (sqrt (Rmax (coef (values s) k) 0) * sqrt (Rmax (coef (values s) k) 0)) * entry (vectors s) j k); [ring|]. rewrite H. reflexivity.
Qed.
Lemma made_exact i j : (i < n)%nat -> (j < n)%nat -> (forall x, 0 <= form n (lower c) x) -> made i j = lower c i j.
Proof.
  intros Hi Hj P. rewrite made_eq, (recompose n (lower c) s D) by assumption. apply total_ext. intros k Hk.
  assert (0 <= coef (values s) k); [|rewrite Rmax_left by assumption; reflexivity].
  apply Rnot_lt_le. intro N. pose proof (proj2 (values_form n (lower c) s D (- coef (values s) k / 2))) as V.
  assert (Q : - (- coef (values s) k / 2) < coef (values s) k); [|lra]. apply V; [|exact Hk]. intros x Hx. specialize (P x). nra.
Qed.
Lemma t_nonneg : (0 < n)%nat -> 0 <= t -> forall k, (k < n)%nat -> 0 <= Rmax (coef (values s) k) 0 - coef (values s) k <= t.
Proof. intros _ Ht k Hk. pose proof (L k Hk). unfold Rmax. destruct Rle_dec; lra. Qed.
Lemma made_close i j : 0 <= t -> (i < n)%nat -> (j < n)%nat -> Rabs (made i j - lower c i j) <= t.
Proof.
  intros Ht Hi Hj. rewrite made_eq. apply (entries_close n (lower c) s D); [assumption|assumption|]. intros k Hk. apply Rabs_le.
  pose proof (t_nonneg (Nat.lt_lt_0 _ _ Hi) Ht k Hk). lra.
Qed.
Lemma made_form x : 0 <= t -> 0 <= form n made x /\ form n (lower c) x <= form n made x <= form n (lower c) x + t * square n x.
Proof.
  intro Ht. rewrite (form_ext n made (fun i j => total n (fun k => entry (vectors s) i k * Rmax (coef (values s) k) 0 * entry (vectors s) j k))) by (intros; apply made_eq).
  rewrite form_along, (form_c n (lower c) s D), <- (square_along n (lower c) s D). set (a := along n s x). unfold square. rewrite <- total_scale, <- total_plus.
  assert (Sq : forall k, 0 <= a k * a k) by (intro k; apply Rle_0_sqr).
  split; [|split].
  - apply total_nonneg. intros k _. apply Rmult_le_pos; [apply Rmax_r|apply Sq].
  - apply total_le. intros k _. apply Rmult_le_compat_r; [apply Sq|apply Rmax_l].
  - apply total_le. intros k Hk. destruct (t_nonneg (Nat.lt_lt_0 _ _ Hk) Ht k Hk). pose proof (Sq k). nra.
Qed.
End Sampling.

(** The lower half of a nearly symmetric matrix. *)
Lemma total_ge_one n f i : (forall k, (k < n)%nat -> 0 <= f k) -> (i < n)%nat -> f i <= total n f.
Proof.
  induction n as [|n IH]; intros H Hi; [lia|]. cbn. assert (0 <= f n) by auto. assert (0 <= total n f) by (apply total_nonneg; auto).
  assert (Hc : (i < n)%nat \/ i = n) by lia. destruct Hc as [K| ->]; [|lra]. assert (f i <= total n f) by (apply IH; auto). lra.
Qed.
Lemma squares_entry n f i j : (i < n)%nat -> (j < n)%nat -> f i j * f i j <= squares n f.
Proof.
  intros Hi Hj. unfold squares. eapply Rle_trans; [|apply (total_ge_one n (fun i => total n (fun j => f i j * f i j)) i); [|exact Hi]].
  - apply (total_ge_one n (fun j => f i j * f i j)); [|exact Hj]. intros. apply Rle_0_sqr.
  - intros. apply total_nonneg. intros. apply Rle_0_sqr.
Qed.
Lemma lower_close c i j : near_symmetric c -> (i < rows c)%nat -> (j < rows c)%nat -> Rabs (lower c i j - entry c i j) <= / 10^12 * sqrt (squares (rows c) (entry c)).
Proof.
  intros N Hi Hj. set (Q := squares (rows c) (entry c)) in *.
  assert (Qp : 0 <= Q) by (unfold Q, squares; apply total_nonneg; intros; apply total_nonneg; intros; apply Rle_0_sqr).
  assert (B : 0 <= / 10^12 * sqrt Q).
  { apply Rmult_le_pos; [|apply sqrt_pos]. left. apply Rinv_0_lt_compat. lra. }
  unfold lower. destruct (Nat.le_gt_cases j i) as [O|O].
  - rewrite Nat.max_l, Nat.min_r by lia. unfold Rminus. rewrite Rplus_opp_r, Rabs_R0. exact B.
  - rewrite Nat.max_r, Nat.min_l by lia. pose proof (squares_entry (rows c) (fun i j => entry c i j - entry c j i) j i Hj Hi) as E. cbv beta in E.
    assert (F : (entry c j i - entry c i j) * (entry c j i - entry c i j) <= (/ 10^12 * sqrt Q) * (/ 10^12 * sqrt Q)).
    { replace ((/ 10^12 * sqrt Q) * (/ 10^12 * sqrt Q)) with ((/ 10^12)^2 * (sqrt Q * sqrt Q)) by ring. rewrite sqrt_sqrt by exact Qp.
      unfold near_symmetric in N. fold Q in N. lra. }
    apply Rsqr_le_abs_0 in F. rewrite (Rabs_right (/ 10^12 * sqrt Q)) in F by lra. exact F.
Qed.

(** Draws. *)
Lemma after_draws_S G k s : after_draws G k (snd (draw G s)) = after_draws G (S k) s.
Proof. induction k as [|k IH]; [reflexivity|]. cbn [after_draws]. cbn [after_draws] in IH. rewrite IH. reflexivity. Qed.
Lemma draws_spec G k s : draws G k s = (map (fun i => fst (draw G (after_draws G i s))) (seq 0 k), after_draws G k s).
Proof.
  revert s. induction k as [|k IH]; intro s; [reflexivity|]. cbn [draws]. destruct (draw G s) as [x s'] eqn:E. rewrite IH.
  assert (Es : forall i, after_draws G i s' = after_draws G (S i) s) by (intro i; rewrite <- after_draws_S, E; reflexivity). rewrite Es. f_equal.
  cbn [seq map]. f_equal; [cbn [after_draws]; rewrite E; reflexivity|]. rewrite <- seq_shift, map_map. apply map_ext. intro i. rewrite Es. reflexivity.
Qed.
Lemma samples_spec {G} (g : gaussian G) n y g' : rows (eigenvectors g) = Z.to_nat (dims g) ->
  samples g n = (y, g') ->
  affine_image (sampling_matrix g) (coef (mu g)) (iid_of g n) y /\
  dims g' = dims g /\ mu g' = mu g /\ cov g' = cov g /\ eigenvalues g' = eigenvalues g /\ eigenvectors g' = eigenvectors g /\
  sqrt_eigenvalues_mat g' = sqrt_eigenvalues_mat g /\ state g' = stop G (after_draws G (n * Z.to_nat (dims g)) (start G (state g))).
Proof.
  intro V. unfold samples, iid_samples. rewrite draws_spec. intro E. injection E as <- <-. split; [|repeat split]. split; [reflexivity|].
  split; [cbn; exact V|]. split; [reflexivity|].
  intros k i Hk Hi. cbn [rows iid_of] in Hk. cbn [rows sampling_matrix] in Hi. cbn [entry rowwise_add product cols product_diagonal transpose sqrt_eigenvalues_mat eigenvectors mu sampling_matrix iid_of].
  rewrite sum_total. f_equal. apply total_ext. intros j Hj.
  assert (B : (j * n + k < n * Z.to_nat (dims g))%nat) by nia.
  rewrite (nth_indep _ 0 (fst (draw G (after_draws G 0 (start G (state g)))))) by (rewrite map_length, seq_length; exact B).
  rewrite (map_nth (fun i => fst (draw G (after_draws G i (start G (state g)))))). rewrite seq_nth by exact B. unfold drawn. cbn [Nat.add]. ring.
Qed.
Lemma transformed_unit {G} (g : gaussian G) u d : (forall i j, (i < Z.to_nat (dims g))%nat -> (j < Z.to_nat (dims g))%nat -> entry u i j = unit_entry i j) ->
  transformed (sampling_matrix g) u d -> forall i j, (i < Z.to_nat (dims g))%nat -> (j < Z.to_nat (dims g))%nat -> entry d i j = sampling_square (Z.to_nat (dims g)) g i j.
Proof.
  intros U (_ & _ & T) i j Hi Hj. rewrite T by assumption. cbn [cols sampling_matrix entry rows]. unfold sampling_square. apply total_ext. intros k Hk.
  rewrite (total_ext (Z.to_nat (dims g)) _ (fun l => unit_entry l k * (entry (eigenvectors g) i k * coef (sqrt_eigenvalues_mat g) k * (entry (eigenvectors g) j l * coef (sqrt_eigenvalues_mat g) l)))).
  - rewrite (total_pick _ (fun l => entry (eigenvectors g) i k * coef (sqrt_eigenvalues_mat g) k * (entry (eigenvectors g) j l * coef (sqrt_eigenvalues_mat g) l))) by exact Hk. reflexivity.
  - intros l Hl. rewrite U, unit_sym by assumption. ring.
Qed.

(** Everything about an accepted Gaussian. *)
Lemma accepted_gives {G solve m c t g} : (Z.of_nat (size m) < 2^32)%Z -> well_sized m c -> (0 < size m)%nat -> info (solve c) <> NumericalIssue ->
  decomposes (size m) (lower c) (solve c) -> tolerance c t -> make_gaussian G solve m c = Ok g ->
  near_symmetric c /\ (forall i, (i < size m)%nat -> - t < coef (values (solve c)) i) /\
  g = Gaussian (Z.of_nat (size m)) m c (Vector (size m) (fun i => Rmax (coef (values (solve c)) i) 0)) (vectors (solve c))
       (Vector (size m) (fun i => sqrt (Rmax (coef (values (solve c)) i) 0))) (seeded G).
Proof.
  intros H W P I D T E. destruct (make_spec G solve m c t H W P I D T) as [A B].
  destruct (Classical_Prop.classic (near_symmetric c /\ forall x, 0 < square (size m) x -> - t * square (size m) x < form (size m) (lower c) x)) as [Y|N].
  - rewrite (A Y) in E. injection E as <-. split; [apply Y|]. split; [|reflexivity]. apply (values_form (size m) (lower c) (solve c) D). apply Y.
  - rewrite (B N) in E. discriminate.
Qed.
Lemma construction G solve m c : (Z.of_nat (size m) < 2^32)%Z ->
  (~ well_sized m c -> make_gaussian G solve m c = Throw) /\
  (well_sized m c -> size m = O -> make_gaussian G solve m c = UB) /\
  (forall t, well_sized m c -> (0 < size m)%nat -> info (solve c) <> NumericalIssue -> decomposes (size m) (lower c) (solve c) -> tolerance c t ->
    let good := near_symmetric c /\ forall x, 0 < square (size m) x -> - t * square (size m) x < form (size m) (lower c) x in
    (good -> exists g, make_gaussian G solve m c = Ok g) /\ (~ good -> make_gaussian G solve m c = Throw)).
Proof.
  intro H. split; [apply make_sizes, H|]. split; [apply make_sizes, H|]. intros t W P I D T. destruct (make_spec G solve m c t H W P I D T) as [A B].
  split; [|exact B]. intro Y. eexists. exact (A Y).
Qed.
Lemma numerical_issue G solve m c : (Z.of_nat (size m) < 2^32)%Z -> info (solve c) = NumericalIssue -> (0 < size m)%nat -> make_gaussian G solve m c = Throw.
Proof.
  intros H I P. unfold make_gaussian. rewrite (to_unsigned_small _ H).
  destruct (Z.eqb_spec (Z.of_nat (rows c)) (Z.of_nat (size m))) as [R|]; [|reflexivity]. destruct (Z.eqb_spec (Z.of_nat (cols c)) (Z.of_nat (size m))); [|reflexivity].
  cbn [andb reassert obind]. destruct (is_approx c (transpose c)); [|reflexivity]. cbn [reassert obind]. destruct (Nat.eqb_spec (rows c) 0); [lia|]. rewrite I. reflexivity.
Qed.
Lemma held G solve m c t g : (Z.of_nat (size m) < 2^32)%Z -> well_sized m c -> (0 < size m)%nat -> info (solve c) <> NumericalIssue ->
  decomposes (size m) (lower c) (solve c) -> tolerance c t -> make_gaussian G solve m c = Ok g ->
  dims g = Z.of_nat (size m) /\ mu g = m /\ cov g = c /\ eigenvectors g = vectors (solve c) /\ state g = seeded G /\ size (eigenvalues g) = size m /\
  (forall i, (i < size m)%nat -> 0 <= coef (eigenvalues g) i /\ - t < coef (values (solve c)) i /\
     (0 <= coef (values (solve c)) i -> coef (eigenvalues g) i = coef (values (solve c)) i) /\ (coef (values (solve c)) i <= 0 -> coef (eigenvalues g) i = 0) /\
     0 <= coef (sqrt_eigenvalues_mat g) i /\ coef (sqrt_eigenvalues_mat g) i * coef (sqrt_eigenvalues_mat g) i = coef (eigenvalues g) i).
Proof.
  intros H W P I D T E. destruct (accepted_gives H W P I D T E) as (N & L & ->). cbn. do 6 (split; [reflexivity|]). intros i Hi.
  split; [apply Rmax_r|]. split; [apply L, Hi|]. split; [intro Q; apply Rmax_left; lra|]. split; [intro Q; apply Rmax_right; lra|].
  split; [apply sqrt_pos|]. apply sqrt_sqrt, Rmax_r.
Qed.
Lemma reproduces G solve m c t g : (Z.of_nat (size m) < 2^32)%Z -> well_sized m c -> (0 < size m)%nat -> info (solve c) <> NumericalIssue ->
  decomposes (size m) (lower c) (solve c) -> tolerance c t -> make_gaussian G solve m c = Ok g ->
  (forall i j, (i < size m)%nat -> (j < size m)%nat ->
     ((forall x, 0 <= form (size m) (lower c) x) -> sampling_square (size m) g i j = lower c i j) /\
     ((forall x, 0 <= form (size m) (lower c) x) -> entry c i j = entry c j i -> sampling_square (size m) g i j = entry c i j) /\
     Rabs (sampling_square (size m) g i j - entry c i j) <= t + / 10^12 * sqrt (squares (size m) (entry c))) /\
  (forall x, 0 <= form (size m) (sampling_square (size m) g) x /\
     form (size m) (lower c) x <= form (size m) (sampling_square (size m) g) x <= form (size m) (lower c) x + t * square (size m) x).
Proof.
  intros H W P I D T E. destruct (accepted_gives H W P I D T E) as (N & L & ->). pose proof (tolerance_pos c t T) as Tp.
  assert (0 < / 10^15) by (apply Rinv_0_lt_compat; lra). split.
  - intros i j Hi Hj. assert (X : (forall x, 0 <= form (size m) (lower c) x) ->
      sampling_square (size m) (Gaussian (Z.of_nat (size m)) m c (Vector (size m) (fun i => Rmax (coef (values (solve c)) i) 0)) (vectors (solve c))
       (Vector (size m) (fun i => sqrt (Rmax (coef (values (solve c)) i) 0))) (seeded G)) i j = lower c i j) by apply (made_exact (size m) c (solve c) D i j Hi Hj).
    split; [exact X|]. split.
    + intros Q S. rewrite (X Q). unfold lower. destruct (Nat.le_gt_cases j i); [rewrite Nat.max_l, Nat.min_r by lia; reflexivity|rewrite Nat.max_r, Nat.min_l by lia; auto].
    + assert (Tn : 0 <= t) by lra. pose proof (made_close (size m) c (solve c) t D L i j Tn Hi Hj) as M. destruct W as [R C].
      assert (Hi' : (i < rows c)%nat) by lia. assert (Hj' : (j < rows c)%nat) by lia.
      pose proof (lower_close c i j N Hi' Hj') as K. rewrite R in K. unfold sampling_square. cbn [eigenvectors sqrt_eigenvalues_mat coef].
      match goal with |- Rabs (?a - ?b) <= _ => replace (a - b) with ((a - lower c i j) + (lower c i j - b)) by ring end.
      eapply Rle_trans; [apply Rabs_triang|]. apply Rplus_le_compat; assumption.
  - intro x. apply (made_form (size m) c (solve c) t D L x). lra.
Qed.
Lemma sampled G solve m c g n y g' : (Z.of_nat (size m) < 2^32)%Z -> rows (vectors (solve c)) = size m -> make_gaussian G solve m c = Ok g ->
  samples g n = (y, g') ->
  affine_image (sampling_matrix g) (coef m) (iid_of g n) y /\ cov g' = cov g /\ mu g' = mu g /\ eigenvalues g' = eigenvalues g /\ eigenvectors g' = eigenvectors g /\
  dims g' = dims g /\ sqrt_eigenvalues_mat g' = sqrt_eigenvalues_mat g /\ state g' = stop G (after_draws G (n * size m) (start G (state g))).
Proof.
  intros H V E S. unfold make_gaussian in E.
  destruct ((Z.of_nat (rows c) =? to_unsigned (size m))%Z && (Z.of_nat (cols c) =? to_unsigned (size m))%Z)%bool; [|discriminate]. cbn [reassert obind] in E.
  destruct (is_approx c (transpose c)); [|discriminate]. cbn [reassert obind] in E. destruct (Nat.eqb (rows c) 0); [discriminate|].
  destruct (reassert _); [|discriminate|discriminate]. cbn [obind] in E. destruct (sanitize_eigenvalues c (values (solve c))) as [ev| |]; [|discriminate|discriminate].
  cbn [obind] in E. rewrite (to_unsigned_small _ H) in E. injection E as E.
  assert (Dm : Z.to_nat (dims g) = size m) by (rewrite <- E; cbn; apply Nat2Z.id).
  assert (Vm : eigenvectors g = vectors (solve c)) by (rewrite <- E; reflexivity). assert (Mm : mu g = m) by (rewrite <- E; reflexivity).
  destruct (samples_spec g n y g') as (A & B1 & B2 & B3 & B4 & B5 & B6 & B7); [congruence|exact S|]. rewrite Mm in A. rewrite Dm in B7. auto 10.
Qed.
Lemma sample_statistics G solve m c g n y g' : (Z.of_nat (size m) < 2^32)%Z -> rows (vectors (solve c)) = size m -> make_gaussian G solve m c = Ok g ->
  samples g n = (y, g') ->
  (forall z, n <> O -> mean (iid_of g n) = Ok z -> exists w, mean y = Ok w /\
     forall i, (i < size m)%nat -> coef w i = total (size m) (fun j => entry (sampling_matrix g) i j * coef z j) + coef m i) /\
  (forall u, covariance (iid_of g n) = Ok u -> exists d, covariance y = Ok d /\ transformed (sampling_matrix g) u d /\
     ((forall i j, (i < size m)%nat -> (j < size m)%nat -> entry u i j = unit_entry i j) ->
        forall i j, (i < size m)%nat -> (j < size m)%nat -> entry d i j = sampling_square (size m) g i j)).
Proof.
  intros H V E S. destruct (sampled G solve m c g n y g' H V E S) as (A & _). 
  assert (Dm : Z.to_nat (dims g) = size m).
  { unfold make_gaussian in E.
    destruct ((Z.of_nat (rows c) =? to_unsigned (size m))%Z && (Z.of_nat (cols c) =? to_unsigned (size m))%Z)%bool; [|discriminate]. cbn [reassert obind] in E.
    destruct (is_approx c (transpose c)); [|discriminate]. cbn [reassert obind] in E. destruct (Nat.eqb (rows c) 0); [discriminate|].
    destruct (reassert _); [|discriminate|discriminate]. cbn [obind] in E. destruct (sanitize_eigenvalues c (values (solve c))) as [ev| |]; [|discriminate|discriminate].
    cbn [obind] in E. rewrite (to_unsigned_small _ H) in E. injection E as <-. cbn. apply Nat2Z.id. }
  split.
  - intros z N Z. destruct (mean_affine _ _ (iid_of g n) _ z N A Z) as (w & Ew & Sw & X). exists w. split; [exact Ew|].
    cbn [rows cols sampling_matrix] in X. rewrite Dm in X. exact X.
  - intros u U. destruct (covariance_affine _ _ _ _ _ A U) as (d & Ed & T). exists d. split; [exact Ed|]. split; [exact T|].
    intro Un. rewrite <- Dm in Un |- *. apply (transformed_unit g u d Un T).
Qed.
Lemma mean_defined s : (((0 < rows s)%nat \/ cols s = O) -> exists m, mean s = Ok m /\ size m = cols s) /\ (mean s = UB <-> rows s = O /\ cols s <> O).
Proof. split; [intro H; destruct (mean_spec s H) as (m & E & Sz & _); exists m; auto|apply mean_ub]. Qed.
