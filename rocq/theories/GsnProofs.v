(** Comparing matrices of many entries, and the symmetry of covariances. *)
From Coq Require Import Reals Lra Lia List Permutation Psatz Bool.
From Flocq Require Import Core BinarySingleNaN.
From Verif Require Import Cpp FloatModel FloatSpec FloatProofs NrmSpec NrmProofs LenModel LenSpec LenProofs Vec RotSpec RotProofs DriftModel DriftSpec DriftProofs DriftProofs2 StatModel StatSpec StatProofs FstModel FstSpec FstProofs FapModel FapSpec FapProofs FapProofs2 GsnModel GsnSpec.
Import ListNotations.
Local Open Scope R_scope.

Lemma many_u n : (n <= 2 ^ 20)%nat -> INR n * u <= / 8000000000.
Proof.
  intro N. apply le_INR in N. rewrite pow_INR in N. replace (INR 2) with 2 in N by (cbn; lra). rewrite u_num. 
  assert (E : 2 ^ 20 = 1048576) by ring. rewrite E in N. pose proof (pos_INR n). nra.
Qed.
Lemma many_h n : (n <= 2 ^ 20)%nat -> INR n * h <= 1048576 * h.
Proof.
  intro N. apply le_INR in N. rewrite pow_INR in N. replace (INR 2) with 2 in N by (cbn; lra).
  assert (E : 2 ^ 20 = 1048576) by ring. rewrite E in N. apply Rmult_le_compat_r; [pose proof h_pos; lra|exact N].
Qed.
Lemma squares_many l s : fsum_of (map fabs2 l) s -> Forall finite l -> (length l <= 2 ^ 20)%nat -> sq2 (map val l) <= 2 ^ 990 ->
  finite s /\ Rabs (val s - sq2 (map val l)) <= / 4000000000 * sq2 (map val l) + 1048577 * h /\ 0 <= val s.
Proof.
  intros S F N B. destruct (squares_terms l F B) as (F' & A & E). pose proof (sq2_pos (map val l)) as P. pose proof u_num as U. pose proof h_pos as H0. pose proof h_1 as H1.
  pose proof (many_u _ N) as NU. pose proof (many_h _ N) as NH. pose proof (pos_INR (length l)) as N0.
  assert (PP : Forall (fun x => 0 <= val x) (map fabs2 l)).
  { clear - F B. induction F as [|z l F _ IH]; cbn [map]; constructor.
    - cbn [map] in B. rewrite sq2_cons in B. pose proof (sq2_pos (map val l)). assert (0 <= val z * val z) by nra. destruct (fmul_val z z F F) as [_ V]; [apply no_overflow; rewrite Rabs_right by lra; pose proof pow_990'; pose proof (pow_lt 2 990 ltac:(lra)); lra|].
      unfold fabs2. rewrite V. apply rd_ge0. assumption.
    - apply IH. cbn [map] in B. rewrite sq2_cons in B. nra. }
  set (q := sq2 (map val l)) in *. assert (H2 : h <= / 10000000000) by (pose proof h_tiny' as H; replace (10 ^ 60) with 1000000000000000000000000000000000000000000000000000000000000 in H by ring; lra).
  set (w := add_up (map val (map fabs2 l))) in *. pose proof (Rabs_le_inv _ _ E) as [E1 E2].
  pose proof (pow_990') as Q. pose proof (pow_lt 2 990 ltac:(lra)) as Q0. assert (Q1 : 1 <= 2 ^ 990) by (apply pow_R1_Rle; lra).
  assert (UQ : u * q <= / 1000000000000000 * q) by (apply Rmult_le_compat_r; [exact P|rewrite U; lra]).
  assert (BB : add_up (map Rabs (map val (map fabs2 l))) <= 2 ^ 1000) by (rewrite A; fold w; lra).
  assert (NN : INR (length (map fabs2 l)) * u <= 1) by (rewrite map_length; lra).
  destruct (sum_near _ _ S F' BB NN) as (FS & ES & _).
  split; [exact FS|]. split; [|apply (sum_pos _ _ S F' PP BB NN)]. rewrite A in ES. fold w in ES. rewrite map_length in ES.
  assert (W0 : 0 <= w) by (rewrite <- A; apply add_up_pos).
  assert (K : INR (Nat.pred (length l)) * u * w <= / 8000000000 * w).
  { apply Rmult_le_compat_r; [exact W0|]. eapply Rle_trans; [|exact NU]. apply Rmult_le_compat_r; [rewrite U; lra|]. apply le_INR. lia. }
  replace (val s - q) with ((val s - w) + (w - q)) by ring. eapply Rle_trans; [apply Rabs_triang|]. lra.
Qed.

(** What the comparison says of lists of up to 2^20 ordinary numbers. *)
Definition many (a b : list f64) : Prop :=
  length a = length b /\ (length a <= 2 ^ 20)%nat /\ Forall finite a /\ Forall finite b /\ Forall (fun x => Rabs (val x) <= 2 ^ 480) a /\ Forall (fun x => Rabs (val x) <= 2 ^ 480) b.
Lemma many_size l b : 0 <= b <= 2 * 2 ^ 480 -> (length l <= 2 ^ 20)%nat -> Forall (fun x => Rabs x <= b) l -> sq2 l <= 2 ^ 985.
Proof.
  intros B N F. eapply Rle_trans; [apply (sq2_bound l b); [lra|exact F]|]. apply Rle_trans with (2 ^ 20 * (2 * 2 ^ 480 * (2 * 2 ^ 480))).
  - apply Rmult_le_compat; [apply pos_INR|nra| |nra]. apply le_INR in N. rewrite pow_INR in N. replace (INR 2) with 2 in N by (cbn; lra). exact N.
  - replace (2 ^ 20 * (2 * 2 ^ 480 * (2 * 2 ^ 480))) with (2 ^ 982); [apply Rle_pow; [lra|apply Nat.leb_le; reflexivity]|].
    replace (2 * 2 ^ 480) with (2 ^ 481) by reflexivity. rewrite <- !pow_add. reflexivity.
Qed.
Lemma many_value a b r : fis_approx a b r -> many a b ->
  exists d t, Rabs (d - off2 a b) <= / 1000000000 * off2 a b + 1048577 * h /\ Rabs (t - t2 * least a b) <= / 1000000000 * (t2 * least a b) + 10 * h /\ (r = true <-> d <= t).
Proof.
  intros (d & x & y & SD & SX & SY & ->) (L & N & FA & FB & BA & BB). fold (fdiffs a b) in SD.
  assert (Q480 : 2 ^ 480 <= 2 ^ 490) by (apply Rle_pow; [lra|apply Nat.leb_le; reflexivity]). assert (P480 : 0 < 2 ^ 480) by (apply pow_lt; lra).
  destruct (diffs_near a b L FA FB) as (FD & LD & LD' & _ & D1 & D2); [eapply Forall_impl; [|exact BA]; cbn; intros; lra|eapply Forall_impl; [|exact BB]; cbn; intros; lra|].
  assert (BD : Forall (fun x => Rabs x <= 2 * 2 ^ 480) (diffs (map val a) (map val b))).
  { clear - L BA BB. revert b L BB. induction BA as [|p a P _ IH]; intros [|q b] L BB; try discriminate L; try constructor; inversion BB as [|? ? Q BB']; subst.
    - cbn [fst snd]. replace (val p - val q) with (val p + - val q) by ring. eapply Rle_trans; [apply Rabs_triang|]. rewrite Rabs_Ropp. lra.
    - apply IH; [injection L as L; exact L|exact BB']. }
  pose proof (many_size (map val a) (2 ^ 480) ltac:(lra) ltac:(rewrite map_length; exact N) (proj2 (Forall_map _ _ _) BA)) as BA'.
  assert (BB' : sq2 (map val b) <= 2 ^ 985) by (apply (many_size (map val b) (2 ^ 480)); [lra|rewrite map_length; lia|apply Forall_map, BB]).
  assert (BD' : sq2 (diffs (map val a) (map val b)) <= 2 ^ 985) by (apply (many_size _ (2 * 2 ^ 480)); [lra|lia|exact BD]).
  assert (Q985 : 2 * 2 ^ 985 <= 2 ^ 990) by (change (2 * 2 ^ 985) with (2 ^ 986); apply Rle_pow; [lra|apply Nat.leb_le; reflexivity]). pose proof (pow_lt 2 985 ltac:(lra)) as P985.
  pose proof u_num as U. pose proof (sq2_pos (diffs (map val a) (map val b))) as D0. unfold off2.
  set (D := sq2 (diffs (map val a) (map val b))) in *. 
  assert (D1' : (1 - / 1000000000000000) * D <= sq2 (map val (fdiffs a b))) by (eapply Rle_trans; [|exact D1]; apply Rmult_le_compat_r; [exact D0|rewrite U; lra]).
  assert (D2' : sq2 (map val (fdiffs a b)) <= (1 + / 1000000000000000) * D) by (eapply Rle_trans; [exact D2|]; apply Rmult_le_compat_r; [exact D0|rewrite U; lra]).
  destruct (squares_many _ _ SD FD) as (FS & ES & PS); [lia|lra|].
  destruct (squares_many _ _ SX FA N) as (FX & EX & PX); [lra|]. destruct (squares_many _ _ SY FB) as (FY & EY & PY); [lia|lra|].
  pose proof (sq2_pos (map val a)) as A0. pose proof (sq2_pos (map val b)) as B0. unfold least.
  set (A := sq2 (map val a)) in *. set (B := sq2 (map val b)) in *. set (D' := sq2 (map val (fdiffs a b))) in *. clearbody D D' A B.
  set (M := Rmin A B). pose proof h_pos as H0. assert (H2 : h <= / 1000000000000000000000000000000000000000000000000000000000000) by (pose proof h_tiny' as H; replace (10 ^ 60) with 1000000000000000000000000000000000000000000000000000000000000 in H by ring; exact H).
  destruct (fmini_val x y FX FY) as [FM VM]. destruct square_precision as [FC EC].
  assert (M0 : 0 <= M) by (apply Rmin_glb; assumption). assert (M1 : M <= 2 ^ 985) by (eapply Rle_trans; [apply Rmin_l|exact BA']).
  assert (EM : Rabs (val (fmini x y) - M) <= / 4000000000 * M + 1048577 * h).
  { rewrite VM. apply Rabs_le_inv in EX, EY. unfold M. apply Rabs_le. unfold Rmin. destruct (Rle_dec (val x) (val y)), (Rle_dec A B); lra. }
  set (m := val (fmini x y)) in *. set (c := val (fmul dummy_precision dummy_precision)) in *. apply Rabs_le_inv in EC, EM.
  rewrite t2_num, U in EC. rewrite t2_num. set (T := / 1000000000000000000000000) in *.
  assert (Q1 : 1 <= 2 ^ 985) by (apply pow_R1_Rle; lra).
  assert (MB : Rabs m <= 2 * 2 ^ 985) by (apply Rabs_le; lra).
  assert (Q1000 : 2 ^ 990 <= 2 ^ 1000) by (apply Rle_pow; [lra|apply Nat.leb_le; reflexivity]).
  assert (C0 : 0 <= c <= 2 * T) by (unfold T in *; lra).
  assert (CM : Rabs (c * m) <= 2 ^ 1000).
  { rewrite Rabs_mult, (Rabs_right c) by lra. apply Rle_trans with (1 * (2 * 2 ^ 985)); [|lra]. apply Rmult_le_compat; [lra|apply Rabs_pos|unfold T in *; lra|exact MB]. }
  destruct (mul_error _ _ FC FM CM) as [FT ET]. fold c m in ET. set (t := fmul (fmul dummy_precision dummy_precision) (fmini x y)) in *.
  exists (val d), (val t). split; [|split].
  - apply Rabs_le_inv in ES. apply Rabs_le. lra.
  - assert (E1 : Rabs (c * m - T * M) <= / 3000000000 * (T * M) + 2 * h).
    { replace (c * m - T * M) with ((c - T) * m + T * (m - M)) by ring. eapply Rle_trans; [apply Rabs_triang|]. rewrite !Rabs_mult.
      assert (MA : Rabs m <= 11 / 10 * M + 1048577 * h) by (apply Rabs_le; lra). assert (EM' : Rabs (m - M) <= / 4000000000 * M + 1048577 * h) by (apply Rabs_le; lra).
      assert (EC' : Rabs (c - T) <= / 1000000000000000 * T) by (apply Rabs_le; unfold T in *; lra).
      assert (Rabs (c - T) * Rabs m <= / 1000000000000000 * T * (11 / 10 * M + 1048577 * h)) by (apply Rmult_le_compat; try apply Rabs_pos; assumption).
      rewrite (Rabs_right T) by (unfold T; lra). assert (T * Rabs (m - M) <= T * (/ 4000000000 * M + 1048577 * h)) by (apply Rmult_le_compat_l; [unfold T; lra|exact EM']). unfold T in *. lra. }
    assert (TM : 0 <= T * M) by (apply Rmult_le_pos; [unfold T; lra|exact M0]).
    assert (E2 : Rabs (c * m) <= 11 / 10 * (T * M) + 2 * h).
    { replace (c * m) with (T * M + (c * m - T * M)) by ring. eapply Rle_trans; [apply Rabs_triang|]. rewrite (Rabs_right (T * M)) by lra. lra. }
    replace (val t - T * M) with ((val t - c * m) + (c * m - T * M)) by ring. eapply Rle_trans; [apply Rabs_triang|].
    assert (u * Rabs (c * m) <= / 1000000000000000 * (11 / 10 * (T * M) + 2 * h)) by (apply Rmult_le_compat; [rewrite U; lra|apply Rabs_pos|rewrite U; lra|exact E2]).
    set (Z := T * M) in *. lra.
  - apply fle_val; assumption.
Qed.
Lemma h_floor' z : / 2 ^ 700 <= z -> 1000000000 * h <= / 1000000000000 * (t2 * z).
Proof.
  intro Z. assert (H : / 2 ^ 800 <= / 2 ^ 100 * z).
  { change 800%nat with (100 + 700)%nat. rewrite pow_add, Rinv_mult. apply Rmult_le_compat_l; [|exact Z]. left. apply Rinv_0_lt_compat, pow_lt. lra. }
  apply h_floor in H. assert (Z0 : 0 < z) by (eapply Rlt_le_trans; [|exact Z]; apply Rinv_0_lt_compat, pow_lt; lra).
  assert (K : / 2 ^ 100 <= / 1000000000000) by (apply Rinv_le_contravar; [lra|]; rewrite pow_IZR; apply IZR_le; apply Z.leb_le; reflexivity).
  assert (/ 2 ^ 100 * z <= / 1000000000000 * z) by (apply Rmult_le_compat_r; lra). rewrite u_num, t2_num in *. lra.
Qed.
Lemma many_yes a b r : fis_approx a b r -> many a b -> / 2 ^ 700 <= least a b -> off2 a b <= (1 - / 10 ^ 8) * (t2 * least a b) -> r = true.
Proof.
  intros A C M D. destruct (many_value a b r A C) as (d & t & ED & ET & R). apply R. replace (10 ^ 8) with 100000000 in D by ring.
  pose proof (h_floor' _ M) as H. apply Rabs_le_inv in ED, ET. assert (0 <= off2 a b) by apply sq2_pos. set (z := t2 * least a b) in *. pose proof h_pos. lra.
Qed.
Lemma many_no a b r : fis_approx a b r -> many a b -> / 2 ^ 700 <= least a b -> (1 + / 10 ^ 8) * (t2 * least a b) <= off2 a b -> r = false.
Proof.
  intros A C M D. destruct (many_value a b r A C) as (d & t & ED & ET & R). destruct r; [exfalso|reflexivity]. pose proof (proj1 R eq_refl) as K. replace (10 ^ 8) with 100000000 in D by ring.
  pose proof (h_floor' _ M) as H. apply Rabs_le_inv in ED, ET. assert (0 <= off2 a b) by apply sq2_pos. set (z := t2 * least a b) in *. pose proof h_pos. lra.
Qed.

(** ** The coefficients of a square matrix *)
Lemma combine_maps {A B C} (f : A -> B) (g : A -> C) l : combine (map f l) (map g l) = map (fun x => (f x, g x)) l.
Proof. induction l as [|x l IH]; cbn; [reflexivity|]. rewrite IH. reflexivity. Qed.
Lemma combine_apps {A B} (a a' : list A) (b b' : list B) : length a = length b -> combine (a ++ a') (b ++ b') = combine a b ++ combine a' b'.
Proof. revert b. induction a as [|x a IH]; intros [|y b] L; try discriminate L; cbn; [reflexivity|]. rewrite IH; [reflexivity|]. injection L as L. exact L. Qed.
Lemma coeffs_length a : length (fcoeffs a) = (frows a * fcols a)%nat.
Proof.
  unfold fcoeffs. rewrite <- (seq_length (fcols a) 0) at 2. induction (seq 0 (fcols a)) as [|j l IH]; cbn; [lia|]. rewrite app_length, map_length, seq_length, IH. lia.
Qed.
Lemma coeffs_in a x : In x (fcoeffs a) <-> exists i j, (i < frows a)%nat /\ (j < fcols a)%nat /\ x = fentry a i j.
Proof.
  unfold fcoeffs. rewrite in_flat_map. split.
  - intros (j & J & I). apply in_map_iff in I. destruct I as (i & <- & I). apply in_seq in I, J. exists i, j. repeat split; lia.
  - intros (i & j & I & J & ->). exists j. split; [apply in_seq; lia|]. apply in_map_iff. exists i. split; [reflexivity|apply in_seq; lia].
Qed.
Lemma coeffs_sq2 n (f : nat -> nat -> R) : sq2 (flat_map (fun j => map (fun i => f i j) (seq 0 n)) (seq 0 n)) = squares n f.
Proof.
  unfold squares. rewrite total_swap. rewrite <- add_up_total. unfold sq2. generalize (seq 0 n) at 2 3 as l. intro l.
  induction l as [|j l IH]; [reflexivity|]. cbn [flat_map map]. rewrite map_app, add_up_app. cbn [add_up fold_right]. fold (add_up (map (fun j => total n (fun i => f i j * f i j)) l)). rewrite <- IH. f_equal.
  rewrite map_map. apply add_up_total.
Qed.
Lemma map_flat {A B C} (f : B -> C) (g : A -> list B) l : map f (flat_map g l) = flat_map (fun x => map f (g x)) l.
Proof. induction l as [|x l IH]; cbn; [reflexivity|]. rewrite map_app, IH. reflexivity. Qed.
Lemma flat_ext {A B} (f g : A -> list B) l : (forall x, f x = g x) -> flat_map f l = flat_map g l.
Proof. intro E. induction l as [|x l IH]; cbn; [reflexivity|]. rewrite E, IH. reflexivity. Qed.
Lemma coeffs_weight c : frows c = fcols c -> sq2 (map val (fcoeffs c)) = weight c.
Proof.
  intro S. unfold fcoeffs, weight. rewrite <- S. rewrite map_flat. rewrite <- coeffs_sq2. f_equal. apply flat_ext. intro j. apply map_map.
Qed.
Lemma squares_flip n f : squares n (fun i j => f j i) = squares n f.
Proof. unfold squares. apply (total_swap n n (fun i j => f j i * f j i)). Qed.
Lemma coeffs_weight' c : frows c = fcols c -> sq2 (map val (fcoeffs (ftransposed c))) = weight c.
Proof.
  intro S. rewrite coeffs_weight by (symmetry; exact S). unfold weight, ftransposed. cbn [frows fentry]. rewrite <- S. apply (squares_flip (frows c) (fun i j => val (fentry c i j))).
Qed.
Lemma coeffs_pairs c : frows c = fcols c -> combine (fcoeffs c) (fcoeffs (ftransposed c)) = flat_map (fun j => map (fun i => (fentry c i j, fentry c j i)) (seq 0 (frows c))) (seq 0 (frows c)).
Proof.
  intro S. unfold fcoeffs, ftransposed. cbn [frows fcols fentry]. rewrite <- S. generalize (seq 0 (frows c)) at 2 4 6 as l. intro l. induction l as [|j l IH]; [reflexivity|]. cbn [flat_map]. rewrite combine_apps by (rewrite !map_length; reflexivity). rewrite IH. f_equal. apply combine_maps.
Qed.
Lemma combine_map {A B C D} (f : A -> C) (g : B -> D) a b : combine (map f a) (map g b) = map (fun p => (f (fst p), g (snd p))) (combine a b).
Proof. revert b. induction a as [|x a IH]; intros [|y b]; cbn; try reflexivity. rewrite IH. reflexivity. Qed.
Lemma coeffs_off c : frows c = fcols c -> off2 (fcoeffs c) (fcoeffs (ftransposed c)) = asymmetry c.
Proof.
  intro S. unfold off2, diffs, asymmetry. rewrite combine_map, map_map, (coeffs_pairs c S), map_flat. rewrite <- coeffs_sq2. f_equal. apply flat_ext. intro j. rewrite map_map. reflexivity.
Qed.
Lemma coeffs_least c : frows c = fcols c -> least (fcoeffs c) (fcoeffs (ftransposed c)) = weight c.
Proof. intro S. unfold least. rewrite (coeffs_weight c S), (coeffs_weight' c S). apply Rmin_left. lra. Qed.
Lemma coeffs_all (P : f64 -> Prop) c : (forall i j, (i < frows c)%nat -> (j < fcols c)%nat -> P (fentry c i j)) -> Forall P (fcoeffs c) /\ Forall P (fcoeffs (ftransposed c)).
Proof.
  intro H. split; apply Forall_forall; intros x I; apply coeffs_in in I; destruct I as (i & j & I & J & ->); [apply H; assumption|]. cbn [ftransposed frows fcols fentry] in *. apply H; assumption.
Qed.
Lemma coeffs_some (P : f64 -> Prop) c : (exists i j, (i < frows c)%nat /\ (j < fcols c)%nat /\ P (fentry c i j)) -> Exists P (fcoeffs c) /\ Exists P (fcoeffs (ftransposed c)).
Proof.
  intros (i & j & I & J & H). split; apply Exists_exists; exists (fentry c i j); (split; [|exact H]); apply coeffs_in; [exists i, j|exists j, i; cbn [ftransposed frows fcols fentry]]; repeat split; assumption.
Qed.
Lemma coeffs_diffs c x : frows c = fcols c -> (In x (fdiffs (fcoeffs c) (fcoeffs (ftransposed c))) <-> exists i j, (i < frows c)%nat /\ (j < frows c)%nat /\ x = fsub (fentry c i j) (fentry c j i)).
Proof.
  intro S. unfold fdiffs. rewrite (coeffs_pairs c S), map_flat, in_flat_map. split.
  - intros (j & J & I). rewrite map_map in I. apply in_map_iff in I. destruct I as (i & <- & I). apply in_seq in I, J. exists i, j. repeat split; lia.
  - intros (i & j & I & J & ->). exists j. split; [apply in_seq; lia|]. rewrite map_map. apply in_map_iff. exists i. split; [reflexivity|apply in_seq; lia].
Qed.

(** ** The symmetry check *)
Definition checked (c : fmatrix) (s : bool) : Prop := fis_approx (fcoeffs c) (fcoeffs (ftransposed c)) s.
Lemma checked_ordinary c s : checked c s -> frows c = fcols c -> (frows c <= 1024)%nat -> all_finite c -> no_bigger (2 ^ 480) c -> / 2 ^ 700 <= weight c ->
  (asymmetry c <= (1 - / 10 ^ 8) * ((/ 10 ^ 12) ^ 2 * weight c) -> s = true) /\ ((1 + / 10 ^ 8) * ((/ 10 ^ 12) ^ 2 * weight c) <= asymmetry c -> s = false).
Proof.
  intros K S N F B W. destruct (coeffs_all finite c F) as [F1 F2]. destruct (coeffs_all (fun x => Rabs (val x) <= 2 ^ 480) c B) as [B1 B2].
  assert (M : many (fcoeffs c) (fcoeffs (ftransposed c))).
  { split; [rewrite !coeffs_length; cbn; lia|]. split; [|tauto]. rewrite coeffs_length, <- S. change 20%nat with (10 + 10)%nat. rewrite Nat.pow_add_r. change (2 ^ 10)%nat with 1024%nat. apply Nat.mul_le_mono; exact N. }
  assert (T : (/ 10 ^ 12) ^ 2 = t2) by (unfold t2, FapSpec.tolerance; ring). rewrite T, <- (coeffs_off c S), <- (coeffs_least c S). rewrite <- (coeffs_least c S) in W.
  split; intro H; [eapply many_yes|eapply many_no]; eassumption.
Qed.
Lemma checked_same c s : checked c s -> frows c = fcols c -> all_finite c -> (forall i j, (i < frows c)%nat -> (j < frows c)%nat -> Rabs (val (fentry c i j) - val (fentry c j i)) <= / 2 ^ 538) -> s = true.
Proof.
  intros K S F E. destruct (coeffs_all finite c F) as [F1 F2]. apply (approx_near _ _ _ K F1 F2). unfold diffs. rewrite combine_map, map_map, (coeffs_pairs c S), map_flat. apply Forall_forall. intros x I.
  apply in_flat_map in I. destruct I as (j & J & I). rewrite map_map in I. apply in_map_iff in I. destruct I as (i & <- & I). apply in_seq in I, J. cbn [fst snd]. apply E; lia.
Qed.
Lemma checked_huge c s : checked c s -> all_finite c -> (exists i j, (i < frows c)%nat /\ (j < fcols c)%nat /\ 2 ^ 512 <= Rabs (val (fentry c i j))) -> s = true.
Proof.
  intros K F E. destruct (coeffs_all finite c F) as [F1 F2]. destruct (coeffs_some (fun x => 2 ^ 512 <= Rabs (val x)) c E) as [E1 E2]. eapply approx_huge; eassumption.
Qed.
(** Entries that differ by NaN. *)
Lemma sub_nan x y : fsub x y = B754_nan <-> x = B754_nan \/ y = B754_nan \/ exists b, x = B754_infinity b /\ y = B754_infinity b.
Proof.
  split.
  - destruct (is_finite x) eqn:FX; [destruct (is_finite y) eqn:FY; [intro H; exfalso; exact (sub_no_nan x y FX FY H)|]|].
    + destruct y as [|b| |]; try discriminate FY; [|auto]. intro H. exfalso. destruct x; try discriminate FX; destruct b; discriminate H.
    + destruct x as [|b| |]; try discriminate FX; [|auto]. destruct y as [s|s| |s m e q]; try (intro H; exfalso; destruct b; discriminate H); [|auto]. destruct b, s; intro H; try discriminate H; eauto.
  - intros [->|[->|(b & -> & ->)]]; [destruct y; reflexivity|destruct x; reflexivity|destruct b; reflexivity].
Qed.
Lemma checked_nan c s : checked c s -> frows c = fcols c -> (exists i j, (i < frows c)%nat /\ (j < frows c)%nat /\ fsub (fentry c i j) (fentry c j i) = B754_nan) -> s = false.
Proof.
  intros (d & x & y & SD & _ & _ & ->) S (i & j & I & J & E). fold (fdiffs (fcoeffs c) (fcoeffs (ftransposed c))) in SD.
  rewrite (squares_nan _ _ SD); [apply fle_nan_l|]. apply (coeffs_diffs c _ S). exists i, j. auto.
Qed.
Lemma squares_infinite l s : fsum_of (map fabs2 l) s -> ~ In B754_nan l -> (exists b, In (B754_infinity b) l) -> s = B754_infinity false.
Proof.
  intros S N (b & I). pose proof (squares_length l s S N) as [NN P]. destruct (squares_lengths l) as [A B].
  assert (A' : Forall a_length (map fabs2 l)).
  { apply Forall_forall. intros z Z. rewrite Forall_forall in A. destruct (A z Z) as [->|K]; [|exact K]. exfalso. apply N, B, Z. }
  destruct (sum_lengths _ _ S A') as [_ M]. rewrite Forall_forall in M. specialize (M (fabs2 (B754_infinity b)) (in_map _ _ _ I)).
  destruct (place_cases s NN P) as [FS|E]; [|exact E]. exfalso. rewrite (place_finite s FS) in M. destruct b; cbn in M; pose proof (val_bound s) as V; apply Rabs_def2 in V; lra.
Qed.
Lemma checked_infinite c s : checked c s -> frows c = fcols c -> (forall i j, (i < frows c)%nat -> (j < frows c)%nat -> fsub (fentry c i j) (fentry c j i) <> B754_nan) ->
  (exists i j b, (i < frows c)%nat /\ (j < frows c)%nat /\ fentry c i j = B754_infinity b) -> s = true.
Proof.
  intros (d & x & y & SD & SX & SY & ->) S D (i & j & b & I & J & E). fold (fdiffs (fcoeffs c) (fcoeffs (ftransposed c))) in SD.
  assert (ND : ~ In B754_nan (fdiffs (fcoeffs c) (fcoeffs (ftransposed c)))).
  { intro H. apply (coeffs_diffs c _ S) in H. destruct H as (p & q & P & Q & H). apply (D p q P Q). auto. }
  assert (NX : forall p q, (p < frows c)%nat -> (q < frows c)%nat -> fentry c p q <> B754_nan) by (intros p q P Q H; apply (D p q P Q), sub_nan; auto).
  assert (NA : ~ In B754_nan (fcoeffs c)) by (intro H; apply coeffs_in in H; destruct H as (p & q & P & Q & H); apply (NX p q P); [lia|auto]).
  assert (NB : ~ In B754_nan (fcoeffs (ftransposed c))) by (intro H; apply coeffs_in in H; cbn [ftransposed frows fcols fentry] in H; destruct H as (p & q & P & Q & H); apply (NX q p Q); [lia|auto]).
  rewrite (squares_infinite _ _ SX NA) by (exists b; apply coeffs_in; exists i, j; repeat split; [exact I|lia|auto]).
  rewrite (squares_infinite _ _ SY NB) by (exists b; apply coeffs_in; exists j, i; cbn [ftransposed frows fcols fentry]; repeat split; [lia|exact I|auto]).
  assert (fmini (B754_infinity false) (B754_infinity false) = B754_infinity false) as -> by reflexivity.
  assert (L : a_length (B754_infinity false)) by (split; [intro K; discriminate K|cbn; pose proof pow_1024_pos; lra]).
  destruct (scaled_length _ L) as [_ G]. rewrite (G eq_refl). destruct (squares_length _ _ SD ND) as [N P].
  apply fle_place; [exact N|discriminate|]. cbn [place]. apply place_bound.
Qed.
