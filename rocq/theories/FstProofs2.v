(** The errors of means and covariances. *)
From Coq Require Import Reals Lra Lia List Permutation Psatz.
From Flocq Require Import Core BinarySingleNaN.
From Verif Require Import Cpp FloatModel FloatSpec FloatProofs NrmSpec NrmProofs DriftProofs StatModel StatSpec StatProofs FstModel FstSpec FstProofs.
Import ListNotations.
Local Open Scope R_scope.

Lemma count_u n : (Z.of_nat n <= 2 ^ 53)%Z -> INR n * u <= 1.
Proof. intro H. rewrite u_num, INR_IZR_INZ. apply IZR_le in H. change (IZR (2 ^ 53)) with 9007199254740992 in H. lra. Qed.
Lemma total_abs n f : Rabs (total n f) <= total n (fun k => Rabs (f k)).
Proof. induction n as [|n IH]; cbn; [rewrite Rabs_R0; lra|]. eapply Rle_trans; [apply Rabs_triang|]. lra. Qed.
Lemma div_abs x n : 0 < n -> Rabs (x / n) = Rabs x / n.
Proof. intro N. unfold Rdiv. rewrite Rabs_mult, (Rabs_pos_eq (/ n)); [reflexivity|]. left. apply Rinv_0_lt_compat, N. Qed.
Lemma over_le a b n : 0 < n -> a <= b * n -> a / n <= b.
Proof. intros N H. apply (Rmult_le_reg_r n); [exact N|]. unfold Rdiv. rewrite Rmult_assoc, Rinv_l, Rmult_1_r by lra. exact H. Qed.
Lemma div_pos a b : 0 <= a -> 0 < b -> 0 <= a / b.
Proof. intros A B. apply Rmult_le_pos; [exact A|]. left. apply Rinv_0_lt_compat, B. Qed.
Lemma shrink x n : 1 <= n -> Rabs (x / n) <= Rabs x.
Proof. intro N. rewrite div_abs by lra. apply over_le; [lra|]. pose proof (Rabs_pos x). nra. Qed.

(** ** Means *)
Lemma quotient n N S x s t : 1 <= n -> N = n -> 0 <= S -> n * u <= 1 -> Rabs (x - s) <= (n - 1) * u * S -> Rabs s <= S -> Rabs (t - x / N) <= u * Rabs (x / N) + h ->
  Rabs (t - s / n) <= (n + 1) * u * (S / n) + h.
Proof.
  intros N1 -> SP NU E B T. pose proof u_pos as U. assert (X : Rabs (x / n) <= (1 + (n - 1) * u) * (S / n)).
  { rewrite div_abs by lra. unfold Rdiv. rewrite <- Rmult_assoc. apply Rmult_le_compat_r; [left; apply Rinv_0_lt_compat; lra|]. replace x with (s + (x - s)) by ring. eapply Rle_trans; [apply Rabs_triang|]. lra. }
  assert (D : Rabs (x / n - s / n) <= (n - 1) * u * (S / n)).
  { replace (x / n - s / n) with ((x - s) / n) by (field; lra). rewrite div_abs by lra. unfold Rdiv. rewrite <- Rmult_assoc. apply Rmult_le_compat_r; [left; apply Rinv_0_lt_compat; lra|exact E]. }
  replace (t - s / n) with ((t - x / n) + (x / n - s / n)) by ring. eapply Rle_trans; [apply Rabs_triang|].
  assert (Q : 0 <= S / n) by (apply div_pos; lra). assert (u * Rabs (x / n) <= u * (2 * (S / n))) by (apply Rmult_le_compat_l; [lra|]; nra). nra.
Qed.
Lemma mean_near a j s m : (0 < frows a)%nat -> (Z.of_nat (frows a) <= 2 ^ 53)%Z -> (forall i, (i < frows a)%nat -> finite (fentry a i j)) -> total (frows a) (fun k => Rabs (val (fentry a k j))) <= 2 ^ 1000 ->
  fsum_of (map (fun i => fentry a i j) (seq 0 (frows a))) s -> m = fdivide s (of_int (Z.of_nat (frows a))) ->
  finite m /\ Rabs (val m - column_mean (holds a) j) <= mean_error (holds a) j.
Proof.
  intros NZ N F B S ->. set (n := frows a) in *. pose proof (count_u _ N) as NU. assert (N1 : 1 <= INR n) by (change 1 with (INR 1); apply le_INR; lia).
  destruct (of_small (Z.of_nat n)) as [FN VN]; [lia|]. rewrite <- INR_IZR_INZ in VN.
  assert (L : length (map (fun i => fentry a i j) (seq 0 n)) = n) by (rewrite map_length, seq_length; reflexivity).
  assert (FL : Forall finite (map (fun i => fentry a i j) (seq 0 n))) by (rewrite Forall_map, Forall_forall; intros i I; apply in_seq in I; apply F; lia).
  destruct (sum_near _ _ S FL) as (FS & ES & _); [rewrite !map_map, add_up_total; exact B|rewrite L; exact NU|]. rewrite L, !map_map, !add_up_total in ES.
  set (T := total n (fun k => Rabs (val (fentry a k j)))) in *. assert (TP : 0 <= T) by (apply total_nonneg; intros; apply Rabs_pos). assert (TA : Rabs (total n (fun k => val (fentry a k j))) <= T) by exact (total_abs n _).
  assert (PN : INR (Nat.pred n) = INR n - 1) by (destruct n; [lia|]; rewrite S_INR; cbn; ring). rewrite PN in ES.
  assert (SB : Rabs (val s) <= 2 * T).
  { replace (val s) with (total n (fun k => val (fentry a k j)) + (val s - total n (fun k => val (fentry a k j)))) by ring. eapply Rle_trans; [apply Rabs_triang|]. pose proof u_pos. assert ((INR n - 1) * u * T <= 1 * T) by (apply Rmult_le_compat_r; lra). lra. }
  pose proof (pow_lt 2 1000 ltac:(lra)).
  destruct (fdiv_val s (of_int (Z.of_nat n)) FS) as [FM VM]; [rewrite VN; lra|rewrite VN; apply big_sum; eapply Rle_trans; [apply shrink, N1|lra]|]. split; [exact FM|].
  rewrite VM, VN. unfold mean_error, column_mean, magnitude, average, holds. cbn [rows entry]. rewrite tiny_h. fold n. fold T. apply (quotient (INR n) (INR n) T (val s)); [exact N1|reflexivity|exact TP|exact NU|exact ES|exact TA|apply rd_any].
Qed.

(** ** Covariances *)
Lemma rel_1 x : fmt x -> forall y, fmt y -> Rabs (rd (x - y) - (x - y)) <= u * Rabs (x - y).
Proof. intros X y Y. unfold Rminus at 2 3 4. replace (x - y) with (x + - y) by ring. apply rd_sum; [exact X|]. apply generic_format_opp, Y. Qed.
Lemma product_near x y x' y' p : Rabs (x' - x) <= u * Rabs x -> Rabs (y' - y) <= u * Rabs y -> Rabs (p - x' * y') <= u * Rabs (x' * y') + h ->
  Rabs (p - x * y) <= (3 * u + 4 * u * u) * Rabs (x * y) + h.
Proof.
  intros X Y P. pose proof u_pos as U. pose proof u_small as U'. pose proof (Rabs_pos x) as XP. pose proof (Rabs_pos y) as YP. rewrite (Rabs_mult x y).
  assert (D : Rabs (x' * y' - x * y) <= (2 * u + u * u) * (Rabs x * Rabs y)).
  { replace (x' * y' - x * y) with ((x' - x) * y + x * (y' - y) + (x' - x) * (y' - y)) by ring. eapply Rle_trans; [apply Rabs_triang|].
    eapply Rle_trans; [apply Rplus_le_compat_r, Rabs_triang|]. rewrite !Rabs_mult. pose proof (Rabs_pos (x' - x)). pose proof (Rabs_pos (y' - y)).
    assert (Rabs (x' - x) * Rabs y <= u * Rabs x * Rabs y) by (apply Rmult_le_compat_r; assumption). assert (Rabs x * Rabs (y' - y) <= Rabs x * (u * Rabs y)) by (apply Rmult_le_compat_l; assumption).
    assert (Rabs (x' - x) * Rabs (y' - y) <= u * Rabs x * (u * Rabs y)) by (apply Rmult_le_compat; assumption). lra. }
  assert (M : Rabs (x' * y') <= (1 + 2 * u + u * u) * (Rabs x * Rabs y)).
  { replace (x' * y') with (x * y + (x' * y' - x * y)) by ring. eapply Rle_trans; [apply Rabs_triang|]. rewrite (Rabs_mult x y). lra. }
  replace (p - x * y) with ((p - x' * y') + (x' * y' - x * y)) by ring. eapply Rle_trans; [apply Rabs_triang|]. assert (Q : 0 <= Rabs x * Rabs y) by (apply Rmult_le_pos; assumption).
  assert (u * Rabs (x' * y') <= u * ((1 + 2 * u + u * u) * (Rabs x * Rabs y))) by (apply Rmult_le_compat_l; lra).
  assert (u * u * u * (Rabs x * Rabs y) <= u * u * (Rabs x * Rabs y)) by (apply Rmult_le_compat_r; [exact Q|]; nra). nra.
Qed.

Lemma divided n Q P s t : 2 <= n -> n * u <= / 1000 -> 0 <= Q -> let r := 3 * u + 4 * u * u in
  Rabs (s - P) <= r * Q + n * h + (n - 1) * u * ((1 + r) * Q + n * h) -> Rabs P <= Q -> Rabs (t - s / (n - 1)) <= u * Rabs (s / (n - 1)) + h ->
  Rabs (t - P / (n - 1)) <= (n + 4) * u * (Q / (n - 1)) + 4 * h.
Proof.
  intros N NU QP r E B T. pose proof u_pos as U. pose proof u_small as U'. pose proof h_pos as H. set (N1 := n - 1) in *. assert (N1P : 1 <= N1) by (unfold N1; lra).
  set (q := Q / N1). assert (q0 : 0 <= q) by (apply div_pos; lra). assert (Qq : Q = q * N1) by (unfold q; field; lra). assert (NN : n <= 2 * N1) by (unfold N1; lra).
  assert (rB : 0 <= r <= 4 * u) by (unfold r; nra). assert (NU1 : 0 <= N1 * u <= / 1000) by (unfold N1; nra).
  set (W := (r + N1 * u * (1 + r)) * q + 2 * h * (1 + N1 * u)).
  assert (D : Rabs (s / N1 - P / N1) <= W).
  { replace (s / N1 - P / N1) with ((s - P) / N1) by (field; lra). rewrite div_abs by lra. apply over_le; [lra|]. apply Rle_trans with (1 := E). unfold W. rewrite Qq.
    assert (n * h * (1 + N1 * u) <= 2 * N1 * h * (1 + N1 * u)) by (apply Rmult_le_compat_r; [lra|]; apply Rmult_le_compat_r; lra). lra. }
  assert (SB : Rabs (s / N1) <= q + W).
  { replace (s / N1) with (P / N1 + (s / N1 - P / N1)) by ring. eapply Rle_trans; [apply Rabs_triang|]. apply Rplus_le_compat; [|exact D]. rewrite div_abs by lra. apply over_le; [lra|]. rewrite <- Qq. exact B. }
  replace (t - P / N1) with ((t - s / N1) + (s / N1 - P / N1)) by ring. eapply Rle_trans; [apply Rabs_triang|]. assert (u * Rabs (s / N1) <= u * (q + W)) by (apply Rmult_le_compat_l; lra).
  apply Rle_trans with (u * q + (1 + u) * W + h); [lra|]. replace n with (N1 + 1) by (unfold N1; ring).
  assert (C : (1 + u) * (r + N1 * u * (1 + r)) + u <= (N1 + 1 + 4) * u).
  { assert (r <= 3 * u + u * / 1000) by (unfold r; nra). assert (N1 * u * r <= u * / 100) by nra. assert (u * (r + N1 * u * (1 + r)) <= u * / 100) by (apply Rmult_le_compat_l; nra). lra. }
  assert (C' : (1 + u) * (2 * h * (1 + N1 * u)) + h <= 4 * h).
  { assert ((1 + u) * (1 + N1 * u) <= 3 / 2) by nra. assert (2 * h * ((1 + u) * (1 + N1 * u)) <= 2 * h * (3 / 2)) by (apply Rmult_le_compat_l; lra). lra. }
  assert (((1 + u) * (r + N1 * u * (1 + r)) + u) * q <= (N1 + 1 + 4) * u * q) by (apply Rmult_le_compat_r; assumption). unfold W. lra.
Qed.

Lemma b480 : (2 ^ 480) * (2 ^ 480) * 2 ^ 40 = 2 ^ 1000 /\ 1 <= 2 ^ 480.
Proof. split; [rewrite <- !pow_add; f_equal|apply pow_R1_Rle; lra]. Qed.
Lemma rd_twice x : Rabs (rd x) <= 2 * Rabs x + h.
Proof. replace (rd x) with (x + (rd x - x)) by ring. eapply Rle_trans; [apply Rabs_triang|]. pose proof (rd_any x). pose proof u_small. pose proof (Rabs_pos x). nra. Qed.

Lemma entry_near n (f g : nat -> f64) a b s c : (2 <= n)%nat -> (Z.of_nat n < 2 ^ 32)%Z -> (forall k, (k < n)%nat -> finite (f k) /\ finite (g k)) -> finite a -> finite b ->
  (forall k, (k < n)%nat -> Rabs (val (f k) - val a) <= 4 * 2 ^ 480 /\ Rabs (val (g k) - val b) <= 4 * 2 ^ 480) ->
  fsum_of (map (fun k => fmul (fsub (f k) a) (fsub (g k) b)) (seq 0 n)) s -> c = fdivide s (of_int (Z.of_nat n - 1)) ->
  let X k := (val (f k) - val a) * (val (g k) - val b) in
  finite c /\ Rabs (val c - total n X / (INR n - 1)) <= (INR n + 4) * u * (total n (fun k => Rabs (X k)) / (INR n - 1)) + 4 * h /\ ((forall k, (k < n)%nat -> f k = g k) -> a = b -> 0 <= val c).
Proof.
  intros N2 N F FA FB BD S -> X. pose proof u_pos as U. pose proof u_small as U'. pose proof h_pos as H. pose proof h_1 as H1. destruct b480 as [B40 B1]. set (B := 2 ^ 480) in *.
  assert (IN : 2 <= INR n) by (change 2 with (INR 2); apply le_INR; exact N2). assert (IN' : INR n <= 4294967296) by (rewrite INR_IZR_INZ; apply IZR_le; lia).
  assert (NU : INR n * u <= / 1000) by (rewrite u_num; lra). assert (E40 : 2 ^ 40 = 1099511627776) by lra. rewrite E40 in B40. pose proof (pow_lt 2 1000 ltac:(lra)) as P1000.
  assert (BB : 1 <= B * B) by nra.
  assert (DIFF : forall x y, finite x -> finite y -> Rabs (val x - val y) <= 4 * B -> finite (fsub x y) /\ val (fsub x y) = rd (val x - val y) /\ Rabs (rd (val x - val y) - (val x - val y)) <= u * Rabs (val x - val y) /\ Rabs (rd (val x - val y)) <= 5 * B).
  { intros x y FX FY L. destruct (fsub_val x y FX FY) as [FZ VZ]; [apply big_sum; nra|]. split; [exact FZ|]. split; [exact VZ|]. assert (Q : Rabs (rd (val x - val y) - (val x - val y)) <= u * Rabs (val x - val y)) by (apply rel_1; apply val_fmt).
    split; [exact Q|]. replace (rd (val x - val y)) with ((val x - val y) + (rd (val x - val y) - (val x - val y))) by ring. eapply Rle_trans; [apply Rabs_triang|]. pose proof (Rabs_pos (val x - val y)). nra. }
  set (P k := fmul (fsub (f k) a) (fsub (g k) b)).
  assert (PROD : forall k, (k < n)%nat -> finite (P k) /\ Rabs (val (P k) - X k) <= (3 * u + 4 * u * u) * Rabs (X k) + h /\ Rabs (val (P k)) <= 51 * (B * B) /\ (f k = g k -> a = b -> 0 <= val (P k))).
  { intros k K. destruct (F k K) as [FF FG]. destruct (BD k K) as [LF LG]. destruct (DIFF _ _ FF FA LF) as (F1 & V1 & E1 & M1). destruct (DIFF _ _ FG FB LG) as (F2 & V2 & E2 & M2).
    assert (MM : Rabs (rd (val (f k) - val a) * rd (val (g k) - val b)) <= 25 * (B * B)) by (rewrite Rabs_mult; pose proof (Rabs_pos (rd (val (f k) - val a))); pose proof (Rabs_pos (rd (val (g k) - val b))); nra).
    destruct (fmul_val _ _ F1 F2) as [F3 V3]; [rewrite V1, V2; apply big_sum; lra|]. rewrite V1, V2 in V3. fold (P k) in F3, V3. split; [exact F3|]. rewrite V3. split; [|split].
    - unfold X. eapply product_near; [exact E1|exact E2|apply rd_any].
    - pose proof (rd_twice (rd (val (f k) - val a) * rd (val (g k) - val b))). lra.
    - intros -> ->. apply rd_ge0. set (z := rd _). nra. }
  set (Q := total n (fun k => Rabs (X k))). assert (QP : 0 <= Q) by (apply total_nonneg; intros; apply Rabs_pos). set (r := 3 * u + 4 * u * u) in *. assert (r0 : 0 <= r) by (unfold r; nra).
  assert (L : length (map P (seq 0 n)) = n) by (rewrite map_length, seq_length; reflexivity).
  assert (FL : Forall finite (map P (seq 0 n))) by (rewrite Forall_map, Forall_forall; intros i I; apply in_seq in I; apply PROD; lia).
  assert (TB : total n (fun k => Rabs (val (P k))) <= 2 ^ 1000).
  { apply Rle_trans with (total n (fun _ => 51 * (B * B))); [apply total_le; intros k K; apply PROD, K|]. rewrite total_const. assert (INR n * (51 * (B * B)) <= 4294967296 * (51 * (B * B))) by (apply Rmult_le_compat_r; lra). lra. }
  assert (BL : add_up (map Rabs (map val (map P (seq 0 n)))) <= 2 ^ 1000) by (rewrite !map_map, add_up_total; exact TB).
  assert (NL : INR (length (map P (seq 0 n))) * u <= 1) by (rewrite L; lra).
  assert (S' : fsum_of (map P (seq 0 n)) s) by exact S. destruct (sum_near _ _ S' FL BL NL) as (FS & ES & _). rewrite L, !map_map, !add_up_total in ES.
  assert (PN : INR (Nat.pred n) = INR n - 1) by (destruct n; [lia|]; rewrite S_INR; cbn; ring). rewrite PN in ES.
  assert (AP : total n (fun k => Rabs (val (P k))) <= (1 + r) * Q + INR n * h).
  { apply Rle_trans with (total n (fun k => (1 + r) * Rabs (X k) + h)); [|rewrite total_plus, total_scale, total_const; unfold Q; lra]. apply total_le. intros k K. destruct (PROD k K) as (_ & E & _).
    replace (val (P k)) with (X k + (val (P k) - X k)) by ring. eapply Rle_trans; [apply Rabs_triang|]. lra. }
  assert (DP : Rabs (total n (fun k => val (P k)) - total n X) <= r * Q + INR n * h).
  { rewrite <- total_minus. eapply Rle_trans; [apply total_abs|]. apply Rle_trans with (total n (fun k => r * Rabs (X k) + h)); [|rewrite total_plus, total_scale, total_const; unfold Q; lra]. apply total_le. intros k K. apply PROD, K. }
  assert (EE : Rabs (val s - total n X) <= r * Q + INR n * h + (INR n - 1) * u * ((1 + r) * Q + INR n * h)).
  { replace (val s - total n X) with ((val s - total n (fun k => val (P k))) + (total n (fun k => val (P k)) - total n X)) by ring. eapply Rle_trans; [apply Rabs_triang|].
    assert ((INR n - 1) * u * total n (fun k => Rabs (val (P k))) <= (INR n - 1) * u * ((1 + r) * Q + INR n * h)) by (apply Rmult_le_compat_l; [apply Rmult_le_pos; lra|exact AP]). lra. }
  destruct (of_small (Z.of_nat n - 1)) as [FN VN]; [lia|]. rewrite minus_IZR, <- INR_IZR_INZ in VN.
  assert (SB : Rabs (val s) <= 2 * 2 ^ 1000).
  { replace (val s) with (total n (fun k => val (P k)) + (val s - total n (fun k => val (P k)))) by ring. eapply Rle_trans; [apply Rabs_triang|]. 
    set (A := total n (fun k => Rabs (val (P k)))) in *. assert (Rabs (total n (fun k => val (P k))) <= A) by exact (total_abs n _). assert (0 <= A) by (apply total_nonneg; intros; apply Rabs_pos). assert ((INR n - 1) * u * A <= 1 * A) by (apply Rmult_le_compat_r; nra). lra. }
  destruct (fdiv_val s (of_int (Z.of_nat n - 1)) FS) as [FM VM]; [rewrite VN; lra|rewrite VN; apply big_sum; eapply Rle_trans; [apply shrink; lra|lra]|]. split; [exact FM|]. rewrite VM, VN. split.
  - apply (divided (INR n) Q (total n X) (val s)); [exact IN|exact NU|exact QP|exact EE|apply total_abs|apply rd_any].
  - intros G AB. apply rd_ge0. apply div_pos; [|lra]. apply (sum_pos _ _ S' FL); [|exact BL|exact NL]. rewrite Forall_map, Forall_forall. intros k K. apply in_seq in K. apply PROD; [lia|apply G; lia|exact AB].
Qed.
