(** The integral that is computed, to the end, and the program. *)
From Coq Require Import Reals Psatz ZArith String List.
From Flocq Require Import Core BinarySingleNaN.
From Verif Require Import Cpp TimeModel TimeSpec TimeProofs FloatModel FloatSpec FloatProofs NrmSpec NrmProofs DriftModel DriftSpec DriftProofs SpinModel SpinProofs TwistProofs SlogProofs2 FtrProofs2 FstModel FstSpec FstProofs FstProofs2 TlogProofs4 EventModel TexModel TexSpec TexProofs TexProofs2.
Import ListNotations.
Local Open Scope R_scope.

Lemma h_tiny : h <= / 10 ^ 50.
Proof. apply Rle_trans with (1 := h_small). apply Rinv_le_contravar; [apply pow_lt; lra|]. apply Rle_trans with (2 ^ 200); [lra|]. apply Rle_pow; [lra|]. apply Nat.leb_le. reflexivity. Qed.

(** The last multiplications. *)
Lemma scaled T k A D S R x eta : / 10 ^ 9 <= T <= 10 ^ 8 -> 1 <= k <= 2147483648 -> 0 <= eta <= / 1000 ->
  Rabs (A - T) <= u * T + h -> Rabs (D - A / k) <= u * Rabs (A / k) + h -> Rabs (S - R) <= k * eta -> Rabs R <= k -> Rabs (x - S * D) <= u * Rabs (S * D) + h ->
  Rabs (x - T / k * R) <= T * (eta + 6 * u).
Proof.
  intros [T1 T2] [K1 K2] [E1 E2] HA HD HS HR HX. pose proof h_pos as HP. pose proof h_tiny as HT. pose proof u_pos as UP. assert (UE : u <= / 10 ^ 15) by (rewrite u_num; lra). assert (UL : / 10 ^ 16 <= u) by (rewrite u_num; lra).
  assert (KI : 0 < / k <= 1) by (split; [apply Rinv_0_lt_compat; lra|rewrite <- Rinv_1; apply Rinv_le_contravar; lra]). set (q := / k) in *. assert (KQ : k * q = 1) by (unfold q; field; lra). unfold Rdiv in *. fold q in HD |- *. clearbody q.
  assert (HUT : h * 10 ^ 20 <= u * T). { apply Rle_trans with (/ 10 ^ 50 * 10 ^ 20); [nra|]. apply Rle_trans with (/ 10 ^ 16 * / 10 ^ 9); [lra|]. apply Rmult_le_compat; lra. }
  assert (PA : 0 <= A <= 1001 / 1000 * T). { apply Rabs_le_inv in HA. assert (u * T <= / 10 ^ 15 * T) by nra. lra. }
  assert (PQ : 0 <= A * q) by nra. rewrite (Rabs_pos_eq (A * q)) in HD by exact PQ.
  assert (DE : Rabs (D - T * q) <= 21 / 10 * (u * T * q) + 2 * h).
  { replace (D - T * q) with ((D - A * q) + (A - T) * q) by ring. eapply Rle_trans; [apply Rabs_triang|]. rewrite Rabs_mult, (Rabs_pos_eq q) by lra.
    assert (Rabs (A - T) * q <= (u * T + h) * q) by (apply Rmult_le_compat_r; lra). assert (h * q <= h) by nra. assert (u * (A * q) <= 1001 / 1000 * (u * T * q)). { replace (u * (A * q)) with (A * (u * q)) by ring. replace (1001 / 1000 * (u * T * q)) with (1001 / 1000 * T * (u * q)) by ring. apply Rmult_le_compat_r; nra. }
    assert (0 <= u * T * q) by (apply Rmult_le_pos; nra). lra. }
  assert (SB : Rabs S <= 1001 / 1000 * k). { replace S with (R + (S - R)) by ring. eapply Rle_trans; [apply Rabs_triang|]. assert (k * eta <= k * / 1000) by (apply Rmult_le_compat_l; lra). lra. }
  assert (UT : 0 <= u * T) by nra. assert (UTQ : 0 <= u * T * q) by (apply Rmult_le_pos; lra).
  assert (SD : Rabs (S * (D - T * q)) <= 22 / 10 * (u * T)).
  { rewrite Rabs_mult. apply Rle_trans with (1001 / 1000 * k * (21 / 10 * (u * T * q) + 2 * h)); [apply Rmult_le_compat; [apply Rabs_pos|apply Rabs_pos|exact SB|exact DE]|].
    replace (1001 / 1000 * k * (21 / 10 * (u * T * q) + 2 * h)) with (1001 / 1000 * (21 / 10) * (u * T) * (k * q) + 2002 / 1000 * (k * h)) by field. rewrite KQ. assert (k * h <= 2147483648 * h) by (apply Rmult_le_compat_r; lra). lra. }
  assert (TQ : 0 <= T * q) by nra.
  assert (STQ : Rabs (S * (T * q)) <= 1001 / 1000 * T). { rewrite Rabs_mult, (Rabs_pos_eq (T * q)) by exact TQ. apply Rle_trans with (1001 / 1000 * k * (T * q)); [apply Rmult_le_compat_r; lra|]. replace (1001 / 1000 * k * (T * q)) with (1001 / 1000 * T * (k * q)) by ring. rewrite KQ. lra. }
  assert (SDB : Rabs (S * D) <= 11 / 10 * T). { replace (S * D) with (S * (T * q) + S * (D - T * q)) by ring. eapply Rle_trans; [apply Rabs_triang|]. assert (u * T <= / 10 ^ 15 * T) by nra. lra. }
  assert (SR : Rabs (T * q * (S - R)) <= T * eta). { rewrite Rabs_mult, (Rabs_pos_eq (T * q)) by exact TQ. apply Rle_trans with (T * q * (k * eta)); [apply Rmult_le_compat_l; lra|]. replace (T * q * (k * eta)) with (T * eta * (k * q)) by ring. rewrite KQ. lra. }
  replace (x - T * q * R) with ((x - S * D) + S * (D - T * q) + T * q * (S - R)) by ring. eapply Rle_trans; [apply Rabs_triang|]. eapply Rle_trans; [apply Rplus_le_compat_r, Rabs_triang|].
  assert (u * Rabs (S * D) <= u * (11 / 10 * T)) by (apply Rmult_le_compat_l; lra). lra.
Qed.

Lemma same_length {A B} (P : A -> B -> Prop) l k : Forall2 P l k -> length l = length k.
Proof. induction 1; cbn; congruence. Qed.

Lemma integrate_near e dt K : (0 < e < 2 ^ 53)%Z -> (0 < dt <= INT64_MAX)%Z -> steps e dt K -> (K < 2 ^ 31 - 1)%Z ->
  (exists x, integrate e dt (Ok x)) /\ forall r, integrate e dt r -> exists x, r = Ok x /\ finite x /\
    forall i, let T := IZR e / 10 ^ 9 in let step := T / IZR K in integral_to T i -> Rabs (val x - i - excess T step) <= sum_error T step K.
Proof.
  intros E D S KB. destruct (steps_min e dt K (proj1 D) S (proj1 E)) as [_ K1]. destruct (samples e dt K D E S) as (calls & SI & NS & LEN & NTH). unfold integrate. rewrite SI, NS. cbn [obind].
  assert (CI : cast_int32 (K + 1) = (K + 1)%Z) by (unfold cast_int32; rewrite Z.mod_small by lia; lia). rewrite CI. unfold sub64, chk64. rewrite Z.sub_0_r. replace (K + 1 - 1)%Z with K by lia.
  assert (IN : in64b e = true) by (apply in64b_spec; unfold in64, INT64_MIN, INT64_MAX; lia). rewrite IN. cbn [obind]. replace (INT_MIN <=? K)%Z with true by (symmetry; apply Z.leb_le; unfold INT_MIN; lia).
  split. { destruct (accumulates e (calls ++ [e]) (of_int 0)) as [s A]. eexists. exists s. split; [exact A|reflexivity]. }
  intros r (s & A & ->). eexists. split; [reflexivity|].
  destruct (accumulated e calls) with (l := @nil f64) (s := of_int 0) (r := s) as (ds & F2 & SUM); [|constructor|exact A|].
  { apply Forall_forall. intros t I. apply In_nth_error in I. destruct I as [i I]. apply NTH in I. lia. }
  cbn [app] in SUM. set (T := IZR e / 10 ^ 9). set (step := T / IZR K).
  assert (EZ : 1 <= IZR e <= 9007199254740992) by (split; apply IZR_le; lia). assert (KZ : 1 <= IZR K <= 2147483648) by (split; apply IZR_le; lia).
  assert (T1 : / 10 ^ 9 <= T <= 10 ^ 8) by (unfold T; lra). assert (LD : INR (length ds) = IZR K) by (rewrite <- (same_length _ _ _ F2), INR_IZR_INZ, LEN; reflexivity).
  assert (TERM : forall i d, nth_error ds i = Some d -> finite d /\ Rabs (val d) <= 1 + 3 * u /\ Rabs (val d - dev (INR i * step)) <= / (4 * 10 ^ 9) + (T + 2 * sqrt T + 3) * u).
  { intros i d N. assert (X : exists t, nth_error calls i = Some t /\ deviation t d).
    { clear - F2 N. revert i N. induction F2 as [|t d' ts ds' DD F IH]; intros [|i] N; try discriminate N; cbn in N |- *; [injection N as ->; eauto|apply IH, N]. }
    destruct X as (t & I & DV). destruct (NTH i t I) as [TB TN]. apply (deviation_near t d (INR i * step) T); [lia|unfold T; apply Rmult_le_compat_r; [lra|apply IZR_le; lia]|lra| | |exact DV].
    - apply Rmult_le_pos; [apply pos_INR|]. unfold step. apply Rmult_le_pos; [lra|left; apply Rinv_0_lt_compat; lra].
    - unfold step, T. rewrite INR_IZR_INZ. apply IZR_le in TN. rewrite mult_IZR, abs_IZR, minus_IZR, !mult_IZR in TN. set (k := IZR K) in *. set (tt := IZR t) in *. set (j := IZR (Z.of_nat i)) in *. set (ee := IZR e) in *.
      replace (tt / 10 ^ 9 - j * (ee / 10 ^ 9 / k)) with ((k * tt - j * ee) * (/ k * / 10 ^ 9)) by (field; lra). assert (0 < / k) by (apply Rinv_0_lt_compat; lra).
      rewrite Rabs_mult, (Rabs_pos_eq (/ k * _)) by (apply Rmult_le_pos; lra). apply Rle_trans with (k / 2 * (/ k * / 10 ^ 9)); [apply Rmult_le_compat_r; [apply Rmult_le_pos; lra|lra]|]. right. field. lra. }
  set (eta := / (4 * 10 ^ 9) + (T + 2 * sqrt T + 3) * u) in *.
  pose proof (sum_of_near step eta ds (fun i d N => proj2 (proj2 (TERM i d N)))) as NEAR. rewrite LD in NEAR.
  assert (FD : Forall finite ds) by (apply Forall_forall; intros d I; apply In_nth_error in I; destruct I as [i I]; apply (TERM i d I)).
  assert (AB : add_up (map Rabs (map val ds)) <= IZR K * (1 + 3 * u)).
  { rewrite <- LD. assert (X : Forall (fun d => Rabs (val d) <= 1 + 3 * u) ds) by (apply Forall_forall; intros d I; apply In_nth_error in I; destruct I as [i I]; apply (TERM i d I)). clear - X.
    induction X as [|d ds Y _ IH]; [cbn; lra|]. cbn [map add_up fold_right length]. fold (add_up (map Rabs (map val ds))). rewrite S_INR. lra. }
  pose proof u_pos as UP. assert (UE : u <= / 10 ^ 15) by (rewrite u_num; lra). assert (UV : u = / 9007199254740992) by apply u_num.
  destruct (sum_near ds s SUM FD) as (FS & ES & _).
  { apply Rle_trans with (1 := AB). apply Rle_trans with (2 ^ 40); [nra|apply Rle_pow; [lra|apply Nat.leb_le; reflexivity]]. }
  { rewrite LD, UV. lra. }
  assert (ES' : Rabs (val s - add_up (map val ds)) <= IZR K * (IZR K * u)).
  { apply Rle_trans with (1 := ES). assert (PL : INR (Nat.pred (length ds)) = IZR K - 1). { destruct (length ds) eqn:X; [cbn in LD; lra|]. cbn [Nat.pred]. rewrite S_INR in LD. lra. }
    rewrite PL. apply Rle_trans with ((IZR K - 1) * u * (IZR K * (1 + 3 * u))); [apply Rmult_le_compat_l; [apply Rmult_le_pos; lra|exact AB]|].
    replace ((IZR K - 1) * u * (IZR K * (1 + 3 * u))) with (IZR K * u * ((IZR K - 1) * (1 + 3 * u))) by ring. replace (IZR K * (IZR K * u)) with (IZR K * u * IZR K) by ring. apply Rmult_le_compat_l; [apply Rmult_le_pos; lra|].
    assert (IZR K * (3 * u) <= 2147483648 * (3 * u)) by (apply Rmult_le_compat_r; lra). rewrite UV in *. lra. }
  assert (ST : sqrt T <= 10 ^ 4). { replace (10 ^ 4) with (sqrt (10 ^ 4 * 10 ^ 4)) by (apply sqrt_square; lra). apply sqrt_le_1; lra. } pose proof (sqrt_pos T) as SP.
  assert (ETA : 0 <= eta + IZR K * u <= / 1000). { unfold eta. assert (0 <= (T + 2 * sqrt T + 3) * u <= 200000003 * u) by (split; [apply Rmult_le_pos; lra|apply Rmult_le_compat_r; lra]). assert (0 <= IZR K * u <= 2147483648 * u) by (split; [apply Rmult_le_pos; lra|apply Rmult_le_compat_r; lra]). rewrite UV in *. lra. }
  assert (SR : Rabs (val s - rectangles step (length ds)) <= IZR K * (eta + IZR K * u)). { replace (val s - rectangles step (length ds)) with ((val s - add_up (map val ds)) + (add_up (map val ds) - rectangles step (length ds))) by ring. eapply Rle_trans; [apply Rabs_triang|]. lra. }
  pose proof (rectangles_bound step (length ds)) as RB. rewrite LD in RB.
  destruct (seconds_near e ltac:(lia)) as (FA & PA & EA). fold T in EA. destruct (of_small K) as [FK VK]; [lia|]. set (A' := val (as_seconds e)) in *.
  assert (BIG : forall x, Rabs x <= 10 ^ 30 -> Rabs x <= 2 ^ 1000) by (intros x X; apply Rle_trans with (1 := X); apply Rle_trans with (2 ^ 110); [lra|apply Rle_pow; [lra|apply Nat.leb_le; reflexivity]]).
  pose proof h_pos as HP. pose proof h_1 as H1. assert (AU : A' <= 10 ^ 9) by (apply Rabs_le_inv in EA; nra). assert (KI : 0 < / IZR K <= 1) by (split; [apply Rinv_0_lt_compat; lra|rewrite <- Rinv_1; apply Rinv_le_contravar; lra]).
  assert (QB : 0 <= A' / IZR K <= 10 ^ 9) by (unfold Rdiv; nra).
  destruct (div_error (as_seconds e) (of_int K) FA) as [FDV EDV]; [rewrite VK; lra|fold A'; rewrite VK; apply BIG; rewrite Rabs_pos_eq by apply QB; lra|]. fold A' in EDV. rewrite VK in EDV. set (D' := val (fdivide (as_seconds e) (of_int K))) in *.
  assert (DB : Rabs D' <= 10 ^ 10). { replace D' with (A' / IZR K + (D' - A' / IZR K)) by ring. eapply Rle_trans; [apply Rabs_triang|]. rewrite (Rabs_pos_eq (A' / IZR K)) in * by apply QB. nra. }
  assert (SB : Rabs (val s) <= 10 ^ 11). { replace (val s) with (rectangles step (length ds) + (val s - rectangles step (length ds))) by ring. eapply Rle_trans; [apply Rabs_triang|]. nra. }
  destruct (mul_error s (fdivide (as_seconds e) (of_int K)) FS FDV) as [FX EX]; [fold D'; apply BIG; rewrite Rabs_mult; pose proof (Rabs_pos D'); pose proof (Rabs_pos (val s)); apply Rle_trans with (10 ^ 11 * 10 ^ 10); [apply Rmult_le_compat; lra|lra]|]. fold D' in EX.
  split; [exact FX|]. cbv zeta. intros i I. rewrite (integral_is T i ltac:(lra) I).
  pose proof (scaled T (IZR K) A' D' (val s) (rectangles step (length ds)) (val (fmul s (fdivide (as_seconds e) (of_int K)))) (eta + IZR K * u) T1 KZ ETA EA EDV SR RB EX) as FIN. fold step in FIN.
  assert (SPOS : 0 < step) by (unfold step; apply Rmult_lt_0_compat; lra). pose proof (rectangles_near step (length ds) SPOS) as RN. rewrite LD in RN. assert (KS : IZR K * step = T) by (unfold step; field; lra). rewrite KS in RN.
  set (x := val (fmul _ _)) in *. replace (x - (area T - 2) - excess T step) with ((x - step * rectangles step (length ds)) + (step * rectangles step (length ds) - (area T - 2) - excess T step)) by ring.
  eapply Rle_trans; [apply Rabs_triang|]. unfold sum_error. replace (IZR K * (step * step * step / 8)) with (IZR K * step * (step * step / 8)) in RN by field. rewrite KS in RN. unfold eta in FIN. lra.
Qed.
