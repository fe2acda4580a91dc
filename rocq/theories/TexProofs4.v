(** The program resim/examples/time.cc. *)
From Coq Require Import Reals Psatz ZArith String List.
From Flocq Require Import Core BinarySingleNaN.
From Verif Require Import Cpp TimeModel TimeSpec TimeProofs FloatModel FloatSpec FloatProofs NrmSpec NrmProofs DriftModel DriftSpec DriftProofs SpinModel SpinProofs TwistProofs SlogProofs2 TlogProofs4 EventModel TexModel TexSpec TexProofs TexProofs2 TexProofs3.
Import ListNotations.
Local Open Scope R_scope.

Lemma durations_ok now : durations now = if in64b (10000 + now) then Ok tt else UB.
Proof.
  assert (B : as_duration (as_seconds 10000) = Ok 10000%Z) by (vm_compute; reflexivity). unfold durations. cbv zeta. rewrite B. cbn [obind]. rewrite Z.eqb_refl. cbn [reassert obind]. unfold add64, chk64. destruct (in64b (10000 + now)) eqn:E; [|reflexivity]. cbn [obind].
  apply in64b_spec in E. destruct (seconds_round_trip _ E) as (x & A & C & _). rewrite A. cbn [obind]. rewrite C. cbn [obind]. rewrite Z.eqb_refl. reflexivity.
Qed.
Lemma messages_are : messages = ([(as_seconds 100, "Hello"); (as_seconds 200, "ReSim"); (as_seconds 200, "user!")]%string, Ok tt).
Proof. unfold as_seconds, NANO. cbv -[fdivide of_int]. reflexivity. Qed.
Lemma shown k : (0 <= k <= 1000)%Z -> shows (as_seconds k) k.
Proof.
  intro K. destruct (seconds_near k ltac:(lia)) as (F & _ & E). split; [exact F|]. assert (KR : 0 <= IZR k <= 1000) by (split; apply IZR_le; lia). pose proof h_tiny as H.
  set (v := val (as_seconds k)) in *. apply Rabs_le_inv in E. assert (U : u = / 9007199254740992) by apply u_num. apply Rabs_def1; [nra|nra].
Qed.

(** ** The integral of thirty seconds *)
Lemma root_30 : 547 / 100 <= sqrt 30 <= 548 / 100.
Proof. pose proof (sqrt_sqrt 30 ltac:(lra)). pose proof (sqrt_pos 30). split; nra. Qed.
Lemma cos_30 : 0 <= cos (sqrt 30).
Proof.
  pose proof root_30. pose proof PI_bounds. replace (cos (sqrt 30)) with (cos (sqrt 30 - 2 * PI)); [apply cos_ge_0; lra|]. rewrite cos_minus, cos_2PI, sin_2PI. ring.
Qed.
Lemma near_add x y a b : Rabs (x + y - (a + b)) <= Rabs (x - a) + Rabs (y - b).
Proof. replace (x + y - (a + b)) with ((x - a) + (y - b)) by ring. apply Rabs_triang. Qed.
Lemma near_from x a : Rabs x <= Rabs a + Rabs (x - a).
Proof. replace x with (a + (x - a)) at 1 by ring. apply Rabs_triang. Qed.
Lemma analytical_near r : analytical_result r -> finite r /\ Rabs (val r - (area 30 - 2)) <= / 10 ^ 12.
Proof.
  intros (c & s & C & Sn & ->). destruct (of_small 30) as [F30 V30]; [lia|]. destruct (fsqrt_val (of_int 30) F30 ltac:(rewrite V30; lra)) as [FR VR]. rewrite V30 in VR. set (root := fsqrt (of_int 30)) in *.
  pose proof root_30 as R0. pose proof (rd_any (sqrt 30)) as ER. rewrite <- VR, (Rabs_pos_eq (sqrt 30)) in ER by lra. set (q := sqrt 30) in *.
  pose proof h_pos as HP. pose proof h_tiny as HT. assert (U : u = / 9007199254740992) by apply u_num. assert (HT' : h <= / 10 ^ 16) by (apply Rle_trans with (1 := HT); lra). rewrite U in ER.
  assert (ER' : Rabs (val root - q) <= 7 / 10 ^ 16) by lra.
  destruct (library_near cos root c FR (cos_bound _) C) as (FC & EC & _). destruct (library_near sin root s FR (sin_bound _) Sn) as (FS & ES & _).
  pose proof (cos_bound (val root)) as CB. pose proof (sin_bound (val root)) as SB. rewrite U in EC, ES.
  assert (EC' : Rabs (val c - cos q) <= 2 / 10 ^ 15). { pose proof (cos_lip (val root) q). replace (val c - cos q) with ((val c - cos (val root)) + (cos (val root) - cos q)) by ring. eapply Rle_trans; [apply Rabs_triang|]. lra. }
  assert (ES' : Rabs (val s - sin q) <= 2 / 10 ^ 15). { pose proof (sin_lip (val root) q). replace (val s - sin q) with ((val s - sin (val root)) + (sin (val root) - sin q)) by ring. eapply Rle_trans; [apply Rabs_triang|]. lra. }
  assert (BIG : forall x, Rabs x <= 100 -> Rabs x <= 2 ^ 1000) by (intros x X; apply Rle_trans with (1 := X); apply Rle_trans with (2 ^ 7); [lra|apply Rle_pow; [lra|apply Nat.leb_le; reflexivity]]).
  pose proof big_1000 as [_ BG]. assert (BIG' : forall x, Rabs x <= 100 -> Rabs x <= 2 ^ 1000 * 8) by (intros x X; pose proof (BIG x X); lra).
  pose proof (cos_bound q) as CQ. pose proof (sin_bound q) as SQ. pose proof (near_from (val c) (cos q)) as C1. pose proof (near_from (val s) (sin q)) as S1. pose proof (near_from (val root) q) as R1. rewrite (Rabs_pos_eq q) in R1 by lra.
  destruct (of_small (-1)) as [F1 V1]; [lia|]. destruct (of_small 2) as [F2 V2]; [lia|].
  assert (B1 : Rabs (val (of_int (-1)) + val c) <= 3). { rewrite V1. eapply Rle_trans; [apply Rabs_triang|]. rewrite (Rabs_left (-1)) by lra. lra. }
  destruct (add_error (of_int (-1)) c F1 FC) as [FA EA]; [apply BIG'; lra|]. rewrite U in EA. set (a := fadd (of_int (-1)) c) in *. rewrite V1 in *. 
  assert (EA' : Rabs (val a - (-1 + cos q)) <= 3 / 10 ^ 15). { replace (val a - (-1 + cos q)) with ((val a - (-1 + val c)) + (val c - cos q)) by ring. eapply Rle_trans; [apply Rabs_triang|]. lra. }
  assert (B2 : Rabs (val root * val s) <= 6). { rewrite Rabs_mult. pose proof (Rabs_pos (val s)). pose proof (Rabs_pos (val root)). apply Rle_trans with (549 / 100 * (101 / 100)); [apply Rmult_le_compat; lra|lra]. }
  destruct (mul_error root s FR FS) as [FM EM]; [apply BIG; lra|]. rewrite U in EM. set (m := fmul root s) in *.
  assert (EM' : Rabs (val m - q * sin q) <= 2 / 10 ^ 14). { replace (val m - q * sin q) with ((val m - val root * val s) + (val root * (val s - sin q) + (val root - q) * sin q)) by ring. eapply Rle_trans; [apply Rabs_triang|]. pose proof (Rabs_triang (val root * (val s - sin q)) ((val root - q) * sin q)) as X. rewrite !Rabs_mult in X.
    assert (Rabs (val root) * Rabs (val s - sin q) <= 6 * (2 / 10 ^ 15)) by (apply Rmult_le_compat; try apply Rabs_pos; lra). assert (Rabs (val root - q) * Rabs (sin q) <= 7 / 10 ^ 16 * 1) by (apply Rmult_le_compat; try apply Rabs_pos; lra). lra. }
  pose proof (near_from (val a) (-1 + cos q)) as A1. pose proof (near_from (val m) (q * sin q)) as M1. assert (X1 : Rabs (-1 + cos q) <= 2) by (eapply Rle_trans; [apply Rabs_triang|]; rewrite (Rabs_left (-1)) by lra; lra).
  assert (X2 : Rabs (q * sin q) <= 6) by (rewrite Rabs_mult, (Rabs_pos_eq q) by lra; pose proof (Rabs_pos (sin q)); nra). assert (B3 : Rabs (val a + val m) <= 9) by (eapply Rle_trans; [apply Rabs_triang|]; lra).
  destruct (add_error a m FA FM) as [FB EB]; [apply BIG'; lra|]. rewrite U in EB. set (b := fadd a m) in *.
  assert (EB' : Rabs (val b - (-1 + cos q + q * sin q)) <= 3 / 10 ^ 14). { replace (val b - (-1 + cos q + q * sin q)) with ((val b - (val a + val m)) + ((val a - (-1 + cos q)) + (val m - q * sin q))) by ring. eapply Rle_trans; [apply Rabs_triang|]. pose proof (Rabs_triang (val a - (-1 + cos q)) (val m - q * sin q)). lra. }
  pose proof (near_from (val b) (-1 + cos q + q * sin q)) as B4. pose proof (Rabs_triang (-1 + cos q) (q * sin q)) as B5. assert (B6 : Rabs (val (of_int 2) * val b) <= 20) by (rewrite V2, Rabs_mult, (Rabs_pos_eq 2) by lra; lra).
  destruct (mul_error (of_int 2) b F2 FB) as [FX EX]; [apply BIG; lra|]. rewrite V2 in *. rewrite U in EX. split; [exact FX|]. unfold area. fold q.
  set (x := val (fmul (of_int 2) b)) in *. replace (x - (2 * (q * sin q + cos q) - 2)) with ((x - 2 * val b) + 2 * (val b - (-1 + cos q + q * sin q))) by ring. eapply Rle_trans; [apply Rabs_triang|]. rewrite (Rabs_mult 2), (Rabs_pos_eq 2) by lra. lra.
Qed.
Lemma analytical_exists : exists r, analytical_result r.
Proof. destruct (some_cos (fsqrt (of_int 30))) as [c C]. destruct (some_sin (fsqrt (of_int 30))) as [s S]. eexists. exists c, s. split; [exact C|]. split; [exact S|reflexivity]. Qed.

Lemma thirty_steps : steps (30 * 1000000000) (100 * 1000) 300000.
Proof. split; reflexivity || discriminate. Qed.
Lemma thirty_error : sum_error 30 (30 / 300000) 300000 <= / 10 ^ 7 /\ 0 <= excess 30 (30 / 300000) <= / (2 * 10 ^ 4).
Proof.
  pose proof root_30. unfold sum_error, excess. assert (U : u = / 9007199254740992) by apply u_num. rewrite U. pose proof cos_30. pose proof (COS_bound (sqrt 30)). split; [lra|split; lra].
Qed.
Lemma area_small : Rabs (area 30 - 2) <= 20.
Proof.
  unfold area. pose proof root_30. set (q := sqrt 30) in *. pose proof (COS_bound q). pose proof (SIN_bound q). apply Rabs_le. split; nra.
Qed.
Lemma thirty x a : integrate (30 * 1000000000) (100 * 1000) x -> analytical_result a -> exists i, x = Ok i /\ flt (fabs (fsub i a)) (fdivide (of_int 1) (of_int 10000)) = true.
Proof.
  intros X A. destruct (integrate_near (30 * 1000000000) (100 * 1000) 300000 ltac:(lia) ltac:(unfold INT64_MAX; lia) thirty_steps ltac:(lia)) as [_ N]. destruct (N x X) as (i & -> & FI & E). exists i. split; [reflexivity|]. clear N X.
  cbv zeta in E. replace (IZR (30 * 1000000000) / 10 ^ 9) with 30 in E by (rewrite mult_IZR; lra). specialize (E _ (integral_exists 30 ltac:(lra))). destruct (analytical_near a A) as [FA EA]. destruct thirty_error as [T1 T2]. pose proof area_small as AS.
  set (ex := excess 30 (30 / 300000)) in *. set (se := sum_error 30 (30 / 300000) 300000) in *. set (v := area 30 - 2) in *. clearbody ex se v.
  assert (DF : Rabs (val i - val a) <= 51 / 10 ^ 6). { apply Rabs_le_inv in E. apply Rabs_le_inv in EA. apply Rabs_le. lra. }
  assert (BIG : forall x, Rabs x <= 100 -> Rabs x <= 2 ^ 1000) by (intros x X; apply Rle_trans with (1 := X); apply Rle_trans with (2 ^ 7); [lra|apply Rle_pow; [lra|apply Nat.leb_le; reflexivity]]).
  destruct (fsub_val i a FI FA) as [FS VS]; [apply no_overflow; pose proof big_1000; pose proof (BIG (val i - val a) ltac:(lra)); lra|]. pose proof (rd_any (val i - val a)) as RS. rewrite <- VS in RS. assert (U : u = / 9007199254740992) by apply u_num. rewrite U in RS. pose proof h_tiny as HT.
  destruct (of_small 1) as [F1 V1]; [lia|]. destruct (of_small 10000) as [F4 V4]; [lia|]. assert (D4 : Rabs (val (of_int 1) / val (of_int 10000)) = 1 / 10000) by (rewrite V1, V4; apply Rabs_pos_eq; lra).
  destruct (div_error (of_int 1) (of_int 10000) F1) as [FD ED]; [rewrite V4; lra|apply BIG; rewrite D4; lra|]. rewrite D4, V1, V4, U in ED.
  apply flt_val; [apply fabs_finite, FS|exact FD|]. rewrite fabs_val. pose proof (near_from (val (fsub i a)) (val i - val a)) as NF. apply Rabs_le_inv in ED. lra.
Qed.

Lemma program now : (exists written result, time_example now written result) /\ forall written result, time_example now written result ->
  ((INT64_MIN <= 10000 + now <= INT64_MAX)%Z -> result = Ok 0%Z /\ map snd written = ["Hello"; "ReSim"; "user!"]%string /\ Forall2 shows (map fst written) [100; 200; 200]%Z) /\
  (~ (INT64_MIN <= 10000 + now <= INT64_MAX)%Z -> result = UB /\ written = []).
Proof.
  unfold time_example. rewrite durations_ok, messages_are. cbn [fst snd]. destruct (in64b (10000 + now)) eqn:E.
  - apply in64b_spec in E. unfold in64 in E. split.
    + destruct analytical_exists as [a A]. destruct (integrate_near (30 * 1000000000) (100 * 1000) 300000 ltac:(lia) ltac:(unfold INT64_MAX; lia) thirty_steps ltac:(lia)) as [[x X] _].
      eexists. eexists. split; [reflexivity|]. exists (30 * 1000000000)%Z, (Ok x), a. split; [reflexivity|]. split; [exact X|]. split; [exact A|reflexivity].
    + intros written result (-> & end_time & x & a & EE & X & A & ->). split; [|tauto]. intros _. assert (EE' : end_time = (30 * 1000000000)%Z) by (vm_compute in EE; injection EE as <-; reflexivity). subst end_time.
      destruct (thirty x a X A) as (i & -> & L). cbn [obind]. rewrite L. cbn [reassert obind]. split; [reflexivity|]. split; [reflexivity|]. cbn [map fst]. repeat constructor; apply shown; lia.
  - assert (N : ~ (INT64_MIN <= 10000 + now <= INT64_MAX)%Z) by (intro X; apply in64b_spec in X; congruence). split; [exists [], UB; split; reflexivity|]. intros written result [-> ->]. split; [tauto|auto].
Qed.
