(** What rounding does to sample statistics. *)
From Coq Require Import Reals Lra Lia List Permutation Psatz.
From Flocq Require Import Core BinarySingleNaN.
From Verif Require Import Cpp FloatModel FloatSpec FloatProofs NrmSpec NrmProofs DriftProofs DriftProofs2 StatModel StatSpec StatProofs FstModel FstSpec FstProofs FstProofs2 FstProofs3.
Import ListNotations.
Local Open Scope R_scope.

(** ** Short sums *)
Lemma short_bound l s : fsum_of l s -> Forall finite l -> add_up (map Rabs (map val l)) <= 2 ^ 1000 -> (length l <= 3)%nat -> finite s /\ Rabs (val s) <= 2 * add_up (map Rabs (map val l)).
Proof.
  intros H F B L. assert (NU : INR (length l) * u <= 1) by (apply count_u; lia). destruct (sum_near l s H F B NU) as (FS & E & _). split; [exact FS|].
  replace (val s) with (add_up (map val l) + (val s - add_up (map val l))) by ring. eapply Rle_trans; [apply Rabs_triang|]. pose proof (add_up_abs (map val l)). pose proof (add_up_pos (map val l)).
  assert (INR (Nat.pred (length l)) <= INR (length l)) by (apply le_INR; lia). pose proof u_pos. assert (INR (Nat.pred (length l)) * u <= 1) by nra.
  assert (INR (Nat.pred (length l)) * u * add_up (map Rabs (map val l)) <= 1 * add_up (map Rabs (map val l))) by (apply Rmult_le_compat_r; lra). lra.
Qed.
(** Two terms have one sum, and so have up to three equal ones if doubling them is exact. *)
Lemma sum_two l s : fsum_of l s -> Forall finite l -> add_up (map Rabs (map val l)) <= 2 ^ 1000 -> (length l <= 2)%nat -> val s = rd (add_up (map val l)).
Proof.
  induction 1 as [|x|l k k' x y P K IK K' IK']; intros F B L.
  - cbn. rewrite rd_0. apply (val_int 0). discriminate.
  - cbn. rewrite Rplus_0_r, rd_id; [reflexivity|apply val_fmt].
  - assert (LP : length l = (length k + length k')%nat) by (rewrite (Permutation_length P), app_length; reflexivity).
    assert (SP : add_up (map val l) = add_up (map val k) + add_up (map val k')) by (rewrite <- add_up_app, <- map_app; apply add_up_perm, Permutation_map, P).
    assert (AP : add_up (map Rabs (map val l)) = add_up (map Rabs (map val k)) + add_up (map Rabs (map val k'))) by (rewrite <- add_up_app, <- !map_app; apply add_up_perm; do 2 apply Permutation_map; exact P).
    pose proof (add_up_pos (map val k)) as SK. pose proof (add_up_pos (map val k')) as SK'. rewrite AP in B.
    assert (FF : Forall finite (k ++ k')) by (eapply Permutation_Forall; eassumption). apply Forall_app in FF. destruct FF as [FK FK'].
    destruct (short_bound k x K FK) as [FX BX]; [lra|lia|]. destruct (short_bound k' y K' FK') as [FY BY]; [lra|lia|].
    destruct (fadd_val x y FX FY) as [_ VA]; [apply big_sum; eapply Rle_trans; [apply Rabs_triang|]; lra|]. rewrite VA, SP, (IK FK ltac:(lra) ltac:(lia)), (IK' FK' ltac:(lra) ltac:(lia)).
    assert (ONE : forall q : list f64, (length q <= 1)%nat -> rd (add_up (map val q)) = add_up (map val q)).
    { intros [|z [|z' q]] Q; [apply rd_0|cbn; rewrite Rplus_0_r; apply rd_id, val_fmt|cbn in Q; lia]. }
    destruct (Nat.le_gt_cases (length k) 1) as [C|C].
    + rewrite (ONE k C). destruct (Nat.le_gt_cases (length k') 1) as [C'|C']; [rewrite (ONE k' C'); reflexivity|]. assert (E : length k = 0%nat) by lia. destruct k; [|discriminate E]. cbn. rewrite !Rplus_0_l. apply rd_id, rd_fmt.
    + assert (E : length k' = 0%nat) by lia. destruct k'; [|discriminate E]. cbn. rewrite rd_0, !Rplus_0_r. apply rd_id, rd_fmt.
Qed.
Lemma add_up_same v l : Forall (fun x => x = v) l -> add_up (map val l) = INR (length l) * val v /\ add_up (map Rabs (map val l)) = INR (length l) * Rabs (val v).
Proof. induction 1 as [|x l -> F [IH1 IH2]]; [cbn; lra|]. cbn [map length add_up fold_right]. unfold add_up in *. rewrite IH1, IH2, S_INR. lra. Qed.
Lemma sum_same v l s : finite v -> 3 * Rabs (val v) <= 2 ^ 1000 -> rd (2 * val v) = 2 * val v -> fsum_of l s -> Forall (fun x => x = v) l -> (length l <= 3)%nat -> val s = rd (INR (length l) * val v).
Proof.
  intros FV BV D. induction 1 as [|x|l k k' x y P K IK K' IK']; intros F L.
  - cbn. rewrite Rmult_0_l, rd_0. apply (val_int 0). discriminate.
  - inversion F; subst. cbn. rewrite Rmult_1_l, rd_id; [reflexivity|apply val_fmt].
  - assert (LP : length l = (length k + length k')%nat) by (rewrite (Permutation_length P), app_length; reflexivity).
    assert (FF : Forall (fun x => x = v) (k ++ k')) by (eapply Permutation_Forall; eassumption). apply Forall_app in FF. destruct FF as [FK FK'].
    assert (FIN : forall q, Forall (fun x => x = v) q -> Forall finite q) by (intros q Q; eapply Forall_impl; [|exact Q]; cbn; intros ? ->; exact FV). pose proof (Rabs_pos (val v)) as VP.
    assert (SZ : forall q, Forall (fun x => x = v) q -> (length q <= 3)%nat -> add_up (map Rabs (map val q)) <= 2 ^ 1000).
    { intros q Q LQ. rewrite (proj2 (add_up_same v q Q)). assert (INR (length q) <= 3) by (replace 3 with (INR 3) by (cbn; lra); apply le_INR; exact LQ). nra. }
    destruct (short_bound k x K (FIN _ FK) (SZ _ FK ltac:(lia)) ltac:(lia)) as [FX BX]. destruct (short_bound k' y K' (FIN _ FK') (SZ _ FK' ltac:(lia)) ltac:(lia)) as [FY BY].
    pose proof (SZ k FK ltac:(lia)). pose proof (SZ k' FK' ltac:(lia)).
    destruct (fadd_val x y FX FY) as [_ VA]; [apply big_sum; eapply Rle_trans; [apply Rabs_triang|]; lra|]. rewrite VA, (IK FK ltac:(lia)), (IK' FK' ltac:(lia)), LP, plus_INR.
    assert (EX : forall i, (i <= 2)%nat -> rd (INR i * val v) = INR i * val v).
    { intros [|[|[|i]]] I; [cbn; rewrite Rmult_0_l; apply rd_0|cbn; rewrite Rmult_1_l; apply rd_id, val_fmt|exact D|lia]. }
    destruct (Nat.le_gt_cases (length k) 2) as [C|C].
    + rewrite (EX _ C). destruct (Nat.le_gt_cases (length k') 2) as [C'|C']; [rewrite (EX _ C'); f_equal; ring|]. assert (E : length k = 0%nat) by lia. rewrite E. cbn [INR]. rewrite !Rmult_0_l, !Rplus_0_l. apply rd_id, rd_fmt.
    + assert (E : length k' = 0%nat) by lia. rewrite E. cbn [INR]. rewrite Rmult_0_l, rd_0, !Rplus_0_r. apply rd_id, rd_fmt.
Qed.

(** ** Equal samples *)
Definition equal_samples (n : nat) (v : f64) : fmatrix := FMatrix n 1 (fun _ _ => v).
Lemma same_column n v : Forall (fun x => x = v) (map (fun i => fentry (equal_samples n v) i 0) (seq 0 n)).
Proof. rewrite Forall_map, Forall_forall. intros. reflexivity. Qed.
Definition big_value : f64 := of_int 6004799503160662.
Lemma big_value_val : finite big_value /\ val big_value = 6004799503160662.
Proof. apply (of_small 6004799503160662). discriminate. Qed.
Lemma triple : rd (3 * 6004799503160662) = 18014398509481984 /\ rd (2 * 6004799503160662) = 2 * 6004799503160662 /\ rd (18014398509481984 / 3) = 6004799503160661.
Proof.
  destruct big_value_val as [F V]. destruct (of_small 3) as [F3 V3]; [discriminate|]. destruct (of_small 2) as [F2 V2]; [discriminate|].
  destruct (fmul_val (of_int 3) big_value F3 F) as [FM VM]; [rewrite V3, V; apply pow_1023_big; rewrite Rabs_pos_eq by lra; lra|].
  destruct (fmul_val (of_int 2) big_value F2 F) as [FN VN]; [rewrite V2, V; apply pow_1023_big; rewrite Rabs_pos_eq by lra; lra|].
  assert (S3 : val (fmul (of_int 3) big_value) = 18014398509481984).
  { rewrite val_sf. replace (B2SF (fmul (of_int 3) big_value)) with (SpecFloat.S754_finite false 4503599627370496 2) by (vm_compute; reflexivity). rewrite sf_value. cbn. lra. }
  assert (S2 : val (fmul (of_int 2) big_value) = 2 * 6004799503160662).
  { rewrite val_sf. replace (B2SF (fmul (of_int 2) big_value)) with (SpecFloat.S754_finite false 6004799503160662 1) by (vm_compute; reflexivity). rewrite sf_value. cbn. lra. }
  destruct (fdiv_val (fmul (of_int 3) big_value) (of_int 3) FM) as [FQ VQ]; [rewrite V3; lra|rewrite V3, S3; apply pow_1023_big; rewrite Rabs_pos_eq by lra; lra|].
  assert (SQ : val (fdivide (fmul (of_int 3) big_value) (of_int 3)) = 6004799503160661).
  { rewrite val_sf. replace (B2SF (fdivide (fmul (of_int 3) big_value) (of_int 3))) with (SpecFloat.S754_finite false 6004799503160661 0) by (vm_compute; reflexivity). rewrite sf_value. cbn. lra. }
  rewrite V3, V, S3 in VM. rewrite V2, V, S2 in VN. rewrite V3, S3, SQ in VQ. auto.
Qed.
Lemma pow_1000_big x : x <= 2 ^ 100 -> x <= 2 ^ 1000.
Proof. intro H. apply Rle_trans with (1 := H). apply Rle_pow; [lra|]. apply Nat.leb_le. reflexivity. Qed.
Lemma equal_mean : forall m, fmean (equal_samples 3 big_value) (Ok m) -> val (fcoef m 0) = 6004799503160661 /\ finite (fcoef m 0).
Proof.
  intros m (r & R & E). destruct big_value_val as [F V]. destruct triple as (T3 & T2 & T1).
  destruct r as [g| |]; [|discriminate E..]. injection E as ->. cbn [fcoef]. destruct (means_of (equal_samples 3 big_value) g ltac:(cbn; lia) R 0%nat ltac:(cbn; lia)) as (s & S & ->). cbn [equal_samples frows] in S |- *.
  assert (B : 3 * Rabs (val big_value) <= 2 ^ 1000) by (apply pow_1000_big; rewrite V, Rabs_pos_eq by lra; lra).
  assert (VS : val s = 18014398509481984) by (rewrite (sum_same big_value _ s F B ltac:(rewrite V; exact T2) S (same_column 3 big_value) ltac:(cbn; lia)); cbn [map seq length]; rewrite V; replace (INR 3) with 3 by (cbn; lra); exact T3).
  assert (FS : finite s).
  { apply (short_bound _ s S); [..|cbn; lia]; [rewrite Forall_forall; cbn; intros x [<-|[<-|[<-|[]]]]; exact F|]. rewrite (proj2 (add_up_same big_value _ (same_column 3 big_value))). cbn [map seq length]. replace (INR 3) with 3 by (cbn; lra). exact B. }
  destruct (of_small 3) as [F3 V3]; [discriminate|]. change (Z.of_nat 3) with 3%Z. destruct (fdiv_val s (of_int 3) FS) as [FD VD]; [rewrite V3; lra|rewrite V3, VS; apply pow_1023_big; rewrite Rabs_pos_eq by lra; lra|].
  rewrite VD, VS, V3. split; [exact T1|exact FD].
Qed.
Lemma equal_covariance : forall c, fcovariance (equal_samples 3 big_value) (Ok c) -> val (fentry c 0 0) = 3 / 2.
Proof.
  intros c H. destruct big_value_val as [F V]. unfold fcovariance in H. cbn [equal_samples frows fcols] in H. change (to_unsigned 3) with 3%Z in H. change (1 <? 3)%Z with true in H. cbv iota zeta in H. destruct H as (r & R & H). destruct r as [m| |]; [|discriminate H..].
  destruct H as (c' & E & H). injection E as ->. cbn [fentry]. destruct (H 0%nat 0%nat ltac:(lia) ltac:(lia)) as (s & S & ->). change (3 - 1)%Z with 2%Z.
  destruct (equal_mean (FVector 1 m)) as [VM FM]; [exists (Ok m); split; [exact R|reflexivity]|]. cbn [fcoef] in VM, FM.
  destruct (fsub_val big_value (m 0%nat) F FM) as [FZ VZ]; [rewrite V, VM; apply pow_1023_big; rewrite Rabs_pos_eq by lra; lra|]. rewrite V, VM in VZ. replace (6004799503160662 - 6004799503160661) with 1 in VZ by lra.
  assert (R1 : rd 1 = 1) by (apply (rd_int 1); discriminate). rewrite R1 in VZ. destruct (fmul_val _ _ FZ FZ) as [FP VP]; [rewrite VZ; apply pow_1023_big; rewrite Rabs_pos_eq by lra; lra|]. rewrite VZ, Rmult_1_l, R1 in VP.
  set (p := fmul (fsub big_value (m 0%nat)) (fsub big_value (m 0%nat))) in *. change (fsum_of (map (fun _ : nat => p) (seq 0 3)) s) in S.
  assert (VS : val s = 3 /\ finite s).
  { assert (FO : Forall (fun x => x = p) (map (fun _ : nat => p) (seq 0 3))) by (rewrite Forall_map, Forall_forall; reflexivity). split.
    - rewrite (sum_same p _ s FP ltac:(apply pow_1000_big; rewrite VP, Rabs_pos_eq by lra; lra) ltac:(rewrite VP, Rmult_1_r; apply (rd_int 2); discriminate) S FO ltac:(cbn; lia)). cbn [map seq length]. rewrite VP. replace (INR 3 * 1) with 3 by (cbn; lra). apply (rd_int 3). discriminate.
    - apply (short_bound _ s S); [..|cbn; lia]; [rewrite Forall_forall; cbn; intros x [<-|[<-|[<-|[]]]]; exact FP|]. rewrite (proj2 (add_up_same p _ FO)), VP, Rabs_pos_eq by lra. apply pow_1000_big. cbn. lra. }
  destruct VS as [VS FS]. destruct (of_small 2) as [F2 V2]; [discriminate|]. destruct (fdiv_val s (of_int 2) FS) as [_ VD]; [rewrite V2; lra|rewrite V2, VS; apply pow_1023_big; rewrite Rabs_pos_eq by lra; lra|].
  rewrite VD, VS, V2. replace (3 / 2) with (F2R (Float radix2 3 (-1))) by (unfold F2R; cbn; lra). apply rd_id. apply generic_format_FLT. exists (Float radix2 3 (-1)); [reflexivity|reflexivity|discriminate].
Qed.

(** ** A pair of samples whose covariance is refused *)
Definition pair_samples : fmatrix := FMatrix 2 2 (fun k j => of_int ((if (k =? 0)%nat then 1 else -1) * (if (j =? 0)%nat then 536870917 else 536870921))).
Lemma pair_value k j : finite (fentry pair_samples k j) /\ val (fentry pair_samples k j) = (if (k =? 0)%nat then 1 else -1) * (if (j =? 0)%nat then 536870917 else 536870921).
Proof. cbn [pair_samples fentry]. destruct (k =? 0)%nat, (j =? 0)%nat; match goal with |- context [of_int ?z] => destruct (of_small z) as [F V]; [discriminate|]; rewrite V end; (split; [exact F|cbn; lra]). Qed.
Lemma pair_mean m : fcolwise_mean pair_samples (Ok m) -> forall j, (j < 2)%nat -> finite (m j) /\ val (m j) = 0.
Proof.
  intros R j J. destruct (means_of pair_samples m ltac:(cbn; lia) R j J) as (s & S & ->). cbn [pair_samples frows] in S |- *. fold pair_samples in S. destruct (pair_value 0 j) as [F0 V0]. destruct (pair_value 1 j) as [F1 V1]. cbn [Nat.eqb] in V0, V1.
  set (w := if (j =? 0)%nat then 536870917 else 536870921) in *. assert (W : 0 <= w <= 536870921) by (unfold w; destruct (j =? 0)%nat; lra).
  change (fsum_of [fentry pair_samples 0 j; fentry pair_samples 1 j] s) in S. assert (FF : Forall finite [fentry pair_samples 0 j; fentry pair_samples 1 j]) by (repeat constructor; assumption).
  assert (B : add_up (map Rabs (map val [fentry pair_samples 0 j; fentry pair_samples 1 j])) <= 2 ^ 1000).
  { apply pow_1000_big. cbn [map add_up fold_right]. rewrite V0, V1, !Rabs_mult, (Rabs_pos_eq w), (Rabs_pos_eq 1), (Rabs_left (-1)) by lra. lra. }
  assert (VS : val s = 0). { rewrite (sum_two _ s S FF B ltac:(cbn; lia)). cbn [map add_up fold_right]. rewrite V0, V1. replace (1 * w + (-1 * w + 0)) with 0 by ring. apply rd_0. }
  destruct (short_bound _ s S FF B ltac:(cbn; lia)) as [FS _]. destruct (of_small 2) as [F2 V2]; [discriminate|]. change (Z.of_nat 2) with 2%Z.
  destruct (fdiv_val s (of_int 2) FS) as [FD VD]; [rewrite V2; lra|rewrite V2, VS; apply pow_1023_big; unfold Rdiv; rewrite Rmult_0_l, Rabs_R0; apply pow_le; lra|]. split; [exact FD|]. rewrite VD, VS. unfold Rdiv. rewrite Rmult_0_l. apply rd_0.
Qed.
(** The entries: twice the rounded products. *)
Definition pair_entry (i j : nat) : R := if (i =? 0)%nat then (if (j =? 0)%nat then 576460763040841728 else 576460767335809152) else (if (j =? 0)%nat then 576460767335809152 else 576460771630776448).
Lemma pair_rounded i j : rd ((if (i =? 0)%nat then 536870917 else 536870921) * (if (j =? 0)%nat then 536870917 else 536870921)) = pair_entry i j / 2 /\ rd (pair_entry i j) = pair_entry i j.
Proof.
  assert (R1 : forall (p q : Z) m e, (0 <= p <= 2 ^ 30)%Z -> (0 <= q <= 2 ^ 30)%Z -> B2SF (fmul (of_int p) (of_int q)) = SpecFloat.S754_finite false m e -> rd (IZR p * IZR q) = IZR (Zpos m) * bpow radix2 e).
  { intros p q m e P Q E. destruct (of_small p) as [FP VP]; [lia|]. destruct (of_small q) as [FQ VQ]; [lia|]. destruct (fmul_val _ _ FP FQ) as [_ V].
    - rewrite VP, VQ, <- mult_IZR. apply int_no_overflow. rewrite Z.abs_mul, !Z.abs_eq by lia. apply Z.le_trans with (2 ^ 30 * 2 ^ 30)%Z; [apply Z.mul_le_mono_nonneg; lia|discriminate].
    - rewrite VP, VQ in V. rewrite <- V, val_sf, E. apply sf_value. }
  assert (R2 : forall m e, (Z.abs m < 2 ^ 53)%Z -> (0 <= e)%Z -> rd (IZR m * bpow radix2 e) = IZR m * bpow radix2 e).
  { intros m e M E. apply rd_id. apply generic_format_FLT. exists (Float radix2 m e); [reflexivity|exact M|cbn; lia]. }
  unfold pair_entry. destruct (i =? 0)%nat, (j =? 0)%nat.
  - split; [rewrite (R1 536870917%Z 536870917%Z 4503599711256576%positive 6%Z) by (lia || (vm_compute; reflexivity)); cbn; lra|]. replace 576460763040841728 with (IZR 4503599711256576 * bpow radix2 7) by (cbn; lra). apply R2; lia.
  - split; [rewrite (R1 536870917%Z 536870921%Z 4503599744811009%positive 6%Z) by (lia || (vm_compute; reflexivity)); cbn; lra|]. replace 576460767335809152 with (IZR 4503599744811009 * bpow radix2 7) by (cbn; lra). apply R2; lia.
  - split; [rewrite (R1 536870921%Z 536870917%Z 4503599744811009%positive 6%Z) by (lia || (vm_compute; reflexivity)); cbn; lra|]. replace 576460767335809152 with (IZR 4503599744811009 * bpow radix2 7) by (cbn; lra). apply R2; lia.
  - split; [rewrite (R1 536870921%Z 536870921%Z 4503599778365441%positive 6%Z) by (lia || (vm_compute; reflexivity)); cbn; lra|]. replace 576460771630776448 with (IZR 4503599778365441 * bpow radix2 7) by (cbn; lra). apply R2; lia.
Qed.
Lemma pair_covariance c : fcovariance pair_samples (Ok c) -> frows c = 2%nat /\ fcols c = 2%nat /\ forall i j, (i < 2)%nat -> (j < 2)%nat -> val (fentry c i j) = pair_entry i j.
Proof.
  intro H. unfold fcovariance in H. change (frows pair_samples) with 2%nat in H. change (fcols pair_samples) with 2%nat in H. change (to_unsigned 2) with 2%Z in H. change (1 <? 2)%Z with true in H. cbv iota zeta in H. destruct H as (r & R & H). destruct r as [m| |]; [|discriminate H..].
  destruct H as (c' & E & H). injection E as ->. split; [reflexivity|]. split; [reflexivity|]. intros i j I J. cbn [fentry]. destruct (H i j I J) as (s & S & ->). change (2 - 1)%Z with 1%Z.
  set (w i := if (i =? 0)%nat then 536870917 else 536870921). assert (W : forall i, 536870917 <= w i <= 536870921) by (intro q; unfold w; destruct (q =? 0)%nat; lra).
  assert (RW : forall q, rd (w q) = w q) by (intro q; unfold w; destruct (q =? 0)%nat; [apply (rd_int 536870917)|apply (rd_int 536870921)]; discriminate).
  assert (Z : forall k q, (q < 2)%nat -> finite (fsub (fentry pair_samples k q) (m q)) /\ val (fsub (fentry pair_samples k q) (m q)) = (if (k =? 0)%nat then 1 else -1) * w q).
  { intros k q Q. destruct (pair_mean m R q Q) as [FM VM]. destruct (pair_value k q) as [FK VK]. fold (w q) in VK. pose proof (W q) as WQ.
    assert (RE : rd ((if (k =? 0)%nat then 1 else -1) * w q) = (if (k =? 0)%nat then 1 else -1) * w q) by (destruct (k =? 0)%nat; [rewrite Rmult_1_l; apply RW|replace (-1 * w q) with (- w q) by ring; rewrite rd_opp, RW; reflexivity]).
    destruct (fsub_val _ _ FK FM) as [FZ VZ]; [rewrite VK, VM, Rminus_0_r; apply pow_1023_big; destruct (k =? 0)%nat; [rewrite Rmult_1_l, Rabs_pos_eq by lra|replace (-1 * w q) with (- w q) by ring; rewrite Rabs_Ropp, Rabs_pos_eq by lra]; lra|]. rewrite VK, VM, Rminus_0_r, RE in VZ. auto. }
  destruct (pair_rounded i j) as [R1 R2]. fold (w i) (w j) in R1.
  assert (PE : 0 <= pair_entry i j <= 576460771630776448) by (unfold pair_entry; destruct (i =? 0)%nat, (j =? 0)%nat; lra).
  assert (P : forall k, finite (fmul (fsub (fentry pair_samples k i) (m i)) (fsub (fentry pair_samples k j) (m j))) /\ val (fmul (fsub (fentry pair_samples k i) (m i)) (fsub (fentry pair_samples k j) (m j))) = pair_entry i j / 2).
  { intro k. destruct (Z k i I) as [FI VI]. destruct (Z k j J) as [FJ VJ]. pose proof (W i). pose proof (W j).
    assert (E : val (fsub (fentry pair_samples k i) (m i)) * val (fsub (fentry pair_samples k j) (m j)) = w i * w j) by (rewrite VI, VJ; destruct (k =? 0)%nat; ring).
    destruct (fmul_val _ _ FI FJ) as [FP VP]; [rewrite E; apply pow_1023_big; rewrite Rabs_pos_eq by nra; nra|]. rewrite E, R1 in VP. auto. }
  set (p k := fmul (fsub (fentry pair_samples k i) (m i)) (fsub (fentry pair_samples k j) (m j))). change (forall k, finite (p k) /\ val (p k) = pair_entry i j / 2) in P. change (fsum_of [p 0%nat; p 1%nat] s) in S.
  assert (FF : Forall finite [p 0%nat; p 1%nat]) by (repeat constructor; apply P).
  assert (B : add_up (map Rabs (map val [p 0%nat; p 1%nat])) <= 2 ^ 1000) by (apply pow_1000_big; cbn [map add_up fold_right]; rewrite !(proj2 (P _)), Rabs_pos_eq by lra; lra).
  assert (VS : val s = pair_entry i j) by (rewrite (sum_two _ s S FF B ltac:(cbn; lia)); cbn [map add_up fold_right]; rewrite !(proj2 (P _)); replace (pair_entry i j / 2 + (pair_entry i j / 2 + 0)) with (pair_entry i j) by lra; exact R2).
  destruct (short_bound _ s S FF B ltac:(cbn; lia)) as [FS _]. destruct (of_small 1) as [F1 V1]; [discriminate|]. destruct (fdiv_val s (of_int 1) FS) as [FD VD]; [rewrite V1; lra|rewrite V1, VS; apply pow_1023_big; rewrite Rabs_pos_eq by lra; lra|].
  rewrite VD, VS, V1. replace (pair_entry i j / 1) with (pair_entry i j) by lra. exact R2.
Qed.

(** Symmetric matrices of size two have orthonormal eigenvectors. *)
Lemma two_by_two (f : nat -> nat -> R) : f 0%nat 1%nat = f 1%nat 0%nat -> f 0%nat 1%nat <> 0 -> exists s, info s = Success /\ decomposes 2 f s.
Proof.
  intros S NZ. set (a := f 0%nat 0%nat). set (b := f 1%nat 1%nat). set (c := f 0%nat 1%nat) in *. set (D := sqrt ((a - b) * (a - b) + 4 * (c * c))). set (l := (a + b + D) / 2).
  pose proof (Rle_0_sqr (a - b)) as P1. pose proof (Rlt_0_sqr c NZ) as P2. unfold Rsqr in P1, P2. assert (DD : D * D = (a - b) * (a - b) + 4 * (c * c)) by (apply sqrt_sqrt; lra).
  assert (L : (l - a) * (l - b) = c * c) by (replace ((l - a) * (l - b)) with ((D * D - (a - b) * (a - b)) / 4) by (unfold l; field); rewrite DD; field).
  set (q := c * c + (l - a) * (l - a)). pose proof (Rle_0_sqr (l - a)) as P3. unfold Rsqr in P3. assert (QP : 0 < q) by (unfold q; lra). set (r := sqrt q). assert (RR : r * r = q) by (apply sqrt_sqrt; lra). assert (RP : 0 < r) by (apply sqrt_lt_R0, QP).
  exists (Solution Success (Vector 2 (fun j => if (j =? 0)%nat then l else a + b - l)) (Matrix 2 2 (fun i j => if (j =? 0)%nat then (if (i =? 0)%nat then c / r else (l - a) / r) else (if (i =? 0)%nat then - (l - a) / r else c / r)))).
  split; [reflexivity|]. split; [reflexivity|]. split; [reflexivity|]. split; [reflexivity|]. cbn [values vectors coef entry].
  assert (c0 : f 1%nat 0%nat = c) by (unfold c; symmetry; exact S).
  assert (RI : q / (r * r) = 1) by (rewrite RR; field; lra).
  split; [|split]; intros i j I J; (destruct i as [|[|i]]; [| |lia]); (destruct j as [|[|j]]; [| |lia]); cbn [total Nat.eqb]; unfold unit_entry; cbn [Nat.eqb]; rewrite ?c0; fold a; fold b; fold c.
  - field. lra.
  - replace (0 + a * (- (l - a) / r) + c * (c / r)) with ((c * c - a * (l - a)) / r) by (field; lra). rewrite <- L. field. lra.
  - replace (0 + c * (c / r) + b * ((l - a) / r)) with ((c * c + b * (l - a)) / r) by (field; lra). rewrite <- L. field. lra.
  - field. lra.
  - rewrite <- RI. unfold q. field. lra.
  - field. lra.
  - field. lra.
  - rewrite <- RI. unfold q. field. lra.
  - rewrite <- RI. unfold q. field. lra.
  - field. lra.
  - field. lra.
  - rewrite <- RI. unfold q. field. lra.
Qed.
Lemma pair_refused : forall c, fcovariance pair_samples (Ok c) -> form 2 (entry (holds c)) (fun i => if (i =? 0)%nat then 1 else -1) = -128 /\
  (exists solve, info (solve (holds c)) = Success /\ decomposes 2 (lower (holds c)) (solve (holds c))) /\
  forall G solve v, size v = 2%nat -> info (solve (holds c)) <> NumericalIssue -> decomposes 2 (lower (holds c)) (solve (holds c)) -> make_gaussian G solve v (holds c) = Throw.
Proof.
  intros c H. destruct (pair_covariance c H) as (R & C & V). assert (E : forall i j, (i < 2)%nat -> (j < 2)%nat -> entry (holds c) i j = pair_entry i j) by exact V.
  assert (FORM : form 2 (entry (holds c)) (fun i => if (i =? 0)%nat then 1 else -1) = -128) by (unfold form; cbn [total Nat.eqb]; rewrite !E by lia; unfold pair_entry; cbn [Nat.eqb]; lra). split; [exact FORM|]. split.
  - destruct (two_by_two (lower (holds c))) as (s & S & D); [reflexivity|unfold lower; cbn [Nat.max Nat.min]; rewrite E by lia; unfold pair_entry; cbn [Nat.eqb]; lra|]. exists (fun _ => s). auto.
  - intros G solve v SV NI D. destruct (construction G solve v (holds c)) as (_ & _ & A); [rewrite SV; reflexivity|]. set (t := (576460771630776448 - 576460763040841728) / 10 ^ 15).
    assert (T : tolerance (holds c) t).
    { exists 0%nat, 0%nat, 1%nat, 1%nat. cbn [holds rows cols]. rewrite R, C. split; [lia|]. split; [lia|]. split; [lia|]. split; [lia|]. split.
      - intros p q P Q. fold (holds c). change (entry (holds c) 0 0 <= entry (holds c) p q <= entry (holds c) 1 1). rewrite !E by lia. unfold pair_entry. cbn [Nat.eqb]. destruct (p =? 0)%nat, (q =? 0)%nat; lra.
      - right. change (t = (entry (holds c) 1 1 - entry (holds c) 0 0) / 10 ^ 15 /\ 1 <= entry (holds c) 1 1 - entry (holds c) 0 0). rewrite !E by lia. unfold pair_entry. cbn [Nat.eqb]. split; [reflexivity|lra]. }
    destruct (A t) as [_ N]; [split; cbn; congruence|lia|exact NI|rewrite SV; exact D|exact T|]. apply N. intros [_ Q]. specialize (Q (fun i => if (i =? 0)%nat then 1 else -1)). rewrite SV in Q.
    assert (LOW : form 2 (lower (holds c)) (fun i => if (i =? 0)%nat then 1 else -1) = -128) by (unfold form, lower; cbn [total Nat.eqb Nat.max Nat.min]; rewrite !E by lia; unfold pair_entry; cbn [Nat.eqb]; lra).
    rewrite LOW in Q. unfold square in Q. cbn [total Nat.eqb] in Q. assert (t <= 1) by (unfold t; lra). lra.
Qed.
Lemma pair_fits : all_finite pair_samples /\ no_bigger (2 ^ 480) pair_samples.
Proof.
  split; intros i j I J; destruct (pair_value i j) as [F V]; [exact F|]. rewrite V. destruct b480 as [_ B]. apply Rle_trans with (2 ^ 100).
  - rewrite Rabs_mult. destruct (i =? 0)%nat, (j =? 0)%nat; rewrite ?(Rabs_left (-1)), ?(Rabs_pos_eq 1), Rabs_pos_eq by lra; lra.
  - apply Rle_pow; [lra|]. apply Nat.leb_le. reflexivity.
Qed.

(** ** Cases *)
Definition three_samples : fmatrix := FMatrix 3 1 (fun k _ => of_int (match k with 0%nat => 1 | 1%nat => 4 | _ => -2 end)).
Lemma three_value k j : finite (fentry three_samples k j) /\ val (fentry three_samples k j) = match k with 0%nat => 1 | 1%nat => 4 | _ => -2 end.
Proof. cbn [three_samples fentry]. destruct k as [|[|k]]; apply of_small; discriminate. Qed.
Lemma three_fits : all_finite three_samples /\ no_bigger 4 three_samples.
Proof. split; intros i j I J; destruct (three_value i j) as [F V]; [exact F|]. rewrite V. destruct i as [|[|i]]; [rewrite Rabs_pos_eq by lra|rewrite Rabs_pos_eq by lra|rewrite Rabs_left by lra]; lra. Qed.
Lemma tiny_small : 0 < tiny <= / 10 ^ 30.
Proof. rewrite tiny_h. split; [apply h_pos|]. apply Rle_trans with (bpow radix2 (-100)); [apply bpow_le; lia|]. cbn. lra. Qed.
Lemma three_numbers : column_mean (holds three_samples) 0 = 1 /\ pairwise_covariance (holds three_samples) 0 0 = 9 /\ mean_error (holds three_samples) 0 <= 2 / 10 ^ 15 /\
  2 * (mean_error (holds three_samples) 0 * mean_error (holds three_samples) 0) + (INR 3 + 4) * u * (widened (holds three_samples) 0 * widened (holds three_samples) 0) + 4 * tiny <= 8 / 10 ^ 15.
Proof.
  assert (M : column_mean (holds three_samples) 0 = 1) by (unfold column_mean, average; cbn [holds rows entry frows three_samples total]; fold three_samples; rewrite !(fun k => proj2 (three_value k 0)); cbn; lra).
  assert (P : pairwise_covariance (holds three_samples) 0 0 = 9) by (unfold pairwise_covariance; cbn [holds rows entry frows three_samples total]; fold three_samples; rewrite !(fun k => proj2 (three_value k 0)); cbn; lra).
  assert (G : magnitude (holds three_samples) 0 = 7 / 3).
  { unfold magnitude, average. cbn [holds rows entry frows three_samples total]. fold three_samples. rewrite !(fun k => proj2 (three_value k 0)). rewrite (Rabs_pos_eq 1), (Rabs_pos_eq 4), (Rabs_left (-2)) by lra. cbn. lra. }
  destruct tiny_small as [T0 T]. assert (EM : mean_error (holds three_samples) 0 <= 2 / 10 ^ 15) by (unfold mean_error; rewrite G; cbn [holds rows frows three_samples]; rewrite u_num; cbn [INR]; lra).
  assert (M0 : 0 < mean_error (holds three_samples) 0) by (apply mean_error_pos; cbn; lia).
  assert (D : deviation (holds three_samples) 0 = 3) by (unfold deviation; rewrite P; replace 9 with (3 * 3) by lra; apply sqrt_square; lra).
  split; [exact M|]. split; [exact P|]. split; [exact EM|]. assert (W : 0 <= widened (holds three_samples) 0 <= 3 + / 10 ^ 10) by (unfold widened; rewrite D; lra). rewrite u_num. cbn [INR]. nra.
Qed.

Definition half_samples : fmatrix := FMatrix 2 2 (fun k j => double (if (k =? 0)%nat then 1 else -1) (if (j =? 0)%nat then -1 else -2)).
Lemma half_value k j : finite (fentry half_samples k j) /\ val (fentry half_samples k j) = (if (k =? 0)%nat then 1 else -1) * (if (j =? 0)%nat then / 2 else / 4).
Proof.
  cbn [half_samples fentry]. split; [destruct (k =? 0)%nat, (j =? 0)%nat; vm_compute; reflexivity|].
  rewrite val_sf. destruct (k =? 0)%nat, (j =? 0)%nat; (etransitivity; [apply f_equal; vm_compute; reflexivity|]); rewrite sf_value; cbn; lra.
Qed.
Lemma half_fits : all_finite half_samples /\ no_bigger 1 half_samples.
Proof. split; intros i j I J; destruct (half_value i j) as [F V]; [exact F|]. rewrite V, Rabs_mult. destruct (i =? 0)%nat, (j =? 0)%nat; rewrite ?(Rabs_left (-1)), ?(Rabs_pos_eq 1), Rabs_pos_eq by lra; lra. Qed.
Lemma fits_480 b a : b <= 4 -> no_bigger b a -> no_bigger (2 ^ 480) a.
Proof. intros B H i j I J. apply Rle_trans with (1 := H i j I J). apply Rle_trans with (2 ^ 2); [lra|]. apply Rle_pow; [lra|]. apply Nat.leb_le. reflexivity. Qed.
Lemma half_accepted : exists c t solve, fcovariance half_samples (Ok c) /\ near_symmetric (holds c) /\ tolerance (holds c) t /\ info (solve (holds c)) <> NumericalIssue /\ decomposes 2 (lower (holds c)) (solve (holds c)) /\
  (INR 2 + 4) * u * total 2 (fun i => widened (holds half_samples) i * widened (holds half_samples) i) + 4 * tiny * INR 2 < t /\ / 5 <= entry (holds c) 0 1.
Proof.
  destruct half_fits as [F B]. destruct (covariance_near half_samples) as [_ C]; [reflexivity|]. destruct (C ltac:(cbn; lia) F (fits_480 1 _ ltac:(lra) B)) as [[c X] Y]. destruct (Y _ X) as (c' & E & R & Q & _ & V). injection E as <-. exists c, (/ 10 ^ 15).
  cbn [half_samples fcols frows] in R, Q, V. fold half_samples in V. set (s := holds half_samples) in *. change (holds {| frows := 2; fcols := 2; fentry := fentry half_samples |}) with s in V.
  assert (P : forall i j, pairwise_covariance s i j = 2 * ((if (i =? 0)%nat then / 2 else / 4) * (if (j =? 0)%nat then / 2 else / 4))).
  { intros i j. unfold pairwise_covariance, s. cbn [holds rows entry total]. change (frows half_samples) with 2%nat. cbn [total]. rewrite !(fun k j => proj2 (half_value k j)). cbn [Nat.eqb INR]. destruct (i =? 0)%nat, (j =? 0)%nat; lra. }
  assert (G : forall j, 0 <= magnitude s j <= 1).
  { intro j. unfold magnitude, average, s. cbn [holds rows entry total]. change (frows half_samples) with 2%nat. cbn [total]. rewrite !(fun k j => proj2 (half_value k j)). cbn [Nat.eqb INR]. destruct (j =? 0)%nat; rewrite !Rabs_mult, (Rabs_pos_eq 1), (Rabs_left (-1)), ?(Rabs_pos_eq (/ 2)), ?(Rabs_pos_eq (/ 4)) by lra; lra. }
  destruct tiny_small as [T0 T]. assert (EM : forall j, 0 < mean_error s j <= / 10 ^ 14).
  { intro j. split; [apply mean_error_pos; cbn; lia|]. unfold mean_error. change (rows s) with 2%nat. rewrite u_num. cbn [INR]. pose proof (G j). nra. }
  assert (D : forall j, deviation s j * deviation s j = if (j =? 0)%nat then / 2 else / 8) by (intro j; unfold deviation; rewrite sqrt_sqrt by (apply variance_pos; cbn; lia); rewrite P; destruct (j =? 0)%nat; lra).
  assert (D0 : forall j, 0 <= deviation s j <= 1) by (intro j; split; [apply sqrt_pos|]; pose proof (D j); assert (0 <= deviation s j) by apply sqrt_pos; destruct (j =? 0)%nat; nra).
  assert (W : forall j, 0 <= widened s j /\ widened s j * widened s j <= (if (j =? 0)%nat then / 2 else / 8) + / 10 ^ 10).
  { intro j. pose proof (EM j). pose proof (D0 j). pose proof (D j). unfold widened. split; [lra|]. destruct (j =? 0)%nat; nra. }
  assert (W1 : forall j, widened s j <= 1 + / 10 ^ 10) by (intro j; unfold widened; pose proof (EM j); pose proof (D0 j); lra).
  assert (WW : forall i j, 0 <= widened s i * widened s j <= 2) by (intros i j; pose proof (W1 i); pose proof (W1 j); pose proof (proj1 (W i)); pose proof (proj1 (W j)); nra).
  assert (EV : forall i j, (i < 2)%nat -> (j < 2)%nat -> Rabs (entry (holds c) i j - pairwise_covariance s i j) <= / 10 ^ 14 /\ Rabs (entry (holds c) i j - entry (holds c) j i) <= / 10 ^ 14).
  { intros i j I J. destruct (V i j I J) as (V1 & V2 & _). pose proof (EM i). pose proof (EM j). pose proof (WW i j). change (entry (holds c) i j) with (val (fentry c i j)). change (entry (holds c) j i) with (val (fentry c j i)). rewrite u_num in V1, V2. cbn [INR] in V1, V2. split; nra. }
  assert (N01 : / 4 - / 10 ^ 14 <= entry (holds c) 0 1 <= / 4 + / 10 ^ 14) by (pose proof (proj1 (EV 0%nat 1%nat ltac:(lia) ltac:(lia))) as A; rewrite P in A; cbn [Nat.eqb] in A; apply Rabs_le_inv in A; lra).
  assert (N10 : / 4 - / 10 ^ 14 <= entry (holds c) 1 0 <= / 4 + / 10 ^ 14) by (pose proof (proj1 (EV 1%nat 0%nat ltac:(lia) ltac:(lia))) as A; rewrite P in A; cbn [Nat.eqb] in A; apply Rabs_le_inv in A; lra).
  assert (N00 : / 2 - / 10 ^ 14 <= entry (holds c) 0 0 <= / 2 + / 10 ^ 14) by (pose proof (proj1 (EV 0%nat 0%nat ltac:(lia) ltac:(lia))) as A; rewrite P in A; cbn [Nat.eqb] in A; apply Rabs_le_inv in A; lra).
  assert (N11 : / 8 - / 10 ^ 14 <= entry (holds c) 1 1 <= / 8 + / 10 ^ 14) by (pose proof (proj1 (EV 1%nat 1%nat ltac:(lia) ltac:(lia))) as A; rewrite P in A; cbn [Nat.eqb] in A; apply Rabs_le_inv in A; lra).
  destruct (two_by_two (lower (holds c))) as (sol & S & DE); [reflexivity|unfold lower; cbn [Nat.max Nat.min]; lra|]. exists (fun _ => sol). split; [exact X|]. split; [|split; [|split; [rewrite S; discriminate|split; [exact DE|split; [|lra]]]]].
  - unfold near_symmetric, squares. change (rows (holds c)) with (frows c). rewrite R. cbn [total]. pose proof (proj2 (EV 0%nat 1%nat ltac:(lia) ltac:(lia))) as A. apply Rabs_le_inv in A.
    set (p := entry (holds c) 0 1) in *. set (q := entry (holds c) 1 0) in *. set (x := entry (holds c) 0 0) in *. set (y := entry (holds c) 1 1) in *. assert ((p - q) * (p - q) <= / 10 ^ 14 * / 10 ^ 14) by nra. assert (/ 5 * / 5 <= p * p) by nra. assert (0 <= q * q) by nra. assert (0 <= x * x) by nra. assert (0 <= y * y) by nra. lra.
  - exists 1%nat, 1%nat, 0%nat, 0%nat. change (rows (holds c)) with (frows c). change (cols (holds c)) with (fcols c). rewrite R, Q. split; [lia|]. split; [lia|]. split; [lia|]. split; [lia|]. split; [|left; split; [reflexivity|lra]].
    intros p q I J. destruct p as [|[|p]]; [..|lia]; (destruct q as [|[|q]]; [..|lia]); lra.
  - cbn [total INR]. pose proof (proj2 (W 0%nat)) as A. pose proof (proj2 (W 1%nat)) as A'. cbn [Nat.eqb] in A, A'. rewrite u_num. lra.
Qed.
