(** Sums in any order, means and covariances in double precision. *)
From Coq Require Import Reals Lra Lia List Permutation Psatz.
From Flocq Require Import Core BinarySingleNaN.
From Verif Require Import Cpp FloatModel FloatSpec FloatProofs NrmSpec NrmProofs DriftProofs StatModel StatSpec StatProofs FstModel FstSpec.
Import ListNotations.
Local Open Scope R_scope.

Lemma tiny_h : tiny = h.
Proof. unfold tiny, h. rewrite <- (bpow_pow 1075), <- bpow_opp. reflexivity. Qed.

(** ** Sums *)
Lemma add_up_app l k : add_up (l ++ k) = add_up l + add_up k.
Proof. unfold add_up. induction l as [|x l IH]; cbn; [ring|]. rewrite IH. ring. Qed.
Lemma add_up_perm l k : Permutation l k -> add_up l = add_up k.
Proof. unfold add_up. induction 1; cbn; lra. Qed.
Lemma add_up_abs l : Rabs (add_up l) <= add_up (map Rabs l).
Proof. induction l as [|x l IH]; cbn; [rewrite Rabs_R0; lra|]. eapply Rle_trans; [apply Rabs_triang|]. unfold add_up in IH. lra. Qed.
Lemma add_up_pos l : 0 <= add_up (map Rabs l).
Proof. eapply Rle_trans; [apply Rabs_pos|apply add_up_abs]. Qed.
Lemma add_up_total n f : add_up (map f (seq 0 n)) = total n f.
Proof. exact (sum_total n f). Qed.

Lemma two_sums N1 N2 S1 S2 x1 x2 s1 s2 d : 1 <= N1 -> 1 <= N2 -> Rabs (x1 - s1) <= (N1 - 1) * u * S1 -> Rabs (x2 - s2) <= (N2 - 1) * u * S2 ->
  Rabs s1 <= S1 -> Rabs s2 <= S2 -> Rabs d <= u * Rabs (x1 + x2) -> Rabs d <= Rabs x1 -> Rabs d <= Rabs x2 ->
  Rabs (x1 + x2 + d - (s1 + s2)) <= (N1 + N2 - 1) * u * (S1 + S2).
Proof.
  intros H1 H2 E1 E2 B1 B2 D D1 D2. pose proof u_pos as U. pose proof (Rabs_pos s1). pose proof (Rabs_pos s2).
  assert (X1 : Rabs x1 <= S1 + (N1 - 1) * u * S1) by (replace x1 with (s1 + (x1 - s1)) by ring; eapply Rle_trans; [apply Rabs_triang|lra]).
  assert (X2 : Rabs x2 <= S2 + (N2 - 1) * u * S2) by (replace x2 with (s2 + (x2 - s2)) by ring; eapply Rle_trans; [apply Rabs_triang|lra]).
  assert (T : Rabs (x1 + x2 + d - (s1 + s2)) <= Rabs d + (N1 - 1) * u * S1 + (N2 - 1) * u * S2).
  { replace (x1 + x2 + d - (s1 + s2)) with (d + (x1 - s1) + (x2 - s2)) by ring. eapply Rle_trans; [apply Rabs_triang|]. pose proof (Rabs_triang d (x1 - s1)). lra. }
  assert (K : Rabs d <= N2 * u * S1 + N1 * u * S2); [|nra]. pose proof u_small.
  destruct (Rle_dec S2 (u * S1)) as [C|C].
  - assert ((N2 - 1) * u * S2 <= (N2 - 1) * u * S1) by (apply Rmult_le_compat_l; [apply Rmult_le_pos; lra|nra]). assert (0 <= N1 * u * S2) by (apply Rmult_le_pos; [apply Rmult_le_pos; lra|lra]). lra.
  - destruct (Rle_dec S1 (u * S2)) as [C'|C'].
    + assert ((N1 - 1) * u * S1 <= (N1 - 1) * u * S2) by (apply Rmult_le_compat_l; [apply Rmult_le_pos; lra|nra]). assert (0 <= N2 * u * S1) by (apply Rmult_le_pos; [apply Rmult_le_pos; lra|lra]). lra.
    + pose proof (Rabs_triang x1 x2). assert (P1 : (N1 - 1) * (u * S1) <= (N1 - 1) * S2) by (apply Rmult_le_compat_l; lra). assert (P2 : (N2 - 1) * (u * S2) <= (N2 - 1) * S1) by (apply Rmult_le_compat_l; lra).
      apply Rle_trans with (1 := D). apply Rle_trans with (u * (N2 * S1 + N1 * S2)); [|lra]. apply Rmult_le_compat_l; lra.
Qed.

Lemma big_sum x : Rabs x <= 4 * 2 ^ 1000 -> ~ overflows x.
Proof.
  intro H. apply small_no_overflow. apply Rle_lt_trans with (1 := H). destruct big_1000 as [B _]. apply Rlt_le_trans with (2 ^ 1003); [pose proof (pow_lt 2 1000 ltac:(lra)); lra|].
  apply Rle_pow; [lra|]. apply Nat.leb_le. reflexivity.
Qed.

Lemma sum_near l s : fsum_of l s -> Forall finite l -> add_up (map Rabs (map val l)) <= 2 ^ 1000 -> INR (length l) * u <= 1 ->
  finite s /\ Rabs (val s - add_up (map val l)) <= INR (Nat.pred (length l)) * u * add_up (map Rabs (map val l)) /\ (l = [] -> val s = 0).
Proof.
  induction 1 as [|x|l k k' x y P K IK K' IK']; intros F B N.
  - split; [reflexivity|]. assert (V : val (of_int 0) = 0) by (apply (val_int 0); discriminate). split; [|auto]. rewrite V. cbn. rewrite Rminus_0_r, Rabs_R0. lra.
  - split; [inversion F; assumption|]. split; [|discriminate]. cbn. replace (val x - (val x + 0)) with 0 by ring. rewrite Rabs_R0. lra.
  - assert (LP : length l = (length k + length k')%nat) by (rewrite (Permutation_length P), app_length; reflexivity).
    assert (SP : add_up (map val l) = add_up (map val k) + add_up (map val k')) by (rewrite <- add_up_app, <- map_app; apply add_up_perm, Permutation_map, P).
    assert (AP : add_up (map Rabs (map val l)) = add_up (map Rabs (map val k)) + add_up (map Rabs (map val k'))) by (rewrite <- add_up_app, <- !map_app; apply add_up_perm; do 2 apply Permutation_map; exact P).
    rewrite SP, AP in *. rewrite LP in *. rewrite plus_INR in N. pose proof u_pos as U. pose proof (pos_INR (length k)) as PK. pose proof (pos_INR (length k')) as PK'.
    pose proof (add_up_pos (map val k)) as SK. pose proof (add_up_pos (map val k')) as SK'.
    assert (FF : Forall finite (k ++ k')) by (eapply Permutation_Forall; eassumption). apply Forall_app in FF. destruct FF as [FK FK'].
    destruct (IK FK) as (FX & EX & ZX); [lra|nra|]. destruct (IK' FK') as (FY & EY & ZY); [lra|nra|].
    pose proof (add_up_abs (map val k)) as AK. pose proof (add_up_abs (map val k')) as AK'. set (S1 := add_up (map Rabs (map val k))) in *. set (S2 := add_up (map Rabs (map val k'))) in *.
    set (s1 := add_up (map val k)) in *. set (s2 := add_up (map val k')) in *.
    assert (BX : Rabs (val x) <= 2 * S1).
    { replace (val x) with (s1 + (val x - s1)) by ring. eapply Rle_trans; [apply Rabs_triang|]. assert (INR (Nat.pred (length k)) <= INR (length k)) by (apply le_INR; lia).
      assert (INR (Nat.pred (length k)) * u <= 1) by nra. assert (INR (Nat.pred (length k)) * u * S1 <= 1 * S1) by (apply Rmult_le_compat_r; lra). lra. }
    assert (BY : Rabs (val y) <= 2 * S2).
    { replace (val y) with (s2 + (val y - s2)) by ring. eapply Rle_trans; [apply Rabs_triang|]. assert (INR (Nat.pred (length k')) <= INR (length k')) by (apply le_INR; lia).
      assert (INR (Nat.pred (length k')) * u <= 1) by nra. assert (INR (Nat.pred (length k')) * u * S2 <= 1 * S2) by (apply Rmult_le_compat_r; lra). lra. }
    destruct (fadd_val x y FX FY) as [FA VA]; [apply big_sum; eapply Rle_trans; [apply Rabs_triang|]; lra|]. split; [exact FA|]. rewrite VA.
    assert (ZR : forall z, rd (0 + val z) = val z) by (intro z; rewrite Rplus_0_l; apply rd_id, val_fmt).
    destruct k as [|a k].
    { rewrite (ZX eq_refl), ZR. unfold S1, s1. cbn. rewrite !Rplus_0_l. split; [exact EY|]. intro E. apply ZY. apply Permutation_length in P. subst l. cbn in P. destruct k'; [reflexivity|discriminate P]. }
    destruct k' as [|b k'].
    { rewrite (ZY eq_refl), Rplus_comm, ZR. unfold S2, s2. cbn [map add_up fold_right]. rewrite !Rplus_0_r, Nat.add_0_r. split; [exact EX|]. intro E. subst l. apply Permutation_nil in P. discriminate P. }
    split; [|intro E; subst l; apply Permutation_nil in P; discriminate P].
    replace (INR (Nat.pred (length (a :: k) + length (b :: k')))) with (INR (length (a :: k)) + INR (length (b :: k')) - 1).
    2:{ replace (Nat.pred (length (a :: k) + length (b :: k'))) with (length k + length (b :: k'))%nat by (cbn; lia). cbn [length]. rewrite plus_INR, !S_INR. ring. }
    replace (rd (val x + val y)) with (val x + val y + (rd (val x + val y) - (val x + val y))) by ring.
    assert (L1 : INR (Nat.pred (length (a :: k))) = INR (length (a :: k)) - 1) by (cbn [length Nat.pred]; rewrite S_INR; ring).
    assert (L2 : INR (Nat.pred (length (b :: k'))) = INR (length (b :: k')) - 1) by (cbn [length Nat.pred]; rewrite S_INR; ring).
    rewrite L1 in EX. rewrite L2 in EY.
    apply two_sums; [cbn [length]; rewrite S_INR; pose proof (pos_INR (length k)); lra|cbn [length]; rewrite S_INR; pose proof (pos_INR (length k')); lra|exact EX|exact EY|exact AK|exact AK'|..].
    + apply rd_sum; apply val_fmt.
    + rewrite <- (Rabs_Ropp (val x)). replace (- val x) with (val y - (val x + val y)) by ring. apply rd_nearest, val_fmt.
    + rewrite <- (Rabs_Ropp (val y)). replace (- val y) with (val x - (val x + val y)) by ring. apply rd_nearest, val_fmt.
Qed.
Lemma sum_exists l : exists s, fsum_of l s.
Proof. induction l as [|x l [s IH]]; [exists (of_int 0); constructor|]. exists (fadd x s). apply (sum_both (x :: l) [x] l x s); [reflexivity|constructor|exact IH]. Qed.
Lemma sum_pos l s : fsum_of l s -> Forall finite l -> Forall (fun x => 0 <= val x) l -> add_up (map Rabs (map val l)) <= 2 ^ 1000 -> INR (length l) * u <= 1 -> 0 <= val s.
Proof.
  intros H F Q B N. revert F Q B N. induction H as [|x|l k k' x y P K IK K' IK']; intros F Q B N.
  - rewrite (val_int 0) by discriminate. lra.
  - inversion Q; assumption.
  - pose proof (sum_near l _ (sum_both l k k' x y P K K') F B N) as [FA _].
    assert (LP : length l = (length k + length k')%nat) by (rewrite (Permutation_length P), app_length; reflexivity).
    assert (AP : add_up (map Rabs (map val l)) = add_up (map Rabs (map val k)) + add_up (map Rabs (map val k'))) by (rewrite <- add_up_app, <- !map_app; apply add_up_perm; do 2 apply Permutation_map; exact P).
    rewrite AP in B. rewrite LP, plus_INR in N. pose proof u_pos as U. pose proof (pos_INR (length k)) as PK. pose proof (pos_INR (length k')) as PK'.
    pose proof (add_up_pos (map val k)) as SK. pose proof (add_up_pos (map val k')) as SK'.
    assert (FF : Forall finite (k ++ k')) by (eapply Permutation_Forall; eassumption). apply Forall_app in FF. destruct FF as [FK FK'].
    assert (QQ : Forall (fun x => 0 <= val x) (k ++ k')) by (eapply Permutation_Forall; eassumption). apply Forall_app in QQ. destruct QQ as [QK QK'].
    assert (NK : INR (length k) * u <= 1) by nra. assert (NK' : INR (length k') * u <= 1) by nra.
    assert (BK : add_up (map Rabs (map val k)) <= 2 ^ 1000) by lra. assert (BK' : add_up (map Rabs (map val k')) <= 2 ^ 1000) by lra.
    destruct (sum_near k x K FK BK NK) as (FX & EX & _). destruct (sum_near k' y K' FK' BK' NK') as (FY & EY & _).
    specialize (IK FK QK BK NK). specialize (IK' FK' QK' BK' NK').
    assert (bound : forall q z, Rabs (val z - add_up (map val q)) <= INR (Nat.pred (length q)) * u * add_up (map Rabs (map val q)) -> INR (length q) * u <= 1 -> Rabs (val z) <= 2 * add_up (map Rabs (map val q))).
    { intros q z E L. replace (val z) with (add_up (map val q) + (val z - add_up (map val q))) by ring. eapply Rle_trans; [apply Rabs_triang|]. pose proof (add_up_abs (map val q)). pose proof (add_up_pos (map val q)).
      assert (INR (Nat.pred (length q)) <= INR (length q)) by (apply le_INR; lia). assert (INR (Nat.pred (length q)) * u <= 1) by nra.
      assert (INR (Nat.pred (length q)) * u * add_up (map Rabs (map val q)) <= 1 * add_up (map Rabs (map val q))) by (apply Rmult_le_compat_r; lra). lra. }
    pose proof (bound k x EX NK). pose proof (bound k' y EY NK').
    destruct (fadd_val x y FX FY) as [_ VA]; [apply big_sum; eapply Rle_trans; [apply Rabs_triang|]; lra|]. rewrite VA. apply rd_ge0. lra.
Qed.
