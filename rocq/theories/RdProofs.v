(** Proofs about random durations and the tests that use them. *)
From Flocq Require Import Core BinarySingleNaN.
From Verif Require Import Cpp TimeModel TimeSpec TimeProofs FloatModel FloatSpec FloatProofs RdModel RdSpec.
From Coq Require Import Reals Psatz.
Open Scope Z_scope.

(** ** Drawing *)
Section Generator.
Variable G : Type.
Variable next : G -> Z * G.
Hypothesis W : words next.

Lemma random_spells fuel g d : spells (fst (next g)) (fst (next (snd (next g)))) d ->
  random_duration next (S fuel) g = Some (d, snd (next (snd (next g)))).
Proof.
  intros (Hh & Hl & E). unfold random_duration, draw. destruct (next g) as [hi g1]. cbn [fst snd] in *. destruct (next g1) as [lo g2]. cbn [fst snd] in *.
  unfold word in *. unfold wrap64, INT64_MIN, INT64_MAX.
  rewrite (Z.mod_small (2 ^ 32 * hi)) by lia. rewrite (Z.mod_small (2 ^ 32 * hi + lo)) by lia.
  replace (2 ^ 64 - 1 <? 2 ^ 32 * hi + lo) with false by (symmetry; apply Z.ltb_ge; lia).
  replace (2 ^ 32 * hi + lo <? 2 ^ 32 * hi) with false by (symmetry; apply Z.ltb_ge; lia). cbn [orb].
  replace (2 ^ 32 * hi + lo + - 2 ^ 63) with d by lia. f_equal. f_equal.
  destruct (Z_lt_le_dec d 0) as [N|P].
  - rewrite <- (Z.mod_unique_pos d (2 ^ 64) (-1) (d + 2 ^ 64)) by lia.
    replace (d + 2 ^ 64 <=? 2 ^ 63 - 1) with false by (symmetry; apply Z.leb_gt; lia). lia.
  - rewrite Z.mod_small by lia. replace (d <=? 2 ^ 63 - 1) with true by (symmetry; apply Z.leb_le; lia). reflexivity.
Qed.
Lemma spells_exists hi lo : word hi -> word lo -> exists d, spells hi lo d.
Proof. intros A B. exists (hi * 2 ^ 32 + lo - 2 ^ 63). split; [exact A|]. split; [exact B|]. lia. Qed.
Lemma spells_in64 hi lo d : spells hi lo d -> in64 d.
Proof. unfold spells, word, in64, INT64_MIN, INT64_MAX. lia. Qed.
Lemma spells_unique d : in64 d -> exists hi lo, spells hi lo d /\ forall hi' lo', spells hi' lo' d -> hi' = hi /\ lo' = lo.
Proof.
  intro H. unfold in64, INT64_MIN, INT64_MAX in H. exists ((d + 2 ^ 63) / 2 ^ 32), ((d + 2 ^ 63) mod 2 ^ 32).
  pose proof (Z.mod_pos_bound (d + 2 ^ 63) (2 ^ 32) ltac:(lia)). pose proof (Z.div_mod (d + 2 ^ 63) (2 ^ 32) ltac:(lia)).
  unfold spells, word. split; [split; [|split; lia]|intros; nia].
  split; [apply Z.div_pos; lia|apply Z.div_lt_upper_bound; lia].
Qed.
Lemma drawn_exists n : forall g, exists l, drawn next g l /\ length l = n.
Proof.
  induction n as [|n I]; intro g; [exists []; split; [exact Logic.I|reflexivity]|].
  destruct (spells_exists _ _ (W g) (W (snd (next g)))) as [d D]. destruct (I (snd (next (snd (next g))))) as (l & L & N).
  exists (d :: l). split; [split; assumption|cbn; rewrite N; reflexivity].
Qed.
Lemma drawn_in64 l : forall g, drawn next g l -> Forall in64 l.
Proof. induction l as [|d l I]; intros g D; [constructor|]. destruct D as [S D]. constructor; [exact (spells_in64 _ _ _ S)|exact (I _ D)]. Qed.
(** A test checks what was drawn. *)
Lemma run_all check f l : forall g, drawn next g l -> Forall (fun d => check d = Ok (f d)) l -> run_test next check (length l) g = Ok (map f l).
Proof.
  induction l as [|d l I]; intros g D F; [reflexivity|]. destruct D as [S D]. inversion F as [|x y Fd Fl]; subst.
  cbn [length run_test]. rewrite (random_spells 0 g d S), Fd. cbn [obind]. rewrite (I _ D Fl). reflexivity.
Qed.
Lemma run_ub check l : forall g, drawn next g l -> Forall (fun d => (exists b, check d = Ok b) \/ check d = UB) l -> Exists (fun d => check d = UB) l ->
  run_test next check (length l) g = UB.
Proof.
  induction l as [|d l I]; intros g D F E; [inversion E|]. destruct D as [S D]. inversion F as [|x y Fd Fl]; subst.
  cbn [length run_test]. rewrite (random_spells 0 g d S). destruct Fd as [[b Fd]|Fd]; rewrite Fd; cbn [obind]; [|reflexivity].
  inversion E as [? ? Ed|? ? El]; subst; [congruence|]. rewrite (I _ D Fl El). reflexivity.
Qed.
End Generator.

(** ** Splitting into seconds and nanoseconds *)
Lemma check_to_true d : in64 d -> check_to d = Ok true.
Proof.
  intro H. destruct (seconds_round_trip d H) as (x & A & B & _). unfold check_to. rewrite A. cbn [obind]. unfold from_seconds_and_nanos in B.
  destruct (mul64 (secs x) NANO) as [p| |]; cbn [obind] in *; try discriminate B. rewrite B. cbn [obind]. rewrite Z.eqb_refl. reflexivity.
Qed.
Lemma check_from_true d : in64 d -> check_from d = Ok true.
Proof.
  intro H. destruct (seconds_round_trip d H) as (x & A & B & _). unfold check_from. rewrite A. cbn [obind]. rewrite B. cbn [obind]. rewrite Z.eqb_refl. reflexivity.
Qed.

(** ** Rounding *)
Local Open Scope R_scope.
Lemma rd_scale x : x = 0 \/ bpow radix2 (-900) <= Rabs x -> rd (bpow radix2 (-52) * x) = bpow radix2 (-52) * rd x.
Proof.
  intros [->|H]; [rewrite Rmult_0_r, rd_0, Rmult_0_r; reflexivity|].
  assert (N : x <> 0). { intros ->. rewrite Rabs_R0 in H. pose proof (bpow_gt_0 radix2 (-900)). lra. }
  assert (M : (-899 <= mag radix2 x)%Z) by (apply mag_ge_bpow; exact H).
  assert (C : cexp radix2 (FLT_exp (-1074) 53) (x * bpow radix2 (-52)) = (cexp radix2 (FLT_exp (-1074) 53) x - 52)%Z).
  { unfold cexp. rewrite mag_mult_bpow by exact N. unfold FLT_exp. lia. }
  rewrite (Rmult_comm (bpow radix2 (-52)) x), (Rmult_comm (bpow radix2 (-52)) (rd x)).
  unfold rd, round, scaled_mantissa. rewrite C. unfold F2R. cbn [Fnum Fexp].
  replace (x * bpow radix2 (-52) * bpow radix2 (- (cexp radix2 (FLT_exp (-1074) 53) x - 52))) with (x * bpow radix2 (- cexp radix2 (FLT_exp (-1074) 53) x)).
  - rewrite Rmult_assoc, <- bpow_plus. reflexivity.
  - rewrite Rmult_assoc, <- bpow_plus. f_equal. f_equal. lia.
Qed.
(** Big doubles are multiples of big powers of two. *)
Lemma fmt_multiple x e : (0 <= e)%Z -> fmt x -> bpow radix2 (52 + e) <= x -> exists n, x = IZR (n * 2 ^ e).
Proof.
  intros He F G. pose proof (bpow_gt_0 radix2 (52 + e)) as P.
  assert (C : (e <= cexp radix2 (FLT_exp (-1074) 53) x)%Z).
  { unfold cexp, FLT_exp. assert (53 + e <= mag radix2 x)%Z; [|lia]. replace (53 + e)%Z with (52 + e + 1)%Z by lia.
    apply mag_ge_bpow. replace (52 + e + 1 - 1)%Z with (52 + e)%Z by lia. rewrite Rabs_right; lra. }
  unfold generic_format in F. set (m := Ztrunc (scaled_mantissa radix2 (FLT_exp (-1074) 53) x)) in F. set (c := cexp radix2 (FLT_exp (-1074) 53) x) in *.
  exists (m * 2 ^ (c - e))%Z. rewrite <- Z.mul_assoc, <- Z.pow_add_r by lia. replace (c - e + e)%Z with c by lia.
  rewrite F at 1. unfold F2R. cbn [Fnum Fexp]. rewrite mult_IZR, <- (IZR_Zpower radix2) by lia. reflexivity.
Qed.

(** The product that as_duration truncates. *)
Definition rr (d : Z) : R := rd (secs_of d * 10 ^ 9).
Definition fr (d : Z) : f64 := fmul (as_seconds d) (of_int NANO).
Lemma secs_val63 d : (Z.abs d <= 2 ^ 63)%Z -> finite (as_seconds d) /\ val (as_seconds d) = secs_of d.
Proof.
  intro H. destruct (of_int_val d) as [F V]; [apply int_no_overflow; lia|]. destruct nano_val as [Fn Vn].
  destruct (secs_of_range d H) as (A & B & C).
  unfold as_seconds, secs_of. rewrite <- V, <- Vn. apply fdiv_val; [exact F|rewrite Vn; lra|].
  rewrite V, Vn. apply pow_1023_big, pow_63_100, B.
Qed.
Lemma prod_small t : Rabs t <= 2 ^ 63 -> Rabs (t * 10 ^ 9) <= 2 ^ 100.
Proof. intro H. rewrite Rabs_mult, (Rabs_right (10 ^ 9)) by lra. pose proof (Rabs_pos t). lra. Qed.
Lemma fr_val d : (Z.abs d <= 2 ^ 63)%Z -> finite (fr d) /\ val (fr d) = rr d.
Proof.
  intro H. destruct (secs_val63 d H) as [F V]. destruct nano_val as [Fn Vn]. destruct (secs_of_range d H) as (_ & _ & C).
  destruct (fmul_val (as_seconds d) (of_int NANO) F Fn) as [A B].
  - rewrite V, Vn. apply pow_1023_big, prod_small, C.
  - split; [exact A|]. unfold fr. rewrite B, V, Vn. reflexivity.
Qed.
Lemma rr_mono d d' : (d <= d')%Z -> rr d <= rr d'.
Proof. intro H. unfold rr. apply rd_le. apply Rmult_le_compat_r; [lra|]. apply secs_mono, H. Qed.
Lemma rr_opp d : rr (- d) = - rr d.
Proof. unfold rr. rewrite secs_of_opp. replace (- secs_of d * 10 ^ 9) with (- (secs_of d * 10 ^ 9)) by ring. apply rd_opp. Qed.
Lemma back_rr d : back d = Ztrunc (rr d).
Proof. reflexivity. Qed.
(** Powers of two come back. *)
Lemma rr_power j : (0 <= j <= 11)%Z -> rr (2 ^ (52 + j)) = IZR (2 ^ (52 + j)).
Proof.
  intro H. assert (A : (0 <= 2 ^ (52 + j) <= 2 ^ 63)%Z) by (split; [apply Z.pow_nonneg; lia|apply Z.pow_le_mono_r; lia]).
  destruct (fr_val (2 ^ (52 + j))) as [F V]; [lia|]. rewrite <- V.
  destruct (of_int_val (2 ^ (52 + j))) as [F' V']; [apply int_no_overflow; lia|].
  assert (E : feq (fr (2 ^ (52 + j))) (of_int (2 ^ (52 + j))) = true).
  { assert (K : (j = 0 \/ j = 1 \/ j = 2 \/ j = 3 \/ j = 4 \/ j = 5 \/ j = 6 \/ j = 7 \/ j = 8 \/ j = 9 \/ j = 10 \/ j = 11)%Z) by lia.
    repeat (destruct K as [->|K]; [vm_compute; reflexivity|]). subst j. vm_compute. reflexivity. }
  unfold feq in E. rewrite (Beqb_correct 53 1024 _ _ F F') in E. unfold val in *. revert E. case Req_bool_spec; [intros E _|discriminate]. rewrite E, V'. apply rd_id.
  change 2%Z with (radix_val radix2). rewrite (IZR_Zpower radix2) by lia. apply generic_format_bpow. unfold FLT_exp. lia.
Qed.

(** ** Long durations *)
Lemma pow_bpow e : (0 <= e)%Z -> IZR (2 ^ e) = bpow radix2 e.
Proof. intro H. rewrite <- (IZR_Zpower radix2) by exact H. reflexivity. Qed.
Lemma bpow_shift e k : bpow radix2 (k + e) = bpow radix2 k * bpow radix2 e.
Proof. apply bpow_plus. Qed.
Lemma long_binade e d : (0 <= e <= 10)%Z -> (2 ^ (52 + e) <= d < 2 ^ (53 + e))%Z ->
  exists r, rr d = IZR r /\ (2 ^ (52 + e) <= r <= 2 ^ (53 + e))%Z /\ (2 ^ 52 * Z.abs (r - d) <= r)%Z /\
    (2 ^ e | r)%Z /\ (rd (IZR d) <= bpow radix2 (23 + e) * 10 ^ 9 -> rr d = rd (IZR d)).
Proof.
  intros He [L H]. set (u := bpow radix2 e). assert (U : 0 < u) by apply bpow_gt_0.
  assert (Lr : bpow radix2 (52 + e) <= IZR d) by (rewrite <- pow_bpow by lia; apply IZR_le, L).
  assert (Hr : IZR d <= bpow radix2 (53 + e)) by (rewrite <- pow_bpow by lia; apply IZR_le; lia).
  set (D := rd (IZR d)).
  assert (DL : bpow radix2 (52 + e) <= D).
  { rewrite <- (rd_id (bpow radix2 (52 + e))) by (apply generic_format_bpow; unfold FLT_exp; lia). apply rd_le, Lr. }
  assert (DH : D <= bpow radix2 (53 + e)).
  { rewrite <- (rd_id (bpow radix2 (53 + e))) by (apply generic_format_bpow; unfold FLT_exp; lia). apply rd_le, Hr. }
  pose proof (bpow_gt_0 radix2 (52 + e)) as P.
  assert (DE : Rabs (D - IZR d) <= u / 2).
  { replace (u / 2) with (bpow radix2 (53 + e - 54)) by (replace (53 + e - 54)%Z with (-1 + e)%Z by lia; rewrite bpow_shift; unfold u; cbn; lra).
    apply rd_err; [lia|]. rewrite Rabs_right by lra. exact Hr. }
  destruct (fmt_multiple D e ltac:(lia) (rd_fmt _) DL) as [m Em].
  assert (RL : bpow radix2 (52 + e) <= rr d) by (rewrite <- pow_bpow, <- rr_power by lia; apply rr_mono, L).
  assert (RH : rr d <= bpow radix2 (53 + e)).
  { replace (53 + e)%Z with (52 + (1 + e))%Z by lia. rewrite <- pow_bpow, <- rr_power by lia. apply rr_mono. replace (52 + (1 + e))%Z with (53 + e)%Z by lia. lia. }
  destruct (fmt_multiple (rr d) e ltac:(lia) (rd_fmt _) RL) as [n En].
  set (x := secs_of d * 10 ^ 9).
  assert (Near : Rabs (rr d - D) <= 2 * Rabs (x - D)).
  { pose proof (rd_nearest x D (rd_fmt _)) as N. fold (rr d) in N. change (rd x) with (rr d) in N. rewrite (Rabs_minus_sym D x) in N.
    replace (rr d - D) with ((rr d - x) + (x - D)) by ring. apply Rle_trans with (1 := Rabs_triang _ _). lra. }
  assert (XD : forall k, (-1000 <= k + e)%Z -> D <= bpow radix2 (k + e) * 10 ^ 9 -> Rabs (x - D) <= bpow radix2 (k - 54) * u * 10 ^ 9).
  { intros k Hk B. replace (x - D) with ((secs_of d - D / 10 ^ 9) * 10 ^ 9) by (unfold x; field). rewrite Rabs_mult, (Rabs_right (10 ^ 9)) by lra.
    apply Rmult_le_compat_r; [lra|]. unfold u. rewrite <- bpow_shift. replace (k - 54 + e)%Z with (k + e - 54)%Z by lia. unfold secs_of. fold D. apply rd_err; [lia|].
    rewrite Rabs_right; [|apply Rle_ge; unfold Rdiv; apply Rmult_le_pos; lra]. lra. }
  assert (M : forall z, IZR (z * 2 ^ e) = IZR z * u) by (intro z; rewrite mult_IZR, pow_bpow by lia; reflexivity).
  assert (Pe : (1 <= 2 ^ e)%Z) by (pose proof (Z.pow_pos_nonneg 2 e); lia).
  assert (DZ : (2 * Z.abs (m * 2 ^ e - d) <= 2 ^ e)%Z).
  { apply le_IZR. rewrite mult_IZR, abs_IZR, minus_IZR, <- Em, pow_bpow by lia. fold u. lra. }
  assert (Diff : forall c, Rabs (rr d - D) < IZR c * u -> (Z.abs (n - m) < c)%Z).
  { intros c B. apply lt_IZR. rewrite abs_IZR, minus_IZR. apply Rmult_lt_reg_r with u; [exact U|].
    rewrite <- (Rabs_right u) at 1 by lra. rewrite <- Rabs_mult, Rmult_minus_distr_r, <- !M, <- En, <- Em, M. exact B. }
  assert (NL : (2 ^ 52 <= n)%Z).
  { apply (Z.mul_le_mono_pos_r _ _ (2 ^ e)); [lia|]. rewrite <- Z.pow_add_r by lia. apply le_IZR. rewrite <- En, pow_bpow by lia. exact RL. }
  exists (n * 2 ^ e)%Z. split; [exact En|]. split.
  { split; apply le_IZR; rewrite <- En, pow_bpow by lia; assumption. }
  assert (Low : D <= bpow radix2 (23 + e) * 10 ^ 9 -> n = m).
  { intro A. pose proof (XD 23%Z ltac:(lia) A) as X. assert (Z.abs (n - m) < 1)%Z; [|lia]. apply Diff. apply Rle_lt_trans with (1 := Near).
      change (bpow radix2 (23 - 54)) with (/ 2147483648) in X. lra. }
  split; [|split; [exists n; reflexivity|intro A; rewrite En, (Low A), <- Em; reflexivity]].
  destruct (Rle_lt_dec D (bpow radix2 (23 + e) * 10 ^ 9)) as [A|B].
  - rewrite (Low A). rewrite (Low A) in NL. nia.
  - assert (C : (Z.abs (n - m) < 2)%Z).
    { assert (B' : D <= bpow radix2 (24 + e) * 10 ^ 9).
      { apply Rle_trans with (1 := DH). rewrite !bpow_shift. fold u. change (bpow radix2 53) with 9007199254740992. change (bpow radix2 24) with 16777216. lra. }
      pose proof (XD 24%Z ltac:(lia) B') as X. apply Diff. apply Rle_lt_trans with (1 := Near).
      change (bpow radix2 (24 - 54)) with (/ 1073741824) in X. lra. }
    assert (Mb : (2 ^ 23 * 10 ^ 9 < m)%Z).
    { apply lt_IZR. apply Rmult_lt_reg_r with u; [exact U|]. rewrite <- (M m), <- Em. rewrite bpow_shift in B. fold u in B.
      change (bpow radix2 23) with 8388608 in B. replace (IZR (2 ^ 23 * 10 ^ 9)) with (8388608 * 10 ^ 9) by (rewrite mult_IZR; cbn; lra). lra. }
    assert (Z.abs (n * 2 ^ e - m * 2 ^ e) <= 2 ^ e)%Z by (rewrite <- Z.mul_sub_distr_r, Z.abs_mul, (Z.abs_eq (2 ^ e)) by lia; nia).
    assert (2 * Z.abs (n * 2 ^ e - d) <= 3 * 2 ^ e)%Z by lia. nia.
Qed.
Lemma long_pos d : (2 ^ 52 <= d < 2 ^ 63)%Z -> exists r, rr d = IZR r /\ (2 ^ 52 <= r <= 2 ^ 63)%Z /\ (2 ^ 52 * Z.abs (r - d) <= r)%Z.
Proof.
  intros [L H]. pose proof (Z.log2_spec d ltac:(lia)) as [A B].
  assert (K : (52 <= Z.log2 d <= 62)%Z).
  { split; [apply (Z.log2_le_mono (2 ^ 52)), L|]. assert (Z.log2 d < 63)%Z; [|lia]. apply Z.log2_lt_pow2; lia. }
  destruct (long_binade (Z.log2 d - 52) d) as (r & E & R & N & _); [lia| |].
  - replace (52 + (Z.log2 d - 52))%Z with (Z.log2 d) by lia. replace (53 + (Z.log2 d - 52))%Z with (Z.succ (Z.log2 d)) by lia. lia.
  - exists r. split; [exact E|]. split; [|exact N].
    pose proof (Z.pow_le_mono_r 2 52 (52 + (Z.log2 d - 52)) ltac:(lia) ltac:(lia)). pose proof (Z.pow_le_mono_r 2 (53 + (Z.log2 d - 52)) 63 ltac:(lia) ltac:(lia)). lia.
Qed.

(** ** The tolerance *)
Lemma eps_val : finite EPSILON /\ val EPSILON = bpow radix2 (-52).
Proof. split; [vm_compute; reflexivity|]. rewrite val_sf. replace (B2SF EPSILON) with (SpecFloat.S754_finite false 4503599627370496 (-104)) by (vm_compute; reflexivity). unfold SF2R, F2R. cbn. lra. Qed.
Lemma secs_lower d : (d <> 0)%Z -> bpow radix2 (-40) <= Rabs (secs_of d).
Proof.
  assert (P : forall d, (0 < d)%Z -> bpow radix2 (-40) <= secs_of d).
  { intros c Hc. apply Rle_trans with (secs_of 1); [|apply secs_mono; lia]. unfold secs_of. rewrite (rd_int 1) by lia.
    rewrite <- (rd_id (bpow radix2 (-40))) by (apply generic_format_bpow; unfold FLT_exp; lia). apply rd_le. cbn. lra. }
  intro H. destruct (Z_lt_le_dec d 0) as [N|N].
  - rewrite <- Rabs_Ropp, <- secs_of_opp. apply Rle_trans with (2 := Rle_abs _). apply P. lia.
  - apply Rle_trans with (2 := Rle_abs _). apply P. lia.
Qed.
Lemma tolerance_val d : (Z.abs d <= 2 ^ 63)%Z -> tolerance (as_seconds d) =
  let t := Ztrunc (bpow radix2 (-52) * Rabs (rr d)) in if ((INT64_MIN <=? t) && (t <=? INT64_MAX))%Z%bool then Ok t else UB.
Proof.
  intro H. destruct (secs_val63 d H) as [F V]. destruct eps_val as [Fe Ve]. destruct (secs_of_range d H) as (_ & _ & C).
  assert (Q : d = 0%Z \/ bpow radix2 (-40) <= Rabs (secs_of d)) by (destruct (Z.eq_dec d 0) as [E|E]; [left; exact E|right; apply secs_lower, E]).
  assert (Q0 : secs_of 0 = 0). { unfold secs_of. rewrite rd_0. replace (0 / 10 ^ 9) with 0 by (unfold Rdiv; ring). apply rd_0. }
  assert (B40 : bpow radix2 (-900) <= bpow radix2 (-40)) by (apply bpow_le; lia).
  assert (S1 : rd (bpow radix2 (-52) * secs_of d) = bpow radix2 (-52) * secs_of d).
  { rewrite rd_scale. - f_equal. apply rd_id. apply rd_fmt. - destruct Q as [->|Q]; [left; exact Q0|right; lra]. }
  assert (Small : Rabs (bpow radix2 (-52) * secs_of d) <= 2 ^ 63).
  { rewrite Rabs_mult, (Rabs_right (bpow radix2 (-52))) by (apply Rle_ge, bpow_ge_0). pose proof (Rabs_pos (secs_of d)).
    assert (bpow radix2 (-52) <= 1) by (change 1 with (bpow radix2 0); apply bpow_le; lia). pose proof (bpow_ge_0 radix2 (-52)). nra. }
  destruct (fmul_val EPSILON (as_seconds d) Fe F) as [Fm Vm]; [rewrite Ve, V; apply pow_1023_big, pow_63_100, Small|]. rewrite Ve, V, S1 in Vm.
  unfold tolerance. assert (Fa : finite (fabs (fmul EPSILON (as_seconds d)))) by (unfold finite, fabs; rewrite is_finite_Babs; exact Fm).
  assert (Va : val (fabs (fmul EPSILON (as_seconds d))) = Rabs (bpow radix2 (-52) * secs_of d)) by (unfold val, fabs; rewrite B2R_Babs; fold (val (fmul EPSILON (as_seconds d))); rewrite Vm; reflexivity).
  rewrite (as_duration_val _ Fa) by (rewrite Va, Rabs_Rabsolu; exact Small). rewrite Va.
  replace (nanos_of (Rabs (bpow radix2 (-52) * secs_of d))) with (Ztrunc (bpow radix2 (-52) * Rabs (rr d))); [reflexivity|].
  unfold nanos_of. f_equal. rewrite Rabs_mult, (Rabs_right (bpow radix2 (-52))) by (apply Rle_ge, bpow_ge_0).
  rewrite Rmult_assoc, <- (Rabs_right (10 ^ 9)) at 1 by lra. rewrite <- Rabs_mult. rewrite rd_scale.
  - rewrite rd_abs. reflexivity.
  - destruct Q as [->|Q]; [left; rewrite Q0, Rmult_0_l; apply Rabs_R0|right]. rewrite Rabs_Rabsolu, Rabs_mult, (Rabs_right (10 ^ 9)) by lra.
    pose proof (bpow_ge_0 radix2 (-900)). lra.
Qed.

(** ** The expectations on seconds *)
Lemma rr_edge d : (2 ^ 63 - 2048 <= d <= 2 ^ 63 - 2046)%Z -> rr d = IZR (2 ^ 63 - 1024).
Proof.
  intro H. destruct (fr_val d) as [F V]; [lia|]. rewrite <- V, val_sf.
  assert (K : (d = 2 ^ 63 - 2048 \/ d = 2 ^ 63 - 2047 \/ d = 2 ^ 63 - 2046)%Z) by lia.
  replace (B2SF (fr d)) with (SpecFloat.S754_finite false 9007199254740991 10).
  - unfold SF2R, F2R. cbn. lra.
  - destruct K as [K|[K|K]]; rewrite K; vm_compute; reflexivity.
Qed.
Lemma rr_short : rr (2 ^ 52 - 1) = 4503599627370496 - / 2.
Proof.
  destruct (fr_val (2 ^ 52 - 1)) as [F V]; [lia|]. rewrite <- V, val_sf.
  replace (B2SF (fr (2 ^ 52 - 1))) with (SpecFloat.S754_finite false 9007199254740991 (-1)) by (vm_compute; reflexivity).
  unfold SF2R, F2R. cbn. lra.
Qed.
Lemma rr_0 : rr 0 = 0.
Proof. unfold rr, secs_of. rewrite rd_0. replace (0 / 10 ^ 9) with 0 by (unfold Rdiv; ring). rewrite rd_0, Rmult_0_l. apply rd_0. Qed.
(** The tolerance where the product is a whole number. *)
Lemma tolerance_long d r : (Z.abs d <= 2 ^ 63)%Z -> Rabs (rr d) = IZR r -> (0 <= r <= 2 ^ 63)%Z -> tolerance (as_seconds d) = Ok (r / 2 ^ 52)%Z.
Proof.
  intros H E R. rewrite tolerance_val by exact H. cbv zeta. rewrite E.
  replace (bpow radix2 (-52) * IZR r) with (IZR r / IZR (2 ^ 52)) by (cbn; lra).
  assert (P : (0 <= r / 2 ^ 52 <= 2 ^ 11)%Z) by (split; [apply Z.div_pos; lia|apply Z.div_le_upper_bound; lia]).
  rewrite Ztrunc_floor by (apply Rmult_le_pos; [apply IZR_le; lia|apply Rlt_le, Rinv_0_lt_compat, IZR_lt; lia]). rewrite Zfloor_div by lia.
  unfold INT64_MIN, INT64_MAX. replace (_ && _)%bool with true; [reflexivity|]. symmetry. apply andb_true_iff. rewrite !Z.leb_le. lia.
Qed.
Lemma tolerance_short d : (Z.abs d < 2 ^ 52)%Z -> tolerance (as_seconds d) = Ok 0%Z.
Proof.
  intro H. rewrite tolerance_val by lia. cbv zeta.
  assert (A : 0 <= Rabs (rr d) <= 4503599627370496 - / 2).
  { split; [apply Rabs_pos|]. rewrite <- rr_short. apply Rabs_le. rewrite <- rr_opp. split; apply rr_mono; lia. }
  rewrite Ztrunc_floor by (apply Rmult_le_pos; [apply bpow_ge_0|lra]).
  replace (Zfloor (bpow radix2 (-52) * Rabs (rr d))) with 0%Z; [reflexivity|]. symmetry. apply Zfloor_imp.
  destruct A as [A1 A2]. change (bpow radix2 (-52)) with (/ 4503599627370496).
  change (IZR (0 + 1)) with 1. split; [apply Rmult_le_pos; lra|]. apply Rmult_lt_reg_l with 4503599627370496; [lra|]. rewrite <- Rmult_assoc, Rinv_r by lra. lra.
Qed.
Lemma back_short d : (Z.abs d < 2 ^ 52)%Z -> as_duration (as_seconds d) = Ok (back d).
Proof. intro H. apply round_trip_53. lia. Qed.
Lemma seconds_short d : (Z.abs d < 2 ^ 52)%Z -> check_seconds d = Ok (back d =? d)%Z.
Proof.
  intro H. unfold check_seconds. rewrite back_short, tolerance_short by exact H. cbn [obind]. unfold add64, sub64.
  rewrite !chk64_ok by (unfold in64, INT64_MIN, INT64_MAX; lia). cbn [obind]. f_equal. rewrite Z.add_0_r, Z.sub_0_r. rewrite Z.geb_leb.
  destruct (Z.eqb_spec (back d) d) as [->|N]; [rewrite Z.leb_refl; reflexivity|].
  apply andb_false_iff. rewrite !Z.leb_gt. lia.
Qed.
Lemma back_int d r : rr d = IZR r -> back d = r.
Proof. intro E. rewrite back_rr, E. apply Ztrunc_IZR. Qed.
(** Every long duration, of either sign. *)
Lemma long_any d : in64 d -> long d -> exists r, rr d = IZR r /\ Rabs (rr d) = IZR (Z.abs r) /\ (2 ^ 52 <= Z.abs r <= 2 ^ 63)%Z /\
  (0 < d -> 0 < r)%Z /\ (d < 0 -> r < 0)%Z /\ (2 ^ 52 * Z.abs (r - d) <= Z.abs r)%Z.
Proof.
  unfold in64, INT64_MIN, INT64_MAX, long. intros I L.
  destruct (Z_lt_le_dec d 0) as [N|P].
  - destruct (Z.eq_dec d (- 2 ^ 63)) as [E|E].
    + exists (- 2 ^ 63)%Z. assert (V : rr d = IZR (- 2 ^ 63)).
      { rewrite E, rr_opp. change (2 ^ 63)%Z with (2 ^ (52 + 11))%Z at 1. rewrite (rr_power 11) by lia. rewrite opp_IZR. reflexivity. }
      split; [exact V|]. split; [rewrite V, abs_IZR; reflexivity|]. subst d. lia.
    + destruct (long_pos (- d) ltac:(lia)) as (r & A & B & C). exists (- r)%Z. rewrite rr_opp in A.
      assert (V : rr d = IZR (- r)) by (rewrite opp_IZR; lra).
      split; [exact V|]. split; [rewrite V, abs_IZR; reflexivity|]. lia.
  - destruct (long_pos d ltac:(lia)) as (r & A & B & C). exists r. split; [exact A|]. split; [rewrite A, abs_IZR; reflexivity|]. lia.
Qed.
Lemma seconds_long d : in64 d -> long d -> computable d -> check_seconds d = Ok true.
Proof.
  intros I L [C1 C2]. destruct (long_any d I L) as (r & V & A & B & S1 & S2 & N).
  assert (Hi : (Z.abs r <= 2 ^ 63 - 1024)%Z).
  { apply le_IZR. rewrite <- A, <- (rr_edge (2 ^ 63 - 2047)) by lia. apply Rabs_le. rewrite <- rr_opp. split; apply rr_mono; lia. }
  unfold in64, INT64_MIN, INT64_MAX, long in *.
  assert (T : (Z.abs (r - d) <= Z.abs r / 2 ^ 52 <= 2047)%Z) by (split; [apply Z.div_le_lower_bound; lia|assert (Z.abs r / 2 ^ 52 < 2048)%Z by (apply Z.div_lt_upper_bound; lia); lia]).
  unfold check_seconds. rewrite round_trip_ok by (rewrite ?(back_int d r V); unfold in64, INT64_MIN, INT64_MAX; lia). rewrite (back_int d r V).
  rewrite (tolerance_long d (Z.abs r)) by (try exact A; lia). cbn [obind]. set (t := (Z.abs r / 2 ^ 52)%Z) in *. unfold add64, sub64.
  rewrite !chk64_ok by (unfold in64, INT64_MIN, INT64_MAX; lia). cbn [obind]. f_equal. apply andb_true_iff. rewrite Z.geb_leb, !Z.leb_le. lia.
Qed.
Lemma seconds_ub d : in64 d -> ~ computable d -> check_seconds d = UB.
Proof.
  intros I C. assert (L : long d) by (unfold computable, long, in64, INT64_MIN, INT64_MAX in *; lia).
  destruct (long_any d I L) as (r & V & A & B & S1 & S2 & N). unfold computable in C.
  assert (Lo : (2 ^ 63 - 1024 <= Z.abs r)%Z).
  { apply le_IZR. rewrite <- A, <- (rr_edge (2 ^ 63 - 2047)) by lia. unfold in64, INT64_MIN, INT64_MAX in I.
    destruct (Z_lt_le_dec d 0) as [M|M].
    - rewrite (rr_edge (2 ^ 63 - 2047)), <- (rr_edge (2 ^ 63 - 2046)) by lia. rewrite <- Rabs_Ropp, <- rr_opp. apply Rle_trans with (2 := Rle_abs _). apply rr_mono. lia.
    - apply Rle_trans with (2 := Rle_abs _). apply rr_mono. lia. }
  assert (T : (2047 <= Z.abs r / 2 ^ 52)%Z) by (apply Z.div_le_lower_bound; lia).
  unfold check_seconds. rewrite round_trip by exact I. destruct (_ && _)%bool; [|reflexivity]. cbn [obind].
  unfold in64, INT64_MIN, INT64_MAX in I. rewrite (tolerance_long d (Z.abs r)) by (try exact A; lia). cbn [obind]. set (t := (Z.abs r / 2 ^ 52)%Z) in *.
  unfold add64, sub64. destruct (Z_lt_le_dec d 0) as [M|M].
  - destruct (chk64 (d + t)) eqn:E; cbn [obind]; [|unfold chk64 in E; destruct (in64b _); discriminate E|reflexivity].
    rewrite (chk64_ub (d - t)) by (unfold in64, INT64_MIN, INT64_MAX; lia). reflexivity.
  - rewrite (chk64_ub (d + t)) by (unfold in64, INT64_MIN, INT64_MAX; lia). reflexivity.
Qed.
Lemma seconds_total d : in64 d -> (exists b, check_seconds d = Ok b) \/ check_seconds d = UB.
Proof.
  intro I. destruct (Z_lt_le_dec (Z.abs d) (2 ^ 52)) as [S|L]; [left; eexists; apply seconds_short, S|].
  destruct (Z_lt_le_dec (- (2 ^ 63 - 2046)) d) as [A|A]; [|right; apply seconds_ub; [exact I|unfold computable; lia]].
  destruct (Z_lt_le_dec d (2 ^ 63 - 2047)) as [B|B]; [|right; apply seconds_ub; [exact I|unfold computable; lia]].
  left. exists true. apply seconds_long; [exact I|exact L|split; assumption].
Qed.

(** ** What comes back below 2^23 * 10^9 times a power of two *)
Lemma nearest_pos e d : (0 <= e <= 10)%Z -> (2 ^ (52 + e) <= d <= 2 ^ (23 + e) * 10 ^ 9)%Z ->
  exists r, rr d = IZR r /\ IZR r = rd (IZR d) /\ (2 ^ e | r)%Z /\ (0 <= r < 2 ^ 63)%Z.
Proof.
  intros He [L H]. assert (E23 : (2 ^ (23 + e) * 10 ^ 9 < 2 ^ (53 + e))%Z) by (rewrite !Z.pow_add_r by lia; pose proof (Z.pow_pos_nonneg 2 e); nia).
  destruct (long_binade e d He ltac:(lia)) as (r & V & R & _ & M & N).
  assert (F : fmt (IZR (2 ^ (23 + e) * 10 ^ 9))).
  { rewrite mult_IZR, pow_bpow by lia. apply generic_format_FLT. exists (Float radix2 (10 ^ 9) (23 + e)); [unfold F2R; cbn [Fnum Fexp]; ring|vm_compute; reflexivity|cbn [Fexp]; lia]. }
  assert (D : rd (IZR d) <= IZR (2 ^ (23 + e) * 10 ^ 9)) by (rewrite <- (rd_id _ F); apply rd_le, IZR_le, H).
  assert (B : IZR (2 ^ (23 + e) * 10 ^ 9) = bpow radix2 (23 + e) * 10 ^ 9) by (rewrite mult_IZR, pow_bpow by lia; change (IZR (10 ^ 9)) with 1000000000; lra).
  rewrite B in D. specialize (N D). exists r. split; [exact V|]. rewrite <- V. split; [exact N|]. split; [exact M|].
  assert (U : (r <= 2 ^ (23 + e) * 10 ^ 9)%Z) by (apply le_IZR; rewrite <- V, N, B; exact D).
  pose proof (Z.pow_pos_nonneg 2 (52 + e) ltac:(lia) ltac:(lia)). split; [lia|].
  assert (2 ^ (23 + e) <= 2 ^ 33)%Z by (apply Z.pow_le_mono_r; lia). nia.
Qed.
Lemma nearest e d : (0 <= e <= 10)%Z -> (2 ^ (52 + e) <= Z.abs d <= 2 ^ (23 + e) * 10 ^ 9)%Z ->
  exists r, as_duration (as_seconds d) = Ok r /\ IZR r = rd (IZR d) /\ (2 ^ e | r)%Z.
Proof.
  intros He H. assert (B : (Z.abs d <= 2 ^ 33 * 10 ^ 9)%Z).
  { assert (2 ^ (23 + e) <= 2 ^ 33)%Z by (apply Z.pow_le_mono_r; lia). nia. }
  destruct (Z_lt_le_dec d 0) as [N|P].
  - destruct (nearest_pos e (- d) He ltac:(lia)) as (r & V & R & M & I). rewrite rr_opp in V. rewrite opp_IZR, rd_opp in R.
    assert (V' : rr d = IZR (- r)) by (rewrite opp_IZR; lra). exists (- r)%Z. split.
    + rewrite round_trip_ok, (back_int d _ V') by (rewrite ?(back_int d _ V'); unfold in64, INT64_MIN, INT64_MAX; lia). reflexivity.
    + split; [rewrite opp_IZR; lra|apply Z.divide_opp_r, M].
  - destruct (nearest_pos e d He ltac:(lia)) as (r & V & R & M & I). exists r. split.
    + rewrite round_trip_ok, (back_int d _ V) by (rewrite ?(back_int d _ V); unfold in64, INT64_MIN, INT64_MAX; lia). reflexivity.
    + split; [exact R|exact M].
Qed.
Lemma multiple_fmt e d : (0 <= e <= 10)%Z -> (Z.abs d <= 2 ^ (23 + e) * 10 ^ 9)%Z -> (2 ^ e | d)%Z -> rd (IZR d) = IZR d.
Proof.
  intros He H [n ->]. apply rd_id. apply generic_format_FLT. exists (Float radix2 n e); [|cbn [Fnum]|cbn [Fexp]; lia].
  - unfold F2R. cbn [Fnum Fexp]. rewrite mult_IZR, pow_bpow by lia. reflexivity.
  - rewrite Z.abs_mul, (Z.abs_eq (2 ^ e)) in H by (apply Z.pow_nonneg; lia). rewrite Z.pow_add_r in H by lia.
    pose proof (Z.pow_pos_nonneg 2 e ltac:(lia) ltac:(lia)). change (radix_val radix2 ^ 53)%Z with (2 ^ 53)%Z. nia.
Qed.
Lemma nearest_exact e d : (0 <= e <= 10)%Z -> (2 ^ (52 + e) <= Z.abs d <= 2 ^ (23 + e) * 10 ^ 9)%Z ->
  (as_duration (as_seconds d) = Ok d <-> (2 ^ e | d)%Z).
Proof.
  intros He H. destruct (nearest e d He H) as (r & A & R & M). rewrite A. split.
  - intro E. injection E as <-. exact M.
  - intro K. f_equal. apply eq_IZR. rewrite R. apply (multiple_fmt e); [exact He|lia|exact K].
Qed.

(** ** Converting again *)
Lemma fmt_grid x k : (-1000 <= k)%Z -> fmt x -> bpow radix2 k <= x -> exists n, x = IZR n * bpow radix2 (k - 52).
Proof.
  intros Hk F G. pose proof (bpow_gt_0 radix2 k) as P.
  assert (C : (k - 52 <= cexp radix2 (FLT_exp (-1074) 53) x)%Z).
  { unfold cexp, FLT_exp. assert (k + 1 <= mag radix2 x)%Z; [|lia]. apply mag_ge_bpow. replace (k + 1 - 1)%Z with k by lia. rewrite Rabs_right; lra. }
  unfold generic_format in F. set (m := Ztrunc (scaled_mantissa radix2 (FLT_exp (-1074) 53) x)) in F. set (c := cexp radix2 (FLT_exp (-1074) 53) x) in *.
  exists (m * 2 ^ (c - (k - 52)))%Z. rewrite F at 1. unfold F2R. cbn [Fnum Fexp]. rewrite mult_IZR, pow_bpow, Rmult_assoc, <- bpow_plus by lia.
  f_equal. f_equal. lia.
Qed.
Lemma upper_again e d : (0 <= e <= 10)%Z -> (2 ^ (23 + e) * 10 ^ 9 <= d < 2 ^ (53 + e))%Z -> rd (rr d / 10 ^ 9) = secs_of d.
Proof.
  intros He [L H]. set (u := bpow radix2 e). assert (U : 0 < u) by apply bpow_gt_0.
  assert (Bv : IZR (2 ^ (23 + e) * 10 ^ 9) = bpow radix2 (23 + e) * 10 ^ 9) by (rewrite mult_IZR, pow_bpow by lia; change (IZR (10 ^ 9)) with 1000000000; lra).
  assert (F : fmt (IZR (2 ^ (23 + e) * 10 ^ 9))).
  { rewrite mult_IZR, pow_bpow by lia. apply generic_format_FLT. exists (Float radix2 (10 ^ 9) (23 + e)); [unfold F2R; cbn [Fnum Fexp]; ring|vm_compute; reflexivity|cbn [Fexp]; lia]. }
  assert (F23 : fmt (bpow radix2 (23 + e))) by (apply generic_format_bpow; unfold FLT_exp; lia).
  assert (F53 : fmt (bpow radix2 (53 + e))) by (apply generic_format_bpow; unfold FLT_exp; lia).
  set (D := rd (IZR d)). set (q := secs_of d). set (x := q * 10 ^ 9).
  assert (DL : bpow radix2 (23 + e) * 10 ^ 9 <= D) by (rewrite <- Bv, <- (rd_id _ F); apply rd_le, IZR_le, L).
  assert (DH : D <= bpow radix2 (53 + e)) by (rewrite <- (rd_id _ F53); apply rd_le; rewrite <- pow_bpow by lia; apply IZR_le; lia).
  pose proof (bpow_gt_0 radix2 (23 + e)) as P.
  assert (QL : bpow radix2 (23 + e) <= q) by (rewrite <- (rd_id _ F23); apply rd_le; fold D; lra).
  assert (QH : q <= rd (bpow radix2 (53 + e) / 10 ^ 9)) by (apply rd_le; fold D; lra).
  assert (XL : bpow radix2 (23 + e) * 10 ^ 9 <= x) by (unfold x; lra).
  assert (RL : bpow radix2 (23 + e) * 10 ^ 9 <= rr d) by (rewrite <- Bv, <- (rd_id _ F), Bv; apply rd_le, XL).
  assert (RH : rr d <= bpow radix2 (53 + e)).
  { replace (53 + e)%Z with (52 + (1 + e))%Z by lia. rewrite <- pow_bpow, <- rr_power by lia. apply rr_mono. replace (52 + (1 + e))%Z with (53 + e)%Z by lia. lia. }
  destruct (Rle_lt_dec (bpow radix2 (53 + e)) x) as [X|X].
  - assert (E : rr d = bpow radix2 (53 + e)) by (apply Rle_antisym; [exact RH|rewrite <- (rd_id _ F53); apply rd_le, X]).
    rewrite E. apply Rle_antisym; [|exact QH]. rewrite <- (rd_id q) by apply rd_fmt. apply rd_le. unfold x in X. lra.
  - assert (N : Rabs (rr d - x) <= u / 2).
    { replace (u / 2) with (bpow radix2 (53 + e - 54)) by (replace (53 + e - 54)%Z with (-1 + e)%Z by lia; rewrite bpow_shift; unfold u; cbn; lra).
      apply rd_err; [lia|]. fold q x. rewrite Rabs_right; lra. }
    set (y := rr d / 10 ^ 9). assert (Y : Rabs (y - q) <= u / 2 / 10 ^ 9).
    { replace (y - q) with ((rr d - x) / 10 ^ 9) by (unfold y, x; field). unfold Rdiv at 1. rewrite Rabs_mult, (Rabs_right (/ 10 ^ 9)) by lra. lra. }
    assert (YL : bpow radix2 (23 + e) <= rd y) by (rewrite <- (rd_id _ F23); apply rd_le; unfold y; lra).
    destruct (fmt_grid (rd y) (23 + e) ltac:(lia) (rd_fmt _) YL) as [m Em]. destruct (fmt_grid q (23 + e) ltac:(lia) (rd_fmt _) QL) as [n En].
    set (v := bpow radix2 (23 + e - 52)) in *. assert (Vu : v = u * / 536870912).
    { unfold v, u. replace (23 + e - 52)%Z with (e + -29)%Z by lia. rewrite bpow_plus. reflexivity. }
    assert (Z : Rabs (rd y - q) <= u / 10 ^ 9).
    { pose proof (rd_nearest y q (rd_fmt _)) as K. rewrite (Rabs_minus_sym q y) in K. replace (rd y - q) with ((rd y - y) + (y - q)) by ring.
      apply Rle_trans with (1 := Rabs_triang _ _). lra. }
    rewrite Em, En in Z |- *. assert (Mn : (Z.abs (m - n) < 1)%Z).
    { apply lt_IZR. rewrite abs_IZR, minus_IZR. apply Rmult_lt_reg_r with v; [rewrite Vu; lra|].
      rewrite <- (Rabs_right v) at 1 by (rewrite Vu; lra). rewrite <- Rabs_mult, Rmult_minus_distr_r. apply Rle_lt_trans with (1 := Z). rewrite Vu. lra. }
    replace m with n by lia. reflexivity.
Qed.
(** From 2^52 nanoseconds on, converting again changes nothing. *)
Lemma again_pos d : (2 ^ 52 <= d < 2 ^ 63)%Z -> exists r, rr d = IZR r /\ rr r = IZR r /\ (2 ^ 52 <= r <= 2 ^ 63)%Z.
Proof.
  intros [L H]. pose proof (Z.log2_spec d ltac:(lia)) as [A B].
  assert (K : (52 <= Z.log2 d <= 62)%Z).
  { split; [apply (Z.log2_le_mono (2 ^ 52)), L|]. assert (Z.log2 d < 63)%Z; [|lia]. apply Z.log2_lt_pow2; lia. }
  destruct (long_pos d (conj L H)) as (r & V & R & _). exists r. split; [exact V|]. split; [|exact R].
  set (e := (Z.log2 d - 52)%Z). replace (Z.log2 d) with (52 + e)%Z in A, B by (unfold e; lia). replace (Z.succ (52 + e)) with (53 + e)%Z in B by lia.
  assert (He : (0 <= e <= 10)%Z) by (unfold e; lia). clearbody e.
  assert (Fr : rd (IZR r) = IZR r) by (rewrite <- V; apply rd_id, rd_fmt).
  destruct (Z_le_gt_dec d (2 ^ (23 + e) * 10 ^ 9)) as [Lo|Up].
  - destruct (nearest_pos e d He (conj A Lo)) as (r' & V' & R' & M & _). rewrite V in V'. apply eq_IZR in V'. subst r'.
    destruct (long_binade e d He (conj A B)) as (r' & V' & R2 & _ & _ & _). rewrite V in V'. apply eq_IZR in V'. subst r'.
    assert (F : fmt (IZR (2 ^ (23 + e) * 10 ^ 9))).
    { rewrite mult_IZR, pow_bpow by lia. apply generic_format_FLT. exists (Float radix2 (10 ^ 9) (23 + e)); [unfold F2R; cbn [Fnum Fexp]; ring|vm_compute; reflexivity|cbn [Fexp]; lia]. }
    assert (Hi : (r <= 2 ^ (23 + e) * 10 ^ 9)%Z) by (apply le_IZR; rewrite R', <- (rd_id _ F); apply rd_le, IZR_le, Lo).
    destruct (nearest_pos e r He ltac:(lia)) as (r' & V' & R3 & _). rewrite Fr in R3. rewrite V', R3. reflexivity.
  - pose proof (upper_again e d He ltac:(lia)) as Q. rewrite V in Q. unfold rr, secs_of at 1. rewrite Fr, Q. exact V.
Qed.
Lemma again d : in64 d -> long d -> computable d -> exists r, as_duration (as_seconds d) = Ok r /\ as_duration (as_seconds r) = Ok r.
Proof.
  intros I L C. unfold in64, INT64_MIN, INT64_MAX, long, computable in *. destruct (Z_lt_le_dec d 0) as [N|P].
  - destruct (again_pos (- d) ltac:(lia)) as (r & V & W & R). rewrite rr_opp in V.
    assert (V' : rr d = IZR (- r)) by (rewrite opp_IZR; lra). assert (W' : rr (- r) = IZR (- r)) by (rewrite rr_opp, W, opp_IZR; reflexivity).
    exists (- r)%Z. split; (rewrite round_trip_ok; [f_equal; apply back_int; assumption|unfold in64, INT64_MIN, INT64_MAX; lia|]).
    + rewrite (back_int _ _ V'). unfold in64, INT64_MIN, INT64_MAX. lia.
    + rewrite (back_int _ _ W'). unfold in64, INT64_MIN, INT64_MAX. lia.
  - destruct (again_pos d ltac:(lia)) as (r & V & W & R).
    assert (Hi : (r <= 2 ^ 63 - 1024)%Z) by (apply le_IZR; rewrite <- V, <- (rr_edge (2 ^ 63 - 2047)) by lia; apply rr_mono; lia).
    exists r. split; (rewrite round_trip_ok; [f_equal; apply back_int; assumption|unfold in64, INT64_MIN, INT64_MAX; lia|]).
    + rewrite (back_int _ _ V). unfold in64, INT64_MIN, INT64_MAX. lia.
    + rewrite (back_int _ _ W). unfold in64, INT64_MIN, INT64_MAX. lia.
Qed.
Lemma order_back d d' r r' : in64 d -> in64 d' -> (d <= d')%Z -> as_duration (as_seconds d) = Ok r -> as_duration (as_seconds d') = Ok r' -> (r <= r')%Z.
Proof.
  intros I I' H A A'. rewrite round_trip in A, A' by assumption. destruct (_ && _)%bool in A; [|discriminate A]. destruct (_ && _)%bool in A'; [|discriminate A'].
  injection A as <-. injection A' as <-. rewrite !back_rr. apply Ztrunc_le, rr_mono, H.
Qed.
