From Coq Require Import ZifyBool.
From Verif Require Import Cpp TimeModel TimeSpec.
Open Scope Z_scope.

Local Opaque Z.mul Z.quot Z.rem.

Lemma in64_dec z : {in64 z} + {~ in64 z}.
Proof.
  destruct (in64b z) eqn:E; [left; apply in64b_spec; exact E|right].
  intro H. apply in64b_spec in H. congruence.
Qed.

Ltac u64 := unfold in64, INT64_MIN, INT64_MAX in *; change (2 ^ 63) with 9223372036854775808 in *.

Lemma safe_sum_exact a b :
  in64 a -> in64 b -> exact_or_throw (a + b) (safe_sum a b).
Proof.
  intros Ha Hb. unfold exact_or_throw, safe_sum, sub64, add64.
  destruct (Z.gtb_spec a 0) as [Hp|Hp].
  - rewrite (chk64_ok (INT64_MAX - a)) by (u64; lia). cbn [obind].
    split; intro H.
    + replace (INT64_MAX - a >=? b) with true by (u64; lia). cbn [reassert obind].
      apply chk64_ok, H.
    + replace (INT64_MAX - a >=? b) with false by (u64; lia). reflexivity.
  - rewrite (chk64_ok (INT64_MIN - a)) by (u64; lia). cbn [obind].
    split; intro H.
    + replace (INT64_MIN - a <=? b) with true by (u64; lia). cbn [reassert obind].
      apply chk64_ok, H.
    + replace (INT64_MIN - a <=? b) with false by (u64; lia). reflexivity.
Qed.

Lemma safe_difference_exact a b :
  in64 a -> in64 b -> exact_or_throw (a - b) (safe_difference a b).
Proof.
  intros Ha Hb. unfold safe_difference.
  destruct (Z.eqb_spec b INT64_MIN) as [->|Hn]; cbn [negb].
  - unfold exact_or_throw, sub64. split; intro H.
    + replace (a <? 0) with true by (u64; lia). cbn [reassert obind]. apply chk64_ok, H.
    + replace (a <? 0) with false by (u64; lia). reflexivity.
  - unfold neg64. rewrite chk64_ok by (u64; lia). cbn [obind].
    replace (a - b) with (a + - b) by lia.
    apply safe_sum_exact; u64; lia.
Qed.

Lemma safe_abs_exact a : in64 a -> exact_or_throw (Z.abs a) (safe_abs a).
Proof.
  intros Ha. unfold exact_or_throw, safe_abs.
  destruct (Z.eqb_spec a INT64_MIN) as [->|Hn]; cbn [negb reassert obind].
  - split; intro H; [exfalso; u64; lia|reflexivity].
  - split; intro H; [|exfalso; u64; lia].
    destruct (Z.gtb_spec a 0); [f_equal; lia|].
    unfold neg64. rewrite chk64_ok by (u64; lia). f_equal; lia.
Qed.

(** Seconds and nanoseconds *)

Lemma quot_bounds d : in64 d ->
  in64 (Z.quot d NANO) /\ Z.abs (Z.rem d NANO) < NANO /\
  d = NANO * Z.quot d NANO + Z.rem d NANO /\ 0 <= d * Z.rem d NANO /\
  (0 <= d -> 0 <= Z.quot d NANO <= d) /\ (d <= 0 -> d <= Z.quot d NANO <= 0).
Proof.
  intro H. unfold NANO.
  assert (E := Z.quot_rem' d 1000000000).
  assert (B := Z.rem_bound_abs d 1000000000 ltac:(lia)).
  assert (S := Z.rem_sign_mul d 1000000000 ltac:(lia)).
  u64. repeat split; try lia; nia.
Qed.

Lemma cast_int32_small z : - 2 ^ 31 <= z < 2 ^ 31 -> cast_int32 z = z.
Proof. intro H. unfold cast_int32. rewrite Z.mod_small by lia. lia. Qed.

Lemma to_seconds_and_nanos_eq d : in64 d ->
  to_seconds_and_nanos d = Ok {| secs := Z.quot d NANO; nanos := Z.rem d NANO |}.
Proof.
  intro H. destruct (quot_bounds d H) as (Q & R & _).
  unfold to_seconds_and_nanos, div64, rem64.
  change (NANO =? 0) with false. cbn iota. rewrite chk64_ok by exact Q. cbn [obind].
  apply in64b_spec in Q. rewrite Q. cbn [obind].
  rewrite cast_int32_small; [reflexivity|]. unfold NANO in *. lia.
Qed.

Lemma seconds_round_trip d : in64 d ->
  exists x, to_seconds_and_nanos d = Ok x /\ from_seconds_and_nanos x = Ok d /\
    seconds_split d (secs x) (nanos x).
Proof.
  intro H. eexists; split; [apply to_seconds_and_nanos_eq, H|].
  destruct (quot_bounds d H) as (Q & R & E & S & P1 & P2).
  unfold from_seconds_and_nanos, mul64, add64, seconds_split. cbn [secs nanos].
  assert (in64 (Z.quot d NANO * NANO)) as B.
  { unfold NANO in *. u64. destruct (Z_le_gt_dec 0 d); nia. }
  rewrite chk64_ok by exact B. cbn [obind].
  replace (Z.quot d NANO * NANO + Z.rem d NANO) with d by lia.
  rewrite chk64_ok by exact H. unfold NANO in *. repeat split; lia.
Qed.

Lemma seconds_split_unique d s n s' n' :
  seconds_split d s n -> seconds_split d s' n' -> s = s' /\ n = n'.
Proof.
  unfold seconds_split. intros (E & B & S) (E' & B' & S').
  assert (Z.abs (n - n') < 1000000000).
  { destruct (Z.eq_dec d 0); [subst d; nia|].
    destruct (Z_lt_ge_dec 0 d).
    - assert (0 <= n) by nia. assert (0 <= n') by nia. lia.
    - assert (n <= 0) by nia. assert (n' <= 0) by nia. lia. }
  lia.
Qed.

(** from followed by to, on normal forms *)
Lemma seconds_from_to x d : in64 d ->
  seconds_split d (secs x) (nanos x) ->
  from_seconds_and_nanos x = Ok d /\ to_seconds_and_nanos d = Ok x.
Proof.
  intros H Hs. destruct (seconds_round_trip d H) as (y & T & F & Sy).
  destruct (seconds_split_unique _ _ _ _ _ Hs Sy) as [E1 E2].
  destruct x as [xs xn], y as [ys yn]. cbn [secs nanos] in *. subst. auto.
Qed.

(** num_samples *)

(** The span and count that num_samples computes, as plain arithmetic. *)
Definition count_of (s e dt : Z) : Z := Z.quot (Z.abs (e - s) - 1) dt + 2.

Lemma quot_pos_div a b : 0 <= a -> 0 < b -> Z.quot a b = a / b.
Proof. intros; apply Z.quot_div_nonneg; lia. Qed.

Lemma count_of_min s e dt : s <> e -> 0 < dt ->
  min_samples s e dt (count_of s e dt).
Proof.
  intros Hne Hdt. unfold min_samples, enough_samples, count_of.
  rewrite quot_pos_div by lia.
  assert (D := Z.div_mod (Z.abs (e - s) - 1) dt ltac:(lia)).
  assert (M := Z.mod_pos_bound (Z.abs (e - s) - 1) dt Hdt).
  assert (P := Z.div_pos (Z.abs (e - s) - 1) dt ltac:(lia) Hdt).
  set (q := (Z.abs (e - s) - 1) / dt) in *.
  repeat split; [lia|nia|].
  intros m [Hm1 Hm2]. nia.
Qed.

Lemma min_samples_unique s e dt n m :
  min_samples s e dt n -> min_samples s e dt m -> n = m.
Proof.
  intros [H1 H2] [H3 H4]. specialize (H2 _ H3). specialize (H4 _ H1). lia.
Qed.

Lemma num_samples_eq s e dt : in64 s -> in64 e -> in64 dt ->
  num_samples s e dt =
    if dt <=? 0 then Throw
    else if in64b (e - s) && in64b (Z.abs (e - s)) then
      if in64b (count_of s e dt) then Ok (count_of s e dt) else Throw
    else Throw.
Proof.
  intros Hs He Hdt. unfold num_samples.
  destruct (Z.leb_spec dt 0) as [Hd|Hd].
  { replace (dt >? 0) with false by lia. reflexivity. }
  replace (dt >? 0) with true by lia. cbn [reassert obind].
  destruct (safe_difference_exact e s He Hs) as [D1 D2].
  destruct (in64b (e - s)) eqn:Ed; cbn [andb].
  2:{ rewrite D2; [reflexivity|]. intro C. apply in64b_spec in C. congruence. }
  apply in64b_spec in Ed. rewrite D1 by exact Ed. cbn [obind].
  destruct (safe_abs_exact (e - s) Ed) as [A1 A2].
  destruct (in64b (Z.abs (e - s))) eqn:Ea.
  2:{ rewrite A2; [reflexivity|]. intro C. apply in64b_spec in C. congruence. }
  apply in64b_spec in Ea. rewrite A1 by exact Ea. cbn [obind].
  unfold sub64. rewrite chk64_ok by (u64; lia). cbn [obind].
  unfold div64. destruct (Z.eqb_spec dt 0); [lia|].
  assert (in64 (Z.quot (Z.abs (e - s) - 1) dt)) as Q.
  { destruct (Z.eq_dec (e - s) 0) as [E0|E0].
    - rewrite E0. change (Z.abs 0 - 1) with (-1).
      assert (Hr := Z.quot_rem' (-1) dt).
      assert (Hb := Z.rem_bound_abs (-1) dt ltac:(lia)).
      assert (Hs' := Z.rem_sign_mul (-1) dt ltac:(lia)). u64. nia.
    - rewrite quot_pos_div by lia.
      assert (0 <= (Z.abs (e - s) - 1) / dt) by (apply Z.div_pos; lia).
      assert ((Z.abs (e - s) - 1) / dt <= Z.abs (e - s) - 1).
      { apply Z.div_le_upper_bound; nia. }
      u64. lia. }
  rewrite chk64_ok by exact Q. cbn [obind].
  destruct (safe_sum_exact (Z.quot (Z.abs (e - s) - 1) dt) 2 Q ltac:(u64; lia)) as [S1 S2].
  fold (count_of s e dt) in *.
  destruct (in64b (count_of s e dt)) eqn:Ec.
  - apply S1. apply in64b_spec, Ec.
  - apply S2. intro C. apply in64b_spec in C. congruence.
Qed.

Lemma num_samples_correct s e dt : in64 s -> in64 e -> in64 dt -> s <> e ->
  (dt <= 0 -> num_samples s e dt = Throw) /\
  (0 < dt ->
   exists n, min_samples s e dt n /\
     (Z.abs (e - s) <= INT64_MAX -> n <= INT64_MAX -> num_samples s e dt = Ok n) /\
     (INT64_MAX < Z.abs (e - s) \/ INT64_MAX < n -> num_samples s e dt = Throw)).
Proof.
  intros Hs He Hdt Hne. rewrite num_samples_eq by assumption. split; intro Hd.
  - replace (dt <=? 0) with true by lia. reflexivity.
  - exists (count_of s e dt).
    assert (Hm := count_of_min s e dt Hne Hd). split; [exact Hm|].
    replace (dt <=? 0) with false by lia.
    destruct Hm as [[H1 _] _].
    split.
    + intros B C.
      replace (in64b (e - s)) with true by (symmetry; apply in64b_spec; u64; lia).
      replace (in64b (Z.abs (e - s))) with true by (symmetry; apply in64b_spec; u64; lia).
      replace (in64b (count_of s e dt)) with true by (symmetry; apply in64b_spec; u64; lia).
      reflexivity.
    + intros [B|C].
      * replace (in64b (Z.abs (e - s))) with false.
        { rewrite andb_false_r. reflexivity. }
        symmetry. apply not_true_iff_false. rewrite in64b_spec. u64; lia.
      * replace (in64b (count_of s e dt)) with false; [destruct (_ && _); reflexivity|].
        symmetry. apply not_true_iff_false. rewrite in64b_spec. u64; lia.
Qed.

(** For equal ends the result is 1 for dt = 1 and 2 for larger dt. *)
Lemma num_samples_same s dt : in64 s -> in64 dt -> 0 < dt ->
  num_samples s s dt = Ok (if dt =? 1 then 1 else 2).
Proof.
  intros Hs Hdt Hd. rewrite num_samples_eq by assumption.
  replace (dt <=? 0) with false by lia. rewrite Z.sub_diag.
  change (in64b 0 && in64b (Z.abs 0)) with true. cbn iota.
  assert (count_of s s dt = if dt =? 1 then 1 else 2) as ->.
  { unfold count_of. rewrite Z.sub_diag. change (Z.abs 0 - 1) with (-1).
    destruct (Z.eqb_spec dt 1) as [->|Hn]; [reflexivity|].
    replace (Z.quot (-1) dt) with 0; [reflexivity|].
    change (-1) with (- (1)). rewrite Z.quot_opp_l by lia.
    rewrite Z.quot_small by lia. reflexivity. }
  destruct (dt =? 1); reflexivity.
Qed.

(** The sampling loop *)

Section Positions.
  Context (T N : Z) (HN : 0 < N) (HT0 : T <> 0).

  Definition w (k : Z) := Z.quot (k * T) N.

  Definition r (k : Z) := Z.rem (k * T) N.

  Definition off (k : Z) := w k + (if 2 * r k >=? N then 1 else 0).

  Lemma wr_eq k : k * T = N * w k + r k.
  Proof using Type. apply Z.quot_rem'. Qed.

  Lemma r_abs k : Z.abs (r k) < N.
  Proof using HN HT0.
    assert (H := Z.rem_bound_abs (k * T) N ltac:(lia)). fold (r k) in H. lia.
  Qed.

  Lemma r_sign k : 0 <= k -> 0 <= r k * T.
  Proof using HN HT0.
    intro Hk. assert (H := Z.rem_sign_mul (k * T) N ltac:(lia)). fold (r k) in H.
    destruct (Z.eq_dec k 0) as [->|]; [|nia].
    replace (r 0) with 0; [lia|]. unfold r. rewrite Z.mul_0_l. reflexivity.
  Qed.

  Lemma w_step k : 0 <= k -> w (k + 1) = w k + Z.quot (r k + T) N.
  Proof using HN HT0.
    intro Hk. unfold w at 1.
    replace ((k + 1) * T) with ((r k + T) + w k * N) by (assert (E := wr_eq k); lia).
    rewrite Z.quot_add; [lia|lia|].
    replace (r k + T + w k * N) with ((k + 1) * T) by (assert (E := wr_eq k); lia).
    assert (R := r_sign k Hk).
    destruct (Z_lt_ge_dec 0 T); [assert (0 <= r k) by nia|assert (r k <= 0) by nia]; nia.
  Qed.

  Lemma r_step k : 0 <= k -> r (k + 1) = Z.rem (r k + T) N.
  Proof using HN HT0.
    intro Hk. assert (E := wr_eq (k + 1)). assert (E' := wr_eq k).
    rewrite w_step in E by exact Hk.
    assert (Q := Z.quot_rem' (r k + T) N). lia.
  Qed.

  Lemma r_N : r N = 0.
  Proof using HN HT0. unfold r. rewrite Z.mul_comm. apply Z.rem_mul. lia. Qed.

  Lemma w_N : w N = T.
  Proof using HN HT0. unfold w. rewrite Z.mul_comm. apply Z.quot_mul. lia. Qed.

  Lemma r_0 : r 0 = 0.
  Proof using HN HT0. unfold r. rewrite Z.mul_0_l. reflexivity. Qed.

  Lemma w_0 : w 0 = 0.
  Proof using HN HT0. unfold w. rewrite Z.mul_0_l. reflexivity. Qed.

  Lemma off_0 : off 0 = 0.
  Proof using HN HT0. unfold off. rewrite r_0, w_0. destruct (Z.geb_spec (2 * 0) N); lia. Qed.

  Lemma off_N : off N = T.
  Proof using HN HT0. unfold off. rewrite r_N, w_N. destruct (Z.geb_spec (2 * 0) N); lia. Qed.

  Lemma off_forward k : 0 < T -> 0 <= k ->
    0 <= 2 * (N * off k - k * T) + N <= 2 * N.
  Proof using HN HT0.
    intros HTp Hk. unfold off. assert (E := wr_eq k). assert (R := r_abs k).
    assert (S := r_sign k Hk). assert (0 <= r k) by nia.
    destruct (Z.geb_spec (2 * r k) N); nia.
  Qed.

  Lemma off_forward_lt k : 0 < T -> 0 <= k ->
    2 * (N * off k - k * T) > - N.
  Proof using HN HT0.
    intros HTp Hk. unfold off. assert (E := wr_eq k). assert (R := r_abs k).
    assert (S := r_sign k Hk). assert (0 <= r k) by nia.
    destruct (Z.geb_spec (2 * r k) N); nia.
  Qed.

  Lemma off_backward k : T < 0 -> 0 <= k -> off k = Z.quot (k * T) N.
  Proof using HN HT0.
    intros HTn Hk. unfold off. assert (S := r_sign k Hk). assert (r k <= 0) by nia.
    destruct (Z.geb_spec (2 * r k) N); [lia|]. unfold w. lia.
  Qed.

  (** Steps between neighbours. *)
  Lemma off_step k dt : 0 <= k -> Z.abs T <= dt * N ->
    Z.abs (off (k + 1) - off k) <= dt /\ 0 <= (off (k + 1) - off k) * T.
  Proof using HN HT0.
    intros Hk Hdt.
    destruct (Z_lt_ge_dec 0 T) as [HTp|HTn].
    - assert (A := off_forward k HTp Hk). assert (A' := off_forward_lt k HTp Hk).
      assert (B := off_forward (k + 1) HTp ltac:(lia)).
      assert (B' := off_forward_lt (k + 1) HTp ltac:(lia)).
      assert (U : N * (off (k + 1) - off k) < T + N) by lia.
      assert (L : N * (off (k + 1) - off k) > T - N) by lia.
      set (d := off (k + 1) - off k) in *.
      assert (0 <= d) by (destruct (Z_le_gt_dec 0 d); [assumption|nia]).
      split; [|nia].
      assert (N * d < N * (dt + 1)) by nia. nia.
    - assert (HT' : T < 0) by lia.
      rewrite !off_backward by lia.
      fold (w k) (w (k + 1)). rewrite w_step by lia.
      replace (w k + Z.quot (r k + T) N - w k) with (Z.quot (r k + T) N) by lia.
      assert (S := r_sign k Hk). assert (r k <= 0) by nia. assert (R := r_abs k).
      assert (E := Z.quot_rem' (r k + T) N).
      assert (B := Z.rem_bound_abs (r k + T) N ltac:(lia)).
      assert (Sg := Z.rem_sign_mul (r k + T) N ltac:(lia)).
      set (q := Z.quot (r k + T) N) in *. set (m := Z.rem (r k + T) N) in *.
      assert (m <= 0) by nia. assert (q <= 0) by nia.
      split; [|nia].
      assert (N * - q < N * (dt + 1)) by nia. nia.
  Qed.
End Positions.

Section Loop.
  Context (s T N : Z) (HN : 0 < N) (HT0 : T <> 0).
  Context (Hs : in64 s) (HT : in64 T) (HsT : in64 (s + T)).
  Context (HNT : N <= Z.abs T) (HT1 : Z.abs T <= INT64_MAX).
  Context (HN2 : N <= 2 ^ 62 \/ N = Z.abs T).
  Local Notation w := (w T N).
  Local Notation r := (r T N).
  Local Notation off := (off T N).
  Local Notation wr_eq := (wr_eq T N).
  Local Notation r_abs := (r_abs T N HN HT0).
  Local Notation r_sign := (r_sign T N HN HT0).
  Local Notation w_step := (w_step T N HN HT0).
  Local Notation r_step := (r_step T N HN HT0).
  Local Notation r_N := (r_N T N HN HT0).
  Local Notation w_N := (w_N T N HN HT0).

  Lemma w_bound k : 0 <= k <= N ->
    (0 < T -> 0 <= w k <= T) /\ (T < 0 -> T <= w k <= 0).
  Proof.
    intro Hk. assert (E := wr_eq k). assert (R := r_abs k). assert (S := r_sign k ltac:(lia)).
    split; intro; [assert (0 <= r k) by nia|assert (r k <= 0) by nia]; nia.
  Qed.

  Lemma off_bound k : 0 <= k <= N ->
    (0 < T -> 0 <= off k <= T) /\ (T < 0 -> T <= off k <= 0).
  Proof.
    intro Hk. destruct (w_bound k Hk) as [W1 W2]. unfold off.
    assert (S := r_sign k ltac:(lia)). assert (E := wr_eq k). assert (R := r_abs k).
    split; intro HTs.
    - specialize (W1 HTs). assert (0 <= r k) by nia.
      destruct (Z.geb_spec (2 * r k) N); [|lia].
      split; [lia|]. assert (w k < T) by nia. lia.
    - specialize (W2 HTs). assert (r k <= 0) by nia.
      destruct (Z.geb_spec (2 * r k) N); lia.
  Qed.

  Lemma dbl_ok k : 0 <= k -> in64 (2 * r k).
  Proof.
    intro Hk. assert (R := r_abs k). u64.
    destruct HN2 as [H|H].
    - change (2 ^ 62) with 4611686018427387904 in H. lia.
    - assert (r k = 0); [|lia]. unfold r.
      destruct (Z_lt_ge_dec 0 T).
      + replace N with T by lia. apply Z.rem_mul. lia.
      + replace N with (- T) by lia. rewrite Z.rem_opp_r by lia. apply Z.rem_mul. lia.
  Qed.

  (** What one pass of the loop body does. *)
  Lemma body_call k : 0 <= k <= N ->
    (let* dbl := mul64 2 (r k) in
     let* rounded := add64 (w k) (if dbl >=? N then 1 else 0) in
     add64 s rounded) = Ok (s + off k).
  Proof.
    intro Hk. unfold mul64, add64. rewrite chk64_ok by (apply dbl_ok; lia). cbn [obind].
    fold (off k). destruct (off_bound k Hk) as [O1 O2].
    assert (in64 (off k)).
    { destruct (Z_lt_ge_dec 0 T); [specialize (O1 ltac:(lia))|specialize (O2 ltac:(lia))]; u64; lia. }
    rewrite chk64_ok by assumption. cbn [obind].
    apply chk64_ok.
    destruct (Z_lt_ge_dec 0 T); [specialize (O1 ltac:(lia))|specialize (O2 ltac:(lia))]; u64; lia.
  Qed.

  Definition body_next (whole numerator : Z) : outcome (Z * Z) :=
    let* num := safe_sum numerator T in
    let* q := div64 num N in
    let* whole' := add64 whole q in
    let* numerator' := rem64 num N in
    Ok (whole', numerator').

  Lemma body_next_eq k : 0 <= k <= N ->
    body_next (w k) (r k) =
      if in64b (r k + T) then
        if in64b (w (k + 1)) then Ok (w (k + 1), r (k + 1)) else UB
      else Throw.
  Proof.
    intro Hk. unfold body_next.
    assert (R := r_abs k).
    assert (in64 (r k)) as Hr by (u64; lia).
    destruct (safe_sum_exact (r k) T Hr HT) as [S1 S2].
    destruct (in64b (r k + T)) eqn:Ei.
    2:{ rewrite S2; [reflexivity|]. intro C. apply in64b_spec in C. congruence. }
    apply in64b_spec in Ei. rewrite S1 by exact Ei. cbn [obind].
    unfold div64, rem64, add64.
    destruct (Z.eqb_spec N 0); [lia|].
    assert (in64 (Z.quot (r k + T) N)) as Q.
    { assert (E := Z.quot_rem' (r k + T) N).
      assert (B := Z.rem_bound_abs (r k + T) N ltac:(lia)).
      assert (S := Z.rem_sign_mul (r k + T) N ltac:(lia)). u64.
      destruct (Z_le_gt_dec 0 (r k + T)); nia. }
    rewrite chk64_ok by exact Q. cbn [obind].
    rewrite <- w_step by lia. unfold chk64.
    destruct (in64b (w (k + 1))) eqn:Ew; [|reflexivity]. cbn [obind].
    apply in64b_spec in Q. rewrite Q. cbn [obind].
    rewrite <- r_step by lia. reflexivity.
  Qed.

  Lemma loop_unfold n k : 0 <= k <= N ->
    sample_loop s T N (S n) (w k) (r k) =
      match body_next (w k) (r k) with
      | Throw => ([s + off k], Throw)
      | UB => ([s + off k], UB)
      | Ok (whole', numerator') =>
          let (calls, o) := sample_loop s T N n whole' numerator' in
          (s + off k :: calls, o)
      end.
  Proof.
    intro Hk. cbn [sample_loop]. rewrite (body_call k Hk). reflexivity.
  Qed.

  Lemma w_in64 k : 0 <= k <= N -> in64 (w k).
  Proof.
    intro Hk. destruct (w_bound k Hk) as [W1 W2].
    destruct (Z_lt_ge_dec 0 T); [specialize (W1 ltac:(lia))|specialize (W2 ltac:(lia))]; u64; lia.
  Qed.

  (** The calls made are the positions s + off k, s + off (k+1), ... in order, as
      far as the loop gets. *)
  Lemma loop_calls n k : 0 <= k -> k + Z.of_nat n <= N + 1 ->
    forall i t, nth_error (fst (sample_loop s T N n (w k) (r k))) i = Some t ->
    t = s + off (k + Z.of_nat i).
  Proof.
    revert k. induction n as [|n IH]; intros k Hk Hn i t.
    - cbn. destruct i; discriminate.
    - rewrite loop_unfold by lia. rewrite body_next_eq by lia.
      destruct (in64b (r k + T)); [destruct (in64b (w (k + 1)))|].
      + destruct (sample_loop s T N n (w (k + 1)) (r (k + 1))) as [calls o] eqn:El.
        cbn [fst]. destruct i as [|i]; cbn [nth_error].
        * intros [= <-]. rewrite Z.add_0_r. reflexivity.
        * intro Hi. specialize (IH (k + 1) ltac:(lia) ltac:(lia) i t).
          rewrite El in IH. cbn [fst] in IH. rewrite (IH Hi). f_equal. f_equal. lia.
      + cbn [fst]. destruct i as [|[|i]]; cbn; try discriminate.
        intros [= <-]. rewrite Z.add_0_r. reflexivity.
      + cbn [fst]. destruct i as [|[|i]]; cbn; try discriminate.
        intros [= <-]. rewrite Z.add_0_r. reflexivity.
  Qed.

  (** How the loop ends. *)
  Lemma loop_end n k : 0 <= k -> k + Z.of_nat n = N + 1 ->
    match snd (sample_loop s T N n (w k) (r k)) with
    | Ok _ =>
        (forall j, k <= j < N -> in64 (r j + T)) /\
        (0 < Z.of_nat n -> in64 (w (N + 1))) /\
        length (fst (sample_loop s T N n (w k) (r k))) = n
    | Throw =>
        (exists j, k <= j < N /\ ~ in64 (r j + T)) /\
        (length (fst (sample_loop s T N n (w k) (r k))) < n)%nat
    | UB =>
        (forall j, k <= j < N -> in64 (r j + T)) /\
        ~ in64 (w (N + 1)) /\
        length (fst (sample_loop s T N n (w k) (r k))) = n
    end.
  Proof.
    revert k. induction n as [|n IH]; intros k Hk Hn.
    - cbn. repeat split; intros; lia.
    - rewrite loop_unfold by lia. rewrite body_next_eq by lia.
      assert (k = N -> in64 (r k + T)) as HkN.
      { intros ->. rewrite r_N. exact HT. }
      destruct (in64b (r k + T)) eqn:Er; [destruct (in64b (w (k + 1))) eqn:Ew|].
      + specialize (IH (k + 1) ltac:(lia) ltac:(lia)).
        destruct (sample_loop s T N n (w (k + 1)) (r (k + 1))) as [calls o] eqn:El.
        cbn [fst snd] in *. apply in64b_spec in Er, Ew.
        destruct o as [u| |].
        * destruct IH as (I1 & I2 & I3). cbn [length]. split; [|split; [intros|lia]].
          -- intros j Hj. destruct (Z.eq_dec j k) as [->|]; [exact Er|apply I1; lia].
          -- destruct n as [|n']; [|apply I2; lia].
             replace (N + 1) with (k + 1) by lia. exact Ew.
        * destruct IH as ((j & Hj & Hj') & I2). cbn [length]. split; [|lia].
          exists j. split; [lia|exact Hj'].
        * destruct IH as (I1 & I2 & I3). cbn [length]. split; [|split; [exact I2|lia]].
          intros j Hj. destruct (Z.eq_dec j k) as [->|]; [exact Er|apply I1; lia].
      + apply in64b_spec in Er.
        assert (~ in64 (w (k + 1))) as Hw.
        { intro C. apply in64b_spec in C. congruence. }
        assert (k = N) as EkN.
        { destruct (Z.eq_dec k N); [assumption|]. exfalso. apply Hw, w_in64. lia. }
        cbn [fst snd length]. split; [|split].
        * intros j Hj. replace j with k in * by lia. exact Er.
        * replace (N + 1) with (k + 1) by lia. exact Hw.
        * assert (n = O) by lia. subst n. reflexivity.
      + assert (~ in64 (r k + T)) as Hr.
        { intro C. apply in64b_spec in C. congruence. }
        assert (k <> N) by (intro; apply Hr, HkN; assumption).
        cbn [fst snd length]. split; [|lia].
        exists k. split; [lia|exact Hr].
  Qed.
End Loop.

(** sample_interval *)

Lemma count_intervals s e dt : s <> e -> 0 < dt -> in64 dt ->
  Z.abs (e - s) <= INT64_MAX ->
  let N := count_of s e dt - 1 in
  0 < N /\ N <= Z.abs (e - s) /\ (N <= 2 ^ 62 \/ N = Z.abs (e - s)) /\
  Z.abs (e - s) <= dt * N.
Proof.
  intros Hne Hdt Hd HT N. unfold N, count_of.
  rewrite quot_pos_div by lia.
  assert (D := Z.div_mod (Z.abs (e - s) - 1) dt ltac:(lia)).
  assert (M := Z.mod_pos_bound (Z.abs (e - s) - 1) dt Hdt).
  assert (P := Z.div_pos (Z.abs (e - s) - 1) dt ltac:(lia) Hdt).
  set (q := (Z.abs (e - s) - 1) / dt) in *. set (m := (Z.abs (e - s) - 1) mod dt) in *.
  u64. change (2 ^ 62) with 4611686018427387904.
  repeat split; [lia|nia| |nia].
  destruct (Z.eq_dec dt 1) as [->|]; [right; lia|left]. nia.
Qed.

Lemma pre_of_count s e dt : in64 s -> in64 e -> in64 dt -> s <> e ->
  (let* samples := num_samples s e dt in
   let* intervals := sub64 samples 1 in
   let* total_time := safe_difference e s in
   Ok (samples, intervals, total_time)) =
  if (0 <? dt) && in64b (Z.abs (e - s)) && in64b (count_of s e dt)
  then Ok (count_of s e dt, count_of s e dt - 1, e - s) else Throw.
Proof.
  intros Hs He Hdt Hne. rewrite num_samples_eq by assumption.
  destruct (Z.leb_spec dt 0) as [Hd|Hd].
  { replace (0 <? dt) with false by lia. reflexivity. }
  replace (0 <? dt) with true by lia. cbn [andb].
  destruct (in64b (Z.abs (e - s))) eqn:Ea.
  2:{ rewrite andb_false_r. reflexivity. }
  apply in64b_spec in Ea.
  assert (in64 (e - s)) as Ed by (u64; lia).
  assert (Ed' := Ed). apply in64b_spec in Ed'. rewrite Ed'. cbn [andb].
  destruct (in64b (count_of s e dt)) eqn:Ec; [|reflexivity].
  apply in64b_spec in Ec. cbn [obind]. unfold sub64.
  destruct (count_intervals s e dt Hne Hd Hdt ltac:(u64; lia)) as (N1 & _).
  rewrite chk64_ok by (u64; lia). cbn [obind].
  destruct (safe_difference_exact e s He Hs) as [D1 _]. rewrite D1 by exact Ed. reflexivity.
Qed.

(** The facts about the loop for the actual parameters. *)
Lemma sample_interval_run s e dt : in64 s -> in64 e -> in64 dt -> s <> e ->
  0 < dt -> Z.abs (e - s) <= INT64_MAX -> count_of s e dt <= INT64_MAX ->
  sample_interval s e dt =
    sample_loop s (e - s) (count_of s e dt - 1) (Z.to_nat (count_of s e dt)) 0 0.
Proof.
  intros Hs He Hdt Hne Hd HT Hc. unfold sample_interval.
  destruct (Z.eqb_spec s e); [contradiction|].
  rewrite pre_of_count by assumption.
  destruct (count_intervals s e dt Hne Hd Hdt HT) as (N1 & _).
  replace (0 <? dt) with true by lia.
  replace (in64b (Z.abs (e - s))) with true by (symmetry; apply in64b_spec; u64; lia).
  replace (in64b (count_of s e dt)) with true by (symmetry; apply in64b_spec; u64; lia).
  reflexivity.
Qed.

(** Everything known about a call, in terms of the minimal sample count [n]. *)
Lemma sample_interval_full s e dt n : in64 s -> in64 e -> in64 dt -> s <> e ->
  0 < dt -> Z.abs (e - s) <= INT64_MAX -> min_samples s e dt n -> n <= INT64_MAX ->
  exists calls o, sample_interval s e dt = (calls, o) /\
    (forall i t, nth_error calls i = Some t ->
       t = s + off (e - s) (n - 1) (Z.of_nat i)) /\
    match o with
    | Ok _ =>
        (forall j, 0 <= j < n - 1 -> in64 (Z.rem (j * (e - s)) (n - 1) + (e - s))) /\
        in64 ((e - s) + Z.quot (e - s) (n - 1)) /\ Z.of_nat (length calls) = n
    | Throw =>
        (exists j, 0 <= j < n - 1 /\ ~ in64 (Z.rem (j * (e - s)) (n - 1) + (e - s))) /\
        Z.of_nat (length calls) < n
    | UB =>
        (forall j, 0 <= j < n - 1 -> in64 (Z.rem (j * (e - s)) (n - 1) + (e - s))) /\
        ~ in64 ((e - s) + Z.quot (e - s) (n - 1)) /\ Z.of_nat (length calls) = n
    end.
Proof.
  intros Hs He Hdt Hne Hd HT Hm Hn.
  assert (n = count_of s e dt) as En.
  { apply (min_samples_unique s e dt); [exact Hm|apply count_of_min; assumption]. }
  destruct (count_intervals s e dt Hne Hd Hdt HT) as (N1 & N2 & N3 & N4).
  rewrite <- En in *. set (T := e - s) in *. set (N := n - 1) in *.
  rewrite sample_interval_run by (rewrite <- ?En; assumption). rewrite <- En. fold T N.
  assert (in64 T) as HT64 by (u64; lia).
  assert (in64 (s + T)) as HsT by (unfold T; replace (s + (e - s)) with e by lia; exact He).
  assert (T <> 0) as HT0 by (unfold T; lia).
  assert (w (T) N (N + 1) = T + Z.quot T N) as EW.
  { rewrite w_step by (assumption || lia).
    rewrite w_N, r_N by assumption. rewrite Z.add_0_l. reflexivity. }
  pose proof (loop_calls s T N N1 HT0 Hs HT64 HsT N2 HT N3 (Z.to_nat n) 0) as LC.
  pose proof (loop_end s T N N1 HT0 Hs HT64 HsT N2 HT N3 (Z.to_nat n) 0) as LE.
  rewrite w_0, r_0 in LC, LE by assumption.
  specialize (LC ltac:(lia) ltac:(unfold N; lia)).
  specialize (LE ltac:(lia) ltac:(unfold N; lia)).
  destruct (sample_loop s T N (Z.to_nat n) 0 0) as [calls o].
  cbn [fst snd] in *. exists calls, o. split; [reflexivity|].
  split.
  { intros i t Hi. rewrite (LC i t Hi). f_equal. }
  rewrite EW in LE. unfold r in LE.
  destruct o as [u| |].
  - destruct LE as (L1 & L2 & L3). split; [exact L1|split; [apply L2; lia|lia]].
  - destruct LE as (L1 & L2). split; [exact L1|lia].
  - destruct LE as (L1 & L2 & L3). split; [exact L1|split; [exact L2|lia]].
Qed.

Lemma sample_interval_rejects s e dt : in64 s -> in64 e -> in64 dt -> s <> e ->
  (dt <= 0 \/ INT64_MAX < Z.abs (e - s) \/
   (0 < dt /\ exists n, min_samples s e dt n /\ INT64_MAX < n)) ->
  sample_interval s e dt = ([], Throw).
Proof.
  intros Hs He Hdt Hne H. unfold sample_interval.
  destruct (Z.eqb_spec s e); [contradiction|].
  rewrite pre_of_count by assumption.
  destruct H as [H|[H|(Hp & n' & Hm & H)]].
  - replace (0 <? dt) with false by lia. reflexivity.
  - replace (in64b (Z.abs (e - s))) with false; [rewrite andb_false_r; reflexivity|].
    symmetry. apply not_true_iff_false. rewrite in64b_spec. u64; lia.
  - assert (n' = count_of s e dt) as <-.
    { apply (min_samples_unique s e dt); [exact Hm|apply count_of_min; assumption]. }
    replace (in64b n') with false; [rewrite andb_false_r; reflexivity|].
    symmetry. apply not_true_iff_false. rewrite in64b_spec. u64; lia.
Qed.

(** Facts needed by the property theorems. *)

Lemma accepted_params s e dt calls : in64 s -> in64 e -> in64 dt -> s <> e ->
  forall o, sample_interval s e dt = (calls, o) -> o <> Throw \/ calls <> [] ->
  0 < dt /\ Z.abs (e - s) <= INT64_MAX /\ count_of s e dt <= INT64_MAX.
Proof.
  intros Hs He Hdt Hne o E Ho.
  destruct (Z_lt_ge_dec 0 dt) as [Hd|Hd].
  2:{ rewrite sample_interval_rejects in E by (assumption || (left; lia)).
      injection E as <- <-. destruct Ho; congruence. }
  destruct (Z_lt_ge_dec INT64_MAX (Z.abs (e - s))) as [HT|HT].
  { rewrite sample_interval_rejects in E by (assumption || (right; left; lia)).
    injection E as <- <-. destruct Ho; congruence. }
  destruct (Z_lt_ge_dec INT64_MAX (count_of s e dt)) as [Hc|Hc].
  { rewrite sample_interval_rejects in E.
    - injection E as <- <-. destruct Ho; congruence.
    - assumption.
    - assumption.
    - assumption.
    - assumption.
    - right; right. split; [exact Hd|]. exists (count_of s e dt).
      split; [apply count_of_min; assumption|exact Hc]. }
  lia.
Qed.

Lemma cover_of_calls s e dt n calls : s <> e -> 0 < dt ->
  Z.abs (e - s) <= INT64_MAX -> in64 dt ->
  min_samples s e dt n -> Z.of_nat (length calls) = n ->
  (forall i t, nth_error calls i = Some t -> t = s + off (e - s) (n - 1) (Z.of_nat i)) ->
  even_cover s e dt calls.
Proof.
  intros Hne Hd HT Hdt Hm Hl Hc.
  assert (n = count_of s e dt) as En.
  { apply (min_samples_unique s e dt); [exact Hm|apply count_of_min; assumption]. }
  destruct (count_intervals s e dt Hne Hd Hdt HT) as (N1 & N2 & N3 & N4).
  rewrite <- En in *.
  unfold even_cover. split; [|split].
  - destruct (nth_error calls 0) as [t|] eqn:E0.
    + rewrite (Hc _ _ E0). rewrite off_0 by (assumption || lia). f_equal; lia.
    + apply nth_error_None in E0. lia.
  - destruct (nth_error calls (length calls - 1)) as [t|] eqn:E0.
    + rewrite (Hc _ _ E0). replace (Z.of_nat (length calls - 1)) with (n - 1) by lia.
      rewrite off_N by (assumption || lia). f_equal; lia.
    + apply nth_error_None in E0. lia.
  - unfold neighbours. intros i a b Ha Hb.
    rewrite (Hc _ _ Ha), (Hc _ _ Hb).
    replace (Z.of_nat (S i)) with (Z.of_nat i + 1) by lia.
    assert (O := off_step (e - s) (n - 1) N1 ltac:(lia) (Z.of_nat i) dt ltac:(lia) N4).
    set (x := off (e - s) (n - 1) (Z.of_nat i + 1)) in *.
    set (y := off (e - s) (n - 1) (Z.of_nat i)) in *.
    replace (s + x - (s + y)) with (x - y) by lia. exact O.
Qed.

Lemma sample_interval_cover s e dt calls o :
  in64 s -> in64 e -> in64 dt -> s <> e ->
  sample_interval s e dt = (calls, o) -> o <> Throw ->
  num_samples s e dt = Ok (Z.of_nat (length calls)) /\
  min_samples s e dt (Z.of_nat (length calls)) /\
  even_cover s e dt calls.
Proof.
  intros Hs He Hdt Hne E Ho.
  destruct (accepted_params s e dt calls Hs He Hdt Hne o E (or_introl Ho)) as (Hd & HT & Hc).
  assert (Hm := count_of_min s e dt Hne Hd).
  destruct (sample_interval_full s e dt _ Hs He Hdt Hne Hd HT Hm Hc) as (cs & o' & E' & C & O).
  rewrite E in E'. injection E' as <- <-.
  assert (Z.of_nat (length calls) = count_of s e dt) as L.
  { destruct o; [apply O|congruence|apply O]. }
  rewrite L. split; [|split; [exact Hm|]].
  - rewrite num_samples_eq by assumption. replace (dt <=? 0) with false by lia.
    destruct (count_intervals s e dt Hne Hd Hdt HT) as (N1 & _).
    replace (in64b (e - s)) with true by (symmetry; apply in64b_spec; u64; lia).
    replace (in64b (Z.abs (e - s))) with true by (symmetry; apply in64b_spec; u64; lia).
    replace (in64b (count_of s e dt)) with true by (symmetry; apply in64b_spec; u64; lia).
    reflexivity.
  - eapply cover_of_calls; eassumption.
Qed.

Lemma calls_offsets s e dt calls o i t :
  in64 s -> in64 e -> in64 dt -> s <> e ->
  sample_interval s e dt = (calls, o) -> nth_error calls i = Some t ->
  exists n, min_samples s e dt n /\ 0 < n - 1 /\ Z.of_nat i <= n - 1 /\
    t = s + off (e - s) (n - 1) (Z.of_nat i).
Proof.
  intros Hs He Hdt Hne E Hi.
  assert (calls <> []) as Hnn by (intros ->; destruct i; discriminate).
  destruct (accepted_params s e dt calls Hs He Hdt Hne o E (or_intror Hnn)) as (Hd & HT & Hc).
  assert (Hm := count_of_min s e dt Hne Hd).
  destruct (sample_interval_full s e dt _ Hs He Hdt Hne Hd HT Hm Hc) as (cs & o' & E' & C & O).
  rewrite E in E'. injection E' as <- <-.
  exists (count_of s e dt). destruct (count_intervals s e dt Hne Hd Hdt HT) as (N1 & _).
  assert (i < length calls)%nat by (apply nth_error_Some; congruence).
  assert (Z.of_nat (length calls) <= count_of s e dt).
  { destruct o.
    - destruct O as (_ & _ & O). lia.
    - destruct O as (_ & O). lia.
    - destruct O as (_ & _ & O). lia. }
  repeat split; [apply Hm|apply Hm|apply Hm|exact N1|lia|].
  apply C, Hi.
Qed.

Lemma nearest_of_half t s p q : 0 < q -> 2 * Z.abs (q * (t - s) - p) <= q ->
  nearest_to t s p q.
Proof.
  intros Hq H t'. destruct (Z.eq_dec t t') as [->|Hn]; [lia|].
  assert (Z.abs (q * (t' - s) - q * (t - s)) >= q).
  { replace (q * (t' - s) - q * (t - s)) with (q * (t' - t)) by lia.
    rewrite Z.abs_mul, (Z.abs_eq q) by lia.
    assert (1 <= Z.abs (t' - t)) by lia. nia. }
  lia.
Qed.

Lemma forward_nearest s e dt calls o i t :
  in64 s -> in64 e -> in64 dt -> s < e ->
  sample_interval s e dt = (calls, o) -> nth_error calls i = Some t ->
  exists n, min_samples s e dt n /\
    nearest_to t s (Z.of_nat i * (e - s)) (n - 1).
Proof.
  intros Hs He Hdt Hlt E Hi.
  destruct (calls_offsets s e dt calls o i t Hs He Hdt ltac:(lia) E Hi) as (n & Hm & Hn & Hi' & ->).
  exists n. split; [exact Hm|]. apply nearest_of_half; [exact Hn|].
  assert (F := off_forward (e - s) (n - 1) Hn ltac:(lia) (Z.of_nat i) ltac:(lia) ltac:(lia)).
  replace (s + off (e - s) (n - 1) (Z.of_nat i) - s) with (off (e - s) (n - 1) (Z.of_nat i)) by lia.
  set (x := off (e - s) (n - 1) (Z.of_nat i)) in *. nia.
Qed.

Lemma backward_truncated s e dt calls o i t :
  in64 s -> in64 e -> in64 dt -> e < s ->
  sample_interval s e dt = (calls, o) -> nth_error calls i = Some t ->
  exists n, min_samples s e dt n /\
    (n - 1) * (s - t) <= Z.of_nat i * (s - e) < (n - 1) * (s - t + 1).
Proof.
  intros Hs He Hdt Hlt E Hi.
  destruct (calls_offsets s e dt calls o i t Hs He Hdt ltac:(lia) E Hi) as (n & Hm & Hn & Hi' & ->).
  exists n. split; [exact Hm|].
  rewrite (off_backward (e - s) (n - 1) Hn ltac:(lia) (Z.of_nat i) ltac:(lia) ltac:(lia)).
  assert (Q := Z.quot_rem' (Z.of_nat i * (e - s)) (n - 1)).
  assert (B := Z.rem_bound_abs (Z.of_nat i * (e - s)) (n - 1) ltac:(lia)).
  assert (S := Z.rem_sign_mul (Z.of_nat i * (e - s)) (n - 1) ltac:(lia)).
  set (q := Z.quot (Z.of_nat i * (e - s)) (n - 1)) in *.
  set (m := Z.rem (Z.of_nat i * (e - s)) (n - 1)) in *.
  assert (m <= 0).
  { destruct (Z.eq_dec (Z.of_nat i) 0) as [E0|E0].
    - unfold m. rewrite E0, Z.mul_0_l. reflexivity.
    - assert (Z.of_nat i * (e - s) < 0) by nia. clear Q.
      set (a := Z.of_nat i * (e - s)) in *. nia. }
  replace (s - (s + q)) with (- q) by lia.
  replace (Z.of_nat i * (s - e)) with (- (Z.of_nat i * (e - s))) by lia. lia.
Qed.

Lemma backward_within_one s e dt calls o i t :
  in64 s -> in64 e -> in64 dt -> e < s ->
  sample_interval s e dt = (calls, o) -> nth_error calls i = Some t ->
  exists n, min_samples s e dt n /\
    Z.abs ((n - 1) * (t - s) - Z.of_nat i * (e - s)) < n - 1.
Proof.
  intros Hs He Hdt Hlt E Hi.
  destruct (backward_truncated s e dt calls o i t Hs He Hdt Hlt E Hi) as (n & Hm & H1 & H2).
  exists n. split; [exact Hm|]. lia.
Qed.

Lemma outcome_cases s e dt n : in64 s -> in64 e -> in64 dt -> s <> e ->
  0 < dt -> Z.abs (e - s) <= INT64_MAX -> min_samples s e dt n -> n <= INT64_MAX ->
  let T := e - s in
  let carry_overflow := exists j, 0 <= j < n - 1 /\ ~ in64 (Z.rem (j * T) (n - 1) + T) in
  let last_overflow := ~ in64 (T + Z.quot T (n - 1)) in
  (snd (sample_interval s e dt) = Throw <-> carry_overflow) /\
  (snd (sample_interval s e dt) = UB <-> ~ carry_overflow /\ last_overflow) /\
  (snd (sample_interval s e dt) = Ok tt <-> ~ carry_overflow /\ ~ last_overflow).
Proof.
  intros Hs He Hdt Hne Hd HT Hm Hn T carry last.
  destruct (sample_interval_full s e dt n Hs He Hdt Hne Hd HT Hm Hn) as (cs & o & -> & C & O).
  cbn [snd]. fold T in O.
  assert (NC : (forall j, 0 <= j < n - 1 -> in64 (Z.rem (j * T) (n - 1) + T)) -> ~ carry).
  { intros A (j & Hj & Hj'). apply Hj', A, Hj. }
  destruct o as [[]| |].
  - destruct O as (O1 & O2 & _). specialize (NC O1).
    repeat split; try congruence; try tauto. intros [_ L]. exfalso. apply L, O2.
  - destruct O as (O1 & _). repeat split; try congruence; try tauto.
  - destruct O as (O1 & O2 & _). specialize (NC O1).
    repeat split; try congruence; try tauto.
Qed.

Lemma safe_below s e dt : in64 s -> in64 e -> in64 dt -> 0 < dt ->
  Z.abs (e - s) < 2 ^ 62 -> snd (sample_interval s e dt) = Ok tt.
Proof.
  intros Hs He Hdt Hd HT.
  destruct (Z.eq_dec s e) as [->|Hne].
  { unfold sample_interval. rewrite Z.eqb_refl. reflexivity. }
  change (2 ^ 62) with 4611686018427387904 in HT.
  assert (Z.abs (e - s) <= INT64_MAX) as HT' by (u64; lia).
  assert (Hm := count_of_min s e dt Hne Hd).
  destruct (count_intervals s e dt Hne Hd Hdt HT') as (N1 & N2 & _).
  apply (outcome_cases s e dt _ Hs He Hdt Hne Hd HT' Hm ltac:(u64; lia)).
  set (N := count_of s e dt - 1) in *. split.
  - intros (j & Hj & Hj'). apply Hj'.
    assert (B := Z.rem_bound_abs (j * (e - s)) N ltac:(lia)). u64. lia.
  - intro L. apply L.
    assert (Q := Z.quot_rem' (e - s) N).
    assert (B := Z.rem_bound_abs (e - s) N ltac:(lia)).
    assert (S := Z.rem_sign_mul (e - s) N ltac:(lia)).
    set (q := Z.quot (e - s) N) in *. set (m := Z.rem (e - s) N) in *.
    assert (Z.abs q <= Z.abs (e - s)) by (destruct (Z_le_gt_dec 0 (e - s)); nia).
    u64. lia.
Qed.
