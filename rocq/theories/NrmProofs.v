(** Proofs about the time lookup of TCurve in double precision. *)
From Coq Require Import Reals Lra Lia.
From Flocq Require Import Core BinarySingleNaN Relative Plus_error.
From Verif Require Import Cpp TimeModel FloatModel FloatSpec FloatProofs NrmModel NrmSpec.
Local Open Scope R_scope.

Local Notation fmt := (generic_format radix2 (FLT_exp (-1074) 53)).
(** ** The order of doubles *)
Lemma val_fmt x : fmt (val x).
Proof. apply (generic_format_B2R 53 1024). Qed.
Lemma val_bound x : Rabs (val x) < 2 ^ 1024.
Proof. rewrite <- bpow_1024. apply (abs_B2R_lt_emax 53 1024). Qed.
Lemma nan_dec (x : f64) : {x = B754_nan} + {x <> B754_nan}.
Proof. destruct x; (left; reflexivity) || (right; discriminate). Qed.
Lemma pow_1024_pos : 0 < 2 ^ 1024.
Proof. apply pow_lt. lra. Qed.
Lemma place_bound x : - 2 ^ 1024 <= place x <= 2 ^ 1024.
Proof.
  pose proof pow_1024_pos. pose proof (val_bound x) as B. apply Rabs_def2 in B.
  destruct x as [s|[|]| |s m e b]; unfold place; lra.
Qed.
Lemma place_finite x : finite x -> place x = val x.
Proof. destruct x; intro F; reflexivity || discriminate F. Qed.
Lemma flt_place x y : x <> B754_nan -> y <> B754_nan -> (flt x y = true <-> place x < place y).
Proof.
  intros NX NY. pose proof pow_1024_pos. pose proof (val_bound x) as BX. apply Rabs_def2 in BX.
  pose proof (val_bound y) as BY. apply Rabs_def2 in BY.
  destruct (is_finite x) eqn:FX, (is_finite y) eqn:FY.
  - rewrite (place_finite x FX), (place_finite y FY). apply flt_val; assumption.
  - rewrite (place_finite x FX). destruct y as [s|[|]| |s m e b]; try discriminate FY; try congruence;
      unfold place; destruct x as [s'|s'| |s' m' e' b']; try discriminate FX; cbn [flt];
      (split; intro K; [first [discriminate K | lra] | first [reflexivity | lra]]).
  - rewrite (place_finite y FY). destruct x as [s|[|]| |s m e b]; try discriminate FX; try congruence;
      unfold place; destruct y as [s'|s'| |s' m' e' b']; try discriminate FY;
      (split; intro K; [first [discriminate K | lra] | first [reflexivity | lra]]).
  - destruct x as [s|[|]| |s m e b]; try discriminate FX; try congruence;
      destruct y as [s'|[|]| |s' m' e' b']; try discriminate FY; try congruence; unfold place;
      (split; intro K; [first [discriminate K | lra] | first [reflexivity | lra]]).
Qed.
Lemma flt_nan_l x : flt B754_nan x = false.
Proof. destruct x; reflexivity. Qed.
Lemma flt_nan_r x : flt x B754_nan = false.
Proof. destruct x as [s|[|]| |[|] m e b]; reflexivity. Qed.
Lemma flt_not_nan x y : flt x y = true -> x <> B754_nan /\ y <> B754_nan.
Proof. intro H. split; intros ->; [rewrite flt_nan_l in H|rewrite flt_nan_r in H]; discriminate H. Qed.
Lemma flt_false x y : x <> B754_nan -> y <> B754_nan -> (flt x y = false <-> place y <= place x).
Proof.
  intros X Y. pose proof (flt_place x y X Y) as E. destruct (flt x y); split; intro K; auto; try discriminate.
  - pose proof (proj1 E eq_refl). lra.
  - destruct (Rle_lt_dec (place y) (place x)) as [L|L]; [exact L|]. apply E in L. discriminate.
Qed.

(** ** Building *)
Lemma increasing_app l a b : increasing (l ++ [a]) -> place a < place b -> increasing ((l ++ [a]) ++ [b]).
Proof.
  induction l as [|x l IH]; intros H K.
  - cbn. auto.
  - destruct l as [|y l]; cbn in *; [tauto|]. destruct H as [H1 H2]. split; [exact H1|]. apply IH; assumption.
Qed.
Definition sound (ts : list f64) : Prop :=
  (exists t, ts = [t]) \/ ts = [] \/ (2 <= length ts)%nat /\ Forall (fun t => t <> B754_nan) ts /\ increasing ts.
Lemma append_sound ts t ts' : sound ts -> append_time ts t = Ok ts' -> sound ts'.
Proof.
  intros S H. unfold append_time in H. destruct (rev ts) as [|b r] eqn:E.
  - injection H as <-. left. eexists. reflexivity.
  - apply (f_equal (@rev _)) in E. rewrite rev_involutive in E. cbn in E. subst ts.
    unfold reassert in H. destruct (flt b t) eqn:F; [|discriminate H]. injection H as <-.
    destruct (flt_not_nan b t F) as [NB NT]. apply flt_place in F; auto.
    right. right. split; [rewrite !app_length; cbn; lia|].
    destruct S as [[x S]|[S|(L & N & I)]].
    + destruct (rev r) as [|y r'] eqn:R; cbn in S; [injection S as <-|].
      * split; [repeat constructor; auto|cbn; auto].
      * injection S as _ S. destruct r'; discriminate S.
    + destruct (rev r); discriminate S.
    + split; [apply Forall_app; auto|apply increasing_app; assumption].
Qed.
Lemma built_sound l : sound (built l).
Proof.
  unfold built. assert (G : forall l ts, sound ts -> sound (fold_left (fun times time => match append_time times time with Ok ts => ts | _ => times end) l ts)).
  { clear l. intro l. induction l as [|t l IH]; intros ts S; [exact S|]. cbn [fold_left]. apply IH.
    destruct (append_time ts t) eqn:E; [eapply append_sound; eassumption|exact S..]. }
  apply G. right. left. reflexivity.
Qed.
Lemma increasing_nth l i j a b : increasing l -> (i < j)%nat -> nth_error l i = Some a -> nth_error l j = Some b -> place a < place b.
Proof.
  revert i j a. induction l as [|x l IH]; intros i j a I L A B; [destruct i; discriminate A|].
  destruct j as [|j]; [lia|]. cbn in B. destruct i as [|i].
  - cbn in A. injection A as <-. destruct l as [|y l]; [destruct j; discriminate B|]. destruct I as [I1 I2].
    destruct j as [|j]; [cbn in B; injection B as <-; exact I1|].
    apply Rlt_trans with (1 := I1). apply (IH 0%nat (S j)); auto; lia.
  - cbn in A. apply (IH i j); auto; [|lia]. destruct l; [exact Logic.I|apply I].
Qed.

(** ** std::lower_bound *)
Section LowerBound.
  Context {A : Type} (less : A -> bool) (l : list A).
  (** The elements up to [k] are the ones before the value. *)
  Definition split_at (k : nat) : Prop :=
    (k <= length l)%nat /\ forall i x, nth_error l i = Some x -> (less x = true <-> (i < k)%nat).
  Lemma lower_bound_from_split k : split_at k -> forall fuel first len,
    (len <= fuel)%nat -> (first <= k)%nat -> (k <= first + len)%nat -> (first + len <= length l)%nat ->
    lower_bound_from less l fuel first len = k.
  Proof.
    intros [K S]. induction fuel as [|fuel IH]; intros first len L F E B; cbn [lower_bound_from]; [lia|].
    destruct (Nat.eqb_spec len 0) as [->|N]; [lia|].
    pose proof (Nat.div2_decr len len ltac:(lia)) as D1. pose proof (Nat.lt_div2 len ltac:(lia)) as D2.
    destruct (nth_error l (first + Nat.div2 len)) as [x|] eqn:X.
    - apply S in X. destruct (less x).
      + pose proof (proj1 X eq_refl). apply IH; lia.
      + assert (~ (first + Nat.div2 len < k)%nat) by (intro C; apply X in C; discriminate C). apply IH; lia.
    - apply nth_error_None in X. lia.
  Qed.
  Lemma lower_bound_split k : split_at k -> lower_bound less l = k.
  Proof. intro S. apply (lower_bound_from_split k S); try lia. destruct S. lia. Qed.
End LowerBound.

(** ** Lookup *)
Lemma segment_times_nth ts i : nth_error (segment_times ts) i =
  match nth_error ts i, nth_error ts (S i) with Some a, Some b => Some (a, b) | _, _ => None end.
Proof.
  unfold segment_times. destruct ts as [|x ts]; [destruct i; reflexivity|]. cbn [tl].
  revert x i. induction ts as [|y ts IH]; intros x i.
  - destruct i as [|[|i]]; reflexivity.
  - destruct i as [|i]; [reflexivity|]. exact (IH y i).
Qed.
Lemma segment_times_length ts : length (segment_times ts) = (length ts - 1)%nat.
Proof. unfold segment_times. rewrite combine_length. destruct ts; cbn [length tl]; lia. Qed.
(** The last segment start before [t]. *)
Lemma find_segment (ts : list f64) (t : f64) n : increasing ts -> length ts = S (S n) -> Forall (fun t => t <> B754_nan) ts -> t <> B754_nan ->
  (forall b, nth_error ts (S n) = Some b -> place t <= place b) ->
  exists k, (k <= n)%nat /\ split_at (fun s => flt (snd s) t) (segment_times ts) k.
Proof.
  intros I L N NT H.
  assert (G : forall m, (m <= n)%nat -> (forall i a b, (m <= i)%nat -> nth_error (segment_times ts) i = Some (a, b) -> place t <= place b) ->
    exists k, (k <= n)%nat /\ split_at (fun s => flt (snd s) t) (segment_times ts) k).
  { induction m as [|m IH]; intros M K.
    - exists 0%nat. split; [lia|]. split; [lia|]. intros i [a b] X. cbn. pose proof (K i a b ltac:(lia) X) as Y.
      rewrite segment_times_nth in X. destruct (nth_error ts i) eqn:X1; [|discriminate]. destruct (nth_error ts (S i)) eqn:X2; [|discriminate].
      injection X as <- <-. apply nth_error_In in X2. pose proof (proj1 (Forall_forall _ _) N _ X2) as NB.
      rewrite (flt_place _ _ NB NT). split; intro; [lra|lia].
    - destruct (nth_error ts m) as [a|] eqn:A; [|apply nth_error_None in A; lia].
      destruct (nth_error ts (S m)) as [b|] eqn:B; [|apply nth_error_None in B; lia].
      assert (NB : b <> B754_nan) by (apply nth_error_In in B; exact (proj1 (Forall_forall _ _) N _ B)).
      destruct (Rle_lt_dec (place t) (place b)) as [Le|Lt].
      + apply IH; [lia|]. intros i a' b' Hi X. destruct (Nat.eq_dec i m) as [->|D].
        * rewrite segment_times_nth, A, B in X. injection X as <- <-. exact Le.
        * apply (K i a'); [lia|exact X].
      + exists (S m). split; [lia|]. split; [rewrite segment_times_length; lia|]. intros i [a' b'] X. cbn.
        destruct (le_lt_dec (S m) i) as [Li|Li].
        * pose proof (K i a' b' Li X) as Y. rewrite segment_times_nth in X. destruct (nth_error ts i) eqn:X1; [|discriminate].
          destruct (nth_error ts (S i)) eqn:X2; [|discriminate]. injection X as <- <-. apply nth_error_In in X2.
          pose proof (proj1 (Forall_forall _ _) N _ X2) as NB'. rewrite (flt_place _ _ NB' NT). split; intro; [lra|lia].
        * rewrite segment_times_nth in X. destruct (nth_error ts i) eqn:X1; [|discriminate].
          destruct (nth_error ts (S i)) eqn:X2; [|discriminate]. injection X as <- <-.
          pose proof (nth_error_In _ _ X2) as In2. pose proof (proj1 (Forall_forall _ _) N _ In2) as NB'.
          rewrite (flt_place _ _ NB' NT). split; intro; [lia|].
          destruct (Nat.eq_dec i m) as [->|D]; [rewrite B in X2; injection X2 as <-; exact Lt|].
          apply Rlt_trans with (2 := Lt). apply (increasing_nth ts (S i) (S m)); auto; lia. }
  apply (G n); [lia|]. intros i a b Hi X. rewrite segment_times_nth in X. destruct (nth_error ts i) eqn:X1; [|discriminate].
  destruct (nth_error ts (S i)) eqn:X2; [|discriminate]. injection X as <- <-.
  assert (i = n). { assert (S i < length ts)%nat by (apply nth_error_Some; congruence). lia. } subst i. apply H, X2.
Qed.
Lemma rev_last {A} (l : list A) (n : nat) : length l = S n -> exists b r, rev l = b :: r /\ nth_error l n = Some b.
Proof.
  intro L. destruct (rev l) as [|b r] eqn:E.
  - apply (f_equal (@length _)) in E. rewrite rev_length in E. cbn in E. lia.
  - exists b, r. split; [reflexivity|]. apply (f_equal (@rev _)) in E. rewrite rev_involutive in E. cbn in E. subst l.
    rewrite app_length, rev_length in L. cbn in L. rewrite nth_error_app2; rewrite rev_length; [|lia].
    replace (n - length r)%nat with 0%nat by lia. reflexivity.
Qed.
(** What a lookup of [t] gives on a curve with two or more control points. *)
Lemma point_at_spec (ts : list f64) (t : f64) : (2 <= length ts)%nat -> Forall (fun t => t <> B754_nan) ts -> increasing ts -> t <> B754_nan ->
  exists front back, nth_error ts 0 = Some front /\ nth_error ts (length ts - 1) = Some back /\
  (place t < place front \/ place back < place t -> point_at_impl ts t = Throw) /\
  (place front <= place t <= place back ->
    exists i orig dest, nth_error ts i = Some orig /\ nth_error ts (S i) = Some dest /\
      place orig <= place t <= place dest /\ (i = 0%nat \/ place orig < place t) /\
      point_at_impl ts t = Ok (PointAtData i (seg_inv_dt orig dest) (seg_time_nrm orig dest t))).
Proof.
  intros L N I NT. destruct ts as [|front [|second rest]] eqn:ETS; [cbn in L; lia|cbn in L; lia|].
  rewrite <- ETS in *. assert (LEN : length ts = S (S (length rest))) by (subst ts; reflexivity).
  destruct (rev_last ts (S (length rest)) LEN) as (bk & r & R & B).
  exists front, bk. split; [subst ts; reflexivity|]. split; [replace (length ts - 1)%nat with (S (length rest)) by lia; exact B|].
  assert (F : nth_error ts 0 = Some front) by (subst ts; reflexivity).
  assert (NF : front <> B754_nan) by (apply (proj1 (Forall_forall _ _) N), (nth_error_In _ _ F)).
  assert (NB : bk <> B754_nan) by (apply (proj1 (Forall_forall _ _) N), (nth_error_In _ _ B)).
  assert (P : point_at_impl ts t = let* _ := reassert (negb (flt t front) && negb (flt bk t)) in
    match nth_error (segment_times ts) (lower_bound (fun segment => flt (snd segment) t) (segment_times ts)) with
    | Some (o, d) => Ok (PointAtData (lower_bound (fun segment => flt (snd segment) t) (segment_times ts)) (seg_inv_dt o d) (seg_time_nrm o d t))
    | None => UB end).
  { unfold point_at_impl. destruct (segment_times ts) as [|sg sgs] eqn:SG.
    - pose proof (segment_times_length ts) as SL. rewrite SG in SL. cbn in SL. lia.
    - rewrite ETS in R |- *. cbv beta iota. rewrite R. reflexivity. }
  split.
  - intro O. rewrite P. destruct O as [O|O].
    + apply (flt_place t front NT NF) in O. rewrite O. reflexivity.
    + apply (flt_place bk t NB NT) in O. rewrite O. rewrite andb_false_r. reflexivity.
  - intros [O1 O2]. rewrite P. apply (flt_false t front NT NF) in O1. pose proof O2 as O3. apply (flt_false bk t NB NT) in O2. rewrite O1, O2. cbn [reassert negb andb obind].
    destruct (find_segment ts t (length rest) I LEN N NT) as (k & K & S).
    { intros b X. rewrite B in X. injection X as <-. exact O3. }
    rewrite (lower_bound_split _ _ k S). destruct S as [S1 S2].
    destruct (nth_error ts k) as [o|] eqn:O; [|apply nth_error_None in O; lia].
    destruct (nth_error ts (S k)) as [d|] eqn:D; [|apply nth_error_None in D; lia].
    assert (SGK : nth_error (segment_times ts) k = Some (o, d)) by (rewrite segment_times_nth, O, D; reflexivity).
    rewrite SGK. exists k, o, d. split; [exact O|]. split; [exact D|].
    assert (ND : d <> B754_nan) by (apply (proj1 (Forall_forall _ _) N), (nth_error_In _ _ D)).
    pose proof (S2 k (o, d) SGK) as SK. cbn in SK.
    assert (TD : place t <= place d). { apply (flt_false d t ND NT). destruct (flt d t); [pose proof (proj1 SK eq_refl); lia|reflexivity]. }
    assert (OT : k = 0%nat \/ place o < place t).
    { destruct k as [|k]; [left; reflexivity|right].
      destruct (nth_error ts k) as [o'|] eqn:O'; [|apply nth_error_None in O'; lia].
      assert (SGK' : nth_error (segment_times ts) k = Some (o', o)) by (rewrite segment_times_nth, O', O; reflexivity).
      pose proof (proj2 (S2 k (o', o) SGK') ltac:(lia)) as X. cbn in X. apply flt_place in X; auto.
      apply (proj1 (Forall_forall _ _) N), (nth_error_In _ _ O). }
    split; [split; [|exact TD]|split; [exact OT|reflexivity]].
    destruct OT as [->|OT]; [|lra]. rewrite F in O. injection O as <-. apply (flt_false t front NT NF). exact O1.
Qed.
Lemma lower_bound_none {A} (less : A -> bool) l : (forall x, less x = false) -> lower_bound less l = 0%nat.
Proof.
  intro H. apply lower_bound_split. split; [lia|]. intros i x _. rewrite H. split; [discriminate|lia].
Qed.
Lemma fmul_nan_r x : fmul x B754_nan = B754_nan.
Proof. destruct x; reflexivity. Qed.
Lemma point_at_nan (ts : list f64) : (2 <= length ts)%nat ->
  exists a b, nth_error ts 0 = Some a /\ nth_error ts 1 = Some b /\
  point_at_impl ts B754_nan = Ok (PointAtData 0 (seg_inv_dt a b) B754_nan).
Proof.
  intro L. destruct ts as [|a [|b rest]] eqn:E; [cbn in L; lia|cbn in L; lia|]. exists a, b. split; [reflexivity|]. split; [reflexivity|].
  rewrite <- E. destruct (rev_last ts (S (length rest))) as (bk & r & R & _); [subst ts; reflexivity|].
  unfold point_at_impl. rewrite lower_bound_none by (intro; apply flt_nan_r).
  rewrite E in R |- *. cbv beta iota. rewrite R. cbn [segment_times combine tl nth_error reassert obind]. rewrite flt_nan_l, flt_nan_r. cbn [negb andb reassert obind].
  unfold seg_time_nrm. replace (fsub B754_nan a) with (B754_nan : f64) by (destruct a; reflexivity). rewrite fmul_nan_r. reflexivity.
Qed.

(** ** Normalising *)
Lemma u_bpow : u = bpow radix2 (-53).
Proof. unfold u. rewrite <- (bpow_pow 53), <- bpow_opp. reflexivity. Qed.
Lemma u_ro_eq : u_ro radix2 53 = u.
Proof. rewrite u_bpow. unfold u_ro. change (/ 2) with (bpow radix2 (-1)). rewrite <- bpow_plus. reflexivity. Qed.
Lemma u_pos : 0 < u.
Proof. rewrite u_bpow. apply bpow_gt_0. Qed.
Lemma u_small : u <= / 1000000.
Proof. unfold u. apply Rinv_le; lra. Qed.
Definition tight : R := u / (1 + u).
Lemma tight_lt : 0 <= tight < u.
Proof.
  unfold tight. pose proof u_pos. assert (0 < / (1 + u) < 1).
  { split; [apply Rinv_0_lt_compat; lra|]. rewrite <- Rinv_1. apply Rinv_lt_contravar; lra. }
  unfold Rdiv. split; [nra|]. assert (u * / (1 + u) < u * 1) by (apply Rmult_lt_compat_l; lra). lra.
Qed.
Lemma rd_general x : exists eps eta, Rabs eps <= tight /\ Rabs eta <= bpow radix2 (-1075) /\ rd x = x * (1 + eps) + eta.
Proof.
  destruct (relative_error_N_FLT'_ex radix2 (-1074) 53 eq_refl (fun x => negb (Z.even x)) x) as (eps & eta & A & B & _ & E).
  rewrite u_ro_eq in A. exists eps, eta. split; [exact A|]. split; [|exact E].
  replace (bpow radix2 (-1075)) with (/ 2 * bpow radix2 (-1074)); [exact B|]. change (/ 2) with (bpow radix2 (-1)). rewrite <- bpow_plus. reflexivity.
Qed.
Lemma rd_minus x y : fmt x -> fmt y -> exists eps, Rabs eps <= tight /\ rd (x - y) = (x - y) * (1 + eps).
Proof.
  intros X Y. apply generic_format_opp in Y.
  destruct (FLT_plus_error_N_ex radix2 (-1074) 53 (fun x => negb (Z.even x)) x (- y) X Y) as (eps & A & E).
  rewrite u_ro_eq in A. exists eps. split; [exact A|exact E].
Qed.
Lemma rd_tight x : bpow radix2 (-1022) <= Rabs x -> exists eps, Rabs eps <= tight /\ rd x = x * (1 + eps).
Proof.
  intro H. destruct (relative_error_N_FLX'_ex radix2 53 eq_refl (fun x => negb (Z.even x)) x) as (eps & A & E).
  rewrite u_ro_eq in A. exists eps. split; [exact A|]. rewrite <- E. unfold rd. apply round_FLT_FLX. exact H.
Qed.
Lemma fmt_1 : fmt 1.
Proof. apply (fmt_int 1). vm_compute. discriminate. Qed.
Lemma succ_1 g : fmt g -> 1 < g -> 1 + 2 * u <= g.
Proof.
  intros G H. pose proof (succ_le_lt radix2 (FLT_exp (-1074) 53) 1 g fmt_1 G H) as S.
  replace (succ radix2 (FLT_exp (-1074) 53) 1) with (1 + 2 * u) in S; [exact S|].
  rewrite succ_eq_pos by lra. assert (E : ulp radix2 (FLT_exp (-1074) 53) (bpow radix2 0) = 2 * u).
  { rewrite ulp_bpow, u_bpow. change (FLT_exp (-1074) 53 (0 + 1)) with (-52)%Z. change 2 with (bpow radix2 1).
    rewrite <- bpow_plus. reflexivity. }
  change (bpow radix2 0) with 1 in E. rewrite E. reflexivity.
Qed.
Lemma pred_1 g : fmt g -> g < 1 -> g <= 1 - u.
Proof.
  intros G H. pose proof (pred_ge_gt radix2 (FLT_exp (-1074) 53) g 1 G fmt_1 H) as S.
  change 1 with (bpow radix2 0) in S. rewrite pred_bpow in S. change (FLT_exp (-1074) 53 0) with (-53)%Z in S.
  rewrite <- u_bpow in S. exact S.
Qed.
Lemma fmt_below_1 : fmt (1 - u).
Proof.
  pose proof (generic_format_pred radix2 (FLT_exp (-1074) 53) 1 fmt_1) as H.
  change 1 with (bpow radix2 0) in H. rewrite pred_bpow in H. change (FLT_exp (-1074) 53 0) with (-53)%Z in H.
  rewrite <- u_bpow in H. exact H.
Qed.
(** Numbers up to one and somewhat less than half a unit more round to at most one. *)
Lemma rd_at_most_1 y : y < 1 + u -> rd y <= 1.
Proof.
  intro H. destruct (Rle_lt_dec y 1) as [L|L]; [rewrite <- (rd_id 1 fmt_1); apply rd_le, L|].
  destruct (Rle_lt_dec (rd y) 1) as [K|K]; [exact K|exfalso].
  apply (succ_1 _ (rd_fmt y)) in K. pose proof (rd_nearest y 1 fmt_1) as N.
  rewrite (Rabs_left (1 - y)) in N by lra. pose proof (Rle_abs (rd y - y)). lra.
Qed.
Lemma near_1 e : Rabs e <= tight -> rd (1 + e) = 1 \/ rd (1 + e) = 1 - u.
Proof.
  intro H. pose proof tight_lt as [_ T]. apply Rabs_le_inv in H.
  pose proof (rd_at_most_1 (1 + e) ltac:(lra)) as U.
  assert (L : 1 - u <= rd (1 + e)) by (rewrite <- (rd_id _ fmt_below_1); apply rd_le; lra).
  destruct (Rle_lt_or_eq_dec _ _ U) as [K|K]; [|left; exact K].
  right. apply Rle_antisym; [apply pred_1; [apply rd_fmt|exact K]|exact L].
Qed.

Lemma p1021 : bpow radix2 1021 = 2 ^ 1021.
Proof. exact (bpow_pow 1021). Qed.
Lemma p1021' : bpow radix2 (-1021) = / 2 ^ 1021.
Proof. rewrite <- p1021, <- bpow_opp. reflexivity. Qed.
Lemma fmt_bpow e : (-1074 <= e)%Z -> fmt (bpow radix2 e).
Proof. intro H. apply generic_format_bpow. unfold FLT_exp. lia. Qed.
Lemma usual_no_overflow x : Rabs x <= bpow radix2 1021 -> ~ overflows x.
Proof.
  intro H. apply small_no_overflow. apply Rle_lt_trans with (1 := H). rewrite <- (bpow_pow 1023). apply bpow_lt. lia.
Qed.
Lemma off_by p P e E : Rabs (p - 1) <= P -> Rabs e <= E -> Rabs (p * (1 + e) - 1) <= P + E + P * E.
Proof.
  intros A B. replace (p * (1 + e) - 1) with ((p - 1) + e + (p - 1) * e) by ring.
  pose proof (Rabs_triang ((p - 1) + e) ((p - 1) * e)) as T1. pose proof (Rabs_triang (p - 1) e) as T2.
  rewrite Rabs_mult in T1. pose proof (Rabs_pos (p - 1)). pose proof (Rabs_pos e).
  assert (Rabs (p - 1) * Rabs e <= P * E) by (apply Rmult_le_compat; assumption). lra.
Qed.
(** The computed normalised time as a function of the values. *)
Definition inv_of (D : R) : R := rd (1 / rd D).
Definition nrm_of (D X : R) : R := rd (inv_of D * rd X).
Section Normal.
  Variable D : R.
  Hypothesis (lo : bpow radix2 (-1021) <= D) (hi : D <= bpow radix2 1021).
  Lemma rdD : bpow radix2 (-1021) <= rd D <= bpow radix2 1021.
  Proof.
    split; [rewrite <- (rd_id (bpow radix2 (-1021))) by (apply fmt_bpow; lia)|rewrite <- (rd_id (bpow radix2 1021)) by (apply fmt_bpow; lia)];
      apply rd_le; assumption.
  Qed.
  Lemma rdD_pos : 0 < rd D.
  Proof. pose proof rdD. pose proof (bpow_gt_0 radix2 (-1021)). lra. Qed.
  Lemma inv_range : bpow radix2 (-1021) <= 1 / rd D <= bpow radix2 1021.
  Proof.
    pose proof rdD as [A B]. pose proof rdD_pos. unfold Rdiv. rewrite Rmult_1_l. split.
    - change (-1021)%Z with (- (1021))%Z. rewrite bpow_opp. apply Rinv_le; assumption.
    - replace (bpow radix2 1021) with (/ bpow radix2 (-1021)) by (rewrite <- bpow_opp; reflexivity). apply Rinv_le; [apply bpow_gt_0|assumption].
  Qed.
  Lemma inv_err : exists e, Rabs e <= tight /\ inv_of D = 1 / rd D * (1 + e).
  Proof.
    apply rd_tight. pose proof inv_range as [A _]. apply Rle_trans with (bpow radix2 (-1021)); [apply bpow_le; lia|].
    apply Rle_trans with (1 := A). apply Rle_abs.
  Qed.
  Lemma inv_of_range : bpow radix2 (-1021) <= inv_of D <= bpow radix2 1021.
  Proof.
    pose proof inv_range. unfold inv_of. split; [rewrite <- (rd_id (bpow radix2 (-1021))) by (apply fmt_bpow; lia)|rewrite <- (rd_id (bpow radix2 1021)) by (apply fmt_bpow; lia)];
      apply rd_le; lra.
  Qed.
  Lemma inv_of_pos : 0 < inv_of D.
  Proof. pose proof inv_of_range. pose proof (bpow_gt_0 radix2 (-1021)). lra. Qed.
  Lemma product_range X : 0 <= X <= D -> 0 <= inv_of D * rd X < 1 + u.
  Proof.
    intros [A B]. pose proof inv_of_pos. pose proof (rd_ge0 X A). split; [nra|].
    destruct inv_err as (e & E & V). apply Rabs_le_inv in E. pose proof tight_lt. pose proof rdD_pos.
    apply Rle_lt_trans with (inv_of D * rd D); [apply Rmult_le_compat_l; [lra|apply rd_le, B]|].
    rewrite V. replace (1 / rd D * (1 + e) * rd D) with (1 + e) by (field; lra). lra.
  Qed.
  Lemma nrm_range X : 0 <= X <= D -> 0 <= nrm_of D X <= 1.
  Proof. intro H. destruct (product_range X H). split; [apply rd_ge0|apply rd_at_most_1]; assumption. Qed.
  Lemma nrm_0 : nrm_of D 0 = 0.
  Proof. unfold nrm_of. rewrite rd_0, Rmult_0_r. apply rd_0. Qed.
  Lemma nrm_D : nrm_of D D = 1 \/ nrm_of D D = 1 - u.
  Proof.
    unfold nrm_of. destruct inv_err as (e & E & V). rewrite V. pose proof rdD_pos.
    replace (1 / rd D * (1 + e) * rd D) with (1 + e) by (field; lra). apply near_1, E.
  Qed.
  Lemma nrm_mono X Y : X <= Y -> nrm_of D X <= nrm_of D Y.
  Proof. intro H. unfold nrm_of. apply rd_le, Rmult_le_compat_l; [pose proof inv_of_pos; lra|apply rd_le, H]. Qed.
  Lemma nrm_accuracy X e2 : 0 <= X -> Rabs e2 <= tight -> rd X = X * (1 + e2) ->
    Rabs (nrm_of D X - X / D) <= 5 * u * (X / D) + bpow radix2 (-1075).
  Proof.
    intros HX E2 V2. assert (PD : 0 < D) by (pose proof (bpow_gt_0 radix2 (-1021)); lra).
    destruct (rd_tight D) as (e1 & E1 & V1).
    { rewrite Rabs_right by lra. apply Rle_trans with (2 := lo). apply bpow_le. lia. }
    destruct inv_err as (e3 & E3 & V3). unfold nrm_of. destruct (rd_general (inv_of D * rd X)) as (e4 & eta & E4 & ET & V4).
    pose proof tight_lt as [T0 T1]. pose proof u_small as U. pose proof u_pos as UP.
    apply Rabs_le_inv in E1. assert (N1 : 1 + e1 <> 0) by lra.
    rewrite V4, V3, V2, V1. set (q := (1 + e2) * (1 + e3) * (1 + e4)).
    replace (1 / (D * (1 + e1)) * (1 + e3) * (X * (1 + e2)) * (1 + e4) + eta - X / D) with (X / D * ((q - 1 - e1) / (1 + e1)) + eta)
      by (unfold q; field; split; lra).
    apply Rle_trans with (1 := Rabs_triang _ _). apply Rplus_le_compat; [|exact ET].
    assert (XD : 0 <= X / D) by (apply Rmult_le_pos; [lra|apply Rlt_le, Rinv_0_lt_compat, PD]).
    rewrite Rabs_mult, (Rabs_right (X / D)) by lra. rewrite (Rmult_comm (5 * u)). apply Rmult_le_compat_l; [exact XD|].
    assert (Q : Rabs (q - 1) <= 7 / 2 * u).
    { assert (A : Rabs ((1 + e2) - 1) <= u) by (replace (1 + e2 - 1) with e2 by ring; lra).
      pose proof (off_by _ _ e3 u A ltac:(lra)) as B. pose proof (off_by _ _ e4 u B ltac:(lra)) as C. unfold q.
      apply Rle_trans with (1 := C). nra. }
    unfold Rdiv. rewrite Rabs_mult, Rabs_inv, (Rabs_right (1 + e1)) by lra.
    apply Rmult_le_reg_r with (1 + e1); [lra|]. rewrite Rmult_assoc, Rinv_l by lra. rewrite Rmult_1_r.
    apply Rle_trans with (7 / 2 * u + u).
    - replace (q - 1 - e1) with ((q - 1) + - e1) by ring. apply Rle_trans with (1 := Rabs_triang _ _).
      assert (Rabs (- e1) <= u) by (apply Rabs_le; lra). lra.
    - nra.
  Qed.
End Normal.

Lemma usual_bpow a b : usual_length a b -> bpow radix2 (-1021) <= val b - val a <= bpow radix2 1021.
Proof. unfold usual_length. rewrite p1021, p1021'. auto. Qed.
Lemma seg_values a b t : finite a -> finite b -> finite t -> usual_length a b -> val a <= val t <= val b ->
  finite (seg_inv_dt a b) /\ val (seg_inv_dt a b) = inv_of (val b - val a) /\
  finite (seg_time_nrm a b t) /\ val (seg_time_nrm a b t) = nrm_of (val b - val a) (val t - val a).
Proof.
  intros Fa Fb Ft U R. apply usual_bpow in U. set (D := val b - val a) in *. destruct U as [L H].
  assert (P : 0 < D) by (pose proof (bpow_gt_0 radix2 (-1021)); lra).
  destruct (fsub_val b a Fb Fa) as [FD VD]. { apply usual_no_overflow. fold D. rewrite Rabs_right by lra. exact H. }
  fold D in VD. destruct (of_small 1) as [F1 V1]; [vm_compute; discriminate|].
  pose proof (rdD_pos D L H) as PD.
  destruct (fdiv_val (of_int 1) (fsub b a) F1) as [FI VI].
  { rewrite VD. lra. }
  { rewrite VD, V1. apply usual_no_overflow. pose proof (inv_range D L H). pose proof (bpow_gt_0 radix2 (-1021)). rewrite Rabs_right by lra. lra. }
  rewrite VD, V1 in VI. fold (inv_of D) in VI. fold (seg_inv_dt a b) in FI, VI.
  destruct (fsub_val t a Ft Fa) as [FX VX]. { apply usual_no_overflow. apply Rabs_le. unfold D in *. lra. }
  destruct (fmul_val (seg_inv_dt a b) (fsub t a) FI FX) as [FN VN].
  { rewrite VI, VX. pose proof (product_range D L H (val t - val a) ltac:(unfold D; lra)) as [A B]. apply usual_no_overflow.
    rewrite Rabs_right by lra. apply Rle_trans with (bpow radix2 1); [|apply bpow_le; lia]. pose proof u_small. cbn. lra. }
  rewrite VI, VX in VN. repeat split; assumption.
Qed.

(** ** Times that are whole nanoseconds *)
Lemma secs_multiple d : in64 d -> exists k, secs_of d = IZR k * bpow radix2 (-82).
Proof.
  intro H. destruct (Z.eq_dec d 0) as [->|N].
  { exists 0%Z. unfold secs_of. rewrite rd_0. unfold Rdiv. rewrite Rmult_0_l, rd_0. ring. }
  assert (A : 1 <= Rabs (rd (IZR d))).
  { rewrite <- rd_abs, <- abs_IZR. rewrite <- (rd_id 1 fmt_1). apply rd_le. apply (IZR_le 1). lia. }
  assert (B : bpow radix2 (-30) <= Rabs (secs_of d)).
  { unfold secs_of. rewrite <- rd_abs. rewrite <- (rd_id (bpow radix2 (-30))) by (apply fmt_bpow; lia). apply rd_le.
    unfold Rdiv. rewrite Rabs_mult, (Rabs_right (/ 10 ^ 9)) by lra. apply Rle_trans with (1 * / 10 ^ 9); [cbn; lra|].
    apply Rmult_le_compat_r; lra. }
  pose proof (rd_fmt (rd (IZR d) / 10 ^ 9)) as F. fold (secs_of d) in F. unfold generic_format in F.
  set (s := secs_of d) in *. set (m := Ztrunc (scaled_mantissa radix2 (FLT_exp (-1074) 53) s)) in F.
  assert (C : (-82 <= cexp radix2 (FLT_exp (-1074) 53) s)%Z).
  { unfold cexp, FLT_exp. assert (-29 <= mag radix2 s)%Z; [|lia]. apply mag_ge_bpow. exact B. }
  exists (m * 2 ^ (cexp radix2 (FLT_exp (-1074) 53) s + 82))%Z. rewrite F at 1. unfold F2R. cbn [Fnum Fexp].
  rewrite mult_IZR. change 2%Z with (radix2 : Z). rewrite IZR_Zpower by lia. rewrite Rmult_assoc, <- bpow_plus. f_equal. f_equal. lia.
Qed.
Lemma seconds_usual d d' : in64 d -> in64 d' -> val (as_seconds d) < val (as_seconds d') ->
  usual_length (as_seconds d) (as_seconds d').
Proof.
  intros H H' L. unfold usual_length. rewrite <- p1021', <- p1021.
  rewrite (proj2 (as_seconds_val d H)), (proj2 (as_seconds_val d' H')) in *.
  destruct (secs_of_range d (in64_abs d H)) as (_ & _ & B). destruct (secs_of_range d' (in64_abs d' H')) as (_ & _ & B').
  apply Rabs_le_inv in B, B'. split.
  - destruct (secs_multiple d H) as (k & E). destruct (secs_multiple d' H') as (k' & E'). rewrite E, E' in *.
    pose proof (bpow_gt_0 radix2 (-82)) as P. apply Rmult_lt_reg_r in L; [|exact P]. apply lt_IZR in L.
    replace (IZR k' * bpow radix2 (-82) - IZR k * bpow radix2 (-82)) with (IZR (k' - k) * bpow radix2 (-82)) by (rewrite minus_IZR; ring).
    apply Rle_trans with (1 * bpow radix2 (-82)).
    + rewrite Rmult_1_l. apply bpow_le. lia.
    + apply Rmult_le_compat_r; [lra|]. apply IZR_le. lia.
  - apply Rle_trans with (2 ^ 64); [cbn [pow] in *; lra|]. rewrite <- (bpow_pow 64). apply bpow_le. lia.
Qed.

(** ** The properties *)
Lemma built_history appended : (2 <= length (built appended))%nat ->
  Forall (fun t => ~ not_a_number t) (built appended) /\ increasing (built appended).
Proof.
  intro L. destruct (built_sound appended) as [[t E]|[E|(_ & N & I)]]; [rewrite E in L; cbn in L; lia..|].
  split; assumption.
Qed.
Lemma lookup appended t : (2 <= length (built appended))%nat ->
  exists front back,
    nth_error (built appended) 0 = Some front /\ nth_error (built appended) (length (built appended) - 1) = Some back /\
    (~ not_a_number t -> place t < place front \/ place back < place t -> point_at_impl (built appended) t = Throw) /\
    (~ not_a_number t -> place front <= place t <= place back ->
      exists p orig dest, point_at_impl (built appended) t = Ok p /\ adjacent (built appended) (in_segment p) orig dest /\
        place orig <= place t <= place dest /\ (in_segment p = 0%nat \/ place orig < place t)).
Proof.
  intro L. destruct (built_history appended L) as [N I].
  destruct (nan_dec t) as [->|NT].
  - destruct (built appended) as [|f r] eqn:E; [cbn in L; lia|]. rewrite <- E in *.
    destruct (rev_last (built appended) (length r)) as (b & _ & _ & B); [rewrite E; reflexivity|].
    exists f, b. split; [rewrite E; reflexivity|]. split; [rewrite E in B |- *; cbn [length]; rewrite Nat.sub_0_r || idtac; replace (S (length r) - 1)%nat with (length r) by lia; exact B|].
    split; intro X; exfalso; apply X; reflexivity.
  - destruct (point_at_spec _ t L N I NT) as (f & b & F & B & O & S). exists f, b. split; [exact F|]. split; [exact B|].
    split; [intros _; exact O|]. intros _ R. destruct (S R) as (i & o & d & A1 & A2 & P & Q & V).
    exists (PointAtData i (seg_inv_dt o d) (seg_time_nrm o d t)), o, d. split; [exact V|]. split; [split; assumption|]. split; assumption.
Qed.
(** What a lookup gave, unfolded. *)
Lemma lookup_inv appended t p : point_at_impl (built appended) t = Ok p -> ~ not_a_number t ->
  exists orig dest, adjacent (built appended) (in_segment p) orig dest /\ place orig <= place t <= place dest /\
    place orig < place dest /\
    p = PointAtData (in_segment p) (seg_inv_dt orig dest) (seg_time_nrm orig dest t).
Proof.
  intros H NT. assert (L : (2 <= length (built appended))%nat).
  { destruct (built appended) as [|a [|b r]]; [discriminate H|discriminate H|cbn; lia]. }
  destruct (built_history appended L) as [N I].
  destruct (point_at_spec _ t L N I NT) as (f & b & _ & _ & O & S).
  destruct (Rle_lt_dec (place f) (place t)) as [A|A]; [|rewrite O in H by (left; exact A); discriminate H].
  destruct (Rle_lt_dec (place t) (place b)) as [B|B]; [|rewrite O in H by (right; exact B); discriminate H].
  destruct (S (conj A B)) as (i & o & d & A1 & A2 & P & Q & V). rewrite V in H. injection H as <-. exists o, d.
  split; [split; assumption|]. split; [exact P|]. split; [|reflexivity].
  apply (increasing_nth _ i (Datatypes.S i) o d I); auto.
Qed.
Lemma finite_not_nan x : finite x -> ~ not_a_number x.
Proof. intros F E. rewrite E in F. discriminate F. Qed.
Lemma normalized appended t p orig dest : point_at_impl (built appended) t = Ok p -> finite t ->
  adjacent (built appended) (in_segment p) orig dest -> finite orig -> finite dest -> usual_length orig dest ->
  finite (inv_dt p) /\ finite (time_nrm p) /\ 0 <= val (time_nrm p) <= 1 /\
  Rabs (val (time_nrm p) - fraction orig dest t) <= 5 * u * fraction orig dest t + / 2 ^ 1075 /\
  (val t = val orig -> val (time_nrm p) = 0) /\
  (val t = val dest -> val (time_nrm p) = 1 \/ val (time_nrm p) = 1 - u).
Proof.
  intros H Ft A Fo Fd U. destruct (lookup_inv appended t p H (finite_not_nan t Ft)) as (o & d & [A1 A2] & R & _ & E).
  destruct A as [B1 B2]. rewrite A1 in B1. injection B1 as <-. rewrite A2 in B2. injection B2 as <-.
  rewrite !place_finite in R by assumption. destruct (seg_values o d t Fo Fd Ft U R) as (FI & _ & FN & VN).
  pose proof (usual_bpow o d U) as [Lo Hi].
  rewrite E. cbn [inv_dt time_nrm]. split; [exact FI|]. split; [exact FN|]. rewrite VN.
  assert (X : 0 <= val t - val o <= val d - val o) by lra.
  split; [apply nrm_range; assumption|]. split; [|split].
  - destruct (rd_minus (val t) (val o) (val_fmt t) (val_fmt o)) as (e & B & V).
    replace (/ 2 ^ 1075) with (bpow radix2 (-1075)) by (rewrite <- (bpow_pow 1075), <- bpow_opp; reflexivity).
    apply (nrm_accuracy (val d - val o) Lo Hi (val t - val o) e); [lra|exact B|exact V].
  - intros ->. rewrite (Rminus_diag_eq (val o) (val o)) by reflexivity. apply nrm_0.
  - intros ->. apply nrm_D; assumption.
Qed.
Lemma monotone appended t t' p p' orig dest : point_at_impl (built appended) t = Ok p -> point_at_impl (built appended) t' = Ok p' ->
  finite t -> finite t' -> in_segment p = in_segment p' -> val t <= val t' ->
  adjacent (built appended) (in_segment p) orig dest -> finite orig -> finite dest -> usual_length orig dest ->
  val (time_nrm p) <= val (time_nrm p').
Proof.
  intros H H' Ft Ft' ES Le A Fo Fd U. destruct (lookup_inv appended t p H (finite_not_nan t Ft)) as (o & d & [A1 A2] & R & _ & E).
  destruct (lookup_inv appended t' p' H' (finite_not_nan t' Ft')) as (o' & d' & [A1' A2'] & R' & _ & E').
  destruct A as [B1 B2]. rewrite A1 in B1. injection B1 as <-. rewrite A2 in B2. injection B2 as <-.
  rewrite <- ES in *. rewrite A1 in A1'. injection A1' as <-. rewrite A2 in A2'. injection A2' as <-.
  rewrite !place_finite in R by assumption. rewrite !place_finite in R' by assumption.
  pose proof (usual_bpow o d U) as [Lo Hi].
  rewrite E, E'. cbn [time_nrm]. rewrite (proj2 (proj2 (proj2 (seg_values o d t Fo Fd Ft U R)))), (proj2 (proj2 (proj2 (seg_values o d t' Fo Fd Ft' U R')))).
  apply nrm_mono; [assumption..|lra].
Qed.
Lemma built_from (P : f64 -> Prop) appended : Forall P appended -> Forall P (built appended).
Proof.
  intro H. unfold built. assert (G : forall l ts, Forall P l -> Forall P ts -> Forall P (fold_left (fun times time => match append_time times time with Ok ts => ts | _ => times end) l ts)).
  { clear. intro l. induction l as [|t l IH]; intros ts Hl Hts; [exact Hts|]. inversion Hl; subst. cbn [fold_left]. apply IH; [assumption|].
    unfold append_time. destruct (rev ts); [auto|]. unfold reassert. destruct (flt f t); cbn [obind]; [apply Forall_app; auto|exact Hts]. }
  apply G; [exact H|constructor].
Qed.
Lemma durations ds d p : Forall in64 ds -> in64 d -> point_at_impl (built (map as_seconds ds)) (as_seconds d) = Ok p ->
  exists orig dest, adjacent (built (map as_seconds ds)) (in_segment p) orig dest /\
    finite orig /\ finite dest /\ usual_length orig dest.
Proof.
  intros H Hd E. destruct (as_seconds_val d Hd) as [Ft _].
  destruct (lookup_inv _ _ p E (finite_not_nan _ Ft)) as (o & t & [A1 A2] & _ & L & _). exists o, t. split; [split; assumption|].
  assert (G : Forall (fun x => exists z, in64 z /\ x = as_seconds z) (built (map as_seconds ds))).
  { apply built_from, Forall_map. apply Forall_impl with (2 := H). intros z Z. exists z. auto. }
  destruct (proj1 (Forall_forall _ _) G o (nth_error_In _ _ A1)) as (z1 & Z1 & ->).
  destruct (proj1 (Forall_forall _ _) G t (nth_error_In _ _ A2)) as (z2 & Z2 & ->).
  destruct (as_seconds_val z1 Z1) as [F1 _]. destruct (as_seconds_val z2 Z2) as [F2 _].
  split; [exact F1|]. split; [exact F2|]. rewrite !place_finite in L by assumption. apply seconds_usual; assumption.
Qed.
Lemma nan_accepted appended : (2 <= length (built appended))%nat ->
  exists p, point_at_impl (built appended) B754_nan = Ok p /\ in_segment p = 0%nat /\ not_a_number (time_nrm p).
Proof.
  intro L. destruct (point_at_nan _ L) as (a & b & _ & _ & E). eexists. split; [exact E|]. split; reflexivity.
Qed.
Lemma val_int z : (Z.abs z <= 2 ^ 53)%Z -> val (of_int z) = IZR z.
Proof. intro H. apply of_small, H. Qed.
Lemma double_lt x y : finite x -> finite y -> flt x y = true -> val x < val y.
Proof. intros X Y H. apply (flt_val x y X Y), H. Qed.
(** ** Computing cases *)
Lemma ok_witness {A} (o : outcome A) (f : A -> bool) : match o with Ok a => f a | _ => false end = true -> exists a, o = Ok a /\ f a = true.
Proof. destruct o as [a| |]; intro H; [exists a; auto|discriminate H..]. Qed.
Lemma built_two a b : flt a b = true -> built [a; b] = [a; b].
Proof. intro H. unfold built. cbn [fold_left append_time rev app]. rewrite H. reflexivity. Qed.
Lemma point_at_two a b t : flt t a = false -> flt b t = false ->
  point_at_impl [a; b] t = Ok (PointAtData 0 (seg_inv_dt a b) (seg_time_nrm a b t)).
Proof.
  intros A B. unfold point_at_impl. cbn [segment_times combine tl rev app reassert obind]. rewrite A, B. cbn [negb andb reassert obind].
  unfold lower_bound. cbn [length lower_bound_from Nat.eqb Nat.div2 Nat.add nth_error snd]. rewrite B. cbn [lower_bound_from]. reflexivity.
Qed.
Lemma is_nan_eq (x : f64) : is_nan x = true -> not_a_number x.
Proof. destruct x; intro H; reflexivity || discriminate H. Qed.
