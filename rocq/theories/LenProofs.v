(** Proofs about the arc lengths of distance curves in double precision. *)
From Coq Require Import Reals Psatz.
From Flocq Require Import Core BinarySingleNaN Relative Plus_error.
From Verif Require Import Cpp TimeModel FloatModel FloatSpec FloatProofs NrmModel NrmSpec NrmProofs LenModel LenSpec.
Local Open Scope R_scope.

(** ** Adding lengths *)
Lemma zero_length : a_length (of_int 0).
Proof. destruct (of_small 0) as [F V]; [lia|]. split; [apply finite_not_nan, F|]. rewrite (place_finite _ F), V. lra. Qed.
Lemma overflow_sum x y : finite x -> finite y -> overflows (val x + val y) ->
  fadd x y = B754_infinity (Bsign x) /\ Bsign x = Bsign y.
Proof.
  intros X Y O. pose proof (Bplus_correct 53 1024 prec_pos prec_emax mode_NE x y X Y) as C.
  rewrite Rlt_bool_false in C.
  - destruct C as [E S]. split; [|exact S]. change (B2SF (fadd x y) = SpecFloat.S754_infinity (Bsign x)) in E.
    destruct (fadd x y); try discriminate E. injection E as ->. reflexivity.
  - unfold overflows in O. rewrite <- bpow_1024 in O. exact O.
Qed.
Lemma sign_val (x : f64) : finite x -> if Bsign x then val x <= 0 else 0 <= val x.
Proof.
  destruct x as [s|s| |s m e b]; intro F; try discriminate F; unfold val, B2R, Bsign.
  - destruct s; lra.
  - destruct s; cbn [cond_Zopp]; [apply F2R_le_0|apply F2R_ge_0]; cbn; lia.
Qed.
Lemma add_length x y : a_length x -> a_length y ->
  a_length (fadd x y) /\ place x <= place (fadd x y) /\
  (finite (fadd x y) -> finite x /\ finite y /\ val (fadd x y) = rd (val x + val y)).
Proof.
  intros [NX PX] [NY PY]. pose proof pow_1024_pos as P.
  destruct (is_finite x) eqn:FX; [destruct (is_finite y) eqn:FY|].
  - rewrite (place_finite x FX) in *. rewrite (place_finite y FY) in PY.
    destruct (Rle_lt_dec (2 ^ 1024) (Rabs (rd (val x + val y)))) as [O|O].
    + destruct (overflow_sum x y FX FY O) as [E S]. rewrite E.
      assert (Bsign x = false) as ->.
      { destruct (Bsign x) eqn:B; [|reflexivity]. pose proof (sign_val x FX) as V1. pose proof (sign_val y FY) as V2. rewrite <- S in V2. rewrite B in V1.
        replace (val x + val y) with 0 in O by lra. rewrite rd_0, Rabs_R0 in O. lra. }
      pose proof (val_bound x) as BX. apply Rabs_def2 in BX. split; [split; [intro N; discriminate N|cbn; lra]|]. split; [cbn; lra|discriminate].
    + destruct (fadd_val x y FX FY) as [F V]; [unfold overflows; lra|]. split; [split; [apply finite_not_nan, F|]|split].
      * rewrite (place_finite _ F), V. apply rd_ge0. lra.
      * rewrite (place_finite _ F), V. rewrite <- (rd_id (val x) (val_fmt x)) at 1. apply rd_le. lra.
      * intros _. auto.
  - destruct y as [s|[|]| |s m e b]; try discriminate FY; [cbn in PY; lra| |elim NY; reflexivity].
    assert (fadd x (B754_infinity false) = B754_infinity false) as -> by (destruct x as [s|[|]| |s m e b]; try discriminate FX; reflexivity).
    split; [split; [intro N; discriminate N|exact PY]|]. split; [|discriminate].
    pose proof (place_bound x). cbn. lra.
  - destruct x as [s|[|]| |s m e b]; try discriminate FX; [cbn in PX; lra| |elim NX; reflexivity].
    assert (fadd (B754_infinity false) y = B754_infinity false) as ->.
    { destruct y as [s|[|]| |s m e b]; try reflexivity; [cbn in PY; lra|elim NY; reflexivity]. }
    split; [split; [intro N; discriminate N|exact PX]|]. split; [cbn; lra|discriminate].
Qed.

(** ** Building *)
Lemma append_lengths_app arcs l x : append_lengths arcs (l ++ [x]) = (let* arcs := append_lengths arcs l in append_length arcs x).
Proof.
  revert arcs. induction l as [|y l IH]; intro arcs; cbn [app append_lengths obind].
  - destruct (append_length arcs x); reflexivity.
  - destruct (append_length arcs y); cbn [obind]; [apply IH|reflexivity|reflexivity].
Qed.
Lemma arcs_snoc l arcs b x : arc_lengths l = Ok (arcs ++ [b]) -> arc_lengths (l ++ [x]) = Ok ((arcs ++ [b]) ++ [fadd b x]).
Proof.
  intro E. unfold arc_lengths in *. rewrite append_lengths_app, E. cbn [obind]. unfold append_length. rewrite rev_app_distr. reflexivity.
Qed.
Lemma arcs_total l : exists arcs b, arc_lengths l = Ok (arcs ++ [b]) /\ length arcs = length l.
Proof.
  induction l as [|x l IH] using rev_ind.
  - exists [], (of_int 0). split; reflexivity.
  - destruct IH as (arcs & b & E & L). exists (arcs ++ [b]), (fadd b x). split; [apply arcs_snoc, E|]. rewrite !app_length, L. reflexivity.
Qed.
(** The arc length number [k] depends on the first [k] segments. *)
Lemma arcs_prefix l l' arcs : arc_lengths (l ++ l') = Ok arcs -> exists a b r, arc_lengths l = Ok (a ++ [b]) /\ length a = length l /\ arcs = (a ++ [b]) ++ r.
Proof.
  revert arcs. induction l' as [|x l' IH] using rev_ind; intros arcs E.
  - rewrite app_nil_r in E. destruct (arcs_total l) as (a & b & E' & L). exists a, b, []. rewrite E' in E. injection E as <-. rewrite app_nil_r. auto.
  - rewrite app_assoc in E. destruct (arcs_total (l ++ l')) as (a & b & E' & _). rewrite (arcs_snoc _ _ _ x E') in E. injection E as <-.
    destruct (IH _ E') as (a' & b' & r & H1 & H2 & ->). exists a', b', (r ++ [fadd b x]). split; [exact H1|]. split; [exact H2|]. rewrite app_assoc. reflexivity.
Qed.
Lemma nth_last {A} (l : list A) b r : nth_error ((l ++ [b]) ++ r) (length l) = Some b.
Proof. rewrite nth_error_app1 by (rewrite app_length; cbn; lia). rewrite nth_error_app2 by lia. rewrite Nat.sub_diag. reflexivity. Qed.
Lemma arcs_first l arcs : arc_lengths l = Ok arcs -> nth_error arcs 0 = Some (of_int 0) /\ length arcs = S (length l).
Proof.
  intro E. destruct (arcs_total l) as (a & b & E' & L). rewrite E in E'. injection E' as ->. split; [|rewrite app_length, L; cbn; lia].
  destruct (arcs_prefix [] l (a ++ [b]) E) as (a' & b' & r & H1 & H2 & ->). injection H1 as H1.
  destruct a'; [|discriminate H2]. cbn in H1. injection H1 as <-. reflexivity.
Qed.
Lemma nth_snoc {A} (l : list A) k x : nth_error l k = Some x -> firstn (S k) l = firstn k l ++ [x].
Proof.
  revert l. induction k as [|k IH]; intros l H; destruct l as [|y l]; try discriminate H.
  - injection H as ->. reflexivity.
  - cbn in *. rewrite (IH _ H). reflexivity.
Qed.
Lemma arcs_step l arcs k a b : arc_lengths l = Ok arcs -> nth_error arcs k = Some a -> nth_error arcs (S k) = Some b ->
  exists x, nth_error l k = Some x /\ b = fadd a x.
Proof.
  intros E A B. destruct (arcs_first l arcs E) as [_ L].
  assert (K : (k < length l)%nat) by (assert (S k < length arcs)%nat by (apply nth_error_Some; rewrite B; discriminate); lia).
  destruct (nth_error l k) as [x|] eqn:X; [|apply nth_error_None in X; lia]. exists x. split; [reflexivity|].
  rewrite <- (firstn_skipn (S k) l), (nth_snoc _ _ _ X), <- app_assoc in E.
  destruct (arcs_prefix _ _ _ E) as (a1 & b1 & r1 & H1 & H2 & ->). rewrite firstn_length_le in H2 by lia.
  rewrite app_assoc in E. destruct (arcs_prefix _ _ _ E) as (a2 & b2 & r2 & H3 & H4 & E2). rewrite app_length, firstn_length_le in H4 by lia. cbn [length] in H4.
  rewrite (arcs_snoc _ _ _ x H1) in H3. injection H3 as H3. apply app_inj_tail in H3 as [<- <-].
  rewrite <- H2 in A. rewrite nth_last in A. injection A as <-.
  rewrite E2 in B. replace (S k) with (length (a1 ++ [b1])) in B by (rewrite app_length, H2; cbn; lia). rewrite nth_last in B. injection B as <-. reflexivity.
Qed.
Lemma arcs_lengths l arcs k a : Forall a_length l -> arc_lengths l = Ok arcs -> nth_error arcs k = Some a -> a_length a.
Proof.
  intros F E. revert a. induction k as [|k IH]; intros a A.
  - rewrite (proj1 (arcs_first l arcs E)) in A. injection A as <-. apply zero_length.
  - destruct (nth_error arcs k) as [b|] eqn:B.
    + destruct (arcs_step l arcs k b a E B A) as (x & X & ->). apply (add_length b x); [apply IH; reflexivity|].
      rewrite Forall_forall in F. apply F, (nth_error_In _ _ X).
    + apply nth_error_None in B. assert (S k < length arcs)%nat by (apply nth_error_Some; rewrite A; discriminate). lia.
Qed.
Lemma arcs_order l arcs i j a b : Forall a_length l -> arc_lengths l = Ok arcs -> (i <= j)%nat -> nth_error arcs i = Some a -> nth_error arcs j = Some b -> place a <= place b.
Proof.
  intros F E H A. revert b. induction H as [|j H IH]; intros b B; [rewrite A in B; injection B as <-; lra|].
  destruct (nth_error arcs j) as [c|] eqn:C.
  - apply Rle_trans with (1 := IH c eq_refl). destruct (arcs_step l arcs j c b E C B) as (x & X & ->).
    apply (add_length c x); [apply (arcs_lengths l arcs j); assumption|]. rewrite Forall_forall in F. apply F, (nth_error_In _ _ X).
  - apply nth_error_None in C. assert (S j < length arcs)%nat by (apply nth_error_Some; rewrite B; discriminate). lia.
Qed.
Lemma arcs_grow lengths : Forall a_length lengths -> exists arcs, arc_lengths lengths = Ok arcs /\ length arcs = S (length lengths) /\
  nth_error arcs 0 = Some (of_int 0) /\ (forall i a b, adjacent arcs i a b -> a_length a /\ a_length b /\ place a <= place b).
Proof.
  intro F. destruct (arcs_total lengths) as (a & b & E & _). exists (a ++ [b]). destruct (arcs_first _ _ E) as [Z L].
  split; [exact E|]. split; [exact L|]. split; [exact Z|]. intros i x y [X Y].
  split; [apply (arcs_lengths _ _ _ _ F E X)|]. split; [apply (arcs_lengths _ _ _ _ F E Y)|]. apply (arcs_order _ _ i (S i) _ _ F E); auto.
Qed.

(** ** Sums *)
Lemma total_snoc l x : total (l ++ [x]) = total l + val x.
Proof. unfold total. induction l as [|y l IH]; cbn [app map fold_right]; [ring|]. rewrite IH. ring. Qed.
Lemma rd_plus x y : fmt x -> fmt y -> exists eps, Rabs eps <= u /\ rd (x + y) = (x + y) * (1 + eps).
Proof.
  intros X Y. destruct (rd_minus x (- y) X) as (e & E & V); [apply generic_format_opp, Y|]. exists e.
  replace (x - - y) with (x + y) in V by ring. split; [pose proof tight_lt; lra|exact V].
Qed.
Lemma sums lengths arcs k a : Forall a_length lengths -> arc_lengths lengths = Ok arcs -> nth_error arcs k = Some a -> finite a ->
  0 <= total (firstn k lengths) /\ (1 - u) ^ k * total (firstn k lengths) <= val a <= (1 + u) ^ k * total (firstn k lengths).
Proof.
  intros F E. revert a. induction k as [|k IH]; intros a A Fa.
  - assert (a = of_int 0) as -> by (pose proof (proj1 (arcs_first _ _ E)); congruence). destruct (of_small 0) as [_ V]; [lia|]. rewrite V. cbn. lra.
  - destruct (nth_error arcs k) as [b|] eqn:B; [|apply nth_error_None in B; assert (S k < length arcs)%nat by (apply nth_error_Some; rewrite A; discriminate); lia].
    destruct (arcs_step _ _ k b a E B A) as (x & X & ->).
    assert (Lx : a_length x) by (rewrite Forall_forall in F; apply F, (nth_error_In _ _ X)).
    destruct (add_length b x (arcs_lengths _ _ _ _ F E B) Lx) as (_ & _ & G). destruct (G Fa) as (Fb & Fx & V). rewrite V.
    destruct (IH b eq_refl Fb) as (T & L & U). rewrite (nth_snoc _ _ _ X), total_snoc.
    assert (0 <= val x) by (destruct Lx as [_ P]; rewrite (place_finite _ Fx) in P; exact P).
    destruct (rd_plus (val b) (val x) (val_fmt b) (val_fmt x)) as (e & Ee & ->). apply Rabs_le_inv in Ee.
    pose proof u_pos. pose proof u_small. set (t := total (firstn k lengths)) in *.
    assert (P1 : 0 <= (1 - u) ^ k <= 1).
    { split; [apply pow_le; lra|]. clear -H0 H1. induction k; cbn; [lra|]. assert (0 <= (1 - u) ^ k) by (apply pow_le; lra). nra. }
    assert (P2 : 1 <= (1 + u) ^ k) by (apply pow_R1_Rle; lra). cbn [pow].
    assert (0 <= (1 - u) ^ k * t) by (apply Rmult_le_pos; lra).
    split; [lra|]. split.
    + apply Rle_trans with ((val b + val x) * (1 - u)); [|apply Rmult_le_compat_l; lra].
      replace ((1 - u) * (1 - u) ^ k * (t + val x)) with (((1 - u) ^ k * t + (1 - u) ^ k * val x) * (1 - u)) by ring.
      apply Rmult_le_compat_r; [lra|]. nra.
    + apply Rle_trans with ((val b + val x) * (1 + u)); [apply Rmult_le_compat_l; lra|].
      replace ((1 + u) * (1 + u) ^ k * (t + val x)) with (((1 + u) ^ k * t + (1 + u) ^ k * val x) * (1 + u)) by ring.
      apply Rmult_le_compat_r; [lra|]. nra.
Qed.
Lemma sums_finite lengths arcs k a : Forall a_length lengths -> arc_lengths lengths = Ok arcs -> nth_error arcs k = Some a ->
  Forall finite (firstn k lengths) -> (1 + u) ^ k * total (firstn k lengths) < 2 ^ 1024 -> finite a.
Proof.
  intros F E. revert a. induction k as [|k IH]; intros a A Fa T.
  - assert (a = of_int 0) as -> by (pose proof (proj1 (arcs_first _ _ E)); congruence). apply (of_small 0). lia.
  - destruct (nth_error arcs k) as [b|] eqn:B; [|apply nth_error_None in B; assert (S k < length arcs)%nat by (apply nth_error_Some; rewrite A; discriminate); lia].
    destruct (arcs_step _ _ k b a E B A) as (x & X & ->). rewrite (nth_snoc _ _ _ X) in Fa, T. rewrite total_snoc in T. apply Forall_app in Fa as [Fk Fx]. inversion_clear Fx as [|? ? Fx' _].
    assert (Lx : a_length x) by (rewrite Forall_forall in F; apply F, (nth_error_In _ _ X)). destruct Lx as [_ Px]. rewrite (place_finite _ Fx') in Px.
    assert (T0 : 0 <= total (firstn k lengths)).
    { clear -F Fk. assert (G : Forall a_length (firstn k lengths)) by (rewrite <- (firstn_skipn k lengths) in F; apply Forall_app in F; tauto).
      unfold total. induction (firstn k lengths) as [|y l IH]; cbn; [lra|]. inversion_clear G as [|? ? [_ G1] G2]. inversion_clear Fk as [|? ? H1 H2]. rewrite (place_finite _ H1) in G1. specialize (IH H2 G2). lra. }
    pose proof u_pos as U0. assert (P2 : 1 <= (1 + u) ^ k) by (apply pow_R1_Rle; lra). cbn [pow] in T. rewrite Rmult_assoc in T. set (P := (1 + u) ^ k) in *. set (t := total (firstn k lengths)) in *.
    assert (S1 : P * t <= P * (t + val x)) by nra. assert (S2 : 0 <= P * (t + val x)) by nra. assert (S3 : P * (t + val x) <= (1 + u) * (P * (t + val x))) by nra.
    assert (Fb : finite b) by (apply (IH b eq_refl Fk); lra). destruct (sums _ _ _ _ F E B Fb) as (_ & _ & V). fold P t in V.
    assert (Pb : 0 <= val b) by (destruct (arcs_lengths _ _ _ _ F E B) as [_ Q]; rewrite (place_finite _ Fb) in Q; exact Q).
    apply (fadd_val b x Fb Fx'). unfold overflows. destruct (rd_plus (val b) (val x) (val_fmt b) (val_fmt x)) as (e & Ee & ->). apply Rabs_le_inv in Ee. pose proof u_small.
    rewrite Rabs_right by (apply Rle_ge, Rmult_le_pos; lra). intro O.
    assert ((val b + val x) * (1 + e) <= (P * (t + val x)) * (1 + u)).
    { apply Rmult_le_compat; try lra. nra. }
    lra.
Qed.
Lemma powers k : INR k * u <= 1 / 2 -> 1 - 2 * (INR k * u) <= (1 - u) ^ k /\ (1 + u) ^ k <= 1 + 2 * (INR k * u).
Proof.
  pose proof u_pos. pose proof u_small. induction k as [|k IH]; [cbn; lra|]. rewrite S_INR. intro H1. pose proof (pos_INR k).
  destruct IH as [A B]; [nra|]. cbn [pow]. split; nra.
Qed.
Lemma sums_close lengths arcs k a : Forall a_length lengths -> arc_lengths lengths = Ok arcs -> nth_error arcs k = Some a -> finite a ->
  INR k * u <= 1 / 2 -> Rabs (val a - total (firstn k lengths)) <= 2 * (INR k * u) * total (firstn k lengths).
Proof.
  intros F E A Fa K. destruct (sums _ _ _ _ F E A Fa) as (T & L & U). destruct (powers k K) as [P Q]. apply Rabs_le. nra.
Qed.

(** ** Lookup *)
Lemma fle_flt x y : x <> B754_nan -> y <> B754_nan -> fle x y = negb (flt y x).
Proof.
  intros X Y. unfold fle, flt, Bleb, Bltb, SpecFloat.SFleb, SpecFloat.SFltb.
  pose proof (Bcompare_swap 53 1024 x y) as S. unfold Bcompare in S.
  destruct (SpecFloat.SFcompare (B2SF x) (B2SF y)) as [c|] eqn:C.
  - rewrite S. destruct c; reflexivity.
  - exfalso. destruct x as [s|[|]| |s m e b], y as [s'|[|]| |s' m' e' b']; try (elim X; reflexivity); try (elim Y; reflexivity); discriminate C.
Qed.
Lemma fle_place x y : x <> B754_nan -> y <> B754_nan -> (fle x y = true <-> place x <= place y).
Proof.
  intros X Y. rewrite (fle_flt x y X Y). destruct (flt y x) eqn:E; cbn [negb]; split; intro H; try discriminate H; try reflexivity.
  - apply (flt_place y x Y X) in E. lra.
  - apply (flt_false y x Y X), E.
Qed.
Lemma fle_nan_l x : fle B754_nan x = false.
Proof. destruct x; reflexivity. Qed.
Lemma fle_nan_r x : fle x B754_nan = false.
Proof. destruct x as [s|[|]| |[|] m e b]; reflexivity. Qed.
Lemma find_if_spec {A} (p : A -> bool) l : match find_if p l with
  | Some k => exists x, nth_error l k = Some x /\ p x = true /\ forall i y, (i < k)%nat -> nth_error l i = Some y -> p y = false
  | None => forall x, In x l -> p x = false
  end.
Proof.
  induction l as [|x l IH]; cbn [find_if]; [intros x []|]. destruct (p x) eqn:P.
  - exists x. split; [reflexivity|]. split; [exact P|]. intros i y H. lia.
  - destruct (find_if p l) as [k|]; cbn [option_map].
    + destruct IH as (y & Y & Q & N). exists y. split; [exact Y|]. split; [exact Q|]. intros [|i] z H Z; cbn in Z; [congruence|]. apply (N i z); [lia|exact Z].
    + intros y [<-|H]; [exact P|apply IH, H].
Qed.
Lemma segment_arcs_nth ts i : nth_error (segment_arcs ts) i =
  match nth_error ts i, nth_error ts (S i) with Some a, Some b => Some (a, b) | _, _ => None end.
Proof. apply segment_times_nth. Qed.
Lemma curve_length_nth l arcs : arc_lengths l = Ok arcs -> nth_error arcs (length l) = Some (curve_length arcs).
Proof.
  intro E. destruct (arcs_total l) as (a & b & E' & L). rewrite E in E'. injection E' as ->.
  unfold curve_length. rewrite rev_app_distr. cbn. rewrite <- L, nth_error_app2, Nat.sub_diag by lia. reflexivity.
Qed.
(** What is found. *)
Lemma found lengths arcs s : Forall a_length lengths -> lengths <> [] -> arc_lengths lengths = Ok arcs ->
  (not_a_number s \/ place s < 0 \/ place (curve_length arcs) < place s -> length_at arcs s = Throw) /\
  (~ not_a_number s -> 0 <= place s <= place (curve_length arcs) ->
    exists p orig dest, length_at arcs s = Ok p /\ adjacent arcs (at_segment p) orig dest /\
      place orig <= place s <= place dest /\ (at_segment p = 0%nat \/ place orig < place s) /\
      at_fraction p = seg_fraction orig dest s).
Proof.
  intros F N E. pose proof (curve_length_nth _ _ E) as C. pose proof (arcs_lengths _ _ _ _ F E C) as [NC PC].
  destruct (of_small 0) as [F0 V0]; [lia|]. pose proof (finite_not_nan _ F0) as N0. pose proof (place_finite _ F0) as P0. rewrite V0 in P0. split.
  - intro H. unfold length_at. destruct (nan_dec s) as [->|Ns]; [rewrite fle_nan_r; reflexivity|].
    destruct (fle (of_int 0) s) eqn:A; [|reflexivity]. apply (fle_place _ _ N0 Ns) in A. rewrite P0 in A. cbn [reassert obind].
    destruct (fle s (curve_length arcs)) eqn:B; [|reflexivity]. apply (fle_place _ _ Ns NC) in B.
    destruct H as [H|[H|H]]; [contradiction|lra|lra].
  - intros Ns [A B]. unfold length_at. rewrite (proj2 (fle_place _ _ N0 Ns)) by (rewrite P0; exact A).
    rewrite (proj2 (fle_place _ _ Ns NC)) by exact B. cbn [reassert obind].
    pose proof (find_if_spec (fun segment => fle s (snd segment)) (segment_arcs arcs)) as FI.
    destruct (find_if (fun segment => fle s (snd segment)) (segment_arcs arcs)) as [k|] eqn:K.
    + destruct FI as ((orig, dest) & X & P & Q). rewrite X. rewrite segment_arcs_nth in X.
      destruct (nth_error arcs k) as [a|] eqn:XA; [|discriminate X]. destruct (nth_error arcs (S k)) as [b|] eqn:XB; [|discriminate X]. injection X as <- <-.
      exists (LengthData k (seg_fraction a b s)), a, b. cbn [at_segment at_fraction snd] in *.
      pose proof (arcs_lengths _ _ _ _ F E XA) as [Na Pa]. pose proof (arcs_lengths _ _ _ _ F E XB) as [Nb Pb].
      apply (fle_place _ _ Ns Nb) in P. split; [reflexivity|]. split; [split; assumption|].
      assert (D : k = 0%nat /\ a = of_int 0 \/ place a < place s).
      { destruct k as [|k]; [left; pose proof (proj1 (arcs_first _ _ E)); split; [reflexivity|congruence]|right].
        destruct (nth_error arcs k) as [z|] eqn:XZ.
        - specialize (Q k (z, a) ltac:(lia)). rewrite segment_arcs_nth, XZ, XA in Q. specialize (Q eq_refl). cbn [snd] in Q.
          rewrite (fle_flt _ _ Ns Na) in Q. apply negb_false_iff in Q. apply (flt_place _ _ Na Ns), Q.
        - apply nth_error_None in XZ. assert (S k < length arcs)%nat by (apply nth_error_Some; rewrite XA; discriminate). lia. }
      destruct D as [[-> ->]|D]; (split; [split; lra|split; [|reflexivity]]); [left; reflexivity|right; exact D].
    + exfalso. destruct (length lengths) as [|n] eqn:Ln; [apply length_zero_iff_nil in Ln; contradiction|].
      destruct (nth_error arcs n) as [z|] eqn:XZ.
      * assert (X : nth_error (segment_arcs arcs) n = Some (z, curve_length arcs)) by (rewrite segment_arcs_nth, XZ, C; reflexivity).
        specialize (FI _ (nth_error_In _ _ X)). cbn [snd] in FI. rewrite (proj2 (fle_place _ _ Ns NC) B) in FI. discriminate FI.
      * apply nth_error_None in XZ. assert (S n < length arcs)%nat by (apply nth_error_Some; rewrite C; discriminate). lia.
Qed.
Lemma found_inv lengths arcs s p : Forall a_length lengths -> arc_lengths lengths = Ok arcs -> length_at arcs s = Ok p ->
  ~ not_a_number s /\ 0 <= place s <= place (curve_length arcs) /\
  exists orig dest, adjacent arcs (at_segment p) orig dest /\ a_length orig /\ a_length dest /\ place orig <= place s <= place dest /\
    (at_segment p = 0%nat \/ place orig < place s) /\ (at_segment p = 0%nat -> orig = of_int 0) /\ at_fraction p = seg_fraction orig dest s.
Proof.
  intros F E H. assert (N : lengths <> []).
  { intros ->. injection E as <-. unfold length_at in H. cbn [segment_arcs first_length combine tl find_if] in H.
    destruct (fle (of_int 0) s); [|discriminate H]. cbn [reassert obind] in H. destruct (fle s (curve_length first_length)); discriminate H. }
  destruct (found lengths arcs s F N E) as [T G].
  destruct (nan_dec s) as [->|Ns]; [rewrite (T (or_introl eq_refl)) in H; discriminate H|].
  destruct (Rlt_le_dec (place s) 0) as [L|L]; [rewrite (T (or_intror (or_introl L))) in H; discriminate H|].
  destruct (Rlt_le_dec (place (curve_length arcs)) (place s)) as [M|M]; [rewrite (T (or_intror (or_intror M))) in H; discriminate H|].
  split; [exact Ns|]. split; [lra|]. destruct (G Ns (conj L M)) as (q & orig & dest & Q & A & B & C & D). rewrite H in Q. injection Q as <-.
  exists orig, dest. split; [exact A|]. destruct A as [A1 A2].
  split; [apply (arcs_lengths _ _ _ _ F E A1)|]. split; [apply (arcs_lengths _ _ _ _ F E A2)|]. split; [exact B|]. split; [exact C|].
  split; [|exact D]. intro Z. rewrite Z in A1. pose proof (proj1 (arcs_first _ _ E)). congruence.
Qed.

(** ** Fraction *)
Lemma rd_plus_zero x y : fmt x -> fmt y -> x <> y -> rd (x - y) <> 0.
Proof.
  intros X Y H K. destruct (rd_minus x y X Y) as (e & E & V). rewrite V in K. pose proof tight_lt. pose proof u_small. apply Rabs_le_inv in E.
  apply Rmult_integral in K as [K|K]; lra.
Qed.
Lemma quotient_val (n d : f64) : finite n -> finite d -> 0 <= val n <= val d -> val d <> 0 ->
  finite (fdivide n d) /\ val (fdivide n d) = rd (val n / val d) /\ 0 <= val n / val d <= 1.
Proof.
  intros Fn Fd H D. assert (0 < val d) by lra. assert (0 <= val n / val d <= 1).
  { split; [apply Rmult_le_pos; [lra|apply Rlt_le, Rinv_0_lt_compat; assumption]|]. apply (Rmult_le_reg_r (val d)); [assumption|]. unfold Rdiv. rewrite Rmult_assoc, Rinv_l by lra. lra. }
  destruct (fdiv_val n d Fn D) as [F V].
  - apply small_no_overflow. rewrite Rabs_right by lra. apply Rle_lt_trans with 1; [lra|]. apply Rlt_pow_R1; [lra|]. apply Nat.ltb_lt. vm_compute. reflexivity.
  - auto.
Qed.
Lemma differences a b : finite a -> finite b -> 0 <= val a -> 0 <= val b ->
  finite (fsub a b) /\ val (fsub a b) = rd (val a - val b).
Proof.
  intros A B PA PB. apply fsub_val; [exact A|exact B|]. intro O. unfold overflows in O. rewrite <- rd_abs in O.
  assert (Rabs (val a - val b) <= val a \/ Rabs (val a - val b) <= val b) as [H|H].
  { destruct (Rle_lt_dec (val b) (val a)); [left|right]; [rewrite Rabs_right|rewrite Rabs_left]; lra. }
  - apply rd_le in H. rewrite (rd_id (val a) (val_fmt a)) in H. pose proof (val_bound a) as V. apply Rabs_def2 in V. lra.
  - apply rd_le in H. rewrite (rd_id (val b) (val_fmt b)) in H. pose proof (val_bound b) as V. apply Rabs_def2 in V. lra.
Qed.
Lemma fraction_val a b s : finite a -> finite b -> finite s -> 0 <= val a -> val a <= val s <= val b -> val a < val b ->
  let n := rd (val s - val a) in let d := rd (val b - val a) in
  0 <= n <= d /\ 0 < d /\ finite (seg_fraction a b s) /\ val (seg_fraction a b s) = rd (n / d) /\ 0 <= n / d <= 1.
Proof.
  intros A B S PA H L n d. destruct (differences s a S A) as [F1 V1]; [lra..|]. destruct (differences b a B A) as [F2 V2]; [lra..|].
  assert (0 <= n <= d) by (split; [apply rd_ge0; lra|apply rd_le; lra]).
  assert (d <> 0) by (apply rd_plus_zero; [apply val_fmt|apply val_fmt|lra]).
  destruct (quotient_val (fsub s a) (fsub b a) F1 F2) as (F & V & Q); [rewrite V1, V2; assumption|rewrite V2; assumption|].
  rewrite V1, V2 in V, Q. split; [assumption|]. split; [lra|]. split; [exact F|]. split; [exact V|exact Q].
Qed.
Lemma fraction_range a b s : finite a -> finite b -> finite s -> 0 <= val a -> val a <= val s <= val b -> val a < val b ->
  finite (seg_fraction a b s) /\ 0 <= val (seg_fraction a b s) <= 1 /\
  Rabs (val (seg_fraction a b s) - fraction a b s) <= 4 * u * fraction a b s + / 2 ^ 1075 /\
  (val s = val a -> val (seg_fraction a b s) = 0) /\ (val s = val b -> val (seg_fraction a b s) = 1).
Proof.
  intros A B S PA H L. destruct (fraction_val a b s A B S PA H L) as (Hn & Hd & F & V & Q). set (n := rd (val s - val a)) in *. set (d := rd (val b - val a)) in *.
  split; [exact F|]. rewrite V. split; [split; [apply rd_ge0, Q|rewrite <- (rd_id 1 fmt_1); apply rd_le, Q]|]. split; [|split].
  - destruct (rd_minus (val s) (val a) (val_fmt s) (val_fmt a)) as (e1 & E1 & N1). destruct (rd_minus (val b) (val a) (val_fmt b) (val_fmt a)) as (e2 & E2 & N2).
    destruct (rd_general (n / d)) as (e3 & h & E3 & Eh & N3). rewrite N3. pose proof tight_lt as T. pose proof u_pos as U0. pose proof u_small as U1.
    assert (W : 0 <= fraction a b s <= 1).
    { unfold fraction. split; [apply Rmult_le_pos; [lra|apply Rlt_le, Rinv_0_lt_compat; lra]|]. apply (Rmult_le_reg_r (val b - val a)); [lra|]. unfold Rdiv. rewrite Rmult_assoc, Rinv_l by lra. lra. }
    assert (R : n / d = fraction a b s * ((1 + e1) / (1 + e2))).
    { apply Rabs_le_inv in E2. unfold n, d, fraction. rewrite N1, N2. field. split; lra. }
    rewrite R. apply Rabs_le_inv in E1, E2, E3, Eh.
    assert (X : Rabs ((1 + e1) / (1 + e2) * (1 + e3) - 1) <= 4 * u).
    { replace ((1 + e1) / (1 + e2) * (1 + e3) - 1) with (((1 + e1) * (1 + e3) - (1 + e2)) / (1 + e2)) by (field; lra).
      unfold Rdiv. rewrite Rabs_mult, (Rabs_right (/ (1 + e2))) by (apply Rle_ge, Rlt_le, Rinv_0_lt_compat; lra).
      apply (Rmult_le_reg_r (1 + e2)); [lra|]. rewrite Rmult_assoc, Rinv_l, Rmult_1_r by lra.
      apply Rle_trans with (3 * u + u * u); [|nra]. apply Rabs_le. split; nra. }
    replace (fraction a b s * ((1 + e1) / (1 + e2)) * (1 + e3) + h - fraction a b s) with (fraction a b s * ((1 + e1) / (1 + e2) * (1 + e3) - 1) + h) by ring.
    apply Rle_trans with (1 := Rabs_triang _ _). apply Rplus_le_compat.
    + rewrite Rabs_mult, (Rabs_right (fraction a b s)) by lra. rewrite Rmult_comm. apply Rmult_le_compat_r; [apply W|exact X].
    + apply Rabs_le. rewrite <- (bpow_pow 1075), <- bpow_opp. exact Eh.
  - intro K. unfold n. rewrite K, Rminus_diag_eq, rd_0 by reflexivity. unfold Rdiv. rewrite Rmult_0_l. apply rd_0.
  - intro K. unfold n, d in *. rewrite K. unfold Rdiv. rewrite Rinv_r by lra. apply (rd_id 1 fmt_1).
Qed.
Lemma fraction_monotone a b s s' : finite a -> finite b -> finite s -> finite s' -> 0 <= val a -> val a <= val s -> val s <= val s' -> val s' <= val b -> val a < val b ->
  val (seg_fraction a b s) <= val (seg_fraction a b s').
Proof.
  intros A B S S' PA H1 H2 H3 L. destruct (fraction_val a b s A B S PA ltac:(lra) L) as (_ & Hd & _ & V & _).
  destruct (fraction_val a b s' A B S' PA ltac:(lra) L) as (_ & _ & _ & V' & _). rewrite V, V'. apply rd_le.
  apply Rmult_le_compat_r; [apply Rlt_le, Rinv_0_lt_compat, Hd|]. apply rd_le. lra.
Qed.
Lemma place_cases x : ~ not_a_number x -> 0 <= place x -> finite x \/ x = B754_infinity false.
Proof.
  intros N P. destruct x as [s|[|]| |s m e b]; [left; reflexivity| |right; reflexivity|elim N; reflexivity|left; reflexivity].
  cbn [place] in P. pose proof pow_1024_pos. lra.
Qed.
Lemma below_finite x y : ~ not_a_number x -> 0 <= place x -> place x <= place y -> finite y -> finite x.
Proof.
  intros N P L F. destruct (place_cases x N P) as [G| ->]; [exact G|]. exfalso. rewrite (place_finite y F) in L. pose proof (val_bound y) as V.
  apply Rabs_def2 in V. cbn [place] in L. lra.
Qed.
Lemma fraction_zero a b s : finite a -> finite b -> finite s -> val a = 0 -> val b = 0 -> val s = 0 -> seg_fraction a b s = B754_nan.
Proof.
  assert (Z : forall x : f64, finite x -> val x = 0 -> exists z, x = B754_zero z).
  { intros [z|z| |z m e h] F V; try discriminate F; [exists z; reflexivity|]. exfalso. unfold val in V. cbn in V.
    apply (F2R_neq_0 radix2 (Float radix2 (cond_Zopp z (Z.pos m)) e)); [destruct z; discriminate|exact V]. }
  intros A B S VA VB VS. destruct (Z a A VA) as [x ->]. destruct (Z b B VB) as [y ->]. destruct (Z s S VS) as [z ->].
  destruct x, y, z; reflexivity.
Qed.
Lemma fractions lengths arcs s p orig dest : Forall a_length lengths -> arc_lengths lengths = Ok arcs -> length_at arcs s = Ok p ->
  adjacent arcs (at_segment p) orig dest -> finite dest ->
  finite orig /\ finite s /\
  (val orig < val dest -> finite (at_fraction p) /\ 0 <= val (at_fraction p) <= 1 /\
    Rabs (val (at_fraction p) - fraction orig dest s) <= 4 * u * fraction orig dest s + / 2 ^ 1075 /\
    (val s = val orig -> val (at_fraction p) = 0) /\ (val s = val dest -> val (at_fraction p) = 1)) /\
  (val dest <= val orig -> at_segment p = 0%nat /\ val dest = 0 /\ not_a_number (at_fraction p)).
Proof.
  intros F E H [A1 A2] Fd. destruct (found_inv _ _ _ _ F E H) as (Ns & Ps & o & d & [O D] & [No Po] & [Nd Pd] & L & C & Z & Q).
  assert (o = orig) by congruence. assert (d = dest) by congruence. subst o d.
  assert (Fs : finite s) by (apply (below_finite s dest); tauto || lra).
  assert (Fo : finite orig) by (apply (below_finite orig s); tauto || lra).
  rewrite (place_finite _ Fs), (place_finite _ Fo), (place_finite _ Fd) in *.
  split; [exact Fo|]. split; [exact Fs|]. rewrite Q. split.
  - intro K. apply fraction_range; assumption.
  - intro K. destruct C as [C|C]; [|lra]. split; [exact C|]. specialize (Z C). subst orig. destruct (of_small 0) as [_ V]; [lia|]. rewrite V in *.
    split; [lra|]. apply fraction_zero; try assumption; lra.
Qed.
Lemma fractions_grow lengths arcs s s' p p' orig dest : Forall a_length lengths -> arc_lengths lengths = Ok arcs -> length_at arcs s = Ok p -> length_at arcs s' = Ok p' ->
  at_segment p = at_segment p' -> adjacent arcs (at_segment p) orig dest -> finite dest -> val orig < val dest -> val s <= val s' ->
  val (at_fraction p) <= val (at_fraction p').
Proof.
  intros F E H H' K A Fd L M. destruct (fractions _ _ _ _ _ _ F E H A Fd) as (Fo & Fs & _). 
  assert (A' := A). rewrite K in A'. destruct (fractions _ _ _ _ _ _ F E H' A' Fd) as (_ & Fs' & _).
  destruct A as [A1 A2], A' as [A1' A2'].
  destruct (found_inv _ _ _ _ F E H) as (_ & _ & o & d & [O D] & [_ Po] & _ & R & _ & _ & Q). assert (o = orig) by congruence. assert (d = dest) by congruence. subst o d.
  destruct (found_inv _ _ _ _ F E H') as (_ & _ & o & d & [O' D'] & _ & _ & R' & _ & _ & Q'). assert (o = orig) by congruence. assert (d = dest) by congruence. subst o d.
  rewrite Q, Q'. rewrite (place_finite _ Fs), (place_finite _ Fs'), (place_finite _ Fo), (place_finite _ Fd) in *.
  apply fraction_monotone; try assumption; lra.
Qed.
Lemma sections_grow lengths arcs s s' p p' : Forall a_length lengths -> arc_lengths lengths = Ok arcs -> length_at arcs s = Ok p -> length_at arcs s' = Ok p' ->
  place s <= place s' -> (at_segment p <= at_segment p')%nat.
Proof.
  intros F E H H' L. destruct (found_inv _ _ _ _ F E H) as (_ & _ & o & d & [O D] & _ & _ & R & C & _).
  destruct (found_inv _ _ _ _ F E H') as (_ & _ & o' & d' & [O' D'] & _ & _ & R' & C' & _).
  destruct (Nat.le_gt_cases (at_segment p) (at_segment p')) as [?|G]; [assumption|exfalso].
  destruct C as [C|C]; [lia|]. pose proof (arcs_order _ _ _ _ _ _ F E (ltac:(lia) : (S (at_segment p') <= at_segment p)%nat) D' O) as X. lra.
Qed.
Lemma endless lengths arcs s p orig : Forall a_length lengths -> arc_lengths lengths = Ok arcs -> length_at arcs s = Ok p ->
  adjacent arcs (at_segment p) orig (B754_infinity false) ->
  (finite s /\ val (at_fraction p) = 0 /\ finite (at_fraction p)) \/ (s = B754_infinity false /\ not_a_number (at_fraction p)).
Proof.
  intros F E H [A1 A2]. destruct (found_inv _ _ _ _ F E H) as (Ns & Ps & o & d & [O D] & [No Po] & _ & L & C & Z & Q).
  assert (o = orig) by congruence. assert (d = B754_infinity false) by congruence. subst o d.
  assert (Fo : finite orig).
  { destruct (place_cases orig No Po) as [G| ->]; [exact G|exfalso]. destruct C as [C|C]; [specialize (Z C); discriminate Z|].
    pose proof (place_bound s) as V. cbn [place] in C. lra. }
  rewrite Q. destruct (place_cases s Ns (proj1 Ps)) as [G| ->]; [left|right]; (split; [first [exact G|reflexivity]|]).
  - destruct (differences s orig G Fo) as [X _]; [rewrite <- (place_finite _ G); apply Ps|rewrite <- (place_finite _ Fo); exact Po|].
    unfold seg_fraction. replace (fsub (B754_infinity false) orig) with (@B754_infinity 53 1024 false).
    + revert X. generalize (fsub s orig). intros [z|z| |z m e h] X; try discriminate X; split; reflexivity.
    + clear -Fo. destruct orig as [z|z| |z m e h]; try discriminate Fo; reflexivity.
  - clear -Fo. destruct orig as [z|z| |z m e h]; try discriminate Fo; reflexivity.
Qed.
Lemma nan_absorbs lengths arcs s : In B754_nan lengths -> arc_lengths lengths = Ok arcs -> length_at arcs s = Throw.
Proof.
  intros I E. assert (C : curve_length arcs = B754_nan).
  { unfold arc_lengths in E. revert arcs E. generalize first_length. induction lengths as [|l ls IH]; [destruct I|]. intros a arcs E. cbn [append_lengths] in E.
    unfold append_length in E. destruct (rev a) as [|b a'] eqn:R; [discriminate E|]. cbn [obind] in E. destruct I as [->|I]; [|eapply IH; eassumption].
    clear -E. assert (N : curve_length (a ++ [fadd b B754_nan]) = B754_nan) by (unfold curve_length; rewrite rev_app_distr; cbn; destruct b as [|[|]| |]; reflexivity).
    revert N E. generalize (a ++ [fadd b B754_nan]). clear. induction ls as [|l ls IH]; intros a N E; cbn [append_lengths] in E; [injection E as <-; exact N|].
    unfold append_length in E. unfold curve_length in N. destruct (rev a) as [|b a'] eqn:R; [discriminate E|]. cbn [obind] in E. subst b.
    apply (IH _) in E; [exact E|]. unfold curve_length. rewrite rev_app_distr. cbn. destruct l as [|[|]| |]; reflexivity. }
  unfold length_at. rewrite C, fle_nan_r. destruct (fle (of_int 0) s); reflexivity.
Qed.
Lemma passed_over lengths arcs i orig dest : Forall a_length lengths -> arc_lengths lengths = Ok arcs -> adjacent arcs i orig dest ->
  i <> 0%nat -> place dest <= place orig -> forall s p, length_at arcs s = Ok p -> at_segment p <> i.
Proof.
  intros F E [A1 A2] N L s p H <-. destruct (found_inv _ _ _ _ F E H) as (_ & _ & o & d & [O D] & _ & _ & R & C & _).
  assert (o = orig) by congruence. assert (d = dest) by congruence. subst o d. destruct C as [C|C]; [contradiction|lra].
Qed.
Lemma lookup lengths arcs s : Forall a_length lengths -> lengths <> [] -> arc_lengths lengths = Ok arcs ->
  (not_a_number s \/ place s < 0 \/ place (curve_length arcs) < place s -> length_at arcs s = Throw) /\
  (~ not_a_number s -> 0 <= place s <= place (curve_length arcs) ->
    exists p orig dest, length_at arcs s = Ok p /\ adjacent arcs (at_segment p) orig dest /\
      place orig <= place s <= place dest /\ (at_segment p = 0%nat \/ place orig < place s)).
Proof.
  intros F N E. destruct (found lengths arcs s F N E) as [T G]. split; [exact T|]. intros Ns P. destruct (G Ns P) as (p & o & d & A & B & C & D & _).
  exists p, o, d. auto.
Qed.
Lemma monotone_lengths lengths arcs s s' p p' : Forall a_length lengths -> arc_lengths lengths = Ok arcs ->
  length_at arcs s = Ok p -> length_at arcs s' = Ok p' -> place s <= place s' ->
  (at_segment p <= at_segment p')%nat /\
  forall orig dest, at_segment p = at_segment p' -> adjacent arcs (at_segment p) orig dest -> finite dest -> val orig < val dest ->
    val (at_fraction p) <= val (at_fraction p').
Proof.
  intros F E H H' L. split; [exact (sections_grow _ _ _ _ _ _ F E H H' L)|]. intros o d K A Fd M.
  destruct (fractions _ _ _ _ _ _ F E H A Fd) as (_ & Fs & _). assert (A' := A). rewrite K in A'. destruct (fractions _ _ _ _ _ _ F E H' A' Fd) as (_ & Fs' & _).
  rewrite (place_finite _ Fs), (place_finite _ Fs') in L. exact (fractions_grow _ _ _ _ _ _ _ _ F E H H' K A Fd M L).
Qed.
(** ** Computing with curves of one or two segments *)
Lemma length_at_second a b c s : fle (of_int 0) s = true -> fle s c = true -> fle s b = false ->
  length_at [a; b; c] s = Ok (LengthData 1 (seg_fraction b c s)).
Proof.
  intros A B C. unfold length_at, curve_length, segment_arcs. cbn [rev app combine tl find_if snd]. rewrite A, B. cbn [reassert obind]. rewrite C. reflexivity.
Qed.
Lemma length_at_only a b s : fle (of_int 0) s = true -> fle s b = true -> length_at [a; b] s = Ok (LengthData 0 (seg_fraction a b s)).
Proof.
  intros A B. unfold length_at, curve_length, segment_arcs. cbn [rev app combine tl find_if snd]. rewrite A, B. cbn [reassert obind]. reflexivity.
Qed.
Lemma range_refuted : exists lengths arcs s p, Forall a_length lengths /\ Forall finite lengths /\ arc_lengths lengths = Ok arcs /\ finite s /\
  length_at arcs s = Ok p /\ ~ (finite (at_fraction p) /\ 0 <= val (at_fraction p) <= 1).
Proof.
  exists [of_int 0]. eexists _, (of_int 0), _. pose proof zero_length as Z. destruct (of_small 0) as [F0 V0]; [lia|].
  split; [apply Forall_cons; [exact Z|apply Forall_nil]|]. split; [apply Forall_cons; [exact F0|apply Forall_nil]|]. split; [reflexivity|]. split; [exact F0|].
  split; [apply length_at_only; vm_compute; reflexivity|]. cbn [at_fraction]. intros [F _]. revert F. vm_compute. discriminate.
Qed.
Lemma end_refuted : exists lengths arcs, Forall a_length lengths /\ Forall (fun l => finite l /\ 0 < val l) lengths /\
  length lengths = 2%nat /\ arc_lengths lengths = Ok arcs /\ forall s p, length_at arcs s = Ok p -> at_segment p = 0%nat.
Proof.
  exists [double 1 53; of_int 1]. assert (P : Forall (fun l => finite l /\ 0 < val l) [double 1 53; of_int 1]).
  { destruct (of_small 0) as [F0 V0]; [lia|]. repeat apply Forall_cons; try apply Forall_nil; (split; [vm_compute; reflexivity|]);
      rewrite <- V0; apply double_lt; vm_compute; reflexivity. }
  assert (L : Forall a_length [double 1 53; of_int 1]).
  { revert P. apply Forall_impl. intros x [F V]. split; [apply finite_not_nan, F|rewrite (place_finite _ F); lra]. }
  eexists. split; [exact L|]. split; [exact P|]. split; [reflexivity|]. split; [reflexivity|]. intros s p H.
  assert (E : arc_lengths [double 1 53; of_int 1] = Ok [of_int 0; fadd (of_int 0) (double 1 53); fadd (fadd (of_int 0) (double 1 53)) (of_int 1)]) by reflexivity.
  pose proof (passed_over _ _ 1 _ _ L E (conj eq_refl eq_refl) ltac:(discriminate)) as Q.
  destruct (found_inv _ _ _ _ L E H) as (_ & _ & o & d & [O D] & _).
  assert (at_segment p <> 1%nat).
  { apply (fun X => Q X s p H). apply fle_place; [intro N; apply (f_equal B2SF) in N; revert N; vm_compute; discriminate..|vm_compute; reflexivity]. }
  destruct (at_segment p) as [|[|[|k]]]; [reflexivity|congruence|discriminate D|destruct k; discriminate D].
Qed.
