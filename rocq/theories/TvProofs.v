(** C89: which elements the tests of the Lie groups go over. *)
From Coq Require Import Reals ZArith Lia Lra List.
From Flocq Require Import Core BinarySingleNaN.
From Verif Require Import Cpp FloatModel FloatSpec NrmSpec DriftModel TwistModel FtsModel FpsModel TvModel TvSpec.
Import ListNotations.

(** ** Draws *)
Fixpoint after {S} (draw : source S) (s : S) (i : nat) : S :=
  match i with O => s | Datatypes.S i => after draw (snd (draw s)) i end.
Lemma after_add {S} (draw : source S) i : forall s j, after draw (after draw s i) j = after draw s (i + j).
Proof. induction i as [|i IH]; intros s j; [reflexivity|]. cbn [after plus]. apply IH. Qed.
Lemma nth_after {S} (draw : source S) i : forall s j, nth_draw draw (after draw s i) j = nth_draw draw s (i + j).
Proof. induction i as [|i IH]; intros s j; [reflexivity|]. cbn [after plus nth_draw]. apply IH. Qed.
Lemma drawn3_after {S} (draw : source S) s i j : drawn3 draw (after draw s i) j = drawn3 draw s (i + j).
Proof. unfold drawn3. rewrite !nth_after, !Nat.add_assoc. reflexivity. Qed.
Lemma random3_draws {S} (draw : source S) s : random3 draw s = (drawn3 draw s 0, after draw s 3).
Proof. unfold random3, drawn3. cbn [nth_draw after plus]. destruct (draw s) as [x s1]. cbn [fst snd]. destruct (draw s1) as [y s2]. cbn [fst snd]. destruct (draw s2) as [z s3]. reflexivity. Qed.
Lemma random6_draws {S} (draw : source S) s : random6 draw s = (drawn6 draw s 0, after draw s 6).
Proof. unfold random6. rewrite random3_draws, random3_draws, drawn3_after, after_add. reflexivity. Qed.

(** ** The loop *)
Fixpoint randoms {S V} (k : kind S V) (n : nat) (s : S) : list V :=
  match n with O => [] | Datatypes.S n => fst (k_random k s) :: randoms k n (snd (k_random k s)) end.
Lemma randoms_length {S V} (k : kind S V) n : forall s, length (randoms k n s) = n.
Proof. induction n as [|n IH]; intro s; [reflexivity|]. cbn [randoms length]. rewrite IH. reflexivity. Qed.
Lemma fill_ok {S V} (k : kind S V) n : forall i s l, (i + Z.of_nat n <= INT_MAX)%Z -> fill k n i s l = Ok (l ++ randoms k n s).
Proof.
  induction n as [|n IH]; intros i s l B; cbn [fill randoms]; [rewrite app_nil_r; reflexivity|]. destruct (k_random k s) as [v s'] eqn:E. cbn [fst snd].
  destruct (Z.eqb_spec i INT_MAX) as [->|_]; [lia|]. rewrite IH by lia. rewrite <- app_assoc. reflexivity.
Qed.
Lemma fill_ub {S V} (k : kind S V) n : forall i s l, (i <= INT_MAX)%Z -> (INT_MAX < i + Z.of_nat n)%Z -> fill k n i s l = UB.
Proof.
  induction n as [|n IH]; intros i s l A B; cbn [fill]; [lia|]. destruct (k_random k s) as [v s'] eqn:E.
  destruct (Z.eqb_spec i INT_MAX) as [->|N]; [reflexivity|]. apply IH; lia.
Qed.
Definition starts {S V} (k : kind S V) (s : S) : list V :=
  [k_zero k; k_ones k; k_neg k (k_ones k); fst (k_large k s); k_scale k test_tiny (fst (k_random k (snd (k_large k s))))].
Definition started {S V} (k : kind S V) (s : S) : S := snd (k_random k (snd (k_large k s))).
Lemma resize_same {V} n (x : V) l : length l = n -> resize n x l = l.
Proof. intros <-. unfold resize. rewrite firstn_all, Nat.sub_diag. apply app_nil_r. Qed.
Lemma make_value {S V} (k : kind S V) x s count : make_test_vectors k x s count =
  if (count <? 7)%Z then Throw else if (INT_MAX <? count)%Z then UB else Ok (starts k s ++ randoms k (Z.to_nat count - 5) (started k s)).
Proof.
  unfold make_test_vectors, min_test_elements. destruct (Z.ltb_spec count 7) as [L|L]; [reflexivity|]. unfold starts, started.
  destruct (k_large k s) as [v s1]. cbn [fst snd]. destruct (k_random k s1) as [w s2]. cbn [fst snd length]. change (Z.of_nat 5) with 5%Z.
  destruct (Z.ltb_spec INT_MAX count) as [K|K].
  - rewrite fill_ub; [reflexivity|unfold INT_MAX; lia|lia].
  - rewrite fill_ok by lia. cbn [obind]. rewrite resize_same; [reflexivity|]. rewrite app_length, randoms_length. cbn [length]. lia.
Qed.
Lemma make_ok {S V} (k : kind S V) x s count l : make_test_vectors k x s count = Ok l ->
  (7 <= count < 2 ^ 31)%Z /\ l = starts k s ++ randoms k (Z.to_nat count - 5) (started k s).
Proof. rewrite make_value. destruct (Z.ltb_spec count 7); [discriminate|]. destruct (Z.ltb_spec INT_MAX count); [discriminate|]. intro E. injection E as <-. unfold INT_MAX in *. split; [lia|reflexivity]. Qed.
Lemma counts {S V} (k : kind S V) x s count : ((count < 7)%Z -> make_test_vectors k x s count = Throw) /\
  ((7 <= count < 2 ^ 31)%Z -> exists l, make_test_vectors k x s count = Ok l /\ Z.of_nat (length l) = count) /\ ((2 ^ 31 <= count)%Z -> make_test_vectors k x s count = UB).
Proof.
  rewrite make_value. unfold INT_MAX. split; [|split]; intro H.
  - rewrite (proj2 (Z.ltb_lt _ _)) by lia. reflexivity.
  - rewrite (proj2 (Z.ltb_ge _ _)) by lia. rewrite (proj2 (Z.ltb_ge _ _)) by lia. eexists. split; [reflexivity|]. rewrite app_length, randoms_length. cbn [starts length]. lia.
  - rewrite (proj2 (Z.ltb_ge _ _)) by lia. rewrite (proj2 (Z.ltb_lt _ _)) by lia. reflexivity.
Qed.

(** ** The elements *)
Lemma randoms3 {S} (draw : source S) n : forall s j, (j < n)%nat -> nth_error (randoms (kind3 draw) n s) j = Some (drawn3 draw s (3 * j)).
Proof.
  induction n as [|n IH]; intros s j H; [lia|]. cbn [randoms]. cbn [kind3 k_random]. rewrite random3_draws. cbn [fst snd]. destruct j as [|j]; [reflexivity|]. cbn [nth_error]. rewrite IH by lia. rewrite drawn3_after. f_equal. f_equal. lia.
Qed.
Lemma drawn6_after {S} (draw : source S) s i j : drawn6 draw (after draw s i) j = drawn6 draw s (i + j).
Proof. unfold drawn6. rewrite !drawn3_after, !Nat.add_assoc. reflexivity. Qed.
Lemma randoms6 {S} (draw : source S) n : forall s j, (j < n)%nat -> nth_error (randoms (kind6 draw) n s) j = Some (drawn6 draw s (6 * j)).
Proof.
  induction n as [|n IH]; intros s j H; [lia|]. cbn [randoms]. cbn [kind6 k_random]. rewrite random6_draws. cbn [fst snd]. destruct j as [|j]; [reflexivity|]. cbn [nth_error]. rewrite IH by lia. rewrite drawn6_after. f_equal. f_equal. lia.
Qed.
Lemma starts3 {S} (draw : source S) s : starts (kind3 draw) s =
  [thrice (of_int 0); thrice (of_int 1); thrice (fneg (of_int 1)); FV test_large_rotation test_large_rotation (fneg test_large_rotation); fscale test_tiny (drawn3 draw s 0)] /\
  started (kind3 draw) s = after draw s 3.
Proof. unfold starts, started. cbn [kind3 k_zero k_ones k_neg k_large k_random k_scale large3 fst snd]. rewrite random3_draws. split; reflexivity. Qed.
Lemma starts6 {S} (draw : source S) s : starts (kind6 draw) s =
  [FT (thrice (of_int 0)) (thrice (of_int 0)); FT (thrice (of_int 1)) (thrice (of_int 1)); FT (thrice (fneg (of_int 1))) (thrice (fneg (of_int 1)));
   FT (FV test_large_rotation test_large_rotation (fneg test_large_rotation)) (fscale test_large (drawn3 draw s 0)); ftscale test_tiny (drawn6 draw s 3)] /\
  started (kind6 draw) s = after draw s 9.
Proof.
  unfold starts, started. cbn [kind6 k_zero k_ones k_neg k_large k_random k_scale]. unfold large6. cbn [large3]. rewrite random3_draws. cbn [fst snd]. rewrite random6_draws. cbn [fst snd]. rewrite after_add, drawn6_after. split; reflexivity.
Qed.
Lemma elements3 {S} (draw : source S) x s count l : so3_algebra_elements draw x s count = Ok l ->
  exists rest, l = [thrice (of_int 0); thrice (of_int 1); thrice (fneg (of_int 1)); FV test_large_rotation test_large_rotation (fneg test_large_rotation); fscale test_tiny (drawn3 draw s 0)] ++ rest /\ length rest = (Z.to_nat count - 5)%nat /\
  forall j, (j < Z.to_nat count - 5)%nat -> nth_error rest j = Some (drawn3 draw s (3 + 3 * j)).
Proof.
  intro E. apply make_ok in E. destruct E as [C ->]. destruct (starts3 draw s) as [-> ->]. eexists. split; [reflexivity|]. split; [apply randoms_length|]. intros j H. rewrite randoms3 by exact H. rewrite drawn3_after. reflexivity.
Qed.
Lemma elements6 {S} (draw : source S) x s count l : se3_algebra_elements draw x s count = Ok l ->
  exists rest, l = [FT (thrice (of_int 0)) (thrice (of_int 0)); FT (thrice (of_int 1)) (thrice (of_int 1)); FT (thrice (fneg (of_int 1))) (thrice (fneg (of_int 1)));
   FT (FV test_large_rotation test_large_rotation (fneg test_large_rotation)) (fscale test_large (drawn3 draw s 0)); ftscale test_tiny (drawn6 draw s 3)] ++ rest /\ length rest = (Z.to_nat count - 5)%nat /\
  forall j, (j < Z.to_nat count - 5)%nat -> nth_error rest j = Some (drawn6 draw s (9 + 6 * j)).
Proof.
  intro E. apply make_ok in E. destruct E as [C ->]. destruct (starts6 draw s) as [-> ->]. eexists. split; [reflexivity|]. split; [apply randoms_length|]. intros j H. rewrite randoms6 by exact H. rewrite drawn6_after. reflexivity.
Qed.
