(** Random durations and the tests that draw them: C94. *)
From Coq Require Import List ZArith Reals Lia.
From Verif Require Import Cpp TimeModel FloatModel FloatSpec FloatProofs RdModel RdSpec RdProofs.
Import ListNotations.
Open Scope Z_scope.

(** A random duration is spelled by the next two words of the generator and steps the
    generator past just these.  (The fuel bounds the rounds of the distribution: one is
    enough.) *)
Theorem c94_two_words : forall G (next : G -> Z * G) g, words next ->
  exists d, in64 d /\ spells (fst (next g)) (fst (next (snd (next g)))) d /\
    forall fuel, random_duration next (S fuel) g = Some (d, snd (next (snd (next g)))).
Proof.
  intros G next g W. destruct (spells_exists _ _ (W g) (W (snd (next g)))) as [d D]. exists d.
  split; [exact (spells_in64 _ _ _ D)|]. split; [exact D|]. intro fuel. apply random_spells; assumption.
Qed.
Print Assumptions c94_two_words.
(** Each duration is spelled by one pair of words: if the pairs are equally likely, so are the
    durations. *)
Theorem c94_uniform : forall d, in64 d -> exists hi lo, spells hi lo d /\ forall hi' lo', spells hi' lo' d -> hi' = hi /\ lo' = lo.
Proof. exact spells_unique. Qed.
Print Assumptions c94_uniform.

(** The tests of the split into seconds and nanoseconds pass whatever is drawn, and however
    often. *)
Theorem c94_split_tests : forall G (next : G -> Z * G) g n, words next ->
  run_test next check_to n g = Ok (repeat true n) /\ run_test next check_from n g = Ok (repeat true n).
Proof.
  intros G next g n W. destruct (drawn_exists G next W n g) as (l & D & <-). pose proof (drawn_in64 G next l g D) as I.
  assert (R : repeat true (length l) = map (fun _ : Z => true) l) by (clear; induction l as [|d l E]; [reflexivity|cbn; rewrite E; reflexivity]).
  rewrite R. split; apply run_all; try assumption; eapply Forall_impl; [|exact I| |exact I]; intros d H; [apply check_to_true, H|apply check_from_true, H].
Qed.
Print Assumptions c94_split_tests.

(** What the tests expect of as_seconds and as_duration.  It holds of every duration of 52 days
    or more but the longest, of which it is undefined; of a shorter one it holds just if it
    comes back exactly, the tolerance being zero. *)
Theorem c94_expectation : forall d, in64 d ->
  (check_seconds d = UB <-> ~ computable d) /\
  (long d -> computable d -> check_seconds d = Ok true) /\
  (~ long d -> exists b, check_seconds d = Ok b /\ (b = true <-> as_duration (as_seconds d) = Ok d)).
Proof.
  intros d I. assert (Short : ~ long d -> exists b, check_seconds d = Ok b /\ (b = true <-> as_duration (as_seconds d) = Ok d)).
  { intro L. assert (S : Z.abs d < 2 ^ 52) by (unfold long in L; lia). exists (back d =? d). split; [apply seconds_short, S|].
    rewrite (back_short d S), Z.eqb_eq. split; [intros ->; reflexivity|intro E; congruence]. }
  split; [|split; [apply seconds_long, I|exact Short]]. split; [|apply seconds_ub, I].
  intros U C. destruct (Z_lt_le_dec (Z.abs d) (2 ^ 52)) as [S|L].
  - rewrite (seconds_short d S) in U. discriminate U.
  - rewrite (seconds_long d I L C) in U. discriminate U.
Qed.
Print Assumptions c94_expectation.
(** So those tests pass if only long durations are drawn and none of the longest, and are
    undefined if one of the longest is. *)
Theorem c94_seconds_tests : forall G (next : G -> Z * G) g l, words next -> drawn next g l ->
  (Forall (fun d => long d /\ computable d) l -> run_test next check_seconds (length l) g = Ok (repeat true (length l))) /\
  (Exists (fun d => ~ computable d) l <-> run_test next check_seconds (length l) g = UB).
Proof.
  intros G next g l W D. pose proof (drawn_in64 G next l g D) as I.
  assert (R : repeat true (length l) = map (fun _ : Z => true) l) by (clear; induction l as [|d l E]; [reflexivity|cbn; rewrite E; reflexivity]).
  split.
  - intro F. rewrite R. apply run_all; try assumption. rewrite Forall_forall in *. intros d H. apply seconds_long; [apply I, H|apply F, H|apply F, H].
  - split.
    + intro E. apply run_ub; try assumption.
      * eapply Forall_impl; [|exact I]. intros d H. apply seconds_total, H.
      * rewrite Exists_exists in *. destruct E as (d & H & C). rewrite Forall_forall in I. exists d. split; [exact H|]. apply seconds_ub; [apply I, H|exact C].
    + intro U. assert (Dec : Exists (fun d => ~ computable d) l \/ Forall computable l).
      { clear. induction l as [|d l [E|F]]; [right; constructor|left; right; exact E|].
        destruct (Z_lt_le_dec (- (2 ^ 63 - 2046)) d) as [A|A]; [|left; left; unfold computable; lia].
        destruct (Z_lt_le_dec d (2 ^ 63 - 2047)) as [B|B]; [|left; left; unfold computable; lia]. right. constructor; [split; assumption|exact F]. }
      destruct Dec as [E|C]; [exact E|exfalso].
      rewrite (run_all G next check_seconds (fun d => match check_seconds d with Ok b => b | _ => false end) l g D) in U; [discriminate U|].
      rewrite Forall_forall in *. intros d H. destruct (seconds_total d (I d H)) as [[b E]|E]; [rewrite E; reflexivity|].
      apply (proj1 (c94_expectation d (I d H))) in E. contradiction (E (C d H)).
Qed.
Print Assumptions c94_seconds_tests.

(** Two words in turn. *)
Definition in_turn (a b : Z) (g : bool) : Z * bool := if g then (a, false) else (b, true).
(** The generator of the cases below gives a long duration twice and a short one that comes
    back. *)
Example c94_case : words (in_turn 3000000000 7) /\ drawn (in_turn 3000000000 7) true [3661529851145224199; 3661529851145224199] /\
  long 3661529851145224199 /\ computable 3661529851145224199 /\
  run_test (in_turn 3000000000 7) check_seconds 2 true = Ok [true; true] /\
  run_test (in_turn (2 ^ 31) 7) check_seconds 2 true = Ok [true; true] /\ ~ long 7 /\
  run_test (in_turn 0 0) check_to 3 true = Ok [true; true; true].
Proof.
  split; [intros [|]; cbn; unfold word; lia|]. split; [cbn; unfold spells, word; lia|]. split; [unfold long; lia|]. split; [unfold computable; lia|].
  split; [vm_compute; reflexivity|]. split; [vm_compute; reflexivity|]. split; [unfold long; lia|]. vm_compute. reflexivity.
Qed.
(** That the tests pass whatever the seed is false: 15 nanoseconds fail them, and the longest
    duration makes them undefined. *)
Theorem c94_any_seed_refuted : exists G (next next' : G -> Z * G) g, words next /\ words next' /\
  run_test next check_seconds 1000 g = Ok (repeat false 1000) /\ run_test next' check_seconds 1000 g = UB.
Proof.
  exists bool, (in_turn (2 ^ 31) 15), (in_turn (2 ^ 32 - 1) (2 ^ 32 - 1)), true.
  assert (W : words (in_turn (2 ^ 31) 15)) by (intros [|]; cbn; unfold word; lia).
  assert (W' : words (in_turn (2 ^ 32 - 1) (2 ^ 32 - 1))) by (intros [|]; cbn; unfold word; lia).
  split; [exact W|]. split; [exact W'|]. split.
  - assert (D : forall n, drawn (in_turn (2 ^ 31) 15) true (repeat 15 n)).
    { induction n as [|n E]; [exact I|]. split; [cbn; unfold spells, word; lia|exact E]. }
    assert (C : check_seconds 15 = Ok false) by (vm_compute; reflexivity).
    pose proof (run_all bool (in_turn (2 ^ 31) 15) check_seconds (fun _ => false) (repeat 15 1000) true (D 1000%nat)) as R.
    rewrite repeat_length in R. rewrite R; [reflexivity|rewrite Forall_forall; intros d H; apply repeat_spec in H; subst d; exact C].
  - change 1000%nat with (S 999). cbn [run_test].
    rewrite (random_spells bool _ 0 true INT64_MAX) by (cbn; unfold spells, word, INT64_MAX; lia).
    rewrite seconds_ub; [reflexivity|unfold in64, INT64_MIN, INT64_MAX; lia|unfold computable, INT64_MAX; lia].
Qed.
Print Assumptions c94_any_seed_refuted.

(** ** More on C11 *)
(** From 2^(52+e) nanoseconds to 2^(23+e) seconds what comes back from seconds is the double
    nearest to the duration, a multiple of 2^e; so just the multiples of 2^e come back as they
    were.  For times since 1970 between July 2006 and January 2038 the [e] is 8. *)
Theorem c11_nearest : forall e d, 0 <= e <= 10 -> 2 ^ (52 + e) <= Z.abs d <= 2 ^ (23 + e) * 10 ^ 9 ->
  (exists r, as_duration (as_seconds d) = Ok r /\ IZR r = rd (IZR d) /\ (2 ^ e | r)) /\
  (as_duration (as_seconds d) = Ok d <-> (2 ^ e | d)).
Proof. exact (fun e d He H => conj (nearest e d He H) (nearest_exact e d He H)). Qed.
Print Assumptions c11_nearest.
Example c11_nearest_case : 2 ^ (52 + 8) <= Z.abs 1700000000000000129 <= 2 ^ (23 + 8) * 10 ^ 9 /\
  as_duration (as_seconds 1700000000000000129) = Ok 1700000000000000256 /\ (2 ^ 8 | 1700000000000000256) /\
  as_duration (as_seconds 1700000000000000256) = Ok 1700000000000000256.
Proof. split; [lia|]. split; [vm_compute; reflexivity|]. split; [exists 6640625000000001; reflexivity|vm_compute; reflexivity]. Qed.
(** The bound is sharp: a multiple of 256 a little beyond 2^31 seconds does not come back. *)
Theorem c11_nearest_sharp : exists d, 2 ^ 31 * 10 ^ 9 < d < 2 ^ 31 * 10 ^ 9 + 1024 /\ (2 ^ 8 | d) /\ as_duration (as_seconds d) <> Ok d.
Proof.
  exists (2 ^ 31 * 10 ^ 9 + 256). split; [lia|]. split; [exists (2 ^ 23 * 10 ^ 9 + 1); reflexivity|]. vm_compute. discriminate.
Qed.
Print Assumptions c11_nearest_sharp.

(** What has come back from seconds once comes back as it is, if it has 2^52 nanoseconds or
    more. *)
Theorem c11_again : forall d, in64 d -> long d -> computable d ->
  exists r, as_duration (as_seconds d) = Ok r /\ as_duration (as_seconds r) = Ok r.
Proof. exact again. Qed.
Print Assumptions c11_again.
(** The order of durations is kept there and back. *)
Theorem c11_order_back : forall d d' r r', in64 d -> in64 d' -> d <= d' ->
  as_duration (as_seconds d) = Ok r -> as_duration (as_seconds d') = Ok r' -> r <= r'.
Proof. exact order_back. Qed.
Print Assumptions c11_order_back.
Example c11_again_case : in64 8433635939765557 /\ long 8433635939765557 /\ computable 8433635939765557 /\
  as_duration (as_seconds 8433635939765557) = Ok 8433635939765558 /\ as_duration (as_seconds 8433635939765558) = Ok 8433635939765558.
Proof. split; [vm_compute; split; discriminate|]. split; [unfold long; lia|]. split; [unfold computable; lia|]. split; vm_compute; reflexivity. Qed.
(** Of shorter durations that is false: 1915 nanoseconds lose one every time, twice. *)
Theorem c11_again_refuted : exists d, in64 d /\ as_duration (as_seconds d) = Ok (d - 1) /\ as_duration (as_seconds (d - 1)) = Ok (d - 2).
Proof. exists 1915. split; [vm_compute; split; discriminate|]. split; vm_compute; reflexivity. Qed.
Print Assumptions c11_again_refuted.
