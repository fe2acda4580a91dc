(** C84: the example of times, resim/examples/time.cc. *)
From Coq Require Import Reals ZArith String List Lia Lra.
From Verif Require Import Cpp FloatModel FloatSpec NrmSpec TexModel TexSpec TexProofs TexProofs3 TexProofs4.
Import ListNotations.
Local Open Scope R_scope.

(** The left rectangles of any length and any step: how far from the integral they come out. *)
Theorem c84_rectangles : forall e dt K, (0 < e < 2 ^ 53)%Z -> (0 < dt <= INT64_MAX)%Z -> steps e dt K -> (K < 2 ^ 31 - 1)%Z ->
  (exists x, integrate e dt (Ok x)) /\ forall r, integrate e dt r -> exists x, r = Ok x /\ finite x /\
    forall i, let T := IZR e / 10 ^ 9 in let step := T / IZR K in integral_to T i -> Rabs (val x - i - excess T step) <= sum_error T step K.
Proof. exact integrate_near. Qed.
Print Assumptions c84_rectangles.
Example c84_rectangles_case : steps (30 * 1000000000) (100 * 1000) 300000 /\ steps 10 3 4 /\ sum_error 30 (30 / 300000) 300000 <= / 10 ^ 7 /\ exists i, integral_to 30 i.
Proof. split; [exact thirty_steps|]. split; [split; reflexivity || discriminate|]. split; [apply thirty_error|]. eexists. apply integral_exists. lra. Qed.

(** There is exactly one integral, and it is the one the program computes on paper. *)
Theorem c84_integral : forall T i, 0 < T -> (integral_to T i <-> i = 2 * (-1 + cos (sqrt T) + sqrt T * sin (sqrt T))).
Proof. intros T i P. replace (2 * (-1 + cos (sqrt T) + sqrt T * sin (sqrt T))) with (area T - 2) by (unfold area; ring). split; [apply integral_is, P|]. intros ->. apply integral_exists, P. Qed.
Print Assumptions c84_integral.
Example c84_integral_case : integral_to (4 * PI ^ 2) 0.
Proof.
  apply c84_integral; [pose proof PI_RGT_0; nra|]. replace (sqrt (4 * PI ^ 2)) with (2 * PI); [rewrite cos_2PI, sin_2PI; ring|].
  replace (4 * PI ^ 2) with (2 * PI * (2 * PI)) by ring. symmetry. apply sqrt_square. pose proof PI_RGT_0. lra.
Qed.

(** The program: whatever the clock and the mathematics library say, it passes its checks and
    greets the user in this order, unless the clock overflows. *)
Theorem c84_program : forall now, (exists written result, time_example now written result) /\ forall written result, time_example now written result ->
  ((INT64_MIN <= 10000 + now <= INT64_MAX)%Z -> result = Ok 0%Z /\ map snd written = ["Hello"; "ReSim"; "user!"]%string /\ Forall2 shows (map fst written) [100; 200; 200]%Z) /\
  (~ (INT64_MIN <= 10000 + now <= INT64_MAX)%Z -> result = UB /\ written = []).
Proof. exact program. Qed.
Print Assumptions c84_program.
Example c84_program_case : exists written, time_example 1700000000123456789 written (Ok 0%Z) /\ length written = 3%nat.
Proof.
  destruct (program 1700000000123456789) as [(w & r & E) P]. destruct (P w r E) as [Q _]. destruct Q as (-> & M & _); [unfold INT64_MIN, INT64_MAX; lia|]. exists w. split; [exact E|].
  apply (f_equal (@length _)) in M. rewrite map_length in M. exact M.
Qed.
