(** What the test elements of the Lie groups are measured against. *)
From Coq Require Import Reals List.
From Flocq Require Import Core BinarySingleNaN.
From Verif Require Import Cpp FloatModel FloatSpec NrmSpec DriftModel FpsModel TvModel.
Local Open Scope R_scope.

(** The generator and its distribution give numbers from -1 to 1. *)
Definition uniform {S} (draw : source S) : Prop := forall s, finite (fst (draw s)) /\ -1 <= val (fst (draw s)) <= 1.
(** The [i]th number drawn. *)
Fixpoint nth_draw {S} (draw : source S) (s : S) (i : nat) : f64 :=
  match i with O => fst (draw s) | Datatypes.S i => nth_draw draw (snd (draw s)) i end.
(** Three and six numbers drawn one after the other. *)
Definition drawn3 {S} (draw : source S) (s : S) (i : nat) : fvec := FV (nth_draw draw s i) (nth_draw draw s (i + 1)) (nth_draw draw s (i + 2)).
Definition drawn6 {S} (draw : source S) (s : S) (i : nat) : ftan := FT (drawn3 draw s i) (drawn3 draw s (i + 3)).
(** A vector with the same number three times. *)
Definition thrice (x : f64) : fvec := FV x x x.

(** A check with several possible results in double precision passes whichever of them it is. *)
Definition passes (check : bool -> Prop) : Prop := (exists c, check c) /\ forall c, check c -> c = true.
