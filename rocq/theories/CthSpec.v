(** What the jets, curves, payloads and primitives made for the tests are measured against. *)
From Coq Require Import Reals List.
From Flocq Require Import Core BinarySingleNaN.
From Verif Require Import Cpp FloatModel FloatSpec NrmSpec UuidModel GeomModel TvModel CthModel.
Local Open Scope R_scope.

(** None of the [count] ids from the one numbered [from] on is null and no two are the same. *)
Definition fresh_ids (ids : nat -> uuid) (from count : nat) : Prop := (forall n, (n < count)%nat -> ids (from + n)%nat <> null_frame) /\
  forall m n, (m < count)%nat -> (n < count)%nat -> ids (from + m)%nat = ids (from + n)%nat -> m = n.
(** The state of a generator after [i] vectors, and the [i]th vector it gives. *)
Fixpoint state_after {S V} (k : kind S V) (s : S) (i : nat) : S :=
  match i with O => s | Datatypes.S i => state_after k (snd (k_random k s)) i end.
Definition nth_vector {S V} (k : kind S V) (s : S) (i : nat) : V := fst (k_random k (state_after k s i)).
(** Both are numbers or infinities and the first is less. *)
Definition less (a b : f64) : Prop := a <> B754_nan /\ b <> B754_nan /\ place a < place b.
(** Every time is less than the next. *)
Definition increasing (l : list f64) : Prop :=
  forall i a b, nth_error l i = Some a -> nth_error l (Datatypes.S i) = Some b -> less a b.
(** A pair in this order or the other. *)
Definition swapped {A} (keep : bool) (a b : A) : A * A := if keep then (a, b) else (b, a).
(** A call refuses less than seven elements, and overflows an int from 2^31 on. *)
Definition limits {A} (call : Z -> outcome A) : Prop :=
  (forall count, (count < 7)%Z -> call count = Throw) /\ forall count, (2 ^ 31 <= count)%Z -> call count = UB.
