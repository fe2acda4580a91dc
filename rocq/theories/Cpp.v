(** Common conventions: outcomes of C++ calls and fixed-width integers. *)
From Coq Require Export List ZArith Bool Lia.
Export ListNotations.

(** Outcome of a C++ call. [Throw] is a failed REASSERT
    (resim/assert/assert.hh:47-56, which throws AssertException) or another
    exception named where it is used.  [UB] is undefined behaviour.  The text of
    exceptions is not modelled. *)
Inductive outcome (A : Type) : Type :=
| Ok (a : A)
| Throw
| UB.
Arguments Ok {A} a.
Arguments Throw {A}.
Arguments UB {A}.

(** Sequencing of C++ statements: an exception or undefined behaviour ends the
    call. *)
Definition obind {A B : Type} (x : outcome A) (f : A -> outcome B) : outcome B :=
  match x with
  | Ok a => f a
  | Throw => Throw
  | UB => UB
  end.

Declare Scope outcome_scope.
Delimit Scope outcome_scope with outcome.
Notation "'let*' x ':=' e1 'in' e2" := (obind e1 (fun x => e2))
  (at level 200, x pattern, e1 at level 200, e2 at level 200, right associativity)
  : outcome_scope.
Open Scope outcome_scope.

(** REASSERT(cond, msg): resim/assert/assert.hh:65-77. *)
Definition reassert (b : bool) : outcome unit := if b then Ok tt else Throw.

(** std::numeric_limits<int64_t>::min() and max(). *)
Definition INT64_MIN : Z := (- 2 ^ 63)%Z.
Definition INT64_MAX : Z := (2 ^ 63 - 1)%Z.

(** The values an int64_t can hold. *)
Definition in64 (z : Z) : Prop := (INT64_MIN <= z <= INT64_MAX)%Z.
Definition in64b (z : Z) : bool := ((INT64_MIN <=? z) && (z <=? INT64_MAX))%Z.

(** A signed 64-bit operation whose exact result is [z]: undefined behaviour when
    it does not fit (C++ [expr.pre]/4). *)
Definition chk64 (z : Z) : outcome Z := if in64b z then Ok z else UB.
Definition add64 (a b : Z) : outcome Z := chk64 (a + b).
Definition sub64 (a b : Z) : outcome Z := chk64 (a - b).
Definition mul64 (a b : Z) : outcome Z := chk64 (a * b).
Definition neg64 (a : Z) : outcome Z := chk64 (- a).
(** Built-in / and %: truncating; undefined for divisor zero and for
    INT64_MIN / -1 ([expr.mul]/4). *)
Definition div64 (a b : Z) : outcome Z :=
  if (b =? 0)%Z then UB else chk64 (Z.quot a b).
Definition rem64 (a b : Z) : outcome Z :=
  if (b =? 0)%Z then UB
  else if in64b (Z.quot a b) then Ok (Z.rem a b) else UB.

Lemma in64b_spec z : in64b z = true <-> in64 z.
Proof. unfold in64b, in64. rewrite andb_true_iff, !Z.leb_le. tauto. Qed.

Lemma chk64_ok z : in64 z -> chk64 z = Ok z.
Proof. intro H. unfold chk64. apply in64b_spec in H. rewrite H. reflexivity. Qed.

Lemma chk64_ub z : ~ in64 z -> chk64 z = UB.
Proof.
  intro H. unfold chk64. destruct (in64b z) eqn:E; [|reflexivity].
  apply in64b_spec in E. contradiction.
Qed.
