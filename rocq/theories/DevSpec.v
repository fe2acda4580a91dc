(** When the mock device code server grants a token. *)
From Coq Require Import List ZArith.
From Verif Require Import Cpp AuthModel DevModel.
Import ListNotations.

(** The user has approved by the poll [k] after the request with number [p] for the code. *)
Definition approved_by (acts : nat -> list act) (p k : nat) : Prop :=
  exists i, p < i <= p + 1 + k /\ In Approve (acts i).
(** The timeout set last, if there is one. *)
Definition last_timeout (before : Z) (l : list act) (t : Z) : Prop :=
  (t = before /\ forall s, ~ In (SetTimeout s) l) \/
  exists l1 l2, l = l1 ++ SetTimeout t :: l2 /\ forall s, ~ In (SetTimeout s) l2.
