(** Specifications for the integer time utilities, independent of the model. *)
From Verif Require Import Cpp.
Open Scope Z_scope.

(** A call that returns the exact mathematical value [z] when it can be held by
    an int64_t and throws otherwise. *)
Definition exact_or_throw (z : Z) (o : outcome Z) : Prop :=
  (in64 z -> o = Ok z) /\ (~ in64 z -> o = Throw).

(** The documented normal form of a duration of [d] nanoseconds: whole seconds
    and a nanosecond remainder of the same sign, smaller than a second. *)
Definition seconds_split (d s n : Z) : Prop :=
  d = s * 1000000000 + n /\ Z.abs n < 1000000000 /\ 0 <= d * n.

(** [n] samples, both ends included, spaced evenly over an interval of length
    |e - s|, are no further apart than [dt]: |e - s| / (n - 1) <= dt.  A single
    sample is only enough when the ends coincide. *)
Definition enough_samples (s e dt n : Z) : Prop :=
  1 <= n /\ Z.abs (e - s) <= dt * (n - 1).

(** The documented value of num_samples: the minimum number of samples. *)
Definition min_samples (s e dt n : Z) : Prop :=
  enough_samples s e dt n /\ forall m, enough_samples s e dt m -> n <= m.

(** [t] is an integer closest to the rational number s + p / q (q > 0). *)
Definition nearest_to (t s p q : Z) : Prop :=
  forall t', Z.abs (q * (t - s) - p) <= Z.abs (q * (t' - s) - p).

(** Neighbours in the list [l] are related by [R]. *)
Definition neighbours (R : Z -> Z -> Prop) (l : list Z) : Prop :=
  forall i a b, nth_error l i = Some a -> nth_error l (S i) = Some b -> R a b.

(** The samples run from [s] to [e] without turning back, in steps of at most
    [dt]. *)
Definition even_cover (s e dt : Z) (l : list Z) : Prop :=
  nth_error l 0 = Some s /\
  nth_error l (length l - 1) = Some e /\
  neighbours (fun a b => Z.abs (b - a) <= dt /\ 0 <= (b - a) * (e - s)) l.
