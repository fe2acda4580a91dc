(** Which functor a call selects, in the words of the C++ standard. *)
From Coq Require Import List.
From Verif Require Import MatchModel.
Import ListNotations.

(** The types that convert to each other. *)
Definition arithmetic (t : cty) : Prop := forall n, t <> TClass n.
(** Conversions of values: none, an integral promotion, or another. *)
Inductive converts : cty -> cty -> rank -> Prop :=
| conv_none t : converts t t Exact
| conv_bool : converts TBool TInt Promotion
| conv_char : converts TChar TInt Promotion
| conv_other a b : arithmetic a -> arithmetic b -> a <> b -> ~ (b = TInt /\ (a = TBool \/ a = TChar)) -> converts a b Conversion.
(** The parameter that a branch has for an argument of type [a] and category [c]. *)
Inductive becomes (a : cty) (c : category) : param -> dparam -> Prop :=
| becomes_declared d : becomes a c (Declared d) d
| becomes_auto k : becomes a c (Generic ByValue k) (DParam ByValue false a)
| becomes_auto_ref : becomes a c (Generic ByLRef false) (DParam ByLRef (is_const c) a)
| becomes_const_auto_ref : becomes a c (Generic ByLRef true) (DParam ByLRef true a)
| becomes_forwarding_l : is_lvalue c = true -> becomes a c (Generic ByRRef false) (DParam ByLRef (is_const c) a)
| becomes_forwarding_r : is_lvalue c = false -> becomes a c (Generic ByRRef false) (DParam ByRRef (is_const c) a)
| becomes_const_rref : becomes a c (Generic ByRRef true) (DParam ByRRef true a).
(** A parameter can be initialised from the argument. *)
Inductive binds (a : cty) (c : category) : dparam -> rank -> Prop :=
| binds_value k t r : converts a t r -> binds a c (DParam ByValue k t) r
| binds_lvalue : is_lvalue c = true -> is_const c = false -> binds a c (DParam ByLRef false a) Exact
| binds_const : binds a c (DParam ByLRef true a) Exact
| binds_rvalue k : is_lvalue c = false -> (is_const c = true -> k = true) -> binds a c (DParam ByRRef k a) Exact
| binds_temporary m k t r : t <> a -> converts a t r -> m = ByRRef \/ (m = ByLRef /\ k = true) -> binds a c (DParam m k t) r.
(** One rank is better than another. *)
Inductive better_rank : rank -> rank -> Prop :=
| exact_promotion : better_rank Exact Promotion
| exact_conversion : better_rank Exact Conversion
| promotion_conversion : better_rank Promotion Conversion.
(** One way to initialise a parameter is better than another: it is of better rank, or both
    bind references with the same rank and the first binds an rvalue reference where the
    second does not, or a reference to the same type without const. *)
Inductive better_conversion : rank -> dparam -> rank -> dparam -> Prop :=
| better_by_rank r1 p1 r2 p2 : better_rank r1 r2 -> better_conversion r1 p1 r2 p2
| better_by_rvalue r k1 t1 k2 t2 : better_conversion r (DParam ByRRef k1 t1) r (DParam ByLRef k2 t2)
| better_by_const r m1 m2 t : m1 <> ByValue -> m2 <> ByValue -> better_conversion r (DParam m1 false t) r (DParam m2 true t).
(** One functor is preferred where its operator() or its template says so. *)
Inductive special : param -> param -> Prop :=
| special_declared d m k : special (Declared d) (Generic m k)
| special_lref k1 k2 : special (Generic ByLRef k1) (Generic ByRRef k2)
| special_const m : m <> ByValue -> special (Generic m true) (Generic m false).

(** Branch [i] takes the argument as [p]. *)
Definition takes (bs : list branch) (a : cty) (c : category) (i : nat) (b : branch) (p : dparam) (r : rank) : Prop :=
  nth_error bs i = Some b /\ becomes a c (bparam b) p /\ binds a c p r.
(** The first is a better match: for neither the object nor the argument worse, and better
    for one of them or, if not, more special. *)
Definition better (b1 : branch) (p1 : dparam) (r1 : rank) (b2 : branch) (p2 : dparam) (r2 : rank) : Prop :=
  (mutable b2 = true -> mutable b1 = true) /\ ~ better_conversion r2 p2 r1 p1 /\
  ((mutable b1 = true /\ mutable b2 = false) \/ better_conversion r1 p1 r2 p2 \/ special (bparam b1) (bparam b2)).
(** Branch [i] is the best match, and takes the argument as [p]. *)
Definition best (bs : list branch) (a : cty) (c : category) (i : nat) (p : dparam) : Prop :=
  exists b r, takes bs a c i b p r /\ forall j b' p' r', j <> i -> takes bs a c j b' p' r' -> better b p r b' p' r'.
(** Every alternative has a best match, and all best matches return the same type. *)
Definition handled (alts : list cty) (c : category) (bs : list branch) : Prop :=
  exists t, forall a, In a alts -> exists i p b, best bs a c i p /\ nth_error bs i = Some b /\ returns b p = t.
(** A parameter by value or by const reference, declared or generic. *)
Definition plain (p : param) : Prop :=
  match p with
  | Declared d => mode d = ByValue \/ (mode d = ByLRef /\ pconst d = true)
  | Generic m k => m = ByValue \/ (m = ByLRef /\ k = true)
  end.
(** Parameters that take every argument when generic: auto, const auto& and auto&&. *)
Definition takes_all (p : param) : Prop := plain p \/ p = Generic ByRRef false.
(** A branch for one type, by value or by const reference, that returns [t]. *)
Definition branch_for (t : nat) (b : branch) (a : cty) : Prop :=
  of_class b = true /\ mutable b = false /\ plain (bparam b) /\ (exists m k, bparam b = Declared (DParam m k a)) /\ forall p, returns b p = t.
(** The branch returning the type [t] with a parameter [p], and with a non-const operator(). *)
Definition lambda (p : param) (t : nat) : branch := Branch true false p (fun _ => t).
Definition mutable_lambda (p : param) (t : nat) : branch := Branch true true p (fun _ => t).
(** Parameters: T, const T&, T& and T&&. *)
Definition value (t : cty) : param := Declared (DParam ByValue false t).
Definition const_ref (t : cty) : param := Declared (DParam ByLRef true t).
Definition ref (t : cty) : param := Declared (DParam ByLRef false t).
Definition rvalue_ref (t : cty) : param := Declared (DParam ByRRef false t).
(** A variable, a const reference to one, and a moved variable. *)
Definition variable : category := Category true false.
Definition const_reference : category := Category true true.
Definition moved : category := Category false false.
