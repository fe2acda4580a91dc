(** Model of match(): resim/utils/match.hh.  The code is written against C++'s overload
    resolution, of which this models the part that branches with one parameter can meet:
    the four kinds of argument a variant's alternative can be, parameters by value and by
    reference, declared or generic, and functors with a const or non-const operator().
    Left out are user-defined conversions, branches with several overloads or constraints,
    volatile, and copying that fails. *)
From Coq Require Import List Arith Bool.
Import ListNotations.

(** The types of alternatives and parameters: arithmetic ones, which convert to each other,
    and classes, which do not (variants of these: match.cc:18, view_primitive.hh:31-39). *)
Inductive cty := TBool | TChar | TInt | TDouble | TClass (n : nat).
Definition cty_eqb (a b : cty) : bool :=
  match a, b with
  | TBool, TBool | TChar, TChar | TInt, TInt | TDouble, TDouble => true
  | TClass n, TClass m => n =? m
  | _, _ => false
  end.
(** What std::visit passes for an alternative: an lvalue or an rvalue, const or not, as the
    variant is (match.hh:98-100). *)
Record category := Category { is_lvalue : bool; is_const : bool }.
(** By value, T& or T&&. *)
Inductive pmode := ByValue | ByLRef | ByRRef.
(** A parameter of a known type; const counts for references only. *)
Record dparam := DParam { mode : pmode; pconst : bool; ptype : cty }.
(** The parameter of a branch: declared, or auto, auto&, const auto&, auto&&, const auto&&. *)
Inductive param := Declared (p : dparam) | Generic (m : pmode) (c : bool).
(** A branch: whether it is of class type, whether its operator() is non-const, its
    parameter, and the type that it returns when its parameter has a given type. *)
Record branch := Branch { of_class : bool; mutable : bool; bparam : param; returns : dparam -> nat }.

(** Implicit conversions, best first ([over.best.ics]). *)
Inductive rank := Exact | Promotion | Conversion.
Definition rank_nat (r : rank) : nat := match r with Exact => 0 | Promotion => 1 | Conversion => 2 end.
Definition value_rank (a p : cty) : option rank :=
  if cty_eqb a p then Some Exact else
  match a, p with
  | TClass _, _ | _, TClass _ => None
  | TBool, TInt | TChar, TInt => Some Promotion
  | _, _ => Some Conversion
  end.
(** Template argument deduction for a generic parameter ([temp.deduct.call]). *)
Definition deduce (p : param) (a : cty) (c : category) : dparam :=
  match p with
  | Declared d => d
  | Generic ByValue _ => DParam ByValue false a
  | Generic ByLRef k => DParam ByLRef (k || is_const c) a
  | Generic ByRRef true => DParam ByRRef true a
  | Generic ByRRef false => DParam (if is_lvalue c then ByLRef else ByRRef) (is_const c) a
  end.
(** Whether and how well an argument fits a parameter ([over.best.ics], [dcl.init.ref]); a
    reference to another type binds to a converted temporary. *)
Definition fits (a : cty) (c : category) (p : dparam) : option rank :=
  match mode p with
  | ByValue => value_rank a (ptype p)
  | ByLRef =>
      if cty_eqb a (ptype p) then
        if pconst p || (is_lvalue c && negb (is_const c)) then Some Exact else None
      else if pconst p then value_rank a (ptype p) else None
  | ByRRef =>
      if cty_eqb a (ptype p) then
        if negb (is_lvalue c) && (pconst p || negb (is_const c)) then Some Exact else None
      else value_rank a (ptype p)
  end.
Definition by_ref (p : dparam) : bool := match mode p with ByValue => false | _ => true end.
(** Whether the conversion to the first is better than that to the second ([over.ics.rank]). *)
Definition conv_better (r1 : rank) (p1 : dparam) (r2 : rank) (p2 : dparam) : bool :=
  (rank_nat r1 <? rank_nat r2) ||
  ((rank_nat r1 =? rank_nat r2) && by_ref p1 && by_ref p2 &&
   (match mode p1, mode p2 with ByRRef, ByLRef => true | _, _ => false end ||
    (cty_eqb (ptype p1) (ptype p2) && negb (pconst p1) && pconst p2))).
(** Whether the first generic parameter is more specialised ([temp.deduct.partial]). *)
Definition more_special (p1 p2 : param) : bool :=
  match p1, p2 with
  | Declared _, Generic _ _ => true
  | Generic ByLRef _, Generic ByRRef _ => true
  | Generic ByLRef true, Generic ByLRef false => true
  | Generic ByRRef true, Generic ByRRef false => true
  | _, _ => false
  end.
(** Whether a call prefers the first of two functors that both fit ([over.match.best]).  The
    functors are called on an Overloads object that is not const (match.hh:99), for which a
    non-const operator() is the better one. *)
Definition prefers (b1 : branch) (r1 : rank) (p1 : dparam) (b2 : branch) (r2 : rank) (p2 : dparam) : bool :=
  let object_better := mutable b1 && negb (mutable b2) in
  let object_worse := negb (mutable b1) && mutable b2 in
  let argument_better := conv_better r1 p1 r2 p2 in
  let argument_worse := conv_better r2 p2 r1 p1 in
  negb object_worse && negb argument_worse &&
  (object_better || argument_better || more_special (bparam b1) (bparam b2)).

(** Overloads: match.hh:17-25.  The branch that a call of it selects, if there is one and it
    is not ambiguous. *)
Definition candidate (bs : list branch) (a : cty) (c : category) (i : nat) : option (branch * rank * dparam) :=
  match nth_error bs i with
  | None => None
  | Some b => let p := deduce (bparam b) a c in match fits a c p with None => None | Some r => Some (b, r, p) end
  end.
Definition wins (bs : list branch) (a : cty) (c : category) (i : nat) : bool :=
  match candidate bs a c i with
  | None => false
  | Some (b, r, p) =>
      forallb (fun j => (j =? i) ||
        match candidate bs a c j with None => true | Some (b', r', p') => prefers b r p b' r' p' end) (seq 0 (length bs))
  end.
Definition select (bs : list branch) (a : cty) (c : category) : option nat := find (wins bs a c) (seq 0 (length bs)).
(** std::invoke_result_t of a call that is allowed. *)
Definition result_type (bs : list branch) (a : cty) (c : category) : option nat :=
  match select bs a c with
  | None => None
  | Some i => match candidate bs a c i with None => None | Some (b, _, p) => Some (returns b p) end
  end.

(** The rvalue that is_invocable_v and invoke_result_t take a type to mean. *)
Definition plain_rvalue : category := Category false false.
(** ALL_CASES_INVOCABLE: match.hh:48-54. *)
Definition all_cases_invocable (alts : list cty) (bs : list branch) : bool :=
  forallb (fun a => match select bs a plain_rvalue with Some _ => true | None => false end) alts.
(** ALL_SAME: match.hh:56-62, of types that may be missing. *)
Definition all_same (l : list (option nat)) : bool :=
  match l with
  | [] => true
  | head :: tail => forallb (fun x => match head, x with Some a, Some b => a =? b | _, _ => false end) tail
  end.
(** ALL_INVOCATIONS_MATCH: match.hh:64-71. *)
Definition all_invocations_match (alts : list cty) (bs : list branch) : bool :=
  all_same (map (fun a => result_type bs a plain_rvalue) alts).
(** VariantType, ClassType and BranchesConsistent: match.hh:32-41, 73-79. *)
Definition branches_consistent (alts : list cty) (bs : list branch) : bool :=
  forallb of_class bs && all_cases_invocable alts bs && all_invocations_match alts bs.

(** What becomes of match(variant, branches...): it is not considered, it is considered and
    does not compile, or it compiles to a function of the variant. *)
Inductive compiled := NotConsidered | IllFormed | Compiles.
(** match: match.hh:93-101, with std::visit, which wants every alternative to be accepted as
    the variant passes it and one type of result. *)
Definition match_compiles (alts : list cty) (c : category) (bs : list branch) : compiled :=
  if branches_consistent alts bs then
    if forallb (fun a => match select bs a c with Some _ => true | None => false end) alts && all_same (map (fun a => result_type bs a c) alts)
    then Compiles else IllFormed
  else NotConsidered.
(** What a call does: std::visit throws if the variant is valueless (None), else calls the
    branch number [fst] with the value converted to the type [snd]. *)
Inductive effect := Throws | Calls (branch : nat) (as_type : cty).
Definition match_runs (alts : list cty) (c : category) (bs : list branch) (held : option nat) : option effect :=
  match held with
  | None => Some Throws
  | Some k =>
      match nth_error alts k with
      | None => None
      | Some a =>
          match select bs a c with
          | None => None
          | Some i => match candidate bs a c i with None => None | Some (_, _, p) => Some (Calls i (ptype p)) end
          end
      end
  end.
