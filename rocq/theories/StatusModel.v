(** Model of resim/utils/status.{hh,cc} and resim/utils/status_value.hh. *)
From Coq Require Import Ascii String DecimalString.
From Verif Require Import Cpp.

(** Status: resim/utils/status.hh:51-69, a variant of OkayType and ErrType.  The
    std::string_view members are taken to refer to C strings that stay alive, as the
    literals in this repository do. *)
Inductive status :=
| Okay
| Err (file : string) (line : Z) (message : string).

(** Status() and OKAY_STATUS: status.hh:28, 73. *)
Definition OKAY_STATUS : status := Okay.

(** Status::make_at_line, which MAKE_STATUS calls: status.hh:78, 102-109. *)
Definition make_at_line (file : string) (line : Z) (message : string) : status :=
  Err file line message.

(** Status::ok: status.hh:113-115. *)
Definition ok (s : status) : bool :=
  match s with Okay => true | Err _ _ _ => false end.

(** fmt's {} for an int, used at status.cc:20 and assert.cc:20. *)
Definition decimal (z : Z) : string := NilZero.string_of_int (Z.to_int z).

(** Status::what: resim/utils/status.cc:13-26. *)
Definition what (s : status) : string :=
  match s with
  | Okay => "OKAY"
  | Err file line message => "<" ++ file ++ ":" ++ decimal line ++ "> " ++ message
  end.

(** The text of the exception thrown by a failed REASSERT(cond, message) in the given
    file and line: resim/assert/assert.cc:15-26, assert.hh:47-56. *)
Definition assert_text (file : string) (line : Z) (cond message : string) : string :=
  "<" ++ file ++ ":" ++ decimal line ++ "> - ReAssertion failed: (" ++ cond ++ "). Message: " ++ message.

(** CHECK_STATUS_OK on a variable: status.hh:82-91. *)
Definition check_status_ok (s : status) : outcome unit := reassert (ok s).

(** What fmt::format(fg(fmt::color::red), ...) writes around a text: status.hh:84-85. *)
Definition red (s : string) : string :=
  String "027" "[38;2;255;000;000m" ++ s ++ String "027" "[0m".

(** CHECK_STATUS_OK(e) for an expression spelt [e_text] whose evaluation may change the
    state: status.hh:82-91.  The macro argument is evaluated at line 88 for the text
    and at line 89 for the check.  The result is the text of the exception, if one is
    thrown, and the state afterwards. *)
Definition check_status_expr {S : Type} (file : string) (line : Z) (e_text : string)
    (e : S -> status * S) (s : S) : option string * S :=
  let (first, s1) := e s in
  let err_msg := red ("{" ++ e_text ++ ".what() == " ++ what first ++ "}") in
  let (second, s2) := e s1 in
  (if ok second then None else Some (assert_text file line ("(" ++ e_text ++ ").ok()") err_msg), s2).

(** RETURN_IF_NOT_OK(e): status.hh:94-100, in a function that returns a Status.  [k] is
    the rest of the function. *)
Definition return_if_not_ok {S : Type} (e : S -> status * S) (k : S -> status * S) (s : S) : status * S :=
  let (evaluated_status, s1) := e s in
  if negb (ok evaluated_status) then (evaluated_status, s1) else k s1.

(** StatusValue<T>: status_value.hh:101, a variant of the value and a Status.  The
    variant by itself could hold an okay Status. *)
Inductive status_value (T : Type) :=
| Value (v : T)
| Bad (s : status).
Arguments Value {T}.
Arguments Bad {T}.

(** Default constructor: status_value.hh:104-106. *)
Definition sv_default {T : Type} : status_value T :=
  Bad (make_at_line "resim/utils/status_value.hh" 106 "Uninitialized StatusValue!").

(** Constructor from a value: status_value.hh:108-114. *)
Definition sv_of_value {T : Type} (v : T) : status_value T := Value v.

(** StatusValue::status: status_value.hh:141-147. *)
Definition sv_status {T : Type} (x : status_value T) : status :=
  match x with Value _ => OKAY_STATUS | Bad s => s end.

(** StatusValue::ok: status_value.hh:122-125. *)
Definition sv_ok {T : Type} (x : status_value T) : bool := ok (sv_status x).

(** Constructor from a Status: status_value.hh:116-120. *)
Definition sv_of_status {T : Type} (s : status) : outcome (status_value T) :=
  let x := Bad s in
  let* _ := reassert (negb (sv_ok x)) in
  Ok x.

(** StatusValue::value: status_value.hh:127-139.  std::get on the wrong
    alternative throws std::bad_variant_access. *)
Definition sv_value {T : Type} (x : status_value T) : outcome T :=
  let* _ := reassert (sv_ok x) in
  match x with Value v => Ok v | Bad _ => Throw end.

(** The argument of RETURN_OR_ASSIGN: a call that returns a StatusValue by value, so a
    temporary, or an expression naming an object that lives on, as a variable or
    std::move of one. *)
Inductive operand (T : Type) :=
| Temporary (x : status_value T)
| Object (x : status_value T).
Arguments Temporary {T}.
Arguments Object {T}.

(** What a reference refers to, and whether that object is still alive. *)
Record referent (T : Type) := Referent { held : status_value T; alive : bool }.
Arguments Referent {T}.
Arguments held {T}.
Arguments alive {T}.

(** [auto &&evalutated_status_value = std::forward<decltype(e)>(e);]:
    status_value.hh:157-158.  std::forward returns a reference to its argument.  A
    temporary that is bound to a reference through a function's parameter is not
    kept alive by it and is destroyed at the end of the declaration
    ([class.temporary]/6.1). *)
Definition bind_forwarded {T : Type} (o : operand T) : referent T :=
  match o with
  | Temporary x => Referent x false
  | Object x => Referent x true
  end.

(** Use of the referred to object, undefined after its lifetime ([basic.life]/8). *)
Definition use {T : Type} (r : referent T) : outcome (status_value T) :=
  if alive r then Ok (held r) else UB.

(** RETURN_OR_ASSIGN: status_value.hh:155-165 with RETURN_IF_NOT_OK,
    status.hh:94-100.  [k] is the rest of the enclosing function, which returns a
    StatusValue; returning a Status converts it. *)
Definition return_or_assign {T U : Type} (o : operand T)
    (k : T -> outcome (status_value U)) : outcome (status_value U) :=
  let evaluated_status_value := bind_forwarded o in
  let* x := use evaluated_status_value in
  if negb (ok (sv_status x)) then sv_of_status (sv_status x)
  else
    let* y := use evaluated_status_value in
    let* v := sv_value y in k v.

(** How a step is written: [T b = RETURN_OR_ASSIGN(f(a));] as in
    resim/examples/assert_and_status.cc:139 and 144, or
    [StatusValue<T> x = f(a); T b = RETURN_OR_ASSIGN(x);]. *)
Inductive style := Direct | ViaVariable.

(** A function made of fallible steps chained by RETURN_OR_ASSIGN, ending in
    [return v;]. *)
Fixpoint chain {T : Type} (steps : list (style * (T -> outcome (status_value T)))) (v : T)
  : outcome (status_value T) :=
  match steps with
  | [] => Ok (sv_of_value v)
  | (how, f) :: steps' =>
      let* x := f v in
      return_or_assign (match how with Direct => Temporary x | ViaVariable => Object x end) (chain steps')
  end.

(** A client that builds and copies StatusValues in numbered variables:
    StatusValue(), StatusValue(value), StatusValue(status), copy or move
    (status_value.hh:64-69; a moved-from StatusValue keeps its alternative).  A
    construction that throws leaves the variables as they were. *)
Inductive sv_op (T : Type) :=
| NewDefault
| NewValue (v : T)
| NewStatus (s : status)
| Copy (i : nat).
Arguments NewDefault {T}.
Arguments NewValue {T}.
Arguments NewStatus {T}.
Arguments Copy {T}.

Definition sv_step {T : Type} (vars : list (status_value T)) (o : sv_op T)
  : list (status_value T) :=
  match o with
  | NewDefault => sv_default :: vars
  | NewValue v => sv_of_value v :: vars
  | NewStatus s => match sv_of_status s with Ok x => x :: vars | _ => vars end
  | Copy i => match nth_error vars i with Some x => x :: vars | None => vars end
  end.

(** The static_assert against StatusValue<Status>: status_value.hh:21-23.  It compares
    Status with the class std::decay<T>, not with the type std::decay_t<T>.  C++ types
    by name: Status, the class std::decay<t>, any other. *)
Inductive cpp_type := TStatus | TDecayClass (t : cpp_type) | TNamed (name : string).
Definition cpp_type_is_status (t : cpp_type) : bool := match t with TStatus => true | _ => false end.
Definition static_assert_passes (t : cpp_type) : bool := negb (cpp_type_is_status (TDecayClass t)).

(** Constructing StatusValue<Status> from a Status: overload resolution between the
    forwarding constructor (status_value.hh:55-59, 108-114), which is the better match
    for an rvalue or a mutable lvalue, and the constructor from const Status &
    (status_value.hh:61, 116-120), which wins for a const lvalue as it is no template
    ([over.match.best]). *)
Inductive argument := Rvalue | MutableLvalue | ConstLvalue.
Definition sv_status_of (a : argument) (s : status) : outcome (status_value status) :=
  match a with
  | ConstLvalue => sv_of_status s
  | _ => Ok (sv_of_value s)
  end.
