(** Model of resim/visualization/view.cc: View::view_object and View::flush called by
    any number of threads on the one View instance.

    Small-step interleaving semantics.  The mutex primitives_mutex_ is sequentially
    consistent and everything shared is accessed under it, so interleaving of the
    steps below is the whole behaviour.  The client's answer to each
    send_view_update is arbitrary: an okay status, or a bad status or exception,
    both of which make flush throw (CHECK_STATUS_OK, resim/utils/status.hh:82-91).
    set_client is private (view.hh:138-140, used by tests only): the client is set
    once before any thread runs and is not null.  [P] is the type of primitives;
    creating one with its fresh id does not fail. *)
From Verif Require Import Cpp.

Section View.
Variable P : Type.

(** What a thread may call: view.hh:91-100.  operator<<, the named ViewObject
    constructor and ViewObject::operator<< (view.cc:48-54, 119-131, 134-138) all call
    view_object once. *)
Inductive op :=
| ViewObject (p : P)
| Flush.

(** Where a thread is. *)
Inductive pc :=
| Idle                         (* between calls *)
| WantPush (p : P)             (* view.cc:77, before the lock *)
| InPush (p : P)               (* view.cc:83, holding the lock *)
| Pushed (p : P)               (* view.cc:90, about to release the lock *)
| WantFlush (o : op)           (* view.cc:97, before the lock *)
| InFlush (o : op)             (* view.cc:98-99, holding the lock *)
| SendDone (o : op) (ok : bool). (* view.cc:102, send returned; holding the lock *)

Record thread := { at_ : pc; todo : list op }.

(** Observable history.  [Done t o ok]: thread t's call o returned (ok) or threw. *)
Inductive event :=
| Inserted (t : nat) (p : P)
| Sent (t : nat) (ps : list P) (ok : bool)
| Done (t : nat) (o : op) (ok : bool).

(** primitives_mutex_'s holder, primitives_ (view.hh:144-145), the threads, and the
    history. *)
Record state := {
  lock : option nat;
  primitives : list P;
  threads : list thread;
  trace : list event }.

Fixpoint set_nth {A : Type} (l : list A) (n : nat) (x : A) : list A :=
  match l, n with
  | [], _ => []
  | _ :: l, O => x :: l
  | y :: l, S n => y :: set_nth l n x
  end.

Definition goto (s : state) (t : nat) (p : pc) (rest : list op) : list thread :=
  set_nth (threads s) t {| at_ := p; todo := rest |}.

(** One step of thread [t]. *)
Inductive step : state -> state -> Prop :=
(* view_object(p) is called. *)
| step_call_view s t p rest :
    nth_error (threads s) t = Some {| at_ := Idle; todo := ViewObject p :: rest |} ->
    step s {| lock := lock s; primitives := primitives s;
              threads := goto s t (WantPush p) rest; trace := trace s |}
(* flush() is called. *)
| step_call_flush s t rest :
    nth_error (threads s) t = Some {| at_ := Idle; todo := Flush :: rest |} ->
    step s {| lock := lock s; primitives := primitives s;
              threads := goto s t (WantFlush Flush) rest; trace := trace s |}
(* view.cc:77 *)
| step_lock_push s t p rest :
    nth_error (threads s) t = Some {| at_ := WantPush p; todo := rest |} ->
    lock s = None ->
    step s {| lock := Some t; primitives := primitives s;
              threads := goto s t (InPush p) rest; trace := trace s |}
(* view.cc:83-89 *)
| step_push s t p rest :
    nth_error (threads s) t = Some {| at_ := InPush p; todo := rest |} ->
    step s {| lock := lock s; primitives := primitives s ++ [p];
              threads := goto s t (Pushed p) rest; trace := trace s ++ [Inserted t p] |}
(* view.cc:90 *)
| step_unlock_push s t p rest :
    nth_error (threads s) t = Some {| at_ := Pushed p; todo := rest |} ->
    step s {| lock := None; primitives := primitives s;
              threads := goto s t (WantFlush (ViewObject p)) rest; trace := trace s |}
(* view.cc:97 *)
| step_lock_flush s t o rest :
    nth_error (threads s) t = Some {| at_ := WantFlush o; todo := rest |} ->
    lock s = None ->
    step s {| lock := Some t; primitives := primitives s;
              threads := goto s t (InFlush o) rest; trace := trace s |}
(* view.cc:98-101: the vector is moved into the update, which leaves it empty
   ([vector.cons] move constructor), and the update is handed to the client. *)
| step_send s t o rest ok :
    nth_error (threads s) t = Some {| at_ := InFlush o; todo := rest |} ->
    step s {| lock := lock s; primitives := [];
              threads := goto s t (SendDone o ok) rest;
              trace := trace s ++ [Sent t (primitives s) ok] |}
(* view.cc:102-104: throw, or clear and return; the guard releases the lock. *)
| step_finish s t o rest ok :
    nth_error (threads s) t = Some {| at_ := SendDone o ok; todo := rest |} ->
    step s {| lock := None; primitives := if ok then [] else primitives s;
              threads := goto s t Idle rest;
              trace := trace s ++ [Done t o ok] |}.

(** Any number of steps, counted. *)
Inductive steps : nat -> state -> state -> Prop :=
| steps_zero s : steps 0 s s
| steps_more n s s' s'' : steps n s s' -> step s' s'' -> steps (S n) s s''.

(** The program of each thread. *)
Definition init (programs : list (list op)) : state :=
  {| lock := None; primitives := [];
     threads := map (fun ops => {| at_ := Idle; todo := ops |}) programs; trace := [] |}.

End View.

Arguments ViewObject {P}.
Arguments Flush {P}.
Arguments Idle {P}.
Arguments WantPush {P}.
Arguments InPush {P}.
Arguments Pushed {P}.
Arguments WantFlush {P}.
Arguments InFlush {P}.
Arguments SendDone {P}.
Arguments Inserted {P}.
Arguments Sent {P}.
Arguments Done {P}.
Arguments at_ {P}.
Arguments todo {P}.
Arguments lock {P}.
Arguments primitives {P}.
Arguments threads {P}.
Arguments trace {P}.
Arguments goto {P}.
Arguments step {P}.
Arguments steps {P}.
Arguments init {P}.
