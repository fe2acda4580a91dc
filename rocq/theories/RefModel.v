(** Model of resim/utils/inout.hh and resim/utils/nullable_reference.hh.

    A program is a list of statements over objects of one type T, InOut<T>s and
    NullableReference<T>s, each kind numbered in the order of declaration.  What does not
    compile has no statement: an InOut cannot be assigned (it has a reference member), made
    from a temporary, from nothing or from a pointer (the constructor in inout.hh:40 is
    private).  Functions that take these types are their bodies in place of the calls, with
    a copy for the argument.  Exceptions are caught at once. *)
From Coq Require Import List.
From Verif Require Import Cpp.
Import ListNotations.

Section Refs.
Variable T : Type.

(** What a program shows: values it read, answers of has_value(), exceptions. *)
Inductive shown := Value (v : T) | Has (b : bool) | Caught.

(** The memory.  An object whose lifetime is over is [None].  An InOut is its x_
    (inout.hh:41), a NullableReference its x_ with [None] for nullptr
    (nullable_reference.hh:37). *)
Record mem := { objects : list (option T); inouts : list nat; refs : list (option nat); output : list shown }.
(** Before any declaration: the lists grow with the constructors at inout.hh:31 and
    nullable_reference.hh:18-20. *)
Definition empty : mem := {| objects := []; inouts := []; refs := []; output := [] |}.

(** Element [n] replaced: the effect of an assignment through the T& of inout.hh:34 and
    nullable_reference.hh:58-61, or of the defaulted operator= of NullableReference. *)
Fixpoint update {A : Type} (n : nat) (x : A) (l : list A) : list A :=
  match n, l with
  | _, [] => []
  | O, _ :: l => x :: l
  | S n, y :: l => y :: update n x l
  end.

(** The parts of the memory with one changed. *)
Definition with_objects (m : mem) (o : list (option T)) : mem := {| objects := o; inouts := inouts m; refs := refs m; output := output m |}.
Definition with_inouts (m : mem) (i : list nat) : mem := {| objects := objects m; inouts := i; refs := refs m; output := output m |}.
Definition with_refs (m : mem) (r : list (option nat)) : mem := {| objects := objects m; inouts := inouts m; refs := r; output := output m |}.
Definition show (m : mem) (s : shown) : mem := {| objects := objects m; inouts := inouts m; refs := refs m; output := output m ++ [s] |}.

(** A name that is not declared; it stands for a program that does not compile, about which
    nothing is claimed. *)
Definition lookup {A : Type} (l : list A) (n : nat) : outcome A := match nth_error l n with Some x => Ok x | None => UB end.

(** Uses of the object at an address: undefined after its lifetime ([basic.life]/7-8). *)
Definition load (m : mem) (a : nat) : outcome T := let* o := lookup (objects m) a in match o with Some v => Ok v | None => UB end.
Definition store (m : mem) (a : nat) (v : T) : outcome mem := let* _ := load m a in Ok (with_objects m (update a (Some v) (objects m))).

Inductive op :=
| Declare (v : T)              (* T x = v; *)
| Leave (a : nat)              (* the lifetime of x ends *)
| Assign (a : nat) (v : T)     (* x = v; *)
| Read (a : nat)               (* cout << x; *)
| Wrap (a : nat)               (* InOut{x} *)
| CopyWrap (i : nat)           (* a copy of an InOut *)
| Set_ (i : nat) (v : T)       (* *h = v; or h->... *)
| Get (i : nat)                (* cout << *h; *)
| Refer (a : nat)              (* NullableReference{x} *)
| Null                         (* NullableReference<T>{} or null_reference<T> *)
| CopyRef (j : nat)            (* a copy of a NullableReference *)
| Reseat (j k : nat)           (* r = q; *)
| SetRef (j : nat) (v : T)     (* *r = v; or r->... *)
| GetRef (j : nat)             (* cout << *r; *)
| Test (j : nat).              (* cout << r.has_value(); or bool(r) *)

(** InOut(T &): inout.hh:31. *)
Definition make_inout (m : mem) (a : nat) : outcome mem := let* _ := load m a in Ok (with_inouts m (inouts m ++ [a])).
(** InOut::operator* and operator->: inout.hh:34-37. *)
Definition inout_target (m : mem) (i : nat) : outcome nat := lookup (inouts m) i.
(** NullableReference(T &): nullable_reference.hh:44-45. *)
Definition make_ref (m : mem) (a : nat) : outcome mem := let* _ := load m a in Ok (with_refs m (refs m ++ [Some a])).
(** has_value() and operator bool: nullable_reference.hh:47-55. *)
Definition has_value (m : mem) (j : nat) : outcome bool := let* r := lookup (refs m) j in Ok (match r with Some _ => true | None => false end).
(** operator* and operator->: nullable_reference.hh:57-67. *)
Definition ref_target (m : mem) (j : nat) : outcome nat :=
  let* b := has_value m j in
  let* _ := reassert b in
  let* r := lookup (refs m) j in
  match r with Some a => Ok a | None => UB end.

(** One statement: the members above and, for copies, the implicit copy constructors of
    both classes and the implicit copy assignment of NullableReference (inout.hh:28,
    nullable_reference.hh:15). *)
Definition step (m : mem) (o : op) : outcome mem :=
  match o with
  | Declare v => Ok (with_objects m (objects m ++ [Some v]))
  | Leave a => let* _ := load m a in Ok (with_objects m (update a None (objects m)))
  | Assign a v => store m a v
  | Read a => let* v := load m a in Ok (show m (Value v))
  | Wrap a => make_inout m a
  | CopyWrap i => let* a := inout_target m i in Ok (with_inouts m (inouts m ++ [a]))
  | Set_ i v => let* a := inout_target m i in store m a v
  | Get i => let* a := inout_target m i in let* v := load m a in Ok (show m (Value v))
  | Refer a => make_ref m a
  | Null => Ok (with_refs m (refs m ++ [None]))
  | CopyRef j => let* r := lookup (refs m) j in Ok (with_refs m (refs m ++ [r]))
  | Reseat j k => let* _ := lookup (refs m) j in let* r := lookup (refs m) k in Ok (with_refs m (update j r (refs m)))
  | SetRef j v => let* a := ref_target m j in store m a v
  | GetRef j => let* a := ref_target m j in let* v := load m a in Ok (show m (Value v))
  | Test j => let* b := has_value m j in Ok (show m (Has b))
  end.

(** A program: an exception (assert.hh:47-56) is caught and shown, and the program goes on. *)
Fixpoint run (p : list op) (m : mem) : outcome mem :=
  match p with
  | [] => Ok m
  | o :: p =>
      match step m o with
      | Ok m => run p m
      | Throw => run p (show m Caught)
      | UB => UB
      end
  end.
End Refs.
Arguments Declare {T}. Arguments Leave {T}. Arguments Assign {T}. Arguments Read {T}. Arguments Wrap {T}. Arguments CopyWrap {T}. Arguments Set_ {T}.
Arguments Get {T}. Arguments Refer {T}. Arguments Null {T}. Arguments CopyRef {T}. Arguments Reseat {T}. Arguments SetRef {T}. Arguments GetRef {T}. Arguments Test {T}.
Arguments Value {T}. Arguments Has {T}. Arguments Caught {T}. Arguments objects {T}. Arguments inouts {T}. Arguments refs {T}. Arguments output {T}. Arguments empty {T}. Arguments run {T}. Arguments step {T}.
