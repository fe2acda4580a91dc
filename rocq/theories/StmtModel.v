(** Model of view statements: the VIEW macro, ViewObject and View::operator<< of
    resim/visualization/view.{hh,cc}, run by one thread.  The client is set and its answer
    to the n-th update is given by [answer]: an okay status, or a bad one or an exception.
    Names, files and payloads are values; [A] is the type of payloads. *)
From Coq Require Import String.
From Verif Require Import Cpp.

(** ViewPrimitive: resim/visualization/view_primitive.hh:27-41.  Ids are the numbers of
    the calls of UUID::new_uuid that made them. *)
Record primitive (A : Type) := Primitive {
  prim_id : nat; prim_payload : A; prim_name : option string; prim_file : string; prim_line : Z }.
Arguments Primitive {A}.
Arguments prim_id {A}.
Arguments prim_payload {A}.
Arguments prim_name {A}.
Arguments prim_file {A}.
Arguments prim_line {A}.

(** ViewObject<T>: view.hh:42-51. *)
Record view_obj (A : Type) := ViewObj {
  the_object : A; user_defined_name : option string; file_name : string; line_number : Z }.
Arguments ViewObj {A}.
Arguments the_object {A}.
Arguments user_defined_name {A}.
Arguments file_name {A}.
Arguments line_number {A}.

(** View::primitives_ (view.hh:144), the number of ids made, and the updates handed to the
    client with its answers. *)
Record world (A : Type) := World {
  pending : list (primitive A); ids_made : nat; updates : list (list (primitive A) * bool) }.
Arguments World {A}.
Arguments pending {A}.
Arguments ids_made {A}.
Arguments updates {A}.
Definition start {A : Type} : world A := World [] 0 [].

Section Statements.
Context {A : Type} (answer : nat -> bool).

(** View::flush: view.cc:96-104.  False means that it throws. *)
Definition flush (w : world A) : bool * world A :=
  let sent := answer (List.length (updates w)) in
  (sent, World [] (ids_made w) (updates w ++ [(pending w, sent)])).

(** View::view_object: view.cc:73-94. *)
Definition view_object (o : view_obj A) (w : world A) : bool * world A :=
  flush (World (pending w ++ [Primitive (ids_made w) (the_object o) (user_defined_name o) (file_name o) (line_number o)])
               (S (ids_made w)) (updates w)).

(** The two constructors of ViewObject: view.cc:112-132.  The named one views the object
    at once. *)
Definition make_unnamed (x : A) (file : string) (line : Z) (w : world A) : bool * (view_obj A * world A) :=
  (true, (ViewObj x None file line, w)).
Definition make_named (x : A) (name file : string) (line : Z) (w : world A) : bool * (view_obj A * world A) :=
  let o := ViewObj x (Some name) file line in
  let (ok, w) := view_object o w in (ok, (o, w)).
(** ViewObject::operator<<: view.cc:134-138. *)
Definition stream_name (o : view_obj A) (name : string) (w : world A) : bool * world A :=
  view_object (ViewObj (the_object o) (Some name) (file_name o) (line_number o)) w.
(** View::operator<<, repeated: view.cc:47-54.  It returns the view itself. *)
Fixpoint stream_objects (xs : list A) (w : world A) : bool * world A :=
  match xs with
  | [] => (true, w)
  | x :: xs =>
      let (ok, w) := view_object (ViewObj x None "Unknown file" 0) w in
      if ok then stream_objects xs w else (false, w)
  end.

(** Statements: VIEW(x); VIEW(x) << name; VIEW(x, name); VIEW(x, name) << name';
    resim::view << x1 << x2 ...; with the macros of view.hh:175-190. *)
Inductive statement :=
| View (x : A)
| ViewStream (x : A) (name : string)
| ViewNamed (x : A) (name : string)
| ViewNamedStream (x : A) (name name' : string)
| Streamed (xs : list A).

(** A statement in a file and line.  False means that it throws. *)
Definition exec (file : string) (line : Z) (s : statement) (w : world A) : bool * world A :=
  match s with
  | View x => let (ok, r) := make_unnamed x file line w in (ok, snd r)
  | ViewStream x name =>
      let (ok, r) := make_unnamed x file line w in
      if ok then stream_name (fst r) name (snd r) else (false, snd r)
  | ViewNamed x name => let (ok, r) := make_named x name file line w in (ok, snd r)
  | ViewNamedStream x name name' =>
      let (ok, r) := make_named x name file line w in
      if ok then stream_name (fst r) name' (snd r) else (false, snd r)
  | Streamed xs => stream_objects xs w
  end.

(** A program of statements, each with its file and line, whose exceptions are caught and
    ignored by the caller. *)
Fixpoint run (p : list (string * Z * statement)) (w : world A) : world A :=
  match p with
  | [] => w
  | ((file, line), s) :: p => run p (snd (exec file line s w))
  end.
End Statements.
Arguments View {A}.
Arguments ViewStream {A}.
Arguments ViewNamed {A}.
Arguments ViewNamedStream {A}.
Arguments Streamed {A}.
