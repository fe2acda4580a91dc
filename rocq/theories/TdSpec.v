(** What the test directories and the tracker of moves and copies are measured against. *)
From Coq Require Import ZArith List Ascii.
From Verif Require Import Cpp UuidModel TdModel.
Import ListNotations.

(** [q] is [p] or lies below it. *)
Definition under (p q : place) : Prop := exists r, q = p ++ r.
(** A file system in which whatever is there is in a directory. *)
Definition sound_tree (t : tree) : Prop := forall q name, t (q ++ [name]) <> None -> t q = Some Dir.
(** The name of a file with an extension, which is not set off by a dot when it is empty. *)
Definition file_name (id : uuid) (extension : text) : text := match extension with [] => to_string id | _ => to_string id ++ dot :: extension end.
(** The test changes what is beneath the [k]-th directory it held at the start. *)
Fixpoint changes (k : nat) (a : test) : Prop :=
  match a with
  | Done | Fail => False
  | Within body rest => changes (S k) body \/ changes k rest
  | Change j _ rest => j = k \/ changes k rest
  | Go _ rest | Ask rest => changes k rest
  end.
(** The test throws nothing itself and uses only the directories it holds, [held] at the start. *)
Fixpoint proper (held : nat) (a : test) : Prop :=
  match a with
  | Done => True
  | Fail => False
  | Within body rest => proper (S held) body /\ proper held rest
  | Change j _ rest => (j < held)%nat /\ proper held rest
  | Go _ rest | Ask rest => proper held rest
  end.
(** The most ids the test makes. *)
Fixpoint uses (a : test) : nat :=
  match a with
  | Done | Fail => 0
  | Within body rest => 1 + uses body + uses rest
  | Change _ _ rest | Go _ rest => uses rest
  | Ask rest => 1 + uses rest
  end.
(** No two of the first [limit] ids are the same. *)
Definition distinct (limit : nat) (ids : nat -> uuid) : Prop := forall i j, (i < limit)%nat -> (j < limit)%nat -> ids i = ids j -> i = j.
(** The directories held, the last first: each was made with an id before [next], all with
    different ones. *)
Definition held_before (ids : nat -> uuid) (temp : path) (next : nat) (held : list path) : Prop :=
  exists js, held = map (fun j => Path (absolute temp) (names temp ++ [to_string (ids j)])) js /\ NoDup js /\ Forall (fun j => (j < next)%nat) js.

(** The object that an operation gives its value, and those it reads. *)
Definition writes (op : tracker_op) : nat :=
  match op with New x | CopyTo x _ | MoveTo x _ | CopyAssign x _ | MoveAssign x _ => x end.
Definition reads (op : tracker_op) : list nat :=
  match op with New _ => [] | CopyTo _ y | MoveTo _ y => [y] | CopyAssign x y | MoveAssign x y => [x; y] end.
(** Every object read has been made before. *)
Definition made_before_use (ops : list tracker_op) : Prop :=
  forall before op after, ops = before ++ op :: after -> forall x, In x (reads op) -> exists earlier, In earlier before /\ writes earlier = x.
(** What an object has gone through since the default construction that it goes back to, the
    last first. *)
Inductive event := WasMoved | WasCopied.
Inductive went_through : list tracker_op -> nat -> list event -> Prop :=
| GNew : forall ops x, went_through (ops ++ [New x]) x []
| GCopy : forall ops x other h, went_through ops other h -> went_through (ops ++ [CopyTo x other]) x (WasCopied :: h)
| GMove : forall ops x other h, went_through ops other h -> went_through (ops ++ [MoveTo x other]) x (WasMoved :: h)
| GCopyAssign : forall ops x other h, went_through ops other h -> went_through (ops ++ [CopyAssign x other]) x (WasCopied :: h)
| GMoveAssign : forall ops x other h, went_through ops other h -> went_through (ops ++ [MoveAssign x other]) x (WasMoved :: h)
| GOther : forall ops op x h, went_through ops x h -> writes op <> x -> went_through (ops ++ [op]) x h.
(** How often an event is in a list of them. *)
Definition event_eqb (a b : event) : bool := match a, b with WasMoved, WasMoved | WasCopied, WasCopied => true | _, _ => false end.
Definition times (e : event) (h : list event) : Z := Z.of_nat (length (filter (event_eqb e) h)).
(** At the start there is no object. *)
Definition no_objects : objects := fun _ => None.
(** Neither number is more than an int holds. *)
Definition small (h : list event) : Prop := (times WasMoved h <= 2 ^ 31 - 1)%Z /\ (times WasCopied h <= 2 ^ 31 - 1)%Z.
