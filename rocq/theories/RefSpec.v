(** Programs without references, and what a program with them says once the names of the
    objects are put in. *)
From Coq Require Import List.
From Verif Require Import Cpp RefModel.
Import ListNotations.

Section Plain.
Context {T : Type}.

(** Statements over objects by name. *)
Inductive plain :=
| PDeclare (v : T) | PLeave (a : nat) | PAssign (a : nat) (v : T) | PRead (a : nat)
| PNeeds (a : nat)            (* the object has to be there *)
| PShow (s : shown T)         (* a fixed answer *)
| PWrong.                     (* undefined *)

(** The value of an object that is there. *)
Definition there (os : list (option T)) (a : nat) : option T := match nth_error os a with Some (Some v) => Some v | _ => None end.

(** Two lists of objects that differ at [a] only, where the second has [x]. *)
Definition only_changed (os os' : list (option T)) (a : nat) (x : option T) : Prop :=
  length os' = length os /\ nth_error os' a = Some x /\ forall b, b <> a -> nth_error os' b = nth_error os b.

Inductive runs : list plain -> list (option T) -> list (shown T) -> list (option T) -> list (shown T) -> Prop :=
| r_end os out : runs [] os out os out
| r_declare v p os out os' out' : runs p (os ++ [Some v]) out os' out' -> runs (PDeclare v :: p) os out os' out'
| r_leave a v p os out os1 os' out' : there os a = Some v -> only_changed os os1 a None -> runs p os1 out os' out' -> runs (PLeave a :: p) os out os' out'
| r_assign a v w p os out os1 os' out' : there os a = Some w -> only_changed os os1 a (Some v) -> runs p os1 out os' out' -> runs (PAssign a v :: p) os out os' out'
| r_read a v p os out os' out' : there os a = Some v -> runs p os (out ++ [Value v]) os' out' -> runs (PRead a :: p) os out os' out'
| r_needs a v p os out os' out' : there os a = Some v -> runs p os out os' out' -> runs (PNeeds a :: p) os out os' out'
| r_show s p os out os' out' : runs p os (out ++ [s]) os' out' -> runs (PShow s :: p) os out os' out'.

(** The program with the names put in: [ins] and [rs] are the objects the InOuts and the
    NullableReferences declared so far stand for. *)
Fixpoint unwrap (ins : list nat) (rs : list (option nat)) (p : list (op T)) : list plain :=
  match p with
  | [] => []
  | Declare v :: p => PDeclare v :: unwrap ins rs p
  | Leave a :: p => PLeave a :: unwrap ins rs p
  | Assign a v :: p => PAssign a v :: unwrap ins rs p
  | Read a :: p => PRead a :: unwrap ins rs p
  | Wrap a :: p => PNeeds a :: unwrap (ins ++ [a]) rs p
  | CopyWrap i :: p => match nth_error ins i with Some a => unwrap (ins ++ [a]) rs p | None => [PWrong] end
  | Set_ i v :: p => match nth_error ins i with Some a => PAssign a v :: unwrap ins rs p | None => [PWrong] end
  | Get i :: p => match nth_error ins i with Some a => PRead a :: unwrap ins rs p | None => [PWrong] end
  | Refer a :: p => PNeeds a :: unwrap ins (rs ++ [Some a]) p
  | Null :: p => unwrap ins (rs ++ [None]) p
  | CopyRef j :: p => match nth_error rs j with Some r => unwrap ins (rs ++ [r]) p | None => [PWrong] end
  | Reseat j k :: p => match nth_error rs j, nth_error rs k with Some _, Some r => unwrap ins (firstn j rs ++ r :: skipn (S j) rs) p | _, _ => [PWrong] end
  | SetRef j v :: p => match nth_error rs j with Some (Some a) => PAssign a v :: unwrap ins rs p | Some None => PShow Caught :: unwrap ins rs p | None => [PWrong] end
  | GetRef j :: p => match nth_error rs j with Some (Some a) => PRead a :: unwrap ins rs p | Some None => PShow Caught :: unwrap ins rs p | None => [PWrong] end
  | Test j :: p => match nth_error rs j with Some r => PShow (Has (match r with Some _ => true | None => false end)) :: unwrap ins rs p | None => [PWrong] end
  end.

(** A statement names an object. *)
Definition names (a : nat) (o : op T) : Prop :=
  match o with Leave b | Assign b _ | Read b | Wrap b | Refer b => b = a | _ => False end.
End Plain.
