(** What a view statement is to show. *)
From Coq Require Import String.
From Verif Require Import Cpp StmtModel.

(** Payload, name, file and line of each thing a statement shows, in order. *)
Definition shows {A : Type} (file : string) (line : Z) (s : statement) : list (A * option string * string * Z) :=
  match s with
  | View x => []
  | ViewStream x name => [(x, Some name, file, line)]
  | ViewNamed x name => [(x, Some name, file, line)]
  | ViewNamedStream x name name' => [(x, Some name, file, line); (x, Some name', file, line)]
  | Streamed xs => map (fun x => (x, None, "Unknown file"%string, 0%Z)) xs
  end.
Definition shows_all {A : Type} (p : list (string * Z * statement)) : list (A * option string * string * Z) :=
  flat_map (fun fls => shows (fst (fst fls)) (snd (fst fls)) (snd fls)) p.

(** What a primitive shows. *)
Definition shown {A : Type} (q : primitive A) : A * option string * string * Z :=
  (prim_payload q, prim_name q, prim_file q, prim_line q).

(** [us] is what is sent when the items [xs] are shown one by one until one fails: each
    alone in its update, the last one possibly failing. *)
Inductive sends {A : Type} : list (A * option string * string * Z) -> bool -> list (list (primitive A) * bool) -> Prop :=
| sends_nil : sends [] true []
| sends_ok x xs q ok us : shown q = x -> sends xs ok us -> sends (x :: xs) ok (([q], true) :: us)
| sends_fail x xs q : shown q = x -> sends (x :: xs) false [([q], false)].
