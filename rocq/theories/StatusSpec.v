(** Specification vocabulary for Status and StatusValue. *)
From Coq Require Import Ascii String.
From Verif Require Import Cpp StatusModel.

(** Running the calls [fs] from [v] all succeed and end with [v']. *)
Inductive succeeds {T : Type} : list (T -> outcome (status_value T)) -> T -> T -> Prop :=
| succeeds_nil v : succeeds [] v v
| succeeds_cons f fs v x v' : f v = Ok (Value x) -> succeeds fs x v' -> succeeds (f :: fs) v v'.

(** The steps written with a variable. *)
Definition stored {T : Type} (fs : list (T -> outcome (status_value T))) := map (fun f => (ViaVariable, f)) fs.

(** A character occurs in a text; a text occurs in a text. *)
Fixpoint occurs (c : ascii) (s : string) : Prop :=
  match s with EmptyString => False | String d s' => c = d \/ occurs c s' end.
Definition contains (s part : string) : Prop := exists before after, s = (before ++ part ++ after)%string.
