(** Property theorems C77: InOut and NullableReference. *)
From Coq Require Import List Lia.
From Verif Require Import Cpp RefModel RefSpec RefProofs.
Import ListNotations.

(** ** C77 *)

(** A program with InOuts and NullableReferences does and shows exactly what the program
    does that names the objects instead: for an InOut the object it or the InOut it is a copy
    of was made from, for a NullableReference the one last given to it.  Where an empty
    NullableReference is used there is an exception and nothing else, and the program is
    undefined exactly where the one with the names is. *)
Theorem c77_as_if : forall (T : Type) (p : list (op T)),
  (forall os out, (exists m', run p empty = Ok m' /\ objects m' = os /\ output m' = out) <-> runs (unwrap [] [] p) [] [] os out) /\
  (run p empty = UB <-> forall os out, ~ runs (unwrap [] [] p) [] [] os out).
Proof. exact (fun T p => conj (transparent p) (undefined p)). Qed.
Print Assumptions c77_as_if.

(** An object no InOut and no NullableReference was made from stays as it is while a program
    runs that does not name it. *)
Theorem c77_confined : forall (T : Type) (p : list (op T)) a m m',
  a < length (objects m) -> ~ In a (inouts m) -> ~ In (Some a) (refs m) ->
  Forall (fun o => ~ names a o) p -> run p m = Ok m' ->
  nth_error (objects m') a = nth_error (objects m) a.
Proof. exact (fun T p a m m' L I R => confined p a m m' (conj L (conj I R))). Qed.
Print Assumptions c77_confined.

(** No program makes an InOut refer to another object. *)
Theorem c77_fixed : forall (T : Type) (p : list (op T)) m m' i a,
  run p m = Ok m' -> nth_error (inouts m) i = Some a -> nth_error (inouts m') i = Some a.
Proof. exact (@inout_fixed). Qed.
Print Assumptions c77_fixed.

(** The program of examples/output_parameters.cc, with a copy and a change of target: object
    0 is set through an InOut, object 1 through a NullableReference made empty afterwards. *)
Definition ex_program : list (op nat) :=
  [Declare 0; Declare 0; Wrap 0; CopyWrap 0; Set_ 1 3; Read 0; Refer 1; Test 0; SetRef 0 4; Read 1; Null; Test 1; Reseat 0 1; SetRef 0 5; GetRef 0; Read 1; Get 0].
Example c77_example :
  run ex_program empty = Ok {| objects := [Some 3; Some 4]; inouts := [0; 0]; refs := [None; None];
    output := [Value 3; Has true; Value 4; Has false; Caught; Caught; Value 4; Value 3] |} /\
  unwrap [] [] ex_program = [PDeclare 0; PDeclare 0; PNeeds 0; PAssign 0 3; PRead 0; PNeeds 1; PShow (Has true); PAssign 1 4; PRead 1;
    PShow (Has false); PShow Caught; PShow Caught; PRead 1; PRead 0] /\
  Forall (fun o => ~ names 0 o) [Set_ 0 7; Refer 1; SetRef 0 8].
Proof. split; [reflexivity|]. split; [reflexivity|]. repeat constructor; cbn; auto. Qed.

(** "It is impossible for arguments to be modified without clients expecting it"
    (inout.hh:11-16) is false: a function can keep a copy of its InOut, and a later call
    that does not name the object changes it. *)
Theorem c77_impossible_refuted : exists (first second : list (op nat)) m1 m2,
  run first empty = Ok m1 /\ Forall (fun o => ~ names 0 o) second /\ run second m1 = Ok m2 /\
  nth_error (objects m1) 0 = Some (Some 5) /\ nth_error (objects m2) 0 = Some (Some 6).
Proof.
  exists [Declare 5; Wrap 0; CopyWrap 0], [Set_ 1 6]. eexists. eexists. split; [reflexivity|]. split; [repeat constructor; cbn; auto|]. split; [reflexivity|]. split; reflexivity.
Qed.
Print Assumptions c77_impossible_refuted.

(** A NullableReference that has a value cannot always be used: it does not notice the end of
    the object. *)
Theorem c77_has_value_safe_refuted : exists (p : list (op nat)) m,
  run p empty = Ok m /\ step m (Test 0) = Ok (show nat m (Has true)) /\ step m (SetRef 0 1) = UB.
Proof. exists [Declare 5; Refer 0; Leave 0]. eexists. split; [reflexivity|]. split; reflexivity. Qed.
Print Assumptions c77_has_value_safe_refuted.
