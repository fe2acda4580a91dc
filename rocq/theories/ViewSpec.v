(** Vocabulary of the View properties: what can be read off a history. *)
From Verif Require Import Cpp ViewModel.

Section Spec.
Context {P : Type}.

(** The primitives inserted, in order. *)
Definition inserted (tr : list (event P)) : list P :=
  flat_map (fun e => match e with Inserted _ p => [p] | _ => [] end) tr.
(** The primitives inserted by thread [t]. *)
Definition inserted_by (t : nat) (tr : list (event P)) : list P :=
  flat_map (fun e => match e with Inserted u p => if Nat.eqb u t then [p] else [] | _ => [] end) tr.
(** The primitives of all updates handed to the client, concatenated. *)
Definition sent (tr : list (event P)) : list P :=
  flat_map (fun e => match e with Sent _ ps _ => ps | _ => [] end) tr.
(** The same for the updates the client accepted. *)
Definition accepted (tr : list (event P)) : list P :=
  flat_map (fun e => match e with Sent _ ps true => ps | _ => [] end) tr.

Definition is_send (e : event P) : bool := match e with Sent _ _ _ => true | _ => false end.

Definition all_sends_ok (tr : list (event P)) : Prop :=
  forall t ps ok, In (Sent t ps ok) tr -> ok = true.

(** The primitives viewed by a program. *)
Definition views (ops : list (op P)) : list P :=
  flat_map (fun o => match o with ViewObject p => [p] | Flush => [] end) ops.

(** Every thread has run its program to the end. *)
Definition finished (s : state P) : Prop :=
  forall t th, nth_error (threads s) t = Some th -> at_ th = Idle /\ todo th = [].

(** Who did it, and a stretch in which [t] does nothing. *)
Definition owner (e : event P) : nat :=
  match e with Inserted t _ => t | Sent t _ _ => t | Done t _ _ => t end.
Definition quiet (t : nat) (tr : list (event P)) : Prop := forall e, In e tr -> owner e <> t.

(** [t]'s current call has inserted its primitive. *)
Definition entered (t : nat) (o : op P) (tr : list (event P)) : Prop :=
  match o with
  | ViewObject p => exists a b, tr = a ++ Inserted t p :: b /\ quiet t b
  | Flush => True
  end.
(** [t]'s current call [o] has inserted its primitive, if it has one, then sent
    everything inserted and not yet sent, with result [ok]. *)
Definition sent_own (t : nat) (o : op P) (ok : bool) (tr : list (event P)) : Prop :=
  exists a ps b, tr = a ++ Sent t ps ok :: b /\ inserted a = sent a ++ ps /\ quiet t b /\
    entered t o a.

End Spec.
