(** The curves that time curves of rotations in double precision are measured against. *)
From Coq Require Import List.
From Flocq Require Import Core BinarySingleNaN.
From Verif Require Import Cpp FloatModel FloatSpec NrmSpec Vec RotSpec DriftModel DriftSpec SpinModel SpinSpec FtsModel FtsSpec FtcModel.
Import ListNotations.
Local Open Scope R_scope.

(** A state to be passed through, and when. *)
Record control := Control { at_time : R; at_state : state }.
(** [a] and [b] follow each other. *)
Definition follow {A : Type} (l : list A) (i : nat) (a b : A) : Prop := nth_error l i = Some a /\ nth_error l (S i) = Some b.
(** The same state with the time counted in units of [d]. *)
Definition in_units (d : R) (x : state) : state := State (rot x) (vscale d (vel x)) (vscale (d * d) (acc x)).
(** The state at the time [t] between two control points. *)
Definition on_piece (a b : control) (t : R) (p : state) : Prop :=
  at_time a <= t <= at_time b /\
  let d := at_time b - at_time a in
  exists q, between (in_units d (at_state a)) (in_units d (at_state b)) ((t - at_time a) / d) q /\ p = in_units (/ d) q.
(** The state at the time [t] on the whole curve. *)
Definition on_tcurve (cs : list control) (t : R) (p : state) : Prop := exists i a b, follow cs i a b /\ on_piece a b t p.
(** The first and the last time. *)
Definition from_to (cs : list control) (first last : R) : Prop :=
  (exists a, nth_error cs 0 = Some a /\ at_time a = first) /\ (exists b, nth_error cs (length cs - 1) = Some b /\ at_time b = last).
(** Rotations, at increasing times, at most three radians from one to the next. *)
Definition proper (cs : list control) : Prop :=
  (2 <= length cs)%nat /\ Forall (fun c => is_rotation (rot (at_state c))) cs /\
  forall i a b, follow cs i a b -> at_time a < at_time b /\
    exists w, rotation_by w (mmul (rot (at_state b)) (mtrans (rot (at_state a)))) /\ norm w <= 3.

(** A stored control point at the end of a piece of the length [d], on which it would turn
    by [m] at most, stored with the relative error [e]. *)
Definition stored (e m d : R) (f : ftcontrol) (c : control) : Prop :=
  finite (ftime f) /\ val (ftime f) = at_time c /\
  jet_within e (e * m / d) (e * m / (d * d)) (fpoint f) (at_state c) /\ norm (vel (at_state c)) <= m / d /\ norm (acc (at_state c)) <= m / (d * d).
Definition all_stored (e m : R) (fs : list ftcontrol) (cs : list control) : Prop :=
  length fs = length cs /\
  forall i f g a b, follow fs i f g -> follow cs i a b ->
    let d := at_time b - at_time a in / 2 ^ 200 <= d <= 2 ^ 200 /\ stored e m d f a /\ stored e m d g b.
(** A vector of which no entry is a number. *)
Definition no_numbers (v : fvec) : Prop := not_a_number (fx v) /\ not_a_number (fy v) /\ not_a_number (fz v).
