(** Screw motions: the ideal that SE3::exp approximates. *)
From Coq Require Import Sorted List.
From Verif Require Export Vec.

(** Where the point that starts at the origin and moves with velocity v + w x position
    is after the time [s] (shown to solve that equation by [c26_screw_solves]). *)
Definition screw (w v : vec3) (s : R) : vec3 :=
  let n := norm w in
  if Req_EM_T n 0 then vscale s v
  else vadd (vadd (vscale (sin (s * n) / n) v)
                  (vscale ((1 - cos (s * n)) / (n * n)) (cross w v)))
            (vscale ((s * n - sin (s * n)) / (n * n * n) * dot w v) w).

(** Length of the polygon through the points of the path [p] at the times [s], [l]. *)
Fixpoint chords (p : R -> vec3) (s : R) (l : list R) : R :=
  match l with
  | nil => 0
  | cons t l' => norm (vsub (p t) (p s)) + chords p t l'
  end.
(** [l] leads from 0 to 1 without going back. *)
Definition partition (l : list R) : Prop := Sorted Rle (cons 0 l) /\ last l 0 = 1.
(** The length of the path between the times 0 and 1: the least upper bound of the
    lengths of inscribed polygons. *)
Definition path_length (p : R -> vec3) (len : R) : Prop :=
  is_lub (fun x => exists l, partition l /\ x = chords p 0 l) len.
