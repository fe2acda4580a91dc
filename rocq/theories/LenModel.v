(** Model of the arc lengths of a DCurve in double precision: resim/curves/d_curve.cc.  Poses
    and frames are left out; what is kept of a control point is the arc length of its segment. *)
From Flocq Require Import Core BinarySingleNaN.
From Verif Require Import Cpp FloatModel.

(** The operator <= of doubles. *)
Definition fle : f64 -> f64 -> bool := @Bleb 53 1024.

(** DCurve::append of a second or later point, as far as arc lengths go: d_curve.cc:54-58.
    [segment_length] is orig_from_control.arc_length(), a norm. *)
Definition append_length (arcs : list f64) (segment_length : f64) : outcome (list f64) :=
  match rev arcs with
  | [] => UB
  | back :: _ => Ok (arcs ++ [fadd back segment_length])
  end.
(** The first point of a curve: d_curve.cc:42-48. *)
Definition first_length : list f64 := [of_int 0].
(** A curve of one point and one more for every element of [lengths]: d_curve.cc:22-26. *)
Fixpoint append_lengths (arcs : list f64) (lengths : list f64) : outcome (list f64) :=
  match lengths with
  | [] => Ok arcs
  | l :: lengths => let* arcs := append_length arcs l in append_lengths arcs lengths
  end.
Definition arc_lengths (lengths : list f64) : outcome (list f64) := append_lengths first_length lengths.

(** orig_arc_length and dest_arc_length of the segments: d_curve.cc:55-65. *)
Definition segment_arcs (arcs : list f64) : list (f64 * f64) := combine arcs (tl arcs).
(** curve_length: d_curve.cc:97-99. *)
Definition curve_length (arcs : list f64) : f64 := match rev arcs with [] => of_int 0 | back :: _ => back end.
(** std::find_if, the index of the element: d_curve.cc:127-132. *)
Fixpoint find_if {A : Type} (p : A -> bool) (l : list A) : option nat :=
  match l with
  | [] => None
  | x :: l => if p x then Some 0%nat else option_map S (find_if p l)
  end.
(** d_curve.cc:135-136. *)
Definition seg_fraction (orig dest arc_length : f64) : f64 := fdivide (fsub arc_length orig) (fsub dest orig).
(** PointAtData: d_curve.hh:73-78; the segment by its index. *)
Record length_data := LengthData { at_segment : nat; at_fraction : f64 }.
(** DCurve::point_at_impl: d_curve.cc:120-138. *)
Definition length_at (arcs : list f64) (arc_length : f64) : outcome length_data :=
  let* _ := reassert (fle (of_int 0) arc_length) in
  let* _ := reassert (fle arc_length (curve_length arcs)) in
  match find_if (fun segment => fle arc_length (snd segment)) (segment_arcs arcs) with
  | None => Throw
  | Some s =>
      match nth_error (segment_arcs arcs) s with
      | Some (orig, dest) => Ok (LengthData s (seg_fraction orig dest arc_length))
      | None => UB
      end
  end.
