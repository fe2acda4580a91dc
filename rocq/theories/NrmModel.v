(** Model of the times of a TCurve in double precision: the order check of
    TCurve::append and the lookup of TCurve::point_at_impl, resim/curves/t_curve.cc.  Frames
    and points are left out. *)
From Verif Require Import Cpp FloatModel.

(** TCurve::append as far as times go: t_curve.cc:56-63.  [times] are the times of the
    control points. *)
Definition append_time (times : list f64) (time : f64) : outcome (list f64) :=
  match rev times with
  | [] => Ok [time]
  | back :: _ =>
      let* _ := reassert (flt back time) in
      Ok (times ++ [time])
  end.

(** orig_time and dest_time of the segments: t_curve.cc:82-85. *)
Definition segment_times (times : list f64) : list (f64 * f64) := combine times (tl times).

(** libstdc++'s std::lower_bound (bits/stl_algobase.h, __lower_bound) with the elements
    before [value] given by [less]; called at t_curve.cc:145-151.  [fuel] is at least the
    length. *)
Fixpoint lower_bound_from {A : Type} (less : A -> bool) (l : list A) (fuel first len : nat) : nat :=
  match fuel with
  | O => first
  | S fuel =>
      if Nat.eqb len 0 then first
      else
        let half := Nat.div2 len in
        let middle := (first + half)%nat in
        match nth_error l middle with
        | Some x =>
            if less x then lower_bound_from less l fuel (middle + 1) (len - half - 1)
            else lower_bound_from less l fuel first half
        | None => first
        end
  end.
Definition lower_bound {A : Type} (less : A -> bool) (l : list A) : nat :=
  lower_bound_from less l (length l) 0 (length l).

(** PointAtData: t_curve.hh:80-87; the segment by its index. *)
Record point_at_data := PointAtData { in_segment : nat; inv_dt : f64; time_nrm : f64 }.

(** t_curve.cc:152-154. *)
Definition seg_inv_dt (orig dest : f64) : f64 := fdivide (of_int 1) (fsub dest orig).
Definition seg_time_nrm (orig dest time : f64) : f64 := fmul (seg_inv_dt orig dest) (fsub time orig).

(** TCurve::point_at_impl: t_curve.cc:134-156. *)
Definition point_at_impl (times : list f64) (time : f64) : outcome point_at_data :=
  let* _ := reassert (match segment_times times with [] => false | _ => true end) in
  match times, rev times with
  | front :: _, back :: _ =>
      let time_lo := flt time front in
      let time_hi := flt back time in
      let* _ := reassert (negb time_lo && negb time_hi) in
      let s := lower_bound (fun segment => flt (snd segment) time) (segment_times times) in
      match nth_error (segment_times times) s with
      | Some (orig_time, dest_time) =>
          Ok (PointAtData s (seg_inv_dt orig_time dest_time) (seg_time_nrm orig_time dest_time time))
      | None => UB
      end
  | _, _ => UB
  end.

(** A curve built by any calls of append, of which the rejected ones leave it alone. *)
Definition built (appended : list f64) : list f64 :=
  fold_left (fun times time => match append_time times time with Ok ts => ts | _ => times end) appended [].
