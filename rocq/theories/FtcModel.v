(** Model of TCurve<SO3> in double precision: resim/curves/t_curve.cc.  Frames are left out;
    C33 covers them. *)
From Coq Require Import List.
From Flocq Require Import Core BinarySingleNaN.
From Verif Require Import Cpp FloatModel NrmModel DriftModel FtsModel.
Import ListNotations.

(** TCurve::Control: t_curve.hh:35-40. *)
Record ftcontrol := FTControl { ftime : f64; fpoint : fjet }.
(** TCurve::Segment: t_curve.hh:44-48, with the two ends of its TCurveSegment. *)
Record ftsegment := FTSegment { forig_time : f64; fdest_time : f64; forig : fjet; fdest : fjet }.
(** control_pts_ and segments_: t_curve.hh:93-95. *)
Record ftcurve := FTCurve { ftcontrols : list ftcontrol; ftsegments : list ftsegment }.

(** A vector times a number (t_curve.cc:76-81, 162-163). *)
Definition ftimes (v : fvec) (k : f64) : fvec := FV (fmul (fx v) k) (fmul (fy v) k) (fmul (fz v) k).
(** The copies with scaled derivatives: t_curve.cc:74-81. *)
Definition fnormalized (j : fjet) (dt : f64) : fjet := FJ (jf j) (ftimes (jd j) dt) (ftimes (ftimes (jd2 j) dt) dt).
(** TCurve::append: t_curve.cc:55-90. *)
Definition ft_append (c : ftcurve) (point : ftcontrol) : outcome ftcurve :=
  match rev (ftcontrols c) with
  | [] => Ok (FTCurve [point] (ftsegments c))
  | back :: _ =>
      let* _ := reassert (flt (ftime back) (ftime point)) in
      let dt := fsub (ftime point) (ftime back) in
      let orig := fnormalized (fpoint back) dt in
      let dest := fnormalized (fpoint point) dt in
      Ok (FTCurve (ftcontrols c ++ [point]) (ftsegments c ++ [FTSegment (ftime back) (ftime point) orig dest]))
  end.
(** TCurve::append(points): t_curve.cc:92-97. *)
Definition ft_appends (c : ftcurve) (points : list ftcontrol) : outcome ftcurve :=
  fold_left (fun o point => let* c := o in ft_append c point) points (Ok c).
(** TCurve(points): t_curve.cc:43-53. *)
Definition ft_make (points : list ftcontrol) : outcome ftcurve := ft_appends (FTCurve [] []) points.
(** TCurve::point_at_impl: t_curve.cc:134-156; the segment, inv_dt and time_nrm. *)
Definition ft_point_at_impl (c : ftcurve) (time : f64) : outcome (ftsegment * f64 * f64) :=
  let* _ := reassert (match ftsegments c with [] => false | _ => true end) in
  match ftcontrols c, rev (ftcontrols c) with
  | front :: _, back :: _ =>
      let time_lo := flt time (ftime front) in
      let time_hi := flt (ftime back) time in
      let* _ := reassert (negb time_lo && negb time_hi) in
      match nth_error (ftsegments c) (lower_bound (fun segment => flt (fdest_time segment) time) (ftsegments c)) with
      | Some s =>
          let dt := fsub (fdest_time s) (forig_time s) in
          let inv_dt := fdivide (of_int 1) dt in
          Ok (s, inv_dt, fmul inv_dt (fsub time (forig_time s)))
      | None => UB
      end
  | _, _ => UB
  end.
(** unnormalize_derivatives: t_curve.cc:158-164. *)
Definition funnormalize (inv_dt : f64) (j : fjet) : fjet :=
  FJ (jf j) (ftimes (jd j) inv_dt) (ftimes (ftimes (jd2 j) inv_dt) inv_dt).
(** TCurve::point_at: t_curve.cc:116-122. *)
Definition ft_point_at (c : ftcurve) (time : f64) (result : outcome fjet) : Prop :=
  match ft_point_at_impl c time with
  | Ok (s, inv_dt, time_nrm) =>
      exists point, fsegment_point_at (forig s) (fdest s) time_nrm point /\ result = Ok (funnormalize inv_dt point)
  | Throw => result = Throw
  | UB => result = UB
  end.
