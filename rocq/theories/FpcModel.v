(** Model of TCurve<SE3> in double precision: resim/curves/t_curve.cc.  Frames are left out;
    C33 covers them. *)
From Coq Require Import List.
From Flocq Require Import Core BinarySingleNaN.
From Verif Require Import Cpp FloatModel NrmModel DriftModel FtsModel FpsModel FtcModel.
Import ListNotations.

(** TCurve::PControl: t_curve.hh:35-40. *)
Record fpcontrol := FPControl { fptime : f64; fppoint : fpjet }.
(** TCurve::Segment: t_curve.hh:44-48, with the two ends of its TCurveSegment. *)
Record fpsegment := FPSegment { fporig_time : f64; fpdest_time : f64; fporig : fpjet; fpdest : fpjet }.
(** control_pts_ and segments_: t_curve.hh:93-95. *)
Record fpcurve := FPCurve { fpcontrols : list fpcontrol; fpsegments : list fpsegment }.

(** A tangent vector times a number (t_curve.cc:76-81, 162-163). *)
Definition fttimes (v : ftan) (k : f64) : ftan := FT (ftimes (frot_part v) k) (ftimes (ftrans_part v) k).
(** The copies with scaled derivatives: t_curve.cc:74-81. *)
Definition fpnormalized (j : fpjet) (dt : f64) : fpjet := FPJ (pf j) (fttimes (pd j) dt) (fttimes (fttimes (pd2 j) dt) dt).
(** TCurve::append: t_curve.cc:55-90. *)
Definition fp_append (c : fpcurve) (point : fpcontrol) : outcome fpcurve :=
  match rev (fpcontrols c) with
  | [] => Ok (FPCurve [point] (fpsegments c))
  | back :: _ =>
      let* _ := reassert (flt (fptime back) (fptime point)) in
      let dt := fsub (fptime point) (fptime back) in
      let orig := fpnormalized (fppoint back) dt in
      let dest := fpnormalized (fppoint point) dt in
      Ok (FPCurve (fpcontrols c ++ [point]) (fpsegments c ++ [FPSegment (fptime back) (fptime point) orig dest]))
  end.
(** TCurve::append(points): t_curve.cc:92-97. *)
Definition fp_appends (c : fpcurve) (points : list fpcontrol) : outcome fpcurve :=
  fold_left (fun o point => let* c := o in fp_append c point) points (Ok c).
(** TCurve(points): t_curve.cc:43-53. *)
Definition fp_make (points : list fpcontrol) : outcome fpcurve := fp_appends (FPCurve [] []) points.
(** TCurve::point_at_impl: t_curve.cc:134-156; the segment, inv_dt and time_nrm. *)
Definition fp_point_at_impl (c : fpcurve) (time : f64) : outcome (fpsegment * f64 * f64) :=
  let* _ := reassert (match fpsegments c with [] => false | _ => true end) in
  match fpcontrols c, rev (fpcontrols c) with
  | front :: _, back :: _ =>
      let time_lo := flt time (fptime front) in
      let time_hi := flt (fptime back) time in
      let* _ := reassert (negb time_lo && negb time_hi) in
      match nth_error (fpsegments c) (lower_bound (fun segment => flt (fpdest_time segment) time) (fpsegments c)) with
      | Some s =>
          let dt := fsub (fpdest_time s) (fporig_time s) in
          let inv_dt := fdivide (of_int 1) dt in
          Ok (s, inv_dt, fmul inv_dt (fsub time (fporig_time s)))
      | None => UB
      end
  | _, _ => UB
  end.
(** unnormalize_derivatives: t_curve.cc:158-164. *)
Definition fpunnormalize (inv_dt : f64) (j : fpjet) : fpjet :=
  FPJ (pf j) (fttimes (pd j) inv_dt) (fttimes (fttimes (pd2 j) inv_dt) inv_dt).
(** TCurve::point_at: t_curve.cc:116-122. *)
Definition fp_point_at (c : fpcurve) (time : f64) (result : outcome fpjet) : Prop :=
  match fp_point_at_impl c time with
  | Ok (s, inv_dt, time_nrm) =>
      exists point, fpsegment_point_at (fporig s) (fpdest s) time_nrm point /\ result = Ok (fpunnormalize inv_dt point)
  | Throw => result = Throw
  | UB => result = UB
  end.
