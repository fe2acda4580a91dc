(** Model of DCurve<SE3> in double precision: resim/curves/d_curve.cc.  Frames are left out;
    C36 covers them. *)
From Coq Require Import List.
From Flocq Require Import Core BinarySingleNaN.
From Verif Require Import Cpp FloatModel DriftModel SpinModel TwistModel TlogModel SlogModel LenModel.
Import ListNotations.

(** DCurve::Control: d_curve.hh:26-32. *)
Record fcontrol := FControl { farc : f64; fref : fpose }.
(** DCurve::Segment: d_curve.hh:33-43. *)
Record fsegment := FSegment { forig_arc : f64; fdest_arc : f64; fref_orig : fpose; fref_dest : fpose; forig_dest : fpose }.
(** control_pts_ and segments_: d_curve.hh:82-84. *)
Record fdcurve := FDCurve { fcontrols : list fcontrol; fsegments : list fsegment }.

(** DCurve::append: d_curve.cc:32-67. *)
Definition fdc_append (c : fdcurve) (g : fpose) (c' : fdcurve) : Prop :=
  match rev (fcontrols c) with
  | [] => c' = FDCurve [FControl (of_int 0) g] (fsegments c)
  | back :: _ =>
      exists orig_from_ref orig_from_control segment_length,
        fpose_inverse (fref back) orig_from_ref /\
        fpose_mul orig_from_ref g orig_from_control /\
        fse3_arc_length orig_from_control segment_length /\
        let dest := fadd (farc back) segment_length in
        c' = FDCurve (fcontrols c ++ [FControl dest g])
               (fsegments c ++ [FSegment (farc back) dest (fref back) g orig_from_control])
  end.
(** DCurve(points) and append(points): d_curve.cc:21-31, 69-74. *)
Fixpoint fdc_appends (c : fdcurve) (gs : list fpose) (c' : fdcurve) : Prop :=
  match gs with
  | [] => c' = c
  | g :: gs => exists c1, fdc_append c g c1 /\ fdc_appends c1 gs c'
  end.
Definition fdc_make (gs : list fpose) (c : fdcurve) : Prop := fdc_appends (FDCurve [] []) gs c.
(** curve_length: d_curve.cc:96-99. *)
Definition fdc_length (c : fdcurve) : f64 :=
  match rev (fcontrols c) with [] => of_int 0 | back :: _ => farc back end.
(** point_at_impl: d_curve.cc:119-138. *)
Definition fdc_point_at_impl (c : fdcurve) (arc_length : f64) : outcome (f64 * fsegment) :=
  let* _ := reassert (fle (of_int 0) arc_length) in
  let* _ := reassert (fle arc_length (fdc_length c)) in
  match find (fun s => fle arc_length (fdest_arc s)) (fsegments c) with
  | None => Throw
  | Some s => Ok (seg_fraction (forig_arc s) (fdest_arc s) arc_length, s)
  end.
(** point_at: d_curve.cc:76-82; false if it throws. *)
Definition fdc_point_at (c : fdcurve) (arc_length : f64) (p : fpose) : Prop :=
  exists fraction s orig_from_query_point,
    fdc_point_at_impl c arc_length = Ok (fraction, s) /\
    fse3_interp (forig_dest s) fraction orig_from_query_point /\
    fpose_mul (fref_orig s) orig_from_query_point p.
