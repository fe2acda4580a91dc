(** Model of resim/curves: quintic_poly_coeffs, t_curve_segment, t_curve and d_curve.
    Times and arc lengths are real numbers: NaN and rounding are not modelled here. *)
From Verif Require Import Cpp UuidModel GeomModel JetModel.
Local Open Scope R_scope.

(** a < b and a <= b on doubles, as booleans. *)
Definition Rltb (a b : R) : bool := if Rlt_dec a b then true else false.
Definition Rleb (a b : R) : bool := if Rle_dec a b then true else false.

(** ** quintic_poly_coeffs *)
(** TwoJetPolyCoeffs: quintic_poly_coeffs.hh:19-23. *)
Record poly_coeffs := PolyCoeffs { pc_a : R; pc_da : R; pc_d2a : R }.
(** The tables: quintic_poly_coeffs.hh:69-73. *)
Definition DEST_ORIG : list R := [0; 0; 10; -15; 6].
Definition D_ORIG : list R := [1; 0; -6; 8; -3].
Definition D_DEST : list R := [0; 0; -4; 7; -3].
Definition D2_ORIG : list R := [0; 1/2; -3/2; 3/2; -1/2].
Definition D2_DEST : list R := [0; 0; 1/2; -1; 1/2].
(** The multiples: quintic_poly_coeffs.hh:81-83. *)
Definition MULT_A : list R := [1; 1; 1; 1; 1].
Definition MULT_DA : list R := [1; 2; 3; 4; 5].
Definition MULT_D2A : list R := [0; 2; 6; 12; 20].
(** std::array::at; the indices used are all in range. *)
Definition arr_at (l : list R) (i : nat) : R := nth i l 0.
(** two_jet_single_coeff: quintic_poly_coeffs.cc:27-37; the loop runs i = 4, ..., smallest_index. *)
Definition two_jet_single_coeff (d_mult coeffs : list R) (time_nrm : R) (smallest_index : nat) : R :=
  fold_left (fun coeff i => time_nrm * (arr_at d_mult i * arr_at coeffs i + coeff))
    (rev (seq smallest_index (5 - smallest_index))) 0.
(** two_jet_coeffs: quintic_poly_coeffs.cc:39-48. *)
Definition two_jet_coeffs (coeffs : list R) (time_nrm : R) : poly_coeffs :=
  let a0 := two_jet_single_coeff MULT_A coeffs time_nrm 0 in
  let a1 := arr_at MULT_DA 0 * arr_at coeffs 0 + two_jet_single_coeff MULT_DA coeffs time_nrm 1 in
  let a2 := arr_at MULT_D2A 1 * arr_at coeffs 1 + two_jet_single_coeff MULT_D2A coeffs time_nrm 2 in
  PolyCoeffs a0 a1 a2.
(** dest_from_orig, d_orig, d_dest, d2_orig, d2_dest: quintic_poly_coeffs.cc:11-25. *)
Definition q_dest_from_orig (t : R) : poly_coeffs := two_jet_coeffs DEST_ORIG t.
Definition q_d_orig (t : R) : poly_coeffs := two_jet_coeffs D_ORIG t.
Definition q_d_dest (t : R) : poly_coeffs := two_jet_coeffs D_DEST t.
Definition q_d2_orig (t : R) : poly_coeffs := two_jet_coeffs D2_ORIG t.
Definition q_d2_dest (t : R) : poly_coeffs := two_jet_coeffs D2_DEST t.

(** ** Calls that change an object *)
(** A call on an object of type [S]: the object afterwards and the outcome.  The object
    is kept also when the call throws. *)
Definition call (S A : Type) := S -> S * outcome A.
Definition ret {S A} (a : A) : call S A := fun s => (s, Ok a).
(** A sub-expression that does not change the object. *)
Definition calc {S A} (x : S -> outcome A) : call S A := fun s => (s, x s).
Definition update {S} (f : S -> S) : call S unit := fun s => (f s, Ok tt).
Definition cbind {S A B} (x : call S A) (f : A -> call S B) : call S B :=
  fun s => match x s with
           | (s', Ok a) => f a s'
           | (s', Throw) => (s', Throw)
           | (s', UB) => (s', UB)
           end.
Notation "'do' x ':=' e1 'in' e2" := (cbind e1 (fun x => e2))
  (at level 200, x pattern, e1 at level 200, e2 at level 200, right associativity) : outcome_scope.
(** for (const auto &x : xs) f(x); *)
Fixpoint for_each {S A} (f : A -> call S unit) (xs : list A) : call S unit :=
  match xs with
  | [] => ret tt
  | x :: xs' => do _ := f x in for_each f xs'
  end.
(** A constructor: if its body throws there is no object. *)
Definition construct {S} (init : S) (body : call S unit) : outcome S :=
  match body init with
  | (s, Ok _) => Ok s
  | (_, Throw) => Throw
  | (_, UB) => UB
  end.
(** std::vector::back and front: undefined behaviour on an empty vector. *)
Definition vec_back {A} (l : list A) : outcome A :=
  match rev l with [] => UB | x :: _ => Ok x end.
Definition vec_front {A} (l : list A) : outcome A :=
  match l with [] => UB | x :: _ => Ok x end.
(** empty() *)
Definition vec_empty {A} (l : list A) : bool := match l with [] => true | _ => false end.

(** TCurveSegment: t_curve_segment.hh:60-71. *)
Record tcurve_segment (G T : Type) := TCurveSegment { seg_orig : jet_l G T; seg_dest : jet_l G T }.
Arguments TCurveSegment {G T}. Arguments seg_orig {G T}. Arguments seg_dest {G T}.
(** TCurve::Control: t_curve.hh:35-40. *)
Record control (G T : Type) := Control { c_time : R; c_point : jet_l G T }.
Arguments Control {G T}. Arguments c_time {G T}. Arguments c_point {G T}.
(** TCurve::Segment: t_curve.hh:44-48. *)
Record tsegment (G T : Type) := TSegment { orig_time : R; dest_time : R; curve : tcurve_segment G T }.
Arguments TSegment {G T}. Arguments orig_time {G T}. Arguments dest_time {G T}. Arguments curve {G T}.
(** TCurve: t_curve.hh:92-95. *)
Record tcurve (G T : Type) := TCurve { control_pts : list (control G T); segments : list (tsegment G T) }.
Arguments TCurve {G T}. Arguments control_pts {G T}. Arguments segments {G T}.

Section Curves.
Context {G T : Type} (o : lie_ops G T).

(** ** t_curve_segment *)
(** TCurveSegment(orig, dest): t_curve_segment.cc:27-38. *)
Definition make_segment (orig dest : jet_l G T) : outcome (tcurve_segment G T) :=
  let* _ := reassert (g_verify_frames o (frame_from_ref orig)
                        (g_into o (frame_from_ref dest)) (g_from o (frame_from_ref dest))) in
  Ok (TCurveSegment orig dest).
(** is_framed, reference_frame, point_frame: t_curve_segment.cc:94-109. *)
Definition seg_is_framed (s : tcurve_segment G T) : bool := g_is_framed o (frame_from_ref (seg_orig s)).
Definition seg_reference_frame (s : tcurve_segment G T) : frame := g_from o (frame_from_ref (seg_orig s)).
Definition seg_point_frame (s : tcurve_segment G T) : frame := g_into o (frame_from_ref (seg_orig s)).
(** point_value_accumulator: t_curve_segment.cc:121-133. *)
Definition point_value_accumulator (s : tcurve_segment G T) (coeffs : poly_coeffs) (vec : T) (point : jet_l G T) :
  outcome (jet_l G T) :=
  let* g := g_exp o (t_scale o (pc_a coeffs) vec) (Some (seg_point_frame s, seg_point_frame s)) in
  jl_mul o (JetL g (t_scale o (pc_da coeffs) vec) (t_scale o (pc_d2a coeffs) vec)) point.
(** TCurveSegment::point_at: t_curve_segment.cc:40-92. *)
Definition seg_point_at (s : tcurve_segment G T) (time_nrm : R) : outcome (jet_l G T) :=
  let* point := jl_identity o None in
  let* e := g_identity o (Some (seg_point_frame s, seg_point_frame s)) in
  let point := jl_set_frame point e in
  let* orig_inv := g_inverse o (frame_from_ref (seg_orig s)) in
  let* dest_from_orig := g_mul o (frame_from_ref (seg_dest s)) orig_inv in
  let* point := point_value_accumulator s (q_dest_from_orig time_nrm) (g_log o dest_from_orig) point in
  let* point := point_value_accumulator s (q_d_orig time_nrm) (d_frame_from_ref (seg_orig s)) point in
  let* point := point_value_accumulator s (q_d_dest time_nrm) (d_frame_from_ref (seg_dest s)) point in
  let* point := point_value_accumulator s (q_d2_orig time_nrm) (d2_frame_from_ref (seg_orig s)) point in
  let* point := point_value_accumulator s (q_d2_dest time_nrm) (d2_frame_from_ref (seg_dest s)) point in
  let* g := g_mul o (frame_from_ref point) (frame_from_ref (seg_orig s)) in
  Ok (jl_set_frame point g).

(** ** t_curve *)
(** TCurve(): t_curve.hh:49. *)
Definition tc_empty : tcurve G T := TCurve [] [].
(** reference_frame_impl, point_frame_impl: t_curve.cc:28-40, called from t_curve.cc:104-112. *)
Definition tc_reference_frame (c : tcurve G T) : outcome frame :=
  let* _ := reassert (negb (vec_empty (control_pts c))) in
  let* b := vec_back (control_pts c) in Ok (g_from o (frame_from_ref (c_point b))).
Definition tc_point_frame (c : tcurve G T) : outcome frame :=
  let* _ := reassert (negb (vec_empty (control_pts c))) in
  let* b := vec_back (control_pts c) in Ok (g_into o (frame_from_ref (c_point b))).
(** TCurve::is_framed: t_curve.cc:98-102. *)
Definition tc_is_framed (c : tcurve G T) : outcome bool :=
  let* _ := reassert (negb (vec_empty (control_pts c))) in
  let* b := vec_back (control_pts c) in Ok (g_is_framed o (frame_from_ref (c_point b))).
(** The time-normalized jets built in t_curve.cc:73-81. *)
Definition normalized (dt : R) (j : jet_l G T) : jet_l G T :=
  JetL (frame_from_ref j) (t_scale o dt (d_frame_from_ref j)) (t_scale o dt (t_scale o dt (d2_frame_from_ref j))).
(** control_pts_.push_back and segments_.push_back. *)
Definition push_control (p : control G T) (c : tcurve G T) : tcurve G T := TCurve (control_pts c ++ [p]) (segments c).
Definition push_segment (s : tsegment G T) (c : tcurve G T) : tcurve G T := TCurve (control_pts c) (segments c ++ [s]).
(** TCurve::append(Control): t_curve.cc:55-89. *)
Definition tc_append (p : control G T) : call (tcurve G T) unit :=
  do first := calc (fun c => Ok (vec_empty (control_pts c))) in
  if first then update (push_control p)
  else
    do back := calc (fun c => vec_back (control_pts c)) in
    do _ := calc (fun _ => reassert (Rltb (c_time back) (c_time p))) in
    do pf := calc tc_point_frame in
    do rf := calc tc_reference_frame in
    do _ := calc (fun _ => reassert (g_verify_frames o (frame_from_ref (c_point p)) pf rf)) in
    let dt := c_time p - c_time back in
    do seg := calc (fun _ => make_segment (normalized dt (c_point back)) (normalized dt (c_point p))) in
    do _ := update (push_segment (TSegment (c_time back) (c_time p) seg)) in
    update (push_control p).
(** TCurve::append(initializer_list): t_curve.cc:91-96. *)
Definition tc_append_list (ps : list (control G T)) : call (tcurve G T) unit := for_each tc_append ps.
(** TCurve(vector), TCurve(initializer_list): t_curve.cc:43-53. *)
Definition tc_make (ps : list (control G T)) : outcome (tcurve G T) := construct tc_empty (tc_append_list ps).
(** start_time, end_time: t_curve.cc:166-176. *)
Definition tc_start_time (c : tcurve G T) : outcome R :=
  let* _ := reassert (negb (vec_empty (control_pts c))) in
  let* b := vec_front (control_pts c) in Ok (c_time b).
Definition tc_end_time (c : tcurve G T) : outcome R :=
  let* _ := reassert (negb (vec_empty (control_pts c))) in
  let* b := vec_back (control_pts c) in Ok (c_time b).
(** std::lower_bound over the segments with the comparison of t_curve.cc:145-151, by its
    contract: undefined unless the segments with dest_time < time come first; otherwise
    the first segment without dest_time < time, or the end of the range. *)
Fixpoint lower_bound (time : R) (l : list (tsegment G T)) : outcome (option (tsegment G T)) :=
  match l with
  | [] => Ok None
  | s :: l' =>
      if Rltb (dest_time s) time then lower_bound time l'
      else if existsb (fun s' => Rltb (dest_time s') time) l' then UB else Ok (Some s)
  end.
(** Dereferencing an iterator. *)
Definition deref {A} (i : option A) : outcome A := match i with Some a => Ok a | None => UB end.
(** TCurve::point_at_impl: t_curve.cc:134-156, returning segment, inv_dt and time_nrm. *)
Definition tc_point_at_impl (c : tcurve G T) (time : R) : outcome (tsegment G T * R * R) :=
  let* _ := reassert (negb (vec_empty (segments c))) in
  let* front := vec_front (control_pts c) in
  let* back := vec_back (control_pts c) in
  let time_lo := Rltb time (c_time front) in
  let time_hi := Rltb (c_time back) time in
  let* _ := reassert (negb time_lo && negb time_hi) in
  let* it := lower_bound time (segments c) in
  let* s := deref it in
  let dt := dest_time s - orig_time s in
  let inv_dt := 1 / dt in
  Ok (s, inv_dt, inv_dt * (time - orig_time s)).
(** unnormalize_derivatives: t_curve.cc:158-164. *)
Definition unnormalize (inv_dt : R) (j : jet_l G T) : jet_l G T :=
  let j := jl_set_d j (t_scale o inv_dt (d_frame_from_ref j)) in
  jl_set_d2 j (t_scale o inv_dt (t_scale o inv_dt (d2_frame_from_ref j))).
(** TCurve::point_at: t_curve.cc:114-120. *)
Definition tc_point_at (c : tcurve G T) (time : R) : outcome (jet_l G T) :=
  let* (s, inv_dt, time_nrm) := tc_point_at_impl c time in
  let* point := seg_point_at (curve s) time_nrm in
  Ok (unnormalize inv_dt point).
End Curves.

(** ** d_curve: only instantiated for SE3 (d_curve.cc:140).  The shared pointers are
    modelled by the values they point to. *)
(** DCurve::Control: d_curve.hh:27-32. *)
Record dcontrol := DControl { arc_length : R; ref_from_control : se3 }.
(** DCurve::Segment: d_curve.hh:36-43. *)
Record dsegment := DSegment { orig_arc_length : R; dest_arc_length : R; ref_from_orig : se3; ref_from_dest : se3;
  orig_from_dest : se3 }.
(** DCurve: d_curve.hh:81-84. *)
Record dcurve := DCurve { d_control_pts : list dcontrol; d_segments : list dsegment }.
(** DCurve(): d_curve.hh:44. *)
Definition dc_empty : dcurve := DCurve [] [].
(** is_framed, point_frame, reference_frame: d_curve.cc:101-117. *)
Definition dc_is_framed (c : dcurve) : outcome bool :=
  let* _ := reassert (negb (vec_empty (d_control_pts c))) in
  let* f := vec_front (d_control_pts c) in Ok (se3_is_framed (ref_from_control f)).
Definition dc_point_frame (c : dcurve) : outcome frame :=
  let* _ := reassert (negb (vec_empty (d_control_pts c))) in
  let* f := vec_front (d_control_pts c) in Ok (se3_from (ref_from_control f)).
Definition dc_reference_frame (c : dcurve) : outcome frame :=
  let* _ := reassert (negb (vec_empty (d_control_pts c))) in
  let* f := vec_front (d_control_pts c) in Ok (se3_into (ref_from_control f)).
(** push_back on the two vectors. *)
Definition dpush_control (p : dcontrol) (c : dcurve) : dcurve := DCurve (d_control_pts c ++ [p]) (d_segments c).
Definition dpush_segment (s : dsegment) (c : dcurve) : dcurve := DCurve (d_control_pts c) (d_segments c ++ [s]).
(** DCurve::append(Group): d_curve.cc:33-67. *)
Definition dc_append (g : se3) : call dcurve unit :=
  do check := calc (fun c => if vec_empty (d_control_pts c) then Ok false else dc_is_framed c) in
  do _ := (if check then
             do rf := calc dc_reference_frame in
             do pf := calc dc_point_frame in
             calc (fun _ => reassert (g_verify_frames se3_ops g rf pf))
           else ret tt) in
  do first := calc (fun c => Ok (vec_empty (d_control_pts c))) in
  if first then update (dpush_control (DControl 0 g))
  else
    do back := calc (fun c => vec_back (d_control_pts c)) in
    do inv := calc (fun _ => se3_inverse (ref_from_control back)) in
    do orig_from_control := calc (fun _ => se3_mul inv g) in
    let segment_length := se3_arc_length orig_from_control in
    do _ := update (dpush_control (DControl (arc_length back + segment_length) g)) in
    do new_back := calc (fun c => vec_back (d_control_pts c)) in
    update (dpush_segment (DSegment (arc_length back) (arc_length new_back) (ref_from_control back)
      (ref_from_control new_back) orig_from_control)).
(** DCurve::append(initializer_list): d_curve.cc:69-74. *)
Definition dc_append_list (gs : list se3) : call dcurve unit := for_each dc_append gs.
(** DCurve(vector), DCurve(initializer_list): d_curve.cc:21-31. *)
Definition dc_make (gs : list se3) : outcome dcurve := construct dc_empty (dc_append_list gs).
(** curve_length: d_curve.cc:96-99. *)
Definition dc_length (c : dcurve) : outcome R :=
  if vec_empty (d_control_pts c) then Ok 0
  else let* b := vec_back (d_control_pts c) in Ok (arc_length b).
(** A double computed by a division: [None] stands for NaN and infinities, the results of
    dividing by zero. *)
Definition fdiv (a b : R) : option R := if Req_EM_T b 0 then None else Some (a / b).
(** point_at_impl: d_curve.cc:119-138. *)
Definition dc_point_at_impl (c : dcurve) (s : R) : outcome (option R * dsegment) :=
  let* _ := reassert (Rleb 0 s) in
  let* len := dc_length c in
  let* _ := reassert (Rleb s len) in
  match find (fun seg => Rleb s (dest_arc_length seg)) (d_segments c) with
  | None => Throw
  | Some seg =>
      Ok (fdiv (s - orig_arc_length seg) (dest_arc_length seg - orig_arc_length seg), seg)
  end.
(** point_at: d_curve.cc:76-82.  [None]: a pose with entries that are not numbers, which is
    what interp and the product compute from a fraction that is not a number. *)
Definition dc_point_at (c : dcurve) (s : R) : outcome (option se3) :=
  let* (fraction, seg) := dc_point_at_impl c s in
  match fraction with
  | None => Ok None
  | Some k =>
      let* q := se3_interp (orig_from_dest seg) k in
      let* g := se3_mul (ref_from_orig seg) q in
      Ok (Some g)
  end.
