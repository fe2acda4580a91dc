(** Distance curves in double precision, from the stored control points to the stored answer: C72. *)
From Coq Require Import Reals Psatz ZArith List.
From Flocq Require Import Core BinarySingleNaN.
From Verif Require Import Cpp FloatModel FloatSpec NrmSpec FloatProofs NrmProofs Vec RotSpec ScrewSpec DriftModel DriftSpec DriftProofs DriftProofs2 SpinModel SpinSpec TlogProofs6 LenSpec LenProofs FdcModel FdcSpec FdcProofs5.
Import ListNotations.
Local Open Scope R_scope.

(** A distance curve can be made of all stored poses.  Made of control points that stand, with
    the relative error [e], for poses no farther than [B] from the origin along a curve of
    [n] screw motions, its curve_length is the length [L] of that curve within
    2 n ((161 e + 4570 u) B + u L), where [u] is half a unit in the last place. *)
Theorem c72_length : forall gs, (exists c, fdc_make gs c) /\
  forall e B x l c L, e <= / 5000 -> / 2 ^ 400 <= B <= 2 ^ 480 -> along e B gs x l -> whole_length l L -> fdc_make gs c ->
  finite (fdc_length c) /\ Rabs (val (fdc_length c) - L) <= 2 * INR (length l) * ((161 * e + 4570 * u) * B + u * L).
Proof. exact (fun gs => conj (some_make gs) (fun e B x l c L => along_length e B gs x l c L)). Qed.
Print Assumptions c72_length.
Example c72_length_case : exists g c, along (/ 10 ^ 12) 6 [origin; g] (mid, vzero) [(V3 1 2 2, V3 4 (-3) 0)] /\ whole_length [(V3 1 2 2, V3 4 (-3) 0)] 5 /\ fdc_make [origin; g] c /\
  / 10 ^ 12 <= / 5000 /\ / 2 ^ 400 <= 6 <= 2 ^ 480.
Proof.
  destruct curve_case as (g & A & W & _). destruct (some_make [origin; g]) as [c M]. exists g, c. split; [exact A|]. split; [exact W|]. split; [exact M|]. split; [lra|exact six_range].
Qed.

(** point_at answers with a pose of that curve, at an arc length off by no more than
    n ((326 e + 9300 u) B + 8 u L), the rotation within 45 e + 600 u and the translation within
    (260 e + 10000 u) B, except perhaps at arc length zero of a curve that starts with a
    motion too short to be told from none. *)
Theorem c72_point_at : forall e B gs x l c L, e <= / 5000 -> / 2 ^ 400 <= B <= 2 ^ 480 -> along e B gs x l -> whole_length l L -> fdc_make gs c ->
  forall a p, fdc_point_at c a p -> val a <> 0 \/ (exists w v l' len, l = (w, v) :: l' /\ path_length (screw w v) len /\ (161 * e + 4570 * u) * B < len) ->
  exists b y, on_curve x l b y /\ Rabs (b - val a) <= INR (length l) * ((326 * e + 9300 * u) * B + 8 * u * L) /\
    pose_within (45 * e + 600 * u) ((260 * e + 10000 * u) * B) p y.
Proof. exact along_point. Qed.
Print Assumptions c72_point_at.
Example c72_point_at_case : exists g c p, along (/ 10 ^ 12) 6 [origin; g] (mid, vzero) [(V3 1 2 2, V3 4 (-3) 0)] /\ fdc_make [origin; g] c /\ finite (of_int 2) /\ val (of_int 2) = 2 /\ fdc_point_at c (of_int 2) p /\
  path_length (screw (V3 1 2 2) (V3 4 (-3) 0)) 5 /\ (161 * / 10 ^ 12 + 4570 * u) * 6 < 5.
Proof.
  destruct curve_case as (g & A & W & P). destruct (some_make [origin; g]) as [c M]. destruct (FloatProofs.of_small 2) as [F V]; [apply Z.leb_le; reflexivity|].
  assert (E : exists p, fdc_point_at c (of_int 2) p).
  { apply (along_answers (/ 10 ^ 12) _ _ _ _ c ltac:(lra) six_range A ltac:(discriminate) M (of_int 2) F). rewrite V.
    destruct (along_length (/ 10 ^ 12) _ _ _ _ c _ ltac:(lra) six_range A W M) as [_ D]. apply Rabs_le_inv in D. cbn [length INR] in D. rewrite u_num in D. lra. }
  destruct E as [p Q]. exists g, c, p. split; [exact A|]. split; [exact M|]. split; [exact F|]. split; [exact V|]. split; [exact Q|]. split; [exact P|]. rewrite u_num. lra.
Qed.

(** It answers from zero to curve_length, both included, *)
Theorem c72_defined : forall e B gs x l c, e <= / 5000 -> / 2 ^ 400 <= B <= 2 ^ 480 -> along e B gs x l -> l <> [] -> fdc_make gs c ->
  forall a, finite a -> 0 <= val a <= val (fdc_length c) -> exists p, fdc_point_at c a p.
Proof. exact along_answers. Qed.
Print Assumptions c72_defined.
(** and nowhere else, nor on a curve of one point. *)
Theorem c72_refused : forall e B gs x l c, e <= / 5000 -> / 2 ^ 400 <= B <= 2 ^ 480 -> along e B gs x l -> fdc_make gs c ->
  forall a p, not_a_number a \/ place a < 0 \/ val (fdc_length c) < place a \/ l = [] -> ~ fdc_point_at c a p.
Proof. exact along_refuses. Qed.
Print Assumptions c72_refused.
Example c72_refused_case : exists g c, along (/ 10 ^ 12) 6 [origin; g] (mid, vzero) [(V3 1 2 2, V3 4 (-3) 0)] /\ fdc_make [origin; g] c /\ 0 < val (fdc_length c) < place (of_int 6).
Proof.
  destruct curve_case as (g & A & W & P). destruct (some_make [origin; g]) as [c M]. exists g, c. split; [exact A|]. split; [exact M|]. destruct (FloatProofs.of_small 6) as [F V]; [apply Z.leb_le; reflexivity|]. rewrite (place_finite _ F), V.
  destruct (along_length (/ 10 ^ 12) _ _ _ _ c _ ltac:(lra) six_range A W M) as [_ D]. apply Rabs_le_inv in D. cbn [length INR] in D. rewrite u_num in D. lra.
Qed.

(** At arc length zero the answer need not be a pose, let alone the first control point:
    between two control points at the origin it is not a number. *)
Theorem c72_start_refuted : exists g, exactly (frot g) /\ mval (frot g) = mid /\ vfinite (ftrans g) /\ vval (ftrans g) = vzero /\
  (exists c p, fdc_make [g; g] c /\ fdc_point_at c (of_int 0) p) /\
  forall c p, fdc_make [g; g] c -> fdc_point_at c (of_int 0) p -> not_a_number (fx (ftrans p)).
Proof. exact (ex_intro _ origin (match origin_is with conj a (conj b (conj c d)) => conj a (conj b (conj c (conj d (conj start_found start_lost)))) end)). Qed.
Print Assumptions c72_start_refuted.
