(** Model of the double-precision parts of resim/time: as_seconds and as_duration of
    timestamp.hh, and the double overloads of sample_interval.cc.

    double is IEEE binary64 with round to nearest, ties to even, as Flocq defines it; every
    operation is rounded by itself (cpu k8 has no fused multiply-add; .bazelrc:3).  NaN
    payloads are not modelled. *)
From Flocq Require Import Core BinarySingleNaN.
From Verif Require Import Cpp TimeModel.
Open Scope Z_scope.

(** double *)
Definition f64 : Type := binary_float 53 1024.
Definition prec_pos : Prec_gt_0 53 := eq_refl.
Definition prec_emax : Prec_lt_emax 53 1024 := eq_refl.
(** The operators + - * / of doubles. *)
Definition fadd : f64 -> f64 -> f64 := @Bplus 53 1024 prec_pos prec_emax mode_NE.
Definition fsub : f64 -> f64 -> f64 := @Bminus 53 1024 prec_pos prec_emax mode_NE.
Definition fmul : f64 -> f64 -> f64 := @Bmult 53 1024 prec_pos prec_emax mode_NE.
Definition fdivide : f64 -> f64 -> f64 := @Bdiv 53 1024 prec_pos prec_emax mode_NE.
(** std::fabs, std::ceil. *)
Definition fabs : f64 -> f64 := @Babs 53 1024.
Definition fceil : f64 -> f64 := @Bnearbyint 53 1024 prec_emax mode_UP.
(** The operators == and <. *)
Definition feq : f64 -> f64 -> bool := @Beqb 53 1024.
Definition flt : f64 -> f64 -> bool := @Bltb 53 1024.
(** static_cast<double> of an integer. *)
Definition of_int (z : Z) : f64 := @binary_normalize 53 1024 prec_pos prec_emax mode_NE z 0 false.
(** static_cast to a signed integer type with the values from [lo] to [hi]: towards zero,
    undefined if the result does not fit or there is none ([conv.fpint]/1). *)
Definition to_int (lo hi : Z) (x : f64) : outcome Z :=
  if is_finite x then
    let z := @Btrunc 53 1024 x in
    if ((lo <=? z) && (z <=? hi))%bool then Ok z else UB
  else UB.
(** int *)
Definition INT_MIN : Z := - 2 ^ 31.
Definition INT_MAX : Z := 2 ^ 31 - 1.

(** as_seconds: resim/time/timestamp.hh:25-27.  The conversion of the count to
    duration<double> divides by std::nano::den as doubles ([time.duration.cast]/3). *)
Definition as_seconds (duration : Z) : f64 := fdivide (of_int duration) (of_int NANO).
(** as_duration: resim/time/timestamp.hh:30-33.  duration_cast multiplies by
    std::nano::den as doubles and converts the product to int64_t. *)
Definition as_duration (t_s : f64) : outcome Z := to_int INT64_MIN INT64_MAX (fmul t_s (of_int NANO)).

(** num_samples on doubles: resim/time/sample_interval.cc:16-33.  The + 1 is an addition of
    ints. *)
Definition fnum_samples (start_time end_time max_abs_dt : f64) : outcome Z :=
  let* _ := reassert (flt (of_int 0) max_abs_dt) in
  let total_time := fabs (fsub end_time start_time) in
  let* n := to_int INT_MIN INT_MAX (fceil (fdivide total_time max_abs_dt)) in
  if ((INT_MIN <=? n + 1) && (n + 1 <=? INT_MAX))%bool then Ok (n + 1) else UB.
(** The argument of the call of func in round [ii]: resim/time/sample_interval.cc:46-48. *)
Definition fsample (start_time end_time : f64) (num_steps ii : Z) : f64 :=
  let fraction := fdivide (of_int ii) (of_int (num_steps - 1)) in
  fadd (fmul (fsub (of_int 1) fraction) start_time) (fmul fraction end_time).
(** sample_interval on doubles: resim/time/sample_interval.cc:35-50.  Returns what func was
    called with, in order.  Simplification: func does not throw. *)
Definition fsample_interval (start_time end_time max_abs_dt : f64) : outcome (list f64) :=
  if feq start_time end_time then Ok [start_time]
  else
    let* num_steps := fnum_samples start_time end_time max_abs_dt in
    Ok (map (fun ii => fsample start_time end_time num_steps (Z.of_nat ii)) (seq 0 (Z.to_nat num_steps))).
