(** Model of resim/curves/quintic_poly_coeffs.{hh,cc} in double precision. *)
From Flocq Require Import Core BinarySingleNaN.
From Verif Require Import Cpp FloatModel.
Open Scope Z_scope.

(** The literals k/2 in the tables: quintic_poly_coeffs.hh:69-73, 81-83. *)
Definition halves (k : Z) : f64 := @binary_normalize 53 1024 prec_pos prec_emax mode_NE k (-1) false.
(** DEST_ORIG, D_ORIG, D_DEST, D2_ORIG, D2_DEST: quintic_poly_coeffs.hh:69-73. *)
Definition fDEST_ORIG : list f64 := [of_int 0; of_int 0; of_int 10; of_int (-15); of_int 6].
Definition fD_ORIG : list f64 := [of_int 1; of_int 0; of_int (-6); of_int 8; of_int (-3)].
Definition fD_DEST : list f64 := [of_int 0; of_int 0; of_int (-4); of_int 7; of_int (-3)].
Definition fD2_ORIG : list f64 := [of_int 0; halves 1; halves (-3); halves 3; halves (-1)].
Definition fD2_DEST : list f64 := [of_int 0; of_int 0; halves 1; of_int (-1); halves 1].
(** A, DA, D2A: quintic_poly_coeffs.hh:81-83. *)
Definition fA : list f64 := [of_int 1; of_int 1; of_int 1; of_int 1; of_int 1].
Definition fDA : list f64 := [of_int 1; of_int 2; of_int 3; of_int 4; of_int 5].
Definition fD2A : list f64 := [of_int 0; of_int 2; of_int 6; of_int 12; of_int 20].
(** std::array::at; the indices used, at quintic_poly_coeffs.cc:34, 43 and 45, are all in
    range. *)
Definition f_at (l : list f64) (i : nat) : f64 := nth i l (of_int 0).
(** The loop body: quintic_poly_coeffs.cc:34. *)
Definition f_horner (time_nrm : f64) (d_mult coeffs : list f64) (coeff : f64) (i : nat) : f64 :=
  fmul time_nrm (fadd (fmul (f_at d_mult i) (f_at coeffs i)) coeff).
(** two_jet_single_coeff: quintic_poly_coeffs.cc:27-37; i = 4, ..., smallest_index. *)
Definition f_single_coeff (d_mult coeffs : list f64) (time_nrm : f64) (smallest_index : nat) : f64 :=
  fold_left (f_horner time_nrm d_mult coeffs) (rev (seq smallest_index (5 - smallest_index))) (of_int 0).
(** TwoJetPolyCoeffs: quintic_poly_coeffs.hh:19-23. *)
Record f_poly_coeffs := FPoly { f_a : f64; f_da : f64; f_d2a : f64 }.
(** two_jet_coeffs: quintic_poly_coeffs.cc:39-48. *)
Definition f_two_jet_coeffs (coeffs : list f64) (time_nrm : f64) : f_poly_coeffs :=
  FPoly (f_single_coeff fA coeffs time_nrm 0)
        (fadd (fmul (f_at fDA 0) (f_at coeffs 0)) (f_single_coeff fDA coeffs time_nrm 1))
        (fadd (fmul (f_at fD2A 1) (f_at coeffs 1)) (f_single_coeff fD2A coeffs time_nrm 2)).
(** dest_from_orig, d_orig, d_dest, d2_orig, d2_dest: quintic_poly_coeffs.cc:11-25. *)
Definition f_dest_from_orig (t : f64) : f_poly_coeffs := f_two_jet_coeffs fDEST_ORIG t.
Definition f_d_orig (t : f64) : f_poly_coeffs := f_two_jet_coeffs fD_ORIG t.
Definition f_d_dest (t : f64) : f_poly_coeffs := f_two_jet_coeffs fD_DEST t.
Definition f_d2_orig (t : f64) : f_poly_coeffs := f_two_jet_coeffs fD2_ORIG t.
Definition f_d2_dest (t : f64) : f_poly_coeffs := f_two_jet_coeffs fD2_DEST t.
