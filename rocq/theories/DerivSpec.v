(** Derivatives of curves of vectors and matrices, component by component, in terms
    of the standard library's [derivable_pt_lim]. *)
From Verif Require Export Vec.

Definition dV (p : R -> vec3) (t : R) (p' : vec3) : Prop :=
  derivable_pt_lim (fun s => vx (p s)) t (vx p') /\
  derivable_pt_lim (fun s => vy (p s)) t (vy p') /\
  derivable_pt_lim (fun s => vz (p s)) t (vz p').

Definition dM (m : R -> mat3) (t : R) (m' : mat3) : Prop :=
  (derivable_pt_lim (fun s => m00 (m s)) t (m00 m') /\
   derivable_pt_lim (fun s => m01 (m s)) t (m01 m') /\
   derivable_pt_lim (fun s => m02 (m s)) t (m02 m')) /\
  (derivable_pt_lim (fun s => m10 (m s)) t (m10 m') /\
   derivable_pt_lim (fun s => m11 (m s)) t (m11 m') /\
   derivable_pt_lim (fun s => m12 (m s)) t (m12 m')) /\
  (derivable_pt_lim (fun s => m20 (m s)) t (m20 m') /\
   derivable_pt_lim (fun s => m21 (m s)) t (m21 m') /\
   derivable_pt_lim (fun s => m22 (m s)) t (m22 m')).
