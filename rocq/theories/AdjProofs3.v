(** The adjoint of rotations in double precision. *)
From Coq Require Import Reals Lra Lia List.
From Flocq Require Import Core BinarySingleNaN.
From Verif Require Import Cpp FloatModel FloatSpec FloatProofs NrmSpec NrmProofs Vec RotSpec GeomModel RotProofs CoeffProofs LieProofs SymProofs DriftModel DriftSpec DriftProofs SpinModel SpinSpec SpinProofs SpinProofs2 SpinProofs3 TwistModel TwistProofs2 TlogModel TlogSpec TlogProofs TlogProofs5 TlogProofs6 SlogProofs5 FtsProofs FtsProofs5 FpsModel FmjModel FstModel FapModel FapSpec FapProofs FapProofs2 FapProofs3 FapProofs4 AdjModel AdjSpec AdjProofs AdjProofs2.
Import ListNotations.
Local Open Scope R_scope.

Lemma turned_near m r e v w : stands_for e (m, r) -> e <= 1 / 9 -> vfinite v -> norm (vval v) <= 4 -> fmvec m v w -> vfinite w /\ norm (vsub (vval w) (mvec r (vval v))) <= (e + 7 * u) * 4.
Proof.
  intros (F & R & A) E FV N M. cbn [fst snd] in *. destruct (rotated m r e v w F R A E FV) as [FW D]; [apply Rle_trans with (2 ^ 2); [lra|apply Rle_pow; [lra|lia]]|exact M|]. split; [exact FW|].
  pose proof h_tiny. pose proof u_pos. pose proof (norm_nonneg (vval v)) as P. pose proof (apart_pos (mval m) r) as Q. eapply Rle_trans; [exact D|]. assert ((e + 6 * u) * norm (vval v) <= (e + 6 * u) * 4) by (apply Rmult_le_compat_l; lra). lra.
Qed.
Lemma by_adjoint a b r q e c : stands_for e (a, r) -> stands_for e (b, q) -> e <= 8 / 10 ^ 14 -> so3_by_adjoint a b c -> c = true.
Proof.
  intros A B E (ref & v & moved & ex & prod & M & L & V & X & P & C). pose proof (stands_nonneg _ _ A) as E0. pose proof u_num as U. pose proof u_pos as UP. pose proof PI_4 as PI4. pose proof big_490 as B490.
  assert (E1 : e <= 8 / 100000000000000) by lra.
  pose proof (product_near a r e b q e ref A B ltac:(lra) ltac:(lra) M) as S1.
  destruct (log_near b q e v B ltac:(lra) L) as (FV & NV & (p & PV & AP)).
  assert (NV4 : norm (vval v) <= 4 ). { pose proof TlogProofs4.PI_bounds as PU. rewrite U in NV. lra. }
  destruct (turned_near a r e v moved A ltac:(lra) FV NV4 V) as [FM DM].
  pose proof A as (_ & R & _). cbn [snd] in R. pose proof B as (_ & Q & _). cbn [snd] in Q.
  assert (NM : norm (vval moved) <= 41 / 10). { pose proof (norm_near (vval moved) (mvec r (vval v))) as T. rewrite rot_norm in T by exact R. rewrite U in DM. lra. }
  pose proof (mexp_by (vval moved)) as X0. pose proof (exp_near moved _ ex FM ltac:(lra) X0 X) as S2.
  pose proof (mexp_by (mvec r (vval v))) as X1. pose proof (exp_lipschitz _ _ _ _ X0 X1) as D1.
  assert (PE : p = mexp (vval v)) by (apply (rotation_by_only (vval v)); [exact PV|apply mexp_by]).
  assert (D2 : apart (mexp (mvec r (vval v))) (mmul (mmul r q) (mtrans r)) <= 85 / 10 * e + 101 * u).
  { rewrite <- mexp_conj by exact R. rewrite <- PE. unfold apart. replace (madd (mmul (mmul r p) (mtrans r)) (mscale (-1) (mmul (mmul r q) (mtrans r)))) with (mmul (mmul r (madd p (mscale (-1) q))) (mtrans r)) by (destruct r, p, q; vring).
    rewrite size_rot_r by (apply rot_mtrans, R). rewrite size_rot_l by exact R. exact AP. }
  assert (R' : is_rotation (mmul (mmul r q) (mtrans r))) by (apply rot_mmul; [apply rot_mmul; assumption|apply rot_mtrans, R]).
  assert (S3 : stands_for (15 * e + 240 * u) (ex, mmul (mmul r q) (mtrans r))).
  { destruct S2 as (FX & _ & AX). cbn [fst snd] in *. split; [exact FX|]. split; [exact R'|]. cbn [fst snd].
    pose proof (apart_triangle (mval ex) (mexp (vval moved)) (mmul (mmul r q) (mtrans r))) as T1. pose proof (apart_triangle (mexp (vval moved)) (mexp (mvec r (vval v))) (mmul (mmul r q) (mtrans r))) as T2.
    assert ((51 + 4 * norm (vval moved)) * u <= 68 * u) by (apply Rmult_le_compat_r; lra). lra. }
  pose proof (product_near ex _ _ a r e prod S3 A ltac:(rewrite U; lra) ltac:(lra) P) as S4.
  assert (G : mmul (mmul (mmul r q) (mtrans r)) r = mmul r q) by (rewrite <- mmul_assoc, rot_mtrans_l, mmul_1_r by exact R; reflexivity). rewrite G in S4.
  assert (SM : forall x y, 0 <= x <= / 100 -> 0 <= y -> 0 <= x * y <= / 100 * y) by (intros x y Hx Hy; split; [apply Rmult_le_pos; lra|apply Rmult_le_compat_r; lra]).
  pose proof (SM e e ltac:(lra) E0) as K1. pose proof (SM (15 * e + 240 * u) e ltac:(rewrite U; lra) E0) as K2.
  destruct (rot_compare _ _ ref prod _ _ c S1 S4) as [Y _]; [rewrite U; rewrite U in K2; lra|exact C|]. apply Y. rewrite apart_self, tolerance_num. rewrite U in K2 |- *. lra.
Qed.
Lemma some_by_adjoint a b : exists c, so3_by_adjoint a b c.
Proof.
  destruct (some_mmul a b) as [ref M], (some_log b) as [v L]. destruct (some_fmvec a v) as [moved V]. destruct (some_exp moved) as [ex X]. destruct (some_mmul ex a) as [p P].
  destruct (approx_some (fcoefs ref) (fcoefs p)) as [c C]. exists c, ref, v, moved, ex, p. exact (conj M (conj L (conj V (conj X (conj P C))))) .
Qed.
Lemma noop v c : vfinite v -> 1 / 5 <= norm (vval v) <= 3 -> so3_noop v c -> c = true.
Proof.
  intros F N (m & w & n & X & L & M & C). pose proof u_num as U. pose proof big_490. pose proof u_pos.
  destruct (log_exp v m w F (proj2 N) X L) as [FW E]. pose proof (mexp_by (vval v)) as X0. pose proof (exp_near v _ m F ltac:(lra) X0 X) as S.
  assert (S' : stands_for (63 * u) (m, mexp (vval v))) by (eapply stands_weaker; [exact S|apply Rmult_le_compat_r; lra]).
  pose proof (near_norms _ _ _ E) as NW. destruct (turned_near m _ _ w n S' ltac:(rewrite U; lra) FW ltac:(rewrite U in NW; lra) M) as [FN DN].
  assert (FX : mvec (mexp (vval v)) (vval v) = vval v). { pose proof (mexp_axis 1 (vval v)) as Q. replace (vscale 1 (vval v)) with (vval v) in Q by (destruct (vval v); vring). exact Q. }
  assert (D : norm (vsub (vval v) (vval n)) <= 1450 * u).
  { rewrite norm_vsub_sym. pose proof (norm_triangle_sub (vval n) (mvec (mexp (vval v)) (vval w)) (vval v)) as T. rewrite <- FX in T at 4. rewrite <- mvec_sub, rot_norm in T by apply mexp_rot. lra. }
  pose proof D as D'. rewrite norm_vsub_sym in D'. pose proof (near_norms _ _ _ D') as NN.
  destruct (vec_decides v n c F FN) as [Y _]; [lra|rewrite U in NN; lra|exact C|].
  assert (K : 199 / 1000 <= Rmin (norm (vval v)) (norm (vval n))) by (apply Rmin_glb; rewrite U in NN; lra). set (k := Rmin _ _) in *.
  apply Y; [|rewrite U, tolerance_num in *; lra]. apply Rle_trans with (199 / 1000); [|exact K]. apply Rle_trans with (/ 2 ^ 10); [|lra]. apply Rinv_le_contravar; [apply pow_lt; lra|apply Rle_pow; [lra|apply Nat.leb_le; reflexivity]].
Qed.
Lemma some_noop v : exists c, so3_noop v c.
Proof.
  destruct (some_exp v) as [m X]. destruct (some_log m) as [w L]. destruct (some_fmvec m w) as [n M]. destruct (approx_some (fcoords v) (fcoords n)) as [c C]. exists c, m, w, n. exact (conj X (conj L (conj M C))).
Qed.
