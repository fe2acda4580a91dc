(** Proofs about SO3::quaternion in double precision: the four ways to find it. *)
From Coq Require Import Psatz.
From Flocq Require Import Core BinarySingleNaN.
From Verif Require Import Cpp FloatModel FloatSpec FloatProofs NrmSpec NrmProofs Vec RotSpec RotProofs CoeffProofs DriftModel DriftSpec DriftProofs DriftProofs2 SpinModel SpinSpec SpinProofs SpinProofs2 TlogModel TlogSpec TlogProofs TlogProofs2.
Local Open Scope R_scope.

Lemma some_quaternion r : is_rotation r -> exists w x y z, w * w + (x * x + y * y + z * z) = 1 /\ quaternion_matrix w (V3 x y z) = r.
Proof.
  intro H. destruct (matrix_quat_spec r H) as [U M]. destruct (GeomModel.matrix_quat r) as [w x y z]. exists w, x, y, z. unfold quat_unit in U. cbn [GeomModel.qw GeomModel.qx GeomModel.qy GeomModel.qz] in U.
  split; [lra|]. rewrite <- M, quaternion_explicit. unfold GeomModel.quat_matrix. cbn [GeomModel.qw GeomModel.qx GeomModel.qy GeomModel.qz]. f_equal; ring.
Qed.
Lemma quaternion_sign w x y z : quaternion_matrix (- w) (V3 (- x) (- y) (- z)) = quaternion_matrix w (V3 x y z).
Proof. rewrite !quaternion_explicit. f_equal; ring. Qed.
Definition quat_of (r : mat3) (w x y z : R) : Prop := w * w + (x * x + y * y + z * z) = 1 /\ quaternion_matrix w (V3 x y z) = r.
Lemma quat_of_neg r w x y z : quat_of r w x y z -> quat_of r (- w) (- x) (- y) (- z).
Proof. intros [N M]. split; [lra|]. rewrite quaternion_sign. exact M. Qed.
Lemma pick_w r : is_rotation r -> exists w x y z, quat_of r w x y z /\ 0 <= w.
Proof. intro H. destruct (some_quaternion r H) as (w & x & y & z & Q). destruct (Rle_or_lt 0 w); [exists w, x, y, z|exists (- w), (- x), (- y), (- z)]; (split; [first [exact Q|apply quat_of_neg, Q]|lra]). Qed.
Lemma pick_x r : is_rotation r -> exists w x y z, quat_of r w x y z /\ 0 <= x.
Proof. intro H. destruct (some_quaternion r H) as (w & x & y & z & Q). destruct (Rle_or_lt 0 x); [exists w, x, y, z|exists (- w), (- x), (- y), (- z)]; (split; [first [exact Q|apply quat_of_neg, Q]|lra]). Qed.
Lemma pick_y r : is_rotation r -> exists w x y z, quat_of r w x y z /\ 0 <= y.
Proof. intro H. destruct (some_quaternion r H) as (w & x & y & z & Q). destruct (Rle_or_lt 0 y); [exists w, x, y, z|exists (- w), (- x), (- y), (- z)]; (split; [first [exact Q|apply quat_of_neg, Q]|lra]). Qed.
Lemma pick_z r : is_rotation r -> exists w x y z, quat_of r w x y z /\ 0 <= z.
Proof. intro H. destruct (some_quaternion r H) as (w & x & y & z & Q). destruct (Rle_or_lt 0 z); [exists w, x, y, z|exists (- w), (- x), (- y), (- z)]; (split; [first [exact Q|apply quat_of_neg, Q]|lra]). Qed.
Lemma unit_products w x y z : w * w + (x * x + y * y + z * z) = 1 ->
  (Rabs w <= 1 /\ Rabs x <= 1 /\ Rabs y <= 1 /\ Rabs z <= 1) /\
  (Rabs (4 * (w * x)) <= 2 /\ Rabs (4 * (w * y)) <= 2 /\ Rabs (4 * (w * z)) <= 2) /\ (Rabs (4 * (x * y)) <= 2 /\ Rabs (4 * (x * z)) <= 2 /\ Rabs (4 * (y * z)) <= 2).
Proof.
  intro N. assert (G : forall a b, a * a + b * b <= 1 -> Rabs (4 * (a * b)) <= 2). { intros a b H. pose proof (Rle_0_sqr (a + b)). pose proof (Rle_0_sqr (a - b)). unfold Rsqr in *. apply Rabs_le. lra. }
  assert (G1 : forall a, a * a <= 1 -> Rabs a <= 1). { intros a H. apply Rabs_le. nra. }
  pose proof (Rle_0_sqr w). pose proof (Rle_0_sqr x). pose proof (Rle_0_sqr y). pose proof (Rle_0_sqr z). unfold Rsqr in *.
  repeat split; first [apply G1; lra|apply G; lra].
Qed.
Lemma qoff_le q w x y z a b c d e : 0 <= e -> ap (qfw q) w a -> ap (qfx q) x b -> ap (qfy q) y c -> ap (qfz q) z d ->
  a * a + b * b + c * c + d * d <= e * e -> qfinite q /\ qoff q w (V3 x y z) <= e.
Proof.
  intros P [F0 A] [F1 B] [F2 C] [F3 D] S. split; [repeat split; assumption|]. unfold qoff. cbn [vx vy vz]. rewrite <- (sqrt_square e) by exact P. apply sqrt_le_1_alt.
  assert (G : forall p q, Rabs p <= q -> p ^ 2 <= q * q). { intros p k H. rewrite <- (pow2_abs p). replace (k * k) with (k ^ 2) by ring. apply pow_incr. split; [apply Rabs_pos|exact H]. }
  apply G in A, B, C, D. lra.
Qed.
Lemma stands_for_quat q r w x y z a b c d e : quat_of r w x y z -> 0 <= e -> ap (qfw q) w a -> ap (qfx q) x b -> ap (qfy q) y c -> ap (qfz q) z d ->
  a * a + b * b + c * c + d * d <= e * e -> stands_for_quaternion e q r.
Proof.
  intros [N M] P A B C D S. destruct (qoff_le q w x y z a b c d e P A B C D S) as [F O]. split; [exact F|]. exists w, (V3 x y z). split; [unfold dot; cbn [vx vy vz]; lra|]. split; [exact M|exact O].
Qed.
Lemma apart_entries m r e w x y z : quat_of r w x y z -> apart (mval m) r <= e ->
  (val (f00 m) - (1 - 2 * (y * y + z * z))) ^ 2 + (val (f01 m) - 2 * (x * y - w * z)) ^ 2 + (val (f02 m) - 2 * (x * z + w * y)) ^ 2 +
  (val (f10 m) - 2 * (x * y + w * z)) ^ 2 + (val (f11 m) - (1 - 2 * (x * x + z * z))) ^ 2 + (val (f12 m) - 2 * (y * z - w * x)) ^ 2 +
  (val (f20 m) - 2 * (x * z - w * y)) ^ 2 + (val (f21 m) - 2 * (y * z + w * x)) ^ 2 + (val (f22 m) - (1 - 2 * (x * x + y * y))) ^ 2 <= e ^ 2.
Proof. intros [_ M] D. rewrite <- M in D. exact (near_sq m e w x y z D). Qed.
Lemma abs_by p q e : p ^ 2 + q ^ 2 <= e ^ 2 -> 0 <= e -> Rabs (p + q) <= 142 / 100 * e /\ Rabs (p - q) <= 142 / 100 * e.
Proof.
  intros H P. split.
  - rewrite <- (sqrt_Rsqr_abs (p + q)). rewrite <- (sqrt_square (142 / 100 * e)) by lra. apply sqrt_le_1_alt. unfold Rsqr. pose proof (pow2_ge_0 (p - q)). nra.
  - rewrite <- (sqrt_Rsqr_abs (p - q)). rewrite <- (sqrt_square (142 / 100 * e)) by lra. apply sqrt_le_1_alt. unfold Rsqr. pose proof (pow2_ge_0 (p + q)). nra.
Qed.
Lemma abs_by3 p q t e : p ^ 2 + q ^ 2 + t ^ 2 <= e ^ 2 -> 0 <= e -> Rabs (p + q + t) <= 174 / 100 * e /\ Rabs (p - q - t) <= 174 / 100 * e.
Proof.
  intros H P. split.
  - rewrite <- (sqrt_Rsqr_abs (p + q + t)). rewrite <- (sqrt_square (174 / 100 * e)) by lra. apply sqrt_le_1_alt. unfold Rsqr. pose proof (pow2_ge_0 (p - q)). pose proof (pow2_ge_0 (p - t)). pose proof (pow2_ge_0 (q - t)). nra.
  - rewrite <- (sqrt_Rsqr_abs (p - q - t)). rewrite <- (sqrt_square (174 / 100 * e)) by lra. apply sqrt_le_1_alt. unfold Rsqr. pose proof (pow2_ge_0 (p + q)). pose proof (pow2_ge_0 (p + t)). pose proof (pow2_ge_0 (q - t)). nra.
Qed.
Lemma abs_one p e : p ^ 2 <= e ^ 2 -> 0 <= e -> Rabs p <= e.
Proof. intros H P. rewrite <- (sqrt_Rsqr_abs p). rewrite <- (sqrt_square e) by lra. apply sqrt_le_1_alt. unfold Rsqr. nra. Qed.
Lemma unit_entries r : is_rotation r -> forall w x y z, quat_of r w x y z ->
  Rabs (1 - 2 * (y * y + z * z)) <= 1 /\ Rabs (1 - 2 * (x * x + z * z)) <= 1 /\ Rabs (1 - 2 * (x * x + y * y)) <= 1.
Proof.
  intros _ w x y z [N _]. pose proof (Rle_0_sqr w). pose proof (Rle_0_sqr x). pose proof (Rle_0_sqr y). pose proof (Rle_0_sqr z). unfold Rsqr in *. repeat split; apply Rabs_le; lra.
Qed.
Lemma near_one a p e : finite a -> Rabs (val a - p) <= e -> Rabs p <= 1 -> e <= / 2000 -> about1 a.
Proof. intros F D P E. split; [exact F|]. replace (val a) with (p + (val a - p)) by ring. eapply Rle_trans; [apply Rabs_triang|]. lra. Qed.
Ltac squares9 S := repeat match type of S with context [?t ^ 2] => lazymatch goal with | _ : 0 <= t ^ 2 |- _ => fail | _ => pose proof (pow2_ge_0 t) end end.
Section Reading.
  Variables (m : fmat) (r : mat3) (e : R).
  Hypothesis F : mfinite m.
  Hypothesis R : is_rotation r.
  Hypothesis D : apart (mval m) r <= e.
  Hypothesis E : e <= / 2000.
  Lemma e_pos : 0 <= e. Proof. eapply Rle_trans; [apply apart_pos|exact D]. Qed.
  Lemma entries_near w x y z : quat_of r w x y z ->
    let a00 := 1 - 2 * (y * y + z * z) in let a11 := 1 - 2 * (x * x + z * z) in let a22 := 1 - 2 * (x * x + y * y) in
    (about1 (f00 m) /\ about1 (f11 m) /\ about1 (f22 m)) /\
    (Rabs ((val (f00 m) - a00) + (val (f11 m) - a11) + (val (f22 m) - a22)) <= 174 / 100 * e /\
     Rabs ((val (f00 m) - a00) - (val (f11 m) - a11) - (val (f22 m) - a22)) <= 174 / 100 * e /\
     Rabs ((val (f11 m) - a11) - (val (f22 m) - a22) - (val (f00 m) - a00)) <= 174 / 100 * e /\
     Rabs ((val (f22 m) - a22) - (val (f00 m) - a00) - (val (f11 m) - a11)) <= 174 / 100 * e) /\
    (Rabs (val (f00 m) - a00) <= e /\ Rabs (val (f11 m) - a11) <= e /\ Rabs (val (f22 m) - a22) <= e) /\
    (ap (fsub (f21 m) (f12 m)) (4 * (w * x)) (142 / 100 * e + 3 * u) /\ ap (fsub (f02 m) (f20 m)) (4 * (w * y)) (142 / 100 * e + 3 * u) /\ ap (fsub (f10 m) (f01 m)) (4 * (w * z)) (142 / 100 * e + 3 * u)) /\
    (ap (fadd (f10 m) (f01 m)) (4 * (x * y)) (142 / 100 * e + 3 * u) /\ ap (fadd (f01 m) (f10 m)) (4 * (x * y)) (142 / 100 * e + 3 * u)) /\
    (ap (fadd (f20 m) (f02 m)) (4 * (x * z)) (142 / 100 * e + 3 * u) /\ ap (fadd (f02 m) (f20 m)) (4 * (x * z)) (142 / 100 * e + 3 * u)) /\
    (ap (fadd (f21 m) (f12 m)) (4 * (y * z)) (142 / 100 * e + 3 * u) /\ ap (fadd (f12 m) (f21 m)) (4 * (y * z)) (142 / 100 * e + 3 * u)).
  Proof.
    intros Q a00 a11 a22. pose proof (apart_entries m r e w x y z Q D) as S. fold a00 a11 a22 in S. pose proof e_pos as P. destruct (unit_entries r R w x y z Q) as (B0 & B1 & B2). fold a00 in B0. fold a11 in B1. fold a22 in B2.
    destruct (unit_products w x y z (proj1 Q)) as (_ & (Pwx & Pwy & Pwz) & (Pxy & Pxz & Pyz)).
    destruct F as (F00 & F01 & F02 & F10 & F11 & F12 & F20 & F21 & F22). pose proof u_pos.
    squares9 S.
    assert (T0 : Rabs (val (f00 m) - a00) <= e) by (apply abs_one; lra). assert (T1 : Rabs (val (f11 m) - a11) <= e) by (apply abs_one; lra). assert (T2 : Rabs (val (f22 m) - a22) <= e) by (apply abs_one; lra).
    assert (G : e <= / 2000) by exact E.
    split; [split; [eapply near_one; eassumption|split; eapply near_one; eassumption]|].
    split; [split; [apply abs_by3; lra|split; [apply abs_by3; lra|split; apply abs_by3; lra]]|]. split; [auto|].
    split; [split; [|split]|split; [split|split; split]];
      match goal with
      | |- ap (fsub ?a ?b) _ _ => match type of S with context [(val a - ?p) ^ 2] => match type of S with context [(val b - ?q) ^ 2] => apply (sub_pair a b p q) end end
      | |- ap (fadd ?a ?b) _ _ => match type of S with context [(val a - ?p) ^ 2] => match type of S with context [(val b - ?q) ^ 2] => apply (add_pair a b p q) end end
      end; try assumption; try (apply abs_by; lra); try ring; lra.
  Qed.
  Lemma quaternion_read q : fmatrix_quat m q -> stands_for_quaternion (3 * e + 22 * u) q r.
  Proof.
    intros (t & T & ->). pose proof e_pos as P. pose proof u_pos as Up. assert (Us : 1000 * u <= / 1000) by (rewrite u_num; lra).
    assert (Tr : finite t /\ forall w x y z, quat_of r w x y z -> Rabs (val t) <= 31 / 10 /\ Rabs (val t - (4 * (w * w) - 1)) <= 174 / 100 * e + 51 / 10 * u).
    { destruct (pick_w r R) as (w & x & y & z & Q & _). destruct (entries_near w x y z Q) as ((A0 & A1 & A2) & _). destruct (trace_near _ _ _ t A0 A1 A2 T) as (Ft & V & B). split; [exact Ft|].
      clear w x y z Q. intros w x y z Q. destruct (entries_near w x y z Q) as (_ & (S3 & _) & _). split; [exact B|]. destruct Q as [N _].
      match type of S3 with Rabs ?s <= _ => replace (val t - (4 * (w * w) - 1)) with ((val t - (val (f00 m) + val (f11 m) + val (f22 m))) + s) by (replace (w * w) with (1 - (x * x + y * y + z * z)) by lra; ring) end.
      eapply Rle_trans; [apply Rabs_triang|]. lra. }
    destruct Tr as [Ft Tr].
    assert (Sq : forall k, 0 <= k -> (45 / 100 * e + 56 / 10 * u) * (45 / 100 * e + 56 / 10 * u) + 3 * ((17 / 10 * e + 122 / 10 * u) * (17 / 10 * e + 122 / 10 * u)) <= (3 * e + 22 * u) * (3 * e + 22 * u)).
    { intros _ _. assert (0 <= e * u) by nra. nra. }
    specialize (Sq 0 (Rle_refl 0)).
    destruct (flt (of_int 0) t) eqn:L.
    - apply flt_val in L; [|apply of_int_0|exact Ft]. rewrite (proj2 of_int_0) in L.
      destruct (pick_w r R) as (w & x & y & z & Q & W). destruct (entries_near w x y z Q) as (_ & _ & _ & (Ax & Ay & Az) & _). destruct (Tr w x y z Q) as [Bt Dt].
      destruct (unit_products w x y z (proj1 Q)) as ((Bw & Bx & By & Bz) & (Pwx & Pwy & Pwz) & _).
      destruct (plus_one t _ Ft Bt) as [F1 V1]; [lra|].
      assert (A : ap (fadd t (of_int 1)) (4 * (w * w)) (174 / 100 * e + 10 * u)).
      { split; [exact F1|]. replace (val (fadd t (of_int 1)) - 4 * (w * w)) with ((val (fadd t (of_int 1)) - (val t + 1)) + (val t - (4 * (w * w) - 1))) by ring. eapply Rle_trans; [apply Rabs_triang|]. lra. }
      assert (W4 : 99 / 100 <= 4 * (w * w)) by (apply Rabs_le_inv in Dt; lra). assert (W0 : 0 < w) by nra. apply Rabs_le_inv in Bw.
      cbn [fpivot]. eapply stands_for_quat; [exact Q|lra| | | | |]; cbn [qfw qfx qfy qfz].
      + eapply pivot_first; try eassumption; lra.
      + eapply pivot_other; try eassumption; lra.
      + eapply pivot_other; try eassumption; lra.
      + eapply pivot_other; try eassumption; lra.
      + lra.
    - assert (L0 : val t <= 0). { destruct (Rle_or_lt (val t) 0) as [|C]; [assumption|]. exfalso. rewrite <- (proj2 of_int_0) in C. apply flt_val in C; [congruence|apply of_int_0|exact Ft]. }
      assert (Cmp : forall a b, finite a -> finite b -> if flt a b then val a < val b else val b <= val a).
      { intros a b Fa Fb. destruct (flt a b) eqn:H; [apply flt_val; assumption|]. destruct (Rle_or_lt (val b) (val a)) as [|C]; [assumption|]. apply flt_val in C; [congruence|assumption|assumption]. }
      destruct F as (F00 & _ & _ & _ & F11 & _ & _ & _ & F22). pose proof (Cmp _ _ F00 F11) as C01. pose proof (Cmp (if flt (f00 m) (f11 m) then f11 m else f00 m) (f22 m) ltac:(destruct (flt (f00 m) (f11 m)); assumption) F22) as C2. cbv zeta.
      destruct (flt (if flt (f00 m) (f11 m) then f11 m else f00 m) (f22 m)); [|destruct (flt (f00 m) (f11 m))].
      + assert (M : val (f00 m) <= val (f22 m) /\ val (f11 m) <= val (f22 m)) by (destruct (flt (f00 m) (f11 m)); lra).
        destruct (pick_z r R) as (w & x & y & z & Q & Z). destruct (entries_near w x y z Q) as ((A0 & A1 & A2) & (_ & _ & _ & S3) & (T0 & T1 & T2) & (_ & _ & Awz) & _ & (_ & Axz) & (_ & Ayz)). destruct (Tr w x y z Q) as [_ Dt].
        destruct (unit_products w x y z (proj1 Q)) as ((Bw & Bx & By & Bz) & (_ & _ & Pwz) & (_ & Pxz & Pyz)).
        destruct (diagonal_pivot (f22 m) (f00 m) (f11 m) A2 A0 A1) as [F1 V1].
        assert (A : ap (fadd (fsub (fsub (f22 m) (f00 m)) (f11 m)) (of_int 1)) (4 * (z * z)) (174 / 100 * e + 10 * u)).
        { split; [exact F1|]. match type of V1 with Rabs ?v <= _ => match type of S3 with Rabs ?s <= _ => match goal with |- Rabs ?g <= _ => replace g with (v + s) by ring end end end. eapply Rle_trans; [apply Rabs_triang|]. lra. }
        pose proof (proj1 Q) as N. assert (W4 : 99 / 100 <= 4 * (z * z)) by (apply Rabs_le_inv in Dt, T0, T1, T2; lra). assert (W0 : 0 < z) by nra. apply Rabs_le_inv in Bz.
        rewrite (Rmult_comm w z) in *. rewrite (Rmult_comm x z) in *. rewrite (Rmult_comm y z) in *.
        cbn [fpivot]. eapply stands_for_quat; [exact Q|lra| | | | |]; cbn [qfw qfx qfy qfz]; [eapply pivot_other; try eassumption; lra..|eapply pivot_first; try eassumption; lra|lra].
      + assert (M : val (f00 m) <= val (f11 m) /\ val (f22 m) <= val (f11 m)) by lra.
        destruct (pick_y r R) as (w & x & y & z & Q & Y). destruct (entries_near w x y z Q) as ((A0 & A1 & A2) & (_ & _ & S3 & _) & (T0 & T1 & T2) & (_ & Awy & _) & (_ & Axy) & _ & (Ayz & _)). destruct (Tr w x y z Q) as [_ Dt].
        destruct (unit_products w x y z (proj1 Q)) as ((Bw & Bx & By & Bz) & (_ & Pwy & _) & (Pxy & _ & Pyz)).
        destruct (diagonal_pivot (f11 m) (f22 m) (f00 m) A1 A2 A0) as [F1 V1].
        assert (A : ap (fadd (fsub (fsub (f11 m) (f22 m)) (f00 m)) (of_int 1)) (4 * (y * y)) (174 / 100 * e + 10 * u)).
        { split; [exact F1|]. match type of V1 with Rabs ?v <= _ => match type of S3 with Rabs ?s <= _ => match goal with |- Rabs ?g <= _ => replace g with (v + s) by ring end end end. eapply Rle_trans; [apply Rabs_triang|]. lra. }
        pose proof (proj1 Q) as N. assert (W4 : 99 / 100 <= 4 * (y * y)) by (apply Rabs_le_inv in Dt, T0, T1, T2; lra). assert (W0 : 0 < y) by nra. apply Rabs_le_inv in By.
        rewrite (Rmult_comm w y) in *. rewrite (Rmult_comm x y) in *.
        cbn [fpivot]. eapply stands_for_quat; [exact Q|lra| | | | |]; cbn [qfw qfx qfy qfz]; [eapply pivot_other; try eassumption; lra|eapply pivot_other; try eassumption; lra|eapply pivot_first; try eassumption; lra|eapply pivot_other; try eassumption; lra|lra].
      + assert (M : val (f11 m) <= val (f00 m) /\ val (f22 m) <= val (f00 m)) by lra.
        destruct (pick_x r R) as (w & x & y & z & Q & X). destruct (entries_near w x y z Q) as ((A0 & A1 & A2) & (_ & S3 & _) & (T0 & T1 & T2) & (Awx & _) & (Axy & _) & (Axz & _) & _). destruct (Tr w x y z Q) as [_ Dt].
        destruct (unit_products w x y z (proj1 Q)) as ((Bw & Bx & By & Bz) & (Pwx & _ & _) & (Pxy & Pxz & _)).
        destruct (diagonal_pivot (f00 m) (f11 m) (f22 m) A0 A1 A2) as [F1 V1].
        assert (A : ap (fadd (fsub (fsub (f00 m) (f11 m)) (f22 m)) (of_int 1)) (4 * (x * x)) (174 / 100 * e + 10 * u)).
        { split; [exact F1|]. match type of V1 with Rabs ?v <= _ => match type of S3 with Rabs ?s <= _ => match goal with |- Rabs ?g <= _ => replace g with (v + s) by ring end end end. eapply Rle_trans; [apply Rabs_triang|]. lra. }
        pose proof (proj1 Q) as N. assert (W4 : 99 / 100 <= 4 * (x * x)) by (apply Rabs_le_inv in Dt, T0, T1, T2; lra). assert (W0 : 0 < x) by nra. apply Rabs_le_inv in Bx.
        rewrite (Rmult_comm w x) in *.
        cbn [fpivot]. eapply stands_for_quat; [exact Q|lra| | | | |]; cbn [qfw qfx qfy qfz]; [eapply pivot_other; try eassumption; lra|eapply pivot_first; try eassumption; lra|eapply pivot_other; try eassumption; lra|eapply pivot_other; try eassumption; lra|lra].
  Qed.
End Reading.
