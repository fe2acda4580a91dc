(** Errors of a segment of a time curve of poses. *)
From Coq Require Import Reals Lra Lia Psatz.
From Flocq Require Import Core BinarySingleNaN.
From Verif Require Import Cpp FloatModel FloatSpec FloatProofs NrmSpec NrmProofs Vec RotSpec ScrewSpec RotProofs CoeffProofs DiffProofs DerivProofs DriftModel DriftSpec DriftProofs SpinModel SpinSpec SpinProofs2 TwistModel TwistProofs2 TwistProofs3 TlogModel TlogProofs TlogProofs5 TlogProofs6 SlogModel SlogProofs SlogProofs2 SlogProofs5 SlogProofs6 SlogProofs7 QfModel QfSpec QfProofs FdcSpec FdcProofs2 FtsModel FtsSpec FtsProofs FtsProofs2 FtsProofs3 FtsProofs4 FpsModel FpsSpec FpsProofs FpsProofs2 FpsProofs3 FpsProofs4.
Local Open Scope R_scope.

Definition at_rest : flight := Flight (State mid vzero vzero) vzero vzero vzero.
Lemma identity_slides X K L : slides X K L 0 0 0 0 0 0 fpjet_identity at_rest.
Proof.
  assert (Z : val (of_int 0) = 0) by (apply (of_small 0); apply Z.leb_le; reflexivity). assert (ZF : finite (of_int 0)) by (apply (of_small 0); apply Z.leb_le; reflexivity).
  assert (VV : vval fvzero = vzero) by (unfold vval, fvzero, vzero; cbn [fx fy fz]; rewrite Z; reflexivity).
  assert (NZ : norm vzero = 0) by (unfold norm, norm2, dot, vzero; cbn [vx vy vz]; replace (0 * 0 + 0 * 0 + 0 * 0) with 0 by ring; apply sqrt_0).
  assert (NN : norm (vsub vzero vzero) = 0) by (replace (vsub vzero vzero) with vzero by (unfold vsub, vzero; cbn [vx vy vz]; f_equal; ring); exact NZ).
  split; [|split]; (split; [split; [repeat split; exact ZF|]|]); cbn [fpjet_identity pf pd pd2 ftrans ftrans_part ftzero at_rest place slide surge]; rewrite ?VV, ?NN, ?NZ; lra.
Qed.
Lemma upon_identity x : upon x at_rest = x.
Proof.
  destruct x as [s p l r]. unfold upon, at_rest. cbn [spin place slide surge]. rewrite on_identity. destruct s as [m v a]. cbn [rot vel acc]. f_equal; destruct p, l, r, v; vring.
Qed.
Ltac num := unfold moderate, rotated_by, summed, crossed; lra.
Section Segment.
Variables (e M B : R).
Hypothesis (E0 : 0 <= e) (M0 : 0 <= M).
Hypothesis (BL : / 2 ^ 400 <= B) (BH : B <= 2 ^ 450).
Let K := 1 + M.
Let X := K * (e + 100 * u).
Let L := K * B.
Hypothesis small : X <= / 10 ^ 5.
Lemma pose_segment_near orig dest fo fd t s f p : pose_end_near e M B fo orig -> pose_end_near e M B fd dest -> near_time t s -> fpsegment_point_at fo fd t f -> between_poses orig dest s p ->
  pjet_within (79 * X) (340 * (X * K)) (2560 * (X * (K * K))) (576 * (X * L)) (1780 * (X * (L * K))) (14600 * (X * (L * (K * K)))) f p /\
  norm (vel (spin p)) <= 97 / 10 * K /\ norm (acc (spin p)) <= 628 / 10 * (K * K) /\
  norm (place p) <= 58 / 10 * L /\ norm (slide p) <= 184 / 10 * (L * K) /\ norm (surge p) <= 153 * (L * (K * K)).
Proof.
  intros (((SO & (FO1 & DO1) & (FO2 & DO2)) & (FOp & DOp) & (FOv & DOv) & (FOa & DOa)) & NO1 & NO2 & NOp & NOv & NOa)
    (((SD & (FD1 & DD1) & (FD2 & DD2)) & (FDp & DDp) & (FDv & DDv) & (FDa & DDa)) & ND1 & ND2 & NDp & NDv & NDa) Ft
    (inv & rel & w & v & p1 & p2 & p3 & p4 & p5 & IN & ML & LG & A1 & A2 & A3 & A4 & A5 & ME & EV & EA) (w0 & v0 & x1 & x2 & x3 & x4 & x5 & (RW & NW & SC) & T1 & T2 & T3 & T4 & T5 & ->).
  cbn [jet_turns jf jd jd2] in *. rewrite <- (upon_identity x1).
  destruct (X_parts e M E0 M0) as (XE & eM & uM & Up). fold K in XE. fold X in XE. pose proof (X_units e M E0 M0 small) as U. fold K in U. fold X in U.
  destruct (unit_sizes e M B E0 M0 BL BH small) as (L1 & L2 & L3 & L4 & SL & SLK & SLKK). fold K in L1, L2, L3, L4, SL, SLK, SLKK. fold L in L1, L2, L3, L4, SL, SLK, SLKK.
  destruct (unit_facts X K U) as (EX & _). pose proof (B_pos B BL) as B0.
  destruct (relative_near e M B E0 M0 BL BH small (pf fo) (pf fd) (rot (spin orig)) (place orig) (rot (spin dest)) (place dest) inv rel w v w0 v0) as (Fw & Fv & Dw & Dv & Nv0); try assumption.
  { split; [split; [exact SO|split; [exact FOp|exact DOp]]|exact NOp]. }
  { split; [split; [exact SD|split; [exact FDp|exact DDp]]|exact NDp]. }
  destruct A1 as (m1 & M1 & J1). destruct A2 as (m2 & M2 & J2). destruct A3 as (m3 & M3 & J3). destruct A4 as (m4 & M4 & J4). destruct A5 as (m5 & M5 & J5).
  pose proof (motion_near e M E0 M0 small t s w w0 (frot m1) (spin x1) Ft Fw NW Dw (proj1 M1) (proj1 T1)) as I1. fold K in I1. fold X in I1.
  pose proof (derivative_near e M E0 M0 small WVelocityOrig t s _ _ (frot m2) (spin x2) ltac:(discriminate) Ft FO1 NO1 DO1 (proj1 M2) (proj1 T2)) as I2. fold K in I2. fold X in I2.
  pose proof (derivative_near e M E0 M0 small WVelocityDest t s _ _ (frot m3) (spin x3) ltac:(discriminate) Ft FD1 ND1 DD1 (proj1 M3) (proj1 T3)) as I3. fold K in I3. fold X in I3.
  pose proof (derivative_near e M E0 M0 small WAccelerationOrig t s _ _ (frot m4) (spin x4) ltac:(discriminate) Ft FO2 NO2 DO2 (proj1 M4) (proj1 T4)) as I4. fold K in I4. fold X in I4.
  pose proof (derivative_near e M E0 M0 small WAccelerationDest t s _ _ (frot m5) (spin x5) ltac:(discriminate) Ft FD2 ND2 DD2 (proj1 M5) (proj1 T5)) as I5. fold K in I5. fold X in I5.
  pose proof (motion_slides e M B E0 M0 BL BH small t s w v w0 v0 m1 x1 Ft Fw Fv NW Dw Dv Nv0 M1 T1) as G1. fold K in G1. fold X in G1. fold L in G1.
  pose proof (derivative_slides e M B E0 M0 BL BH small WVelocityOrig t s _ _ _ _ m2 x2 ltac:(discriminate) Ft FO1 FOv NO1 DO1 DOv NOv M2 T2) as G2. fold K in G2. fold X in G2. fold L in G2.
  pose proof (derivative_slides e M B E0 M0 BL BH small WVelocityDest t s _ _ _ _ m3 x3 ltac:(discriminate) Ft FD1 FDv ND1 DD1 DDv NDv M3 T3) as G3. fold K in G3. fold X in G3. fold L in G3.
  pose proof (derivative_slides e M B E0 M0 BL BH small WAccelerationOrig t s _ _ _ _ m4 x4 ltac:(discriminate) Ft FO2 FOa NO2 DO2 DOa NOa M4 T4) as G4. fold K in G4. fold X in G4. fold L in G4.
  pose proof (derivative_slides e M B E0 M0 BL BH small WAccelerationDest t s _ _ _ _ m5 x5 ltac:(discriminate) Ft FD2 FDa ND2 DD2 DDa NDa M5 T5) as G5. fold K in G5. fold X in G5. fold L in G5.
  pose proof (identity_near e M : jet_near X K 0 0 0 0 0 (jet_turns fpjet_identity) (spin at_rest)) as Q0. pose proof (identity_slides X K L) as W0.
  replace (FT (frot_part (pd fo)) (ftrans_part (pd fo))) with (pd fo) in G2 by (destruct (pd fo); reflexivity). replace (FT (frot_part (pd fd)) (ftrans_part (pd fd))) with (pd fd) in G3 by (destruct (pd fd); reflexivity).
  replace (FT (frot_part (pd2 fo)) (ftrans_part (pd2 fo))) with (pd2 fo) in G4 by (destruct (pd2 fo); reflexivity). replace (FT (frot_part (pd2 fd)) (ftrans_part (pd2 fd))) with (pd2 fd) in G5 by (destruct (pd2 fd); reflexivity).
  assert (W1 : slides X K L 244 (15 / 4) 304 (703 / 100) 970 (113 / 5) p1 (upon x1 at_rest)).
  { eapply (slides_le X K L U SL SLK SLKK); [| | | | | |eapply (slides_mul X K L U SL SLK SLKK 44 58 (57 / 10) 185 18 243 (187 / 50) 303 (351 / 50) 968 (45 / 2) 0 0 0 0 0 0 0 0 0 0 0 (101 / 100000) (101 / 100000) (101 / 100000) (101 / 100000) (101 / 100000) (479 / 100000) (581 / 100000) (53 / 1250) (479 / 100000) (581 / 100000) 969 (81 / 10000) (171 / 5000)); [..| | | | |exact J1]; [..|exact I1|exact G1|exact Q0|exact W0]; num]; num. }
  pose proof (jet_mul_near X K 44 58 (57 / 10) 185 18 0 0 0 0 0 _ _ _ _ _ U ltac:(lra) ltac:(unfold some_units; lra) ltac:(unfold some_units; lra) ltac:(unfold some_units; lra) ltac:(unfold some_units; lra) ltac:(lra) ltac:(unfold some_units; lra) ltac:(unfold some_units; lra) ltac:(unfold some_units; lra) ltac:(unfold some_units; lra) I1 Q0 (turns_mul _ _ _ J1)) as Q1.
  cbv zeta in Q1. assert (Q1' : jet_near X K (221 / 5) 59 (57 / 10) 186 18 (jet_turns p1) (spin (upon x1 at_rest))) by (eapply jet_near_le; [exact U|..|exact Q1]; lra). clear Q1. rename Q1' into Q1.
  set (y1 := upon x1 at_rest) in *.
  assert (W2 : slides X K L 304 (401 / 100) 563 (473 / 50) 2610 (453 / 10) p2 (upon x2 y1)).
  { eapply (slides_le X K L U SL SLK SLKK); [| | | | | |eapply (slides_mul X K L U SL SLK SLKK 8 (107 / 10) 1 (243 / 10) 4 (283 / 10) (1 / 4) (107 / 10) 1 (243 / 10) 4 (221 / 5) 59 (57 / 10) 186 18 244 (15 / 4) 304 (703 / 100) 970 (113 / 5) 106 332 275 362 1160 188 551 812 593 1760 1790 168 643); [..| | | | |exact J2]; [..|exact I2|exact G2|exact Q1|exact W1]; num]; num. }
  pose proof (jet_mul_near X K 8 (107 / 10) 1 (243 / 10) 4 (221 / 5) 59 (57 / 10) 186 18 _ _ _ _ _ U ltac:(lra) ltac:(unfold some_units; lra) ltac:(unfold some_units; lra) ltac:(unfold some_units; lra) ltac:(unfold some_units; lra) ltac:(lra) ltac:(unfold some_units; lra) ltac:(unfold some_units; lra) ltac:(unfold some_units; lra) ltac:(unfold some_units; lra) I2 Q1 (turns_mul _ _ _ J2)) as Q2.
  cbv zeta in Q2. assert (Q2' : jet_near X K (262 / 5) 117 (67 / 10) 524 (277 / 10) (jet_turns p2) (spin (upon x2 y1))) by (eapply jet_near_le; [exact U|..|exact Q2]; lra). clear Q2. rename Q2' into Q2.
  set (y2 := upon x2 y1) in *.
  assert (W3 : slides X K L 366 (427 / 100) 886 (61 / 5) 5250 (741 / 10) p3 (upon x3 y2)).
  { eapply (slides_le X K L U SL SLK SLKK); [| | | | | |eapply (slides_mul X K L U SL SLK SLKK 8 (107 / 10) 1 (243 / 10) 4 (283 / 10) (1 / 4) (107 / 10) 1 (243 / 10) 4 (262 / 5) 117 (67 / 10) 524 (277 / 10) 304 (401 / 100) 563 (473 / 50) 2610 (453 / 10) 172 749 337 640 2980 233 874 1250 973 3960 3990 245 995); [..| | | | |exact J3]; [..|exact I3|exact G3|exact Q2|exact W2]; num]; num. }
  pose proof (jet_mul_near X K 8 (107 / 10) 1 (243 / 10) 4 (262 / 5) 117 (67 / 10) 524 (277 / 10) _ _ _ _ _ U ltac:(lra) ltac:(unfold some_units; lra) ltac:(unfold some_units; lra) ltac:(unfold some_units; lra) ltac:(unfold some_units; lra) ltac:(lra) ltac:(unfold some_units; lra) ltac:(unfold some_units; lra) ltac:(unfold some_units; lra) ltac:(unfold some_units; lra) I3 Q2 (turns_mul _ _ _ J3)) as Q3.
  cbv zeta in Q3. assert (Q3' : jet_near X K (303 / 5) 183 (77 / 10) 1022 (192 / 5) (jet_turns p3) (spin (upon x3 y2))) by (eapply jet_near_le; [exact U|..|exact Q3]; lra). clear Q3. rename Q3' into Q3.
  set (y3 := upon x3 y2) in *.
  assert (W4 : slides X K L 430 (453 / 100) 1290 (76 / 5) 9110 110 p4 (upon x4 y3)).
  { eapply (slides_le X K L U SL SLK SLKK); [| | | | | |eapply (slides_mul X K L U SL SLK SLKK 8 (107 / 10) 1 (243 / 10) 4 (283 / 10) (1 / 4) (107 / 10) 1 (243 / 10) 4 (303 / 5) 183 (77 / 10) 1022 (192 / 5) 366 (427 / 100) 886 (61 / 5) 5250 (741 / 10) 246 1340 401 986 5860 280 1270 1770 1430 7300 7330 329 1430); [..| | | | |exact J4]; [..|exact I4|exact G4|exact Q3|exact W3]; num]; num. }
  pose proof (jet_mul_near X K 8 (107 / 10) 1 (243 / 10) 4 (303 / 5) 183 (77 / 10) 1022 (192 / 5) _ _ _ _ _ U ltac:(lra) ltac:(unfold some_units; lra) ltac:(unfold some_units; lra) ltac:(unfold some_units; lra) ltac:(unfold some_units; lra) ltac:(lra) ltac:(unfold some_units; lra) ltac:(unfold some_units; lra) ltac:(unfold some_units; lra) ltac:(unfold some_units; lra) I4 Q3 (turns_mul _ _ _ J4)) as Q4.
  cbv zeta in Q4. assert (Q4' : jet_near X K (344 / 5) 257 (87 / 10) 1696 (501 / 10) (jet_turns p4) (spin (upon x4 y3))) by (eapply jet_near_le; [exact U|..|exact Q4]; lra). clear Q4. rename Q4' into Q4.
  set (y4 := upon x4 y3) in *.
  assert (W5 : slides X K L 496 (479 / 100) 1780 (92 / 5) 14600 153 p5 (upon x5 y4)).
  { eapply (slides_le X K L U SL SLK SLKK); [| | | | | |eapply (slides_mul X K L U SL SLK SLKK 8 (107 / 10) 1 (243 / 10) 4 (283 / 10) (1 / 4) (107 / 10) 1 (243 / 10) 4 (344 / 5) 257 (87 / 10) 1696 (501 / 10) 430 (453 / 100) 1290 (76 / 5) 9110 110 328 2110 467 1420 10100 329 1760 2380 1950 12100 12200 422 1950); [..| | | | |exact J5]; [..|exact I5|exact G5|exact Q4|exact W4]; num]; num. }
  pose proof (jet_mul_near X K 8 (107 / 10) 1 (243 / 10) 4 (344 / 5) 257 (87 / 10) 1696 (501 / 10) _ _ _ _ _ U ltac:(lra) ltac:(unfold some_units; lra) ltac:(unfold some_units; lra) ltac:(unfold some_units; lra) ltac:(unfold some_units; lra) ltac:(lra) ltac:(unfold some_units; lra) ltac:(unfold some_units; lra) ltac:(unfold some_units; lra) ltac:(unfold some_units; lra) I5 Q4 (turns_mul _ _ _ J5)) as Q5.
  cbv zeta in Q5. assert (Q5' : jet_near X K 77 340 (97 / 10) 2560 (314 / 5) (jet_turns p5) (spin (upon x5 y4))) by (eapply jet_near_le; [exact U|..|exact Q5]; lra). clear Q5. rename Q5' into Q5.
  set (y5 := upon x5 y4) in *.
  destruct Q5 as ((S5 & V5 & C5) & NV & NC). destruct W5 as (P5 & (Vs & NVs) & (As & NAs)). cbv zeta. cbn [vel acc rot spin place slide surge].
  assert (nO : near_v X L 1 1 (ftrans (pf fo)) (place orig)).
  { split; [split; [exact FOp|]|lra]. assert (e * B <= X * L) by (apply Rmult_le_compat; lra). lra. }
  destruct ME as (MR & wr & WR & ET). pose proof (near_rotated X L 77 1 1 (frot (pf p5)) _ _ _ wr EX SL ltac:(lra) ltac:(num) ltac:(num) S5 nO WR) as R5.
  assert (R6 : near_v X L (783 / 10) 1 wr (mvec (rot (spin y5)) (place orig))) by (eapply near_v_le; [exact EX|exact SL| | |exact R5]; lra). pose proof (near_sum X L (783 / 10) 1 496 (479 / 100) _ _ _ _ EX SL ltac:(num) ltac:(num) ltac:(num) ltac:(num) R6 P5) as S6.
  assert (S7 : near_v X L 576 (58 / 10) (fvadd wr (ftrans (pf p5))) (vadd (mvec (rot (spin y5)) (place orig)) (place y5))) by (eapply near_v_le; [exact EX|exact SL| | |exact S6]; lra). destruct S7 as [PP NP].
  split; [|split; [exact NV|]; split; [lra|]; split; [exact NP|]; split; [lra|exact NAs]].
  split; [|split; [|split]]; cbn [spin place slide surge].
  - split; [|split; cbn [jet_turns jd jd2 vel acc]; [rewrite EV; exact V5|rewrite EA; exact C5]]. cbn [rot jet_turns jf].
    destruct (product_near _ _ _ _ _ _ (frot (pf f)) S5 SO ltac:(lra) ltac:(lra) MR) as (Ff & Rf & Df). split; [exact Ff|]. split; [exact Rf|]. cbn [fst snd] in *.
    assert (X * e <= X * / 10 ^ 5) by (apply Rmult_le_compat_l; lra). lra.
  - rewrite ET. exact PP.
  - rewrite EV. exact Vs.
  - rewrite EA. exact As.
Qed.
End Segment.
