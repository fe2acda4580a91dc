(** Errors of composing two-jets of poses, in units. *)
From Coq Require Import Reals Lra Lia Psatz.
From Flocq Require Import Core BinarySingleNaN.
From Verif Require Import Cpp FloatModel FloatSpec NrmSpec NrmProofs Vec RotSpec ScrewSpec CoeffProofs DriftModel DriftSpec DriftProofs SpinModel SpinSpec TwistModel TwistProofs2 TlogModel FtsModel FtsSpec FtsProofs FtsProofs2 FpsModel FpsSpec FpsProofs.
Local Open Scope R_scope.

(** Translations are measured in units of [L]. *)
Definition slides (X K L d0 s0 d1 s1 d2 s2 : R) (j : fpjet) (x : flight) : Prop :=
  near_v X L d0 s0 (ftrans (pf j)) (place x) /\ near_v X (L * K) d1 s1 (ftrans_part (pd j)) (slide x) /\ near_v X (L * (K * K)) d2 s2 (ftrans_part (pd2 j)) (surge x).
Lemma turns_mul a b c : fpjet_mul a b c -> fjet_mul (jet_turns a) (jet_turns b) (jet_turns c).
Proof.
  intros ((M & _) & (w & (ra & wa & RA & _ & ->) & E1) & (w2 & w1 & (rb & wb & RB & _ & ->) & (rc & wc & RC & _ & ->) & E2)). unfold jet_turns, fjet_mul. cbn [jf jd jd2].
  split; [exact M|]. split; [exists ra; split; [exact RA|]; rewrite E1; reflexivity|]. exists rb, rc. split; [exact RB|]. split; [exact RC|]. rewrite E2. reflexivity.
Qed.
Definition rotated_by a p b := (a + / 10) * (p + b / 10 ^ 5) + b + / 10 ^ 3.
Definition summed b p b' p' := b + b' + (p + p' + (b + b') / 10 ^ 5) / 100.
Definition crossed b p b' p' := b * (p' + b' / 10 ^ 5) + p * b' + 35 / 1000 * ((p + b / 10 ^ 5) * (p' + b' / 10 ^ 5)) + / 10 ^ 3.
Lemma near_unit_eq X n n' b p v w : n = n' -> near_v X n b p v w -> near_v X n' b p v w.
Proof. intros ->. exact (fun H => H). Qed.
Section Product.
Variables X K L : R.
Hypothesis U : units X K.
Hypothesis (SL : size_unit L) (SLK : size_unit (L * K)) (SLKK : size_unit (L * (K * K))).
Lemma unit_facts : error_unit X /\ size_unit K /\ size_unit (K * K).
Proof.
  destruct (units_big X K U) as (K9 & X0 & Xu & _). destruct U as (K1 & _ & X5). assert (KK : 1 * 1 <= K * K) by (apply Rmult_le_compat; lra). assert (KK9 : K * K <= 10 ^ 9 * 10 ^ 9) by (apply Rmult_le_compat; lra).
  assert (P : / 2 ^ 400 <= 1) by (apply Rle_trans with (/ 1); [apply Rinv_le_contravar; [lra|apply pow_R1_Rle; lra]|lra]). assert (Q : 10 ^ 18 <= 2 ^ 700) by (apply Rle_trans with (2 ^ 70); [lra|apply Rle_pow; [lra|lia]]).
  repeat split; lra.
Qed.
(** The numbers are upper bounds of what the steps give. *)
Lemma slides_mul a0 b0 p0 c0 q0 d0 s0 d1 s1 d2 s2 a b p c q e0 t0 e1 t1 e2 t2 g1 g2 h0 h1 h2 k1 l1 m1 k2 l2 m2 n2 r2 ja xa jb xb jc :
  0 <= a0 <= 100 -> moderate b0 -> moderate p0 -> moderate d0 -> moderate s0 -> moderate d1 -> moderate s1 -> moderate d2 -> moderate s2 ->
  moderate b -> moderate p -> moderate c -> moderate q -> moderate e0 -> moderate t0 -> moderate e1 -> moderate t1 -> moderate e2 -> moderate t2 ->
  rotated_by a0 p b <= g1 -> rotated_by a0 q c <= g2 -> rotated_by a0 t0 e0 <= h0 -> rotated_by a0 t1 e1 <= h1 -> rotated_by a0 t2 e2 <= h2 ->
  crossed d0 s0 g1 p <= k1 -> summed k1 (s0 * p) h1 t1 <= l1 -> crossed d0 s0 g2 q <= k2 -> summed k2 (s0 * q) h2 t2 <= l2 -> summed d2 s2 l2 (s0 * q + t2) <= m2 ->
  crossed d1 s1 g1 p <= n2 -> crossed b0 p0 l1 (s0 * p + t1) <= r2 -> summed n2 (s1 * p) r2 (p0 * (s0 * p + t1)) <= m1 ->
  moderate g1 -> moderate g2 -> moderate h0 -> moderate h1 -> moderate h2 -> moderate k1 -> moderate l1 -> moderate k2 -> moderate l2 -> moderate m2 -> moderate n2 -> moderate r2 -> moderate m1 ->
  moderate (s0 * p) -> moderate (s0 * q) -> moderate (s0 * p + t1) -> moderate (s0 * q + t2) -> moderate (s1 * p) -> moderate (p0 * (s0 * p + t1)) -> moderate (s2 + (s0 * q + t2)) -> moderate (s1 * p + p0 * (s0 * p + t1)) ->
  jet_near X K a0 b0 p0 c0 q0 (jet_turns ja) (spin xa) -> slides X K L d0 s0 d1 s1 d2 s2 ja xa ->
  jet_near X K a b p c q (jet_turns jb) (spin xb) -> slides X K L e0 t0 e1 t1 e2 t2 jb xb -> fpjet_mul ja jb jc ->
  slides X K L (summed h0 t0 d0 s0) (t0 + s0) (summed d1 s1 l1 (s0 * p + t1)) (s1 + (s0 * p + t1))
    (summed m2 (s2 + (s0 * q + t2)) m1 (s1 * p + p0 * (s0 * p + t1))) (s2 + (s0 * q + t2) + (s1 * p + p0 * (s0 * p + t1))) jc (upon xa xb).
Proof.
  intros A0 B0 P0 D0 S0 D1 S1 D2 S2 B P C Q E0 T0 E1 T1 E2 T2 G1 G2 H0 H1 H2 K1 L1 K2 L2 M2 N2 R2 M1 OG1 OG2 OH0 OH1 OH2 OK1 OL1 OK2 OL2 OM2 ON2 OR2 OM1 Z1 Z2 Z3 Z4 Z5 Z6 Z7 Z8
    ((SA & VA & CA) & NVA & NCA) (PA & LA & RA) ((SB & VB & CB) & NVB & NCB) (PB & LB & RB) ((MM & w0 & W0 & E) & (wv & (rv & sv & RV & SV & ->) & EV) & (w2 & w1 & (r2' & s2' & RC & SC & ->) & (r1' & s1' & RD & SD & ->) & EC)).
  destruct unit_facts as (EX & SK & SKK). cbn [jet_turns jf jd jd2] in *. cbn [frot_part ftrans_part ftadd flie_bracket] in *.
  assert (vb : near_v X K b p (frot_part (pd jb)) (vel (spin xb))) by (split; [exact VB|exact NVB]). assert (cb : near_v X (K * K) c q (frot_part (pd2 jb)) (acc (spin xb))) by (split; [exact CB|exact NCB]).
  assert (va : near_v X K b0 p0 (frot_part (pd ja)) (vel (spin xa))) by (split; [exact VA|exact NVA]).
  pose proof (near_v_le _ _ _ _ _ _ _ _ EX SK G1 (Rle_refl p) (near_rotated X K a0 b p _ _ _ _ rv EX SK A0 B P SA vb RV)) as rv'.
  pose proof (near_v_le _ _ _ _ _ _ _ _ EX SK G1 (Rle_refl p) (near_rotated X K a0 b p _ _ _ _ r1' EX SK A0 B P SA vb RD)) as rd'.
  pose proof (near_v_le _ _ _ _ _ _ _ _ EX SKK G2 (Rle_refl q) (near_rotated X (K * K) a0 c q _ _ _ _ r2' EX SKK A0 C Q SA cb RC)) as rc'.
  pose proof (near_v_le _ _ _ _ _ _ _ _ EX SL H0 (Rle_refl t0) (near_rotated X L a0 e0 t0 _ _ _ _ w0 EX SL A0 E0 T0 SA PB W0)) as w0'.
  pose proof (near_v_le _ _ _ _ _ _ _ _ EX SLK H1 (Rle_refl t1) (near_rotated X (L * K) a0 e1 t1 _ _ _ _ sv EX SLK A0 E1 T1 SA LB SV)) as sv'.
  pose proof (near_v_le _ _ _ _ _ _ _ _ EX SLK H1 (Rle_refl t1) (near_rotated X (L * K) a0 e1 t1 _ _ _ _ s1' EX SLK A0 E1 T1 SA LB SD)) as sd'.
  pose proof (near_v_le _ _ _ _ _ _ _ _ EX SLKK H2 (Rle_refl t2) (near_rotated X (L * (K * K)) a0 e2 t2 _ _ _ _ s2' EX SLKK A0 E2 T2 SA RB SC)) as sc'.
  assert (passing : forall r s, near_v X K g1 p r (mvec (rot (spin xa)) (vel (spin xb))) -> near_v X (L * K) h1 t1 s (mvec (rot (spin xa)) (slide xb)) ->
    near_v X (L * K) l1 (s0 * p + t1) (fvadd (fcross (ftrans (pf ja)) r) s) (vadd (cross (place xa) (mvec (rot (spin xa)) (vel (spin xb)))) (mvec (rot (spin xa)) (slide xb)))).
  { intros r s R S. pose proof (near_v_le _ _ _ _ _ _ _ _ EX SLK K1 (Rle_refl (s0 * p)) (near_cross X L K d0 s0 g1 p _ _ _ _ EX SL SK SLK D0 S0 OG1 P PA R)) as c1.
    apply (near_v_le X (L * K) (summed k1 (s0 * p) h1 t1) (s0 * p + t1) l1 (s0 * p + t1) _ _ EX SLK L1 (Rle_refl _)). exact (near_sum X (L * K) k1 (s0 * p) h1 t1 _ _ _ _ EX SLK OK1 Z1 OH1 T1 c1 S). }
  pose proof (passing _ _ rv' sv') as pv. pose proof (passing _ _ rd' sd') as pd'.
  split; [|split].
  - cbn [upon place]. rewrite E. exact (near_sum X L h0 t0 d0 s0 _ _ _ _ EX SL OH0 T0 D0 S0 w0' PA).
  - cbn [upon slide]. rewrite EV. cbn [ftadd ftrans_part]. exact (near_sum X (L * K) d1 s1 l1 (s0 * p + t1) _ _ _ _ EX SLK D1 S1 OL1 Z3 LA pv).
  - cbn [upon surge]. rewrite EC. cbn [ftadd ftrans_part flie_bracket frot_part].
    pose proof (near_v_le _ _ _ _ _ _ _ _ EX SLKK K2 (Rle_refl (s0 * q)) (near_cross X L (K * K) d0 s0 g2 q _ _ _ _ EX SL SKK SLKK D0 S0 OG2 Q PA rc')) as c2.
    pose proof (near_v_le _ _ _ _ _ _ _ _ EX SLKK L2 (Rle_refl (s0 * q + t2)) (near_sum X (L * (K * K)) k2 (s0 * q) h2 t2 _ _ _ _ EX SLKK OK2 Z2 OH2 T2 c2 sc')) as p2.
    pose proof (near_v_le _ _ _ _ _ _ _ _ EX SLKK M2 (Rle_refl _) (near_sum X (L * (K * K)) d2 s2 l2 (s0 * q + t2) _ _ _ _ EX SLKK D2 S2 OL2 Z4 RA p2)) as first.
    assert (U1 : L * K * K = L * (K * K)) by ring. assert (U2 : K * (L * K) = L * (K * K)) by ring.
    assert (SU1 : size_unit (L * K * K)) by (rewrite U1; exact SLKK). assert (SU2 : size_unit (K * (L * K))) by (rewrite U2; exact SLKK).
    pose proof (near_unit_eq _ _ _ _ _ _ _ U1 (near_v_le _ _ _ _ _ _ _ _ EX SU1 N2 (Rle_refl (s1 * p)) (near_cross X (L * K) K d1 s1 g1 p _ _ _ _ EX SLK SK SU1 D1 S1 OG1 P LA rd'))) as c3.
    pose proof (near_unit_eq _ _ _ _ _ _ _ U2 (near_v_le _ _ _ _ _ _ _ _ EX SU2 R2 (Rle_refl (p0 * (s0 * p + t1))) (near_cross X K (L * K) b0 p0 l1 (s0 * p + t1) _ _ _ _ EX SK SLK SU2 B0 P0 OL1 Z3 va pd'))) as c4.
    pose proof (near_v_le _ _ _ _ _ _ _ _ EX SLKK M1 (Rle_refl _) (near_sum X (L * (K * K)) n2 (s1 * p) r2 (p0 * (s0 * p + t1)) _ _ _ _ EX SLKK ON2 Z5 OR2 Z6 c3 c4)) as second.
    exact (near_sum X (L * (K * K)) m2 (s2 + (s0 * q + t2)) m1 (s1 * p + p0 * (s0 * p + t1)) _ _ _ _ EX SLKK OM2 Z7 OM1 Z8 first second).
Qed.
Lemma slides_le d0 s0 d1 s1 d2 s2 d0' s0' d1' s1' d2' s2' j x : d0 <= d0' -> s0 <= s0' -> d1 <= d1' -> s1 <= s1' -> d2 <= d2' -> s2 <= s2' ->
  slides X K L d0 s0 d1 s1 d2 s2 j x -> slides X K L d0' s0' d1' s1' d2' s2' j x.
Proof.
  intros D0 S0 D1 S1 D2 S2 (A & B & C). destruct unit_facts as (EX & _). split; [|split]; [exact (near_v_le _ _ _ _ _ _ _ _ EX SL D0 S0 A)|exact (near_v_le _ _ _ _ _ _ _ _ EX SLK D1 S1 B)|exact (near_v_le _ _ _ _ _ _ _ _ EX SLKK D2 S2 C)].
Qed.
End Product.
