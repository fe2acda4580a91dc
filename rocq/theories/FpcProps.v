(** Time curves of poses in double precision: C80. *)
From Coq Require Import Reals Lra Lia List.
From Flocq Require Import Core BinarySingleNaN.
From Verif Require Import Cpp FloatModel FloatSpec NrmSpec NrmProofs Vec RotSpec DerivSpec DriftModel DriftSpec DriftProofs SpinModel SpinSpec FtsModel FtsSpec FtcModel FtcSpec FpsModel FpsSpec FpcModel FpcSpec FpcProofs FpcProofs4 FpcProofs5.
Import ListNotations.
Local Open Scope R_scope.

(** The exact journey: one pose at every time from the first to the last and none elsewhere,
    through every control point; every point that is carried along moves with the velocities
    given, at the control points too. *)
Theorem c80_exact : forall cs first last, pproper cs -> pfrom_to cs first last ->
  exists p, (forall t q, on_journey cs t q <-> first <= t <= last /\ q = p t) /\
    (forall c, In c cs -> p (pat_time c) = pat_flight c) /\ (forall t, first < t < last -> carries_at p t).
Proof. exact the_journey. Qed.
Print Assumptions c80_exact.
Example c80_exact_case : exists cs a b, pproper cs /\ pfrom_to cs 0 3 /\ map pat_time cs = [0; 2; 3] /\ cs = [a; b; PControl 3 (pat_flight b)] /\
  place (pat_flight a) = V3 1 2 (-1) /\ slide (pat_flight a) = V3 4 (-3) 0 /\ surge (pat_flight b) = V3 0 9 2.
Proof. destruct pcurve_case as (fs & cs & c & P & F & _ & _ & _ & _ & _ & T & (a & b & H) & _). exists cs, a, b. auto. Qed.

(** TCurve(points) throws exactly when a time is not after the one before. *)
Theorem c80_made : forall fs, let ordered := forall i f g, follow fs i f g -> ~ not_a_number (fptime f) /\ ~ not_a_number (fptime g) /\ NrmSpec.place (fptime f) < NrmSpec.place (fptime g) in
  (ordered -> exists c, fp_make fs = Ok c) /\ (~ ordered -> fp_make fs = Throw).
Proof. exact pmakes. Qed.
Print Assumptions c80_made.
Example c80_made_case : exists f g h c, fptime f = of_int 0 /\ fptime g = of_int 2 /\ fptime h = B754_nan /\ fp_make [f; g] = Ok c /\ fp_make [f; g; g] = Throw /\ fp_make [g; f] = Throw /\ fp_make [f; h] = Throw /\ exists c', fp_make [h] = Ok c'.
Proof.
  exists (FPControl (of_int 0) fpjet_identity), (FPControl (of_int 2) fpjet_identity), (FPControl B754_nan fpjet_identity). eexists. repeat (split; [reflexivity|]). eexists. reflexivity.
Qed.

(** TCurve<SE3>::point_at: between the first and the last time the pose, the velocity and the
    acceleration are near those of the exact journey, relative to the length of the leg
    between the two control points around and to the distance [r] from the origin. *)
Theorem c80_point_at : forall e m r fs cs c t first last, 0 <= e -> u <= m -> / 2 ^ 400 <= r <= 2 ^ 200 -> (1 + m) * (e + 105 * u) <= / 10 ^ 5 ->
  pproper cs -> all_pstored e m r fs cs -> fp_make fs = Ok c -> finite t -> pfrom_to cs first last -> first <= val t <= last ->
  (exists f, fp_point_at c t (Ok f)) /\
  forall result p, fp_point_at c t result -> on_journey cs (val t) p ->
  exists f i a b, result = Ok f /\ follow cs i a b /\ pat_time a <= val t <= pat_time b /\ let d := pat_time b - pat_time a in
    pjet_within (79 * ((1 + m) * (e + 105 * u))) (341 * ((1 + m) ^ 2 * (e + 105 * u)) / d) (2565 * ((1 + m) ^ 3 * (e + 105 * u)) / (d * d))
      (576 * ((1 + m) ^ 2 * (e + 105 * u)) * r) (1781 * ((1 + m) ^ 3 * (e + 105 * u)) * r / d) (14620 * ((1 + m) ^ 4 * (e + 105 * u)) * r / (d * d)) f p.
Proof. exact journey_answers. Qed.
Print Assumptions c80_point_at.
Example c80_point_at_case : exists fs cs c f p, pproper cs /\ pfrom_to cs 0 3 /\ all_pstored (63 * u) 12 6 fs cs /\ (1 + 12) * (63 * u + 105 * u) <= / 10 ^ 5 /\ u <= 12 /\ / 2 ^ 400 <= 6 <= 2 ^ 200 /\ fp_make fs = Ok c /\
  finite (of_int 1) /\ val (of_int 1) = 1 /\ fp_point_at c (of_int 1) (Ok f) /\ on_journey cs 1 p /\ map pat_time cs = [0; 2; 3] /\
  576 * ((1 + 12) ^ 2 * (63 * u + 105 * u)) * 6 <= 2 / 10 ^ 8 /\ 1781 * ((1 + 12) ^ 3 * (63 * u + 105 * u)) * 6 <= 5 / 10 ^ 7 /\ 14620 * ((1 + 12) ^ 4 * (63 * u + 105 * u)) * 6 <= 5 / 10 ^ 5.
Proof.
  destruct pcurve_case as (fs & cs & c & P & F & S & X & M & B6 & MK & T & _ & F1 & V1 & (f & p & A & O) & _ & B). exists fs, cs, c, f, p.
  split; [exact P|]. split; [exact F|]. split; [exact S|]. split; [exact X|]. split; [exact M|]. split; [exact B6|]. split; [exact MK|]. split; [exact F1|]. split; [exact V1|]. split; [exact A|]. split; [exact O|]. split; [exact T|exact B].
Qed.

(** So at the time of a control point that control point comes back. *)
Theorem c80_controls : forall e m r fs cs c i g a, 0 <= e -> u <= m -> / 2 ^ 400 <= r <= 2 ^ 200 -> (1 + m) * (e + 105 * u) <= / 10 ^ 5 ->
  pproper cs -> all_pstored e m r fs cs -> fp_make fs = Ok c -> nth_error fs i = Some g -> nth_error cs i = Some a ->
  (exists f, fp_point_at c (fptime g) (Ok f)) /\
  forall result, fp_point_at c (fptime g) result -> exists f j p q, result = Ok f /\ follow cs j p q /\ pat_time p <= pat_time a <= pat_time q /\ let d := pat_time q - pat_time p in
    pjet_within (79 * ((1 + m) * (e + 105 * u))) (341 * ((1 + m) ^ 2 * (e + 105 * u)) / d) (2565 * ((1 + m) ^ 3 * (e + 105 * u)) / (d * d))
      (576 * ((1 + m) ^ 2 * (e + 105 * u)) * r) (1781 * ((1 + m) ^ 3 * (e + 105 * u)) * r / d) (14620 * ((1 + m) ^ 4 * (e + 105 * u)) * r / (d * d)) f (pat_flight a).
Proof. exact pcontrols_back. Qed.
Print Assumptions c80_controls.
Example c80_controls_case : exists fs cs c g a, pproper cs /\ all_pstored (63 * u) 12 6 fs cs /\ (1 + 12) * (63 * u + 105 * u) <= / 10 ^ 5 /\ / 2 ^ 400 <= 6 <= 2 ^ 200 /\ fp_make fs = Ok c /\
  nth_error fs 1 = Some g /\ nth_error cs 1 = Some a /\ fptime g = of_int 2 /\ pat_time a = 2 /\ surge (pat_flight a) = V3 0 9 2.
Proof.
  destruct pcurve_case as (fs & cs & c & P & F & S & X & M & B6 & MK & T & (a & b & CS & _ & _ & SU) & _ & _ & _ & FT & _). subst cs. exists fs, [a; b; PControl 3 (pat_flight b)], c.
  destruct fs as [|f0 [|g fs]]; [discriminate FT..|]. exists g, b. cbn in FT, T. injection FT as _ FT _. injection T as _ T.
  split; [exact P|]. split; [exact S|]. split; [exact X|]. split; [exact B6|]. split; [exact MK|]. auto.
Qed.

(** Before the first time, after the last and with fewer than two control points it throws. *)
Theorem c80_refused : forall fs c t, fp_make fs = Ok c ->
  ((length fs < 2)%nat \/ exists front back, nth_error fs 0 = Some front /\ nth_error fs (length fs - 1) = Some back /\ ~ not_a_number t /\ (NrmSpec.place t < NrmSpec.place (fptime front) \/ NrmSpec.place (fptime back) < NrmSpec.place t)) ->
  forall result, fp_point_at c t result <-> result = Throw.
Proof. exact journey_refuses. Qed.
Print Assumptions c80_refused.
Example c80_refused_case : exists f g c c', fp_make [f; g] = Ok c /\ fp_make [f] = Ok c' /\ NrmSpec.place (fptime g) < NrmSpec.place (of_int 3) /\ fp_point_at c (of_int 3) Throw /\ fp_point_at c' (of_int 0) Throw.
Proof.
  exists (FPControl (of_int 0) fpjet_identity), (FPControl (of_int 2) fpjet_identity). eexists. eexists. split; [reflexivity|]. split; [reflexivity|]. split; [|split; reflexivity].
  apply flt_place; [discriminate..|]. reflexivity.
Qed.

(** A time that is no number is not refused: neither part of the answer's velocity nor of its
    acceleration holds a number. *)
Theorem c80_nan : forall fs c, (2 <= length fs)%nat -> fp_make fs = Ok c -> (exists f, fp_point_at c B754_nan (Ok f)) /\
  forall result, fp_point_at c B754_nan result -> exists f, result = Ok f /\ (no_numbers (frot_part (pd f)) /\ no_numbers (ftrans_part (pd f))) /\ no_numbers (frot_part (pd2 f)) /\ no_numbers (ftrans_part (pd2 f)).
Proof. exact pnan_query. Qed.
Print Assumptions c80_nan.
Theorem c80_in_range_refuted : exists fs cs c t f, pproper cs /\ all_pstored (63 * u) 12 6 fs cs /\ fp_make fs = Ok c /\ not_a_number t /\ fp_point_at c t (Ok f) /\ no_numbers (ftrans_part (pd f)).
Proof.
  destruct pcurve_case as (fs & cs & c & P & F & S & X & M & B6 & MK & T & _ & _ & _ & _ & FT & _). destruct (pnan_query fs c) as [[f A] H]; [rewrite <- (map_length fptime), FT; cbn; lia|exact MK|].
  exists fs, cs, c, B754_nan, f. split; [exact P|]. split; [exact S|]. split; [exact MK|]. split; [reflexivity|]. split; [exact A|]. destruct (H _ A) as (f' & E & (_ & N) & _). injection E as <-. exact N.
Qed.
Print Assumptions c80_in_range_refuted.
