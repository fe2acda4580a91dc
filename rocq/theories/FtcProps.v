(** Time curves of rotations in double precision: C75. *)
From Coq Require Import Reals Lra Lia List.
From Flocq Require Import Core BinarySingleNaN.
From Verif Require Import Cpp FloatModel FloatSpec NrmSpec NrmProofs Vec RotSpec DerivSpec DriftModel DriftSpec DriftProofs SpinModel SpinSpec FtsModel FtsSpec FtsProofs5 FtcModel FtcSpec FtcProofs FtcProofs4 FtcProofs5.
Import ListNotations.
Local Open Scope R_scope.

(** The exact curve: one state at every time from the first to the last and none elsewhere,
    through every control point; the velocities and accelerations are those of the rotations,
    at the control points too. *)
Theorem c75_exact : forall cs first last, proper cs -> from_to cs first last ->
  exists p, (forall t q, on_tcurve cs t q <-> first <= t <= last /\ q = p t) /\
    (forall c, In c cs -> p (at_time c) = at_state c) /\ (forall t, first < t < last -> moves_at p t).
Proof. exact the_curve. Qed.
Print Assumptions c75_exact.
Example c75_exact_case : exists cs, proper cs /\ from_to cs 0 3 /\ map at_time cs = [0; 2; 3] /\ map (fun x => vel (at_state x)) cs = [V3 1 2 2; V3 0 (-3) 0; V3 0 (-3) 0].
Proof. destruct tcurve_case as (fs & cs & c & P & F & _ & _ & _ & _ & T & V & _). exists cs. auto. Qed.

(** TCurve(points) throws exactly when a time is not after the one before. *)
Theorem c75_made : forall fs, let ordered := forall i f g, follow fs i f g -> ~ not_a_number (ftime f) /\ ~ not_a_number (ftime g) /\ place (ftime f) < place (ftime g) in
  (ordered -> exists c, ft_make fs = Ok c) /\ (~ ordered -> ft_make fs = Throw).
Proof. exact makes. Qed.
Print Assumptions c75_made.
Example c75_made_case : exists f g h c, ftime f = of_int 0 /\ ftime g = of_int 2 /\ ftime h = B754_nan /\ ft_make [f; g] = Ok c /\ ft_make [f; g; g] = Throw /\ ft_make [g; f] = Throw /\ ft_make [f; h] = Throw /\ exists c', ft_make [h] = Ok c'.
Proof.
  exists (FTControl (of_int 0) fjet_identity), (FTControl (of_int 2) fjet_identity), (FTControl B754_nan fjet_identity). eexists. repeat (split; [reflexivity|]). eexists. reflexivity.
Qed.

(** TCurve<SO3>::point_at: between the first and the last time the rotation, the velocity and
    the acceleration are near those of the exact curve, relative to the length of the piece
    between the two control points around. *)
Theorem c75_point_at : forall e m fs cs c t first last, 0 <= e -> u <= m -> (1 + m) * (e + 105 * u) <= / 10 ^ 5 ->
  proper cs -> all_stored e m fs cs -> ft_make fs = Ok c -> finite t -> from_to cs first last -> first <= val t <= last ->
  (exists f, ft_point_at c t (Ok f)) /\
  forall result p, ft_point_at c t result -> on_tcurve cs (val t) p ->
  exists f i a b, result = Ok f /\ follow cs i a b /\ at_time a <= val t <= at_time b /\ let d := at_time b - at_time a in
    jet_within (79 * ((1 + m) * (e + 105 * u))) (341 * ((1 + m) ^ 2 * (e + 105 * u)) / d) (2565 * ((1 + m) ^ 3 * (e + 105 * u)) / (d * d)) f p.
Proof. exact curve_answers. Qed.
Print Assumptions c75_point_at.
Example c75_point_at_case : exists fs cs c f p, proper cs /\ from_to cs 0 3 /\ all_stored (63 * u) 12 fs cs /\ (1 + 12) * (63 * u + 105 * u) <= / 10 ^ 5 /\ u <= 12 /\ ft_make fs = Ok c /\
  finite (of_int 1) /\ val (of_int 1) = 1 /\ ft_point_at c (of_int 1) (Ok f) /\ on_tcurve cs 1 p /\ map at_time cs = [0; 2; 3] /\
  79 * ((1 + 12) * (63 * u + 105 * u)) <= 2 / 10 ^ 11 /\ 341 * ((1 + 12) ^ 2 * (63 * u + 105 * u)) <= 2 / 10 ^ 9 /\ 2565 * ((1 + 12) ^ 3 * (63 * u + 105 * u)) <= 2 / 10 ^ 7.
Proof.
  destruct tcurve_case as (fs & cs & c & P & F & S & X & M & MK & T & _ & _ & F1 & V1 & (f & p & A & O) & _ & B). exists fs, cs, c, f, p. auto 20.
Qed.

(** So at the time of a control point that control point comes back. *)
Theorem c75_controls : forall e m fs cs c i g a, 0 <= e -> u <= m -> (1 + m) * (e + 105 * u) <= / 10 ^ 5 ->
  proper cs -> all_stored e m fs cs -> ft_make fs = Ok c -> nth_error fs i = Some g -> nth_error cs i = Some a ->
  (exists f, ft_point_at c (ftime g) (Ok f)) /\
  forall result, ft_point_at c (ftime g) result -> exists f j p q, result = Ok f /\ follow cs j p q /\ at_time p <= at_time a <= at_time q /\ let d := at_time q - at_time p in
    jet_within (79 * ((1 + m) * (e + 105 * u))) (341 * ((1 + m) ^ 2 * (e + 105 * u)) / d) (2565 * ((1 + m) ^ 3 * (e + 105 * u)) / (d * d)) f (at_state a).
Proof. exact controls_back. Qed.
Print Assumptions c75_controls.
Example c75_controls_case : exists fs cs c g a, proper cs /\ all_stored (63 * u) 12 fs cs /\ (1 + 12) * (63 * u + 105 * u) <= / 10 ^ 5 /\ ft_make fs = Ok c /\
  nth_error fs 1 = Some g /\ nth_error cs 1 = Some a /\ ftime g = of_int 2 /\ at_time a = 2 /\ vel (at_state a) = V3 0 (-3) 0 /\ acc (at_state a) = V3 2 1 0.
Proof.
  destruct tcurve_case as (fs & cs & c & P & F & S & X & M & MK & T & V & A & _ & _ & _ & FT & _). exists fs, cs, c.
  destruct fs as [|f0 [|g fs]]; [discriminate FT..|]. destruct cs as [|a0 [|a cs]]; [discriminate T..|]. exists g, a. cbn in FT, T, V, A. injection FT as _ FT _. injection T as _ T _. injection V as _ V _. injection A as _ A _. auto 20.
Qed.

(** Before the first time, after the last and with fewer than two control points it throws. *)
Theorem c75_refused : forall fs c t, ft_make fs = Ok c ->
  ((length fs < 2)%nat \/ exists front back, nth_error fs 0 = Some front /\ nth_error fs (length fs - 1) = Some back /\ ~ not_a_number t /\ (place t < place (ftime front) \/ place (ftime back) < place t)) ->
  forall result, ft_point_at c t result <-> result = Throw.
Proof. exact curve_refuses. Qed.
Print Assumptions c75_refused.
Example c75_refused_case : exists f g c c', ft_make [f; g] = Ok c /\ ft_make [f] = Ok c' /\ place (ftime g) < place (of_int 3) /\ ft_point_at c (of_int 3) Throw /\ ft_point_at c' (of_int 0) Throw.
Proof.
  exists (FTControl (of_int 0) fjet_identity), (FTControl (of_int 2) fjet_identity). eexists. eexists. split; [reflexivity|]. split; [reflexivity|]. split; [|split; reflexivity].
  apply flt_place; [discriminate..|]. reflexivity.
Qed.

(** A time that is no number is not refused: the answer's velocity and acceleration hold no
    numbers. *)
Theorem c75_nan : forall fs c, (2 <= length fs)%nat -> ft_make fs = Ok c -> (exists f, ft_point_at c B754_nan (Ok f)) /\
  forall result, ft_point_at c B754_nan result -> exists f, result = Ok f /\ no_numbers (jd f) /\ no_numbers (jd2 f).
Proof. exact nan_query. Qed.
Print Assumptions c75_nan.
Theorem c75_in_range_refuted : exists fs cs c t f, proper cs /\ all_stored (63 * u) 12 fs cs /\ ft_make fs = Ok c /\ not_a_number t /\ ft_point_at c t (Ok f) /\ no_numbers (jd f).
Proof.
  destruct tcurve_case as (fs & cs & c & P & F & S & X & M & MK & T & _ & _ & _ & _ & _ & FT & _). destruct (nan_query fs c) as [[f A] H]; [rewrite <- (map_length ftime), FT; cbn; lia|exact MK|].
  exists fs, cs, c, B754_nan, f. split; [exact P|]. split; [exact S|]. split; [exact MK|]. split; [reflexivity|]. split; [exact A|]. destruct (H _ A) as (f' & E & N & _). injection E as <-. exact N.
Qed.
Print Assumptions c75_in_range_refuted.
