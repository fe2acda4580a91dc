(** Distance curves in double precision. *)
From Coq Require Import Reals Psatz ZArith List.
From Flocq Require Import Core BinarySingleNaN.
From Verif Require Import Cpp RotSpec GeomModel RotProofs CoeffProofs ScrewSpec DiffProofs FloatModel FloatSpec NrmSpec FloatProofs NrmProofs DriftModel DriftSpec DriftProofs DriftProofs2 SpinModel SpinSpec SpinProofs SpinProofs2 TwistModel TwistProofs TlogModel SlogModel SlogProofs6 SlogProofs7 SlogProofs8 LenModel LenSpec LenProofs FdcModel FdcSpec FdcProofs FdcProofs2 FdcProofs3.
Import ListNotations.
Local Open Scope R_scope.

(** The exact curve. *)
Definition sum_lengths (l : list (vec3 * vec3)) : R := fold_right Rplus 0 (map (fun t => norm (snd t)) l).
Lemma sum_pos l : 0 <= sum_lengths l.
Proof. induction l as [|[w v] l IH]; [apply Rle_refl|]. unfold sum_lengths in *. cbn [map fold_right snd]. pose proof (norm_nonneg v). lra. Qed.
Lemma sum_firstn i l : sum_lengths (firstn i l) <= sum_lengths l.
Proof.
  revert l. induction i as [|i IH]; intros [|[w v] l]; [apply Rle_refl|apply sum_pos|apply Rle_refl|]. cbn [firstn]. unfold sum_lengths in *. cbn [map fold_right snd]. specialize (IH l). lra.
Qed.
Lemma sum_next i l w v : nth_error l i = Some (w, v) -> sum_lengths (firstn (S i) l) = sum_lengths (firstn i l) + norm v.
Proof.
  revert l. induction i as [|i IH]; intros [|[w' v'] l] H; try discriminate H; cbn [nth_error] in H.
  - injection H as -> ->. unfold sum_lengths. cbn [firstn map fold_right snd]. lra.
  - specialize (IH l H). unfold sum_lengths in *. change (firstn (S (S i)) ((w', v') :: l)) with ((w', v') :: firstn (S i) l). change (firstn (S i) ((w', v') :: l)) with ((w', v') :: firstn i l). cbn [map fold_right snd]. rewrite IH. lra.
Qed.
Lemma whole_sum l L : whole_length l L -> L = sum_lengths l.
Proof.
  induction 1 as [|w v l len a P W IH]; [reflexivity|]. rewrite (path_length_unique _ _ _ P (screw_length w v)), IH. reflexivity.
Qed.
Lemma whole_some l : whole_length l (sum_lengths l).
Proof. induction l as [|[w v] l IH]; [constructor|]. apply (whole_step w v l (norm v)); [apply screw_length|exact IH]. Qed.
Lemma joints_length x l xs : joints x l xs -> length xs = S (length l).
Proof. induction 1; [reflexivity|]. cbn [length]. congruence. Qed.
Lemma joints_nth x l xs : joints x l xs -> nth_error xs 0 = Some x /\ forall i w v, nth_error l i = Some (w, v) -> exists y z, nth_error xs i = Some y /\ nth_error xs (S i) = Some z /\ part_way y w v 1 z.
Proof.
  induction 1 as [x|x w v l z xs P J [IH0 IH]].
  - split; [reflexivity|]. intros [|i] w v H; discriminate H.
  - split; [reflexivity|]. intros [|i] w' v' H; cbn [nth_error] in H.
    + injection H as -> ->. exists x, z. split; [reflexivity|]. split; [exact IH0|exact P].
    + destruct (IH i w' v' H) as (y & y' & A & B & C). exists y, y'. split; [exact A|]. split; [exact B|exact C].
Qed.
Lemma on_curve_at x l xs : joints x l xs -> forall i w v y s z, nth_error l i = Some (w, v) -> nth_error xs i = Some y -> 0 <= s <= 1 -> part_way y w v s z ->
  on_curve x l (sum_lengths (firstn i l) + s * norm v) z.
Proof.
  induction 1 as [x|x w v l z xs P J IH]; intros i w' v' y s z' Hl Hx Hs Hp; [destruct i; discriminate Hl|]. destruct i as [|i]; cbn [nth_error] in Hl, Hx.
  - injection Hl as -> ->. injection Hx as ->. unfold sum_lengths. cbn [firstn map fold_right]. rewrite Rplus_0_l. apply on_first; [apply screw_length|exact Hs|exact Hp].
  - specialize (IH i w' v' y s z' Hl Hx Hs Hp). change (firstn (S i) ((w, v) :: l)) with ((w, v) :: firstn i l). unfold sum_lengths in *. cbn [map fold_right snd]. rewrite Rplus_assoc.
    apply (on_later _ _ _ _ _ z); [apply screw_length|exact P|exact IH].
Qed.
(** Sums of lengths that are near. *)
Definition length_close (d : R) (l : f64) (t : vec3 * vec3) : Prop := finite l /\ 0 <= val l /\ Rabs (val l - norm (snd t)) <= d.
Lemma totals_near d lens l : Forall2 (length_close d) lens l -> forall k, (k <= length l)%nat -> Rabs (total (firstn k lens) - sum_lengths (firstn k l)) <= INR k * d.
Proof.
  induction 1 as [|x t lens l (_ & _ & H) F IH]; intros k K.
  - cbn [length] in K. replace k with 0%nat by lia. unfold total, sum_lengths. cbn. rewrite Rminus_0_r, Rabs_R0. lra.
  - destruct k as [|k]; [unfold total, sum_lengths; cbn; rewrite Rminus_0_r, Rabs_R0; lra|]. cbn [length] in K. specialize (IH k ltac:(lia)). rewrite S_INR. unfold total, sum_lengths in *. cbn [firstn map fold_right].
    eapply Rle_trans; [|eapply Rle_trans; [apply Rplus_le_compat; [exact H|exact IH]|lra]]. eapply Rle_trans; [|apply Rabs_triang]. right. f_equal. ring.
Qed.
Lemma Forall2_nth {A C} (P : A -> C -> Prop) l m : length l = length m -> (forall i x y, nth_error l i = Some x -> nth_error m i = Some y -> P x y) -> Forall2 P l m.
Proof.
  revert m. induction l as [|x l IH]; intros [|y m] L H; try discriminate L; [constructor|]. constructor; [apply (H 0%nat); reflexivity|]. apply IH; [cbn in L; lia|]. intros i a b. apply (H (S i)).
Qed.
Lemma Forall2_at {A C} (P : A -> C -> Prop) l m i x y : Forall2 P l m -> nth_error l i = Some x -> nth_error m i = Some y -> P x y.
Proof. intro F. revert i. induction F as [|a b l m H F IH]; intros [|i] E E'; try discriminate E; cbn [nth_error] in *; [congruence|]. apply (IH i); assumption. Qed.

Lemma Forall2_len {A C} (P : A -> C -> Prop) l m : Forall2 P l m -> length l = length m.
Proof. induction 1; [reflexivity|]. cbn [length]. congruence. Qed.

Section whole.
Variables (e B : R) (x : motion) (l : list (vec3 * vec3)) (xs : list motion) (gs : list fpose) (c : fdcurve) (L : R).
Hypotheses (He : e <= / 5000) (B1 : / 2 ^ 400 <= B) (B2 : B <= 2 ^ 480) (J : joints x l xs) (W : Forall (fun t => norm (fst t) <= 3) l) (G : Forall2 (control_near e B) gs xs).
Hypotheses (M : fdc_make gs c) (N : INR (length l) * u <= 1 / 2) (HL : whole_length l L).

Lemma whole_gs : length gs = S (length l).
Proof. rewrite (Forall2_len _ _ _ G). exact (joints_length _ _ _ J). Qed.
Lemma whole_step_at i w v : nth_error l i = Some (w, v) -> exists g g' y z, nth_error gs i = Some g /\ nth_error gs (S i) = Some g' /\ nth_error xs i = Some y /\
  control_near e B g y /\ control_near e B g' z /\ norm w <= 3 /\ part_way y w v 1 z.
Proof.
  intro H. destruct (proj2 (joints_nth _ _ _ J) i w v H) as (y & z & Y & Z & P). assert (Li : (i < length l)%nat) by (apply nth_error_Some; congruence). pose proof whole_gs as LG.
  destruct (nth_error gs i) as [g|] eqn:Eg; [|apply nth_error_None in Eg; lia]. destruct (nth_error gs (S i)) as [g'|] eqn:Eg'; [|apply nth_error_None in Eg'; lia].
  exists g, g', y, z. split; [reflexivity|]. split; [reflexivity|]. split; [exact Y|]. split; [exact (Forall2_at _ _ _ _ _ _ G Eg Y)|]. split; [exact (Forall2_at _ _ _ _ _ _ G Eg' Z)|].
  split; [|exact P]. rewrite Forall_forall in W. apply (W (w, v)). eapply nth_error_In, H.
Qed.
Definition slack : R := (161 * e + 4570 * u) * B.
Lemma whole_lens : exists lens, length lens = length l /\ arc_lengths lens = Ok (map farc (fcontrols c)) /\ Forall2 (length_close slack) lens l /\ Forall a_length lens /\ Forall finite lens /\
  length (fsegments c) = length l /\ (forall i s, nth_error (fsegments c) i = Some s -> segment_of gs lens i s) /\ map (fun s => (forig_arc s, fdest_arc s)) (fsegments c) = segment_arcs (map farc (fcontrols c)).
Proof.
  assert (NE : gs <> []) by (intro E; pose proof whole_gs as LG; rewrite E in LG; discriminate LG). destruct (built gs NE c M) as (lens & E1 & E2 & E3 & E4 & E5 & E6). pose proof whole_gs as LG. assert (Ln : length lens = length l) by lia.
  assert (F : Forall2 (length_close slack) lens l).
  { apply Forall2_nth; [exact Ln|]. intros i li [w v] Hi Hl. destruct (whole_step_at i w v Hl) as (g & g' & y & z & Gi & Gi' & _ & Cg & Cg' & Hw & P).
    destruct (nth_error (fsegments c) i) as [s|] eqn:Es; [|apply nth_error_None in Es; assert (i < length l)%nat by (apply nth_error_Some; congruence); lia].
    destruct (E6 i s Es) as (k & k' & inv & li' & K & K' & Kl & _ & I & P' & A). assert (k = g) by congruence. assert (k' = g') by congruence. assert (li' = li) by congruence. subst k k' li'.
    destruct (step_length e B g g' y z w v He B1 B2 Cg Cg' Hw P inv _ li I P' A) as (F1 & F2 & F3). split; [exact F1|]. split; [exact F2|exact F3]. }
  exists lens. split; [exact Ln|]. split; [exact E3|]. split; [exact F|].
  assert (Ff : Forall finite lens) by (clear - F; induction F as [|? ? ? ? H]; constructor; [apply H|assumption]).
  split; [|split; [exact Ff|split; [lia|split; [exact E6|exact E4]]]].
  clear - F. induction F as [|li t lens l (H1 & H2 & _) F IH]; constructor; [|exact IH]. split; [intro Q; rewrite Q in H1; discriminate H1|]. rewrite place_finite by exact H1. exact H2.
Qed.
Lemma whole_e : 0 <= e /\ 0 < B /\ 0 <= slack /\ slack <= 4 / 100 * B.
Proof.
  assert (e0 : 0 <= e).
  { pose proof whole_gs as LG. clear - G LG. destruct G as [|g y gs' xs' C _]; [discriminate LG|]. destruct C as (((_ & _ & A) & _) & _). eapply Rle_trans; [apply apart_pos|exact A]. }
  assert (0 < B) by (eapply Rlt_le_trans; [|exact B1]; apply Rinv_0_lt_compat, pow_lt; lra).
  pose proof u_pos. split; [exact e0|]. split; [assumption|]. unfold slack.
  split; [apply Rmult_le_pos; lra|]. apply Rmult_le_compat_r; [lra|]. rewrite u_num. lra.
Qed.
Lemma whole_speed i w v : nth_error l i = Some (w, v) -> norm v <= 374 / 100 * B.
Proof.
  intro H. destruct (whole_step_at i w v H) as (g & g' & y & z & _ & _ & _ & Cg & Cg' & Hw & P). exact (proj2 (proj2 (proj2 (step_screw e B g g' y z w v Cg Cg' Hw P)))).
Qed.
Lemma whole_bound k : (k <= length l)%nat -> sum_lengths (firstn k l) <= INR k * (374 / 100 * B).
Proof.
  induction k as [|k IH]; intro K; [unfold sum_lengths; cbn; lra|]. destruct (nth_error l k) as [[w v]|] eqn:E; [|apply nth_error_None in E; lia]. rewrite (sum_next k l w v E), S_INR. pose proof (whole_speed k w v E). specialize (IH ltac:(lia)). lra.
Qed.
Lemma whole_arcs k a : (k <= length l)%nat -> nth_error (map farc (fcontrols c)) k = Some a ->
  finite a /\ Rabs (val a - sum_lengths (firstn k l)) <= 2 * INR (length l) * (slack + u * L).
Proof.
  intros K A. destruct whole_lens as (lens & Ln & E & F & Fa & Ff & _). destruct whole_e as (e0 & B0 & S0 & S1). pose proof u_pos as U. rewrite (whole_sum _ _ HL). set (n := length l) in *.
  assert (Kn : INR k <= INR n) by (apply le_INR; lia). pose proof (pos_INR k) as K0. assert (Ku : INR k * u <= 1 / 2) by (eapply Rle_trans; [apply Rmult_le_compat_r; [lra|exact Kn]|exact N]).
  pose proof (totals_near _ _ _ F k ltac:(unfold n in K; lia)) as T. pose proof (whole_bound k ltac:(unfold n in K; lia)) as WB. apply Rabs_le_inv in T. pose proof (sum_firstn k l) as SF. pose proof (sum_pos (firstn k l)) as SP.
  assert (kS : INR k * slack <= INR k * (4 / 100 * B)) by (apply Rmult_le_compat_l; lra). assert (kB : 0 <= INR k * B) by (apply Rmult_le_pos; lra).
  assert (k52 : INR k <= 2 ^ 52) by (apply Rmult_le_reg_r with u; [exact U|]; rewrite u_num in *; lra).
  assert (Fin : finite a).
  { apply (sums_finite lens _ k a Fa E A); [apply Forall_forall; intros q Q; rewrite Forall_forall in Ff; apply Ff; rewrite <- (firstn_skipn k lens); apply in_or_app; left; exact Q|].
    destruct (powers k Ku) as [_ P]. assert (P2 : (1 + u) ^ k <= 2) by lra. assert (P0 : 0 <= (1 + u) ^ k) by (apply pow_le; lra). 
    assert (X : INR k * B <= 2 ^ 52 * 2 ^ 480) by (apply Rmult_le_compat; lra). rewrite pow_sum in X. change (52 + 480)%nat with 532%nat in X.
    apply Rle_lt_trans with ((1 + u) ^ k * (4 * 2 ^ 532)); [apply Rmult_le_compat_l; lra|]. apply Rle_lt_trans with (2 * (4 * 2 ^ 532)); [apply Rmult_le_compat_r; [pose proof (pow_lt 2 532); lra|exact P2]|].
    replace (2 * (4 * 2 ^ 532)) with (2 ^ 3 * 2 ^ 532) by ring. rewrite pow_sum. apply Rlt_pow; [lra|lia]. }
  split; [exact Fin|]. pose proof (sums_close lens _ k a Fa E A Fin Ku) as C. set (t := total (firstn k lens)) in *. set (s := sum_lengths (firstn k l)) in *.
  assert (Kt : INR k * u * t <= INR k * u * (s + INR k * slack)) by (apply Rmult_le_compat_l; [apply Rmult_le_pos; lra|lra]).
  assert (Ks : INR k * u * (INR k * slack) <= 1 / 2 * (INR k * slack)) by (apply Rmult_le_compat_r; [apply Rmult_le_pos; lra|exact Ku]).
  assert (Kl : INR k * u * s <= INR n * u * sum_lengths l) by (apply Rmult_le_compat; [apply Rmult_le_pos; lra|exact SP|apply Rmult_le_compat_r; lra|exact SF]).
  assert (Kd : INR k * slack <= INR n * slack) by (apply Rmult_le_compat_r; lra).
  apply Rabs_le_inv in C. apply Rabs_le. lra.
Qed.
Lemma whole_length_near : finite (fdc_length c) /\ Rabs (val (fdc_length c) - L) <= 2 * INR (length l) * (slack + u * L).
Proof.
  destruct whole_lens as (lens & Ln & E & _). pose proof (curve_length_nth _ _ E) as A. rewrite Ln, <- length_is in A. destruct (whole_arcs _ _ (le_n _) A) as [F D]. rewrite firstn_all in D. rewrite <- (whole_sum _ _ HL) in D. split; assumption.
Qed.
Lemma whole_point a p : fdc_point_at c a p -> (val a <> 0 \/ exists w v l' len, l = (w, v) :: l' /\ path_length (screw w v) len /\ slack < len) ->
  exists b y, on_curve x l b y /\ finite a /\ Rabs (b - val a) <= INR (length l) * ((326 * e + 9300 * u) * B + 8 * u * L) /\
    pose_within (45 * e + 600 * u) ((260 * e + 10000 * u) * B) p y.
Proof.
  intros (f & s & q & I & Q & P) Z. destruct whole_lens as (lens & Ln & E & F & Fa & Ff & Ls & Sg & Sa). destruct whole_e as (e0 & B0 & S0 & S1). pose proof u_pos as U.
  assert (NE : gs <> []) by (intro K; pose proof whole_gs as LG; rewrite K in LG; discriminate LG). destruct (impl_is gs c a f s NE M I) as (i & LA & Si).
  assert (Li : (i < length l)%nat) by (rewrite <- Ls; apply nth_error_Some; congruence). destruct (nth_error l i) as [[w v]|] eqn:El; [|apply nth_error_None in El; lia].
  destruct (whole_step_at i w v El) as (g & g' & y & z & Gi & Gi' & Xi & Cg & Cg' & Hw & PW). destruct (Sg i s Si) as (k & k' & inv & li & K & K' & Kl & Ko & Iv & Pr & Al). assert (Ek : k = g) by congruence. assert (Ek' : k' = g') by congruence. rewrite Ek, Ek' in *.
  destruct (found_inv _ _ _ _ Fa E LA) as (_ & _ & o & d & (Ao & Ad) & _). cbn [at_segment] in *.
  destruct (whole_arcs i o ltac:(lia) Ao) as [Fo Do]. destruct (whole_arcs (S i) d ltac:(lia) Ad) as [Fd Dd].
  destruct (fractions lens _ a _ o d Fa E LA (conj Ao Ad) Fd) as (_ & Fin & C1 & C2). cbn [at_fraction at_segment] in *.
  assert (Lt : val o < val d).
  { destruct (Rlt_or_le (val o) (val d)) as [|Le]; [assumption|]. exfalso. destruct (C2 Le) as (I0 & D0 & _). subst i. destruct (found_inv _ _ _ _ Fa E LA) as (Na & _ & o' & d' & (Ao' & Ad') & _ & _ & Pl & _). cbn [at_segment] in *. assert (o' = o) by congruence. assert (d' = d) by congruence. subst o' d'.
    rewrite (place_finite o Fo), (place_finite a Fin), (place_finite d Fd) in Pl. assert (Oz : 0 <= val o) by (pose proof (arcs_lengths _ _ _ _ Fa E Ao) as [_ Hq]; rewrite place_finite in Hq by exact Fo; exact Hq).
    destruct Z as [Z|(w' & v' & l' & len & El' & Pl' & Sl)]; [apply Z; lra|]. rewrite El' in El. cbn [nth_error] in El. injection El as -> ->. rewrite (path_length_unique _ _ _ Pl' (screw_length w v)) in Sl.
    destruct (sums lens _ 1 d Fa E Ad Fd) as (_ & Sd & _). rewrite El' in F. inversion F as [|l1 t1 lens1 l1' (_ & _ & Hq) _]; subst. cbn [snd] in Hq. apply Rabs_le_inv in Hq. unfold total in Sd. cbn [firstn map fold_right] in Sd.
    assert (0 < (1 - u) ^ 1 * (val l1 + 0)) by (apply Rmult_lt_0_compat; [rewrite pow_1, u_num; lra|lra]). lra. }
  destruct (C1 Lt) as (Fp & Rp & Ep & _). rewrite Ko in P.
  destruct (step_part e B g g' y z w v He B1 B2 Cg Cg' Hw PW inv _ f q p Iv Pr Fp Rp Q P) as (t & Pt & Wt).
  exists (sum_lengths (firstn i l) + val f * norm v), t. split; [apply (on_curve_at x l xs J i w v y); assumption|]. split; [exact Fin|]. split; [|exact Wt].
  rewrite (sum_next i l w v El) in Dd. set (n := INR (length l)) in *. set (O := sum_lengths (firstn i l)) in *.
  destruct (found_inv _ _ _ _ Fa E LA) as (_ & _ & o' & d' & (Ao' & Ad') & _ & _ & Pl & _). cbn [at_segment] in *. assert (o' = o) by congruence. assert (d' = d) by congruence. subst o' d'.
  rewrite (place_finite o Fo), (place_finite a Fin), (place_finite d Fd) in Pl. assert (Oz : 0 <= val o) by (pose proof (arcs_lengths _ _ _ _ Fa E Ao) as [_ Hq]; rewrite place_finite in Hq by exact Fo; exact Hq).
  unfold fraction in Ep. set (D := val d - val o) in *. set (ph := (val a - val o) / D) in *. assert (D0 : 0 < D) by (unfold D; lra). assert (Eph : ph * D = val a - val o) by (unfold ph; field; lra).
  assert (ph1 : ph <= 1) by (apply Rmult_le_reg_r with D; [exact D0|]; unfold D in *; lra). assert (ph0 : 0 <= ph) by (apply Rmult_le_reg_r with D; [exact D0|]; unfold D in *; lra).
  assert (n1 : 1 <= n) by (unfold n; change 1 with (INR 1); apply le_INR; lia). assert (L0 : 0 <= L) by (rewrite (whole_sum _ _ HL); apply sum_pos).
  assert (V1 : O + norm v <= L) by (rewrite (whole_sum _ _ HL); pose proof (sum_firstn (S i) l) as Y; rewrite (sum_next i l w v El) in Y; exact Y).
  set (eps := 2 * n * (slack + u * L)) in *. assert (eps0 : 0 <= eps) by (unfold eps; apply Rmult_le_pos; [lra|]; assert (0 <= u * L) by (apply Rmult_le_pos; lra); lra).
  apply Rabs_le_inv in Do. apply Rabs_le_inv in Dd. assert (Dl : D <= L + eps) by (unfold D; lra).
  assert (u1 : / 2 ^ 1075 <= u) by (unfold u; apply Rinv_le_contravar; [apply pow_lt; lra|apply Rle_pow; [lra|lia]]).
  assert (Ef : Rabs (val f - ph) * D <= 5 * u * (L + eps)).
  { apply Rmult_le_compat; [apply Rabs_pos|lra| |exact Dl]. eapply Rle_trans; [exact Ep|]. assert (u * ph <= u * 1) by (apply Rmult_le_compat_l; lra). lra. }
  assert (ue : u * eps <= / 1000 * eps) by (apply Rmult_le_compat_r; [exact eps0|rewrite u_num; lra]).
  assert (Q1 : (1 - val f) * Rabs (O - val o) <= (1 - val f) * eps) by (apply Rmult_le_compat_l; [lra|apply Rabs_le; lra]).
  assert (Q2 : val f * Rabs (O + norm v - val d) <= val f * eps) by (apply Rmult_le_compat_l; [lra|apply Rabs_le; lra]).
  replace (O + val f * norm v - val a) with ((1 - val f) * (O - val o) + (val f * (O + norm v - val d) + (val f - ph) * D)) by (unfold D in *; lra).
  eapply Rle_trans; [apply Rabs_triang|]. eapply Rle_trans; [apply Rplus_le_compat_l, Rabs_triang|]. rewrite !Rabs_mult, (Rabs_right (1 - val f)), (Rabs_right (val f)), (Rabs_right D) by lra.
  assert (nL : 1 * (u * L) <= n * (u * L)) by (apply Rmult_le_compat_r; [apply Rmult_le_pos; lra|exact n1]). assert (0 <= n * ((161 * e + 4570 * u) * B)) by (apply Rmult_le_pos; [lra|exact S0]).
  assert (X : eps * (1 + / 200) + 5 * u * L <= n * ((326 * e + 9300 * u) * B + 8 * u * L)); [|lra].
  unfold eps, slack. assert (0 <= u * L) by (apply Rmult_le_pos; lra). assert (0 <= n * (e * B)) by (repeat apply Rmult_le_pos; lra). assert (0 <= n * (u * B)) by (repeat apply Rmult_le_pos; lra). lra.
Qed.
End whole.
