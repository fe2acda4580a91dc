(** The exact journey. *)
From Coq Require Import Reals Lra Lia List.
From Flocq Require Import Core BinarySingleNaN.
From Verif Require Import Cpp Vec RotSpec RotProofs DerivSpec DerivProofs FloatModel FloatSpec NrmSpec DriftModel DriftSpec SpinModel SpinSpec FtsModel FtsSpec FtsProofs5 FtcModel FtcSpec FtcProofs FpsModel FpsSpec FpsProofs6 FpcModel FpcSpec.
Import ListNotations.
Local Open Scope R_scope.

(** ** Gluing *)
Lemma carries_glue p q k t : carries_at p t -> carries_at q t -> p t = q t -> (forall s, s <= t -> k s = p s) -> (forall s, t < s -> k s = q s) -> carries_at k t.
Proof.
  intros (P1 & P2 & P3) (Q1 & Q2 & Q3) E L H. unfold carries_at. rewrite (L t) by lra.
  assert (G : forall (f : flight -> vec3) l, dV (fun s => f (p s)) t l -> dV (fun s => f (q s)) t l -> dV (fun s => f (k s)) t l).
  { intros f l F1 F2. apply (dV_glue (fun s => f (p s)) (fun s => f (q s))); [exact F1|exact F2|cbv beta; rewrite E; reflexivity|intros s Hs; rewrite L by exact Hs; reflexivity|intros s Hs; rewrite H by exact Hs; reflexivity]. }
  split; [|split].
  - intro x. cbv zeta. specialize (P1 x). specialize (Q1 x). cbv beta zeta in P1, Q1. rewrite <- E in Q1. cbv beta. exact (G (fun y => vadd (mvec (rot (spin y)) x) (place y)) _ P1 Q1).
  - rewrite <- E in Q2. exact (G (fun y => vel (spin y)) _ P2 Q2).
  - rewrite <- E in Q3. exact (G slide _ P3 Q3).
Qed.
Lemma carries_near p q t r : 0 < r -> (forall s, Rabs (s - t) < r -> p s = q s) -> carries_at p t -> carries_at q t.
Proof.
  intros R E (P1 & P2 & P3). assert (T : p t = q t) by (apply E; unfold Rminus; rewrite Rplus_opp_r, Rabs_R0; exact R). unfold carries_at. rewrite <- T.
  assert (G : forall (f : flight -> vec3) l, dV (fun s => f (p s)) t l -> dV (fun s => f (q s)) t l).
  { intros f l F. apply (dV_near (fun s => f (p s)) _ t _ r R); [|exact F]. intros s Hs. rewrite E by exact Hs. reflexivity. }
  split; [|split].
  - intro x. cbv zeta. exact (G (fun y => vadd (mvec (rot (spin y)) x) (place y)) _ (P1 x)).
  - exact (G (fun y => vel (spin y)) _ P2).
  - exact (G slide _ P3).
Qed.

(** ** One leg *)
Lemma flight_units_back d x : d <> 0 -> flight_units (/ d) (flight_units d x) = x.
Proof. intro D. destruct x as [s p [a b c] [a' b' c']]. unfold flight_units. cbn [spin place slide surge]. rewrite units_back by exact D. unfold vscale. cbn [vx vy vz]. f_equal; f_equal; field; exact D. Qed.
Lemma carries_units p a d : d <> 0 -> carries p -> carries (fun t => flight_units (/ d) (p ((t - a) / d))).
Proof.
  intros D M t. assert (L : derivable_pt_lim (fun s => (s - a) / d) t (/ d)).
  { apply (dl_ext (fun s => / d * s + - a / d)); [intro s; field; exact D|]. eapply dl_eq; [apply dl_plus; [apply dl_mult; [apply dl_const|apply dl_id]|apply dl_const]|]. cbv beta. ring. }
  destruct (M ((t - a) / d)) as (M1 & M2 & M3). split; [|split]; cbn [flight_units in_units spin place slide surge rot vel acc].
  - intro x. cbv zeta. specialize (M1 x). cbv zeta in M1. eapply dV_eq; [exact (dV_chain _ _ t _ _ L M1)|]. cbv beta. generalize (vel (spin (p ((t - a) / d)))), (vadd (mvec (rot (spin (p ((t - a) / d)))) x) (place (p ((t - a) / d)))), (slide (p ((t - a) / d))). intros [x1 x2 x3] [y1 y2 y3] [z1 z2 z3]. unfold vadd, vscale, cross. cbn [vx vy vz]. f_equal; ring.
  - eapply dV_eq; [apply dV_scale_r; exact (dV_chain _ _ t _ _ L M2)|]. generalize (acc (spin (p ((t - a) / d)))). intros [x1 x2 x3]. unfold vscale. cbn [vx vy vz]. f_equal; ring.
  - eapply dV_eq; [apply dV_scale_r; exact (dV_chain _ _ t _ _ L M3)|]. generalize (surge (p ((t - a) / d))). intros [x1 x2 x3]. unfold vscale. cbn [vx vy vz]. f_equal; ring.
Qed.
Definition good_leg (a b : pcontrol) : Prop := is_rotation (turned (pat_flight a)) /\ is_rotation (turned (pat_flight b)) /\ pat_time a < pat_time b /\
  exists w, rotation_by w (mmul (turned (pat_flight b)) (mtrans (turned (pat_flight a)))) /\ norm w <= 3.
Lemma the_leg a b : good_leg a b -> exists p, (forall t q, on_leg a b t q <-> pat_time a <= t <= pat_time b /\ q = p t) /\ p (pat_time a) = pat_flight a /\ p (pat_time b) = pat_flight b /\ carries p.
Proof.
  intros (Ra & Rb & T & W). set (d := pat_time b - pat_time a). assert (D : d <> 0) by (unfold d; lra).
  destruct (the_flight (flight_units d (pat_flight a)) (flight_units d (pat_flight b)) Ra Rb W) as (p & B & P0 & P1 & M).
  exists (fun t => flight_units (/ d) (p ((t - pat_time a) / d))). split; [|split; [|split]].
  - intros t q. unfold on_leg. cbv zeta. fold d. split.
    + intros [H (q' & Q & ->)]. split; [exact H|]. apply B in Q. rewrite Q. reflexivity.
    + intros [H ->]. split; [exact H|]. exists (p ((t - pat_time a) / d)). split; [apply B; reflexivity|reflexivity].
  - replace ((pat_time a - pat_time a) / d) with 0 by (field; exact D). rewrite P0. apply flight_units_back, D.
  - replace ((pat_time b - pat_time a) / d) with 1 by (unfold d; field; exact D). rewrite P1. apply flight_units_back, D.
  - apply carries_units; assumption.
Qed.

(** ** All of it *)
Fixpoint pgood (cs : list pcontrol) : Prop :=
  match cs with
  | a :: (b :: _) as l => good_leg a b /\ pgood l
  | _ => True
  end.
Lemma pgood_proper cs : pproper cs -> pgood cs.
Proof.
  intros (_ & R & F). induction cs as [|a [|b l] IH]; try exact I. cbn [pgood]. inversion R as [|? ? Ra Rl]; subst. split.
  - split; [exact Ra|]. inversion Rl; subst. split; [assumption|]. apply (F 0%nat a b). split; reflexivity.
  - apply IH; [exact Rl|]. intros i x y H. apply (F (S i)). apply follow_cons. right. exists i. auto.
Qed.
Fixpoint plast_time (a : pcontrol) (l : list pcontrol) : R := match l with [] => pat_time a | b :: l => plast_time b l end.
Lemma plast_time_after l : forall a, pgood (a :: l) -> pat_time a <= plast_time a l.
Proof. induction l as [|b l IH]; intros a G; [cbn; lra|]. destruct G as [(_ & _ & T & _) G]. specialize (IH b G). cbn [plast_time]. lra. Qed.
Lemma whole_journey l : forall a b, pgood (a :: b :: l) -> exists p, (forall t q, on_journey (a :: b :: l) t q <-> pat_time a <= t <= plast_time b l /\ q = p t) /\
  (forall c, In c (a :: b :: l) -> p (pat_time c) = pat_flight c) /\ (forall t, t < plast_time b l -> carries_at p t) /\ (forall t, pat_time b <= t -> on_journey (a :: b :: l) t (p t) \/ plast_time b l < t).
Proof.
  induction l as [|c l IH]; intros a b [G1 G2]; destruct (the_leg a b G1) as (p & P & Pa & Pb & M).
  - cbn [plast_time]. exists p. split; [|split; [|split]].
    + intros t q. rewrite <- P. unfold on_journey. split.
      * intros (i & x & y & F & H). apply follow_cons in F. destruct F as [(_ & -> & ->)|(j & _ & _ & F)]; [exact H|]. destruct j; discriminate F.
      * intro H. exists 0%nat, a, b. split; [split; reflexivity|exact H].
    + intros c [<-|[<-|[]]]; assumption.
    + intros t _. apply M.
    + intros t H. destruct (Rle_or_lt t (pat_time b)) as [L|L]; [left|right; exact L]. exists 0%nat, a, b. split; [split; reflexivity|]. apply P. split; [|reflexivity]. destruct G1 as (_ & _ & T & _). lra.
  - destruct (IH b c G2) as (r & Q & Qc & N & _). pose proof (plast_time_after (c :: l) b G2) as LT. cbn [plast_time] in *. destruct G1 as (_ & _ & T & _). destruct G2 as [(_ & _ & Tc & _) G3].
    pose proof (plast_time_after l c G3) as LTc.
    assert (E : p (pat_time b) = r (pat_time b)) by (rewrite Pb, Qc by (left; reflexivity); reflexivity).
    set (k := fun t => if Rle_dec t (pat_time b) then p t else r t).
    assert (KL : forall t, t <= pat_time b -> k t = p t) by (intros t H; unfold k; destruct (Rle_dec t (pat_time b)); [reflexivity|lra]).
    assert (KH : forall t, pat_time b < t -> k t = r t) by (intros t H; unfold k; destruct (Rle_dec t (pat_time b)); [lra|reflexivity]).
    assert (KE : forall t, pat_time b <= t -> k t = r t) by (intros t [H|<-]; [apply KH, H|rewrite KL by lra; exact E]).
    assert (ON : forall t q, on_journey (a :: b :: c :: l) t q <-> on_leg a b t q \/ on_journey (b :: c :: l) t q).
    { intros t q. unfold on_journey. split.
      - intros (i & x & y & F & H). apply follow_cons in F. destruct F as [(_ & -> & ->)|(j & _ & F)]; [left; exact H|right; exists j, x, y; auto].
      - intros [H|(j & x & y & F & H)]; [exists 0%nat, a, b; split; [split; reflexivity|exact H]|exists (S j), x, y; split; [apply follow_cons; right; exists j; auto|exact H]]. }
    assert (ONK : forall t q, on_journey (a :: b :: c :: l) t q <-> pat_time a <= t <= plast_time c l /\ q = k t).
    { intros t q. rewrite ON, P, Q. split.
      - intros [[H ->]|[H ->]]; (split; [lra|]); symmetry; [apply KL|apply KE]; lra.
      - intros [H ->]. destruct (Rle_or_lt t (pat_time b)) as [L|L]; [left; split; [lra|apply KL, L]|right; split; [lra|apply KH, L]]. }
    exists k. split; [exact ONK|]. split; [|split].
    + intros x [<-|I]; [rewrite KL by lra; exact Pa|]. rewrite KE; [apply Qc, I|]. clear - I Tc G3 LTc.
      assert (Z : forall l c x, pgood (c :: l) -> In x l -> pat_time c <= pat_time x).
      { clear. induction l as [|d l IH]; intros c x G I; [contradiction|]. destruct G as [(_ & _ & T & _) G]. destruct I as [<-|I]; [lra|]. specialize (IH d x G I). lra. }
      destruct I as [<-|[<-|I]]; [lra|lra|]. specialize (Z l c x G3 I). lra.
    + intros t H. destruct (Rtotal_order t (pat_time b)) as [L|[->|L]].
      * apply (carries_near p k t (pat_time b - t)); [lra| |apply M]. intros s Hs. symmetry. apply KL. apply Rabs_def2 in Hs. lra.
      * apply (carries_glue p r); [apply M|apply N; exact H|exact E|exact KL|exact KH].
      * apply (carries_near r k t (t - pat_time b)); [lra| |apply N; exact H]. intros s Hs. symmetry. apply KH. apply Rabs_def2 in Hs. lra.
    + intros t H. destruct (Rle_or_lt t (plast_time c l)) as [L|L]; [left|right; exact L]. apply ONK. split; [lra|reflexivity].
Qed.
Lemma plast_time_nth l : forall a, exists c, nth_error (a :: l) (length (a :: l) - 1) = Some c /\ pat_time c = plast_time a l.
Proof.
  induction l as [|b l IH]; intro a; [exists a; auto|]. destruct (IH b) as (c & N & T). exists c. cbn [plast_time]. split; [|exact T]. cbn [length] in *. replace (S (S (length l)) - 1)%nat with (S (S (length l) - 1)) by lia. exact N.
Qed.
Lemma the_journey cs first last : pproper cs -> pfrom_to cs first last ->
  exists p, (forall t q, on_journey cs t q <-> first <= t <= last /\ q = p t) /\ (forall c, In c cs -> p (pat_time c) = pat_flight c) /\ (forall t, first < t < last -> carries_at p t).
Proof.
  intros H ((x & X & <-) & (y & Y & <-)). pose proof (pgood_proper cs H) as G. destruct H as (L & _). destruct cs as [|a [|b l]]; [cbn in L; lia|cbn in L; lia|]. injection X as <-.
  destruct (whole_journey l a b G) as (p & P1 & P2 & P3 & _). destruct (plast_time_nth (b :: l) a) as (c & C & T). rewrite C in Y. injection Y as <-. rewrite T. cbn [plast_time].
  exists p. split; [exact P1|]. split; [exact P2|]. intros t Ht. apply P3, Ht.
Qed.
