(** The exact time curve. *)
From Coq Require Import Reals Lra Lia List.
From Flocq Require Import Core BinarySingleNaN.
From Verif Require Import Cpp Vec RotSpec RotProofs DerivSpec DerivProofs FloatModel FloatSpec NrmSpec DriftModel DriftSpec SpinModel SpinSpec FtsModel FtsSpec FtsProofs5 FtcModel FtcSpec.
Import ListNotations.
Local Open Scope R_scope.

(** ** Gluing *)
Lemma dl_glue f g k t l : derivable_pt_lim f t l -> derivable_pt_lim g t l -> f t = g t -> (forall s, s <= t -> k s = f s) -> (forall s, t < s -> k s = g s) -> derivable_pt_lim k t l.
Proof.
  intros F G E L H eps P. destruct (F eps P) as [d1 D1]. destruct (G eps P) as [d2 D2]. assert (M : 0 < Rmin d1 d2) by (apply Rmin_pos; [apply d1|apply d2]).
  exists (mkposreal _ M). cbn. intros h H0 H1. pose proof (Rmin_l d1 d2). pose proof (Rmin_r d1 d2). rewrite (L t) by lra.
  destruct (Rle_or_lt h 0) as [N|N].
  - rewrite L by lra. apply D1; [exact H0|lra].
  - rewrite H, E by lra. apply D2; [exact H0|lra].
Qed.
Lemma dV_glue f g k t l : dV f t l -> dV g t l -> f t = g t -> (forall s, s <= t -> k s = f s) -> (forall s, t < s -> k s = g s) -> dV k t l.
Proof.
  intros (F1 & F2 & F3) (G1 & G2 & G3) E L H. split; [|split]; [apply (dl_glue (fun s => vx (f s)) (fun s => vx (g s)))|apply (dl_glue (fun s => vy (f s)) (fun s => vy (g s)))|apply (dl_glue (fun s => vz (f s)) (fun s => vz (g s)))]; try assumption; try congruence; intros s Hs; rewrite ?L, ?H by exact Hs; reflexivity.
Qed.
Lemma dV_near f g t l r : 0 < r -> (forall s, Rabs (s - t) < r -> f s = g s) -> dV f t l -> dV g t l.
Proof. intros R E (F1 & F2 & F3). split; [|split]; [apply (dl_ext_near (fun s => vx (f s)) _ t _ r)|apply (dl_ext_near (fun s => vy (f s)) _ t _ r)|apply (dl_ext_near (fun s => vz (f s)) _ t _ r)]; try assumption; intros s Hs; rewrite E by exact Hs; reflexivity. Qed.
Lemma moves_glue p q k t : moves_at p t -> moves_at q t -> p t = q t -> (forall s, s <= t -> k s = p s) -> (forall s, t < s -> k s = q s) -> moves_at k t.
Proof.
  intros [P1 P2] [Q1 Q2] E L H. unfold moves_at. rewrite (L t) by lra. split.
  - intro v. apply (dV_glue (fun s => mvec (rot (p s)) v) (fun s => mvec (rot (q s)) v)).
    + apply P1.
    + rewrite E. apply Q1.
    + cbv beta. rewrite E. reflexivity.
    + intros s Hs. rewrite L by exact Hs. reflexivity.
    + intros s Hs. rewrite H by exact Hs. reflexivity.
  - apply (dV_glue (fun s => vel (p s)) (fun s => vel (q s))).
    + apply P2.
    + rewrite E. apply Q2.
    + rewrite E. reflexivity.
    + intros s Hs. rewrite L by exact Hs. reflexivity.
    + intros s Hs. rewrite H by exact Hs. reflexivity.
Qed.
Lemma moves_near p q t r : 0 < r -> (forall s, Rabs (s - t) < r -> p s = q s) -> moves_at p t -> moves_at q t.
Proof.
  intros R E [P1 P2]. assert (T : p t = q t) by (apply E; unfold Rminus; rewrite Rplus_opp_r, Rabs_R0; exact R). unfold moves_at. rewrite <- T. split.
  - intro v. apply (dV_near (fun s => mvec (rot (p s)) v) _ t _ r R); [|apply P1]. intros s Hs. rewrite E by exact Hs. reflexivity.
  - apply (dV_near (fun s => vel (p s)) _ t _ r R); [|apply P2]. intros s Hs. rewrite E by exact Hs. reflexivity.
Qed.

(** ** One piece *)
Lemma units_back d x : d <> 0 -> in_units (/ d) (in_units d x) = x.
Proof. intro D. destruct x as [r [a b c] [a' b' c']]. unfold in_units, vscale. cbn [rot vel acc vx vy vz]. f_equal; f_equal; field; exact D. Qed.
Lemma moves_units p a d : d <> 0 -> moves p -> moves (fun t => in_units (/ d) (p ((t - a) / d))).
Proof.
  intros D M t. assert (L : derivable_pt_lim (fun s => (s - a) / d) t (/ d)).
  { apply (dl_ext (fun s => / d * s + - a / d)); [intro s; field; exact D|]. eapply dl_eq; [apply dl_plus; [apply dl_mult; [apply dl_const|apply dl_id]|apply dl_const]|]. cbv beta. ring. }
  destruct (M ((t - a) / d)) as [M1 M2]. split; cbn [in_units rot vel acc].
  - intro v. eapply dV_eq; [exact (dV_chain _ _ t _ _ L (M1 v))|]. generalize (vel (p ((t - a) / d))), (mvec (rot (p ((t - a) / d))) v). intros [x1 x2 x3] [y1 y2 y3]. unfold vscale, cross. cbn [vx vy vz]. f_equal; ring.
  - eapply dV_eq; [apply dV_scale_r; exact (dV_chain _ _ t _ _ L M2)|]. generalize (acc (p ((t - a) / d))). intros [x1 x2 x3]. unfold vscale. cbn [vx vy vz]. f_equal; ring.
Qed.
Definition good_pair (a b : control) : Prop := is_rotation (rot (at_state a)) /\ is_rotation (rot (at_state b)) /\ at_time a < at_time b /\
  exists w, rotation_by w (mmul (rot (at_state b)) (mtrans (rot (at_state a)))) /\ norm w <= 3.
Lemma the_piece a b : good_pair a b -> exists p, (forall t q, on_piece a b t q <-> at_time a <= t <= at_time b /\ q = p t) /\ p (at_time a) = at_state a /\ p (at_time b) = at_state b /\ moves p.
Proof.
  intros (Ra & Rb & T & W). set (d := at_time b - at_time a). assert (D : d <> 0) by (unfold d; lra).
  destruct (the_way (in_units d (at_state a)) (in_units d (at_state b)) Ra Rb W) as (p & B & P0 & P1 & M).
  exists (fun t => in_units (/ d) (p ((t - at_time a) / d))). split; [|split; [|split]].
  - intros t q. unfold on_piece. cbv zeta. fold d. split.
    + intros [H (q' & Q & ->)]. split; [exact H|]. apply B in Q. rewrite Q. reflexivity.
    + intros [H ->]. split; [exact H|]. exists (p ((t - at_time a) / d)). split; [apply B; reflexivity|reflexivity].
  - replace ((at_time a - at_time a) / d) with 0 by (field; exact D). rewrite P0. apply units_back, D.
  - replace ((at_time b - at_time a) / d) with 1 by (unfold d; field; exact D). rewrite P1. apply units_back, D.
  - apply moves_units; assumption.
Qed.

(** ** All of it *)
Lemma follow_cons {A} (x y : A) l i a b : follow (x :: y :: l) i a b <-> (i = 0%nat /\ a = x /\ b = y) \/ (exists j, i = S j /\ follow (y :: l) j a b).
Proof.
  split.
  - intros [A1 A2]. destruct i as [|j]; [left; cbn in A1, A2; repeat split; congruence|right; exists j; split; [reflexivity|split; assumption]].
  - intros [(-> & -> & ->)|(j & -> & A1 & A2)]; split; try reflexivity; assumption.
Qed.
Fixpoint good (cs : list control) : Prop :=
  match cs with
  | a :: (b :: _) as l => good_pair a b /\ good l
  | _ => True
  end.
Lemma good_proper cs : proper cs -> good cs.
Proof.
  intros (_ & R & F). induction cs as [|a [|b l] IH]; try exact I. cbn [good]. inversion R as [|? ? Ra Rl]; subst. split.
  - split; [exact Ra|]. inversion Rl; subst. split; [assumption|]. apply (F 0%nat a b). split; reflexivity.
  - apply IH; [exact Rl|]. intros i x y H. apply (F (S i)). apply follow_cons. right. exists i. auto.
Qed.
Fixpoint last_time (a : control) (l : list control) : R := match l with [] => at_time a | b :: l => last_time b l end.
Lemma last_time_after l : forall a, good (a :: l) -> at_time a <= last_time a l.
Proof. induction l as [|b l IH]; intros a G; [cbn; lra|]. destruct G as [(_ & _ & T & _) G]. specialize (IH b G). cbn [last_time]. lra. Qed.
Lemma whole_way l : forall a b, good (a :: b :: l) -> exists p, (forall t q, on_tcurve (a :: b :: l) t q <-> at_time a <= t <= last_time b l /\ q = p t) /\
  (forall c, In c (a :: b :: l) -> p (at_time c) = at_state c) /\ (forall t, t < last_time b l -> moves_at p t) /\ (forall t, at_time b <= t -> on_tcurve (a :: b :: l) t (p t) \/ last_time b l < t).
Proof.
  induction l as [|c l IH]; intros a b [G1 G2]; destruct (the_piece a b G1) as (p & P & Pa & Pb & M).
  - cbn [last_time]. exists p. split; [|split; [|split]].
    + intros t q. rewrite <- P. unfold on_tcurve. split.
      * intros (i & x & y & F & H). apply follow_cons in F. destruct F as [(_ & -> & ->)|(j & _ & _ & F)]; [exact H|]. destruct j; discriminate F.
      * intro H. exists 0%nat, a, b. split; [split; reflexivity|exact H].
    + intros c [<-|[<-|[]]]; assumption.
    + intros t _. apply M.
    + intros t H. destruct (Rle_or_lt t (at_time b)) as [L|L]; [left|right; exact L]. exists 0%nat, a, b. split; [split; reflexivity|]. apply P. split; [|reflexivity]. destruct G1 as (_ & _ & T & _). lra.
  - destruct (IH b c G2) as (r & Q & Qc & N & _). pose proof (last_time_after (c :: l) b G2) as LT. cbn [last_time] in *. destruct G1 as (_ & _ & T & _). destruct G2 as [(_ & _ & Tc & _) G3].
    pose proof (last_time_after l c G3) as LTc.
    assert (E : p (at_time b) = r (at_time b)) by (rewrite Pb, Qc by (left; reflexivity); reflexivity).
    set (k := fun t => if Rle_dec t (at_time b) then p t else r t).
    assert (KL : forall t, t <= at_time b -> k t = p t) by (intros t H; unfold k; destruct (Rle_dec t (at_time b)); [reflexivity|lra]).
    assert (KH : forall t, at_time b < t -> k t = r t) by (intros t H; unfold k; destruct (Rle_dec t (at_time b)); [lra|reflexivity]).
    assert (KE : forall t, at_time b <= t -> k t = r t) by (intros t [H|<-]; [apply KH, H|rewrite KL by lra; exact E]).
    assert (ON : forall t q, on_tcurve (a :: b :: c :: l) t q <-> on_piece a b t q \/ on_tcurve (b :: c :: l) t q).
    { intros t q. unfold on_tcurve. split.
      - intros (i & x & y & F & H). apply follow_cons in F. destruct F as [(_ & -> & ->)|(j & _ & F)]; [left; exact H|right; exists j, x, y; auto].
      - intros [H|(j & x & y & F & H)]; [exists 0%nat, a, b; split; [split; reflexivity|exact H]|exists (S j), x, y; split; [apply follow_cons; right; exists j; auto|exact H]]. }
    assert (ONK : forall t q, on_tcurve (a :: b :: c :: l) t q <-> at_time a <= t <= last_time c l /\ q = k t).
    { intros t q. rewrite ON, P, Q. split.
      - intros [[H ->]|[H ->]]; (split; [lra|]); symmetry; [apply KL|apply KE]; lra.
      - intros [H ->]. destruct (Rle_or_lt t (at_time b)) as [L|L]; [left; split; [lra|apply KL, L]|right; split; [lra|apply KH, L]]. }
    exists k. split; [exact ONK|]. split; [|split].
    + intros x [<-|I]; [rewrite KL by lra; exact Pa|]. rewrite KE; [apply Qc, I|]. clear - I Tc G3 LTc.
      assert (Z : forall l c x, good (c :: l) -> In x l -> at_time c <= at_time x).
      { clear. induction l as [|d l IH]; intros c x G I; [contradiction|]. destruct G as [(_ & _ & T & _) G]. destruct I as [<-|I]; [lra|]. specialize (IH d x G I). lra. }
      destruct I as [<-|[<-|I]]; [lra|lra|]. specialize (Z l c x G3 I). lra.
    + intros t H. destruct (Rtotal_order t (at_time b)) as [L|[->|L]].
      * apply (moves_near p k t (at_time b - t)); [lra| |apply M]. intros s Hs. symmetry. apply KL. apply Rabs_def2 in Hs. lra.
      * apply (moves_glue p r); [apply M|apply N; exact H|exact E|exact KL|exact KH].
      * apply (moves_near r k t (t - at_time b)); [lra| |apply N; exact H]. intros s Hs. symmetry. apply KH. apply Rabs_def2 in Hs. lra.
    + intros t H. destruct (Rle_or_lt t (last_time c l)) as [L|L]; [left|right; exact L]. apply ONK. split; [lra|reflexivity].
Qed.
Lemma last_time_nth l : forall a, exists c, nth_error (a :: l) (length (a :: l) - 1) = Some c /\ at_time c = last_time a l.
Proof.
  induction l as [|b l IH]; intro a; [exists a; auto|]. destruct (IH b) as (c & N & T). exists c. cbn [last_time]. split; [|exact T]. cbn [length] in *. replace (S (S (length l)) - 1)%nat with (S (S (length l) - 1)) by lia. exact N.
Qed.
Lemma the_curve cs first last : proper cs -> from_to cs first last ->
  exists p, (forall t q, on_tcurve cs t q <-> first <= t <= last /\ q = p t) /\ (forall c, In c cs -> p (at_time c) = at_state c) /\ (forall t, first < t < last -> moves_at p t).
Proof.
  intros H ((x & X & <-) & (y & Y & <-)). pose proof (good_proper cs H) as G. destruct H as (L & _). destruct cs as [|a [|b l]]; [cbn in L; lia|cbn in L; lia|]. injection X as <-.
  destruct (whole_way l a b G) as (p & P1 & P2 & P3 & _). destruct (last_time_nth (b :: l) a) as (c & C & T). rewrite C in Y. injection Y as <-. rewrite T. cbn [last_time].
  exists p. split; [exact P1|]. split; [exact P2|]. intros t Ht. apply P3, Ht.
Qed.
