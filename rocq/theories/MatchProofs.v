(** Overload resolution as computed is overload resolution as specified. *)
From Coq Require Import List Arith Bool Lia Permutation FinFun.
From Verif Require Import MatchModel MatchSpec.
Import ListNotations.

Lemma cty_eqb_eq a b : cty_eqb a b = true <-> a = b.
Proof.
  destruct a, b; cbn; split; intro H; try reflexivity; try discriminate; [apply Nat.eqb_eq in H; congruence|injection H as H; apply Nat.eqb_eq; exact H].
Qed.
Lemma cty_eqb_refl a : cty_eqb a a = true.
Proof. apply cty_eqb_eq. reflexivity. Qed.
Lemma cty_eqb_neq a b : cty_eqb a b = false <-> a <> b.
Proof. rewrite <- cty_eqb_eq. destruct (cty_eqb a b); split; congruence. Qed.

Lemma value_rank_is a p r : value_rank a p = Some r <-> converts a p r.
Proof.
  unfold value_rank. destruct (cty_eqb a p) eqn:E.
  - apply cty_eqb_eq in E. subst p. split.
    + intro H. injection H as H. subst r. constructor.
    + intro H. inversion H; subst; [reflexivity|contradiction].
  - apply cty_eqb_neq in E. split.
    + intro H. destruct a, p; try congruence; injection H as H; subst r; constructor; try discriminate; try (intros n0 K; discriminate K); intros [K [K1|K1]]; discriminate.
    + intro H. inversion H; subst; try contradiction; try reflexivity.
      destruct a as [| | | |n], p as [| | | |m]; try reflexivity; try (exfalso; congruence).
      all: try (exfalso; apply H3; split; [reflexivity|tauto]).
      all: try (exfalso; eapply H1; reflexivity).
      all: try (exfalso; eapply H0; reflexivity).
Qed.
Lemma becomes_is p a c d : becomes a c p d <-> deduce p a c = d.
Proof.
  split.
  - intro H. inversion H; subst; cbn; rewrite ?H0; try reflexivity; destruct (is_const c); reflexivity.
  - intro H. destruct p as [e|m k]; cbn in H; subst d; [constructor|]. destruct m; [constructor| |]; destruct k; cbn.
    + rewrite ?orb_true_l. constructor.
    + rewrite ?orb_false_l. constructor.
    + constructor.
    + destruct (is_lvalue c) eqn:E; constructor; exact E.
Qed.
Lemma fits_is a c p r : fits a c p = Some r <-> binds a c p r.
Proof.
  destruct p as [m k t]. unfold fits. cbn [mode pconst ptype]. split.
  - destruct m; intro H.
    + apply value_rank_is in H. constructor. exact H.
    + destruct (cty_eqb a t) eqn:E.
      * apply cty_eqb_eq in E. subst t. destruct k; cbn in H; [injection H as H; subst r; constructor|].
        destruct (is_lvalue c) eqn:L; cbn in H; [|discriminate H]. destruct (is_const c) eqn:K; cbn in H; [discriminate H|]. injection H as H. subst r. constructor; assumption.
      * apply cty_eqb_neq in E. destruct k; [|discriminate H]. apply value_rank_is in H. apply binds_temporary; [congruence|exact H|right; split; reflexivity].
    + destruct (cty_eqb a t) eqn:E.
      * apply cty_eqb_eq in E. subst t. destruct (is_lvalue c) eqn:L; cbn in H; [discriminate H|]. destruct k; cbn in H.
        -- injection H as H. subst r. constructor; [exact L|reflexivity].
        -- destruct (is_const c) eqn:K; cbn in H; [discriminate H|]. injection H as H. subst r. constructor; [exact L|congruence].
      * apply cty_eqb_neq in E. apply value_rank_is in H. apply binds_temporary; [congruence|exact H|left; reflexivity].
  - intro H. inversion H as [k0 t0 r0 V|L K| |k0 L K|m0 k0 t0 r0 N V D]; subst.
    + apply value_rank_is. exact V.
    + rewrite cty_eqb_refl, L, K. reflexivity.
    + rewrite cty_eqb_refl. reflexivity.
    + rewrite cty_eqb_refl, L. cbn. destruct (is_const c) eqn:E; [rewrite (K eq_refl); reflexivity|]. destruct k; reflexivity.
    + assert (E : cty_eqb a t = false) by (apply cty_eqb_neq; congruence). rewrite E. apply value_rank_is in V.
      destruct D as [->|[-> ->]]; exact V.
Qed.
Lemma takes_is bs a c i b p r : takes bs a c i b p r <-> candidate bs a c i = Some (b, r, p).
Proof.
  unfold takes, candidate. split.
  - intros (N & B & F). rewrite N. apply becomes_is in B. rewrite B. apply fits_is in F. rewrite F. reflexivity.
  - destruct (nth_error bs i) as [b'|]; [|discriminate]. destruct (fits a c (deduce (bparam b') a c)) as [r'|] eqn:F; [|discriminate]. intro H. injection H as <- <- <-.
    split; [reflexivity|]. split; [apply becomes_is; reflexivity|apply fits_is; exact F].
Qed.
Lemma rank_is r1 r2 : (rank_nat r1 <? rank_nat r2) = true <-> better_rank r1 r2.
Proof. split; intro H; [destruct r1, r2; try discriminate H; constructor|destruct H; reflexivity]. Qed.
Lemma conv_better_is r1 p1 r2 p2 : conv_better r1 p1 r2 p2 = true <-> better_conversion r1 p1 r2 p2.
Proof.
  unfold conv_better. destruct p1 as [m1 k1 t1], p2 as [m2 k2 t2]. cbn [mode pconst ptype by_ref]. split.
  - intro H. apply orb_true_iff in H. destruct H as [H|H]; [apply better_by_rank, rank_is; exact H|].
    apply andb_true_iff in H. destruct H as [H T]. apply andb_true_iff in H. destruct H as [H R2]. apply andb_true_iff in H. destruct H as [Q R1].
    assert (r1 = r2) by (apply Nat.eqb_eq in Q; destruct r1, r2; try discriminate Q; reflexivity). subst r2.
    apply orb_true_iff in T. destruct T as [T|T]; [destruct m1, m2; try discriminate T; apply better_by_rvalue|].
    apply andb_true_iff in T. destruct T as [T K2]. apply andb_true_iff in T. destruct T as [T K1]. apply cty_eqb_eq in T. subst t2 k2. destruct k1; [discriminate K1|].
    apply better_by_const; intro E; subst; discriminate.
  - intro H. inversion H; subst.
    + match goal with X : better_rank _ _ |- _ => apply rank_is in X; rewrite X; reflexivity end.
    + rewrite Nat.eqb_refl. cbn. apply orb_true_r.
    + rewrite Nat.eqb_refl, cty_eqb_refl. destruct m1; [congruence| |]; destruct m2; try congruence; cbn; rewrite ?orb_true_r; reflexivity.
Qed.
Lemma special_is p1 p2 : more_special p1 p2 = true <-> special p1 p2.
Proof.
  split.
  - destruct p1 as [d|[] []], p2 as [d2|[] []]; cbn; intro H; try discriminate H; try apply special_declared; try apply special_lref; apply special_const; discriminate.
  - intro H. inversion H; subst; cbn; try reflexivity; [destruct k1; reflexivity|destruct m; [congruence|reflexivity..]].
Qed.
Lemma prefers_is b1 r1 p1 b2 r2 p2 : prefers b1 r1 p1 b2 r2 p2 = true <-> better b1 p1 r1 b2 p2 r2.
Proof.
  unfold prefers, better. rewrite <- !conv_better_is, <- special_is. destruct (mutable b1), (mutable b2), (conv_better r1 p1 r2 p2), (conv_better r2 p2 r1 p1), (more_special (bparam b1) (bparam b2)); cbn; intuition congruence.
Qed.
Lemma wins_is bs a c i : wins bs a c i = true <-> exists p, best bs a c i p.
Proof.
  unfold wins, best. destruct (candidate bs a c i) as [[[b r] p]|] eqn:E.
  - rewrite forallb_forall. split.
    + intro H. exists p, b, r. split; [apply takes_is; exact E|]. intros j b' p' r' N T. assert (T0 := T). apply takes_is in T. specialize (H j). rewrite T in H.
      destruct T0 as (T0 & _). assert (L : j < length bs) by (apply nth_error_Some; congruence). assert (I : In j (seq 0 (length bs))) by (apply in_seq; lia). apply H in I.
      apply orb_true_iff in I. destruct I as [I|I]; [apply Nat.eqb_eq in I; contradiction|]. apply prefers_is. exact I.
    + intros (p0 & b0 & r0 & T & H) j I. apply takes_is in T. rewrite E in T. injection T as <- <- <-. destruct (Nat.eqb_spec j i) as [->|N]; [reflexivity|]. cbn.
      destruct (candidate bs a c j) as [[[b' r'] p']|] eqn:J; [|reflexivity]. apply prefers_is. apply (H j); [exact N|apply takes_is; exact J].
  - split; [discriminate|]. intros (p & b & r & T & _). apply takes_is in T. congruence.
Qed.
(** Two branches are not both better than the other. *)
Lemma better_asym b1 p1 r1 b2 p2 r2 : better b1 p1 r1 b2 p2 r2 -> better b2 p2 r2 b1 p1 r1 -> False.
Proof.
  intros (A & B & C) (A' & B' & C'). assert (X : mutable b1 = mutable b2) by (destruct (mutable b1), (mutable b2); intuition congruence).
  destruct C as [[C1 C2]|[C|C]]; [congruence|contradiction|]. destruct C' as [[C1 C2]|[C'|C']]; [congruence|contradiction|].
  destruct C; inversion C'; subst; try congruence.
Qed.
Lemma best_unique bs a c i p j q : best bs a c i p -> best bs a c j q -> i = j /\ p = q.
Proof.
  intros (b & r & T & H) (b' & r' & T' & H'). destruct (Nat.eq_dec i j) as [<-|N].
  - split; [reflexivity|]. apply takes_is in T, T'. congruence.
  - exfalso. apply (better_asym b p r b' q r'); [apply (H j); [congruence|exact T']|apply (H' i); [exact N|exact T]].
Qed.
Lemma select_is bs a c i : select bs a c = Some i <-> exists p, best bs a c i p.
Proof.
  unfold select. split.
  - intro H. apply find_some in H. apply wins_is. apply H.
  - intros [p B]. assert (W : wins bs a c i = true) by (apply wins_is; exists p; exact B). assert (I : In i (seq 0 (length bs))).
    { destruct B as (b & r & (N & _) & _). apply in_seq. assert (i < length bs) by (apply nth_error_Some; congruence). lia. }
    destruct (find (wins bs a c) (seq 0 (length bs))) as [j|] eqn:E.
    + apply find_some in E. destruct E as [_ E]. apply wins_is in E. destruct E as [q Q]. f_equal. destruct (best_unique _ _ _ _ _ _ _ Q B) as [K _]. exact K.
    + pose proof (find_none _ _ E i I) as K. congruence.
Qed.
Lemma select_none bs a c : select bs a c = None <-> forall i p, ~ best bs a c i p.
Proof.
  split.
  - intros H i p B. assert (select bs a c = Some i) by (apply select_is; exists p; exact B). congruence.
  - intro H. destruct (select bs a c) as [i|] eqn:E; [|reflexivity]. apply select_is in E. destruct E as [p B]. exfalso. exact (H i p B).
Qed.
Lemma best_candidate bs a c i p : best bs a c i p -> exists b r, candidate bs a c i = Some (b, r, p) /\ nth_error bs i = Some b.
Proof. intros (b & r & T & _). exists b, r. assert (T0 := T). apply takes_is in T0. split; [exact T0|apply T]. Qed.
Lemma result_type_is bs a c t : result_type bs a c = Some t <-> exists i p b, best bs a c i p /\ nth_error bs i = Some b /\ returns b p = t.
Proof.
  unfold result_type. split.
  - destruct (select bs a c) as [i|] eqn:E; [|discriminate]. apply select_is in E. destruct E as [p B]. destruct (best_candidate _ _ _ _ _ B) as (b & r & C & N). rewrite C. intro H. injection H as H. exists i, p, b. split; [exact B|]. split; assumption.
  - intros (i & p & b & B & N & R). assert (S : select bs a c = Some i) by (apply select_is; exists p; exact B). rewrite S. destruct (best_candidate _ _ _ _ _ B) as (b' & r & C & N'). rewrite C. congruence.
Qed.
Lemma handled_is alts c bs : alts <> [] -> (forallb (fun a => match select bs a c with Some _ => true | None => false end) alts && all_same (map (fun a => result_type bs a c) alts) = true <-> handled alts c bs).
Proof.
  intro NE. rewrite andb_true_iff, forallb_forall. unfold handled. split.
  - intros [A S]. destruct alts as [|a0 alts]; [congruence|]. cbn [map all_same] in S. rewrite forallb_forall in S.
    assert (R0 : exists t, result_type bs a0 c = Some t).
    { pose proof (A a0 (or_introl eq_refl)) as K. destruct (select bs a0 c) as [i|] eqn:E; [|discriminate K]. apply select_is in E. destruct E as [p B]. destruct (best_candidate _ _ _ _ _ B) as (b & r & C & N). exists (returns b p). apply result_type_is. exists i, p, b. auto. }
    destruct R0 as [t R0]. exists t. intros a [<-|I]; [apply result_type_is; exact R0|]. apply result_type_is. rewrite R0 in S. assert (I2 : In (result_type bs a c) (map (fun a => result_type bs a c) alts)) by (apply in_map_iff; exists a; auto).
    apply S in I2. destruct (result_type bs a c) as [t'|]; [|discriminate I2]. apply Nat.eqb_eq in I2. congruence.
  - intros [t H]. split.
    + intros a I. destruct (H a I) as (i & p & b & B & _). assert (S : select bs a c = Some i) by (apply select_is; exists p; exact B). rewrite S. reflexivity.
    + destruct alts as [|a0 alts]; [reflexivity|]. cbn [map all_same]. apply forallb_forall. intros x X. apply in_map_iff in X. destruct X as (a & <- & I).
      assert (E : forall a, In a (a0 :: alts) -> result_type bs a c = Some t) by (intros a' I'; apply result_type_is; apply H; exact I').
      rewrite (E a0 (or_introl eq_refl)), (E a (or_intror I)). apply Nat.eqb_refl.
Qed.
Lemma consistent_is alts bs : alts <> [] -> (branches_consistent alts bs = true <-> Forall (fun b => of_class b = true) bs /\ handled alts plain_rvalue bs).
Proof.
  intro NE. unfold branches_consistent, all_cases_invocable, all_invocations_match. rewrite <- (handled_is alts plain_rvalue bs NE), !andb_true_iff, Forall_forall, (forallb_forall of_class). tauto.
Qed.

(** The cases of compilation. *)
Lemma compiles_is alts c bs : alts <> [] ->
  (match_compiles alts c bs = NotConsidered <-> ~ (Forall (fun b => of_class b = true) bs /\ handled alts plain_rvalue bs)) /\
  (match_compiles alts c bs = Compiles <-> Forall (fun b => of_class b = true) bs /\ handled alts plain_rvalue bs /\ handled alts c bs).
Proof.
  intro NE. pose proof (consistent_is alts bs NE) as C. pose proof (handled_is alts c bs NE) as K. unfold match_compiles.
  destruct (branches_consistent alts bs).
  - destruct C as [C _]. specialize (C eq_refl). destruct (forallb _ alts && all_same _).
    + destruct K as [K _]. specialize (K eq_refl). split; split; intro H; try discriminate H; tauto.
    + destruct K as [_ K]. split; split; intro H; try discriminate H; try tauto. discriminate (K (proj2 (proj2 H))).
  - destruct C as [_ C]. split; split; intro H; try discriminate H; try reflexivity.
    + intro A. discriminate (C A).
    + discriminate (C (conj (proj1 H) (proj1 (proj2 H)))).
Qed.
(** What a compiled match does. *)
Lemma runs_is alts c bs : match_compiles alts c bs = Compiles -> match_runs alts c bs None = Some Throws /\
  forall k a, nth_error alts k = Some a -> exists i p, best bs a c i p /\ match_runs alts c bs (Some k) = Some (Calls i (ptype p)) /\ forall j q, best bs a c j q -> j = i /\ q = p.
Proof.
  intro H. split; [reflexivity|]. intros k a N. assert (NE : alts <> []) by (intro E; subst alts; destruct k; discriminate N). apply compiles_is in H; [|exact NE]. destruct H as (_ & _ & t & H).
  destruct (H a (nth_error_In _ _ N)) as (i & p & b & B & _). exists i, p. split; [exact B|]. split.
  - unfold match_runs. rewrite N. assert (S : select bs a c = Some i) by (apply select_is; exists p; exact B). rewrite S. destruct (best_candidate _ _ _ _ _ B) as (b' & r & C & _). rewrite C. reflexivity.
  - intros j q Q. destruct (best_unique _ _ _ _ _ _ _ Q B) as [-> ->]. auto.
Qed.
