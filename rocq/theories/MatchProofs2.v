(** What does and does not change the branch that is called. *)
From Coq Require Import List Arith Bool Lia Permutation FinFun.
From Verif Require Import MatchModel MatchSpec MatchProofs.
Import ListNotations.

(** The order of the branches. *)
Lemma perm_best bs bs' a c i p : Permutation bs bs' -> best bs a c i p -> exists i', best bs' a c i' p /\ nth_error bs' i' = nth_error bs i.
Proof.
  intros P (b & r & T & H). destruct (proj1 (Permutation_nth_error bs' bs) (Permutation_sym P)) as (L & f & I & E).
  assert (BF : bFun (length bs) f). { intros x Hx. rewrite <- L. apply nth_error_Some. rewrite <- E. apply nth_error_Some. exact Hx. }
  assert (BS : bSurjective (length bs) f). { apply bInjective_bSurjective; [exact BF|]. intros x y _ _ Q. apply I. exact Q. }
  exists (f i). split; [|symmetry; apply E]. exists b, r. split.
  - destruct T as (N & T). split; [|exact T]. rewrite <- E. exact N.
  - intros j b' p' r' N (N' & T'). assert (J : j < length bs) by (rewrite <- L; apply nth_error_Some; congruence). destruct (BS j J) as (j0 & _ & <-).
    apply (H j0); [congruence|]. split; [|exact T']. rewrite E. exact N'.
Qed.
Lemma perm_handled bs bs' alts c : Permutation bs bs' -> handled alts c bs -> handled alts c bs'.
Proof.
  intros P [t H]. exists t. intros a I. destruct (H a I) as (i & p & b & B & N & R). destruct (perm_best _ _ _ _ _ _ P B) as (i' & B' & N'). exists i', p, b. split; [exact B'|]. split; [congruence|exact R].
Qed.
Lemma perm_compiles bs bs' alts c : alts <> [] -> Permutation bs bs' -> match_compiles alts c bs = match_compiles alts c bs'.
Proof.
  intros NE P. assert (S : forall l l', Permutation l l' -> Forall (fun b => of_class b = true) l /\ handled alts plain_rvalue l -> Forall (fun b => of_class b = true) l' /\ handled alts plain_rvalue l').
  { intros l l' Q [A B]. split; [exact (Permutation_Forall Q A)|exact (perm_handled _ _ _ _ Q B)]. }
  destruct (compiles_is alts c bs NE) as [A B], (compiles_is alts c bs' NE) as [A' B'].
  destruct (match_compiles alts c bs) eqn:E.
  - symmetry. apply A'. intro K. apply (proj1 A eq_refl). exact (S _ _ (Permutation_sym P) K).
  - destruct (match_compiles alts c bs') eqn:E'; [|reflexivity|].
    + exfalso. apply (proj1 A' eq_refl). apply (S _ _ P). destruct (branches_consistent alts bs) eqn:C; [apply consistent_is in C; assumption|]. unfold match_compiles in E. rewrite C in E. discriminate E.
    + assert (K := proj1 B' eq_refl). assert (match_compiles alts c bs = Compiles); [|congruence]. rewrite E. apply B. destruct K as (K1 & K2 & K3).
      split; [exact (Permutation_Forall (Permutation_sym P) K1)|]. split; [exact (perm_handled _ _ _ _ (Permutation_sym P) K2)|exact (perm_handled _ _ _ _ (Permutation_sym P) K3)].
  - symmetry. apply B'. destruct (proj1 B eq_refl) as (K1 & K2 & K3). split; [exact (Permutation_Forall P K1)|]. split; [exact (perm_handled _ _ _ _ P K2)|exact (perm_handled _ _ _ _ P K3)].
Qed.
Lemma runs_calls alts c bs k a i t : nth_error alts k = Some a -> (match_runs alts c bs (Some k) = Some (Calls i t) <-> exists p, best bs a c i p /\ ptype p = t).
Proof.
  intro N. unfold match_runs. rewrite N. split.
  - destruct (select bs a c) as [j|] eqn:S; [|discriminate]. apply select_is in S. destruct S as [p B]. destruct (best_candidate _ _ _ _ _ B) as (b & r & C & _). rewrite C. intro H. injection H as <- H. exists p. split; assumption.
  - intros (p & B & <-). assert (S : select bs a c = Some i) by (apply select_is; exists p; exact B). rewrite S. destruct (best_candidate _ _ _ _ _ B) as (b & r & C & _). rewrite C. reflexivity.
Qed.
Lemma perm_runs bs bs' alts c k i t : Permutation bs bs' -> match_runs alts c bs (Some k) = Some (Calls i t) -> exists i', match_runs alts c bs' (Some k) = Some (Calls i' t) /\ nth_error bs' i' = nth_error bs i.
Proof.
  intros P H. destruct (nth_error alts k) as [a|] eqn:N; [|unfold match_runs in H; rewrite N in H; discriminate H]. apply (runs_calls _ _ _ _ a) in H; [|exact N]. destruct H as (p & B & T).
  destruct (perm_best _ _ _ _ _ _ P B) as (i' & B' & E). exists i'. split; [|exact E]. apply (runs_calls _ _ _ _ a); [exact N|]. exists p. split; assumption.
Qed.

(** Branches by value and by const reference do not see what kind of variant it is. *)
Lemma plain_becomes p a c c' d : plain p -> becomes a c p d -> becomes a c' p d /\ (mode d = ByValue \/ (mode d = ByLRef /\ pconst d = true)).
Proof.
  intros P B. inversion B; subst; cbn in P.
  - split; [constructor|exact P].
  - split; [constructor|left; reflexivity].
  - destruct P as [P|[_ P]]; discriminate P.
  - split; [constructor|right; split; reflexivity].
  - destruct P as [P|[P _]]; discriminate P.
  - destruct P as [P|[P _]]; discriminate P.
  - destruct P as [P|[P _]]; discriminate P.
Qed.
Lemma plain_binds d a c c' r : mode d = ByValue \/ (mode d = ByLRef /\ pconst d = true) -> binds a c d r -> binds a c' d r.
Proof.
  intros P B. inversion B as [k t r0 V|L K| |k L K|m k t r0 N V D]; subst; cbn in P.
  - constructor. exact V.
  - destruct P as [P|[_ P]]; discriminate P.
  - constructor.
  - destruct P as [P|[P _]]; discriminate P.
  - apply binds_temporary; assumption.
Qed.
Lemma plain_takes bs a c c' i b p r : Forall (fun b => plain (bparam b)) bs -> takes bs a c i b p r -> takes bs a c' i b p r.
Proof.
  intros F (N & B & T). assert (P : plain (bparam b)) by (rewrite Forall_forall in F; apply F; exact (nth_error_In _ _ N)). destruct (plain_becomes _ _ _ c' _ P B) as [B' M]. split; [exact N|]. split; [exact B'|exact (plain_binds _ _ _ c' _ M T)].
Qed.
Lemma plain_best bs a c c' i p : Forall (fun b => plain (bparam b)) bs -> best bs a c i p -> best bs a c' i p.
Proof.
  intros F (b & r & T & H). exists b, r. split; [exact (plain_takes _ _ _ c' _ _ _ _ F T)|]. intros j b' p' r' N T'. apply (H j); [exact N|exact (plain_takes _ _ _ c _ _ _ _ F T')].
Qed.
Lemma plain_handled bs alts c c' : Forall (fun b => plain (bparam b)) bs -> handled alts c bs -> handled alts c' bs.
Proof. intros F [t H]. exists t. intros a I. destruct (H a I) as (i & p & b & B & R). exists i, p, b. split; [exact (plain_best _ _ _ c' _ _ F B)|exact R]. Qed.
Lemma plain_compiles bs alts c c' : alts <> [] -> Forall (fun b => plain (bparam b)) bs ->
  match_compiles alts c bs <> IllFormed /\ match_compiles alts c bs = match_compiles alts c' bs /\ forall k, match_runs alts c bs (Some k) = match_runs alts c' bs (Some k).
Proof.
  intros NE F. assert (K : forall c, match_compiles alts c bs = if branches_consistent alts bs then Compiles else NotConsidered).
  { intro c0. destruct (branches_consistent alts bs) eqn:E; [|unfold match_compiles; rewrite E; reflexivity]. apply consistent_is in E; [|exact NE]. destruct E as [E1 E2]. apply compiles_is; [exact NE|]. split; [exact E1|]. split; [exact E2|exact (plain_handled _ _ _ c0 F E2)]. }
  split; [rewrite K; destruct (branches_consistent alts bs); discriminate|]. split; [rewrite !K; reflexivity|]. intro k. unfold match_runs. destruct (nth_error alts k) as [a|]; [|reflexivity].
  destruct (select bs a c) as [i|] eqn:S.
  - apply select_is in S. destruct S as [p B]. pose proof (plain_best _ _ _ c' _ _ F B) as B'. assert (S' : select bs a c' = Some i) by (apply select_is; exists p; exact B'). rewrite S'.
    destruct (best_candidate _ _ _ _ _ B) as (b & r & C & _), (best_candidate _ _ _ _ _ B') as (b' & r' & C' & _). rewrite C, C'. reflexivity.
  - assert (S' : select bs a c' = None) by (apply select_none; intros i p B; apply (proj1 (select_none bs a c) S i p); exact (plain_best _ _ _ c _ _ F B)). rewrite S'. reflexivity.
Qed.

(** Generic branches take everything as it is. *)
Lemma generic_takes a c m k : takes_all (Generic m k) -> exists p, becomes a c (Generic m k) p /\ binds a c p Exact /\ ptype p = a.
Proof.
  intros [[->|[-> ->]]|E].
  - eexists. split; [constructor|]. split; [constructor; constructor|reflexivity].
  - eexists. split; [constructor|]. split; [constructor|reflexivity].
  - injection E as -> ->. destruct (is_lvalue c) eqn:L.
    + eexists. split; [constructor; exact L|]. split; [|reflexivity]. destruct (is_const c) eqn:K; [constructor|constructor; assumption].
    + eexists. split; [apply becomes_forwarding_r; exact L|]. split; [|reflexivity]. constructor; [exact L|intro H; exact H].
Qed.
Lemma exact_type a c p : binds a c p Exact -> ptype p = a.
Proof.
  intro B. inversion B as [k t r0 V|L K| |k L K|m k t r0 N V D]; subst; try reflexivity; inversion V; subst; try reflexivity; contradiction.
Qed.
Lemma not_better_exact p r q : ~ better_conversion Exact p r q -> r = Exact.
Proof. intro H. destruct r; [reflexivity|exfalso; apply H; apply better_by_rank; constructor..]. Qed.
Lemma never_converts bs alts c k a i t : Exists (fun b => exists m g, bparam b = Generic m g /\ takes_all (bparam b)) bs -> nth_error alts k = Some a ->
  match_runs alts c bs (Some k) = Some (Calls i t) -> t = a.
Proof.
  intros X N R. apply (runs_calls _ _ _ _ a) in R; [|exact N]. destruct R as (p & (b & r & T & H) & <-). apply Exists_exists in X. destruct X as (b' & I & m & g & E & TA). rewrite E in TA.
  destruct (generic_takes a c m g TA) as (p' & B' & F' & P'). destruct (In_nth_error _ _ I) as [j J]. assert (T' : takes bs a c j b' p' Exact) by (split; [exact J|]; split; [rewrite E; exact B'|exact F']).
  destruct (Nat.eq_dec j i) as [->|D].
  - apply takes_is in T, T'. congruence.
  - destruct (H j _ _ _ D T') as (_ & K & _). apply not_better_exact in K. subst r. apply (exact_type a c). apply T.
Qed.
Lemma plain_not_better p1 p2 : mode p1 = ByValue \/ (mode p1 = ByLRef /\ pconst p1 = true) -> ~ better_conversion Exact p1 Exact p2.
Proof.
  intros P B. inversion B as [r1 q1 r2 q2 K|r k1 t1 k2 t2|r m1 m2 t M1 M2]; subst; [inversion K|destruct P as [P|[P _]]; discriminate P|destruct P as [P|[_ P]]; [contradiction|discriminate P]].
Qed.
Lemma own_first bs alts c k a i t : Forall (fun b => plain (bparam b) /\ mutable b = false) bs -> Exists (fun b => exists m g, bparam b = Declared (DParam m g a)) bs -> nth_error alts k = Some a ->
  match_runs alts c bs (Some k) = Some (Calls i t) -> exists b m g, nth_error bs i = Some b /\ bparam b = Declared (DParam m g a).
Proof.
  intros F X N R. apply (runs_calls _ _ _ _ a) in R; [|exact N]. destruct R as (p & (b & r & T & H) & <-). apply Exists_exists in X. destruct X as (b' & I & m & g & E). rewrite Forall_forall in F. destruct (F _ I) as [Pl' Mu'].
  destruct (In_nth_error _ _ I) as [j J]. assert (T' : takes bs a c j b' (DParam m g a) Exact).
  { split; [exact J|]. split; [rewrite E; constructor|]. rewrite E in Pl'. cbn in Pl'. destruct Pl' as [->|[-> ->]]; [constructor; constructor|constructor]. }
  exists b. destruct (Nat.eq_dec j i) as [->|D]; [exists m, g; apply takes_is in T, T'; rewrite T in T'; injection T' as -> _ _; split; [exact J|exact E]|].
  destruct (H j _ _ _ D T') as (_ & K & W). apply not_better_exact in K. subst r. destruct T as (Ni & Bi & Fi). destruct (F _ (nth_error_In _ _ Ni)) as [Pl Mu]. destruct (plain_becomes _ _ _ c _ Pl Bi) as [_ M].
  destruct W as [[W _]|[W|W]]; [congruence|exfalso; exact (plain_not_better _ _ M W)|]. rewrite E in W. inversion W.
Qed.

(** A branch for every alternative. *)
Lemma Forall2_at {A B} (P : A -> B -> Prop) l l' : Forall2 P l l' -> forall i, match nth_error l i, nth_error l' i with Some x, Some y => P x y | None, None => True | _, _ => False end.
Proof. induction 1 as [|x y l l' H F IH]; intros [|i]; cbn; auto. apply IH. Qed.
Lemma own_best t bs own a c : Forall2 (branch_for t) bs own -> NoDup own -> In a own -> exists i p b, best bs a c i p /\ nth_error bs i = Some b /\ nth_error own i = Some a /\ returns b p = t /\ ptype p = a.
Proof.
  intros F D I. destruct (In_nth_error _ _ I) as [i Oi]. pose proof (Forall2_at _ _ _ F i) as K. rewrite Oi in K. destruct (nth_error bs i) as [b|] eqn:Ni; [|contradiction]. destruct K as (_ & Mu & Pl & (m & g & E) & R).
  exists i, (DParam m g a), b. split; [|split; [exact Ni|split; [exact Oi|split; [apply R|reflexivity]]]]. exists b, Exact. split.
  - split; [exact Ni|]. split; [rewrite E; constructor|]. rewrite E in Pl. cbn in Pl. destruct Pl as [->|[-> ->]]; [constructor; constructor|constructor].
  - intros j b' p' r' Nj (Ni' & B' & F'). pose proof (Forall2_at _ _ _ F j) as K. rewrite Ni' in K. destruct (nth_error own j) as [a'|] eqn:Oj; [|contradiction]. destruct K as (_ & Mu' & _ & (m' & g' & E') & _).
    rewrite E' in B'. inversion B'; subst p'. assert (Na : a' <> a). { intro Q. subst a'. apply Nj. apply (proj1 (NoDup_nth_error own) D); [apply nth_error_Some; congruence|congruence]. }
    assert (Rr : r' <> Exact) by (intro Q; subst r'; apply exact_type in F'; cbn in F'; congruence).
    assert (BR : better_rank Exact r') by (destruct r'; [congruence|constructor..]).
    split; [congruence|]. split; [|right; left; apply better_by_rank; exact BR]. intro Q. inversion Q as [r1 q1 r2 q2 W| |]; subst; [inversion W|congruence|congruence].
Qed.
Lemma own_compiles t bs own alts c : Forall2 (branch_for t) bs own -> NoDup own -> incl alts own -> alts <> [] -> match_compiles alts c bs = Compiles /\
  forall k a, nth_error alts k = Some a -> exists i, nth_error own i = Some a /\ match_runs alts c bs (Some k) = Some (Calls i a).
Proof.
  intros F D I NE. assert (H : forall c, handled alts c bs). { intro c0. exists t. intros a Ia. destruct (own_best t bs own a c0 F D (I a Ia)) as (i & p & b & B & N & _ & R & _). exists i, p, b. auto. }
  split.
  - apply compiles_is; [exact NE|]. split; [|split; apply H]. apply Forall_forall. intros b Ib. destruct (In_nth_error _ _ Ib) as [j J]. pose proof (Forall2_at _ _ _ F j) as K. rewrite J in K. destruct (nth_error own j); [|contradiction]. apply K.
  - intros k a N. destruct (own_best t bs own a c F D (I a (nth_error_In _ _ N))) as (i & p & b & B & _ & O & _ & P). exists i. split; [exact O|]. apply (runs_calls _ _ _ _ a); [exact N|]. exists p. split; assumption.
Qed.
