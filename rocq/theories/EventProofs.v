From Coq Require Import NArith Permutation Arith FinFun Sorted.
From Coq Require Import ZifyBool ZifyNat ZifyN.
From Verif Require Import Cpp EventModel EventSpec.
Local Open Scope nat_scope.
Ltac Zify.zify_post_hook ::= Z.div_mod_to_equations.

Section HeapProofs.
  Context {A : Type} (comp : A -> A -> bool).
  Local Notation le a b := (comp a b = false).
  Context (le_trans : forall a b c, le a b -> le b c -> le a c).
  Context (le_total : forall a b, comp a b = true -> le b a).

  Lemma upd_length (l : list A) i x : length (upd l i x) = length l.
  Proof. revert i; induction l as [|a l IH]; intros [|i]; cbn; auto. Qed.

  Lemma nth_upd_same (l : list A) i x : i < length l -> nth_error (upd l i x) i = Some x.
  Proof. revert i; induction l as [|a l IH]; intros [|i]; cbn; intro H; try lia; auto. apply IH; lia. Qed.

  Lemma nth_upd_other (l : list A) i j x : i <> j -> nth_error (upd l i x) j = nth_error l j.
  Proof.
    revert i j; induction l as [|a l IH]; intros [|i] [|j] H; cbn; auto; try lia.
  Qed.

  Lemma nth_upd (l : list A) i j x :
    nth_error (upd l i x) j =
      if Nat.eqb i j then (if Nat.ltb i (length l) then Some x else None) else nth_error l j.
  Proof.
    destruct (Nat.eqb_spec i j) as [->|Hn]; [|apply nth_upd_other, Hn].
    destruct (Nat.ltb_spec j (length l)); [apply nth_upd_same; assumption|].
    apply nth_error_None. rewrite upd_length. lia.
  Qed.

  Lemma nth_Some_lt (l : list A) i x : nth_error l i = Some x -> i < length l.
  Proof. intro H. apply nth_error_Some. congruence. Qed.

  Lemma list_ext (l l' : list A) : (forall i, nth_error l i = nth_error l' i) -> l = l'.
  Proof.
    revert l'; induction l as [|a l IH]; intros [|b l'] H; auto.
    - specialize (H 0). discriminate.
    - specialize (H 0). discriminate.
    - f_equal; [specialize (H 0); cbn in H; congruence|]. apply IH. intro i. apply (H (S i)).
  Qed.

  Definition swap i j k := if Nat.eqb k i then j else if Nat.eqb k j then i else k.

  (** Exchanging two elements is a permutation. *)
  Lemma swap_perm (l : list A) i j a b : nth_error l i = Some a -> nth_error l j = Some b ->
    Permutation l (upd (upd l i b) j a).
  Proof.
    intros Hi Hj. apply Permutation_nth_error. rewrite !upd_length. split; [reflexivity|].
    exists (swap i j). split.
    - intros x y. unfold swap.
      destruct (Nat.eqb_spec x i), (Nat.eqb_spec y i), (Nat.eqb_spec x j), (Nat.eqb_spec y j); lia.
    - intro n. rewrite !nth_upd, upd_length. unfold swap.
      apply nth_Some_lt in Hi as Li. apply nth_Some_lt in Hj as Lj.
      destruct (Nat.eqb_spec j n) as [->|].
      + destruct (Nat.ltb_spec n (length l)); [|lia].
        destruct (Nat.eqb_spec n i) as [->|]; [congruence|].
        rewrite Nat.eqb_refl. congruence.
      + destruct (Nat.eqb_spec i n) as [->|].
        * destruct (Nat.ltb_spec n (length l)); [|lia]. rewrite Nat.eqb_refl. congruence.
        * destruct (Nat.eqb_spec n i); [lia|]. destruct (Nat.eqb_spec n j); [lia|]. reflexivity.
  Qed.

  Definition par i := Nat.div (i - 1) 2.

  Definition heap (l : list A) : Prop :=
    forall i a b, 0 < i -> nth_error l (par i) = Some a -> nth_error l i = Some b -> le a b.

  (** Heap except that the element at [h] may come before its parent. *)
  Definition heap_up (l : list A) (h : nat) : Prop :=
    (forall i a b, 0 < i -> i <> h -> nth_error l (par i) = Some a ->
       nth_error l i = Some b -> le a b) /\
    (forall c a b, 0 < h -> 0 < c -> par c = h -> nth_error l (par h) = Some a ->
       nth_error l c = Some b -> le a b).

  (** Heap except at the element [h], whose neighbours are in order. *)
  Definition heap_down (l : list A) (h : nat) : Prop :=
    (forall i a b, 0 < i -> i <> h -> par i <> h -> nth_error l (par i) = Some a ->
       nth_error l i = Some b -> le a b) /\
    (forall c a b, 0 < h -> 0 < c -> par c = h -> nth_error l (par h) = Some a ->
       nth_error l c = Some b -> le a b).

  Lemma par_lt i : 0 < i -> par i < i.
  Proof. unfold par. intro. lia. Qed.

  Lemma upd_twice (l : list A) i x y : upd (upd l i x) i y = upd l i y.
  Proof.
    apply list_ext. intro k. rewrite !nth_upd, upd_length.
    destruct (Nat.eqb_spec i k); reflexivity.
  Qed.

  (** The result of push_up, in terms of the vector with the hole filled. *)
  Lemma push_up_ok fuel : forall l h v, h < fuel -> h < length l ->
    heap_up (upd l h v) h ->
    heap (push_up comp fuel l h v) /\ Permutation (upd l h v) (push_up comp fuel l h v).
  Proof.
    induction fuel as [|fuel IH]; intros l h v Hf Hl [H1 H2]; [lia|].
    cbn [push_up]. destruct (Nat.eqb_spec h 0) as [->|Hh].
    { split; [|reflexivity]. intros i a b Hi. apply H1; lia. }
    fold (par h). assert (Hp := par_lt h ltac:(lia)).
    destruct (nth_error l (par h)) as [p|] eqn:Ep.
    2:{ apply nth_error_None in Ep. lia. }
    destruct (comp p v) eqn:Ec.
    2:{ split; [|reflexivity]. intros i a b Hi Ha Hb.
        destruct (Nat.eq_dec i h) as [->|Hn]; [|eapply H1; eassumption].
        rewrite nth_upd_same in Hb by lia. rewrite nth_upd_other in Ha by lia. congruence. }
    assert (Hperm : Permutation (upd l h v) (upd (upd l h p) (par h) v)).
    { rewrite (swap_perm (upd l h v) h (par h) v p).
      - rewrite upd_twice. reflexivity.
      - apply nth_upd_same. lia.
      - rewrite nth_upd_other by lia. exact Ep. }
    assert (Hup : heap_up (upd (upd l h p) (par h) v) (par h)).
    { split.
      - intros i a b Hi Hn Ha Hb.
        rewrite !nth_upd, upd_length in Ha, Hb.
        destruct (Nat.eqb_spec (par h) i); [lia|].
        destruct (Nat.eqb_spec (par h) (par i)) as [Epp|Npp].
        + (* the parent of i now holds v *)
          destruct (Nat.ltb_spec (par h) (length l)); [|lia]. injection Ha as <-.
          destruct (Nat.eqb_spec h i) as [->|].
          * destruct (Nat.ltb_spec i (length l)); [|lia]. injection Hb as <-.
            apply le_total, Ec.
          * apply le_trans with p; [apply le_total, Ec|].
            apply (H1 i); [lia|lia| |].
            -- rewrite nth_upd_other by (rewrite <- Epp; lia). rewrite <- Epp. exact Ep.
            -- rewrite nth_upd_other by lia. exact Hb.
        + destruct (Nat.eqb_spec h (par i)) as [Ehp|].
          * (* the parent of i now holds p *)
            destruct (Nat.ltb_spec h (length l)); [|lia]. injection Ha as <-.
            destruct (Nat.eqb_spec h i); [pose proof (par_lt i Hi); lia|].
            apply (H2 i); [lia|lia|lia| |].
            -- rewrite nth_upd_other by lia. exact Ep.
            -- rewrite nth_upd_other by lia. exact Hb.
          * destruct (Nat.eqb_spec h i) as [->|]; [lia|].
            apply (H1 i); [lia|lia| |]; rewrite nth_upd_other by lia; assumption.
      - intros c a b Hph Hc Hpc Ha Hb.
        pose proof (par_lt (par h) Hph) as Hpp.
        rewrite !nth_upd, upd_length in Ha, Hb.
        destruct (Nat.eqb_spec (par h) (par (par h))); [lia|].
        destruct (Nat.eqb_spec h (par (par h))); [lia|].
        pose proof (par_lt c Hc).
        destruct (Nat.eqb_spec (par h) c); [lia|].
        assert (le a p) as Hap.
        { apply (H1 (par h)); [lia|lia| |]; rewrite nth_upd_other by lia; assumption. }
        destruct (Nat.eqb_spec h c) as [->|].
        + destruct (Nat.ltb_spec c (length l)); [|lia]. injection Hb as <-. exact Hap.
        + apply le_trans with p; [exact Hap|].
          apply (H1 c); [lia|lia| |].
          * rewrite nth_upd_other by lia. rewrite Hpc. exact Ep.
          * rewrite nth_upd_other by lia. exact Hb. }
    destruct (IH (upd l h p) (par h) v) as [I1 I2].
    - lia.
    - rewrite upd_length. lia.
    - exact Hup.
    - split; [exact I1|]. rewrite Hperm. exact I2.
  Qed.

  Lemma nth_app_last (l : list A) v i : nth_error (l ++ [v]) i =
    if Nat.eqb i (length l) then Some v else nth_error l i.
  Proof.
    destruct (Nat.eqb_spec i (length l)) as [->|Hn].
    - rewrite nth_error_app2, Nat.sub_diag by lia. reflexivity.
    - destruct (Nat.lt_ge_cases i (length l)).
      + apply nth_error_app1. lia.
      + rewrite nth_error_app2 by lia.
        replace (i - length l) with (S (i - length l - 1)) by lia. cbn.
        rewrite (proj2 (nth_error_None l i)) by lia.
        destruct (i - length l - 1); reflexivity.
  Qed.

  Lemma upd_last (l : list A) v : upd (l ++ [v]) (length l) v = l ++ [v].
  Proof.
    apply list_ext. intro i. rewrite nth_upd, !nth_app_last, app_length. cbn [length].
    destruct (Nat.eqb_spec (length l) i); [|reflexivity].
    destruct (Nat.eqb_spec i (length l)); [|lia].
    destruct (Nat.ltb_spec (length l) (length l + 1)); [reflexivity|lia].
  Qed.

  Lemma emplace_ok l v : heap l ->
    heap (emplace comp l v) /\ Permutation (v :: l) (emplace comp l v).
  Proof.
    intro H. unfold emplace.
    destruct (push_up_ok (S (length l)) (l ++ [v]) (length l) v) as [I1 I2].
    - lia.
    - rewrite app_length. cbn. lia.
    - rewrite upd_last. split.
      + intros i a b Hi Hn Ha Hb. rewrite nth_app_last in Ha, Hb.
        destruct (Nat.eqb_spec i (length l)); [lia|].
        apply nth_Some_lt in Hb as Lb. pose proof (par_lt i Hi).
        destruct (Nat.eqb_spec (par i) (length l)); [lia|]. eapply H; eassumption.
      + intros c a b Hh Hc Hpc Ha Hb. apply nth_Some_lt in Hb. rewrite app_length in Hb.
        cbn in Hb. pose proof (par_lt c Hc). lia.
    - split; [exact I1|]. rewrite <- I2, upd_last. rewrite Permutation_app_comm. reflexivity.
  Qed.

  (** The element at the root comes first. *)
  Lemma heap_root l : heap l -> forall i r x, nth_error l 0 = Some r ->
    nth_error l i = Some x -> le r r -> le r x.
  Proof.
    intros H i. induction i as [i IH] using lt_wf_ind. intros r x Hr Hx Hrr.
    destruct (Nat.eq_dec i 0) as [->|Hi]; [congruence|].
    assert (Hp := par_lt i ltac:(lia)).
    destruct (nth_error l (par i)) as [p|] eqn:Ep.
    - apply le_trans with p; [eapply (IH (par i)); eauto|]. eapply H; try eassumption. lia.
    - apply nth_error_None in Ep. apply nth_Some_lt in Hx. lia.
  Qed.

  (** Moving the hole down to a child that comes before its sibling. *)
  Lemma down_step l h c v x : 0 < c -> par c = h -> c < length l -> h < length l ->
    nth_error l c = Some x ->
    (forall c' y, 0 < c' -> par c' = h -> nth_error l c' = Some y -> le x y) ->
    heap_down (upd l h v) h ->
    heap_down (upd (upd l h x) c v) c /\ Permutation (upd l h v) (upd (upd l h x) c v).
  Proof.
    intros Hc Hpc Lc Lh Hx Hsib [H1 H2].
    pose proof (par_lt c Hc) as Hlt. split.
    - split.
      + intros i a b Hi Hn Hpn Ha Hb. rewrite !nth_upd, upd_length in Ha, Hb.
        destruct (Nat.eqb_spec c i); [lia|]. destruct (Nat.eqb_spec c (par i)); [lia|].
        destruct (Nat.eqb_spec h (par i)) as [E|].
        * destruct (Nat.ltb_spec h (length l)); [|lia]. injection Ha as <-.
          pose proof (par_lt i Hi).
          destruct (Nat.eqb_spec h i); [lia|]. apply (Hsib i); [lia|lia|exact Hb].
        * destruct (Nat.eqb_spec h i) as [E|].
          -- subst i. destruct (Nat.ltb_spec h (length l)); [|lia]. injection Hb as <-.
             apply (H2 c); [lia|lia|lia| |].
             ++ rewrite nth_upd_other by lia. exact Ha.
             ++ rewrite nth_upd_other by lia. exact Hx.
          -- apply (H1 i); [lia|lia|lia| |]; rewrite nth_upd_other by lia; assumption.
      + intros c' a b _ Hc' Hpc' Ha Hb. rewrite !nth_upd, upd_length in Ha, Hb.
        pose proof (par_lt c' Hc').
        rewrite Hpc in Ha. destruct (Nat.eqb_spec c h); [lia|]. rewrite Nat.eqb_refl in Ha.
        destruct (Nat.ltb_spec h (length l)); [|lia]. injection Ha as <-.
        destruct (Nat.eqb_spec c c'); [lia|]. destruct (Nat.eqb_spec h c'); [lia|].
        apply (H1 c'); [lia|lia|lia| |].
        * rewrite nth_upd_other by lia. rewrite Hpc'. exact Hx.
        * rewrite nth_upd_other by lia. exact Hb.
    - rewrite (swap_perm (upd l h v) h c v x).
      + rewrite upd_twice. reflexivity.
      + apply nth_upd_same. lia.
      + rewrite nth_upd_other by lia. exact Hx.
  Qed.

  Lemma children h i : 0 < i -> par i = h -> i = 2 * h + 1 \/ i = 2 * h + 2.
  Proof. unfold par. intros. lia. Qed.

  Lemma hole_down_ok fuel : forall l h v, length l - h <= fuel -> h < length l ->
    heap_down (upd l h v) h ->
    let (l', h') := hole_down comp fuel l (length l) h in
    length l' = length l /\ h' < length l /\ ~ (h' < Nat.div (length l - 1) 2) /\
    heap_down (upd l' h' v) h' /\ Permutation (upd l h v) (upd l' h' v).
  Proof.
    induction fuel as [|fuel IH]; intros l h v Hf Hl Hd; cbn [hole_down]; [lia|].
    destruct (Nat.ltb_spec h (Nat.div (length l - 1) 2)) as [Hlt|Hge].
    2:{ split; [reflexivity|]. split; [lia|]. split; [lia|]. split; [exact Hd|reflexivity]. }
    replace (2 * (h + 1)) with (2 * h + 2) by lia.
    replace (2 * h + 2 - 1) with (2 * h + 1) by lia.
    assert (L2 : 2 * h + 2 < length l) by lia.
    destruct (nth_error l (2 * h + 2)) as [a|] eqn:Ea; [|apply nth_error_None in Ea; lia].
    destruct (nth_error l (2 * h + 1)) as [b|] eqn:Eb; [|apply nth_error_None in Eb; lia].
    assert (forall c, 0 < c -> par c = h -> c = 2 * h + 1 \/ c = 2 * h + 2) as Hch
      by (intros; apply children; assumption).
    destruct (comp a b) eqn:Ec.
    - destruct (down_step l h (2 * h + 1) v b) as [D1 D2]; try assumption; try (unfold par; lia).
      { intros c' y Hc' Hp' Hy. destruct (Hch c' Hc' Hp') as [->| ->].
        - rewrite Eb in Hy. injection Hy as <-.
          destruct (comp b b) eqn:E; [|reflexivity]. rewrite <- E. apply le_total, E.
        - rewrite Ea in Hy. injection Hy as <-. apply le_total, Ec. }
      specialize (IH (upd l h b) (2 * h + 1) v). rewrite !upd_length in IH.
      destruct (hole_down comp fuel (upd l h b) (length l) (2 * h + 1)) as [l' h'] eqn:E.
      destruct IH as (I1 & I2 & I3 & I4 & I5); [lia|lia|exact D1|].
      split; [exact I1|]. split; [exact I2|]. split; [exact I3|]. split; [exact I4|].
      rewrite D2. exact I5.
    - destruct (down_step l h (2 * h + 2) v a) as [D1 D2]; try assumption; try (unfold par; lia).
      { intros c' y Hc' Hp' Hy. destruct (Hch c' Hc' Hp') as [->| ->].
        - rewrite Eb in Hy. injection Hy as <-. exact Ec.
        - rewrite Ea in Hy. injection Hy as <-.
          destruct (comp a a) eqn:E; [|reflexivity]. rewrite <- E. apply le_total, E. }
      specialize (IH (upd l h a) (2 * h + 2) v). rewrite !upd_length in IH.
      destruct (hole_down comp fuel (upd l h a) (length l) (2 * h + 2)) as [l' h'] eqn:E.
      destruct IH as (I1 & I2 & I3 & I4 & I5); [lia|lia|exact D1|].
      split; [exact I1|]. split; [exact I2|]. split; [exact I3|]. split; [exact I4|].
      rewrite D2. exact I5.
  Qed.

  (** With no children below the hole, only the way up remains. *)
  Lemma down_to_up l h : length l <= 2 * h + 1 -> heap_down l h -> heap_up l h.
  Proof.
    intros Hl [H1 H2]. split; [|exact H2].
    intros i a b Hi Hn Ha Hb. apply (H1 i); try assumption.
    intro E. apply nth_Some_lt in Hb. destruct (children h i Hi E); lia.
  Qed.

  Lemma adjust_heap_ok l v : l <> [] -> heap_down (upd l 0 v) 0 ->
    heap (adjust_heap comp l (length l) v) /\
    Permutation (upd l 0 v) (adjust_heap comp l (length l) v).
  Proof.
    intros Hne Hd. unfold adjust_heap.
    assert (0 < length l) as Hlen by (destruct l; [congruence|cbn; lia]).
    pose proof (hole_down_ok (length l) l 0 v ltac:(lia) Hlen Hd) as HD.
    destruct (hole_down comp (length l) l (length l) 0) as [l1 h].
    destruct HD as (L1 & Lh & Hlast & Hdn & Hperm).
    destruct (Nat.even (length l)) eqn:Eev; cbn [andb].
    - apply Nat.even_spec in Eev. destruct Eev as [m Em].
      destruct (Nat.eqb_spec h (Nat.div (length l - 2) 2)) as [Eh|Nh].
      + replace (2 * (h + 1) - 1) with (2 * h + 1) by lia.
        destruct (nth_error l1 (2 * h + 1)) as [c|] eqn:Ec.
        2:{ apply nth_error_None in Ec. lia. }
        destruct (down_step l1 h (2 * h + 1) v c) as [D1 D2]; try assumption; try (unfold par; lia).
        { intros c' y Hc' Hp' Hy. apply nth_Some_lt in Hy as Ly.
          destruct (children h c' Hc' Hp') as [->| ->]; [|lia].
          rewrite Ec in Hy. injection Hy as <-.
          destruct (comp c c) eqn:E; [|reflexivity]. rewrite <- E. apply le_total, E. }
        destruct (push_up_ok (length l) (upd l1 h c) (2 * h + 1) v) as [P1 P2].
        * lia.
        * rewrite upd_length. lia.
        * apply down_to_up; [|exact D1]. rewrite !upd_length. lia.
        * split; [exact P1|]. rewrite Hperm, D2. exact P2.
      + destruct (push_up_ok (length l) l1 h v) as [P1 P2]; [lia|lia| |].
        * apply down_to_up; [|exact Hdn]. rewrite upd_length. lia.
        * split; [exact P1|]. rewrite Hperm. exact P2.
    - assert (Nat.odd (length l) = true) as Eo by (rewrite <- Nat.negb_even, Eev; reflexivity).
      apply Nat.odd_spec in Eo. destruct Eo as [m Em].
      destruct (push_up_ok (length l) l1 h v) as [P1 P2]; [lia|lia| |].
      + apply down_to_up; [|exact Hdn]. rewrite upd_length. lia.
      + split; [exact P1|]. rewrite Hperm. exact P2.
  Qed.

  Lemma removelast_snoc (l : list A) v : removelast (l ++ [v]) = l.
  Proof. apply removelast_last. Qed.

  Lemma pop_heap_ok r l : heap (r :: l) ->
    heap (pop_heap comp (r :: l)) /\ Permutation l (pop_heap comp (r :: l)).
  Proof.
    intro H. unfold pop_heap.
    destruct l as [|x l] using rev_ind.
    { cbn. split; [|reflexivity]. intros i a b _ Ha. destruct (par i); discriminate. }
    clear IHl. rewrite app_comm_cons. rewrite app_length. cbn [length].
    replace (S (length l) + 1 - 1) with (length (r :: l)) by (cbn; lia).
    rewrite nth_app_last, Nat.eqb_refl, removelast_last.
    destruct (Nat.ltb_spec 1 (S (length l) + 1)); [|lia].
    destruct (adjust_heap_ok (r :: l) x) as [P1 P2].
    - discriminate.
    - cbn [upd]. rewrite app_comm_cons in H. split.
      + intros i a b Hi Hn Hpn Ha Hb.
        assert (forall j, 0 < j -> nth_error (x :: l) j = nth_error (r :: l) j) as Ej
          by (intros [|j] Hj; [lia|reflexivity]).
        rewrite Ej in Ha by lia. rewrite Ej in Hb by lia.
        apply (H i); [lia| |]; rewrite nth_error_app1; try assumption.
        * eapply nth_Some_lt; eassumption.
        * eapply nth_Some_lt; eassumption.
      + intros c a b Hz. lia.
    - split; [exact P1|]. rewrite <- P2. cbn [upd].
      rewrite Permutation_app_comm. reflexivity.
  Qed.
End HeapProofs.

(** The comparison of events *)
Section Events.
  Context {P : Type}.
  Local Notation ev := (event P).
  Definition ele (a b : ev) := compare_events a b = false.

  Lemma ele_spec (a b : ev) : ele a b <->
    (ev_time a < ev_time b)%Z \/ (ev_time a = ev_time b /\ (ev_count a <= ev_count b)%N).
  Proof.
    unfold ele, compare_events.
    destruct (Z.gtb_spec (ev_time a) (ev_time b)); [split; [discriminate|lia]|].
    rewrite andb_false_iff. lia.
  Qed.

  Lemma ele_trans (a b c : ev) : ele a b -> ele b c -> ele a c.
  Proof. rewrite !ele_spec. lia. Qed.

  Lemma ele_total (a b : ev) : compare_events a b = true -> ele b a.
  Proof.
    intro H. destruct (compare_events b a) eqn:E; [|exact E].
    unfold compare_events in *.
    destruct (Z.gtb_spec (ev_time a) (ev_time b)), (Z.gtb_spec (ev_time b) (ev_time a)); lia.
  Qed.

  Lemma ele_refl (a : ev) : ele a a.
  Proof. apply ele_spec. lia. Qed.

  Definition erase (e : ev) : Z * P := (ev_time e, ev_payload e).

  (** The relation between a schedule and the specification queue: the queue lists
      the stored events in the strict order of (time, insertion count). *)
  Definition elt (a b : ev) := (ev_time a < ev_time b)%Z \/
    (ev_time a = ev_time b /\ (ev_count a < ev_count b)%N).

  Definition repr (s : schedule P) (q : list (Z * P)) : Prop :=
    heap compare_events (event_queue s) /\
    exists L, StronglySorted elt L /\ Permutation L (event_queue s) /\
      map erase L = q /\ Forall (fun e => (ev_count e < insertion_count s)%N) L.

  Lemma repr_new : repr new_schedule [].
  Proof.
    split; [intros i a b _ Ha; destruct (par i); discriminate|].
    exists []. repeat constructor.
  Qed.

  Fixpoint einsert (e : ev) (L : list ev) : list ev :=
    match L with
    | [] => [e]
    | x :: L' => if (ev_time x <=? ev_time e)%Z then x :: einsert e L' else e :: L
    end.

  Lemma einsert_perm e L : Permutation (e :: L) (einsert e L).
  Proof.
    induction L as [|x L IH]; cbn; [reflexivity|].
    destruct (ev_time x <=? ev_time e)%Z; [|reflexivity].
    rewrite perm_swap, IH. reflexivity.
  Qed.

  Lemma einsert_erase e L : map erase (einsert e L) =
    insert_by_time (ev_time e) (ev_payload e) (map erase L).
  Proof.
    induction L as [|x L IH]; cbn; [reflexivity|].
    destruct (ev_time x <=? ev_time e)%Z; [|reflexivity]. cbn. rewrite IH. reflexivity.
  Qed.

  Lemma einsert_sorted e L : StronglySorted elt L ->
    Forall (fun x => (ev_count x < ev_count e)%N) L -> StronglySorted elt (einsert e L).
  Proof.
    induction L as [|x L IH]; cbn; intros Hs Hc; [repeat constructor|].
    apply StronglySorted_inv in Hs as [Hs Hx]. inversion Hc as [|? ? Hc1 Hc2]; subst.
    destruct (Z.leb_spec (ev_time x) (ev_time e)).
    - constructor; [apply IH; assumption|].
      rewrite <- einsert_perm. constructor; [|exact Hx]. unfold elt. lia.
    - constructor; [constructor; assumption|].
      constructor; [unfold elt; lia|].
      eapply Forall_impl; [|exact Hx]. unfold elt. intros. lia.
  Qed.

  Lemma repr_schedule max s q t p : repr s q -> (insertion_count s < max)%N ->
    exists s', schedule_event max s t p = Ok s' /\ repr s' (insert_by_time t p q) /\
      insertion_count s' = (insertion_count s + 1)%N.
  Proof.
    intros (Hh & L & Hs & Hp & He & Hc) Hlt. unfold schedule_event.
    replace (insertion_count s <? max)%N with true by lia. cbn [reassert obind].
    eexists; split; [reflexivity|]. cbn [insertion_count event_queue]. split; [|reflexivity].
    destruct (emplace_ok compare_events ele_trans ele_total (event_queue s)
                (mk_event t p (insertion_count s)) Hh) as [H1 H2].
    split; [exact H1|].
    exists (einsert (mk_event t p (insertion_count s)) L). cbn [insertion_count event_queue].
    split; [|split; [|split]].
    - apply einsert_sorted; [exact Hs|]. exact Hc.
    - rewrite <- einsert_perm, Hp. exact H2.
    - rewrite einsert_erase, He. reflexivity.
    - rewrite <- einsert_perm. constructor; [cbn; lia|].
      eapply Forall_impl; [|exact Hc]. cbn. intros. lia.
  Qed.

  Lemma repr_empty s : repr s [] -> event_queue s = [].
  Proof.
    intros (_ & L & _ & Hp & He & _). destruct L; [|discriminate].
    apply Permutation_nil, Hp.
  Qed.

  Lemma repr_pop s e q : repr s (e :: q) ->
    top_event s = Ok e /\ exists s', pop_event s = Ok s' /\ repr s' q /\
      insertion_count s' = insertion_count s.
  Proof.
    intros (Hh & L & Hs & Hp & He & Hc).
    destruct L as [|x L]; [discriminate|]. injection He as Ex EL.
    apply StronglySorted_inv in Hs as [Hs Hx].
    unfold top_event, pop_event.
    destruct (event_queue s) as [|r l] eqn:El.
    { apply Permutation_sym, Permutation_nil in Hp. discriminate. }
    assert (r = x) as ->.
    { assert (In r (x :: L)) as Hr by (rewrite Hp; left; reflexivity).
      destruct Hr as [->|Hr]; [reflexivity|].
      assert (elt x r) as Hlt by (rewrite Forall_forall in Hx; apply Hx, Hr).
      assert (In x (r :: l)) as Hxl by (rewrite <- Hp; left; reflexivity).
      apply In_nth_error in Hxl as [i Hi].
      assert (ele r x) as Hle.
      { eapply (heap_root compare_events ele_trans ele_total (r :: l) Hh i); [reflexivity|exact Hi|].
        apply ele_refl. }
      apply ele_spec in Hle. unfold elt in Hlt. lia. }
    split; [rewrite <- Ex; reflexivity|].
    eexists; split; [reflexivity|]. cbn [insertion_count event_queue]. split; [|reflexivity].
    destruct (pop_heap_ok compare_events ele_trans ele_total x l Hh) as [H1 H2].
    split; [exact H1|]. exists L. cbn [insertion_count event_queue].
    split; [exact Hs|]. split.
    - rewrite <- H2. apply Permutation_cons_inv in Hp. exact Hp.
    - split; [exact EL|]. inversion Hc; assumption.
  Qed.

  Lemma repr_size s q : repr s q -> size s = length q.
  Proof.
    intros (_ & L & _ & Hp & <- & _). unfold size.
    rewrite map_length. symmetry. apply Permutation_length, Hp.
  Qed.

  (** Refinement of whole runs. *)
  Definition erase_run (o : outcome (schedule P * list (Z * P) * list (Z * P))) q' sched popped :=
    exists s', o = Ok (s', sched, popped) /\ repr s' q'.

  Lemma run_refines max ops : forall s q left,
    repr s q -> (insertion_count s + left = max)%N ->
    match spec_run left q ops with
    | Ok (q', sched, popped) =>
        exists s', run max s ops = Ok (s', sched, popped) /\ repr s' q' /\
          insertion_count s' = (insertion_count s + N.of_nat (length sched))%N
    | Throw => False
    | UB => run max s ops = UB
    end.
  Proof.
    induction ops as [|o ops IH]; intros s q left HR Hm; cbn [spec_run run].
    { exists s. cbn. split; [reflexivity|]. split; [exact HR|lia]. }
    destruct o as [t p|].
    - destruct (N.eqb_spec left 0) as [->|Hn].
      + unfold schedule_event. replace (insertion_count s <? max)%N with false by lia.
        cbn [reassert obind]. apply IH; assumption.
      + destruct (repr_schedule max s q t p HR ltac:(lia)) as (s1 & E1 & R1 & C1).
        rewrite E1. specialize (IH s1 (insert_by_time t p q) (left - 1)%N R1 ltac:(lia)).
        destruct (spec_run (left - 1) (insert_by_time t p q) ops) as [[[q' sched] popped]| |];
          cbn [obind].
        * destruct IH as (s' & E' & R' & C'). rewrite E'. cbn [obind].
          exists s'. split; [reflexivity|]. split; [exact R'|]. cbn [length]. lia.
        * contradiction.
        * rewrite IH. reflexivity.
    - destruct q as [|e q].
      + apply repr_empty in HR. unfold top_event. rewrite HR. reflexivity.
      + destruct (repr_pop s e q HR) as (E0 & s1 & E1 & R1 & C1).
        rewrite E0, E1. cbn [obind].
        specialize (IH s1 q left R1 ltac:(lia)).
        destruct (spec_run left q ops) as [[[q' sched] popped]| |]; cbn [obind].
        * destruct IH as (s' & E' & R' & C'). rewrite E'. cbn [obind].
          exists s'. split; [reflexivity|]. split; [exact R'|]. lia.
        * contradiction.
        * rewrite IH. reflexivity.
  Qed.

  (** Draining *)
  Lemma run_drain max : forall q s, repr s q ->
    exists s', run max s (repeat Pop (length q)) = Ok (s', [], q) /\ size s' = 0.
  Proof.
    induction q as [|e q IH]; intros s HR; cbn [length repeat run].
    - exists s. split; [reflexivity|]. rewrite (repr_size s []); [reflexivity|exact HR].
    - destruct (repr_pop s e q HR) as (E0 & s1 & E1 & R1 & _).
      rewrite E0, E1. cbn [obind].
      destruct (IH s1 R1) as (s' & E' & Z'). rewrite E'. cbn [obind].
      exists s'. split; [reflexivity|exact Z'].
  Qed.

  (** Facts about the specification. *)
  Lemma at_time_insert t t0 p (q : list (Z * P)) :
    StronglySorted (fun a b => (fst a <= fst b)%Z) q ->
    at_time t (insert_by_time t0 p q) =
      at_time t q ++ (if (t0 =? t)%Z then [(t0, p)] else []).
  Proof.
    unfold at_time. induction q as [|[t' p'] q IH]; cbn; intro Hs.
    - destruct (t0 =? t)%Z; reflexivity.
    - apply StronglySorted_inv in Hs as [Hs Hx].
      destruct (Z.leb_spec t' t0); cbn.
      + rewrite IH by exact Hs. destruct (t' =? t)%Z; reflexivity.
      + destruct (Z.eqb_spec t0 t) as [->|].
        * assert (filter (fun e => (fst e =? t)%Z) q = []) as ->.
          { clear IH Hs. induction Hx as [|a l Ha Hl IHl]; cbn; [reflexivity|].
            cbn in Ha. destruct (Z.eqb_spec (fst a) t); [lia|exact IHl]. }
          destruct (Z.eqb_spec t' t); [lia|]. reflexivity.
        * rewrite app_nil_r. reflexivity.
  Qed.

  Lemma insert_sorted t p (q : list (Z * P)) :
    StronglySorted (fun a b => (fst a <= fst b)%Z) q ->
    StronglySorted (fun a b => (fst a <= fst b)%Z) (insert_by_time t p q).
  Proof.
    induction q as [|[t' p'] q IH]; cbn; intro Hs; [repeat constructor|].
    apply StronglySorted_inv in Hs as [Hs Hx].
    destruct (Z.leb_spec t' t).
    - constructor; [apply IH, Hs|].
      assert (Permutation ((t, p) :: q) (insert_by_time t p q)) as <-.
      { clear. induction q as [|[a b] q IH]; cbn; [reflexivity|].
        destruct (a <=? t)%Z; [|reflexivity]. rewrite perm_swap, IH. reflexivity. }
      constructor; [cbn; lia|exact Hx].
    - constructor; [constructor; assumption|].
      constructor; [cbn; lia|]. eapply Forall_impl; [|exact Hx]. cbn. intros. lia.
  Qed.

  Lemma insert_perm t p (q : list (Z * P)) : Permutation ((t, p) :: q) (insert_by_time t p q).
  Proof.
    induction q as [|[a b] q IH]; cbn; [reflexivity|].
    destruct (a <=? t)%Z; [|reflexivity]. rewrite perm_swap, IH. reflexivity.
  Qed.

  Lemma spec_facts (ops : list (op P)) : forall left q q' sched popped,
    spec_run left q ops = Ok (q', sched, popped) ->
    StronglySorted (fun a b => (fst a <= fst b)%Z) q ->
    StronglySorted (fun a b => (fst a <= fst b)%Z) q' /\
    Permutation (q ++ sched) (popped ++ q') /\
    (forall t, at_time t (popped ++ q') = at_time t (q ++ sched)) /\
    (N.of_nat (length sched) <= left)%N.
  Proof.
    induction ops as [|o ops IH]; intros left q q' sched popped E Hs; cbn [spec_run] in E.
    { injection E as <- <- <-. cbn. rewrite app_nil_r. repeat split; auto. lia. }
    destruct o as [t p|].
    - destruct (N.eqb_spec left 0) as [->|Hn].
      { apply IH in E; assumption. }
      destruct (spec_run (left - 1) (insert_by_time t p q) ops) as [[[q1 sched1] popped1]| |] eqn:E1;
        cbn [obind] in E; try discriminate.
      injection E as <- <- <-.
      destruct (IH _ _ _ _ _ E1 (insert_sorted t p q Hs)) as (I1 & I2 & I3 & I4).
      split; [exact I1|]. split; [|split].
      + rewrite <- I2, <- insert_perm. cbn. symmetry. apply Permutation_middle.
      + intro t'. rewrite I3. unfold at_time at 1 2. rewrite !filter_app.
        fold (at_time t' (insert_by_time t p q)). rewrite at_time_insert by exact Hs.
        rewrite <- app_assoc. unfold at_time. f_equal. cbn.
        destruct (t =? t')%Z; reflexivity.
      + cbn [length]. lia.
    - destruct q as [|e q]; [discriminate|].
      destruct (spec_run left q ops) as [[[q1 sched1] popped1]| |] eqn:E1; cbn [obind] in E; try discriminate.
      injection E as <- <- <-. apply StronglySorted_inv in Hs as [Hs Hx].
      destruct (IH _ _ _ _ _ E1 Hs) as (I1 & I2 & I3 & I4).
      split; [exact I1|]. split; [|split].
      + cbn. rewrite I2. reflexivity.
      + intro t'. cbn. specialize (I3 t'). unfold at_time in *. cbn.
        destruct (fst e =? t')%Z; [f_equal|]; exact I3.
      + exact I4.
  Qed.

  Lemma sorted_time_ordered (q : list (Z * P)) :
    StronglySorted (fun a b => (fst a <= fst b)%Z) q -> time_ordered q.
  Proof.
    intros Hs i j a b Hij Ha Hb. revert i j Hij Ha Hb.
    induction Hs as [|x q Hs IH Hx]; intros i j Hij Ha Hb; [destruct i; discriminate|].
    destruct j as [|j]; [lia|]. destruct i as [|i].
    - cbn in Ha. injection Ha as <-. cbn in Hb.
      rewrite Forall_forall in Hx. apply Hx. eapply nth_error_In, Hb.
    - apply (IH i j); [lia|exact Ha|exact Hb].
  Qed.

  Lemma run_spec max ops s sched popped :
    run max (@new_schedule P) ops = Ok (s, sched, popped) ->
    exists q, spec_run max [] ops = Ok (q, sched, popped) /\ repr s q /\
      insertion_count s = N.of_nat (length sched).
  Proof.
    intro E. pose proof (run_refines max ops new_schedule [] max repr_new ltac:(cbn; lia)) as R.
    destruct (spec_run max [] ops) as [[[q sc] po]| |].
    - destruct R as (s' & E' & R' & C'). rewrite E in E'. injection E' as <- <- <-.
      exists q. repeat split; try apply R'. cbn in C'. lia.
    - contradiction.
    - congruence.
  Qed.

  Lemma schedule_order max ops s sched popped :
    run max (@new_schedule P) ops = Ok (s, sched, popped) ->
    exists s' pending,
      run max s (repeat Pop (size s)) = Ok (s', [], pending) /\ size s' = 0 /\
      time_ordered pending /\
      (forall t, at_time t (popped ++ pending) = at_time t sched) /\
      Permutation sched (popped ++ pending) /\
      length pending = size s /\
      (forall e rest, pending = e :: rest -> top_event s = Ok e).
  Proof.
    intro E. destruct (run_spec _ _ _ _ _ E) as (q & Eq & R & C).
    destruct (spec_facts _ _ _ _ _ _ Eq ltac:(constructor)) as (S1 & S2 & S3 & S4).
    destruct (run_drain max q s R) as (s' & Es' & Z').
    exists s', q. rewrite (repr_size s q R).
    split; [exact Es'|]. split; [exact Z'|]. split; [apply sorted_time_ordered, S1|].
    split; [exact S3|]. split; [exact S2|]. split; [reflexivity|].
    intros e rest ->. apply (repr_pop s e rest R).
  Qed.

  Lemma run_matches_spec max ops :
    match spec_run max [] ops, run max (@new_schedule P) ops with
    | Ok (q, sched, popped), Ok (s, sched', popped') =>
        sched' = sched /\ popped' = popped /\ size s = length q
    | UB, UB => True
    | _, _ => False
    end.
  Proof.
    pose proof (run_refines max ops new_schedule [] max repr_new ltac:(cbn; lia)) as R.
    destruct (spec_run max [] ops) as [[[q sc] po]| |].
    - destruct R as (s' & -> & R' & _). repeat split. apply repr_size, R'.
    - contradiction.
    - rewrite R. exact I.
  Qed.

  Lemma schedule_bound max ops s sched popped t p :
    run max (@new_schedule P) ops = Ok (s, sched, popped) ->
    (N.of_nat (length sched) <= max)%N /\
    (schedule_event max s t p = Throw <-> N.of_nat (length sched) = max) /\
    schedule_event max s t p <> UB.
  Proof.
    intro E. destruct (run_spec _ _ _ _ _ E) as (q & Eq & R & C).
    destruct (spec_facts _ _ _ _ _ _ Eq ltac:(constructor)) as (_ & _ & _ & S4).
    split; [exact S4|]. unfold schedule_event. rewrite C.
    destruct (N.ltb_spec (N.of_nat (length sched)) max); cbn [reassert obind].
    - repeat split; try discriminate. lia.
    - repeat split; try discriminate. lia.
  Qed.
End Events.
