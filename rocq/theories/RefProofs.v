(** Proofs on InOut and NullableReference. *)
From Coq Require Import List Lia.
From Verif Require Import Cpp RefModel RefSpec.
Import ListNotations.

Section Refs.
Context {T : Type}.
Implicit Types (m : mem T) (p : list (op T)).

Lemma length_update {A} n (x : A) : forall l, length (update n x l) = length l.
Proof. induction n as [|n IH]; intros [|y l]; cbn; auto. Qed.
Lemma nth_update_same {A} n (x : A) : forall l, n < length l -> nth_error (update n x l) n = Some x.
Proof. induction n as [|n IH]; intros [|y l] L; cbn in *; try lia; [reflexivity|]. apply IH. lia. Qed.
Lemma nth_update_other {A} n (x : A) k : forall l, k <> n -> nth_error (update n x l) k = nth_error l k.
Proof.
  revert k. induction n as [|n IH]; intros [|k] [|y l] D; cbn; try reflexivity; try contradiction. apply IH. congruence.
Qed.
Lemma update_cut {A} n (x : A) : forall l, n < length l -> update n x l = firstn n l ++ x :: skipn (S n) l.
Proof. induction n as [|n IH]; intros [|y l] L; cbn in *; try lia; [reflexivity|]. f_equal. apply IH. lia. Qed.
Lemma nth_len {A} (l : list A) n x : nth_error l n = Some x -> n < length l.
Proof. intro H. apply nth_error_Some. congruence. Qed.

Lemma load_there m a : load T m a = match there (objects m) a with Some v => Ok v | None => UB end.
Proof. unfold load, lookup, there. destruct (nth_error (objects m) a) as [[v|]|]; reflexivity. Qed.
Lemma there_len (os : list (option T)) a v : there os a = Some v -> a < length os.
Proof. unfold there. destruct (nth_error os a) as [[w|]|] eqn:E; try discriminate. intros _. exact (nth_len _ _ _ E). Qed.
Lemma update_changed os a v (x : option T) : there os a = Some v -> only_changed os (update a x os) a x.
Proof. intro H. split; [apply length_update|]. split; [apply nth_update_same, (there_len _ _ _ H)|]. intros b D. apply nth_update_other, D. Qed.
Lemma changed_unique os a v (x : option T) os' : there os a = Some v -> only_changed os os' a x -> os' = update a x os.
Proof.
  intros H (L & A & O). apply nth_ext with (d := None) (d' := None); [rewrite length_update; exact L|]. intros k K.
  assert (Q : nth_error os' k = nth_error (update a x os) k). { destruct (Nat.eq_dec k a) as [->|D]; [rewrite A; symmetry; apply nth_update_same, (there_len _ _ _ H)|]. rewrite O by exact D. symmetry. apply nth_update_other, D. }
  rewrite (nth_error_nth' os' None K) in Q. rewrite L in K. rewrite (nth_error_nth' (update a x os) None) in Q by (rewrite length_update; exact K). congruence.
Qed.


Lemma sound p : forall m m', run p m = Ok m' -> runs (unwrap (inouts m) (refs m) p) (objects m) (output m) (objects m') (output m').
Proof.
  induction p as [|o p IH]; intros m m' R; cbn [run] in R; [injection R as <-; constructor|].
  assert (G : forall m1, run p m1 = Ok m' -> inouts m1 = inouts m -> refs m1 = refs m -> runs (unwrap (inouts m) (refs m) p) (objects m1) (output m1) (objects m') (output m')) by (intros m1 R1 <- <-; apply IH, R1).
  destruct o as [v|a|a v|a|a|i|i v|i|a| |j|j k|j v|j|j]; cbn [unwrap]; cbn [step] in R;
    unfold make_inout, inout_target, make_ref, ref_target, has_value, store, lookup in R; rewrite ?load_there in R.
  - constructor. apply (G _ R); reflexivity.
  - destruct (there _ a) as [w|] eqn:A; [|discriminate]. apply r_leave with (1 := A) (2 := update_changed _ _ _ None A). apply (G _ R); reflexivity.
  - destruct (there _ a) as [w|] eqn:A; [|discriminate]. apply r_assign with (1 := A) (2 := update_changed _ _ _ (Some v) A). apply (G _ R); reflexivity.
  - destruct (there _ a) as [w|] eqn:A; [|discriminate]. apply r_read with (1 := A). apply (G _ R); reflexivity.
  - destruct (there _ a) as [w|] eqn:A; [|discriminate]. apply r_needs with (1 := A). exact (IH _ _ R).
  - destruct (nth_error (inouts m) i) as [a|]; [|discriminate]. exact (IH _ _ R).
  - destruct (nth_error (inouts m) i) as [a|]; [|discriminate]. cbn [obind] in R. rewrite load_there in R. destruct (there _ a) as [w|] eqn:A; [|discriminate]. apply r_assign with (1 := A) (2 := update_changed _ _ _ (Some v) A). apply (G _ R); reflexivity.
  - destruct (nth_error (inouts m) i) as [a|]; [|discriminate]. cbn [obind] in R. rewrite load_there in R. destruct (there _ a) as [w|] eqn:A; [|discriminate]. apply r_read with (1 := A). apply (G _ R); reflexivity.
  - destruct (there _ a) as [w|] eqn:A; [|discriminate]. apply r_needs with (1 := A). exact (IH _ _ R).
  - exact (IH _ _ R).
  - destruct (nth_error (refs m) j) as [r|]; [|discriminate]. exact (IH _ _ R).
  - destruct (nth_error (refs m) j) as [r0|] eqn:J; [|discriminate]. cbn [obind] in R. destruct (nth_error (refs m) k) as [r|]; [|discriminate]. rewrite <- update_cut by exact (nth_len _ _ _ J). exact (IH _ _ R).
  - destruct (nth_error (refs m) j) as [[a|]|] eqn:J; [| |discriminate]; cbn [obind reassert] in R.
    + rewrite load_there in R. destruct (there _ a) as [w|] eqn:A; [|discriminate]. apply r_assign with (1 := A) (2 := update_changed _ _ _ (Some v) A). apply (G _ R); reflexivity.
    + constructor. apply (G _ R); reflexivity.
  - destruct (nth_error (refs m) j) as [[a|]|] eqn:J; [| |discriminate]; cbn [obind reassert] in R.
    + rewrite load_there in R. destruct (there _ a) as [w|] eqn:A; [|discriminate]. apply r_read with (1 := A). apply (G _ R); reflexivity.
    + constructor. apply (G _ R); reflexivity.
  - destruct (nth_error (refs m) j) as [r|] eqn:J; [|discriminate]. constructor. apply (G _ R); reflexivity.
Qed.

Lemma complete p : forall m os out, runs (unwrap (inouts m) (refs m) p) (objects m) (output m) os out -> exists m', run p m = Ok m' /\ objects m' = os /\ output m' = out.
Proof.
  induction p as [|o p IH]; intros m os out R; [inversion R; subst; exists m; auto|].
  cbn [run]. destruct o as [v|a|a v|a|a|i|i v|i|a| |j|j k|j v|j|j]; cbn [unwrap] in R; cbn [step];
    unfold make_inout, inout_target, make_ref, ref_target, has_value, store, lookup; rewrite ?load_there.
  - inversion R; subst. apply (IH (with_objects T m _)). assumption.
  - inversion R; subst. match goal with H : there _ a = Some _ |- _ => rewrite H; cbn [obind]; match goal with C : only_changed _ _ _ _ |- _ => rewrite (changed_unique _ _ _ _ _ H C) in * end end. apply (IH (with_objects T m _)). assumption.
  - inversion R; subst. match goal with H : there _ a = Some _ |- _ => rewrite H; cbn [obind]; match goal with C : only_changed _ _ _ _ |- _ => rewrite (changed_unique _ _ _ _ _ H C) in * end end. apply (IH (with_objects T m _)). assumption.
  - inversion R; subst. match goal with H : there _ a = Some _ |- _ => rewrite H end. apply (IH (show T m _)). assumption.
  - inversion R; subst. match goal with H : there _ a = Some _ |- _ => rewrite H end. apply (IH (with_inouts T m _)). assumption.
  - destruct (nth_error (inouts m) i) as [a|]; [|inversion R]. apply (IH (with_inouts T m _)). exact R.
  - destruct (nth_error (inouts m) i) as [a|]; [|inversion R]. cbn [obind]. rewrite load_there. inversion R; subst. match goal with H : there _ a = Some _ |- _ => rewrite H; cbn [obind]; match goal with C : only_changed _ _ _ _ |- _ => rewrite (changed_unique _ _ _ _ _ H C) in * end end. apply (IH (with_objects T m _)). assumption.
  - destruct (nth_error (inouts m) i) as [a|]; [|inversion R]. cbn [obind]. rewrite load_there. inversion R; subst. match goal with H : there _ a = Some _ |- _ => rewrite H end. apply (IH (show T m _)). assumption.
  - inversion R; subst. match goal with H : there _ a = Some _ |- _ => rewrite H end. apply (IH (with_refs T m _)). assumption.
  - apply (IH (with_refs T m _)). assumption.
  - destruct (nth_error (refs m) j) as [r|]; [|inversion R]. apply (IH (with_refs T m _)). exact R.
  - destruct (nth_error (refs m) j) as [r0|] eqn:J; [|inversion R]. cbn [obind]. destruct (nth_error (refs m) k) as [r|]; [|inversion R]. rewrite <- update_cut in R by exact (nth_len _ _ _ J). apply (IH (with_refs T m _)). exact R.
  - destruct (nth_error (refs m) j) as [[a|]|] eqn:J; [| |inversion R]; cbn [obind reassert].
    + rewrite load_there. inversion R; subst. match goal with H : there _ a = Some _ |- _ => rewrite H; cbn [obind]; match goal with C : only_changed _ _ _ _ |- _ => rewrite (changed_unique _ _ _ _ _ H C) in * end end. apply (IH (with_objects T m _)). assumption.
    + inversion R; subst. apply (IH (show T m _)). assumption.
  - destruct (nth_error (refs m) j) as [[a|]|] eqn:J; [| |inversion R]; cbn [obind reassert].
    + rewrite load_there. inversion R; subst. match goal with H : there _ a = Some _ |- _ => rewrite H end. apply (IH (show T m _)). assumption.
    + inversion R; subst. apply (IH (show T m _)). assumption.
  - destruct (nth_error (refs m) j) as [r|] eqn:J; [|inversion R]. inversion R; subst. apply (IH (show T m _)). assumption.
Qed.

Theorem transparent p os out : (exists m', run p empty = Ok m' /\ objects m' = os /\ output m' = out) <-> runs (unwrap [] [] p) [] [] os out.
Proof.
  split; [intros (m' & R & <- & <-); exact (sound p empty m' R)|exact (complete p empty os out)].
Qed.
Theorem never_throws p : forall m, run p m <> Throw.
Proof. induction p as [|o p IH]; intro m; cbn [run]; [discriminate|]. destruct (step m o); [apply IH|apply IH|discriminate]. Qed.

(** ** What is confined *)
Definition apart (a : nat) m : Prop := a < length (objects m) /\ ~ In a (inouts m) /\ ~ In (Some a) (refs m).
Lemma In_update {A} n (x y : A) : forall l, In y (update n x l) -> y = x \/ In y l.
Proof. induction n as [|n IH]; intros [|z l]; cbn; try tauto; [intros [H|H]; auto|]. intros [H|H]; auto. destruct (IH _ H); auto. Qed.
Lemma in_snoc {A} (x y : A) l : In x (l ++ [y]) -> In x l \/ x = y.
Proof. intro H. apply in_app_or in H. cbn in H. intuition congruence. Qed.
Lemma step_apart a m o m' : apart a m -> ~ names a o -> step m o = Ok m' -> apart a m' /\ nth_error (objects m') a = nth_error (objects m) a.
Proof.
  intros (L & I & R) N S. assert (B : forall b x, b <> a -> apart a (with_objects T m (update b x (objects m))) /\ nth_error (objects (with_objects T m (update b x (objects m)))) a = nth_error (objects m) a).
  { intros b x D. split; [split; [cbn; rewrite length_update; exact L|split; assumption]|]. cbn. apply nth_update_other. congruence. }
  assert (BI : forall b, b <> a -> apart a (with_inouts T m (inouts m ++ [b])) /\ nth_error (objects (with_inouts T m (inouts m ++ [b]))) a = nth_error (objects m) a).
  { intros b D. split; [split; [exact L|split; [|assumption]]|reflexivity]. cbn. intro H. apply in_snoc in H. destruct H; [contradiction|congruence]. }
  assert (BR : forall r, r <> Some a -> apart a (with_refs T m (refs m ++ [r])) /\ nth_error (objects (with_refs T m (refs m ++ [r]))) a = nth_error (objects m) a).
  { intros r D. split; [split; [exact L|split; [assumption|]]|reflexivity]. cbn. intro H. apply in_snoc in H. destruct H; [contradiction|congruence]. }
  assert (BS : forall s, apart a (show T m s) /\ nth_error (objects (show T m s)) a = nth_error (objects m) a) by (intro s; split; [split; [exact L|split; assumption]|reflexivity]).
  assert (NI : forall i b, nth_error (inouts m) i = Some b -> b <> a) by (intros i b H ->; apply I; exact (nth_error_In _ _ H)).
  assert (NR : forall i r, nth_error (refs m) i = Some r -> r <> Some a) by (intros i r H ->; apply R; exact (nth_error_In _ _ H)).
  destruct o as [v|b|b v|b|b|i|i v|i|b| |j|j k|j v|j|j]; cbn [step] in S; cbn [names] in N;
    unfold make_inout, inout_target, make_ref, ref_target, has_value, store, lookup in S; rewrite ?load_there in S.
  - injection S as <-. split; [split; [cbn; rewrite app_length; cbn; lia|split; assumption]|]. cbn. apply nth_error_app1, L.
  - destruct (there _ b); [|discriminate]. injection S as <-. apply B. exact N.
  - destruct (there _ b); [|discriminate]. injection S as <-. apply B. exact N.
  - destruct (there _ b); [|discriminate]. injection S as <-. apply BS.
  - destruct (there _ b); [|discriminate]. injection S as <-. apply BI. exact N.
  - destruct (nth_error (inouts m) i) as [b|] eqn:Q; [|discriminate]. injection S as <-. apply BI, (NI _ _ Q).
  - destruct (nth_error (inouts m) i) as [b|] eqn:Q; [|discriminate]. cbn [obind] in S. rewrite load_there in S. destruct (there _ b); [|discriminate]. injection S as <-. apply B, (NI _ _ Q).
  - destruct (nth_error (inouts m) i) as [b|] eqn:Q; [|discriminate]. cbn [obind] in S. rewrite load_there in S. destruct (there _ b); [|discriminate]. injection S as <-. apply BS.
  - destruct (there _ b); [|discriminate]. injection S as <-. apply BR. intro H. injection H as ->. apply N. reflexivity.
  - injection S as <-. apply BR. discriminate.
  - destruct (nth_error (refs m) j) as [r|] eqn:Q; [|discriminate]. injection S as <-. apply BR, (NR _ _ Q).
  - destruct (nth_error (refs m) j) as [r0|]; [|discriminate]. cbn [obind] in S. destruct (nth_error (refs m) k) as [r|] eqn:Q; [|discriminate]. injection S as <-. split; [split; [exact L|split; [assumption|]]|reflexivity]. cbn. intro H. apply In_update in H. destruct H as [H|H]; [|contradiction]. exact (NR _ _ Q (eq_sym H)).
  - destruct (nth_error (refs m) j) as [[b|]|] eqn:Q; [| |discriminate]; cbn [obind reassert] in S; [|discriminate]. rewrite load_there in S. destruct (there _ b); [|discriminate]. injection S as <-. apply B. intros ->. exact (NR _ _ Q eq_refl).
  - destruct (nth_error (refs m) j) as [[b|]|] eqn:Q; [| |discriminate]; cbn [obind reassert] in S; [|discriminate]. rewrite load_there in S. destruct (there _ b); [|discriminate]. injection S as <-. apply BS.
  - destruct (nth_error (refs m) j) as [r|]; [|discriminate]. injection S as <-. apply BS.
Qed.
Theorem confined p : forall a m m', apart a m -> Forall (fun o => ~ names a o) p -> run p m = Ok m' -> nth_error (objects m') a = nth_error (objects m) a.
Proof.
  induction p as [|o p IH]; intros a m m' A F R; cbn [run] in R; [injection R as <-; reflexivity|]. inversion F as [|? ? F1 F2]; subst.
  destruct (step m o) as [m1| |] eqn:S; [| |discriminate].
  - destruct (step_apart a m o m1 A F1 S) as (A1 & N1). rewrite <- N1. exact (IH a m1 m' A1 F2 R).
  - exact (IH a (show T m Caught) m' A F2 R).
Qed.

(** ** Where handles point *)
Lemma step_inouts m o m' : step m o = Ok m' -> exists l, inouts m' = inouts m ++ l.
Proof.
  intro S. destruct o; cbn [step] in S; unfold make_inout, inout_target, make_ref, ref_target, has_value, store, lookup in S; rewrite ?load_there in S;
  repeat match type of S with
  | context [there ?x ?y] => destruct (there x y); cbn [obind reassert] in S
  | context [load ?t ?x ?y] => rewrite load_there in S
  | context [nth_error ?x ?y] => destruct (nth_error x y) as [[|]|]; cbn [obind reassert] in S
  | context [nth_error ?x ?y] => destruct (nth_error x y); cbn [obind reassert] in S
  end; try discriminate S; injection S as <-; cbn [inouts with_objects with_inouts with_refs show]; try (exists []; rewrite app_nil_r; reflexivity); eexists; reflexivity.
Qed.
Theorem inout_fixed p : forall m m' i a, run p m = Ok m' -> nth_error (inouts m) i = Some a -> nth_error (inouts m') i = Some a.
Proof.
  induction p as [|o p IH]; intros m m' i a R N; cbn [run] in R; [injection R as <-; exact N|]. destruct (step m o) as [m1| |] eqn:S; [| |discriminate].
  - apply (IH m1 m' i a R). destruct (step_inouts m o m1 S) as (l & ->). rewrite nth_error_app1; [exact N|exact (nth_len _ _ _ N)].
  - exact (IH (show T m Caught) m' i a R N).
Qed.
End Refs.

Theorem undefined {T : Type} (p : list (op T)) : run p empty = UB <-> forall os out, ~ runs (unwrap [] [] p) [] [] os out.
Proof.
  split.
  - intros U os out R. apply transparent in R. destruct R as (m' & R & _). congruence.
  - intro N. destruct (run p empty) as [m'| |] eqn:R; [|exact (False_ind _ (never_throws p _ R))|reflexivity]. exfalso. apply (N (objects m') (output m')). apply transparent. eauto.
Qed.
