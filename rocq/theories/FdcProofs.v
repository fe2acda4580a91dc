(** How the lists of a distance curve hang together. *)
From Coq Require Import List Lia.
From Flocq Require Import Core BinarySingleNaN.
From Verif Require Import Cpp FloatModel FloatSpec NrmSpec DriftModel SpinModel TwistModel TlogModel SlogModel LenModel LenSpec LenProofs FdcModel SlogProofs6 TlogProofs6.
Import ListNotations.
Local Open Scope nat_scope.

Lemma appends_snoc gs : forall c g c', fdc_appends c (gs ++ [g]) c' <-> exists c1, fdc_appends c gs c1 /\ fdc_append c1 g c'.
Proof.
  induction gs as [|k gs IH]; intros c g c'; cbn [app fdc_appends].
  - split; [intros (c1 & A & ->); exists c; split; [reflexivity|exact A]|intros (c1 & -> & A); exists c'; split; [exact A|reflexivity]].
  - split.
    + intros (c1 & A & B). apply IH in B. destruct B as (c2 & B & C). exists c2. split; [exists c1; split; assumption|exact C].
    + intros (c2 & (c1 & A & B) & C). exists c1. split; [exact A|]. apply IH. exists c2. split; assumption.
Qed.
(** What append has computed for the [i]th segment. *)
Definition segment_of (gs : list fpose) (lens : list f64) (i : nat) (s : fsegment) : Prop :=
  exists g g' inv l, nth_error gs i = Some g /\ nth_error gs (S i) = Some g' /\ nth_error lens i = Some l /\
    fref_orig s = g /\ fpose_inverse g inv /\ fpose_mul inv g' (forig_dest s) /\ fse3_arc_length (forig_dest s) l.
Lemma nth_snoc_cases {A} (l : list A) x i y : nth_error (l ++ [x]) i = Some y -> nth_error l i = Some y \/ (i = length l /\ y = x).
Proof.
  intro H. destruct (Nat.lt_ge_cases i (length l)) as [L|L]; [rewrite nth_error_app1 in H by exact L; left; exact H|].
  rewrite nth_error_app2 in H by exact L. right. destruct (i - length l) as [|k] eqn:E; [cbn in H; injection H; intro; split; [lia|congruence]|destruct k; discriminate H].
Qed.
Lemma nth_grows {A} (l : list A) r i y : nth_error l i = Some y -> nth_error (l ++ r) i = Some y.
Proof. intro H. rewrite nth_error_app1; [exact H|]. apply nth_error_Some. congruence. Qed.
Lemma nth_at {A} (l : list A) x r : nth_error (l ++ x :: r) (length l) = Some x.
Proof. rewrite nth_error_app2, Nat.sub_diag by lia. reflexivity. Qed.
Lemma combine_snoc {A} (l : list A) x y : combine ((l ++ [x]) ++ [y]) (tl ((l ++ [x]) ++ [y])) = combine (l ++ [x]) (tl (l ++ [x])) ++ [(x, y)].
Proof.
  induction l as [|a l IH]; [reflexivity|]. destruct l as [|b l]; [reflexivity|]. cbn [app tl combine] in *. f_equal. exact IH.
Qed.
Lemma built gs : gs <> [] -> forall c, fdc_make gs c -> exists lens,
  map fref (fcontrols c) = gs /\ length gs = S (length lens) /\ arc_lengths lens = Ok (map farc (fcontrols c)) /\
  map (fun s => (forig_arc s, fdest_arc s)) (fsegments c) = segment_arcs (map farc (fcontrols c)) /\
  length (fsegments c) = length lens /\ forall i s, nth_error (fsegments c) i = Some s -> segment_of gs lens i s.
Proof.
  induction gs as [|g gs IH] using rev_ind; intros N c M; [congruence|]. apply appends_snoc in M. destruct M as (c1 & M & A). destruct gs as [|k gs].
  - cbn in M. subst c1. cbn in A. subst c. exists []. cbn. repeat split. intros [|i] s H; discriminate H.
  - destruct (IH ltac:(discriminate) c1 M) as (lens & E1 & E2 & E3 & E4 & E5 & E6). clear IH. set (gs0 := k :: gs) in *. unfold fdc_append in A.
    destruct (rev (fcontrols c1)) as [|b r] eqn:R; [apply (f_equal (@length _)) in R; rewrite rev_length, <- (map_length fref), E1 in R; discriminate R|].
    destruct A as (inv & rel & l & I & P & L & ->). cbn [fcontrols fsegments]. apply (f_equal (@rev _)) in R. rewrite rev_involutive in R. cbn [rev] in R. rewrite R in *. clear R. set (cs := rev r) in *.
    rewrite !map_app in *. cbn [map] in *. exists (lens ++ [l]). split; [rewrite E1; reflexivity|]. split; [rewrite !app_length, E2; cbn [length]; lia|].
    split; [apply arcs_snoc, E3|]. split; [rewrite E4; unfold segment_arcs; rewrite combine_snoc; reflexivity|]. split; [rewrite !app_length; cbn; lia|].
    assert (Lg : nth_error gs0 (length lens) = Some (fref b)).
    { rewrite <- E1. replace (length lens) with (length (map fref cs)); [apply nth_at|]. apply (f_equal (@length _)) in E1. rewrite app_length in E1. cbn [length] in E1. lia. }
    intros i s H. apply nth_snoc_cases in H. destruct H as [H|[-> ->]].
    + destruct (E6 i s H) as (x & x' & iv & l' & F1 & F2 & F3 & F4). exists x, x', iv, l'. split; [apply nth_grows, F1|]. split; [apply nth_grows, F2|]. split; [apply nth_grows, F3|exact F4].
    + rewrite E5. exists (fref b), g, inv, l. split; [apply nth_grows, Lg|]. split; [rewrite <- E2; apply nth_at|]. split; [apply nth_at|]. cbn [fref_orig forig_dest]. split; [reflexivity|]. split; [exact I|]. split; assumption.
Qed.
Lemma length_is c : fdc_length c = curve_length (map farc (fcontrols c)).
Proof. unfold fdc_length, curve_length. rewrite <- map_rev. destruct (rev (fcontrols c)); reflexivity. Qed.
Lemma find_is {A B} (f : A -> B) (p : B -> bool) l : match find (fun x => p (f x)) l with
  | Some s => exists i, find_if p (map f l) = Some i /\ nth_error l i = Some s
  | None => find_if p (map f l) = None end.
Proof.
  induction l as [|x l IH]; [reflexivity|]. cbn [find map find_if]. destruct (p (f x)); [exists 0%nat; split; reflexivity|]. destruct (find _ l) as [s|]; [|rewrite IH; reflexivity].
  destruct IH as (i & E & N). exists (S i). rewrite E. split; [reflexivity|exact N].
Qed.
(** Looking up is what C63 is about. *)
Lemma impl_is gs c a f s : gs <> [] -> fdc_make gs c -> fdc_point_at_impl c a = Ok (f, s) ->
  exists i, length_at (map farc (fcontrols c)) a = Ok (LengthData i f) /\ nth_error (fsegments c) i = Some s.
Proof.
  intros N M H. destruct (built gs N c M) as (lens & _ & _ & _ & E & _). unfold fdc_point_at_impl in H. unfold length_at. rewrite <- length_is, <- E.
  destruct (reassert (fle (of_int 0) a)) as [[]| |]; [|discriminate H..]. cbn [obind] in *. destruct (reassert (fle a (fdc_length c))) as [[]| |]; [|discriminate H..]. cbn [obind] in *.
  pose proof (find_is (fun s => (forig_arc s, fdest_arc s)) (fun segment => fle a (snd segment)) (fsegments c)) as F. cbn [snd] in F.
  destruct (find _ (fsegments c)) as [s'|]; [|discriminate H]. injection H as H1 H2. subst s'. destruct F as (i & F & K). exists i. rewrite F, (map_nth_error _ _ _ K), H1. split; [reflexivity|exact K].
Qed.
Lemma impl_some gs c a p : gs <> [] -> fdc_make gs c -> length_at (map farc (fcontrols c)) a = Ok p -> exists s, fdc_point_at_impl c a = Ok (at_fraction p, s).
Proof.
  intros N M H. destruct (built gs N c M) as (lens & _ & _ & _ & E & _). unfold length_at in H. unfold fdc_point_at_impl. rewrite <- length_is, <- E in H.
  destruct (reassert (fle (of_int 0) a)) as [[]| |]; [|discriminate H..]. cbn [obind] in *. destruct (reassert (fle a (fdc_length c))) as [[]| |]; [|discriminate H..]. cbn [obind] in *.
  pose proof (find_is (fun s => (forig_arc s, fdest_arc s)) (fun segment => fle a (snd segment)) (fsegments c)) as F. cbn [snd] in F.
  destruct (find _ (fsegments c)) as [s|]; [|rewrite F in H; discriminate H]. destruct F as (i & F & K). rewrite F, (map_nth_error _ _ _ K) in H. injection H as <-. exists s. reflexivity.
Qed.
