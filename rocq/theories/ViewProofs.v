From Verif Require Import Cpp ViewModel ViewSpec.

Lemma nth_set_same {A} (l : list A) n x y : nth_error l n = Some y -> nth_error (set_nth l n x) n = Some x.
Proof. revert n. induction l as [|a l IH]; intros [|n] H; try discriminate; cbn in *; eauto. Qed.
Lemma nth_set_other {A} (l : list A) n m x : m <> n -> nth_error (set_nth l n x) m = nth_error l m.
Proof.
  revert n m. induction l as [|a l IH]; intros [|n] [|m] H; try reflexivity; try congruence.
  cbn. apply IH. congruence.
Qed.

Section Proofs.
Context {P : Type}.

Definition critical (c : pc P) : bool :=
  match c with InPush _ | Pushed _ | InFlush _ | SendDone _ _ => true | _ => false end.

Definition local (t : nat) (c : pc P) (s : state P) : Prop :=
  match c with
  | Pushed p => entered t (ViewObject p) (trace s)
  | WantFlush o | InFlush o => entered t o (trace s)
  | SendDone o ok => sent_own t o ok (trace s) /\ primitives s = []
  | _ => True
  end.

Definition pending (c : pc P) : list P :=
  match c with WantPush p | InPush p => [p] | _ => [] end.

Record inv (programs : list (list (op P))) (s : state P) : Prop := {
  inv_lock : forall t th, nth_error (threads s) t = Some th ->
    (critical (at_ th) = true <-> lock s = Some t);
  inv_holder : forall t, lock s = Some t -> exists th, nth_error (threads s) t = Some th;
  inv_conserve : inserted (trace s) = sent (trace s) ++ primitives s;
  inv_local : forall t th, nth_error (threads s) t = Some th -> local t (at_ th) s;
  inv_order : forall t th, nth_error (threads s) t = Some th ->
    exists prog, nth_error programs t = Some prog /\
    inserted_by t (trace s) ++ pending (at_ th) ++ views (todo th) = views prog;
  inv_done : forall pre t o ok post, trace s = pre ++ Done t o ok :: post -> sent_own t o ok pre;
  inv_prefix : forall x y, trace s = x ++ y -> exists r, inserted x = sent x ++ r /\
    forall u qs k z, y = Sent u qs k :: z -> qs = r }.

(** *** Lists of events *)

Lemma inserted_app a b : inserted (a ++ b) = inserted a ++ @inserted P b.
Proof. apply flat_map_app. Qed.
Lemma sent_app a b : sent (a ++ b) = sent a ++ @sent P b.
Proof. apply flat_map_app. Qed.
Lemma inserted_by_app t a b : inserted_by t (a ++ b) = inserted_by t a ++ @inserted_by P t b.
Proof. apply flat_map_app. Qed.

Lemma quiet_snoc t (b : list (event P)) e : quiet t b -> owner e <> t -> quiet t (b ++ [e]).
Proof. intros H He x Hx. apply in_app_or in Hx. destruct Hx as [Hx|[<-|[]]]; auto. Qed.

Lemma entered_snoc t (o : op P) tr e : entered t o tr -> owner e <> t -> entered t o (tr ++ [e]).
Proof.
  destruct o as [p|]; [|exact (fun _ _ => I)]. intros (a & b & -> & H) He.
  exists a, (b ++ [e]). rewrite <- app_assoc. split; [reflexivity|]. apply quiet_snoc; assumption.
Qed.

Lemma sent_own_snoc t (o : op P) ok tr e : sent_own t o ok tr -> owner e <> t -> sent_own t o ok (tr ++ [e]).
Proof.
  intros (a & ps & b & -> & H1 & H2 & H3) He. exists a, ps, (b ++ [e]). rewrite <- app_assoc.
  repeat split; try assumption. apply quiet_snoc; assumption.
Qed.

Lemma split_snoc {A} (l : list A) x a b : l ++ [x] = a ++ b ->
  (b = [] /\ a = l ++ [x]) \/ (exists b', b = b' ++ [x] /\ l = a ++ b').
Proof.
  intro H. destruct b as [|y b] using rev_ind.
  - left. rewrite app_nil_r in H. auto.
  - right. rewrite app_assoc in H. apply app_inj_tail in H. destruct H as [-> ->]. eauto.
Qed.

(** *** The invariant holds throughout *)

Lemma inv_init programs : inv programs (init programs).
Proof.
  assert (Hidle : forall t th, nth_error (threads (init programs)) t = Some th ->
    exists prog, nth_error programs t = Some prog /\ th = {| at_ := Idle; todo := prog |}).
  { intros t th H. cbn in H. rewrite nth_error_map in H.
    destruct (nth_error programs t) as [prog|]; [|discriminate]. injection H as <-. eauto. }
  constructor; cbn.
  - intros t th H. apply Hidle in H. destruct H as (prog & _ & ->). cbn. split; discriminate.
  - discriminate.
  - reflexivity.
  - intros t th H. apply Hidle in H. destruct H as (prog & _ & ->). exact I.
  - intros t th H. apply Hidle in H. destruct H as (prog & Hp & ->). exists prog. auto.
  - intros [|? ?] ? ? ? ? H; discriminate.
  - intros x y H. symmetry in H. apply app_eq_nil in H. destruct H as [-> ->]. exists [].
    split; [reflexivity|]. discriminate.
Qed.

(** A step of [t] from [c] to [c'], leaving [rest] to do, extending the history by
    [new]: what must be checked. *)
Lemma inv_move programs s t c rest0 c' rest lk prims new :
  inv programs s ->
  nth_error (threads s) t = Some {| at_ := c; todo := rest0 |} ->
  lk = (if critical c' then Some t else if critical c then None else lock s) ->
  (critical c' = true -> critical c = true \/ lock s = None) ->
  (forall e, In e new -> owner e = t) -> List.length new <= 1 ->
  inserted (trace s ++ new) = sent (trace s ++ new) ++ prims ->
  local t c' {| lock := lk; primitives := prims; threads := goto s t c' rest; trace := trace s ++ new |} ->
  (primitives s = [] -> critical c = false -> prims = []) ->
  inserted_by t new ++ pending c' ++ views rest = pending c ++ views rest0 ->
  (forall u o k, In (Done u o k) new -> sent_own t o k (trace s) /\ u = t) ->
  (forall u qs k, In (Sent u qs k) new -> qs = primitives s) ->
  inv programs {| lock := lk; primitives := prims; threads := goto s t c' rest; trace := trace s ++ new |}.
Proof.
  intros I Ht Hlk Hacq Hown Hlen Hcons Hloc Hprims Hord Hdone Hsent.
  assert (Hc : critical c = true <-> lock s = Some t) by (exact (inv_lock _ _ I _ _ Ht)).
  assert (Hth : forall u th, nth_error (goto s t c' rest) u = Some th ->
    (u = t /\ th = {| at_ := c'; todo := rest |}) \/ (u <> t /\ nth_error (threads s) u = Some th)).
  { intros u th H. unfold goto in H. destruct (Nat.eq_dec u t) as [->|Hne].
    - rewrite (nth_set_same _ _ _ _ Ht) in H. injection H as <-. auto.
    - rewrite nth_set_other in H by exact Hne. auto. }
  assert (Hnew : new = [] \/ exists e, new = [e] /\ owner e = t).
  { destruct new as [|e [|e' new]]; [auto| |cbn in Hlen; lia].
    right. exists e. split; [reflexivity|]. apply Hown. left; reflexivity. }
  constructor; cbn [lock primitives threads trace].
  - intros u th H. apply Hth in H. destruct H as [[-> ->]|[Hne H]].
    + cbn [at_]. subst lk. destruct (critical c'); [tauto|].
      split; [discriminate|]. destruct (critical c) eqn:Ec; [discriminate|].
      intro X. apply Hc in X. discriminate.
    + rewrite (inv_lock _ _ I _ _ H). subst lk.
      destruct (critical c') eqn:Ec'.
      * destruct (Hacq eq_refl) as [X|X].
        -- apply Hc in X. rewrite X. split; intro Y; congruence.
        -- rewrite X. split; intro Y; congruence.
      * destruct (critical c) eqn:Ec; [|tauto].
        assert (lock s = Some t) as -> by tauto. split; intro Y; congruence.
  - intros u Hu. destruct (Nat.eq_dec u t) as [->|Hne].
    + eexists. unfold goto. apply (nth_set_same _ _ _ _ Ht).
    + unfold goto. rewrite nth_set_other by exact Hne. apply (inv_holder _ _ I).
      subst lk. destruct (critical c'); [congruence|]. destruct (critical c); [discriminate|exact Hu].
  - exact Hcons.
  - intros u th H. apply Hth in H. destruct H as [[-> ->]|[Hne H]]; [exact Hloc|].
    pose proof (inv_local _ _ I _ _ H) as Hl.
    pose proof (inv_lock _ _ I _ _ H) as Hul.
    destruct Hnew as [->|(e & -> & He)].
    + rewrite app_nil_r. destruct (at_ th) as [|p|p|p|o|o|o k]; cbn in *; try exact Hl.
      destruct Hl as [Hl1 Hl2]. split; [exact Hl1|]. apply Hprims; [exact Hl2|].
      destruct (critical c); [|reflexivity]. assert (lock s = Some u) by tauto.
      assert (lock s = Some t) by tauto. congruence.
    + destruct (at_ th) as [|p|p|p|o|o|o k]; cbn [local trace primitives] in *; try exact Hl;
      try (apply entered_snoc; [exact Hl|congruence]).
      destruct Hl as [Hl1 Hl2]. split; [apply sent_own_snoc; [exact Hl1|congruence]|].
      apply Hprims; [exact Hl2|].
      destruct (critical c); [|reflexivity]. assert (lock s = Some u) by tauto.
      assert (lock s = Some t) by tauto. congruence.
  - intros u th H. apply Hth in H. rewrite inserted_by_app. destruct H as [[-> ->]|[Hne H]].
    + destruct (inv_order _ _ I _ _ Ht) as (prog & Hp & Ho). exists prog. split; [exact Hp|].
      cbn [at_ todo] in *. rewrite <- Ho, <- Hord, <- !app_assoc. reflexivity.
    + destruct (inv_order _ _ I _ _ H) as (prog & Hp & Ho). exists prog. split; [exact Hp|].
      rewrite <- Ho. f_equal. destruct Hnew as [->|(e & -> & He)].
      * apply app_nil_r.
      * destruct e as [v p|v ps k|v o k]; cbn in He |- *; subst v; try apply app_nil_r.
        destruct (Nat.eqb_spec t u) as [E|_]; [congruence|]. apply app_nil_r.
  - intros pre u o k post H. destruct Hnew as [->|(e & -> & He)].
    + rewrite app_nil_r in H. eapply (inv_done _ _ I); exact H.
    + apply split_snoc in H. destruct H as [[H _]|(b' & H & Htr)]; [discriminate|].
      destruct b' as [|d b'].
      * cbn in H. injection H as <- ->. rewrite app_nil_r in Htr. subst pre.
        destruct (Hdone u o k) as [X ->]; [left; reflexivity|]. exact X.
      * cbn in H. injection H as <- H. eapply (inv_done _ _ I); exact Htr.
  - intros x y H. destruct Hnew as [->|(e & -> & He)].
    + rewrite app_nil_r in H. apply (inv_prefix _ _ I _ _ H).
    + apply split_snoc in H. destruct H as [[-> ->]|(b' & -> & Htr)].
      * exists prims. split; [exact Hcons|]. discriminate.
      * destruct (inv_prefix _ _ I _ _ Htr) as (r & Hr & Hq). exists r. split; [exact Hr|].
        intros u qs k z Hz. destruct b' as [|d b'].
        -- cbn in Hz. injection Hz as -> _. rewrite app_nil_r in Htr. subst x.
           rewrite (Hsent u qs k) by (left; reflexivity).
           rewrite (inv_conserve _ _ I) in Hr. apply app_inv_head in Hr. exact Hr.
        -- cbn in Hz. injection Hz as -> Hz. eapply Hq. reflexivity.
Qed.

Lemma inv_step programs s s' : inv programs s -> step s s' -> inv programs s'.
Proof.
  intros I H. pose proof (inv_conserve _ _ I) as Hc.
  assert (Hnil : trace s ++ [] = trace s) by apply app_nil_r.
  destruct H as [s t p rest Ht|s t rest Ht|s t p rest Ht Hl|s t p rest Ht|s t p rest Ht|s t o rest Ht Hl
    |s t o rest ok Ht|s t o rest ok Ht];
  pose proof (inv_lock _ _ I _ _ Ht) as HL; pose proof (inv_local _ _ I _ _ Ht) as HO;
  cbn [at_ critical local] in HL, HO.
  - rewrite <- Hnil. eapply (inv_move programs s t _ _ (WantPush p) rest _ _ []); try eassumption; cbn; auto; try tauto.
    rewrite Hnil; assumption.
  - rewrite <- Hnil. eapply (inv_move programs s t _ _ (WantFlush Flush) rest _ _ []); try eassumption; cbn; auto; try tauto.
    rewrite Hnil; assumption.
  - rewrite <- Hnil. eapply (inv_move programs s t _ _ (InPush p) rest _ _ []); try eassumption; cbn; auto; try tauto.
    rewrite Hnil; assumption.
  - eapply (inv_move programs s t _ _ (Pushed p) rest _ _ [Inserted t p]); try eassumption; cbn; auto; try tauto.
    + intros e [<-|[]]; reflexivity.
    + rewrite inserted_app, sent_app, Hc. cbn. rewrite app_nil_r, app_assoc. reflexivity.
    + exists (trace s), []. split; [reflexivity|]. intros e [].
    + discriminate.
    + rewrite Nat.eqb_refl. reflexivity.
    + intros u o k [X|[]]; discriminate.
    + intros u o k [X|[]]; discriminate.
  - rewrite <- Hnil. eapply (inv_move programs s t _ _ (WantFlush (ViewObject p)) rest _ _ []); try eassumption; cbn; auto; try tauto; try discriminate.
    + rewrite Hnil; assumption.
    + rewrite Hnil; assumption.
  - rewrite <- Hnil. eapply (inv_move programs s t _ _ (InFlush o) rest _ _ []); try eassumption; cbn; auto; try tauto.
    + rewrite Hnil; assumption.
    + rewrite Hnil; assumption.
  - eapply (inv_move programs s t _ _ (SendDone o ok) rest _ _ [Sent t (primitives s) ok]); try eassumption; cbn; auto; try tauto.
    + intros e [<-|[]]; reflexivity.
    + rewrite inserted_app, sent_app, Hc. cbn. rewrite !app_nil_r. reflexivity.
    + split; [|reflexivity]. exists (trace s), (primitives s), []. repeat split; try assumption.
      intros e [].
    + intros u o' k [X|[]]; discriminate.
    + intros u qs k [X|[]]. congruence.
  - destruct HO as [HO HP].
    eapply (inv_move programs s t _ _ Idle rest _ _ [Done t o ok]); try eassumption; cbn; auto; try tauto; try discriminate.
    + intros e [<-|[]]; reflexivity.
    + rewrite inserted_app, sent_app, Hc, HP. cbn. rewrite !app_nil_r. destruct ok; rewrite app_nil_r; reflexivity.
    + intros u o' k [X|[]]. injection X as -> -> ->. auto.
    + intros u qs k [X|[]]; discriminate.
Qed.

Lemma inv_reachable programs n s : steps n (init programs) s -> inv programs s.
Proof.
  intro H. remember (init programs) as s0 eqn:E. induction H as [s|n s s' s'' _ IH Hs].
  - subst. apply inv_init.
  - eapply inv_step; eauto.
Qed.

(** *** The properties *)

Lemma conservation programs n (s : state P) : steps n (init programs) s ->
  inserted (trace s) = sent (trace s) ++ primitives s.
Proof. intro H. apply (inv_conserve _ _ (inv_reachable _ _ _ H)). Qed.

Lemma program_order programs n (s : state P) t prog th : steps n (init programs) s ->
  nth_error programs t = Some prog -> nth_error (threads s) t = Some th ->
  exists rest, inserted_by t (trace s) ++ rest = views prog /\
    (at_ th = Idle -> todo th = [] -> rest = []).
Proof.
  intros H Hp Ht. destruct (inv_order _ _ (inv_reachable _ _ _ H) _ _ Ht) as (prog' & Hp' & Ho).
  rewrite Hp in Hp'. injection Hp' as <-. eexists. split; [exact Ho|].
  intros -> ->. reflexivity.
Qed.

Lemma done_sent programs n (s : state P) pre t o ok post : steps n (init programs) s ->
  trace s = pre ++ Done t o ok :: post -> sent_own t o ok pre.
Proof. intros H. apply (inv_done _ _ (inv_reachable _ _ _ H)). Qed.

Lemma first_send (l : list (event P)) : existsb is_send l = true ->
  exists a t ps k b, l = a ++ Sent t ps k :: b /\ existsb is_send a = false.
Proof.
  induction l as [|e l IH]; [discriminate|]. destruct e as [u p|u ps k|u o k]; cbn; intro H.
  - destruct (IH H) as (a & t & ps & k & b & -> & Ha). exists (Inserted u p :: a), t, ps, k, b. auto.
  - exists [], u, ps, k, l. auto.
  - destruct (IH H) as (a & t & ps & k' & b & -> & Ha). exists (Done u o k :: a), t, ps, k', b. auto.
Qed.

Lemma sent_no_send (l : list (event P)) : existsb is_send l = false -> sent l = [].
Proof.
  induction l as [|e l IH]; [reflexivity|]. destruct e; cbn; try discriminate; exact IH.
Qed.

Lemma carried programs n (s : state P) pre t p ok post : steps n (init programs) s ->
  trace s = pre ++ Done t (ViewObject p) ok :: post ->
  exists a b u qs k c, pre = a ++ Inserted t p :: b ++ Sent u qs k :: c /\
    existsb is_send b = false /\ In p qs /\ (u = t /\ k = ok \/ u <> t).
Proof.
  intros H Htr. pose proof (inv_reachable _ _ _ H) as I.
  destruct (inv_done _ _ I _ _ _ _ _ Htr) as (a & ps & b & -> & Hi & Hq & He).
  cbn in He. destruct He as (a1 & a2 & -> & Hq2).
  destruct (first_send (a2 ++ [Sent t ps ok])) as (x & u & qs & k & y & Hx & Hns).
  { rewrite existsb_app. cbn. apply orb_true_r. }
  exists a1, x, u, qs, k, (y ++ b).
  assert (Hpre : (a1 ++ Inserted t p :: a2) ++ Sent t ps ok :: b =
    a1 ++ Inserted t p :: x ++ Sent u qs k :: y ++ b).
  { rewrite <- app_assoc. cbn. f_equal. f_equal.
    change (Sent t ps ok :: b) with ([Sent t ps ok] ++ b). rewrite app_assoc, Hx, <- app_assoc.
    reflexivity. }
  split; [exact Hpre|]. split; [exact Hns|]. split.
  - rewrite Hpre in Htr.
    assert (T1 : trace s = a1 ++ (Inserted t p :: x ++ Sent u qs k :: y ++ b) ++ Done t (ViewObject p) ok :: post)
      by (rewrite Htr, <- app_assoc; reflexivity).
    destruct (inv_prefix _ _ I _ _ T1) as (r1 & Hr1 & _).
    assert (T2 : trace s = (a1 ++ Inserted t p :: x) ++ Sent u qs k :: (y ++ b) ++ Done t (ViewObject p) ok :: post).
    { rewrite Htr, <- !app_assoc. cbn. rewrite <- !app_assoc. cbn. rewrite <- !app_assoc. reflexivity. }
    destruct (inv_prefix _ _ I _ _ T2) as (r2 & Hr2 & Hq2').
    rewrite (Hq2' _ _ _ _ eq_refl).
    rewrite inserted_app, sent_app in Hr2. cbn in Hr2.
    replace (flat_map _ x) with (inserted x) in Hr2 by reflexivity.
    replace (flat_map _ x) with (@sent P x) in Hr2 by reflexivity.
    rewrite (sent_no_send _ Hns), Hr1, app_nil_r, <- app_assoc in Hr2.
    apply app_inv_head in Hr2. rewrite <- Hr2. apply in_or_app. right. left. reflexivity.
  - destruct (split_snoc _ _ _ _ Hx) as [[X _]|(b' & Hb & Ha2)]; [discriminate|].
    destruct b' as [|d b'].
    + cbn in Hb. injection Hb as <- <- <-. left. auto.
    + cbn in Hb. injection Hb as <- Hb. right. apply (Hq2 (Sent u qs k)).
      rewrite Ha2. apply in_or_app. right. left. reflexivity.
Qed.

(** With one thread nobody else can send. *)
Lemma single_thread prog n (s : state P) t e : steps n (init [prog]) s -> In e (trace s) -> owner e = t -> t = 0.
Proof.
  intro H. remember (init [prog]) as s0 eqn:E.
  assert (G : List.length (threads s) = 1 /\ forall e, In e (trace s) -> owner e = 0).
  { induction H as [s|n s s' s'' _ IH Hs].
    - subst. split; [reflexivity|]. intros e' [].
    - destruct (IH E) as [Hlen Hev].
      assert (Hset : forall (l : list (thread P)) m x, List.length (set_nth l m x) = List.length l).
      { intros l. induction l as [|y l IHl]; intros [|m] x; cbn; auto. }
      assert (Ht0 : forall u th, nth_error (threads s') u = Some th -> u = 0).
      { intros u th Hu. assert (Hn : nth_error (threads s') u <> None) by congruence.
        apply nth_error_Some in Hn. lia. }
      destruct Hs; cbn [threads trace goto]; unfold goto; rewrite Hset; (split; [exact Hlen|]);
      try exact Hev; intros e' Hin; apply in_app_or in Hin;
      (destruct Hin as [Hin|[<-|[]]]; [auto|cbn; eapply Ht0; eassumption]). }
  intros Hin <-. apply G, Hin.
Qed.

Lemma accepted_app a b : accepted (a ++ b) = accepted a ++ @accepted P b.
Proof. apply flat_map_app. Qed.

Lemma all_ok_accepted tr : all_sends_ok tr -> accepted tr = @sent P tr.
Proof.
  induction tr as [|e tr IH]; intro H; [reflexivity|].
  assert (IH' : accepted tr = sent tr).
  { apply IH. intros t ps ok Hin. eapply H. right. exact Hin. }
  destruct e as [u p|u ps k|u o k]; cbn; try exact IH'.
  rewrite (H u ps k) by (left; reflexivity). f_equal. exact IH'.
Qed.

(** *** Progress *)

Definition weight (c : pc P) : nat :=
  match c with
  | Idle => 0 | WantPush _ => 6 | InPush _ => 5 | Pushed _ => 4
  | WantFlush _ => 3 | InFlush _ => 2 | SendDone _ _ => 1
  end.
Definition work (th : thread P) : nat := weight (at_ th) + 7 * List.length (todo th).
Fixpoint total (l : list (thread P)) : nat :=
  match l with [] => 0 | th :: l => work th + total l end.

Lemma total_set l t th th' : nth_error l t = Some th ->
  total (set_nth l t th') + work th = total l + work th'.
Proof.
  revert t. induction l as [|a l IH]; intros [|t] H; try discriminate; cbn [nth_error set_nth total] in *.
  - injection H as ->. lia.
  - specialize (IH _ H). lia.
Qed.

Lemma step_work (s s' : state P) : step s s' -> total (threads s') < total (threads s).
Proof.
  intro H. destruct H as [s t p rest Ht|s t rest Ht|s t p rest Ht Hl|s t p rest Ht|s t p rest Ht|s t o rest Ht Hl
    |s t o rest ok Ht|s t o rest ok Ht]; cbn [threads goto]; unfold goto;
  match goal with |- total (set_nth _ _ ?th') < _ => pose proof (total_set _ _ _ th' Ht) as H end;
  unfold work in H; cbn [at_ todo weight List.length] in H; lia.
Qed.

Lemma steps_bound n (s s' : state P) : steps n s s' -> n + total (threads s') <= total (threads s).
Proof.
  induction 1 as [s|n s s' s'' _ IH Hs]; [lia|]. apply step_work in Hs. lia.
Qed.

Lemma total_init programs :
  total (threads (init programs)) = 7 * list_sum (map (@List.length _) programs).
Proof.
  cbn [init threads]. induction programs as [|p l IH]; [reflexivity|].
  cbn [map total]. rewrite IH. unfold work, list_sum. cbn [at_ todo weight fold_right]. lia.
Qed.

Lemma terminates programs n (s : state P) : steps n (init programs) s ->
  n <= 7 * list_sum (map (@List.length _) programs).
Proof. intro H. apply steps_bound in H. rewrite total_init in H. lia. Qed.

Lemma progress programs n (s : state P) : steps n (init programs) s -> ~ finished s -> exists s', step s s'.
Proof.
  intros H Hf. pose proof (inv_reachable _ _ _ H) as I.
  destruct (lock s) as [t|] eqn:Hl.
  - destruct (inv_holder _ _ I _ Hl) as [th Ht].
    assert (Hc : critical (at_ th) = true) by (apply (inv_lock _ _ I _ _ Ht), Hl).
    destruct th as [c rest]. cbn in Hc. destruct c; try discriminate; eexists.
    + eapply step_push; exact Ht.
    + eapply step_unlock_push; exact Ht.
    + eapply (step_send _ _ _ _ _ true); exact Ht.
    + eapply step_finish; exact Ht.
  - assert (Hex : exists t th, nth_error (threads s) t = Some th /\ ~ (at_ th = Idle /\ todo th = [])).
    { assert (G : forall l : list (thread P),
        ~ (forall t th, nth_error l t = Some th -> at_ th = Idle /\ todo th = []) ->
        exists t th, nth_error l t = Some th /\ ~ (at_ th = Idle /\ todo th = [])).
      { induction l as [|th l IH]; intro Hn.
        - exfalso. apply Hn. intros [|t] th X; discriminate.
        - assert (D : (at_ th = Idle /\ todo th = []) \/ ~ (at_ th = Idle /\ todo th = [])).
          { destruct th as [[] []]; cbn; first [left; split; reflexivity | right; intros [? ?]; discriminate]. }
          destruct D as [D|D]; [|exists 0, th; auto].
          destruct IH as (t & th' & X & Y).
          + intro Hl'. apply Hn. intros [|t] th' X; cbn in X; [injection X as <-; exact D|eauto].
          + exists (S t), th'. auto. }
      apply G, Hf. }
    destruct Hex as (t & [c rest] & Ht & Hn). cbn in Hn.
    assert (Hc : critical c <> true).
    { intro X. apply (inv_lock _ _ I _ _ Ht) in X. congruence. }
    destruct c; cbn in Hc; try congruence.
    + destruct rest as [|[p|] rest]; [tauto| |]; eexists; [eapply step_call_view|eapply step_call_flush]; exact Ht.
    + eexists. eapply step_lock_push; eassumption.
    + eexists. eapply step_lock_flush; eassumption.
Qed.

(** *** A scheduler, to exhibit executions *)

Definition fire (t : nat) (ok : bool) (s : state P) : option (state P) :=
  match nth_error (threads s) t with
  | None => None
  | Some {| at_ := c; todo := rest |} =>
      match c, rest with
      | Idle, [] => None
      | Idle, ViewObject p :: rest => Some {| lock := lock s; primitives := primitives s;
          threads := goto s t (WantPush p) rest; trace := trace s |}
      | Idle, Flush :: rest => Some {| lock := lock s; primitives := primitives s;
          threads := goto s t (WantFlush Flush) rest; trace := trace s |}
      | WantPush p, _ => match lock s with Some _ => None | None =>
          Some {| lock := Some t; primitives := primitives s;
                  threads := goto s t (InPush p) rest; trace := trace s |} end
      | InPush p, _ => Some {| lock := lock s; primitives := primitives s ++ [p];
          threads := goto s t (Pushed p) rest; trace := trace s ++ [Inserted t p] |}
      | Pushed p, _ => Some {| lock := None; primitives := primitives s;
          threads := goto s t (WantFlush (ViewObject p)) rest; trace := trace s |}
      | WantFlush o, _ => match lock s with Some _ => None | None =>
          Some {| lock := Some t; primitives := primitives s;
                  threads := goto s t (InFlush o) rest; trace := trace s |} end
      | InFlush o, _ => Some {| lock := lock s; primitives := [];
          threads := goto s t (SendDone o ok) rest;
          trace := trace s ++ [Sent t (primitives s) ok] |}
      | SendDone o k, _ => Some {| lock := None; primitives := if k then [] else primitives s;
          threads := goto s t Idle rest; trace := trace s ++ [Done t o k] |}
      end
  end.

Lemma fire_step t ok s s' : fire t ok s = Some s' -> step s s'.
Proof.
  unfold fire. destruct (nth_error (threads s) t) as [[c rest]|] eqn:Ht; [|discriminate].
  destruct c as [|p|p|p|o|o|o k].
  - destruct rest as [|[p|] rest]; intro H; try discriminate; injection H as <-;
    [eapply step_call_view|eapply step_call_flush]; eassumption.
  - destruct (lock s) eqn:Hl; intro H; [discriminate|]. injection H as <-. eapply step_lock_push; eassumption.
  - intro H; injection H as <-. eapply step_push; eassumption.
  - intro H; injection H as <-. eapply step_unlock_push; eassumption.
  - destruct (lock s) eqn:Hl; intro H; [discriminate|]. injection H as <-. eapply step_lock_flush; eassumption.
  - intro H; injection H as <-. eapply step_send; eassumption.
  - intro H; injection H as <-. eapply step_finish; eassumption.
Qed.

(** Runs a schedule: thread numbers, with the client's answer for a send. *)
Fixpoint schedule (l : list (nat * bool)) (s : state P) : option (state P) :=
  match l with
  | [] => Some s
  | (t, ok) :: l => match fire t ok s with Some s' => schedule l s' | None => None end
  end.

Lemma schedule_steps l : forall n s0 s s', steps n s0 s -> schedule l s = Some s' ->
  steps (n + List.length l) s0 s'.
Proof.
  induction l as [|[t ok] l IH]; intros n s0 s s' H E.
  - injection E as <-. rewrite Nat.add_0_r. exact H.
  - cbn in E. destruct (fire t ok s) as [s1|] eqn:F; [|discriminate].
    cbn [List.length]. rewrite Nat.add_succ_r. apply (IH (S n) s0 s1); [|exact E].
    econstructor; [exact H|]. eapply fire_step, F.
Qed.

End Proofs.
