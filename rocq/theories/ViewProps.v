(** Property theorems C52, C53: View under concurrent use. *)
From Verif Require Import Cpp ViewModel ViewSpec ViewProofs.

(** ** C52: for every number of threads, programs and schedule *)

(** The updates handed to the client, concatenated, followed by what is still stored,
    are exactly the primitives inserted, in order of insertion: nothing is lost,
    duplicated or reordered before it is sent once. *)
Theorem c52_sent_exactly_once : forall (P : Type) programs n (s : state P),
  steps n (init programs) s ->
  inserted (trace s) = sent (trace s) ++ primitives s.
Proof. exact (fun P => @conservation P). Qed.

(** Each thread's primitives are inserted in its program order, all of them when it
    has finished. *)
Theorem c52_program_order : forall (P : Type) programs n (s : state P) t prog th,
  steps n (init programs) s ->
  nth_error programs t = Some prog -> nth_error (threads s) t = Some th ->
  exists rest, inserted_by t (trace s) ++ rest = views prog /\
    (at_ th = Idle -> todo th = [] -> rest = []).
Proof. exact (fun P => @program_order P). Qed.

(** When a call ends, returning or throwing, it has inserted its primitive and then
    sent everything inserted and not yet sent; it returns exactly if that send was
    answered okay. *)
Theorem c52_done_implies_sent : forall (P : Type) programs n (s : state P) pre t o ok post,
  steps n (init programs) s ->
  trace s = pre ++ Done t o ok :: post -> sent_own t o ok pre.
Proof. exact (fun P => @done_sent P). Qed.

(** If all sends succeed, what is accepted is what was inserted, in order, and no
    call throws. *)
Theorem c52_all_delivered : forall (P : Type) programs n (s : state P),
  steps n (init programs) s -> all_sends_ok (trace s) ->
  inserted (trace s) = accepted (trace s) ++ primitives s /\
  forall t o ok, In (Done t o ok) (trace s) -> ok = true.
Proof.
  intros P programs n s H Hok. split.
  - rewrite (all_ok_accepted _ Hok). exact (conservation _ _ _ H).
  - intros t o ok Hin. apply in_split in Hin. destruct Hin as (pre & post & Htr).
    destruct (done_sent _ _ _ _ _ _ _ _ H Htr) as (a & ps & b & -> & _).
    apply (Hok t ps ok). rewrite Htr, <- app_assoc. apply in_or_app. right. left. reflexivity.
Qed.

(** No deadlock: whatever has happened, failed sends included, some thread can go on
    until all have finished; and every schedule does finish. *)
Theorem c52_no_deadlock : forall (P : Type) programs n (s : state P),
  steps n (init programs) s -> ~ finished s -> exists s', step s s'.
Proof. exact (fun P => @progress P). Qed.

Theorem c52_terminates : forall (P : Type) programs n (s : state P),
  steps n (init programs) s -> n <= 7 * list_sum (map (@List.length _) programs).
Proof. exact (fun P => @terminates P). Qed.

(** ** C53 *)

(** When view_object(p) ends, the first update sent after p's insertion contained p.
    If it was the caller's own update, the call returned exactly if that update was
    accepted. *)
Theorem c53_carried_by_first_send : forall (P : Type) programs n (s : state P) pre t p ok post,
  steps n (init programs) s ->
  trace s = pre ++ Done t (ViewObject p) ok :: post ->
  exists a b u qs k c, pre = a ++ Inserted t p :: b ++ Sent u qs k :: c /\
    existsb is_send b = false /\ In p qs /\ (u = t /\ k = ok \/ u <> t).
Proof. exact (fun P => @carried P). Qed.

(** A single thread therefore knows: its view_object returned exactly if the update
    containing the object was accepted. *)
Theorem c53_single_thread_knows : forall (P : Type) prog n (s : state P) pre t p ok post,
  steps n (init [prog]) s ->
  trace s = pre ++ Done t (ViewObject p) ok :: post ->
  exists a b qs c, pre = a ++ Inserted t p :: b ++ Sent t qs ok :: c /\
    existsb is_send b = false /\ In p qs.
Proof.
  intros P prog n s pre t p ok post H Htr.
  destruct (carried _ _ _ _ _ _ _ _ H Htr) as (a & b & u & qs & k & c & -> & Hb & Hp & Hu).
  destruct Hu as [[-> ->]|Hu]; [eauto 8|]. exfalso. apply Hu.
  transitivity 0; [|symmetry].
  - apply (single_thread _ _ _ u (Sent u qs k) H); [|reflexivity].
    rewrite Htr. apply in_or_app. left. apply in_or_app. right. right. apply in_or_app.
    right. left. reflexivity.
  - apply (single_thread _ _ _ t (Done t (ViewObject p) ok) H); [|reflexivity].
    rewrite Htr. apply in_or_app. right. left. reflexivity.
Qed.

(** With two threads "view_object returned, so the object was accepted" is false: the
    other thread's update carried the object and failed; the caller then sent an
    empty update that was accepted. *)
Theorem c53_return_implies_accepted_refuted : exists n (s : state nat),
  steps n (init [[ViewObject 7]; [ViewObject 8]]) s /\
  In (Done 0 (ViewObject 7) true) (trace s) /\
  ~ In 7 (accepted (trace s)) /\ finished s.
Proof.
  set (l := map (fun t => (t, true)) [0; 0; 0; 0] ++ (* thread 0 inserts 7 *)
            map (fun t => (t, false)) [1; 1; 1; 1; 1; 1; 1] ++ (* thread 1 sends 7 and 8, fails *)
            map (fun t => (t, true)) [0; 0; 0]).
  destruct (schedule l (init [[ViewObject 7]; [ViewObject 8]])) as [s|] eqn:E;
    [|vm_compute in E; discriminate].
  exists (0 + List.length l), s. split.
  - eapply schedule_steps; [apply steps_zero|exact E].
  - vm_compute in E. injection E as <-. cbn. split; [tauto|]. split; [tauto|].
    intros [|[|[|t]]] th X; cbn in X; try discriminate; injection X as <-; auto.
Qed.

(** ** Examples *)

(** Thread 1's flush carries thread 0's object; thread 0 then sends an empty update. *)
Example c52_example : exists n (s : state nat),
  steps n (init [[ViewObject 7; Flush]; [ViewObject 8]]) s /\ ~ finished s /\
  all_sends_ok (trace s) /\
  trace s = [Inserted 0 7; Inserted 1 8; Sent 1 [7; 8] true; Done 1 (ViewObject 8) true;
             Sent 0 [] true; Done 0 (ViewObject 7) true].
Proof.
  set (l := map (fun t => (t, true)) [0; 0; 0; 0; 1; 1; 1; 1; 1; 1; 1; 0; 0; 0]).
  destruct (schedule l (init [[ViewObject 7; Flush]; [ViewObject 8]])) as [s|] eqn:E;
    [|vm_compute in E; discriminate].
  exists (0 + List.length l), s. split.
  - eapply schedule_steps; [apply steps_zero|exact E].
  - vm_compute in E. injection E as <-. split; [|split; [|reflexivity]].
    + intro H. destruct (H 0 _ eq_refl) as [_ X]. discriminate.
    + intros t ps ok H. cbn in H. intuition congruence.
Qed.

Example c53_example : exists n (s : state nat),
  steps n (init [[ViewObject 7; ViewObject 9]]) s /\ finished s /\
  trace s = [Inserted 0 7; Sent 0 [7] false; Done 0 (ViewObject 7) false;
             Inserted 0 9; Sent 0 [9] true; Done 0 (ViewObject 9) true].
Proof.
  set (l := repeat (0, false) 7 ++ repeat (0, true) 7).
  destruct (schedule l (init [[ViewObject 7; ViewObject 9]])) as [s|] eqn:E;
    [|vm_compute in E; discriminate].
  exists (0 + List.length l), s. split.
  - eapply schedule_steps; [apply steps_zero|exact E].
  - vm_compute in E. injection E as <-. split; [|reflexivity].
    intros [|[|t]] th X; cbn in X; try discriminate; injection X as <-; auto.
Qed.

Print Assumptions c52_sent_exactly_once.
Print Assumptions c52_program_order.
Print Assumptions c52_done_implies_sent.
Print Assumptions c52_all_delivered.
Print Assumptions c52_no_deadlock.
Print Assumptions c52_terminates.
Print Assumptions c53_carried_by_first_send.
Print Assumptions c53_single_thread_knows.
Print Assumptions c53_return_implies_accepted_refuted.
