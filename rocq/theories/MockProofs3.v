(** The theorems on the view client and the mock view server. *)
From Coq Require Import Ascii String NArith List Lia.
From Verif Require Import Cpp StatusModel UuidModel UuidSpec UuidProofs ClientModel ClientSpec ClientProofs MockModel MockSpec MockProofs MockProofs2.
Import ListNotations.
Local Open Scope nat_scope.

Section Mock.
Context {Msg Update : Type}.
Variable parse : text -> option Msg.
Variable unpack : Msg -> option Update.
Variable answer : Update -> uuid -> N -> text.
Notation answered := (answered Msg Update parse unpack answer).
Notation read := (content parse unpack).
Notation mrun := (mrun parse unpack answer).
Notation msend := (msend parse unpack answer).
Variables (sid : uuid) (code : Z) (t r : text) (E : env).
Hypothesis base : base_url E <> [].

Lemma to_mrun bodies w' : answered (new_world Update sid code t r) (trace (run E (map Ok bodies) start)) w' -> mrun bodies start (new_world Update sid code t r) = (run E (map Ok bodies) start, w').
Proof. intro A. apply sim_run; [exact base|]. exists (trace (run E (map Ok bodies) start)). split; [reflexivity|exact A]. Qed.
Lemma to_msend bodies b w' : answered (new_world Update sid code t r) (trace (fst (send_view_update E (Ok b) (run E (map Ok bodies) start)))) w' ->
  exists w s1 st, mrun bodies start (new_world Update sid code t r) = (run E (map Ok bodies) start, w) /\ send_view_update E (Ok b) (run E (map Ok bodies) start) = (s1, Ok st) /\ msend b (run E (map Ok bodies) start) w = (s1, w', st).
Proof.
  intro A. assert (X : ext parse unpack answer start (new_world Update sid code t r) (fst (send_view_update E (Ok b) (run E (map Ok bodies) start))) w') by (eexists; split; [reflexivity|exact A]).
  destruct (ext_split parse unpack answer start (new_world Update sid code t r) (run E (map Ok bodies) start) _ w' (run_grows E _ _) (send_grows E _ _) X) as (w & X1 & X2). destruct (sim_send parse unpack answer E b _ _ _ base X2) as (s1 & st & P & M). exists w, s1, st. split; [apply sim_run; assumption|auto].
Qed.
Lemma eff_valid : gets_in t r -> (code = 401%Z -> r = [] \/ r = list_ascii_of_string "valid token") -> code = 401%Z -> eff t r = VALID_TOKEN.
Proof.
  intros G H C. unfold eff. destruct (H C) as [-> | ->]; [|reflexivity]. destruct G as [-> |[_ G]]; [reflexivity|discriminate G].
Qed.
Hypothesis wf : uuid_wf sid.
Theorem received_all bodies w' : (N.of_nat (List.length bodies) < 2 ^ 64)%N -> gets_in t r -> (code = 401%Z -> r = [] \/ r = list_ascii_of_string "valid token") ->
  answered (new_world Update sid code t r) (trace (run E (map Ok bodies) start)) w' ->
  received Update (mock_server _ w') = deliveries read (if (code =? 401)%Z then 4 else 2) sid 0 bodies.
Proof.
  intros L G H A. pose proof (run_good parse unpack answer sid wf code t r bodies (proj1 (good_gets_in parse t r) G) (eff_valid G H) L) as R. unfold w0 in R. rewrite (to_mrun _ _ A) in R. destruct R as (_ & V & _). rewrite V. reflexivity.
Qed.
Theorem statuses bodies b w' : (N.of_nat (List.length bodies) + 1 < 2 ^ 64)%N -> gets_in t r -> (code = 401%Z -> r = [] \/ r = list_ascii_of_string "valid token") ->
  answered (new_world Update sid code t r) (trace (fst (send_view_update E (Ok b) (run E (map Ok bodies) start)))) w' ->
  exists st, snd (send_view_update E (Ok b) (run E (map Ok bodies) start)) = Ok st /\ (ok st = true <-> code = 201%Z /\ exists u, read b = Some u) /\ (ok st = false -> ends_with (what st) "Could not send view update.").
Proof.
  intros L G H A. destruct (to_msend bodies b w' A) as (w & s1 & st & M & P & Q). pose proof (run_good parse unpack answer sid wf code t r bodies (proj1 (good_gets_in parse t r) G) (eff_valid G H) ltac:(lia)) as R. unfold w0 in R. rewrite M in R.
  destruct (send_good parse unpack answer sid wf code t r b _ _ _ _ (proj1 (good_gets_in parse t r) G) (eff_valid G H) L R) as (s2 & w2 & M2 & _). rewrite Q in M2. injection M2 as <- <- ->. exists (verdict parse unpack code b). rewrite P. split; [reflexivity|]. unfold verdict.
  assert (NS : ends_with (what not_sent) "Could not send view update.") by (exists "<resim/visualization/client/view_client.cc:110> "%string; reflexivity).
  destruct (code =? 201)%Z eqn:C.
  - apply Z.eqb_eq in C. destruct (read b) as [u|]; (split; [|intro Z; (exact NS || discriminate Z)]); (split; [intro Z|intros [_ (v & V)]]); try discriminate; try reflexivity. split; [exact C|eauto].
  - apply Z.eqb_neq in C. split; [|intros _; exact NS]. split; [discriminate|]. intros [Z _]. contradiction.
Qed.
Theorem shut bodies w' : ~ gets_in t r -> answered (new_world Update sid code t r) (trace (run E (map Ok bodies) start)) w' -> received Update (mock_server _ w') = [].
Proof.
  intros G A. pose proof (run_bad parse unpack answer sid code t r bodies (fun g => G (proj2 (good_gets_in parse t r) g))) as R. unfold w0 in R. rewrite (to_mrun _ _ A) in R. destruct R as (_ & V & _). rewrite V. reflexivity.
Qed.
Theorem shut_status bodies b w' : ~ gets_in t r -> answered (new_world Update sid code t r) (trace (fst (send_view_update E (Ok b) (run E (map Ok bodies) start)))) w' ->
  exists st, snd (send_view_update E (Ok b) (run E (map Ok bodies) start)) = Ok st /\ ok st = false /\ ends_with (what st) "Could not create session.".
Proof.
  intros G A. destruct (to_msend bodies b w' A) as (w & s1 & st & M & P & Q). pose proof (run_bad parse unpack answer sid code t r bodies (fun g => G (proj2 (good_gets_in parse t r) g))) as R. unfold w0 in R. rewrite M in R. destruct (send_bad parse unpack answer sid code t r b _ _ R) as (s2 & w2 & M2 & _). rewrite Q in M2. injection M2 as <- <- ->. exists no_session. rewrite P. split; [reflexivity|]. split; [reflexivity|]. exists "<resim/visualization/client/view_client.cc:60> "%string. reflexivity.
Qed.
End Mock.
