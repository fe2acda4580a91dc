(** Property theorems C78: the device code client and the mock device code server. *)
From Coq Require Import Ascii String List ZArith Lia.
From Verif Require Import Cpp AuthModel AuthSpec DevModel DevSpec DevProofs.
Import ListNotations.
Local Open Scope nat_scope.

(** ** C78 *)

(** A client without a token and without a token file, against a server in any state, with
    any calls of the server's setters between the requests: if the first poll by which the
    user has approved since the request for the code is begun before the deadline, the client
    returns the server's token after exactly that poll and saves it (or throws if that token
    is empty); if a poll would begin at the deadline or later and the user has not approved
    before, it throws after the polls before it; otherwise it is still polling.  The deadline
    is the reading of the clock after the request for the code plus the timeout set last
    before the answer. *)
Theorem c78_get_jwt : forall acts E fuel s s' r evs m m',
  token s = [] -> file E s = None ->
  get_jwt E fuel s = (s', r) -> did s s' evs -> serves acts E (posts (trace s)) m evs m' ->
  exists timeout, last_timeout (timeout_s_ m) (acts (posts (trace s))) timeout /\
  let p := posts (trace s) in let c := clocks (trace s) in
  let deadline := (clock E c + timeout * 1000000000)%Z in
  (forall k, k < fuel -> approved_by acts p k -> (forall i, i < k -> ~ approved_by acts p i) -> (forall i, i <= k -> (clock E (c + 1 + i) < deadline)%Z) ->
     (token_ m <> [] -> r = Some (Ok (token_ m)) /\ evs = [PostDevice; Clock] ++ rounds k (interval_ m) ++ [Clock; PostPoll; Truncate; Write (token_ m)]) /\
     (token_ m = [] -> r = Some Throw /\ evs = [PostDevice; Clock] ++ rounds k (interval_ m) ++ [Clock; PostPoll])) /\
  (forall k, k < fuel -> (deadline <= clock E (c + 1 + k))%Z -> (forall i, i < k -> (clock E (c + 1 + i) < deadline)%Z /\ ~ approved_by acts p i) ->
     r = Some Throw /\ evs = [PostDevice; Clock] ++ rounds k (interval_ m) ++ [Clock]) /\
  ((forall i, i < fuel -> (clock E (c + 1 + i) < deadline)%Z /\ ~ approved_by acts p i) -> r = None).
Proof. exact got. Qed.
Print Assumptions c78_get_jwt.

(** A new server gives 600 seconds, unless it is told otherwise before the request. *)
Theorem c78_new : forall acts E fuel s s' r evs interval tok m',
  token s = [] -> file E s = None -> tok <> [] ->
  get_jwt E fuel s = (s', r) -> did s s' evs -> serves acts E (posts (trace s)) (new_mock interval tok) evs m' ->
  (forall t, ~ In (SetTimeout t) (acts (posts (trace s)))) ->
  let p := posts (trace s) in let c := clocks (trace s) in
  let deadline := (clock E c + 600 * 1000000000)%Z in
  (forall k, k < fuel -> approved_by acts p k -> (forall i, i < k -> ~ approved_by acts p i) -> (forall i, i <= k -> (clock E (c + 1 + i) < deadline)%Z) ->
     r = Some (Ok tok) /\ evs = [PostDevice; Clock] ++ rounds k interval ++ [Clock; PostPoll; Truncate; Write tok]) /\
  (forall k, k < fuel -> (deadline <= clock E (c + 1 + k))%Z -> (forall i, i < k -> (clock E (c + 1 + i) < deadline)%Z /\ ~ approved_by acts p i) ->
     r = Some Throw /\ evs = [PostDevice; Clock] ++ rounds k interval ++ [Clock]).
Proof.
  intros acts E fuel s s' r evs interval tok m' T F NE G D S NT p c deadline. destruct (got acts E fuel s s' r evs (new_mock interval tok) m' T F G D S) as (timeout & [[-> _]|(l1 & l2 & L & _)] & A & B & _).
  - split; [intros k K H1 H2 H3; apply (A k K H1 H2 H3); exact NE|exact B].
  - exfalso. apply (NT timeout). rewrite L. apply in_or_app. right. left. reflexivity.
Qed.
Print Assumptions c78_new.

(** There is such an exchange for all clients without a token, servers, calls of the setters
    and clocks. *)
Theorem c78_exists : forall fuel s (m : mock) (acts : nat -> list act) (clk : nat -> Z) (f : option text),
  token s = [] -> file_after f (trace s) = None -> exists E s' r evs m',
  clock E = clk /\ init_file E = f /\ get_jwt E fuel s = (s', r) /\ did s s' evs /\ serves acts E (posts (trace s)) m evs m'.
Proof. exact got_exchange. Qed.
Print Assumptions c78_exists.

(** The tests' server, which approves at the third poll (device_code_client_test.cc): one
    request for a code, three polls, token. *)
Definition ex_token : text := list_ascii_of_string "Some Token".
Definition ex_acts (n : nat) : list act := if n =? 3 then [Approve] else [].
Definition ex_env : env := {|
  init_file := None;
  device := fun _ => Some {| da_status := 200; da_expires_in := 600; da_interval := 0 |};
  poll := fun n => Some (if n =? 3 then {| pa_has_error := false; pa_access_token := ex_token |} else {| pa_has_error := true; pa_access_token := [] |});
  clock := fun n => Z.of_nat n |}.
Example c78_example :
  get_jwt ex_env 5 start = ({| token := ex_token; trace := [PostDevice; Clock] ++ rounds 2 0 ++ [Clock; PostPoll; Truncate; Write ex_token] |}, Some (Ok ex_token)) /\
  (exists m', serves ex_acts ex_env 0 (new_mock 0 ex_token) (trace (fst (get_jwt ex_env 5 start))) m') /\
  approved_by ex_acts 0 2 /\ ~ approved_by ex_acts 0 1 /\ ~ approved_by ex_acts 0 0 /\
  last_timeout 600 (ex_acts 0) 600 /\ file ex_env start = None.
Proof.
  assert (N : forall k, k < 2 -> ~ approved_by ex_acts 0 k). { intros k K (i & I & A). unfold ex_acts in A. destruct (i =? 3) eqn:Q; [apply Nat.eqb_eq in Q; lia|destruct A]. }
  split; [reflexivity|]. split; [eexists; vm_compute; repeat split|]. split; [exists 3; split; [lia|left; reflexivity]|]. split; [apply N; lia|]. split; [apply N; lia|]. split; [left; split; [reflexivity|intros s []]|reflexivity].
Qed.

(** An approval that comes before the request for the code is lost: the client polls until
    the deadline and throws. *)
Definition ex_early (n : nat) : list act := match n with O => [SetTimeout 2; Approve] | _ => [] end.
Definition ex_denied : env := {|
  init_file := None;
  device := fun _ => Some {| da_status := 200; da_expires_in := 2; da_interval := 1 |};
  poll := fun n => Some {| pa_has_error := true; pa_access_token := [] |};
  clock := fun n => (Z.of_nat n * 1000000000)%Z |}.
Theorem c78_early_approval_refuted : exists acts E m m',
  In Approve (acts 0) /\ token_ m <> [] /\ serves acts E 0 m (trace (fst (get_jwt E 9 start))) m' /\ snd (get_jwt E 9 start) = Some Throw /\
  trace (fst (get_jwt E 9 start)) = [PostDevice; Clock; Clock; PostPoll; Sleep 1; Clock].
Proof.
  exists ex_early, ex_denied, (new_mock 1 ex_token). eexists. split; [right; left; reflexivity|]. split; [discriminate|]. split; [vm_compute; repeat split|]. split; reflexivity.
Qed.
Print Assumptions c78_early_approval_refuted.
