(** Property theorems C49, C50, C51: the token cache and the device-code flow. *)
From Coq Require Import Ascii String.
From Verif Require Import Cpp AuthModel AuthSpec AuthProofs.

(** ** C49 *)

(** Over every history of get_jwt, refresh, new clients and processes killed while
    polling: a returned token was granted by the server or was in the token file to
    begin with, it is what the token file now holds, and it is only empty if the
    token file was empty to begin with. *)
Theorem c49_returned_token : forall E ops fuel s' t,
  no_crash ops ->
  get_jwt E fuel (run E ops start) = (s', Some (Ok t)) ->
  (granted E t \/ init_file E = Some t) /\
  token s' = t /\ file E s' = Some t /\ (t = [] -> init_file E = Some []).
Proof. exact returned_token. Qed.

(** A token once returned is returned again without any contact with the server:
    by the same client with no event at all, by a new client after one read of the
    token file. *)
Theorem c49_cached : forall E ops fuel fuel' s' t,
  no_crash ops ->
  get_jwt E fuel (run E ops start) = (s', Some (Ok t)) -> t <> [] ->
  get_jwt E fuel' s' = (s', Some (Ok t)) /\
  get_jwt E fuel' (with_token s' []) = (emit s' ReadFile, Some (Ok t)).
Proof.
  exact (fun E ops fuel fuel' s' t Hn H Ht =>
    second_call E fuel fuel' _ s' t H Ht (proj1 (inv_run E ops Hn _ (inv_start E)))).
Qed.

(** After refresh the token file is gone, the next get_jwt goes to the server, and
    the token it returns comes from a poll made after the refresh. *)
Theorem c49_refresh_contacts_server : forall E fuel s s' r,
  get_jwt E fuel (refresh s) = (s', r) ->
  file E (refresh s) = None /\
  (exists evs, did (refresh s) s' (PostDevice :: evs)) /\
  (forall t, r = Some (Ok t) -> granted E t /\
     exists n a, posts (trace s) < n /\ poll E n = Some a /\ pa_has_error a = false /\
       pa_access_token a = t).
Proof. exact refresh_contacts. Qed.

Open Scope string_scope.
Definition ex_env (init : option text) : env := {|
  init_file := init;
  device := fun _ => Some {| da_status := 200; da_expires_in := 900; da_interval := 5 |};
  poll := fun n => Some (if Nat.even n then {| pa_has_error := false; pa_access_token := list_ascii_of_string "tok" |}
                         else {| pa_has_error := true; pa_access_token := [] |});
  clock := fun n => (Z.of_nat n * 5000000001)%Z |}.

Example c49_example :
  get_jwt (ex_env None) 5 (run (ex_env None) [GetJwt 1; GetJwt 3; Refresh; GetJwt 3; Restart] start) =
    ({| token := list_ascii_of_string "tok";
        trace := [PostDevice; Clock; Clock; PostPoll; Sleep 5;
                  PostDevice; Clock; Clock; PostPoll; Sleep 5; Clock; PostPoll;
                  Truncate; Write (list_ascii_of_string "tok"); Remove;
                  PostDevice; Clock; Clock; PostPoll; Truncate; Write (list_ascii_of_string "tok");
                  ReadFile] |}, Some (Ok (list_ascii_of_string "tok"))).
Proof. vm_compute. reflexivity. Qed.

(** "get_jwt never returns an empty token" is false: an empty token file is
    trusted, and get_jwt keeps returning the empty token without ever contacting the
    server. *)
Theorem c49_nonempty_refuted : exists E, forall n,
  let s := run E (repeat (GetJwt 1) n) start in
  exists s', get_jwt E 1 s = (s', Some (Ok [])) /\ posts (trace s') = 0.
Proof.
  exists (ex_env (Some [])). intros n s.
  assert (H : token s = [] /\ file (ex_env (Some [])) s = Some [] /\ posts (trace s) = 0).
  { unfold s. clear s. assert (G : forall s, token s = [] -> file (ex_env (Some [])) s = Some [] ->
      posts (trace s) = 0 ->
      let s := run (ex_env (Some [])) (repeat (GetJwt 1) n) s in
      token s = [] /\ file (ex_env (Some [])) s = Some [] /\ posts (trace s) = 0).
    { induction n as [|n IH]; intros s H1 H2 H3; [cbn; auto|].
      cbn [repeat run exec]. unfold get_jwt, load_token. rewrite H1, H2. cbn [fst]. apply IH.
      - reflexivity.
      - rewrite (file_did _ s _ [ReadFile]) by reflexivity. exact H2.
      - cbn [trace with_token emit]. rewrite posts_app, H3. reflexivity. }
    apply G; reflexivity. }
  destruct H as (H1 & H2 & H3). unfold get_jwt, load_token. rewrite H1, H2.
  eexists. split; [reflexivity|]. cbn [trace with_token emit]. rewrite posts_app, H3. reflexivity.
Qed.

(** ** C50 *)

(** Over every history with crashes anywhere, a returned token is an initial
    segment of a token the server granted or of the file's first content. *)
Theorem c50_returned_token_is_prefix : forall E ops fuel s' t,
  get_jwt E fuel (run E ops start) = (s', Some (Ok t)) ->
  exists u, (granted E u \/ init_file E = Some u) /\ prefix_of t u.
Proof. exact crashed_token. Qed.

(** A client started after a get_jwt was killed at any point either finds no token
    file and goes to the server, or trusts what the file holds: its content before
    the killed call, or an initial segment of the token being saved. *)
Theorem c50_crash_point : forall E ops fuel k n fuel' s' r,
  let s := run E ops start in
  let s1 := crash E fuel k n s in
  get_jwt E fuel' s1 = (s', r) ->
  (file E s1 = None /\ exists evs, did s1 s' (PostDevice :: evs)) \/
  (exists c, file E s1 = Some c /\ r = Some (Ok c) /\ did s1 s' [ReadFile] /\
     (file E s = Some c \/
      (file E s = None /\ exists t, granted E t /\ prefix_of c t))).
Proof. exact crash_point. Qed.

(** "After a crash the next client has a complete token or contacts the server" is
    false: killed between opening the token file and writing it, or during the
    write, the next client returns the truncated token without contacting the
    server. *)
Theorem c50_complete_or_contact_refuted : exists E t1 t2 s1 s2,
  init_file E = None /\
  get_jwt E 3 (run E [Crash 3 8 0] start) = (s1, Some (Ok t1)) /\
  get_jwt E 3 (run E [Crash 3 8 2] start) = (s2, Some (Ok t2)) /\
  t1 = [] /\ t2 = list_ascii_of_string "to" /\ ~ granted E t1 /\ ~ granted E t2 /\
  did (run E [Crash 3 8 0] start) s1 [ReadFile] /\ did (run E [Crash 3 8 2] start) s2 [ReadFile].
Proof.
  exists (ex_env None), [], (list_ascii_of_string "to").
  eexists _, _. split; [reflexivity|]. split; [vm_compute; reflexivity|].
  split; [vm_compute; reflexivity|]. split; [reflexivity|]. split; [reflexivity|].
  split; [intros [H _]; congruence|]. split; [|split; vm_compute; reflexivity].
  intros (_ & n & r & Hp & He & Ht). cbn [poll ex_env] in Hp. injection Hp as <-.
  destruct (Nat.even n); [vm_compute in Ht; discriminate|discriminate].
Qed.

(** ** C51 *)

(** Exactly what fetch_token does: one device request; then, if it is answered with
    status 200 in a parsable way, rounds of polling each begun strictly before the
    deadline and each followed by a sleep of the server's interval as long as the
    server answers with an error; the last round gives the token, times out, fails,
    or (None) is still to come. *)
Theorem c51_polling : forall E fuel s s' r,
  fetch_token E fuel s = (s', r) ->
  let p := posts (trace s) in let c := clocks (trace s) in
  (did s s' [PostDevice] /\ r = Some Throw /\ token s' = token s /\
     forall a, device E p = Some a -> da_status a <> 200%Z) \/
  (exists a k tail, device E p = Some a /\ da_status a = 200%Z /\
     did s s' ([PostDevice; Clock] ++ rounds k (da_interval a) ++ tail) /\
     let deadline := (clock E c + da_expires_in a * 1000000000)%Z in
     (forall i, i < k -> (clock E (c + 1 + i) < deadline)%Z /\
        exists b, poll E (p + 1 + i) = Some b /\ pa_has_error b = true) /\
     loop_end E deadline fuel k (c + 1) (p + 1) (token s) (token s') tail r).
Proof. exact polling. Qed.

(** With a clock that never goes back and sleeps that last at least the interval,
    the number of polls is less than expires_in / interval + 1. *)
Theorem c51_poll_count : forall E fuel s s' r a evs,
  fetch_token E fuel s = (s', r) -> did s s' evs ->
  device E (posts (trace s)) = Some a ->
  (forall i, clock E i <= clock E (S i))%Z ->
  (forall i, clocks (trace s) < i -> (clock E i + da_interval a * 1000000000 <= clock E (S i))%Z) ->
  (0 <= da_interval a)%Z -> (0 <= da_expires_in a)%Z ->
  (Z.of_nat (polls evs) * da_interval a < da_expires_in a + da_interval a)%Z
  \/ polls evs = 0.
Proof. exact poll_count. Qed.

(** The call ends once the clock has passed the deadline. *)
Theorem c51_polling_ends : forall E fuel s s' r n,
  fetch_token E fuel s = (s', r) ->
  (forall a, device E (posts (trace s)) = Some a ->
     clock E (clocks (trace s)) + da_expires_in a * 1000000000 <=
     clock E (clocks (trace s) + 1 + n))%Z ->
  n < fuel -> r <> None.
Proof. exact polling_ends. Qed.

Definition ex_never : env := {|
  init_file := None;
  device := fun _ => Some {| da_status := 200; da_expires_in := 12; da_interval := 5 |};
  poll := fun _ => Some {| pa_has_error := true; pa_access_token := [] |};
  clock := fun n => (Z.of_nat n * 5000000000)%Z |}.

(** Never approved: polls at 5 s and 10 s, timed out at 15 s. *)
Example c51_example :
  fetch_token ex_never 9 start =
    ({| token := []; trace := [PostDevice; Clock; Clock; PostPoll; Sleep 5; Clock; PostPoll; Sleep 5; Clock] |},
     Some Throw) /\
  (forall i, clock ex_never i <= clock ex_never (S i))%Z /\
  (forall i, 0 < i -> (clock ex_never i + 5 * 1000000000 <= clock ex_never (S i))%Z) /\
  (clock ex_never 0 + 12 * 1000000000 <= clock ex_never (0 + 1 + 2))%Z.
Proof.
  split; [vm_compute; reflexivity|]. cbn [clock ex_never]. split; [intro; lia|].
  split; [intros; lia|]. lia.
Qed.

Print Assumptions c49_returned_token.
Print Assumptions c49_cached.
Print Assumptions c49_refresh_contacts_server.
Print Assumptions c49_nonempty_refuted.
Print Assumptions c50_returned_token_is_prefix.
Print Assumptions c50_crash_point.
Print Assumptions c50_complete_or_contact_refuted.
Print Assumptions c51_polling.
Print Assumptions c51_poll_count.
Print Assumptions c51_polling_ends.
