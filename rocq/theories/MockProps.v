(** Property theorems C76: the view client and the mock view server of its tests. *)
From Coq Require Import Ascii String NArith List Lia.
From Verif Require Import Cpp StatusModel UuidModel UuidSpec ClientModel ClientSpec MockModel MockSpec MockProofs MockProofs2 MockProofs3.
Import ListNotations.
Local Open Scope nat_scope.

(** ** C76 *)

(** Whenever the server and the mock authentication client answered everything a new view
    client asked, and the client's token or the refreshed one is the valid one: the receiver
    was called for every update that can be read, in the order of the calls, with the update,
    the server's session and the number of the call, twice for every request that got through
    (and a request is made twice if the server answers updates with 401). *)
Theorem c76_received : forall (Msg Update : Type) (parse : text -> option Msg) (unpack : Msg -> option Update) (answer : Update -> uuid -> N -> text)
    (sid : uuid) (code : Z) (t r : text) (E : env) (bodies : list text) (w' : world Update),
  base_url E <> [] -> uuid_wf sid -> (N.of_nat (List.length bodies) < 2 ^ 64)%N ->
  gets_in t r -> (code = 401%Z -> r = [] \/ r = list_ascii_of_string "valid token") ->
  answered Msg Update parse unpack answer (new_world Update sid code t r) (trace (run E (map Ok bodies) start)) w' ->
  received Update (mock_server _ w') = deliveries (content parse unpack) (if (code =? 401)%Z then 4 else 2) sid 0 bodies.
Proof. intros Msg Update parse unpack answer sid code t r E bodies w' B W. exact (received_all parse unpack answer sid code t r E B W bodies w'). Qed.
Print Assumptions c76_received.

(** A call then succeeds if and only if the server's code is 201 and the update can be
    read. *)
Theorem c76_status : forall (Msg Update : Type) (parse : text -> option Msg) (unpack : Msg -> option Update) (answer : Update -> uuid -> N -> text)
    (sid : uuid) (code : Z) (t r : text) (E : env) (bodies : list text) (b : text) (w' : world Update),
  base_url E <> [] -> uuid_wf sid -> (N.of_nat (List.length bodies) + 1 < 2 ^ 64)%N ->
  gets_in t r -> (code = 401%Z -> r = [] \/ r = list_ascii_of_string "valid token") ->
  answered Msg Update parse unpack answer (new_world Update sid code t r) (trace (fst (send_view_update E (Ok b) (run E (map Ok bodies) start)))) w' ->
  exists st, snd (send_view_update E (Ok b) (run E (map Ok bodies) start)) = Ok st /\
    (ok st = true <-> code = 201%Z /\ exists u, content parse unpack b = Some u) /\
    (ok st = false -> ends_with (what st) "Could not send view update.").
Proof. intros Msg Update parse unpack answer sid code t r E bodies b w' B W. exact (statuses parse unpack answer sid code t r E B W bodies b w'). Qed.
Print Assumptions c76_status.

(** A client with other tokens never reaches the receiver, and every call fails at the
    session. *)
Theorem c76_refused : forall (Msg Update : Type) (parse : text -> option Msg) (unpack : Msg -> option Update) (answer : Update -> uuid -> N -> text)
    (sid : uuid) (code : Z) (t r : text) (E : env) (bodies : list text),
  base_url E <> [] -> ~ gets_in t r ->
  (forall w', answered Msg Update parse unpack answer (new_world Update sid code t r) (trace (run E (map Ok bodies) start)) w' -> received Update (mock_server _ w') = []) /\
  (forall b w', answered Msg Update parse unpack answer (new_world Update sid code t r) (trace (fst (send_view_update E (Ok b) (run E (map Ok bodies) start)))) w' ->
     exists st, snd (send_view_update E (Ok b) (run E (map Ok bodies) start)) = Ok st /\ ok st = false /\ ends_with (what st) "Could not create session.").
Proof.
  intros Msg Update parse unpack answer sid code t r E bodies B G. split; [intro w'; exact (shut parse unpack answer sid code t r E B bodies w' G)|intros b w'; exact (shut_status parse unpack answer sid code t r E B bodies b w' G)].
Qed.
Print Assumptions c76_refused.

(** There is such an exchange for every list of updates and all servers and clients. *)
Theorem c76_exists : forall (Msg Update : Type) (parse : text -> option Msg) (unpack : Msg -> option Update) (answer : Update -> uuid -> N -> text)
    (base : text) (bodies : list text) (w : world Update),
  base <> [] -> exists E w', base_url E = base /\ answered Msg Update parse unpack answer w (trace (run E (map Ok bodies) start)) w'.
Proof. intros Msg Update parse unpack answer base bodies w. exact (runs_exist parse unpack answer base bodies w). Qed.
Print Assumptions c76_exists.

(** A concrete exchange: the messages are texts that start with u, the first token has to be
    refreshed, and the second update cannot be read. *)
Definition ex_parse (b : text) : option text := after (str "u") b.
Definition ex_sid : uuid := repeat 171%N 16.
Definition ex_code : Z := 201.
Definition ex_reply (c : Z) (t : text) : response := {| status_code := c; response_text := t |}.
Definition ex_env : env := {|
  base_url := str "localhost:8000";
  jwt := fun n => Ok (match n with O => str "expired" | _ => str "valid token" end);
  reply := fun n => match n with
                    | 0 => ex_reply 401 []
                    | 1 => ex_reply 201 (UuidModel.to_string ex_sid)
                    | 2 => ex_reply 201 (str "A")
                    | 3 => ex_reply 500 []
                    | _ => ex_reply 201 (str "C")
                    end |}.
Definition ex_bodies : list text := [str "uA"; str "B"; str "uC"].
Example c76_example :
  gets_in (str "expired") (str "valid token") /\ ~ gets_in (str "forbidden token") (str "valid token") /\ uuid_wf ex_sid /\
  exists w', answered text text ex_parse Some (fun u _ _ => u) (new_world text ex_sid ex_code (str "expired") (str "valid token")) (trace (run ex_env (map Ok ex_bodies) start)) w' /\
    received _ (mock_server _ w') = [(str "A", ex_sid, 0); (str "A", ex_sid, 0); (str "C", ex_sid, 2); (str "C", ex_sid, 2)]%N.
Proof.
  split; [right; split; [discriminate|reflexivity]|]. split; [intros [H|[H _]]; [discriminate H|apply H; reflexivity]|]. split; [split; [reflexivity|repeat constructor]|].
  eexists. split; [vm_compute; repeat split|reflexivity].
Qed.

(** An update that was posted once does not reach the receiver once: the handler calls it a
    second time for the text of the answer. *)
Theorem c76_once_refuted : exists (sid : uuid) (E : env) (body : text) (w' : world text),
  answered text text ex_parse Some (fun u _ _ => u) (new_world text sid 201 (str "valid token") []) (trace (run E [Ok body] start)) w' /\
  List.length (uploads (trace (run E [Ok body] start))) = 1 /\ List.length (received _ (mock_server _ w')) = 2.
Proof.
  exists ex_sid, {| base_url := str "localhost:8000"; jwt := fun _ => Ok (str "valid token"); reply := fun n => match n with O => ex_reply 201 (UuidModel.to_string ex_sid) | _ => ex_reply 201 (str "A") end |}, (str "uA").
  eexists. split; [|split; [reflexivity|]].
  { vm_compute. repeat split. }
  reflexivity.
Qed.
Print Assumptions c76_once_refuted.
