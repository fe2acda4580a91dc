(** Model of resim/visualization/client/view_client.cc: sessions, update ids and
    retries.

    The server's reply to the n-th request and the outcome of the n-th
    AuthClientInterface::get_jwt call are oracles.  AuthClientInterface::refresh
    returns normally.  The serialised update is given to the model as the outcome
    of pack + SerializeAsString.  Logging and the parsing of the reply to an
    accepted update (view_client.cc:113-118), whose result is only logged, are left
    out. *)
From Coq Require Import Ascii String NArith DecimalString DecimalN.
From Verif Require Import Cpp StatusModel.

Definition text := list ascii.

(** The URLs the client posts to: view_client.cc:46, 52 and 78-82. *)
Inductive url :=
| SessionsUrl
| UpdateUrl (session : text) (id : N).

(** std::to_string of an unsigned integer. *)
Definition to_string (n : N) : text :=
  list_ascii_of_string (NilEmpty.string_of_uint (N.to_uint n)).

(** The text of a URL: view_client.cc:46 and 78-82. *)
Definition url_text (base : text) (u : url) : text :=
  base ++ list_ascii_of_string "/view/sessions" ++
  match u with
  | SessionsUrl => []
  | UpdateUrl session id =>
      list_ascii_of_string "/" ++ session ++ list_ascii_of_string "/updates/" ++ to_string id
  end.

(** A cpr::Response. *)
Record response := { status_code : Z; response_text : text }.

(** HttpResponse: resim/utils/http_response.hh. *)
Definition CREATED : Z := 201.
Definition UNAUTHORIZED : Z := 401.

(** What the client does that can be seen from outside, in order.  A request is
    recorded with its bearer token, body and reply. *)
Inductive event :=
| GetJwt (result : outcome text)
| Refresh
| Post (u : url) (bearer : text) (body : text) (reply : response).

Record env := {
  base_url : text;
  jwt : nat -> outcome text;
  reply : nat -> response }.

(** ViewClient members session_id_ and update_id_ (view_client.hh, a uint64_t
    starting from 0), and everything done so far. *)
Record state := { session_id : text; update_id : N; trace : list event }.

Definition emit (s : state) (e : event) : state :=
  {| session_id := session_id s; update_id := update_id s; trace := trace s ++ [e] |}.
Definition with_session (s : state) (t : text) : state :=
  {| session_id := t; update_id := update_id s; trace := trace s |}.
(** update_id_++ on a uint64_t: view_client.cc:85. *)
Definition next_id (s : state) : state :=
  {| session_id := session_id s; update_id := ((update_id s + 1) mod 2 ^ 64)%N; trace := trace s |}.

Definition is_post (e : event) : bool := match e with Post _ _ _ _ => true | _ => false end.
Definition is_jwt (e : event) : bool := match e with GetJwt _ => true | _ => false end.
Definition is_refresh (e : event) : bool := match e with Refresh => true | _ => false end.
Definition count (p : event -> bool) (tr : list event) : nat := List.length (filter p tr).

Section Client.
Variable E : env.

(** cpr::Post(url, ..., cpr::Bearer{auth_client_->get_jwt()}, body):
    view_client.cc:45-47, 51-53, 87-93, 97-103. *)
Definition post (u : url) (body : text) (s : state) : state * outcome response :=
  let j := jwt E (count is_jwt (trace s)) in
  let s := emit s (GetJwt j) in
  match j with
  | Ok t =>
      let r := reply E (count is_post (trace s)) in
      (emit s (Post u t body r), Ok r)
  | Throw => (s, Throw)
  | UB => (s, UB)
  end.

(** A request repeated once after a refresh when unauthorized:
    view_client.cc:45-54 and 87-104. *)
Definition post_retry (u : url) (body : text) (s : state) : state * outcome response :=
  match post u body s with
  | (s, Ok r) =>
      if (status_code r =? UNAUTHORIZED)%Z then post u body (emit s Refresh) else (s, Ok r)
  | x => x
  end.

Definition quote : ascii := Ascii.ascii_of_nat 34.
Definition newline : ascii := Ascii.ascii_of_nat 10.

(** The two erase/remove passes: view_client.cc:63-70. *)
Definition sanitize (t : text) : text :=
  filter (fun c => negb (Ascii.eqb c newline)) (filter (fun c => negb (Ascii.eqb c quote)) t).

(** The statuses returned by MAKE_STATUS: view_client.cc:60, 110. *)
Definition file_name : string := "resim/visualization/client/view_client.cc".
Definition no_session : status := make_at_line file_name 60 "Could not create session.".
Definition not_sent : status := make_at_line file_name 110 "Could not send view update.".

(** Second half of send_view_update: view_client.cc:73-120. *)
Definition upload (update : outcome text) (s : state) : state * outcome status :=
  match update with
  | Ok body =>
      let u := UpdateUrl (session_id s) (update_id s) in
      match post_retry u body (next_id s) with
      | (s, Ok r) =>
          (s, Ok (if (status_code r =? CREATED)%Z then OKAY_STATUS else not_sent))
      | (s, Throw) => (s, Throw)
      | (s, UB) => (s, UB)
      end
  | Throw => (s, Throw)
  | UB => (s, UB)
  end.

(** ViewClient::send_view_update: view_client.cc:41-121. *)
Definition send_view_update (update : outcome text) (s : state) : state * outcome status :=
  match base_url E with
  | [] => (s, Throw)
  | _ =>
      match session_id s with
      | [] =>
          match post_retry SessionsUrl [] s with
          | (s, Ok r) =>
              if (status_code r =? CREATED)%Z then
                upload update (with_session s (sanitize (response_text r)))
              else (s, Ok no_session)
          | (s, Throw) => (s, Throw)
          | (s, UB) => (s, UB)
          end
      | _ => upload update s
      end
  end.

(** Successive calls; a caller may catch exceptions and go on. *)
Fixpoint run (updates : list (outcome text)) (s : state) : state :=
  match updates with
  | [] => s
  | u :: us => run us (fst (send_view_update u s))
  end.

End Client.

(** A new ViewClient: view_client.cc:28-39, view_client.hh. *)
Definition start : state := {| session_id := []; update_id := 0; trace := [] |}.
