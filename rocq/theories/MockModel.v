(** Model of resim/visualization/testing/mock_server.cc on resim/testing/mock_server.cc, and
    of resim/auth/testing/mock_auth_client.hh.

    cpp-httplib is represented by its documented behaviour: the handlers are tried in the
    order they were added, the path has to match all of the pattern, other paths are answered
    with 404, and a handler that throws is answered with 500.  Reading a serialised
    ViewUpdate, unpacking it and what the receiver answers are parameters.  The start and the
    end of the server (/ready and /stop) are left out. *)
From Coq Require Import Ascii String NArith List.
From Verif Require Import Cpp UuidModel ClientModel.
Import ListNotations.

(** The texts in quotes of visualization/testing/mock_server.cc, and their comparison
    (std::string's ==: lines 49, 53, 57). *)
Definition str (s : string) : text := list_ascii_of_string s.
Fixpoint text_eqb (a b : text) : bool :=
  match a, b with
  | [], [] => true
  | x :: a, y :: b => Ascii.eqb x y && text_eqb a b
  | _, _ => false
  end.
(** The rest of [t] behind [p]: the prefix of the header's value
    (visualization/testing/mock_server.cc:42-45) and the fixed parts of the patterns. *)
Fixpoint after (p t : text) : option text :=
  match p, t with
  | [], _ => Some t
  | x :: p, y :: t => if Ascii.eqb x y then after p t else None
  | _ :: _, [] => None
  end.

(** HttpResponse: resim/utils/http_response.hh:11-18; NOT_FOUND and INTERNAL as httplib
    sends them. *)
Definition FORBIDDEN : Z := 403.
Definition NOT_FOUND : Z := 404.
Definition INTERNAL : Z := 500.
(** The tokens: visualization/testing/mock_server.cc:21-23. *)
Definition VALID_TOKEN : text := str "valid token".
Definition UNAUTHORIZED_TOKEN : text := str "unauthorized token".
Definition FORBIDDEN_TOKEN : text := str "forbidden token".

(** What the handlers of a POST are given: testing/mock_server.cc:57-79. *)
Record request := { path : text; headers : list (text * text); body_sent : text }.

(** validate_headers: visualization/testing/mock_server.cc:31-62.  The status of the refusal
    if there is one.  The headers of one name are in the order they were sent. *)
Definition validate_headers (hs : list (text * text)) : option Z :=
  let range := filter (fun h => text_eqb (fst h) (str "Authorization")) hs in
  let tokens := flat_map (fun h => match after (str "Bearer ") (snd h) with Some t => [t] | None => [] end) range in
  match tokens with
  | [] => Some UNAUTHORIZED
  | token :: _ =>
      if text_eqb token UNAUTHORIZED_TOKEN then Some UNAUTHORIZED
      else if text_eqb token FORBIDDEN_TOKEN then Some FORBIDDEN
      else if text_eqb token VALID_TOKEN then None
      else Some UNAUTHORIZED
  end.

(** What [.] matches in the pattern (visualization/testing/mock_server.cc:95): no line
    ends. *)
Definition any_char (c : ascii) : bool := negb (Ascii.eqb c (ascii_of_nat 10)) && negb (Ascii.eqb c (ascii_of_nat 13)).
(** The text before and behind the last [p]: the first group of the pattern
    (visualization/testing/mock_server.cc:95) is greedy. *)
Fixpoint split_last (p t : text) : option (text * text) :=
  match t with
  | [] => None
  | c :: t' =>
      match split_last p t' with
      | Some (a, b) => Some (c :: a, b)
      | None => match after p t with Some b => Some ([], b) | None => None end
      end
  end.
(** The two patterns: visualization/testing/mock_server.cc:77 and 95. *)
Inductive endpoint := Sessions | Updates (session id : text) | Nowhere.
Definition route (p : text) : endpoint :=
  if text_eqb p (str "/view/sessions") then Sessions
  else match after (str "/view/sessions/") p with
       | Some rest =>
           match split_last (str "/updates/") rest with
           | Some (a, b) => if forallb any_char a && forallb any_char b then Updates a b else Nowhere
           | None => Nowhere
           end
       | None => Nowhere
       end.

(** std::stoul: the digits in front, an exception if there are none or the number is 2^64 or
    more (visualization/testing/mock_server.cc:118).  The signs and spaces it would skip are
    left out. *)
Definition digit_value (c : ascii) : option N :=
  let n := N_of_ascii c in if ((48 <=? n) && (n <=? 57))%N then Some (n - 48)%N else None.
Fixpoint stoul_from (n : N) (t : text) : N :=
  match t with
  | [] => n
  | c :: t => match digit_value c with Some d => stoul_from (10 * n + d) t | None => n end
  end.
Definition stoul (t : text) : option N :=
  match t with
  | [] => None
  | c :: _ => match digit_value c with
              | Some _ => let n := stoul_from 0 t in if (n <? 2 ^ 64)%N then Some n else None
              | None => None
              end
  end.

Section Server.
Variables Msg Update : Type.
(** ParseFromString, unpack (view_update_to_proto.cc:22-29; [None] is an exception), and the
    text of the receiver's answer. *)
Variable parse : text -> option Msg.
Variable unpack : Msg -> option Update.
Variable answer : Update -> uuid -> N -> text.

(** MockServer: visualization/testing/mock_server.hh:68-70, and what the receiver was called
    with so far. *)
Record server := { session : uuid; update_code : Z; received : list (Update * uuid * N) }.
(** A call of receiver_: visualization/testing/mock_server.cc:121, 125. *)
Definition receive (s : server) (u : Update) (sid : uuid) (id : N) : server :=
  {| session := session s; update_code := update_code s; received := received s ++ [(u, sid, id)] |}.

(** The handler of view updates behind validate_headers, which unpacks the message and calls
    the receiver twice: visualization/testing/mock_server.cc:107-131. *)
Definition update_handler (s : server) (body sid_text id_text : text) : outcome (server * response) :=
  match parse body with
  | None => Throw
  | Some update_msg =>
      let* sid := uuid_of_string sid_text in
      match stoul id_text with
      | None => Throw
      | Some id =>
          match unpack update_msg with
          | None => Throw
          | Some u =>
              let s := receive s u sid id in
              let s := receive s u sid id in
              Ok (s, {| status_code := update_code s; response_text := answer u sid id |})
          end
      end
  end.

(** The server's side of a POST: visualization/testing/mock_server.cc:76-132,
    testing/mock_server.cc:57-79. *)
Definition handle (s : server) (r : request) : server * response :=
  let refusal c := (s, {| status_code := c; response_text := [] |}) in
  match route (path r) with
  | Nowhere => refusal NOT_FOUND
  | Sessions =>
      match validate_headers (headers r) with
      | Some c => refusal c
      | None => (s, {| status_code := CREATED; response_text := UuidModel.to_string (session s) |})
      end
  | Updates a b =>
      match validate_headers (headers r) with
      | Some c => refusal c
      | None => match update_handler s (body_sent r) a b with Ok x => x | _ => refusal INTERNAL end
      end
  end.

(** MockAuthClient: auth/testing/mock_auth_client.hh:15-28. *)
Record auth := { token_ : text; refresh_ : text }.
Definition mock_auth (token refresh : text) : auth :=
  {| token_ := token; refresh_ := match refresh with [] => token | _ => refresh end |}.
(** get_jwt and refresh: auth/testing/mock_auth_client.hh:15-28. *)
Definition mock_get_jwt (a : auth) : outcome text := Ok (token_ a).
Definition mock_refresh (a : auth) : auth := {| token_ := refresh_ a; refresh_ := refresh_ a |}.

(** What cpr sends for the client's requests (view_client.cc:45-47, 87-93): the path is the
    URL without the server's address, cpr::Bearer is the header Authorization. *)
Definition sent (u : url) (bearer body : text) : request :=
  {| path := url_text [] u;
     headers := (match u with SessionsUrl => [] | UpdateUrl _ _ => [(str "Content-Type", str "application/octet-stream")] end)
                  ++ [(str "Authorization", str "Bearer " ++ bearer)];
     body_sent := body |}.

(** The server and the authentication client of visualization/view_test.cc together answer everything in the trace of a
    view client; the second world is the one after. *)
Record world := { mock_server : server; mock_client : auth }.
Fixpoint answered (w : world) (tr : list event) (w' : world) : Prop :=
  match tr with
  | [] => w' = w
  | GetJwt j :: tr => j = mock_get_jwt (mock_client w) /\ answered w tr w'
  | Refresh :: tr => answered {| mock_server := mock_server w; mock_client := mock_refresh (mock_client w) |} tr w'
  | Post u bearer body r :: tr =>
      let (s, r') := handle (mock_server w) (sent u bearer body) in
      r = r' /\ answered {| mock_server := s; mock_client := mock_client w |} tr w'
  end.
End Server.
