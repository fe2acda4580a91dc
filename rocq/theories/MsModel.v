(** Model of resim/testing/mock_server.cc with the parts of cpp-httplib 0.11.4 (WORKSPACE:104-108)
    that it calls.

    Simplifications: an endpoint's regular expression is any predicate on paths; a receiver is
    any function (its captured state is not followed: C76 and C78 do that for two receivers) of
    the headers, the body, the path and the response as it is before; bodies are not multipart
    forms and requests have no ranges; one request is handled at a time. *)
From Coq Require Import ZArith List Ascii String NArith.
From Verif Require Import Cpp UuidModel TdModel.
Import ListNotations.

(** HttpResponse: resim/utils/http_response.hh:11-18. *)
Definition http_invalid : Z := -1.
Definition http_created : Z := 201.
(** MockServer::Response with its default: mock_server.hh:47-51. *)
Record response := Response { r_body : text; r_mime : text; r_status : Z }.
Definition fresh_response : response := Response [] [] http_invalid.

(** std::multimap<std::string, std::string>, in order of the names; insert puts an entry behind
    those of the same name.  operator< of std::string. *)
Fixpoint text_ltb (a b : text) : bool :=
  match a, b with
  | [], [] => false
  | [], _ :: _ => true
  | _ :: _, [] => false
  | x :: a, y :: b => if (N_of_ascii x <? N_of_ascii y)%N then true else if (N_of_ascii y <? N_of_ascii x)%N then false else text_ltb a b
  end.
Definition entry := (text * text)%type.
Fixpoint multimap_insert (e : entry) (m : list entry) : list entry :=
  match m with
  | [] => [e]
  | f :: m => if text_ltb (fst e) (fst f) then e :: f :: m else f :: multimap_insert e m
  end.
(** The loop that copies the headers: mock_server.cc:70-73. *)
Definition copy_headers (headers : list entry) : list entry := fold_left (fun m e => multimap_insert e m) headers [].
(** The calls of the content reader, chunk by chunk: mock_server.cc:65-69. *)
Definition read_body (chunks : list text) : text := fold_left (fun body data => body ++ data) chunks [].

(** A receiver, which gives nothing when it throws, and the handler that add_post_receiver makes of it: mock_server.cc:56-79. *)
Definition receiver := list entry -> text -> text -> response -> option response.
Inductive method := GET | POST | OTHER.
Record request := Request { q_method : method; q_path : text; q_headers : list entry; q_chunks : list text }.
Definition post_handler (r : receiver) (req : request) : option response :=
  let body := read_body (q_chunks req) in
  let headers := copy_headers (q_headers req) in
  r headers body (q_path req) fresh_response.
(** httplib::Server::dispatch_request: the first handler that was added and whose pattern the
    path matches. *)
Definition handler := ((text -> bool) * receiver)%type.
Fixpoint dispatch (posts : list handler) (path : text) : option receiver :=
  match posts with
  | [] => None
  | (pattern, r) :: posts => if pattern path then Some r else dispatch posts path
  end.
(** httplib::Server::process_request: an exception gives 500; without a status it is 200 when a
    handler was found and 404 when not. *)
Inductive routed := NotRouted | Routed (res : option response).
Definition process (r : routed) : response :=
  match r with
  | NotRouted => Response [] [] 404
  | Routed (Some res) => if (r_status res =? -1)%Z then Response (r_body res) (r_mime res) 200 else res
  | Routed None => Response [] [] 500
  end.

(** ** The server *)
(** Where a MockServer is: made (no thread), its thread serving, its thread at its end but not
    joined, destroyed. *)
Inductive phase := Made | Serving | Ended | Destroyed.
(** host_, port_, handle_ and server_thread_: mock_server.hh:71-77; the host does not matter. *)
Record server := Server { s_posts : list handler; s_port : Z; s_phase : phase }.
(** MockServer(host): mock_server.cc:24-47. *)
Definition new_server : server := Server [] 0 Made.
Definition path_stop : text := list_ascii_of_string "/stop".
Definition path_ready : text := list_ascii_of_string "/ready".
(** The answer to a request, if there is one, and the server after it; the handlers of GET:
    mock_server.cc:31-46. *)
Definition answer (s : server) (req : request) : option response * server :=
  match s_phase s with
  | Serving =>
      match q_method req with
      | GET =>
          if text_eqb (q_path req) path_stop then (Some (process (Routed (Some fresh_response))), Server (s_posts s) (s_port s) Ended)
          else if text_eqb (q_path req) path_ready then (Some (process (Routed (Some (Response [] [] http_created)))), s)
          else (Some (process NotRouted), s)
      | POST =>
          (Some (process (match dispatch (s_posts s) (q_path req) with Some r => Routed (post_handler r req) | None => NotRouted end)), s)
      | OTHER => (Some (process NotRouted), s)
      end
  | _ => (None, s)
  end.
(** What comes of a use: the server goes on, an exception, std::terminate, undefined. *)
Inductive use := Fine (s : server) | Thrown | Terminated | Undefined.
Definition get_request (path : text) : request := Request GET path [] [].
(** listen(): mock_server.cc:85-98; [port] is what bind_to_any_port gives, -1 when it fails.
    The assignment to server_thread_ destroys a thread that was there, which terminates the
    program as it was not joined; res-> without an answer is undefined. *)
Definition listen (port : Z) (s : server) : use :=
  match s_phase s with
  | Serving | Ended => Terminated
  | Destroyed => Undefined
  | Made =>
      let s := Server (s_posts s) port (if (port =? -1)%Z then Ended else Serving) in
      match answer s (get_request path_ready) with
      | (None, _) => Undefined
      | (Some res, s) => if (r_status res =? http_created)%Z then Fine s else Thrown
      end
  end.
(** ~MockServer(): mock_server.cc:49-54; without a thread there is nothing to call join() on. *)
Definition destroy (s : server) : use :=
  match s_phase s with
  | Destroyed | Made => Undefined
  | _ => let '(_, s) := answer s (get_request path_stop) in Fine (Server (s_posts s) (s_port s) Destroyed)
  end.
(** What is done with a server.  Handlers are added before listen(): later it would race with
    the thread that serves. *)
Inductive event := AddPost (h : handler) | Listen (port : Z) | Ask (req : request) | Destroy.
Definition act (s : server) (e : event) : use :=
  match e with
  | AddPost h => match s_phase s with Made => Fine (Server (s_posts s ++ [h]) (s_port s) Made) | _ => Undefined end
  | Listen port => listen port s
  | Ask req => Fine (snd (answer s req))
  | Destroy => destroy s
  end.
Fixpoint live (s : server) (es : list event) : use :=
  match es with
  | [] => Fine s
  | e :: es => match act s e with Fine s => live s es | other => other end
  end.
