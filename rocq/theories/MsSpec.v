(** What the mock server is measured against. *)
From Coq Require Import ZArith List Ascii String.
From Verif Require Import Cpp UuidModel TdModel MsModel.
Import ListNotations.

(** One character comes before another, one text before another or the same. *)
Inductive text_le : text -> text -> Prop :=
| LNil : forall b, text_le [] b
| LLess : forall x y a b, (N_of_ascii x < N_of_ascii y)%N -> text_le (x :: a) (y :: b)
| LSame : forall x a b, text_le a b -> text_le (x :: a) (x :: b).
(** The copy of the headers: for every name, upper and lower case told apart, the same entries in
    the same order, and all in order of the names. *)
Definition same_name (name : text) (e : entry) : bool := if list_eq_dec ascii_dec (fst e) name then true else false.
Definition named (name : text) (m : list entry) : list entry := filter (same_name name) m.
Definition is_copy (headers m : list entry) : Prop :=
  (forall name, named name m = named name headers) /\
  forall i e f, nth_error m i = Some e -> nth_error m (S i) = Some f -> text_le (fst e) (fst f).
(** The receiver responsible for a path: of those added, the first whose pattern matches. *)
Definition responsible (hs : list handler) (path : text) (r : receiver) : Prop :=
  exists before pattern after, hs = before ++ (pattern, r) :: after /\ pattern path = true /\ Forall (fun h => fst h path = false) before.
(** The reply to a post. *)
Inductive reply (hs : list handler) (req : request) : response -> Prop :=
| NoReceiver : Forall (fun h => fst h (q_path req) = false) hs -> reply hs req (Response [] [] 404)
| Threw : forall r m, responsible hs (q_path req) r -> is_copy (q_headers req) m -> r m (concat (q_chunks req)) (q_path req) (Response [] [] (-1)) = None ->
    reply hs req (Response [] [] 500)
| Said : forall r m res, responsible hs (q_path req) r -> is_copy (q_headers req) m -> r m (concat (q_chunks req)) (q_path req) (Response [] [] (-1)) = Some res ->
    r_status res <> (-1)%Z -> reply hs req res
| LeftOpen : forall r m body mime, responsible hs (q_path req) r -> is_copy (q_headers req) m ->
    r m (concat (q_chunks req)) (q_path req) (Response [] [] (-1)) = Some (Response body mime (-1)) -> reply hs req (Response body mime 200).

(** What may be done before listen(), and between it and the end. *)
Definition is_ask (e : event) : Prop := exists req, e = Ask req.
Definition quiet (e : event) : Prop := is_ask e \/ exists h, e = AddPost h.
(** The receivers added, in order. *)
Definition added (es : list event) : list handler := flat_map (fun e => match e with AddPost h => [h] | _ => [] end) es.
(** A client asks the server to stop. *)
Definition asks_stop (e : event) : Prop := exists headers chunks, e = Ask (Request GET (list_ascii_of_string "/stop") headers chunks).
