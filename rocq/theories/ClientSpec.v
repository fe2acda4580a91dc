(** Vocabulary of the view client properties: what an observer reads off the list of
    requests. *)
From Coq Require Import Ascii String NArith.
From Verif Require Import Cpp StatusModel ClientModel.

(** The updates posted: session, id and body of each, in order. *)
Fixpoint uploads (tr : list event) : list (text * N * text) :=
  match tr with
  | [] => []
  | Post (UpdateUrl sid id) _ body _ :: tr => (sid, id, body) :: uploads tr
  | _ :: tr => uploads tr
  end.

(** Posts of a list of numbered attempts, each posted some number of times under its
    number. *)
Fixpoint numbered (from : N) (attempts : list (text * text * nat)) : list (text * N * text) :=
  match attempts with
  | [] => []
  | (sid, body, n) :: rest => repeat (sid, from, body) n ++ numbered (from + 1) rest
  end.

(** [xs] is [ys] with some elements left out. *)
Inductive sublist {A : Type} : list A -> list A -> Prop :=
| sub_nil : sublist [] []
| sub_skip y xs ys : sublist xs ys -> sublist xs (y :: ys)
| sub_take x xs ys : sublist xs ys -> sublist (x :: xs) (x :: ys).

(** Session requests, and those that created a session. *)
Definition session_post (e : event) : Prop :=
  exists bearer body r, e = Post SessionsUrl bearer body r.
Definition session_created (e : event) (t : text) : Prop :=
  exists bearer body r, e = Post SessionsUrl bearer body r /\
    status_code r = 201%Z /\ response_text r = t.

(** Text without the quotes and newlines. *)
Definition stripped (t u : text) : Prop :=
  (forall c, In c u -> c <> ascii_of_nat 34 /\ c <> ascii_of_nat 10) /\
  exists keep : list bool, List.length keep = List.length t /\
    u = map fst (filter snd (combine t keep)) /\
    forall c, In (c, false) (combine t keep) -> c = ascii_of_nat 34 \/ c = ascii_of_nat 10.

(** The last thing done was to post an update which the server accepted. *)
Definition last_upload_created (evs : list event) : Prop :=
  exists pre sid id bearer body r,
    evs = pre ++ [Post (UpdateUrl sid id) bearer body r] /\ status_code r = 201%Z.

Definition ends_with (t e : string) : Prop := exists b, t = (b ++ e)%string.

(** The number a text of decimal digits denotes. *)
Definition digit (c : ascii) : Prop := (48 <= N_of_ascii c <= 57)%N.
Definition number (t : text) : N := fold_left (fun n c => (10 * n + (N_of_ascii c - 48))%N) t 0%N.

(** One request: the token is refreshed if and only if the first reply is 401, and then the
    same request is made once more, if there is a token. *)
Definition no_token (j : outcome text) : Prop := forall t, j <> Ok t.
Inductive one_request : list event -> Prop :=
| req_no_token j : no_token j -> one_request [GetJwt j]
| req_once u t body r : status_code r <> 401%Z -> one_request [GetJwt (Ok t); Post u t body r]
| req_no_token_again u t body r j : status_code r = 401%Z -> no_token j ->
    one_request [GetJwt (Ok t); Post u t body r; Refresh; GetJwt j]
| req_twice u t body r t' r' : status_code r = 401%Z ->
    one_request [GetJwt (Ok t); Post u t body r; Refresh; GetJwt (Ok t'); Post u t' body r'].
