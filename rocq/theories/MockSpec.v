(** What the mock view server should have received. *)
From Coq Require Import Ascii String NArith List.
From Verif Require Import Cpp StatusModel UuidModel ClientModel ClientSpec MockModel.
Import ListNotations.

(** Whether a client that starts with the token [t] and refreshes it to [r] gets in: a
    forbidden token is not refreshed. *)
Definition gets_in (t r : text) : Prop :=
  t = list_ascii_of_string "valid token" \/ t <> list_ascii_of_string "forbidden token" /\ r = list_ascii_of_string "valid token".
(** The update in a body, if there is one. *)
Definition content {Msg Update : Type} (parse : text -> option Msg) (unpack : Msg -> option Update) (body : text) : option Update :=
  match parse body with Some m => unpack m | None => None end.
(** Updates received [n] times each, numbered from [from] on; numbers of bodies without an
    update are left out. *)
Fixpoint deliveries {Update : Type} (read : text -> option Update) (n : nat) (sid : uuid) (from : N) (bodies : list text) : list (Update * uuid * N) :=
  match bodies with
  | [] => []
  | b :: bodies => match read b with Some u => repeat (u, sid, from) n | None => [] end ++ deliveries read n sid (from + 1) bodies
  end.
(** A new server and authentication client. *)
Definition new_world (Update : Type) (sid : uuid) (code : Z) (t r : text) : world Update :=
  {| mock_server := {| session := sid; update_code := code; received := [] |}; mock_client := mock_auth t r |}.
