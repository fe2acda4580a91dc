(** Model of resim/auth/testing/mock_device_code_server.{hh,cc}, as far as the device code
    client of [AuthModel] can see it.

    The receivers given to the server, and any other thread, may call its setters; what they
    called since the answer before is a list per request.  The client's requests can be
    parsed and its JSON comes back as it was sent (fields that are zero or empty are left out
    and read as such). *)
From Coq Require Import List ZArith.
From Verif Require Import Cpp AuthModel.
Import ListNotations.

(** MockDeviceCodeServer: mock_device_code_server.hh:64-72 (with the default of
    timeout_s_); the device code is not looked at by the server. *)
Record mock := { interval_ : Z; token_ : text; browser_auth_complete_ : bool; timeout_s_ : Z }.
Definition new_mock (interval : Z) (token : text) : mock :=
  {| interval_ := interval; token_ := token; browser_auth_complete_ := false; timeout_s_ := 600 |}.

(** set_browser_auth_complete and set_timeout_s: mock_device_code_server.cc:112-118. *)
Inductive act := Approve | SetTimeout (s : Z).
Definition do_act (m : mock) (a : act) : mock :=
  match a with
  | Approve => {| interval_ := interval_ m; token_ := token_ m; browser_auth_complete_ := true; timeout_s_ := timeout_s_ m |}
  | SetTimeout s => {| interval_ := interval_ m; token_ := token_ m; browser_auth_complete_ := browser_auth_complete_ m; timeout_s_ := s |}
  end.
Definition do_acts (m : mock) (l : list act) : mock := fold_left do_act l m.

(** The handler of /oauth/device/code: mock_device_code_server.cc:41-68. *)
Definition handle_device (m : mock) : mock * device_answer :=
  let m := {| interval_ := interval_ m; token_ := token_ m; browser_auth_complete_ := false; timeout_s_ := timeout_s_ m |} in
  (m, {| da_status := 200; da_expires_in := timeout_s_ m; da_interval := interval_ m |}).

(** The handler of /oauth/token: mock_device_code_server.cc:71-103. *)
Definition handle_poll (m : mock) : mock * poll_answer :=
  (m, if browser_auth_complete_ m then {| pa_has_error := false; pa_access_token := token_ m |}
      else {| pa_has_error := true; pa_access_token := [] |}).

(** The server answers the requests among [evs], of which the first has number [n]; before
    it answers request [i] the setters in [acts i] are called. *)
Fixpoint serves (acts : nat -> list act) (E : env) (n : nat) (m : mock) (evs : list event) (m' : mock) : Prop :=
  match evs with
  | [] => m' = m
  | PostDevice :: evs => let (m1, a) := handle_device (do_acts m (acts n)) in device E n = Some a /\ serves acts E (S n) m1 evs m'
  | PostPoll :: evs => let (m1, a) := handle_poll (do_acts m (acts n)) in poll E n = Some a /\ serves acts E (S n) m1 evs m'
  | _ :: evs => serves acts E n m evs m'
  end.
