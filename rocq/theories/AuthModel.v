(** Model of resim/auth/device_code_client.{hh,cc}: the token cache and the
    device-code flow.

    Everything outside the client is an oracle: the authentication server's answer
    to the n-th request, and the n-th reading of the steady clock.  The file at
    Config::token_path is either absent or a regular file nobody else touches;
    file system calls do not fail.  Times are in nanoseconds. *)
From Coq Require Import Ascii String.
From Verif Require Import Cpp.

Definition text := list ascii.

(** What the client does that can be seen from outside, in order.  [Clock] is a
    call of std::chrono::steady_clock::now() (device_code_client.cc:121, 123). *)
Inductive event :=
| PostDevice                  (* cpr::Post to /oauth/device/code *)
| PostPoll                    (* cpr::Post to /oauth/token *)
| Clock
| Sleep (seconds : Z)         (* std::this_thread::sleep_for *)
| ReadFile                    (* the token file is read *)
| Truncate                    (* ofstream::open creates or empties the token file *)
| Write (t : text)            (* bytes reach the token file *)
| Remove.                     (* std::filesystem::remove_all(token_path) *)

(** Effect of one event on the token file; None is "no such file". *)
Definition file_step (f : option text) (e : event) : option text :=
  match e with
  | Truncate => Some []
  | Write t => match f with Some c => Some (c ++ t) | None => None end
  | Remove => None
  | _ => f
  end.

Definition file_after (init : option text) (tr : list event) : option text :=
  fold_left file_step tr init.

(** HttpResponse::OK: resim/utils/http_response.hh. *)
Definition HTTP_OK : Z := 200.

(** A parsed DeviceCodeResponse with its HTTP status, and a parsed PollingResponse:
    the fields fetch_token reads (device_code_client.cc:107, 122, 129-133, 137). *)
Record device_answer := { da_status : Z; da_expires_in : Z; da_interval : Z }.
Record poll_answer := { pa_has_error : bool; pa_access_token : text }.

(** The environment.  [None] is a reply that JsonStringToMessage cannot parse.
    JsonStringToMessage overwrites the response message, so nothing of an earlier
    poll remains in it. *)
Record env := {
  init_file : option text;
  device : nat -> option device_answer;   (* reply to the n-th request, if a device one *)
  poll : nat -> option poll_answer;       (* reply to the n-th request, if a poll *)
  clock : nat -> Z }.

(** The client: its token_ member and everything it has done so far. *)
Record state := { token : text; trace : list event }.

Definition emit (s : state) (e : event) : state :=
  {| token := token s; trace := trace s ++ [e] |}.
Definition with_token (s : state) (t : text) : state :=
  {| token := t; trace := trace s |}.

Definition is_post (e : event) : bool :=
  match e with PostDevice | PostPoll => true | _ => false end.
Definition is_clock (e : event) : bool :=
  match e with Clock => true | _ => false end.
Definition posts (tr : list event) : nat := List.length (filter is_post tr).
Definition clocks (tr : list event) : nat := List.length (filter is_clock tr).

(** A call either ends with an outcome or, [None], is still polling when the given
    number of polls is used up. *)
Definition result A := option (outcome A).

Section Client.
Variable E : env.

(** The token file now. *)
Definition file (s : state) : option text := file_after (init_file E) (trace s).

(** The while loop and the final REASSERT of fetch_token:
    device_code_client.cc:123-139. *)
Fixpoint poll_loop (fuel : nat) (timeout_time interval : Z) (s : state)
  : state * result unit :=
  match fuel with
  | O => (s, None)
  | S fuel' =>
      let now := clock E (clocks (trace s)) in
      let s := emit s Clock in
      if (now <? timeout_time)%Z then
        let reply := poll E (posts (trace s)) in
        let s := emit s PostPoll in
        match reply with
        | None => (s, Some Throw)
        | Some r =>
            if pa_has_error r then
              poll_loop fuel' timeout_time interval (emit s (Sleep interval))
            else
              match pa_access_token r with
              | [] => (s, Some Throw)
              | t => (with_token s t, Some (Ok tt))
              end
        end
      else (s, Some Throw)
  end.

(** DeviceCodeClient::fetch_token: device_code_client.cc:95-140, with json_query
    30-53. *)
Definition fetch_token (fuel : nat) (s : state) : state * result unit :=
  let reply := device E (posts (trace s)) in
  let s := emit s PostDevice in
  match reply with
  | None => (s, Some Throw)
  | Some r =>
      if (da_status r =? HTTP_OK)%Z then
        let now := clock E (clocks (trace s)) in
        poll_loop fuel (now + da_expires_in r * 1000000000)%Z (da_interval r)
          (emit s Clock)
      else (s, Some Throw)
  end.

(** DeviceCodeClient::save_token: device_code_client.cc:74-80. *)
Definition save_token (s : state) : state := emit (emit s Truncate) (Write (token s)).

(** DeviceCodeClient::load_token: device_code_client.cc:82-93. *)
Definition load_token (fuel : nat) (s : state) : state * result unit :=
  match file s with
  | None =>
      let (s, r) := fetch_token fuel s in
      match r with
      | Some (Ok _) => (save_token s, Some (Ok tt))
      | _ => (s, r)
      end
  | Some c => (with_token (emit s ReadFile) c, Some (Ok tt))
  end.

(** DeviceCodeClient::get_jwt: device_code_client.cc:60-65. *)
Definition get_jwt (fuel : nat) (s : state) : state * result text :=
  match token s with
  | [] =>
      let (s, r) := load_token fuel s in
      match r with
      | Some (Ok _) => (s, Some (Ok (token s)))
      | Some Throw => (s, Some Throw)
      | Some UB => (s, Some UB)
      | None => (s, None)
      end
  | t => (s, Some (Ok t))
  end.

(** DeviceCodeClient::refresh: device_code_client.cc:67-72. *)
Definition refresh (s : state) : state := emit (with_token s []) Remove.

(** Whole lives of a token file: calls on the current client, a new client on the
    same file (constructor, device_code_client.cc:57-58), and a get_jwt whose
    process is killed after [k] of its events, [n] bytes into a write.  A call that
    is still polling when its fuel is used up is a process killed there. *)
Inductive op :=
| GetJwt (fuel : nat)
| Refresh
| Restart
| Crash (fuel k n : nat).

(** The events a get_jwt killed at (k, n) leaves behind. *)
Definition cut (k n : nat) (evs : list event) : list event :=
  firstn k evs ++
  match nth_error evs k with Some (Write t) => [Write (firstn n t)] | _ => [] end.

Definition crash (fuel k n : nat) (s : state) : state :=
  let evs := skipn (List.length (trace s)) (trace (fst (get_jwt fuel s))) in
  {| token := []; trace := trace s ++ cut k n evs |}.

(** What the caller of the operation sees. *)
Definition exec (o : op) (s : state) : state * result text :=
  match o with
  | GetJwt fuel =>
      match get_jwt fuel s with
      | (s, None) => (with_token s [], None)
      | r => r
      end
  | Refresh => (refresh s, None)
  | Restart => (with_token s [], None)
  | Crash fuel k n => (crash fuel k n s, None)
  end.

Fixpoint run (ops : list op) (s : state) : state :=
  match ops with
  | [] => s
  | o :: ops => run ops (fst (exec o s))
  end.

(** A new client on a file nobody has touched yet. *)
Definition start : state := {| token := []; trace := [] |}.

End Client.
