(** Vocabulary of the authentication properties, independent of the model's
    functions. *)
From Verif Require Import Cpp AuthModel.

(** The server handed out token [t] in reply to some poll. *)
Definition granted (E : env) (t : text) : Prop :=
  t <> [] /\ exists n r, poll E n = Some r /\ pa_has_error r = false /\ pa_access_token r = t.

(** [t] is an initial segment of [u]. *)
Definition prefix_of (t u : text) : Prop := exists v, u = t ++ v.

(** No process is killed in the middle of get_jwt's file accesses. *)
Definition no_crash (ops : list op) : Prop :=
  forall fuel k n, ~ In (Crash fuel k n) ops.

(** The events between two states of one client. *)
Definition did (s s' : state) (evs : list event) : Prop := trace s' = trace s ++ evs.

Definition quiet (e : event) : bool :=
  match e with Truncate | Write _ | Remove => false | _ => true end.

(** [k] rounds of polling. *)
Fixpoint rounds (k : nat) (interval : Z) : list event :=
  match k with
  | O => []
  | S k => [Clock; PostPoll; Sleep interval] ++ rounds k interval
  end.

(** How a polling loop that made [k] rounds answered with an error ends: [c] and [p]
    count the clock readings and requests before it, [t0] and [t1] are the tokens
    held before and after. *)
Inductive loop_end (E : env) (T : Z) (fuel k c p : nat) (t0 t1 : text) : list event -> result unit -> Prop :=
| end_running : k = fuel -> t1 = t0 -> loop_end E T fuel k c p t0 t1 [] None
| end_ok r : k < fuel -> (clock E (c + k) < T)%Z -> poll E (p + k) = Some r ->
    pa_has_error r = false -> t1 = pa_access_token r -> t1 <> [] ->
    loop_end E T fuel k c p t0 t1 [Clock; PostPoll] (Some (Ok tt))
| end_timeout : k < fuel -> (T <= clock E (c + k))%Z -> t1 = t0 ->
    loop_end E T fuel k c p t0 t1 [Clock] (Some Throw)
| end_bad : k < fuel -> (clock E (c + k) < T)%Z ->
    (poll E (p + k) = None \/
     exists r, poll E (p + k) = Some r /\ pa_has_error r = false /\ pa_access_token r = []) ->
    t1 = t0 ->
    loop_end E T fuel k c p t0 t1 [Clock; PostPoll] (Some Throw).

(** The number of token requests. *)
Definition polls (tr : list event) : nat :=
  List.length (filter (fun e => match e with PostPoll => true | _ => false end) tr).
