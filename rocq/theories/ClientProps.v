(** Property theorems C54, C55: the view client. *)
From Coq Require Import Ascii String NArith.
From Verif Require Import Cpp StatusModel ClientModel ClientSpec ClientProofs.

(** ** C54 *)

(** In any history the posted updates are numbered 0, 1, 2, ...: every attempt that
    reached the upload step takes the next number, whatever became of it, and is
    posted at most twice under it with the same session and body; the bodies are
    those of the calls, in order. *)
Theorem c54_numbering : forall E us,
  (N.of_nat (List.length us) < 2 ^ 64)%N ->
  exists atts, uploads (trace (run E us start)) = numbered 0 atts /\
    update_id (run E us start) = N.of_nat (List.length atts) /\
    (forall sid body n, In (sid, body, n) atts -> n <= 2) /\
    sublist (map (fun a => Ok (snd (fst a))) atts) us /\ List.length atts <= List.length us.
Proof. exact numbering. Qed.

(** Of two posted updates the later has a larger id, or is the immediate retry of
    the earlier with the same session, id and body. *)
Theorem c54_ids_increase : forall E us i j p q,
  (N.of_nat (List.length us) < 2 ^ 64)%N -> i < j ->
  nth_error (uploads (trace (run E us start))) i = Some p ->
  nth_error (uploads (trace (run E us start))) j = Some q ->
  (snd (fst p) < snd (fst q))%N \/ (p = q /\ j = S i).
Proof. exact upload_order. Qed.

(** Different ids of a session give different URLs. *)
Theorem c54_urls_distinct : forall base sid m n,
  url_text base (UpdateUrl sid m) = url_text base (UpdateUrl sid n) -> m = n.
Proof. exact url_text_inj. Qed.

(** The addresses as text: the update's number is written in decimal digits. *)
Theorem c54_url_text : forall base sid id, exists ds,
  url_text base (UpdateUrl sid id) =
    base ++ list_ascii_of_string "/view/sessions/" ++ sid ++ list_ascii_of_string "/updates/" ++ ds /\
  Forall digit ds /\ number ds = id /\
  url_text base SessionsUrl = base ++ list_ascii_of_string "/view/sessions".
Proof. exact url_form. Qed.

(** ** C55 *)

(** Every update is posted to the latest session created before, named by the
    server's reply without quotes and newlines. *)
Theorem c55_upload_uses_session : forall E us pre post sid id bearer body r,
  trace (run E us start) = pre ++ Post (UpdateUrl sid id) bearer body r :: post ->
  exists pre1 e pre2 t, pre = pre1 ++ e :: pre2 /\ session_created e t /\
    (forall e', In e' pre2 -> forall t', ~ session_created e' t') /\ stripped t sid.
Proof. exact upload_uses_session. Qed.

(** Once a session with a usable name exists no other is asked for. *)
Theorem c55_one_session : forall E us pre e post t,
  trace (run E us start) = pre ++ e :: post -> session_created e t ->
  (exists c, In c t /\ c <> ascii_of_nat 34 /\ c <> ascii_of_nat 10) ->
  forall e', In e' post -> ~ session_post e'.
Proof. exact one_session. Qed.

(** A call makes at most four requests and two refreshes. *)
Theorem c55_effort : forall E u s s' r,
  send_view_update E u s = (s', r) ->
  exists evs, trace s' = trace s ++ evs /\ count is_post evs <= 4 /\ count is_refresh evs <= 2.
Proof. exact call_effort. Qed.

(** A call returns okay exactly when the last thing it did was to post an update that
    was answered with 201. *)
Theorem c55_okay_iff_accepted : forall E u s s' r evs,
  send_view_update E u s = (s', r) -> trace s' = trace s ++ evs ->
  (r = Ok OKAY_STATUS <-> last_upload_created evs).
Proof. exact call_verdict. Qed.

(** A status that is not okay says which request was answered with something else than 201
    at the end: the one for a session or the one for the update. *)
Theorem c55_failure_says_which : forall E u s s' st evs,
  send_view_update E u s = (s', Ok st) -> trace s' = trace s ++ evs -> ok st = false ->
  exists pre v b body r, evs = pre ++ [Post v b body r] /\ status_code r <> 201%Z /\
    ends_with (what st) (match v with SessionsUrl => "Could not create session." | UpdateUrl _ _ => "Could not send view update." end).
Proof. exact call_failure. Qed.

(** Every request carries the token that get_jwt returned right before it. *)
Theorem c55_bearer_fresh : forall E us pre v b bd y post,
  trace (run E us start) = pre ++ Post v b bd y :: post ->
  exists pre', pre = pre' ++ [GetJwt (Ok b)].
Proof. exact (fun E us => bearer_run E us). Qed.

(** Everything that happens is a sequence of requests, at most two for each call, in each of
    which the token is refreshed exactly if the first reply is 401. *)
Theorem c55_refresh : forall E us, exists parts, trace (run E us start) = List.concat parts /\ Forall one_request parts /\ List.length parts <= 2 * List.length us.
Proof. exact requests_run. Qed.

Open Scope string_scope.
Definition L := list_ascii_of_string.
Definition rsp (c : Z) (t : string) : response := {| status_code := c; response_text := L t |}.

(** The session is created at the second try, the first upload is retried and
    accepted, the second is lost to a server error, the third is accepted. *)
Definition ex_env : env := {|
  base_url := L "https://x"; jwt := fun n => Ok (L (if Nat.even n then "a" else "b"));
  reply := fun n => nth n [rsp 401 ""; rsp 201 "s""1"; rsp 401 ""; rsp 201 "{}"; rsp 500 "oops"] (rsp 201 "") |}.
Definition ex_us : list (outcome text) := [Ok (L "A"); Throw; Ok (L "B"); Ok (L "C")].

Example c54_example :
  uploads (trace (run ex_env ex_us start)) =
    [(L "s1", 0, L "A"); (L "s1", 0, L "A"); (L "s1", 1, L "B"); (L "s1", 2, L "C")]%N /\
  (N.of_nat (List.length ex_us) < 2 ^ 64)%N /\
  url_text (base_url ex_env) (UpdateUrl (L "s1") 12) = L "https://x/view/sessions/s1/updates/12".
Proof. vm_compute. repeat split. Qed.

Example c55_example :
  snd (send_view_update ex_env (Ok (L "A")) start) = Ok OKAY_STATUS /\
  snd (send_view_update ex_env (Ok (L "B")) (run ex_env [Ok (L "A")] start)) = Ok not_sent /\ ok not_sent = false /\
  firstn 5 (trace (run ex_env ex_us start)) =
    [GetJwt (Ok (L "a")); Post SessionsUrl (L "a") [] (rsp 401 ""); Refresh;
     GetJwt (Ok (L "b")); Post SessionsUrl (L "b") [] (rsp 201 "s""1")] /\
  count is_post (trace (run ex_env ex_us start)) = 6.
Proof. vm_compute. repeat split. Qed.

(** The condition on the reply in c55_one_session is needed: a reply of quotes only
    gives an empty session id and a new session per call. *)
Theorem c55_at_most_one_session_refuted : exists E us,
  List.length (filter (fun e => match e with Post SessionsUrl _ _ r => (status_code r =? 201)%Z | _ => false end)
    (trace (run E us start))) = 2.
Proof.
  exists {| base_url := L "u"; jwt := fun _ => Ok (L "t"); reply := fun _ => rsp 201 """""" |},
    [Ok (L "A"); Ok (L "B")]. vm_compute. reflexivity.
Qed.

Print Assumptions c54_numbering.
Print Assumptions c54_ids_increase.
Print Assumptions c54_urls_distinct.
Print Assumptions c54_url_text.
Print Assumptions c55_upload_uses_session.
Print Assumptions c55_one_session.
Print Assumptions c55_effort.
Print Assumptions c55_okay_iff_accepted.
Print Assumptions c55_failure_says_which.
Print Assumptions c55_bearer_fresh.
Print Assumptions c55_refresh.
Print Assumptions c55_at_most_one_session_refuted.
