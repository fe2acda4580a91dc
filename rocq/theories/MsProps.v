(** C93: the mock server. *)
From Coq Require Import ZArith List Ascii String Lia NArith.
From Verif Require Import Cpp UuidModel TdModel MsModel MsSpec MsProofs.
Import ListNotations.

(** A server comes to its end exactly when listen() was called once, with a port to be had, all
    receivers were added before, and nothing but requests came between and after. *)
Theorem c93_life : forall es, (exists s, live new_server es = Fine s /\ s_phase s = Destroyed) <->
  exists before port asks after, es = before ++ Listen port :: asks ++ Destroy :: after /\ port <> (-1)%Z /\ Forall quiet before /\ Forall is_ask asks /\ Forall is_ask after.
Proof.
  intro es. split.
  - intros (s & E & P). destruct (all_ways es) as [(_ & U)|[(b & a & _ & _ & U)|[(b & a & _ & _ & U)|[(b & p & k & _ & _ & _ & _ & [[_ U]|[_ U]])|[(b & p & k & q & a & _ & _ & _ & _ & U)|[(b & p & k & h & a & _ & _ & _ & _ & U)|(b & p & k & a & -> & B & N & K & [[A _]|[_ U]])]]]]]];
      try (rewrite U in E; discriminate E); try (rewrite U in E; injection E as <-; discriminate P).
    exists b, p, k, a. auto.
  - intros (b & p & k & a & -> & N & B & K & A). unfold new_server. rewrite live_app, (live_quiet b [] 0 B). cbn [app live act]. rewrite listen_made.
    apply Z.eqb_neq in N. rewrite N. rewrite live_app.
    assert (X : exists s, live (Server (added b) p Serving) k = Fine s /\ (s_phase s = Serving \/ s_phase s = Ended)) by (destruct (live_asks k (added b) p K) as [[E _]|[E _]]; eexists; (split; [exact E|cbn; auto])).
    destruct X as (s & E & P). rewrite E. cbn [live act]. destruct (destroy_spec s P) as (s' & D & P'). rewrite D. exists s'. split; [|exact P'].
    apply live_asks_done; [exact A|rewrite P'; discriminate].
Qed.
Print Assumptions c93_life.

(** Destroying a server that never listened is undefined, and so is listen() without a port to be
    had; listen() a second time terminates the program. *)
Theorem c93_wrong : forall before after, Forall quiet before ->
  live new_server (before ++ Destroy :: after) = Undefined /\ live new_server (before ++ Listen (-1) :: after) = Undefined /\
  forall port asks port', port <> (-1)%Z -> Forall is_ask asks -> live new_server (before ++ Listen port :: asks ++ Listen port' :: after) = Terminated.
Proof.
  intros b a B. unfold new_server. rewrite !live_app, !(live_quiet b [] 0 B). split; [reflexivity|]. split; [reflexivity|].
  intros p k q N K. rewrite live_app, (live_quiet b [] 0 B). cbn [app live act]. rewrite listen_made. apply Z.eqb_neq in N. rewrite N, live_app.
  destruct (live_asks k (added b) p K) as [[E _]|[E _]]; rewrite E; reflexivity.
Qed.
Print Assumptions c93_wrong.

(** No use of a server throws: the check in listen() never fails. *)
Theorem c93_never_throws : forall es, live new_server es <> Thrown.
Proof.
  intros es E. destruct (all_ways es) as [(_ & U)|[(b & a & _ & _ & U)|[(b & a & _ & _ & U)|[(b & p & k & _ & _ & _ & _ & [[_ U]|[_ U]])|[(b & p & k & q & a & _ & _ & _ & _ & U)|[(b & p & k & h & a & _ & _ & _ & _ & U)|(b & p & k & a & -> & B & N & K & [[A (s & U & _)]|[_ U]])]]]]]];
    rewrite E in U; discriminate U.
Qed.
Print Assumptions c93_never_throws.

(** From listen() on every request is answered, at the port that was bound, until any client asks
    to stop; from then on none is. *)
Theorem c93_served : forall before port asks, Forall quiet before -> port <> (-1)%Z -> Forall is_ask asks ->
  exists s, live new_server (before ++ Listen port :: asks) = Fine s /\ s_port s = port /\
  forall req, fst (answer s req) = None <-> Exists asks_stop asks.
Proof.
  intros b p k B N K. unfold new_server. rewrite live_app, (live_quiet b [] 0 B). cbn [app live act]. rewrite listen_made. apply Z.eqb_neq in N. rewrite N.
  destruct (live_asks k (added b) p K) as [[E X]|[E X]]; rewrite E; eexists; (split; [reflexivity|]); (split; [reflexivity|]); intro req; split; intro H.
  - destruct (answer_serving (added b) p req) as (res & A & _). rewrite A in H. discriminate.
  - exfalso. apply Exists_exists in H as (e & I & H). exact (proj1 (Forall_forall _ _) X e I H).
  - exact X.
  - reflexivity.
Qed.
Print Assumptions c93_served.

(** Every post is answered by the first receiver added whose pattern matches, called once with all
    of the body however it was cut up, and leaves the server as it was; there is one such reply. *)
Theorem c93_post : forall before port asks s req, Forall quiet before -> port <> (-1)%Z -> Forall is_ask asks -> Forall (fun e => ~ asks_stop e) asks ->
  live new_server (before ++ Listen port :: asks) = Fine s -> q_method req = POST ->
  exists res, answer s req = (Some res, s) /\ reply (added before) req res /\ forall res', reply (added before) req res' -> res' = res.
Proof.
  intros b p k s req B N K X E M. unfold new_server in E. rewrite live_app, (live_quiet b [] 0 B) in E. cbn [app live act] in E. rewrite listen_made in E. apply Z.eqb_neq in N. rewrite N in E.
  destruct (live_asks k (added b) p K) as [[E' _]|[_ Y]].
  - rewrite E' in E. injection E as <-. destruct (post_reply (Server (added b) p Serving) req eq_refl M) as (res & A & R). exists res. split; [exact A|]. split; [exact R|].
    intros res' R'. exact (reply_unique _ _ _ _ R' R).
  - exfalso. apply Exists_exists in Y as (e & I & Y). exact (proj1 (Forall_forall _ _) X e I Y).
Qed.
Print Assumptions c93_post.

(** A receiver that leaves the status at INVALID is not reported as a failure: the client gets
    200, as it would for OK. *)
Definition says_nothing : receiver := fun _ _ _ res => Some res.
Theorem c93_invalid_refuted : exists before req s res, Forall quiet before /\ live new_server (before ++ [Listen 4000]) = Fine s /\ answer s req = (Some res, s) /\
  (forall hs body path r, says_nothing hs body path r = Some r) /\ r_status res = 200%Z.
Proof.
  exists [AddPost (fun _ => true, says_nothing)], (Request POST path_stop [] []). eexists. eexists. split; [constructor; [right; eexists; reflexivity|constructor]|].
  split; [reflexivity|]. split; [reflexivity|]. split; [reflexivity|]. reflexivity.
Qed.
Print Assumptions c93_invalid_refuted.

Definition echo : receiver := fun headers body path res => Some (Response body (List.concat (map snd headers)) 201).
Definition lower_name : text := list_ascii_of_string "authorization". Definition upper_name : text := list_ascii_of_string "Authorization".
Example c93_case : let before := [AddPost (text_eqb path_ready, echo); AddPost (fun _ => true, says_nothing)] in let a := ["a"%char] in let b := ["b"%char] in
  let req := Request POST path_ready [(lower_name, a); (upper_name, b); (lower_name, b)] [a; []; b] in
  Forall quiet before /\ ~ asks_stop (Ask req) /\ asks_stop (Ask (get_request path_stop)) /\
  (exists s, live new_server (before ++ [Listen 80]) = Fine s /\ answer s req = (Some (Response (a ++ b) (b ++ a ++ b) 201), s) /\ reply (added before) req (Response (a ++ b) (b ++ a ++ b) 201)) /\
  named upper_name (copy_headers (q_headers req)) = [(upper_name, b)].
Proof.
  intros before a b req. assert (Q : Forall quiet before) by (apply Forall_cons; [right; eexists; reflexivity|apply Forall_cons; [right; eexists; reflexivity|apply Forall_nil]]). split; [exact Q|].
  split; [intros (h & c & E); discriminate|]. split; [exists [], []; reflexivity|]. split; [|vm_compute; reflexivity].
  assert (NP : (80 <> -1)%Z) by discriminate.
  destruct (c93_served before 80 [] Q NP (Forall_nil _)) as (s & E & _). exists s. split; [exact E|].
  destruct (c93_post before 80 [] s req Q NP (Forall_nil _) (Forall_nil _) E eq_refl) as (res & A & R & _).
  assert (S1 : s = Server (added before) 80 Serving) by (vm_compute in E; injection E as <-; reflexivity).
  assert (X : res = Response (a ++ b) (b ++ a ++ b) 201) by (rewrite S1 in A; vm_compute in A; injection A as <-; reflexivity).
  rewrite X in A, R. split; assumption.
Qed.
