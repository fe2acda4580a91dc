(** The view client against the mock view server. *)
From Coq Require Import Ascii String NArith List Lia DecimalString DecimalN DecimalPos.
From Verif Require Import Cpp StatusModel UuidModel UuidSpec UuidProofs ClientModel ClientSpec ClientProofs MockModel MockSpec.
Import ListNotations.
Local Open Scope nat_scope.

(** ** Texts *)
Lemma text_eqb_eq a : forall b, text_eqb a b = true <-> a = b.
Proof.
  induction a as [|x a IH]; intros [|y b]; cbn [text_eqb]; try (split; congruence).
  split.
  - intro H. apply andb_prop in H. destruct H as [H1 H2]. apply Ascii.eqb_eq in H1. apply IH in H2. congruence.
  - intro H. injection H as -> ->. rewrite Ascii.eqb_refl. apply IH. reflexivity.
Qed.
Lemma text_eqb_refl a : text_eqb a a = true.
Proof. apply text_eqb_eq. reflexivity. Qed.
Lemma text_eqb_neq a b : a <> b -> text_eqb a b = false.
Proof. intro H. destruct (text_eqb a b) eqn:E; [|reflexivity]. apply text_eqb_eq in E. contradiction. Qed.
Lemma after_app p t : after p (p ++ t) = Some t.
Proof. induction p as [|x p IH]; [reflexivity|]. cbn [after app]. rewrite Ascii.eqb_refl. exact IH. Qed.
Definition slash : ascii := "/"%char.
Lemma split_none b : ~ In slash b -> split_last (str "/updates/") b = None.
Proof.
  induction b as [|c b IH]; intro H; [reflexivity|]. cbn [split_last]. rewrite IH by (intro I; apply H; right; exact I).
  change (str "/updates/") with (slash :: str "updates/"). cbn [after]. destruct (Ascii.eqb slash c) eqn:E; [|reflexivity]. apply Ascii.eqb_eq in E. exfalso. apply H. left. symmetry. exact E.
Qed.
Lemma split_here b : ~ In slash b -> split_last (str "/updates/") (str "/updates/" ++ b) = Some ([], b).
Proof.
  intro H. change (str "/updates/" ++ b) with (slash :: "u"%char :: "p"%char :: "d"%char :: "a"%char :: "t"%char :: "e"%char :: "s"%char :: slash :: b).
  assert (S : split_last (str "/updates/") (slash :: b) = None).
  { cbn [split_last]. rewrite split_none by exact H. change (str "/updates/") with (slash :: "u"%char :: str "pdates/"). cbn [after]. rewrite Ascii.eqb_refl. destruct b as [|c b]; [reflexivity|]. cbn [after].
    destruct (Ascii.eqb "u" c) eqn:E; [|reflexivity]. destruct (after (str "pdates/") b) as [r|] eqn:A; [|reflexivity]. exfalso. apply H. right. clear - A.
    assert (G : forall p t r, after p t = Some r -> t = p ++ r). { induction p as [|x p IH]; intros t r0 K; [injection K as <-; reflexivity|]. destruct t as [|y t]; [discriminate K|]. cbn [after] in K. destruct (Ascii.eqb x y) eqn:X; [|discriminate K]. apply Ascii.eqb_eq in X. subst y. cbn. f_equal. apply IH, K. }
    apply G in A. subst b. apply in_or_app. left. vm_compute. auto 20. }
  cbn [split_last] in S |- *. rewrite S. reflexivity.
Qed.
Lemma split_at a b : ~ In slash b -> split_last (str "/updates/") (a ++ str "/updates/" ++ b) = Some (a, b).
Proof. intro H. induction a as [|c a IH]; [apply split_here, H|]. cbn [app split_last]. rewrite IH. reflexivity. Qed.
Lemma digit_no_slash ds : Forall digit ds -> ~ In slash ds.
Proof. intros F I. apply (proj1 (Forall_forall _ _) F) in I. unfold digit in I. vm_compute in I. destruct I as [I _]. apply I. reflexivity. Qed.
Lemma digit_any ds : Forall digit ds -> forallb any_char ds = true.
Proof.
  intro F. apply forallb_forall. intros c I. apply (proj1 (Forall_forall _ _) F) in I. unfold any_char. destruct (Ascii.eqb c (ascii_of_nat 10)) eqn:E; [apply Ascii.eqb_eq in E; subst c; vm_compute in I; destruct I as [I _]; exfalso; apply I; reflexivity|].
  destruct (Ascii.eqb c (ascii_of_nat 13)) eqn:E'; [apply Ascii.eqb_eq in E'; subst c; vm_compute in I; destruct I as [I _]; exfalso; apply I; reflexivity|]. reflexivity.
Qed.
Lemma digit_value_is c : digit c -> digit_value c = Some (N_of_ascii c - 48)%N.
Proof. intros [A B]. unfold digit_value. apply N.leb_le in A, B. rewrite A, B. reflexivity. Qed.
Lemma stoul_all ds : Forall digit ds -> forall n, stoul_from n ds = fold_left (fun n c => (10 * n + (N_of_ascii c - 48))%N) ds n.
Proof. induction 1 as [|c ds D F IH]; intro n; [reflexivity|]. cbn [stoul_from fold_left]. rewrite digit_value_is by exact D. apply IH. Qed.
Lemma stoul_is ds : ds <> [] -> Forall digit ds -> (number ds < 2 ^ 64)%N -> stoul ds = Some (number ds).
Proof.
  intros N F L. destruct ds as [|c ds]; [contradiction|]. unfold stoul. rewrite digit_value_is by (inversion F; assumption). rewrite stoul_all by exact F. change (fold_left _ _ _) with (number (c :: ds)). apply N.ltb_lt in L. rewrite L. reflexivity.
Qed.
Lemma uint_nonempty n : ClientModel.to_string n <> [].
Proof.
  unfold ClientModel.to_string. intro H. assert (E : NilEmpty.string_of_uint (N.to_uint n) = ""%string). { apply (f_equal string_of_list_ascii) in H. rewrite string_of_list_ascii_of_string in H. exact H. }
  destruct n as [|p]; [discriminate E|]. pose proof (DecimalPos.Unsigned.to_uint_nonnil p) as Z. cbn [N.to_uint] in E. destruct (Pos.to_uint p); try discriminate E. apply Z. reflexivity.
Qed.
Lemma canonical_chars t c : canonical t -> In c t -> c = "-"%char \/ In c lower_hex.
Proof.
  intros (L & H) I. apply In_nth_error in I. destruct I as [i I]. specialize (H i c I). destruct (in_dec Nat.eq_dec i [8; 13; 18; 23]) as [D|D]; auto.
Qed.

Lemma session_text sid : uuid_wf sid -> let t := UuidModel.to_string sid in t <> [] /\ sanitize t = t /\ forallb any_char t = true /\ uuid_of_string t = Ok sid.
Proof.
  intro W. cbv zeta. pose proof (string_canonical sid W) as C. set (t := UuidModel.to_string sid) in *.
  assert (A : forall c, In c t -> Ascii.eqb c quote = false /\ Ascii.eqb c newline = false /\ any_char c = true).
  { intros c I. apply (canonical_chars t c C) in I. destruct I as [->|I]; [repeat split|]. cbn in I. repeat (destruct I as [<-|I]; [repeat split|]). contradiction. }
  split; [intro E; destruct C as [C _]; rewrite E in C; discriminate C|]. split; [|split; [apply forallb_forall; intros c I; apply A, I|apply string_round_trip, W]].
  unfold sanitize. assert (F : forall (p : ascii -> bool) l, (forall c, In c l -> p c = true) -> filter p l = l).
  { induction l as [|c l IH]; intro H; [reflexivity|]. cbn [filter]. rewrite (H c) by (left; reflexivity). f_equal. apply IH. intros x I. apply H. right. exact I. }
  rewrite (F (fun c => negb (Ascii.eqb c quote))); [apply F|]; intros c I; destruct (A c I) as (Q & N & _); rewrite ?Q, ?N; reflexivity.
Qed.

Section Mock.
Context {Msg Update : Type}.
Variable parse : text -> option Msg.
Variable unpack : Msg -> option Update.
Variable answer : Update -> uuid -> N -> text.
Notation world := (world Update).
Notation handle := (handle Msg Update parse unpack answer).
Notation answered := (answered Msg Update parse unpack answer).
Notation read := (content parse unpack).

(** ** The server *)
Lemma validated u b : validate_headers (headers (sent u b [])) = if text_eqb b UNAUTHORIZED_TOKEN then Some UNAUTHORIZED else if text_eqb b FORBIDDEN_TOKEN then Some FORBIDDEN else if text_eqb b VALID_TOKEN then None else Some UNAUTHORIZED.
Proof. destruct u; unfold validate_headers; cbn [sent headers app]; cbn [filter]; reflexivity. Qed.
Lemma headers_body u b x : headers (sent u b x) = headers (sent u b []).
Proof. reflexivity. Qed.
Lemma route_sessions : route (url_text [] SessionsUrl) = Sessions.
Proof. reflexivity. Qed.
Lemma route_update sid id : uuid_wf sid -> exists ds, route (url_text [] (UpdateUrl (UuidModel.to_string sid) id)) = Updates (UuidModel.to_string sid) ds /\ ((id < 2 ^ 64)%N -> stoul ds = Some id).
Proof.
  intro W. destruct (session_text sid W) as (_ & _ & A & _). set (t := UuidModel.to_string sid) in *. exists (ClientModel.to_string id).
  assert (D : Forall digit (ClientModel.to_string id)) by (apply Forall_forall, digits_of_uint).
  assert (N : number (ClientModel.to_string id) = id) by (unfold ClientModel.to_string; rewrite value_uint; apply DecimalN.Unsigned.of_to).
  split.
  - unfold route. assert (U : url_text [] (UpdateUrl t id) = str "/view/sessions/" ++ t ++ str "/updates/" ++ ClientModel.to_string id) by reflexivity.
    rewrite text_eqb_neq; [|rewrite U; intro H; apply (f_equal (@List.length ascii)) in H; rewrite !app_length in H; vm_compute (List.length (str _)) in H; cbn in H; lia].
    rewrite U, after_app, split_at by (apply digit_no_slash, D). rewrite A, (digit_any _ D). reflexivity.
  - intro L. rewrite <- N at 2. apply stoul_is; [apply uint_nonempty|exact D|rewrite N; exact L].
Qed.

Definition check (b : text) : option Z :=
  if text_eqb b UNAUTHORIZED_TOKEN then Some UNAUTHORIZED else if text_eqb b FORBIDDEN_TOKEN then Some FORBIDDEN else if text_eqb b VALID_TOKEN then None else Some UNAUTHORIZED.
Lemma check_valid : check VALID_TOKEN = None.
Proof. reflexivity. Qed.
Lemma check_forbidden : check FORBIDDEN_TOKEN = Some FORBIDDEN.
Proof. reflexivity. Qed.
Lemma check_other b : b <> VALID_TOKEN -> b <> FORBIDDEN_TOKEN -> check b = Some UNAUTHORIZED.
Proof. intros V F. unfold check. rewrite (text_eqb_neq b FORBIDDEN_TOKEN F), (text_eqb_neq b VALID_TOKEN V). destruct (text_eqb b UNAUTHORIZED_TOKEN); reflexivity. Qed.
Definition refusal (c : Z) : response := {| status_code := c; response_text := [] |}.
Lemma handle_sessions sv b x : handle sv (sent SessionsUrl b x) = match check b with Some c => (sv, refusal c) | None => (sv, {| status_code := CREATED; response_text := UuidModel.to_string (session _ sv) |}) end.
Proof. unfold handle. change (path (sent SessionsUrl b x)) with (url_text [] SessionsUrl). rewrite route_sessions, headers_body, validated. unfold check, refusal. destruct (text_eqb b UNAUTHORIZED_TOKEN), (text_eqb b FORBIDDEN_TOKEN), (text_eqb b VALID_TOKEN); reflexivity. Qed.
Definition took (sv : server Update) (sid : uuid) (id : N) (body : text) : server Update * response :=
  match read body with
  | Some u => (receive _ (receive _ sv u sid id) u sid id, {| status_code := update_code _ sv; response_text := answer u sid id |})
  | None => (sv, refusal INTERNAL)
  end.
Lemma handle_update sv sid id b body : uuid_wf sid -> (id < 2 ^ 64)%N -> handle sv (sent (UpdateUrl (UuidModel.to_string sid) id) b body) = match check b with Some c => (sv, refusal c) | None => took sv sid id body end.
Proof.
  intros W L. unfold handle. change (path (sent (UpdateUrl (UuidModel.to_string sid) id) b body)) with (url_text [] (UpdateUrl (UuidModel.to_string sid) id)).
  destruct (route_update sid id W) as (ds & -> & S). rewrite headers_body, validated. specialize (S L). destruct (session_text sid W) as (_ & _ & _ & P). unfold update_handler, took, content, check, refusal. cbn [body_sent sent]. rewrite S, P.
  destruct (text_eqb b UNAUTHORIZED_TOKEN), (text_eqb b FORBIDDEN_TOKEN), (text_eqb b VALID_TOKEN); try reflexivity; destruct (parse body) as [m|]; try reflexivity; cbn [obind]; destruct (unpack m) as [u|]; reflexivity.
Qed.

(** ** The client and the server as one machine *)
Definition reached (w : world) (sv : server Update) : world := {| mock_server := sv; mock_client := mock_client _ w |}.
Definition refreshed (w : world) : world := {| mock_server := mock_server _ w; mock_client := mock_refresh (mock_client _ w) |}.
Definition mreq (u : url) (body : text) (s : state) (w : world) : state * world * response :=
  let t := token_ (mock_client _ w) in
  let (sv, r) := handle (mock_server _ w) (sent u t body) in
  (emit (emit s (GetJwt (Ok t))) (Post u t body r), reached w sv, r).
Definition mretry (u : url) (body : text) (s : state) (w : world) : state * world * response :=
  let '(s1, w1, r) := mreq u body s w in
  if (status_code r =? UNAUTHORIZED)%Z then mreq u body (emit s1 Refresh) (refreshed w1) else (s1, w1, r).
Definition mupload (body : text) (s : state) (w : world) : state * world * status :=
  let '(s1, w1, r) := mretry (UpdateUrl (session_id s) (update_id s)) body (next_id s) w in
  (s1, w1, if (status_code r =? CREATED)%Z then OKAY_STATUS else not_sent).
Definition msend (body : text) (s : state) (w : world) : state * world * status :=
  match session_id s with
  | [] => let '(s1, w1, r) := mretry SessionsUrl [] s w in
          if (status_code r =? CREATED)%Z then mupload body (with_session s1 (sanitize (response_text r))) w1 else (s1, w1, no_session)
  | _ => mupload body s w
  end.
Fixpoint mrun (bodies : list text) (s : state) (w : world) : state * world :=
  match bodies with
  | [] => (s, w)
  | b :: bodies => let '(s1, w1, _) := msend b s w in mrun bodies s1 w1
  end.

Lemma answered_app a : forall w b w', answered w (a ++ b) w' <-> exists m, answered w a m /\ answered m b w'.
Proof.
  induction a as [|e a IH]; intros w b w'; cbn [app MockModel.answered]; [split; [intro H; exists w; auto|intros (m & -> & H); exact H]|].
  destruct e as [j| |u t x r].
  - rewrite IH. split; [intros (J & m & A & B); exists m; auto|intros (m & (J & A) & B); split; [exact J|exists m; auto]].
  - apply IH.
  - destruct (handle (mock_server _ w) (sent u t x)) as [sv r']. rewrite IH. split; [intros (J & m & A & B); exists m; auto|intros (m & (J & A) & B); split; [exact J|exists m; auto]].
Qed.
Definition grows (s s' : state) : Prop := exists evs, trace s' = trace s ++ evs.
Definition ext (s : state) (w : world) (s' : state) (w' : world) : Prop := exists evs, trace s' = trace s ++ evs /\ answered w evs w'.
Lemma grows_refl s s' : trace s' = trace s -> grows s s'.
Proof. intro H. exists []. rewrite app_nil_r. exact H. Qed.
Lemma grows_trans a b c : grows a b -> grows b c -> grows a c.
Proof. intros (x & X) (y & Y). exists (x ++ y). rewrite Y, X, app_assoc. reflexivity. Qed.
Lemma grows_emit s e : grows s (emit s e).
Proof. exists [e]. reflexivity. Qed.
Lemma ext_split s w s1 s2 w2 : grows s s1 -> grows s1 s2 -> ext s w s2 w2 -> exists w1, ext s w s1 w1 /\ ext s1 w1 s2 w2.
Proof.
  intros (a & A) (b & B) (evs & E & H). rewrite B, A, <- app_assoc in E. apply app_inv_head in E. subst evs. apply answered_app in H. destruct H as (m & H1 & H2). exists m. split; [exists a; auto|exists b; auto].
Qed.
Lemma ext_trans s w s1 w1 s2 w2 : ext s w s1 w1 -> ext s1 w1 s2 w2 -> ext s w s2 w2.
Proof. intros (a & A & A') (b & B & B'). exists (a ++ b). split; [rewrite B, A, app_assoc; reflexivity|]. apply answered_app. exists w1. auto. Qed.

Section Env.
Variable E : env.
Lemma post_grows u b s : grows s (fst (post E u b s)).
Proof. unfold post. destruct (jwt E _) as [t| |]; cbn [fst]; [eapply grows_trans; apply grows_emit|apply grows_emit..]. Qed.
Lemma retry_grows u b s : grows s (fst (post_retry E u b s)).
Proof.
  unfold post_retry. pose proof (post_grows u b s) as G. destruct (post E u b s) as [s1 [r| |]]; cbn [fst] in *; try exact G. destruct (_ =? _)%Z; [|exact G].
  apply grows_trans with (1 := G). apply grows_trans with (1 := grows_emit s1 Refresh). apply post_grows.
Qed.
Lemma upload_grows u s : grows s (fst (upload E u s)).
Proof.
  unfold upload. destruct u as [b| |]; try (apply grows_refl; reflexivity). pose proof (retry_grows (UpdateUrl (session_id s) (update_id s)) b (next_id s)) as G. destruct (post_retry E _ b (next_id s)) as [s1 [r| |]]; exact G.
Qed.
Lemma send_grows u s : grows s (fst (send_view_update E u s)).
Proof.
  unfold send_view_update. destruct (base_url E); [apply grows_refl; reflexivity|]. destruct (session_id s); [|apply upload_grows]. pose proof (retry_grows SessionsUrl [] s) as G. destruct (post_retry E _ _ s) as [s1 [r| |]]; cbn [fst] in *; try exact G. destruct (_ =? _)%Z; [|exact G].
  apply grows_trans with (1 := G). apply (upload_grows u (with_session s1 _)).
Qed.
Lemma run_grows us : forall s, grows s (run E us s).
Proof. induction us as [|u us IH]; intro s; [apply grows_refl; reflexivity|]. cbn [run]. apply grows_trans with (1 := send_grows u s), IH. Qed.

Lemma sim_post u b s w w1 : ext s w (fst (post E u b s)) w1 -> exists s1 r, post E u b s = (s1, Ok r) /\ mreq u b s w = (s1, w1, r).
Proof.
  unfold post, mreq. destruct (jwt E _) as [t| |] eqn:J; cbn [fst]; intros (evs & T & A).
  - cbn [trace emit] in T. rewrite <- app_assoc in T. apply app_inv_head in T. subst evs. cbn [app MockModel.answered] in A. destruct A as [A1 A]. injection A1 as ->. destruct (handle (mock_server _ w) _) as [sv r]. destruct A as [A2 A]. subst r. cbn [MockModel.answered] in A. subst w1. eexists. eexists. split; reflexivity.
  - cbn [trace emit] in T. apply app_inv_head in T. subst evs. destruct A as [A _]. discriminate A.
  - cbn [trace emit] in T. apply app_inv_head in T. subst evs. destruct A as [A _]. discriminate A.
Qed.
Lemma sim_retry u b s w w1 : ext s w (fst (post_retry E u b s)) w1 -> exists s1 r, post_retry E u b s = (s1, Ok r) /\ mretry u b s w = (s1, w1, r).
Proof.
  intro X. destruct (ext_split s w (fst (post E u b s)) (fst (post_retry E u b s)) w1 (post_grows u b s)) with (2 := X) as (wm & X1 & X2).
  { unfold post_retry. destruct (post E u b s) as [s1 [r| |]]; try (apply grows_refl; reflexivity). destruct (_ =? _)%Z; [|apply grows_refl; reflexivity]. cbn [fst]. apply grows_trans with (1 := grows_emit s1 Refresh), post_grows. }
  destruct (sim_post u b s w wm X1) as (s1 & r & P & M). unfold mretry. rewrite M. unfold post_retry in *. rewrite P in *. cbn [fst] in X2. destruct (_ =? _)%Z.
  - destruct (ext_split s1 wm (emit s1 Refresh) _ w1 (grows_emit s1 _) (post_grows _ _ _) X2) as (wr & R1 & R2). destruct R1 as (evs & T & A). cbn [trace emit] in T. apply app_inv_head in T. subst evs. cbn [MockModel.answered] in A. subst wr. exact (sim_post u b _ _ w1 R2).
  - destruct X2 as (evs & T & A). cbn [fst] in T. rewrite <- (app_nil_r (trace s1)) in T at 1. apply app_inv_head in T. subst evs. cbn [MockModel.answered] in A. subst w1. eexists. eexists. split; reflexivity.
Qed.
Lemma sim_upload b s w w1 : ext s w (fst (upload E (Ok b) s)) w1 -> exists s1 st, upload E (Ok b) s = (s1, Ok st) /\ mupload b s w = (s1, w1, st).
Proof.
  unfold upload, mupload. intro X. destruct (sim_retry (UpdateUrl (session_id s) (update_id s)) b (next_id s) w w1) as (s1 & r & P & M).
  { destruct (post_retry E _ b (next_id s)) as [s1 [r| |]]; exact X. }
  rewrite P, M. eexists. eexists. split; reflexivity.
Qed.
Lemma sim_send b s w w1 : base_url E <> [] -> ext s w (fst (send_view_update E (Ok b) s)) w1 -> exists s1 st, send_view_update E (Ok b) s = (s1, Ok st) /\ msend b s w = (s1, w1, st).
Proof.
  intros B X. unfold send_view_update, msend in *. destruct (base_url E) as [|c base]; [contradiction|]. destruct (session_id s) as [|c' sid]; [|exact (sim_upload b s w w1 X)].
  match type of X with ext _ _ ?f _ => destruct (ext_split s w (fst (post_retry E SessionsUrl [] s)) f w1 (retry_grows SessionsUrl [] s)) with (2 := X) as (wm & X1 & X2) end.
  { destruct (post_retry E SessionsUrl [] s) as [s1 [r| |]]; try (apply grows_refl; reflexivity). destruct (_ =? _)%Z; [|apply grows_refl; reflexivity]. apply (upload_grows _ (with_session s1 _)). }
  destruct (sim_retry SessionsUrl [] s w wm X1) as (s1 & r & P & M). rewrite P in *. rewrite M. destruct (_ =? _)%Z.
  - apply (sim_upload b (with_session s1 _) wm w1 X2).
  - destruct X2 as (evs & T & A). cbn [fst] in T. rewrite <- (app_nil_r (trace s1)) in T at 1. apply app_inv_head in T. subst evs. cbn [MockModel.answered] in A. subst w1. eexists. eexists. split; reflexivity.
Qed.
Lemma sim_run bodies : forall s w w1, base_url E <> [] -> ext s w (run E (map Ok bodies) s) w1 -> mrun bodies s w = (run E (map Ok bodies) s, w1).
Proof.
  induction bodies as [|b bodies IH]; intros s w w1 B X.
  - cbn [map run mrun] in *. destruct X as (evs & T & A). rewrite <- (app_nil_r (trace s)) in T at 1. apply app_inv_head in T. subst evs. cbn [MockModel.answered] in A. congruence.
  - cbn [map run mrun] in *. destruct (ext_split s w (fst (send_view_update E (Ok b) s)) _ w1 (send_grows _ _) (run_grows _ _) X) as (wm & X1 & X2). destruct (sim_send b s w wm B X1) as (s1 & st & P & M). rewrite M. rewrite P in *. cbn [fst] in *. apply IH; assumption.
Qed.
End Env.
End Mock.
