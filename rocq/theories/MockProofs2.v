(** What the mock view server receives, and that there are such runs. *)
From Coq Require Import Ascii String NArith List Lia.
From Verif Require Import Cpp StatusModel UuidModel UuidSpec UuidProofs ClientModel ClientSpec ClientProofs MockModel MockSpec MockProofs.
Import ListNotations.
Local Open Scope nat_scope.

Section Mock.
Context {Msg Update : Type}.
Variable parse : text -> option Msg.
Variable unpack : Msg -> option Update.
Variable answer : Update -> uuid -> N -> text.
Notation world := (world Update).
Notation handle := (handle Msg Update parse unpack answer).
Notation answered := (answered Msg Update parse unpack answer).
Notation read := (content parse unpack).
Notation mreq := (mreq parse unpack answer).
Notation mretry := (mretry parse unpack answer).
Notation mupload := (mupload parse unpack answer).
Notation msend := (msend parse unpack answer).
Notation mrun := (mrun parse unpack answer).

(** ** Runs exist *)
Definition jwts (tr : list event) : list (outcome text) := flat_map (fun e => match e with GetJwt j => [j] | _ => [] end) tr.
Definition replies (tr : list event) : list response := flat_map (fun e => match e with Post _ _ _ r => [r] | _ => [] end) tr.
Definition of_trace (base : text) (tr : list event) : env :=
  {| base_url := base; jwt := fun n => nth n (jwts tr) Throw; reply := fun n => nth n (replies tr) (refusal 0) |}.
Lemma count_jwts tr : count is_jwt tr = List.length (jwts tr).
Proof. induction tr as [|e tr IH]; [reflexivity|]. destruct e; cbn in *; try exact IH. f_equal. exact IH. Qed.
Lemma count_replies tr : count is_post tr = List.length (replies tr).
Proof. induction tr as [|e tr IH]; [reflexivity|]. destruct e; cbn in *; try exact IH. f_equal. exact IH. Qed.
Lemma jwt_there base a j b : jwt (of_trace base (a ++ GetJwt j :: b)) (count is_jwt a) = j.
Proof. cbn [jwt of_trace]. rewrite count_jwts. unfold jwts. rewrite flat_map_app, app_nth2 by lia. rewrite Nat.sub_diag. reflexivity. Qed.
Lemma reply_there base a u t x r b : reply (of_trace base (a ++ Post u t x r :: b)) (count is_post a) = r.
Proof. cbn [reply of_trace]. rewrite count_replies. unfold replies. rewrite flat_map_app, app_nth2 by lia. rewrite Nat.sub_diag. reflexivity. Qed.

Section Trace.
Variables (base : text) (final : list event).
Hypothesis nonempty : base <> [].
Definition inside (s : state) : Prop := exists rest, final = trace s ++ rest.
Lemma inside_grows s s' : grows s s' -> inside s' -> inside s.
Proof. intros (a & A) (r & R). exists (a ++ r). rewrite R, A, app_assoc. reflexivity. Qed.
Lemma mreq_grows u b s w : grows s (fst (fst (mreq u b s w))).
Proof. unfold MockProofs.mreq. destruct (handle _ _) as [sv r]. cbn [fst]. eapply grows_trans; apply grows_emit. Qed.
Lemma mretry_grows u b s w : grows s (fst (fst (mretry u b s w))).
Proof.
  unfold MockProofs.mretry. pose proof (mreq_grows u b s w) as G. destruct (mreq u b s w) as [[s1 w1] r]. cbn [fst] in G. destruct (_ =? _)%Z; [|exact G]. apply grows_trans with (1 := G). apply grows_trans with (1 := grows_emit s1 Refresh). apply mreq_grows.
Qed.
Lemma mupload_grows b s w : grows s (fst (fst (mupload b s w))).
Proof. unfold MockProofs.mupload. pose proof (mretry_grows (UpdateUrl (session_id s) (update_id s)) b (next_id s) w) as G. destruct (mretry _ _ _ _) as [[s1 w1] r]. exact G. Qed.
Lemma msend_grows b s w : grows s (fst (fst (msend b s w))).
Proof.
  unfold MockProofs.msend. destruct (session_id s); [|apply mupload_grows]. pose proof (mretry_grows SessionsUrl [] s w) as G. destruct (mretry _ _ _ _) as [[s1 w1] r]. cbn [fst] in G. destruct (_ =? _)%Z; [|exact G]. apply grows_trans with (1 := G). apply (mupload_grows b (with_session s1 _)).
Qed.
Lemma mrun_grows bodies : forall s w, grows s (fst (mrun bodies s w)).
Proof. induction bodies as [|b bodies IH]; intros s w; [apply grows_refl; reflexivity|]. cbn [MockProofs.mrun]. pose proof (msend_grows b s w) as G. destruct (msend b s w) as [[s1 w1] st]. apply grows_trans with (1 := G), IH. Qed.

Notation E := (of_trace base final).
Lemma real_req u b s w : inside (fst (fst (mreq u b s w))) -> post E u b s = (fst (fst (mreq u b s w)), Ok (snd (mreq u b s w))).
Proof.
  unfold MockProofs.mreq. destruct (handle _ _) as [sv r]. cbn [fst snd]. intros (rest & R). cbn [trace emit] in R. rewrite <- !app_assoc in R. cbn [app] in R. unfold post.
  assert (J : jwt E (count is_jwt (trace s)) = Ok (token_ (mock_client _ w))) by (rewrite R; apply jwt_there). rewrite J.
  assert (P : reply E (count is_post (trace (emit s (GetJwt (Ok (token_ (mock_client _ w))))))) = r). { cbn [trace emit]. rewrite R. change (GetJwt (Ok (token_ (mock_client _ w))) :: ?l) with ([GetJwt (Ok (token_ (mock_client _ w)))] ++ l). rewrite app_assoc. apply reply_there. }
  rewrite P. reflexivity.
Qed.
Lemma real_retry u b s w : inside (fst (fst (mretry u b s w))) -> post_retry E u b s = (fst (fst (mretry u b s w)), Ok (snd (mretry u b s w))).
Proof.
  intro I. assert (I1 : inside (fst (fst (mreq u b s w)))). { revert I. unfold MockProofs.mretry. destruct (mreq u b s w) as [[s1 w1] r]. cbn [fst]. destruct (_ =? _)%Z; [|auto]. apply inside_grows. apply grows_trans with (1 := grows_emit s1 Refresh), mreq_grows. }
  pose proof (real_req u b s w I1) as P. unfold post_retry. rewrite P. revert I. unfold MockProofs.mretry. destruct (mreq u b s w) as [[s1 w1] r]. cbn [fst snd]. destruct (_ =? _)%Z; [|reflexivity]. apply real_req.
Qed.
Lemma real_upload b s w : inside (fst (fst (mupload b s w))) -> upload E (Ok b) s = (fst (fst (mupload b s w)), Ok (snd (mupload b s w))).
Proof.
  unfold MockProofs.mupload, upload. intro I. rewrite (real_retry (UpdateUrl (session_id s) (update_id s)) b (next_id s) w).
  - destruct (mretry _ _ _ _) as [[s1 w1] r]. reflexivity.
  - destruct (mretry _ _ _ _) as [[s1 w1] r]. exact I.
Qed.
Lemma real_send b s w : inside (fst (fst (msend b s w))) -> send_view_update E (Ok b) s = (fst (fst (msend b s w)), Ok (snd (msend b s w))).
Proof.
  intro I. unfold send_view_update. replace (base_url E) with base by reflexivity. destruct base as [|c base'] eqn:B; [contradiction|]. rewrite <- B in *. revert I. unfold MockProofs.msend. destruct (session_id s) as [|c' sid]; [|apply real_upload]. intro I.
  rewrite (real_retry SessionsUrl [] s w).
  - destruct (mretry _ _ _ _) as [[s1 w1] r]. cbn [fst snd]. destruct (_ =? _)%Z; [|reflexivity]. apply real_upload, I.
  - destruct (mretry _ _ _ _) as [[s1 w1] r]. cbn [fst snd]. destruct (_ =? _)%Z; [|exact I]. apply inside_grows with (2 := I). apply (mupload_grows b (with_session s1 _)).
Qed.
Lemma real_run bodies : forall s w, inside (fst (mrun bodies s w)) -> run E (map Ok bodies) s = fst (mrun bodies s w).
Proof.
  induction bodies as [|b bodies IH]; intros s w I; [reflexivity|]. cbn [map run MockProofs.mrun] in *. destruct (msend b s w) as [[s1 w1] st] eqn:M. pose proof (real_send b s w) as R. rewrite M in R. cbn [fst snd] in R. rewrite R; [cbn [fst]; apply IH, I|]. apply inside_grows with (2 := I), mrun_grows.
Qed.
End Trace.

Notation ext := (ext parse unpack answer).
Lemma ext_req u b s w : let '(s1, w1, _) := mreq u b s w in ext s w s1 w1.
Proof.
  unfold MockProofs.mreq. destruct (handle _ _) as [sv r] eqn:H. eexists. cbn [trace emit]. rewrite <- app_assoc. split; [reflexivity|]. cbn [app MockModel.answered]. split; [reflexivity|]. rewrite H. split; reflexivity.
Qed.
Lemma ext_retry u b s w : let '(s1, w1, _) := mretry u b s w in ext s w s1 w1.
Proof.
  unfold MockProofs.mretry. pose proof (ext_req u b s w) as X. destruct (mreq u b s w) as [[s1 w1] r]. destruct (_ =? _)%Z; [|exact X]. pose proof (ext_req u b (emit s1 Refresh) (refreshed w1)) as Y. destruct (mreq u b _ _) as [[s2 w2] r2].
  apply ext_trans with (1 := X). apply ext_trans with (2 := Y). exists [Refresh]. split; reflexivity.
Qed.
Lemma ext_upload b s w : let '(s1, w1, _) := mupload b s w in ext s w s1 w1.
Proof. unfold MockProofs.mupload. pose proof (ext_retry (UpdateUrl (session_id s) (update_id s)) b (next_id s) w) as X. destruct (mretry _ _ _ _) as [[s1 w1] r]. exact X. Qed.
Lemma ext_send b s w : let '(s1, w1, _) := msend b s w in ext s w s1 w1.
Proof.
  unfold MockProofs.msend. destruct (session_id s); [|apply ext_upload]. pose proof (ext_retry SessionsUrl [] s w) as X. destruct (mretry _ _ _ _) as [[s1 w1] r]. destruct (_ =? _)%Z; [|exact X]. pose proof (ext_upload b (with_session s1 (sanitize (response_text r))) w1) as Y. destruct (mupload _ _ _) as [[s2 w2] st]. apply ext_trans with (1 := X). exact Y.
Qed.
Lemma ext_run bodies : forall s w, let '(s1, w1) := mrun bodies s w in ext s w s1 w1.
Proof.
  induction bodies as [|b bodies IH]; intros s w; [exists []; rewrite app_nil_r; split; reflexivity|]. cbn [MockProofs.mrun]. pose proof (ext_send b s w) as X. destruct (msend b s w) as [[s1 w1] st]. specialize (IH s1 w1). destruct (mrun bodies s1 w1) as [s2 w2]. apply ext_trans with (1 := X) (2 := IH).
Qed.
Lemma runs_exist base bodies (w : world) : base <> [] -> exists E w', base_url E = base /\ answered w (trace (run E (map Ok bodies) start)) w'.
Proof.
  intro B. pose proof (ext_run bodies start w) as X. destruct (mrun bodies start w) as [s1 w1] eqn:M. exists (of_trace base (trace s1)), w1. split; [reflexivity|].
  rewrite (real_run base (trace s1) B bodies start w); rewrite M; cbn [fst]; [|exists []; rewrite app_nil_r; reflexivity]. destruct X as (evs & T & A). cbn [trace start app] in T. rewrite T. exact A.
Qed.

(** ** What is received *)
Variable sid : uuid.
Hypothesis sid_wf : uuid_wf sid.
Variable code : Z.
Definition copies : nat := if (code =? 401)%Z then 4 else 2.
Definition delivered (id : N) (b : text) : list (Update * uuid * N) := match read b with Some u => repeat (u, sid, id) copies | None => [] end.
Definition verdict (b : text) : status := if (code =? 201)%Z then match read b with Some _ => OKAY_STATUS | None => not_sent end else not_sent.
Definition is_server (w : world) (got : list (Update * uuid * N)) : Prop := mock_server _ w = {| session := sid; update_code := code; received := got |}.
Definition is_client (w : world) (t r : text) : Prop := mock_client _ w = {| token_ := t; refresh_ := r |}.

Lemma upload_good b s w got r : session_id s = UuidModel.to_string sid -> (update_id s < 2 ^ 64)%N -> is_server w got -> is_client w VALID_TOKEN r -> (code = 401%Z -> r = VALID_TOKEN) ->
  exists s1 w1, mupload b s w = (s1, w1, verdict b) /\ session_id s1 = session_id s /\ update_id s1 = ((update_id s + 1) mod 2 ^ 64)%N /\ is_server w1 (got ++ delivered (update_id s) b) /\ is_client w1 VALID_TOKEN r.
Proof.
  intros S L V C R. unfold MockProofs.mupload, MockProofs.mretry, MockProofs.mreq. unfold is_server, is_client in *. rewrite C, V, S. cbn [token_].
  rewrite (handle_update parse unpack answer _ sid (update_id s) VALID_TOKEN b sid_wf L), check_valid. unfold took, verdict, delivered, copies. destruct (read b) as [u|] eqn:RB.
  - cbn [update_code status_code]. destruct (code =? 401)%Z eqn:K.
    + apply Z.eqb_eq in K. specialize (R K). subst code r. cbn [reached refreshed mock_client mock_server]. rewrite C. cbn [mock_refresh token_ refresh_]. rewrite (handle_update parse unpack answer _ sid (update_id s) VALID_TOKEN b sid_wf L), check_valid. unfold took. rewrite RB.
      eexists. eexists. split; [reflexivity|]. cbn [session_id update_id emit next_id mock_server mock_client reached]. split; [exact S|]. split; [reflexivity|]. split; [|cbn [mock_client refreshed reached]; rewrite C; reflexivity]. unfold receive. cbn [received session update_code]. rewrite <- !app_assoc. reflexivity.
    + eexists. eexists. unfold UNAUTHORIZED. rewrite K. split; [reflexivity|]. cbn [session_id update_id emit next_id mock_server mock_client reached]. split; [exact S|]. split; [reflexivity|]. split; [|exact C]. unfold receive. cbn [received session update_code]. rewrite <- app_assoc. reflexivity.
  - cbn [refusal status_code]. change (INTERNAL =? UNAUTHORIZED)%Z with false. eexists. eexists. split; [destruct (code =? 201)%Z; reflexivity|]. cbn [session_id update_id emit next_id mock_server mock_client reached]. rewrite app_nil_r. auto.
Qed.

Lemma deliveries_snoc n bodies b : forall from, deliveries read n sid from (bodies ++ [b]) = deliveries read n sid from bodies ++ match read b with Some u => repeat (u, sid, (from + N.of_nat (List.length bodies))%N) n | None => [] end.
Proof.
  induction bodies as [|x bodies IH]; intro from; cbn [app deliveries List.length]; [rewrite N.add_0_r, app_nil_r; reflexivity|]. rewrite IH, app_assoc. replace (from + 1 + N.of_nat (List.length bodies))%N with (from + N.of_nat (S (List.length bodies)))%N by lia. reflexivity.
Qed.
Lemma mrun_snoc bodies b : forall s w, mrun (bodies ++ [b]) s w = let '(s1, w1) := mrun bodies s w in fst (msend b s1 w1).
Proof. induction bodies as [|x bodies IH]; intros s w; cbn [app MockProofs.mrun]; [destruct (msend b s w) as [[s1 w1] st]; reflexivity|]. destruct (msend x s w) as [[s1 w1] st]. apply IH. Qed.

Variables t r : text.
Definition eff : text := match r with [] => t | _ => r end.
Definition good : Prop := t = VALID_TOKEN \/ t <> FORBIDDEN_TOKEN /\ eff = VALID_TOKEN.
Lemma good_gets_in : gets_in t r <-> good.
Proof.
  unfold gets_in, good, eff. change (list_ascii_of_string "valid token") with VALID_TOKEN. change (list_ascii_of_string "forbidden token") with FORBIDDEN_TOKEN. destruct r; [|tauto]. split; intros [H|[H1 H2]]; auto. discriminate H2.
Qed.
Definition w0 : world := new_world Update sid code t r.
Definition in_session (s : state) (w : world) (n : nat) (got : list (Update * uuid * N)) : Prop :=
  update_id s = N.of_nat n /\ is_server w got /\
  (n = 0 /\ session_id s = [] /\ is_client w t eff \/ session_id s = UuidModel.to_string sid /\ is_client w VALID_TOKEN eff).
Lemma send_good b s w n got : good -> (code = 401%Z -> eff = VALID_TOKEN) -> (N.of_nat n + 1 < 2 ^ 64)%N -> in_session s w n got ->
  exists s1 w1, msend b s w = (s1, w1, verdict b) /\ in_session s1 w1 (S n) (got ++ delivered (N.of_nat n) b).
Proof.
  intros G R L (I & V & Q). assert (UP : forall s' w', update_id s' = N.of_nat n -> session_id s' = UuidModel.to_string sid -> is_server w' got -> is_client w' VALID_TOKEN eff -> exists s1 w1, mupload b s' w' = (s1, w1, verdict b) /\ in_session s1 w1 (S n) (got ++ delivered (N.of_nat n) b)).
  { intros s' w' I' S' V' C'. destruct (upload_good b s' w' got eff S' ltac:(rewrite I'; lia) V' C' R) as (s1 & w1 & M & S1 & I1 & V1 & C1). exists s1, w1. split; [exact M|]. rewrite I' in *. split; [rewrite I1, N.mod_small by exact L; lia|]. split; [exact V1|]. right. rewrite S1. auto. }
  destruct (session_text sid sid_wf) as (NE & SA & _ & _). unfold MockProofs.msend. destruct Q as [(-> & S & C)|(S & C)].
  - rewrite S. unfold MockProofs.mretry, MockProofs.mreq. unfold is_server, is_client in *. rewrite C, V. cbn [token_]. rewrite handle_sessions.
    destruct G as [->|[F E]].
    + rewrite check_valid. cbn [status_code]. change (CREATED =? UNAUTHORIZED)%Z with false. cbv iota. cbn [status_code response_text session]. change (CREATED =? CREATED)%Z with true. cbv iota. rewrite SA. apply UP; [exact I|reflexivity|reflexivity|exact C].
    + destruct (list_eq_dec ascii_dec t VALID_TOKEN) as [T|T].
      * rewrite T in C |- *. rewrite check_valid. cbn [status_code]. change (CREATED =? UNAUTHORIZED)%Z with false. cbv iota. cbn [status_code response_text session]. change (CREATED =? CREATED)%Z with true. cbv iota. rewrite SA. apply UP; [exact I|reflexivity|reflexivity|exact C].
      * rewrite check_other by assumption. cbn [refusal status_code]. change (UNAUTHORIZED =? UNAUTHORIZED)%Z with true. cbv iota. cbn [reached refreshed mock_client mock_server]. rewrite C. cbn [mock_refresh token_ refresh_]. rewrite E, handle_sessions, check_valid. cbn [status_code response_text session]. change (CREATED =? CREATED)%Z with true. cbv iota. rewrite SA. apply UP; [exact I|reflexivity|reflexivity|]. cbn [mock_client refreshed reached]. rewrite C. cbn [mock_refresh refresh_]. rewrite E. reflexivity.
  - rewrite S. destruct (UuidModel.to_string sid) as [|c rest] eqn:Z; [contradiction|]. rewrite <- Z in *. apply UP; assumption.
Qed.
Lemma run_good bodies : good -> (code = 401%Z -> eff = VALID_TOKEN) -> (N.of_nat (List.length bodies) < 2 ^ 64)%N ->
  let '(s, w) := mrun bodies start w0 in in_session s w (List.length bodies) (deliveries read copies sid 0 bodies).
Proof.
  intros G R. induction bodies as [|b bodies IH] using rev_ind; intro L.
  - cbn. split; [reflexivity|]. split; [reflexivity|]. left. split; [reflexivity|]. split; reflexivity.
  - rewrite app_length in L. cbn [List.length] in L. rewrite mrun_snoc. specialize (IH ltac:(lia)). destruct (mrun bodies start w0) as [s w]. assert (L' : (N.of_nat (List.length bodies) + 1 < 2 ^ 64)%N) by lia. destruct (send_good b s w _ _ G R L' IH) as (s1 & w1 & M & X). rewrite M. cbn [fst]. rewrite app_length. cbn [List.length]. rewrite deliveries_snoc, N.add_0_l, Nat.add_1_r. exact X.
Qed.

Definition shut_out (s : state) (w : world) : Prop := session_id s = [] /\ is_server w [] /\ exists t', is_client w t' eff /\ t' <> VALID_TOKEN /\ (t' = FORBIDDEN_TOKEN \/ eff <> VALID_TOKEN).
Lemma send_bad b s w : shut_out s w -> exists s1 w1, msend b s w = (s1, w1, no_session) /\ shut_out s1 w1.
Proof.
  intros (S & V & t' & C & N & D). unfold MockProofs.msend. rewrite S. unfold MockProofs.mretry, MockProofs.mreq. unfold is_server, is_client in *. rewrite C, V. cbn [token_]. rewrite handle_sessions.
  destruct (list_eq_dec ascii_dec t' FORBIDDEN_TOKEN) as [->|F].
  - rewrite check_forbidden. cbn. eexists. eexists. split; [reflexivity|]. split; [exact S|]. split; [reflexivity|]. exists FORBIDDEN_TOKEN. split; [exact C|]. auto.
  - destruct D as [D|D]; [contradiction|]. rewrite check_other by assumption. cbn [refusal status_code]. change (UNAUTHORIZED =? UNAUTHORIZED)%Z with true. cbv iota. cbn [reached refreshed mock_client mock_server]. rewrite C. cbn [mock_refresh token_ refresh_]. rewrite handle_sessions.
    destruct (list_eq_dec ascii_dec eff FORBIDDEN_TOKEN) as [E|E].
    + rewrite E, check_forbidden. cbn. eexists. eexists. split; [reflexivity|]. split; [exact S|]. split; [reflexivity|]. exists eff. split; [unfold is_client; cbn [mock_client refreshed reached]; rewrite C; reflexivity|]. auto.
    + rewrite check_other by assumption. cbn. eexists. eexists. split; [reflexivity|]. split; [exact S|]. split; [reflexivity|]. exists eff. split; [unfold is_client; cbn [mock_client refreshed reached]; rewrite C; reflexivity|]. auto.
Qed.
Lemma run_bad bodies : ~ good -> let '(s, w) := mrun bodies start w0 in shut_out s w.
Proof.
  intro G. induction bodies as [|b bodies IH] using rev_ind.
  - cbn. split; [reflexivity|]. split; [reflexivity|]. exists t. split; [reflexivity|]. split; [intro T; apply G; left; exact T|]. destruct (list_eq_dec ascii_dec t FORBIDDEN_TOKEN) as [T|T]; [left; exact T|]. right. intro Q. apply G. right. auto.
  - rewrite mrun_snoc. destruct (mrun bodies start w0) as [s w]. destruct (send_bad b s w IH) as (s1 & w1 & M & X). rewrite M. exact X.
Qed.
End Mock.
