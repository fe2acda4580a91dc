From Coq Require Import Ascii String NArith DecimalString DecimalN.
From Verif Require Import Cpp StatusModel ClientModel ClientSpec.

(** ** One request with its retry *)

Inductive exchange (u : url) (body : text) : list event -> outcome response -> Prop :=
| ex_no_token j r : (j = Throw /\ r = Throw) \/ (j = UB /\ r = UB) -> exchange u body [GetJwt j] r
| ex_once t r : status_code r <> UNAUTHORIZED ->
    exchange u body [GetJwt (Ok t); Post u t body r] (Ok r)
| ex_no_token2 t r j r' : status_code r = UNAUTHORIZED ->
    (j = Throw /\ r' = Throw) \/ (j = UB /\ r' = UB) ->
    exchange u body [GetJwt (Ok t); Post u t body r; Refresh; GetJwt j] r'
| ex_twice t r t' r' : status_code r = UNAUTHORIZED ->
    exchange u body [GetJwt (Ok t); Post u t body r; Refresh; GetJwt (Ok t'); Post u t' body r'] (Ok r').

Definition same_members (s s' : state) : Prop :=
  session_id s' = session_id s /\ update_id s' = update_id s.

Section Proofs.
Variable E : env.

Lemma post_retry_shape u body s s' r : post_retry E u body s = (s', r) ->
  same_members s s' /\ exists evs, trace s' = trace s ++ evs /\ exchange u body evs r.
Proof.
  unfold post_retry, post.
  destruct (jwt E (count is_jwt (trace s))) as [t| |] eqn:Ej.
  - set (rep := reply E _). destruct (status_code rep =? UNAUTHORIZED)%Z eqn:Eu.
    + apply Z.eqb_eq in Eu. set (j := jwt E (count is_jwt (trace (emit _ Refresh)))).
      clearbody rep j.
      destruct j as [t'| |];
      try (match goal with |- context [reply E ?n] => generalize (reply E n); intro rep2 end);
      intro H; injection H as <- <-;
      (split; [split; reflexivity|]); (eexists; split; [cbn [emit trace]; rewrite <- !app_assoc; reflexivity|]).
      * apply ex_twice. exact Eu.
      * apply ex_no_token2; [exact Eu|]. left; split; reflexivity.
      * apply ex_no_token2; [exact Eu|]. right; split; reflexivity.
    + apply Z.eqb_neq in Eu. clearbody rep. intro H; injection H as <- <-.
      split; [split; reflexivity|]. eexists; split; [cbn [emit trace]; rewrite <- !app_assoc; reflexivity|].
      apply ex_once. exact Eu.
  - intro H; injection H as <- <-. split; [split; reflexivity|].
    eexists; split; [reflexivity|]. apply ex_no_token. left; split; reflexivity.
  - intro H; injection H as <- <-. split; [split; reflexivity|].
    eexists; split; [reflexivity|]. apply ex_no_token. right; split; reflexivity.
Qed.

(** ** One call *)

(** The session part leaves session [sid] in use. *)
Inductive session_part (old : text) : list event -> text -> Prop :=
| sp_kept : old <> [] -> session_part old [] old
| sp_created evs r : old = [] -> exchange SessionsUrl [] evs (Ok r) -> status_code r = CREATED ->
    session_part old evs (sanitize (response_text r)).

Definition verdict (r : outcome response) : outcome status :=
  match r with
  | Ok r => Ok (if (status_code r =? CREATED)%Z then OKAY_STATUS else not_sent)
  | Throw => Throw
  | UB => UB
  end.

Inductive call (update : outcome text) (s s' : state) : list event -> outcome status -> Prop :=
| call_no_url : base_url E = [] -> s' = s -> call update s s' [] Throw
| call_no_session evs x r : session_id s = [] -> exchange SessionsUrl [] evs x ->
    (x = Throw /\ r = Throw \/ x = UB /\ r = UB \/
     exists y, x = Ok y /\ status_code y <> CREATED /\ r = Ok no_session) ->
    same_members s s' -> call update s s' evs r
| call_no_body evs r : session_part (session_id s) evs (session_id s') ->
    update_id s' = update_id s -> (update = Throw /\ r = Throw \/ update = UB /\ r = UB) ->
    call update s s' evs r
| call_upload evs1 evs2 body x : session_part (session_id s) evs1 (session_id s') ->
    update = Ok body -> update_id s' = ((update_id s + 1) mod 2 ^ 64)%N ->
    exchange (UpdateUrl (session_id s') (update_id s)) body evs2 x ->
    call update s s' (evs1 ++ evs2) (verdict x).

Lemma upload_shape update s s' r : upload E update s = (s', r) ->
  session_id s' = session_id s /\
  ((trace s' = trace s /\ update_id s' = update_id s /\
    (update = Throw /\ r = Throw \/ update = UB /\ r = UB)) \/
   exists body evs x, update = Ok body /\ trace s' = trace s ++ evs /\
     update_id s' = ((update_id s + 1) mod 2 ^ 64)%N /\
     exchange (UpdateUrl (session_id s) (update_id s)) body evs x /\ r = verdict x).
Proof.
  unfold upload. destruct update as [body| |].
  - destruct (post_retry E _ body (next_id s)) as [s1 x] eqn:Hp. intro H.
    apply post_retry_shape in Hp. destruct Hp as ((Hs & Hi) & evs & Ht & Hx).
    assert (s1 = s' /\ r = verdict x) as [<- ->].
    { destruct x; injection H as <- <-; split; reflexivity. }
    split; [exact Hs|]. right. exists body, evs, x. repeat split; assumption.
  - intro H; injection H as <- <-. split; [reflexivity|]. left. auto.
  - intro H; injection H as <- <-. split; [reflexivity|]. left. auto.
Qed.

Lemma send_shape update s s' r : send_view_update E update s = (s', r) ->
  exists evs, trace s' = trace s ++ evs /\ call update s s' evs r.
Proof.
  unfold send_view_update. destruct (base_url E) as [|b bs] eqn:Eb.
  { intro H; injection H as <- <-. exists []. rewrite app_nil_r. split; [reflexivity|].
    apply call_no_url; [exact Eb|reflexivity]. }
  assert (Hup : forall s0 evs1, trace s0 = trace s ++ evs1 ->
    session_part (session_id s) evs1 (session_id s0) -> update_id s0 = update_id s ->
    upload E update s0 = (s', r) -> exists evs, trace s' = trace s ++ evs /\ call update s s' evs r).
  { intros s0 evs1 Ht Hsp Hid H. apply upload_shape in H. destruct H as [Hs H].
    rewrite <- Hs in Hsp.
    destruct H as [(Ht' & Hi & Hr)|(body & evs & x & Hu & Ht' & Hi & Hx & ->)].
    - exists evs1. split; [congruence|]. eapply call_no_body; try eassumption. congruence.
    - exists (evs1 ++ evs). split; [rewrite Ht', Ht, app_assoc; reflexivity|].
      eapply call_upload; try eassumption; rewrite <- ?Hid; try rewrite Hs; assumption. }
  destruct (session_id s) as [|c cs] eqn:Es.
  - destruct (post_retry E SessionsUrl [] s) as [s1 x] eqn:Hp.
    apply post_retry_shape in Hp. destruct Hp as (Hm & evs & Ht & Hx).
    destruct x as [y| |].
    + destruct (status_code y =? CREATED)%Z eqn:Ec.
      * apply Z.eqb_eq in Ec. intro H. eapply (Hup (with_session s1 _)); [exact Ht| |apply Hm|exact H].
        cbn [session_id with_session]. eapply sp_created; [reflexivity|eassumption|exact Ec].
      * apply Z.eqb_neq in Ec. intro H; injection H as <- <-. exists evs. split; [exact Ht|].
        eapply call_no_session; try eassumption. right; right. exists y. auto.
    + intro H; injection H as <- <-. exists evs. split; [exact Ht|].
      eapply call_no_session; try eassumption. auto.
    + intro H; injection H as <- <-. exists evs. split; [exact Ht|].
      eapply call_no_session; try eassumption. auto.
  - intro H. apply (Hup s []); try assumption.
    + rewrite app_nil_r. reflexivity.
    + rewrite Es. apply sp_kept. discriminate.
    + reflexivity.
Qed.

(** ** Numbering *)

Lemma uploads_app a b : uploads (a ++ b) = uploads a ++ uploads b.
Proof.
  induction a as [|e a IH]; [reflexivity|].
  destruct e as [j| |[|sid id] t body r]; cbn; rewrite IH; reflexivity.
Qed.

Lemma uploads_exchange_session body evs r : exchange SessionsUrl body evs r -> uploads evs = [].
Proof. destruct 1; reflexivity. Qed.

Lemma uploads_exchange sid id body evs r : exchange (UpdateUrl sid id) body evs r ->
  exists n, n <= 2 /\ uploads evs = repeat (sid, id, body) n.
Proof.
  destruct 1; [exists 0|exists 1|exists 1|exists 2]; (split; [lia|reflexivity]).
Qed.

Lemma uploads_session_part old evs sid : session_part old evs sid -> uploads evs = [].
Proof. destruct 1; [reflexivity|]. eapply uploads_exchange_session; eassumption. Qed.

Lemma numbered_snoc from atts sid body n :
  numbered from (atts ++ [(sid, body, n)]) =
  numbered from atts ++ repeat (sid, (from + N.of_nat (List.length atts))%N, body) n.
Proof.
  revert from. induction atts as [|[[a b] m] atts IH]; intro from.
  - cbn. rewrite N.add_0_r, app_nil_r. reflexivity.
  - cbn [app numbered List.length]. rewrite IH, app_assoc.
    replace (from + 1 + N.of_nat (List.length atts))%N
      with (from + N.of_nat (S (List.length atts)))%N by lia. reflexivity.
Qed.

Lemma sublist_skip_end {A} (x : A) xs ys : sublist xs ys -> sublist xs (ys ++ [x]).
Proof. induction 1; cbn; try (constructor; assumption). constructor. constructor. Qed.
Lemma sublist_take_end {A} (x : A) xs ys : sublist xs ys -> sublist (xs ++ [x]) (ys ++ [x]).
Proof. induction 1; cbn; [apply sub_take, sub_nil|apply sub_skip|apply sub_take]; assumption. Qed.

Lemma run_snoc us u s : run E (us ++ [u]) s = fst (send_view_update E u (run E us s)).
Proof. revert s. induction us as [|v us IH]; intro s; [reflexivity|]. cbn. apply IH. Qed.

Lemma numbering us : (N.of_nat (List.length us) < 2 ^ 64)%N ->
  exists atts, uploads (trace (run E us start)) = numbered 0 atts /\
    update_id (run E us start) = N.of_nat (List.length atts) /\
    (forall sid body n, In (sid, body, n) atts -> n <= 2) /\
    sublist (map (fun a => Ok (snd (fst a))) atts) us /\ List.length atts <= List.length us.
Proof.
  induction us as [|u us IH] using rev_ind; intro Hlen.
  { exists []. cbn. repeat split; try lia; try constructor; try (intros ? ? ? []). }
  rewrite app_length in Hlen. cbn [List.length] in Hlen.
  destruct IH as (atts & Hu & Hid & Hn & Hsub & Hle); [lia|].
  rewrite run_snoc. set (s := run E us start) in *.
  destruct (send_view_update E u s) as [s' r] eqn:H. cbn [fst].
  apply send_shape in H. destruct H as (evs & Ht & Hc).
  assert (Hsame : uploads evs = [] -> update_id s' = update_id s ->
    exists atts, uploads (trace s') = numbered 0 atts /\
    update_id s' = N.of_nat (List.length atts) /\
    (forall sid body n, In (sid, body, n) atts -> n <= 2) /\
    sublist (map (fun a => Ok (snd (fst a))) atts) (us ++ [u]) /\
    List.length atts <= List.length (us ++ [u])).
  { intros He Hi. exists atts. rewrite Ht, uploads_app, He, app_nil_r, app_length. cbn.
    repeat split; try assumption; try congruence; try lia. apply sublist_skip_end, Hsub. }
  destruct Hc as [|evs x r Hs Hx Hr Hm|evs r Hsp Hi Hr|evs1 evs2 body x Hsp Hb Hi Hx].
  - apply Hsame; [reflexivity|congruence].
  - apply Hsame; [eapply uploads_exchange_session; eassumption|apply Hm].
  - apply Hsame; [eapply uploads_session_part; eassumption|exact Hi].
  - apply uploads_exchange in Hx. destruct Hx as (n & Hn2 & He).
    exists (atts ++ [(session_id s', body, n)]).
    rewrite Ht, !uploads_app, (uploads_session_part _ _ _ Hsp), He, numbered_snoc, Hu.
    rewrite !app_length, map_app. cbn [List.length map fst snd app].
    split; [rewrite Hid; reflexivity|]. split; [rewrite Hi, Hid, N.mod_small; lia|].
    split; [|split; [|lia]].
    + intros sid b m Hin. apply in_app_or in Hin. destruct Hin as [Hin|[Heq|[]]]; [eauto|].
      injection Heq as _ _ <-. exact Hn2.
    + subst u. apply sublist_take_end, Hsub.
Qed.

End Proofs.

(** What the numbering means for two posts. *)
Lemma numbered_ge from atts sid id body : In (sid, id, body) (numbered from atts) -> (from <= id)%N.
Proof.
  revert from. induction atts as [|[[a b] n] atts IH]; intros from H; [destruct H|].
  cbn in H. apply in_app_or in H. destruct H as [H|H].
  - apply repeat_spec in H. injection H as _ -> _. lia.
  - apply IH in H. lia.
Qed.

Lemma nth_repeat_eq {A} (x y : A) n i : nth_error (repeat x n) i = Some y -> y = x /\ i < n.
Proof.
  intro H. split; [apply nth_error_In, repeat_spec in H; exact H|].
  apply nth_error_Some_bound_index in H || (assert (nth_error (repeat x n) i <> None) as Hn by congruence;
  apply nth_error_Some in Hn; rewrite repeat_length in Hn; exact Hn).
Qed.

Lemma numbered_order from atts i j p q :
  (forall sid body n, In (sid, body, n) atts -> n <= 2) -> i < j ->
  nth_error (numbered from atts) i = Some p -> nth_error (numbered from atts) j = Some q ->
  (snd (fst p) < snd (fst q))%N \/ (p = q /\ j = S i).
Proof.
  revert from i j. induction atts as [|[[a b] n] atts IH]; intros from i j Hn Hij Hi Hj.
  { destruct i; discriminate. }
  cbn [numbered] in *. assert (Hn2 : n <= 2) by (eapply Hn; left; reflexivity).
  destruct (Nat.lt_ge_cases i n) as [Hin|Hin].
  - rewrite nth_error_app1 in Hi by (rewrite repeat_length; exact Hin).
    apply nth_repeat_eq in Hi. destruct Hi as [-> _].
    destruct (Nat.lt_ge_cases j n) as [Hjn|Hjn].
    + rewrite nth_error_app1 in Hj by (rewrite repeat_length; exact Hjn).
      apply nth_repeat_eq in Hj. destruct Hj as [-> _]. right. split; [reflexivity|lia].
    + rewrite nth_error_app2 in Hj by (rewrite repeat_length; exact Hjn).
      apply nth_error_In in Hj. destruct q as [[sq iq] bq]. apply numbered_ge in Hj.
      left. cbn. lia.
  - rewrite nth_error_app2 in Hi, Hj by (rewrite repeat_length; lia).
    rewrite repeat_length in *.
    assert (Hn' : forall sid body m, In (sid, body, m) atts -> m <= 2).
    { intros sid body m Hm. eapply Hn. right. exact Hm. }
    destruct (IH (from + 1)%N (i - n) (j - n) Hn' ltac:(lia) Hi Hj) as [H|[H1 H2]].
    + left. exact H.
    + right. split; [exact H1|lia].
Qed.

Lemma upload_order E us i j p q : (N.of_nat (List.length us) < 2 ^ 64)%N -> i < j ->
  nth_error (uploads (trace (run E us start))) i = Some p ->
  nth_error (uploads (trace (run E us start))) j = Some q ->
  (snd (fst p) < snd (fst q))%N \/ (p = q /\ j = S i).
Proof.
  intros Hl Hij Hi Hj. destruct (numbering E us Hl) as (atts & Hu & _ & Hn & _).
  rewrite Hu in *. eapply numbered_order; eassumption.
Qed.

(** ** URLs *)

Lemma list_ascii_inj a b : list_ascii_of_string a = list_ascii_of_string b -> a = b.
Proof.
  intro H. rewrite <- (string_of_list_ascii_of_string a), <- (string_of_list_ascii_of_string b).
  congruence.
Qed.

Lemma to_string_inj m n : to_string m = to_string n -> m = n.
Proof.
  intro H. apply list_ascii_inj in H.
  assert (X : N.to_uint m = N.to_uint n).
  { apply (f_equal NilEmpty.uint_of_string) in H. rewrite !NilEmpty.usu in H. congruence. }
  rewrite <- (DecimalN.Unsigned.of_to m), <- (DecimalN.Unsigned.of_to n). congruence.
Qed.

Lemma url_text_inj base sid m n :
  url_text base (UpdateUrl sid m) = url_text base (UpdateUrl sid n) -> m = n.
Proof.
  unfold url_text. intro H. do 5 apply app_inv_head in H. apply to_string_inj, H.
Qed.

(** ** Sessions *)

(** Bookkeeping an observer of the requests can do: the reply text of the latest
    created session. *)
Definition observe (cur : option text) (e : event) : option text :=
  match e with
  | Post SessionsUrl _ _ r => if (status_code r =? CREATED)%Z then Some (response_text r) else cur
  | _ => cur
  end.
Definition current (tr : list event) : option text := fold_left observe tr None.

Definition in_use (cur : option text) : text :=
  match cur with Some t => sanitize t | None => [] end.

Definition allowed (cur : option text) (e : event) : Prop :=
  match e with
  | Post SessionsUrl _ _ _ => in_use cur = []
  | Post (UpdateUrl sid _) _ _ _ => exists t, cur = Some t /\ sid = sanitize t
  | _ => True
  end.

Fixpoint wf (cur : option text) (tr : list event) : Prop :=
  match tr with
  | [] => True
  | e :: tr => allowed cur e /\ wf (observe cur e) tr
  end.

Lemma wf_app cur a b : wf cur (a ++ b) <-> wf cur a /\ wf (fold_left observe a cur) b.
Proof.
  revert cur. induction a as [|e a IH]; intro cur; cbn; [tauto|]. rewrite IH. tauto.
Qed.

Lemma wf_session_exchange cur evs r : in_use cur = [] -> exchange SessionsUrl [] evs r ->
  wf cur evs /\
  fold_left observe evs cur =
    match r with
    | Ok y => if (status_code y =? CREATED)%Z then Some (response_text y) else cur
    | _ => cur
    end.
Proof.
  intros Hc H.
  assert (Hun : forall y : response, status_code y = UNAUTHORIZED -> (status_code y =? CREATED)%Z = false).
  { intros y Hy. apply Z.eqb_neq. rewrite Hy. discriminate. }
  destruct H as [j r H|t r H|t r j r' H H'|t r t' r' H]; cbn; try rewrite (Hun _ H); try tauto.
  - split; [tauto|]. destruct H as [[_ ->]|[_ ->]]; reflexivity.
  - split; [tauto|]. destruct H' as [[_ ->]|[_ ->]]; reflexivity.
Qed.

Lemma wf_upload_exchange cur t id body evs r : cur = Some t ->
  exchange (UpdateUrl (sanitize t) id) body evs r ->
  wf cur evs /\ fold_left observe evs cur = cur.
Proof.
  intros -> H. destruct H; cbn; (split; [|reflexivity]); repeat split; try (exists t; auto).
Qed.

Definition good (s : state) : Prop :=
  wf None (trace s) /\ session_id s = in_use (current (trace s)).

Lemma good_step E u s : good s -> good (fst (send_view_update E u s)).
Proof.
  intros [Hw Hs]. destruct (send_view_update E u s) as [s' r] eqn:H. cbn [fst].
  apply send_shape in H. destruct H as (evs & Ht & Hc). unfold good, current in *.
  rewrite Ht, wf_app, fold_left_app. set (cur := fold_left observe (trace s) None) in *.
  destruct Hc as [_ Hss|evs x r Hs0 Hx Hr Hm|evs r Hsp Hi Hr|evs1 evs2 body x Hsp Hb Hi Hx].
  - subst s'. cbn. auto.
  - destruct (wf_session_exchange cur evs x) as [W O]; [congruence|exact Hx|].
    split; [auto|]. rewrite O. destruct Hm as [-> _]. rewrite Hs.
    destruct Hr as [[-> _]|[[-> _]|(y & -> & Hy & _)]]; try reflexivity.
    apply Z.eqb_neq in Hy. rewrite Hy. reflexivity.
  - destruct Hsp as [Hk|evs y H0 Hx Hy].
    + cbn. auto.
    + destruct (wf_session_exchange cur evs (Ok y)) as [W O]; [congruence|exact Hx|].
      split; [auto|]. rewrite O, Hy. reflexivity.
  - rewrite wf_app, fold_left_app.
    destruct Hsp as [Hk|evs y H0 Hx1 Hy].
    + cbn [fold_left wf]. destruct cur as [t|]; cbn [in_use] in Hs; [|congruence].
      rewrite Hs in *. destruct (wf_upload_exchange (Some t) t _ _ _ _ eq_refl Hx) as [W O].
      rewrite O. repeat split; auto.
    + destruct (wf_session_exchange cur evs (Ok y)) as [W O]; [congruence|exact Hx1|].
      rewrite Hy in O. cbn in O. rewrite O.
      destruct (wf_upload_exchange (Some (response_text y)) _ _ _ _ _ eq_refl Hx) as [W2 O2].
      rewrite O2. repeat split; auto.
Qed.

Lemma good_run E us : forall s, good s -> good (run E us s).
Proof. induction us as [|u us IH]; intros s H; [exact H|]. cbn. apply IH, good_step, H. Qed.

Lemma good_start : good start.
Proof. split; [exact I|reflexivity]. Qed.

Lemma current_spec tr t : current tr = Some t -> exists pre e post, tr = pre ++ e :: post /\
  session_created e t /\ forall e', In e' post -> forall t', ~ session_created e' t'.
Proof.
  unfold current. induction tr as [|e tr IH] using rev_ind; [discriminate|].
  rewrite fold_left_app. cbn.
  assert (Hno : (forall t', ~ session_created e t') -> fold_left observe tr None = Some t ->
    exists pre e0 post, tr ++ [e] = pre ++ e0 :: post /\ session_created e0 t /\
      forall e', In e' post -> forall t', ~ session_created e' t').
  { intros Hn H. apply IH in H. destruct H as (pre & e0 & post & -> & Hc & Hp).
    exists pre, e0, (post ++ [e]). rewrite <- app_assoc. repeat split; [exact Hc|].
    intros e' Hin. apply in_app_or in Hin. destruct Hin as [Hin|[<-|[]]]; auto. }
  destruct e as [j| |[|sid id] b bd r]; cbn; intro H.
  1,2,4: apply Hno; [|exact H]; intros t' (x1 & x2 & x3 & X & _); discriminate.
  destruct (status_code r =? CREATED)%Z eqn:Ec.
  - apply Z.eqb_eq in Ec. injection H as <-. exists tr, (Post SessionsUrl b bd r), [].
    repeat split; [exists b, bd, r; auto|]. intros e' [].
  - apply Z.eqb_neq in Ec. apply Hno; [|exact H].
    intros t' (x1 & x2 & x3 & X & X' & _). injection X as <- <- <-. apply Ec, X'.
Qed.

Lemma sanitize_stripped t : stripped t (sanitize t).
Proof.
  unfold stripped, sanitize. split.
  - intros c H. apply filter_In in H as [H H1]. apply filter_In in H as [_ H2].
    split; intros ->; discriminate.
  - exists (map (fun c => negb (Ascii.eqb c quote) && negb (Ascii.eqb c newline)) t).
    split; [apply map_length|]. split.
    + induction t as [|c t IH]; [reflexivity|]. cbn [filter map combine snd].
      destruct (Ascii.eqb c quote); cbn [negb andb filter].
      * exact IH.
      * destruct (Ascii.eqb c newline); cbn [negb]; [exact IH|]. cbn. f_equal. exact IH.
    + intros c H. induction t as [|d t IH]; [destruct H|]. cbn [map combine] in H.
      destruct H as [H|H]; [|auto]. injection H as -> H.
      destruct (Ascii.eqb_spec c quote) as [Hq|_]; [left; exact Hq|].
      destruct (Ascii.eqb_spec c newline) as [Hn|_]; [right; exact Hn|discriminate].
Qed.

Lemma upload_uses_session E us pre post sid id bearer body r :
  trace (run E us start) = pre ++ Post (UpdateUrl sid id) bearer body r :: post ->
  exists pre1 e pre2 t, pre = pre1 ++ e :: pre2 /\ session_created e t /\
    (forall e', In e' pre2 -> forall t', ~ session_created e' t') /\ stripped t sid.
Proof.
  intro H. destruct (good_run E us _ good_start) as [Hw _]. rewrite H in Hw.
  apply wf_app in Hw. destruct Hw as [_ [(t & Hc & ->) _]].
  apply current_spec in Hc. destruct Hc as (pre1 & e & pre2 & -> & He & Hn).
  exists pre1, e, pre2, t. split; [reflexivity|]. split; [assumption|]. split; [assumption|apply sanitize_stripped].
Qed.

Lemma one_session E us pre e post t : trace (run E us start) = pre ++ e :: post ->
  session_created e t -> (exists c, In c t /\ c <> ascii_of_nat 34 /\ c <> ascii_of_nat 10) ->
  forall e', In e' post -> ~ session_post e'.
Proof.
  intros H (b & bd & r & -> & Hr & <-) (c & Hc & Hq & Hn).
  destruct (good_run E us _ good_start) as [Hw _]. rewrite H in Hw.
  apply wf_app in Hw. destruct Hw as [_ [_ Hw]].
  cbn [observe] in Hw. rewrite Hr in Hw. cbn in Hw.
  assert (Hs : sanitize (response_text r) <> []).
  { intro Hs. assert (Hin : In c (sanitize (response_text r))).
    { unfold sanitize. rewrite !filter_In. repeat split; [exact Hc| |];
      apply negb_true_iff, Ascii.eqb_neq; assumption. }
    rewrite Hs in Hin. destruct Hin. }
  clear H. set (cur := Some (response_text r)) in *.
  assert (Hcur : in_use cur <> []) by exact Hs. clearbody cur. clear Hs Hc.
  revert cur Hw Hcur. induction post as [|e1 post IH]; intros cur Hw Hcur e' Hin; [destruct Hin|].
  cbn [wf] in Hw. destruct Hw as [Ha Hw].
  assert (Hns : ~ session_post e1).
  { intros (x & y & z & ->). cbn in Ha. contradiction. }
  destruct Hin as [<-|Hin]; [exact Hns|]. apply (IH (observe cur e1)); try assumption.
  destruct e1 as [j| |[|sid id] x y z]; cbn; try exact Hcur.
  exfalso. apply Hns. exists x, y, z. reflexivity.
Qed.

(** ** Effort and verdict of a call *)

Lemma exchange_effort u body evs r : exchange u body evs r ->
  count is_post evs <= 2 /\ count is_refresh evs <= 1.
Proof. destruct 1; cbn; lia. Qed.

Lemma count_app p a b : count p (a ++ b) = count p a + count p b.
Proof. unfold count. rewrite filter_app, app_length. reflexivity. Qed.

Lemma call_effort E u s s' r : send_view_update E u s = (s', r) ->
  exists evs, trace s' = trace s ++ evs /\ count is_post evs <= 4 /\ count is_refresh evs <= 2.
Proof.
  intro H. apply send_shape in H. destruct H as (evs & Ht & Hc). exists evs. split; [exact Ht|].
  assert (Hsp : forall old evs sid, session_part old evs sid ->
    count is_post evs <= 2 /\ count is_refresh evs <= 1).
  { intros old l sid [|l' y _ Hx _]; [cbn; lia|]. eapply exchange_effort; eassumption. }
  destruct Hc as [_ Hss|evs x r Hs0 Hx Hr Hm|evs r H Hi Hr|evs1 evs2 body x H Hb Hi Hx].
  - cbn; lia.
  - apply exchange_effort in Hx. lia.
  - apply Hsp in H. lia.
  - apply Hsp in H. apply exchange_effort in Hx. rewrite !count_app. lia.
Qed.

Lemma exchange_last u body evs r y : exchange u body evs r -> r = Ok y ->
  exists pre t, evs = pre ++ [Post u t body y].
Proof.
  intros H Hr. destruct H as [j r H|t r H|t r j r' H H'|t r t' r' H].
  - destruct H as [[_ ->]|[_ ->]]; discriminate.
  - injection Hr as <-. exists [GetJwt (Ok t)], t. reflexivity.
  - destruct H' as [[_ ->]|[_ ->]]; discriminate.
  - injection Hr as <-. eexists [_; _; _; _], t'. reflexivity.
Qed.

Lemma exchange_no_reply u body evs r : exchange u body evs r -> (forall y, r <> Ok y) ->
  forall pre v t b y, evs <> pre ++ [Post v t b y].
Proof.
  intros H Hr pre v t b y Heq.
  destruct H as [j r H|t' r H|t' r j r' H H'|t' r t2 r' H].
  - change [GetJwt j] with ([] ++ [GetJwt j]) in Heq. apply app_inj_tail in Heq as [_ X]. discriminate.
  - eapply Hr; reflexivity.
  - change [GetJwt (Ok t'); Post u t' body r; Refresh; GetJwt j]
      with ([GetJwt (Ok t'); Post u t' body r; Refresh] ++ [GetJwt j]) in Heq.
    apply app_inj_tail in Heq as [_ X]. discriminate.
  - eapply Hr; reflexivity.
Qed.

Lemma exchange_nonempty u body evs r : exchange u body evs r -> evs <> [].
Proof. destruct 1; discriminate. Qed.

Lemma app_last_eq {A} (a b : list A) pre x : b <> [] -> a ++ b = pre ++ [x] ->
  exists pre', b = pre' ++ [x].
Proof.
  intros Hb H. destruct (exists_last Hb) as (b' & y & ->). rewrite app_assoc in H.
  apply app_inj_tail in H. destruct H as [_ ->]. exists b'. reflexivity.
Qed.

Lemma session_exchange_not_upload body evs r : exchange SessionsUrl body evs r ->
  ~ last_upload_created evs.
Proof.
  intros H (pre & sid & id & b & bd & y & Heq & _).
  assert (Hin : In (Post (UpdateUrl sid id) b bd y) evs) by (rewrite Heq; apply in_or_app; right; left; reflexivity).
  destruct H; cbn in Hin; repeat (destruct Hin as [Hin|Hin]; [discriminate|]); exact Hin.
Qed.

Lemma call_verdict E u s s' r evs : send_view_update E u s = (s', r) ->
  trace s' = trace s ++ evs -> (r = Ok OKAY_STATUS <-> last_upload_created evs).
Proof.
  intros H Ht0. apply send_shape in H. destruct H as (evs0 & Ht & Hc).
  rewrite Ht0 in Ht. apply app_inv_head in Ht. subst evs0.
  destruct Hc as [_ Hss|evs x r Hs0 Hx Hr Hm|evs r Hsp Hi Hr|evs1 evs2 body x Hsp Hb Hi Hx].
  - split; [discriminate|]. intros (pre & a1 & a2 & a3 & a4 & a5 & X & _). destruct pre; discriminate.
  - split.
    + intros ->. destruct Hr as [[_ X]|[[_ X]|(y & _ & _ & X)]]; discriminate.
    + intro X. exfalso. eapply session_exchange_not_upload; eassumption.
  - split.
    + intros ->. destruct Hr as [[_ X]|[_ X]]; discriminate.
    + intro X. exfalso. destruct Hsp as [|evs y _ Hx _].
      * destruct X as (pre & a1 & a2 & a3 & a4 & a5 & X & _). destruct pre; discriminate.
      * eapply session_exchange_not_upload; eassumption.
  - destruct x as [y| |]; cbn [verdict].
    + destruct (exchange_last _ _ _ _ y Hx eq_refl) as (pre & t & ->).
      split.
      * intro X. exists (evs1 ++ pre), (session_id s'), (update_id s), t, body, y.
        split; [rewrite app_assoc; reflexivity|].
        destruct (status_code y =? CREATED)%Z eqn:Ec; [apply Z.eqb_eq in Ec; exact Ec|discriminate].
      * intros (pre' & a1 & a2 & a3 & a4 & a5 & X & Hc). rewrite app_assoc in X.
        apply app_inj_tail in X. destruct X as [_ X]. injection X as _ _ _ _ <-.
        unfold CREATED. rewrite Hc. reflexivity.
    + split; [discriminate|]. intros (pre' & a1 & a2 & a3 & a4 & a5 & X & Hc). exfalso.
      apply app_last_eq in X; [|eapply exchange_nonempty; eassumption]. destruct X as [p' X].
      eapply (exchange_no_reply _ _ _ _ Hx); [discriminate|exact X].
    + split; [discriminate|]. intros (pre' & a1 & a2 & a3 & a4 & a5 & X & Hc). exfalso.
      apply app_last_eq in X; [|eapply exchange_nonempty; eassumption]. destruct X as [p' X].
      eapply (exchange_no_reply _ _ _ _ Hx); [discriminate|exact X].
Qed.

Lemma string_assoc (a b c : string) : (a ++ (b ++ c) = (a ++ b) ++ c)%string.
Proof. induction a as [|x a IH]; cbn; [reflexivity|rewrite IH; reflexivity]. Qed.
Lemma call_failure E u s s' st evs : send_view_update E u s = (s', Ok st) ->
  trace s' = trace s ++ evs -> ok st = false ->
  exists pre v b body r, evs = pre ++ [Post v b body r] /\ status_code r <> 201%Z /\
    ends_with (what st) (match v with SessionsUrl => "Could not create session." | UpdateUrl _ _ => "Could not send view update." end).
Proof.
  intros H Ht0 K. apply send_shape in H. destruct H as (evs0 & Ht & Hc).
  rewrite Ht0 in Ht. apply app_inv_head in Ht. subst evs0. remember (Ok st) as o eqn:Eo.
  destruct Hc as [_ Hss|evs x r Hs0 Hx Hr Hm|evs r Hsp Hi Hr|evs1 evs2 body x Hsp Hb Hi Hx].
  - discriminate.
  - subst r. destruct Hr as [[_ X]|[[_ X]|(y & -> & N & X)]]; try discriminate. injection X as ->.
    destruct (exchange_last _ _ _ _ y Hx eq_refl) as (pre & t & ->). do 5 eexists. split; [reflexivity|]. split; [exact N|].
    eexists. unfold no_session, make_at_line, what. rewrite !string_assoc. reflexivity.
  - subst r. destruct Hr as [[_ X]|[_ X]]; discriminate.
  - destruct x as [y| |]; cbn [verdict] in Eo; try discriminate. injection Eo as Eo.
    destruct (exchange_last _ _ _ _ y Hx eq_refl) as (pre & t & ->).
    destruct (status_code y =? CREATED)%Z eqn:Ec; [subst st; discriminate|]. apply Z.eqb_neq in Ec.
    exists (evs1 ++ pre). do 4 eexists. split; [rewrite <- app_assoc; reflexivity|]. split; [exact Ec|]. subst st.
    eexists. unfold not_sent, make_at_line, what. rewrite !string_assoc. reflexivity.
Qed.

(** A retry happens only after an unauthorized reply and a refresh, with the same
    request and a token asked for afterwards. *)
Lemma exchange_split u body evs r : exchange u body evs r ->
  forall pre v b bd y post, evs = pre ++ Post v b bd y :: post ->
  v = u /\ bd = body /\ exists pre', pre = pre' ++ [GetJwt (Ok b)].
Proof.
  intros H pre v b bd y post Heq.
  assert (G : forall pre2 post2, evs = pre2 ++ Post v b bd y :: post2 -> pre2 = pre -> True) by auto.
  clear G. destruct H;
  repeat (destruct pre as [|? pre]; cbn in Heq; [injection Heq; intros; subst; try discriminate
    |injection Heq; clear Heq; intros Heq ?; subst]); try discriminate;
  try (destruct pre; discriminate);
  (split; [reflexivity|split; [reflexivity|]]);
  first [exists []; reflexivity | eexists [_; _; _]; reflexivity].
Qed.

Definition bearer_fresh (tr : list event) : Prop :=
  forall pre v b bd y post, tr = pre ++ Post v b bd y :: post ->
  exists pre', pre = pre' ++ [GetJwt (Ok b)].

Lemma bearer_app a b : bearer_fresh a -> bearer_fresh b -> bearer_fresh (a ++ b).
Proof.
  intros Ha Hb pre v t bd y post H.
  apply app_eq_app in H. destruct H as (l & [[H1 H2]|[H1 H2]]).
  - destruct l as [|e l].
    + cbn in H2. symmetry in H2. apply (Hb []) in H2. destruct H2 as [p H2].
      destruct p; discriminate.
    + injection H2 as <- H2. eapply Ha. exact H1.
  - apply Hb in H2. destruct H2 as [p ->]. exists (a ++ p). rewrite H1, app_assoc. reflexivity.
Qed.

Lemma bearer_run E us : bearer_fresh (trace (run E us start)).
Proof.
  induction us as [|u us IH] using rev_ind.
  { intros pre v b bd y post H. destruct pre; discriminate. }
  rewrite run_snoc. set (s := run E us start) in *.
  destruct (send_view_update E u s) as [s' r] eqn:H. cbn [fst].
  apply send_shape in H. destruct H as (evs & -> & Hc). apply bearer_app; [exact IH|].
  assert (Hx : forall u b l r, exchange u b l r -> bearer_fresh l).
  { intros v b l x H pre w t bd y post Hl. apply (exchange_split _ _ _ _ H) in Hl. apply Hl. }
  assert (Hn : bearer_fresh []).
  { intros pre v b bd y post H. destruct pre; discriminate. }
  assert (Hsp : forall old l sid, session_part old l sid -> bearer_fresh l).
  { intros old l sid [|l' y _ H _]; eauto. }
  destruct Hc; eauto. apply bearer_app; eauto.
Qed.

(** Update numbers in URLs. *)
Lemma digits_of_uint u : forall c, In c (list_ascii_of_string (NilEmpty.string_of_uint u)) -> digit c.
Proof.
  induction u; cbn; intros c H; [contradiction|destruct H as [<-|H]; [vm_compute; split; discriminate|auto]..].
Qed.
Lemma value_acc u p :
  fold_left (fun n c => (10 * n + (N_of_ascii c - 48))%N) (list_ascii_of_string (NilEmpty.string_of_uint u)) (Npos p)
  = Npos (Pos.of_uint_acc u p).
Proof.
  revert p. induction u as [|u IH|u IH|u IH|u IH|u IH|u IH|u IH|u IH|u IH|u IH]; intro p; [reflexivity|..];
    cbn [NilEmpty.string_of_uint list_ascii_of_string fold_left Pos.of_uint_acc]; rewrite <- IH; f_equal;
    match goal with |- context [N_of_ascii ?c] => let v := eval vm_compute in (N_of_ascii c) in change (N_of_ascii c) with v end;
    lia.
Qed.
Lemma value_uint u : number (list_ascii_of_string (NilEmpty.string_of_uint u)) = N.of_uint u.
Proof.
  unfold number, N.of_uint.
  induction u as [|u IH|u IH|u IH|u IH|u IH|u IH|u IH|u IH|u IH|u IH]; [reflexivity|exact IH|..];
    cbn [NilEmpty.string_of_uint list_ascii_of_string fold_left Pos.of_uint];
    match goal with |- context [N_of_ascii ?c] => let v := eval vm_compute in (10 * 0 + (N_of_ascii c - 48))%N in
      change (10 * 0 + (N_of_ascii c - 48))%N with v end; apply value_acc.
Qed.
Lemma url_form base sid id : exists ds,
  url_text base (UpdateUrl sid id) =
    base ++ list_ascii_of_string "/view/sessions/" ++ sid ++ list_ascii_of_string "/updates/" ++ ds /\
  Forall digit ds /\ number ds = id /\
  url_text base SessionsUrl = base ++ list_ascii_of_string "/view/sessions".
Proof.
  exists (to_string id). split; [|split; [|split]].
  - unfold url_text.
    replace (list_ascii_of_string "/view/sessions/")
      with (list_ascii_of_string "/view/sessions" ++ list_ascii_of_string "/") by reflexivity.
    rewrite !app_assoc. reflexivity.
  - apply Forall_forall, digits_of_uint.
  - unfold to_string. rewrite value_uint. apply Unsigned.of_to.
  - unfold url_text. rewrite app_nil_r. reflexivity.
Qed.

(** Refreshing. *)
Lemma exchange_request u body evs r : exchange u body evs r -> one_request evs.
Proof.
  destruct 1 as [j r H|t r H|t r j r' H H'|t r t' r' H].
  - apply req_no_token. intros t ->. destruct H as [[H _]|[H _]]; discriminate H.
  - apply req_once, H.
  - apply req_no_token_again; [exact H|]. intros t' ->. destruct H' as [[H' _]|[H' _]]; discriminate H'.
  - apply req_twice, H.
Qed.
Lemma requests_run E us : exists parts, trace (run E us start) = concat parts /\ Forall one_request parts /\ List.length parts <= 2 * List.length us.
Proof.
  induction us as [|u us (parts & IH & Hp & Hl)] using rev_ind; [exists []; repeat split; auto|].
  rewrite run_snoc. set (s := run E us start) in *.
  destruct (send_view_update E u s) as [s' r] eqn:H. cbn [fst].
  apply send_shape in H. destruct H as (evs & -> & Hc).
  assert (G : exists more, evs = concat more /\ Forall one_request more /\ List.length more <= 2).
  { assert (Hsp : forall old l sid, session_part old l sid -> exists more, l = concat more /\ Forall one_request more /\ List.length more <= 1).
    { intros old l sid [|l' y _ H _]; [exists []; repeat split; auto|]. exists [l']. cbn. rewrite app_nil_r. repeat split; auto.
      apply Forall_cons; [|apply Forall_nil]. eapply exchange_request; eassumption. }
    destruct Hc as [_ _|evs x r _ H _ _|evs r H _ _|evs1 evs2 body x H _ _ H'].
    - exists []. repeat split; auto.
    - exists [evs]. cbn. rewrite app_nil_r. repeat split; auto. apply Forall_cons; [|apply Forall_nil]. eapply exchange_request; eassumption.
    - destruct (Hsp _ _ _ H) as (m & A & B & C). exists m. repeat split; auto.
    - destruct (Hsp _ _ _ H) as (m & A & B & C). exists (m ++ [evs2]). rewrite concat_app, A, app_length. cbn. rewrite app_nil_r.
      split; [reflexivity|]. split; [|lia]. apply Forall_app. split; [exact B|]. apply Forall_cons; [|apply Forall_nil]. eapply exchange_request; eassumption. }
  destruct G as (more & -> & Hm & Hn). exists (parts ++ more). rewrite concat_app, IH, !app_length. cbn.
  split; [reflexivity|]. split; [apply Forall_app; auto|lia].
Qed.
