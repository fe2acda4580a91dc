From Verif Require Import Cpp AuthModel AuthSpec.

Section Proofs.
Variable E : env.

Lemma posts_app a b : posts (a ++ b) = posts a + posts b.
Proof. unfold posts. rewrite filter_app, app_length. reflexivity. Qed.
Lemma clocks_app a b : clocks (a ++ b) = clocks a + clocks b.
Proof. unfold clocks. rewrite filter_app, app_length. reflexivity. Qed.
Lemma posts_rounds k i : posts (rounds k i) = k.
Proof. induction k as [|k IH]; [reflexivity|]. cbn [rounds]. rewrite posts_app, IH. reflexivity. Qed.
Lemma clocks_rounds k i : clocks (rounds k i) = k.
Proof. induction k as [|k IH]; [reflexivity|]. cbn [rounds]. rewrite clocks_app, IH. reflexivity. Qed.

(** What the polling loop does. *)
Definition pending (T : Z) (c p k : nat) : Prop :=
  forall i, i < k -> (clock E (c + i) < T)%Z /\
    exists r, poll E (p + i) = Some r /\ pa_has_error r = true.

Lemma pending_S T c p k :
  (clock E c < T)%Z -> (exists r, poll E p = Some r /\ pa_has_error r = true) ->
  pending T (S c) (S p) k -> pending T c p (S k).
Proof.
  intros Hc Hp H [|i] Hi.
  - rewrite !Nat.add_0_r. split; assumption.
  - rewrite !Nat.add_succ_r. apply (H i). lia.
Qed.

Lemma poll_loop_shape T int fuel : forall s s' r,
  poll_loop E fuel T int s = (s', r) ->
  exists k tail, trace s' = trace s ++ rounds k int ++ tail /\
    pending T (clocks (trace s)) (posts (trace s)) k /\
    loop_end E T fuel k (clocks (trace s)) (posts (trace s)) (token s) (token s') tail r.
Proof.
  induction fuel as [|fuel IH]; intros s s' r H.
  { cbn in H. injection H as <- <-. exists 0, []. cbn. rewrite app_nil_r.
    split; [reflexivity|]. split; [intros i Hi; lia|]. constructor; reflexivity. }
  cbn [poll_loop] in H. cbn [emit trace token] in H.
  rewrite posts_app in H. cbn [posts filter is_post List.length] in H. rewrite Nat.add_0_r in H.
  destruct (clock E (clocks (trace s)) <? T)%Z eqn:Et.
  - apply Z.ltb_lt in Et. destruct (poll E (posts (trace s))) as [a|] eqn:Ep.
    + destruct (pa_has_error a) eqn:Ee.
      * apply IH in H. destruct H as (k & tail & Htr & Hp & He).
        cbn [emit trace token] in *.
        rewrite !clocks_app, !posts_app in *. cbn [clocks posts filter is_clock is_post List.length] in *.
        replace (clocks (trace s) + 1 + 0 + 0) with (S (clocks (trace s))) in * by lia.
        replace (posts (trace s) + 0 + 1 + 0) with (S (posts (trace s))) in * by lia.
        exists (S k), tail. split; [|split].
        -- rewrite Htr. cbn [rounds]. rewrite <- !app_assoc. reflexivity.
        -- apply pending_S; eauto.
        -- inversion He; subst;
           [ apply end_running | eapply end_ok | apply end_timeout | apply end_bad ];
           rewrite ?Nat.add_succ_r; try eassumption; try reflexivity; lia.
      * exists 0, [Clock; PostPoll]. split; [|split; [intros i Hi; lia|]].
        -- destruct (pa_access_token a); injection H as <- <-; cbn; rewrite <- app_assoc; reflexivity.
        -- destruct (pa_access_token a) as [|ch tk] eqn:Ek; injection H as <- <-; cbn [token with_token emit].
           ++ apply end_bad; rewrite ?Nat.add_0_r; try lia; try reflexivity.
              right. exists a. repeat split; assumption.
           ++ eapply end_ok with (r := a); rewrite ?Nat.add_0_r; try eassumption; try lia; try congruence.
    + injection H as <- <-. exists 0, [Clock; PostPoll].
      split; [cbn; rewrite <- app_assoc; reflexivity|split; [intros i Hi; lia|]].
      apply end_bad; rewrite ?Nat.add_0_r; try lia; try reflexivity. left; exact Ep.
  - apply Z.ltb_ge in Et. injection H as <- <-. exists 0, [Clock].
    split; [reflexivity|split; [intros i Hi; lia|]].
    apply end_timeout; rewrite ?Nat.add_0_r; try lia. reflexivity.
Qed.

(** ** What get_jwt does *)

Lemma forallb_quiet_rounds k i : forallb quiet (rounds k i) = true.
Proof. induction k as [|k IH]; [reflexivity|]. cbn. exact IH. Qed.

Lemma fetch_shape fuel s s' r : fetch_token E fuel s = (s', r) ->
  exists evs, trace s' = trace s ++ PostDevice :: evs /\ forallb quiet evs = true /\
    ((r = Some (Ok tt) /\ granted E (token s') /\
      exists n a, posts (trace s) < n /\ poll E n = Some a /\ pa_has_error a = false /\
        pa_access_token a = token s') \/
     ((r = None \/ r = Some Throw) /\ token s' = token s)).
Proof.
  unfold fetch_token. intro H.
  destruct (device E (posts (trace s))) as [a|].
  2:{ injection H as <- <-. exists []. cbn. repeat split. right. split; [right|]; reflexivity. }
  destruct (da_status a =? HTTP_OK)%Z.
  2:{ injection H as <- <-. exists []. cbn. repeat split. right. split; [right|]; reflexivity. }
  apply poll_loop_shape in H. destruct H as (k & tail & Htr & Hp & He).
  exists (Clock :: rounds k (da_interval a) ++ tail). split; [|split].
  - rewrite Htr. cbn [emit trace]. rewrite <- !app_assoc. reflexivity.
  - cbn [forallb quiet andb]. rewrite forallb_app, forallb_quiet_rounds.
    inversion He; reflexivity.
  - cbn [emit trace token] in He. rewrite !posts_app in He. cbn in He.
    inversion He; subst.
    + right. auto.
    + left. split; [reflexivity|]. split.
      * split; [assumption|]. eexists _, _. repeat split; try eassumption. symmetry; assumption.
      * eexists _, _. split; [|repeat split; try eassumption; symmetry; assumption]. lia.
    + right. auto.
    + right. auto.
Qed.

Lemma file_app s tr : file_after (init_file E) (trace s ++ tr) = fold_left file_step tr (file E s).
Proof. unfold file, file_after. apply fold_left_app. Qed.

Lemma file_did s s' tr : did s s' tr -> file E s' = fold_left file_step tr (file E s).
Proof. intro H. unfold file at 1. rewrite H. apply file_app. Qed.

Lemma file_quiet evs f : forallb quiet evs = true -> fold_left file_step evs f = f.
Proof.
  revert f. induction evs as [|e evs IH]; intros f H; [reflexivity|].
  cbn in H. apply andb_prop in H as [He H]. cbn. destruct e; try discriminate; apply IH, H.
Qed.

(** The three ways a get_jwt can go. *)
Inductive jwt_case (s s' : state) : result text -> Prop :=
| jwt_cached t : token s = t -> t <> [] -> s' = s -> jwt_case s s' (Some (Ok t))
| jwt_file t : token s = [] -> file E s = Some t -> did s s' [ReadFile] -> token s' = t ->
    file E s' = Some t -> jwt_case s s' (Some (Ok t))
| jwt_fetched evs t n a : token s = [] -> file E s = None ->
    did s s' (PostDevice :: evs ++ [Truncate; Write t]) -> forallb quiet evs = true ->
    granted E t -> token s' = t -> file E s' = Some t ->
    posts (trace s) < n -> poll E n = Some a -> pa_has_error a = false -> pa_access_token a = t ->
    jwt_case s s' (Some (Ok t))
| jwt_failed evs r : token s = [] -> file E s = None ->
    did s s' (PostDevice :: evs) -> forallb quiet evs = true -> token s' = [] ->
    file E s' = None -> r = None \/ r = Some Throw -> jwt_case s s' r.

Lemma get_jwt_case fuel s s' r : get_jwt E fuel s = (s', r) -> jwt_case s s' r.
Proof.
  unfold get_jwt. destruct (token s) as [|c tk] eqn:Ht.
  2:{ intro H. injection H as <- <-. apply jwt_cached; congruence. }
  unfold load_token. destruct (file E s) as [c|] eqn:Hf.
  { intro H. injection H as <- <-. eapply jwt_file; try reflexivity; try assumption.
    rewrite (file_did s _ [ReadFile]) by reflexivity. exact Hf. }
  destruct (fetch_token E fuel s) as [s1 r1] eqn:Hfe.
  apply fetch_shape in Hfe. destruct Hfe as (evs & Htr & Hq & Hr).
  assert (Hf1 : file E s1 = None).
  { rewrite (file_did _ _ _ Htr). cbn. rewrite file_quiet by exact Hq. exact Hf. }
  destruct Hr as [(-> & Hg & n & a & Hn & Ha & He & Hta)|[[->| ->] Htk]].
  - intro H. injection H as <- <-. cbn [save_token emit token].
    eapply jwt_fetched with (evs := evs); try eassumption; try reflexivity.
    + unfold did. cbn. rewrite Htr. rewrite <- !app_assoc. reflexivity.
    + rewrite (file_did s1 _ [Truncate; Write (token s1)]); [reflexivity|].
      unfold did, save_token. cbn. rewrite <- app_assoc. reflexivity.
  - intro H. injection H as <- <-. eapply jwt_failed; try eassumption; auto; congruence.
  - intro H. injection H as <- <-. eapply jwt_failed; try eassumption; auto; congruence.
Qed.

(** ** Histories without crashes *)

Definition source (t : text) : Prop := granted E t \/ init_file E = Some t.

Definition inv (s : state) : Prop :=
  (token s <> [] -> file E s = Some (token s)) /\
  (forall c, file E s = Some c -> source c).

Lemma inv_start : inv start.
Proof.
  split; [intro H; elim H; reflexivity|]. intros c H. right. exact H.
Qed.

Lemma inv_jwt s s' r : inv s -> jwt_case s s' r -> inv s'.
Proof.
  intros [I1 I2] H. inversion H; subst.
  - split; assumption.
  - split; [intros _; assumption|]. intros c Hc. apply I2. congruence.
  - split; [intros _; assumption|]. intros c Hc. left. congruence.
  - split; [congruence|]. intros c Hc. congruence.
Qed.

Lemma inv_exec o s : (forall f k n, o <> Crash f k n) -> inv s -> inv (fst (exec E o s)).
Proof.
  intros Ho Hi. destruct o as [fuel| | |f k n].
  - cbn [exec]. destruct (get_jwt E fuel s) as [s' r] eqn:H. apply get_jwt_case in H.
    pose proof (inv_jwt _ _ _ Hi H) as Hi'. destruct r as [o|]; [exact Hi'|].
    split; [intro X; elim X; reflexivity|]. apply Hi'.
  - split; [intro X; elim X; reflexivity|]. cbn [exec fst]. intros c Hc.
    rewrite (file_did s (refresh s) [Remove]) in Hc by reflexivity. discriminate.
  - split; [intro X; elim X; reflexivity|]. apply Hi.
  - exfalso. eapply Ho. reflexivity.
Qed.

Lemma inv_run ops : no_crash ops -> forall s, inv s -> inv (run E ops s).
Proof.
  intro Hn. induction ops as [|o ops IH]; intros s Hi; [exact Hi|].
  cbn [run]. apply IH.
  - intros f k n Hin. apply (Hn f k n). right. exact Hin.
  - apply inv_exec; [|exact Hi]. intros f k n ->. apply (Hn f k n). left. reflexivity.
Qed.

Lemma returned_token ops fuel s' t : no_crash ops ->
  get_jwt E fuel (run E ops start) = (s', Some (Ok t)) ->
  source t /\ token s' = t /\ file E s' = Some t /\ (t = [] -> init_file E = Some []).
Proof.
  intros Hn H. pose proof (inv_run _ Hn _ inv_start) as Hi.
  apply get_jwt_case in H. pose proof (inv_jwt _ _ _ Hi H) as [I1 I2].
  assert (Hf : file E s' = Some t /\ token s' = t).
  { inversion H; subst; try (split; assumption || reflexivity).
    - split; [apply I1; assumption|reflexivity].
    - match goal with X : Some (Ok _) = None \/ _ |- _ => destruct X; discriminate end. }
  destruct Hf as [Hf Ht]. specialize (I2 _ Hf). repeat split; try assumption.
  intros ->. destruct I2 as [[X _]|X]; [congruence|exact X].
Qed.

Lemma second_call fuel fuel' s s' t : get_jwt E fuel s = (s', Some (Ok t)) -> t <> [] ->
  (token s <> [] -> file E s = Some (token s)) ->
  get_jwt E fuel' s' = (s', Some (Ok t)) /\
  get_jwt E fuel' (with_token s' []) = (emit s' ReadFile, Some (Ok t)).
Proof.
  intros H Ht Hi. apply get_jwt_case in H.
  assert (X : token s' = t /\ file E s' = Some t).
  { inversion H; subst; try (split; assumption || reflexivity).
    - split; [reflexivity|]. apply Hi. assumption.
    - match goal with X : Some (Ok _) = None \/ _ |- _ => destruct X; discriminate end. }
  destruct X as [X Y]. unfold get_jwt, load_token. cbn [token with_token].
  replace (file E (with_token s' [])) with (file E s') by reflexivity. rewrite X, Y. split.
  - destruct t; [congruence|reflexivity].
  - subst t. destruct s'; reflexivity.
Qed.

Lemma refresh_contacts fuel s s' r : get_jwt E fuel (refresh s) = (s', r) ->
  file E (refresh s) = None /\
  (exists evs, did (refresh s) s' (PostDevice :: evs)) /\
  (forall t, r = Some (Ok t) -> granted E t /\
     exists n a, posts (trace s) < n /\ poll E n = Some a /\ pa_has_error a = false /\
       pa_access_token a = t).
Proof.
  assert (Hf : file E (refresh s) = None).
  { rewrite (file_did s _ [Remove]) by reflexivity. reflexivity. }
  assert (Ht : token (refresh s) = []) by reflexivity.
  assert (Hp : posts (trace (refresh s)) = posts (trace s)).
  { change (trace (refresh s)) with (trace s ++ [Remove]). rewrite posts_app. cbn. lia. }
  intro H. apply get_jwt_case in H. split; [exact Hf|].
  inversion H; subst; try congruence.
  - split; [eexists; eassumption|]. intros t' Ht'. injection Ht' as <-. split; [assumption|].
    rewrite Hp in *. eauto 8.
  - split; [eexists; eassumption|]. intros t' ->. match goal with X : Some (Ok _) = None \/ _ |- _ => destruct X; discriminate end.
Qed.

(** ** Crashes *)

Definition partial_source (c : text) : Prop := exists u, source u /\ prefix_of c u.

Definition inv_c (s : state) : Prop :=
  (token s <> [] -> file E s = Some (token s)) /\
  (forall c, file E s = Some c -> partial_source c).

Lemma prefix_refl c : prefix_of c c.
Proof. exists []. symmetry. apply app_nil_r. Qed.
Lemma prefix_firstn n c : prefix_of (firstn n c) c.
Proof. exists (skipn n c). symmetry. apply firstn_skipn. Qed.

Lemma forallb_firstn {A} (p : A -> bool) n l : forallb p l = true -> forallb p (firstn n l) = true.
Proof.
  revert n. induction l as [|a l IH]; intros [|n] H; try reflexivity.
  cbn in *. apply andb_prop in H as [H1 H2]. rewrite H1. apply IH, H2.
Qed.

Lemma quiet_cut k n evs : forallb quiet evs = true -> forallb quiet (cut k n evs) = true.
Proof.
  intro H. unfold cut. rewrite forallb_app, (forallb_firstn _ _ _ H).
  destruct (nth_error evs k) as [e|] eqn:Ek; [|reflexivity].
  rewrite forallb_forall in H. apply nth_error_In in Ek. specialize (H _ Ek).
  destruct e; try reflexivity. discriminate.
Qed.

(** The token file after a kill at any point. *)
Lemma crash_file fuel k n s :
  file E (crash E fuel k n s) = file E s \/
  (token s = [] /\ file E s = None /\
   exists t c, granted E t /\ file E (crash E fuel k n s) = Some c /\ prefix_of c t).
Proof.
  unfold crash. destruct (get_jwt E fuel s) as [s' r] eqn:H. cbn [fst].
  set (evs := skipn _ _). unfold file at 1 4. cbn [trace]. rewrite !file_app.
  apply get_jwt_case in H.
  assert (Hev : forall l, did s s' l -> evs = l).
  { intros l Hl. unfold evs. rewrite Hl, skipn_app, skipn_all, Nat.sub_diag. reflexivity. }
  inversion H as [t H1 H2 H3|t H1 H2 H3 H4 H5|l t m a H1 H2 H3 H4 H5 H6 H7|l r' H1 H2 H3 H4 H5 H6 H7]; subst.
  - left. assert (evs = []) as -> by (unfold evs; apply skipn_all).
    destruct k; reflexivity.
  - left. rewrite (Hev _ H3). rewrite file_quiet; [reflexivity|]. apply quiet_cut. reflexivity.
  - rewrite (Hev _ H3). rewrite H2.
    change (PostDevice :: l ++ [Truncate; Write (token s')])
      with ((PostDevice :: l) ++ [Truncate; Write (token s')]).
    assert (Hq : forallb quiet (PostDevice :: l) = true) by exact H4.
    set (q := PostDevice :: l) in *. clearbody q.
    destruct (Nat.le_gt_cases k (List.length q)) as [Hk|Hk].
    + (* killed before or right at the truncation *)
      left. unfold cut. rewrite fold_left_app, firstn_app.
      replace (k - List.length q) with 0 by lia. cbn [firstn]. rewrite app_nil_r.
      rewrite (file_quiet (firstn k q)) by (apply forallb_firstn, Hq).
      destruct (Nat.eq_dec k (List.length q)) as [->|Hne].
      * rewrite nth_error_app2 by lia. rewrite Nat.sub_diag. reflexivity.
      * rewrite nth_error_app1 by lia. destruct (nth_error q k) as [e|] eqn:Ek; [|reflexivity].
        apply nth_error_In in Ek. rewrite forallb_forall in Hq. specialize (Hq _ Ek).
        destruct e; try reflexivity.
    + right. split; [assumption|]. split; [reflexivity|].
      unfold cut. rewrite fold_left_app, firstn_app.
      rewrite (firstn_all2 q) by lia. rewrite fold_left_app, (file_quiet q) by exact Hq.
      rewrite nth_error_app2 by lia.
      destruct (k - List.length q) as [|[|k']] eqn:Ekk; [lia| |].
      * cbn. exists (token s'), (firstn n (token s')).
        split; [assumption|]. split; [reflexivity|apply prefix_firstn].
      * cbn. exists (token s'), (token s'). split; [assumption|].
        rewrite firstn_nil. cbn. destruct k'; cbn; (split; [reflexivity|apply prefix_refl]).
  - left. rewrite (Hev _ H3). rewrite file_quiet; [reflexivity|]. apply quiet_cut. exact H4.
Qed.

Lemma inv_c_jwt s s' r : inv_c s -> jwt_case s s' r -> inv_c s'.
Proof.
  intros [I1 I2] H. inversion H; subst.
  - split; assumption.
  - split; [intros _; assumption|]. intros c Hc. apply I2. congruence.
  - split; [intros _; assumption|]. intros c Hc. exists (token s'). split; [left; congruence|].
    replace c with (token s') by congruence. apply prefix_refl.
  - split; [congruence|]. intros c Hc. congruence.
Qed.

Lemma inv_c_run ops : forall s, inv_c s -> inv_c (run E ops s).
Proof.
  induction ops as [|o ops IH]; intros s Hi; [exact Hi|]. cbn [run]. apply IH.
  destruct o as [fuel| | |fuel k n]; cbn [exec].
  - destruct (get_jwt E fuel s) as [s' r] eqn:H. apply get_jwt_case in H.
    pose proof (inv_c_jwt _ _ _ Hi H) as Hi'. destruct r as [o|]; [exact Hi'|].
    split; [intro X; elim X; reflexivity|]. apply Hi'.
  - split; [intro X; elim X; reflexivity|]. cbn [exec fst]. intros c Hc.
    rewrite (file_did s (refresh s) [Remove]) in Hc by reflexivity. discriminate.
  - split; [intro X; elim X; reflexivity|]. apply Hi.
  - split; [intro X; elim X; reflexivity|]. cbn [fst]. intros c Hc.
    destruct (crash_file fuel k n s) as [Heq|(_ & _ & t & c' & Hg & Heq & Hp)].
    + apply Hi. congruence.
    + exists t. split; [left; exact Hg|]. congruence.
Qed.

Lemma crashed_token ops fuel s' t :
  get_jwt E fuel (run E ops start) = (s', Some (Ok t)) ->
  exists u, source u /\ prefix_of t u.
Proof.
  intro H. assert (Hi : inv_c (run E ops start)).
  { apply inv_c_run. split; [intro X; elim X; reflexivity|]. intros c Hc. exists c.
    split; [right; exact Hc|apply prefix_refl]. }
  apply get_jwt_case in H. pose proof (inv_c_jwt _ _ _ Hi H) as [I1 I2].
  apply I2. inversion H; subst; try assumption.
  - apply I1. assumption.
  - match goal with X : Some (Ok _) = None \/ _ |- _ => destruct X; discriminate end.
Qed.

(** A client started on the file a crash left. *)
Lemma restarted fuel s s' r :
  token s = [] -> get_jwt E fuel s = (s', r) ->
  (file E s = None -> exists evs, did s s' (PostDevice :: evs)) /\
  (forall c, file E s = Some c -> r = Some (Ok c) /\ did s s' [ReadFile]).
Proof.
  intros Ht H. apply get_jwt_case in H.
  inversion H; subst; split; intros; try congruence; try (eexists; eassumption).
  split; [congruence|assumption].
Qed.

Lemma crash_point ops fuel k n fuel' s' r :
  let s := run E ops start in
  let s1 := crash E fuel k n s in
  get_jwt E fuel' s1 = (s', r) ->
  (file E s1 = None /\ exists evs, did s1 s' (PostDevice :: evs)) \/
  (exists c, file E s1 = Some c /\ r = Some (Ok c) /\ did s1 s' [ReadFile] /\
     (file E s = Some c \/
      (file E s = None /\ exists t, granted E t /\ prefix_of c t))).
Proof.
  intros s s1 H. apply restarted in H; [|reflexivity]. destruct H as [HN HS].
  destruct (file E s1) as [c|] eqn:Hf.
  - right. exists c. destruct (HS c eq_refl) as [Hr Hd]. repeat split; try assumption.
    destruct (crash_file fuel k n s) as [Heq|(_ & Hn & t & c' & Hg & Heq & Hp)].
    + left. fold s1 in Heq. congruence.
    + right. split; [exact Hn|]. exists t. fold s1 in Heq. split; [exact Hg|congruence].
  - left. split; [reflexivity|]. apply HN. reflexivity.
Qed.

(** ** Polling *)

Lemma polling fuel s s' r : fetch_token E fuel s = (s', r) ->
  let p := posts (trace s) in let c := clocks (trace s) in
  (did s s' [PostDevice] /\ r = Some Throw /\ token s' = token s /\
     forall a, device E p = Some a -> da_status a <> 200%Z) \/
  (exists a k tail, device E p = Some a /\ da_status a = 200%Z /\
     did s s' ([PostDevice; Clock] ++ rounds k (da_interval a) ++ tail) /\
     let deadline := (clock E c + da_expires_in a * 1000000000)%Z in
     (forall i, i < k -> (clock E (c + 1 + i) < deadline)%Z /\
        exists b, poll E (p + 1 + i) = Some b /\ pa_has_error b = true) /\
     loop_end E deadline fuel k (c + 1) (p + 1) (token s) (token s') tail r).
Proof.
  intros H p c. unfold fetch_token in H. fold p in H.
  destruct (device E p) as [a|] eqn:Ed.
  2:{ injection H as <- <-. left. repeat split. discriminate. }
  destruct (da_status a =? HTTP_OK)%Z eqn:Es.
  - apply Z.eqb_eq in Es. apply poll_loop_shape in H. right.
    cbn [emit trace token] in H. rewrite !posts_app, !clocks_app in H. cbn in H.
    fold p c in H. destruct H as (k & tail & Htr & Hp & He).
    replace (c + 0 + 1) with (c + 1) in * by lia. replace (c + 0) with c in * by lia.
    replace (p + 1 + 0) with (p + 1) in * by lia.
    exists a, k, tail. split; [reflexivity|]. split; [exact Es|]. split; [|split; [exact Hp|exact He]].
    unfold did. rewrite Htr, <- !app_assoc. reflexivity.
  - apply Z.eqb_neq in Es. injection H as <- <-. left. repeat split.
    intros b Hb. injection Hb as <-. exact Es.
Qed.

Lemma polls_app a b : polls (a ++ b) = polls a + polls b.
Proof. unfold polls. rewrite filter_app, app_length. reflexivity. Qed.
Lemma polls_rounds k i : polls (rounds k i) = k.
Proof. induction k as [|k IH]; [reflexivity|]. cbn [rounds]. rewrite polls_app, IH. reflexivity. Qed.

(** When sleeping really takes the interval, the number of polls is bounded by
    expires_in / interval. *)
Lemma poll_count fuel s s' r a evs : fetch_token E fuel s = (s', r) -> did s s' evs ->
  device E (posts (trace s)) = Some a ->
  (forall i, clock E i <= clock E (S i))%Z ->
  (forall i, clocks (trace s) < i -> (clock E i + da_interval a * 1000000000 <= clock E (S i))%Z) ->
  (0 <= da_interval a)%Z -> (0 <= da_expires_in a)%Z ->
  (Z.of_nat (polls evs) * da_interval a < da_expires_in a + da_interval a)%Z
  \/ polls evs = 0.
Proof.
  intros H Hd Ha Hm Hs Hi0 Hx0. apply polling in H. cbn zeta in H.
  set (c := clocks (trace s)) in *. set (p := posts (trace s)) in *.
  assert (Hev : forall l, did s s' l -> evs = l).
  { intros l Hl. unfold did in *. rewrite Hd in Hl. apply app_inv_head in Hl. exact Hl. }
  destruct H as [(H & _)|(b & k & tail & Hb & _ & H & Hp & He)].
  - right. rewrite (Hev _ H). reflexivity.
  - rewrite Ha in Hb. injection Hb as <-. rewrite (Hev _ H).
    rewrite !polls_app, polls_rounds. cbn [polls filter List.length Nat.add].
    assert (Hc : forall i, (clock E c + Z.of_nat i * (da_interval a * 1000000000) <= clock E (c + 1 + i))%Z).
    { induction i as [|i IH]; [rewrite Nat.add_0_r, Nat.add_1_r; specialize (Hm c); lia|].
      specialize (Hs (c + 1 + i) ltac:(lia)). rewrite Nat.add_succ_r. nia. }
    assert (Hlast : forall j, (clock E (c + 1 + j) <
        clock E c + da_expires_in a * 1000000000)%Z ->
        (Z.of_nat j * da_interval a < da_expires_in a)%Z).
    { intros j Hj. specialize (Hc j). nia. }
    inversion He; subst; cbn [polls filter List.length]; rewrite ?Nat.add_0_r.
    + destruct fuel as [|k']; [right; reflexivity|]. left.
      destruct (Hp k' ltac:(lia)) as [Hk _]. apply Hlast in Hk. nia.
    + left. apply Hlast in H1. change (polls [Clock; PostPoll]) with 1. nia.
    + change (polls [Clock]) with 0. rewrite ?Nat.add_0_r.
      destruct k as [|k']; [right; reflexivity|]. left.
      destruct (Hp k' ltac:(lia)) as [Hk _]. apply Hlast in Hk. nia.
    + left. apply Hlast in H1. change (polls [Clock; PostPoll]) with 1. nia.
Qed.

(** If the clock ever passes the deadline, the call ends. *)
Lemma polling_ends fuel s s' r n :
  fetch_token E fuel s = (s', r) ->
  (forall a, device E (posts (trace s)) = Some a ->
     clock E (clocks (trace s)) + da_expires_in a * 1000000000 <=
     clock E (clocks (trace s) + 1 + n))%Z ->
  n < fuel -> r <> None.
Proof.
  intros H Hc Hn ->. apply polling in H. cbn zeta in H.
  destruct H as [(_ & X & _)|(a & k & tail & Ha & _ & _ & Hp & He)]; [discriminate|].
  inversion He; subst. specialize (Hc _ Ha). destruct (Hp n Hn) as [Hk _]. lia.
Qed.

End Proofs.
