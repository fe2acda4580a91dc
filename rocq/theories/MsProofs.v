(** Proofs about the mock server. *)
From Coq Require Import ZArith List Ascii String Lia NArith.
From Verif Require Import Cpp UuidModel TdModel TdProofs MsModel MsSpec.
Import ListNotations.

(** ** Copies of headers *)
Lemma ltb_le a : forall b, text_ltb a b = true -> text_le a b.
Proof.
  induction a as [|x a IH]; intros [|y b]; cbn; try discriminate; [intros _; constructor|].
  destruct (N.ltb_spec (N_of_ascii x) (N_of_ascii y)); [intros _; apply LLess; assumption|].
  destruct (N.ltb_spec (N_of_ascii y) (N_of_ascii x)); [discriminate|]. intro L.
  assert (x = y) by (rewrite <- (ascii_N_embedding x), <- (ascii_N_embedding y); f_equal; lia). subst. apply LSame. exact (IH _ L).
Qed.
Lemma not_ltb_le a : forall b, text_ltb a b = false -> text_le b a.
Proof.
  induction a as [|x a IH]; intros [|y b]; cbn; try discriminate; try (intros _; apply LNil).
  destruct (N.ltb_spec (N_of_ascii x) (N_of_ascii y)); [discriminate|].
  destruct (N.ltb_spec (N_of_ascii y) (N_of_ascii x)); [intros _; apply LLess; assumption|]. intro L.
  assert (x = y) by (rewrite <- (ascii_N_embedding x), <- (ascii_N_embedding y); f_equal; lia). subst. apply LSame. exact (IH _ L).
Qed.
Lemma ltb_irrefl a : text_ltb a a = false.
Proof. induction a as [|x a IH]; cbn; [reflexivity|]. rewrite N.ltb_irrefl. exact IH. Qed.
Lemma le_trans a b : text_le a b -> forall c, text_le b c -> text_le a c.
Proof.
  induction 1 as [b|x y a b L|x a b L IH]; intros c H; [constructor| |].
  - inversion H; subst; apply LLess; lia.
  - inversion H; subst; [apply LLess; assumption|]. apply LSame, IH. assumption.
Qed.
Lemma lt_not_le a : forall b, text_ltb a b = true -> ~ text_le b a.
Proof.
  induction a as [|x a IH]; intros [|y b]; cbn; try discriminate; [intros _ H; inversion H|].
  destruct (N.ltb_spec (N_of_ascii x) (N_of_ascii y)) as [A|A]; [intros _ K; inversion K; subst; lia|].
  destruct (N.ltb_spec (N_of_ascii y) (N_of_ascii x)) as [B|B]; [discriminate|]. intros L K. inversion K as [|? ? ? ? C|? ? ? C]; subst; [lia|exact (IH _ L C)].
Qed.
(** Every entry is before all those behind it. *)
Fixpoint ordered (m : list entry) : Prop := match m with [] => True | e :: m => Forall (fun f => text_le (fst e) (fst f)) m /\ ordered m end.
Lemma insert_forall (P : entry -> Prop) e m : P e -> Forall P m -> Forall P (multimap_insert e m).
Proof.
  intros He. induction m as [|f m IH]; intro F; cbn; [constructor; auto|]. inversion F; subst.
  destruct (text_ltb (fst e) (fst f)); constructor; auto.
Qed.
Lemma insert_ordered e m : ordered m -> ordered (multimap_insert e m).
Proof.
  induction m as [|f m IH]; cbn; [auto|]. intros [F O]. destruct (text_ltb (fst e) (fst f)) eqn:E; cbn.
  - split; [|auto]. constructor; [exact (ltb_le _ _ E)|]. eapply Forall_impl; [|exact F]. cbn. intros g. apply le_trans, ltb_le, E.
  - split; [|exact (IH O)]. apply insert_forall; [exact (not_ltb_le _ _ E)|exact F].
Qed.
Lemma same_name_yes name e : fst e = name -> same_name name e = true.
Proof. intro H. unfold same_name. destruct (list_eq_dec ascii_dec (fst e) name); [reflexivity|contradiction]. Qed.
Lemma same_name_no name e : fst e <> name -> same_name name e = false.
Proof. intro H. unfold same_name. destruct (list_eq_dec ascii_dec (fst e) name); [contradiction|reflexivity]. Qed.
Lemma named_nil name m : Forall (fun f => fst f <> name) m -> named name m = [].
Proof. induction 1 as [|f m N F IH]; [reflexivity|]. unfold named in *. cbn [filter]. rewrite (same_name_no _ _ N). exact IH. Qed.
Lemma insert_named name e m : ordered m -> named name (multimap_insert e m) = named name m ++ named name [e].
Proof.
  induction m as [|f m IH]; cbn [multimap_insert ordered]; [reflexivity|]. intros [F O]. destruct (text_ltb (fst e) (fst f)) eqn:E.
  - destruct (list_eq_dec ascii_dec (fst e) name) as [D|D].
    + assert (X : named name (f :: m) = []).
      { apply named_nil. constructor; [intro X; rewrite D, X, ltb_irrefl in E; discriminate|]. eapply Forall_impl; [|exact F]. cbn. intros g Lg X. apply (lt_not_le _ _ E). rewrite D, <- X. exact Lg. }
      rewrite X. change (named name (e :: f :: m)) with (if same_name name e then e :: named name (f :: m) else named name (f :: m)).
      rewrite X. unfold named. cbn [filter]. reflexivity.
    + change (named name (e :: f :: m)) with (if same_name name e then e :: named name (f :: m) else named name (f :: m)).
      assert (Y : named name [e] = []) by (apply named_nil; constructor; [exact D|constructor]). rewrite Y, (same_name_no _ _ D), app_nil_r. reflexivity.
  - change (named name (f :: multimap_insert e m)) with (if same_name name f then f :: named name (multimap_insert e m) else named name (multimap_insert e m)).
    change (named name (f :: m)) with (if same_name name f then f :: named name m else named name m).
    rewrite (IH O). destruct (same_name name f); reflexivity.
Qed.
Lemma copied_headers hs : forall m, ordered m -> ordered (fold_left (fun m e => multimap_insert e m) hs m) /\
  forall name, named name (fold_left (fun m e => multimap_insert e m) hs m) = named name m ++ named name hs.
Proof.
  induction hs as [|e hs IH]; intros m O; cbn [fold_left]; [split; [exact O|intro; rewrite app_nil_r; reflexivity]|].
  destruct (IH _ (insert_ordered e m O)) as [O' N]. split; [exact O'|]. intro name. rewrite N, (insert_named _ _ _ O), <- app_assoc. f_equal.
  unfold named. rewrite <- filter_app. reflexivity.
Qed.
Lemma ordered_next m : ordered m -> forall i e f, nth_error m i = Some e -> nth_error m (S i) = Some f -> text_le (fst e) (fst f).
Proof.
  induction m as [|g m IH]; intros O i e f E F; [destruct i; discriminate|]. destruct O as [G O]. destruct i as [|i]; cbn in E, F.
  - injection E as <-. apply (proj1 (Forall_forall _ _) G f). destruct m as [|h m]; [discriminate|]. injection F as <-. left. reflexivity.
  - exact (IH O i e f E F).
Qed.
Lemma copy_is_copy hs : is_copy hs (copy_headers hs).
Proof.
  destruct (copied_headers hs [] I) as [O N]. split; [intro name; exact (N name)|]. exact (ordered_next _ O).
Qed.
Lemma body_whole (chunks : list text) : forall b : text, fold_left (fun body data => body ++ data) chunks b = b ++ List.concat chunks.
Proof. induction chunks as [|c cs IH]; intro b; cbn; [rewrite app_nil_r; reflexivity|]. rewrite IH, <- app_assoc. reflexivity. Qed.

(** ** Replies *)
Lemma dispatch_spec hs path : match dispatch hs path with Some r => responsible hs path r | None => Forall (fun h => fst h path = false) hs end.
Proof.
  induction hs as [|[p r] hs IH]; cbn; [constructor|]. destruct (p path) eqn:E.
  - exists [], p, hs. repeat split; [exact E|constructor].
  - destruct (dispatch hs path) as [r'|].
    + destruct IH as (b & p' & a & -> & H1 & H2). exists ((p, r) :: b), p', a. repeat split; [exact H1|]. constructor; assumption.
    + constructor; [exact E|exact IH].
Qed.
Lemma post_reply s req : s_phase s = Serving -> q_method req = POST -> exists res, answer s req = (Some res, s) /\ reply (s_posts s) req res.
Proof.
  intros P M. unfold answer. rewrite P, M. eexists. split; [reflexivity|].
  assert (D := dispatch_spec (s_posts s) (q_path req)). destruct (dispatch (s_posts s) (q_path req)) as [r|]; [|exact (NoReceiver _ _ D)].
  cbn [process]. unfold post_handler, read_body. rewrite body_whole. cbn [app]. unfold fresh_response, http_invalid.
  destruct (r (copy_headers (q_headers req)) (concat (q_chunks req)) (q_path req) (Response [] [] (-1))) as [[body mime st]|] eqn:E.
  - cbn [r_status r_body r_mime]. destruct (Z.eqb_spec st (-1)) as [->|N].
    + eapply LeftOpen; [exact D|apply copy_is_copy|exact E].
    + eapply Said; [exact D|apply copy_is_copy|exact E|exact N].
  - eapply Threw; [exact D|apply copy_is_copy|exact E].
Qed.

(** ** Lives *)
Lemma live_app es : forall s fs, live s (es ++ fs) = match live s es with Fine s => live s fs | other => other end.
Proof. induction es as [|e es IH]; intros s fs; cbn; [reflexivity|]. destruct (act s e); [apply IH|reflexivity..]. Qed.
Lemma answer_made s req : s_phase s <> Serving -> answer s req = (None, s).
Proof. intro P. unfold answer. destruct (s_phase s); [reflexivity|contradiction|reflexivity|reflexivity]. Qed.
Lemma live_quiet es : forall posts port, Forall quiet es -> live (Server posts port Made) es = Fine (Server (posts ++ added es) port Made).
Proof.
  induction es as [|e es IH]; intros posts port F; cbn; [rewrite app_nil_r; reflexivity|]. inversion F as [|? ? Q F']; subst.
  destruct Q as [[req ->]|[h ->]]; cbn.
  - apply IH, F'.
  - rewrite IH by exact F'. rewrite <- app_assoc. reflexivity.
Qed.
Lemma live_asks_done es : forall s, Forall is_ask es -> s_phase s <> Serving -> live s es = Fine s.
Proof.
  induction es as [|e es IH]; intros s F P; cbn; [reflexivity|]. inversion F as [|? ? [req ->] F']; subst. cbn. rewrite (answer_made _ _ P). apply IH; assumption.
Qed.
Lemma answer_serving posts port req : exists res, fst (answer (Server posts port Serving) req) = Some res /\
  ((asks_stop (Ask req) /\ snd (answer (Server posts port Serving) req) = Server posts port Ended) \/ (~ asks_stop (Ask req) /\ snd (answer (Server posts port Serving) req) = Server posts port Serving)).
Proof.
  destruct req as [[] path hs cs]; unfold answer; cbn [s_phase q_method q_path s_posts s_port].
  - destruct (text_eqb path path_stop) eqn:E.
    + apply text_eqb_eq in E as ->. eexists. split; [reflexivity|]. left. split; [exists hs, cs; reflexivity|reflexivity].
    + assert (N : ~ asks_stop (Ask (Request GET path hs cs))). { intros (h & c & X). injection X as -> _ _. rewrite (proj2 (text_eqb_eq _ _) eq_refl) in E. discriminate. }
      destruct (text_eqb path path_ready); eexists; (split; [reflexivity|right; split; [exact N|reflexivity]]).
  - eexists. split; [reflexivity|]. right. split; [intros (h & c & X); discriminate|reflexivity].
  - eexists. split; [reflexivity|]. right. split; [intros (h & c & X); discriminate|reflexivity].
Qed.
Lemma live_asks es : forall posts port, Forall is_ask es ->
  (live (Server posts port Serving) es = Fine (Server posts port Serving) /\ Forall (fun e => ~ asks_stop e) es) \/
  (live (Server posts port Serving) es = Fine (Server posts port Ended) /\ Exists asks_stop es).
Proof.
  induction es as [|e es IH]; intros posts port F; cbn; [left; split; [reflexivity|constructor]|]. inversion F as [|? ? [req ->] F']; subst. cbn [act].
  destruct (answer_serving posts port req) as (res & _ & [[A ->]|[A ->]]).
  - right. split; [apply live_asks_done; [exact F'|discriminate]|left; exact A].
  - destruct (IH posts port F') as [[E N]|[E X]]; [left|right]; (split; [exact E|]); [constructor; assumption|right; exact X].
Qed.
Lemma listen_made posts q port : listen port (Server posts q Made) = if (port =? -1)%Z then Undefined else Fine (Server posts port Serving).
Proof. unfold listen. cbn [s_phase s_posts]. destruct (port =? -1)%Z; [reflexivity|]. vm_compute. reflexivity. Qed.
Lemma destroy_spec s : s_phase s = Serving \/ s_phase s = Ended -> exists s', destroy s = Fine s' /\ s_phase s' = Destroyed.
Proof.
  intro P. unfold destroy. destruct (answer s (get_request path_stop)) as [a s']. destruct P as [-> | ->]; eexists; split; reflexivity.
Qed.
(** Up to the first thing that is not quiet, or not asked. *)
Lemma split_quiet es : Forall quiet es \/ exists b e a, es = b ++ e :: a /\ Forall quiet b /\ (e = Destroy \/ exists p, e = Listen p).
Proof.
  induction es as [|e es IH]; [left; constructor|].
  destruct e as [h|p|req|].
  - assert (Q : quiet (AddPost h)) by (right; eexists; reflexivity). destruct IH as [F|(b & e & a & -> & F & H)]; [left; constructor; assumption|right; exists (AddPost h :: b), e, a; repeat split; [constructor; assumption|exact H]].
  - right. exists [], (Listen p), es. repeat split; [constructor|right; eexists; reflexivity].
  - assert (Q : quiet (Ask req)) by (left; eexists; reflexivity). destruct IH as [F|(b & e & a & -> & F & H)]; [left; constructor; assumption|right; exists (Ask req :: b), e, a; repeat split; [constructor; assumption|exact H]].
  - right. exists [], Destroy, es. repeat split; [constructor|left; reflexivity].
Qed.
Lemma split_asks es : Forall is_ask es \/ exists b e a, es = b ++ e :: a /\ Forall is_ask b /\ ~ is_ask e.
Proof.
  induction es as [|e es IH]; [left; constructor|].
  assert (D : is_ask e \/ ~ is_ask e) by (destruct e; [right|right|left|right]; try (intros [r X]; discriminate); eexists; reflexivity).
  destruct D as [D|D]; [|right; exists [], e, es; repeat split; [constructor|exact D]].
  destruct IH as [F|(b & f & a & -> & F & H)]; [left; constructor; assumption|right; exists (e :: b), f, a; repeat split; [constructor; assumption|exact H]].
Qed.
(** All the ways a life can go. *)
Definition way (es : list event) (u : use) : Prop :=
  (Forall quiet es /\ u = Fine (Server (added es) 0 Made)) \/
  (exists b a, es = b ++ Destroy :: a /\ Forall quiet b /\ u = Undefined) \/
  (exists b a, es = b ++ Listen (-1) :: a /\ Forall quiet b /\ u = Undefined) \/
  (exists b p asks, es = b ++ Listen p :: asks /\ Forall quiet b /\ p <> (-1)%Z /\ Forall is_ask asks /\
    ((Forall (fun e => ~ asks_stop e) asks /\ u = Fine (Server (added b) p Serving)) \/ (Exists asks_stop asks /\ u = Fine (Server (added b) p Ended)))) \/
  (exists b p asks q a, es = b ++ Listen p :: asks ++ Listen q :: a /\ Forall quiet b /\ p <> (-1)%Z /\ Forall is_ask asks /\ u = Terminated) \/
  (exists b p asks h a, es = b ++ Listen p :: asks ++ AddPost h :: a /\ Forall quiet b /\ p <> (-1)%Z /\ Forall is_ask asks /\ u = Undefined) \/
  (exists b p asks a, es = b ++ Listen p :: asks ++ Destroy :: a /\ Forall quiet b /\ p <> (-1)%Z /\ Forall is_ask asks /\
    ((Forall is_ask a /\ exists s, u = Fine s /\ s_phase s = Destroyed) \/ (~ Forall is_ask a /\ u = Undefined))).
Lemma all_ways es : way es (live new_server es).
Proof.
  unfold new_server. destruct (split_quiet es) as [F|(b & e & a & -> & F & [->|[p ->]])].
  - left. split; [exact F|]. rewrite (live_quiet es [] 0 F). reflexivity.
  - right; left. exists b, a. repeat split; [exact F|]. rewrite live_app, (live_quiet b [] 0 F). reflexivity.
  - destruct (Z.eq_dec p (-1)) as [->|N].
    { right; right; left. exists b, a. repeat split; [exact F|]. rewrite live_app, (live_quiet b [] 0 F). reflexivity. }
    rewrite live_app, (live_quiet b [] 0 F). cbn [app live act]. rewrite listen_made. apply Z.eqb_neq in N as N'. rewrite N'.
    destruct (split_asks a) as [G|(asks & e & a' & -> & G & NA)].
    { do 3 right; left. exists b, p, a. split; [reflexivity|]. split; [exact F|]. split; [exact N|]. split; [exact G|].
      destruct (live_asks a (added b) p G) as [[E X]|[E X]]; [left|right]; auto. }
    do 4 right. rewrite live_app.
    assert (S1 : exists ph, live (Server (added b) p Serving) asks = Fine (Server (added b) p ph) /\ (ph = Serving \/ ph = Ended)).
    { destruct (live_asks asks (added b) p G) as [[E _]|[E _]]; eexists; (split; [exact E|auto]). }
    destruct S1 as (ph & E & P). rewrite E. cbn [live]. destruct e as [h|q|req|].
    + right; left. exists b, p, asks, h, a'. repeat split; try assumption. cbn. destruct P as [-> | ->]; reflexivity.
    + left. exists b, p, asks, q, a'. repeat split; try assumption. cbn. destruct P as [-> | ->]; reflexivity.
    + exfalso. apply NA. eexists; reflexivity.
    + right; right. exists b, p, asks, a'. split; [reflexivity|]. split; [exact F|]. split; [exact N|]. split; [exact G|]. cbn [act].
      destruct (destroy_spec (Server (added b) p ph)) as (s' & D & P'); [cbn; exact P|]. rewrite D.
      destruct (split_asks a') as [G'|(c & f & d & -> & G' & NB)].
      * left. split; [exact G'|]. exists s'. split; [apply live_asks_done; [exact G'|rewrite P'; discriminate]|exact P'].
      * right. split; [intro X; apply Forall_app in X as [_ X]; inversion X; contradiction|].
        rewrite live_app, (live_asks_done c s' G'); [|rewrite P'; discriminate]. cbn [live]. destruct f as [h|q|req|]; cbn [act]; unfold listen, destroy; rewrite ?P'; try reflexivity.
        exfalso. apply NB. eexists; reflexivity.
Qed.

(** ** There is one copy, and one reply *)
Lemma le_antisym a : forall b, text_le a b -> text_le b a -> a = b.
Proof.
  induction a as [|x a IH]; intros [|y b] H K; [reflexivity|inversion K|inversion H|].
  inversion H as [|? ? ? ? A|? ? ? A]; subst; inversion K as [|? ? ? ? B|? ? ? B]; subst; try lia. f_equal. exact (IH _ A B).
Qed.
Lemma le_refl a : text_le a a. Proof. induction a; constructor; assumption. Qed.
Lemma next_ordered m : (forall i e f, nth_error m i = Some e -> nth_error m (S i) = Some f -> text_le (fst e) (fst f)) -> ordered m.
Proof.
  induction m as [|e m IH]; intro H; [exact I|]. assert (O : ordered m) by (apply IH; intros i; exact (H (S i))). split; [|exact O].
  destruct m as [|f m]; [constructor|]. assert (L := H 0%nat e f eq_refl eq_refl). destruct O as [F _]. constructor; [exact L|].
  eapply Forall_impl; [|exact F]. cbn. intros g. apply le_trans, L.
Qed.
Lemma named_in name m e : In e (named name m) <-> In e m /\ fst e = name.
Proof. unfold named, same_name. rewrite filter_In. destruct (list_eq_dec ascii_dec (fst e) name); intuition congruence. Qed.
Lemma ordered_unique a : forall b, ordered a -> ordered b -> (forall name, named name a = named name b) -> a = b.
Proof.
  assert (H : forall e a b, (forall name, named name (e :: a) = named name b) -> In e b).
  { intros e a' b N. assert (I : In e (named (fst e) b)) by (rewrite <- N; apply named_in; split; [left|]; reflexivity). apply named_in in I. tauto. }
  induction a as [|e a IH]; intros [|f b] Oa Ob N; [reflexivity| | |].
  - destruct (H f b [] (fun name => eq_sym (N name))).
  - destruct (H e a [] N).
  - destruct Oa as [Fa Oa], Ob as [Fb Ob].
    assert (L1 : text_le (fst f) (fst e)). { destruct (H e a (f :: b) N) as [->|I]; [apply le_refl|exact (proj1 (Forall_forall _ _) Fb e I)]. }
    assert (L2 : text_le (fst e) (fst f)). { destruct (H f b (e :: a) (fun name => eq_sym (N name))) as [->|I]; [apply le_refl|exact (proj1 (Forall_forall _ _) Fa f I)]. }
    assert (E := le_antisym _ _ L2 L1).
    assert (C : forall name x m, named name (x :: m) = if same_name name x then x :: named name m else named name m) by reflexivity.
    assert (e = f). { assert (X := N (fst e)). rewrite !C, (same_name_yes _ e eq_refl), (same_name_yes _ f (eq_sym E)) in X. injection X as X _. exact X. }
    subst f. f_equal. apply IH; [exact Oa|exact Ob|]. intro name. assert (X := N name). rewrite !C in X. destruct (same_name name e); [injection X as X|]; exact X.
Qed.
Lemma copy_unique hs a b : is_copy hs a -> is_copy hs b -> a = b.
Proof. intros [Na Oa] [Nb Ob]. apply ordered_unique; [apply next_ordered, Oa|apply next_ordered, Ob|]. intro name. rewrite Na, Nb. reflexivity. Qed.
Lemma responsible_none hs path r : responsible hs path r -> Forall (fun h => fst h path = false) hs -> False.
Proof. intros (b & p & a & -> & P & _) F. apply Forall_app in F as [_ F]. inversion F as [|? ? X]; subst. cbn in X. congruence. Qed.
Lemma responsible_unique hs path : forall r r', responsible hs path r -> responsible hs path r' -> r = r'.
Proof.
  induction hs as [|h hs IH]; intros r r' (b & p & a & E & P & F) (b' & p' & a' & E' & P' & F').
  - destruct b; discriminate.
  - destruct b as [|h1 b], b' as [|h2 b']; cbn in E, E'; injection E as Eh E; injection E' as Eh' E'.
    + congruence.
    + inversion F' as [|? ? Y]; subst. cbn in Y. congruence.
    + inversion F as [|? ? Y]; subst. cbn in Y. congruence.
    + inversion F; subst. inversion F'; subst. apply IH; [exists b, p, a|exists b', p', a']; auto.
Qed.
Lemma reply_unique hs req a b : reply hs req a -> reply hs req b -> a = b.
Proof.
  intros [F|r m R C E|r m res R C E N|r m bo mi R C E] [F'|r' m' R' C' E'|r' m' res' R' C' E' N'|r' m' bo' mi' R' C' E']; try reflexivity;
    try (exfalso; eapply responsible_none; eassumption);
    rewrite (responsible_unique _ _ _ _ R' R), (copy_unique _ _ _ C' C), E in E'; try discriminate; injection E' as E'; subst; try reflexivity; try (exfalso; apply N; reflexivity); try (exfalso; apply N'; reflexivity).
Qed.
