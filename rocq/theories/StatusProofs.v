From Coq Require Import Ascii String DecimalString DecimalZ Decimal.
From Verif Require Import Cpp StatusModel StatusSpec.

Lemma reachable_ok_has_value {T : Type} (ops : list (sv_op T)) x :
  In x (fold_left sv_step ops []) ->
  (sv_ok x = true <-> exists v, x = Value v) /\
  (sv_ok x = true <-> exists v, sv_value x = Ok v) /\
  (sv_ok x = false <-> sv_value x = Throw) /\
  (sv_ok x = false <-> ok (sv_status x) = false).
Proof.
  assert (H : forall vars, Forall (fun y : status_value T => y <> Bad Okay) vars ->
    Forall (fun y => y <> Bad Okay) (fold_left sv_step ops vars)).
  { induction ops as [|o ops IH]; intros vars Hv; [exact Hv|]. cbn [fold_left]. apply IH.
    destruct o as [|v|s|i]; cbn [sv_step].
    - constructor; [discriminate|exact Hv].
    - constructor; [discriminate|exact Hv].
    - destruct s; cbn; [exact Hv|]. constructor; [discriminate|exact Hv].
    - destruct (nth_error vars i) as [y|] eqn:E; [|exact Hv]. constructor; [|exact Hv].
      rewrite Forall_forall in Hv. apply Hv. eapply nth_error_In, E. }
  intro Hx. specialize (H [] (Forall_nil _)). rewrite Forall_forall in H.
  specialize (H x Hx). destruct x as [v|[|f l m]].
  - cbn. repeat split; intros; try discriminate; eauto.
  - congruence.
  - cbn. repeat split; try discriminate; intros [v Hv]; discriminate.
Qed.

Lemma sv_of_status_spec {T : Type} (s : status) :
  (ok s = true <-> @sv_of_status T s = Throw) /\
  (ok s = false <-> @sv_of_status T s = Ok (Bad s)).
Proof. destruct s; cbn; repeat split; congruence. Qed.

Lemma chain_success {T : Type} fs (v v' : T) : succeeds fs v v' -> chain (stored fs) v = Ok (Value v').
Proof.
  induction 1 as [|f fs v x v' Hf Hs IH]; [reflexivity|].
  cbn [chain stored map]. rewrite Hf. cbn. exact IH.
Qed.

Lemma chain_prefix {T : Type} fs rest (v v' : T) :
  succeeds fs v v' -> chain (stored fs ++ rest) v = chain rest v'.
Proof.
  induction 1 as [|f fs v x v' Hf Hs IH]; [reflexivity|].
  cbn [app chain stored map]. rewrite Hf. cbn. exact IH.
Qed.

Lemma chain_first_error {T : Type} fs f rest (v v' : T) s :
  succeeds fs v v' -> f v' = Ok (Bad s) -> ok s = false ->
  chain (stored fs ++ (ViaVariable, f) :: rest) v = Ok (Bad s).
Proof.
  intros H Hf Hs. rewrite (chain_prefix _ _ _ _ H). cbn [chain]. rewrite Hf. destruct s; [discriminate|reflexivity].
Qed.

Lemma chain_direct {T : Type} fs f rest (v v' : T) x :
  succeeds fs v v' -> f v' = Ok x -> chain (stored fs ++ (Direct, f) :: rest) v = UB.
Proof. intros H Hf. rewrite (chain_prefix _ _ _ _ H). cbn [chain]. rewrite Hf. reflexivity. Qed.

(** Conversely the result tells what happened. *)
Lemma chain_inversion {T : Type} steps (v : T) r :
  (forall f x y, In f (map snd steps) -> f x = Ok y -> y <> Bad Okay) ->
  chain steps v = Ok r ->
  (exists v' fs, r = Value v' /\ steps = stored fs /\ succeeds fs v v') \/
  (exists s fs f rest v', r = Bad s /\ ok s = false /\ steps = stored fs ++ (ViaVariable, f) :: rest /\
     succeeds fs v v' /\ f v' = Ok (Bad s)).
Proof.
  revert v. induction steps as [|[how f] steps IH]; intros v Hw H.
  - cbn in H. injection H as <-. left. exists v, []. repeat split. constructor.
  - cbn [chain] in H. destruct (f v) as [x| |] eqn:E; try discriminate. cbn [obind] in H.
    destruct how; [discriminate|]. destruct x as [x|s]; cbn in H.
    + destruct (IH x) as [(v' & fs & -> & -> & Hs)|(s & fs & g & rest & v' & -> & Hs & -> & H1 & H2)].
      * intros g y z Hg. apply Hw. right. exact Hg.
      * exact H.
      * left. exists v', (f :: fs). repeat split. econstructor; eassumption.
      * right. exists s, (f :: fs), g, rest, v'. repeat split; try assumption.
        econstructor; eassumption.
    + right. destruct s as [|a b c].
      * exfalso. eapply (Hw f v (Bad Okay)); [left; reflexivity|exact E|reflexivity].
      * cbn in H. injection H as <-. exists (Err a b c), [], f, steps, v.
        repeat split; [constructor|exact E].
Qed.

(** Decimal numbers. *)
Lemma decimal_inj a b : decimal a = decimal b -> a = b.
Proof.
  unfold decimal. intro H.
  assert (N : forall z, Z.to_int z <> Pos Nil /\ Z.to_int z <> Neg Nil).
  { intros [|p|p]; cbn; split; try discriminate; intro E; injection E as E;
      pose proof (DecimalPos.Unsigned.to_uint_nonnil p); contradiction. }
  apply (f_equal NilZero.int_of_string) in H.
  rewrite !NilZero.isi in H by apply N. injection H as H.
  rewrite <- (of_to a), <- (of_to b), H. reflexivity.
Qed.
Lemma uint_char u c : occurs c (NilEmpty.string_of_uint u) ->
  exists d, (d < 10)%nat /\ nat_of_ascii c = (48 + d)%nat.
Proof.
  induction u; cbn; [contradiction|intros [->|H]; [|auto]..];
    [exists 0|exists 1|exists 2|exists 3|exists 4|exists 5|exists 6|exists 7|exists 8|exists 9];
    (split; [lia|reflexivity]).
Qed.
Lemma decimal_char z c : occurs c (decimal z) -> c <> ":"%char /\ c <> ">"%char.
Proof.
  assert (K : forall u, occurs c (NilZero.string_of_uint u) -> c <> ":"%char /\ c <> ">"%char).
  { intros u H. assert (U : exists d, (d < 10)%nat /\ nat_of_ascii c = (48 + d)%nat).
    { destruct u; try (apply uint_char in H; exact H).
      cbn in H. destruct H as [->|[]]. exists 0. split; [lia|reflexivity]. }
    destruct U as (d & Hd & E). split; intros ->; cbn in E; lia. }
  unfold decimal, NilZero.string_of_int. destruct (Z.to_int z) as [u|u]; [apply K|].
  intros [->|H]; [split; discriminate|apply (K u), H].
Qed.

(** Splitting at the first separator. *)
Lemma split_first c s1 s2 t1 t2 : ~ occurs c s1 -> ~ occurs c s2 ->
  (s1 ++ String c t1 = s2 ++ String c t2)%string -> s1 = s2 /\ t1 = t2.
Proof.
  revert s2. induction s1 as [|a s1 IH]; intros [|b s2] H1 H2 E; cbn in *.
  - injection E as E. auto.
  - injection E as <- E. tauto.
  - injection E as -> E. tauto.
  - injection E as -> E. destruct (IH s2) as [-> ->]; tauto.
Qed.

Lemma what_ok s : what s = "OKAY"%string <-> ok s = true.
Proof. destruct s; cbn; split; intro; (reflexivity || discriminate). Qed.
Lemma what_inj f l m f' l' m' : ~ occurs ":" f -> ~ occurs ":" f' ->
  what (make_at_line f l m) = what (make_at_line f' l' m') -> f = f' /\ l = l' /\ m = m'.
Proof.
  intros Hf Hf' E. cbn in E. injection E as E.
  apply (split_first ":") in E as [-> E]; try assumption. split; [reflexivity|].
  apply (split_first ">") in E as [E1 E2].
  - injection E2 as E2. split; [apply decimal_inj, E1|exact E2].
  - intro H. apply decimal_char in H. tauto.
  - intro H. apply decimal_char in H. tauto.
Qed.
Lemma what_same_file f l m l' m' :
  what (make_at_line f l m) = what (make_at_line f l' m') -> l = l' /\ m = m'.
Proof.
  intros E. cbn in E. injection E as E.
  assert (C : forall x y z : string, (x ++ y = x ++ z)%string -> y = z).
  { induction x as [|a x IH]; cbn; intros y z H; [exact H|]. injection H as H. apply IH, H. }
  apply C in E. injection E as E.
  apply (split_first ">") in E as [E1 E2].
  - injection E2 as E2. split; [apply decimal_inj, E1|exact E2].
  - intro H. apply decimal_char in H. tauto.
  - intro H. apply decimal_char in H. tauto.
Qed.

Lemma sapp_assoc (a b c : string) : ((a ++ b) ++ c = a ++ (b ++ c))%string.
Proof. induction a as [|x a IH]; cbn; [reflexivity|]. rewrite IH. reflexivity. Qed.
Lemma assert_text_message file line cond message : contains (assert_text file line cond message) message.
Proof.
  exists ("<" ++ file ++ ":" ++ decimal line ++ "> - ReAssertion failed: (" ++ cond ++ "). Message: ")%string, ""%string.
  unfold assert_text. rewrite !sapp_assoc. do 6 f_equal.
  cbn. assert (N : forall s, (s ++ "")%string = s) by (induction s; cbn; congruence). rewrite N. reflexivity.
Qed.
Lemma contains_trans a b c : contains a b -> contains b c -> contains a c.
Proof.
  intros (x & y & ->) (x' & y' & ->). exists (x ++ x')%string, (y' ++ y)%string. rewrite !sapp_assoc. reflexivity.
Qed.

Lemma check_expr {S : Type} file line text (e : S -> status * S) s :
  let first := fst (e s) in let s1 := snd (e s) in
  let second := fst (e s1) in let s2 := snd (e s1) in
  snd (check_status_expr file line text e s) = s2 /\
  (ok second = true -> fst (check_status_expr file line text e s) = None) /\
  (ok second = false -> exists t, fst (check_status_expr file line text e s) = Some t /\ contains t (what first)).
Proof.
  cbv zeta. unfold check_status_expr. destruct (e s) as [first s1] eqn:E. cbn [fst snd].
  destruct (e s1) as [second s2] eqn:E2. cbn [fst snd]. split; [reflexivity|]. split; intros ->; [reflexivity|].
  eexists. split; [reflexivity|]. eapply contains_trans; [apply assert_text_message|].
  unfold red. eapply contains_trans; [eexists _, _; reflexivity|].
  exists ("{" ++ text ++ ".what() == ")%string, "}"%string. rewrite !sapp_assoc. reflexivity.
Qed.
Lemma check_pure {S : Type} file line text st (s : S) :
  snd (check_status_expr file line text (fun s => (st, s)) s) = s /\
  (fst (check_status_expr file line text (fun s => (st, s)) s) = None <-> ok st = true) /\
  (ok st = false -> exists t, fst (check_status_expr file line text (fun s => (st, s)) s) = Some t /\
     contains t (what st)) /\
  (check_status_ok st = Ok tt <-> ok st = true) /\ (check_status_ok st = Throw <-> ok st = false).
Proof.
  destruct (check_expr file line text (fun s : S => (st, s)) s) as (H1 & H2 & H3). cbn [fst snd] in *.
  split; [exact H1|]. split; [|split; [exact H3|]].
  - destruct (ok st) eqn:E; [tauto|]. destruct (H3 eq_refl) as (t & -> & _). split; discriminate.
  - destruct st; cbn; repeat split; congruence.
Qed.
Lemma return_if_not_ok_spec {S : Type} (e k : S -> status * S) s :
  (ok (fst (e s)) = false -> return_if_not_ok e k s = e s) /\
  (ok (fst (e s)) = true -> return_if_not_ok e k s = k (snd (e s))).
Proof.
  unfold return_if_not_ok. destruct (e s) as [st s1]. cbn [fst snd]. split; intros ->; reflexivity.
Qed.
