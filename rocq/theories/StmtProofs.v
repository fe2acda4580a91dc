From Coq Require Import String.
From Verif Require Import Cpp StmtModel StmtSpec.

Section P.
Context {A : Type} (answer : nat -> bool).
Implicit Types w : world A.

(** Between statements nothing is pending, and the ids sent are those made, in order. *)
Definition ids (us : list (list (primitive A) * bool)) : list nat := map prim_id (flat_map fst us).
Definition good w : Prop :=
  pending w = [] /\ ids (updates w) = seq 0 (ids_made w) /\ List.length (updates w) = ids_made w.

Lemma flat_ids a b : ids (a ++ b) = ids a ++ ids b.
Proof. unfold ids. rewrite flat_map_app, map_app. reflexivity. Qed.

Lemma view_object_case (o : view_obj A) w : good w ->
  exists q, shown q = (the_object o, user_defined_name o, file_name o, line_number o) /\
  let r := view_object answer o w in
  fst r = answer (List.length (updates w)) /\
  updates (snd r) = updates w ++ [([q], fst r)] /\ good (snd r).
Proof.
  intros (Hp & Hi & Hl). unfold view_object, flush. cbn [pending ids_made updates fst snd]. rewrite Hp. cbn [app].
  eexists. split; [|split; [reflexivity|split; [reflexivity|]]]; [reflexivity|].
  split; [reflexivity|]. cbn [updates ids_made]. split.
  - rewrite flat_ids, Hi, seq_S. reflexivity.
  - rewrite app_length, Hl. cbn. lia.
Qed.

Lemma stream_case xs w : good w ->
  exists us, let r := stream_objects answer xs w in
  updates (snd r) = updates w ++ us /\ good (snd r) /\
  sends (map (fun x => (x, None, "Unknown file"%string, 0%Z)) xs) (fst r) us /\
  (forall i u, nth_error us i = Some u -> snd u = answer (List.length (updates w) + i)).
Proof.
  revert w. induction xs as [|x xs IH]; intros w Hw.
  - exists []. cbn. rewrite app_nil_r. repeat split; try apply Hw; [constructor|].
    intros [|i] u H; discriminate.
  - cbn [stream_objects map].
    destruct (view_object_case (ViewObj x None "Unknown file" 0) w Hw) as (q & Hq & Hf & Hu & Hg).
    destruct (view_object answer (ViewObj x None "Unknown file" 0) w) as [ok w1]. cbn [fst snd] in *.
    destruct ok.
    + destruct (IH w1 Hg) as (us & E & G & S & N). exists (([q], true) :: us). cbn zeta in *.
      split; [rewrite E, Hu, <- app_assoc; reflexivity|]. split; [exact G|]. split.
      * constructor; [exact Hq|exact S].
      * intros [|i] u H; cbn in H.
        -- injection H as <-. rewrite Nat.add_0_r. exact Hf.
        -- rewrite (N i u H), Hu, app_length. cbn. f_equal. lia.
    + exists [([q], false)]. cbn [fst snd]. split; [exact Hu|]. split; [exact Hg|]. split.
      * constructor. exact Hq.
      * intros [|i] u H; cbn in H; [|destruct i; discriminate]. injection H as <-.
        rewrite Nat.add_0_r. exact Hf.
Qed.

Lemma exec_case file line s w : good w ->
  exists us, let r := exec answer file line s w in
  updates (snd r) = updates w ++ us /\ good (snd r) /\
  sends (shows file line s) (fst r) us /\
  (forall i u, nth_error us i = Some u -> snd u = answer (List.length (updates w) + i)).
Proof.
  intro Hw.
  assert (One : forall o, exists us, let r := view_object answer o w in
    updates (snd r) = updates w ++ us /\ good (snd r) /\
    sends [(the_object o, user_defined_name o, file_name o, line_number o)] (fst r) us /\
    (forall i u, nth_error us i = Some u -> snd u = answer (List.length (updates w) + i))).
  { intro o. destruct (view_object_case o w Hw) as (q & Hq & Hf & Hu & Hg).
    destruct (view_object answer o w) as [ok w1]. cbn [fst snd] in *.
    exists [([q], ok)]. split; [exact Hu|]. split; [exact Hg|]. split.
    - destruct ok; [constructor; [exact Hq|constructor]|constructor; exact Hq].
    - intros [|i] u H; cbn in H; [|destruct i; discriminate]. injection H as <-.
      rewrite Nat.add_0_r. exact Hf. }
  destruct s as [x|x name|x name|x name name'|xs]; cbn [exec shows make_unnamed fst snd stream_name the_object file_name line_number].
  - exists []. rewrite app_nil_r. repeat split; try apply Hw; [constructor|]. intros [|i] u H; discriminate.
  - exact (One (ViewObj x (Some name) file line)).
  - destruct (One (ViewObj x (Some name) file line)) as (us & H).
    exists us. unfold make_named. destruct (view_object answer (ViewObj x (Some name) file line) w) as [ok w1]. exact H.
  - unfold make_named.
    destruct (view_object_case (ViewObj x (Some name) file line) w Hw) as (q & Hq & Hf & Hu & Hg).
    destruct (view_object answer (ViewObj x (Some name) file line) w) as [ok w1]. cbn [fst snd] in *.
    destruct ok.
    + unfold stream_name. cbn [the_object file_name line_number].
      destruct (view_object_case (ViewObj x (Some name') file line) w1 Hg) as (q' & Hq' & Hf' & Hu' & Hg').
      destruct (view_object answer (ViewObj x (Some name') file line) w1) as [ok' w2]. cbn [fst snd] in *.
      exists [([q], true); ([q'], ok')]. split; [rewrite Hu', Hu, <- app_assoc; reflexivity|].
      split; [exact Hg'|]. split.
      * constructor; [exact Hq|]. destruct ok'; [constructor; [exact Hq'|constructor]|constructor; exact Hq'].
      * intros [|[|i]] u H; cbn in H; [| |destruct i; discriminate]; injection H as <-.
        -- rewrite Nat.add_0_r. exact Hf.
        -- cbn [snd]. rewrite Hf', Hu, app_length. reflexivity.
    + exists [([q], false)]. split; [exact Hu|]. split; [exact Hg|]. split; [constructor; exact Hq|].
      intros [|i] u H; cbn in H; [|destruct i; discriminate]. injection H as <-.
      rewrite Nat.add_0_r. exact Hf.
  - apply stream_case, Hw.
Qed.

Lemma good_start : good (@start A).
Proof. repeat split. Qed.
Lemma good_run p w : good w -> good (run answer p w).
Proof.
  revert w. induction p as [|[[file line] s] p IH]; intros w Hw; [exact Hw|]. cbn [run].
  apply IH. destruct (exec_case file line s w Hw) as (us & _ & G & _). exact G.
Qed.

Lemma statement_sends (p : list (string * Z * @statement A)) file line s :
  exists us, let w := run answer p start in let r := exec answer file line s w in
  updates (snd r) = updates w ++ us /\ sends (shows file line s) (fst r) us /\
  (forall i u, nth_error us i = Some u -> snd u = answer (List.length (updates w) + i)) /\
  pending (snd r) = [].
Proof.
  cbv zeta. destruct (exec_case file line s (run answer p start) (good_run p start good_start)) as (us & E & G & S & N).
  exists us. cbn zeta in *. split; [exact E|]. split; [exact S|]. split; [exact N|apply G].
Qed.

Lemma sends_all_ok xs us ok : sends (A := A) xs ok us -> (forall u, In u us -> snd u = true) ->
  ok = true /\ map (fun u => map shown (fst u)) us = map (fun x => [x]) xs.
Proof.
  induction 1 as [|x xs q ok us Hq H IH|x xs q Hq]; intro T.
  - split; reflexivity.
  - destruct IH as [-> E]; [intros u Hu; apply T; right; exact Hu|]. split; [reflexivity|].
    cbn. rewrite Hq, E. reflexivity.
  - specialize (T ([q], false) (or_introl eq_refl)). discriminate.
Qed.

Lemma run_shows (p : list (string * Z * @statement A)) : (forall n, answer n = true) ->
  map (fun u => map shown (fst u)) (updates (run answer p start)) = map (fun x => [x]) (shows_all p) /\
  (forall u, In u (updates (run answer p start)) -> snd u = true).
Proof.
  intro T.
  assert (K : forall w, good w -> exists us, updates (run answer p w) = updates w ++ us /\
    map (fun u => map shown (fst u)) us = map (fun x => [x]) (shows_all p) /\ (forall u, In u us -> snd u = true)).
  { unfold shows_all. induction p as [|[[file line] s] p IH]; intros w Hw.
    - exists []. rewrite app_nil_r. repeat split. intros u [].
    - cbn [run flat_map fst snd].
      destruct (exec_case file line s w Hw) as (us & E & G & S & N). cbn zeta in *.
      assert (O : forall u, In u us -> snd u = true).
      { intros u Hu. apply In_nth_error in Hu as [i Hi]. rewrite (N i u Hi). apply T. }
      destruct (sends_all_ok _ _ _ S O) as [_ M].
      destruct (IH _ G) as (us' & E' & M' & O').
      exists (us ++ us'). split; [rewrite E', E, <- app_assoc; reflexivity|]. split.
      + rewrite !map_app, M, M'. reflexivity.
      + intros u Hu. apply in_app_or in Hu as [Hu|Hu]; auto. }
  destruct (K start good_start) as (us & E & M & O). cbn [start updates app] in E. rewrite E. auto.
Qed.

Lemma run_ids (p : list (string * Z * @statement A)) : NoDup (map prim_id (flat_map fst (updates (run answer p start)))) /\
  Forall (fun u => List.length (fst u) = 1) (updates (run answer p start)).
Proof.
  destruct (good_run p start good_start) as (_ & I & L). split; [unfold ids in I; rewrite I; apply seq_NoDup|].
  clear I L.
  assert (K : forall w, good w -> Forall (fun u => List.length (fst u) = 1) (updates w) ->
    Forall (fun u => List.length (fst u) = 1) (updates (run answer p w))).
  { induction p as [|[[file line] s] p IH]; intros w Hw F; [exact F|]. cbn [run].
    destruct (exec_case file line s w Hw) as (us & E & G & S & _). cbn zeta in *. apply IH; [exact G|].
    rewrite E. apply Forall_app. split; [exact F|]. clear - S. induction S; repeat constructor; assumption. }
  apply K; [apply good_start|constructor].
Qed.
End P.
