(** Proofs about the test directories. *)
From Coq Require Import ZArith List Ascii Lia Bool.
From Verif Require Import Cpp UuidModel UuidProofs TdModel TdSpec.
Import ListNotations.

Lemma text_eqb_eq a : forall b, text_eqb a b = true <-> a = b.
Proof.
  induction a as [|x a IH]; intros [|y b]; cbn; try (split; congruence).
  rewrite andb_true_iff, Ascii.eqb_eq, IH. split; [intros [-> ->]; reflexivity|intros [= -> ->]; split; reflexivity].
Qed.
Lemma place_eqb_eq p : forall q, place_eqb p q = true <-> p = q.
Proof.
  induction p as [|x p IH]; intros [|y q]; cbn; try (split; congruence).
  rewrite andb_true_iff, text_eqb_eq, IH. split; [intros [-> ->]; reflexivity|intros [= -> ->]; split; reflexivity].
Qed.
Lemma beneath_under p : forall q, beneath p q = true <-> under p q.
Proof.
  induction p as [|x p IH]; intro q; cbn.
  - split; [intros _; exists q; reflexivity|reflexivity].
  - destruct q as [|y q]; [split; [discriminate|intros [r E]; discriminate]|].
    rewrite andb_true_iff, text_eqb_eq, IH. split.
    + intros [-> [r ->]]. exists r. reflexivity.
    + intros [r [= -> ->]]. split; [reflexivity|exists r; reflexivity].
Qed.
Lemma under_refl p : under p p. Proof. exists []. rewrite app_nil_r. reflexivity. Qed.
Lemma under_more p q r : under p q -> under p (q ++ r).
Proof. intros [s ->]. exists (s ++ r). rewrite app_assoc. reflexivity. Qed.
Lemma under_trans p q r : under p q -> under q r -> under p r.
Proof. intros [s ->] [u ->]. exists (s ++ u). rewrite app_assoc. reflexivity. Qed.
(** Two places in one directory, one under the other, are the same. *)
Lemma under_sibling home a b r : under (home ++ [a]) ((home ++ [b]) ++ r) -> a = b.
Proof. intros [s E]. rewrite <- !app_assoc in E. apply app_inv_head in E. injection E as ->. reflexivity. Qed.
Lemma under_home home a : ~ under (home ++ [a]) home.
Proof. intros [s E]. apply (f_equal (@length text)) in E. rewrite !app_length in E. cbn in E. lia. Qed.

(** The text of an id is one name. *)
Lemma check_no_slash s : forall i, check_chars i s = true -> ~ In slash s.
Proof.
  induction s as [|c s IH]; intros i H; [intros []|]. cbn [check_chars] in H. apply andb_true_iff in H as [H1 H2].
  intros [->|J]; [|exact (IH _ H2 J)]. destruct (dash_at i); discriminate H1.
Qed.
Lemma id_text u : uuid_wf u -> length (to_string u) = 36%nat /\ ~ In slash (to_string u).
Proof. intro H. destruct (text_of_wf u H) as (L & C & _). split; [exact L|exact (check_no_slash _ _ C)]. Qed.
Lemma slash_names_one s : forall name, ~ In slash s -> slash_names_from name s = [name ++ s].
Proof.
  induction s as [|c s IH]; intros name H; cbn; [rewrite app_nil_r; reflexivity|].
  destruct (Ascii.eqb c slash) eqn:E; [apply Ascii.eqb_eq in E; exfalso; apply H; left; exact E|].
  rewrite IH; [rewrite <- app_assoc; reflexivity|intro J; apply H; right; exact J].
Qed.
Lemma step_name p name : (2 < length name)%nat -> step p name = p ++ [name].
Proof.
  intro L. unfold step. destruct (text_eqb name []) eqn:E1; [apply text_eqb_eq in E1; subst; cbn in L; lia|].
  destruct (text_eqb name [dot]) eqn:E2; [apply text_eqb_eq in E2; subst; cbn in L; lia|].
  destruct (text_eqb name [dot; dot]) eqn:E3; [apply text_eqb_eq in E3; subst; cbn in L; lia|]. reflexivity.
Qed.
Lemma locate_append cwd p name : ~ In slash name -> (2 < length name)%nat -> locate cwd (path_append p name) = locate cwd p ++ [name].
Proof.
  intros N L. unfold locate, path_append. cbn [names absolute]. unfold slash_names. rewrite (slash_names_one _ _ N), fold_left_app.
  cbn [app fold_left]. apply step_name. exact L.
Qed.
Lemma locate_id cwd p u : uuid_wf u -> locate cwd (path_append p (to_string u)) = locate cwd p ++ [to_string u].
Proof. intro H. destruct (id_text u H) as [L N]. apply locate_append; [exact N|rewrite L; repeat constructor]. Qed.

(** ** Making one *)
Lemma removelast_app1 {A} (l : list A) x : removelast (l ++ [x]) = l.
Proof. apply removelast_last. Qed.
Lemma make_spec ids temp cwd next t : uuid_wf (ids next) ->
  let home := locate cwd temp in let here := home ++ [to_string (ids next)] in
  ((t home = Some Dir /\ t here = None) -> exists t',
    make_directory ids temp cwd next t = Ok (path_append temp (to_string (ids next)), t') /\ t' here = Some Dir /\ forall q, q <> here -> t' q = t q) /\
  (~ (t home = Some Dir /\ t here = None) -> make_directory ids temp cwd next t = Throw).
Proof.
  intros W home here. unfold make_directory, temp_directory_path, is_directory. fold home. cbn [obind].
  assert (P := locate_id cwd temp _ W). fold home here in P. split.
  - intros [H1 H2]. rewrite H1. cbn [reassert obind]. rewrite P. unfold create_directory. rewrite H2.
    unfold is_directory. unfold here at 1. rewrite removelast_app1, H1. cbn [obind reassert].
    eexists. split; [reflexivity|]. split; [rewrite (proj2 (place_eqb_eq _ _) eq_refl); reflexivity|].
    intros q Q. destruct (place_eqb q here) eqn:E; [apply place_eqb_eq in E; congruence|reflexivity].
  - intro H. destruct (t home) as [[]|] eqn:H1; try reflexivity. cbn [reassert obind]. rewrite P. unfold create_directory.
    destruct (t here) as [[]|] eqn:H2; try reflexivity. exfalso. apply H. split; reflexivity.
Qed.
(** What a directory just made is, whenever it is. *)
Lemma make_inv ids temp cwd next t p t' : uuid_wf (ids next) -> make_directory ids temp cwd next t = Ok (p, t') ->
  let home := locate cwd temp in let here := home ++ [to_string (ids next)] in
  p = path_append temp (to_string (ids next)) /\ t home = Some Dir /\ t here = None /\ t' here = Some Dir /\ forall q, q <> here -> t' q = t q.
Proof.
  intros W E home here. destruct (make_spec ids temp cwd next t W) as [H1 H2]. fold home here in H1, H2.
  destruct (t home) as [n|] eqn:A; [destruct n|]; [|exfalso; rewrite H2 in E; [discriminate|intros [? ?]; discriminate]..].
  destruct (t here) eqn:B; [exfalso; rewrite H2 in E; [discriminate|intros [? ?]; discriminate]|].
  destruct (H1 (conj eq_refl eq_refl)) as (t1 & E1 & H3 & H4). rewrite E in E1. injection E1 as -> ->. auto.
Qed.

(** ** Nothing is left behind *)
Section Leaves.
Context (ids : nat -> uuid) (temp : path).
Hypothesis W : forall n, uuid_wf (ids n).
Hypothesis A : absolute temp = true.
Lemma locate_absolute p cwd cwd' : absolute p = true -> locate cwd p = locate cwd' p.
Proof. intro H. unfold locate. rewrite H. reflexivity. Qed.
Definition home := locate [] temp.
Definition in_home (p : path) : Prop := exists n, p = path_append temp (to_string (ids n)).
Lemma in_home_place p cwd : in_home p -> exists n, p = path_append temp (to_string (ids n)) /\ locate cwd p = home ++ [to_string (ids n)].
Proof. intros [n ->]. exists n. split; [reflexivity|]. rewrite (locate_id _ _ _ (W n)). f_equal. apply locate_absolute, A. Qed.
Definition outside (held : list path) (q : place) : Prop := forall p, In p held -> ~ under (locate [] p) q.
Definition sound_outside (held : list path) (t : tree) : Prop := forall q name, outside held (q ++ [name]) -> t (q ++ [name]) <> None -> t q = Some Dir.
Lemma outside_up held q r : outside held (q ++ r) -> outside held q.
Proof. intros O p I U. exact (O p I (under_more _ _ _ U)). Qed.
Lemma sound_agree held t t' : (forall q, outside held q -> t' q = t q) -> sound_outside held t -> sound_outside held t'.
Proof. intros G H q name O. rewrite (G _ O), (G _ (outside_up _ _ _ O)). exact (H q name O). Qed.
Lemma nothing_below held t p : sound_outside held t -> t p = None -> forall r, outside held (p ++ r) -> t (p ++ r) = None.
Proof.
  intros H N r. induction r as [|x r IH] using rev_ind; intro O; [rewrite app_nil_r; exact N|].
  rewrite app_assoc in O |- *. destruct (t ((p ++ r) ++ [x])) eqn:E; [exfalso|reflexivity].
  assert (K := H _ _ O ltac:(rewrite E; discriminate)). rewrite (IH (outside_up _ _ _ O)) in K. discriminate.
Qed.
Lemma in_home_absolute p : in_home p -> absolute p = true.
Proof. intros [n ->]. exact A. Qed.
Lemma run_outside a : forall held w, Forall in_home held -> sound_outside held (w_tree w) ->
  forall q, outside held q -> w_tree (snd (run ids temp held a w)) q = w_tree w q.
Proof.
  induction a as [| |body IHb rest IHr|k to rest IH|cwd rest IH|rest IH]; intros held w F S q O; cbn [run]; try reflexivity.
  - destruct (make_directory ids temp (w_cwd w) (w_next w) (w_tree w)) as [[p t]| |] eqn:M; try reflexivity.
    destruct (make_inv _ _ _ _ _ _ _ (W _) M) as (Ep & Hh & Hn & Ht & Hq).
    assert (Ih : in_home p) by (exists (w_next w); exact Ep).
    set (here := locate (w_cwd w) temp ++ [to_string (ids (w_next w))]) in *.
    assert (L : forall cwd, locate cwd p = here) by (intro cwd; rewrite (locate_absolute _ cwd (w_cwd w) (in_home_absolute _ Ih)), Ep; apply (locate_id _ _ _ (W _))).
    assert (S1 : sound_outside (p :: held) t).
    { intros q' name O' N. assert (Q : q' ++ [name] <> here).
      { intro E. apply (O' p (or_introl eq_refl)). rewrite L, E. apply under_refl. }
      assert (Q' : q' <> here).
      { intro E. apply (O' p (or_introl eq_refl)). rewrite L, E. apply under_more, under_refl. }
      rewrite (Hq _ Q) in N. rewrite (Hq _ Q'). apply (S q' name); [|exact N]. intros p' I. apply O'. right. exact I. }
    assert (B := IHb (p :: held) (World (w_cwd w) (Datatypes.S (w_next w)) t) (Forall_cons _ Ih F) S1). cbn [w_tree] in B.
    destruct (run ids temp (p :: held) body (World (w_cwd w) (Datatypes.S (w_next w)) t)) as [ended w1]. cbn [snd] in B.
    assert (G : forall q', outside held q' -> destroy_directory p (w_cwd w1) (w_tree w1) q' = w_tree w q').
    { intros q' O'. unfold destroy_directory, remove_all. rewrite L. destruct (beneath here q') eqn:E.
      - apply beneath_under in E as [r ->]. symmetry. apply (nothing_below held); [exact S|exact Hn|exact O'].
      - assert (U : ~ under here q') by (rewrite <- beneath_under, E; discriminate).
        rewrite B, Hq; [reflexivity|intros ->; exact (U (under_refl _))|].
        intros p' [<-|I]; [rewrite L; exact U|exact (O' p' I)]. }
    destruct ended; [|exact (G q O)].
    rewrite IHr; [exact (G q O)|exact F|exact (sound_agree _ _ _ G S)|exact O].
  - destruct (nth_error held k) as [p|] eqn:K; [|reflexivity]. assert (I := nth_error_In _ _ K).
    assert (Ih := proj1 (Forall_forall _ _) F p I).
    assert (G : forall q', outside held q' -> (if beneath (locate (w_cwd w) p) q' then to q' else w_tree w q') = w_tree w q').
    { intros q' O'. rewrite (locate_absolute _ _ [] (in_home_absolute _ Ih)). destruct (beneath (locate [] p) q') eqn:E; [|reflexivity].
      exfalso. apply (O' p I), beneath_under, E. }
    rewrite IH; [exact (G q O)|exact F|exact (sound_agree _ _ _ G S)|exact O].
  - apply (IH held (World cwd (w_next w) (w_tree w))); assumption.
  - apply (IH held (World (w_cwd w) (Datatypes.S (w_next w)) (w_tree w))); assumption.
Qed.
Lemma leaves_nothing a w : sound_tree (w_tree w) -> forall q, w_tree (snd (run ids temp [] a w)) q = w_tree w q.
Proof. intros H q. apply run_outside; [constructor|intros q' n _; apply H|intros p []]. Qed.

(** ** Directories do not disturb each other *)
Lemma run_next a : forall held w, (w_next w <= w_next (snd (run ids temp held a w)) <= w_next w + uses a)%nat.
Proof.
  induction a as [| |body IHb rest IHr|k to rest IH|cwd rest IH|rest IH]; intros held w; cbn [run snd uses]; try lia.
  - destruct (make_directory ids temp (w_cwd w) (w_next w) (w_tree w)) as [[p t]| |]; cbn [snd]; try lia.
    assert (B := IHb (p :: held) (World (w_cwd w) (S (w_next w)) t)). cbn [w_next] in B.
    destruct (run ids temp (p :: held) body (World (w_cwd w) (S (w_next w)) t)) as [ended w1]. cbn [snd] in B.
    destruct ended; cbn [snd w_next]; [|lia].
    assert (R := IHr held (World (w_cwd w1) (w_next w1) (destroy_directory p (w_cwd w1) (w_tree w1)))). cbn [w_next] in R. lia.
  - destruct (nth_error held k); cbn [snd]; [|lia]. apply (IH held (World _ _ _)).
  - apply (IH held (World _ _ _)).
  - assert (R := IH held (World (w_cwd w) (S (w_next w)) (w_tree w))). cbn [w_next] in R. lia.
Qed.
Lemma run_keeps a : forall held w q, Forall in_home held ->
  (forall k p, changes k a -> nth_error held k = Some p -> ~ under (locate [] p) q) ->
  (forall n, (w_next w <= n < w_next w + uses a)%nat -> ~ under (home ++ [to_string (ids n)]) q) ->
  w_tree (snd (run ids temp held a w)) q = w_tree w q.
Proof.
  induction a as [| |body IHb rest IHr|k to rest IH|cwd rest IH|rest IH]; intros held w q F C N; cbn [run]; cbn [uses] in N; try reflexivity.
  - destruct (make_directory ids temp (w_cwd w) (w_next w) (w_tree w)) as [[p t]| |] eqn:M; try reflexivity.
    destruct (make_inv _ _ _ _ _ _ _ (W _) M) as (Ep & Hh & Hn & Ht & Hq).
    assert (Ih : in_home p) by (exists (w_next w); exact Ep).
    assert (L : forall cwd, locate cwd p = home ++ [to_string (ids (w_next w))]).
    { intro cwd. rewrite (locate_absolute _ cwd [] (in_home_absolute _ Ih)), Ep. apply (locate_id _ _ _ (W _)). }
    rewrite (locate_absolute temp _ [] A) in Hq. fold home in Hq.
    assert (U := N (w_next w) ltac:(lia)).
    assert (B := IHb (p :: held) (World (w_cwd w) (S (w_next w)) t) q (Forall_cons _ Ih F)). cbn [w_tree w_next] in B.
    assert (X := run_next body (p :: held) (World (w_cwd w) (S (w_next w)) t)). cbn [w_next] in X.
    destruct (run ids temp (p :: held) body (World (w_cwd w) (S (w_next w)) t)) as [ended w1]. cbn [snd] in B, X.
    assert (G : destroy_directory p (w_cwd w1) (w_tree w1) q = w_tree w q).
    { unfold destroy_directory, remove_all. rewrite L. destruct (beneath _ q) eqn:E; [exfalso; apply U, beneath_under, E|].
      rewrite B; [apply Hq; intros ->; exact (U (under_refl _))| |intros n Hle; apply N; lia].
      intros [|k] p' Hc Hk; cbn in Hk; [injection Hk as <-; rewrite L; exact U|].
      exact (C k p' (or_introl Hc) Hk). }
    destruct ended; [|exact G].
    rewrite IHr; [exact G|exact F| |cbn [w_next]; intros n Hle; apply N; lia].
    intros k p' Hc. exact (C k p' (or_intror Hc)).
  - destruct (nth_error held k) as [p|] eqn:K; [|reflexivity]. assert (I := nth_error_In _ _ K).
    assert (Ih := proj1 (Forall_forall _ _) F p I).
    rewrite IH; [|exact F|intros k' p' Hc; exact (C k' p' (or_intror Hc))|exact N]. cbn [w_tree].
    destruct (beneath (locate (w_cwd w) p) q) eqn:E; [|reflexivity]. exfalso.
    apply (C k p (or_introl eq_refl) K), beneath_under. rewrite (locate_absolute _ [] (w_cwd w) (in_home_absolute _ Ih)). exact E.
  - rewrite IH; [reflexivity|exact F|exact C|exact N].
  - rewrite IH; [reflexivity|exact F|exact C|]. cbn [w_next]. intros n Hle. apply N. lia.
Qed.
Context (limit : nat).
Hypothesis D : distinct limit ids.
Lemma id_under i j r : (i < limit)%nat -> (j < limit)%nat -> under (home ++ [to_string (ids i)]) ((home ++ [to_string (ids j)]) ++ r) -> i = j.
Proof. intros Li Lj U. apply under_sibling in U. apply (D _ _ Li Lj), (to_string_inj _ _ (W i) (W j) U). Qed.
Lemma held_paths js : map (fun j => Path (absolute temp) (names temp ++ [to_string (ids j)])) js = map (fun j => path_append temp (to_string (ids j))) js.
Proof.
  apply map_ext. intro j. unfold path_append, slash_names. rewrite (slash_names_one _ _ (proj2 (id_text _ (W j)))). reflexivity.
Qed.
Lemma keeps a held w k p q : held_before ids temp (w_next w) held -> (w_next w + uses a <= limit)%nat -> nth_error held k = Some p -> ~ changes k a -> under (locate [] p) q ->
  w_tree (snd (run ids temp held a w)) q = w_tree w q.
Proof.
  intros (js & E & ND & B) Lm K NC [r ->]. rewrite held_paths in E. subst held. rewrite nth_error_map in K. destruct (nth_error js k) as [j|] eqn:J; [|discriminate].
  injection K as <-. rewrite (locate_id _ _ _ (W j)). fold home.
  apply run_keeps.
  - apply Forall_forall. intros p I. apply in_map_iff in I as (i & <- & _). exists i. reflexivity.
  - intros k' p' Hc Hk U. rewrite nth_error_map in Hk. destruct (nth_error js k') as [j'|] eqn:J'; [|discriminate]. injection Hk as <-.
    rewrite (locate_id _ _ _ (W j')) in U. fold home in U.
    assert (X := proj1 (Forall_forall _ _) B j (nth_error_In _ _ J)). assert (X' := proj1 (Forall_forall _ _) B j' (nth_error_In _ _ J')). cbn in X, X'.
    apply id_under in U; [|lia..]. subst j'.
    assert (k = k'); [|subst; contradiction].
    apply (proj1 (NoDup_nth_error js) ND); [apply nth_error_Some; rewrite J; discriminate|congruence].
  - intros n Hn U. assert (X := proj1 (Forall_forall _ _) B j (nth_error_In _ _ J)). cbn in X. apply id_under in U; lia.
Qed.

(** ** A proper test comes to its end *)
Lemma run_ends a : forall held w, held_before ids temp (w_next w) held -> (w_next w + uses a <= limit)%nat -> proper (length held) a ->
  w_tree w home = Some Dir -> (forall n, (w_next w <= n < limit)%nat -> w_tree w (home ++ [to_string (ids n)]) = None) ->
  let w' := snd (run ids temp held a w) in
  fst (run ids temp held a w) = true /\ w_tree w' home = Some Dir /\ forall n, (w_next w' <= n < limit)%nat -> w_tree w' (home ++ [to_string (ids n)]) = None.
Proof.
  induction a as [| |body IHb rest IHr|k to rest IH|cwd rest IH|rest IH]; intros held w HB Lm P Hh Hf; cbn [run proper uses] in *.
  - repeat split; assumption.
  - destruct P.
  - destruct P as [P1 P2].
    assert (Hh' : w_tree w (locate (w_cwd w) temp) = Some Dir) by (rewrite (locate_absolute temp _ [] A); exact Hh).
    assert (Hf' : w_tree w (locate (w_cwd w) temp ++ [to_string (ids (w_next w))]) = None) by (rewrite (locate_absolute temp _ [] A); apply Hf; lia).
    destruct (proj1 (make_spec ids temp (w_cwd w) (w_next w) (w_tree w) (W _)) (conj Hh' Hf')) as (t & M & Ht & Hq). rewrite M. clear Hh' Hf'.
    rewrite (locate_absolute temp _ [] A) in Ht, Hq. fold home in Ht, Hq.
    set (p := path_append temp (to_string (ids (w_next w)))) in *.
    assert (L : forall cwd, locate cwd p = home ++ [to_string (ids (w_next w))]).
    { intro cwd. rewrite (locate_absolute p cwd [] A). apply (locate_id _ _ _ (W _)). }
    destruct HB as (js & Eh & ND & B).
    assert (HB' : held_before ids temp (S (w_next w)) (p :: held)).
    { exists (w_next w :: js). split; [rewrite held_paths; cbn [map]; rewrite <- held_paths, <- Eh; reflexivity|]. split.
      - constructor; [|exact ND]. intro I. assert (X := proj1 (Forall_forall _ _) B _ I). cbn in X. lia.
      - constructor; [lia|]. eapply Forall_impl; [|exact B]. cbn. intros; lia. }
    destruct (IHb (p :: held) (World (w_cwd w) (S (w_next w)) t) HB' ltac:(cbn [w_next]; lia) P1) as (E1 & E2 & E3).
    { cbn [w_tree]. rewrite Hq; [exact Hh|]. intro E. apply (f_equal (@length text)) in E. rewrite app_length in E. cbn in E. lia. }
    { cbn [w_tree w_next]. intros n Hn. rewrite Hq; [apply Hf; lia|]. intro E. apply app_inv_head in E. injection E as E.
      apply (to_string_inj _ _ (W _) (W _)), D in E; lia. }
    assert (X := run_next body (p :: held) (World (w_cwd w) (S (w_next w)) t)). cbn [w_next] in X.
    destruct (run ids temp (p :: held) body (World (w_cwd w) (S (w_next w)) t)) as [ended w1]. cbn [fst snd] in E1, E2, E3, X. subst ended.
    apply (IHr held).
    + exists js. split; [exact Eh|]. split; [exact ND|]. eapply Forall_impl; [|exact B]. cbn. intros; lia.
    + cbn [w_next]. lia.
    + exact P2.
    + cbn [w_tree]. unfold destroy_directory, remove_all. rewrite L. destruct (beneath _ home) eqn:E; [|exact E2].
      exfalso. apply beneath_under in E. exact (under_home _ _ E).
    + cbn [w_tree w_next]. intros n Hn. unfold destroy_directory, remove_all. destruct (beneath _ _); [reflexivity|]. apply E3, Hn.
  - destruct P as [P1 P2]. destruct (nth_error held k) as [p|] eqn:K; [|exfalso; apply nth_error_None in K; lia].
    destruct HB as (js & Eh & ND & B). rewrite held_paths in Eh. subst held. rewrite nth_error_map in K. destruct (nth_error js k) as [j|] eqn:J; [|discriminate]. injection K as <-.
    rewrite (locate_absolute (path_append _ _) _ [] A), (locate_id _ _ _ (W j)). fold home.
    assert (X := proj1 (Forall_forall _ _) B j (nth_error_In _ _ J)). cbn in X.
    apply IH; [exists js; split; [symmetry; apply held_paths|split; assumption]|exact Lm|exact P2| |].
    + cbn [w_tree]. destruct (beneath _ home) eqn:E; [|exact Hh]. exfalso. apply beneath_under in E. exact (under_home _ _ E).
    + cbn [w_tree w_next]. intros n Hn. destruct (beneath _ _) eqn:E; [|apply Hf, Hn]. exfalso. apply beneath_under in E.
      rewrite <- (app_nil_r (home ++ [to_string (ids n)])) in E. apply id_under in E; lia.
  - apply (IH held); assumption.
  - apply (IH held).
    + destruct HB as (js & Eh & ND & B). exists js. split; [exact Eh|]. split; [exact ND|]. cbn [w_next]. eapply Forall_impl; [|exact B]. cbn. intros; lia.
    + cbn [w_next]. lia.
    + exact P.
    + exact Hh.
    + cbn [w_tree w_next]. intros n Hn. apply Hf. lia.
Qed.
End Leaves.
