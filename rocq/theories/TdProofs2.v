(** Proofs about the paths of test files, the claims that fail, and the tracker. *)
From Coq Require Import ZArith List Ascii Lia Bool NArith Classical_Prop.
From Verif Require Import Cpp UuidModel UuidProofs FloatModel TdModel TdSpec TdProofs.
Import ListNotations.

(** ** Paths of files *)
Lemma file_name_eq ids n p ext : test_file_path ids n p ext = path_append p (file_name (ids n) ext).
Proof. destruct ext; [reflexivity|]. cbn [test_file_path file_name]. rewrite <- app_assoc. reflexivity. Qed.
Lemma file_place ids n p ext cwd : uuid_wf (ids n) -> ~ In slash ext -> locate cwd (test_file_path ids n p ext) = locate cwd p ++ [file_name (ids n) ext].
Proof.
  intros Hw H. destruct (id_text _ Hw) as [L N]. rewrite file_name_eq. apply locate_append.
  - destruct ext as [|c ext]; cbn [file_name]; [exact N|]. intro I. apply in_app_or in I as [I|[I|I]]; [exact (N I)|discriminate|exact (H I)].
  - destruct ext as [|c ext]; cbn [file_name]; rewrite ?app_length, L; lia.
Qed.
Lemma slash_from_head s : forall name, exists r rest, slash_names_from name s = (name ++ r) :: rest /\ (r = s \/ exists s', s = r ++ slash :: s').
Proof.
  induction s as [|c s IH]; intro name; cbn; [exists [], []; rewrite app_nil_r; auto|].
  destruct (Ascii.eqb c slash) eqn:E.
  - apply Ascii.eqb_eq in E as ->. exists [], (slash_names_from [] s). rewrite app_nil_r. split; [reflexivity|]. right. exists s. reflexivity.
  - destruct (IH (name ++ [c])) as (r & rest & Er & Hr). exists (c :: r), rest. rewrite Er, <- app_assoc. split; [reflexivity|].
    destruct Hr as [->|[s' ->]]; [left; reflexivity|right; exists s'; reflexivity].
Qed.
(** The first name is the id, with a dot and what follows up to a slash. *)
Lemma slash_from_clean u : forall name s, ~ In slash u -> slash_names_from name (u ++ s) = slash_names_from (name ++ u) s.
Proof.
  induction u as [|c u IH]; intros name s H; cbn; [rewrite app_nil_r; reflexivity|].
  destruct (Ascii.eqb c slash) eqn:E; [apply Ascii.eqb_eq in E; exfalso; apply H; left; exact E|].
  rewrite IH; [rewrite <- app_assoc; reflexivity|intro J; apply H; right; exact J].
Qed.
Lemma same_start {A} (a : list A) : forall b c d, length a = length b -> a ++ c = b ++ d -> a = b.
Proof.
  induction a as [|x a IH]; intros [|y b] c d L E; try discriminate; [reflexivity|]. injection E as -> E. injection L as L. f_equal. exact (IH _ _ _ L E).
Qed.
Lemma file_paths_differ ids i j p e f : uuid_wf (ids i) -> uuid_wf (ids j) -> ids i <> ids j -> test_file_path ids i p e <> test_file_path ids j p f.
Proof.
  intros Wi Wj D E. apply D, (to_string_inj _ _ Wi Wj). rewrite !file_name_eq in E. unfold path_append in E. injection E as E. apply app_inv_head in E.
  destruct (id_text _ Wi) as [Li Ni]. destruct (id_text _ Wj) as [Lj Nj].
  assert (H : forall u g, length (to_string u) = 36%nat -> ~ In slash (to_string u) -> exists r rest, slash_names (file_name u g) = (to_string u ++ r) :: rest).
  { intros u g L N. destruct g as [|c g]; cbn [file_name]; unfold slash_names.
    - rewrite (slash_names_one _ _ N). exists [], []. rewrite app_nil_r. reflexivity.
    - rewrite (slash_from_clean _ _ _ N). destruct (slash_from_head (dot :: c :: g) ([] ++ to_string u)) as (r & rest & Er & _). exists r, rest. exact Er. }
  destruct (H _ e Li Ni) as (r1 & s1 & E1). destruct (H _ f Lj Nj) as (r2 & s2 & E2). rewrite E1, E2 in E. injection E as E _.
  exact (same_start _ _ _ _ (eq_trans Li (eq_sym Lj)) E).
Qed.
(** An extension with slashes that leads out. *)
Definition leading_out : text := ["a"; "/"; "."; "."; "/"; "."; "."; "/"; "b"]%char.
Lemma leads_out ids n p cwd : uuid_wf (ids n) -> locate cwd (test_file_path ids n p leading_out) = removelast (locate cwd p) ++ [["b"%char]].
Proof.
  intro Hw. destruct (id_text _ Hw) as [L N]. rewrite file_name_eq. unfold locate, path_append. cbn [names absolute]. rewrite fold_left_app.
  set (l := fold_left step (names p) (if absolute p then [] else cwd)).
  unfold slash_names, file_name, leading_out. rewrite (slash_from_clean _ _ _ N). cbn [app slash_names_from Ascii.eqb dot slash Bool.eqb].
  cbn [fold_left]. rewrite (step_name l); [|rewrite !app_length, L; lia].
  assert (U : forall l, step l [dot; dot] = removelast l) by reflexivity. change ["."%char; "."%char] with [dot; dot]. rewrite !U, removelast_last. reflexivity.
Qed.

(** ** Trackers *)
Lemma next_int_spec i : (0 <= i <= INT_MAX)%Z -> (next_int i = Ok (i + 1)%Z /\ (i < INT_MAX)%Z) \/ (next_int i = UB /\ i = INT_MAX).
Proof. intro H. unfold next_int. destruct (Z.eqb_spec i INT_MAX); [right; auto|left; split; [reflexivity|lia]]. Qed.
Lemma run_snoc ops : forall o op, tracker_run o (ops ++ [op]) = let* o := tracker_run o ops in tracker_step o op.
Proof.
  induction ops as [|a ops IH]; intros o op; cbn; [destruct (tracker_step o op); reflexivity|].
  destruct (tracker_step o a); cbn; [apply IH|reflexivity..].
Qed.
Lemma times_cons e h : times e (e :: h) = (times e h + 1)%Z.
Proof. unfold times. destruct e; cbn [filter event_eqb length]; lia. Qed.
Lemma times_other e f h : event_eqb e f = false -> times e (f :: h) = times e h.
Proof. intro E. unfold times. cbn [filter]. rewrite E. reflexivity. Qed.
Definition counts (v : tracker) (h : list event) : Prop := num_moves v = times WasMoved h /\ num_copies v = times WasCopied h.
Lemma step_inv o op o' : tracker_step o op = Ok o' -> exists v, o' = put o (writes op) v /\
  match op with
  | New _ => v = tracker_new
  | CopyTo _ y | CopyAssign _ y => exists u, o y = Some u /\ num_moves v = num_moves u /\ num_copies v = (num_copies u + 1)%Z
  | MoveTo _ y | MoveAssign _ y => exists u, o y = Some u /\ num_moves v = (num_moves u + 1)%Z /\ num_copies v = num_copies u
  end.
Proof.
  assert (X : forall i j, next_int i = Ok j -> j = (i + 1)%Z) by (intros i j; unfold next_int; destruct (i =? INT_MAX)%Z; [discriminate|intros [= <-]; reflexivity]).
  destruct op as [x|x y|x y|x y|x y]; cbn [tracker_step writes].
  - intros [= <-]. eexists. split; reflexivity.
  - unfold get. destruct (o y) as [u|]; [|discriminate]. cbn [obind]. unfold copied. destruct (next_int _) eqn:E; [|discriminate..]. intros [= <-]. apply X in E as ->.
    eexists. split; [reflexivity|]. exists u. repeat split.
  - unfold get. destruct (o y) as [u|]; [|discriminate]. cbn [obind]. unfold moved. destruct (next_int _) eqn:E; [|discriminate..]. intros [= <-]. apply X in E as ->.
    eexists. split; [reflexivity|]. exists u. repeat split.
  - unfold get. destruct (o x) as [w|]; [|discriminate]. cbn [obind]. destruct (o y) as [u|]; [|discriminate]. cbn [obind]. unfold copy_assigned. destruct (next_int _) eqn:E; [|discriminate..]. intros [= <-]. apply X in E as ->.
    eexists. split; [reflexivity|]. exists u. repeat split.
  - unfold get. destruct (o x) as [w|]; [|discriminate]. cbn [obind]. destruct (o y) as [u|]; [|discriminate]. cbn [obind]. unfold move_assigned. destruct (next_int _) eqn:E; [|discriminate..]. intros [= <-]. apply X in E as ->.
    eexists. split; [reflexivity|]. exists u. repeat split.
Qed.
Lemma history_short ops x h : went_through ops x h -> (length h < length ops)%nat.
Proof. induction 1; rewrite app_length; cbn [length]; lia. Qed.
Lemma tracked ops : forall o, tracker_run no_objects ops = Ok o -> forall x,
  (forall v, o x = Some v -> exists h, went_through ops x h /\ counts v h) /\ (forall h, went_through ops x h -> exists v, o x = Some v /\ counts v h).
Proof.
  induction ops as [|op ops IH] using rev_ind; intros o E x.
  - injection E as <-. split; [discriminate|]. intros h G. exfalso. apply history_short in G. cbn in G. lia.
  - rewrite run_snoc in E. destruct (tracker_run no_objects ops) as [o1| |]; try discriminate. cbn [obind] in E. specialize (IH o1 eq_refl).
    destruct (step_inv _ _ _ E) as (v & -> & Hv).
    assert (P1 : put o1 (writes op) v (writes op) = Some v) by (unfold put; rewrite Nat.eqb_refl; reflexivity).
    assert (P2 : x <> writes op -> put o1 (writes op) v x = o1 x) by (intro N; unfold put; destruct (Nat.eqb_spec x (writes op)); [contradiction|reflexivity]).
    split.
    + intros v' Hx. destruct (Nat.eq_dec x (writes op)) as [->|N].
      * rewrite P1 in Hx. injection Hx as <-. destruct op as [y|y z|y z|y z|y z]; cbn [writes].
        { exists []. split; [constructor|subst v; split; reflexivity]. }
        all: destruct Hv as (u & Hu & Hm & Hc); destruct (proj1 (IH z) u Hu) as (h & G & C1 & C2); eexists; (split; [constructor; exact G|]);
          split; rewrite ?times_cons, ?times_other by reflexivity; congruence.
      * rewrite (P2 N) in Hx. destruct (proj1 (IH x) v' Hx) as (h & G & C). exists h. split; [apply GOther; [exact G|congruence]|exact C].
    + intros h G. remember (ops ++ [op]) as all eqn:Ea. destruct G as [ops' y|ops' y z h' G'|ops' y z h' G'|ops' y z h' G'|ops' y z h' G'|ops' op' y h' G' N];
        apply app_inj_tail in Ea as [-> <-]; cbn [writes] in *.
      { exists tracker_new. rewrite P1, Hv. split; [reflexivity|split; reflexivity]. }
      1-4: exists v; (split; [exact P1|]); destruct Hv as (u & Hu & Hm & Hc); destruct (proj2 (IH z) h' G') as (u' & Hu' & C1 & C2); rewrite Hu in Hu'; injection Hu' as <-;
          split; rewrite ?times_cons, ?times_other by reflexivity; congruence.
      destruct (proj2 (IH y) h' G') as (u & Hu & C). exists u. rewrite P2; [split; assumption|congruence].
Qed.
Lemma times_short e h : (0 <= times e h <= Z.of_nat (length h))%Z.
Proof. unfold times. split; [lia|]. apply inj_le. induction h as [|a h IH]; cbn; [lia|]. destruct (event_eqb e a); cbn; lia. Qed.
Lemma run_throws ops : forall o, tracker_run o ops <> Throw.
Proof.
  assert (X : forall i, next_int i <> Throw) by (intro i; unfold next_int; destruct (i =? INT_MAX)%Z; discriminate).
  induction ops as [|op ops IH]; intros o; cbn; [discriminate|].
  destruct (tracker_step o op) as [o'| |] eqn:E; cbn; [apply IH| |discriminate]. exfalso.
  destruct op as [x|x y|x y|x y|x y]; cbn [tracker_step] in E; [discriminate| | | |]; unfold get in E.
  - destruct (o y) as [u|]; [|discriminate]. cbn [obind] in E. unfold copied in E. specialize (X (num_copies u)). destruct (next_int (num_copies u)); cbn in E; congruence.
  - destruct (o y) as [u|]; [|discriminate]. cbn [obind] in E. unfold moved in E. specialize (X (num_moves u)). destruct (next_int (num_moves u)); cbn in E; congruence.
  - destruct (o x); [|discriminate]. cbn [obind] in E. destruct (o y) as [u|]; [|discriminate]. cbn [obind] in E. unfold copy_assigned in E. specialize (X (num_copies u)). destruct (next_int (num_copies u)); cbn in E; congruence.
  - destruct (o x); [|discriminate]. cbn [obind] in E. destruct (o y) as [u|]; [|discriminate]. cbn [obind] in E. unfold move_assigned in E. specialize (X (num_moves u)). destruct (next_int (num_moves u)); cbn in E; congruence.
Qed.
(** What was written is there. *)
Lemma written ops : forall o, tracker_run no_objects ops = Ok o -> forall op, In op ops -> exists v, o (writes op) = Some v.
Proof.
  induction ops as [|a ops IH] using rev_ind; intros o E op I; [destruct I|].
  rewrite run_snoc in E. destruct (tracker_run no_objects ops) as [o1| |]; try discriminate. cbn [obind] in E.
  destruct (step_inv _ _ _ E) as (v & -> & _). unfold put. destruct (Nat.eqb_spec (writes op) (writes a)) as [J|J]; [eexists; reflexivity|].
  apply in_app_or in I as [I|[<-|[]]]; [exact (IH o1 eq_refl op I)|contradiction].
Qed.
Lemma runs ops : made_before_use ops -> (forall before after x h, ops = before ++ after -> went_through before x h -> small h) -> exists o, tracker_run no_objects ops = Ok o.
Proof.
  assert (IM : INT_MAX = (2 ^ 31 - 1)%Z) by reflexivity.
  induction ops as [|op ops IH] using rev_ind; intros M L; [eexists; reflexivity|].
  destruct IH as [o E].
  { intros b p af -> x I. apply (M b p (af ++ [op])); [rewrite <- app_assoc; reflexivity|exact I]. }
  { intros b af x h ->. apply (L b (af ++ [op])). rewrite <- app_assoc. reflexivity. }
  rewrite run_snoc, E. cbn [obind].
  assert (R : forall x, In x (reads op) -> exists v, o x = Some v).
  { intros x I. destruct (M ops op [] eq_refl x I) as (e & Ie & <-). exact (written _ _ E e Ie). }
  assert (L' : forall x h, went_through (ops ++ [op]) x h -> small h) by (intros x h; apply (L (ops ++ [op]) []); rewrite app_nil_r; reflexivity).
  assert (B : forall x v, o x = Some v -> exists h, went_through ops x h /\ counts v h) by (intros x; apply (tracked _ _ E x)).
  assert (X : forall i, (i < INT_MAX)%Z -> next_int i = Ok (i + 1)%Z) by (intros i Hi; unfold next_int; destruct (Z.eqb_spec i INT_MAX); [lia|reflexivity]).
  destruct op as [x|x y|x y|x y|x y]; cbn [tracker_step reads] in *; unfold get.
  - eexists; reflexivity.
  - destruct (R y) as [u Hu]; [left; reflexivity|]. rewrite Hu. cbn [obind]. unfold copied. destruct (B y u Hu) as (h & G & C1 & C2). destruct (L' x _ (GCopy _ x y h G)) as [S1 S2]. pose proof (times_cons WasCopied h). pose proof (times_cons WasMoved h). rewrite X by lia. eexists; reflexivity.
  - destruct (R y) as [u Hu]; [left; reflexivity|]. rewrite Hu. cbn [obind]. unfold moved. destruct (B y u Hu) as (h & G & C1 & C2). destruct (L' x _ (GMove _ x y h G)) as [S1 S2]. pose proof (times_cons WasCopied h). pose proof (times_cons WasMoved h). rewrite X by lia. eexists; reflexivity.
  - destruct (R x) as [w Hw]; [left; reflexivity|]. destruct (R y) as [u Hu]; [right; left; reflexivity|]. rewrite Hw. cbn [obind]. rewrite Hu. cbn [obind]. unfold copy_assigned. destruct (B y u Hu) as (h & G & C1 & C2). destruct (L' x _ (GCopyAssign _ x y h G)) as [S1 S2]. pose proof (times_cons WasCopied h). pose proof (times_cons WasMoved h). rewrite X by lia. eexists; reflexivity.
  - destruct (R x) as [w Hw]; [left; reflexivity|]. destruct (R y) as [u Hu]; [right; left; reflexivity|]. rewrite Hw. cbn [obind]. rewrite Hu. cbn [obind]. unfold move_assigned. destruct (B y u Hu) as (h & G & C1 & C2). destruct (L' x _ (GMoveAssign _ x y h G)) as [S1 S2]. pose proof (times_cons WasCopied h). pose proof (times_cons WasMoved h). rewrite X by lia. eexists; reflexivity.
Qed.
Lemma in_range ops : forall o, tracker_run no_objects ops = Ok o -> forall x v, o x = Some v -> (num_moves v <= INT_MAX)%Z /\ (num_copies v <= INT_MAX)%Z.
Proof.
  assert (X : forall i j, (i <= INT_MAX)%Z -> next_int i = Ok j -> (j <= INT_MAX)%Z).
  { intros i j H. unfold next_int. destruct (Z.eqb_spec i INT_MAX); [discriminate|]. intros [= <-]. lia. }
  assert (Z0 : (0 <= INT_MAX)%Z) by discriminate.
  induction ops as [|op ops IH] using rev_ind; intros o E x v Hv; [injection E as <-; discriminate|].
  rewrite run_snoc in E. destruct (tracker_run no_objects ops) as [o1| |]; try discriminate. cbn [obind] in E. specialize (IH o1 eq_refl).
  assert (P : forall y u, (num_moves u <= INT_MAX)%Z /\ (num_copies u <= INT_MAX)%Z -> put o1 y u x = Some v -> (num_moves v <= INT_MAX)%Z /\ (num_copies v <= INT_MAX)%Z).
  { intros y u B. unfold put. destruct (Nat.eqb x y); [intros [= <-]; exact B|apply IH]. }
  destruct op as [y|y z|y z|y z|y z]; cbn [tracker_step] in E; unfold get in E.
  - injection E as <-. revert Hv. apply P. split; exact Z0.
  - destruct (o1 z) as [u|] eqn:Hu; [|discriminate]. cbn [obind] in E. unfold copied in E. destruct (next_int (num_copies u)) eqn:N; [|discriminate..]. injection E as <-.
    destruct (IH z u Hu) as [B1 B2]. revert Hv. apply P. split; [exact B1|exact (X _ _ B2 N)].
  - destruct (o1 z) as [u|] eqn:Hu; [|discriminate]. cbn [obind] in E. unfold moved in E. destruct (next_int (num_moves u)) eqn:N; [|discriminate..]. injection E as <-.
    destruct (IH z u Hu) as [B1 B2]. revert Hv. apply P. split; [exact (X _ _ B1 N)|exact B2].
  - destruct (o1 y); [|discriminate]. cbn [obind] in E. destruct (o1 z) as [u|] eqn:Hu; [|discriminate]. cbn [obind] in E. unfold copy_assigned in E. destruct (next_int (num_copies u)) eqn:N; [|discriminate..]. injection E as <-.
    destruct (IH z u Hu) as [B1 B2]. revert Hv. apply P. split; [exact B1|exact (X _ _ B2 N)].
  - destruct (o1 y); [|discriminate]. cbn [obind] in E. destruct (o1 z) as [u|] eqn:Hu; [|discriminate]. cbn [obind] in E. unfold move_assigned in E. destruct (next_int (num_moves u)) eqn:N; [|discriminate..]. injection E as <-.
    destruct (IH z u Hu) as [B1 B2]. revert Hv. apply P. split; [exact (X _ _ B1 N)|exact B2].
Qed.
Lemma run_app a : forall b o, tracker_run o (a ++ b) = let* o := tracker_run o a in tracker_run o b.
Proof. induction a as [|op a IH]; intros b o; cbn; [reflexivity|]. destruct (tracker_step o op); cbn; [apply IH|reflexivity..]. Qed.
Lemma ub_iff ops : made_before_use ops -> (tracker_run no_objects ops = UB <-> exists before after x h, ops = before ++ after /\ went_through before x h /\ ~ small h).
Proof.
  intro M. split.
  - intro U. destruct (Classical_Prop.classic (exists before after x h, ops = before ++ after /\ went_through before x h /\ ~ small h)) as [H|H]; [exact H|exfalso].
    destruct (runs ops M) as [o E]; [|congruence]. intros b a x h Eb G.
    unfold small. destruct (Z_le_dec (times WasMoved h) (2 ^ 31 - 1)%Z) as [A|A]; [destruct (Z_le_dec (times WasCopied h) (2 ^ 31 - 1)%Z) as [B|B]; [split; assumption|]|]; exfalso; apply H; exists b, a, x, h; (split; [exact Eb|]; split; [exact G|]; intros [? ?]; contradiction).
  - intros (b & a & x & h & -> & G & N). rewrite run_app. destruct (tracker_run no_objects b) as [o| |] eqn:E; [exfalso|exfalso; exact (run_throws _ _ E)|reflexivity].
    destruct (proj2 (tracked _ _ E x) h G) as (v & Hv & C1 & C2). destruct (in_range _ _ E x v Hv) as [R1 R2]. apply N. change INT_MAX with (2 ^ 31 - 1)%Z in R1, R2. split; congruence.
Qed.
