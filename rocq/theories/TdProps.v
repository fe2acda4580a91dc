(** C91: the test directories and the paths of test files; C92: the tracker of moves and copies. *)
From Coq Require Import ZArith List Ascii Lia Bool NArith.
From Verif Require Import Cpp UuidModel UuidProofs TdModel TdSpec TdProofs TdProofs2.
Import ListNotations.

(** A directory is made when the temporary directory is one and nothing is there yet: then it is
    there and nothing else has changed.  Otherwise there is an exception. *)
Theorem c91_make : forall ids temp cwd next t, uuid_wf (ids next) ->
  let home := locate cwd temp in let here := home ++ [to_string (ids next)] in
  ((t home = Some Dir /\ t here = None) -> exists t', make_directory ids temp cwd next t = Ok (Path (absolute temp) (names temp ++ [to_string (ids next)]), t') /\
    t' here = Some Dir /\ forall q, q <> here -> t' q = t q) /\
  (~ (t home = Some Dir /\ t here = None) -> make_directory ids temp cwd next t = Throw).
Proof.
  intros ids temp cwd next t W home here. destruct (make_spec ids temp cwd next t W) as [H1 H2]. split; [|exact H2].
  intro H. destruct (H1 H) as (t' & E & R). exists t'. split; [|exact R]. rewrite E. unfold path_append, slash_names. rewrite (slash_names_one _ _ (proj2 (id_text _ W))). reflexivity.
Qed.
Print Assumptions c91_make.

(** Whatever a test does with its directories, however they are nested and whether it ends or
    throws, the file system is afterwards what it was before; ids need not even differ. *)
Theorem c91_nothing_left : forall ids temp a w, (forall n, uuid_wf (ids n)) -> absolute temp = true -> sound_tree (w_tree w) ->
  forall q, w_tree (snd (run ids temp [] a w)) q = w_tree w q.
Proof. intros ids temp a w W A. exact (leaves_nothing ids temp W A a w). Qed.
Print Assumptions c91_nothing_left.

(** While a test holds several directories, what it does not change beneath one of them stays as
    it is, whatever is made, changed and destroyed besides. *)
Theorem c91_keeps : forall ids temp a held w k p q, (forall n, uuid_wf (ids n)) -> absolute temp = true -> distinct (w_next w + uses a) ids ->
  held_before ids temp (w_next w) held -> nth_error held k = Some p -> ~ changes k a -> under (locate (w_cwd w) p) q ->
  w_tree (snd (run ids temp held a w)) q = w_tree w q.
Proof.
  intros ids temp a held w k p q W A D HB K NC U. apply (keeps ids temp W A _ D a held w k p q HB (le_n _) K NC).
  rewrite (locate_absolute p [] (w_cwd w)); [exact U|]. destruct HB as (js & -> & _). rewrite nth_error_map in K. destruct (nth_error js k); [|discriminate]. injection K as <-. exact A.
Qed.
Print Assumptions c91_keeps.

(** With a temporary directory and with ids that differ and that nothing there is named by, a
    test that does not throw itself comes to its end. *)
Theorem c91_ends : forall ids temp a w, (forall n, uuid_wf (ids n)) -> absolute temp = true -> distinct (w_next w + uses a) ids -> proper 0 a ->
  w_tree w (locate (w_cwd w) temp) = Some Dir -> (forall n, (w_next w <= n < w_next w + uses a)%nat -> w_tree w (locate (w_cwd w) temp ++ [to_string (ids n)]) = None) ->
  fst (run ids temp [] a w) = true.
Proof.
  intros ids temp a w W A D P H F. rewrite (locate_absolute temp (w_cwd w) [] A) in H, F.
  apply (run_ends ids temp W A _ D a [] w); [exists []; split; [reflexivity|split; constructor]|apply le_n|exact P|exact H|exact F].
Qed.
Print Assumptions c91_ends.

(** When the environment names a relative temporary directory, a test that goes to another
    current directory leaves its directory behind. *)
Definition id_of (n : nat) : uuid := N.of_nat (n mod 256) :: repeat 1%N 15.
Lemma id_wf n : uuid_wf (id_of n).
Proof.
  split; [reflexivity|]. constructor; [|repeat constructor]. assert (X := Nat.mod_upper_bound n 256 ltac:(discriminate)).
  change 256%N with (N.of_nat 256). lia.
Qed.
Definition here_dirs : tree := fun q => match q with [] => Some Dir | [[_]] => Some Dir | [[_]; [_]] => Some Dir | _ => None end.
Definition na : text := ["a"%char]. Definition nt : text := ["t"%char].
Lemma here_dirs_sound : sound_tree here_dirs.
Proof.
  intros q name H. destruct q as [|[|c [|d n]] [|[|e [|f m]] [|x q]]]; cbn in *; try reflexivity; try (exfalso; apply H; reflexivity);
    try (destruct x; exfalso; apply H; reflexivity); try (destruct q; exfalso; apply H; reflexivity).
Qed.
Theorem c91_relative_refuted : exists ids temp a w, (forall n, uuid_wf (ids n)) /\ sound_tree (w_tree w) /\ proper 0 a /\ fst (run ids temp [] a w) = true /\
  exists q, w_tree w q = None /\ w_tree (snd (run ids temp [] a w)) q = Some Dir.
Proof.
  exists id_of, (Path false [nt]), (Within (Go [] Done) Done), (World [na] 0 here_dirs).
  split; [exact id_wf|]. split; [exact here_dirs_sound|]. split; [cbn; tauto|]. split; [vm_compute; reflexivity|].
  exists [na; nt; to_string (id_of 0)]. split; vm_compute; reflexivity.
Qed.
Print Assumptions c91_relative_refuted.

(** A path to a file: an extension without slashes gives a place directly in the directory,
    named by the id and, behind a dot, the extension if there is one; with different ids the
    paths differ whatever the extensions. *)
Theorem c91_file : forall ids n p ext, uuid_wf (ids n) ->
  (~ In "/"%char ext -> forall cwd, locate cwd (test_file_path ids n p ext) = locate cwd p ++ [file_name (ids n) ext]) /\
  (forall m ext', uuid_wf (ids m) -> ids n <> ids m -> test_file_path ids n p ext <> test_file_path ids m p ext').
Proof. intros ids n p ext W. split; [intros H cwd; exact (file_place ids n p ext cwd W H)|]. intros m ext' W' D. exact (file_paths_differ ids n m p ext ext' W W' D). Qed.
Print Assumptions c91_file.

(** With slashes in the extension the path can lead out of the directory. *)
Theorem c91_in_directory_refuted : exists ext, forall ids n m temp cwd, uuid_wf (ids n) -> uuid_wf (ids m) ->
  let p := Path (absolute temp) (names temp ++ [to_string (ids m)]) in ~ under (locate cwd p) (locate cwd (test_file_path ids n p ext)).
Proof.
  exists leading_out. intros ids n m temp cwd W W' p. rewrite (leads_out ids n p cwd W).
  assert (E : p = path_append temp (to_string (ids m))) by (unfold path_append, slash_names; rewrite (slash_names_one _ _ (proj2 (id_text _ W'))); reflexivity).
  rewrite E, (locate_id _ _ _ W'), removelast_last. intro U.
  rewrite <- (app_nil_r (_ ++ [["b"%char]])) in U. apply under_sibling in U. apply (f_equal (@length ascii)) in U. rewrite (proj1 (id_text _ W')) in U. discriminate.
Qed.
Print Assumptions c91_in_directory_refuted.

Definition made_file : tree := fun q => match rev q with [] => None | _ => Some (File na) end.
Example c91_case : (forall n, uuid_wf (id_of n)) /\ distinct 256 id_of /\ sound_tree here_dirs /\
  (let a := Within (Change 0 made_file (Within (Change 0 (fun _ => None) Done) Fail)) Done in
   ~ proper 0 a /\ fst (run id_of (Path true [nt]) [] a (World [] 0 here_dirs)) = false /\ w_tree (snd (run id_of (Path true [nt]) [] a (World [] 0 here_dirs))) [nt; to_string (id_of 0)] = None) /\
  (let a := Within (Change 0 made_file (Within (Ask (Change 1 here_dirs Done)) Done)) Done in
   proper 0 a /\ uses a = 3%nat /\ fst (run id_of (Path true [nt]) [] a (World [] 0 here_dirs)) = true) /\
  file_name (id_of 0) nt = to_string (id_of 0) ++ [dot; "t"%char].
Proof.
  split; [exact id_wf|]. split.
  { intros i j Hi Hj E. apply (f_equal (fun l => N.to_nat (hd 0%N l))) in E. unfold id_of in E. cbn [hd] in E. rewrite !Nnat.Nat2N.id, !Nat.mod_small in E by assumption. exact E. }
  split; [exact here_dirs_sound|]. split; [split; [cbn; tauto|split; vm_compute; reflexivity]|]. split; [|reflexivity].
  split; [cbn; lia|split; [reflexivity|vm_compute; reflexivity]].
Qed.

(** ** The tracker *)
(** After any program the two numbers of every object are how often it, or the objects it comes
    from, was moved and copied since the default construction it goes back to. *)
Theorem c92_counts : forall ops o, tracker_run no_objects ops = Ok o -> forall x,
  (forall v, o x = Some v -> exists h, went_through ops x h /\ num_moves v = times WasMoved h /\ num_copies v = times WasCopied h) /\
  (forall h, went_through ops x h -> exists v, o x = Some v /\ num_moves v = times WasMoved h /\ num_copies v = times WasCopied h).
Proof. exact tracked. Qed.
Print Assumptions c92_counts.

(** The only thing that goes wrong when objects are made before they are used is that a number
    becomes more than an int holds. *)
Theorem c92_overflow : forall ops, made_before_use ops ->
  ((exists o, tracker_run no_objects ops = Ok o) <-> forall before after x h, ops = before ++ after -> went_through before x h -> small h) /\
  (tracker_run no_objects ops = UB <-> exists before after x h, ops = before ++ after /\ went_through before x h /\ ~ small h).
Proof.
  intros ops M. split; [|exact (ub_iff ops M)]. split; [|exact (runs ops M)].
  intros (o & E) b a x h Eb G. subst ops. rewrite run_app in E. destruct (tracker_run no_objects b) as [o'| |] eqn:E'; try discriminate.
  destruct (proj2 (tracked _ _ E' x) h G) as (v & Hv & C1 & C2). destruct (in_range _ _ E' x v Hv) as [R1 R2]. change FloatModel.INT_MAX with (2 ^ 31 - 1)%Z in R1, R2. split; congruence.
Qed.
Print Assumptions c92_overflow.

(** The object that is copied, moved from or assigned to does not count it: its numbers, or those
    it had, are as if nothing had happened. *)
Theorem c92_original_refuted : exists ops, made_before_use ops /\ exists o, tracker_run no_objects ops = Ok o /\
  o 0%nat = Some (Tracker 0 0) /\ o 1%nat = Some (Tracker 0 1) /\ o 2%nat = Some (Tracker 0 1).
Proof.
  exists [New 0; CopyTo 1 0; MoveTo 2 1; MoveTo 2 2; CopyAssign 2 0]. split.
  - intros b op af E x I. destruct b as [|b0 [|b1 [|b2 [|b3 [|b4 [|b5 b]]]]]]; injection E; intros; subst; cbn in I; try contradiction; try discriminate; repeat (destruct I as [<-|I]); try contradiction;
      first [exists (New 0); cbn; tauto|exists (CopyTo 1 0); cbn; tauto|exists (MoveTo 2 1); cbn; tauto].
  - eexists. split; [reflexivity|]. vm_compute. repeat split.
Qed.
Print Assumptions c92_original_refuted.

Example c92_case : exists o, tracker_run no_objects [New 0; CopyTo 1 0; MoveTo 2 1; MoveAssign 2 2] = Ok o /\ o 2%nat = Some (Tracker 2 1) /\
  went_through [New 0; CopyTo 1 0; MoveTo 2 1; MoveAssign 2 2] 2 [WasMoved; WasMoved; WasCopied] /\ small [WasMoved; WasMoved; WasCopied] /\ times WasMoved [WasMoved; WasMoved; WasCopied] = 2%Z.
Proof.
  eexists. split; [reflexivity|]. split; [vm_compute; reflexivity|]. split.
  - apply (GMoveAssign [New 0; CopyTo 1 0; MoveTo 2 1] 2 2), (GMove [New 0; CopyTo 1 0] 2 1), (GCopy [New 0] 1 0), (GNew [] 0).
  - split; [split; discriminate|reflexivity].
Qed.
