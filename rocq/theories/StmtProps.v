(** View statements: C58. *)
From Coq Require Import String.
From Verif Require Import Cpp StmtModel StmtSpec StmtProofs.

(** ** C58 *)
Theorem c58_statements_show : forall (A : Type) answer (p : list (string * Z * @statement A)),
  (forall n, answer n = true) ->
  map (fun u => map shown (fst u)) (updates (run answer p start)) = map (fun x => [x]) (shows_all p) /\
  (forall u, In u (updates (run answer p start)) -> snd u = true).
Proof. exact (fun A answer => run_shows answer). Qed.
Print Assumptions c58_statements_show.

(** After any program, a statement shows its objects up to the first one that fails, and
    throws exactly if one fails; nothing is left to be sent later. *)
Theorem c58_failures : forall (A : Type) answer (p : list (string * Z * @statement A)) file line s,
  exists us, let w := run answer p start in let r := exec answer file line s w in
  updates (snd r) = updates w ++ us /\ sends (shows file line s) (fst r) us /\
  (forall i u, nth_error us i = Some u -> snd u = answer (List.length (updates w) + i)) /\
  pending (snd r) = [].
Proof. exact (fun A answer => statement_sends answer). Qed.
Print Assumptions c58_failures.

Theorem c58_one_new_id_per_update : forall (A : Type) answer (p : list (string * Z * @statement A)),
  NoDup (map prim_id (flat_map fst (updates (run answer p start)))) /\
  Forall (fun u => List.length (fst u) = 1) (updates (run answer p start)).
Proof. exact (fun A answer => run_ids answer). Qed.
Print Assumptions c58_one_new_id_per_update.

(** Full statement: every VIEW statement shows its object once.  False: without a name
    it shows nothing, and with both kinds of name it shows the object twice. *)
Theorem c58_shown_once_refuted : forall (A : Type) (x : A) name name' file line answer,
  (forall n, answer n = true) ->
  updates (snd (exec answer file line (View x) start)) = [] /\
  List.length (updates (snd (exec answer file line (ViewNamedStream x name name') start))) = 2.
Proof.
  intros A x name name' file line answer H. split; [reflexivity|].
  unfold exec, make_named, view_object, flush, stream_name, view_object, flush.
  cbn. rewrite (H 0). reflexivity.
Qed.
Print Assumptions c58_shown_once_refuted.

(** The second object of the stream fails: the third is not sent, the next statement is. *)
Example c58_example :
  let answer n := negb (Nat.eqb n 2) in
  let p := [("a.cc"%string, 7%Z, ViewStream 5 "five"); ("a.cc"%string, 8%Z, View 6);
            ("a.cc"%string, 9%Z, Streamed [1; 2; 3]); ("b.cc"%string, 3%Z, ViewNamed 4 "four")] in
  updates (run answer p start) =
    [([Primitive 0 5 (Some "five"%string) "a.cc" 7], true); ([Primitive 1 1 None "Unknown file" 0], true);
     ([Primitive 2 2 None "Unknown file" 0], false); ([Primitive 3 4 (Some "four"%string) "b.cc" 3], true)].
Proof. reflexivity. Qed.
