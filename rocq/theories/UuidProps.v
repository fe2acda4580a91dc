(** Property theorems C12, C13: UUIDs. *)
From Coq Require Import NArith Ascii String.
From Verif Require Import Cpp UuidModel UuidSpec UuidProofs.
Open Scope N_scope.

(** * C12 *)

Theorem c12_text_round_trip : forall u, uuid_wf u -> uuid_of_string (to_string u) = Ok u.
Proof. exact string_round_trip. Qed.

Theorem c12_text_canonical : forall u, uuid_wf u -> canonical (to_string u).
Proof. exact string_canonical. Qed.

(** The constructor looks at the text up to the first NUL; it accepts the layout
    with digits of either case, yields an id whose text is that in lower case, and
    throws on anything else. *)
Theorem c12_accepted_grammar : forall s,
  (acceptable (c_str s) <-> exists u, uuid_of_string s = Ok u) /\
  (~ acceptable (c_str s) <-> uuid_of_string s = Throw) /\
  (forall u, uuid_of_string s = Ok u -> uuid_wf u /\ to_string u = map lower (c_str s)).
Proof. exact of_string_grammar. Qed.

Theorem c12_no_nul_whole_text : forall s, no_nul s -> c_str s = s.
Proof. exact c_str_id. Qed.

Definition sample_id : uuid :=
  [18; 62; 69; 103; 232; 155; 18; 211; 164; 86; 66; 102; 20; 23; 64; 0].
Definition sample_text : text := list_ascii_of_string "123e4567-e89b-12d3-a456-426614174000".

Example c12_example : uuid_wf sample_id /\ to_string sample_id = sample_text /\
  uuid_of_string (list_ascii_of_string "123E4567-E89B-12d3-A456-426614174000") = Ok sample_id /\
  uuid_of_string [] = Throw /\
  uuid_of_string (sample_text ++ [zero; "x"%char]) = Ok sample_id /\ no_nul sample_text.
Proof.
  repeat split; try (vm_compute; reflexivity).
  - repeat (constructor; [reflexivity|]). constructor.
  - unfold no_nul. vm_compute. intuition discriminate.
Qed.

(** * C13 *)

Theorem c13_equality_agrees : forall (h : text -> N) a b, uuid_wf a -> uuid_wf b ->
  (uuid_eqb a b = true <-> a = b) /\
  (uuid_eqb a b = true <-> to_string a = to_string b) /\
  uuid_neqb a b = negb (uuid_eqb a b) /\
  (uuid_eqb a b = true -> uuid_hash h a = uuid_hash h b) /\
  (uuid_is_null a = true <-> a = null_uuid).
Proof. exact equality_agrees. Qed.

Example c13_example : uuid_wf sample_id /\ uuid_wf null_uuid /\
  uuid_eqb sample_id null_uuid = false /\ uuid_is_null null_uuid = true.
Proof.
  repeat split; try reflexivity; repeat (constructor; [reflexivity|]); constructor.
Qed.

Print Assumptions c12_text_round_trip.
Print Assumptions c12_text_canonical.
Print Assumptions c12_accepted_grammar.
Print Assumptions c12_no_nul_whole_text.
Print Assumptions c13_equality_agrees.
