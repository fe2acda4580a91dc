(** Matching on variants: C73. *)
From Coq Require Import List Permutation.
From Verif Require Import MatchModel MatchSpec MatchProofs MatchProofs2.
Import ListNotations.

(** match() takes part in a call if all branches are of class type and, for an rvalue of
    every alternative, one of them is the best match and all of these return one type.  It
    compiles if the same holds for the alternatives as the variant passes them.  It then
    calls the one best branch on what the variant holds, and throws if that is nothing. *)
Theorem c73_calls_best : forall alts c bs, alts <> [] ->
  (match_compiles alts c bs = NotConsidered <-> ~ (Forall (fun b => of_class b = true) bs /\ handled alts moved bs)) /\
  (match_compiles alts c bs = Compiles <-> Forall (fun b => of_class b = true) bs /\ handled alts moved bs /\ handled alts c bs) /\
  (match_compiles alts c bs = Compiles -> match_runs alts c bs None = Some Throws /\
    forall k a, nth_error alts k = Some a ->
      exists i p, best bs a c i p /\ match_runs alts c bs (Some k) = Some (Calls i (ptype p)) /\ forall j q, best bs a c j q -> j = i /\ q = p).
Proof. exact (fun alts c bs NE => conj (proj1 (compiles_is alts c bs NE)) (conj (proj2 (compiles_is alts c bs NE)) (runs_is alts c bs))). Qed.
Print Assumptions c73_calls_best.
(** The example of the documentation (examples/match.cc). *)
Example c73_documented : let alts := [TInt; TChar; TDouble; TBool] in let bs := [lambda (value TChar) 0; lambda (value TInt) 0; lambda (Generic ByValue true) 0] in
  match_compiles alts variable bs = Compiles /\ map (fun k => match_runs alts variable bs (Some k)) [0; 1; 2; 3] = [Some (Calls 1 TInt); Some (Calls 0 TChar); Some (Calls 2 TDouble); Some (Calls 2 TBool)].
Proof. vm_compute. split; reflexivity. Qed.
(** The calls that match_test.cc wants refused. *)
Example c73_refused : let alts := [TChar; TClass 0] in
  match_compiles alts const_reference [] = NotConsidered /\ match_compiles alts const_reference [lambda (value TChar) 0] = NotConsidered /\
  match_compiles alts const_reference [Branch false false (value TChar) (fun _ => 0); lambda (Generic ByValue true) 0] = NotConsidered /\
  match_compiles alts const_reference [lambda (value TChar) 1; lambda (Generic ByValue true) 0] = NotConsidered /\
  match_compiles alts const_reference [lambda (value TChar) 0; lambda (value TChar) 0; lambda (Generic ByValue true) 0] = NotConsidered.
Proof. vm_compute. repeat split. Qed.

(** The order of the branches does not matter. *)
Theorem c73_order : forall bs bs' alts c, alts <> [] -> Permutation bs bs' -> match_compiles alts c bs = match_compiles alts c bs' /\
  forall k i t, match_runs alts c bs (Some k) = Some (Calls i t) -> exists i', match_runs alts c bs' (Some k) = Some (Calls i' t) /\ nth_error bs' i' = nth_error bs i.
Proof. exact (fun bs bs' alts c NE P => conj (perm_compiles bs bs' alts c NE P) (fun k i t => perm_runs bs bs' alts c k i t P)). Qed.
Print Assumptions c73_order.
Example c73_order_case : let alts := [TInt; TChar; TDouble; TBool] in let bs := [lambda (value TChar) 0; lambda (value TInt) 0; lambda (Generic ByValue true) 0] in
  Permutation bs (rev bs) /\ match_runs alts variable bs (Some 0) = Some (Calls 1 TInt) /\ match_runs alts variable (rev bs) (Some 1) = Some (Calls 2 TChar).
Proof. split; [apply Permutation_rev|split; reflexivity]. Qed.

(** Branches that take their argument by value or by const reference do not depend on how the
    variant is passed, and what passes the check compiles. *)
Theorem c73_plain : forall bs alts c c', alts <> [] -> Forall (fun b => plain (bparam b)) bs ->
  match_compiles alts c bs <> IllFormed /\ match_compiles alts c bs = match_compiles alts c' bs /\ forall k, match_runs alts c bs (Some k) = match_runs alts c' bs (Some k).
Proof. exact plain_compiles. Qed.
Print Assumptions c73_plain.
Example c73_plain_case : let bs := [lambda (value TChar) 0; lambda (const_ref TInt) 0; lambda (Generic ByLRef true) 0] in
  Forall (fun b => plain (bparam b)) bs /\ match_compiles [TInt; TChar; TClass 3] const_reference bs = Compiles.
Proof. split; [|reflexivity]. repeat (constructor; [cbn; auto|]). constructor. Qed.

(** With one such branch for every alternative match() compiles and calls the branch for what
    the variant holds, as in the packing of view primitives. *)
Theorem c73_own_branches : forall t bs own alts c, Forall2 (branch_for t) bs own -> NoDup own -> incl alts own -> alts <> [] ->
  match_compiles alts c bs = Compiles /\
  forall k a, nth_error alts k = Some a -> exists i, nth_error own i = Some a /\ match_runs alts c bs (Some k) = Some (Calls i a).
Proof. exact own_compiles. Qed.
Print Assumptions c73_own_branches.
Example c73_own_case : let own := map TClass [5; 0; 1; 2; 3; 4; 6] in let bs := map (fun a => lambda (const_ref a) 0) own in
  Forall2 (branch_for 0) bs own /\ NoDup own /\ incl (map TClass [0; 1; 2; 3; 4; 5; 6]) own.
Proof.
  split; [|split].
  - repeat (constructor; [repeat split; [right; split; reflexivity|exists ByLRef, true; reflexivity]|]). constructor.
  - repeat (constructor; [cbn; intuition discriminate|]). constructor.
  - intros a H. cbn in *. intuition.
Qed.

(** With a default branch (auto, const auto& or auto&&) no value is converted. *)
Theorem c73_default : forall bs alts c k a i t, Exists (fun b => exists m g, bparam b = Generic m g /\ takes_all (bparam b)) bs -> nth_error alts k = Some a ->
  match_runs alts c bs (Some k) = Some (Calls i t) -> t = a.
Proof. exact never_converts. Qed.
Print Assumptions c73_default.
(** It is not called for what has a branch of its own, if all take their arguments by value or
    by const reference and none is mutable. *)
Theorem c73_own_first : forall bs alts c k a i t, Forall (fun b => plain (bparam b) /\ mutable b = false) bs -> Exists (fun b => exists m g, bparam b = Declared (DParam m g a)) bs ->
  nth_error alts k = Some a -> match_runs alts c bs (Some k) = Some (Calls i t) -> exists b m g, nth_error bs i = Some b /\ bparam b = Declared (DParam m g a).
Proof. exact own_first. Qed.
Print Assumptions c73_own_first.
Example c73_default_case : let bs := [lambda (value TInt) 0; lambda (Generic ByValue true) 0] in
  Exists (fun b => exists m g, bparam b = Generic m g /\ takes_all (bparam b)) bs /\ Forall (fun b => plain (bparam b) /\ mutable b = false) bs /\ Exists (fun b => exists m g, bparam b = Declared (DParam m g TInt)) bs /\
  match_runs [TInt; TChar] variable bs (Some 1) = Some (Calls 1 TChar) /\ match_runs [TInt; TChar] variable bs (Some 0) = Some (Calls 0 TInt).
Proof.
  split; [right; left; exists ByValue, true; split; [reflexivity|left; left; reflexivity]|]. split; [repeat (constructor; [split; [left|]; reflexivity|]); constructor|]. split; [left; exists ByValue, false; reflexivity|]. split; reflexivity.
Qed.
(** A mutable default branch is called instead. *)
Theorem c73_mutable_refuted : exists bs, Exists (fun b => bparam b = value TChar) bs /\ Forall (fun b => plain (bparam b)) bs /\
  match_compiles [TChar; TInt] variable bs = Compiles /\ exists b, match_runs [TChar; TInt] variable bs (Some 0) = Some (Calls 1 TChar) /\ nth_error bs 1 = Some b /\ bparam b = Generic ByValue true.
Proof.
  exists [lambda (value TChar) 0; mutable_lambda (Generic ByValue true) 0]. split; [left; reflexivity|]. split; [repeat (constructor; [left; reflexivity|]); constructor|]. split; [reflexivity|]. exists (mutable_lambda (Generic ByValue true) 0). repeat split.
Qed.
Print Assumptions c73_mutable_refuted.
(** Without a default branch an alternative that no branch names need not be refused: a double
    is passed as an int to the only branch. *)
Theorem c73_unhandled_refuted : exists bs, Forall (fun b => bparam b = value TInt) bs /\ match_compiles [TInt; TDouble] variable bs = Compiles /\ match_runs [TInt; TDouble] variable bs (Some 1) = Some (Calls 0 TInt).
Proof. exists [lambda (value TInt) 0]. repeat constructor. Qed.
Print Assumptions c73_unhandled_refuted.
(** Branches that every alternative of a variable matches are refused if they take their
    argument by reference, to change it; *)
Theorem c73_change_refuted : exists bs, Forall (fun b => of_class b = true) bs /\ handled [TInt; TClass 0] variable bs /\ match_compiles [TInt; TClass 0] variable bs = NotConsidered.
Proof.
  exists [lambda (ref TInt) 0; lambda (ref (TClass 0)) 0]. split; [repeat constructor|]. split; [|reflexivity]. apply handled_is; [discriminate|reflexivity].
Qed.
Print Assumptions c73_change_refuted.
(** and branches pass the check that do not compile, such as one that wants to move from a
    variable. *)
Theorem c73_check_refuted : exists bs, Forall (fun b => of_class b = true) bs /\ handled [TClass 0] moved bs /\ match_compiles [TClass 0] variable bs = IllFormed.
Proof.
  exists [lambda (rvalue_ref (TClass 0)) 0]. split; [repeat constructor|]. split; [|reflexivity]. apply handled_is; [discriminate|reflexivity].
Qed.
Print Assumptions c73_check_refuted.
