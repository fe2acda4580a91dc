(** Status, StatusValue and their macros: C46, C57. *)
From Coq Require Import Ascii String.
From Verif Require Import Cpp StatusModel StatusSpec StatusProofs.

(** ** C46 *)
Theorem c46_status_value_never_lies : forall (T : Type) (ops : list (sv_op T)) x,
  In x (fold_left sv_step ops []) ->
  (sv_ok x = true <-> exists v, x = Value v) /\
  (sv_ok x = true <-> exists v, sv_value x = Ok v) /\
  (sv_ok x = false <-> sv_value x = Throw) /\
  (sv_ok x = false <-> ok (sv_status x) = false).
Proof. exact (fun T => @reachable_ok_has_value T). Qed.
Print Assumptions c46_status_value_never_lies.

Theorem c46_no_okay_without_value : forall (T : Type) (s : status),
  (ok s = true <-> @sv_of_status T s = Throw) /\
  (ok s = false <-> @sv_of_status T s = Ok (Bad s)).
Proof. exact (fun T => @sv_of_status_spec T). Qed.
Print Assumptions c46_no_okay_without_value.

(** A chain of RETURN_OR_ASSIGN steps on variables returns the final value when every
    step succeeds, and the first error otherwise, whatever the later steps are. *)
Theorem c46_chain_success : forall (T : Type) fs (v v' : T),
  succeeds fs v v' -> chain (stored fs) v = Ok (Value v').
Proof. exact (fun T => @chain_success T). Qed.
Print Assumptions c46_chain_success.

Theorem c46_chain_first_error : forall (T : Type) fs f rest (v v' : T) s,
  succeeds fs v v' -> f v' = Ok (Bad s) -> ok s = false ->
  chain (stored fs ++ (ViaVariable, f) :: rest) v = Ok (Bad s).
Proof. exact (fun T => @chain_first_error T). Qed.
Print Assumptions c46_chain_first_error.

Theorem c46_chain_inversion : forall (T : Type) steps (v : T) r,
  (forall f x y, In f (map snd steps) -> f x = Ok y -> y <> Bad Okay) ->
  chain steps v = Ok r ->
  (exists v' fs, r = Value v' /\ steps = stored fs /\ succeeds fs v v') \/
  (exists s fs f rest v', r = Bad s /\ ok s = false /\ steps = stored fs ++ (ViaVariable, f) :: rest /\
     succeeds fs v v' /\ f v' = Ok (Bad s)).
Proof. exact (fun T => @chain_inversion T). Qed.
Print Assumptions c46_chain_inversion.

(** Full statement: the same holds for steps written as RETURN_OR_ASSIGN of a call, the
    way the examples write them.  False: the first such step that is reached uses a
    temporary after its lifetime, whether it succeeded or not. *)
Theorem c46_direct_steps_refuted : forall (T : Type) fs f rest (v v' : T) x,
  succeeds fs v v' -> f v' = Ok x -> chain (stored fs ++ (Direct, f) :: rest) v = UB.
Proof. exact (fun T => @chain_direct T). Qed.
Print Assumptions c46_direct_steps_refuted.

(** Full statement: StatusValue<Status> is rejected.  False: the guard accepts it, and
    such an object is okay although it was made from a bad status. *)
Theorem c46_guard_refuted : static_assert_passes TStatus = true /\
  forall a s, a <> ConstLvalue -> exists x, sv_status_of a s = Ok x /\ sv_ok x = true /\ sv_value x = Ok s.
Proof.
  split; [reflexivity|]. intros [] s H; [| |contradiction]; exists (Value s); repeat split; reflexivity.
Qed.
Print Assumptions c46_guard_refuted.

Definition ex_half (n : nat) : outcome (status_value nat) :=
  if Nat.even n then Ok (Value (Nat.div2 n)) else Ok (Bad (make_at_line "f.cc" 3 "odd")).

Example c46_example :
  In (Value 3) (fold_left sv_step [NewValue 3; NewStatus OKAY_STATUS; Copy 0] []) /\
  succeeds [ex_half; ex_half] 12 3 /\ chain (stored [ex_half; ex_half]) 12 = Ok (Value 3) /\
  ex_half 3 = Ok (Bad (make_at_line "f.cc" 3 "odd")) /\
  chain (stored [ex_half; ex_half] ++ (ViaVariable, ex_half) :: stored [ex_half; fun _ => Throw]) 12
    = Ok (Bad (make_at_line "f.cc" 3 "odd")) /\
  chain [(Direct, ex_half); (Direct, ex_half)] 12 = UB /\
  sv_status_of Rvalue (make_at_line "f.cc" 3 "odd") = Ok (Value (make_at_line "f.cc" 3 "odd")).
Proof.
  repeat split; try reflexivity.
  - left. reflexivity.
  - repeat (econstructor; try reflexivity).
Qed.

(** ** C57 *)
Theorem c57_text_okay : forall s, what s = "OKAY"%string <-> ok s = true.
Proof. exact what_ok. Qed.
Print Assumptions c57_text_okay.

Theorem c57_text_identifies : forall f l m f' l' m', ~ occurs ":" f -> ~ occurs ":" f' ->
  what (make_at_line f l m) = what (make_at_line f' l' m') -> f = f' /\ l = l' /\ m = m'.
Proof. exact what_inj. Qed.
Print Assumptions c57_text_identifies.

Theorem c57_text_same_file : forall f l m l' m',
  what (make_at_line f l m) = what (make_at_line f l' m') -> l = l' /\ m = m'.
Proof. exact what_same_file. Qed.
Print Assumptions c57_text_same_file.

(** Full statement: the text always identifies file, line and message.  False for file
    names with a colon. *)
Theorem c57_text_identifies_refuted : exists f l m f' l' m',
  what (make_at_line f l m) = what (make_at_line f' l' m') /\ f <> f' /\ l <> l' /\ m <> m'.
Proof.
  exists "a"%string, 1%Z, "b:2> c"%string, "a:1> b"%string, 2%Z, "c"%string.
  repeat split; discriminate.
Qed.
Print Assumptions c57_text_identifies_refuted.

Theorem c57_check_variable : forall (S : Type) file line text st (s : S),
  snd (check_status_expr file line text (fun s => (st, s)) s) = s /\
  (fst (check_status_expr file line text (fun s => (st, s)) s) = None <-> ok st = true) /\
  (ok st = false -> exists t, fst (check_status_expr file line text (fun s => (st, s)) s) = Some t /\
     contains t (what st)) /\
  (check_status_ok st = Ok tt <-> ok st = true) /\ (check_status_ok st = Throw <-> ok st = false).
Proof. exact (fun S => @check_pure S). Qed.
Print Assumptions c57_check_variable.

(** On an expression with effects the text comes from a first evaluation and the decision
    from a second one. *)
Theorem c57_check_evaluates_twice : forall (S : Type) file line text (e : S -> status * S) s,
  let first := fst (e s) in let s1 := snd (e s) in
  let second := fst (e s1) in let s2 := snd (e s1) in
  snd (check_status_expr file line text e s) = s2 /\
  (ok second = true -> fst (check_status_expr file line text e s) = None) /\
  (ok second = false -> exists t, fst (check_status_expr file line text e s) = Some t /\ contains t (what first)).
Proof. exact (fun S => @check_expr S). Qed.
Print Assumptions c57_check_evaluates_twice.

(** Full statement: CHECK_STATUS_OK throws exactly if its argument evaluates to a bad
    status.  False for an argument with effects: a call that fails and then succeeds is
    not noticed, and one that succeeds and then fails is reported as OKAY. *)
Theorem c57_check_call_refuted : exists e : nat -> status * nat,
  (ok (fst (e 0)) = false /\ check_status_expr "f.cc" 7 "e()" e 0 = (None, 2)) /\
  (ok (fst (e 1)) = true /\ exists t, check_status_expr "f.cc" 7 "e()" e 1 = (Some t, 3) /\
     contains t ".what() == OKAY}").
Proof.
  exists (fun n => (if Nat.odd n then OKAY_STATUS else make_at_line "g.cc" 3 "down", S n)).
  split; [split; reflexivity|]. split; [reflexivity|]. eexists. split; [reflexivity|].
  exists ("<f.cc:7> - ReAssertion failed: ((e()).ok()). Message: " ++ String "027" "[38;2;255;000;000m{e()")%string.
  exists (String "027" "[0m"). reflexivity.
Qed.
Print Assumptions c57_check_call_refuted.

Theorem c57_return_evaluates_once : forall (S : Type) (e k : S -> status * S) s,
  (ok (fst (e s)) = false -> return_if_not_ok e k s = e s) /\
  (ok (fst (e s)) = true -> return_if_not_ok e k s = k (snd (e s))).
Proof. exact (fun S => @return_if_not_ok_spec S). Qed.
Print Assumptions c57_return_evaluates_once.

Example c57_example :
  what (make_at_line "resim/f.cc" 12 "Oh no!") = "<resim/f.cc:12> Oh no!"%string /\
  ~ occurs ":" "resim/f.cc" /\
  fst (check_status_expr "g.cc" 5 "s" (fun n : nat => (make_at_line "f.cc" 12 "Oh no!", n)) 0) =
    Some ("<g.cc:5> - ReAssertion failed: ((s).ok()). Message: " ++ String "027" "[38;2;255;000;000m" ++
          "{s.what() == <f.cc:12> Oh no!}" ++ String "027" "[0m")%string /\
  return_if_not_ok (fun n => (OKAY_STATUS, S n)) (fun n => (make_at_line "f.cc" 1 "x", n)) 0
    = (make_at_line "f.cc" 1 "x", 1).
Proof. repeat split. cbn. intuition discriminate. Qed.
