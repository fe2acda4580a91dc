From Coq Require Import NArith Ascii String ZifyN ZifyBool.
From Verif Require Import Cpp UuidModel UuidSpec.
Open Scope N_scope.

Lemma hex_value_in c : (exists v, hex_value c = Some v) <-> In c (lower_hex ++ upper_hex).
Proof.
  split.
  - destruct c as [[] [] [] [] [] [] [] []]; intros [v H]; vm_compute in H; try discriminate;
      vm_compute; tauto.
  - cbn. intuition (subst; eexists; vm_compute; reflexivity).
Qed.

Lemma hex_value_lt c v : hex_value c = Some v -> v < 16.
Proof.
  unfold hex_value. set (n := N_of_ascii c).
  destruct ((48 <=? n) && (n <=? 57)) eqn:E1; [intros [= <-]; lia|].
  destruct ((97 <=? n) && (n <=? 102)) eqn:E2; [intros [= <-]; lia|].
  destruct ((65 <=? n) && (n <=? 70)) eqn:E3; [intros [= <-]; lia|discriminate].
Qed.

(** Digits below 16, one by one. *)
Lemma below16 n : n < 16 -> In n [0;1;2;3;4;5;6;7;8;9;10;11;12;13;14;15].
Proof.
  intro H. cbn [In].
  assert (n = 0 \/ n = 1 \/ n = 2 \/ n = 3 \/ n = 4 \/ n = 5 \/ n = 6 \/ n = 7 \/ n = 8 \/ n = 9
    \/ n = 10 \/ n = 11 \/ n = 12 \/ n = 13 \/ n = 14 \/ n = 15) by lia.
  intuition auto.
Qed.

Lemma hex_value_digit n : n < 16 -> hex_value (hex_digit n) = Some n.
Proof.
  intro H. apply below16 in H. cbn [In] in H.
  repeat (destruct H as [<-|H]; [reflexivity|]). contradiction.
Qed.

Lemma hex_digit_lower n : n < 16 -> In (hex_digit n) lower_hex.
Proof.
  intro H. apply below16 in H. cbn [In] in H.
  repeat (destruct H as [<-|H]; [vm_compute; tauto|]). contradiction.
Qed.

Lemma hex_digit_not_nul n : n < 16 -> (N_of_ascii (hex_digit n) =? 0) = false.
Proof.
  intro H. apply below16 in H. cbn [In] in H.
  repeat (destruct H as [<-|H]; [reflexivity|]). contradiction.
Qed.

Lemma hex_digit_value c v : hex_value c = Some v -> hex_digit v = lower c.
Proof.
  intro H. assert (In c (lower_hex ++ upper_hex)) as Hc by (apply hex_value_in; eauto).
  cbn in Hc. repeat (destruct Hc as [<-|Hc]; [vm_compute in H; injection H as <-; reflexivity|]).
  contradiction.
Qed.

Lemma lower_dash : lower "-" = "-"%char.
Proof. reflexivity. Qed.

Lemma byte_split b : b < 256 -> b / 16 < 16 /\ b mod 16 < 16 /\ 16 * (b / 16) + b mod 16 = b.
Proof.
  intro H. assert (E := N.div_mod b 16 ltac:(lia)). assert (M := N.mod_lt b 16 ltac:(lia)).
  repeat split; [|lia|lia]. apply N.div_lt_upper_bound; lia.
Qed.

(** A list of known length, element by element. *)
Lemma length16 (u : list N) : length u = 16%nat -> exists b0 b1 b2 b3 b4 b5 b6 b7 b8 b9 b10 b11 b12 b13 b14 b15,
  u = [b0;b1;b2;b3;b4;b5;b6;b7;b8;b9;b10;b11;b12;b13;b14;b15].
Proof.
  intro H. do 16 (destruct u as [|? u]; [discriminate|]). destruct u; [|discriminate].
  repeat eexists.
Qed.

(** Unparsing and the libuuid check agree about every prefix; by computation on
    the 16 positions. *)
Lemma text_of_wf u : uuid_wf u ->
  length (to_string u) = 36%nat /\ check_chars 0 (to_string u) = true /\
  pair_up (digits 0 (to_string u)) = u /\ c_str (to_string u) = to_string u.
Proof.
  intros [L F].
  destruct (length16 u L) as (b0 & b1 & b2 & b3 & b4 & b5 & b6 & b7 & b8 & b9 & b10 & b11 & b12 & b13 & b14 & b15 & ->).
  repeat match goal with H : Forall _ (_ :: _) |- _ => apply Forall_cons_iff in H as [? H] end.
  repeat match goal with H : ?b < 256 |- _ => apply byte_split in H as (? & ? & ?) end.
  unfold to_string.
  cbn [unparse dash_before app]. split; [reflexivity|].
  cbn [check_chars digits dash_at c_str].
  rewrite !hex_value_digit by assumption. rewrite !hex_digit_not_nul by assumption.
  change (N_of_ascii "-" =? 0) with false. cbn iota.
  change (Ascii.eqb "-" "-") with true. cbn [andb app pair_up].
  split; [reflexivity|]. split; [|reflexivity].
  repeat (apply f_equal2; [assumption|]). reflexivity.
Qed.

Lemma dash_at_in i : dash_at i = true <-> In i [8; 13; 18; 23]%nat.
Proof.
  split.
  - do 24 (destruct i as [|i]; [cbn; intuition discriminate|]). cbn. discriminate.
  - cbn. intuition (subst; reflexivity).
Qed.

Lemma check_chars_spec s : forall i, check_chars i s = true <->
  forall k c, nth_error s k = Some c ->
    if in_dec Nat.eq_dec (i + k)%nat [8; 13; 18; 23]%nat then c = "-"%char
    else In c (lower_hex ++ upper_hex).
Proof.
  induction s as [|a s IH]; intro i; cbn [check_chars].
  - split; [|reflexivity]. intros _ [|k] c; discriminate.
  - rewrite andb_true_iff, IH. split.
    + intros [H1 H2] [|k] c Hk.
      * cbn in Hk. injection Hk as <-. rewrite Nat.add_0_r.
        destruct (in_dec Nat.eq_dec i [8; 13; 18; 23]%nat) as [Hi|Hi].
        -- apply dash_at_in in Hi. rewrite Hi in H1. apply Ascii.eqb_eq, H1.
        -- destruct (dash_at i) eqn:E; [exfalso; apply Hi, dash_at_in, E|].
           apply hex_value_in. destruct (hex_value a) as [v|]; [eauto|discriminate].
      * specialize (H2 k c Hk). replace (i + S k)%nat with (S i + k)%nat by lia. exact H2.
    + intro H. split.
      * specialize (H 0%nat a eq_refl). rewrite Nat.add_0_r in H.
        destruct (in_dec Nat.eq_dec i [8; 13; 18; 23]%nat) as [Hi|Hi].
        -- apply dash_at_in in Hi. rewrite Hi. apply Ascii.eqb_eq, H.
        -- destruct (dash_at i) eqn:E; [exfalso; apply Hi, dash_at_in, E|].
           apply hex_value_in in H as [v ->]. reflexivity.
      * intros k c Hk. specialize (H (S k) c Hk).
        replace (S i + k)%nat with (i + S k)%nat by lia. exact H.
Qed.

Lemma parse_accepts s : (exists u, uuid_parse s = Some u) <-> acceptable s.
Proof.
  unfold uuid_parse, acceptable, layout. rewrite <- (check_chars_spec s 0).
  destruct (Nat.eqb_spec (length s) 36) as [E|E]; cbn [andb].
  - destruct (check_chars 0 s); split.
    + intros _. split; [exact E|reflexivity].
    + intros _. eauto.
    + intros [u Hu]; discriminate.
    + intros [_ Hf]; discriminate.
  - split; [intros [u Hu]; discriminate|intros [L _]; contradiction].
Qed.

Lemma pair_div a b : a < 16 -> b < 16 -> (16 * a + b) / 16 = a /\ (16 * a + b) mod 16 = b.
Proof.
  intros Ha Hb. rewrite N.mul_comm.
  rewrite N.div_add_l, N.div_small, N.add_0_r by lia. split; [reflexivity|].
  rewrite N.add_comm, N.mod_add, N.mod_small by lia. reflexivity.
Qed.

(** The text of a parsed id is the given text in lower case. *)
Lemma parse_text s u : uuid_parse s = Some u -> uuid_wf u /\ to_string u = map lower s.
Proof.
  unfold uuid_parse. intro H.
  destruct (Nat.eqb_spec (length s) 36) as [L|L]; cbn [andb] in H; [|discriminate].
  destruct (check_chars 0 s) eqn:C; [|discriminate]. injection H as <-.
  do 36 (destruct s as [|? s]; [discriminate L|]). destruct s; [|discriminate L].
  cbn [check_chars dash_at] in C. cbn [digits dash_at].
  repeat match type of C with
    | (Ascii.eqb ?a "-") && _ = true =>
        let E := fresh "E" in
        apply andb_true_iff in C as [E C]; apply Ascii.eqb_eq in E; subst a
    | (match hex_value ?a with _ => _ end) && _ = true =>
        let E := fresh "E" in let v := fresh "v" in
        destruct (hex_value a) as [v|] eqn:E; [cbn [andb] in C|discriminate C];
        pose proof (hex_value_lt _ _ E); apply hex_digit_value in E
    end.
  cbn [app pair_up]. split.
  - split; [reflexivity|]. repeat (constructor; [lia|]). constructor.
  - unfold to_string. cbn [unparse dash_before app map].
    rewrite lower_dash.
    repeat match goal with
      | H1 : ?a < 16, H2 : ?b < 16 |- context [hex_digit ((16 * ?a + ?b) / 16)] =>
          destruct (pair_div a b H1 H2) as [-> ->]
      end.
    repeat match goal with E : hex_digit ?v = lower _ |- _ => rewrite E; clear E end.
    reflexivity.
Qed.

Lemma string_round_trip u : uuid_wf u -> uuid_of_string (to_string u) = Ok u.
Proof.
  intro H. destruct (text_of_wf u H) as (L & C & D & S).
  unfold uuid_of_string, uuid_parse. rewrite S, L, C, D. reflexivity.
Qed.

Lemma string_canonical u : uuid_wf u -> canonical (to_string u).
Proof.
  intros [L F].
  destruct (length16 u L) as (b0 & b1 & b2 & b3 & b4 & b5 & b6 & b7 & b8 & b9 & b10 & b11 & b12 & b13 & b14 & b15 & ->).
  repeat match goal with H : Forall _ (_ :: _) |- _ => apply Forall_cons_iff in H as [? H] end.
  repeat match goal with H : ?b < 256 |- _ => apply byte_split in H as (? & ? & _) end.
  split; [reflexivity|].
  unfold to_string. cbn [unparse dash_before app].
  intros i c Hi.
  do 36 (destruct i as [|i];
    [cbn in Hi; injection Hi as <-;
     match goal with |- if ?d then _ else _ => destruct d as [d0|d0];
       [first [reflexivity | exfalso; revert d0; cbn; intuition discriminate]
       |first [apply hex_digit_lower; assumption | exfalso; apply d0; cbn; tauto]] end|]).
  cbn in Hi. destruct i; discriminate.
Qed.

Lemma c_str_id s : no_nul s -> c_str s = s.
Proof.
  unfold no_nul. induction s as [|c s IH]; cbn; intro H; [reflexivity|].
  destruct (N.eqb_spec (N_of_ascii c) 0) as [E|E].
  - exfalso. apply H. left. rewrite <- (ascii_N_embedding c), E. reflexivity.
  - rewrite IH; [reflexivity|]. tauto.
Qed.

Lemma of_string_grammar s :
  (acceptable (c_str s) <-> exists u, uuid_of_string s = Ok u) /\
  (~ acceptable (c_str s) <-> uuid_of_string s = Throw) /\
  (forall u, uuid_of_string s = Ok u -> uuid_wf u /\ to_string u = map lower (c_str s)).
Proof.
  unfold uuid_of_string. rewrite <- parse_accepts.
  destruct (uuid_parse (c_str s)) as [u|] eqn:E.
  - split; [|split].
    + split; intros _; eauto.
    + split; [intro H; exfalso; apply H; eauto|discriminate].
    + intros u' [= <-]. apply parse_text, E.
  - split; [|split].
    + split; intros [u H]; discriminate.
    + split; [reflexivity|]. intros _ [u H]. discriminate.
    + intros u H. discriminate.
Qed.

Lemma bytes_eqb_eq a : forall b, bytes_eqb a b = true <-> a = b.
Proof.
  induction a as [|x a IH]; intros [|y b]; cbn; try (split; congruence).
  rewrite andb_true_iff, N.eqb_eq, IH. split; [intros [-> ->]; reflexivity|intros [= -> ->]; auto].
Qed.

Lemma to_string_inj a b : uuid_wf a -> uuid_wf b -> to_string a = to_string b -> a = b.
Proof.
  intros Ha Hb E. apply string_round_trip in Ha, Hb. rewrite E in Ha. congruence.
Qed.

Lemma equality_agrees (h : text -> N) a b : uuid_wf a -> uuid_wf b ->
  (uuid_eqb a b = true <-> a = b) /\
  (uuid_eqb a b = true <-> to_string a = to_string b) /\
  uuid_neqb a b = negb (uuid_eqb a b) /\
  (uuid_eqb a b = true -> uuid_hash h a = uuid_hash h b) /\
  (uuid_is_null a = true <-> a = null_uuid).
Proof.
  intros Ha Hb. unfold uuid_eqb, uuid_is_null, uuid_hash.
  rewrite !bytes_eqb_eq. split; [tauto|]. split; [|split; [reflexivity|split; [|tauto]]].
  - split; [intros ->; reflexivity|apply to_string_inj; assumption].
  - intros ->. reflexivity.
Qed.
