(** Proofs on the device code client and the mock device code server. *)
From Coq Require Import List ZArith Lia.
From Verif Require Import Cpp AuthModel AuthSpec AuthProofs DevModel DevSpec.
Import ListNotations.
Local Open Scope nat_scope.

Lemma acts_parts l : forall m, interval_ (do_acts m l) = interval_ m /\ token_ (do_acts m l) = token_ m.
Proof. induction l as [|a l IH]; intro m; [split; reflexivity|]. cbn [do_acts fold_left]. destruct (IH (do_act m a)) as [H1 H2]. unfold do_acts in *. rewrite H1, H2. destruct a; split; reflexivity. Qed.
Lemma acts_complete l : forall m, browser_auth_complete_ (do_acts m l) = true <-> browser_auth_complete_ m = true \/ In Approve l.
Proof.
  induction l as [|a l IH]; intro m; [cbn; tauto|]. change (do_acts m (a :: l)) with (do_acts (do_act m a) l). rewrite IH. destruct a; cbn; [tauto|]. split; [intros [H|H]; auto|intros [H|[H|H]]; auto; discriminate].
Qed.
Lemma acts_timeout l : forall m, last_timeout (timeout_s_ m) l (timeout_s_ (do_acts m l)).
Proof.
  induction l as [|a l IH] using rev_ind; intro m; [left; split; [reflexivity|intros s []]|]. unfold do_acts. rewrite fold_left_app. cbn [fold_left]. fold (do_acts m l). destruct a as [|s]; cbn [do_act timeout_s_].
  - destruct (IH m) as [[H N]|(l1 & l2 & E & N)]; [left|right].
    + split; [exact H|]. intros s I. apply in_app_or in I. destruct I as [I|[I|[]]]; [exact (N s I)|discriminate].
    + exists l1, (l2 ++ [Approve]). split; [rewrite E at 1; rewrite <- app_assoc; reflexivity|]. intros s I. apply in_app_or in I. destruct I as [I|[I|[]]]; [exact (N s I)|discriminate].
  - right. exists l, []. split; [reflexivity|]. intros s' [].
Qed.

Section Env.
Variables (acts : nat -> list act) (E : env).
Notation serves := (serves acts E).

(** The server behind [i] polls after the request for the code. *)
Fixpoint polled (p : nat) (m : mock) (i : nat) : mock :=
  match i with O => m | S i => do_acts (polled p m i) (acts (p + 1 + i)) end.
Lemma polled_parts p m i : interval_ (polled p m i) = interval_ m /\ token_ (polled p m i) = token_ m.
Proof. induction i as [|i [H1 H2]]; [split; reflexivity|]. cbn [polled]. destruct (acts_parts (acts (p + 1 + i)) (polled p m i)) as [-> ->]. auto. Qed.
Lemma polled_complete p m i : browser_auth_complete_ m = false -> (browser_auth_complete_ (polled p m (S i)) = true <-> approved_by acts p i).
Proof.
  intro F. induction i as [|i IH].
  - cbn [polled]. rewrite acts_complete, F. unfold approved_by. split; [intros [H|H]; [discriminate|]; exists (p + 1 + 0); split; [lia|exact H]|]. intros (j & J & A). right. replace (p + 1 + 0) with j by lia. exact A.
  - cbn [polled] in *. rewrite acts_complete, IH. unfold approved_by. split.
    + intros [(j & J & A)|A]; [exists j; split; [lia|exact A]|]. exists (p + 1 + S i). split; [lia|exact A].
    + intros (j & J & A). destruct (Nat.eq_dec j (p + 1 + S i)) as [->|D]; [right; exact A|]. left. exists j. split; [lia|exact A].
Qed.

Lemma serves_app a : forall n m b m', serves n m (a ++ b) m' -> exists m1, serves n m a m1 /\ serves (n + posts a) m1 b m'.
Proof.
  induction a as [|e a IH]; intros n m b m' H; [exists m; split; [reflexivity|]; cbn; rewrite Nat.add_0_r; exact H|].
  destruct e; cbn [app DevModel.serves] in *; unfold posts; cbn [filter is_post length]; try (destruct (IH _ _ _ _ H) as (m1 & A & B); exists m1; split; [exact A|exact B]).
  - destruct (handle_device _) as [m2 x]. destruct H as [D H]. destruct (IH _ _ _ _ H) as (m1 & A & B). exists m1. split; [split; assumption|]. rewrite <- plus_n_Sm. exact B.
  - destruct (handle_poll _) as [m2 x]. destruct H as [D H]. destruct (IH _ _ _ _ H) as (m1 & A & B). exists m1. split; [split; assumption|]. rewrite <- plus_n_Sm. exact B.
Qed.
Lemma serves_rounds p m int tail m' : forall k i, serves (p + 1 + i) (polled p m i) (rounds k int ++ tail) m' ->
  (forall j, i <= j < i + k -> poll E (p + 1 + j) = Some (snd (handle_poll (polled p m (S j))))) /\ serves (p + 1 + (i + k)) (polled p m (i + k)) tail m'.
Proof.
  induction k as [|k IH]; intros i H.
  - rewrite Nat.add_0_r. split; [intros j J; lia|exact H].
  - cbn [rounds app DevModel.serves handle_poll] in H. destruct H as [P H]. replace (S (p + 1 + i)) with (p + 1 + S i) in H by lia. change (do_acts (polled p m i) (acts (p + 1 + i))) with (polled p m (S i)) in *. destruct (IH (S i) H) as [A B]. replace (S i + k) with (i + S k) in * by lia. split; [|exact B]. intros j J. destruct (Nat.eq_dec j i) as [->|D]; [exact P|]. apply A. lia.
Qed.

Lemma mock_fetch_shape fuel s s' r evs m m' : fetch_token E fuel s = (s', r) -> did s s' evs -> serves (posts (trace s)) m evs m' ->
  let p := posts (trace s) in let c := clocks (trace s) in
  let m1 := fst (handle_device (do_acts m (acts p))) in
  let deadline := (clock E c + timeout_s_ m1 * 1000000000)%Z in
  exists k tail, evs = [PostDevice; Clock] ++ rounds k (interval_ m) ++ tail /\
    (forall i, i < k -> (clock E (c + 1 + i) < deadline)%Z /\ ~ approved_by acts p i) /\
    ((k = fuel /\ tail = [] /\ r = None /\ token s' = token s) \/
     (k < fuel /\ (clock E (c + 1 + k) < deadline)%Z /\ approved_by acts p k /\ tail = [Clock; PostPoll] /\
        ((token_ m <> [] /\ r = Some (Ok tt) /\ token s' = token_ m) \/ (token_ m = [] /\ r = Some Throw /\ token s' = token s))) \/
     (k < fuel /\ (deadline <= clock E (c + 1 + k))%Z /\ tail = [Clock] /\ r = Some Throw /\ token s' = token s)).
Proof.
  intros F D SS p c m1 deadline. assert (D1 : exists evs', evs = PostDevice :: evs' /\ device E p = Some (snd (handle_device (do_acts m (acts p)))) /\ serves (p + 1) m1 evs' m').
  { pose proof (polling E fuel s s' r F) as Q. cbv zeta in Q. fold p c in Q. unfold did in *. destruct Q as [(D1 & _ & _ & _)|(a & k & tail & _ & _ & D1 & _)]; rewrite D1 in D; apply app_inv_head in D; subst evs; fold p in SS; cbn [app DevModel.serves] in SS; destruct (handle_device (do_acts m (acts p))) as [m2 x] eqn:HD; destruct SS as [S1 S2]; eexists; (split; [reflexivity|]); (split; [exact S1|]); unfold m1; rewrite Nat.add_1_r; exact S2. }
  destruct D1 as (evs' & -> & DV & SV). pose proof (polling E fuel s s' r F) as Q. cbv zeta in Q. fold p c in Q. unfold did in *. destruct Q as [(_ & _ & _ & N)|(a & k & tail & DA & _ & D1 & R & L)]; [exfalso; exact (N _ DV eq_refl)|].
  rewrite DV in DA. injection DA as <-. rewrite D1 in D. apply app_inv_head in D. cbn [app] in D. injection D as <-. cbn [snd handle_device da_interval da_expires_in] in *.
  assert (IV : interval_ (do_acts m (acts p)) = interval_ m) by apply acts_parts. assert (TK : token_ m1 = token_ m) by (unfold m1; cbn; apply acts_parts). rewrite IV in *.
  assert (FC : browser_auth_complete_ m1 = false) by reflexivity.
  assert (DL : (clock E c + timeout_s_ (do_acts m (acts p)) * 1000000000)%Z = deadline) by reflexivity. rewrite DL in *. clear DL.
  cbn [DevModel.serves] in SV. replace (p + 1) with (p + 1 + 0) in SV by lia. change m1 with (polled p m1 0) in SV. destruct (serves_rounds p m1 (interval_ m) tail m' k 0 SV) as [RP TL]. cbn [Nat.add] in TL.
  exists k, tail. split; [reflexivity|]. split.
  { intros i I. destruct (R i I) as (C & b & PB & HE). split; [exact C|]. intro A. apply (polled_complete p m1 i FC) in A. assert (HB : b = snd (handle_poll (polled p m1 (S i)))) by (rewrite (RP i ltac:(lia)) in PB; congruence). rewrite HB in HE. unfold handle_poll in HE. cbn [snd] in HE. rewrite A in HE. discriminate. }
  assert (TP : poll E (p + 1 + k) = Some (snd (handle_poll (polled p m1 (S k)))) -> forall b, poll E (p + 1 + k) = Some b -> pa_has_error b = false -> approved_by acts p k /\ pa_access_token b = token_ m).
  { intros P0 b PB HE. assert (HB : b = snd (handle_poll (polled p m1 (S k)))) by congruence. subst b. clear P0 PB. unfold handle_poll in *. cbn [snd] in *. destruct (browser_auth_complete_ (polled p m1 (S k))) eqn:B; [|discriminate]. cbn [pa_access_token]. split; [apply (polled_complete p m1 k FC), B|]. destruct (polled_parts p m1 (S k)) as [_ ->]. exact TK. }
  inversion L as [K T1|b K C PB HE T1 NE|K C T1|K C BAD T1]; subst.
  - left. auto.
  - right. left. cbn [DevModel.serves] in TL. destruct TL as [P0 _]. destruct (TP P0 b PB HE) as [A TB]. split; [exact K|]. split; [exact C|]. split; [exact A|]. split; [reflexivity|]. left. rewrite <- TB. rewrite <- T1. auto.
  - right. right. auto.
  - right. left. cbn [DevModel.serves] in TL. destruct TL as [P0 _]. destruct BAD as [BAD|(b & PB & HE & TB)]; [change (poll E (p + 1 + k) = Some (snd (handle_poll (polled p m1 (S k))))) in P0; congruence|]. destruct (TP P0 b PB HE) as [A TB']. split; [exact K|]. split; [exact C|]. split; [exact A|]. split; [reflexivity|]. right. split; [congruence|auto].
Qed.

Theorem fetched fuel s s' r evs m m' : fetch_token E fuel s = (s', r) -> did s s' evs -> serves (posts (trace s)) m evs m' ->
  exists timeout, last_timeout (timeout_s_ m) (acts (posts (trace s))) timeout /\
  let p := posts (trace s) in let c := clocks (trace s) in
  let deadline := (clock E c + timeout * 1000000000)%Z in
  (forall k, k < fuel -> approved_by acts p k -> (forall i, i < k -> ~ approved_by acts p i) -> (forall i, i <= k -> (clock E (c + 1 + i) < deadline)%Z) ->
     evs = [PostDevice; Clock] ++ rounds k (interval_ m) ++ [Clock; PostPoll] /\
     (token_ m <> [] -> r = Some (Ok tt) /\ token s' = token_ m) /\ (token_ m = [] -> r = Some Throw /\ token s' = token s)) /\
  (forall k, k < fuel -> (deadline <= clock E (c + 1 + k))%Z -> (forall i, i < k -> (clock E (c + 1 + i) < deadline)%Z /\ ~ approved_by acts p i) ->
     evs = [PostDevice; Clock] ++ rounds k (interval_ m) ++ [Clock] /\ r = Some Throw /\ token s' = token s) /\
  ((forall i, i < fuel -> (clock E (c + 1 + i) < deadline)%Z /\ ~ approved_by acts p i) -> r = None).
Proof.
  intros F D SS. exists (timeout_s_ (do_acts m (acts (posts (trace s))))). split; [apply acts_timeout|]. intros p c deadline.
  destruct (mock_fetch_shape fuel s s' r evs m m' F D SS) as (k & tail & EV & R & C). fold p c in EV, R, C. cbn [handle_device fst timeout_s_] in R, C. change (clock E c + timeout_s_ (do_acts m (acts p)) * 1000000000)%Z with deadline in R, C. clearbody deadline.
  split; [|split].
  - intros k' K' A' N' C'. assert (KK : k = k').
    { destruct (Nat.lt_trichotomy k k') as [L|[L|L]]; [exfalso|exact L|exfalso].
      - destruct C as [(K & _)|[(_ & _ & A & _)|(_ & T & _)]]; [lia|exact (N' k L A)|]. specialize (C' k ltac:(lia)). lia.
      - exact (proj2 (R k' L) A'). }
    subst k'. destruct C as [(K & _)|[(_ & _ & _ & TL & C)|(_ & T & _)]]; [lia| |specialize (C' k ltac:(lia)); lia]. rewrite EV, TL. split; [reflexivity|]. destruct C as [(NE & C)|(NE & C)]; split; intro; try contradiction; exact C.
  - intros k' K' T' N'. assert (KK : k = k').
    { destruct (Nat.lt_trichotomy k k') as [L|[L|L]]; [exfalso|exact L|exfalso].
      - destruct C as [(K & _)|[(_ & _ & A & _)|(_ & T & _)]]; [lia|exact (proj2 (N' k L) A)|]. destruct (N' k L) as [Q _]. lia.
      - destruct (R k' L) as [Q _]. lia. }
    subst k'. destruct C as [(K & _)|[(_ & Q & _)|(_ & T & TL & C)]]; [lia|lia|]. rewrite EV, TL. split; [reflexivity|exact C].
  - intro N. destruct C as [(K & _ & C & _)|[(K & _ & A & _)|(K & T & _)]]; [exact C|exfalso; exact (proj2 (N k K) A)|]. destruct (N k K) as [Q _]. lia.
Qed.
End Env.

(** ** There are such exchanges *)
Definition served (acts : nat -> list act) (p : nat) (m : mock) (clk : nat -> Z) (f : option text) : env :=
  let m1 := fst (handle_device (do_acts m (acts p))) in
  {| init_file := f; clock := clk;
     device := fun _ => Some (snd (handle_device (do_acts m (acts p))));
     poll := fun n => Some (snd (handle_poll (polled acts p m1 (n - p)))) |}.
Lemma serves_rounds_ok acts E p m int tail m' : forall k i,
  (forall j, i <= j < i + k -> poll E (p + 1 + j) = Some (snd (handle_poll (polled acts p m (S j))))) -> serves acts E (p + 1 + (i + k)) (polled acts p m (i + k)) tail m' ->
  serves acts E (p + 1 + i) (polled acts p m i) (rounds k int ++ tail) m'.
Proof.
  induction k as [|k IH]; intros i H T.
  - rewrite Nat.add_0_r in T. exact T.
  - cbn [rounds app DevModel.serves handle_poll]. split; [apply (H i); lia|]. replace (S (p + 1 + i)) with (p + 1 + S i) by lia. apply (IH (S i)); [intros j J; apply H; lia|]. replace (S i + k) with (i + S k) by lia. exact T.
Qed.
Theorem exchange fuel s (m : mock) (acts : nat -> list act) (clk : nat -> Z) (f : option text) : exists E s' r evs m',
  clock E = clk /\ init_file E = f /\ fetch_token E fuel s = (s', r) /\ did s s' evs /\ serves acts E (posts (trace s)) m evs m'.
Proof.
  set (p := posts (trace s)). set (E := served acts p m clk f). set (m1 := fst (handle_device (do_acts m (acts p)))).
  destruct (fetch_token E fuel s) as [s' r] eqn:F. pose proof (polling E fuel s s' r F) as Q. cbv zeta in Q. fold p in Q.
  assert (PL : forall j, poll E (p + 1 + j) = Some (snd (handle_poll (polled acts p m1 (S j))))) by (intro j; cbn [poll E served]; replace (p + 1 + j - p) with (S j) by lia; reflexivity).
  assert (TL : forall k tail, (tail = [] \/ tail = [Clock] \/ tail = [Clock; PostPoll]) -> exists m', serves acts E (p + 1 + k) (polled acts p m1 k) tail m').
  { intros k tail [-> |[-> | ->]]; [eexists; reflexivity|eexists; reflexivity|]. cbn [DevModel.serves handle_poll]. eexists. split; [exact (PL k)|reflexivity]. }
  destruct Q as [(_ & _ & _ & N)|(a & k & tail & DA & _ & D & R & L)]; [exfalso; exact (N _ eq_refl eq_refl)|].
  assert (TT : tail = [] \/ tail = [Clock] \/ tail = [Clock; PostPoll]) by (destruct L; auto).
  destruct (TL k tail TT) as (m' & SV). exists E, s', r, ([PostDevice; Clock] ++ rounds k (da_interval a) ++ tail), m'. split; [reflexivity|]. split; [reflexivity|]. split; [exact F|]. split; [exact D|].
  cbn [app DevModel.serves handle_device]. split; [reflexivity|]. replace (S p) with (p + 1 + 0) by lia. match goal with |- DevModel.serves _ _ _ ?x _ _ => change x with (polled acts p m1 0) end. apply serves_rounds_ok; [intros j _; apply PL|exact SV].
Qed.

Theorem got acts E fuel s s' r evs m m' : token s = [] -> file E s = None ->
  get_jwt E fuel s = (s', r) -> did s s' evs -> serves acts E (posts (trace s)) m evs m' ->
  exists timeout, last_timeout (timeout_s_ m) (acts (posts (trace s))) timeout /\
  let p := posts (trace s) in let c := clocks (trace s) in
  let deadline := (clock E c + timeout * 1000000000)%Z in
  (forall k, k < fuel -> approved_by acts p k -> (forall i, i < k -> ~ approved_by acts p i) -> (forall i, i <= k -> (clock E (c + 1 + i) < deadline)%Z) ->
     (token_ m <> [] -> r = Some (Ok (token_ m)) /\ evs = [PostDevice; Clock] ++ rounds k (interval_ m) ++ [Clock; PostPoll; Truncate; Write (token_ m)]) /\
     (token_ m = [] -> r = Some Throw /\ evs = [PostDevice; Clock] ++ rounds k (interval_ m) ++ [Clock; PostPoll])) /\
  (forall k, k < fuel -> (deadline <= clock E (c + 1 + k))%Z -> (forall i, i < k -> (clock E (c + 1 + i) < deadline)%Z /\ ~ approved_by acts p i) ->
     r = Some Throw /\ evs = [PostDevice; Clock] ++ rounds k (interval_ m) ++ [Clock]) /\
  ((forall i, i < fuel -> (clock E (c + 1 + i) < deadline)%Z /\ ~ approved_by acts p i) -> r = None).
Proof.
  intros T0 F0 G D SV. unfold get_jwt, load_token in G. rewrite T0, F0 in G. destruct (fetch_token E fuel s) as [s1 r1] eqn:F.
  assert (DF : exists evs1, did s s1 evs1).
  { pose proof (polling E fuel s s1 r1 F) as Q. cbv zeta in Q. destruct Q as [(Q & _)|(a & k & tail & _ & _ & Q & _)]; eexists; exact Q. }
  destruct DF as (evs1 & D1).
  assert (X : exists rest, evs = evs1 ++ rest /\ (forall t, r1 = Some (Ok t) -> r = Some (Ok (token s1)) /\ rest = [Truncate; Write (token s1)]) /\ (r1 = Some Throw -> r = Some Throw /\ rest = []) /\ (r1 = None -> r = None /\ rest = [])).
  { unfold did in *. destruct r1 as [[t| |]|]; injection G as <- <-.
    - exists [Truncate; Write (token s1)]. cbn [save_token emit trace] in D. rewrite D1, <- !app_assoc in D. apply app_inv_head in D. cbn [app] in D. split; [symmetry; exact D|]. split; [intros _ _; split; reflexivity|]. split; discriminate.
    - exists []. rewrite D1 in D. apply app_inv_head in D. rewrite app_nil_r. split; [symmetry; exact D|]. split; [discriminate|]. split; [auto|discriminate].
    - exists []. rewrite D1 in D. apply app_inv_head in D. rewrite app_nil_r. split; [symmetry; exact D|]. split; [discriminate|]. split; discriminate.
    - exists []. rewrite D1 in D. apply app_inv_head in D. rewrite app_nil_r. split; [symmetry; exact D|]. split; [discriminate|]. split; [discriminate|auto]. }
  destruct X as (rest & EV & XO & XT & XN). rewrite EV in SV. apply serves_app in SV. destruct SV as (m2 & SV & _).
  destruct (fetched acts E fuel s s1 r1 evs1 m m2 F D1 SV) as (timeout & LT & A & B & C). exists timeout. split; [exact LT|]. intros p c deadline. split; [|split].
  - intros k K AP NA CL. destruct (A k K AP NA CL) as (E1 & P & Q). split; intro TK.
    + destruct (P TK) as [R1 T1]. destruct (XO _ R1) as [R2 RS]. rewrite R2, EV, E1, RS, T1. split; [reflexivity|]. rewrite <- !app_assoc. reflexivity.
    + destruct (Q TK) as [R1 T1]. destruct (XT R1) as [R2 RS]. rewrite R2, EV, E1, RS. split; [reflexivity|]. rewrite <- !app_assoc. reflexivity.
  - intros k K CL NA. destruct (B k K CL NA) as (E1 & R1 & _). destruct (XT R1) as [R2 RS]. rewrite R2, EV, E1, RS. split; [reflexivity|]. rewrite <- !app_assoc. reflexivity.
  - intro N. apply XN, C, N.
Qed.
Theorem got_exchange fuel s (m : mock) (acts : nat -> list act) (clk : nat -> Z) (f : option text) : token s = [] -> file_after f (trace s) = None -> exists E s' r evs m',
  clock E = clk /\ init_file E = f /\ get_jwt E fuel s = (s', r) /\ did s s' evs /\ serves acts E (posts (trace s)) m evs m'.
Proof.
  intros T0 F0. destruct (exchange fuel s m acts clk f) as (E & s1 & r1 & evs1 & m' & CK & IF & F & D & SV).
  assert (FE : file E s = None) by (unfold file; rewrite IF; exact F0).
  assert (SA : forall rest, (rest = [] \/ rest = [Truncate; Write (token s1)]) -> serves acts E (posts (trace s)) m (evs1 ++ rest) m').
  { intros rest RS. revert SV. clear - RS. generalize (posts (trace s)) as n. revert m. induction evs1 as [|e evs IH]; intros m n SV.
    - cbn [app]. destruct RS as [-> | ->]; exact SV.
    - destruct e; cbn [app serves] in *; try (apply IH, SV).
      + destruct (handle_device _). destruct SV as [P SV]. split; [exact P|apply IH, SV].
      + destruct (handle_poll _). destruct SV as [P SV]. split; [exact P|apply IH, SV]. }
  unfold did in *.
  destruct r1 as [[t| |]|]; (eexists E, _, _, _, m'; split; [exact CK|]; split; [exact IF|]; split; [unfold get_jwt, load_token; rewrite T0, FE, F; reflexivity|]; split).
  all: try (exact D). all: try (rewrite <- (app_nil_r evs1); apply SA; left; reflexivity).
  - cbn [save_token emit trace]. rewrite D, <- !app_assoc. reflexivity.
  - apply SA. right. reflexivity.
Qed.
