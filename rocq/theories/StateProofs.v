(** Proofs about rigid body states and trajectories. *)
From Flocq Require Import Core.
From Verif Require Import Cpp UuidModel RotSpec RotProofs GeomModel DerivSpec FrameSpec FrameProofs LieSpec LieProofs JetModel JetSpec JetLaws JetProofs
  CurveModel CurveSpec TCurveProofs SegClose TimeModel FloatModel FloatSpec FloatProofs StateModel StateSpec.
Local Open Scope R_scope.

(** ** States *)
Lemma after_snoc_setting l x s : after_settings (l ++ [x]) s = set (after_settings l s) x.
Proof. unfold after_settings. rewrite fold_left_app. reflexivity. Qed.
Lemma final_keep {A} (a : A -> setting) l (old x : A) y : final a l old x -> (forall z, a z <> y) -> final a (l ++ [y]) old x.
Proof.
  intros [(l1 & l2 & -> & N)|(E & N)] H.
  - left. exists l1, (l2 ++ [y]). split; [rewrite <- app_assoc; reflexivity|]. intros z I. apply in_app_or in I as [I|[I|[]]]; [exact (N z I)|exact (H z (eq_sym I))].
  - right. split; [exact E|]. intros z I. apply in_app_or in I as [I|[I|[]]]; [exact (N z I)|exact (H z (eq_sym I))].
Qed.
Lemma final_new {A} (a : A -> setting) l (old x : A) : final a (l ++ [a x]) old x.
Proof. left. exists l, []. split; [reflexivity|]. intros y []. Qed.
Lemma setters l s : let s' := after_settings l s in
  final SetPose l (ref_from_body s) (ref_from_body s') /\
  final SetLinearVelocity l (linear_velocity s) (linear_velocity s') /\
  final SetAngularVelocity l (angular_velocity s) (angular_velocity s') /\
  final SetLinearAcceleration l (linear_acceleration s) (linear_acceleration s') /\
  final SetAngularAcceleration l (angular_acceleration s) (angular_acceleration s').
Proof.
  cbv zeta. induction l as [|x l IH] using rev_ind.
  - repeat (split; [right; split; [reflexivity|intros y []]|]). right. split; [reflexivity|intros y []].
  - rewrite after_snoc_setting. destruct IH as (A & B & C & D & E). set (q := after_settings l s) in *.
    destruct x as [g|v|v|v|v]; repeat match goal with |- _ /\ _ => split end;
      first [apply final_new | apply final_keep; [assumption|discriminate]].
Qed.
Lemma state_ext a b : ref_from_body a = ref_from_body b -> rs_derivatives a = rs_derivatives b -> a = b.
Proof.
  destruct a as [[ga [wa va] [ha ua]]], b as [[gb [wb vb] [hb ub]]]. unfold ref_from_body, rs_derivatives. cbn. intros -> E. injection E as -> -> -> ->. reflexivity.
Qed.

Lemma jr_inv_frames j : jet_r_wf se3_calc j -> exists i, jr_inverse se3_ops j = Ok i /\ jet_r_wf se3_calc i /\
  se3_into (ref_from_frame i) = se3_from (ref_from_frame j) /\ se3_from (ref_from_frame i) = se3_into (ref_from_frame j) /\
  jr_mul se3_ops j i = jr_identity se3_ops (Some (se3_into (ref_from_frame j), se3_into (ref_from_frame j))) /\
  jr_mul se3_ops i j = jr_identity se3_ops (Some (se3_from (ref_from_frame j), se3_from (ref_from_frame j))) /\
  jr_inverse se3_ops i = Ok j.
Proof.
  intro W. destruct (jr_inverse_law se3_laws j W) as (i & E & Wi & M1 & M2 & II). exists i.
  split; [exact E|]. split; [exact Wi|]. rewrite (jr_inverse_eq se3_laws j W) in E.
  destruct (inv_facts se3_laws _ W) as (_ & _ & I & F & _). injection E as <-.
  split; [exact I|]. split; [exact F|]. auto.
Qed.
Lemma jr_cancel_l a b : jet_r_wf se3_calc a -> jet_r_wf se3_calc b -> se3_into (ref_from_frame a) = se3_into (ref_from_frame b) ->
  exists i r, jr_inverse se3_ops a = Ok i /\ jr_mul se3_ops i b = Ok r /\ jr_mul se3_ops a r = Ok b.
Proof.
  intros Wa Wb E. destruct (jr_inv_frames a Wa) as (i & Ei & Wi & Ii & Fi & M1 & _). exists i.
  destruct (jr_assoc se3_laws a i b Wa Wi Wb) as (x & X1 & X2); [exact (eq_sym Ii)|exact (eq_trans Fi E)|].
  destruct (jr_neutral se3_laws b Wb) as (e1 & _ & E1 & _ & N1 & _). rewrite M1, E in X1. cbn [g_into se3_ops] in E1. rewrite E1 in X1.
  cbn [obind] in X1. rewrite N1 in X1. injection X1 as <-.
  destruct (jr_mul se3_ops i b) as [r| |] eqn:Er; try discriminate X2. exists r. auto.
Qed.
Lemma jr_cancel_r a b : jet_r_wf se3_calc a -> jet_r_wf se3_calc b -> se3_from (ref_from_frame a) = se3_into (ref_from_frame b) ->
  exists i r, jr_inverse se3_ops a = Ok i /\ jr_mul se3_ops a b = Ok r /\ jr_mul se3_ops i r = Ok b.
Proof.
  intros Wa Wb E. destruct (jr_inv_frames a Wa) as (i & Ei & Wi & Ii & Fi & _ & M2 & _). exists i.
  destruct (jr_assoc se3_laws i a b Wi Wa Wb) as (x & X1 & X2); [exact Fi|exact E|].
  destruct (jr_neutral se3_laws b Wb) as (e1 & _ & E1 & _ & N1 & _). rewrite M2, E in X1. cbn [g_into se3_ops] in E1. rewrite E1 in X1.
  cbn [obind] in X1. rewrite N1 in X1. injection X1 as <-.
  destruct (jr_mul se3_ops a b) as [r| |] eqn:Er; try discriminate X2. exists r. auto.
Qed.
Lemma inverse_times_mul a b : state_wf a -> state_wf b -> se3_from (ref_from_body a) = se3_into (ref_from_body b) ->
  exists r, rs_mul a b = Ok r /\ rs_inverse_times a r = Ok b.
Proof.
  intros Wa Wb E. destruct (jr_cancel_r _ _ Wa Wb E) as (i & r & Ei & Er & Eb). exists (rs_of_jet r).
  unfold rs_mul, rs_inverse_times. rewrite Er, Ei. cbn [obind rs_of_jet ref_from_body_two_jet]. split; [reflexivity|]. rewrite Eb.
  destruct b. reflexivity.
Qed.
Lemma mul_inverse_times a b : state_wf a -> state_wf b -> se3_into (ref_from_body a) = se3_into (ref_from_body b) ->
  exists r, rs_inverse_times a b = Ok r /\ rs_mul a r = Ok b.
Proof.
  intros Wa Wb E. destruct (jr_cancel_l _ _ Wa Wb E) as (i & r & Ei & Er & Eb). exists (rs_of_jet r).
  unfold rs_mul, rs_inverse_times. rewrite Ei. cbn [obind]. rewrite Er. cbn [obind rs_of_jet ref_from_body_two_jet]. split; [reflexivity|]. rewrite Eb.
  destruct b. reflexivity.
Qed.
Lemma inverse_times_self a : state_wf a ->
  rs_inverse_times a a = rs_identity (Some (se3_from (ref_from_body a), se3_from (ref_from_body a))).
Proof.
  intro W. destruct (jr_inv_frames _ W) as (i & Ei & _ & _ & _ & _ & M2 & _). unfold rs_inverse_times, rs_identity. rewrite Ei. cbn [obind].
  rewrite M2. reflexivity.
Qed.
Lemma mul_motion a b p t sa sb : (forall s, se3_wf (a s)) -> (forall s, se3_wf (b s)) -> (forall s, se3_mul (a s) (b s) = Ok (p s)) ->
  state_of a t sa -> state_of b t sb -> exists r, rs_mul sa sb = Ok r /\ state_of p t r.
Proof.
  intros Wa Wb M Da Db. destruct (describes_r_mul se3_laws a b p t _ _ Wa Wb M Da Db) as (j & E & D).
  exists (rs_of_jet j). unfold rs_mul. rewrite E. split; [reflexivity|exact D].
Qed.
Lemma relative_motion a b ai p t sa sb : (forall s, se3_wf (a s)) -> (forall s, se3_wf (b s)) -> (forall s, se3_inverse (a s) = Ok (ai s)) ->
  (forall s, se3_mul (ai s) (b s) = Ok (p s)) -> state_of a t sa -> state_of b t sb -> exists r, rs_inverse_times sa sb = Ok r /\ state_of p t r.
Proof.
  intros Wa Wb I M Da Db. destruct (describes_r_inverse se3_laws a ai t _ Wa I Da) as (i & Ei & Di).
  assert (Wi : forall s, se3_wf (ai s)).
  { intro s. destruct (inverse_ok _ _ se3_laws (a s) (Wa s)) as (h & E & W & _). cbn [g_inverse se3_ops] in E. rewrite (I s) in E. injection E as <-. exact W. }
  destruct (describes_r_mul se3_laws ai b p t _ _ Wi Wb M Di Db) as (j & E & D).
  exists (rs_of_jet j). unfold rs_inverse_times. rewrite Ei. cbn [obind]. rewrite E. split; [reflexivity|exact D].
Qed.
Lemma mul_frames_checked a b : state_wf a -> state_wf b -> se3_into (ref_from_body a) <> null_frame -> se3_into (ref_from_body b) <> null_frame ->
  (se3_from (ref_from_body a) <> se3_into (ref_from_body b) -> rs_mul a b = Throw) /\
  (se3_into (ref_from_body a) <> se3_into (ref_from_body b) -> rs_inverse_times a b = Throw).
Proof.
  intros Wa Wb Na Nb. split; intro H.
  - unfold rs_mul. rewrite (jr_mul_mismatch se3_laws _ _ Wa Wb Na Nb H). reflexivity.
  - unfold rs_inverse_times. destruct (jr_inv_frames _ Wa) as (i & -> & Wi & Ii & Fi & _). cbn [obind].
    rewrite (jr_mul_mismatch se3_laws i (ref_from_body_two_jet b) Wi Wb); [reflexivity| |exact Nb|].
    + cbn [g_into se3_ops]. intro X. rewrite Ii in X. apply Na. exact (proj2 (wf_frames _ _ se3_laws _ Wa) X).
    + cbn [g_from g_into se3_ops]. intro X. rewrite Fi in X. exact (H X).
Qed.
Lemma identity_state i : exists e, rs_identity (Some (i, i)) = Ok e /\ state_wf e /\
  rs_derivatives e = StateDerivatives vzero vzero vzero vzero /\ se3_identity (Some (i, i)) = Ok (ref_from_body e) /\
  (forall s, state_wf s -> se3_into (ref_from_body s) = i -> rs_mul e s = Ok s) /\
  (forall s, state_wf s -> se3_from (ref_from_body s) = i -> rs_mul s e = Ok s).
Proof.
  destruct (identity_some _ _ se3_laws i) as (g & E & W & Ig & Fg & _). exists (rs_of_jet (JetR g tzero tzero)).
  unfold rs_identity, jr_identity. cbn [g_identity se3_ops t_zero] in E |- *. rewrite E. split; [reflexivity|].
  split; [exact W|]. split; [reflexivity|]. split; [reflexivity|]. unfold rs_mul. cbn [rs_of_jet ref_from_body_two_jet].
  split; intros [j] Ws H; destruct (jr_neutral se3_laws j Ws) as (e1 & e2 & E1 & E2 & N1 & N2).
  - unfold ref_from_body in H. cbn [ref_from_body_two_jet] in H. cbn [g_into se3_ops] in E1. rewrite H in E1.
    unfold jr_identity in E1. cbn [g_identity se3_ops] in E1. rewrite E in E1. injection E1 as <-. cbn [ref_from_body_two_jet]. rewrite N1. reflexivity.
  - unfold ref_from_body in H. cbn [ref_from_body_two_jet] in H. cbn [g_from se3_ops] in E2. rewrite H in E2.
    unfold jr_identity in E2. cbn [g_identity se3_ops] in E2. rewrite E in E2. injection E2 as <-. cbn [ref_from_body_two_jet]. rewrite N2. reflexivity.
Qed.
Lemma constructors g d :
  ref_from_body (rs_make g d) = g /\ rs_derivatives (rs_make g d) = d /\
  ref_from_body (rs_of_pose g) = g /\ rs_derivatives (rs_of_pose g) = StateDerivatives vzero vzero vzero vzero.
Proof. destruct d. repeat split. Qed.
