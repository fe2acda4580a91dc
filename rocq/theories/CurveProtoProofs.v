(** Proofs about the wire forms of jets, curves, trajectories and view primitives. *)
From Coq Require Import Ascii.
From Verif Require Import Cpp UuidModel UuidSpec UuidProofs RotSpec GeomModel TransProtoModel TransProtoSpec TransProtoProofs FrameSpec FrameProofs LieSpec LieProofs
  JetModel JetSpec JetLaws JetProofs CurveModel CurveSpec TCurveProofs DCurveSpec DCurveProofs TimeModel TimeSpec TimeProofs StatusModel StateModel StateSpec
  CurveProtoModel CurveProtoSpec.
Local Open Scope R_scope.

(** ** What the wire functions of a group satisfy *)
Record wire_laws {G T : Type} (o : lie_ops G T) (c : lie_calc G T) (w : lie_wire G T) (ids : G -> Prop) (near : G -> G -> Prop) : Prop := WireLaws {
  wl_round : forall g, well_formed c g -> ids g -> exists h, w_unpack w (w_pack w g) = Ok h /\ near g h;
  wl_tangent : forall v, w_unpack_tangent w (w_pack_tangent w v) = Ok v;
  wl_frames : forall g h, near g h -> g_into o h = g_into o g /\ g_from o h = g_from o g;
  wl_wf : forall m g, w_unpack w m = Ok g -> well_formed c g;
  wl_defined : forall m, w_unpack w m <> UB;
  wl_tangent_defined : forall l, w_unpack_tangent w l <> UB }.

Lemma unpack_so3_wf m g : unpack_so3 m = Ok g -> so3_wf g.
Proof.
  intro E. apply (proj1 (unpack_so3_spec m)) in E as (v & i & f & _ & _ & _ & F & E).
  destruct (exp_some _ _ so3_laws v i f F) as (g' & E' & W & _). change (so3_exp v (Some (i, f)) = Ok g') in E'. rewrite E in E'. injection E' as <-. exact W.
Qed.
Lemma unpack_se3_wf m g : unpack_se3 m = Ok g -> se3_wf g.
Proof.
  intro E. apply (proj1 (unpack_se3_spec m)) in E as (v & i & f & _ & _ & _ & F & E).
  destruct (exp_some _ _ se3_laws v i f F) as (g' & E' & W & _). change (se3_exp v (Some (i, f)) = Ok g') in E'. rewrite E in E'. injection E' as <-. exact W.
Qed.
Lemma so3_wire_laws : wire_laws so3_ops so3_calc so3_wire so3_ids (fun g h => h = g).
Proof.
  constructor; cbn [w_pack w_unpack w_pack_tangent w_unpack_tangent so3_wire well_formed so3_calc].
  - intros g W [I F]. exists g. split; [apply so3_round_trip; assumption|reflexivity].
  - intro v. rewrite pack_vec3_eq. apply unpack_vec3_ok.
  - intros g h ->. split; reflexivity.
  - exact unpack_so3_wf.
  - intros m E. destruct (unpack_so3_spec m) as [_ [_ T]]. revert E T. unfold unpack_so3.
    destruct (unpack_vec3_cases (algebra m)) as [(v & _ & ->)|(_ & ->)]; [|discriminate]. cbn [obind].
    destruct (frame_cases (msg_into m)) as [(i & _ & ->)|(_ & ->)]; [|discriminate]. cbn [obind].
    destruct (frame_cases (msg_from m)) as [(f & _ & ->)|(_ & ->)]; [|discriminate]. cbn [obind].
    destruct (frames_ok_dec i f) as [F|F]; [rewrite (so3_exp_ok v i f F)|rewrite so3_exp_throw by exact F]; discriminate.
  - intros l E. destruct (unpack_vec3_cases l) as [(v & _ & K)|(_ & K)]; rewrite K in E; discriminate.
Qed.
Lemma se3_wire_laws : wire_laws se3_ops se3_calc se3_wire se3_ids se3_near.
Proof.
  constructor; cbn [w_pack w_unpack w_pack_tangent w_unpack_tangent se3_wire well_formed se3_calc].
  - intros g W [I F]. destruct (se3_round_trip g W I F) as (h & E & A & B & C & D & P). exists h. split; [exact E|].
    split; [|exact P]. split; [exact A|]. split; [exact B|]. split; [exact C|exact D].
  - intro v. rewrite pack_tan6_eq. apply unpack_tan6_ok.
  - intros g h [(_ & A & B & _) _]. split; assumption.
  - exact unpack_se3_wf.
  - intros m E. revert E. unfold unpack_se3.
    destruct (unpack_tan6_cases (algebra m)) as [(v & _ & ->)|(_ & ->)]; [|discriminate]. cbn [obind].
    destruct (frame_cases (msg_into m)) as [(i & _ & ->)|(_ & ->)]; [|discriminate]. cbn [obind].
    destruct (frame_cases (msg_from m)) as [(f & _ & ->)|(_ & ->)]; [|discriminate]. cbn [obind].
    destruct (frames_ok_dec i f) as [F|F]; [rewrite (se3_exp_eq v i f F)|rewrite se3_exp_throw by exact F]; discriminate.
  - intros l E. destruct (unpack_tan6_cases l) as [(v & _ & K)|(_ & K)]; rewrite K in E; discriminate.
Qed.

(** ** Loops that collect results *)
Definition collect {A B} (f : A -> outcome B) (l : list A) (acc : outcome (list B)) : outcome (list B) :=
  fold_left (fun acc x => let* ys := acc in let* y := f x in Ok (ys ++ [y])) l acc.
Lemma collect_throw {A B} (f : A -> outcome B) l : collect f l Throw = Throw.
Proof. induction l as [|x l IH]; [reflexivity|exact IH]. Qed.
Lemma collect_ub {A B} (f : A -> outcome B) l : collect f l UB = UB.
Proof. induction l as [|x l IH]; [reflexivity|exact IH]. Qed.
Lemma collect_cases {A B} (f : A -> outcome B) l : forall acc,
  (exists ys, Forall2 (fun x y => f x = Ok y) l ys /\ collect f l (Ok acc) = Ok (acc ++ ys)) \/
  (exists l1 x l2 ys, l = l1 ++ x :: l2 /\ Forall2 (fun x y => f x = Ok y) l1 ys /\
     ((f x = Throw /\ collect f l (Ok acc) = Throw) \/ (f x = UB /\ collect f l (Ok acc) = UB))).
Proof.
  induction l as [|x l IH]; intro acc.
  - left. exists []. split; [constructor|]. rewrite app_nil_r. reflexivity.
  - unfold collect. cbn [fold_left obind]. destruct (f x) as [y| |] eqn:E; cbn [obind].
    + fold (collect f l (Ok (acc ++ [y]))). destruct (IH (acc ++ [y])) as [(ys & F & ->)|(l1 & z & l2 & ys & -> & F & R)].
      * left. exists (y :: ys). split; [constructor; assumption|]. rewrite <- app_assoc. reflexivity.
      * right. exists (x :: l1), z, l2, (y :: ys). split; [reflexivity|]. split; [constructor; assumption|exact R].
    + right. exists [], x, l, []. split; [reflexivity|]. split; [constructor|]. left. split; [exact E|apply collect_throw].
    + right. exists [], x, l, []. split; [reflexivity|]. split; [constructor|]. right. split; [exact E|apply collect_ub].
Qed.
Lemma collect_ok {A B} (f : A -> outcome B) l ys : Forall2 (fun x y => f x = Ok y) l ys -> collect f l (Ok []) = Ok ys.
Proof.
  intro F. destruct (collect_cases f l []) as [(zs & F' & ->)|(l1 & x & l2 & zs & -> & _ & R)].
  - cbn [app]. f_equal. clear -F F'. revert zs F'. induction F as [|x y l ys E F IH]; intros zs F'; inversion F' as [|? z ? zs' E' F'']; subst; [reflexivity|].
    f_equal; [congruence|apply IH; assumption].
  - exfalso. apply Forall2_app_inv_l in F as (y1 & y2 & _ & F2 & _). inversion F2 as [|? y ? ? E _]; subst. destruct R as [[R _]|[R _]]; congruence.
Qed.

(** ** Two-jets *)
Section Curves.
Context {G T : Type} {o : lie_ops G T} {c : lie_calc G T} {w : lie_wire G T} {ids : G -> Prop} {near : G -> G -> Prop}.
Context (W : wire_laws o c w ids near).

Lemma jetl_round (j : jet_l G T) out : well_formed c (frame_from_ref j) -> ids (frame_from_ref j) ->
  exists m k, pack_two_jetl w j (Some out) = Ok m /\ unpack_two_jetl w m = Ok k /\ near (frame_from_ref j) (frame_from_ref k) /\
    d_frame_from_ref k = d_frame_from_ref j /\ d2_frame_from_ref k = d2_frame_from_ref j.
Proof.
  intros Wj I. destruct (wl_round _ _ _ _ _ W _ Wj I) as (h & E & N).
  eexists _, (JetL h (d_frame_from_ref j) (d2_frame_from_ref j)). split; [reflexivity|]. cbn [jm_group jm_d jm_d2].
  unfold unpack_two_jetl. cbn [jm_group jm_d jm_d2]. rewrite E, !(wl_tangent _ _ _ _ _ W). split; [reflexivity|]. split; [exact N|split; reflexivity].
Qed.
Lemma jetr_round (j : jet_r G T) out : well_formed c (ref_from_frame j) -> ids (ref_from_frame j) ->
  exists m k, pack_two_jetr w j (Some out) = Ok m /\ unpack_two_jetr w m = Ok k /\ near (ref_from_frame j) (ref_from_frame k) /\
    d_ref_from_frame k = d_ref_from_frame j /\ d2_ref_from_frame k = d2_ref_from_frame j.
Proof.
  intros Wj I. destruct (wl_round _ _ _ _ _ W _ Wj I) as (h & E & N).
  eexists _, (JetR h (d_ref_from_frame j) (d2_ref_from_frame j)). split; [reflexivity|]. cbn [jm_group jm_d jm_d2].
  unfold unpack_two_jetr. cbn [jm_group jm_d jm_d2]. rewrite E, !(wl_tangent _ _ _ _ _ W). split; [reflexivity|]. split; [exact N|split; reflexivity].
Qed.
Lemma jetl_defined m : unpack_two_jetl w m <> UB.
Proof.
  unfold unpack_two_jetl. destruct (w_unpack w (jm_group m)) eqn:E; [|discriminate|elim (wl_defined _ _ _ _ _ W _ E)]. cbn [obind].
  destruct (w_unpack_tangent w (jm_d m)) eqn:E1; [|discriminate|elim (wl_tangent_defined _ _ _ _ _ W _ E1)]. cbn [obind].
  destruct (w_unpack_tangent w (jm_d2 m)) eqn:E2; [discriminate|discriminate|elim (wl_tangent_defined _ _ _ _ _ W _ E2)].
Qed.
Lemma jetl_unpack_wf m j : unpack_two_jetl w m = Ok j -> well_formed c (frame_from_ref j).
Proof.
  unfold unpack_two_jetl. destruct (w_unpack w (jm_group m)) eqn:E; [|discriminate|discriminate]. cbn [obind].
  destruct (w_unpack_tangent w (jm_d m)); [|discriminate|discriminate]. cbn [obind].
  destruct (w_unpack_tangent w (jm_d2 m)); [|discriminate|discriminate]. cbn [obind]. intro H. injection H as <-. apply (wl_wf _ _ _ _ _ W _ _ E).
Qed.

(** ** Time curves *)
Definition gives (m : control_msg) (p : control G T) : Prop := c_time p = cm_time m /\ unpack_two_jetl w (cm_point m) = Ok (c_point p).
Definition unpack_step (m : control_msg) : call (tcurve G T) unit :=
  do point := calc (fun _ => unpack_two_jetl w (cm_point m)) in tc_append o (Control (cm_time m) point).
Lemma unpack_loop msg :
  (exists ps, Forall2 gives msg ps /\ forall k, for_each unpack_step msg k = tc_append_list o ps k) \/
  ((forall ps, ~ Forall2 gives msg ps) /\ forall k, snd (for_each unpack_step msg k) = Throw).
Proof.
  induction msg as [|m msg IH].
  - left. exists []. split; [constructor|reflexivity].
  - destruct (unpack_two_jetl w (cm_point m)) as [j| |] eqn:E.
    + assert (S : forall k, unpack_step m k = tc_append o (Control (cm_time m) j) k).
      { intro k. unfold unpack_step, cbind, calc. rewrite E. reflexivity. }
      destruct IH as [(ps & F & IH)|(F & IH)].
      * left. exists (Control (cm_time m) j :: ps). split; [constructor; [split; [reflexivity|exact E]|exact F]|].
        intro k. unfold tc_append_list. cbn [for_each]. unfold cbind. rewrite S. destruct (tc_append o (Control (cm_time m) j) k) as [k' [[]| |]]; try reflexivity. apply IH.
      * right. split; [intros ps F'; inversion F' as [|? p ? ps' A B]; subst; apply (F ps' B)|].
        intro k. cbn [for_each]. unfold cbind. rewrite S. destruct (append_cases (o:=o) (Control (cm_time m) j) k) as [(_ & A & _)|(_ & A)].
        -- destruct (tc_append o (Control (cm_time m) j) k) as [k' r]. cbn [snd] in A. subst r. apply IH.
        -- rewrite A. reflexivity.
    + right. split; [intros ps F'; inversion F' as [|? p ? ps' A B]; subst; destruct A as [_ A]; congruence|].
      intro k. cbn [for_each]. unfold cbind, unpack_step, calc. unfold cbind. rewrite E. reflexivity.
    + elim (jetl_defined _ E).
Qed.
Lemma t_unpack_cases msg :
  (exists ps, Forall2 gives msg ps /\ unpack_t_curve o w msg = tc_make o ps) \/
  ((forall ps, ~ Forall2 gives msg ps) /\ unpack_t_curve o w msg = Throw).
Proof.
  assert (U : unpack_t_curve o w msg = construct tc_empty (for_each unpack_step msg)) by reflexivity.
  destruct (unpack_loop msg) as [(ps & F & E)|(F & E)].
  - left. exists ps. split; [exact F|]. rewrite U. unfold tc_make, construct. rewrite E. reflexivity.
  - right. split; [exact F|]. rewrite U. unfold construct. specialize (E tc_empty). destruct (for_each unpack_step msg tc_empty) as [k r].
    cbn [snd] in E. subst r. reflexivity.
Qed.
Lemma gives_fun msg ps : Forall2 gives msg ps -> forall qs, Forall2 gives msg qs -> ps = qs.
Proof.
  induction 1 as [|m p msg ps [A B] F IH]; intros qs F'; inversion F' as [|? q ? qs' [A' B'] F'']; subst; [reflexivity|].
  f_equal; [destruct p, q; cbn in *; congruence|apply IH, F''].
Qed.
Lemma t_unpack_spec msg :
  (forall k, unpack_t_curve o w msg = Ok k <-> exists ps, Forall2 gives msg ps /\ takes o ps ps /\ k = after_appends o ps tc_empty) /\
  ((forall k, unpack_t_curve o w msg <> Ok k) -> unpack_t_curve o w msg = Throw).
Proof.
  destruct (t_unpack_cases msg) as [(ps & F & ->)|(F & ->)].
  - destruct (make_spec (o:=o) ps) as [A B]. destruct (Classical_Prop.classic (takes o ps ps)) as [H|H].
    + rewrite (proj1 (A H)). split; [|intro K; elim (K _ eq_refl)]. intro k. split.
      * intro E. injection E as <-. exists ps. auto.
      * intros (qs & F' & _ & ->). rewrite (gives_fun _ _ F _ F'). reflexivity.
    + rewrite (B H). split; [|reflexivity]. intro k. split; [discriminate|]. intros (qs & F' & K & _).
      rewrite (gives_fun _ _ F _ F') in H. contradiction.
  - split; [|reflexivity]. intro k. split; [discriminate|]. intros (qs & F' & _). elim (F _ F').
Qed.
Lemma each_app {S A} (f : A -> call S unit) l r k : for_each f (l ++ r) k = cbind (for_each f l) (fun _ => for_each f r) k.
Proof.
  revert k. induction l as [|x l IH]; intro k; [reflexivity|]. cbn [app for_each]. unfold cbind. destruct (f x k) as [k' [[]| |]]; try reflexivity.
  rewrite IH. reflexivity.
Qed.
Lemma each_stops {S A} (f : A -> call S unit) l k : snd (for_each f l k) = Throw ->
  exists good bad rest k1, l = good ++ bad :: rest /\ for_each f good k = (k1, Ok tt) /\ snd (f bad k1) = Throw /\ for_each f l k = f bad k1.
Proof.
  revert k. induction l as [|x l IH]; intros k H; [discriminate H|]. cbn [for_each] in *. unfold cbind in *. destruct (f x k) as [k' [[]| |]] eqn:E; try discriminate H.
  - destruct (IH _ H) as (good & bad & rest & k1 & -> & H1 & H2 & H3). exists (x :: good), bad, rest, k1. split; [reflexivity|]. cbn [for_each]. unfold cbind. rewrite E.
    split; [exact H1|]. split; [exact H2|exact H3].
  - exists [], x, l, k. split; [reflexivity|]. split; [reflexivity|]. rewrite E. split; reflexivity.
Qed.
Lemma t_target msg k0 : (forall k, unpack_t_curve_into o w msg k0 = (k, Ok tt) <-> unpack_t_curve o w msg = Ok k) /\
  ((exists k, unpack_t_curve o w msg = Ok k) \/ exists k good bad rest, unpack_t_curve_into o w msg k0 = (k, Throw) /\ msg = good ++ bad :: rest /\
     unpack_t_curve o w good = Ok k /\ unpack_t_curve o w (good ++ [bad]) = Throw).
Proof.
  assert (U : forall m, unpack_t_curve_into o w m k0 = for_each unpack_step m tc_empty) by reflexivity.
  assert (V : forall m, unpack_t_curve o w m = construct tc_empty (for_each unpack_step m)) by reflexivity.
  rewrite U, V. unfold construct. split.
  - intro k. destruct (for_each unpack_step msg tc_empty) as [k' [[]| |]]; (split; intro E; try discriminate E; injection E as <-; reflexivity).
  - pose proof (proj2 (t_unpack_spec msg)) as D. rewrite V in D. unfold construct in D.
    destruct (for_each unpack_step msg tc_empty) as [k' r] eqn:E. assert (R : r <> UB) by (intros ->; discriminate (D ltac:(discriminate))).
    destruct r as [[]| |]; [left; eexists; reflexivity| |elim R; reflexivity]. right.
    destruct (each_stops unpack_step msg tc_empty) as (good & bad & rest & k1 & Em & H1 & H2 & H3); [rewrite E; reflexivity|].
    assert (K : fst (unpack_step bad k1) = k1).
    { clear -H2. unfold unpack_step, cbind, calc in *. destruct (unpack_two_jetl w (cm_point bad)) as [j| |]; try reflexivity.
      destruct (append_cases (o:=o) (Control (cm_time bad) j) k1) as [(_ & A & _)|(_ & A)]; [rewrite A in H2; discriminate H2|rewrite A; reflexivity]. }
    rewrite E in H3. rewrite <- H3 in K, H2. cbn [fst snd] in K, H2. subst k'.
    exists k1, good, bad, rest. split; [reflexivity|]. split; [exact Em|]. rewrite !V. unfold construct. rewrite each_app. unfold cbind. rewrite H1.
    split; [reflexivity|]. cbn [for_each]. unfold cbind. rewrite <- H3. reflexivity.
Qed.
Lemma rebuilt ps : after_appends o (control_pts (after_appends o ps tc_empty)) tc_empty = after_appends o ps tc_empty.
Proof.
  induction ps as [|p ps IH] using rev_ind; [reflexivity|]. rewrite after_snoc. destruct (append_cases (o:=o) p (after_appends o ps tc_empty)) as [(A & _ & ->)|(A & ->)].
  - rewrite after_snoc, IH. reflexivity.
  - exact IH.
Qed.
Lemma built_again k : built o k -> after_appends o (control_pts k) tc_empty = k /\ takes o (control_pts k) (control_pts k).
Proof.
  intros (ps & ->). split; [apply rebuilt|]. pose proof (build_takes (o:=o) (control_pts (after_appends o ps tc_empty))) as H. rewrite rebuilt in H. exact H.
Qed.
Definition alike (p q : control G T) : Prop := c_time q = c_time p /\ same_frames o (frame_from_ref (c_point p)) (frame_from_ref (c_point q)).
Lemma takes_alike ps qs : Forall2 alike ps qs -> takes o ps ps -> takes o qs qs.
Proof.
  intros F H. apply takes_all. intros l q r E. subst qs. apply Forall2_app_inv_r in F as (l' & r' & F1 & F2 & ->).
  inversion F2 as [|p ? r0 ? [Tp Sp] F3]; subst. pose proof (takes_all_inv (o:=o) _ H l' p r0 eq_refl) as A.
  destruct A as [->|(l0 & b & -> & Tb & Sb)].
  - inversion F1. left. reflexivity.
  - right. apply Forall2_app_inv_l in F1 as (l1 & b1 & F1 & Fb & ->). inversion Fb as [|? b' ? ? [Tb' Sb'] Fn]; subst. inversion Fn; subst.
    exists l1, b'. split; [reflexivity|]. split; [lra|]. destruct Sp, Sb, Sb'. split; congruence.
Qed.
Lemma t_pack k out : exists msg, pack_t_curve w k (Some out) = Ok msg /\
  Forall2 (fun p m => cm_time m = c_time p /\ pack_two_jetl w (c_point p) (Some jet_msg_default) = Ok (cm_point m)) (control_pts k) msg.
Proof.
  unfold pack_t_curve. cbn [not_null obind].
  set (f := fun p : control G T => let* point := pack_two_jetl w (c_point p) (Some jet_msg_default) in Ok (ControlMsg (c_time p) point)).
  set (msg := map (fun p => ControlMsg (c_time p) (JetMsg (w_pack w (frame_from_ref (c_point p))) (w_pack_tangent w (d_frame_from_ref (c_point p))) (w_pack_tangent w (d2_frame_from_ref (c_point p))))) (control_pts k)).
  exists msg. split.
  - change (collect f (control_pts k) (Ok []) = Ok msg). apply collect_ok. unfold msg. clear. induction (control_pts k) as [|p l IH]; [constructor|].
    constructor; [reflexivity|exact IH].
  - unfold msg. clear. induction (control_pts k) as [|p l IH]; [constructor|]. constructor; [split; reflexivity|exact IH].
Qed.
Lemma t_round k out : curve_wf o c k -> (forall p, In p (control_pts k) -> ids (frame_from_ref (c_point p))) ->
  exists msg k', pack_t_curve w k (Some out) = Ok msg /\ unpack_t_curve o w msg = Ok k' /\ curve_wf o c k' /\
    Forall2 (fun p q => c_time q = c_time p /\ near (frame_from_ref (c_point p)) (frame_from_ref (c_point q)) /\
      d_frame_from_ref (c_point q) = d_frame_from_ref (c_point p) /\ d2_frame_from_ref (c_point q) = d2_frame_from_ref (c_point p))
      (control_pts k) (control_pts k').
Proof.
  intros [B Wk] I. destruct (t_pack k out) as (msg & E & F). exists msg.
  assert (X : exists ps, Forall2 gives msg ps /\ Forall (fun p => well_formed c (frame_from_ref (c_point p))) ps /\
    Forall2 (fun p q => c_time q = c_time p /\ near (frame_from_ref (c_point p)) (frame_from_ref (c_point q)) /\
      d_frame_from_ref (c_point q) = d_frame_from_ref (c_point p) /\ d2_frame_from_ref (c_point q) = d2_frame_from_ref (c_point p)) (control_pts k) ps).
  { clear -W F I Wk. revert I Wk. induction F as [|p m l msg [A B] F IH]; intros I Wk; [exists []; repeat constructor|].
    destruct IH as (ps & F1 & F2 & F3); [intros q Q; apply I; right; exact Q|intros q Q; apply Wk; right; exact Q|].
    destruct (jetl_round (c_point p) jet_msg_default (Wk p (or_introl eq_refl)) (I p (or_introl eq_refl))) as (m' & j & E1 & E2 & N & D1 & D2).
    rewrite B in E1. injection E1 as <-. exists (Control (cm_time m) j :: ps). split; [constructor; [split; [reflexivity|exact E2]|exact F1]|].
    split; [constructor; [apply (jetl_unpack_wf _ _ E2)|exact F2]|]. constructor; [|exact F3]. cbn [c_time c_point]. auto. }
  destruct X as (ps & F1 & F2 & F3). destruct (built_again k B) as [_ Tk].
  assert (Tp : takes o ps ps).
  { apply (takes_alike (control_pts k)); [|exact Tk]. clear -F3 W. induction F3 as [|p q l ps (A & N & _) F IH]; constructor; [|exact IH].
    split; [exact A|]. destruct (wl_frames _ _ _ _ _ W _ _ N) as [N1 N2]. split; symmetry; assumption. }
  destruct (make_spec (o:=o) ps) as [M _]. destruct (M Tp) as [_ Cp].
  exists (after_appends o ps tc_empty). split; [exact E|]. split; [apply t_unpack_spec; exists ps; auto|]. rewrite Cp. split; [|exact F3].
  split; [exists ps; reflexivity|]. intros p Ip. rewrite Cp in Ip. rewrite Forall_forall in F2. apply F2, Ip.
Qed.
Lemma same_curve k k' : built o k -> built o k' -> control_pts k' = control_pts k -> k' = k.
Proof. intros B B' E. destruct (built_again k B) as [<- _]. destruct (built_again k' B') as [<- _]. rewrite E. reflexivity. Qed.
End Curves.

Lemma t_near_round k out : curve_wf se3_ops se3_calc k -> tcurve_ids k ->
  exists msg k', pack_t_curve se3_wire k (Some out) = Ok msg /\ unpack_t_curve se3_ops se3_wire msg = Ok k' /\ tcurve_near k k' /\ (tcurve_plain k -> k' = k).
Proof.
  intros Wk I. destruct (t_round se3_wire_laws k out Wk I) as (msg & k' & E1 & E2 & Wk' & F). exists msg, k'. split; [exact E1|]. split; [exact E2|].
  split; [split; [exact Wk'|exact F]|]. intro P. apply (same_curve (o:=se3_ops)); [apply Wk|apply Wk'|]. unfold tcurve_plain in P. revert P. clear -F.
  induction F as [|p q l l' (A & N & D1 & D2) F IH]; intro P; [reflexivity|]. f_equal; [|apply IH; intros x X; apply P; right; exact X].
  destruct p as [t [g d d2]], q as [t' [g' d' d2']]. cbn in *. pose proof (proj2 N (P _ (or_introl eq_refl))) as Q. subst. reflexivity.
Qed.
Lemma t_so3_round k out : curve_wf so3_ops so3_calc k -> (forall p, In p (control_pts k) -> so3_ids (frame_from_ref (c_point p))) ->
  exists msg, pack_t_curve so3_wire k (Some out) = Ok msg /\ unpack_t_curve so3_ops so3_wire msg = Ok k.
Proof.
  intros Wk I. destruct (t_round so3_wire_laws k out Wk I) as (msg & k' & E1 & E2 & Wk' & F). exists msg. split; [exact E1|]. rewrite E2. f_equal.
  apply (same_curve (o:=so3_ops)); [apply Wk|apply Wk'|]. clear -F.
  induction F as [|p q l l' (A & N & D1 & D2) F IH]; [reflexivity|]. f_equal; [|exact IH].
  destruct p as [t [g d d2]], q as [t' [g' d' d2']]. cbn in *. subst. reflexivity.
Qed.

(** ** Distance curves *)
Lemma unpack_points_collect msg : forall acc, unpack_points msg acc = collect unpack_se3 msg (Ok acc).
Proof.
  induction msg as [|m msg IH]; intro acc; [reflexivity|]. cbn [unpack_points]. unfold collect. cbn [fold_left obind].
  destruct (unpack_se3 m) as [g| |]; cbn [obind]; [apply IH|symmetry; apply collect_throw|symmetry; apply collect_ub].
Qed.
Lemma d_unpack_spec msg :
  (forall k, unpack_d_curve msg = Ok k <-> exists gs, Forall2 (fun m g => unpack_se3 m = Ok g) msg gs /\ d_takes gs gs /\ k = after_dappends gs dc_empty) /\
  ((forall k, unpack_d_curve msg <> Ok k) -> unpack_d_curve msg = Throw).
Proof.
  unfold unpack_d_curve. rewrite unpack_points_collect.
  assert (U : forall gs gs', Forall2 (fun m g => unpack_se3 m = Ok g) msg gs -> Forall2 (fun m g => unpack_se3 m = Ok g) msg gs' -> gs = gs').
  { intros gs gs' F F'. apply collect_ok in F, F'. congruence. }
  destruct (collect_cases unpack_se3 msg []) as [(gs & F & ->)|(l1 & x & l2 & ys & E & F & R)].
  - cbn [app obind]. assert (Wg : Forall se3_wf gs) by (clear -F; induction F as [|m g ? ? E]; constructor; [apply (unpack_se3_wf _ _ E)|assumption]).
    destruct (d_make_spec gs Wg) as [A B]. destruct (Classical_Prop.classic (d_takes gs gs)) as [H|H].
    + rewrite (proj1 (A H)). split; [|intro K; elim (K _ eq_refl)]. intro k. split.
      * intro E. injection E as <-. exists gs. auto.
      * intros (qs & F' & _ & ->). rewrite (U _ _ F F'). reflexivity.
    + rewrite (B H). split; [|reflexivity]. intro k. split; [discriminate|]. intros (qs & F' & K & _). rewrite (U _ _ F F') in H. contradiction.
  - destruct R as [[Ex ->]|[Ex _]]; [|elim (wl_defined _ _ _ _ _ se3_wire_laws _ Ex)]. cbn [obind]. split; [|reflexivity]. intro k. split; [discriminate|].
    intros (qs & F' & _). subst msg. apply Forall2_app_inv_l in F' as (a & b & _ & F2 & _). inversion F2; subst. congruence.
Qed.
Lemma d_rebuilt gs : Forall se3_wf gs -> after_dappends (refs (after_dappends gs dc_empty)) dc_empty = after_dappends gs dc_empty.
Proof.
  induction gs as [|g gs IH] using rev_ind; intro F; [reflexivity|]. apply Forall_app in F as [F Fg]. inversion Fg as [|? ? Wg _]; subst. specialize (IH F).
  rewrite d_after_snoc. destruct (d_append_cases g _ Wg (proj1 (d_history gs F))) as [(_ & _ & -> & _)|(_ & ->)].
  - rewrite d_after_snoc, IH. reflexivity.
  - exact IH.
Qed.
Lemma d_built_again k : d_built k -> after_dappends (refs k) dc_empty = k /\ d_takes (refs k) (refs k) /\ Forall se3_wf (refs k).
Proof.
  intro B. pose proof (d_built_inv k B) as (Wk & _).
  assert (Wr : Forall se3_wf (refs k)). { apply Forall_forall. intros g Ig. apply in_map_iff in Ig as (p & <- & Ip). apply Wk, Ip. }
  destruct B as (gs & F & ->). split; [apply d_rebuilt, F|]. split; [|exact Wr].
  pose proof (proj2 (d_history _ Wr)) as H. rewrite (d_rebuilt gs F) in H. exact H.
Qed.
Lemma d_takes_alike gs hs : Forall2 (fun g h => same_frames se3_ops g h) gs hs -> d_takes gs gs -> d_takes hs hs.
Proof.
  intros F H. apply d_takes_all. intros l h r E. subst hs. apply Forall2_app_inv_r in F as (l' & r' & F1 & F2 & ->).
  inversion F2 as [|g ? r0 ? Sg F3]; subst. pose proof (proj2 (d_takes_all _) H l' g r0 eq_refl) as A.
  assert (Fr : forall a b, same_frames se3_ops a b -> (framed a <-> framed b)).
  { intros a b [X _]. unfold framed. change (se3_into a = se3_into b) in X. rewrite X. tauto. }
  destruct A as [->|(f & m & l0 & b & E1 & E2 & A1 & A2)].
  - inversion F1. left. reflexivity.
  - right. pose proof F1 as F1'. rewrite E1 in F1'. rewrite E2 in F1. clear E1 E2 H F2. inversion F1' as [|? f' ? m' Sf F4]; subst.
    apply Forall2_app_inv_l in F1 as (l1 & b1 & F1 & Fb & E). inversion Fb as [|? b' ? ? Sb Fn]; subst. inversion Fn; subst.
    exists f', m', l1, b'. split; [reflexivity|]. split; [exact E|]. split.
    + intro X. apply (Fr _ _ Sf) in X. specialize (A1 X). destruct Sg, Sf, A1. split; congruence.
    + intros X Y. apply (Fr _ _ Sb) in X. apply (Fr _ _ Sg) in Y. specialize (A2 X Y). destruct Sg as [P _], Sb as [Q _].
      change (se3_into g = se3_into h) in P. change (se3_into b = se3_into b') in Q. congruence.
Qed.
Lemma fold_snoc {A B} (f : A -> B) l : forall acc, fold_left (fun acc x => acc ++ [f x]) l acc = acc ++ map f l.
Proof. induction l as [|x l IH]; intro acc; cbn; [rewrite app_nil_r; reflexivity|]. rewrite IH, <- app_assoc. reflexivity. Qed.
Lemma d_near_round k out : d_built k -> dcurve_ids k ->
  exists msg k', pack_d_curve k (Some out) = Ok msg /\ unpack_d_curve msg = Ok k' /\ dcurve_near k k' /\ (dcurve_plain k -> k' = k).
Proof.
  intros B I. destruct (d_built_again k B) as (Ek & Tk & Wk). exists (map pack_se3 (refs k)).
  assert (X : exists hs, Forall2 (fun m g => unpack_se3 m = Ok g) (map pack_se3 (refs k)) hs /\ Forall2 se3_near (refs k) hs).
  { assert (Ik : Forall se3_ids (refs k)). { apply Forall_forall. intros g Ig. apply in_map_iff in Ig as (p & <- & Ip). apply I, Ip. }
    revert Wk Ik. clear. induction (refs k) as [|g l IH]; intros Wk Ik; [exists []; split; constructor|].
    inversion Wk; subst. inversion Ik; subst. destruct IH as (hs & F1 & F2); [assumption|assumption|].
    destruct (wl_round _ _ _ _ _ se3_wire_laws g) as (h & E & N); [assumption|assumption|]. exists (h :: hs). split; constructor; assumption. }
  destruct X as (hs & F1 & F2).
  assert (Th : d_takes hs hs).
  { apply (d_takes_alike (refs k)); [|exact Tk]. clear -F2. induction F2 as [|g h ? ? [(_ & P & Q & _) _]]; constructor; [|assumption].
    split; symmetry; assumption. }
  assert (Wh : Forall se3_wf hs) by (clear -F1; induction F1 as [|m g ? ? E]; constructor; [apply (unpack_se3_wf _ _ E)|assumption]).
  destruct (proj1 (d_make_spec hs Wh) Th) as [_ Rh].
  exists (after_dappends hs dc_empty). split. { unfold pack_d_curve. cbn [not_null obind]. rewrite (fold_snoc (fun p => pack_se3 (ref_from_control p))).
    cbn [app]. unfold refs. rewrite map_map. reflexivity. }
  split; [apply d_unpack_spec; exists hs; auto|]. split.
  - split; [exists hs; auto|]. unfold refs in F2, Rh. rewrite <- Rh in F2. revert F2.
    generalize (d_control_pts (after_dappends hs dc_empty)) (d_control_pts k). clear. intros l' l. revert l'.
    induction l as [|p l IH]; intros [|q l'] F; cbn in F; inversion F; subst; constructor; [assumption|]. apply IH. assumption.
  - intro P. replace hs with (refs k); [exact Ek|].
    assert (Pk : Forall plain_pose (refs k)). { apply Forall_forall. intros g Ig. apply in_map_iff in Ig as (p & <- & Ip). apply P, Ip. }
    clear -F2 Pk. induction F2 as [|g h ? ? [_ N] F IH]; [reflexivity|]. inversion Pk; subst. f_equal; [symmetry; apply N; assumption|apply IH; assumption].
Qed.

(** ** Trajectories *)
Lemma traj_near_round t out : in64 (tr_start_time t) -> curve_wf se3_ops se3_calc (tr_curve t) -> tcurve_ids (tr_curve t) ->
  exists msg t', pack_traj t (Some out) = Ok msg /\ seconds_split (tr_start_time t) (tm_seconds msg) (tm_nanos msg) /\
    unpack_traj msg = Ok t' /\ traj_near t t' /\ (tcurve_plain (tr_curve t) -> t' = t).
Proof.
  intros S Wk I. destruct (seconds_round_trip _ S) as (x & E1 & E2 & Sp). destruct (t_near_round (tr_curve t) [] Wk I) as (msg & k' & P & U & N & Q).
  exists (TrajMsg (secs x) (nanos x) msg), (tr_of_curve k' (tr_start_time t)). unfold pack_traj, unpack_traj.
  cbn [not_null obind traj_msg_default tm_seconds tm_nanos tm_curve]. rewrite E1. cbn [obind]. rewrite P. cbn [obind tm_seconds tm_nanos tm_curve].
  split; [reflexivity|]. split; [exact Sp|]. replace {| secs := secs x; nanos := nanos x |} with x by (destruct x; reflexivity). rewrite E2. cbn [obind]. rewrite U. cbn [obind].
  split; [reflexivity|]. split; [split; [reflexivity|exact N]|]. intro K. destruct t as [k s]. cbn [tr_curve tr_start_time tr_start] in *.
  rewrite (Q K). reflexivity.
Qed.
Lemma traj_unpack_spec m :
  (forall t, unpack_traj m = Ok t <-> in64 (tm_seconds m * NANO) /\ in64 (tm_seconds m * NANO + tm_nanos m) /\
     tr_start_time t = (tm_seconds m * NANO + tm_nanos m)%Z /\ unpack_t_curve se3_ops se3_wire (tm_curve m) = Ok (tr_curve t)) /\
  (unpack_traj m = UB <-> ~ (in64 (tm_seconds m * NANO) /\ in64 (tm_seconds m * NANO + tm_nanos m))) /\
  ((forall t, unpack_traj m <> Ok t) -> unpack_traj m <> UB -> unpack_traj m = Throw).
Proof.
  split; [|split; [|destruct (unpack_traj m) as [t| |]; intros A B; [elim (A t); reflexivity|reflexivity|elim B; reflexivity]]].
  - intro t. unfold unpack_traj, from_seconds_and_nanos, mul64, add64, chk64. cbn [secs nanos]. destruct (in64b (tm_seconds m * NANO)) eqn:A; cbn [obind].
    + apply in64b_spec in A. destruct (in64b (tm_seconds m * NANO + tm_nanos m)) eqn:B; cbn [obind].
      * apply in64b_spec in B. destruct (unpack_t_curve se3_ops se3_wire (tm_curve m)) as [k| |]; cbn [obind]; split.
        -- intro E. injection E as <-. auto.
        -- intros (_ & _ & S & K). injection K as ->. destruct t as [k s]. cbn in S. subst s. reflexivity.
        -- discriminate. -- intros (_ & _ & _ & K). discriminate. -- discriminate. -- intros (_ & _ & _ & K). discriminate.
      * split; [discriminate|]. intros (_ & K & _). apply in64b_spec in K. congruence.
    + split; [discriminate|]. intros (K & _). apply in64b_spec in K. congruence.
  - unfold unpack_traj, from_seconds_and_nanos, mul64, add64, chk64. cbn [secs nanos]. destruct (in64b (tm_seconds m * NANO)) eqn:A; cbn [obind].
    + apply in64b_spec in A. destruct (in64b (tm_seconds m * NANO + tm_nanos m)) eqn:B; cbn [obind].
      * apply in64b_spec in B. split; [|intro K; elim K; auto]. destruct (t_unpack_spec se3_wire_laws (tm_curve m)) as [_ K].
        destruct (unpack_t_curve se3_ops se3_wire (tm_curve m)) as [k| |]; [discriminate|discriminate|]. assert (X : @UB (tcurve se3 tan6) = Throw) by (apply K; discriminate). discriminate X.
      * split; [|reflexivity]. intros _ [_ K]. apply in64b_spec in K. congruence.
    + split; [|reflexivity]. intros _ [K _]. apply in64b_spec in K. congruence.
Qed.

(** ** View primitives *)
Lemma payload_round p : payload_ok p -> exists m q, pack_payload p = Ok m /\ unpack_payload m = Ok q /\ payload_near p q /\ (payload_plain p -> q = p).
Proof.
  destruct p as [g|g|k|k|t|f|v]; cbn [payload_ok pack_payload payload_plain].
  - intros [Wg I]. destruct (wl_round _ _ _ _ _ se3_wire_laws g Wg I) as (h & E & N). exists (MSE3 (pack_se3 g)), (PSE3 h). split; [reflexivity|].
    cbn [unpack_payload]. change (unpack_se3 (pack_se3 g) = Ok h) in E. rewrite E. split; [reflexivity|]. split; [exact N|]. intro P. rewrite (proj2 N P). reflexivity.
  - intros [Wg [I F]]. exists (MSO3 (pack_so3 g)), (PSO3 g). split; [reflexivity|]. cbn [unpack_payload]. rewrite so3_round_trip by assumption. repeat split.
  - intros [B I]. destruct (d_near_round k [] B I) as (msg & k' & -> & E & N & P). exists (MDCurve msg), (PDCurve k'). split; [reflexivity|].
    cbn [unpack_payload]. rewrite E. split; [reflexivity|]. split; [exact N|]. intro K. rewrite (P K). reflexivity.
  - intros [B I]. destruct (t_near_round k [] B I) as (msg & k' & -> & E & N & P). exists (MTCurve msg), (PTCurve k'). split; [reflexivity|].
    cbn [unpack_payload]. rewrite E. split; [reflexivity|]. split; [exact N|]. intro K. rewrite (P K). reflexivity.
  - intros (S & B & I). destruct (traj_near_round t traj_msg_default S B I) as (msg & t' & -> & _ & E & N & P). exists (MTrajectory msg), (PTrajectory t'). split; [reflexivity|].
    cbn [unpack_payload]. rewrite E. split; [reflexivity|]. split; [exact N|]. intro K. rewrite (P K). reflexivity.
  - intro U. exists (MFrame (pack_frame f)), (PFrame f). split; [reflexivity|]. cbn [unpack_payload]. rewrite frame_round_trip by exact U. repeat split.
  - intro U. exists (MFramedVector (pack_framed_vector v)), (PFramedVector v). split; [reflexivity|]. cbn [unpack_payload].
    rewrite framed_vector_round_trip by exact U. repeat split.
Qed.
Definition read_name (t : text) : option text := match t with [] => None | _ => Some t end.
Lemma unpack_view_eq m : unpack_view_primitive m =
  let* id := unpack_uuid (vm_id m) in
  match vm_payload m with
  | None => Throw
  | Some p => let* payload := unpack_payload p in Ok (ViewPrimitive id payload (read_name (vm_name m)) (vm_file m) (vm_line m))
  end.
Proof.
  unfold unpack_view_primitive, detail_unpack. destruct (unpack_uuid (vm_id m)) as [id| |]; [|reflexivity|reflexivity]. cbn [obind].
  destruct (vm_payload m) as [p|]; [|reflexivity]. destruct (unpack_payload p) as [q| |]; reflexivity.
Qed.
Lemma view_round v out : view_ok v -> exists m v', pack_view_primitive v (Some out) = Ok m /\ unpack_view_primitive m = Ok v' /\ view_near v v' /\
  (payload_plain (vp_payload v) -> user_defined_name v <> Some [] -> v' = v).
Proof.
  intros [U P]. destruct (payload_round _ P) as (m & q & E1 & E2 & N & K). destruct v as [id pl name file line]. cbn [vp_id vp_payload user_defined_name file_name line_number] in *.
  unfold pack_view_primitive. cbn [not_null obind vp_id vp_payload user_defined_name file_name line_number]. rewrite E1. cbn [obind].
  set (nm := match name with Some n => n | None => [] end).
  exists (ViewMsg (pack_uuid id) (Some m) nm file line), (ViewPrimitive id q (read_name nm) file line).
  split; [destruct name; reflexivity|]. rewrite unpack_view_eq. cbn [vm_id vm_payload vm_name vm_file vm_line].
  assert (Ui : unpack_uuid (pack_uuid id) = Ok id) by (apply (frame_round_trip id U)). rewrite Ui. cbn [obind]. rewrite E2. cbn [obind].
  split; [reflexivity|]. split.
  - split; [reflexivity|]. split; [exact N|]. split; [|split; reflexivity]. unfold nm. cbn [user_defined_name]. destruct name as [[|a n]|]; reflexivity.
  - intros Pp Nn. rewrite (K Pp). f_equal. unfold nm. destruct name as [[|a n]|]; [elim Nn; reflexivity|reflexivity|reflexivity].
Qed.
Lemma view_unpack_spec m :
  (forall v, unpack_view_primitive m = Ok v <-> id_text (vm_id m) (vp_id v) /\ (exists p, vm_payload m = Some p /\ unpack_payload p = Ok (vp_payload v)) /\
     name_back (Some (vm_name m)) (user_defined_name v) /\ file_name v = vm_file m /\ line_number v = vm_line m) /\
  (vm_payload m = None -> unpack_view_primitive m = Throw) /\ (not_id (vm_id m) -> unpack_view_primitive m = Throw).
Proof.
  rewrite unpack_view_eq. split; [|split].
  - intros [id pl name file line]. cbn [vp_id vp_payload user_defined_name file_name line_number].
    assert (R : name_back (Some (vm_name m)) name <-> name = read_name (vm_name m)) by (unfold name_back, read_name; destruct (vm_name m); tauto).
    destruct (frame_cases (vm_id m)) as [(u & Iu & E)|(N & E)]; change (unpack_frame (vm_id m)) with (unpack_uuid (vm_id m)) in E; rewrite E; cbn [obind].
    + assert (Uu : id_text (vm_id m) id <-> id = u).
      { rewrite id_text_unpack. change (unpack_frame (vm_id m)) with (unpack_uuid (vm_id m)). rewrite E. split; congruence. }
      destruct (vm_payload m) as [p|]; [|split; [discriminate|intros (_ & (p & X & _) & _); discriminate X]].
      destruct (unpack_payload p) as [q| |] eqn:Ep; cbn [obind].
      * split.
        -- intro X. injection X as <- <- <- <- <-. split; [apply Uu; reflexivity|]. split; [exists p; auto|]. split; [apply R; reflexivity|auto].
        -- intros (X & (p' & Y & Z) & Nm & -> & ->). injection Y as <-. rewrite Ep in Z. injection Z as ->. apply Uu in X. apply R in Nm. subst. reflexivity.
      * split; [discriminate|]. intros (_ & (p' & Y & Z) & _). injection Y as <-. congruence.
      * split; [discriminate|]. intros (_ & (p' & Y & Z) & _). injection Y as <-. congruence.
    + split; [discriminate|]. intros (X & _). elim (id_text_not_not _ _ X N).
  - intros ->. destruct (frame_cases (vm_id m)) as [(u & _ & E)|(_ & E)]; change (unpack_frame (vm_id m)) with (unpack_uuid (vm_id m)) in E; rewrite E; reflexivity.
  - intro N. apply not_id_unpack in N. change (unpack_frame (vm_id m)) with (unpack_uuid (vm_id m)) in N. rewrite N. reflexivity.
Qed.

(** ** Updates *)
Lemma update_round u out : Forall view_ok u -> exists ms u', pack_view_update u (Some out) = Ok ms /\ unpack_view_update ms = Ok u' /\ Forall2 view_near u u' /\
  (Forall (fun v => payload_plain (vp_payload v) /\ user_defined_name v <> Some []) u -> u' = u).
Proof.
  intro F. unfold pack_view_update. cbn [not_null obind].
  change (exists ms u', collect (fun v => pack_view_primitive v (Some view_msg_default)) u (Ok []) = Ok ms /\ collect unpack_view_primitive ms (Ok []) = Ok u' /\ Forall2 view_near u u' /\
    (Forall (fun v => payload_plain (vp_payload v) /\ user_defined_name v <> Some []) u -> u' = u)).
  assert (X : exists ms u', Forall2 (fun v m => pack_view_primitive v (Some view_msg_default) = Ok m) u ms /\ Forall2 (fun m v => unpack_view_primitive m = Ok v) ms u' /\
    Forall2 view_near u u' /\ (Forall (fun v => payload_plain (vp_payload v) /\ user_defined_name v <> Some []) u -> u' = u)).
  { induction F as [|v u V F IH]; [exists [], []; repeat split; constructor|]. destruct IH as (ms & u' & A & B & C & D).
    destruct (view_round v view_msg_default V) as (m & v' & E1 & E2 & N & K). exists (m :: ms), (v' :: u').
    split; [constructor; assumption|]. split; [constructor; assumption|]. split; [constructor; assumption|].
    intro P. inversion P as [|? ? [P1 P2] P3]; subst. f_equal; [apply K; assumption|apply D, P3]. }
  destruct X as (ms & u' & A & B & C & D). exists ms, u'. split; [apply collect_ok, A|]. split; [apply collect_ok, B|]. split; assumption.
Qed.
Lemma update_unpack_spec ms :
  (forall u, unpack_view_update ms = Ok u <-> Forall2 (fun m v => unpack_view_primitive m = Ok v) ms u) /\
  (forall l1 m l2, ms = l1 ++ m :: l2 -> Forall (fun m => exists v, unpack_view_primitive m = Ok v) l1 ->
     (unpack_view_primitive m = Throw -> unpack_view_update ms = Throw) /\ (unpack_view_primitive m = UB -> unpack_view_update ms = UB)).
Proof.
  change (unpack_view_update ms) with (collect unpack_view_primitive ms (Ok [])). split.
  - intro u. split; [|apply collect_ok]. intro E. destruct (collect_cases unpack_view_primitive ms []) as [(u' & F & E')|(l1 & x & l2 & ys & _ & _ & [[_ E']|[_ E']])];
      rewrite E in E'; try discriminate. injection E' as ->. exact F.
  - intros l1 m l2 -> F.
    assert (S : exists ys, collect unpack_view_primitive (l1 ++ m :: l2) (Ok []) = collect unpack_view_primitive (m :: l2) (Ok ys)).
    { assert (Y : exists ys, collect unpack_view_primitive l1 (Ok []) = Ok ys).
      { assert (Z : exists ys, Forall2 (fun m v => unpack_view_primitive m = Ok v) l1 ys).
        { induction F as [|x l (v & E) F (ys & IH)]; [exists []; constructor|]. exists (v :: ys). constructor; assumption. }
        destruct Z as (ys & Z). exists ys. apply collect_ok, Z. }
      destruct Y as (ys & Y). exists ys. unfold collect in *. rewrite fold_left_app, Y. reflexivity. }
    destruct S as (ys & ->). unfold collect. cbn [fold_left obind]. split; intros ->; cbn [obind]; [apply collect_throw|apply collect_ub].
Qed.

(** ** What is not kept *)
Lemma null_wf : uuid_wf null_frame.
Proof. split; [reflexivity|]. repeat constructor. Qed.
Lemma pose_changed : exists g h, se3_wf g /\ se3_ids g /\ unpack_se3 (pack_se3 g) = Ok h /\ h <> g.
Proof.
  destruct se3_exp_log_witness as (g & h & W & I & F & E & N). exists g, h. split; [exact W|].
  assert (J : se3_ids g) by (split; rewrite ?I, ?F; apply null_wf). split; [exact J|]. split; [|exact N].
  unfold unpack_se3, pack_se3. cbn [algebra msg_into msg_from]. rewrite pack_tan6_eq, unpack_tan6_ok. cbn [obind].
  rewrite !frame_round_trip by apply J. cbn [obind]. exact E.
Qed.
Lemma dcurve_changed : exists k msg k', d_built k /\ dcurve_ids k /\ pack_d_curve k (Some []) = Ok msg /\ unpack_d_curve msg = Ok k' /\ k' <> k.
Proof.
  destruct pose_changed as (g & h & W & I & E & N). set (k := after_dappends [g] dc_empty).
  assert (B : d_built k) by (exists [g]; repeat constructor; apply W).
  assert (Ck : d_control_pts k = [DControl 0 g]) by (unfold k; cbn [after_dappends]; rewrite d_append_first by reflexivity; reflexivity).
  exists k, [pack_se3 g], (after_dappends [h] dc_empty). split; [exact B|]. split. { intros p Ip. rewrite Ck in Ip. destruct Ip as [<-|[]]. exact I. }
  split; [unfold pack_d_curve; rewrite Ck; reflexivity|]. split.
  - apply d_unpack_spec. exists [h]. split; [constructor; [exact E|constructor]|]. split; [|reflexivity].
    apply d_takes_all. intros l x r X. destruct l as [|y l]; [left; reflexivity|]. destruct l; discriminate X.
  - intro X. apply (f_equal d_control_pts) in X. rewrite Ck in X. cbn [after_dappends] in X. rewrite d_append_first in X by reflexivity.
    cbn in X. injection X as X. contradiction.
Qed.
Lemma split_valid d s n : seconds_split d s n -> (valid_timestamp n <-> (0 <= d)%Z \/ (d mod 1000000000 = 0)%Z).
Proof.
  unfold seconds_split, valid_timestamp. intros (-> & A & B). split.
  - intros [C _]. destruct (Z.eq_dec n 0) as [->|N]; [right; rewrite Z.add_0_r; apply Z.mod_mul; lia|left; nia].
  - intros [C|C]; [split; [|lia]; destruct (Z.lt_ge_cases n 0); [nia|assumption]|].
    assert (D : (n mod 1000000000 = 0)%Z) by (rewrite <- C, Z.add_comm, Z.mod_add by lia; reflexivity).
    apply Z.mod_divide in D; [|lia]. destruct D as (q & D). assert (q = 0)%Z by nia. lia.
Qed.
Lemma timestamp_valid t out msg : in64 (tr_start_time t) -> curve_wf se3_ops se3_calc (tr_curve t) -> tcurve_ids (tr_curve t) ->
  pack_traj t (Some out) = Ok msg ->
  (valid_timestamp (tm_nanos msg) <-> (0 <= tr_start_time t)%Z \/ (tr_start_time t mod 1000000000 = 0)%Z).
Proof.
  intros S W I E. destruct (traj_near_round t out S W I) as (msg' & t' & E' & Sp & _). rewrite E in E'. injection E' as <-. apply (split_valid _ _ _ Sp).
Qed.
Lemma so3_jets_round out :
  (forall j, so3_wf (frame_from_ref j) -> so3_ids (frame_from_ref j) ->
     exists m, pack_two_jetl so3_wire j (Some out) = Ok m /\ unpack_two_jetl so3_wire m = Ok j) /\
  (forall j, so3_wf (ref_from_frame j) -> so3_ids (ref_from_frame j) ->
     exists m, pack_two_jetr so3_wire j (Some out) = Ok m /\ unpack_two_jetr so3_wire m = Ok j).
Proof.
  split; intros j W I.
  - destruct (jetl_round so3_wire_laws j out W I) as (m & k & E1 & E2 & N & D1 & D2). exists m. split; [exact E1|]. rewrite E2. destruct j, k; cbn in *; subst; reflexivity.
  - destruct (jetr_round so3_wire_laws j out W I) as (m & k & E1 & E2 & N & D1 & D2). exists m. split; [exact E1|]. rewrite E2. destruct j, k; cbn in *; subst; reflexivity.
Qed.
Lemma se3_jets_round out :
  (forall j, se3_wf (frame_from_ref j) -> se3_ids (frame_from_ref j) ->
     exists m k, pack_two_jetl se3_wire j (Some out) = Ok m /\ unpack_two_jetl se3_wire m = Ok k /\ jet_l_near j k /\
       (plain_pose (frame_from_ref j) -> k = j)) /\
  (forall j, se3_wf (ref_from_frame j) -> se3_ids (ref_from_frame j) ->
     exists m k, pack_two_jetr se3_wire j (Some out) = Ok m /\ unpack_two_jetr se3_wire m = Ok k /\ jet_r_near j k /\
       (plain_pose (ref_from_frame j) -> k = j)).
Proof.
  split; intros j W I.
  - destruct (jetl_round se3_wire_laws j out W I) as (m & k & E1 & E2 & N & D1 & D2). exists m, k. split; [exact E1|]. split; [exact E2|].
    split; [split; [exact N|split; assumption]|]. intro P. pose proof (proj2 N P). destruct j, k; cbn in *; subst; reflexivity.
  - destruct (jetr_round se3_wire_laws j out W I) as (m & k & E1 & E2 & N & D1 & D2). exists m, k. split; [exact E1|]. split; [exact E2|].
    split; [split; [exact N|split; assumption]|]. intro P. pose proof (proj2 N P). destruct j, k; cbn in *; subst; reflexivity.
Qed.
Lemma destinations out out' out2 out2' out3 out3' out4 out4' :
  (forall j, pack_two_jetl se3_wire j None = Throw /\ pack_two_jetl se3_wire j (Some out) = pack_two_jetl se3_wire j (Some out')) /\
  (forall j, pack_two_jetr se3_wire j None = Throw /\ pack_two_jetr se3_wire j (Some out) = pack_two_jetr se3_wire j (Some out')) /\
  (forall k, pack_t_curve se3_wire k None = Throw /\ pack_t_curve se3_wire k (Some out2) = pack_t_curve se3_wire k (Some out2')) /\
  (forall k, pack_d_curve k None = Throw /\ pack_d_curve k (Some out3) = pack_d_curve k (Some out3')) /\
  (forall t, pack_traj t None = Throw /\ pack_traj t (Some out4) = pack_traj t (Some out4')).
Proof. repeat split. Qed.
Lemma jets_accept m :
  (forall j, unpack_two_jetl se3_wire m = Ok j <->
     unpack_se3 (jm_group m) = Ok (frame_from_ref j) /\ jm_d m = list6 (d_frame_from_ref j) /\ jm_d2 m = list6 (d2_frame_from_ref j)) /\
  ((forall j, unpack_two_jetl se3_wire m <> Ok j) -> unpack_two_jetl se3_wire m = Throw) /\
  (forall j, unpack_two_jetr se3_wire m = Ok j <->
     unpack_se3 (jm_group m) = Ok (ref_from_frame j) /\ jm_d m = list6 (d_ref_from_frame j) /\ jm_d2 m = list6 (d2_ref_from_frame j)) /\
  ((forall j, unpack_two_jetr se3_wire m <> Ok j) -> unpack_two_jetr se3_wire m = Throw).
Proof.
  assert (U : unpack_se3 (jm_group m) <> UB) by apply (wl_defined _ _ _ _ _ se3_wire_laws).
  unfold unpack_two_jetl, unpack_two_jetr. change (w_unpack se3_wire) with unpack_se3. change (w_unpack_tangent se3_wire) with unpack_tan6.
  destruct (unpack_se3 (jm_group m)) as [g| |]; [|repeat split; try discriminate; intros (X & _); discriminate X|elim U; reflexivity]. cbn [obind].
  destruct (unpack_tan6_cases (jm_d m)) as [(d & E1 & ->)|(L & ->)]; cbn [obind].
  2:{ assert (N : forall x, jm_d m <> list6 x) by (intros x X; apply L; rewrite X; reflexivity).
      repeat split; try discriminate; intros (_ & X & _); elim (N _ X). }
  destruct (unpack_tan6_cases (jm_d2 m)) as [(d2 & E2 & ->)|(L & ->)]; cbn [obind].
  2:{ assert (N : forall x, jm_d2 m <> list6 x) by (intros x X; apply L; rewrite X; reflexivity).
      repeat split; try discriminate; intros (_ & _ & X); elim (N _ X). }
  rewrite E1, E2. split; [|split; [intro K; elim (K _ eq_refl)|split; [|intro K; elim (K _ eq_refl)]]]; intro j; (split; [intro X; injection X as <-; auto|]);
    intros (X & Y & Z); injection X as ->; apply list6_inj in Y, Z; subst; destruct j; reflexivity.
Qed.
Lemma payload_accepts p q : unpack_payload p = Ok q <->
  match p, q with
  | MSE3 m, PSE3 g => unpack_se3 m = Ok g
  | MSO3 m, PSO3 g => unpack_so3 m = Ok g
  | MDCurve m, PDCurve k => unpack_d_curve m = Ok k
  | MTCurve m, PTCurve k => unpack_t_curve se3_ops se3_wire m = Ok k
  | MTrajectory m, PTrajectory t => unpack_traj m = Ok t
  | MFrame m, PFrame f => unpack_frame m = Ok f
  | MFramedVector m, PFramedVector v => unpack_framed_vector m = Ok v
  | _, _ => False
  end.
Proof.
  assert (H : forall A (x : outcome A) (f : A -> payload), (let* a := x in Ok (f a)) = Ok q <-> exists a, x = Ok a /\ q = f a).
  { intros A [a| |] f; cbn; split.
    - intro X. injection X as <-. exists a. auto.
    - intros (b & X & ->). injection X as ->. reflexivity.
    - discriminate. - intros (b & X & _). discriminate. - discriminate. - intros (b & X & _). discriminate. }
  destruct p; cbn [unpack_payload]; rewrite H; destruct q; split; try (intros (a & _ & X); discriminate X); try tauto;
    try (intros (a & X & Y); injection Y as <-; exact X); intro X; eexists; (split; [exact X|reflexivity]).
Qed.
Definition tp_from0 : frame := repeat 2%N 16.
Lemma tp_from0_wf : uuid_wf tp_from0.
Proof. split; [reflexivity|repeat constructor]. Qed.
