(** Building a time curve of poses and looking up a time. *)
From Coq Require Import Reals Lra Lia List.
From Flocq Require Import Core BinarySingleNaN.
From Verif Require Import Cpp FloatModel FloatSpec NrmModel NrmSpec NrmProofs DriftModel FtsModel FtcModel FtsSpec FtcSpec FtcProofs3 FpsModel FpcModel.
Import ListNotations.

Definition pseg_of (p : fpcontrol * fpcontrol) : fpsegment :=
  let dt := fsub (fptime (snd p)) (fptime (fst p)) in
  FPSegment (fptime (fst p)) (fptime (snd p)) (fpnormalized (fppoint (fst p)) dt) (fpnormalized (fppoint (snd p)) dt).
Definition psegs (fs : list fpcontrol) : list fpsegment := map pseg_of (combine fs (tl fs)).
Lemma pmake_snoc fs x : fp_make (fs ++ [x]) = let* c := fp_make fs in fp_append c x.
Proof. unfold fp_make, fp_appends. rewrite fold_left_app. reflexivity. Qed.
Lemma pmade_shape fs : (forall c, fp_make fs = Ok c -> c = FPCurve fs (psegs fs) /\ forall i f g, follow fs i f g -> flt (fptime f) (fptime g) = true) /\
  ((forall i f g, follow fs i f g -> flt (fptime f) (fptime g) = true) -> fp_make fs = Ok (FPCurve fs (psegs fs))) /\ fp_make fs <> UB.
Proof.
  induction fs as [|x fs IH] using rev_ind.
  - split; [|split].
    + intros c H. injection H as <-. split; [reflexivity|]. intros i f g [H _]. destruct i; discriminate H.
    + reflexivity.
    + discriminate.
  - rewrite pmake_snoc. destruct IH as (IH1 & IH2 & IH3). destruct fs as [|b fs _] using rev_ind.
    + cbn. split; [|split; [reflexivity|discriminate]]. intros c H. injection H as <-. split; [reflexivity|]. intros i f g [_ H]. destruct i; discriminate H.
    + assert (A : fp_append (FPCurve (fs ++ [b]) (psegs (fs ++ [b]))) x = let* _ := reassert (flt (fptime b) (fptime x)) in Ok (FPCurve ((fs ++ [b]) ++ [x]) (psegs ((fs ++ [b]) ++ [x])))).
      { unfold fp_append. cbn [fpcontrols fpsegments]. rewrite rev_snoc. cbv iota. unfold reassert. destruct (flt (fptime b) (fptime x)); [|reflexivity]. cbn [obind]. f_equal. f_equal.
        unfold psegs. rewrite <- app_assoc. cbn [app]. rewrite combine_snoc, map_app. reflexivity. }
      split; [|split].
      * intros c H. destruct (fp_make (fs ++ [b])) as [c0| |] eqn:E; try discriminate H. destruct (IH1 c0 eq_refl) as [-> F]. cbn [obind] in H. rewrite A in H. unfold reassert in H. destruct (flt (fptime b) (fptime x)) eqn:T; [|discriminate H]. cbn [obind] in H. injection H as <-. split; [reflexivity|].
        intros i f g H. apply follow_snoc in H. destruct H as [H|(_ & -> & ->)]; [apply (F i), H|exact T].
      * intro F. rewrite IH2 by (intros i f g H; apply (F i); apply follow_snoc; left; exact H). cbn [obind]. rewrite A, (F (length fs) b x) by (apply follow_snoc; right; auto). reflexivity.
      * destruct (fp_make (fs ++ [b])) as [c0| |] eqn:E; try (cbn; discriminate); [|congruence]. destruct (IH1 c0 eq_refl) as [-> _]. cbn [obind]. rewrite A. unfold reassert. destruct (flt (fptime b) (fptime x)); discriminate.
Qed.
(** ** Looking up *)
Definition ptimes_of (s : fpsegment) : f64 * f64 := (fporig_time s, fpdest_time s).
Lemma psegment_times_segs fs : segment_times (map fptime fs) = map ptimes_of (psegs fs).
Proof.
  unfold segment_times, psegs. rewrite map_map. replace (tl (map fptime fs)) with (map fptime (tl fs)) by (destruct fs; reflexivity). rewrite combine_map. apply map_ext. intros [a b]. reflexivity.
Qed.
Lemma psegs_nth fs i f g : follow fs i f g -> nth_error (psegs fs) i = Some (pseg_of (f, g)).
Proof.
  intros [H1 H2]. unfold psegs. rewrite nth_error_map. enough (E : nth_error (combine fs (tl fs)) i = Some (f, g)) by (rewrite E; reflexivity).
  revert i H1 H2. induction fs as [|a fs IH]; intros i H1 H2; [destruct i; discriminate H1|]. cbn [tl]. destruct fs as [|b fs]; [destruct i as [|[|i]]; discriminate H2|].
  destruct i as [|i]; [cbn in *; congruence|]. cbn [combine nth_error]. cbn [nth_error] in H1, H2. exact (IH i H1 H2).
Qed.
Lemma plookup_same fs t : fp_point_at_impl (FPCurve fs (psegs fs)) t =
  match point_at_impl (map fptime fs) t with
  | Ok p => match nth_error (psegs fs) (in_segment p) with Some s => Ok (s, inv_dt p, time_nrm p) | None => UB end
  | Throw => Throw | UB => UB
  end.
Proof.
  unfold fp_point_at_impl, point_at_impl. cbn [fpcontrols fpsegments]. rewrite psegment_times_segs. generalize (psegs fs). intro ss. destruct ss as [|s0 ss]; [reflexivity|].
  assert (N : (match map ptimes_of (s0 :: ss) with [] => false | _ => true end) = true) by reflexivity. rewrite N. clear N. generalize (s0 :: ss). clear s0 ss. intro ss.
  cbn [reassert obind]. destruct fs as [|front fs]; [reflexivity|]. cbn [map]. assert (RV : rev (fptime front :: map fptime fs) = map fptime (rev (front :: fs))) by (symmetry; apply (map_rev fptime (front :: fs))). rewrite RV. destruct (rev (front :: fs)) as [|back r]; [reflexivity|]. cbn [map].
  destruct (reassert _) as [x| |]; cbn [obind]; [|reflexivity|reflexivity].
  rewrite <- (lower_bound_map ptimes_of (fun s => flt (snd s) t)), nth_error_map. cbn [ptimes_of snd]. destruct (nth_error ss _) as [s|] eqn:E; cbn [option_map]; [|reflexivity]. unfold ptimes_of at 1. cbv iota. cbn [in_segment inv_dt time_nrm]. rewrite E. reflexivity.
Qed.
