(** Building a time curve and looking up a time. *)
From Coq Require Import Reals Lra Lia List.
From Flocq Require Import Core BinarySingleNaN.
From Verif Require Import Cpp FloatModel FloatSpec NrmModel NrmSpec NrmProofs DriftModel FtsModel FtcModel FtsSpec FtcSpec.
Import ListNotations.

Definition seg_of (p : ftcontrol * ftcontrol) : ftsegment :=
  let dt := fsub (ftime (snd p)) (ftime (fst p)) in
  FTSegment (ftime (fst p)) (ftime (snd p)) (fnormalized (fpoint (fst p)) dt) (fnormalized (fpoint (snd p)) dt).
Definition segs (fs : list ftcontrol) : list ftsegment := map seg_of (combine fs (tl fs)).
Lemma combine_snoc {A} (l : list A) b x : combine (l ++ [b; x]) (tl (l ++ [b; x])) = combine (l ++ [b]) (tl (l ++ [b])) ++ [(b, x)].
Proof.
  induction l as [|a l IH]; [reflexivity|]. destruct l as [|c l]; [reflexivity|]. cbn [app tl combine] in *. f_equal. exact IH.
Qed.
Lemma make_snoc fs x : ft_make (fs ++ [x]) = let* c := ft_make fs in ft_append c x.
Proof. unfold ft_make, ft_appends. rewrite fold_left_app. reflexivity. Qed.
Lemma follow_snoc {A} (l : list A) b x i f g : follow ((l ++ [b]) ++ [x]) i f g <-> follow (l ++ [b]) i f g \/ (i = length l /\ f = b /\ g = x).
Proof.
  unfold follow. split.
  - intros [H1 H2]. assert (L : (S i < length ((l ++ [b]) ++ [x]))%nat) by (apply nth_error_Some; congruence). rewrite !app_length in L. cbn [length] in L.
    destruct (Nat.eq_dec (S i) (length l + 1)) as [E|E].
    + right. rewrite nth_error_app1 in H1 by (rewrite app_length; cbn [length]; lia). rewrite nth_error_app2 in H1 by lia. rewrite nth_error_app2 in H2 by (rewrite app_length; cbn [length]; lia).
      rewrite app_length in H2. cbn [length] in H2. replace (i - length l)%nat with 0%nat in H1 by lia. replace (S i - (length l + 1))%nat with 0%nat in H2 by lia. cbn in H1, H2. repeat split; [lia|congruence..].
    + left. rewrite nth_error_app1 in H1 by (rewrite app_length; cbn [length]; lia). rewrite nth_error_app1 in H2 by (rewrite app_length; cbn [length]; lia). auto.
  - intros [[H1 H2]|(-> & -> & ->)].
    + assert (S i < length (l ++ [b]))%nat by (apply nth_error_Some; congruence). rewrite !(nth_error_app1 (l ++ [b])) by lia. auto.
    + split.
      * rewrite nth_error_app1 by (rewrite app_length; cbn [length]; lia). rewrite nth_error_app2, Nat.sub_diag by lia. reflexivity.
      * rewrite nth_error_app2 by (rewrite app_length; cbn [length]; lia). rewrite app_length. cbn [length]. replace (S (length l) - (length l + 1))%nat with 0%nat by lia. reflexivity.
Qed.
Lemma rev_snoc {A} (l : list A) x : rev (l ++ [x]) = x :: rev l. Proof. apply rev_app_distr. Qed.
Lemma made_shape fs : (forall c, ft_make fs = Ok c -> c = FTCurve fs (segs fs) /\ forall i f g, follow fs i f g -> flt (ftime f) (ftime g) = true) /\
  ((forall i f g, follow fs i f g -> flt (ftime f) (ftime g) = true) -> ft_make fs = Ok (FTCurve fs (segs fs))) /\ ft_make fs <> UB.
Proof.
  induction fs as [|x fs IH] using rev_ind.
  - split; [|split].
    + intros c H. injection H as <-. split; [reflexivity|]. intros i f g [H _]. destruct i; discriminate H.
    + reflexivity.
    + discriminate.
  - rewrite make_snoc. destruct IH as (IH1 & IH2 & IH3). destruct fs as [|b fs _] using rev_ind.
    + cbn. split; [|split; [reflexivity|discriminate]]. intros c H. injection H as <-. split; [reflexivity|]. intros i f g [_ H]. destruct i; discriminate H.
    + assert (A : ft_append (FTCurve (fs ++ [b]) (segs (fs ++ [b]))) x = let* _ := reassert (flt (ftime b) (ftime x)) in Ok (FTCurve ((fs ++ [b]) ++ [x]) (segs ((fs ++ [b]) ++ [x])))).
      { unfold ft_append. cbn [ftcontrols ftsegments]. rewrite rev_snoc. cbv iota. unfold reassert. destruct (flt (ftime b) (ftime x)); [|reflexivity]. cbn [obind]. f_equal. f_equal.
        unfold segs. rewrite <- app_assoc. cbn [app]. rewrite combine_snoc, map_app. reflexivity. }
      split; [|split].
      * intros c H. destruct (ft_make (fs ++ [b])) as [c0| |] eqn:E; try discriminate H. destruct (IH1 c0 eq_refl) as [-> F]. cbn [obind] in H. rewrite A in H. unfold reassert in H. destruct (flt (ftime b) (ftime x)) eqn:T; [|discriminate H]. cbn [obind] in H. injection H as <-. split; [reflexivity|].
        intros i f g H. apply follow_snoc in H. destruct H as [H|(_ & -> & ->)]; [apply (F i), H|exact T].
      * intro F. rewrite IH2 by (intros i f g H; apply (F i); apply follow_snoc; left; exact H). cbn [obind]. rewrite A, (F (length fs) b x) by (apply follow_snoc; right; auto). reflexivity.
      * destruct (ft_make (fs ++ [b])) as [c0| |] eqn:E; try (cbn; discriminate); [|congruence]. destruct (IH1 c0 eq_refl) as [-> _]. cbn [obind]. rewrite A. unfold reassert. destruct (flt (ftime b) (ftime x)); discriminate.
Qed.
(** ** Looking up *)
Lemma lower_bound_map {A B} (f : A -> B) (less : B -> bool) (l : list A) : lower_bound (fun x => less (f x)) l = lower_bound less (map f l).
Proof.
  unfold lower_bound. rewrite map_length. generalize (length l) at 1 3 as fuel. generalize (length l) as len. generalize 0%nat as first. intros first len fuel. revert first len.
  induction fuel as [|fuel IH]; intros first len; [reflexivity|]. cbn [lower_bound_from]. destruct (Nat.eqb len 0); [reflexivity|]. cbv zeta. rewrite nth_error_map. destruct (nth_error l (first + Nat.div2 len)) as [x|]; [|reflexivity]. cbn [option_map]. rewrite !IH. reflexivity.
Qed.
Definition times_of (s : ftsegment) : f64 * f64 := (forig_time s, fdest_time s).
Lemma combine_map {A B} (f : A -> B) (l m : list A) : combine (map f l) (map f m) = map (fun p => (f (fst p), f (snd p))) (combine l m).
Proof. revert m. induction l as [|a l IH]; intro m; [reflexivity|]. destruct m as [|b m]; [reflexivity|]. cbn [map combine fst snd]. f_equal. apply IH. Qed.
Lemma segment_times_segs fs : segment_times (map ftime fs) = map times_of (segs fs).
Proof.
  unfold segment_times, segs. rewrite map_map. replace (tl (map ftime fs)) with (map ftime (tl fs)) by (destruct fs; reflexivity). rewrite combine_map. apply map_ext. intros [a b]. reflexivity.
Qed.
Lemma segs_nth fs i f g : follow fs i f g -> nth_error (segs fs) i = Some (seg_of (f, g)).
Proof.
  intros [H1 H2]. unfold segs. rewrite nth_error_map. enough (E : nth_error (combine fs (tl fs)) i = Some (f, g)) by (rewrite E; reflexivity).
  revert i H1 H2. induction fs as [|a fs IH]; intros i H1 H2; [destruct i; discriminate H1|]. cbn [tl]. destruct fs as [|b fs]; [destruct i as [|[|i]]; discriminate H2|].
  destruct i as [|i]; [cbn in *; congruence|]. cbn [combine nth_error]. cbn [nth_error] in H1, H2. exact (IH i H1 H2).
Qed.
Lemma lookup_same fs t : ft_point_at_impl (FTCurve fs (segs fs)) t =
  match point_at_impl (map ftime fs) t with
  | Ok p => match nth_error (segs fs) (in_segment p) with Some s => Ok (s, inv_dt p, time_nrm p) | None => UB end
  | Throw => Throw | UB => UB
  end.
Proof.
  unfold ft_point_at_impl, point_at_impl. cbn [ftcontrols ftsegments]. rewrite segment_times_segs. generalize (segs fs). intro ss. destruct ss as [|s0 ss]; [reflexivity|].
  assert (N : (match map times_of (s0 :: ss) with [] => false | _ => true end) = true) by reflexivity. rewrite N. clear N. generalize (s0 :: ss). clear s0 ss. intro ss.
  cbn [reassert obind]. destruct fs as [|front fs]; [reflexivity|]. cbn [map]. assert (RV : rev (ftime front :: map ftime fs) = map ftime (rev (front :: fs))) by (symmetry; apply (map_rev ftime (front :: fs))). rewrite RV. destruct (rev (front :: fs)) as [|back r]; [reflexivity|]. cbn [map].
  destruct (reassert _) as [x| |]; cbn [obind]; [|reflexivity|reflexivity].
  rewrite <- (lower_bound_map times_of (fun s => flt (snd s) t)), nth_error_map. cbn [times_of snd]. destruct (nth_error ss _) as [s|] eqn:E; cbn [option_map]; [|reflexivity]. unfold times_of at 1. cbv iota. cbn [in_segment inv_dt time_nrm]. rewrite E. reflexivity.
Qed.
