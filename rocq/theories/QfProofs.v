(** Proofs about the quintic coefficients in double precision. *)
From Coq Require Import Reals Lra Lia.
From Flocq Require Import Core BinarySingleNaN Relative.
From Verif Require Import Cpp TimeModel FloatModel FloatSpec FloatProofs NrmModel NrmSpec NrmProofs QfModel QfSpec.
Local Open Scope R_scope.

(** ** Literals *)
Definition lit (x : f64) (k : Z) : Prop := finite x /\ val x = IZR k / 2.
Lemma fmt_half k : (Z.abs k < 2 ^ 53)%Z -> fmt (IZR k / 2).
Proof.
  intro H. apply generic_format_FLT. exists (Float radix2 k (-1)); [|exact H|cbn; lia].
  unfold F2R. cbn [Fnum Fexp]. change (bpow radix2 (-1)) with (/ 2). reflexivity.
Qed.
Lemma half_small k : (Z.abs k < 2 ^ 53)%Z -> Rabs (IZR k / 2) <= 2 ^ 100.
Proof.
  intro H. unfold Rdiv. rewrite Rabs_mult, (Rabs_right (/ 2)) by lra. rewrite <- abs_IZR.
  assert (IZR (Z.abs k) <= IZR (2 ^ 53)) by (apply IZR_le; lia). assert (IZR (2 ^ 53) <= 2 ^ 100).
  { rewrite (pow_IZR 2 100). apply IZR_le. vm_compute. discriminate. }
  assert (0 <= IZR (Z.abs k)) by (apply IZR_le; lia). lra.
Qed.
Lemma lit_int n : (Z.abs n < 2 ^ 52)%Z -> lit (of_int n) (2 * n).
Proof. intro H. destruct (of_small n) as [F V]; [lia|]. split; [exact F|]. rewrite V, mult_IZR. lra. Qed.
Lemma lit_half k : (Z.abs k < 2 ^ 53)%Z -> lit (halves k) k.
Proof.
  intro H. pose proof (binary_normalize_correct 53 1024 prec_pos prec_emax mode_NE k (-1) false) as C. cbv zeta in C.
  replace (F2R (Float radix2 k (-1))) with (IZR k / 2) in C by (unfold F2R; cbn [Fnum Fexp]; change (bpow radix2 (-1)) with (/ 2); reflexivity).
  change (SpecFloat.fexp 53 1024) with (FLT_exp (-1074) 53) in C. change (round_mode mode_NE) with ZnearestE in C.
  fold (rd (IZR k / 2)) in C. rewrite (rd_id _ (fmt_half k H)) in C.
  rewrite Rlt_bool_true in C; [destruct C as (V & F & _); split; assumption|].
  apply Rle_lt_trans with (1 := half_small k H). rewrite bpow_1024. apply Rlt_pow; [lra|]. apply Nat.ltb_lt. vm_compute. reflexivity.
Qed.
Lemma lit_mul n x k : (Z.abs n < 2 ^ 20)%Z -> (Z.abs k < 2 ^ 20)%Z -> lit x k -> lit (fmul (of_int n) x) (n * k).
Proof.
  intros Hn Hk [F V]. destruct (of_small n) as [Fn Vn]; [lia|].
  assert (B : (Z.abs (n * k) < 2 ^ 53)%Z) by (rewrite Z.abs_mul; nia).
  assert (P : val (of_int n) * val x = IZR (n * k) / 2) by (rewrite Vn, V, mult_IZR; field).
  destruct (fmul_val (of_int n) x Fn F) as [FM VM]. { rewrite P. apply pow_1023_big, half_small, B. }
  split; [exact FM|]. rewrite VM, P. apply rd_id, fmt_half, B.
Qed.

(** ** One step of Horner's method *)
Definition tiny : R := bpow radix2 (-1075).
Lemma tiny_u : 0 <= tiny <= u / 1000000.
Proof.
  split; [apply bpow_ge_0|]. unfold tiny. rewrite u_bpow. apply Rle_trans with (bpow radix2 (-53) * bpow radix2 (-20)).
  - rewrite <- bpow_plus. apply bpow_le. lia.
  - unfold Rdiv. apply Rmult_le_compat_l; [apply bpow_ge_0|]. cbn. lra.
Qed.
Lemma rd_close x : Rabs (rd x - x) <= u * Rabs x + tiny.
Proof.
  destruct (rd_general x) as (e & h & E & H & V). rewrite V. replace (x * (1 + e) + h - x) with (x * e + h) by ring.
  apply Rle_trans with (1 := Rabs_triang _ _). apply Rplus_le_compat; [|exact H]. rewrite Rabs_mult, Rmult_comm.
  apply Rmult_le_compat_r; [apply Rabs_pos|]. pose proof tight_lt. lra.
Qed.
Lemma no_overflow_1000 x : Rabs x <= 10000 -> ~ overflows x.
Proof. intro H. apply pow_1023_big. apply Rle_trans with (1 := H). replace 10000 with (IZR 10000) by reflexivity. rewrite (pow_IZR 2 100). apply IZR_le. vm_compute. discriminate. Qed.
(** [near c x E N]: [c] is a number at most [E] away from [x], which is at most [N] in size. *)
Definition near (c : f64) (x E N : R) : Prop := finite c /\ Rabs (val c - x) <= E /\ Rabs x <= N.
Lemma add_step p k c x E N : lit p k -> near c x E N -> E <= 1 -> Rabs (IZR k / 2) + N <= 1000 ->
  near (fadd p c) (IZR k / 2 + x) (E + 1.01 * u * (Rabs (IZR k / 2) + N + 1)) (Rabs (IZR k / 2) + N).
Proof.
  intros [Fp Vp] (Fc & D & B) HE HN. set (K := Rabs (IZR k / 2)) in *.
  assert (S : Rabs (IZR k / 2 + x) <= K + N) by (apply Rle_trans with (1 := Rabs_triang _ _); unfold K; lra).
  assert (S' : Rabs (val p + val c) <= K + N + E).
  { rewrite Vp. replace (IZR k / 2 + val c) with ((IZR k / 2 + x) + (val c - x)) by ring.
    apply Rle_trans with (1 := Rabs_triang _ _). lra. }
  destruct (fadd_val p c Fp Fc) as [FA VA]. { apply no_overflow_1000. lra. }
  split; [exact FA|]. split; [|exact S]. rewrite VA.
  pose proof (rd_close (val p + val c)) as RC. pose proof tiny_u. pose proof u_pos.
  replace (rd (val p + val c) - (IZR k / 2 + x)) with ((rd (val p + val c) - (val p + val c)) + (val c - x)) by (rewrite Vp; ring).
  apply Rle_trans with (1 := Rabs_triang _ _). assert (0 <= K) by apply Rabs_pos. assert (0 <= N) by (pose proof (Rabs_pos x); lra).
  assert (u * Rabs (val p + val c) <= u * (K + N + 1)) by (apply Rmult_le_compat_l; lra).
  assert (0 <= u * (K + N)) by (apply Rmult_le_pos; lra). lra.
Qed.
Lemma mul_step t c x E N : finite t -> 0 <= val t <= 1 -> near c x E N -> E <= 1 -> N <= 1000 ->
  near (fmul t c) (val t * x) (E + 1.01 * u * (N + 1)) N.
Proof.
  intros Ft Rt (Fc & D & B) HE HN. assert (0 <= N) by (pose proof (Rabs_pos x); lra).
  assert (At : Rabs (val t) = val t) by (apply Rabs_right; lra).
  assert (C : Rabs (val c) <= N + E).
  { replace (val c) with (x + (val c - x)) by ring. apply Rle_trans with (1 := Rabs_triang _ _). lra. }
  assert (P : Rabs (val t * val c) <= N + E). { rewrite Rabs_mult, At. pose proof (Rabs_pos (val c)). nra. }
  destruct (fmul_val t c Ft Fc) as [FM VM]. { apply no_overflow_1000. lra. }
  split; [exact FM|]. split; [|rewrite Rabs_mult, At; pose proof (Rabs_pos x); nra].
  rewrite VM. pose proof (rd_close (val t * val c)) as RC. pose proof tiny_u. pose proof u_pos.
  replace (rd (val t * val c) - val t * x) with ((rd (val t * val c) - val t * val c) + val t * (val c - x)) by ring.
  apply Rle_trans with (1 := Rabs_triang _ _). rewrite (Rabs_mult (val t)), At.
  assert (val t * Rabs (val c - x) <= E) by (pose proof (Rabs_pos (val c - x)); nra).
  assert (u * Rabs (val t * val c) <= u * (N + 1)) by (apply Rmult_le_compat_l; lra).
  assert (0 <= u * N) by (apply Rmult_le_pos; lra). lra.
Qed.
Lemma near_weaken c x E N E' N' : near c x E N -> E <= E' -> N <= N' -> near c x E' N'.
Proof. intros (F & A & B) H K. split; [exact F|]. lra. Qed.
(** With natural numbers for the bounds: [e] half units off, at most [n] in size. *)
Definition off (c : f64) (x : R) (e n : Z) : Prop := near c x (IZR e * u) (IZR n).
Lemma off_zero : off (of_int 0) 0 0 0.
Proof.
  destruct (of_small 0) as [F V]; [lia|]. split; [exact F|]. rewrite V. rewrite Rminus_diag_eq, Rabs_R0 by reflexivity. lra.
Qed.
Definition halfup (k : Z) : Z := ((Z.abs k + 1) / 2)%Z.
Lemma halfup_ge k : Rabs (IZR k / 2) <= IZR (halfup k).
Proof.
  unfold Rdiv. rewrite Rabs_mult, (Rabs_right (/ 2)) by lra. rewrite <- abs_IZR.
  assert (Z.abs k <= 2 * halfup k)%Z. { unfold halfup. pose proof (Z_div_mod_eq_full (Z.abs k + 1) 2). pose proof (Z.mod_pos_bound (Z.abs k + 1) 2 ltac:(lia)). lia. }
  apply IZR_le in H. rewrite mult_IZR in H. lra.
Qed.
Lemma off_add p k c x e n : lit p k -> off c x e n -> (0 <= e <= 100000)%Z -> (halfup k + n <= 900)%Z ->
  off (fadd p c) (IZR k / 2 + x) (e + halfup k + n + 11) (halfup k + n).
Proof.
  intros L O He Hn. pose proof (halfup_ge k) as G. pose proof u_small. pose proof u_pos.
  assert (A1 : IZR e <= 100000) by (apply IZR_le; lia). assert (A2 : IZR (halfup k) + IZR n <= 900) by (rewrite <- plus_IZR; apply IZR_le; lia).
  assert (A0 : 0 <= IZR e) by (apply IZR_le; lia).
  assert (A3 : 0 <= IZR n) by (destruct O as (_ & _ & B); pose proof (Rabs_pos x); lra). pose proof (Rabs_pos (IZR k / 2)).
  eapply near_weaken; [apply (add_step p k c x _ _ L O)|..].
  - assert (IZR e * u <= 100000 * u) by (apply Rmult_le_compat_r; lra). lra.
  - lra.
  - rewrite !plus_IZR. assert (u * (Rabs (IZR k / 2) + IZR n + 1) <= u * (IZR (halfup k) + IZR n + 1)) by (apply Rmult_le_compat_l; lra).
    assert (u * (IZR (halfup k) + IZR n) <= u * 900) by (apply Rmult_le_compat_l; lra). lra.
  - rewrite plus_IZR. lra.
Qed.
Lemma off_mul t c x e n : finite t -> 0 <= val t <= 1 -> off c x e n -> (0 <= e <= 100000)%Z -> (n <= 900)%Z ->
  off (fmul t c) (val t * x) (e + n + 11) n.
Proof.
  intros Ft Rt O He Hn. pose proof u_small. pose proof u_pos.
  assert (A1 : IZR e <= 100000) by (apply IZR_le; lia). assert (A0 : 0 <= IZR e) by (apply IZR_le; lia).
  assert (A2 : IZR n <= 900) by (apply IZR_le; lia).
  assert (A3 : 0 <= IZR n) by (destruct O as (_ & _ & B); pose proof (Rabs_pos x); lra).
  eapply near_weaken; [apply (mul_step t c x _ _ Ft Rt O)|..].
  - assert (IZR e * u <= 100000 * u) by (apply Rmult_le_compat_r; lra). lra.
  - lra.
  - rewrite !plus_IZR. assert (u * IZR n <= u * 900) by (apply Rmult_le_compat_l; lra). lra.
  - lra.
Qed.

(** ** The polynomials *)
Ltac lits := lazymatch goal with
  | |- lit (fmul _ (of_int _)) _ => eapply lit_mul; [| |eapply lit_int]; vm_compute; reflexivity
  | |- lit (fmul _ (halves _)) _ => eapply lit_mul; [| |eapply lit_half]; vm_compute; reflexivity
  end.
Ltac chk := first [split; vm_compute; discriminate | vm_compute; discriminate].
Ltac horner := lazymatch goal with
  | |- off (of_int 0) _ _ _ => exact off_zero
  | |- off (fmul _ _) _ _ _ => eapply off_mul; [eassumption|eassumption|horner|chk|chk]
  | |- off (fadd _ _) _ _ _ => eapply off_add; [lits|horner|chk|chk]
  end.
Lemma off_err c x e n y (b : Z) : off c x e n -> x = y -> (e <= b)%Z -> finite c /\ Rabs (val c - y) <= IZR b * u.
Proof.
  intros (F & D & _) <- H. split; [exact F|]. apply Rle_trans with (1 := D). apply Rmult_le_compat_r; [pose proof u_pos; lra|apply IZR_le, H].
Qed.
Lemma accuracy_u w t : finite t -> 0 <= val t <= 1 ->
  (finite (f_a (computed w t)) /\ Rabs (val (f_a (computed w t)) - hermite w (val t)) <= 512 * u) /\
  (finite (f_da (computed w t)) /\ Rabs (val (f_da (computed w t)) - hermite' w (val t)) <= 1024 * u) /\
  (finite (f_d2a (computed w t)) /\ Rabs (val (f_d2a (computed w t)) - hermite'' w (val t)) <= 2048 * u).
Proof.
  intros F R. destruct w; cbn [computed];
    unfold f_dest_from_orig, f_d_orig, f_d_dest, f_d2_orig, f_d2_dest, f_two_jet_coeffs; cbn [f_a f_da f_d2a];
    unfold f_single_coeff; cbn [rev seq fold_left app Nat.sub];
    unfold f_horner, f_at, fDEST_ORIG, fD_ORIG, fD_DEST, fD2_ORIG, fD2_DEST, fA, fDA, fD2A; cbn [nth];
    (split; [|split]);
    (eapply off_err; [horner| |vm_compute; discriminate]);
    rewrite ?mult_IZR; unfold hermite, hermite', hermite''; field.
Qed.
Lemma u_pow n : (n <= 52)%nat -> 2 ^ n * u = / 2 ^ (53 - n).
Proof.
  intro H. unfold u. replace 53%nat with (n + (53 - n))%nat at 1 by lia. rewrite pow_add.
  assert (2 ^ n <> 0) by (apply pow_nonzero; lra). assert (2 ^ (53 - n) <> 0) by (apply pow_nonzero; lra). field. auto.
Qed.
Lemma accuracy w t : finite t -> 0 <= val t <= 1 ->
  let c := computed w t in
  finite (f_a c) /\ finite (f_da c) /\ finite (f_d2a c) /\
  Rabs (val (f_a c) - hermite w (val t)) <= / 2 ^ 44 /\
  Rabs (val (f_da c) - hermite' w (val t)) <= / 2 ^ 43 /\
  Rabs (val (f_d2a c) - hermite'' w (val t)) <= / 2 ^ 42.
Proof.
  intros F R. destruct (accuracy_u w t F R) as ([A1 A2] & [B1 B2] & [C1 C2]).
  pose proof (u_pow 9 ltac:(lia)) as U1. pose proof (u_pow 10 ltac:(lia)) as U2. pose proof (u_pow 11 ltac:(lia)) as U3.
  cbn [Nat.sub] in U1, U2, U3. cbv zeta. rewrite <- U1, <- U2, <- U3.
  replace (2 ^ 9) with 512 by lra. replace (2 ^ 10) with 1024 by lra. replace (2 ^ 11) with 2048 by lra. auto 10.
Qed.
(** Derivatives of polynomials. *)
Definition poly5 (c0 c1 c2 c3 c4 c5 t : R) : R := c0 + c1 * t + c2 * t ^ 2 + c3 * t ^ 3 + c4 * t ^ 4 + c5 * t ^ 5.
Lemma deriv_term c n x : derivable_pt_lim (fun t => c * t ^ n) x (c * (INR n * x ^ Nat.pred n)).
Proof. apply (derivable_pt_lim_scal (fun t => t ^ n)). apply derivable_pt_lim_pow. Qed.
Lemma deriv_ext f g x l l' : (forall t, f t = g t) -> l = l' -> derivable_pt_lim f x l -> derivable_pt_lim g x l'.
Proof.
  intros E <- D eps H. destruct (D eps H) as [d P]. exists d. intros h N L. rewrite <- !E. apply P; assumption.
Qed.
Lemma deriv_poly5 c0 c1 c2 c3 c4 c5 x :
  derivable_pt_lim (poly5 c0 c1 c2 c3 c4 c5) x (c1 + 2 * c2 * x + 3 * c3 * x ^ 2 + 4 * c4 * x ^ 3 + 5 * c5 * x ^ 4).
Proof.
  eapply (deriv_ext (fun t => ((((c0 * t ^ 0 + c1 * t ^ 1) + c2 * t ^ 2) + c3 * t ^ 3) + c4 * t ^ 4) + c5 * t ^ 5)); [intro t; unfold poly5; ring| |].
  2: { repeat apply (derivable_pt_lim_plus (fun t => _)); apply deriv_term. }
  cbn. ring.
Qed.
Definition coefficients (w : weight) : R * R * R * R * R :=
  match w with
  | WMotion => (0, 0, 10, -15, 6) | WVelocityOrig => (1, 0, -6, 8, -3) | WVelocityDest => (0, 0, -4, 7, -3)
  | WAccelerationOrig => (0, / 2, -3 / 2, 3 / 2, - / 2) | WAccelerationDest => (0, 0, / 2, -1, / 2)
  end.
Lemma hermite_derivatives w t : derivable_pt_lim (hermite w) t (hermite' w t) /\ derivable_pt_lim (hermite' w) t (hermite'' w t).
Proof.
  destruct (coefficients w) as [[[[c1 c2] c3] c4] c5] eqn:C. split.
  - refine (deriv_ext _ _ _ _ _ _ _ (deriv_poly5 0 c1 c2 c3 c4 c5 t)); [intro x; unfold poly5|]; destruct w; cbn in C; injection C as <- <- <- <- <-;
      unfold hermite, hermite'; field.
  - refine (deriv_ext _ _ _ _ _ _ _ (deriv_poly5 c1 (2 * c2) (3 * c3) (4 * c4) (5 * c5) 0 t)); [intro x; unfold poly5|]; destruct w; cbn in C; injection C as <- <- <- <- <-;
      unfold hermite', hermite''; field.
Qed.
Lemma hermite_ends w t : t = 0 \/ t = 1 ->
  hermite w t = at_end w 0 t /\ hermite' w t = at_end w 1 t /\ hermite'' w t = at_end w 2 t.
Proof.
  intros [-> | ->]; destruct w; unfold hermite, hermite', hermite'', at_end; cbn [one_at fst snd Nat.eqb];
    repeat split; try (destruct (Req_EM_T _ _)); lra.
Qed.

(** ** The ends *)
Lemma val_0 x : finite x -> val x = 0 -> exists s, x = B754_zero s.
Proof.
  destruct x as [s| | |s m e b]; intros F V; try discriminate F; [exists s; reflexivity|].
  exfalso. unfold val, B2R in V. apply (F2R_neq_0 radix2 (Float radix2 (cond_Zopp s (Zpos m)) e)); [|exact V].
  cbn. destruct s; discriminate.
Qed.
Lemma val_1 x : finite x -> val x = 1 -> x = of_int 1.
Proof.
  intros F V. destruct (of_small 1) as [F1 V1]; [lia|]. apply B2R_inj; [| |unfold val in *; congruence].
  - destruct x; try discriminate F; [|reflexivity]. unfold val, B2R in V. lra.
  - vm_compute. reflexivity.
Qed.
Definition value_of (x : f64) : option (bool * positive * Z) :=
  match x with B754_finite s m e _ => Some (s, m, e) | _ => None end.
Lemma value_zero x : is_finite x = true -> value_of x = None -> val x = 0.
Proof. destruct x; intros F V; reflexivity || discriminate. Qed.
Lemma value_one x : value_of x = Some (false, 4503599627370496%positive, (-52)%Z) -> val x = 1.
Proof.
  destruct x as [s| | |s m e b]; intro V; try discriminate V. injection V as -> -> ->. unfold val, B2R, F2R. cbn. lra.
Qed.
Ltac end_value := first
  [ apply value_zero; vm_compute; reflexivity
  | apply value_one; vm_compute; reflexivity ].
Lemma exact_ends w t : finite t -> val t = 0 \/ val t = 1 ->
  let c := computed w t in
  val (f_a c) = at_end w 0 (val t) /\ val (f_da c) = at_end w 1 (val t) /\ val (f_d2a c) = at_end w 2 (val t).
Proof.
  intros F H. cbv zeta. destruct H as [Z|O].
  - rewrite Z. destruct (val_0 t F Z) as [s ->]. unfold at_end.
    destruct w; cbn [one_at fst snd Nat.eqb computed]; repeat split; try (destruct (Req_EM_T _ _)); try lra; destruct s; end_value.
  - rewrite O. rewrite (val_1 t F O). unfold at_end.
    destruct w; cbn [one_at fst snd Nat.eqb computed]; repeat split; try (destruct (Req_EM_T _ _)); try lra; end_value.
Qed.

(** ** NaN *)
Lemma fadd_nan_r x : fadd x B754_nan = B754_nan.
Proof. destruct x; reflexivity. Qed.
Lemma fmul_nan_l x : fmul B754_nan x = B754_nan.
Proof. destruct x; reflexivity. Qed.
Lemma nan_in w : let c := computed w B754_nan in
  not_a_number (f_a c) /\ not_a_number (f_da c) /\ not_a_number (f_d2a c).
Proof.
  cbv zeta. unfold not_a_number. destruct w; cbn [computed];
    unfold f_dest_from_orig, f_d_orig, f_d_dest, f_d2_orig, f_d2_dest, f_two_jet_coeffs; cbn [f_a f_da f_d2a];
    unfold f_single_coeff; cbn [rev seq fold_left app Nat.sub]; unfold f_horner; rewrite !fmul_nan_l, ?fadd_nan_r; auto.
Qed.

(** ** At the ends of a segment, through the lookup *)
Lemma below_one w : Rabs (hermite w (1 - u) - at_end w 0 1) <= 256 * u /\
  Rabs (hermite' w (1 - u) - at_end w 1 1) <= 256 * u /\ Rabs (hermite'' w (1 - u) - at_end w 2 1) <= 256 * u.
Proof.
  destruct (hermite_ends w 1 (or_intror eq_refl)) as (<- & <- & <-). pose proof u_small. pose proof u_pos. set (x := u) in *.
  assert (B : forall n, (1 <= n)%nat -> 0 <= x ^ n <= x).
  { intros n Hn. split; [apply pow_le; lra|]. replace n with (1 + (n - 1))%nat by lia. rewrite pow_add, pow_1.
    assert (0 <= x ^ (n - 1) <= 1). { split; [apply pow_le; lra|]. rewrite <- (pow1 (n - 1)). apply pow_incr. lra. } nra. }
  pose proof (B 2%nat ltac:(lia)). pose proof (B 3%nat ltac:(lia)). pose proof (B 4%nat ltac:(lia)). pose proof (B 5%nat ltac:(lia)).
  destruct w; unfold hermite, hermite', hermite''; repeat split; apply Rabs_le; split;
    match goal with |- ?a <= ?b => apply Rminus_le; ring_simplify end; lra.
Qed.
Lemma segment_ends w appended t p orig dest : point_at_impl (built appended) t = Ok p -> finite t ->
  adjacent (built appended) (in_segment p) orig dest -> finite orig -> finite dest -> usual_length orig dest ->
  let c := computed w (time_nrm p) in
  finite (f_a c) /\ finite (f_da c) /\ finite (f_d2a c) /\
  (val t = val orig -> val (f_a c) = at_end w 0 0 /\ val (f_da c) = at_end w 1 0 /\ val (f_d2a c) = at_end w 2 0) /\
  (val t = val dest -> Rabs (val (f_a c) - at_end w 0 1) <= / 2 ^ 43 /\ Rabs (val (f_da c) - at_end w 1 1) <= / 2 ^ 42 /\
     Rabs (val (f_d2a c) - at_end w 2 1) <= / 2 ^ 41).
Proof.
  intros H Ft A Fo Fd U. destruct (normalized appended t p orig dest H Ft A Fo Fd U) as (_ & Fn & Rn & _ & Z & O).
  pose proof (accuracy w _ Fn Rn) as (F1 & F2 & F3 & _). cbv zeta. split; [exact F1|]. split; [exact F2|]. split; [exact F3|]. split.
  - intro E. specialize (Z E). destruct (exact_ends w _ Fn (or_introl Z)) as (-> & -> & ->). rewrite Z. auto.
  - intro E. destruct (O E) as [V|V].
    + destruct (exact_ends w _ Fn (or_intror V)) as (-> & -> & ->). rewrite V, !Rminus_diag_eq, Rabs_R0 by reflexivity.
      repeat split; apply Rlt_le, Rinv_0_lt_compat, pow_lt; lra.
    + destruct (accuracy_u w _ Fn Rn) as ([_ A2] & [_ B2] & [_ C2]). rewrite V in A2, B2, C2. destruct (below_one w) as (A3 & B3 & C3).
      pose proof (u_pow 10 ltac:(lia)) as U1. pose proof (u_pow 11 ltac:(lia)) as U2. pose proof (u_pow 12 ltac:(lia)) as U3.
      cbn [Nat.sub] in U1, U2, U3. rewrite <- U1, <- U2, <- U3. pose proof u_pos.
      assert (T : forall a b c x y, Rabs (a - b) <= x * u -> Rabs (b - c) <= y * u -> Rabs (a - c) <= (x + y) * u).
      { intros a b d x y Hx Hy. replace (a - d) with ((a - b) + (b - d)) by ring. apply Rle_trans with (1 := Rabs_triang _ _). lra. }
      split; [|split].
      * apply Rle_trans with (1 := T _ _ _ _ _ A2 A3). lra.
      * apply Rle_trans with (1 := T _ _ _ _ _ B2 B3). lra.
      * apply Rle_trans with (1 := T _ _ _ _ _ C2 C3). lra.
Qed.
