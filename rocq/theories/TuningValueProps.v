(** C93: the tuning estimate recovers the common detuning of the strong bins. *)
From Coq Require Import ZArith Reals Lra Lia List.
From Flocq Require Import Core IEEE754.BinarySingleNaN.
From Verif Require Import Rust F32 F32Facts F32More ListFacts Bounds FloatSums Libm Onsets NoveltyProofs TempoSpectra Chroma ChromaProofs ChromaValueProofs
  FourierFacts TempoSpectrumFacts AutocorrelationValueProofs SpectrumFacts OnsetStrengthFacts ChromaPitchFacts ChromaSpreadFacts KeyFeatures HpcpPitchFacts
  TuningProps.
From Verif Require HpcpPitchProps TempoLagProps ExactPlatform NoveltyStrengthFacts PeakPickingProofs.
Import ListNotations.
Local Open Scope R_scope.

(** ** What is assumed of sine, square root and atan2 *)
Definition sin_accurate (L : libm) (d : R) : Prop := forall x, fin x -> Rabs (B2R x) <= 7 ->
  fin (m_sin L x) /\ Rabs (B2R (m_sin L x) - sin (B2R x)) <= d.
Definition root_accurate (L : libm) (d : R) : Prop := forall x, fin x -> 0 <= B2R x <= bpow radix2 40 ->
  fin (m_powf L x fhalf) /\ Rabs (B2R (m_powf L x fhalf) - sqrt (B2R x)) <= d * sqrt (B2R x).
Definition atan2_accurate (P : key_platform) (d : R) : Prop := forall y x r phi, fin y -> fin x -> 0 < r -> - PI < phi < PI ->
  B2R y = r * sin phi -> B2R x = r * cos phi -> fin (p_atan2 P y x) /\ Rabs (B2R (p_atan2 P y x) - phi) <= d.

(** ** Sums of terms of either sign *)
Lemma signed_fold : forall A (g : A -> f32) (b : A -> R) l acc k, (-149 <= k <= 102)%Z -> within (k + 25) acc ->
  (forall x, In x l -> within k (g x) /\ Rabs (B2R (g x)) <= b x) ->
  within (k + 25) (fold_left fadd (map g l) acc) /\
  Rabs (B2R (fold_left fadd (map g l) acc) - (B2R acc + sum_over (fun x => B2R (g x)) l)) <=
    ((1 + u) ^ length l - 1) * (Rabs (B2R acc) + sum_over b l).
Proof.
  intros A g b. induction l as [|x l IH]; intros acc k K W H.
  - cbn [map fold_left length pow]. rewrite !so_nil. split; [exact W|]. rewrite Rplus_0_r, Rminus_diag_eq, Rabs_R0 by reflexivity. lra.
  - cbn [map fold_left length pow]. rewrite !so_cons. destruct (H x (or_introl eq_refl)) as (Wx & Bx).
    assert (W' : within (k + 25) (fadd acc (g x))) by now apply within_step.
    destruct (IH (fadd acc (g x)) k K W' ltac:(intros; apply H; now right)) as (F & E). split; [exact F|].
    pose proof (within_fin _ _ W) as Fa. pose proof (within_fin _ _ Wx) as Fx.
    destruct (fadd_fx acc (g x) Fa Fx) as (N & X). rewrite fx_fin in X by apply (within_fin _ _ W').
    assert (V : B2R (fadd acc (g x)) = rnd (B2R acc + B2R (g x))).
    { rewrite X. apply sat_id. assert (Rabs (B2R acc + B2R (g x)) <= bpow radix2 (k + 26)).
      { eapply Rle_trans; [apply Rabs_triang|]. destruct W as (_ & W1). destruct Wx as (_ & W2). replace (k + 26)%Z with (1 + (k + 25))%Z by lia. rewrite bpow_plus.
        change (bpow radix2 1) with 2. pose proof (bpow_le radix2 k (k + 25) ltac:(lia)). lra. }
      destruct (Z.eq_dec k 102) as [-> | K1].
      - (* the result is finite, so nothing overflowed *)
        destruct (Rle_or_lt (Rabs (rnd (B2R acc + B2R (g x)))) big) as [Q | Q]; [apply Rabs_le_inv in Q; lra|exfalso].
        destruct W' as (_ & W3). rewrite X in W3. assert (big <= Rabs (sat (rnd (B2R acc + B2R (g x))))).
        { unfold sat. pose proof big_pos. unfold Rabs in Q. destruct (Rcase_abs _).
          - rewrite (Rmin_right big) by lra. rewrite Rmax_left by lra. rewrite Rabs_left by lra. lra.
          - rewrite (Rmin_left big) by lra. rewrite Rmax_right by lra. rewrite Rabs_pos_eq by lra. lra. }
        pose proof (bpow_lt radix2 (102 + 25) 128 ltac:(lia)) as Y. change (bpow radix2 128) with big in Y. lra.
      - pose proof (rnd_within (k + 26) _ ltac:(lia) H0) as Q. apply Rabs_le_inv in Q. pose proof (bpow_lt radix2 (k + 26) 128 ltac:(lia)) as Y.
        change (bpow radix2 128) with big in Y. lra. }
    destruct (add_err acc (g x) Fa Fx) as (e & He & Ee). rewrite <- V in Ee. set (a' := B2R (fadd acc (g x))) in *. clearbody a'.
    set (fo := B2R (fold_left fadd (map g l) (fadd acc (g x)))) in *. clearbody fo. clear V X N IH.
    pose proof u_val as U. set (a := B2R acc) in *. set (y := B2R (g x)) in *.
    assert (P : 0 <= (1 + u) ^ length l - 1). { assert (1 <= (1 + u) ^ length l) by (apply pow_R1_Rle; rewrite U; lra). lra. }
    set (p := (1 + u) ^ length l - 1) in *. replace ((1 + u) * (1 + u) ^ length l - 1) with ((1 + u) * p + u) by (unfold p; ring). clearbody p.
    assert (Sb : 0 <= sum_over b l). { clear - H. induction l as [|z l IH]; [rewrite so_nil; lra|]. rewrite so_cons.
      destruct (H z (or_intror (or_introl eq_refl))) as (_ & Q). pose proof (Rabs_pos (B2R (g z))).
      specialize (IH ltac:(intros z' [-> | Iz]; apply H; [now left|right; now right])). lra. }
    set (S1 := sum_over (fun x => B2R (g x)) l) in *. set (S2 := sum_over b l) in *. clearbody S1 S2.
    assert (Q1 : Rabs (a' - (a + y)) <= u * (Rabs a + b x)).
    { rewrite Ee. replace ((a + y) * (1 + e) - (a + y)) with (e * (a + y)) by ring. rewrite Rabs_mult.
      apply Rmult_le_compat; try apply Rabs_pos; [exact He|]. eapply Rle_trans; [apply Rabs_triang|]. lra. }
    assert (Q2 : Rabs a' <= (1 + u) * (Rabs a + b x)).
    { replace a' with ((a' - (a + y)) + (a + y)) by ring. eapply Rle_trans; [apply Rabs_triang|].
      pose proof (Rabs_triang a y). lra. }
    replace (fo - (a + (y + S1))) with ((fo - (a' + S1)) + (a' - (a + y))) by ring. eapply Rle_trans; [apply Rabs_triang|].
    assert (Q3 : p * (Rabs a' + S2) <= p * ((1 + u) * (Rabs a + b x) + S2)) by (apply Rmult_le_compat_l; lra).
    set (c := Rabs a + b x) in *.
    assert (C0 : 0 <= c) by (unfold c; pose proof (Rabs_pos a); pose proof (Rabs_pos y); lra).
    replace (((1 + u) * p + u) * (Rabs a + (b x + S2))) with (((1 + u) * p + u) * (c + S2)) by (unfold c; ring).
    assert (Z1 : 0 <= u * p * S2) by (repeat apply Rmult_le_pos; rewrite ?U; lra).
    assert (Z2 : 0 <= u * S2) by (apply Rmult_le_pos; rewrite ?U; lra).
    replace (((1 + u) * p + u) * (c + S2)) with (p * ((1 + u) * c + S2) + u * c + u * p * S2 + u * S2) by ring. lra.
Qed.

Lemma so_abs : forall A (f g : A -> R) l, (forall x, In x l -> Rabs (f x) <= g x) -> Rabs (sum_over f l) <= sum_over g l.
Proof.
  intros A f g. induction l as [|x l IH]; intros H; [rewrite !so_nil, Rabs_R0; lra|]. rewrite !so_cons. eapply Rle_trans; [apply Rabs_triang|].
  specialize (IH ltac:(intros; apply H; now right)). pose proof (H x (or_introl eq_refl)). lra.
Qed.

Lemma so_member : forall A (f : A -> R) l x, (forall y, In y l -> 0 <= f y) -> In x l -> f x <= sum_over f l.
Proof.
  intros A f. induction l as [|y l IH]; intros x H I; [easy|]. rewrite so_cons.
  assert (0 <= sum_over f l). { rewrite <- (Rmult_0_l (sum_over f l)), <- so_scal. apply so_le. intros z Iz. rewrite Rmult_0_l. apply H. now right. }
  destruct I as [-> | I]; [lra|]. specialize (IH x ltac:(intros; apply H; now right) I). pose proof (H y (or_introl eq_refl)). lra.
Qed.

(** Up to 32768 weighted terms, each known to 1/2500 of its weight. *)
Lemma weighted_sum : forall A (g : A -> f32) (w y : A -> R) l, (Z.of_nat (length l) <= 32768)%Z ->
  (forall x, In x l -> within 23 (g x) /\ 0 <= w x /\ Rabs (y x) <= 1 /\ Rabs (B2R (g x) - w x * y x) <= / 2500 * w x) ->
  let s := fold_left fadd (map g l) f0 in
  within 48 s /\ Rabs (B2R s - sum_over (fun x => w x * y x) l) <= / 220 * sum_over w l.
Proof.
  intros A g w y l Hl H s.
  destruct (signed_fold A g (fun x => (1 + / 2500) * w x) l f0 23 ltac:(lia) (within_0 _)) as (W & E).
  { intros x Ix. destruct (H x Ix) as (A1 & A2 & A3 & A4). split; [exact A1|].
    replace (B2R (g x)) with ((B2R (g x) - w x * y x) + w x * y x) by ring. eapply Rle_trans; [apply Rabs_triang|].
    rewrite (Rabs_mult (w x)), (Rabs_pos_eq (w x)) by exact A2. assert (w x * Rabs (y x) <= w x * 1) by (apply Rmult_le_compat_l; lra). lra. }
  fold s in W, E. split; [exact W|]. change (B2R f0) with 0 in E. rewrite Rplus_0_l, Rabs_R0, Rplus_0_l, so_scal in E.
  pose proof u_val as U. assert (Bl : 0 <= INR (length l) <= 32768) by (split; [apply pos_INR|rewrite INR_IZR_INZ; now apply IZR_le]).
  pose proof (pow_le_1p (length l) ltac:(rewrite U; lra)) as P. rewrite U in P at 2.
  assert (S0 : 0 <= sum_over w l). { rewrite <- (Rmult_0_l (sum_over w l)), <- so_scal. apply so_le. intros x Ix. destruct (H x Ix). lra. }
  assert (D : Rabs (sum_over (fun x => B2R (g x)) l - sum_over (fun x => w x * y x) l) <= / 2500 * sum_over w l).
  { replace (sum_over (fun x => B2R (g x)) l - sum_over (fun x => w x * y x) l) with (sum_over (fun x => B2R (g x) - w x * y x) l).
    - rewrite <- so_scal. apply so_abs. intros x Ix. apply (H x Ix).
    - rewrite (so_ext _ (fun x => B2R (g x) - w x * y x) (fun x => B2R (g x) + (-1) * (w x * y x))) by (intros; ring). rewrite so_plus, so_scal. ring. }
  set (W0 := sum_over w l) in *. set (p := (1 + u) ^ length l) in *. clearbody p.
  assert (p * ((1 + / 2500) * W0) <= (1 + / 256) * ((1 + / 2500) * W0)) by (apply Rmult_le_compat_r; lra).
  apply Rabs_le_inv in E. apply Rabs_le_inv in D. apply Rabs_le. split; lra.
Qed.

(** ** The direction of a vector *)
Lemma atan_lip : forall x y, x <= y -> atan y - atan x <= y - x.
Proof.
  intros x y H. destruct H as [H | ->]; [|lra].
  destruct (MVT_cor2 atan (fun z => / (1 + z ^ 2)) x y H) as (c & E & _). { intros z _. apply derivable_pt_lim_atan. }
  rewrite E. assert (0 <= c ^ 2) by apply pow2_ge_0. assert (/ (1 + c ^ 2) <= 1). { rewrite <- Rinv_1 at 2. apply Rinv_le_contravar; lra. }
  assert (/ (1 + c ^ 2) * (y - x) <= 1 * (y - x)) by (apply Rmult_le_compat_r; lra). lra.
Qed.

Lemma cos_low : forall a, 1 - a * a / 2 <= cos a.
Proof.
  intros a. replace a with (2 * (a / 2)) at 3 by field. rewrite cos_2a_sin. pose proof (sin_abs (a / 2)) as S.
  assert (Rabs (sin (a / 2)) * Rabs (sin (a / 2)) <= Rabs (a / 2) * Rabs (a / 2)) as Q by (apply Rmult_le_compat; auto; apply Rabs_pos).
  rewrite <- !Rabs_mult, !Rabs_pos_eq in Q by apply Rle_0_sqr. lra.
Qed.

(** A vector whose components along and across the direction [D] are at least [W (cos a - k)] and at most [W (sin a + k)]. *)
Lemma direction : forall C S D a W, 0 <= a <= 393 / 1000 -> 0 < W ->
  let A := C * cos D + S * sin D in let B := S * cos D - C * sin D in
  W * (cos a - / 110) <= A -> Rabs B <= W * (sin a + / 110) ->
  9 / 10 * W <= A /\
  exists r phi, 0 < r /\ Rabs (phi - D) <= a + 16 / 1000 /\ S = r * sin phi /\ C = r * cos phi.
Proof.
  intros C S D a W Ha HW A B HA HB. pose proof (cos_low a) as Ca. pose proof (sin_abs a) as Sa.
  assert (Sa0 : 0 <= sin a) by (apply sin_ge_0; pose proof PI_bounds; lra). rewrite !Rabs_pos_eq in Sa by lra.
  assert (A2 : a * a <= 393 / 1000 * (393 / 1000)) by (apply Rmult_le_compat; lra).
  assert (Ca' : 922 / 1000 <= cos a <= 1) by (pose proof (COS_bound a); lra).
  assert (A9 : 9 / 10 * W <= A). { apply Rle_trans with (W * (cos a - / 110)); [|exact HA]. rewrite Rmult_comm. apply Rmult_le_compat_l; lra. }
  split; [exact A9|]. set (t := B / A). assert (PA : 0 < A) by lra.
  assert (Et : B = A * t) by (unfold t; field; lra).
  assert (Rt : 0 < 1 + t²) by (pose proof (Rle_0_sqr t); lra). assert (Sq : 0 < sqrt (1 + t²)) by now apply sqrt_lt_R0.
  exists (A * sqrt (1 + t²)), (D + atan t).
  assert (R1 : A * sqrt (1 + t²) * cos (atan t) = A) by (rewrite cos_atan; field; lra).
  assert (R2 : A * sqrt (1 + t²) * sin (atan t) = B) by (rewrite sin_atan, Et; field; lra).
  split; [now apply Rmult_lt_0_compat|]. split; [|split].
  - replace (D + atan t - D) with (atan t) by ring.
    set (m := (sin a + / 110) / (cos a - / 110)). assert (Pc : 0 < cos a - / 110) by lra.
    assert (M : m * (cos a - / 110) = sin a + / 110) by (unfold m; field; lra). assert (M0 : 0 <= m) by (unfold m; apply Rmult_le_pos; [lra|left; now apply Rinv_0_lt_compat]).
    assert (T : Rabs t <= m).
    { apply Rmult_le_reg_l with A; [exact PA|]. rewrite <- (Rabs_pos_eq A) at 1 by lra. rewrite <- Rabs_mult, <- Et.
      eapply Rle_trans; [exact HB|]. rewrite <- M. replace (W * (m * (cos a - / 110))) with (W * (cos a - / 110) * m) by ring.
      apply Rmult_le_compat_r; lra. }
    assert (Ta : atan (tan a) = a) by (apply atan_tan; pose proof PI_bounds; lra).
    assert (Tm : m - tan a <= 16 / 1000).
    { assert (Et' : tan a * cos a = sin a) by (unfold tan; field; lra). set (ta := tan a) in *.
      assert (Y : (m - ta) * (cos a * (cos a - / 110)) = / 110 * (cos a + sin a)).
      { replace ((m - ta) * (cos a * (cos a - / 110))) with (cos a * (m * (cos a - / 110)) - (ta * cos a) * (cos a - / 110)) by ring. rewrite M, Et'. ring. }
      set (q := cos a * (cos a - / 110)) in *. assert (Hq : 841 / 1000 <= q). { unfold q. apply Rle_trans with (922 / 1000 * (922 / 1000 - / 110)); [lra|]. apply Rmult_le_compat; lra. }
      apply Rmult_le_reg_r with q; [lra|]. rewrite Y. lra. }
    assert (Tge : tan a <= m).
    { assert (Et' : tan a * cos a = sin a) by (unfold tan; field; lra). apply Rmult_le_reg_r with (cos a); [lra|]. rewrite Et'. lra. }
    pose proof (atan_lip (tan a) m Tge) as G. rewrite Ta in G. apply Rabs_le_inv in T.
    assert (Mono : forall x y, x <= y -> atan x <= atan y). { intros x y [Q | ->]; [left; now apply atan_increasing|lra]. }
    pose proof (Mono t m ltac:(lra)). pose proof (Mono (- m) t ltac:(lra)) as Q. rewrite atan_opp in Q. apply Rabs_le. lra.
  - rewrite sin_plus. replace (A * sqrt (1 + t²) * (sin D * cos (atan t) + cos D * sin (atan t)))
      with (sin D * (A * sqrt (1 + t²) * cos (atan t)) + cos D * (A * sqrt (1 + t²) * sin (atan t))) by ring. rewrite R1, R2. unfold A, B.
    pose proof (sin2_cos2 D) as Q. unfold Rsqr in Q. replace S with (S * (sin D * sin D + cos D * cos D)) at 1 by (rewrite Q; ring). ring.
  - rewrite cos_plus. replace (A * sqrt (1 + t²) * (cos D * cos (atan t) - sin D * sin (atan t)))
      with (cos D * (A * sqrt (1 + t²) * cos (atan t)) - sin D * (A * sqrt (1 + t²) * sin (atan t))) by ring. rewrite R1, R2. unfold A, B.
    pose proof (sin2_cos2 D) as Q. unfold Rsqr in Q. replace C with (C * (sin D * sin D + cos D * cos D)) at 1 by (rewrite Q; ring). ring.
Qed.

(** ** One bin *)
Definition pitch (f : R) : R := 12 * lg (f / 440) + 57.

Lemma pitch_low : forall L ff f, log2_accurate (m_log2 L) (/ 1048576) -> fin ff -> 79 <= f <= 5001 -> Rabs (B2R ff - f) <= / 4900000 * f ->
  let s := fadd (fmul (z2f 12) (m_log2 L (fdiv ff (z2f 440)))) (z2f 57) in
  fin s /\ 20 <= B2R s <= 110 /\ Rabs (B2R s - pitch f) <= / 20000.
Proof.
  intros L ff f HL Ff Hf Hff s. apply Rabs_le_inv in Hff.
  destruct (z2f_exact 440 ltac:(lia)) as (Fa & Va). destruct (z2f_exact 57 ltac:(lia)) as (Fb & Vb). destruct f12_val as (Fc & Vc).
  unfold s, pitch.
  destruct (fdiv_fx ff (z2f 440) Ff Fa ltac:(rewrite Va; lra)) as (N1 & E1). rewrite Va in E1.
  set (x := B2R ff / 440) in *. assert (Hx : 17 / 100 <= x <= 12) by (unfold x; lra).
  destruct (fin_of_rnd_big _ _ N1 E1 ltac:(rewrite Rabs_pos_eq; lra)) as (F1 & V1).
  pose proof (TempoLagProps.rnd_rel x ltac:(apply Rle_trans with (bpow radix2 (-3)); [apply bpow_le; lia|simpl; lra])) as R1.
  rewrite <- V1 in R1. set (d := fdiv ff (z2f 440)) in *. apply Rabs_le_inv in R1.
  destruct (HL d F1 ltac:(lra)) as (Fl & El).
  assert (EL : Rabs (lg (B2R d) - lg (f / 440)) <= 3 * (/ 3700000)).
  { apply lg_near; [lra|lra|]. unfold x in R1. apply Rabs_le. split; lra. }
  pose proof (lg_range (f / 440) ltac:(lra)) as Lr. set (l := lg (f / 440)) in *. clearbody l.
  set (ld := m_log2 L d) in *. apply Rabs_le_inv in El. apply Rabs_le_inv in EL.
  assert (Wl : Rabs (B2R ld - l) <= 18 / 10000000) by (apply Rabs_le; lra). clear El EL. apply Rabs_le_inv in Wl.
  destruct (fmul_fx (z2f 12) ld Fc Fl) as (N2 & E2). rewrite Vc in E2.
  assert (H2 : Rabs (12 * B2R ld) <= 49) by (apply Rabs_le; lra).
  destruct (fin_of_rnd_big _ _ N2 E2 ltac:(lra)) as (F2 & V2). pose proof (ChromaPitchFacts.rnd_abs _ 49 H2 ltac:(lra)) as R2. rewrite <- V2 in R2.
  set (m := fmul (z2f 12) ld) in *. apply Rabs_le_inv in R2.
  destruct (fadd_fx m (z2f 57) F2 Fb) as (N3 & E3). rewrite Vb in E3.
  assert (H3 : Rabs (B2R m + 57) <= 107) by (apply Rabs_le; lra).
  destruct (fin_of_rnd_big _ _ N3 E3 ltac:(lra)) as (F3 & V3). pose proof (ChromaPitchFacts.rnd_abs _ 107 H3 ltac:(lra)) as R3. rewrite <- V3 in R3.
  apply Rabs_le_inv in R3. split; [exact F3|]. split; [lra|]. apply Rabs_le. split; lra.
Qed.

Lemma turns : forall (p : Z) x, sin (x - 2 * PI * IZR p) = sin x /\ cos (x - 2 * PI * IZR p) = cos x.
Proof.
  intros p x. destruct (Z_le_gt_dec 0 p) as [H | H].
  - assert (E : IZR p = INR (Z.to_nat p)) by (rewrite INR_IZR_INZ, Z2Nat.id; auto). rewrite E. split.
    + rewrite <- (sin_period (x - 2 * PI * INR (Z.to_nat p)) (Z.to_nat p)). f_equal. ring.
    + rewrite <- (cos_period (x - 2 * PI * INR (Z.to_nat p)) (Z.to_nat p)). f_equal. ring.
  - assert (E : IZR p = - INR (Z.to_nat (- p))) by (rewrite INR_IZR_INZ, Z2Nat.id by lia; rewrite opp_IZR; ring). rewrite E. split.
    + rewrite <- (sin_period x (Z.to_nat (- p))). f_equal. ring.
    + rewrite <- (cos_period x (Z.to_nat (- p))). f_equal. ring.
Qed.

Lemma sin_lip : forall a b, Rabs (sin a - sin b) <= Rabs (a - b).
Proof.
  intros a b. rewrite <- !cos_shift. replace (a - b) with (- ((PI / 2 - a) - (PI / 2 - b))) by ring. rewrite Rabs_Ropp. apply cos_lip.
Qed.

Lemma angle_val : forall L ff f, log2_accurate (m_log2 L) (/ 1048576) -> fin ff -> 79 <= f <= 5001 -> Rabs (B2R ff - f) <= / 4900000 * f ->
  let s := fadd (fmul (z2f 12) (m_log2 L (fdiv ff (z2f 440)))) (z2f 57) in
  let an := fmul (fmul f2 f_pi) (fsub s (fround s)) in
  fin an /\ Rabs (B2R an) <= 7 /\ Rabs (sin (B2R an) - sin (2 * PI * pitch f)) <= / 3000 /\ Rabs (cos (B2R an) - cos (2 * PI * pitch f)) <= / 3000.
Proof.
  intros L ff f HL Ff Hf Hff s an. destruct (pitch_low L ff f HL Ff Hf Hff) as (Fs & Rs & Es). fold s in Fs, Rs, Es.
  destruct (fround_spec s Fs) as (Fr & Vr). set (p := ZnearestA (B2R s)) in *.
  assert (Hp : Rabs (B2R s - IZR p) <= / 2) by (apply Znearest_half).
  destruct (fsub_fx s (fround s) Fs Fr) as (N1 & E1). rewrite Vr in E1.
  destruct (fin_of_rnd_big _ _ N1 E1 ltac:(lra)) as (F1 & V1). pose proof (ChromaPitchFacts.rnd_abs _ 1 ltac:(eapply Rle_trans; [exact Hp|lra]) ltac:(lra)) as R1. rewrite <- V1 in R1.
  set (d := fsub s (fround s)) in *. destruct two_pi_val as (Ft & Vt). apply Rabs_le_inv in R1. apply Rabs_le_inv in Hp. apply Rabs_le_inv in Es.
  destruct (fmul_fx (fmul f2 f_pi) d Ft F1) as (N2 & E2). rewrite Vt in E2.
  assert (H2 : Rabs (13176795 / 2097152 * B2R d) <= 4) by (apply Rabs_le; lra).
  destruct (fin_of_rnd_big _ _ N2 E2 ltac:(lra)) as (F2 & V2). pose proof (ChromaPitchFacts.rnd_abs _ 4 H2 ltac:(lra)) as R2. rewrite <- V2 in R2. fold an in F2, V2, R2.
  apply Rabs_le_inv in H2. apply Rabs_le_inv in R2. split; [exact F2|]. split; [apply Rabs_le; lra|].
  assert (G : Rabs (B2R an - (2 * PI * pitch f - 2 * PI * IZR p)) <= / 3000).
  { set (e := B2R d) in *. set (q := pitch f) in *. set (z := q - IZR p). assert (Ez : Rabs (e - z) <= / 20000 + / 16000000) by (unfold z; apply Rabs_le; lra).
    assert (Hz : Rabs z <= 51 / 100) by (unfold z; apply Rabs_le; lra). replace (2 * PI * q - 2 * PI * IZR p) with (2 * PI * z) by (unfold z; ring).
    apply Rabs_le_inv in Ez. pose proof PI_bounds as Pb. clearbody z e.
    assert (T : Rabs ((13176795 / 2097152 - 2 * PI) * z) <= / 1000000).
    { rewrite Rabs_mult. apply Rle_trans with (/ 1000000 * 1); [|lra]. apply Rmult_le_compat; try apply Rabs_pos; [apply Rabs_le; lra|lra]. }
    apply Rabs_le_inv in T. apply Rabs_le. split; lra. }
  destruct (turns p (2 * PI * pitch f)) as (Ts & Tc). split.
  - rewrite <- Ts. eapply Rle_trans; [apply sin_lip|exact G].
  - rewrite <- Tc. eapply Rle_trans; [apply cos_lip|exact G].
Qed.

(** The weight of a bin and its product with a sine or cosine. *)
Lemma smallest : forall x, fin x -> 0 < B2R x -> bpow radix2 (-149) <= B2R x.
Proof.
  intros x F H.
  destruct (Rle_or_lt (bpow radix2 (-149)) (B2R x)) as [Q | Q]; [exact Q|exfalso].
  assert (G : generic_format radix2 fexp32 (B2R x)) by apply generic_format_B2R.
  destruct (FLT_format_generic radix2 (-149) 24 (B2R x) G) as [(m & e) E1 E2 E3]. cbn [Fnum Fexp] in *.
  rewrite E1 in H, Q. unfold F2R in H, Q. cbn [Fnum Fexp] in H, Q.
  assert (M : (1 <= m)%Z). { destruct (Z_le_gt_dec 1 m); auto. exfalso. assert (IZR m <= 0) by (apply IZR_le; lia). pose proof (bpow_gt_0 radix2 e).
    assert (IZR m * bpow radix2 e <= 0 * bpow radix2 e) by (apply Rmult_le_compat_r; lra). lra. }
  pose proof (bpow_le radix2 (-149) e E3). assert (1 <= IZR m) by (now apply (IZR_le 1)).
  assert (1 * bpow radix2 (-149) <= IZR m * bpow radix2 e) by (apply Rmult_le_compat; try lra; apply bpow_ge_0). lra.
Qed.

Lemma weight_val : forall L m, root_accurate L (/ 1024) -> fin m -> 0 <= B2R m <= bpow radix2 40 ->
  let w := m_powf L (fmax m f0) fhalf in
  fin w /\ 0 <= B2R w <= bpow radix2 21 /\ (fle w f0 = false -> bpow radix2 (-80) <= B2R w) /\ (/ 1000000 <= B2R m -> / 1100 <= B2R w).
Proof.
  intros L m HR Fm Hm w. destruct (fmax0_val m Fm) as (Fx & Vx). rewrite Rmax_left in Vx by lra.
  destruct (HR (fmax m f0) Fx ltac:(rewrite Vx; exact Hm)) as (Fw & Ew). rewrite Vx in Ew. fold w in Fw, Ew. pose proof (sqrt_pos (B2R m)) as S0.
  assert (S1 : sqrt (B2R m) <= bpow radix2 20).
  { replace (bpow radix2 20) with (sqrt (bpow radix2 40)); [apply sqrt_le_1_alt; lra|].
    change (bpow radix2 40) with (bpow radix2 (20 + 20)). rewrite bpow_plus. apply sqrt_square, bpow_ge_0. }
  apply Rabs_le_inv in Ew. split; [exact Fw|]. split; [|split].
  - replace (bpow radix2 21) with (2 * bpow radix2 20) by (change 21%Z with (1 + 20)%Z; rewrite bpow_plus; reflexivity). lra.
  - intros N. destruct (Rle_or_lt (B2R w) 0) as [Q | Q].
    { assert (fle w f0 = true) by (apply HpcpPitchProps.le_real; auto). congruence. }
    assert (Pm : 0 < B2R m). { destruct (proj1 Hm) as [P | P]; [exact P|]. rewrite <- P, sqrt_0 in Ew. lra. }
    assert (S2 : bpow radix2 (-75) <= sqrt (B2R m)).
    { replace (bpow radix2 (-75)) with (sqrt (bpow radix2 (-150))). 2:{ change (-150)%Z with (-75 + -75)%Z. rewrite bpow_plus. apply sqrt_square, bpow_ge_0. }
      apply sqrt_le_1_alt. apply Rle_trans with (bpow radix2 (-149)); [apply bpow_le; lia|]. now apply smallest. }
    assert (bpow radix2 (-80) <= / 2 * bpow radix2 (-75)). { change (/ 2) with (bpow radix2 (-1)). rewrite <- bpow_plus. apply bpow_le. lia. }
    lra.
  - intros M. assert (/ 1000 <= sqrt (B2R m)); [|lra]. replace (/ 1000) with (sqrt (/ 1000000)); [now apply sqrt_le_1_alt|].
    replace (/ 1000000) with (/ 1000 * / 1000) by lra. apply sqrt_square. lra.
Qed.

Lemma term_val : forall w c y, fin w -> fin c -> bpow radix2 (-80) <= B2R w <= bpow radix2 21 -> Rabs y <= 1 -> Rabs (B2R c - y) <= 349 / 1000000 ->
  within 23 (fmul w c) /\ Rabs (B2R (fmul w c) - B2R w * y) <= / 2500 * B2R w.
Proof.
  intros w c y Fw Fc Hw Hy Hc. destruct (fmul_fx w c Fw Fc) as (N & E). set (v := B2R w) in *. set (z := B2R c) in *.
  assert (V0 : 0 < v) by (pose proof (bpow_gt_0 radix2 (-80)); lra).
  assert (Z1 : Rabs z <= 1001 / 1000). { replace z with (z - y + y) by ring. eapply Rle_trans; [apply Rabs_triang|]. lra. }
  assert (B1 : Rabs (v * z) <= v * (1001 / 1000)) by (rewrite Rabs_mult, (Rabs_pos_eq v) by lra; apply Rmult_le_compat_l; lra).
  assert (B22 : bpow radix2 22 = 2 * bpow radix2 21) by (change 22%Z with (1 + 21)%Z; rewrite bpow_plus; reflexivity).
  assert (W : within 22 (fmul w c)) by (apply (within_of 22 _ (rnd (v * z))); auto; [lia|apply rnd_within; [lia|lra]]).
  assert (W' : within 23 (fmul w c)). { destruct W as (F & B). split; [exact F|]. eapply Rle_trans; [exact B|apply bpow_le; lia]. }
  split; [exact W'|]. destruct (fin_of_rnd_big _ _ N E) as (F & V). { change 1099511627776 with (bpow radix2 40). pose proof (bpow_le radix2 22 40 ltac:(lia)). lra. }
  rewrite V. pose proof (rnd_near (v * z)) as R. unfold u24 in R.
  assert (T : tiny <= v * / 1000000000). { unfold tiny. apply Rle_trans with (bpow radix2 (-80) * bpow radix2 (-30)); [rewrite <- bpow_plus; apply bpow_le; lia|].
    apply Rmult_le_compat; try apply bpow_ge_0; [lra|simpl; lra]. }
  assert (D : Rabs (v * z - v * y) <= v * (349 / 1000000)). { rewrite <- Rmult_minus_distr_l, Rabs_mult, (Rabs_pos_eq v) by lra. apply Rmult_le_compat_l; lra. }
  replace (rnd (v * z) - v * y) with ((rnd (v * z) - v * z) + (v * z - v * y)) by ring. eapply Rle_trans; [apply Rabs_triang|]. lra.
Qed.

(** ** The estimate from the bins used *)
Lemma fin_of_rnd_huge : forall x r, nn x -> fx x = sat (rnd r) -> Rabs r <= bpow radix2 120 -> fin x /\ B2R x = rnd r.
Proof.
  intros x r N E H. assert (W : within 120 x) by (apply (within_of 120 _ (rnd r)); auto; [lia|apply rnd_within; [lia|exact H]]).
  split; [apply (within_fin _ _ W)|]. rewrite fx_fin in E by apply (within_fin _ _ W). rewrite E. apply sat_id.
  pose proof (rnd_within 120 r ltac:(lia) H) as B. apply Rabs_le_inv in B.
  pose proof (bpow_lt radix2 120 128 ltac:(lia)) as Lt. change (bpow radix2 128) with big in Lt. lra.
Qed.

Lemma long_enough : forall S C T W A, within 48 S -> within 48 C -> fin T -> / 1100 <= W -> 0 < B2R T <= 101 / 100 * W -> 9 / 10 * W <= A ->
  A * A <= B2R S * B2R S + B2R C * B2R C ->
  flt (fdiv (fsqrt (fadd (fmul S S) (fmul C C))) T) (lit 13421773 (-28)) = false.
Proof.
  intros S C T W A (FS & HS) (FC & HC) FT HW HT HA HQ.
  destruct (fmul_fx S S FS FS) as (N1 & E1). destruct (fmul_fx C C FC FC) as (N2 & E2).
  set (s := B2R S) in *. set (c := B2R C) in *.
  assert (B96 : forall v, Rabs v <= bpow radix2 48 -> 0 <= v * v <= bpow radix2 96).
  { intros v Hv. split; [apply Rle_0_sqr|]. rewrite <- (Rabs_pos_eq (v * v)) by apply Rle_0_sqr. rewrite Rabs_mult. change (bpow radix2 96) with (bpow radix2 (48 + 48)). rewrite bpow_plus.
    apply Rmult_le_compat; auto; apply Rabs_pos. }
  pose proof (B96 s HS) as Bs. pose proof (B96 c HC) as Bc. clear B96.
  pose proof (bpow_le radix2 96 120 ltac:(lia)) as L1.
  destruct (fin_of_rnd_huge _ _ N1 E1 ltac:(rewrite Rabs_pos_eq; lra)) as (F1 & V1). destruct (fin_of_rnd_huge _ _ N2 E2 ltac:(rewrite Rabs_pos_eq; lra)) as (F2 & V2).
  pose proof (rnd_bounds (s * s) ltac:(lra)) as R1. pose proof (rnd_bounds (c * c) ltac:(lra)) as R2. rewrite <- V1 in R1. rewrite <- V2 in R2.
  pose proof (rnd_nonneg (s * s) ltac:(lra)) as Z1. pose proof (rnd_nonneg (c * c) ltac:(lra)) as Z2. rewrite <- V1 in Z1. rewrite <- V2 in Z2.
  destruct (fadd_fx _ _ F1 F2) as (N3 & E3). set (a := B2R (fmul S S)) in *. set (b := B2R (fmul C C)) in *.
  pose proof u_val as U. pose proof eta_small as Et. pose proof eta_pos as Ep. rewrite U in R1, R2.
  assert (B98 : bpow radix2 98 = 4 * bpow radix2 96) by (change 98%Z with (2 + 96)%Z; rewrite bpow_plus; reflexivity).
  assert (P96 : 1 <= bpow radix2 96) by (apply (bpow_le radix2 0); lia).
  assert (Hab : 0 <= a + b <= bpow radix2 98) by (split; lra). pose proof (bpow_le radix2 98 120 ltac:(lia)) as L2.
  destruct (fin_of_rnd_huge _ _ N3 E3 ltac:(rewrite Rabs_pos_eq; lra)) as (F3 & V3).
  pose proof (rnd_bounds (a + b) ltac:(lra)) as R3. rewrite <- V3, U in R3. pose proof (rnd_nonneg (a + b) ltac:(lra)) as Z3. rewrite <- V3 in Z3.
  set (q := fadd (fmul S S) (fmul C C)) in *. assert (Nq : nneg q) by (apply nneg_iff; [exact N3|]; rewrite fx_fin by exact F3; exact Z3).
  destruct (fsqrt_val q F3 Nq) as (F4 & V4).
  assert (W2 : 0 < W * W). { apply Rmult_lt_0_compat; lra. }
  assert (W3 : / 1210000 <= W * W). { replace (/ 1210000) with (/ 1100 * / 1100) by lra. apply Rmult_le_compat; lra. }
  assert (AA : 81 / 100 * (W * W) <= A * A). { replace (81 / 100 * (W * W)) with ((9 / 10 * W) * (9 / 10 * W)) by field. apply Rmult_le_compat; lra. }
  assert (Qv : 64 / 100 * (W * W) <= B2R q) by lra.
  assert (Sv : 8 / 10 * W <= sqrt (B2R q)). { rewrite <- (sqrt_square (8 / 10 * W)) by lra. apply sqrt_le_1_alt. lra. }
  assert (S5 : 7 / 10 * W <= B2R (fsqrt q)).
  { rewrite V4. pose proof (rnd_bounds (sqrt (B2R q)) ltac:(lra)) as R4. rewrite U in R4. lra. }
  destruct (fdiv_fx (fsqrt q) T F4 FT ltac:(lra)) as (N5 & E5).
  assert (Dv : / 2 <= B2R (fsqrt q) / B2R T).
  { apply Rmult_le_reg_r with (B2R T); [lra|]. replace (B2R (fsqrt q) / B2R T * B2R T) with (B2R (fsqrt q)) by (field; lra). lra. }
  assert (Lt : fle fhalf (fdiv (fsqrt q) T) = true).
  { assert (H2 : B2R fhalf = / 2) by (unfold fhalf; rewrite <- SF2R_B2SF; vm_compute; lra).
    apply fle_iff; [reflexivity|exact N5|]. rewrite (fx_fin fhalf), E5, H2 by reflexivity.
    assert (Q : rnd (/ 2) <= rnd (B2R (fsqrt q) / B2R T)) by now apply rnd_mono. rewrite <- H2, rnd_B2R, H2 in Q.
    unfold sat. pose proof big_pos. assert (1 <= big) by (apply (bpow_le radix2 0); lia). apply Rle_trans with (Rmin big (rnd (B2R (fsqrt q) / B2R T))); [apply Rmin_glb; lra|apply Rmax_r]. }
  destruct (flt (fdiv (fsqrt q) T) (lit 13421773 (-28))) eqn:X; [exfalso|reflexivity].
  pose proof (fle_flt_trans _ _ _ Lt X) as Y. vm_compute in Y. discriminate.
Qed.

Lemma recovered : forall L P (A : Type) (l : list A) (fr mg : A -> f32) (f : A -> R) delta eps,
  log2_accurate (m_log2 L) (/ 1048576) -> sin_accurate L (/ 1048576) -> cos_accurate L (/ 1048576) -> root_accurate L (/ 1024) -> atan2_accurate P (/ 1048576) ->
  0 <= eps <= / 16 -> Rabs delta + eps <= 49 / 100 -> (Z.of_nat (length l) <= 32768)%Z ->
  let w m := m_powf L (fmax m f0) fhalf in
  let semitone f := fadd (fmul (z2f 12) (m_log2 L (fdiv f (z2f 440)))) (z2f 57) in
  let angle f := fmul (fmul f2 f_pi) (fsub (semitone f) (fround (semitone f))) in
  (forall x, In x l -> fin (fr x) /\ 79 <= f x <= 5001 /\ Rabs (B2R (fr x) - f x) <= / 4900000 * f x /\
    fin (mg x) /\ 0 <= B2R (mg x) <= bpow radix2 40 /\ fle (w (mg x)) f0 = false /\
    exists p : Z, Rabs (pitch (f x) - IZR p - delta) <= eps) ->
  (exists x, In x l /\ / 1000000 <= B2R (mg x)) ->
  let sines := fold_left fadd (map (fun x => fmul (w (mg x)) (m_sin L (angle (fr x)))) l) f0 in
  let cosines := fold_left fadd (map (fun x => fmul (w (mg x)) (m_cos L (angle (fr x)))) l) f0 in
  let total := fold_left fadd (map (fun x => w (mg x)) l) f0 in
  let length_ := fdiv (fsqrt (fadd (fmul sines sines) (fmul cosines cosines))) total in
  fle total (lit 8796093 (-43)) || flt length_ (lit 13421773 (-28)) = false /\ fin (fdiv (p_atan2 P sines cosines) (fmul f2 f_pi)) /\
  Rabs (B2R (fdiv (p_atan2 P sines cosines) (fmul f2 f_pi)) - delta) <= eps + / 300.
Proof.
  intros L P A l fr mg f delta eps HL HS HC HR HA He Hd Hl w semitone angle H (x0 & Ix0 & Mx0) sines cosines total length_.
  set (D := 2 * PI * delta). set (a := 2 * PI * eps). pose proof PI_bounds as Pb.
  assert (Ha : 0 <= a <= 393 / 1000). { unfold a. split; [apply Rmult_le_pos; lra|]. apply Rle_trans with (2 * PI * / 16); [apply Rmult_le_compat_l; lra|lra]. }
  set (wr := fun x => B2R (w (mg x))). set (al := fun x => 2 * PI * pitch (f x)).
  assert (K : forall x, In x l -> 0 < wr x /\ within 23 (w (mg x)) /\
     (within 23 (fmul (w (mg x)) (m_sin L (angle (fr x)))) /\ Rabs (B2R (fmul (w (mg x)) (m_sin L (angle (fr x)))) - wr x * sin (al x)) <= / 2500 * wr x) /\
     (within 23 (fmul (w (mg x)) (m_cos L (angle (fr x)))) /\ Rabs (B2R (fmul (w (mg x)) (m_cos L (angle (fr x)))) - wr x * cos (al x)) <= / 2500 * wr x) /\
     Rabs (sin (al x - D)) <= sin a /\ cos a <= cos (al x - D)).
  { intros x Ix. destruct (H x Ix) as (G1 & G2 & G3 & G4 & G5 & G6 & p & G7).
    destruct (weight_val L (mg x) HR G4 G5) as (Fw & Bw & Lw & _). fold (w (mg x)) in Fw, Bw, Lw. specialize (Lw G6).
    destruct (angle_val L (fr x) (f x) HL G1 G2 G3) as (Fa & Ba & Sa & Ca). fold (semitone (fr x)) in Fa, Ba, Sa, Ca. fold (angle (fr x)) in Fa, Ba, Sa, Ca.
    fold (al x) in Sa, Ca. destruct (HS _ Fa Ba) as (Fs & Es). destruct (HC _ Fa Ba) as (Fc & Ec). destruct (trig_le1 (al x)) as (T1 & T2).
    split; [unfold wr; pose proof (bpow_gt_0 radix2 (-80)); lra|]. split; [|split; [|split]].
    - split; [exact Fw|]. rewrite Rabs_pos_eq by lra. eapply Rle_trans; [apply Bw|apply bpow_le; lia].
    - apply term_val; auto; [lra|]. apply Rabs_le_inv in Es. apply Rabs_le_inv in Sa. apply Rabs_le. split; lra.
    - apply term_val; auto; [lra|]. apply Rabs_le_inv in Ec. apply Rabs_le_inv in Ca. apply Rabs_le. split; lra.
    - set (th := 2 * PI * (pitch (f x) - IZR p - delta)).
      destruct (turns p (al x - D)) as (Q1 & Q2). replace (al x - D - 2 * PI * IZR p) with th in Q1, Q2 by (unfold th, al, D; ring). rewrite <- Q1, <- Q2.
      assert (Ht : Rabs th <= a). { unfold th, a. rewrite Rabs_mult, (Rabs_pos_eq (2 * PI)) by lra. apply Rmult_le_compat_l; lra. }
      split.
      + apply Rabs_le_inv in Ht. apply Rabs_le. rewrite <- sin_neg. split; apply sin_incr_1; lra.
      + assert (Ec' : cos th = cos (Rabs th)). { unfold Rabs. destruct (Rcase_abs th); [now rewrite cos_neg|reflexivity]. }
        rewrite Ec'. pose proof (Rabs_pos th). apply cos_decr_1; lra. }
  set (W := sum_over wr l).
  destruct (weighted_sum A (fun x => fmul (w (mg x)) (m_sin L (angle (fr x)))) wr (fun x => sin (al x)) l Hl) as (Ws & Es).
  { intros x Ix. destruct (K x Ix) as (K1 & K2 & (K3 & K4) & _). split; [exact K3|]. split; [lra|]. split; [apply trig_le1|exact K4]. }
  fold sines in Ws, Es. fold W in Es.
  destruct (weighted_sum A (fun x => fmul (w (mg x)) (m_cos L (angle (fr x)))) wr (fun x => cos (al x)) l Hl) as (Wc & Ec).
  { intros x Ix. destruct (K x Ix) as (K1 & K2 & _ & (K3 & K4) & _). split; [exact K3|]. split; [lra|]. split; [apply trig_le1|exact K4]. }
  fold cosines in Wc, Ec. fold W in Ec.
  destruct (weighted_sum A (fun x => w (mg x)) wr (fun _ => 1) l Hl) as (Wt & Et').
  { intros x Ix. destruct (K x Ix) as (K1 & K2 & _). split; [exact K2|]. split; [lra|]. split; [rewrite Rabs_R1; lra|].
    unfold wr in *. rewrite Rmult_1_r, Rminus_diag_eq, Rabs_R0 by reflexivity. lra. }
  fold total in Wt, Et'. rewrite (so_ext _ (fun x => wr x * 1) wr) in Et' by (intros; ring). fold W in Et'.
  assert (HW : / 1100 <= W).
  { destruct (H x0 Ix0) as (_ & _ & _ & G4 & G5 & _). destruct (weight_val L (mg x0) HR G4 G5) as (_ & _ & _ & Q). specialize (Q Mx0). fold (w (mg x0)) in Q. fold (wr x0) in Q.
    apply Rle_trans with (wr x0); [exact Q|]. apply so_member; [|exact Ix0]. intros z Iz. destruct (K z Iz). lra. }
  set (Sx := sum_over (fun x => wr x * sin (al x)) l) in *. set (Cx := sum_over (fun x => wr x * cos (al x)) l) in *.
  assert (RA : W * cos a <= Cx * cos D + Sx * sin D).
  { replace (Cx * cos D + Sx * sin D) with (sum_over (fun x => wr x * cos (al x - D)) l).
    - unfold W. rewrite Rmult_comm, <- so_scal. apply so_le. intros x Ix. destruct (K x Ix) as (K1 & _ & _ & _ & _ & K2). rewrite Rmult_comm. apply Rmult_le_compat_l; lra.
    - rewrite (so_ext _ _ (fun x => cos D * (wr x * cos (al x)) + sin D * (wr x * sin (al x)))) by (intros; rewrite cos_minus; ring). rewrite so_plus, !so_scal. fold Cx Sx. ring. }
  assert (RB : Rabs (Sx * cos D - Cx * sin D) <= W * sin a).
  { replace (Sx * cos D - Cx * sin D) with (sum_over (fun x => wr x * sin (al x - D)) l).
    - unfold W. rewrite Rmult_comm, <- so_scal. apply so_abs. intros x Ix. destruct (K x Ix) as (K1 & _ & _ & _ & K2 & _). rewrite Rabs_mult, Rmult_comm, (Rabs_pos_eq (wr x)) by lra. apply Rmult_le_compat_r; lra.
    - rewrite (so_ext _ _ (fun x => cos D * (wr x * sin (al x)) + (- sin D) * (wr x * cos (al x)))) by (intros; rewrite sin_minus; ring). rewrite so_plus, !so_scal. fold Cx Sx. ring. }
  clearbody Sx Cx W. clear K H. pose proof (within_fin _ _ Ws) as FS. pose proof (within_fin _ _ Wc) as FC. pose proof (within_fin _ _ Wt) as FT.
  set (s := B2R sines) in *. set (c := B2R cosines) in *. destruct (trig_le1 D) as (TD1 & TD2).
  assert (small : forall v z, Rabs v <= / 220 * W -> Rabs z <= 1 -> Rabs (v * z) <= / 220 * W).
  { intros v z Hv Hz. rewrite Rabs_mult. apply Rle_trans with (/ 220 * W * 1); [|lra]. apply Rmult_le_compat; auto; apply Rabs_pos. }
  pose proof (small _ _ Es TD1) as e1. pose proof (small _ _ Es TD2) as e2. pose proof (small _ _ Ec TD1) as e3. pose proof (small _ _ Ec TD2) as e4. clear small.
  apply Rabs_le_inv in e1. apply Rabs_le_inv in e2. apply Rabs_le_inv in e3. apply Rabs_le_inv in e4. apply Rabs_le_inv in RB.
  destruct (direction c s D a W Ha ltac:(lra)) as (G9 & r & phi & Hr & Hphi & Eph & Eph').
  { lra. }
  { apply Rabs_le. lra. }
  apply Rabs_le_inv in Et'. apply Rabs_le_inv in Hphi.
  assert (Dd : Rabs delta <= 49 / 100 - eps) by lra. apply Rabs_le_inv in Dd.
  assert (BD : - (2 * PI * (49 / 100)) <= D - a /\ D + a <= 2 * PI * (49 / 100)).
  { unfold D, a. split; [replace (2 * PI * delta - 2 * PI * eps) with (2 * PI * (delta - eps)) by ring; replace (- (2 * PI * (49 / 100))) with (2 * PI * - (49 / 100)) by ring|
      replace (2 * PI * delta + 2 * PI * eps) with (2 * PI * (delta + eps)) by ring]; apply Rmult_le_compat_l; lra. }
  destruct (HA sines cosines r phi FS FC Hr ltac:(lra) Eph Eph') as (Fq & Eq). apply Rabs_le_inv in Eq.
  split.
  - apply orb_false_iff. split.
    + destruct (fle total (lit 8796093 (-43))) eqn:X; [exfalso|reflexivity]. apply HpcpPitchProps.le_real in X; [|exact FT|reflexivity].
      assert (V : B2R (lit 8796093 (-43)) <= / 100000) by (rewrite <- SF2R_B2SF; vm_compute; lra). lra.
    + apply (long_enough sines cosines total W (c * cos D + s * sin D) Ws Wc FT HW ltac:(lra) G9).
      change (B2R sines) with s. change (B2R cosines) with c.
      replace (s * s + c * c) with ((c * cos D + s * sin D) * (c * cos D + s * sin D) + (s * cos D - c * sin D) * (s * cos D - c * sin D)).
      2:{ pose proof (sin2_cos2 D) as Q. unfold Rsqr in Q. replace (s * s + c * c) with ((s * s + c * c) * (sin D * sin D + cos D * cos D)) by (rewrite Q; ring). ring. }
      pose proof (Rle_0_sqr (s * cos D - c * sin D)) as Q. unfold Rsqr in Q. lra.
  - set (t := p_atan2 P sines cosines) in *. destruct two_pi_val as (F2p & V2p). destruct (fdiv_fx t _ Fq F2p ltac:(rewrite V2p; lra)) as (N & E). rewrite V2p in E.
    set (v := B2R t) in *. assert (Hv : Rabs (v / (13176795 / 2097152)) <= 1). { apply Rabs_le. split; lra. }
    destruct (fin_of_rnd_big _ _ N E ltac:(lra)) as (Fo & Vo). split; [exact Fo|]. rewrite Vo. pose proof (ChromaPitchFacts.rnd_abs _ 1 Hv ltac:(lra)) as R. apply Rabs_le_inv in R. apply Rabs_le_inv in Hv.
    set (z := v / (13176795 / 2097152)) in *. assert (Ez : v = 13176795 / 2097152 * z) by (unfold z; field).
    assert (Zp : Rabs ((13176795 / 2097152 - 2 * PI) * z) <= / 1000000).
    { rewrite Rabs_mult. apply Rle_trans with (/ 1000000 * 1); [|lra]. apply Rmult_le_compat; try apply Rabs_pos; [apply Rabs_le; lra|apply Rabs_le; lra]. }
    apply Rabs_le_inv in Zp. unfold D, a in Hphi.
    assert (G : Rabs (z - delta) <= eps + 17 / 6000).
    { assert (Q : Rabs (2 * PI * (z - delta)) <= 2 * PI * (eps + 17 / 6000)).
      { assert (2 * PI * (eps + 17 / 6000) >= 2 * PI * eps + 17 / 1000) by lra.
        replace (2 * PI * (z - delta)) with ((v - phi) + (phi - 2 * PI * delta) - (13176795 / 2097152 - 2 * PI) * z) by (rewrite Ez; ring).
        apply Rabs_le. split; lra. }
      rewrite Rabs_mult, (Rabs_pos_eq (2 * PI)) in Q by lra. apply Rmult_le_reg_l with (2 * PI); lra. }
    apply Rabs_le_inv in G. apply Rabs_le. split; lra.
Qed.

(** ** The whole function *)
Lemma nodup_pairs : forall (h : nat -> nat) (g : nat -> list nat) l, (forall i j, h i = h j -> i = j) -> NoDup l -> (forall i, NoDup (g i)) ->
  NoDup (flat_map (fun i => map (fun b => (h i, b)) (g i)) l).
Proof.
  intros h g l Hh Nl Ng. induction l as [|i l IH]; [constructor|]. inversion Nl as [|? ? Ni Nl']; subst. specialize (IH Nl'). cbn [flat_map].
  assert (D : forall b, ~ In (h i, b) (flat_map (fun i => map (fun b => (h i, b)) (g i)) l)).
  { intros b I. apply in_flat_map in I. destruct I as (j & Ij & I). apply in_map_iff in I. destruct I as (b' & E & _). injection E as E _. apply Hh in E. subst j. contradiction. }
  specialize (Ng i). induction (g i) as [|b r IHr]; [exact IH|]. inversion Ng as [|? ? Nb Ng']; subst. cbn [map app]. constructor; [|now apply IHr].
  intros I. apply in_app_iff in I. destruct I as [I | I]; [|now apply (D b)]. apply in_map_iff in I. destruct I as (b' & E & I). injection E as E. subst b'. contradiction.
Qed.

(** extractor.rs:66-170 as lib.rs:1098-1106 calls it.  If every strong bin of the frames looked at is within [eps] of
    [delta] semitones above some note, the estimate is [delta] to within [eps] + 1/300.  A bin is strong if it lies in the
    band, is not silent, and reaches the part [thr] of every magnitude in the band of its frame; bins on the very edge of
    the band or of the threshold are counted as strong, so the hypothesis covers all bins the code may use. *)
Theorem C93_detuning : forall L P spec n rate fft step thr delta eps,
  log2_accurate (m_log2 L) (/ 1048576) -> sin_accurate L (/ 1048576) -> cos_accurate L (/ 1048576) -> root_accurate L (/ 1024) -> atan2_accurate P (/ 1048576) ->
  spec <> [] -> (0 < n <= fft)%nat -> Forall (fun fr => length fr = n /\ Forall (fun x => fin x /\ 0 <= B2R x <= bpow radix2 40) fr) spec ->
  (4200 <= Z.of_nat rate <= 200000)%Z -> (1 <= Z.of_nat fft <= 65536)%Z -> fin thr -> 0 <= B2R thr <= 1 ->
  0 <= eps <= / 16 -> Rabs delta + eps <= 49 / 100 ->
  let freq b := INR b * (INR rate / INR fft) in
  let m i b := B2R (nth b (nth i spec []) f0) in
  let looked_at i := (i < length spec)%nat /\ (i mod Nat.max step 1 = 0)%nat in
  let strong i b := looked_at i /\ (b < n)%nat /\ 79999 / 1000 <= freq b <= 2000001 / 1000 /\ 0 < m i b /\
    forall b', (b' < n)%nat -> 80001 / 1000 <= freq b' <= 1999999 / 1000 -> B2R thr * m i b' <= m i b * (1 + / 1000000) + bpow radix2 (-130) in
  (forall i b, strong i b -> exists note : Z, Rabs (12 * (ln (freq b / 440) / ln 2) + 57 - IZR note - delta) <= eps) ->
  (forall l, NoDup l -> (forall q, In q l -> strong (fst q) (snd q)) -> (Z.of_nat (length l) <= 32768)%Z) ->
  (exists i b, looked_at i /\ (b < n)%nat /\ 80001 / 1000 <= freq b <= 1999999 / 1000 /\ / 1000000 <= m i b) ->
  exists d, estimate_tuning L P spec rate fft (z2f 80) (z2f 2000) step thr = Ok d /\ fin d /\ Rabs (B2R d - delta) <= eps + / 300.
Proof.
  intros L P spec n rate fft step thr delta eps HL HS HC HR HA Ne Hn Sp Hr Hf Ft Ht He Hd freq m looked strong Hnote Hcount (i0 & b0 & (I0 & I0') & B0 & F0 & M0).
  assert (Hr' : (1000 <= Z.of_nat rate <= 200000)%Z) by lia. destruct (nyq_val rate Hr') as (Fn & Vn).
  assert (Br : 4200 <= INR rate <= 200000) by (rewrite INR_IZR_INZ; split; apply IZR_le; lia).
  destruct (z2f_exact 80 ltac:(lia)) as (F80 & V80). destruct (z2f_exact 20 ltac:(lia)) as (F20 & V20). destruct (z2f_exact 2000 ltac:(lia)) as (F2k & V2k).
  set (ff := fun k => fmul (n2f k) (fdiv (n2f rate) (n2f fft))).
  assert (FV : forall b, (b < n)%nat -> fin (ff b) /\ Rabs (B2R (ff b) - freq b) <= / 7000000 * freq b) by (intros b Hb; apply (freq_val b rate fft ltac:(lia) Hr' Hf)).
  pose proof (C64_content L P spec n rate fft (z2f 80) (z2f 2000) step thr Ne ltac:(lia) ltac:(lia)) as E.
  specialize (E ltac:(eapply Forall_impl; [|exact Sp]; cbv beta; intros fr (Q1 & Q2); split; [exact Q1|]; eapply Forall_impl; [|exact Q2]; cbv beta; tauto)
    ltac:(lia) ltac:(lia) ltac:(lia) ltac:(lia) (fin_nn _ F2k) (fin_nn _ Ft)).
  cbv zeta in E. change (fun k : nat => fmul (n2f k) (fdiv (n2f rate) (n2f fft))) with ff in E.
  destruct (fmax_B2R (z2f 80) (z2f 20) F80 F20) as (Flo & Vlo). rewrite V80, V20, Rmax_left in Vlo by lra. set (lo := fmax (z2f 80) (z2f 20)) in *.
  assert (F1v : fin (fadd lo f1) /\ B2R (fadd lo f1) = 81).
  { destruct (fadd_fx lo f1 Flo eq_refl) as (N & X). rewrite Vlo, B2R_f1 in X. destruct (fin_of_rnd_big _ _ N X ltac:(rewrite Rabs_pos_eq; lra)) as (Fx & Vx). split; [exact Fx|].
    rewrite Vx. destruct (z2f_exact 81 ltac:(lia)) as (_ & V81). replace (80 + 1) with (B2R (z2f 81)) by (rewrite V81; lra). rewrite rnd_B2R. exact V81. }
  destruct F1v as (Fl1 & Vl1).
  assert (Enq : fle (fadd lo f1) (fdiv (n2f rate) f2) = true) by (apply HpcpPitchProps.le_real; auto; rewrite Vl1, Vn; lra).
  specialize (E Enq).
  assert (Hi1 : flt (z2f 2000) (fadd lo f1) = false).
  { destruct (flt (z2f 2000) (fadd lo f1)) eqn:X; [|reflexivity]. apply HpcpPitchProps.lt_real in X; auto. rewrite V2k, Vl1 in X. lra. }
  assert (Hi2 : flt (fdiv (n2f rate) f2) (z2f 2000) = false).
  { destruct (flt (fdiv (n2f rate) f2) (z2f 2000)) eqn:X; [|reflexivity]. apply HpcpPitchProps.lt_real in X; auto. rewrite V2k, Vn in X. lra. }
  rewrite Hi1, Hi2 in E.
  assert (Ht1 : flt thr f0 = false).
  { destruct (flt thr f0) eqn:X; [|reflexivity]. apply HpcpPitchProps.lt_real in X; auto. change (B2R f0) with 0 in X. lra. }
  assert (Ht2 : flt f1 thr = false).
  { destruct (flt f1 thr) eqn:X; [|reflexivity]. apply HpcpPitchProps.lt_real in X; auto. rewrite B2R_f1 in X. lra. }
  rewrite Ht1, Ht2 in E.
  set (band := fun b => fle lo (ff b) && fle (ff b) (z2f 2000)) in *.
  set (largest := fun fr => fold_left fmax (map (fun b => nth b fr f0) (filter band (seq 0 n))) f0) in *.
  set (w := fun m => m_powf L (fmax m f0) fhalf) in *.
  set (s := Nat.max step 1) in *. assert (Ps : (1 <= s)%nat) by (unfold s; lia).
  set (sel := fun fr b => band b && fle (fmul (largest fr) thr) (nth b fr f0) && negb (fle (w (nth b fr f0)) f0)).
  set (bins := fun i => let fr := nth (i * s) spec [] in if fle (largest fr) (lit 2305843 (-61)) then [] else filter (sel fr) (seq 0 n)).
  set (idx := seq 0 ((length spec + s - 1) / s)) in *.
  set (Q := flat_map (fun i => map (fun b => ((i * s)%nat, b)) (bins i)) idx).
  set (pr := fun q : nat * nat => (ff (snd q), nth (snd q) (nth (fst q) spec []) f0)).
  match type of E with context [flat_map ?g idx] => set (all := flat_map g idx) in E end.
  assert (Eall : all = map pr Q).
  { unfold all, Q. clear. induction idx as [|i l IH]; [reflexivity|]. cbn [flat_map]. rewrite map_app, <- IH. f_equal.
    rewrite map_map. unfold pr, bins. cbn [fst snd]. cbv zeta. fold (largest (nth (i * s) spec [])).
    destruct (fle (largest (nth (i * s) spec [])) _); reflexivity. }
  rewrite Eall, !map_map in E. cbv beta in E. unfold pr in E. cbn [fst snd] in E.
  (* what the members are *)
  assert (Frame : forall i b, (i < length spec)%nat -> (b < n)%nat -> fin (nth b (nth i spec []) f0) /\ 0 <= m i b <= bpow radix2 40).
  { intros i b Hi Hb. rewrite Forall_forall in Sp. destruct (Sp (nth i spec []) ltac:(now apply nth_In)) as (Ln & Fr). rewrite Forall_forall in Fr. apply Fr, nth_In. lia. }
  assert (Bd : forall b, (b < n)%nat -> (80001 / 1000 <= freq b <= 1999999 / 1000 -> band b = true) /\ (band b = true -> 79999 / 1000 <= freq b <= 2000001 / 1000)).
  { intros b Hb. destruct (FV b Hb) as (Fb & Eb). apply Rabs_le_inv in Eb. assert (Fr0 : 0 <= freq b).
    { unfold freq. apply Rmult_le_pos; [apply pos_INR|]. apply Rmult_le_pos; [lra|]. left. apply Rinv_0_lt_compat. apply (lt_INR 0). lia. }
    unfold band. split.
    - intros X. apply andb_true_iff. split; apply HpcpPitchProps.le_real; auto; rewrite ?Vlo, ?V2k; lra.
    - intros X. apply andb_true_iff in X. destruct X as (X1 & X2). apply HpcpPitchProps.le_real in X1; auto. apply HpcpPitchProps.le_real in X2; auto. rewrite Vlo in X1. rewrite V2k in X2. split; lra. }
  assert (Lg : forall i, (i < length spec)%nat -> let fr := nth i spec [] in fin (largest fr) /\ 0 <= B2R (largest fr) /\
     (forall b, (b < n)%nat -> band b = true -> m i b <= B2R (largest fr)) /\
     (B2R (largest fr) = 0 \/ exists b, (b < n)%nat /\ band b = true /\ largest fr = nth b fr f0)).
  { intros i Hi fr. destruct (PeakPickingProofs.fold_fmax_spec (map (fun b => nth b fr f0) (filter band (seq 0 n))) f0 eq_refl) as (N1 & N2 & N3 & N4).
    fold (largest fr) in N1, N2, N3, N4.
    assert (X : largest fr = f0 \/ exists b, (b < n)%nat /\ band b = true /\ largest fr = nth b fr f0).
    { destruct N3 as [N3 | N3]; [now left|right]. apply in_map_iff in N3. destruct N3 as (b & Eb & Ib). apply filter_In in Ib. destruct Ib as (Ib & Bb). apply in_seq in Ib.
      exists b. split; [lia|]. split; [exact Bb|now symmetry]. }
    assert (Fl : fin (largest fr)). { destruct X as [X | (b & Hb & _ & X)]; rewrite X; [reflexivity|]. now apply (Frame i b Hi Hb). }
    split; [exact Fl|]. split; [apply HpcpPitchProps.le_real in N2; [exact N2|reflexivity|exact Fl]|]. split.
    - intros b Hb Bb. destruct (Frame i b Hi Hb) as (Fb & _). assert (Y : fle (nth b fr f0) (largest fr) = true).
      { apply N4; [|now apply fin_nn]. apply in_map_iff. exists b. split; [reflexivity|]. apply filter_In. split; [apply in_seq; lia|exact Bb]. }
      now apply HpcpPitchProps.le_real in Y.
    - destruct X as [X | X]; [left; rewrite X; reflexivity|now right]. }
  assert (Th : forall i, (i < length spec)%nat -> let l := B2R (largest (nth i spec [])) in
     fin (fmul (largest (nth i spec [])) thr) /\ B2R (fmul (largest (nth i spec [])) thr) = rnd (l * B2R thr) /\ 0 <= l * B2R thr <= l).
  { intros i Hi l. destruct (Lg i Hi) as (Fl & L0 & _ & X). fold l in L0, X. destruct (fmul_fx _ thr Fl Ft) as (N & Z). fold l in Z.
    assert (Bl : l <= bpow radix2 40). { destruct X as [X | (b & Hb & _ & X)]; [rewrite X; apply bpow_ge_0|]. unfold l. rewrite X. now apply (Frame i b Hi Hb). }
    assert (P1 : 0 <= l * B2R thr <= l). { split; [apply Rmult_le_pos; lra|]. rewrite <- (Rmult_1_r l) at 2. apply Rmult_le_compat_l; lra. }
    destruct (fin_of_rnd_huge _ _ N Z) as (G1 & G2). { rewrite Rabs_pos_eq by lra. pose proof (bpow_le radix2 40 120 ltac:(lia)). lra. }
    repeat split; auto; lra. }
  assert (Mem : forall q, In q Q -> strong (fst q) (snd q) /\ fle (w (nth (snd q) (nth (fst q) spec []) f0)) f0 = false).
  { intros q Iq. apply in_flat_map in Iq. destruct Iq as (i & Ii & Iq). apply in_map_iff in Iq. destruct Iq as (b & <- & Ib). cbn [fst snd].
    apply in_seq in Ii. assert (Hi : (i * s < length spec)%nat). { pose proof (Nat.mul_div_le (length spec + s - 1) s ltac:(lia)). nia. }
    unfold bins in Ib. cbv zeta in Ib. destruct (fle (largest (nth (i * s) spec [])) (lit 2305843 (-61))); [easy|].
    apply filter_In in Ib. destruct Ib as (Ib & Sb). apply in_seq in Ib. unfold sel in Sb. apply andb_true_iff in Sb. destruct Sb as (Sb & Wb). apply andb_true_iff in Sb. destruct Sb as (Bb & Tb).
    apply negb_true_iff in Wb. assert (Hb : (b < n)%nat) by lia. split; [|exact Wb]. destruct (Frame _ b Hi Hb) as (Fb & Mb).
    split; [split; [exact Hi|apply Nat.mod_mul; lia]|]. split; [exact Hb|]. split; [now apply Bd|]. split.
    - destruct (proj1 Mb) as [X | X]; [exact X|exfalso]. destruct (fmax0_val _ Fb) as (Fx & Vx). fold (m (i * s)%nat b) in Vx. rewrite Rmax_left in Vx by lra.
      destruct (HR _ Fx ltac:(rewrite Vx; exact Mb)) as (Fw & Ew). rewrite Vx, <- X, sqrt_0, Rmult_0_r, Rminus_0_r in Ew. apply Rabs_le_inv in Ew.
      assert (fle (w (nth b (nth (i * s) spec []) f0)) f0 = true); [|congruence]. apply HpcpPitchProps.le_real; [exact Fw|reflexivity|]. change (B2R f0) with 0. unfold w. lra.
    - intros b' Hb' Fb'. destruct (Lg _ Hi) as (Fl & L0 & Lb & _). destruct (Th _ Hi) as (Fp & Vp & Pp). apply HpcpPitchProps.le_real in Tb; auto. rewrite Vp in Tb.
      specialize (Lb b' Hb' (proj1 (Bd b' Hb') Fb')). set (l := B2R (largest (nth (i * s) spec []))) in *. fold (m (i * s)%nat b) in Tb.
      assert (B2R thr * m (i * s)%nat b' <= l * B2R thr) by (rewrite Rmult_comm; apply Rmult_le_compat_r; lra).
      pose proof (rnd_bounds (l * B2R thr) ltac:(lra)) as R. rewrite u_val in R. set (x := l * B2R thr) in *.
      assert (E130 : eta <= / 4 * bpow radix2 (-130)). { unfold eta. change (/ 4) with (bpow radix2 (-2)). rewrite <- bpow_plus. apply bpow_le. lia. }
      pose proof eta_pos. set (mb := m (i * s)%nat b) in *. lra. }
  assert (NQ : NoDup Q).
  { apply (nodup_pairs (fun i => (i * s)%nat) bins idx); [intros i j X; nia|apply seq_NoDup|]. intros i. unfold bins. cbv zeta.
    destruct (fle (largest (nth (i * s) spec [])) _); [constructor|apply NoDup_filter, seq_NoDup]. }
  destruct (recovered L P (nat * nat) Q (fun q => ff (snd q)) (fun q => nth (snd q) (nth (fst q) spec []) f0) (fun q => freq (snd q)) delta eps HL HS HC HR HA He Hd) as (G1 & G2).
  - apply Hcount; [exact NQ|]. intros q Iq. now apply Mem.
  - intros q Iq. destruct (Mem q Iq) as (Sq & Wq). pose proof (Hnote _ _ Sq) as Nq. destruct Sq as ((Hi & _) & Hb & Fq & _). destruct (FV _ Hb) as (Fb & Eb).
    split; [exact Fb|]. split; [lra|]. split; [eapply Rle_trans; [exact Eb|apply Rmult_le_compat_r; lra]|]. destruct (Frame _ _ Hi Hb) as (G & G').
    split; [exact G|]. split; [exact G'|]. split; [exact Wq|exact Nq].
  - (* the loudest bin of the frame that has a loud one *)
    destruct (Lg i0 I0) as (Fl & L0 & Lb & X). pose proof (Lb b0 B0 (proj1 (Bd b0 B0) F0)) as L1. destruct X as [X | (b & Hb & Bb & X)]; [lra|].
    destruct (Th i0 I0) as (Fp & Vp & Pp). destruct (Frame i0 b I0 Hb) as (Fb & Mb).
    exists (i0, b). cbn [fst snd]. split; [|rewrite <- X; lra].
    assert (Ei : i0 = (i0 / s * s)%nat). { pose proof (Nat.div_mod i0 s ltac:(lia)). lia. }
    apply in_flat_map. exists (i0 / s)%nat. split.
    + apply in_seq. split; [lia|]. apply Nat.div_lt_upper_bound; [lia|]. pose proof (Nat.div_mod (length spec + s - 1) s ltac:(lia)). pose proof (Nat.mod_upper_bound (length spec + s - 1) s ltac:(lia)).
      cbn [Nat.add]. lia.
    + apply in_map_iff. exists b. split; [now rewrite <- Ei|]. unfold bins. cbv zeta. rewrite <- Ei.
      destruct (fle (largest (nth i0 spec [])) (lit 2305843 (-61))) eqn:Y.
      { exfalso. apply HpcpPitchProps.le_real in Y; [|exact Fl|reflexivity]. assert (V : B2R (lit 2305843 (-61)) <= / 100000000) by (rewrite <- SF2R_B2SF; vm_compute; lra). lra. }
      apply filter_In. split; [apply in_seq; lia|]. unfold sel. rewrite Bb. cbn [andb]. apply andb_true_iff. split.
      * apply HpcpPitchProps.le_real; auto. rewrite Vp, <- X. rewrite <- (rnd_B2R (largest (nth i0 spec []))) at 2. apply rnd_mono. lra.
      * apply negb_true_iff. destruct (weight_val L _ HR Fb Mb) as (Fw & _ & _ & Ww). rewrite <- X in Ww. specialize (Ww ltac:(lra)). rewrite X in Ww. fold (w (nth b (nth i0 spec []) f0)) in Fw, Ww.
        destruct (fle (w (nth b (nth i0 spec []) f0)) f0) eqn:Z; [exfalso|reflexivity]. apply HpcpPitchProps.le_real in Z; [|exact Fw|reflexivity]. change (B2R f0) with 0 in Z. lra.
  - eexists. split; [exact E|]. fold w in G1, G2. rewrite G1. exact G2.
Qed.
Print Assumptions C93_detuning.

(** The hypotheses on the platform hold of correctly rounded functions. *)
Definition turn_of (y x : R) : R := 2 * atan (y / (sqrt (x * x + y * y) + x)).
Lemma turn_of_polar : forall r phi, 0 < r -> - PI < phi < PI -> turn_of (r * sin phi) (r * cos phi) = phi.
Proof.
  intros r phi Hr Hp. unfold turn_of. set (h := phi / 2). assert (Ep : phi = 2 * h) by (unfold h; field).
  assert (Sq : sqrt (r * cos phi * (r * cos phi) + r * sin phi * (r * sin phi)) = r).
  { replace (r * cos phi * (r * cos phi) + r * sin phi * (r * sin phi)) with (r * r * (sin phi * sin phi + cos phi * cos phi)) by ring.
    pose proof (sin2_cos2 phi) as Q. unfold Rsqr in Q. rewrite Q, Rmult_1_r. apply sqrt_square. lra. }
  rewrite Sq. assert (C : 0 < cos h) by (apply cos_gt_0; unfold h; lra).
  replace (r * sin phi / (r + r * cos phi)) with (tan h).
  - rewrite atan_tan by (unfold h; lra). now rewrite Ep.
  - rewrite Ep, sin_2a, cos_2a_cos. unfold tan. field. split; [|lra]. replace (r + r * (2 * cos h * cos h - 1)) with (2 * r * (cos h * cos h)) by ring.
    assert (0 < r * (cos h * cos h)) by (repeat apply Rmult_lt_0_compat; lra). lra.
Qed.
Definition tuned_libm : libm :=
  {| m_powf := fun x _ => ExactPlatform.nearest_f32 (sqrt (B2R x)); m_log10 := fun _ => f0; m_log2 := fun x => ExactPlatform.nearest_f32 (ln (B2R x) / ln 2);
     m_ln := fun _ => f0; m_exp := fun _ => f0; m_sin := fun x => ExactPlatform.nearest_f32 (sin (B2R x)); m_cos := fun x => ExactPlatform.nearest_f32 (cos (B2R x)) |}.
Definition tuned_platform : key_platform :=
  {| p_atan2 := fun y x => ExactPlatform.nearest_f32 (turn_of (B2R y) (B2R x)); p_powi := fun _ _ => f1; p_select := fun l k => firstn k l |}.
Lemma C93_platform : log2_accurate (m_log2 tuned_libm) (/ 1048576) /\ sin_accurate tuned_libm (/ 1048576) /\ cos_accurate tuned_libm (/ 1048576) /\
  root_accurate tuned_libm (/ 1024) /\ atan2_accurate tuned_platform (/ 1048576).
Proof.
  assert (T : tiny <= / 100000000) by (eapply Rle_trans; [apply (bpow_le radix2 _ (-30)); lia|]; simpl; lra).
  assert (Near : forall v, Rabs v <= 4 -> fin (ExactPlatform.nearest_f32 v) /\ Rabs (B2R (ExactPlatform.nearest_f32 v) - v) <= / 1048576).
  { intros v Hv. destruct (ExactPlatform.nearest_f32_near v) as (F & E).
    - apply Rle_trans with (bpow radix2 2); [simpl; lra|apply bpow_le; lia].
    - split; [exact F|]. unfold u24 in E. lra. }
  split; [|split; [|split; [|split]]].
  - intros x Fx Hx. cbn [tuned_libm m_log2]. apply Near. pose proof (lg_range _ Hx). unfold lg in *. apply Rabs_le. lra.
  - intros x _ _. cbn [tuned_libm m_sin]. apply Near. pose proof (proj2 (trig_le1 (B2R x))). lra.
  - intros x _ _. cbn [tuned_libm m_cos]. apply Near. pose proof (proj1 (trig_le1 (B2R x))). lra.
  - intros x Fx Hx. cbn [tuned_libm m_powf]. pose proof (sqrt_pos (B2R x)) as S0.
    assert (S1 : sqrt (B2R x) <= bpow radix2 20).
    { replace (bpow radix2 20) with (sqrt (bpow radix2 40)); [apply sqrt_le_1_alt; lra|]. change (bpow radix2 40) with (bpow radix2 (20 + 20)). rewrite bpow_plus. apply sqrt_square, bpow_ge_0. }
    destruct (ExactPlatform.nearest_f32_near (sqrt (B2R x))) as (F & E). { rewrite Rabs_pos_eq by lra. eapply Rle_trans; [exact S1|apply bpow_le; lia]. }
    split; [exact F|]. destruct (proj1 Hx) as [P | P].
    + assert (S2 : bpow radix2 (-75) <= sqrt (B2R x)).
      { replace (bpow radix2 (-75)) with (sqrt (bpow radix2 (-150))). 2:{ change (-150)%Z with (-75 + -75)%Z. rewrite bpow_plus. apply sqrt_square, bpow_ge_0. }
        apply sqrt_le_1_alt. apply Rle_trans with (bpow radix2 (-149)); [apply bpow_le; lia|]. now apply smallest. }
      assert (T2 : tiny <= / 2048 * sqrt (B2R x)). { apply Rle_trans with (bpow radix2 (-11) * bpow radix2 (-75)); [rewrite <- bpow_plus; apply bpow_le; lia|]. apply Rmult_le_compat; try apply bpow_ge_0; [simpl; lra|exact S2]. }
      rewrite (Rabs_pos_eq (sqrt (B2R x))) in E by lra. unfold u24 in E. lra.
    + rewrite <- P, sqrt_0, Rmult_0_r, Rminus_0_r. destruct (ExactPlatform.nearest_f32_fx 0) as (_ & X).
      assert (F0' : fin (ExactPlatform.nearest_f32 0)) by (rewrite <- P, sqrt_0 in F; exact F). rewrite fx_fin in X by exact F0'. rewrite X, rnd_0, sat_id by (pose proof big_pos; lra). rewrite Rabs_R0. lra.
  - intros y x r phi _ _ Hr Hp Ey Ex. cbn [tuned_platform p_atan2]. rewrite Ey, Ex, turn_of_polar by assumption. apply Near. pose proof PI_bounds. apply Rabs_le. lra.
Qed.

(** Two equally loud partials at 450 and 900 Hz: the estimate is the distance of 450 Hz from the A at 440 Hz, about 0.389 semitones. *)
Example C93_case : forall L P rate step, Z.of_nat rate = 4500%Z ->
  log2_accurate (m_log2 L) (/ 1048576) -> sin_accurate L (/ 1048576) -> cos_accurate L (/ 1048576) -> root_accurate L (/ 1024) -> atan2_accurate P (/ 1048576) ->
  exists d, estimate_tuning L P [[f0; f1; f1]] rate 10 (z2f 80) (z2f 2000) step fhalf = Ok d /\
    Rabs (B2R d - 12 * (ln (450 / 440) / ln 2)) <= / 300 /\ 26 / 100 <= B2R d <= 40 / 100.
Proof.
  intros L P rate step Er HL HS HC HR HA. set (delta := 12 * (ln (450 / 440) / ln 2)).
  assert (V1 : B2R f1 = 1) by apply B2R_f1. assert (V0 : B2R f0 = 0) by reflexivity.
  assert (IR : INR rate = 4500) by (rewrite INR_IZR_INZ, Er; reflexivity).
  assert (I10 : INR 10 = 10) by (simpl; lra). assert (Vh : B2R fhalf = / 2) by (unfold fhalf; rewrite <- SF2R_B2SF; vm_compute; lra).
  pose proof ln2_ge as L2. assert (L2' : ln 2 <= 1). { rewrite <- (ln_exp 1). left. apply ln_increasing; [lra|]. pose proof (exp_ineq1 1 ltac:(lra)). lra. }
  assert (Dl : 12 / 45 <= delta <= 396 / 1000).
  { pose proof (NoveltyStrengthFacts.ln_le_sub1 (450 / 440) ltac:(lra)) as A1. pose proof (NoveltyStrengthFacts.ln_le_sub1 (440 / 450) ltac:(lra)) as A2.
    replace (440 / 450) with (/ (450 / 440)) in A2 at 1 by field. rewrite ln_Rinv in A2 by lra. unfold delta. set (x := ln (450 / 440)) in *. clearbody x.
    assert (E : x = x / ln 2 * ln 2) by (field; lra). set (y := x / ln 2) in *. clearbody y. split.
    - assert (0 <= y). { apply Rmult_le_reg_r with (ln 2); lra. } assert (y * ln 2 <= y * 1) by (apply Rmult_le_compat_l; lra). lra.
    - apply Rmult_le_reg_r with (ln 2); [lra|]. lra. }
  destruct (C93_detuning L P [[f0; f1; f1]] 3 rate 10 step fhalf delta 0 HL HS HC HR HA) as (d & E & _ & B).
  - discriminate.
  - lia.
  - apply Forall_cons; [|apply Forall_nil]. split; [reflexivity|].
    assert (1 <= bpow radix2 40) by (apply (bpow_le radix2 0); lia).
    apply Forall_cons; [|apply Forall_cons; [|apply Forall_cons; [|apply Forall_nil]]]; rewrite ?V0, ?V1; (split; [reflexivity|lra]).
  - lia.
  - lia.
  - reflexivity.
  - rewrite Vh. lra.
  - lra.
  - rewrite Rabs_pos_eq; lra.
  - intros i b (_ & Hb & Fb & _). rewrite IR, I10 in *. destruct b as [|[|[|b]]]; [| | |lia].
    + change (INR 0) with 0 in Fb. lra.
    + exists 57%Z. change (INR 1) with 1. replace (1 * (4500 / 10) / 440) with (450 / 440) by field. fold delta. rewrite Rabs_pos_eq; lra.
    + exists 69%Z. change (INR 2) with 2. replace (2 * (4500 / 10) / 440) with (2 * (450 / 440)) by field. rewrite ln_mult by lra.
      replace (12 * ((ln 2 + ln (450 / 440)) / ln 2) + 57 - 69 - delta) with 0; [rewrite Rabs_R0; lra|]. unfold delta. field. lra.
  - intros l Nl Hl. assert (length l <= length [(0, 0); (0, 1); (0, 2)]%nat)%nat; [|cbn [length] in *; lia].
    apply NoDup_incl_length; [exact Nl|]. intros (i, b) I. destruct (Hl _ I) as ((Hi & _) & Hb & _). cbn [fst snd length] in *.
    assert (i = 0)%nat as -> by lia. destruct b as [|[|[|b]]]; [now left|right; now left|right; right; now left|lia].
  - exists 0%nat, 1%nat. rewrite IR, I10. split; [split; [cbn [length]; lia|apply Nat.mod_0_l; lia]|]. split; [lia|]. change (INR 1) with 1. cbn [nth]. rewrite V1. lra.
  - exists d. split; [exact E|]. apply Rabs_le_inv in B as B'. split; [|lra]. rewrite Rplus_0_l in B. exact B.
Qed.
