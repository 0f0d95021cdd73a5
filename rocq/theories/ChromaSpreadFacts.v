(** The Gaussian spreading of the chroma mapping over the reals. *)
From Coq Require Import ZArith Reals Lra Lia List.
From Flocq Require Import Core IEEE754.BinarySingleNaN.
From Verif Require Import Rust F32 F32Facts F32More ListFacts Bounds FloatSums Libm Chroma ChromaProofs
  FourierFacts TempoSpectrumFacts AutocorrelationValueProofs OnsetStrengthFacts ChromaPitchFacts.
From Verif Require BayesianLikelihoodProps TempoLagProps.
Local Open Scope R_scope.

(** ** The remainder is exact *)
Lemma frem_val : forall x y, fin x -> fin y -> 0 <= B2R x -> 0 < B2R y ->
  fin (frem x y) /\ 0 <= B2R (frem x y) < B2R y /\ exists i, B2R x = B2R (frem x y) + B2R y * IZR i.
Proof.
  intros x y Fx Fy Px Py. destruct y as [s|s| |sy my ey By]; try discriminate. { cbn in Py. lra. }
  assert (sy = false) as ->.
  { destruct sy; [|reflexivity]. exfalso. cbn [B2R cond_Zopp] in Py. pose proof (F2R_lt_0 radix2 (Float radix2 (Z.neg my) ey) ltac:(reflexivity)) as Q. change (- Z.pos my)%Z with (Z.neg my) in Py. lra. }
  destruct x as [s|s| |sx mx ex Bx]; try discriminate.
  { cbn [frem B2R] in *. split; [reflexivity|]. split; [lra|]. exists 0%Z. lra. }
  assert (sx = false) as ->.
  { destruct sx; [|reflexivity]. exfalso. cbn [B2R cond_Zopp] in Px. pose proof (F2R_lt_0 radix2 (Float radix2 (Z.neg mx) ex) ltac:(reflexivity)) as Q. change (- Z.pos mx)%Z with (Z.neg mx) in Px. lra. }
  assert (Bd : forall m e, SpecFloat.bounded 24 128 m e = true -> (Z.pos m < 16777216)%Z /\ (-149 <= e)%Z).
  { intros m e B. split.
    - unfold SpecFloat.bounded in B. apply andb_true_iff in B. destruct B as (B & _).
      unfold SpecFloat.canonical_mantissa in B. apply Zeq_bool_eq in B. unfold fexp32, SpecFloat.fexp, SpecFloat.emin in B.
      rewrite Digits.Zpos_digits2_pos in B. pose proof (Digits.Zpower_gt_Zdigits radix2 24 (Z.pos m)) as G.
      change (Zpower radix2 24) with 16777216%Z in G. rewrite Z.abs_eq in G by lia. apply G. lia.
    - unfold SpecFloat.bounded in B. apply andb_true_iff in B. destruct B as (B & _).
      unfold SpecFloat.canonical_mantissa in B. apply Zeq_bool_eq in B. unfold fexp32, SpecFloat.fexp, SpecFloat.emin in B. lia. }
  destruct (Bd mx ex Bx) as (Mx & Ex). destruct (Bd my ey By) as (My & Ey). clear Bd.
  cbn [frem]. set (e := Z.min ex ey). set (a := (Z.pos mx * 2 ^ (ex - e))%Z). set (b := (Z.pos my * 2 ^ (ey - e))%Z).
  assert (Pb : (0 < b)%Z) by (unfold b; apply Z.mul_pos_pos; [lia|apply Z.pow_pos_nonneg; lia]).
  assert (Pa : (0 < a)%Z) by (unfold a; apply Z.mul_pos_pos; [lia|apply Z.pow_pos_nonneg; lia]).
  pose proof (Z.mod_pos_bound a b Pb) as Hz. set (z := (a mod b)%Z) in *.
  assert (Sc : forall m ex0, (e <= ex0)%Z -> F2R (Float radix2 (Z.pos m) ex0) = IZR (Z.pos m * 2 ^ (ex0 - e)) * bpow radix2 e).
  { intros m ex0 He. unfold F2R. cbn [Fnum Fexp]. rewrite mult_IZR. replace (IZR (2 ^ (ex0 - e))) with (bpow radix2 (ex0 - e)) by (rewrite <- IZR_Zpower by lia; reflexivity).
    rewrite Rmult_assoc, <- bpow_plus. do 2 f_equal. lia. }
  assert (Xv : B2R (B754_finite false mx ex Bx) = IZR a * bpow radix2 e) by (cbn [B2R cond_Zopp]; apply Sc; lia).
  assert (Yv : B2R (B754_finite false my ey By) = IZR b * bpow radix2 e) by (cbn [B2R cond_Zopp]; apply Sc; lia).
  assert (Yb : B2R (B754_finite false my ey By) < big) by (eapply Rle_lt_trans; [apply Rle_abs|apply B2R_abs_lt]).
  rewrite Xv, Yv in *. clear Xv Yv.
  assert (Zs : (z < 16777216)%Z).
  { destruct (Z.min_spec ex ey) as [(C & D) | (C & D)]; fold e in D.
    - apply Z.le_lt_trans with a; [apply Z.mod_le; lia|]. unfold a. rewrite D, Z.sub_diag. lia.
    - unfold b in Hz. rewrite D, Z.sub_diag in Hz. lia. }
  assert (Ge : rnd (F2R (Float radix2 z e)) = F2R (Float radix2 z e)).
  { apply round_generic; [typeclasses eauto|]. apply generic_format_FLT. exists (Float radix2 z e); [reflexivity|cbn [Fnum]; change (radix2 ^ 24)%Z with 16777216%Z; lia|].
    cbn [Fexp]. unfold e. change (-149 <= Z.min ex ey)%Z. lia. }
  assert (Zv : 0 <= F2R (Float radix2 z e) < IZR b * bpow radix2 e).
  { unfold F2R. cbn [Fnum Fexp]. split; [apply Rmult_le_pos; [apply (IZR_le 0); exact (proj1 Hz)|apply bpow_ge_0]|]. apply Rmult_lt_compat_r; [apply bpow_gt_0|]. apply IZR_lt; exact (proj2 Hz). }
  pose proof (binary_normalize_correct fprec femax _ _ mode_NE z e false) as H. cbv zeta in H.
  change (round radix2 fexp32 (round_mode mode_NE) (F2R (Float radix2 z e))) with (rnd (F2R (Float radix2 z e))) in H.
  change (bpow radix2 femax) with big in H. rewrite Ge in H.
  assert (Lt : Rabs (F2R (Float radix2 z e)) < big).
  { rewrite Rabs_pos_eq by lra. lra. }
  rewrite Rlt_bool_true in H by exact Lt. destruct H as (H1 & H2 & _). split; [exact H2|]. rewrite H1. split; [exact Zv|].
  exists (a / b)%Z. unfold F2R. cbn [Fnum Fexp]. pose proof (Z.div_mod a b ltac:(lia)) as DM. fold z in DM.
  rewrite DM at 1. rewrite plus_IZR, mult_IZR. ring.
Qed.

Lemma frem_euclid_val : forall x, fin x -> 0 <= B2R x ->
  fin (frem_euclid x (z2f 12)) /\ 0 <= B2R (frem_euclid x (z2f 12)) < 12 /\ exists i, B2R x = B2R (frem_euclid x (z2f 12)) + 12 * IZR i.
Proof.
  intros x F P. destruct f12_val as (F12 & V12). destruct (frem_val x (z2f 12) F F12 P ltac:(lra)) as (A & B & C). rewrite V12 in B, C.
  unfold frem_euclid. assert (G : flt (frem x (z2f 12)) f0 = false).
  { unfold flt. rewrite Bltb_correct by (auto; reflexivity). apply Rlt_bool_false. cbn [B2R f0]. change (B2R f0) with 0. lra. }
  rewrite G. auto.
Qed.

(** ** Gaussian *)
Lemma exp_near_0' : forall z, Rabs z <= / 1000 -> Rabs (exp z - 1) <= 101 / 100 * Rabs z.
Proof.
  intros z H. pose proof (Rabs_le_inv _ _ H) as B. pose proof (exp_ineq1_le z) as L.
  assert (U : exp z * (1 - z) <= 1).
  { pose proof (exp_ineq1_le (- z)) as X. pose proof (exp_pos z) as P. assert (E : exp z * exp (- z) = 1) by (rewrite <- exp_plus, <- exp_0; f_equal; ring). rewrite <- E.
    apply Rmult_le_compat_l; lra. }
  destruct (Rle_or_lt z 0) as [N | N].
  - rewrite (Rabs_left1 z) by lra. assert (exp z <= 1) by (rewrite <- exp_0; destruct N as [N | ->]; [left; now apply exp_increasing|lra]). apply Rabs_le. lra.
  - rewrite (Rabs_pos_eq z) by lra. apply Rabs_le. split; [lra|]. nra.
Qed.

Lemma exp_lip : forall a b, a <= 0 -> b <= 0 -> Rabs (exp a - exp b) <= Rabs (a - b).
Proof.
  assert (W : forall a b, a <= b -> b <= 0 -> 0 <= exp b - exp a <= b - a).
  { intros a b H B. assert (E1 : exp b <= 1) by (rewrite <- exp_0; destruct B as [N | ->]; [left; now apply exp_increasing|lra]).
    pose proof (exp_ineq1_le (a - b)) as X. pose proof (exp_pos b) as P.
    assert (Ea : exp a = exp b * exp (a - b)) by (rewrite <- exp_plus; f_equal; ring). assert (E2 : exp (a - b) <= 1).
    { rewrite <- exp_0. destruct (Req_dec a b) as [-> | N]; [rewrite Rminus_diag_eq by reflexivity; lra|left; apply exp_increasing; lra]. }
    rewrite Ea. split; [nra|]. assert (exp b * (1 - exp (a - b)) <= 1 * (b - a)); [|lra]. apply Rmult_le_compat; lra. }
  intros a b A B. destruct (Rle_or_lt a b) as [H | H].
  - destruct (W a b H B). rewrite !Rabs_left1 by lra. lra.
  - destruct (W b a ltac:(lra) A). rewrite !Rabs_pos_eq by lra. lra.
Qed.

Lemma gauss_near : forall s x y h, / 2 <= s -> 0 <= x <= 2 -> 0 <= h <= 53 / 1000000 -> Rabs (y - x) <= h ->
  Rabs (exp (- (y * y) / (2 * s * s)) - exp (- (x * x) / (2 * s * s))) <= 145 / 100 * h.
Proof.
  intros s x y h Hs Hx Hh H. assert (SP : 0 < s) by lra. set (i := / s). assert (Hi : 0 < i <= 2).
  { unfold i. split; [now apply Rinv_0_lt_compat|]. replace 2 with (/ / 2) by field. apply Rinv_le_contravar; lra. }
  set (X := x * i). set (Y := y * i).
  replace (- (y * y) / (2 * s * s)) with (- (Y * Y) / 2) by (unfold Y, i; field; lra).
  replace (- (x * x) / (2 * s * s)) with (- (X * X) / 2) by (unfold X, i; field; lra).
  assert (HX : 0 <= X <= 4) by (unfold X; split; [apply Rmult_le_pos; lra|replace 4 with (2 * 2) by lra; apply Rmult_le_compat; lra]).
  assert (D : Rabs (Y - X) <= 2 * h).
  { unfold X, Y. rewrite <- Rmult_minus_distr_r, Rabs_mult, (Rabs_pos_eq i) by lra. rewrite (Rmult_comm 2). apply Rmult_le_compat; try lra. apply Rabs_pos. }
  set (k := Y - X) in *. set (z := - (k * (X + k / 2))).
  replace (- (Y * Y) / 2) with (- (X * X) / 2 + z) by (unfold z, k; field). rewrite exp_plus.
  set (g := exp (- (X * X) / 2)). replace (g * exp z - g) with (g * (exp z - 1)) by ring.
  assert (G0 : 0 < g) by apply exp_pos.
  assert (GX : g * X <= 7073 / 10000).
  { pose proof (exp_ineq1_le (X * X / 2)) as Q. assert (E : g * exp (X * X / 2) = 1) by (unfold g; rewrite <- exp_plus, <- exp_0; f_equal; field).
    assert (W : 1414 / 1000 * X <= exp (X * X / 2)).
    { pose proof (Rle_0_sqr (X - 1414 / 1000)) as W0. unfold Rsqr in W0. lra. }
    assert (g * (1414 / 1000 * X) <= 1) by (rewrite <- E; apply Rmult_le_compat_l; lra). lra. }
  assert (G1 : g <= 1). { unfold g. rewrite <- exp_0. destruct (Req_dec X 0) as [-> | N]; [rewrite Rmult_0_l, Ropp_0; unfold Rdiv; rewrite Rmult_0_l; lra|]. left. apply exp_increasing. nra. }
  pose proof (Rabs_le_inv _ _ D) as D'.
  assert (Zb : Rabs z <= Rabs k * (X + / 10000)).
  { unfold z. rewrite Rabs_Ropp, Rabs_mult. apply Rmult_le_compat_l; [apply Rabs_pos|]. apply Rabs_le. split; lra. }
  assert (Zs : Rabs z <= / 1000).
  { eapply Rle_trans; [exact Zb|]. apply Rle_trans with (107 / 1000000 * (4 + / 10000)); [|lra]. apply Rmult_le_compat; try lra. apply Rabs_pos. }
  rewrite Rabs_mult, (Rabs_pos_eq g) by lra. pose proof (exp_near_0' z Zs) as En.
  assert (A : g * Rabs (exp z - 1) <= g * (101 / 100 * (Rabs k * (X + / 10000)))) by (apply Rmult_le_compat_l; lra).
  assert (B : g * (X + / 10000) <= 7075 / 10000) by lra.
  assert (C : Rabs k * (g * (X + / 10000)) <= 2 * h * (7075 / 10000)).
  { apply Rmult_le_compat; try lra; [apply Rabs_pos|]. apply Rmult_le_pos; lra. }
  lra.
Qed.

(** ** The weight of one class *)
Lemma weight_val : forall L sigma pc j, BayesianLikelihoodProps.exp_accurate (m_exp L) (/ 1048576) ->
  fin sigma -> / 2 <= B2R sigma <= 4 -> fin pc -> 0 <= B2R pc < 12 -> (j < 12)%nat ->
  let w := soft_weight L sigma pc (Z.of_nat j) in
  fin w /\ 0 <= B2R w <= 1000001 / 1000000 /\
  (forall X Y i, B2R pc - INR j = X + 12 * IZR i -> Rabs X <= 16 / 10 -> Rabs (X - Y) <= / 20000 ->
    Rabs (B2R w - exp (- (Y * Y) / (2 * B2R sigma * B2R sigma))) <= 80 / 1000000).
Proof.
  intros L sigma pc j HE Fs Hs Fp Hp Hj w. destruct f12_val as (F12 & V12).
  destruct (n2f_INR j ltac:(lia)) as (Fj & Vj). change (n2f j) with (z2f (Z.of_nat j)) in Fj, Vj.
  assert (Bj : 0 <= INR j <= 11) by (split; [apply pos_INR|rewrite INR_IZR_INZ; apply IZR_le; lia]).
  unfold w, soft_weight. set (s := B2R sigma) in *.
  assert (R12 : forall r, Rabs r <= 12 -> Rabs (rnd r) <= 12).
  { intros r Hr. apply Rabs_le_inv in Hr. apply Rabs_le. rewrite <- V12 at 2. rewrite <- (rnd_B2R (z2f 12)), V12.
    split; [|apply rnd_mono; lra]. replace (- (12)) with (rnd (- (12))); [apply rnd_mono; lra|]. rewrite rnd_opp. f_equal. rewrite <- V12. apply rnd_B2R. }
  destruct (fsub_fx pc (z2f (Z.of_nat j)) Fp Fj) as (N1 & E1). rewrite Vj in E1. set (a := B2R pc - INR j) in *.
  assert (Ha : Rabs a <= 12) by (unfold a; apply Rabs_le; lra).
  destruct (fin_of_rnd_big _ _ N1 E1 ltac:(lra)) as (F1 & V1). set (af := fsub pc (z2f (Z.of_nat j))) in *.
  assert (Fa : fin (fabs af)) by (unfold fabs; now rewrite is_finite_Babs).
  assert (Va : B2R (fabs af) = Rabs (rnd a)) by (unfold fabs; rewrite B2R_Babs, V1; reflexivity).
  pose proof (R12 a Ha) as Ra. pose proof (Rabs_pos (rnd a)) as Ra0.
  destruct (fsub_fx (z2f 12) (fabs af) F12 Fa) as (N2 & E2). rewrite V12, Va in E2. set (A := Rabs (rnd a)) in *.
  destruct (fin_of_rnd_big _ _ N2 E2 ltac:(apply Rabs_le; lra)) as (F2' & V2).
  assert (Rb : 0 <= rnd (12 - A) <= 12).
  { split; [apply rnd_nonneg; lra|]. pose proof (R12 (12 - A) ltac:(apply Rabs_le; lra)) as Q. apply Rabs_le_inv in Q. lra. }
  destruct (BayesianLikelihoodProps.fmin_B2R (fabs af) (fsub (z2f 12) (fabs af)) Fa F2') as (Fd & Vd). rewrite Va, V2 in Vd. fold A in Vd.
  cbv zeta. set (d := fmin (fabs af) (fsub (z2f 12) (fabs af))) in *.
  assert (Hd : 0 <= B2R d <= 12).
  { rewrite Vd. split; [apply Rmin_glb; lra|]. eapply Rle_trans; [apply Rmin_l|exact Ra]. }
  assert (Fn : fin (fneg d)) by (unfold fneg; now rewrite is_finite_Bopp).
  destruct (fmul_fx (fneg d) d Fn Fd) as (N3 & E3). rewrite fneg_B2R in E3. set (D := B2R d) in *.
  assert (HD2 : 0 <= D * D <= 144) by (split; [apply Rmult_le_pos; lra|replace 144 with (12 * 12) by lra; apply Rmult_le_compat; lra]).
  replace (- D * D) with (- (D * D)) in E3 by ring. rewrite rnd_opp in E3.
  assert (E3' : fx (fmul (fneg d) d) = sat (rnd (- (D * D)))) by (now rewrite rnd_opp).
  destruct (fin_of_rnd_big _ _ N3 E3' ltac:(apply Rabs_le; lra)) as (F3 & V3). rewrite rnd_opp in V3.
  pose proof (rnd_near (D * D)) as R3. rewrite (Rabs_pos_eq (D * D)) in R3 by lra. set (q := rnd (D * D)) in *.
  assert (Tn : 0 < tiny <= / 1000000000). { split; [apply tiny_pos|]. eapply Rle_trans; [apply (bpow_le radix2 _ (-40)); lia|]. simpl. lra. }
  assert (Hq : 0 <= q) by (apply rnd_nonneg; lra). unfold u24 in R3. apply Rabs_le_inv in R3.
  assert (Ff2 : fin f2) by reflexivity.
  assert (Vf2 : B2R f2 = 2).
  { rewrite <- SF2R_B2SF. replace (B2SF f2) with (SpecFloat.S754_finite false 8388608 (-22)) by (vm_compute; reflexivity).
    cbn [SF2R cond_Zopp]. unfold F2R. cbn [Fnum Fexp]. change (bpow radix2 (-22)) with (/ 4194304). lra. }
  destruct (fmul_fx f2 sigma Ff2 Fs) as (N4 & E4). rewrite Vf2 in E4. fold s in E4.
  destruct (fin_of_rnd_big _ _ N4 E4 ltac:(apply Rabs_le; lra)) as (F4 & V4).
  assert (L60 : bpow radix2 (-60) <= / 4) by (apply Rle_trans with (bpow radix2 (-2)); [apply bpow_le; lia|simpl; lra]).
  pose proof (TempoLagProps.rnd_rel (2 * s) ltac:(lra)) as R4. rewrite <- V4 in R4. set (g := fmul f2 sigma) in *. apply Rabs_le_inv in R4.
  destruct (fmul_fx g sigma F4 Fs) as (N5 & E5). fold s in E5.
  assert (G1 : (2 * s * (1 - / 16500000)) * s <= B2R g * s <= (2 * s * (1 + / 16500000)) * s) by (split; apply Rmult_le_compat_r; lra).
  assert (S2 : / 4 <= s * s <= 16) by (split; [replace (/ 4) with (/ 2 * / 2) by lra; apply Rmult_le_compat; lra|replace 16 with (4 * 4) by lra; apply Rmult_le_compat; lra]).
  set (T := 2 * s * s) in *. assert (ET : T = 2 * (s * s)) by (unfold T; ring).
  assert (HT : / 2 <= T <= 32) by lra.
  assert (G2 : T * (1 - / 16500000) <= B2R g * s <= T * (1 + / 16500000)) by (unfold T; lra). clear G1.
  destruct (fin_of_rnd_big _ _ N5 E5 ltac:(apply Rabs_le; lra)) as (F5 & V5).
  pose proof (TempoLagProps.rnd_rel (B2R g * s) ltac:(lra)) as R5. rewrite <- V5 in R5. apply Rabs_le_inv in R5.
  set (tf := fmul g sigma) in *. set (Tf := B2R tf) in *.
  assert (G3 : T * (1 - / 8000000) <= Tf <= T * (1 + / 8000000)) by lra. clear R4 R5 G2.
  destruct (fdiv_fx (fmul (fneg d) d) tf F3 F5 ltac:(fold Tf; lra)) as (N6 & E6). rewrite V3 in E6. fold Tf in E6.
  assert (IT : 0 < / Tf <= 201 / 100).
  { split; [apply Rinv_0_lt_compat; lra|]. replace (201 / 100) with (/ (100 / 201)) by field. apply Rinv_le_contravar; lra. }
  assert (Hqt : 0 <= q / Tf <= 300).
  { unfold Rdiv. split; [apply Rmult_le_pos; lra|]. apply Rle_trans with (145 * (201 / 100)); [apply Rmult_le_compat; lra|lra]. }
  replace (- q / Tf) with (- (q / Tf)) in E6 by (unfold Rdiv; ring).
  destruct (fin_of_rnd_big _ _ N6 E6 ltac:(apply Rabs_le; lra)) as (F6 & V6). rewrite rnd_opp in V6.
  set (xf := fdiv (fmul (fneg d) d) tf) in *. pose proof (rnd_nonneg (q / Tf) ltac:(lra)) as R6.
  assert (Hx : B2R xf <= 0) by lra. destruct (HE xf F6 Hx) as (Fw & W0 & Ew). split; [exact Fw|].
  assert (X1 : exp (B2R xf) <= 1) by (rewrite <- exp_0; destruct Hx as [Q | ->]; [left; now apply exp_increasing|lra]).
  apply Rabs_le_inv in Ew. split; [lra|].
  intros X Y i Hi HX HXY. 
  assert (R1 : Rabs (rnd a - a) <= 12 / 16000000) by (apply rnd_abs; [exact Ha|lra]). apply Rabs_le_inv in R1.
  assert (RA : Rabs (A - Rabs a) <= 12 / 16000000).
  { unfold A. eapply Rle_trans; [apply Rabs_triang_inv2|]. apply Rabs_le. lra. }
  apply Rabs_le_inv in RA.
  assert (RB : Rabs (rnd (12 - A) - (12 - A)) <= 12 / 16000000) by (apply rnd_abs; [apply Rabs_le; lra|lra]). apply Rabs_le_inv in RB.
  assert (Circ : Rabs a = Rabs X \/ Rabs a = 12 - Rabs X).
  { apply Rabs_le_inv in HX. apply Rabs_le_inv in Ha. 
    assert (I1 : (-2 < i < 2)%Z) by (split; apply lt_IZR; lra).
    assert (i = 0 \/ i = 1 \/ i = -1)%Z as [-> | [-> | ->]] by lia.
    - left. f_equal. lra.
    - right. rewrite (Rabs_pos_eq a) by lra. rewrite Rabs_left1 by lra. lra.
    - right. rewrite (Rabs_left a) by lra. rewrite (Rabs_pos_eq X) by lra. lra. }
  pose proof (Rabs_pos X) as X0.
  assert (DX : Rabs (D - Rabs X) <= 2 / 1000000).
  { rewrite Vd. apply Rabs_le. destruct Circ as [C | C]; rewrite C in RA; unfold Rmin; destruct (Rle_dec A (rnd (12 - A))); lra. }
  apply Rabs_le_inv in DX. apply Rabs_le_inv in HXY.
  assert (DY : Rabs (D - Rabs Y) <= 52 / 1000000).
  { assert (Rabs (Rabs X - Rabs Y) <= / 20000) as Q by (eapply Rle_trans; [apply Rabs_triang_inv2|apply Rabs_le; lra]). apply Rabs_le_inv in Q. apply Rabs_le. lra. }
  pose proof (gauss_near s (Rabs Y) D (52 / 1000000) ltac:(lra)) as G.
  assert (AY : 0 <= Rabs Y <= 2). { split; [apply Rabs_pos|]. apply Rabs_le_inv in DY. lra. }
  specialize (G AY ltac:(lra) DY). replace (Rabs Y * Rabs Y) with (Y * Y) in G by (rewrite <- Rabs_mult, Rabs_pos_eq; [reflexivity|apply Rle_0_sqr]).
  fold T in G. 
  assert (D2 : D * D <= 27 / 10) by (replace (27 / 10) with (27 / 10 * 1) by lra; assert (D <= 161 / 100) by lra; apply Rle_trans with (161 / 100 * (161 / 100)); [apply Rmult_le_compat; lra|lra]).
  assert (XA : Rabs (B2R xf - - (D * D) / T) <= 16 / 10000000).
  { rewrite V6. assert (Q1 : Rabs (rnd (q / Tf) - q / Tf) <= 6 / 16000000).
    { apply rnd_abs; [|lra]. rewrite Rabs_pos_eq by lra. unfold Rdiv. apply Rle_trans with (28 / 10 * (201 / 100)); [apply Rmult_le_compat; lra|lra]. }
    apply Rabs_le_inv in Q1.
    assert (Q2 : Rabs (q / Tf - D * D / T) <= 12 / 10000000).
    { replace (q / Tf - D * D / T) with (((q - D * D) + (D * D / T) * (T - Tf)) * / Tf) by (field; lra).
      rewrite Rabs_mult, (Rabs_pos_eq (/ Tf)) by lra. set (m := D * D / T). assert (Hm : 0 <= m <= 54 / 10).
      { unfold m, Rdiv. assert (0 < / T <= 2) by (split; [apply Rinv_0_lt_compat; lra|replace 2 with (/ / 2) by field; apply Rinv_le_contravar; lra]).
        split; [apply Rmult_le_pos; lra|]. apply Rle_trans with (27 / 10 * 2); [apply Rmult_le_compat; lra|lra]. }
      assert (mT : m * T = D * D) by (unfold m; field; lra).
      assert (P1 : Rabs (m * (T - Tf)) <= m * T * / 8000000).
      { rewrite Rabs_mult, (Rabs_pos_eq m) by lra. rewrite Rmult_assoc. apply Rmult_le_compat_l; [lra|]. apply Rabs_le. lra. }
      rewrite mT in P1. apply Rabs_le_inv in P1.
      apply Rle_trans with (55 / 100000000 * (201 / 100)); [|lra]. apply Rmult_le_compat; try lra; [apply Rabs_pos|]. apply Rabs_le. lra. }
    apply Rabs_le_inv in Q2. apply Rabs_le. unfold Rdiv in *. lra. }
  assert (NT : - (D * D) / T <= 0). { unfold Rdiv. assert (0 < / T) by (apply Rinv_0_lt_compat; lra). assert (0 <= D * D * / T) by (apply Rmult_le_pos; lra). lra. }
  pose proof (exp_lip (B2R xf) (- (D * D) / T) Hx NT) as XL. apply Rabs_le_inv in G.
  assert (XL' : Rabs (exp (B2R xf) - exp (- (D * D) / T)) <= 16 / 10000000) by lra. apply Rabs_le_inv in XL'. apply Rabs_le. lra.
Qed.
