(** Proofs about Euclidean normalisation in f32. *)
From Coq Require Import Reals Lra Lia.
From Flocq Require Import Core Relative.
From Verif Require Import Rust F32 F32Facts F32More FloatSums PeakPicking Chroma.
Local Open Scope R_scope.

(** Rounding does not push a value above the midpoint below [x] under [x]. *)
Lemma rnd_ge_midp : forall x v, rnd x = x -> (x + pred radix2 (FLT_exp (-149) 24) x) / 2 < v -> x <= rnd v.
Proof.
  intros x v Hx H. apply (round_N_ge_midp radix2 (FLT_exp (-149) 24) (fun x => negb (Z.even x)) x v); auto.
  rewrite <- Hx. apply generic_format_round; auto with typeclass_instances.
Qed.

(** sqrt of at least x*x is at least x, also after rounding (for x not tiny). *)
Lemma sqrt_sq_ge : forall x s, rnd x = x -> bpow radix2 (-60) <= x -> rnd (x * x) <= s -> x <= rnd (sqrt s).
Proof.
  intros x s Fx Lx Hs.
  assert (X0 : 0 < x) by (pose proof (bpow_gt_0 radix2 (-60)); lra).
  destruct (mag radix2 x) as (m & Hm). specialize (Hm ltac:(lra)). rewrite Rabs_right in Hm by lra. destruct Hm as (Lm & Um).
  assert (M60 : (-60 < m)%Z) by (apply (lt_bpow radix2); lra).
  assert (Gx : generic_format radix2 (FLT_exp (-149) 24) x).
  { rewrite <- Fx. apply generic_format_round; auto with typeclass_instances. }
  assert (Mag : mag radix2 x = m :> Z).
  { apply mag_unique. rewrite Rabs_right by lra. auto. }
  assert (S0 : 0 <= x * x) by nra.
  destruct (Req_dec x (bpow radix2 (m - 1))) as [E|NE].
  - assert (E2 : rnd (x * x) = x * x).
    { rewrite E at 1 2 3 4. rewrite <- bpow_plus. apply (round_generic radix2). auto with typeclass_instances.
      apply generic_format_bpow. change (FLT_exp (-149) 24 (m - 1 + (m - 1) + 1) <= m - 1 + (m - 1))%Z. unfold FLT_exp. lia. }
    rewrite E2 in Hs. rewrite <- Fx at 1. apply rnd_mono.
    rewrite <- (sqrt_square x) at 1 by lra. apply sqrt_le_1_alt; auto.
  - assert (P : pred radix2 (FLT_exp (-149) 24) x = x - bpow radix2 (m - 24)).
    { rewrite pred_eq_pos by lra. unfold pred_pos. rewrite Mag. rewrite Req_bool_false by auto.
      rewrite ulp_neq_0 by lra. unfold cexp. rewrite Mag. do 2 f_equal. unfold FLT_exp. lia. }
    apply rnd_ge_midp; auto. rewrite P.
    assert (B2 : bpow radix2 m = 16777216 * bpow radix2 (m - 24)).
    { replace m with (24 + (m - 24))%Z at 1 by lia. rewrite bpow_plus. simpl (bpow radix2 24). lra. }
    assert (B3 : bpow radix2 (m - 1) = 8388608 * bpow radix2 (m - 24)).
    { replace (m - 1)%Z with (23 + (m - 24))%Z by lia. rewrite bpow_plus. simpl (bpow radix2 23). lra. }
    set (p := bpow radix2 (m - 24)) in *. assert (P0 : 0 < p) by apply bpow_gt_0.
    assert (Ux : x <= bpow radix2 m - p).
    { assert (Q : x <= pred radix2 (FLT_exp (-149) 24) (bpow radix2 m)).
      { apply pred_ge_gt; auto. apply FLT_exp_valid. reflexivity. apply generic_format_bpow. unfold FLT_exp. lia. }
      rewrite pred_eq_pos in Q by apply bpow_ge_0. unfold pred_pos in Q. rewrite mag_bpow in Q.
      rewrite Req_bool_true in Q by (f_equal; lia). unfold p.
      replace (FLT_exp (-149) 24 (m + 1 - 1)) with (m - 24)%Z in Q by (unfold FLT_exp; lia). exact Q. }
    assert (R : rnd (x * x) >= x * x * (1 - u)).
    { pose proof (relative_error_N_FLT radix2 (-149) 24 eq_refl (fun x => negb (Z.even x)) (x * x)) as H.
      assert (B : bpow radix2 (-149 + 24 - 1) <= Rabs (x * x)).
      { rewrite Rabs_right by lra. apply Rle_trans with (bpow radix2 (-60) * bpow radix2 (-60)).
        - rewrite <- bpow_plus. apply bpow_le. lia.
        - apply Rmult_le_compat; auto using bpow_ge_0. }
      specialize (H B). rewrite (Rabs_right (x * x)) in H by lra.
      replace (/ 2 * bpow radix2 (- (24) + 1)) with u in H by (rewrite u_val; simpl; lra).
      apply Rabs_le_inv in H.
      change (round radix2 (FLT_exp (-149) 24) (Znearest (fun x0 : Z => negb (Z.even x0))) (x * x)) with (rnd (x * x)) in H.
      lra. }
    assert (Sx : (x - p / 2) * (x - p / 2) < s).
    { apply Rlt_le_trans with (x * x * (1 - u)); [|lra]. rewrite u_val. rewrite B2 in Ux. rewrite B3 in Lm.
      assert (x * x <= x * (16777216 * p - p)) by (apply Rmult_le_compat_l; lra).
      assert (8388608 * p * p <= x * p) by (apply Rmult_le_compat_r; lra).
      assert (0 < p * p) by nra. nra. }
    replace ((x + (x - p)) / 2) with (x - p / 2) by lra.
    assert (X1 : 0 <= x - p / 2) by (rewrite B3 in Lm; lra).
    rewrite <- (sqrt_square (x - p / 2)) by auto. apply sqrt_lt_1_alt. split; auto. nra.
Qed.

(** ** Entries of a normalised vector *)
Lemma sq_nneg : forall x, fin x -> nneg (fmul x x).
Proof.
  intros x F. destruct (fmul_fx x x F F) as (N & E). apply nneg_iff; auto. rewrite E, <- sat_0. apply sat_mono.
  apply rnd_nonneg. nra.
Qed.
Lemma sq_nneg_nan : forall x, nneg (fmul x x) \/ fmul x x = fnan.
Proof.
  intros x. destruct x as [s|s| |s m e B]; [left; destruct s; reflexivity|left; destruct s; reflexivity|right; reflexivity|].
  left. now apply sq_nneg.
Qed.
Lemma squares_nneg : forall l, Forall (fun x => fin x) l -> Forall (fun x => nneg x) (map (fun x => fmul x x) l).
Proof. intros l H. apply Forall_map. eapply Forall_impl; [|exact H]. intros x F. now apply sq_nneg. Qed.
Lemma l2_norm_nneg : forall l, Forall (fun x => fin x) l -> nneg (l2_norm l).
Proof. intros l H. apply fsqrt_nneg, fsum_nneg, squares_nneg, H. Qed.

Lemma eps10_val : bpow radix2 (-34) < fx eps10.
Proof.
  destruct (lit_fx 14411519 (-57)) as (_ & E). unfold eps10. rewrite E.
  apply Rlt_le_trans with (bpow radix2 (-33) * / 4 * 3); [simpl; lra|].
  assert (F : fin eps10) by reflexivity. fold eps10 in E.
  assert (V : B2R eps10 = 14411519 * bpow radix2 (-57)).
  { unfold eps10. vm_compute B2R. simpl. lra. }
  rewrite <- E, fx_fin, V by auto. simpl. lra.
Qed.

Lemma norm_ge_elem : forall l x, Forall (fun x => fin x) l -> In x l -> fin (l2_norm l) -> bpow radix2 (-60) <= B2R (fabs x) ->
  fle (fabs x) (l2_norm l) = true.
Proof.
  intros l x H Hx Fn B. pose proof (proj1 (Forall_forall _ _) H x Hx) as Fx. cbn beta in Fx.
  assert (Fa : fin (fabs x)) by (now rewrite fabs_fin).
  pose proof (squares_nneg l H) as Sq. pose proof (fsum_nneg _ Sq) as Ns.
  assert (Fs : fin (fsum (map (fun x => fmul x x) l))).
  { destruct (nneg_cases _ Ns) as [(F & _)|E]; auto. unfold l2_norm in Fn. rewrite E in Fn. discriminate. }
  assert (Le : fle (fmul x x) (fsum (map (fun x => fmul x x) l)) = true).
  { apply fsum_ge_elem; auto. now apply (in_map (fun x => fmul x x)). }
  assert (Fq : fin (fmul x x)) by (apply (fin_between f0 _ (fsum (map (fun x => fmul x x) l))); auto; now apply sq_nneg).
  destruct (fsqrt_val _ Fs Ns) as (F1 & V1).
  apply fle_intro; auto using fin_nn. rewrite !fx_fin by auto. unfold l2_norm. rewrite V1. apply sqrt_sq_ge; auto.
  - rewrite <- fx_fin by auto. rewrite fx_fin by auto. apply rnd_B2R.
  - apply fle_fx in Le. rewrite !fx_fin in Le by auto. rewrite B2R_fmul in Le by auto.
    assert (E : B2R (fabs x) * B2R (fabs x) = B2R x * B2R x).
    { rewrite <- !fx_fin by auto. rewrite fabs_fx by (now apply fin_nn). rewrite <- Rabs_mult. apply Rabs_right.
      apply Rle_ge. nra. }
    now rewrite E.
Qed.

Lemma fdiv_finf : forall x, fin x -> fdiv x finf = (if Bsign x then fm0 else f0).
Proof. intros [s|s| |s m e B] F; try discriminate; destruct s; reflexivity. Qed.
Lemma div_abs_le1 : forall x y, fin x -> pos y -> fle (fabs x) y = true ->
  fin (fdiv x y) /\ fle (fabs (fdiv x y)) f1 = true.
Proof.
  intros x y F P L. destruct (nneg_cases y (pos_nneg _ P)) as [(Fy & _)| ->].
  2:{ rewrite fdiv_finf by auto. destruct (Bsign x); split; reflexivity. }
  pose proof (B2R_pos y Fy P) as Py. destruct (fdiv_fx x y F Fy ltac:(lra)) as (N & E).
  apply fle_fx in L. rewrite fabs_fx, !fx_fin in L by (auto using fin_nn).
  assert (Q : Rabs (B2R x / B2R y) <= 1).
  { unfold Rdiv. rewrite Rabs_mult, (Rabs_right (/ B2R y)) by (apply Rle_ge; left; now apply Rinv_0_lt_compat).
    apply Rmult_le_reg_r with (B2R y); auto. rewrite Rmult_assoc, Rinv_l, Rmult_1_r, Rmult_1_l by lra. auto. }
  assert (R : Rabs (rnd (B2R x / B2R y)) <= 1).
  { apply Rabs_le_inv in Q. apply Rabs_le. rewrite <- B2R_f1. rewrite <- (rnd_B2R f1), <- rnd_opp, B2R_f1.
    split; apply rnd_mono; lra. }
  pose proof big_val as BV. assert (Bg : 1 < big) by (rewrite BV; apply IZR_lt; reflexivity).
  pose proof (Rabs_le_inv _ _ R) as R'. rewrite sat_id in E by lra.
  assert (Fq : fin (fdiv x y)) by (apply fin_iff; auto; lra).
  split; auto. apply fle_intro; [now rewrite fabs_nn|reflexivity|]. rewrite fabs_fx, E, fx_f1 by auto. exact R.
Qed.

Lemma norm_pos_big : forall n, fgt n eps10 = true -> pos n.
Proof. intros n H. unfold fgt in H. fold (flt eps10 n) in H. apply (flt_fle_trans f0 eps10 n); auto. now apply flt_fle. Qed.

(** Dividing by the norm keeps every entry in [-1,1]. *)
Lemma unit_abs : forall l x, Forall (fun x => fin x) l -> In x l -> fgt (l2_norm l) eps10 = true ->
  fin (fdiv x (l2_norm l)) /\ fle (fabs (fdiv x (l2_norm l))) f1 = true.
Proof.
  intros l x H Hx G. pose proof (proj1 (Forall_forall _ _) H x Hx) as Fx. cbn beta in Fx.
  pose proof (norm_pos_big _ G) as P. apply div_abs_le1; auto.
  destruct (nneg_cases _ (pos_nneg _ P)) as [(Fn & _)|E].
  2:{ rewrite E. apply fle_inf. rewrite fabs_nn. now apply fin_nn. }
  destruct (Rle_or_lt (bpow radix2 (-60)) (B2R (fabs x))) as [B|B].
  - now apply norm_ge_elem.
  - apply fle_intro; [rewrite fabs_nn; now apply fin_nn|now apply fin_nn|]. rewrite (fx_fin (fabs x)) by (now rewrite fabs_fin).
    unfold fgt in G. fold (flt eps10 (l2_norm l)) in G. apply flt_fx in G. pose proof eps10_val as E.
    assert (bpow radix2 (-60) < bpow radix2 (-34)) by (apply bpow_lt; lia). lra.
Qed.
Lemma unit_in01 : forall l x, Forall (fun x => fin x) l -> In x l -> nneg x -> fgt (l2_norm l) eps10 = true ->
  in01 (fdiv x (l2_norm l)).
Proof.
  intros l x H Hx N G. destruct (unit_abs l x H Hx G) as (F & A). pose proof (norm_pos_big _ G) as P.
  assert (Nq : nneg (fdiv x (l2_norm l))) by (apply fdiv_nneg; auto; now apply fin_nn).
  split; auto. apply fle_fx in A. apply fle_intro; auto using fin_nn. rewrite fabs_fx in A by (now apply fin_nn).
  rewrite Rabs_right in A; auto. apply Rle_ge. now apply nneg_fx.
Qed.

(** ** The norm of a normalised vector *)
Definition Rsq (l : list f32) : R := fold_right (fun x s => B2R x * B2R x + s) 0 l.
Lemma Rsq_nonneg : forall l, 0 <= Rsq l.
Proof. induction l as [|x l IH]; simpl; [lra|]. fold (Rsq l). nra. Qed.
Lemma Rsq_elem : forall l x, In x l -> B2R x * B2R x <= Rsq l.
Proof.
  induction l as [|y l IH]; intros x []; simpl; fold (Rsq l).
  - subst. pose proof (Rsq_nonneg l). lra.
  - specialize (IH x ltac:(auto)). nra.
Qed.

Lemma squares_sum : forall l, Forall (fun x => fin (fmul x x)) l ->
  Rsq l * (1 - u) - INR (length l) * eta <= Rsum (map (fun x => fmul x x) l) <= Rsq l * (1 + u) + INR (length l) * eta.
Proof.
  induction l as [|x l IH]; intros H; cbn [map Rsum Rsq fold_right length].
  - simpl. lra.
  - fold (Rsum (map (fun x => fmul x x) l)). fold (Rsq l). rewrite S_INR.
    specialize (IH (Forall_inv_tail H)). apply Forall_inv in H. rewrite B2R_fmul by auto.
    assert (P : 0 <= B2R x * B2R x) by nra. pose proof (rnd_bounds _ P). lra.
Qed.

(** Squares of the rounded quotients; [k] bounds the quotients. *)
Lemma quot_squares : forall l y, 0 < B2R y -> Forall (fun x => fin (fdiv x y) /\ Rabs (B2R x / B2R y) <= 2) l ->
  Rsq l / (B2R y * B2R y) * (1 - 2 * u) - INR (length l) * (8 * eta) <= Rsq (map (fun x => fdiv x y) l)
    <= Rsq l / (B2R y * B2R y) * (1 + 3 * u) + INR (length l) * (8 * eta).
Proof.
  intros l y Py. pose proof u_val as U. pose proof eta_pos as E0. pose proof eta_small as E1.
  induction l as [|x l IH]; intros H; cbn [map Rsq fold_right length].
  - simpl. unfold Rdiv. rewrite !Rmult_0_l. lra.
  - fold (Rsq (map (fun x => fdiv x y) l)). fold (Rsq l). rewrite S_INR.
    specialize (IH (Forall_inv_tail H)). apply Forall_inv in H. destruct H as (F & Q).
    rewrite B2R_fdiv by (auto; lra). set (q := B2R x / B2R y) in *.
    assert (D : (B2R x * B2R x + Rsq l) / (B2R y * B2R y) = q * q + Rsq l / (B2R y * B2R y)).
    { unfold q. field. lra. }
    rewrite D. set (r := Rsq l / (B2R y * B2R y)) in *.
    destruct (rnd_err q) as (e & n & Ee & En & En0 & Eq). rewrite Eq. fold u in Ee. fold eta in En.
    apply Rabs_le_inv in Ee, En, Q.
    assert (X : (q * (1 + e) + n) * (q * (1 + e) + n) = q * q * ((1 + e) * (1 + e)) + (2 * q * n + n * n)).
    { replace ((q * (1 + e) + n) * (q * (1 + e) + n)) with (q * q * ((1 + e) * (1 + e)) + (2 * q * n + n * n) + 2 * q * (e * n)) by ring.
      rewrite En0. ring. }
    rewrite X.
    assert (Q2 : 0 <= q * q) by nra.
    assert (Ea : 1 - 2 * u <= (1 + e) * (1 + e) <= 1 + 3 * u) by (rewrite U in *; nra).
    assert (B1 : q * q * (1 - 2 * u) <= q * q * ((1 + e) * (1 + e))) by (apply Rmult_le_compat_l; lra).
    assert (B2 : q * q * ((1 + e) * (1 + e)) <= q * q * (1 + 3 * u)) by (apply Rmult_le_compat_l; lra).
    assert (B3 : Rabs (2 * q * n + n * n) <= 8 * eta).
    { replace (2 * q * n + n * n) with ((2 * q + n) * n) by ring. rewrite Rabs_mult.
      apply Rmult_le_compat; auto using Rabs_pos; apply Rabs_le; lra. }
    apply Rabs_le_inv in B3. lra.
Qed.

Lemma unit_norm : forall l, (length l <= 12)%nat -> Forall (fun x => fin x) l -> fgt (l2_norm l) eps10 = true ->
  fin (l2_norm l) -> Rabs (Rsq (map (fun x => fdiv x (l2_norm l)) l) - 1) <= bpow radix2 (-18).
Proof.
  intros l Ln H G Fn. pose proof u_val as U. pose proof eta_pos as E0. pose proof eta_small as E1.
  pose proof (norm_pos_big _ G) as P. pose proof (B2R_pos _ Fn P) as Py.
  pose proof (squares_nneg l H) as Sq. pose proof (fsum_nneg _ Sq) as Ns.
  assert (Fs : fin (fsum (map (fun x => fmul x x) l))).
  { destruct (nneg_cases _ Ns) as [(F & _)|E]; auto. unfold l2_norm in Fn. rewrite E in Fn. discriminate. }
  destruct (fsqrt_val _ Fs Ns) as (_ & V1).
  assert (Fq : Forall (fun x => fin (fmul x x)) l).
  { apply Forall_forall. intros x Hx. apply (fin_between f0 _ (fsum (map (fun x => fmul x x) l))); auto.
    - apply sq_nneg. now apply (proj1 (Forall_forall _ _) H).
    - apply fsum_ge_elem; auto. now apply (in_map (fun x => fmul x x)). }
  destruct (squares_sum l Fq) as (A1 & A2). destruct (fsum_bounds _ Sq Fs) as (A3 & A4).
  rewrite map_length in A3, A4.
  assert (N12 : INR (length l) <= 12) by (replace 12 with (INR 12) by (simpl; lra); now apply le_INR).
  pose proof (pos_INR (length l)) as N0.
  pose proof (pow_le_1p (length l) ltac:(rewrite U; lra)) as Pu. pose proof (pow_ge_1m (length l)) as Pl.
  assert (Pu' : (1 + u) ^ length l <= 1 + 24 * u) by (rewrite U in *; lra).
  assert (Pl' : 1 - 12 * u <= (1 - u) ^ length l) by (rewrite U in *; lra). clear Pu Pl.
  set (Q := Rsum (map (fun x => fmul x x) l)) in *. set (s := B2R (fsum (map (fun x => fmul x x) l))) in *.
  assert (Q0 : 0 <= Q) by (now apply Rsum_nonneg).
  pose proof (Rsq_nonneg l) as A0. set (A := Rsq l) in *.
  assert (S1 : Q * (1 - 12 * u) <= s) by (eapply Rle_trans; [|exact A3]; apply Rmult_le_compat_l; auto).
  assert (S2 : s <= Q * (1 + 24 * u)) by (eapply Rle_trans; [exact A4|]; apply Rmult_le_compat_l; auto).
  assert (M1 : INR (length l) * eta <= 12 * eta) by (apply Rmult_le_compat_r; lra).
  assert (S0 : 0 <= s) by (rewrite U in *; lra).
  set (r := sqrt s) in *. assert (R0 : 0 <= r) by apply sqrt_pos.
  assert (Rs : r * r = s) by (now apply sqrt_sqrt).
  change (l2_norm l) with (fsqrt (fsum (map (fun x => fmul x x) l))) in Py |- *.
  set (nf := fsqrt (fsum (map (fun x => fmul x x) l))) in *. fold r in V1.
  destruct (rnd_bounds r R0) as (B1 & B2). rewrite <- V1 in B1, B2.
  assert (NN : / 17179869184 <= B2R nf).
  { unfold fgt in G. fold (flt eps10 (l2_norm l)) in G. apply flt_fx in G. pose proof eps10_val as E.
    change (l2_norm l) with nf in G. rewrite (fx_fin nf) in G by exact Fn.
    replace (bpow radix2 (-34)) with (/ 17179869184) in E by (simpl; lra). lra. }
  assert (R1 : / 34359738368 <= r) by (rewrite U in *; lra).
  assert (Er : eta <= r * (/ 1152921504606846976)) by (rewrite U in *; lra).
  set (N := B2R nf) in *.
  assert (C1 : r * (1 - 2 * u) <= N) by (rewrite U in *; lra).
  assert (C2 : N <= r * (1 + 2 * u)) by (rewrite U in *; lra).
  assert (D1 : s * (1 - 4 * u) <= N * N).
  { rewrite <- Rs. apply Rle_trans with ((r * (1 - 2 * u)) * (r * (1 - 2 * u))).
    - replace (r * (1 - 2 * u) * (r * (1 - 2 * u))) with (r * r * ((1 - 2 * u) * (1 - 2 * u))) by ring.
      apply Rmult_le_compat_l; [nra|]. rewrite U. lra.
    - apply Rmult_le_compat; try lra; rewrite U in *; nra. }
  assert (D2 : N * N <= s * (1 + 5 * u)).
  { rewrite <- Rs. apply Rle_trans with ((r * (1 + 2 * u)) * (r * (1 + 2 * u))).
    - apply Rmult_le_compat; lra.
    - replace (r * (1 + 2 * u) * (r * (1 + 2 * u))) with (r * r * ((1 + 2 * u) * (1 + 2 * u))) by ring.
      apply Rmult_le_compat_l; [nra|]. rewrite U. lra. }
  assert (SS : / 1180591620717411303424 <= s).
  { rewrite <- Rs. apply Rle_trans with (/ 34359738368 * / 34359738368); [lra|]. apply Rmult_le_compat; lra. }
  assert (Es : 12 * eta <= s * (/ 1073741824)) by lra.
  assert (F1 : s * (1 - 27 * u) <= A) by (rewrite U in *; lra).
  assert (F2 : A <= s * (1 + 15 * u)) by (rewrite U in *; lra).
  assert (NP : 0 < N * N) by nra.
  set (t := A / (N * N)). assert (T : t * (N * N) = A) by (unfold t; field; nra).
  assert (T1 : t <= 1 + 20 * u).
  { apply Rmult_le_reg_r with (N * N); auto. rewrite T. apply Rle_trans with (s * (1 - 4 * u) * (1 + 20 * u)).
    - apply Rle_trans with (1 := F2). rewrite Rmult_assoc. apply Rmult_le_compat_l; [lra|]. rewrite U. lra.
    - rewrite (Rmult_comm (1 + 20 * u)). apply Rmult_le_compat_r; auto. rewrite U. lra. }
  assert (T2 : 1 - 33 * u <= t).
  { apply Rmult_le_reg_r with (N * N); auto. rewrite T. apply Rle_trans with (s * (1 + 5 * u) * (1 - 33 * u)).
    - rewrite (Rmult_comm (1 - 33 * u)). apply Rmult_le_compat_r; auto. rewrite U. lra.
    - apply Rle_trans with (2 := F1). rewrite Rmult_assoc. apply Rmult_le_compat_l; [lra|]. rewrite U. lra. }
  assert (HF : Forall (fun x => fin (fdiv x nf) /\ Rabs (B2R x / B2R nf) <= 2) l).
  { apply Forall_forall. intros x Hx. split; [now apply (unit_abs l x)|].
    pose proof (Rsq_elem l x Hx) as Qx. fold A in Qx.
    assert (B2R x / N * (B2R x / N) <= t).
    { unfold t. replace (B2R x / N * (B2R x / N)) with (B2R x * B2R x / (N * N)) by (field; lra).
      apply Rmult_le_compat_r; auto. left. now apply Rinv_0_lt_compat. }
    fold N. apply Rabs_le. rewrite U in *. nra. }
  destruct (quot_squares l nf Py HF) as (G1 & G2). fold A N t in G1, G2.
  set (Z := Rsq (map (fun x => fdiv x nf) l)) in *.
  assert (M8 : INR (length l) * (8 * eta) <= 96 * eta) by lra.
  replace (bpow radix2 (-18)) with (64 * u) by (rewrite U; simpl; lra).
  assert (Z1 : t * (1 + 3 * u) <= (1 + 20 * u) * (1 + 3 * u)) by (apply Rmult_le_compat_r; [rewrite U|]; lra).
  assert (Z2 : (1 - 33 * u) * (1 - 2 * u) <= t * (1 - 2 * u)) by (apply Rmult_le_compat_r; [rewrite U|]; lra).
  clear - U E0 E1 Z1 Z2 G1 G2 M8. apply Rabs_le. rewrite U in *. lra.
Qed.
