(** Further f32 facts: square roots, and a quotient multiplied back. *)
From Coq Require Import ZArith Bool List Reals Lra Lia Psatz.
From Flocq Require Import Core Relative IEEE754.BinarySingleNaN.
From Verif Require Import Rust F32 F32Facts.
Local Open Scope R_scope.

Lemma fsqrt_val : forall x, fin x -> nneg x ->
  fin (fsqrt x) /\ B2R (fsqrt x) = rnd (sqrt (B2R x)).
Proof.
  intros x Hf Hn. unfold fsqrt. destruct (Bsqrt_correct _ _ _ _ mode_NE x) as (H1 & H2 & _).
  split; [|exact H1]. rewrite H2.
  destruct x as [| | |[] m e B]; try discriminate Hf; try reflexivity.
  discriminate Hn.
Qed.

Lemma fsqrt_nneg : forall x, nneg x -> nneg (fsqrt x).
Proof.
  intros x H. destruct (nneg_cases x H) as [(Hf & _)| ->]; [|reflexivity].
  destruct (fsqrt_val x Hf H) as (A & B). apply nneg_iff. now apply fin_nn.
  rewrite fx_fin, B by auto. apply rnd_nonneg, sqrt_pos.
Qed.

Lemma fsqrt_mono : forall x y, nneg x -> fle x y = true -> fle (fsqrt x) (fsqrt y) = true.
Proof.
  intros x y H L. assert (Hy : nneg y) by (eapply fle_trans; eauto).
  destruct (nneg_cases y Hy) as [(Fy & _)| ->].
  2:{ change (fsqrt finf) with finf. apply fle_inf, nneg_nn, fsqrt_nneg, H. }
  destruct (nneg_cases x H) as [(Fx & _)| ->].
  2:{ apply fle_inf_inv in L. subst. discriminate. }
  destruct (fsqrt_val x Fx H) as (A & B). destruct (fsqrt_val y Fy Hy) as (C & D).
  apply fle_intro; try now apply fin_nn. rewrite !fx_fin, B, D by auto.
  apply rnd_mono, sqrt_le_1_alt. apply fle_fx in L. now rewrite !fx_fin in L by auto.
Qed.

Lemma rnd_err : forall x, exists eps eta,
  Rabs eps <= bpow radix2 (-24) /\ Rabs eta <= bpow radix2 (-150) /\ eps * eta = 0 /\
  rnd x = x * (1 + eps) + eta.
Proof.
  intros x. destruct (error_N_FLT radix2 (-149) 24 eq_refl (fun x => negb (Z.even x)) x)
    as (eps & eta & H1 & H2 & H3 & H4).
  exists eps, eta. repeat split; auto.
  - replace (bpow radix2 (-24)) with (/ 2 * bpow radix2 (- (24) + 1)); auto.
    change (/2) with (/ IZR 2). simpl. lra.
  - replace (bpow radix2 (-150)) with (/ 2 * bpow radix2 (-149)); auto.
    simpl. lra.
Qed.

Lemma rnd_near_1 : rnd (1 + bpow radix2 (-24)) = 1.
Proof.
  pose proof (lit_fx 16777217 (-24)) as [_ H].
  assert (E : lit 16777217 (-24) = f1) by (apply B2SF_inj; vm_compute; reflexivity).
  rewrite E, fx_f1 in H. symmetry.
  replace (1 + bpow radix2 (-24)) with (F2R (Float radix2 16777217 (-24))).
  2:{ unfold F2R. simpl. lra. }
  set (r := rnd (F2R (Float radix2 16777217 (-24)))) in *.
  assert (B : 1 < big) by (rewrite big_val; apply IZR_lt; reflexivity).
  unfold sat, Rmax, Rmin in H.
  destruct (Rle_dec big r); destruct (Rle_dec _ _); lra.
Qed.

(** p * fl(t/p) rounds to at most 1 when 0 <= t <= 1 and p is not huge. *)
Lemma quot_mul_le1 : forall t p, fin t -> nneg t -> fle t f1 = true ->
  fin p -> pos p -> B2R p <= bpow radix2 126 -> fin (fdiv t p) ->
  fin (fmul p (fdiv t p)) /\ B2R (fmul p (fdiv t p)) <= 1.
Proof.
  intros t p Ft Nt L1 Fp Pp Hp Fq.
  pose proof (B2R_pos p Fp Pp) as P0.
  assert (T0 : 0 <= B2R t) by (rewrite <- fx_fin by auto; now apply nneg_fx).
  assert (T1 : B2R t <= 1) by (apply fle_fx in L1; rewrite fx_f1, fx_fin in L1; auto).
  assert (Q : B2R (fdiv t p) = rnd (B2R t / B2R p)) by (apply B2R_fdiv; auto; lra).
  assert (Q0 : 0 <= B2R t / B2R p) by (apply Rdiv_nn; lra).
  assert (U : B2R p * B2R (fdiv t p) <= 1 + bpow radix2 (-24)).
  { destruct (rnd_err (B2R t / B2R p)) as (eps & eta & A & B & C & D).
    rewrite Q, D. apply Rmult_integral in C. apply Rabs_le_inv in A, B.
    assert (E : B2R p * (B2R t / B2R p * (1 + eps) + eta) = B2R t * (1 + eps) + B2R p * eta)
      by (field; lra).
    rewrite E. clear E Q Q0 D. assert (bpow radix2 126 * bpow radix2 (-150) = bpow radix2 (-24))
      by (rewrite <- bpow_plus; reflexivity).
    assert (0 < bpow radix2 (-24)) by apply bpow_gt_0.
    assert (0 < bpow radix2 (-150)) by apply bpow_gt_0.
    assert (0 < bpow radix2 126) by apply bpow_gt_0.
    destruct C as [-> | ->].
    - assert (B2R p * eta <= bpow radix2 126 * bpow radix2 (-150)) by nra. lra.
    - assert (B2R t * eps <= bpow radix2 (-24)) by nra. lra. }
  assert (W0 : 0 <= rnd (B2R p * B2R (fdiv t p))).
  { apply rnd_nonneg, Rmult_le_pos. lra. rewrite Q. now apply rnd_nonneg. }
  apply rnd_mono in U. rewrite rnd_near_1 in U.
  assert (1 < big) by (rewrite big_val; apply IZR_lt; reflexivity).
  destruct (fmul_fx p (fdiv t p) Fp Fq) as (N & V).
  rewrite sat_id in V by lra.
  assert (F : fin (fmul p (fdiv t p))). { apply fin_iff; auto. rewrite V. lra. }
  split; auto. rewrite fx_fin in V by auto. lra.
Qed.

(** Adding small non-negative terms one at a time stagnates: however many terms there
    are, a sum of terms <= 2^k never exceeds 2^(k+25). *)
Lemma rnd_stagnate : forall k r, (-149 <= k)%Z ->
  r <= bpow radix2 (k + 25) + bpow radix2 k -> rnd r <= bpow radix2 (k + 25).
Proof.
  intros k r Hk H. unfold rnd. apply round_N_le_midp.
  - apply valid_fexp32.
  - apply generic_format_bpow. unfold SpecFloat.fexp, SpecFloat.emin. lia.
  - rewrite succ_eq_pos by apply bpow_ge_0. rewrite ulp_bpow.
    replace (fexp32 (k + 25 + 1)) with (k + 2)%Z
      by (unfold SpecFloat.fexp, SpecFloat.emin; lia).
    assert (bpow radix2 (k + 2) = 4 * bpow radix2 k)
      by (rewrite bpow_plus; simpl (bpow radix2 2); lra).
    pose proof (bpow_gt_0 radix2 k). lra.
Qed.

Lemma fold_stagnate : forall k l acc, (-149 <= k <= 102)%Z ->
  Forall (fun x => fin x /\ 0 <= B2R x <= bpow radix2 k) l ->
  fin acc -> 0 <= B2R acc <= bpow radix2 (k + 25) ->
  fin (fold_left fadd l acc) /\ 0 <= B2R (fold_left fadd l acc) <= bpow radix2 (k + 25).
Proof.
  intros k l. induction l as [|x l IH]; intros acc Hk Hl Fa Ha; [now split|].
  cbn [fold_left]. apply IH; auto.
  - now apply Forall_inv_tail in Hl.
  - apply Forall_inv in Hl. destruct Hl as (Fx & Hx).
    destruct (fadd_fx acc x Fa Fx) as (N & V). apply fin_iff; auto. rewrite V.
    assert (R0 : 0 <= rnd (B2R acc + B2R x)) by (apply rnd_nonneg; lra).
    assert (R1 : rnd (B2R acc + B2R x) <= bpow radix2 (k + 25)) by (apply rnd_stagnate; [lia|lra]).
    assert (bpow radix2 (k + 25) < big) by (apply bpow_lt; lia).
    pose proof big_pos. rewrite sat_id; lra.
  - apply Forall_inv in Hl. destruct Hl as (Fx & Hx).
    destruct (fadd_fx acc x Fa Fx) as (N & V).
    assert (R0 : 0 <= rnd (B2R acc + B2R x)) by (apply rnd_nonneg; lra).
    assert (R1 : rnd (B2R acc + B2R x) <= bpow radix2 (k + 25)) by (apply rnd_stagnate; [lia|lra]).
    assert (bpow radix2 (k + 25) < big) by (apply bpow_lt; lia).
    pose proof big_pos. rewrite sat_id in V by lra.
    rewrite <- fx_fin, V; [lra|]. apply fin_iff; auto. rewrite V. lra.
Qed.

(** |x * g| <= 1 follows from peak * g not exceeding 1, for |x| <= peak. *)
Lemma scaled_not_gt1 : forall x p g, fin p -> (nn x -> fle (fabs x) p = true) ->
  (nn g -> nneg g) -> flt f1 (fmul p g) = false -> flt f1 (fabs (fmul x g)) = false.
Proof.
  intros x p g Fp Hx Hg H.
  destruct (is_nan (fmul x g)) eqn:N.
  { destruct (fmul x g); try discriminate N. reflexivity. }
  destruct (fmul_nan_inv x g N) as (Nx & Ng). specialize (Hx Nx). specialize (Hg Ng).
  assert (Fx : fin x).
  { rewrite <- fabs_fin. apply (fin_between f0 _ p); auto. apply fabs_nneg; auto. }
  pose proof (fle_fx _ _ Hx) as Lx. rewrite fabs_fx in Lx by auto. rewrite !fx_fin in Lx by auto.
  destruct (nneg_cases g Hg) as [(Fg & G0)| ->].
  - destruct (fmul_fx x g Fx Fg) as (_ & V). destruct (fmul_fx p g Fp Fg) as (Np & W).
    apply fle_flt_false, fle_intro; [now rewrite fabs_nn|reflexivity|].
    apply flt_false_fle in H; auto. apply fle_fx in H. rewrite fx_f1 in *.
    rewrite fabs_fx, V by auto. rewrite W in H.
    assert (A : B2R x * B2R g <= B2R p * B2R g).
    { apply Rmult_le_compat_r; auto. apply Rle_trans with (Rabs (B2R x)); auto. apply Rle_abs. }
    assert (B : - (B2R p * B2R g) <= B2R x * B2R g).
    { apply Rabs_le_inv in Lx. nra. }
    apply rnd_mono in A, B. rewrite rnd_opp in B. apply sat_mono in A, B.
    apply Rabs_le. split; [|lra].
    apply Rle_trans with (- sat (rnd (B2R p * B2R g))); [lra|].
    eapply Rle_trans; [|exact B]. set (r := rnd _). unfold sat, Rmax, Rmin.
    pose proof big_pos.
    destruct (Rle_dec big r); destruct (Rle_dec (- big) _); destruct (Rle_dec big (- r));
      destruct (Rle_dec (- big) _); try lra.
  - destruct (Req_dec (B2R p) 0) as [P0|P0].
    + assert (B2R x = 0). { apply Rabs_le_inv in Lx. lra. }
      destruct x as [s| | |s m e b]; try discriminate. 
      exfalso. simpl in H0. apply eq_0_F2R in H0. destruct s; discriminate.
    + assert (Pp : pos p). { apply flt_intro; auto. now apply fin_nn. rewrite fx_f0, fx_fin by auto.
        pose proof (Rabs_pos (B2R x)). lra. }
      rewrite fmul_comm, (fmul_inf_l p Pp) in H. discriminate H.
Qed.
