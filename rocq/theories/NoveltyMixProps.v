(** C82: the combined novelty curve is the weighted mean of the three curves, with the local mean
    removed, smoothed, relative to its maximum. *)
From Coq Require Import ZArith Bool List Arith Lia Reals Lra.
From Flocq Require Import Core IEEE754.BinarySingleNaN.
From Verif Require Import Rust F32 F32Facts F32More ListFacts FloatSums Bounds Libm Novelty NoveltyProofs Onsets
  FourierFacts AutocorrelationProofs AutocorrelationValueProofs SpectrumFacts TempoSpectrumFacts OnsetStrengthFacts NoveltyStrengthFacts NoveltyStrengthProps.
Import ListNotations.
Local Open Scope R_scope.

(** The mean of those of the values P (i-h), ..., P (i+h) that exist, out of P 0, ..., P (n-1). *)
Definition local_mean (P : nat -> R) (n h i : nat) : R :=
  let lo := (i - h)%nat in let hi := Nat.min (i + h + 1) n in
  sumn (fun k => P (lo + k)%nat) (hi - lo) / INR (hi - lo).

Lemma mean_val : forall x w i, Forall (upto 0) x -> (i < length x)%nat -> (Z.of_nat (length x) <= 1048576)%Z ->
  let P := fun j => B2R (nth j x f0) in
  upto 25 (window_mean x w i) /\ 0 <= local_mean P (length x) (w / 2) i <= 1 /\
  Rabs (B2R (window_mean x w i) - local_mean P (length x) (w / 2) i) <= (INR (length x) + 2) / 5000000 * local_mean P (length x) (w / 2) i + bpow radix2 (-100).
Proof.
  intros x w i H Hi Hn P. assert (U : upto 25 (window_mean x w i)) by (apply window_mean_upto; [eapply Forall_impl; [|exact H]; intros y Y; now apply in01_upto|exact Hi]).
  split; [exact U|]. unfold local_mean, window_mean in *. cbv zeta in *. set (h := (w / 2)%nat) in *. set (lo := (i - h)%nat) in *. set (hi := Nat.min (i + h + 1) (length x)) in *.
  assert (B : (lo < hi <= length x)%nat) by (unfold lo, hi; lia). set (m := (hi - lo)%nat) in *. assert (M1 : (1 <= m <= length x)%nat) by (unfold m; lia).
  assert (Ls : length (slice x lo hi) = m) by (apply slice_length; lia).
  assert (Fs : Forall (upto 0) (slice x lo hi)) by (now apply slice_Forall).
  pose proof (upto_sum 0 _ ltac:(lia) Fs) as Us. change (0 + 25)%Z with 25%Z in Us.
  assert (S := sum_near (slice x lo hi) (fun k => P (lo + k)%nat) 0 0). cbv zeta in S. rewrite Ls in S.
  assert (P01 : forall j, 0 <= P j <= 1).
  { intros j. unfold P. destruct (Nat.lt_ge_cases j (length x)) as [J|J]; [|rewrite nth_overflow by lia; change (B2R f0) with 0; lra]. rewrite Forall_forall in H. destruct (H (nth j x f0) ltac:(now apply nth_In)) as (_ & ?). change (bpow radix2 0) with 1 in *. lra. }
  assert (S' : Rabs (B2R (fsum (slice x lo hi)) - sumn (fun k => P (lo + k)%nat) m) <= (0 + INR m / 6000000) * sumn (fun k => P (lo + k)%nat) m + 2 * (INR m * 0)).
  { apply S; [eapply Forall_impl; [|exact Fs]; intros y; apply upto_nneg|apply Us|lia|lra|lra|]. intros k Hk. split; [apply P01|].
    rewrite slice_nth by (unfold m in Hk; lia). unfold P. rewrite Rminus_eq_0, Rabs_R0. pose proof (P01 (lo + k)%nat). unfold P in *. lra. } clear S.
  destruct (n2f_INR m ltac:(lia)) as (Fm & Em). set (T := sumn (fun k => P (lo + k)%nat) m) in *.
  assert (T0 : 0 <= T) by (apply sumn_nonneg; intros; apply P01).
  assert (Tm : T <= INR m). { unfold T. apply Rle_trans with (sumn (fun _ => 1) m); [apply sumn_le; intros; apply P01|]. rewrite sumn_const. lra. }
  assert (Mr : 1 <= INR m) by (apply (le_INR 1); lia). assert (Mn : INR m <= INR (length x)) by (apply le_INR; lia).
  assert (Q01 : 0 <= T / INR m <= 1) by (split; [apply quot_nonneg; lra|apply quot_le_1; lra]). split; [exact Q01|].
  rewrite B2R_fdiv by (first [apply U|rewrite Em; lra]). rewrite Em. set (q := B2R (fsum (slice x lo hi))) in *.
  assert (q0 : 0 <= q) by apply Us. pose proof (rnd_near (q / INR m)) as R. rewrite (Rabs_pos_eq (q / INR m)) in R by (apply quot_nonneg; lra).
  assert (D : Rabs (q / INR m - T / INR m) <= INR m / 6000000 * (T / INR m)).
  { replace (q / INR m - T / INR m) with ((q - T) * / INR m) by (unfold Rdiv; ring). rewrite Rabs_mult, (Rabs_pos_eq (/ INR m)) by (left; apply Rinv_0_lt_compat; lra).
    replace (INR m / 6000000 * (T / INR m)) with ((0 + INR m / 6000000) * T * / INR m) by (unfold Rdiv; ring). apply Rmult_le_compat_r; [left; apply Rinv_0_lt_compat; lra|lra]. }
  assert (TT : tiny <= bpow radix2 (-100)) by (apply bpow_le; lia). set (v := rnd (q / INR m)) in *. set (y := q / INR m) in *. set (z := T / INR m) in *. set (N := INR (length x)) in *.
  assert (Nb : N <= 1048576) by (unfold N; rewrite INR_IZR_INZ; now apply IZR_le). set (M := INR m) in *. clearbody v y z N M. clear - R D TT Q01 Mn Mr Nb. unfold u24 in *.
  assert (Mz : M * z <= N * z) by (apply Rmult_le_compat_r; lra). replace (M / 6000000 * z) with (M * z / 6000000) in D by (unfold Rdiv; ring).
  replace ((N + 2) / 5000000 * z) with (N * z / 5000000 + 2 * z / 5000000) by (unfold Rdiv; ring). assert (0 <= M * z) by nra. assert (M * z <= 1048576 * z) by nra.
  apply Rabs_le_inv in R. apply Rabs_le_inv in D. apply Rabs_le. split; lra.
Qed.

(** The weighted mean; negative weights count as 0 and the divisor is at least 1e-10. *)
Definition weight (w : f32) : R := Rmax 0 (B2R w).
Definition mix (s e h ws we wh : f32) : R :=
  (weight ws * B2R s + weight we * B2R e + weight wh * B2R h) / Rmax (weight ws + weight we + weight wh) floor10.

Lemma mix_val : forall s e h ws we wh, upto 0 s -> upto 0 e -> upto 0 h -> (forall w, In w [ws; we; wh] -> fin w /\ B2R w <= bpow radix2 100) ->
  let v := fdiv (fadd (fadd (fmul s (fmax ws f0)) (fmul e (fmax we f0))) (fmul h (fmax wh f0))) (fmax (fadd (fadd (fmax ws f0) (fmax we f0)) (fmax wh f0)) nov_eps) in
  upto 0 v /\ 0 <= mix s e h ws we wh <= 1 /\ Rabs (B2R v - mix s e h ws we wh) <= 10 * u24 * mix s e h ws we wh + bpow radix2 (-100).
Proof.
  intros s e h ws we wh Us Ue Uh Hw v.
  assert (G : forall w, In w [ws; we; wh] -> upto 100 (fmax w f0) /\ B2R (fmax w f0) = weight w).
  { intros w I. destruct (Hw w I) as (F & B). destruct (fmax_B2R w f0 F eq_refl) as (Fm & Em). change (B2R f0) with 0 in Em. rewrite Rmax_comm in Em. split; [|exact Em].
    split; [exact Fm|]. rewrite Em. split; [apply Rmax_l|]. apply Rmax_lub; [apply bpow_ge_0|exact B]. }
  destruct (G ws ltac:(cbn; auto)) as (U1 & E1). destruct (G we ltac:(cbn; auto)) as (U2 & E2). destruct (G wh ltac:(cbn; auto)) as (U3 & E3). clear G Hw.
  assert (Uv : upto 0 v) by (apply in01_upto; apply weighted_unit; try (now apply in01_upto); apply (upto_mono 100); auto; lia).
  split; [exact Uv|]. unfold mix. rewrite <- E1, <- E2, <- E3. unfold v in *. clear v.
  set (a := fmax ws f0) in *. set (b := fmax we f0) in *. set (c := fmax wh f0) in *. clearbody a b c. clear E1 E2 E3 ws we wh.
  pose proof (upto_mul 0 100 s a ltac:(lia) Us U1) as P1. pose proof (upto_mul 0 100 e b ltac:(lia) Ue U2) as P2. pose proof (upto_mul 0 100 h c ltac:(lia) Uh U3) as P3. change (0 + 100)%Z with 100%Z in *.
  pose proof (upto_add 100 _ _ ltac:(lia) P1 P2) as P4. change (100 + 1)%Z with 101%Z in P4. pose proof (upto_add 101 _ _ ltac:(lia) P4 (upto_mono 100 101 _ ltac:(lia) P3)) as P5.
  pose proof (upto_add 100 _ _ ltac:(lia) U1 U2) as Q4. change (100 + 1)%Z with 101%Z in Q4. pose proof (upto_add 101 _ _ ltac:(lia) Q4 (upto_mono 100 101 _ ltac:(lia) U3)) as Q5.
  destruct on_eps_val as (Fe & Ee). change nov_eps with on_eps in *. destruct (fmax_B2R (fadd (fadd a b) c) on_eps (upto_fin _ _ Q5) Fe) as (Fw & Ew). rewrite Ee in Ew.
  assert (D0 : floor10 <= B2R (fmax (fadd (fadd a b) c) on_eps)) by (rewrite Ew; apply Rmax_r).
  assert (K10 : 0 < floor10) by (unfold floor10; lra).
  rewrite B2R_fdiv by (first [apply Uv|lra]). rewrite Ew. rewrite Ew in D0. clear Uv Fw Ew Ee Fe.
  rewrite (B2R_fadd (fadd (fmul s a) (fmul e b))) by (first [apply P5|apply P4|apply P3]). rewrite (B2R_fadd (fmul s a)) by (first [apply P4|apply P1|apply P2]).
  rewrite (B2R_fadd (fadd a b)) in * by (first [apply Q5|apply Q4|apply U3]). rewrite (B2R_fadd a) in * by (first [apply Q4|apply U1|apply U2]).
  rewrite (B2R_fmul s) by apply P1. rewrite (B2R_fmul e) by apply P2. rewrite (B2R_fmul h) by apply P3.
  clear P1 P2 P3 P4 P5 Q4 Q5. destruct Us as (_ & S). destruct Ue as (_ & E). destruct Uh as (_ & H). destruct U1 as (_ & A & _). destruct U2 as (_ & B & _). destruct U3 as (_ & C & _). change (bpow radix2 0) with 1 in *.
  set (xs := B2R s) in *. set (xe := B2R e) in *. set (xh := B2R h) in *. set (wa := B2R a) in *. set (wb := B2R b) in *. set (wc := B2R c) in *. clearbody xs xe xh wa wb wc.
  pose proof tiny_pos as TP.
  assert (Np : forall x, 0 <= x -> 0 <= rnd x /\ Rabs (rnd x - x) <= u24 * x + tiny).
  { intros x X. split; [now apply rnd_nonneg|]. pose proof (rnd_near x) as R. now rewrite (Rabs_pos_eq x) in R by exact X. }
  assert (A1 : 0 <= xs * wa <= wa) by nra. assert (A2 : 0 <= xe * wb <= wb) by nra. assert (A3 : 0 <= xh * wc <= wc) by nra.
  rewrite (Rmult_comm wa xs), (Rmult_comm wb xe), (Rmult_comm wc xh).
  destruct (Np _ (proj1 A1)) as (B1 & R1). destruct (Np _ (proj1 A2)) as (B2 & R2). destruct (Np _ (proj1 A3)) as (B3 & R3). set (p1 := rnd (xs * wa)) in *. set (p2 := rnd (xe * wb)) in *. set (p3 := rnd (xh * wc)) in *.
  destruct (Np (p1 + p2) ltac:(lra)) as (B4 & R4). set (p4 := rnd (p1 + p2)) in *. destruct (Np (p4 + p3) ltac:(lra)) as (B5 & R5). set (p5 := rnd (p4 + p3)) in *.
  destruct (Np (wa + wb) ltac:(lra)) as (C4 & T4). set (q4 := rnd (wa + wb)) in *. destruct (Np (q4 + wc) ltac:(lra)) as (C5 & T5). set (q5 := rnd (q4 + wc)) in *.
  set (x := xs * wa + xe * wb + xh * wc). set (d := wa + wb + wc).
  assert (X : Rabs (p5 - x) <= 4 * u24 * x + 8 * tiny).
  { unfold x. clear T4 T5 C4 C5 D0. clearbody p1 p2 p3 p4 p5. unfold u24 in *. apply Rabs_le_inv in R1. apply Rabs_le_inv in R2. apply Rabs_le_inv in R3. apply Rabs_le_inv in R4. apply Rabs_le_inv in R5. apply Rabs_le. lra. }
  assert (D : Rabs (q5 - d) <= 3 * u24 * d + 4 * tiny).
  { unfold d. clear R1 R2 R3 R4 R5 D0. clearbody q4 q5. unfold u24 in *. apply Rabs_le_inv in T4. apply Rabs_le_inv in T5. apply Rabs_le. lra. }
  assert (x0 : 0 <= x <= d) by (unfold x, d; lra). clear R1 R2 R3 R4 R5 T4 T5. clearbody p5 q5 x d. clear - X D x0 D0 TP K10 Np B5.
  set (m := Rmax d floor10). set (w := Rmax q5 floor10) in *.
  assert (M : floor10 <= m /\ d <= m) by (split; [apply Rmax_r|apply Rmax_l]).
  assert (TF : tiny <= u24 * floor10 * / 1000).
  { apply Rle_trans with (bpow radix2 (-68)); [apply bpow_le; lia|]. change (bpow radix2 (-68)) with (/ 295147905179352825856). unfold u24, floor10. lra. }
  assert (W : Rabs (w - m) <= 4 * u24 * m).
  { assert (Rabs (w - m) <= Rabs (q5 - d)). { unfold w, m. unfold Rmax. destruct (Rle_dec q5 floor10), (Rle_dec d floor10); unfold Rabs; repeat destruct (Rcase_abs _); lra. }
    eapply Rle_trans; [eassumption|]. eapply Rle_trans; [exact D|]. unfold u24 in *. lra. }
  clearbody m w. clear D. assert (M0 : 0 < m) by lra. assert (W0 : 0 < w) by lra.
  assert (Z01 : 0 <= x / m <= 1) by (split; [apply quot_nonneg; lra|apply quot_le_1; lra]). split; [exact Z01|].
  assert (MW : m / w <= 1 + 5 * u24). { apply Rmult_le_reg_r with w; [lra|]. unfold Rdiv. rewrite Rmult_assoc, Rinv_l, Rmult_1_r by lra. apply Rabs_le_inv in W. unfold u24 in *. nra. }
  destruct (Np (p5 / w) ltac:(apply quot_nonneg; lra)) as (_ & R). set (z := x / m) in *. assert (Ex : x = z * m) by (unfold z; field; lra).
  assert (T100 : tiny / w <= bpow radix2 (-110)).
  { apply Rmult_le_reg_r with w; [exact W0|]. unfold Rdiv. rewrite Rmult_assoc, Rinv_l, Rmult_1_r by lra. apply Rle_trans with (bpow radix2 (-110) * bpow radix2 (-34)).
    - rewrite <- bpow_plus. apply bpow_le. lia.
    - apply Rmult_le_compat_l; [apply bpow_ge_0|]. change (bpow radix2 (-34)) with (/ 17179869184). unfold floor10 in D0. lra. }
  assert (K : Rabs (p5 / w - z) <= 17 / 2 * u24 * z + 8 * (tiny / w)).
  { replace (p5 / w - z) with ((p5 - x) / w + z * ((m - w) / w)) by (rewrite Ex; field; lra). eapply Rle_trans; [apply Rabs_triang|].
    assert (I0 : 0 < / w) by now apply Rinv_0_lt_compat.
    assert (Y1 : Rabs ((p5 - x) / w) <= 4 * u24 * (z * (m / w)) + 8 * (tiny / w)).
    { unfold Rdiv at 1. rewrite Rabs_mult, (Rabs_pos_eq (/ w)) by lra. replace (4 * u24 * (z * (m / w)) + 8 * (tiny / w)) with ((4 * u24 * x + 8 * tiny) * / w) by (rewrite Ex; field; lra). apply Rmult_le_compat_r; lra. }
    assert (Y2 : Rabs (z * ((m - w) / w)) <= z * (4 * u24 * (m / w))).
    { rewrite Rabs_mult, (Rabs_pos_eq z) by lra. apply Rmult_le_compat_l; [lra|]. unfold Rdiv at 1. rewrite Rabs_mult, (Rabs_pos_eq (/ w)) by lra. rewrite Rabs_minus_sym.
      replace (4 * u24 * (m / w)) with (4 * u24 * m * / w) by (unfold Rdiv; ring). apply Rmult_le_compat_r; lra. }
    assert (Zr : z * (m / w) <= z * (1 + 5 * u24)) by (apply Rmult_le_compat_l; lra). set (r := z * (m / w)) in *.
    replace (z * (4 * u24 * (m / w))) with (4 * u24 * r) in Y2 by (unfold r; ring). unfold u24 in *. lra. }
  assert (T1 : tiny <= bpow radix2 (-110)) by (apply bpow_le; lia). assert (E1 : bpow radix2 (-100) = 1024 * bpow radix2 (-110)) by (change 1024 with (bpow radix2 10); rewrite <- bpow_plus; reflexivity).
  rewrite E1. set (t := bpow radix2 (-110)) in *. set (q := p5 / w) in *. set (v := rnd q) in *. set (tw := tiny / w) in *. clearbody t q v tw. clear - R K T1 T100 Z01 TP. unfold u24 in *.
  apply Rabs_le_inv in R. apply Rabs_le_inv in K. apply Rabs_le. lra.
Qed.

(** The stages: a is the weighted mean of the inputs; b is a relative to its maximum; c is what b
    exceeds its local mean by; d is the local mean of c; the result is d relative to its maximum.
    A window of w frames reaches w/2 to either side, so an even window covers w + 1 frames. *)
Theorem C82_stages : forall s e h ws we wh mw sw,
  let inside := Forall (fun x => fin x /\ 0 <= B2R x <= 1) in
  inside s -> inside e -> inside h -> (forall w, In w [ws; we; wh] -> fin w /\ B2R w <= bpow radix2 100) ->
  let n := Nat.min (length s) (Nat.min (length e) (length h)) in
  (1 <= n)%nat -> (Z.of_nat n <= 1048576)%Z ->
  exists (a : nat -> R) (b : list f32) (c d : nat -> R), let B := fun j => B2R (nth j b f0) in
    (forall i, (i < n)%nat -> let m := mix (nth i s f0) (nth i e f0) (nth i h f0) ws we wh in Rabs (a i - m) <= 10 * u24 * m + bpow radix2 (-100)) /\
    relative_to_max a n b /\
    (forall i, (i < n)%nat -> if (mw <=? 1)%nat then c i = B i
       else Rabs (c i - Rmax 0 (B i - local_mean B n (mw / 2) i)) <= (INR n + 3) / 5000000) /\
    (forall i, (i < n)%nat -> if ((sw <=? 1) || (n <? 3))%nat%bool then d i = c i
       else Rabs (d i - local_mean c n (sw / 2) i) <= (INR n + 2) / 5000000 * local_mean c n (sw / 2) i + bpow radix2 (-100)) /\
    relative_to_max d n (combined_novelty_with_params s e h ws we wh mw sw).
Proof.
  intros s e h ws we wh mw sw inside Hs He Hh Hw n N1 Hn.
  assert (IU : forall l, inside l -> Forall (upto 0) l).
  { intros l Hl. eapply Forall_impl; [|exact Hl]. intros x (F & B). split; [exact F|]. change (bpow radix2 0) with 1. exact B. }
  unfold combined_novelty_with_params. cbv zeta. set (raw := map _ (combine s (combine e h))).
  assert (Lr : length raw = n) by (unfold raw; rewrite map_length, !combine_length; reflexivity).
  assert (Nr : forall i, (i < n)%nat -> nth i raw f0 = (let s' := nth i s f0 in let e' := nth i e f0 in let h' := nth i h f0 in
     fdiv (fadd (fadd (fmul s' (fmax ws f0)) (fmul e' (fmax we f0))) (fmul h' (fmax wh f0))) (fmax (fadd (fadd (fmax ws f0) (fmax we f0)) (fmax wh f0)) nov_eps))).
  { intros i Hi. apply nth_error_nth. unfold raw. rewrite nth_error_map.
    assert (C : forall (A B : Type) (x : list A) (y : list B) dx dy, (i < length x)%nat -> (i < length y)%nat -> nth_error (combine x y) i = Some (nth i x dx, nth i y dy)).
    { intros A B x. clear. revert i. induction x as [|u x IH]; intros i y dx dy X Y; [cbn in X; lia|]. destruct y as [|v y]; [cbn in Y; lia|]. destruct i as [|i]; [reflexivity|]. cbn in *. apply IH; lia. }
    rewrite (C _ _ s (combine e h) f0 (f0, f0)) by (rewrite ?combine_length; unfold n in Hi; lia). cbn [option_map].
    assert (X : nth i (combine e h) (f0, f0) = (nth i e f0, nth i h f0)). { apply nth_error_nth. apply C; unfold n in Hi; lia. } rewrite X. reflexivity. }
  assert (NU : forall l i, inside l -> upto 0 (nth i l f0)).
  { intros l i Hl. destruct (Nat.lt_ge_cases i (length l)) as [J|J]; [|rewrite nth_overflow by lia; apply upto_0]. pose proof (IU l Hl) as F. rewrite Forall_forall in F. now apply F, nth_In. }
  assert (Ra : Forall (upto 0) raw). { apply Forall_forall. intros x I. destruct (In_nth _ _ f0 I) as (i & Hi & <-). rewrite Nr by lia. cbv zeta. apply mix_val; auto. }
  exists (fun i => B2R (nth i raw f0)), (normalize raw).
  assert (R1 : relative_to_max (fun i => B2R (nth i raw f0)) n (normalize raw)) by (rewrite <- Lr; apply (by_max raw 0); [exact Ra|lia|lia]).
  assert (L1 : length (normalize raw) = n) by (now rewrite normalize_length).
  assert (U1 : Forall (upto 0) (normalize raw)).
  { eapply Forall_impl; [|apply (proj1 (normalize_spec raw (Forall_upto_norm 0 raw Ra)))]. intros x X. now apply in01_upto. }
  assert (M1 : forall i, (i < n)%nat -> let m := mix (nth i s f0) (nth i e f0) (nth i h f0) ws we wh in Rabs (B2R (nth i raw f0) - m) <= 10 * u24 * m + bpow radix2 (-100)).
  { intros i Hi. rewrite Nr by exact Hi. cbv zeta. apply mix_val; auto. }
  set (b := normalize raw) in *. clearbody b raw. clear Nr Ra Lr.
  set (cl := if (1 <? mw)%nat then local_mean_subtract b mw else b).
  assert (Lc : length cl = n) by (unfold cl; destruct (1 <? mw)%nat; [rewrite lms_length|]; exact L1).
  assert (Uc : Forall (upto 0) cl).
  { unfold cl. destruct (1 <? mw)%nat; [|exact U1]. eapply Forall_impl; [|apply lms_unit; eapply Forall_impl; [|exact U1]; intros y Y; now apply in01_upto]. intros y Y. now apply in01_upto. }
  set (dl := if (1 <? sw)%nat then smooth cl sw else cl).
  assert (Ld : length dl = n) by (unfold dl; destruct (1 <? sw)%nat; [rewrite smooth_length|]; exact Lc).
  assert (Ud : Forall (upto 25) dl).
  { unfold dl. destruct (1 <? sw)%nat; [apply smooth_upto|]; eapply Forall_impl; [|exact Uc| |exact Uc]; intros y Y; [now apply in01_upto|apply (upto_mono 0); [lia|exact Y]]. }
  exists (fun i => B2R (nth i cl f0)), (fun i => B2R (nth i dl f0)). cbv zeta. split; [exact M1|]. split; [exact R1|]. split; [|split].
  - intros i Hi. unfold cl. rewrite (Nat.leb_antisym 1 mw). destruct (Nat.ltb_spec 1 mw) as [W|W]; cbn [negb]; [|reflexivity]. unfold local_mean_subtract. destruct (Nat.eqb_spec mw 0); [lia|].
    rewrite nth_map_combine_seq by lia. cbn [fst snd]. rewrite Nat.add_0_l.
    destruct (mean_val b mw i U1 ltac:(lia) ltac:(lia)) as (Um & M01 & Em). rewrite L1 in *. set (P := fun j : nat => B2R (nth j b f0)) in *.
    assert (Ub : upto 0 (nth i b f0)) by (rewrite Forall_forall in U1; apply U1, nth_In; lia).
    pose proof (within_sub 25 _ _ ltac:(lia) (upto_within _ _ (upto_mono 0 25 _ ltac:(lia) Ub)) (upto_within _ _ Um)) as Wd. pose proof (within_fin _ _ Wd) as Fd.
    rewrite (proj2 (fmax_B2R _ f0 Fd eq_refl)). change (B2R f0) with 0. rewrite B2R_fsub by (first [exact Fd|apply Ub|apply Um]).
    destruct Ub as (_ & B0 & B1). change (bpow radix2 0) with 1 in B1. destruct Um as (_ & W0 & _). pose proof (rnd_near (B2R (nth i b f0) - B2R (window_mean b mw i))) as R.
    change (B2R (nth i b f0)) with (P i) in *. set (x := P i) in *. set (m := B2R (window_mean b mw i)) in *. set (z := local_mean P n (mw / 2) i) in *.
    assert (Nb : INR n <= 1048576) by (rewrite INR_IZR_INZ; now apply IZR_le). pose proof (pos_INR n) as N0.
    assert (T : tiny + bpow radix2 (-100) <= / 100000000).
    { assert (tiny <= bpow radix2 (-30)) by (apply bpow_le; lia). assert (bpow radix2 (-100) <= bpow radix2 (-30)) by (apply bpow_le; lia). change (bpow radix2 (-30)) with (/ 1073741824) in *. lra. }
    assert (Zb : (INR n + 2) / 5000000 * z <= (INR n + 2) / 5000000 * 1) by (apply Rmult_le_compat_l; lra).
    pose proof tiny_pos as TP. assert (Mx : m <= 5 / 4) by (apply Rabs_le_inv in Em; lra). set (y := x - m) in *. assert (Y : Rabs y <= 5 / 4) by (apply Rabs_le; unfold y; lra).
    assert (Ry : Rabs (rnd y - y) <= 5 / 4 * u24 + tiny) by (unfold u24 in *; lra). set (v := rnd y) in *.
    rewrite (Rmax_comm v 0). assert (Rabs (Rmax 0 v - Rmax 0 (x - z)) <= Rabs (v - (x - z))).
    { unfold Rmax. destruct (Rle_dec 0 v), (Rle_dec 0 (x - z)); unfold Rabs; repeat destruct (Rcase_abs _); lra. }
    eapply Rle_trans; [eassumption|]. apply Rabs_le_inv in Ry. apply Rabs_le_inv in Em. apply Rabs_le. unfold u24, y in *. lra.
  - intros i Hi. unfold dl. rewrite (Nat.leb_antisym 1 sw). destruct (Nat.ltb_spec 1 sw) as [W|W]; cbn [negb orb]; [|reflexivity]. unfold smooth. rewrite Lc.
    destruct (Nat.leb_spec sw 1); [lia|]. rewrite Bool.orb_false_r. destruct (Nat.ltb_spec n 3) as [N3|N3]; [reflexivity|].
    rewrite (nth_indep _ f0 (window_mean cl sw 0)) by (now rewrite map_length, seq_length). rewrite map_nth, seq_nth by exact Hi. cbn [Nat.add].
    destruct (mean_val cl sw i Uc ltac:(lia) ltac:(lia)) as (_ & _ & Em). rewrite Lc in Em. exact Em.
  - rewrite <- Ld. apply (by_max dl 25); [exact Ud|lia|lia].
Qed.
Print Assumptions C82_stages.

(** The default weights are 0.5, 0.3 and 0.2. *)
Theorem C82_default : forall s e h, upto 0 s -> upto 0 e -> upto 0 h ->
  Rabs (mix s e h (lit 1 (-1)) (lit 5033165 (-24)) (lit 13421773 (-26)) - (5 * B2R s + 3 * B2R e + 2 * B2R h) / 10) <= / 10000000.
Proof.
  intros s e h (_ & S) (_ & E) (_ & H). change (bpow radix2 0) with 1 in *. unfold mix, weight.
  assert (L1 : B2R (lit 1 (-1)) = / 2).
  { rewrite <- SF2R_B2SF. replace (B2SF (lit 1 (-1))) with (SpecFloat.S754_finite false 8388608 (-24)) by (vm_compute; reflexivity). unfold SF2R, F2R. cbn [cond_Zopp Fnum Fexp]. change (bpow radix2 (-24)) with (/ 16777216). lra. }
  assert (L2 : B2R (lit 5033165 (-24)) = 5033165 / 16777216).
  { rewrite <- SF2R_B2SF. replace (B2SF (lit 5033165 (-24))) with (SpecFloat.S754_finite false 10066330 (-25)) by (vm_compute; reflexivity). unfold SF2R, F2R. cbn [cond_Zopp Fnum Fexp]. change (bpow radix2 (-25)) with (/ 33554432). lra. }
  assert (L3 : B2R (lit 13421773 (-26)) = 13421773 / 67108864).
  { rewrite <- SF2R_B2SF. replace (B2SF (lit 13421773 (-26))) with (SpecFloat.S754_finite false 13421773 (-26)) by (vm_compute; reflexivity). unfold SF2R, F2R. cbn [cond_Zopp Fnum Fexp]. change (bpow radix2 (-26)) with (/ 67108864). lra. }
  rewrite L1, L2, L3. rewrite !Rmax_right with (x := 0) by lra. rewrite Rmax_left by (unfold floor10; lra). set (x := B2R s) in *. set (y := B2R e) in *. set (z := B2R h) in *. clearbody x y z.
  apply Rabs_le. unfold Rdiv. split; lra.
Qed.
Print Assumptions C82_default.

(** The curve 0, 1, 0.5, 0 minus its local means 1/2, 1/2, 1/2, 1/4 is 0, 1/2, 0, 0; its local means
    are 1/4, 1/6, 1/6, 0.  The first one is taken over two frames only, so the maximum moves to the
    frame before the onset. *)
Example C82_case :
  let P := fun j => nth j [0; 1; / 2; 0] 0 in let C := fun j => nth j [0; / 2; 0; 0] 0 in
  map (local_mean P 4 1) [0; 1; 2; 3]%nat = [/ 2; / 2; / 2; / 4] /\
  map (local_mean C 4 1) [0; 1; 2; 3]%nat = [/ 4; / 6; / 6; 0] /\
  map B2SF (combined_novelty_with_params [f0; f1; fhalf; f0] [f0; f0; f0; f0] [f0; f0; f0; f0] f1 f0 f0 2 2) = map B2SF [f1; fdiv f2 (z2f 3); fdiv f2 (z2f 3); f0].
Proof.
  cbv zeta. split; [|split]; [| |vm_compute; reflexivity].
  - unfold local_mean. cbn [map Nat.sub Nat.add Nat.min sumn nth INR]. repeat f_equal; lra.
  - unfold local_mean. cbn [map Nat.sub Nat.add Nat.min sumn nth INR]. repeat f_equal; lra.
Qed.
