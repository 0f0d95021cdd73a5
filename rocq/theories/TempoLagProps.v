(** C83: the autocorrelation tempogram measures the mean product of values one beat apart, finds the
    period of a pulse train, and gives no confidence to a tempo that shares its lag. *)
From Coq Require Import ZArith Bool List Arith Lia Sorted Permutation Reals Lra Psatz.
From Flocq Require Import Core IEEE754.BinarySingleNaN.
From Verif Require Import Rust F32 F32Facts F32More ListFacts FloatSums Bounds Libm Sorting SortingFacts PeakPicking PeakPickingProofs
  BpmLoop BpmLoopProofs Autocorrelation AutocorrelationProofs AutocorrelationValueProofs CombFilterProofs NormalizationProofs NoveltyProofs TempoSpectra TempoSpectraProps
  FourierFacts SpectrumFacts TempoSpectrumFacts OnsetStrengthFacts NoveltyStrengthFacts.
Import ListNotations.
Local Open Scope R_scope.

(** The number of frames in a beat at tempo x. *)
Definition beat_frames (rate hop : nat) (x : f32) : R := 60 * INR rate / (INR hop * B2R x).

(** The mean of the products of the values L frames apart. *)
Definition mean_product (nov : list f32) (L : nat) : R :=
  if (length nov <=? L)%nat then 0
  else sumn (fun i => B2R (nth i nov f0) * B2R (nth (i + L) nov f0)) (length nov - L) / INR (length nov - L).

(** L whole frames fit into a beat of tau frames, and L + 1 do not, up to rounding. *)
Definition whole_frames (tau : R) (L : nat) : Prop := INR L <= tau * (1 + / 2000000) /\ tau * (1 - / 2000000) < INR L + 1.

Lemma rnd_rel : forall r, bpow radix2 (-60) <= r -> Rabs (rnd r - r) <= / 16500000 * r.
Proof.
  intros r H. assert (0 < bpow radix2 (-60)) by apply bpow_gt_0. pose proof (rnd_near r) as N. rewrite (Rabs_pos_eq r) in N by lra.
  assert (T : tiny <= bpow radix2 (-90) * r). { unfold tiny. replace (-150)%Z with (-90 + -60)%Z by lia. rewrite bpow_plus. apply Rmult_le_compat_l; [apply bpow_ge_0|lra]. }
  assert (B : bpow radix2 (-90) <= / 1000000000000). { eapply Rle_trans; [apply (bpow_le radix2 _ (-40)); lia|]. simpl. lra. }
  unfold u24 in N. nra.
Qed.

Lemma quot_rel : forall a b A B e d, 0 < A -> 0 < B -> 0 <= e <= / 1000 -> 0 <= d <= / 1000 -> Rabs (a - A) <= e * A -> Rabs (b - B) <= d * B ->
  (1 - e - d) * (A / B) <= a / b <= (1 + e + 2 * d) * (1 + d) * (A / B).
Proof.
  intros a b A B e d HA HB He Hd Ha Hb. apply Rabs_le_inv in Ha, Hb. assert (b0 : 0 < b) by nra. assert (a0 : 0 < a) by nra.
  assert (Q : 0 < A / B) by (apply Rdiv_lt_0_compat; lra). set (q := A / B) in *. assert (EA : A = q * B) by (unfold q; field; lra). assert (Ea : a = a / b * b) by (field; lra).
  set (r := a / b) in *. clearbody q r. assert (r0 : 0 < r) by (destruct (Rlt_or_le 0 r); [auto|nra]). subst A.
  split.
  - destruct (Rle_or_lt ((1 - e - d) * q) r); [auto|exfalso]. assert (r * b < (1 - e - d) * q * b) by nra. assert (b * ((1 - e - d) * q) <= (1 + d) * B * ((1 - e - d) * q)) by (apply Rmult_le_compat_r; nra).
    assert ((1 + d) * (1 - e - d) <= 1 - e) by nra. assert (0 < q * B) by nra. assert ((1 + d) * B * ((1 - e - d) * q) <= (1 - e) * (q * B)) by nra. nra.
  - destruct (Rle_or_lt r ((1 + e + 2 * d) * (1 + d) * q)); [auto|exfalso]. assert ((1 + e + 2 * d) * (1 + d) * q * b < r * b) by nra. assert (QB : 0 < q * B) by nra.
    assert ((1 + e + 2 * d) * (1 + d) * q * ((1 - d) * B) <= (1 + e + 2 * d) * (1 + d) * q * b) by (apply Rmult_le_compat_l; nra).
    assert (1 + e <= (1 + e + 2 * d) * (1 + d) * (1 - d)) by (assert (0 <= e * d) by nra; assert (e * d <= / 1000 * d) by nra; assert (d * d <= / 1000 * d) by nra; nra).
    nra.
Qed.

Lemma lag_val : forall rate hop x, (1 <= Z.of_nat rate <= 16777216)%Z -> (1 <= Z.of_nat hop <= 16777216)%Z -> fin x -> 1 <= B2R x <= 1048576 ->
  exists L, tempo_lag rate hop x = Z.of_nat L /\ whole_frames (beat_frames rate hop x) L.
Proof.
  intros rate hop x Hr Hh Fx Bx. destruct (n2f_INR rate ltac:(lia)) as (Fr & Er). destruct (n2f_INR hop ltac:(lia)) as (Fh & Eh).
  assert (R : 1 <= INR rate <= 16777216) by (rewrite INR_IZR_INZ; split; apply IZR_le; lia).
  assert (H : 1 <= INR hop <= 16777216) by (rewrite INR_IZR_INZ; split; apply IZR_le; lia).
  set (a := INR rate / INR hop). assert (A : / 16777216 <= a <= 16777216).
  { unfold a. split; [apply Rmult_le_reg_r with (INR hop); [lra|]; unfold Rdiv; rewrite Rmult_assoc, Rinv_l by lra; nra|]. apply Rmult_le_reg_r with (INR hop); [lra|]. unfold Rdiv. rewrite Rmult_assoc, Rinv_l by lra. nra. }
  set (b := B2R x / 60). assert (B : / 60 <= b <= 20000) by (unfold b; lra).
  assert (P60 : bpow radix2 (-60) <= / 10000000000000). { eapply Rle_trans; [apply (bpow_le radix2 _ (-45)); lia|]. simpl. lra. }
  assert (BIG : 100000000000 <= big). { apply Rle_trans with (bpow radix2 37); [simpl; lra|apply bpow_le; lia]. }
  destruct (z2f_exact 60 ltac:(lia)) as (F60 & E60).
  destruct (fdiv_fx (n2f rate) (n2f hop) Fr Fh ltac:(rewrite Eh; lra)) as (N1 & V1). rewrite Er, Eh in V1. fold a in V1. pose proof (rnd_rel a ltac:(lra)) as Ra. pose proof (Rabs_le_inv _ _ Ra) as Ra'.
  rewrite sat_id in V1 by lra. assert (F1 : fin (fdiv (n2f rate) (n2f hop))) by (apply fin_iff; auto; rewrite V1; lra). rewrite fx_fin in V1 by exact F1.
  destruct (fdiv_fx x (z2f 60) Fx F60 ltac:(rewrite E60; lra)) as (N2 & V2). rewrite E60 in V2. fold b in V2. pose proof (rnd_rel b ltac:(lra)) as Rb. pose proof (Rabs_le_inv _ _ Rb) as Rb'.
  rewrite sat_id in V2 by lra. assert (F2 : fin (fdiv x (z2f 60))) by (apply fin_iff; auto; rewrite V2; lra). rewrite fx_fin in V2 by exact F2.
  unfold tempo_lag, frame_rate. set (p := fdiv (n2f rate) (n2f hop)) in *. set (q := fdiv x (z2f 60)) in *.
  destruct (fdiv_fx p q F1 F2 ltac:(rewrite V2; lra)) as (N3 & V3). rewrite V1, V2 in V3.
  pose proof (quot_rel (rnd a) (rnd b) a b (/ 16500000) (/ 16500000) ltac:(lra) ltac:(lra) ltac:(lra) ltac:(lra) Ra Rb) as Q.
  assert (T : a / b = beat_frames rate hop x) by (unfold beat_frames, a, b; field; lra). rewrite T in Q. set (tau := beat_frames rate hop x) in *.
  assert (TB : / 1000000000000 <= tau <= 2000000000).
  { rewrite <- T. unfold Rdiv. assert (IB : / 20000 <= / b <= 60). { split; [apply Rinv_le_contravar; lra|]. replace 60 with (/ / 60) by lra. apply Rinv_le_contravar; lra. } nra. }
  set (w := rnd a / rnd b) in *. assert (W : (1 - 2 / 16500000) * tau <= w <= (1 + 5 / 16500000) * tau) by (split; [lra|nra]).
  pose proof (rnd_rel w ltac:(lra)) as Rw. apply Rabs_le_inv in Rw. rewrite sat_id in V3 by lra. assert (F3 : fin (fdiv p q)) by (apply fin_iff; auto; rewrite V3; lra).
  rewrite fx_fin in V3 by exact F3. set (y := fdiv p q) in *. assert (Y0 : 0 <= B2R y) by (rewrite V3; lra).
  exists (Z.to_nat (Zfloor (B2R y))). assert (Z0 : (0 <= Zfloor (B2R y))%Z) by (apply Zfloor_lub; exact Y0).
  assert (ZM : (Zfloor (B2R y) <= usize_max)%Z).
  { apply le_IZR. eapply Rle_trans; [apply Zfloor_lb|]. rewrite V3. apply Rle_trans with (IZR 4000000000); [lra|apply IZR_le; unfold usize_max; lia]. }
  split.
  - unfold f2usize. rewrite f2int_fin by exact F3. rewrite Ztrunc_floor by exact Y0. lia.
  - unfold whole_frames. rewrite INR_IZR_INZ, Z2Nat.id by exact Z0. pose proof (Zfloor_lb (B2R y)). pose proof (Zfloor_ub (B2R y)). rewrite V3 in *. split; lra.
Qed.

Lemma nth_in01 : forall nov j, Forall in01 nov -> in01 (nth j nov f0).
Proof. intros nov j H. destruct (Nat.lt_ge_cases j (length nov)); [rewrite Forall_forall in H; now apply H, nth_In|rewrite nth_overflow by auto; split; reflexivity]. Qed.

Lemma in01_B2R : forall x, in01 x -> fin x /\ 0 <= B2R x <= 1.
Proof. intros x H. apply in01_upto in H. destruct H as (F & B). change (bpow radix2 0) with 1 in B. auto. Qed.

Lemma mul_in01_val : forall x y, in01 x -> in01 y -> Rabs (B2R (fmul x y) - B2R x * B2R y) <= u24 * (B2R x * B2R y) + tiny.
Proof.
  intros x y X Y. pose proof (in01_fin _ (in01_mul _ _ X Y)) as F. rewrite B2R_fmul by exact F. destruct (in01_B2R _ X) as (_ & ?). destruct (in01_B2R _ Y) as (_ & ?).
  pose proof (rnd_near (B2R x * B2R y)) as N. rewrite (Rabs_pos_eq (B2R x * B2R y)) in N by nra. exact N.
Qed.

(** Pairs (value, value L frames later) of the curve. *)
Definition lag_products (nov : list f32) (L : nat) : list f32 := map (fun i => fmul (nth i nov f0) (nth (i + L) nov f0)) (seq 0 (length nov - L)).

Lemma strength_cases : forall nov L s, lag_strength nov (Z.of_nat L) = Ok s ->
  ((length nov <= L)%nat /\ s = f0) \/ ((L < length nov)%nat /\ s = fdiv (fsum (lag_products nov L)) (n2f (length nov - L))).
Proof.
  intros nov L s H. unfold lag_strength in H. destruct (_ <? _)%Z; [discriminate|]. destruct (Z.leb_spec (Z.of_nat (length nov)) (Z.of_nat L)).
  - left. split; [lia|]. exact (eq_sym (f_equal (fun o => match o with Ok v => v | _ => f0 end) H)).
  - right. split; [lia|]. rewrite Nat2Z.id in H. exact (eq_sym (f_equal (fun o => match o with Ok v => v | _ => f0 end) H)).
Qed.

Lemma strength_val : forall nov L s, Forall in01 nov -> (Z.of_nat (length nov) <= 1048576)%Z -> lag_strength nov (Z.of_nat L) = Ok s ->
  fin s /\ 0 <= mean_product nov L <= 1 /\ Rabs (B2R s - mean_product nov L) <= (INR (length nov) + 3) / 5000000 * mean_product nov L + bpow radix2 (-100).
Proof.
  intros nov L s H Hn E. assert (P100 : 0 < bpow radix2 (-100)) by apply bpow_gt_0. unfold mean_product.
  destruct (strength_cases _ _ _ E) as [(Lo & ->)|(Lt & ->)].
  - replace (length nov <=? L)%nat with true by (symmetry; apply Nat.leb_le; lia). change (B2R f0) with 0. rewrite Rminus_0_r, Rabs_R0. split; [reflexivity|]. split; lra.
  - replace (length nov <=? L)%nat with false by (symmetry; apply Nat.leb_gt; lia). set (m := (length nov - L)%nat). set (l := lag_products nov L).
    set (P := fun i => B2R (nth i nov f0) * B2R (nth (i + L) nov f0)).
    assert (P01 : forall i, 0 <= P i <= 1). { intros i. unfold P. destruct (in01_B2R _ (nth_in01 nov i H)) as (_ & ?). destruct (in01_B2R _ (nth_in01 nov (i + L) H)) as (_ & ?). nra. }
    assert (Ll : length l = m) by (unfold l, lag_products; now rewrite map_length, seq_length). assert (M1 : (1 <= m <= length nov)%nat) by (unfold m; lia).
    assert (Fl : Forall (upto 0) l). { unfold l, lag_products. rewrite Forall_map. apply Forall_forall. intros i _. apply in01_upto, in01_mul; now apply nth_in01. }
    pose proof (upto_sum 0 _ ltac:(lia) Fl) as Us. change (0 + 25)%Z with 25%Z in Us.
    assert (S' : Rabs (B2R (fsum l) - sumn P m) <= (u24 + INR m / 6000000) * sumn P m + 2 * (INR m * tiny)).
    { assert (S := sum_near l P u24 tiny). cbv zeta in S. rewrite Ll in S. pose proof tiny_pos.
      apply S; [eapply Forall_impl; [|exact Fl]; intros y; apply upto_nneg|apply Us|lia|unfold u24; lra|lra|]. intros i Hi. split; [apply P01|].
      unfold l, lag_products. rewrite (nth_indep _ f0 (fmul (nth 0 nov f0) (nth (0 + L) nov f0))) by (rewrite map_length, seq_length; exact Hi).
      rewrite (map_nth (fun i => fmul (nth i nov f0) (nth (i + L) nov f0))), seq_nth by exact Hi. apply mul_in01_val; now apply nth_in01. }
    destruct (n2f_INR m ltac:(lia)) as (Fm & Em). set (T := sumn P m) in *.
    assert (T0 : 0 <= T) by (apply sumn_nonneg; intros; apply P01).
    assert (Tm : T <= INR m). { unfold T. apply Rle_trans with (sumn (fun _ => 1) m); [apply sumn_le; intros; apply P01|]. rewrite sumn_const. lra. }
    assert (Mr : 1 <= INR m) by (apply (le_INR 1); lia). assert (Mn : INR m <= INR (length nov)) by (apply le_INR; lia).
    assert (Nb : INR (length nov) <= 1048576) by (rewrite INR_IZR_INZ; now apply IZR_le).
    assert (Q01 : 0 <= T / INR m <= 1) by (split; [apply quot_nonneg; lra|apply quot_le_1; lra]).
    destruct Us as (Fs & Bs). set (q := B2R (fsum l)) in *.
    destruct (fdiv_fx (fsum l) (n2f m) Fs Fm ltac:(rewrite Em; lra)) as (Nd & Ed). rewrite Em in Ed. fold q in Ed.
    assert (Qb : 0 <= q / INR m <= bpow radix2 25). { split; [apply quot_nonneg; lra|]. apply Rle_trans with q; [|apply Bs]. apply Rmult_le_reg_r with (INR m); [lra|]. unfold Rdiv. rewrite Rmult_assoc, Rinv_l by lra. nra. }
    assert (Rb : 0 <= rnd (q / INR m) <= bpow radix2 25) by (split; [now apply rnd_nonneg|rewrite <- (rnd_bpow 25) by lia; now apply rnd_mono]).
    assert (BB : bpow radix2 25 < big) by (apply bpow_lt; lia). rewrite sat_id in Ed by lra.
    assert (Fd : fin (fdiv (fsum l) (n2f m))) by (apply fin_iff; auto; rewrite Ed; lra). rewrite fx_fin in Ed by exact Fd. split; [exact Fd|]. split; [exact Q01|].
    rewrite Ed. pose proof (rnd_near (q / INR m)) as R. rewrite (Rabs_pos_eq (q / INR m)) in R by lra.
    assert (D : Rabs (q / INR m - T / INR m) <= (u24 + INR m / 6000000) * (T / INR m) + 2 * tiny).
    { replace (q / INR m - T / INR m) with ((q - T) * / INR m) by (unfold Rdiv; ring). rewrite Rabs_mult, (Rabs_pos_eq (/ INR m)) by (left; apply Rinv_0_lt_compat; lra).
      replace ((u24 + INR m / 6000000) * (T / INR m) + 2 * tiny) with (((u24 + INR m / 6000000) * T + 2 * (INR m * tiny)) * / INR m) by (field; lra). apply Rmult_le_compat_r; [left; apply Rinv_0_lt_compat; lra|lra]. }
    assert (TT : 4 * tiny <= bpow radix2 (-100)) by (replace (4 * tiny) with (bpow radix2 (-148)) by (unfold tiny; replace (-148)%Z with (2 + -150)%Z by lia; rewrite bpow_plus; reflexivity); apply bpow_le; lia).
    pose proof tiny_pos. set (v := rnd (q / INR m)) in *. set (y := q / INR m) in *. set (z := T / INR m) in *. set (N := INR (length nov)) in *. set (M := INR m) in *.
    clearbody v y z N M. clear - R D TT Q01 Mn Mr Nb H0. unfold u24 in *.
    assert (Mz : M * z <= N * z) by (apply Rmult_le_compat_r; lra). replace ((/ 16777216 + M / 6000000) * z) with (/ 16777216 * z + M * z / 6000000) in D by (unfold Rdiv; ring).
    replace ((N + 3) / 5000000 * z) with (N * z / 5000000 + 3 * z / 5000000) by (unfold Rdiv; ring). assert (0 <= M * z) by nra. assert (M * z <= 1048576 * z) by nra.
    apply Rabs_le_inv in R. apply Rabs_le_inv in D. apply Rabs_le. split; lra.
Qed.

Lemma grid_bounds : forall mn mx x, fin mn -> fin mx -> 1 <= B2R mn -> B2R mx <= 1048576 -> fle mn x = true -> fle x mx = true ->
  fin x /\ 1 <= B2R x <= 1048576 /\ B2R mn <= B2R x <= B2R mx.
Proof.
  intros mn mx x Fn Fm Bn Bm H1 H2. assert (F : fin x) by (apply (fin_between mn x mx); auto). apply fle_fx in H1, H2. rewrite !fx_fin in H1, H2 by auto. repeat split; auto; lra.
Qed.

(** Every entry of the tempogram of a curve with values in [0,1]: the strength of a tempo is the mean
    product of the values L frames apart, L being the number of whole frames in a beat. *)
Theorem C83_strength : forall fuel nov rate hop mn mx res t,
  autocorr_tempogram fuel nov rate hop mn mx res = Some (Ok t) ->
  Forall (fun v => fle f0 v = true /\ fle v f1 = true) nov -> (Z.of_nat (length nov) <= 1048576)%Z ->
  (Z.of_nat rate <= 16777216)%Z -> (Z.of_nat hop <= 16777216)%Z -> fin mn -> fin mx -> 1 <= B2R mn -> B2R mx <= 1048576 ->
  forall x s, In (x, s) t -> fin x /\ B2R mn <= B2R x <= B2R mx /\ fin s /\ exists L,
    INR L <= beat_frames rate hop x * (1 + / 2000000) /\ beat_frames rate hop x * (1 - / 2000000) < INR L + 1 /\
    0 <= mean_product nov L <= 1 /\ Rabs (B2R s - mean_product nov L) <= (INR (length nov) + 3) / 5000000 * mean_product nov L + bpow radix2 (-100).
Proof.
  intros fuel nov rate hop mn mx res t H C Hn Hr Hh Fn Fm Bn Bm x s I.
  destruct (autocorr_ok _ _ _ _ _ _ _ _ H) as (_ & R0 & H0 & _). destruct (C26_exact _ _ _ _ _ _ _ _ H) as (l & Pm & W & _).
  apply (Permutation_in _ (Permutation_sym Pm)) in I. apply In_nth_error in I as (k & K). destruct (W _ _ _ K) as (_ & A1 & A2 & E).
  destruct (grid_bounds mn mx x Fn Fm Bn Bm A1 A2) as (Fx & Bx & Gx). destruct (lag_val rate hop x ltac:(lia) ltac:(lia) Fx Bx) as (L & EL & W1 & W2).
  unfold tempo_lag, frame_rate in EL. rewrite EL in E. destruct (strength_val nov L s C Hn E) as (Fs & M01 & V). repeat (split; [assumption|]). exists L. repeat (split; [assumption|]). exact V.
Qed.
Print Assumptions C83_strength.

Lemma frames_mono : forall rate hop x y, (1 <= hop)%nat -> 1 <= B2R x -> B2R x <= B2R y -> 0 <= beat_frames rate hop y <= beat_frames rate hop x.
Proof.
  intros rate hop x y Hh Bx By. unfold beat_frames. assert (1 <= INR hop) by (apply (le_INR 1); lia). pose proof (pos_INR rate).
  split; [apply quot_nonneg; nra|]. unfold Rdiv. apply Rmult_le_compat_l; [nra|]. apply Rinv_le_contravar; nra.
Qed.

(** Products of pulses P frames apart, at a lag that is no multiple of P. *)
Lemma off_period : forall nov P o L, (0 < P)%nat -> (L mod P <> 0)%nat -> (forall i, (i mod P <> o)%nat -> B2R (nth i nov f0) = 0) -> mean_product nov L = 0.
Proof.
  intros nov P o L HP HL H. unfold mean_product. destruct (_ <=? _)%nat; [reflexivity|].
  rewrite (sumn_ext _ (fun _ => 0)).
  - rewrite sumn_const. unfold Rdiv. ring.
  - intros i _. destruct (Nat.eq_dec (i mod P) o) as [E|E]; [|rewrite (H i E); ring]. rewrite (H (i + L)%nat); [ring|]. intros E2. apply HL.
    assert (X : ((i + L) mod P = i mod P)%nat) by congruence. pose proof (Nat.div_mod i P ltac:(lia)) as D1. pose proof (Nat.div_mod (i + L) P ltac:(lia)) as D2. rewrite X in D2.
    assert (EL : (L = (((i + L) / P) - i / P) * P)%nat). { assert (i / P <= (i + L) / P)%nat by (apply Nat.div_le_mono; lia). nia. }
    rewrite EL. apply Nat.mod_mul. lia.
Qed.

(** A pulse train with one pulse every P frames, analysed over tempi whose beats last between 1 and
    2P frames: the reported tempo has beats of P whole frames. *)
Theorem C83_pulse : forall fuel nov rate hop mn mx res t bpm conf best P o,
  autocorr_tempogram fuel nov rate hop mn mx res = Some (Ok t) -> find_best t = Some (bpm, conf, best) ->
  Forall (fun v => fle f0 v = true /\ fle v f1 = true) nov -> (Z.of_nat (length nov) <= 1048576)%Z ->
  (Z.of_nat rate <= 16777216)%Z -> (Z.of_nat hop <= 16777216)%Z -> fin mn -> fin mx -> 1 <= B2R mn -> B2R mx <= 1048576 ->
  (0 < P)%nat -> (forall i, (i mod P <> o)%nat -> B2R (nth i nov f0) = 0) ->
  (exists i, bpow radix2 (-10) <= B2R (nth i nov f0) /\ bpow radix2 (-10) <= B2R (nth (i + P) nov f0)) ->
  1 <= beat_frames rate hop mx * (1 - / 2000000) -> beat_frames rate hop mn * (1 + / 2000000) < 2 * INR P ->
  (exists x s, In (x, s) t /\ INR P <= beat_frames rate hop x * (1 - / 2000000) /\ beat_frames rate hop x * (1 + / 2000000) < INR P + 1) ->
  INR P <= beat_frames rate hop bpm * (1 + / 2000000) /\ beat_frames rate hop bpm * (1 - / 2000000) < INR P + 1.
Proof.
  intros fuel nov rate hop mn mx res t bpm conf best P o H Hb C Hn Hr Hh Fn Fm Bn Bm HP HZ (i0 & I1 & I2) Lo Hi (x & s & Ix & X1 & X2).
  pose proof (C83_strength _ _ _ _ _ _ _ _ H C Hn Hr Hh Fn Fm Bn Bm) as S.
  destruct (autocorr_ok _ _ _ _ _ _ _ _ H) as (_ & R0 & H0 & _).
  destruct (C26_best t) as (_ & B). destruct (B _ _ _ Hb) as ((r & Et) & _).
  assert (Ib : In (bpm, best) t) by (rewrite Et; now left).
  assert (C' : nn_fin_curve nov) by (eapply Forall_impl; [|exact C]; intros v V; split; [now apply in01_fin|apply V]).
  destruct (C26_reported _ _ _ _ _ _ _ _ _ _ _ H Hb C' ltac:(lia)) as (_ & _ & Top). specialize (Top _ _ Ix).
  destruct (S _ _ Ix) as (Fx & _ & Fs & L & L1 & L2 & M01 & V). destruct (S _ _ Ib) as (Fb & Gb & Fbest & L' & L1' & L2' & M01' & V').
  assert (L = P). { apply Nat.le_antisymm; apply Nat.lt_succ_r, INR_lt; rewrite S_INR; lra. } subst L.
  apply fle_fx in Top. rewrite !fx_fin in Top by auto.
  assert (MP : bpow radix2 (-40) <= mean_product nov P).
  { unfold mean_product. assert (LenP : (i0 + P < length nov)%nat). { destruct (Nat.lt_ge_cases (i0 + P) (length nov)); [auto|]. rewrite nth_overflow in I2 by auto. change (B2R f0) with 0 in I2. pose proof (bpow_gt_0 radix2 (-10)). lra. }
    replace (length nov <=? P)%nat with false by (symmetry; apply Nat.leb_gt; lia). set (f := fun i => B2R (nth i nov f0) * B2R (nth (i + P) nov f0)). set (m := (length nov - P)%nat).
    assert (F0 : forall i, 0 <= f i). { intros i. unfold f. destruct (in01_B2R _ (nth_in01 nov i C)) as (_ & ?). destruct (in01_B2R _ (nth_in01 nov (i + P) C)) as (_ & ?). nra. }
    assert (Sf : f i0 <= sumn f m). { apply sumn_term; [auto|unfold m; lia]. }
    assert (Bf : bpow radix2 (-20) <= f i0). { change (-20)%Z with (-10 + -10)%Z. rewrite bpow_plus. unfold f. pose proof (bpow_gt_0 radix2 (-10)). apply Rmult_le_compat; lra. }
    assert (Mm : 1 <= INR m <= bpow radix2 20). { split; [apply (le_INR 1); unfold m; lia|]. rewrite INR_IZR_INZ. change (bpow radix2 20) with (IZR 1048576). apply IZR_le. unfold m. lia. }
    apply Rmult_le_reg_r with (INR m); [lra|]. unfold Rdiv. rewrite Rmult_assoc, Rinv_l, Rmult_1_r by lra.
    apply Rle_trans with (bpow radix2 (-40) * bpow radix2 20); [apply Rmult_le_compat_l; [apply bpow_ge_0|lra]|]. rewrite <- bpow_plus. change (-40 + 20)%Z with (-20)%Z. lra. }
  assert (Nb : INR (length nov) <= 1048576) by (rewrite INR_IZR_INZ; now apply IZR_le). pose proof (pos_INR (length nov)) as N0.
  assert (B100 : bpow radix2 (-100) = bpow radix2 (-60) * bpow radix2 (-40)) by (rewrite <- bpow_plus; reflexivity).
  assert (B60 : bpow radix2 (-60) <= / 1000). { eapply Rle_trans; [apply (bpow_le radix2 _ (-10)); lia|]. simpl. lra. }
  pose proof (bpow_gt_0 radix2 (-40)). pose proof (bpow_gt_0 radix2 (-100)).
  assert (K : (L' mod P = 0)%nat).
  { destruct (Nat.eq_dec (L' mod P) 0) as [E|E]; [exact E|exfalso]. rewrite (off_period nov P o L' HP E HZ) in V'. rewrite Rmult_0_r, Rplus_0_l, Rminus_0_r in V'.
    apply Rabs_le_inv in V. apply Rabs_le_inv in V'. set (mp := mean_product nov P) in *. set (N := INR (length nov)) in *.
    assert ((N + 3) / 5000000 * mp <= / 4 * mp) by (apply Rmult_le_compat_r; lra). nra. }
  destruct (frames_mono rate hop mn bpm ltac:(lia) Bn (proj1 Gb)) as (_ & G1). destruct (frames_mono rate hop bpm mx ltac:(lia) ltac:(lra) (proj2 Gb)) as (G0 & G2).
  assert (L' < 2 * P)%nat. { apply INR_lt. rewrite mult_INR. change (INR 2) with 2. lra. }
  assert (0 < L')%nat. { apply INR_lt. change (INR 0) with 0. lra. }
  assert (L' = P). { apply Nat.mod_divides in K as (c & K); [|lia]. assert (c = 1)%nat by nia. nia. } subst L'. split; assumption.
Qed.
Print Assumptions C83_pulse.

Lemma same_lag : forall fuel nov rate hop mn mx res t bpm conf best y s,
  autocorr_tempogram fuel nov rate hop mn mx res = Some (Ok t) -> find_best t = Some (bpm, conf, best) ->
  Forall (fun v => fle f0 v = true /\ fle v f1 = true) nov -> (Z.of_nat (length nov) <= 1048576)%Z ->
  In (y, s) t -> B2R y <> B2R bpm -> tempo_lag rate hop y = tempo_lag rate hop bpm -> s = best /\ fin conf /\ B2R conf = 0.
Proof.
  intros fuel nov rate hop mn mx res t bpm conf best y s H Hb C Hn Iy Ny EL.
  assert (C' : nn_fin_curve nov) by (eapply Forall_impl; [|exact C]; intros v V; split; [now apply in01_fin|apply V]).
  destruct (C26_exact _ _ _ _ _ _ _ _ H) as (l & Pm & W & _).
  assert (Q : forall x v, In (x, v) t -> lag_strength nov (tempo_lag rate hop x) = Ok v).
  { intros x v I. apply (Permutation_in _ (Permutation_sym Pm)) in I. apply In_nth_error in I as (k & K). now destruct (W _ _ _ K) as (_ & _ & _ & E). }
  destruct (C26_best t) as (_ & B). destruct (B _ _ _ Hb) as ((r & Et) & _).
  assert (Ib : In (bpm, best) t) by (rewrite Et; now left).
  assert (Es : s = best). { pose proof (Q _ _ Iy) as Qy. rewrite EL, (Q _ _ Ib) in Qy. exact (eq_sym (f_equal (fun o => match o with Ok v => v | _ => f0 end) Qy)). }
  split; [exact Es|]. subst s. pose proof (C53_strength_unit _ _ _ _ _ _ _ _ H C ltac:(lia) _ _ Ib) as U. fold (in01 best) in U. pose proof (in01_fin _ U) as Fb.
  destruct (C26_sorted _ _ _ _ _ _ _ _ H C' ltac:(lia)) as (Srt & _).
  rewrite Et in *. destruct r as [|(b2 & s2) r']; [destruct Iy as [E|[]]; exfalso; apply Ny; exact (f_equal (fun e => B2R (fst e)) (eq_sym E))|].
  assert (Hc : conf = (if fgt best eps10 then fclamp_val (fdiv (fmax (fsub best s2) f0) best) f0 f1 else f0)).
  { exact (eq_sym (f_equal (fun o => match o with Some (_, c, _) => c | None => f0 end) Hb)). }
  rewrite Hc. destruct (fgt best eps10) eqn:G; [|split; reflexivity].
  assert (E2 : fle s2 best = true) by (inversion Srt as [|? ? _ F]; rewrite Forall_forall in F; apply (F (b2, s2)); now left).
  assert (E3 : fle best s2 = true).
  { destruct Iy as [E|[E|E]].
    - exfalso; apply Ny; exact (f_equal (fun e => B2R (fst e)) (eq_sym E)).
    - assert (X : s2 = best) by exact (f_equal snd E). rewrite X. apply fle_refl, fin_nn, Fb.
    - inversion Srt as [|? ? S2 _]. inversion S2 as [|? ? _ F]. rewrite Forall_forall in F. apply (F (y, best) E). }
  pose proof (C53_strength_unit _ _ _ _ _ _ _ _ H C ltac:(lia) b2 s2 ltac:(right; now left)) as U2. fold (in01 s2) in U2. pose proof (in01_fin _ U2) as F2.
  apply fle_fx in E2, E3. rewrite !fx_fin in E2, E3 by auto. assert (EE : B2R s2 = B2R best) by lra.
  destruct (fsub_fx best s2 Fb F2) as (Nd & Ed). rewrite EE, Rminus_eq_0, rnd_0, sat_id in Ed by (pose proof big_pos; lra).
  assert (Fd : fin (fsub best s2)) by (apply fin_iff; auto; rewrite Ed; pose proof big_pos; lra). rewrite fx_fin in Ed by exact Fd.
  destruct (fmax_B2R (fsub best s2) f0 Fd eq_refl) as (Fx & Ex). rewrite Ed in Ex. change (B2R f0) with 0 in Ex. rewrite Rmax_left in Ex by lra.
  assert (Pb : 0 < B2R best). { assert (P : pos best) by (eapply flt_fle_trans with (y := eps10); [reflexivity|]; now apply flt_fle). apply pos_fx in P. now rewrite fx_fin in P by exact Fb. }
  destruct (fdiv_fx _ best Fx Fb ltac:(lra)) as (Nq & Eq). rewrite Ex in Eq. replace (0 / B2R best) with 0 in Eq by (unfold Rdiv; ring). rewrite rnd_0, sat_id in Eq by (pose proof big_pos; lra).
  set (q := fdiv (fmax (fsub best s2) f0) best) in *.
  assert (Fq : fin q) by (apply fin_iff; auto; rewrite Eq; pose proof big_pos; lra).
  assert (Q0 : fle f0 q = true) by (apply fle_intro; auto; rewrite Eq; cbn; lra).
  assert (Q1 : fle q f1 = true) by (apply fle_intro; auto; rewrite Eq, fx_f1; lra).
  rewrite fclamp_val_in by auto. rewrite fx_fin in Eq by exact Fq. split; [exact Fq|exact Eq].
Qed.

(** A beat of tau frames contains exactly L whole frames, with room for rounding. *)
Lemma whole_lag : forall tau L L', whole_frames tau L' -> INR L <= tau * (1 - / 2000000) -> tau * (1 + / 2000000) < INR L + 1 -> L' = L.
Proof. intros tau L L' (W1 & W2) H1 H2. apply Nat.le_antisymm; apply Nat.lt_succ_r, INR_lt; rewrite S_INR; lra. Qed.

(** The strength depends on the tempo only through the number of whole frames in a beat; when another
    tempo of the grid has the same number as the reported one, both are equally strong and the
    reported confidence is 0. *)
Theorem C83_confidence : forall fuel nov rate hop mn mx res t bpm conf best y s L,
  autocorr_tempogram fuel nov rate hop mn mx res = Some (Ok t) -> find_best t = Some (bpm, conf, best) ->
  Forall (fun v => fle f0 v = true /\ fle v f1 = true) nov -> (Z.of_nat (length nov) <= 1048576)%Z ->
  (Z.of_nat rate <= 16777216)%Z -> (Z.of_nat hop <= 16777216)%Z -> fin mn -> fin mx -> 1 <= B2R mn -> B2R mx <= 1048576 ->
  In (y, s) t -> B2R y <> B2R bpm ->
  (forall z, z = y \/ z = bpm -> INR L <= beat_frames rate hop z * (1 - / 2000000) /\ beat_frames rate hop z * (1 + / 2000000) < INR L + 1) ->
  s = best /\ fin conf /\ B2R conf = 0.
Proof.
  intros fuel nov rate hop mn mx res t bpm conf best y s L H Hb C Hn Hr Hh Fn Fm Bn Bm Iy Ny HL.
  destruct (autocorr_ok _ _ _ _ _ _ _ _ H) as (_ & R0 & H0 & _). destruct (C26_best t) as (_ & B). destruct (B _ _ _ Hb) as ((r & Et) & _).
  assert (Ib : In (bpm, best) t) by (rewrite Et; now left).
  assert (G : forall z v, In (z, v) t -> z = y \/ z = bpm -> tempo_lag rate hop z = Z.of_nat L).
  { intros z v Iz Hz. destruct (C83_strength _ _ _ _ _ _ _ _ H C Hn Hr Hh Fn Fm Bn Bm _ _ Iz) as (Fz & Gz & _).
    destruct (lag_val rate hop z ltac:(lia) ltac:(lia) Fz ltac:(lra)) as (L' & E & W). destruct (HL z Hz) as (A1 & A2). now rewrite E, (whole_lag _ _ _ W A1 A2). }
  apply (same_lag fuel nov rate hop mn mx res t bpm conf best y s H Hb C Hn Iy Ny). rewrite (G y s), (G bpm best); auto.
Qed.
Print Assumptions C83_confidence.

(** 44100 Hz, hop 512, clicks at 120 BPM: beats of 43 frames.  118, 119 and 120 BPM all have 43 whole
    frames per beat; the first of them is reported, with confidence 0. *)
Example C83_case :
  let nov := map (fun i => if (i mod 43 =? 0)%nat then f1 else f0) (seq 0 130) in
  (match autocorr_tempogram 10 nov (441 * 100) 512 (z2f 117) (z2f 122) f1 with
   | Some (Ok t) => (map (fun e => (f2i32 (fst e), f2i32 (fmul (snd e) (z2f 1000)))) t,
       option_map (fun r => (f2i32 (fst (fst r)), B2SF (snd (fst r)))) (find_best t))
   | _ => ([], None)
   end, map (fun x => tempo_lag (441 * 100) 512 (z2f x)) [117; 118; 119; 120; 121; 122]%Z)
  = ([(118, 34); (119, 34); (120, 34); (117, 0); (121, 0); (122, 0)], Some (118, SpecFloat.S754_zero false), [44; 43; 43; 43; 42; 42])%Z.
Proof. vm_compute. reflexivity. Qed.
