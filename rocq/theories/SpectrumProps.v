(** C78: the spectrogram holds the amplitudes of the windowed frames (src/features/chroma/extractor.rs:301-359). *)
From Coq Require Import ZArith Bool List Arith Lia Reals Lra.
From Flocq Require Import Core IEEE754.BinarySingleNaN.
From Verif Require Import Rust F32 F32Facts F32More Bounds NoveltyProofs Libm Autocorrelation AutocorrelationProofs TempoSpectra Chroma ChromaProps
  FourierFacts AutocorrelationValueProofs SpectrumFacts ToneFacts ExactPlatform.
Import ListNotations.
Local Open Scope R_scope.

(** For an FFT accurate to e and a cosine accurate to d: bin b of frame j is the amplitude of the component of b cycles per
    frame in the samples j*hop .. j*hop + frame - 1 weighted with the Hann window, up to an error proportional to the sum
    A of the absolute sample values. *)
Theorem C78_bin : forall F L samples frame hop s j b e d A,
  compute_stft F L samples frame hop = Ok s -> (j < length s)%nat -> (b <= frame / 2)%nat ->
  (2 <= frame)%nat -> (Z.of_nat frame <= 16777216)%Z -> (0 < hop)%nat ->
  accurate F frame e -> 0 <= e <= / 8 -> cos_accurate L d -> 0 <= d <= / 8 ->
  let x t := B2R (nth (j * hop + t) samples f0) in
  (forall t, (t < frame)%nat -> fin (nth (j * hop + t) samples f0)) ->
  sumn (fun t => Rabs (x t)) frame <= A -> A <= bpow radix2 30 ->
  let hann t := (1 - cos (2 * PI * INR t / INR (frame - 1))) / 2 in
  let re := sumn (fun t => x t * hann t * cos (2 * PI * INR b * INR t / INR frame)) frame in
  let im := sumn (fun t => x t * hann t * sin (2 * PI * INR b * INR t / INR frame)) frame in
  let m := nth b (nth j s []) fnan in
  fin m /\ Rabs (B2R m - sqrt (re * re + im * im)) <= (5 / 2 * e + 5 / 4 * d + / 131072) * A + bpow radix2 (-60).
Proof.
  intros F L samples frame hop s j b e d A Es Hj Hb Hn Hbig Hh Acc He Cos Hd x Fx HA HA30 hann re im m.
  assert (Len : (frame <= length samples)%nat).
  { destruct (Nat.le_gt_cases frame (length samples)) as [H|H]; [exact H|].
    unfold compute_stft in Es. destruct (Nat.ltb_spec (length samples) frame); [|lia]. injection Es as <-. cbn in Hj. lia. }
  destruct (C41_content F L samples frame hop s j b ltac:(lia) Hh Len Es Hj Hb) as (_ & Em).
  fold m in Em. cbv zeta in Em. set (l := map _ (seq 0 frame)) in Em.
  set (z := nth b (fft_forward F l) (f0, f0)) in *.
  assert (Em' : m = fsqrt (fadd (fmul (fst z) (fst z)) (fmul (snd z) (snd z)))) by (destruct z; exact Em). clear Em. rename Em' into Em.
  assert (Bf : (b < frame)%nat) by (pose proof (Nat.div_lt frame 2 ltac:(lia) ltac:(lia)); lia).
  assert (A0 : 0 <= A) by (eapply Rle_trans; [|exact HA]; apply sumn_nonneg; intros; apply Rabs_pos).
  assert (Ll : length l = frame) by (unfold l; now rewrite map_length, seq_length).
  assert (Nl : forall t, (t < frame)%nat -> nth t l (f0, f0) = (fmul (nth (j * hop + t) samples f0) (window L frame t), f0)).
  { intros t Ht. unfold l. set (g := fun i => _ : complex). rewrite (nth_indep _ (f0, f0) (g 0%nat)) by (rewrite map_length, seq_length; lia).
    rewrite map_nth, seq_nth by lia. reflexivity. }
  assert (Wx : forall t, (t < frame)%nat -> within 60 (nth (j * hop + t) samples f0)).
  { intros t Ht. split; [now apply Fx|]. eapply Rle_trans; [apply (sumn_term (fun t => Rabs (x t)) frame t)|]; auto.
    - intros; apply Rabs_pos.
    - eapply Rle_trans; [exact HA|]. eapply Rle_trans; [exact HA30|]. apply bpow_le. lia. }
  assert (V : forall t, (t < frame)%nat -> let y := fmul (nth (j * hop + t) samples f0) (window L frame t) in
     within 62 y /\ Rabs (B2R y - x t * hann_at frame t) <= (d / 2 + / 480000) * Rabs (x t) + tiny)
    by (intros t Ht; apply windowed_val; auto).
  set (y := fun t => x t * hann_at frame t).
  assert (Bl : bounded_buffer l).
  { apply Forall_forall. intros q Hq. destruct (In_nth _ _ (f0, f0) Hq) as (t & Ht & E). rewrite Ll in Ht. rewrite Nl in E by auto. subst q.
    cbn [fst snd]. split; [|apply within_0]. eapply within_mono; [|apply V; auto]. lia. }
  assert (Il : forall t, im_of l t = 0).
  { intros t. unfold im_of. destruct (Nat.lt_ge_cases t frame) as [H|H]; [now rewrite Nl|rewrite nth_overflow by lia; reflexivity]. }
  set (h := (d / 2 + / 480000) * A + / 1073741824 * bpow radix2 (-70)).
  assert (Hy : sumn (fun t => Rabs (re_of l t - y t)) frame <= h).
  { eapply Rle_trans; [apply (sumn_le _ (fun t => (d / 2 + / 480000) * Rabs (x t) + tiny))|].
    - intros t Ht. unfold re_of. rewrite Nl by auto. now apply V.
    - rewrite sumn_plus, sumn_scal, sumn_const. unfold h. apply Rplus_le_compat; [apply Rmult_le_compat_l; lra|].
      assert (INR frame <= 16777216) by (rewrite INR_IZR_INZ; now apply IZR_le).
      assert (tiny * 16777216 <= / 1073741824 * bpow radix2 (-70)).
      { unfold tiny. replace 16777216 with (bpow radix2 24) by (cbn; lra). replace (/ 1073741824) with (bpow radix2 (-30)) by (cbn; lra).
        rewrite <- !bpow_plus. apply bpow_le. lia. }
      pose proof tiny_pos. nra. }
  assert (HAy : sumn (fun t => Rabs (y t)) frame <= A).
  { eapply Rle_trans; [|exact HA]. apply sumn_le. intros t _. unfold y. rewrite Rabs_mult. pose proof (hann_at_bounds frame t).
    rewrite (Rabs_pos_eq (hann_at frame t)) by lra. pose proof (Rabs_pos (x t)). nra. }
  destruct (bin_parts F frame e l y A h b Acc (proj1 He) Ll Bl Il Hy HAy Bf) as (F1 & F2 & E1 & E2). fold z in F1, F2, E1, E2.
  destruct (part_bound frame y b) as (B1 & B2).
  set (q := bpow radix2 (-70)) in *. assert (Pq : 0 < q) by apply bpow_gt_0.
  assert (q1 : q <= 1) by (apply (bpow_le radix2 (-70) 0); lia).
  pose proof slack_pos as PS. assert (SQ : slack <= / 1073741824 * q) by (unfold slack, q; replace (/ 1073741824) with (bpow radix2 (-30)) by (cbn; lra); rewrite <- bpow_plus; apply bpow_le; lia).
  assert (H0 : 0 <= h) by (unfold h; nra).
  assert (H1 : h <= / 8 * A + / 1073741824 * q) by (unfold h; nra).
  assert (D0 : 0 <= e * (A + slack + h) + h) by nra.
  destruct (magnitude_val z (cos_part frame y b) (sin_part frame y b) A (e * (A + slack + h) + h)) as (Fm & Vm); auto; try lra.
  { change (bpow radix2 31) with (bpow radix2 (1 + 30)). rewrite bpow_plus. change (bpow radix2 1) with 2.
    assert (1 <= bpow radix2 30) by (apply (bpow_le radix2 0 30); lia).
    assert (e * (A + slack + h) <= / 8 * (9 / 8 * A + / 536870912 * q)) by (apply Rmult_le_compat; lra).
    assert (B30 : 1073741824 <= bpow radix2 30) by (cbn; lra). lra. }
  rewrite <- Em in Fm, Vm. split; [exact Fm|].
  change (sqrt (re * re + im * im)) with (amplitude frame y b).
  change (sqrt (Rsqr (cos_part frame y b) + Rsqr (sin_part frame y b))) with (amplitude frame y b) in Vm.
  eapply Rle_trans; [exact Vm|].
  assert (Eq : bpow radix2 (-69) = 2 * q) by (unfold q; change (-69)%Z with (1 + -70)%Z; rewrite bpow_plus; reflexivity).
  assert (Eq' : bpow radix2 (-60) = 1024 * q) by (unfold q; change (-60)%Z with (10 + -70)%Z; rewrite bpow_plus; cbn; lra).
  rewrite Eq, Eq'.
  assert (Q1 : e * (A + slack + h) <= e * (9 / 8 * A) + q) by nra.
  assert (Q2 : e * (A + slack + h) <= / 4 * A + q) by nra.
  unfold h in *. nra.
Qed.
Print Assumptions C78_bin.

(** A tone of k cycles per frame (frequency k * sample_rate / frame), recorded to within 1 % of its amplitude: in every
    frame bin k exceeds every bin at least three bins away by half, and it grows with the amplitude. *)
Theorem C78_tone : forall F L samples frame hop s j k b a f e d,
  compute_stft F L samples frame hop = Ok s -> (j < length s)%nat ->
  (64 <= frame)%nat -> (Z.of_nat frame <= 16777216)%Z -> (0 < hop)%nat ->
  accurate F frame e -> 0 <= e <= / 1024 -> cos_accurate L d -> 0 <= d <= / 1024 -> bpow radix2 (-40) <= a <= 1 ->
  (forall t, (t < length samples)%nat -> fin (nth t samples f0) /\
     Rabs (B2R (nth t samples f0) - a * cos (2 * PI * INR k * INR t / INR frame + f)) <= a / 100) ->
  (3 <= k)%nat -> (k + 3 <= frame / 2)%nat -> (b <= frame / 2)%nat -> (b + 3 <= k \/ k + 3 <= b)%nat ->
  let m i := nth i (nth j s []) fnan in
  flt (m b) (m k) = true /\ 3 / 2 * B2R (m b) < B2R (m k) /\ a * INR frame / 6 <= B2R (m k).
Proof.
  intros F L samples frame hop s j k b a f e d Es Hj Hn Hbig Hh Acc He Cos Hd Ha X Hk Hk' Hb Hd' m.
  assert (Len : (frame <= length samples)%nat).
  { destruct (Nat.le_gt_cases frame (length samples)) as [H|H]; [exact H|].
    unfold compute_stft in Es. destruct (Nat.ltb_spec (length samples) frame); [|lia]. injection Es as <-. cbn in Hj. lia. }
  destruct (C41_content F L samples frame hop s j 0 ltac:(lia) Hh Len Es Hj ltac:(lia)) as (End & _).
  set (x := fun t => B2R (nth (j * hop + t) samples f0)).
  set (f' := f + 2 * PI * INR k * INR (j * hop) / INR frame).
  set (tone := fun t => a * cos (2 * PI * INR k * INR t / INR frame + f')).
  assert (PN : 64 <= INR frame) by (replace 64 with (INR 64) by (rewrite INR_IZR_INZ; reflexivity); now apply le_INR).
  assert (PN' : INR frame <= 16777216) by (rewrite INR_IZR_INZ; now apply IZR_le).
  pose proof (bpow_gt_0 radix2 (-40)) as P40.
  assert (Cl : forall t, (t < frame)%nat -> fin (nth (j * hop + t) samples f0) /\ Rabs (x t - tone t) <= a / 100).
  { intros t Ht. destruct (X (j * hop + t)%nat ltac:(lia)) as (Ft & Et). split; [exact Ft|]. unfold x, tone.
    replace (2 * PI * INR k * INR t / INR frame + f') with (2 * PI * INR k * INR (j * hop + t) / INR frame + f); [exact Et|].
    unfold f'. rewrite plus_INR. field. lra. }
  set (A := 101 / 100 * a * INR frame).
  assert (HA : sumn (fun t => Rabs (x t)) frame <= A).
  { unfold A. rewrite <- (Rmult_comm (INR frame)), <- sumn_const. apply sumn_le. intros t Ht. destruct (Cl t Ht) as (_ & C).
    replace (x t) with (x t - tone t + tone t) by ring. eapply Rle_trans; [apply Rabs_triang|].
    assert (Rabs (tone t) <= a).
    { unfold tone. rewrite Rabs_mult, (Rabs_pos_eq a) by lra. destruct (trig_le1 (2 * PI * INR k * INR t / INR frame + f')).
      pose proof (Rabs_pos (cos (2 * PI * INR k * INR t / INR frame + f'))). nra. }
    lra. }
  assert (HA30 : A <= bpow radix2 30) by (unfold A; cbn; nra).
  assert (Main : forall i, (i <= frame / 2)%nat -> fin (m i) /\
     Rabs (B2R (m i) - amplitude frame (fun t => tone t * hann_at frame t) i) <= 26 / 1000 * (a * INR frame)).
  { intros i Hi. destruct (C78_bin F L samples frame hop s j i e d A Es Hj Hi ltac:(lia) Hbig Hh Acc ltac:(lra) Cos ltac:(lra)
      (fun t Ht => proj1 (Cl t Ht)) HA HA30) as (Fm & V). fold (m i) in Fm, V. split; [exact Fm|].
    change (sqrt _) with (amplitude frame (fun t => x t * hann_at frame t) i) in V.
    assert (Df : Rabs (amplitude frame (fun t => x t * hann_at frame t) i - amplitude frame (fun t => tone t * hann_at frame t) i)
                 <= 2 * (a / 100 * INR frame)).
    { unfold amplitude. eapply Rle_trans; [apply hypot_lip|].
      destruct (part_lip frame (fun t => x t * hann_at frame t) (fun t => tone t * hann_at frame t) i) as (Q1 & Q2).
      assert (Q : sumn (fun t => Rabs (x t * hann_at frame t - tone t * hann_at frame t)) frame <= a / 100 * INR frame).
      { rewrite Rmult_comm, <- sumn_const. apply sumn_le. intros t Ht. rewrite <- Rmult_minus_distr_r, Rabs_mult.
        pose proof (hann_at_bounds frame t). rewrite (Rabs_pos_eq (hann_at frame t)) by lra. destruct (Cl t Ht) as (_ & C).
        pose proof (Rabs_pos (x t - tone t)). nra. }
      lra. }
    set (u := amplitude frame (fun t => x t * hann_at frame t) i) in *. set (v := amplitude frame (fun t => tone t * hann_at frame t) i) in *.
    replace (B2R (m i) - v) with ((B2R (m i) - u) + (u - v)) by ring. eapply Rle_trans; [apply Rabs_triang|].
    assert (B60 : bpow radix2 (-60) <= / 1048576 * a).
    { eapply Rle_trans; [|apply Rmult_le_compat_l; [lra|apply Ha]]. replace (/ 1048576) with (bpow radix2 (-20)) by (cbn; lra).
      rewrite <- bpow_plus. apply bpow_le. lia. }
    assert (K : (5 / 2 * e + 5 / 4 * d + / 131072) * A <= 4 / 1000 * A).
    { apply Rmult_le_compat_r; [unfold A; nra|]. lra. }
    unfold A in *. nra. }
  destruct (Main k ltac:(lia)) as (Fk & Vk). destruct (Main b Hb) as (Fb & Vb).
  pose proof (tone_peak frame k a f' Hn Hk Hk' ltac:(lra)) as Pk. pose proof (tone_far frame k b a f' Hn Hk Hk' ltac:(lra) Hb Hd') as Pb.
  cbv zeta in Pk, Pb. fold tone in Pk, Pb. cbv beta in Vk, Vb.
  change (fun t => a * cos (2 * PI * INR k * INR t / INR frame + f') * hann_at frame t) with (fun t => tone t * hann_at frame t) in Pk, Pb.
  apply Rabs_le_inv in Vk. apply Rabs_le_inv in Vb.
  assert (AN : 0 < a * INR frame) by nra.
  assert (Q1 : a * INR frame / 5 = 200 / 1000 * (a * INR frame)) by field.
  assert (Q2 : a * INR frame / 12 = / 12 * (a * INR frame)) by field.
  assert (Q3 : a * INR frame / 6 = / 6 * (a * INR frame)) by field.
  rewrite Q1 in Pk. rewrite Q2 in Pb. rewrite Q3.
  split; [|split; lra]. unfold flt. rewrite Bltb_correct by auto. apply Rlt_bool_true. lra.
Qed.
Print Assumptions C78_tone.

(** The hypotheses are met by a platform that rounds the exact transform and cosine.  Its spectrum of 1, -1, 1, -1: the two
    inner samples carry a weight of 3/4 each, and all of it is at the highest frequency. *)
Example C78_case : exists s, compute_stft exact_fft exact_libm [f1; fneg f1; f1; fneg f1] 4 1 = Ok s /\ length s = 1%nat /\
  Rabs (B2R (nth 2 (nth 0 s []) fnan) - 3 / 2) <= / 10000 /\ Rabs (B2R (nth 0 (nth 0 s []) fnan)) <= / 10000.
Proof.
  destruct (C41_shape exact_fft exact_libm [f1; fneg f1; f1; fneg f1] 4 1 ltac:(lia) ltac:(lia)) as (s & Es & Ls & _). cbn in Ls.
  exists s. split; [exact Es|]. split; [exact Ls|].
  assert (M1 : B2R (fneg f1) = -1) by (rewrite fneg_B2R, B2R_f1; reflexivity).
  assert (S : sumn (fun t => Rabs (B2R (nth (0 * 1 + t) [f1; fneg f1; f1; fneg f1] f0))) 4 <= 4).
  { cbn [sumn Nat.mul Nat.add nth]. rewrite M1, B2R_f1. rewrite Rabs_R1, Rabs_left by lra. lra. }
  assert (Fx : forall t, (t < 4)%nat -> fin (nth (0 * 1 + t) [f1; fneg f1; f1; fneg f1] f0)).
  { intros [|[|[|[|t]]]] Ht; try reflexivity. lia. }
  assert (H1 : (1 - cos (2 * PI * 1 / 3)) / 2 = 3 / 4).
  { replace (2 * PI * 1 / 3) with (2 * (PI / 3)) by field. rewrite cos_2a_cos, cos_PI3. lra. }
  assert (H2 : (1 - cos (2 * PI * 2 / 3)) / 2 = 3 / 4).
  { replace (2 * PI * 2 / 3) with (- (2 * (PI / 3)) + 2 * INR 1 * PI) by (cbn; field). rewrite cos_period, cos_neg, cos_2a_cos, cos_PI3. lra. }
  assert (H3 : (1 - cos (2 * PI * 3 / 3)) / 2 = 0).
  { replace (2 * PI * 3 / 3) with (2 * PI) by field. rewrite cos_2PI. lra. }
  assert (H0 : (1 - cos (2 * PI * 0 / 3)) / 2 = 0).
  { replace (2 * PI * 0 / 3) with 0 by field. rewrite cos_0. lra. }
  assert (B60 : bpow radix2 (-60) <= / 1048576) by (replace (/ 1048576) with (bpow radix2 (-20)) by (cbn; lra); apply bpow_le; lia).
  split.
  - destruct (C78_bin exact_fft exact_libm [f1; fneg f1; f1; fneg f1] 4 1 s 0 2 (/ 8388608) (/ 8388608) 4 Es) as (_ & V);
      auto; try lia; try lra; try (cbn; lia); try (apply exact_accurate; lia); try exact exact_cos; try (cbn; lra).
    cbv zeta in V. cbn [sumn Nat.mul Nat.add Nat.sub nth INR] in V. rewrite M1, B2R_f1 in V.
    replace (1 + 1 + 1) with 3 in V by lra. replace (1 + 1) with 2 in V by lra. rewrite H0, H1, H2, H3 in V.
    replace (3 + 1) with 4 in V by lra.
    replace (2 * PI * 2 * 1 / 4) with PI in V by field. replace (2 * PI * 2 * 2 / 4) with (2 * PI) in V by field.
    rewrite cos_PI, sin_PI, cos_2PI, sin_2PI in V.
    match type of V with Rabs (_ - sqrt ?q) <= _ => replace q with (Rsqr (3 / 2)) in V by (unfold Rsqr; field) end.
    rewrite sqrt_Rsqr in V by lra. lra.
  - destruct (C78_bin exact_fft exact_libm [f1; fneg f1; f1; fneg f1] 4 1 s 0 0 (/ 8388608) (/ 8388608) 4 Es) as (_ & V);
      auto; try lia; try lra; try (apply exact_accurate; lia); try exact exact_cos; try (cbn; lra).
    cbv zeta in V. cbn [sumn Nat.mul Nat.add Nat.sub nth INR] in V. rewrite M1, B2R_f1 in V.
    replace (1 + 1 + 1) with 3 in V by lra. replace (1 + 1) with 2 in V by lra. rewrite H0, H1, H2, H3 in V.
    replace (3 + 1) with 4 in V by lra. rewrite !Rmult_0_r, !Rmult_0_l in V. unfold Rdiv in V. rewrite !Rmult_0_l, cos_0, sin_0 in V.
    match type of V with Rabs (_ - sqrt ?q) <= _ => replace q with 0 in V by lra end.
    rewrite sqrt_0, Rminus_0_r in V. lra.
Qed.

(** A tone of eight cycles per frame of 64 samples at half amplitude: bin 8 of the third frame beats bin 20. *)
Example C78_tone_case :
  let samples := map (fun t => nearest_f32 (/ 2 * cos (2 * PI * INR 8 * INR t / INR 64 + 0))) (seq 0 96) in
  exists s, compute_stft exact_fft exact_libm samples 64 16 = Ok s /\ length s = 3%nat /\
    flt (nth 20 (nth 2 s []) fnan) (nth 8 (nth 2 s []) fnan) = true /\ 5 <= B2R (nth 8 (nth 2 s []) fnan).
Proof.
  intros samples. destruct (C41_shape exact_fft exact_libm samples 64 16 ltac:(lia) ltac:(lia)) as (s & Es & Ls & _).
  assert (Len : length samples = 96%nat) by (unfold samples; now rewrite map_length, seq_length).
  rewrite Len in Ls. cbn in Ls. exists s. split; [exact Es|]. split; [exact Ls|].
  destruct (C78_tone exact_fft exact_libm samples 64 16 s 2 8 20 (/ 2) 0 (/ 8388608) (/ 8388608) Es) as (T1 & _ & T3);
    try lia; try lra; [apply exact_accurate; lia|exact exact_cos| | |cbn; lia|cbn; lia|].
  - split; [apply (bpow_le radix2 (-40) (-1)); lia|lra].
  - rewrite Len. intros t Ht. unfold samples. set (g := fun t : nat => nearest_f32 _). rewrite (nth_indep _ f0 (g 0%nat)) by (rewrite map_length, seq_length; lia).
    rewrite map_nth, seq_nth by lia. rewrite Nat.add_0_l. unfold g.
    set (r := / 2 * cos _). assert (Br : Rabs r <= / 2).
    { unfold r. rewrite Rabs_mult, Rabs_pos_eq by lra. destruct (trig_le1 (2 * PI * INR 8 * INR t / INR 64 + 0)). lra. }
    destruct (nearest_f32_near r) as (F & E).
    + eapply Rle_trans; [exact Br|]. eapply Rle_trans; [|apply (bpow_le radix2 0 120); lia]. cbn. lra.
    + split; [exact F|]. assert (tiny <= / 16777216).
      { unfold tiny. replace (/ 16777216) with (bpow radix2 (-24)) by (cbn; lra). apply bpow_le. lia. }
      unfold u24 in E. lra.
  - split; [exact T1|]. rewrite INR_IZR_INZ in T3. cbn [Z.of_nat Pos.of_succ_nat Pos.succ] in T3. lra.
Qed.
