(** Properties C05, C06 and C49 of the normalizer. *)
From Coq Require Import ZArith Bool List Reals Lra Lia.
From Flocq Require Import Core IEEE754.BinarySingleNaN.
From Verif Require Import Rust F32 F32Facts F32More ListFacts Libm Normalization NormalizationProofs.
Import ListNotations.
Local Open Scope R_scope.

(** Case analysis of a successful normalization: the samples are returned unchanged or all
    are multiplied by one factor. *)
Lemma peak_cases : forall L s h out m, normalize_peak L s h = Ok (out, m) ->
  s <> [] /\
  ((fle (peak_of s) eps10 = true /\ out = s) \/
   (fle (peak_of s) eps10 = false /\
    out = apply_gain (fmin (fdiv (m_powf L f10 (fdiv (fsub f0 h) f20)) (peak_of s))
                           (fdiv f1 (peak_of s))) s)).
Proof.
  intros L s h out m H. destruct s as [|x s]; [discriminate|]. split; [easy|].
  unfold normalize_peak in H. destruct (fle (peak_of (x :: s)) eps10) eqn:E; injection H; auto.
Qed.
Lemma rms_cases : forall L s t h out m, normalize_rms L s t h = Ok (out, m) ->
  s <> [] /\
  ((fle (rms_of s) eps10 = true /\ out = s) \/
   (fle (rms_of s) eps10 = false /\
    let g := fdiv (m_powf L f10 (fdiv (fsub t h) f20)) (rms_of s) in
    (flt f1 (fmul (peak_of s) g) = true /\ out = apply_gain (fdiv f1 (peak_of s)) s \/
     flt f1 (fmul (peak_of s) g) = false /\ out = apply_gain g s))).
Proof.
  intros L s t h out m H. destruct s as [|x s]; [discriminate|]. split; [easy|].
  unfold normalize_rms in H. destruct (fle (rms_of (x :: s)) eps10) eqn:E; [injection H; auto|].
  right. split; auto. cbv zeta in *. unfold fgt in H.
  match type of H with (if ?b then _ else _) = _ => destruct b eqn:E2 end; injection H; auto.
Qed.
Lemma lufs_cases : forall L s t h sr out m, normalize_lufs L s t h sr = Ok (out, m) ->
  exists lufs, calculate_lufs L s sr = Ok lufs /\
  (feq lufs fninf = true /\ normalize_peak L s h = Ok (out, m) \/
   feq lufs fninf = false /\
   let g := m_powf L f10 (fdiv (fsub t lufs) f20) in
   let tgt := m_powf L f10 (fdiv (fsub f0 h) f20) in
   (flt tgt (fmul (peak_of s) g) = true /\ out = apply_gain (fdiv tgt (peak_of s)) s \/
    flt tgt (fmul (peak_of s) g) = false /\ out = apply_gain g s)).
Proof.
  intros L s t h sr out m H. destruct s as [|x s]; [discriminate|].
  unfold normalize_lufs in H. destruct (calculate_lufs L (x :: s) sr) as [lufs| |] eqn:C; try discriminate.
  cbn [obind] in H. exists lufs. split; auto.
  destruct (feq lufs fninf); [left; auto|]. right. split; auto. cbv zeta in *.
  unfold fgt in H. match type of H with (if ?b then _ else _) = _ => destruct b eqn:E end;
    injection H; auto.
Qed.

(** C05. Every method multiplies all samples by one factor, or leaves them alone: nothing is
    added, dropped or reordered. *)
Theorem C05_uniform : forall L s c sr out m, normalize L s c sr = Ok (out, m) ->
  length out = length s /\ (out = s \/ exists g, out = map (fun x => fmul x g) s).
Proof.
  intros L s c sr out m H.
  assert (R : out = s \/ exists g, out = map (fun x => fmul x g) s).
  { assert (PK : forall h, normalize_peak L s h = Ok (out, m) ->
      out = s \/ exists g, out = map (fun x => fmul x g) s).
    { intros h P. destruct (peak_cases _ _ _ _ _ P) as (_ & [(_ & ->)|(_ & ->)]); auto.
      right. eexists. reflexivity. }
    unfold normalize in H. destruct (nc_method c).
    - eapply PK; eauto.
    - destruct (rms_cases _ _ _ _ _ _ H) as (_ & [(_ & ->)|(_ & [(_ & ->)|(_ & ->)])]); auto;
        right; eexists; reflexivity.
    - destruct (lufs_cases _ _ _ _ _ _ _ H) as (lufs & _ & [(_ & P)|(_ & [(_ & ->)|(_ & ->)])]);
        [eapply PK; eauto| |]; right; eexists; reflexivity. }
  split; auto. destruct R as [-> | (g & ->)]; auto. apply map_length.
Qed.
Print Assumptions C05_uniform.

(** The factor used by peak normalization, in terms of the largest magnitude p:
    none when p <= 1e-10, otherwise the smaller of 10^(-headroom/20)/p and 1/p. *)
Theorem C05_peak_gain : forall L s c sr out m, nc_method c = NPeak ->
  normalize L s c sr = Ok (out, m) ->
  exists p, is_peak s p /\
   (fle p (lit 14411519 (-57)) = true /\ out = s \/
    fle p (lit 14411519 (-57)) = false /\
    out = map (fun x => fmul x (fmin
            (fdiv (m_powf L (z2f 10) (fdiv (fsub f0 (nc_headroom_db c)) (z2f 20))) p)
            (fdiv f1 p))) s).
Proof.
  intros L s c sr out m M H. unfold normalize in H. rewrite M in H.
  exists (peak_of s). split. apply peak_of_spec.
  destruct (peak_cases _ _ _ _ _ H) as (_ & [(A & B)|(A & B)]); auto.
Qed.
Print Assumptions C05_peak_gain.

(** Digital silence stays digital silence under peak and RMS normalization. *)
Theorem C05_silence : forall L s c sr out m, nc_method c <> NLoudness ->
  Forall (fun x => fin x /\ B2R x = 0) s ->
  normalize L s c sr = Ok (out, m) -> out = s.
Proof.
  intros L s c sr out m M Hz H. unfold normalize in H. destruct (nc_method c); [| |easy].
  - destruct (peak_cases _ _ _ _ _ H) as (_ & [(A & B)|(A & B)]); auto. exfalso.
    assert (E : peak_of s = f0).
    { destruct (proj2 (proj1 (peak_of_spec s))) as [E|(x & X1 & X2 & X3)]; auto.
      rewrite Forall_forall in Hz. destruct (Hz x X1) as (Fx & Zx). rewrite X3.
      destruct x as [b| | |b mm e Hb]; try discriminate; [now destruct b|].
      exfalso. simpl in Zx. apply eq_0_F2R in Zx. destruct b; discriminate. }
    rewrite E in A. discriminate.
  - destruct (rms_cases _ _ _ _ _ _ H) as (Hs & [(A & B)|(A & _)]); auto. exfalso.
    pose proof (rms_loud_peak s Hs) as P.
    assert (B2R (peak_of s) <= 0).
    { apply peak_fin. lra. eapply Forall_impl; [|exact Hz]. intros x (F & Z) _.
      split; auto. rewrite Z, Rabs_R0. lra. }
    assert (bpow radix2 (-64) <= B2R (peak_of s)).
    { apply P; auto. eapply Forall_impl; [|exact Hz]. now intros ? []. }
    pose proof (bpow_gt_0 radix2 (-64)). lra.
Qed.
Print Assumptions C05_silence.

(** 10^y is never negative. *)
Definition powf_ok (L : libm) : Prop :=
  forall y, nn (m_powf L (z2f 10) y) -> nneg (m_powf L (z2f 10) y).
(** Finite audio with peak at most 2^126. *)
Definition audio_ok (s : list f32) : Prop :=
  Forall (fun x => fin x /\ Rabs (B2R x) <= bpow radix2 126) s.

Lemma audio_peak : forall s, audio_ok s -> fin (peak_of s) /\ B2R (peak_of s) <= bpow radix2 126.
Proof.
  intros s H. apply peak_fin. apply bpow_ge_0. eapply Forall_impl; [|exact H].
  intros x (A & B) _. auto.
Qed.

Lemma peak_above : forall s, audio_ok s -> fle (peak_of s) eps10 = false ->
  bpow radix2 (-126) <= B2R (peak_of s).
Proof.
  intros s H E. destruct (audio_peak s H) as (F & B).
  apply fle_false_flt in E; [|now apply fin_nn|reflexivity]. apply flt_fx in E.
  rewrite !fx_fin in E by (auto; reflexivity). pose proof eps10_gt.
  assert (bpow radix2 (-126) <= bpow radix2 (-34)) by (apply bpow_le; lia). lra.
Qed.

Lemma scaled_le1 : forall s p g x, is_peak s p -> fin p -> fin g -> nneg g ->
  fle (fmul p g) f1 = true -> In x s -> fin x -> fle (fabs (fmul x g)) f1 = true.
Proof.
  intros s p g x (P & _) Fp Fg Ng L Hx Fx.
  destruct (fmul_fx x g Fx Fg) as (N & _).
  assert (E : flt f1 (fabs (fmul x g)) = false).
  { apply (scaled_not_gt1 x p g); auto. now apply fle_flt_false. }
  apply flt_false_fle in E; auto. now rewrite fabs_nn.
Qed.

Lemma inv_peak_ok : forall s x, audio_ok s -> bpow radix2 (-126) <= B2R (peak_of s) -> In x s ->
  forall g, nneg g -> fle g (fdiv f1 (peak_of s)) = true -> fle (fabs (fmul x g)) f1 = true.
Proof.
  intros s x H P Hx g Ng Lg. destruct (audio_peak s H) as (F & B).
  assert (bpow radix2 (-127) <= bpow radix2 (-126)) by (apply bpow_le; lia).
  assert (Fi : fin (fdiv f1 (peak_of s))) by (apply inv_fin; auto; lra).
  apply (scaled_le1 s (peak_of s)); auto.
  - apply peak_of_spec.
  - apply (fin_between f0 g (fdiv f1 (peak_of s))); auto.
  - apply limited_le1; auto.
  - unfold audio_ok in H. rewrite Forall_forall in H. now apply H.
Qed.

Lemma peak_no_clip : forall L s h out m, powf_ok L -> audio_ok s ->
  normalize_peak L s h = Ok (out, m) -> Forall (fun y => fle (fabs y) f1 = true) out.
Proof.
  intros L s h out m HL Ha H. destruct (audio_peak s Ha) as (Fp & Bp).
  destruct (peak_cases _ _ _ _ _ H) as (Hs & [(A & ->)|(A & ->)]).
  - apply Forall_forall. intros x Hx. destruct (peak_of_spec s) as ((P & _) & _).
    unfold audio_ok in Ha. rewrite Forall_forall in Ha.
    eapply fle_trans; [apply P; auto; now apply fin_nn, Ha|].
    eapply fle_trans; [exact A|reflexivity].
  - pose proof (peak_above s Ha A) as P. apply Forall_map, Forall_forall. intros x Hx.
    assert (bpow radix2 (-127) <= bpow radix2 (-126)) by (apply bpow_le; lia).
    assert (Fi : fin (fdiv f1 (peak_of s))) by (apply inv_fin; auto; lra).
    assert (PP : pos (peak_of s)).
    { apply flt_intro; auto. now apply fin_nn. rewrite fx_f0, fx_fin by auto.
      pose proof (bpow_gt_0 radix2 (-126)). lra. }
    apply (inv_peak_ok s); auto.
    + apply fmin_glb; [intros N|intros N|].
      * apply fdiv_nneg; auto. apply HL. now apply fdiv_nan_inv in N.
      * apply fdiv_nneg; auto.
      * right. now apply fin_nn.
    + apply fmin_le_r. now apply fin_nn.
Qed.

(** C06, peak method: whatever the headroom (NaN and infinities included), no sample ends up
    above 1 in magnitude and none becomes NaN. *)
Theorem C06_peak : forall L s c sr out m, powf_ok L -> audio_ok s -> nc_method c = NPeak ->
  normalize L s c sr = Ok (out, m) -> Forall (fun y => fle (fabs y) f1 = true) out.
Proof.
  intros L s c sr out m HL Ha M H. unfold normalize in H. rewrite M in H.
  eapply peak_no_clip; eauto.
Qed.
Print Assumptions C06_peak.

(** C06, RMS method: no sample exceeds 1 in magnitude (a NaN target makes them NaN). *)
Theorem C06_rms_no_clip : forall L s c sr out m, powf_ok L -> audio_ok s ->
  (Z.of_nat (length s) <= 2 ^ 63)%Z -> nc_method c = NRms ->
  normalize L s c sr = Ok (out, m) -> Forall (fun y => flt f1 (fabs y) = false) out.
Proof.
  intros L s c sr out m HL Ha Hlen M H. unfold normalize in H. rewrite M in H.
  destruct (audio_peak s Ha) as (Fp & Bp).
  assert (Hf : Forall (fun x => fin x) s) by (eapply Forall_impl; [|exact Ha]; now intros ? []).
  destruct (rms_cases _ _ _ _ _ _ H) as (Hs & [(A & ->)|(A & [(B & ->)|(B & ->)])]).
  - apply Forall_forall. intros x Hx. apply fle_flt_false. eapply rms_quiet_le1; eauto.
  - apply Forall_map, Forall_forall. intros x Hx. apply fle_flt_false.
    pose proof (rms_loud_peak s Hs Hf A) as P.
    assert (Q : bpow radix2 (-126) <= bpow radix2 (-64)) by (apply bpow_le; lia).
    assert (Q2 : bpow radix2 (-127) <= bpow radix2 (-126)) by (apply bpow_le; lia).
    assert (PP : pos (peak_of s)).
    { apply flt_intro; auto. now apply fin_nn. rewrite fx_f0, fx_fin by auto.
      pose proof (bpow_gt_0 radix2 (-64)). lra. }
    assert (Fi : fin (fdiv f1 (peak_of s))) by (apply inv_fin; auto; lra).
    apply (inv_peak_ok s); auto; try lra.
    + apply fdiv_nneg; auto. now apply fin_nn.
    + apply fle_refl. now apply fin_nn.
  - apply Forall_map, Forall_forall. intros x Hx.
    destruct (peak_of_spec s) as ((P & _) & _).
    apply (scaled_not_gt1 x (peak_of s)); auto. intros Ng.
    pose proof (fdiv_nan_inv _ _ Ng) as (Nt & Nr).
    assert (PR : pos (rms_of s)).
    { apply fle_false_flt in A; auto. eapply flt_fle_trans; [|apply flt_fle; exact A].
      reflexivity. }
    apply fdiv_nneg; auto.
Qed.
Print Assumptions C06_rms_no_clip.

(** ... and for a proper target level and audio up to 2^51 none becomes NaN either. *)
Theorem C06_rms : forall L s c sr out m, powf_ok L ->
  (forall y, nn y -> nn (m_powf L (z2f 10) y)) ->
  fin (nc_target_lufs c) -> fin (nc_headroom_db c) ->
  Forall (fun x => fin x /\ Rabs (B2R x) <= bpow radix2 51) s ->
  (Z.of_nat (length s) <= 2 ^ 63)%Z -> nc_method c = NRms ->
  normalize L s c sr = Ok (out, m) -> Forall (fun y => fle (fabs y) f1 = true) out.
Proof.
  intros L s c sr out m HL HN Ft Fh Ha Hlen M H.
  assert (Ha' : audio_ok s).
  { eapply Forall_impl; [|exact Ha]. intros x (F & B). split; auto.
    eapply Rle_trans; [exact B|]. apply bpow_le. lia. }
  pose proof (C06_rms_no_clip L s c sr out m HL Ha' Hlen M H) as NC.
  unfold normalize in H. rewrite M in H.
  destruct (audio_peak s Ha') as (Fp & Bp).
  assert (Hf : Forall (fun x => fin x) s) by (eapply Forall_impl; [|exact Ha]; now intros ? []).
  assert (OUT : forall g, out = apply_gain g s -> fin g ->
     Forall (fun y => fle (fabs y) f1 = true) out).
  { intros g -> Fg. rewrite Forall_forall in *. intros y Hy. specialize (NC y Hy).
    apply flt_false_fle in NC; auto. rewrite fabs_nn.
    apply in_map_iff in Hy. destruct Hy as (x & <- & Hx). apply fmul_fx; auto. }
  destruct (rms_cases _ _ _ _ _ _ H) as (Hs & [(A & ->)|(A & B)]).
  { apply Forall_forall. intros x Hx. eapply rms_quiet_le1; eauto. }
  assert (P := rms_loud_peak s Hs Hf A).
  assert (Q : bpow radix2 (-126) <= bpow radix2 (-64)) by (apply bpow_le; lia).
  assert (Q2 : bpow radix2 (-127) <= bpow radix2 (-126)) by (apply bpow_le; lia).
  assert (P0 := bpow_gt_0 radix2 (-64)).
  destruct B as [(B & E)|(B & E)].
  - apply (OUT _ E). apply inv_fin; auto; lra.
  - apply (OUT _ E).
    destruct (rms_bound s 51 ltac:(lia) Hs Ha) as (R0 & FR & _).
    assert (PR : pos (rms_of s)).
    { apply fle_false_flt in A; auto; [|now apply fin_nn].
      eapply flt_fle_trans; [|apply flt_fle; exact A]. reflexivity. }
    set (y := fdiv (fsub _ _) _) in *.
    assert (Ny : nn y).
    { unfold y. assert (N1 : nn (fadd (nc_target_lufs c) (z2f 3))) by (now apply fadd_nn_fin_l, fin_nn || apply fadd_nn_fin_l; auto).
      assert (N2 : nn (fsub (fadd (nc_target_lufs c) (z2f 3)) (nc_headroom_db c))).
      { rewrite fsub_eq. apply fadd_nn_fin_r; auto. destruct (nc_headroom_db c); auto. }
      destruct (nn_cases _ N2) as [F2|[-> | ->]]; try reflexivity.
      apply fdiv_nn_fin; auto; reflexivity. }
    specialize (HN y Ny). pose proof (HL y HN) as Nt. fold f10 in *.
    set (t := m_powf L f10 y) in *.
    assert (Ng : nn (fdiv t (rms_of s))).
    { destruct (nn_cases t HN) as [F2|[-> | ->]]; [now apply fdiv_nn_fin| |];
      destruct (rms_of s); try discriminate; reflexivity. }
    destruct (nneg_cases _ (fdiv_nneg _ _ Nt PR Ng)) as [(G & _)|G]; auto.
    exfalso. rewrite G in B.
    assert (PP : pos (peak_of s)).
    { apply flt_intro; auto. now apply fin_nn. rewrite fx_f0, fx_fin by auto. lra. }
    rewrite fmul_comm, (fmul_inf_l _ PP) in B. discriminate B.
Qed.
Print Assumptions C06_rms.

(** Without that restriction the claim fails: a NaN target turns every sample into NaN. *)
Theorem C06_rms_nan_refuted : exists s c, forall L sr, (forall y, is_nan y = true -> is_nan (m_powf L (z2f 10) y) = true) ->
  Forall (fun x => fle (fabs x) f1 = true) s /\
  omap (fun r => map fisnan (fst r)) (normalize L s c sr) = Ok (map (fun _ => true) s).
Proof.
  exists [f1; fhalf], {| nc_method := NRms; nc_target_lufs := fnan; nc_headroom_db := f1 |}.
  intros L sr H. split. { repeat constructor. }
  unfold normalize, normalize_rms. cbn [nc_method nc_target_lufs nc_headroom_db].
  assert (E : fdiv (fsub (fadd fnan (z2f 3)) f1) f20 = fnan) by (apply B2SF_inj; vm_compute; reflexivity).
  rewrite E. fold f10 in H. specialize (H fnan eq_refl).
  destruct (m_powf L f10 fnan); try discriminate. vm_compute. reflexivity.
Qed.
Print Assumptions C06_rms_nan_refuted.

(** Beyond 2^126 the claim fails too: 1/peak is subnormal there and peak * (1/peak) can
    round to a number above 1. *)
Theorem C06_huge_refuted : exists s c, forall L sr,
  m_powf L (z2f 10) f0 = f1 ->
  Forall (fun x => fin x) s /\ nc_method c = NPeak /\
  omap (fun r => map (flt f1) (fst r)) (normalize L s c sr) = Ok [true].
Proof.
  exists [lit 13696959 104], {| nc_method := NPeak; nc_target_lufs := f0; nc_headroom_db := f0 |}.
  intros L sr H. split. { repeat constructor. } split; auto.
  unfold normalize, normalize_peak. cbn [nc_method nc_target_lufs nc_headroom_db].
  assert (E : fdiv (fsub f0 f0) f20 = f0) by (apply B2SF_inj; vm_compute; reflexivity).
  rewrite E. fold f10 in H. rewrite H. vm_compute. reflexivity.
Qed.
Print Assumptions C06_huge_refuted.

(** LUFS normalization: no clipping when the headroom is a non-negative number, provided
    the peak is a normal number. *)
Theorem C06_lufs_partial : forall L s c sr out m, powf_ok L ->
  (forall y, fle y f0 = true -> fle (m_powf L (z2f 10) y) f1 = true) ->
  audio_ok s -> (exists x, In x s /\ bpow radix2 (-126) <= Rabs (B2R x)) ->
  nneg (nc_headroom_db c) -> fin (nc_headroom_db c) -> nc_method c = NLoudness ->
  normalize L s c sr = Ok (out, m) -> Forall (fun y => flt f1 (fabs y) = false) out.
Proof.
  intros L s c sr out m HL HN Ha (x0 & Hx0 & Bx0) Hh Fh M H.
  unfold normalize in H. rewrite M in H.
  destruct (audio_peak s Ha) as (Fp & Bp).
  destruct (peak_of_spec s) as ((P & PE) & Pn).
  assert (Hf : Forall (fun x => fin x) s) by (eapply Forall_impl; [|exact Ha]; now intros ? []).
  assert (PL : bpow radix2 (-126) <= B2R (peak_of s)).
  { rewrite Forall_forall in Hf. specialize (P x0 Hx0 (fin_nn _ (Hf _ Hx0))).
    apply fle_fx in P. rewrite fabs_fx in P by now apply fin_nn, Hf.
    rewrite !fx_fin in P by auto. lra. }
  assert (PP : pos (peak_of s)).
  { apply flt_intro; auto. now apply fin_nn. rewrite fx_f0, fx_fin by auto.
    pose proof (bpow_gt_0 radix2 (-126)). lra. }
  destruct (lufs_cases _ _ _ _ _ _ _ H) as (lufs & _ & [(_ & Q)|(_ & Q)]).
  { eapply Forall_impl; [|eapply peak_no_clip; eauto]. intros y Hy. now apply fle_flt_false. }
  cbv zeta in Q. set (y := fdiv (fsub f0 (nc_headroom_db c)) f20) in *.
  assert (T1 : fle (m_powf L f10 y) f1 = true).
  { apply HN. unfold y. destruct (fsub_fx f0 (nc_headroom_db c) eq_refl Fh) as (N1 & V1).
    assert (S0 : fle (fsub f0 (nc_headroom_db c)) f0 = true).
    { apply fsub_le_l; auto. }
    eapply fle_trans. apply fdiv_mono_l with (b := f0); try reflexivity; auto.
    destruct (nn_cases _ N1) as [F2|[-> | ->]]; try reflexivity. apply fdiv_nn_fin; auto; reflexivity.
    vm_compute. reflexivity. }
  pose proof (fle_nn _ _ T1) as (Nt & _). pose proof (HL y Nt) as T0. fold f10 in T0.
  set (t := m_powf L f10 y) in *.
  assert (Ft : fin t) by (apply (fin_between f0 t f1); auto).
  assert (Q2 : bpow radix2 (-127) <= bpow radix2 (-126)) by (apply bpow_le; lia).
  assert (Fi : fin (fdiv f1 (peak_of s))) by (apply inv_fin; auto; lra).
  destruct Q as [(Q & ->)|(Q & ->)]; apply Forall_map, Forall_forall; intros x Hx.
  - apply fle_flt_false. apply (inv_peak_ok s); auto.
    + apply fdiv_nneg; auto. now apply fdiv_nn_fin.
    + apply fdiv_mono_l; auto; try now apply fdiv_nn_fin.
  - apply (scaled_not_gt1 x (peak_of s)); auto.
    destruct (is_nan (fmul (peak_of s) (m_powf L f10 (fdiv (fsub (nc_target_lufs c) lufs) f20)))) eqn:N.
    { destruct (fmul _ _); try discriminate N. reflexivity. }
    apply flt_false_fle in Q; auto. apply fle_flt_false. eapply fle_trans; eauto.
Qed.
Print Assumptions C06_lufs_partial.

(** C49: the reported gain is the applied gain, 20*log10 of it, for RMS normalization ... *)
Theorem C49_rms_gain : forall L s c sr out m, nc_method c = NRms ->
  normalize L s c sr = Ok (out, m) ->
  (out = s /\ lm_gain_db m = f0) \/
  exists g, out = map (fun x => fmul x g) s /\ lm_gain_db m = fmul (z2f 20) (m_log10 L g).
Proof.
  intros L s c sr out m M H. unfold normalize in H. rewrite M in H.
  destruct s as [|x s]; [discriminate|]. unfold normalize_rms in H.
  destruct (fle (rms_of (x :: s)) eps10); [injection H; intros <- <-; auto|].
  cbv zeta in H. right.
  match type of H with (if ?b then _ else _) = _ => destruct b end; injection H;
    intros <- <-; eexists; split; reflexivity.
Qed.
Print Assumptions C49_rms_gain.

(** ... and for peak normalization with target peak at most 1, i.e. headroom >= 0. *)
Theorem C49_peak_gain_partial : forall L s c sr out m, nc_method c = NPeak -> audio_ok s ->
  (let t := m_powf L (z2f 10) (fdiv (fsub f0 (nc_headroom_db c)) (z2f 20)) in
   nneg t /\ fle t f1 = true) ->
  normalize L s c sr = Ok (out, m) ->
  (out = s /\ lm_gain_db m = f0) \/
  exists g, out = map (fun x => fmul x g) s /\ lm_gain_db m = fmul (z2f 20) (m_log10 L g).
Proof.
  intros L s c sr out m M Ha (T0 & T1) H. unfold normalize in H. rewrite M in H.
  pose proof H as H0. destruct (peak_cases _ _ _ _ _ H0) as (_ & [(A & E)|(A & E)]).
  { left. split; auto. destruct s; [discriminate|]. unfold normalize_peak in H. rewrite A in H.
    injection H. intros <- _. reflexivity. }
  right. eexists. split; [exact E|]. destruct s as [|x s]; [discriminate|].
  unfold normalize_peak in H. rewrite A in H. injection H. intros <- _. cbn [lm_gain_db].
  unfold to_db. do 2 f_equal. fold f10 f20 in *. set (t := m_powf L f10 _) in *.
  set (p := peak_of (x :: s)) in *.
  destruct (audio_peak _ Ha) as (Fp & Bp). fold p in Fp, Bp.
  pose proof (peak_above _ Ha A) as PL. fold p in PL.
  assert (PP : pos p).
  { apply flt_intro; auto. now apply fin_nn. rewrite fx_f0, fx_fin by auto.
    pose proof (bpow_gt_0 radix2 (-126)). lra. }
  assert (Ft : fin t) by (apply (fin_between f0 t f1); auto).
  assert (N1 : nn (fdiv t p)) by now apply fdiv_nn_fin.
  assert (N2 : nn (fdiv f1 p)) by now apply fdiv_nn_fin.
  assert (LE : fle (fdiv t p) (fdiv f1 p) = true) by (apply fdiv_mono_l; auto).
  unfold fmin, fisnan. rewrite N1, N2. apply fle_flt_false in LE. now rewrite LE.
Qed.
Print Assumptions C49_peak_gain_partial.

(** With a negative headroom peak normalization reports a gain that it did not apply. *)
Theorem C49_reported_gain_refuted : exists s c, forall L sr,
  m_powf L (z2f 10) f1 = z2f 10 -> m_log10 L (z2f 10) = f1 ->
  nc_method c = NPeak /\
  (* the samples come out unchanged, so the applied gain is 1 (0 dB) ... *)
  omap (fun r => map (fun y => feq y f1) (fst r)) (normalize L s c sr) = Ok [true] /\
  (* ... but 20 dB are reported. *)
  s = [f1] /\
  omap (fun r => feq (lm_gain_db (snd r)) (z2f 20)) (normalize L s c sr) = Ok true.
Proof.
  exists [f1], {| nc_method := NPeak; nc_target_lufs := f0; nc_headroom_db := fneg (z2f 20) |}.
  intros L sr H H10. split; auto.
  assert (E : fdiv (fsub f0 (fneg (z2f 20))) f20 = f1) by (apply B2SF_inj; vm_compute; reflexivity).
  unfold normalize, normalize_peak. cbn [nc_method nc_target_lufs nc_headroom_db].
  rewrite E. fold f10 in H, H10. rewrite H.
  assert (E2 : fdiv f10 (peak_of [f1]) = f10) by (apply B2SF_inj; vm_compute; reflexivity).
  rewrite E2. unfold to_db. rewrite H10. repeat split; vm_compute; reflexivity.
Qed.
Print Assumptions C49_reported_gain_refuted.

(** A concrete case: a quiet and a loud sample, peak-normalized to full scale. *)
Example C05_case : forall L sr, m_powf L (z2f 10) f0 = f1 ->
  omap (fun r => map (fun y => feq (fst y) (snd y))
                     (combine (fst r) [f1; fneg fhalf; f0])) 
    (normalize L [fhalf; lit (-1) (-2); f0]
       {| nc_method := NPeak; nc_target_lufs := f0; nc_headroom_db := f0 |} sr)
  = Ok [true; true; true].
Proof.
  intros L sr H. unfold normalize, normalize_peak. cbn [nc_method nc_headroom_db].
  assert (E : fdiv (fsub f0 f0) f20 = f0) by (apply B2SF_inj; vm_compute; reflexivity).
  rewrite E. fold f10 in H. rewrite H. vm_compute. reflexivity.
Qed.
