(** C97: the key of a detuned recording. *)
From Coq Require Import ZArith Reals Lra Lia List.
From Flocq Require Import Core IEEE754.BinarySingleNaN.
From Verif Require Import Rust F32 F32Facts F32More ListFacts Bounds Libm Chroma Config KeyNotation KeyTemplates KeyDetector KeyDetectorProofs KeyStage KeyFeatures
  FourierFacts SpectrumFacts ChromaPitchFacts ChromaPitchProps TuningValueProps TuningStageProps KeyProfileProps.
From Verif Require HpcpPitchProps AutocorrelationValueProofs NoveltyStrengthFacts.
Import ListNotations.
Local Open Scope R_scope.

Lemma ratio_le1 : forall (E : nat -> R) j, 0 < length12 E -> (j < 12)%nat -> Rabs (E j / length12 E) <= 1.
Proof.
  intros E j P Hj. assert (A : Rabs (E j) <= length12 E).
  { rewrite <- sqrt_Rsqr_abs. apply sqrt_le_1_alt. unfold Rsqr. apply (AutocorrelationValueProofs.sumn_term (fun i => E i * E i) 12 j); [intros; apply Rle_0_sqr|exact Hj]. }
  unfold Rdiv. rewrite Rabs_mult, (Rabs_pos_eq (/ length12 E)) by (left; now apply Rinv_0_lt_compat).
  apply Rmult_le_reg_r with (length12 E); [exact P|]. rewrite Rmult_assoc, Rinv_l by lra. lra.
Qed.

(** A recording [delta] semitones off concert pitch whose notes, frame by frame, follow the published profile of a key up to a
    fortieth of a rating point: with tuning compensation the key detector reports that key or its relative major or minor. *)
Theorem C97_detuned_key : forall L P c rate n spec nt delta eps beats h s k A,
  log2_accurate (m_log2 L) (/ 1048576) -> sin_accurate L (/ 1048576) -> cos_accurate L (/ 1048576) -> root_accurate L (/ 1024) -> atan2_accurate P (/ 1048576) ->
  pow_accurate (m_powf L) (/ 1048576) ->
  cf_enable_key_tuning_compensation c = true -> cf_soft_chroma_mapping c = false -> cf_enable_key_hpcp c = false ->
  (cf_enable_key_beat_synchronous c = false \/ beats = []) ->
  (0 < n <= key_fft_size c)%nat -> (4200 <= Z.of_nat rate <= 200000)%Z -> (1 <= Z.of_nat (key_fft_size c) <= 65536)%Z ->
  fin (cf_key_tuning_peak_rel_threshold c) -> 0 <= B2R (cf_key_tuning_peak_rel_threshold c) <= 1 -> fin (cf_key_tuning_max_abs_semitones c) ->
  0 <= eps <= / 16 -> Rabs delta + 2 * eps <= 49 / 100 -> detuned c rate n spec nt delta eps ->
  let freq b := bin_freq rate (key_fft_size c) b in
  let E i j := sumn (fun b => if inside rate (freq b) && (nt b mod 12 =? Z.of_nat j)%Z then strength (B2R (nth b (nth i spec []) f0)) else 0) n in
  (forall i b, (i < length spec)%nat -> (b < n)%nat -> 0 < B2R (nth b (nth i spec []) f0) ->
     / 10000 <= Rabs (freq b - 100) /\ / 1000 <= Rabs (freq b - 5000) /\ INR rate / 2 * / 1000000 <= Rabs (freq b - INR rate / 2)) ->
  (forall i, (i < length spec)%nat -> / 1073741824 <= length12 (E i)) ->
  honest h -> (Z.of_nat (length spec) <= 30000)%Z -> In k all_keys -> bpow radix2 (-20) <= A ->
  INR (length spec) * (INR n / 2700000 + / 30000) <= A / 40 ->
  (forall j, (j < 12)%nat -> Rabs (sumn (fun i => E i j / length12 (E i)) (length spec) - A * (IZR (rating s k j) / 100)) <= A / 40) ->
  exists o cs energies, tuning_offset L P c rate spec false = Ok o /\ chroma_call L P c rate beats spec None o = Ok (cs, energies) /\
    forall r, detect_key h cs (new_templates s) = Ok r -> kr_key r = k \/ kr_key r = relative k.
Proof.
  intros L P c rate n spec nt delta eps beats h s k A HL HS HC HR HA HP On Hs Hh Hb Hn Hr Hf Ft Ht Fm He Hd D freq E Ed Lo Ho Ns Ik PA Small Fit.
  destruct (C94_compensation L P c rate n spec nt delta eps HL HS HC HR HA On Hn Hr Hf Ft Ht Fm He Hd D) as (o & Eo & _ & _ & _ & Ch).
  destruct (Ch beats HP Hs Hh Hb) as (cs & en & Ec & Lc & V). clear Ch. exists o, cs, en. split; [exact Eo|]. split; [exact Ec|].
  set (tol := INR n / 2700000 + / 30000) in *.
  assert (V' : forall i, (i < length spec)%nat -> length (nth i cs []) = 12%nat /\
    forall j, (j < 12)%nat -> let x := nth j (nth i cs []) f0 in fin x /\ 0 <= B2R x /\ Rabs (B2R x - E i j / length12 (E i)) <= tol).
  { intros i Hi. apply (V i Hi); [intros b Hb' M; exact (Ed i b Hi Hb' M)|exact (Lo i Hi)]. }
  clear V. assert (T1 : tol <= / 10).
  { assert (INR n <= 65536) by (rewrite INR_IZR_INZ; apply IZR_le; lia). unfold tol. lra. }
  intros r Hr'. apply (C86_relative h s cs None r k A Ho); [| |exact Ik|exact PA| |exact Hr'].
  - split; [|exact I]. apply Forall_forall. intros fr If. destruct (In_nth _ _ [] If) as (i & Hi & <-). rewrite Lc in Hi. destruct (V' i Hi) as (L12 & X).
    apply Forall_forall. intros x Ix. destruct (In_nth _ _ f0 Ix) as (j & Hj & <-). rewrite L12 in Hj. destruct (X j Hj) as (Fx & Nx & Bx).
    pose proof (ratio_le1 (E i) j ltac:(pose proof (Lo i Hi); lra) Hj) as R1. apply Rabs_le_inv in R1. apply Rabs_le_inv in Bx.
    split; [apply HpcpPitchProps.le_real; [reflexivity|exact Fx|exact Nx]|]. split; [exact Fx|]. change (bpow radix2 20) with 1048576. apply Rabs_le. lra.
  - rewrite Lc. exact Ns.
  - intros j Hj. assert (Q : Rabs (energy cs None j - sumn (fun i => E i j / length12 (E i)) (length spec)) <= INR (length spec) * tol).
    { unfold energy. rewrite Lc. assert (Sp : forall m, (m <= length spec)%nat ->
        Rabs (sumn (fun i => 1 * B2R (nth j (nth i cs []) f0)) m - sumn (fun i => E i j / length12 (E i)) m) <= INR m * tol); [|now apply Sp].
      intros m. induction m as [|m IH]; intros Hm; [cbn [sumn INR]; rewrite Rminus_diag_eq, Rabs_R0 by reflexivity; lra|].
      cbn [sumn]. rewrite S_INR, Rmult_1_l. specialize (IH ltac:(lia)). destruct (V' m ltac:(lia)) as (_ & X). destruct (X j Hj) as (_ & _ & Bx).
      set (u1 := sumn _ m) in *. set (u2 := sumn _ m) in *. apply Rabs_le_inv in IH. apply Rabs_le_inv in Bx. apply Rabs_le. lra. }
    specialize (Fit j Hj). apply Rabs_le_inv in Fit. apply Rabs_le_inv in Q. apply Rabs_le. lra.
Qed.
Print Assumptions C97_detuned_key.

(** A melody over the twelve notes from 450 Hz upwards, one note per frame, each as often as the Temperley profile of a major
    key rates it, in a recording 0.389 semitones sharp: reported as A major or F sharp minor. *)
Definition tone_hz (m : nat) : nat := nth m [450; 477; 505; 535; 567; 601; 636; 674; 714; 757; 802; 849]%nat 450%nat.
Definition melody : list nat := flat_map (fun m => repeat m (nth m [10; 4; 7; 4; 9; 8; 4; 9; 4; 7; 3; 8]%nat 0%nat)) (seq 0 12).
Definition tone (n m : nat) : list f32 := map (fun b => if (b =? tone_hz m)%nat then f1 else f0) (seq 0 n).
Definition tone_of (b : nat) : nat := length (filter (fun m => (tone_hz m <? b)%nat) (seq 0 12)).

Lemma tone_range : forall m, (450 <= tone_hz m <= 849)%nat.
Proof. intros m. unfold tone_hz. do 12 (destruct m as [|m]; [cbn [nth]; lia|]). cbn [nth]. destruct m; lia. Qed.
Lemma tone_back : forall m, (m < 12)%nat -> tone_of (tone_hz m) = m.
Proof. intros m H. do 12 (destruct m as [|m]; [vm_compute; reflexivity|]). lia. Qed.
Lemma tone_nth : forall n m b, (b < n)%nat -> nth b (tone n m) f0 = if (b =? tone_hz m)%nat then f1 else f0.
Proof.
  intros n m b H. unfold tone. set (g := fun b0 : nat => if (b0 =? tone_hz m)%nat then f1 else f0).
  rewrite (nth_indep _ f0 (g 0%nat)) by (rewrite map_length, seq_length; exact H). rewrite map_nth, seq_nth by exact H. reflexivity.
Qed.
Lemma melody_range : forall m, In m melody -> (m < 12)%nat.
Proof. intros m H. unfold melody in H. apply in_flat_map in H. destruct H as (x & I & R). apply repeat_spec in R. subst x. apply in_seq in I. lia. Qed.
Lemma sum_count : forall (p : nat -> bool) n, sumn (fun i => if p i then 1 else 0) n = INR (length (filter p (seq 0 n))).
Proof.
  intros p n. induction n as [|n IH]; [reflexivity|]. cbn [sumn]. rewrite seq_S, filter_app, app_length, plus_INR, IH. cbn [Nat.add filter]. destruct (p n); simpl; lra.
Qed.
Lemma tone_pitch : forall m, (m < 12)%nat -> Rabs (12 * (ln (INR (tone_hz m) / 450) / ln 2) - INR m) <= / 32.
Proof.
  intros m H. pose proof ln2_ge as L2.
  assert (K : forall (z : Z) (n : nat), (0 < z)%Z -> (96 * Z.abs (z ^ 12 - 2 ^ Z.of_nat n * 450 ^ 12) <=? 2 ^ Z.of_nat n * 450 ^ 12)%Z = true ->
    Rabs (12 * (ln (IZR z / 450) / ln 2) - INR n) <= / 32).
  { intros z n Pz C. apply Z.leb_le, IZR_le in C. apply IZR_lt in Pz.
    rewrite !mult_IZR, abs_IZR, minus_IZR, mult_IZR in C. change 12%Z with (Z.of_nat 12) in C. rewrite <- !pow_IZR in C. set (w := 450 ^ 12) in *.
    assert (W : 0 < w) by (apply pow_lt; lra).
    replace (12 * (ln (IZR z / 450) / ln 2) - INR n) with (lg ((IZR z / 450) ^ 12) - lg (2 ^ n)).
    - eapply Rle_trans; [apply (lg_near (2 ^ n) ((IZR z / 450) ^ 12) (/ 96)); [apply pow_lt; lra|lra|]|lra].
      replace ((IZR z / 450) ^ 12) with (IZR z ^ 12 / w) by (unfold w; field). replace (IZR z ^ 12 / w - 2 ^ n) with ((IZR z ^ 12 - 2 ^ n * w) / w) by (field; lra).
      unfold Rdiv. rewrite Rabs_mult, (Rabs_pos_eq (/ w)) by (left; now apply Rinv_0_lt_compat). apply Rmult_le_reg_r with w; [exact W|]. rewrite Rmult_assoc, Rinv_l by lra. lra.
    - unfold lg. rewrite !ln_pow by (try apply Rdiv_lt_0_compat; lra). replace (INR 12) with 12 by (simpl; lra). field. lra. }
  rewrite (INR_IZR_INZ (tone_hz m)). pose proof (tone_range m) as R. apply K; [lia|]. do 12 (destruct m as [|m]; [vm_compute; reflexivity|]). lia.
Qed.

Example C97_case : forall L P c rate n beats h, Z.of_nat rate = 4500%Z -> Z.of_nat n = 860%Z -> key_fft_size c = rate ->
  log2_accurate (m_log2 L) (/ 1048576) -> sin_accurate L (/ 1048576) -> cos_accurate L (/ 1048576) -> root_accurate L (/ 1024) -> atan2_accurate P (/ 1048576) ->
  pow_accurate (m_powf L) (/ 1048576) ->
  cf_enable_key_tuning_compensation c = true -> cf_soft_chroma_mapping c = false -> cf_enable_key_hpcp c = false -> cf_enable_key_beat_synchronous c = false ->
  cf_key_tuning_peak_rel_threshold c = fhalf -> cf_key_tuning_max_abs_semitones c = fhalf -> honest h ->
  let spec := map (tone n) melody in
  exists o cs energies, tuning_offset L P c rate spec false = Ok o /\ chroma_call L P c rate beats spec None o = Ok (cs, energies) /\
    forall r, detect_key h cs (new_templates Temperley) = Ok r -> kr_key r = Major 9 \/ kr_key r = Minor 6.
Proof.
  intros L P c rate n beats h Er En Ef HL HS HC HR HA HP On Hs Hh Hb Et Em Ho spec. set (delta := 12 * (ln (450 / 440) / ln 2)).
  assert (V1 : B2R f1 = 1) by apply B2R_f1. assert (V0 : B2R f0 = 0) by reflexivity.
  assert (IR : INR rate = 4500) by (rewrite INR_IZR_INZ, Er; reflexivity). assert (IN : INR n = 860) by (rewrite INR_IZR_INZ, En; reflexivity).
  assert (Vh : B2R fhalf = / 2) by (unfold fhalf; rewrite <- SF2R_B2SF; vm_compute; lra).
  pose proof ln2_ge as L2. assert (L2' : ln 2 <= 1). { rewrite <- (ln_exp 1). left. apply ln_increasing; [lra|]. pose proof (exp_ineq1 1 ltac:(lra)). lra. }
  assert (Dl : 0 <= delta <= 396 / 1000).
  { pose proof (NoveltyStrengthFacts.ln_le_sub1 (450 / 440) ltac:(lra)) as A1. assert (0 <= ln (450 / 440)) by (rewrite <- ln_1; left; apply ln_increasing; lra).
    unfold delta. set (x := ln (450 / 440)) in *. clearbody x. assert (E : x = x / ln 2 * ln 2) by (field; lra). set (y := x / ln 2) in *. clearbody y. split.
    - assert (0 <= y); [apply Rmult_le_reg_r with (ln 2); lra|lra].
    - apply Rmult_le_reg_r with (ln 2); [lra|]. lra. }
  assert (Fq : forall b, bin_freq rate rate b = INR b) by (intros b; unfold bin_freq; rewrite IR; field).
  assert (Ls : length spec = 77%nat) by (unfold spec; rewrite map_length; vm_compute; reflexivity).
  set (mel := fun i => nth i melody 0%nat).
  assert (Ml : forall i, (i < 77)%nat -> (mel i < 12)%nat) by (intros i Hi; apply melody_range, nth_In; exact Hi).
  assert (Sp : forall i, (i < 77)%nat -> nth i spec [] = tone n (mel i)).
  { intros i Hi. unfold spec. rewrite (nth_indep _ [] (tone n 0)) by (rewrite map_length; exact Hi). now rewrite map_nth. }
  assert (Mg : forall i b, (i < 77)%nat -> (b < n)%nat -> nth b (nth i spec []) f0 = if (b =? tone_hz (mel i))%nat then f1 else f0) by (intros i b Hi Hb'; rewrite Sp by exact Hi; now apply tone_nth).
  assert (Au : forall i b, (i < 77)%nat -> (b < n)%nat -> 0 < B2R (nth b (nth i spec []) f0) -> b = tone_hz (mel i)).
  { intros i b Hi Hb' M. rewrite Mg in M by assumption. destruct (Nat.eqb_spec b (tone_hz (mel i))); [assumption|rewrite V0 in M; lra]. }
  set (nt := fun b => (57 + Z.of_nat (tone_of b))%Z).
  assert (R2 : INR rate / 2 = 2250) by lra.
  assert (Hz : forall i, 450 <= INR (tone_hz (mel i)) <= 849) by (intros i; pose proof (tone_range (mel i)); rewrite INR_IZR_INZ; split; apply IZR_le; lia).
  assert (Ins : forall i, inside rate (INR (tone_hz (mel i))) = true) by (intros i; pose proof (Hz i); unfold inside; rewrite R2, !Rle_bool_true, Rlt_bool_true by lra; reflexivity).
  assert (S1 : strength 1 = 1) by (unfold strength; destruct (Rle_dec 1 0); [lra|unfold Rpower; rewrite ln_1, Rmult_0_r; apply exp_0]).
  assert (S0 : strength 0 = 0) by (unfold strength; destruct (Rle_dec 0 0); [reflexivity|lra]).
  set (cls := fun m => ((m + 9) mod 12)%nat).
  assert (EV : forall i j, (i < 77)%nat -> (j < 12)%nat ->
    sumn (fun b => if inside rate (bin_freq rate rate b) && (nt b mod 12 =? Z.of_nat j)%Z then strength (B2R (nth b (nth i spec []) f0)) else 0) n = if (j =? cls (mel i))%nat then 1 else 0).
  { intros i j Hi Hj. rewrite (sumn_ext _ (fun b => if (b =? tone_hz (mel i))%nat then (if (j =? cls (mel i))%nat then 1 else 0) else 0)).
    - rewrite (sumn_pick (fun _ => if (j =? cls (mel i))%nat then 1 else 0)). destruct (Nat.ltb_spec (tone_hz (mel i)) n) as [_ | X]; [reflexivity|]. pose proof (tone_range (mel i)). lia.
    - intros b Hb'. rewrite Mg, Fq by assumption. destruct (Nat.eqb_spec b (tone_hz (mel i))) as [-> | _]; [|rewrite V0, S0; now destruct (_ && _)].
      rewrite Ins, V1, S1. cbn [andb]. unfold nt. rewrite tone_back by (now apply Ml).
      replace ((57 + Z.of_nat (mel i)) mod 12)%Z with (Z.of_nat (cls (mel i))).
      + destruct (Nat.eqb_spec j (cls (mel i))) as [-> | X]; [now rewrite Z.eqb_refl|]. destruct (Z.eqb_spec (Z.of_nat (cls (mel i))) (Z.of_nat j)); [lia|reflexivity].
      + unfold cls. rewrite Nat2Z.inj_mod. change (Z.of_nat 12) with 12%Z. replace (57 + Z.of_nat (mel i))%Z with (Z.of_nat (mel i + 9) + 4 * 12)%Z by lia. now rewrite Z_mod_plus_full. }
  assert (EL : forall i, (i < 77)%nat -> length12 (fun j => sumn (fun b => if inside rate (bin_freq rate rate b) && (nt b mod 12 =? Z.of_nat j)%Z then strength (B2R (nth b (nth i spec []) f0)) else 0) n) = 1).
  { intros i Hi. unfold length12. rewrite (sumn_ext _ (fun j => if (j =? cls (mel i))%nat then 1 else 0)) by (intros j Hj; rewrite EV by assumption; destruct (_ =? _)%nat; ring).
    rewrite (sumn_pick (fun _ => 1)). destruct (Nat.ltb_spec (cls (mel i)) 12) as [_ | X]; [apply sqrt_1|]. pose proof (Nat.mod_upper_bound (mel i + 9) 12 ltac:(lia)). unfold cls in X. lia. }
  change (Minor 6) with (relative (Major 9)).
  apply (C97_detuned_key L P c rate n spec nt delta (/ 32) beats h Temperley (Major 9) 2); rewrite ?Ef, ?Et, ?Em; auto; try lia; try lra.
  - rewrite Rabs_pos_eq; lra.
  - unfold detuned. rewrite Ef, Ls. split; [|split; [|split]].
    + apply Forall_forall. intros fr If. unfold spec in If. apply in_map_iff in If. destruct If as (m & <- & _). split; [unfold tone; now rewrite map_length, seq_length|].
      apply Forall_forall. intros x Ix. unfold tone in Ix. apply in_map_iff in Ix. destruct Ix as (b & <- & _). assert (1 <= bpow radix2 40) by (apply (bpow_le radix2 0); lia).
      destruct (_ =? _)%nat; rewrite ?V0, ?V1; (split; [reflexivity|lra]).
    + intros i b Hi Hb' M _. rewrite (Au i b Hi Hb' M), Fq. unfold nt. rewrite tone_back by (now apply Ml). pose proof (tone_pitch (mel i) (Ml i Hi)) as T. pose proof (Hz i) as Z.
      rewrite plus_IZR, <- INR_IZR_INZ. unfold scale_pos, delta. set (f := INR (tone_hz (mel i))) in *.
      replace (f / 440) with (f / 450 * (450 / 440)) by field. rewrite ln_mult by (try apply Rdiv_lt_0_compat; lra).
      replace (12 * ((ln (f / 450) + ln (450 / 440)) / ln 2) + 57 - 12 * (ln (450 / 440) / ln 2) - (57 + INR (mel i))) with (12 * (ln (f / 450) / ln 2) - INR (mel i)) by (field; lra). exact T.
    + exists 0%nat, 450%nat. assert (H0 : (0 < 77)%nat) by lia. assert (H4 : (450 < n)%nat) by lia.
      split; [split; [exact H0|apply Nat.mod_0_l; lia]|]. split; [exact H4|]. rewrite Fq, (Mg _ _ H0 H4). change (450 =? tone_hz (mel 0))%nat with true. cbv iota. rewrite V1, (INR_IZR_INZ 450).
      change (Z.of_nat 450) with 450%Z. lra.
    + intros l Nl Hl. assert (length l <= length (map (fun i => (i, tone_hz (mel i))) (seq 0 77)))%nat; [|rewrite map_length, seq_length in *; lia].
      apply NoDup_incl_length; [exact Nl|]. intros (i, b) I. destruct (Hl _ I) as ((Hi & _) & Hb' & _ & M). cbn [fst snd] in *.
      apply in_map_iff. exists i. rewrite <- (Au i b Hi Hb' M). split; [reflexivity|apply in_seq; lia].
  - rewrite Ls. intros i b Hi Hb' M. rewrite (Au i b Hi Hb' M), Fq, R2. pose proof (Hz i). set (f := INR (tone_hz (mel i))) in *.
    rewrite (Rabs_pos_eq (f - 100)), (Rabs_left (f - 5000)), (Rabs_left (f - 2250)) by lra. repeat split; lra.
  - rewrite Ls. intros i Hi. rewrite EL by exact Hi. lra.
  - vm_compute. tauto.
  - change (bpow radix2 (-20)) with (/ 1048576). lra.
  - rewrite Ls, IN. replace (INR 77) with 77 by (rewrite INR_IZR_INZ; reflexivity). lra.
  - intros j Hj. rewrite Ls. rewrite (sumn_ext _ (fun i => if (j =? cls (mel i))%nat then 1 else 0)) by (intros i Hi; rewrite EL, EV by assumption; unfold Rdiv; rewrite Rinv_1; ring).
    rewrite (sum_count (fun i => (j =? cls (mel i))%nat)), INR_IZR_INZ.
    do 12 (destruct j as [|j]; [match goal with |- context [Z.of_nat ?t] => let v := eval vm_compute in (Z.of_nat t) in replace (Z.of_nat t) with v by (vm_compute; reflexivity) end;
      match goal with |- context [rating ?s ?k ?i] => let v := eval vm_compute in (rating s k i) in change (rating s k i) with v end; apply Rabs_le; lra|]). lia.
Qed.
