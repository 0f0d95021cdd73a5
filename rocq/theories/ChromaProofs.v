(** Proofs about the STFT and the mapping of spectra to chroma vectors (src/features/chroma/extractor.rs). *)
From Coq Require Import Reals Lra Lia.
From Flocq Require Import Core.
From Verif Require Import Rust F32 F32Facts F32More FloatSums ListFacts NoveltyProofs Bounds PeakPicking Autocorrelation
  TempoSpectra Hmm Libm BayesianProofs HmmBeatsProofs Chroma L2Proofs.
Close Scope R_scope.

(** ** STFT *)
Lemma slice_chk_ok : forall A (l : list A) a b, a <= b -> b <= length l -> slice_chk l a b = Ok (slice l a b).
Proof.
  intros A l a b H1 H2. unfold slice_chk. replace ((a <=? b) && (b <=? length l)) with true; auto.
  symmetry. apply andb_true_iff. split; apply Nat.leb_le; lia.
Qed.

(** The windowed frame handed to the FFT. *)
Definition windowed (L : libm) (samples : list f32) (frame start : nat) : list complex :=
  map (fun i => (fmul (nth (start + i) samples f0) (stft_window L frame i), f0)) (seq 0 frame).

Lemma combine_map_nth : forall (f : f32 -> f32 -> complex) (g : nat -> f32) (s : list f32) a,
  map (fun p => f (fst p) (snd p)) (combine s (map g (seq a (length s)))) =
  map (fun i => f (nth i s f0) (g (a + i))) (seq 0 (length s)).
Proof.
  intros f g s. induction s as [|x s IH]; intros a; [reflexivity|]. cbn [length seq map combine fst snd nth].
  rewrite Nat.add_0_r. f_equal. rewrite IH, <- seq_shift, map_map. apply map_ext. intros i. f_equal. f_equal. lia.
Qed.

Lemma stft_frame_ok : forall F L samples frame start, 0 < frame -> start + frame <= length samples ->
  stft_frame F L samples frame start =
  Ok (map (fun z => fsqrt (fadd (fmul (fst z) (fst z)) (fmul (snd z) (snd z))))
          (firstn (frame / 2 + 1) (fft_forward F (windowed L samples frame start)))).
Proof.
  intros F L samples frame start H0 H. unfold stft_frame. rewrite slice_chk_ok by lia. cbn [obind].
  assert (Ls : length (slice samples start (start + frame)) = frame) by (rewrite slice_length by lia; lia).
  assert (E : map (fun p => (fmul (fst p) (snd p), f0))
      (combine (slice samples start (start + frame)) (map (stft_window L frame) (seq 0 frame))) =
      windowed L samples frame start).
  { rewrite <- Ls at 3. rewrite (combine_map_nth (fun a b => (fmul a b, f0))). rewrite Ls. unfold windowed.
    apply map_ext_in. intros i Hi. apply in_seq in Hi. do 2 f_equal.
    pose proof (nth_error_slice _ samples start (start + frame) i ltac:(lia)) as N.
    rewrite (nth_error_nth' samples f0) in N by lia. now apply nth_error_nth. }
  rewrite E. assert (Lw : length (windowed L samples frame start) = frame).
  { unfold windowed. now rewrite map_length, seq_length. }
  rewrite slice_chk_ok.
  - cbn [obind]. unfold slice. rewrite Nat.sub_0_r. reflexivity.
  - lia.
  - rewrite fft_forward_len, Lw. pose proof (Nat.div_lt frame 2 ltac:(lia) ltac:(lia)). lia.
Qed.

Lemma stft_frames_ok : forall F L samples frame hop, 0 < frame -> 0 < hop -> forall n k,
  (forall j, j < n -> (k + j) * hop + frame <= length samples) ->
  stft_frames F L samples frame hop (seq k n) =
  Ok (map (fun j => map (fun z => fsqrt (fadd (fmul (fst z) (fst z)) (fmul (snd z) (snd z))))
          (firstn (frame / 2 + 1) (fft_forward F (windowed L samples frame (j * hop))))) (seq k n)).
Proof.
  intros F L samples frame hop Hf Hh. induction n as [|n IH]; intros k H; cbn [seq map stft_frames]; [reflexivity|].
  pose proof (H 0 ltac:(lia)) as H0. rewrite Nat.add_0_r in H0.
  destruct (Nat.ltb_spec (length samples) (k * hop + frame)); [lia|].
  rewrite stft_frame_ok by auto. cbn [obind]. rewrite IH; [reflexivity|].
  intros j Hj. specialize (H (S j) ltac:(lia)). now rewrite Nat.add_succ_r in H.
Qed.

Lemma stft_ok : forall F L samples frame hop, 0 < frame -> 0 < hop -> frame <= length samples ->
  compute_stft F L samples frame hop =
  Ok (map (fun j => map (fun z => fsqrt (fadd (fmul (fst z) (fst z)) (fmul (snd z) (snd z))))
          (firstn (frame / 2 + 1) (fft_forward F (windowed L samples frame (j * hop)))))
          (seq 0 ((length samples - frame) / hop + 1))).
Proof.
  intros F L samples frame hop Hf Hh Hn. unfold compute_stft.
  destruct (Nat.ltb_spec (length samples) frame); [lia|]. destruct (Nat.eqb_spec hop 0); [lia|].
  apply stft_frames_ok; auto. intros j Hj. rewrite Nat.add_0_l.
  assert (j <= (length samples - frame) / hop) by lia.
  assert (j * hop <= length samples - frame).
  { apply Nat.le_trans with ((length samples - frame) / hop * hop); [now apply Nat.mul_le_mono_r|].
    rewrite Nat.mul_comm. apply Nat.mul_div_le. lia. }
  lia.
Qed.

Lemma fsqrt_nneg_nan : forall x, nneg x \/ x = fnan -> nneg (fsqrt x) \/ fsqrt x = fnan.
Proof. intros x [H| ->]; [left; now apply fsqrt_nneg|now right]. Qed.
Lemma magnitude_ok : forall a b, nneg (fsqrt (fadd (fmul a a) (fmul b b))) \/ fsqrt (fadd (fmul a a) (fmul b b)) = fnan.
Proof.
  intros a b. apply fsqrt_nneg_nan. destruct (sq_nneg_nan a) as [A| ->]; [|now right].
  destruct (sq_nneg_nan b) as [B| ->].
  - left. now apply fadd_nneg.
  - right. rewrite fadd_comm. reflexivity.
Qed.

(** ** Remainders *)
Lemma frem_range : forall x y, fin x -> fin y -> B2R y <> 0%R ->
  fin (frem x y) /\ (Rabs (B2R (frem x y)) <= Rabs (B2R y))%R.
Proof.
  intros x y Fx Fy Ny. destruct y as [s|s| |sy my ey By]; try discriminate. { now simpl in Ny. }
  destruct x as [s|s| |sx mx ex Bx]; try discriminate.
  { split; [reflexivity|]. simpl (frem _ _). simpl (B2R (B754_zero s)). rewrite Rabs_R0. apply Rabs_pos. }
  cbn [frem]. set (e := Z.min ex ey). set (a := (Z.pos mx * 2 ^ (ex - e))%Z). set (b := (Z.pos my * 2 ^ (ey - e))%Z).
  assert (Pb : (0 < b)%Z) by (unfold b; apply Z.mul_pos_pos; [lia|apply Z.pow_pos_nonneg; lia]).
  set (z := (if sx then - (a mod b) else a mod b)%Z).
  assert (Bz : (Z.abs z <= b)%Z).
  { pose proof (Z.mod_pos_bound a b Pb). unfold z. destruct sx; lia. }
  pose proof (binary_normalize_correct fprec femax _ _ mode_NE z e sx) as H.
  set (r := binary_normalize fprec femax _ _ mode_NE z e sx) in *.
  assert (Yv : (Rabs (B2R (B754_finite sy my ey By)) = IZR b * bpow radix2 e)%R).
  { cbn [B2R]. unfold F2R. cbn [Fnum Fexp]. rewrite Rabs_mult, (Rabs_right (bpow radix2 ey)) by (apply Rle_ge, bpow_ge_0).
    unfold b. rewrite mult_IZR. replace (IZR (2 ^ (ey - e))) with (bpow radix2 (ey - e)).
    - rewrite Rmult_assoc, <- bpow_plus. replace (ey - e + e)%Z with ey by lia. f_equal.
      rewrite <- abs_IZR. f_equal. destruct sy; reflexivity.
    - rewrite <- IZR_Zpower by lia. reflexivity. }
  assert (Zv : (Rabs (F2R (Float radix2 z e)) <= Rabs (B2R (B754_finite sy my ey By)))%R).
  { rewrite Yv. unfold F2R. cbn [Fnum Fexp]. rewrite Rabs_mult, (Rabs_right (bpow radix2 e)) by (apply Rle_ge, bpow_ge_0).
    apply Rmult_le_compat_r; [apply bpow_ge_0|]. rewrite <- abs_IZR. now apply IZR_le. }
  assert (Rv : (Rabs (rnd (F2R (Float radix2 z e))) <= Rabs (B2R (B754_finite sy my ey By)))%R).
  { assert (E : rnd (Rabs (B2R (B754_finite sy my ey By))) = Rabs (B2R (B754_finite sy my ey By))).
    { rewrite <- (B2R_Babs _ _ (B754_finite sy my ey By)). apply rnd_B2R. }
    apply Rabs_le_inv in Zv. apply Rabs_le. rewrite <- E, <- rnd_opp. split; apply rnd_mono; lra. }
  assert (Lt : (Rabs (rnd (F2R (Float radix2 z e))) < big)%R).
  { eapply Rle_lt_trans; [exact Rv|]. apply B2R_abs_lt. }
  cbv zeta in H.
  change (round radix2 fexp32 (round_mode mode_NE) (F2R (Float radix2 z e))) with (rnd (F2R (Float radix2 z e))) in H.
  change (bpow radix2 femax) with big in H.
  rewrite Rlt_bool_true in H by exact Lt. destruct H as (H1 & H2 & _). split; [exact H2|]. rewrite H1. exact Rv.
Qed.

Lemma f12_val : fin (z2f 12) /\ B2R (z2f 12) = 12%R.
Proof. destruct (z2f_exact 12 ltac:(lia)) as (A & B). auto. Qed.

Lemma frem_euclid_12 : forall x, fin x -> fle f0 (frem_euclid x (z2f 12)) = true /\ fle (frem_euclid x (z2f 12)) (z2f 12) = true.
Proof.
  intros x Fx. destruct f12_val as (F12 & V12).
  destruct (frem_range x (z2f 12) Fx F12 ltac:(lra)) as (Fr & Rr). rewrite V12, (Rabs_right 12) in Rr by lra.
  apply Rabs_le_inv in Rr. unfold frem_euclid. set (r := frem x (z2f 12)) in *.
  assert (Ea : fabs (z2f 12) = z2f 12) by (apply B2SF_inj; vm_compute; reflexivity). rewrite Ea.
  destruct (flt r f0) eqn:E.
  - apply flt_fx in E. rewrite !fx_fin in E by auto. simpl (B2R f0) in E.
    destruct (fadd_fx r (z2f 12) Fr F12) as (N & V). rewrite V12 in V.
    assert (B : (0 <= rnd (B2R r + 12) <= 12)%R).
    { split; [apply rnd_nonneg; lra|]. rewrite <- V12 at 2. rewrite <- (rnd_B2R (z2f 12)), V12. apply rnd_mono. lra. }
    pose proof big_val as BV. assert (Bg : (12 < big)%R) by (rewrite BV; apply IZR_lt; reflexivity).
    rewrite sat_id in V by lra.
    split; apply fle_intro; auto using fin_nn; rewrite V; [rewrite fx_f0|rewrite fx_fin, V12 by auto]; lra.
  - split.
    + apply flt_false_fle; auto using fin_nn.
    + apply fle_intro; auto using fin_nn. rewrite !fx_fin, V12 by auto. lra.
Qed.

(** ** Scattering contributions over the pitch classes *)
Definition scatter (l : list (nat * f32)) (c : list f32) : outcome (list f32) :=
  fold_left (fun acc p => let! c := acc in add_at c (fst p) (snd p)) l (Ok c).

Lemma add_at_ok : forall c i v, i < length c -> exists c', add_at c i v = Ok c' /\ length c' = length c /\
  forall j, nth j c' f0 = if j =? i then fadd (nth i c f0) v else nth j c f0.
Proof.
  intros c i v H. unfold add_at, get. rewrite (nth_error_nth' c f0) by auto. cbn [obind].
  eexists. split; [reflexivity|].
  assert (Lf : length (firstn i c) = i) by (apply firstn_length_le; lia).
  split.
  - rewrite app_length, Lf. cbn [length]. rewrite skipn_length. lia.
  - intros j. destruct (Nat.eqb_spec j i) as [->|N].
    + rewrite app_nth2, Lf, Nat.sub_diag by lia. reflexivity.
    + destruct (Nat.lt_ge_cases j i).
      * rewrite app_nth1 by lia. rewrite <- (firstn_skipn i c) at 2. rewrite app_nth1 by lia. reflexivity.
      * rewrite app_nth2, Lf by lia. destruct (j - i) as [|d] eqn:D; [lia|]. cbn [nth].
        rewrite <- (firstn_skipn (S i) c) at 2. rewrite app_nth2; rewrite firstn_length_le by lia; [|lia].
        f_equal. lia.
Qed.
Lemma scatter_panic : forall l, fold_left (fun acc p => let! c := acc in add_at c (fst p) (snd p)) l Panic = Panic.
Proof. induction l as [|p l IH]; auto. Qed.
Lemma scatter_err : forall l e, fold_left (fun acc p => let! c := acc in add_at c (fst p) (snd p)) l (Err e) = Err e.
Proof. induction l as [|p l IH]; intros e; cbn [fold_left obind]; auto. Qed.

Lemma scatter_ok : forall l c, Forall (fun p => fst p < length c) l ->
  exists c', scatter l c = Ok c' /\ length c' = length c /\
    forall j, nth j c' f0 = fold_left fadd (map snd (filter (fun p => fst p =? j) l)) (nth j c f0).
Proof.
  induction l as [|(i, v) l IH]; intros c H.
  - exists c. repeat split.
  - pose proof (Forall_inv H) as Hi. cbn [fst] in Hi. apply Forall_inv_tail in H.
    destruct (add_at_ok c i v Hi) as (c1 & E1 & L1 & N1).
    destruct (IH c1) as (c2 & E2 & L2 & N2); [now rewrite L1|].
    exists c2. unfold scatter in *. cbn [fold_left obind fst snd]. rewrite E1. split; auto. split; [congruence|].
    intros j. rewrite N2, N1. cbn [filter fst]. rewrite (Nat.eqb_sym j i). destruct (Nat.eqb_spec i j); cbn [map fold_left snd]; auto.
    now subst.
Qed.

(** The bin-to-class contributions of the two mappings. *)
Definition soft_targets (L : libm) (sigma s contrib : f32) : list (nat * f32) :=
  let pc := frem_euclid s (z2f 12) in
  let primary := f2i32 (frem_euclid (fround pc) (z2f 12)) in
  map (fun off => let t := ((primary + off) mod 12)%Z in (Z.to_nat t, fmul contrib (soft_weight L sigma pc t))) [-1; 0; 1]%Z.
Definition hard_class (s : f32) : nat := Z.to_nat (f2i32 (fround s) mod 12).

Lemma soft_add_scatter : forall L sigma s contrib c, soft_add L sigma s contrib c = scatter (soft_targets L sigma s contrib) c.
Proof. reflexivity. Qed.
Lemma hard_add_scatter : forall s contrib c, hard_add s contrib c = scatter [(hard_class s, contrib)] c.
Proof.
  intros s contrib c. unfold hard_add, scatter, hard_class. cbn [fold_left obind fst snd]. f_equal.
  set (z := f2i32 (fround s)). pose proof (Z.quot_rem z 12 ltac:(lia)) as E.
  pose proof (Z.rem_bound_abs z 12 ltac:(lia)) as B. f_equal.
  destruct (Z.ltb_spec (Z.rem z 12) 0).
  - apply Z.mod_unique with (z ÷ 12 - 1)%Z; lia.
  - apply Z.mod_unique with (z ÷ 12)%Z; lia.
Qed.
Lemma soft_targets_lt : forall L sigma s contrib, Forall (fun p => fst p < 12) (soft_targets L sigma s contrib).
Proof.
  intros. apply Forall_map, Forall_forall. intros off _. cbv zeta. cbn [fst].
  match goal with |- (Z.to_nat (?a mod 12) < 12)%nat => pose proof (Z.mod_pos_bound a 12 ltac:(lia)); lia end.
Qed.
Lemma hard_class_lt : forall s, hard_class s < 12.
Proof. intros s. unfold hard_class. pose proof (Z.mod_pos_bound (f2i32 (fround s)) 12 ltac:(lia)). lia. Qed.

(** Contributions of one frequency bin. *)
Definition bin_targets (L : libm) (soft : bool) (sigma tuning freq mag : f32) : list (nat * f32) :=
  let s := semitone L tuning freq in
  let contrib := m_powf L (fmax mag f0) (lit 5033165 (-23)) in
  if soft then soft_targets L (fmax sigma (lit 8796093 (-43))) s contrib else [(hard_class s, contrib)].
Lemma bin_targets_lt : forall L soft sigma tuning freq mag, Forall (fun p => fst p < 12) (bin_targets L soft sigma tuning freq mag).
Proof.
  intros. unfold bin_targets. destruct soft; [apply soft_targets_lt|]. constructor; [apply hard_class_lt|constructor].
Qed.

(** A bin lies in the analysed band. *)
Definition in_band (rate : nat) (freq : f32) : bool :=
  let nyq := fdiv (n2f rate) f2 in fle chroma_fmin freq && fle freq (fmin chroma_fmax nyq) && flt freq nyq.

Lemma scatter_app : forall l1 l2 c, scatter (l1 ++ l2) c = obind (scatter l1 c) (scatter l2).
Proof.
  intros l1 l2 c. unfold scatter. rewrite fold_left_app.
  destruct (fold_left _ l1 (Ok c)); cbn [obind]; auto using scatter_panic, scatter_err.
Qed.

Lemma rate_within : forall rate, (Z.of_nat rate < 2 ^ 32)%Z -> within 33 (n2f rate).
Proof.
  intros rate H. assert (F : fin (n2f rate)) by (apply z2f_fin; lia).
  assert (N : nneg (n2f rate)) by (apply z2f_nneg; lia).
  split; auto. rewrite <- fx_fin by exact F. rewrite Rabs_right by (apply Rle_ge, nneg_fx; exact N).
  assert (L : fle (n2f rate) (z2f (2 ^ 33)) = true) by (apply z2f_mono; lia).
  apply fle_fx in L. apply (Rle_trans _ _ _ L). rewrite fx_fin by reflexivity.
  assert (V : B2R (z2f (2 ^ 33)) = bpow radix2 33) by (vm_compute B2R; simpl; lra). rewrite V. lra.
Qed.
Lemma nyq_nn : forall rate, (Z.of_nat rate < 2 ^ 32)%Z -> fin (fdiv (n2f rate) f2) /\ nneg (fdiv (n2f rate) f2).
Proof.
  intros rate H. pose proof (rate_within rate H) as W.
  assert (N : nneg (n2f rate)) by (apply z2f_nneg; lia).
  assert (Wd : within (33 - 1) (fdiv (n2f rate) f2)).
  { apply within_div; auto; try reflexivity; [lia|]. rewrite Rabs_right; vm_compute B2R; simpl; lra. }
  split; [eapply within_fin; eauto|]. apply fdiv_nneg; auto. eapply within_nn; eauto.
Qed.

Section Band.
  Variable rate fft : nat.
  Hypothesis Hrate : (Z.of_nat rate < 2 ^ 32)%Z.
  Hypothesis Hfft : 0 < fft /\ (Z.of_nat fft < 2 ^ 64)%Z.
  Let res := fdiv (n2f rate) (n2f fft).
  Let freq k := fmul (n2f k) res.

  Lemma res_ok : fin res /\ nneg res.
  Proof.
    destruct Hfft as (H0 & H1).
    assert (F : fin (n2f rate)) by (apply z2f_fin; lia).
    assert (N : nneg (n2f rate)) by (apply z2f_nneg; lia).
    assert (F' : fin (n2f fft)) by (apply z2f_fin; lia).
    assert (L1 : fle f1 (n2f fft) = true) by (apply (z2f_mono 1); lia).
    assert (P : pos (n2f fft)) by (apply (flt_fle_trans f0 f1); auto).
    assert (Nd : nn res) by (now apply fdiv_nn_fin).
    assert (Nn : nneg res) by (now apply fdiv_nneg).
    split; auto. apply (within_fin (33 - 0)). apply within_div; auto using rate_within; [lia|].
    rewrite Rabs_right; [|apply Rle_ge, nneg_B2R; apply z2f_nneg; lia]. apply fle_fx in L1. rewrite fx_f1, fx_fin in L1 by auto.
    simpl (bpow radix2 0). exact L1.
  Qed.

  Lemma freq_ok : forall k, (Z.of_nat k < 2 ^ 64)%Z -> nn (freq k) /\ nneg (freq k).
  Proof.
    intros k Hk. destruct res_ok as (F & N). assert (Fk : fin (n2f k)) by (apply z2f_fin; lia).
    destruct (fmul_fx (n2f k) res Fk F) as (A & _). split; auto.
    apply fmul_nneg; auto. apply z2f_nneg. lia.
  Qed.
  Lemma freq_mono : forall j k, j <= k -> (Z.of_nat k < 2 ^ 64)%Z -> fle (freq j) (freq k) = true.
  Proof.
    intros j k H Hk. destruct res_ok as (F & N). apply fmul_mono; auto.
    - apply z2f_nneg. lia.
    - apply z2f_mono. lia.
    - apply fle_refl. now apply nneg_nn.
    - apply freq_ok. lia.
    - now apply freq_ok.
  Qed.

  Lemma out_of_band : forall a k, a <= k -> (Z.of_nat k < 2 ^ 64)%Z ->
    fgt (freq a) (fmin chroma_fmax (fdiv (n2f rate) f2)) = true \/ fge (freq a) (fdiv (n2f rate) f2) = true ->
    in_band rate (freq k) = false.
  Proof.
    intros a k H Hk B. pose proof (freq_mono a k H Hk) as M. unfold in_band. cbv zeta. destruct B as [B|B].
    - apply andb_false_iff. left. apply andb_false_iff. right. unfold fgt in B. fold (flt (fmin chroma_fmax (fdiv (n2f rate) f2)) (freq a)) in B.
      apply flt_fle_false. eapply flt_fle_trans; eauto.
    - apply andb_false_iff. right. unfold fge in B. fold (fle (fdiv (n2f rate) f2) (freq a)) in B.
      apply fle_flt_false. eapply fle_trans; eauto.
  Qed.

  Variable (L : libm) (soft : bool) (sigma tuning : f32).
  Definition band_targets (a : nat) (frame : list f32) : list (nat * f32) :=
    flat_map (fun km => if in_band rate (freq (fst km)) then bin_targets L soft sigma tuning (freq (fst km)) (snd km) else [])
      (combine (seq a (length frame)) frame).

  Lemma band_targets_none : forall a frame, (Z.of_nat (a + length frame) <= 2 ^ 64)%Z ->
    (forall k, a <= k -> (Z.of_nat k < 2 ^ 64)%Z -> in_band rate (freq k) = false) -> band_targets a frame = [].
  Proof.
    intros a frame Hl H. unfold band_targets. revert a Hl H. induction frame as [|m frame IH]; intros a Hl H; [reflexivity|].
    cbn [length seq combine flat_map fst snd]. cbn [length] in Hl. rewrite H by lia. apply IH; [lia|]. intros k Hk. apply H. lia.
  Qed.

  Lemma chroma_bins_scatter : forall frame a c, (Z.of_nat (a + length frame) <= 2 ^ 64)%Z ->
    chroma_bins L rate res soft sigma tuning (combine (seq a (length frame)) frame) c = scatter (band_targets a frame) c.
  Proof.
    destruct (nyq_nn rate Hrate) as (Fq & Nq).
    assert (Nc : nn (fmin chroma_fmax (fdiv (n2f rate) f2))) by (apply fmin_nn; auto using fin_nn; reflexivity).
    induction frame as [|mag frame IH]; intros a c Hl; [reflexivity|].
    cbn [length seq combine chroma_bins] in *. fold (freq a). destruct (freq_ok a ltac:(lia)) as (Na & _).
    unfold band_targets. cbn [length seq combine flat_map fst snd].
    change (flat_map _ (combine (seq (S a) (length frame)) frame)) with (band_targets (S a) frame).
    destruct (flt (freq a) chroma_fmin) eqn:E1.
    { replace (in_band rate (freq a)) with false; [apply IH; lia|]. symmetry. unfold in_band.
      rewrite (flt_fle_false _ _ E1). reflexivity. }
    destruct (fgt (freq a) (fmin chroma_fmax (fdiv (n2f rate) f2))) eqn:E2.
    { rewrite (out_of_band a a) by (auto; lia). rewrite band_targets_none; [reflexivity|lia|].
      intros k H1 H2. apply (out_of_band a k); auto. lia. }
    destruct (fge (freq a) (fdiv (n2f rate) f2)) eqn:E3.
    { rewrite (out_of_band a a) by (auto; lia). rewrite band_targets_none; [reflexivity|lia|].
      intros k H1 H2. apply (out_of_band a k); auto. lia. }
    replace (in_band rate (freq a)) with true.
    2:{ symmetry. unfold in_band. cbv zeta. unfold fgt in E2. fold (flt (fmin chroma_fmax (fdiv (n2f rate) f2)) (freq a)) in E2.
        unfold fge in E3. fold (fle (fdiv (n2f rate) f2) (freq a)) in E3.
        rewrite (flt_false_fle (freq a) chroma_fmin), (flt_false_fle _ (freq a)), (fle_false_flt _ (freq a)) by (auto using fin_nn). reflexivity. }
    rewrite scatter_app. unfold bin_targets.
    destruct soft.
    - rewrite <- soft_add_scatter. destruct (soft_add _ _ _ _ _); cbn [obind]; auto. apply IH. lia.
    - rewrite <- hard_add_scatter. destruct (hard_add _ _ _); cbn [obind]; auto. apply IH. lia.
  Qed.
End Band.
