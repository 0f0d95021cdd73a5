(** STFT, chroma vectors and chroma normalisation: properties (src/features/chroma/). *)
From Coq Require Import Reals Lra Lia.
From Flocq Require Import Core.
From Verif Require Import Rust F32 F32Facts F32More FloatSums ListFacts NoveltyProofs Bounds PeakPicking Autocorrelation
  TempoSpectra Hmm Libm Chroma L2Proofs ChromaProofs ChromaValueProofs.
Close Scope R_scope.

(** ** C41: the short-time Fourier transform *)

(** For positive frame and hop sizes: no frame for signals shorter than one frame, else (n - frame)/hop + 1 frames of
    frame/2 + 1 magnitudes, each non-negative or NaN.  It never fails. *)
Theorem C41_shape : forall F L samples frame hop, 0 < frame -> 0 < hop ->
  exists s, compute_stft F L samples frame hop = Ok s /\
    length s = (if length samples <? frame then 0 else (length samples - frame) / hop + 1) /\
    Forall (fun f => length f = frame / 2 + 1 /\ Forall (fun x => nneg x \/ x = fnan) f) s.
Proof.
  intros F L samples frame hop Hf Hh. destruct (Nat.ltb_spec (length samples) frame) as [H|H].
  - exists []. split; [|split; [reflexivity|constructor]]. unfold compute_stft.
    destruct (Nat.ltb_spec (length samples) frame); [reflexivity|lia].
  - rewrite stft_ok by auto. eexists. split; [reflexivity|]. rewrite map_length, seq_length. split; [reflexivity|].
    apply Forall_map, Forall_forall. intros j Hj. rewrite map_length, firstn_length, fft_forward_len. unfold windowed.
    rewrite map_length, seq_length. split.
    + pose proof (Nat.div_lt frame 2 ltac:(lia) ltac:(lia)). lia.
    + apply Forall_map, Forall_forall. intros z _. apply magnitude_ok.
Qed.
Print Assumptions C41_shape.

(** Bin b of frame j is the magnitude of bin b of the FFT of samples j*hop .. j*hop + frame - 1, sample i weighted with
    0.5*(1 - cos(2*pi*i/(frame-1))). *)
Theorem C41_content : forall F L samples frame hop s j b, 0 < frame -> 0 < hop -> frame <= length samples ->
  compute_stft F L samples frame hop = Ok s -> j < length s -> b <= frame / 2 ->
  j * hop + frame <= length samples /\
  let hann i := fmul fhalf (fsub f1 (m_cos L (fdiv (fmul (fmul f2 f_pi) (n2f i)) (n2f (frame - 1))))) in
  let spectrum := fft_forward F (map (fun i => (fmul (nth (j * hop + i) samples f0) (hann i), f0)) (seq 0 frame)) in
  let (re, im) := nth b spectrum (f0, f0) in
  nth b (nth j s []) fnan = fsqrt (fadd (fmul re re) (fmul im im)).
Proof.
  intros F L samples frame hop s j b Hf Hh Hn E Hj Hb. rewrite stft_ok in E by auto. assert (E' := f_equal (fun o => match o with Ok x => x | _ => [] end) E). cbv beta iota in E'. subst s. clear E.
  rewrite map_length, seq_length in Hj. split.
  { assert (j * hop <= length samples - frame); [|lia].
    apply Nat.le_trans with ((length samples - frame) / hop * hop); [apply Nat.mul_le_mono_r; lia|].
    rewrite Nat.mul_comm. apply Nat.mul_div_le. lia. }
  cbv zeta. change (fft_forward F (map _ (seq 0 frame))) with (fft_forward F (windowed L samples frame (j * hop))).
  set (g := fun j => map _ (firstn _ (fft_forward F (windowed L samples frame (j * hop))))).
  rewrite (nth_indep _ [] (g 0)) by (now rewrite map_length, seq_length). rewrite map_nth, seq_nth by auto.
  unfold g. rewrite Nat.add_0_l. set (sp := fft_forward F (windowed L samples frame (j * hop))).
  assert (Ls : length sp = frame) by (unfold sp; rewrite fft_forward_len; unfold windowed; now rewrite map_length, seq_length).
  pose proof (Nat.div_lt frame 2 ltac:(lia) ltac:(lia)) as D.
  set (h := fun z : complex => fsqrt (fadd (fmul (fst z) (fst z)) (fmul (snd z) (snd z)))).
  rewrite (nth_indep _ fnan (h (f0, f0))) by (rewrite map_length, firstn_length; lia). rewrite map_nth.
  replace (nth b (firstn (frame / 2 + 1) sp) (f0, f0)) with (nth b sp (f0, f0)).
  - destruct (nth b sp (f0, f0)) as (re, im). reflexivity.
  - rewrite <- (firstn_skipn (frame / 2 + 1) sp) at 1. rewrite app_nth1; [reflexivity|]. rewrite firstn_length. lia.
Qed.
Print Assumptions C41_content.

(** compute_stft is public and does not check its sizes: a frame size of 0 panics on every input, a hop size of 0 on
    every input of at least one frame. *)
Theorem C41_zero_sizes_refuted : forall F L samples,
  (forall hop, compute_stft F L samples 0 hop = Panic) /\
  (forall frame, frame <= length samples -> compute_stft F L samples frame 0 = Panic).
Proof.
  intros F L samples. split.
  - intros hop. unfold compute_stft. cbn [Nat.ltb]. destruct (Nat.ltb_spec (length samples) 0); [lia|].
    destruct (Nat.eqb_spec hop 0); [reflexivity|]. rewrite Nat.add_comm. cbn [seq stft_frames Nat.add]. rewrite Nat.mul_0_l. cbn [Nat.add].
    destruct (Nat.ltb_spec (length samples) 0); [lia|]. unfold stft_frame. cbn [Nat.add].
    rewrite slice_chk_ok by lia. cbn [obind seq map]. rewrite combine_nil. cbn [map]. unfold slice_chk.
    rewrite fft_forward_len. reflexivity.
  - intros frame H. unfold compute_stft. destruct (Nat.ltb_spec (length samples) frame); [lia|reflexivity].
Qed.
Print Assumptions C41_zero_sizes_refuted.

(** ** C59: chroma vectors *)

(** The chroma vector of a finite frame exists, has twelve entries in [0,1], and they are the accumulated energies of
    the pitch classes divided by their norm; a vector of norm up to 1e-10 is left as it is.  With magnitudes up to 2^50
    the squares of a normalised vector add up to 1 within 2^-18. *)
Theorem C59_range : forall L rate fft soft sigma tuning frame, chroma_libm L ->
  (Z.of_nat rate < 2 ^ 32)%Z -> 0 < fft -> (Z.of_nat fft < 2 ^ 64)%Z -> (Z.of_nat (length frame) <= 2 ^ 64)%Z ->
  within 13 tuning -> Forall (fun x => fin x) frame ->
  exists c, frame_to_chroma L rate fft soft sigma tuning frame = Ok c /\ length c = 12 /\ Forall in01 c /\
    (Forall (within 50) frame ->
     (Rabs (fold_right (fun x s => B2R x * B2R x + s) 0 c - 1) <= bpow radix2 (-18))%R \/
     Forall (fun x => fle x (lit 14411519 (-57)) = true) c).
Proof.
  intros L rate fft soft sigma tuning frame HL Hr H0 Hf Hl T F. rewrite frame_to_chroma_ok by auto.
  assert (Fl : Forall (fun x => fin x) (map (class_energy L rate fft soft sigma tuning frame) (seq 0 12)) /\
               Forall (fun x => nneg x) (map (class_energy L rate fft soft sigma tuning frame) (seq 0 12))).
  { split; apply Forall_map, Forall_forall; intros j _; destruct (class_energy_ok L rate fft soft sigma tuning frame j HL T F); auto.
    eapply within_fin; eauto. }
  assert (Wl : Forall (within 50) frame -> Forall (within 55) (map (class_energy L rate fft soft sigma tuning frame) (seq 0 12))).
  { intros W. apply Forall_map, Forall_forall. intros j _. apply (class_energy_gen 30); auto; [lia|].
    intros mag Hm. apply contrib_small; auto. now apply (proj1 (Forall_forall _ _) W). }
  assert (Ll : length (map (class_energy L rate fft soft sigma tuning frame) (seq 0 12)) = 12) by (now rewrite map_length, seq_length).
  generalize dependent (map (class_energy L rate fft soft sigma tuning frame) (seq 0 12)). intros l (Fl & Nl) Wl Ll.
  exists (unit_or_keep l). split; [reflexivity|]. split; [now rewrite unit_or_keep_length|]. split; [now apply unit_or_keep_01|].
  intros W. apply unit_or_keep_cases; auto. now rewrite Ll.
Qed.
Print Assumptions C59_range.

(** Dividing by the norm, as every chroma extractor does it: twelve quotients, or the vector itself if it is silent. *)
Definition divided_by_norm (c : list f32) : list f32 :=
  let norm := fsqrt (fold_left fadd (map (fun x => fmul x x) c) f0) in
  if fgt norm (lit 14411519 (-57)) then map (fun x => fdiv x norm) c else c.

Lemma divided_by_norm_eq : forall c, divided_by_norm c = unit_or_keep c.
Proof. reflexivity. Qed.
Lemma in_band_eq : forall rate f, in_band rate f =
  fle (z2f 100) f && fle f (fmin (z2f 5000) (fdiv (n2f rate) f2)) && flt f (fdiv (n2f rate) f2).
Proof. reflexivity. Qed.

(** What is accumulated, hard mapping: class j collects max(mag,0)^0.6 of exactly the bins k with
    100 <= f <= min(5000, nyquist), f < nyquist for f = k*(rate/fft), whose nearest semitone
    round(12*log2(f/440) + 57 - tuning) is congruent to j modulo 12, in bin order. *)
Theorem C59_hard_content : forall L rate fft sigma tuning frame,
  (Z.of_nat rate < 2 ^ 32)%Z -> 0 < fft -> (Z.of_nat fft < 2 ^ 64)%Z -> (Z.of_nat (length frame) <= 2 ^ 64)%Z ->
  let freq k := fmul (n2f k) (fdiv (n2f rate) (n2f fft)) in
  let nyquist := fdiv (n2f rate) f2 in
  let used k := fle (z2f 100) (freq k) && fle (freq k) (fmin (z2f 5000) nyquist) && flt (freq k) nyquist in
  let pitch k := f2i32 (fround (fsub (fadd (fmul (z2f 12) (m_log2 L (fdiv (freq k) (z2f 440)))) (z2f 57)) tuning)) in
  let energy j := fold_left fadd (map (fun k => m_powf L (fmax (nth k frame f0) f0) (lit 5033165 (-23)))
    (filter (fun k => used k && (pitch k mod 12 =? Z.of_nat j)%Z) (seq 0 (length frame)))) f0 in
  frame_to_chroma L rate fft false sigma tuning frame = Ok (divided_by_norm (map energy (seq 0 12))).
Proof.
  intros L rate fft sigma tuning frame Hr H0 Hf Hl freq nyquist used pitch energy.
  rewrite frame_to_chroma_ok by auto. f_equal. rewrite (divided_by_norm_eq (map energy (seq 0 12))). f_equal.
  apply map_ext_in. intros j Hj. apply in_seq in Hj. unfold class_energy, energy. f_equal.
  assert (A : forall fr a, (forall i, nth i fr f0 = nth (a + i) frame f0) ->
    map snd (filter (fun p => fst p =? j) (band_targets rate fft L false sigma tuning a fr)) =
    map (fun k => m_powf L (fmax (nth k frame f0) f0) (lit 5033165 (-23)))
      (filter (fun k => used k && (pitch k mod 12 =? Z.of_nat j)%Z) (seq a (length fr)))).
  { induction fr as [|m fr IH]; intros a H; [reflexivity|]. unfold band_targets. cbn [length seq combine flat_map fst snd].
    change (flat_map _ (combine (seq (S a) (length fr)) fr)) with (band_targets rate fft L false sigma tuning (S a) fr).
    cbn [filter]. rewrite in_band_eq. fold (freq a). fold nyquist. fold (used a). rewrite filter_app, map_app, IH.
    2:{ intros i. specialize (H (S i)). cbn [nth] in H. rewrite H. f_equal. lia. }
    pose proof (H 0) as Hm. cbn [nth] in Hm. rewrite Nat.add_0_r in Hm.
    destruct (used a); [|reflexivity]. unfold bin_targets. cbv zeta. cbn [filter fst andb].
    replace (hard_class (semitone L tuning _) =? j) with (pitch a mod 12 =? Z.of_nat j)%Z.
    - destruct (pitch a mod 12 =? Z.of_nat j)%Z; cbn [map app snd]; [now rewrite Hm|reflexivity].
    - unfold hard_class, pitch, semitone, a4. fold (freq a). set (z := f2i32 _).
      pose proof (Z.mod_pos_bound z 12 ltac:(lia)). destruct (Z.eqb_spec (z mod 12) (Z.of_nat j)), (Nat.eqb_spec (Z.to_nat (z mod 12)) j); auto; lia. }
  apply A. intros i. reflexivity.
Qed.
Print Assumptions C59_hard_content.

(** Soft mapping: the same bins, and each contributes to its nearest class and the two beside it, weighted with
    exp(-d^2/(2*sigma^2)) for the circular distance d between the bin's pitch class (in [0,12]) and the class. *)
Theorem C59_soft_content : forall L rate fft sigma tuning frame,
  (Z.of_nat rate < 2 ^ 32)%Z -> 0 < fft -> (Z.of_nat fft < 2 ^ 64)%Z -> (Z.of_nat (length frame) <= 2 ^ 64)%Z ->
  let freq k := fmul (n2f k) (fdiv (n2f rate) (n2f fft)) in
  let nyquist := fdiv (n2f rate) f2 in
  let used k := fle (z2f 100) (freq k) && fle (freq k) (fmin (z2f 5000) nyquist) && flt (freq k) nyquist in
  let pc k := frem_euclid (fsub (fadd (fmul (z2f 12) (m_log2 L (fdiv (freq k) (z2f 440)))) (z2f 57)) tuning) (z2f 12) in
  let nearest k := f2i32 (frem_euclid (fround (pc k)) (z2f 12)) in
  let s := fmax sigma (lit 8796093 (-43)) in
  let weight k j :=
    let d0 := fabs (fsub (pc k) (z2f (Z.of_nat j))) in
    let d := fmin d0 (fsub (z2f 12) d0) in m_exp L (fdiv (fmul (fneg d) d) (fmul (fmul f2 s) s)) in
  let energy j := fold_left fadd (map (fun k => fmul (m_powf L (fmax (nth k frame f0) f0) (lit 5033165 (-23))) (weight k j))
    (filter (fun k => used k && existsb (fun o => ((nearest k + o) mod 12 =? Z.of_nat j)%Z) [-1; 0; 1]%Z)
      (seq 0 (length frame)))) f0 in
  frame_to_chroma L rate fft true sigma tuning frame = Ok (divided_by_norm (map energy (seq 0 12))).
Proof.
  intros L rate fft sigma tuning frame Hr H0 Hf Hl freq nyquist used pc nearest s weight energy.
  rewrite frame_to_chroma_ok by auto. f_equal. rewrite (divided_by_norm_eq (map energy (seq 0 12))). f_equal.
  apply map_ext_in. intros j Hj. apply in_seq in Hj. unfold class_energy, energy. f_equal.
  assert (A : forall fr a, (forall i, nth i fr f0 = nth (a + i) frame f0) ->
    map snd (filter (fun p => fst p =? j) (band_targets rate fft L true sigma tuning a fr)) =
    map (fun k => fmul (m_powf L (fmax (nth k frame f0) f0) (lit 5033165 (-23))) (weight k j))
      (filter (fun k => used k && existsb (fun o => ((nearest k + o) mod 12 =? Z.of_nat j)%Z) [-1; 0; 1]%Z) (seq a (length fr)))).
  { induction fr as [|m fr IH]; intros a H; [reflexivity|]. unfold band_targets. cbn [length seq combine flat_map fst snd].
    change (flat_map _ (combine (seq (S a) (length fr)) fr)) with (band_targets rate fft L true sigma tuning (S a) fr).
    cbn [filter]. rewrite in_band_eq. fold (freq a). fold nyquist. fold (used a). rewrite filter_app, map_app, IH.
    2:{ intros i. specialize (H (S i)). cbn [nth] in H. rewrite H. f_equal. lia. }
    pose proof (H 0) as Hm. cbn [nth] in Hm. rewrite Nat.add_0_r in Hm.
    destruct (used a); [|reflexivity]. rewrite andb_true_l.
    unfold bin_targets, soft_targets. cbv zeta. fold (freq a). unfold semitone, a4.
    change (frem_euclid (fsub _ tuning) (z2f 12)) with (pc a). change (f2i32 (frem_euclid (fround (pc a)) (z2f 12))) with (nearest a).
    set (p := nearest a).
    assert (B : forall o, (Z.to_nat ((p + o) mod 12) =? j) = ((p + o) mod 12 =? Z.of_nat j)%Z).
    { intros o. pose proof (Z.mod_pos_bound (p + o) 12 ltac:(lia)).
      destruct (Z.eqb_spec ((p + o) mod 12) (Z.of_nat j)), (Nat.eqb_spec (Z.to_nat ((p + o) mod 12)) j); auto; lia. }
    assert (C : forall o o', (o <> o')%Z -> (-1 <= o <= 1)%Z -> (-1 <= o' <= 1)%Z -> ((p + o) mod 12 =? Z.of_nat j)%Z = true ->
      ((p + o') mod 12 =? Z.of_nat j)%Z = false).
    { intros o o' No Ho Ho' E. apply Z.eqb_eq in E. apply Z.eqb_neq. intros E'.
      pose proof (Z.div_mod (p + o) 12 ltac:(lia)). pose proof (Z.div_mod (p + o') 12 ltac:(lia)). lia. }
    assert (W : forall o, ((p + o) mod 12 =? Z.of_nat j)%Z = true -> soft_weight L s (pc a) ((p + o) mod 12) = weight a j).
    { intros o E. apply Z.eqb_eq in E. rewrite E. reflexivity. }
    cbn [map filter fst existsb orb app].
    rewrite !B. fold s. destruct ((p + -1) mod 12 =? Z.of_nat j)%Z eqn:E1.
    { rewrite (C (-1)%Z 0%Z), (C (-1)%Z 1%Z) by (auto; lia). cbn [orb map snd app]. rewrite (W _ E1), Hm. reflexivity. }
    destruct ((p + 0) mod 12 =? Z.of_nat j)%Z eqn:E2.
    { rewrite (C 0%Z 1%Z) by (auto; lia). cbn [orb map snd app]. rewrite (W _ E2), Hm. reflexivity. }
    destruct ((p + 1) mod 12 =? Z.of_nat j)%Z eqn:E3; cbn [orb map snd app]; [rewrite (W _ E3), Hm|]; reflexivity. }
  apply A. intros i. reflexivity.
Qed.
Print Assumptions C59_soft_content.

(** A pure tone: if a single bin k of the frame is non-zero, lies in the band, and its energy is between 2^-33 and 2^30,
    then the hard chroma vector is zero outside the bin's pitch class and 1 (within 2^-18, squared) there. *)
Theorem C59_pure_tone : forall L rate fft sigma tuning frame k, chroma_libm L ->
  (Z.of_nat rate < 2 ^ 32)%Z -> 0 < fft -> (Z.of_nat fft < 2 ^ 64)%Z -> (Z.of_nat (length frame) <= 2 ^ 64)%Z ->
  within 13 tuning -> m_powf L f0 (lit 5033165 (-23)) = f0 ->
  k < length frame -> (forall i, i <> k -> nth i frame f0 = f0) -> within 50 (nth k frame f0) ->
  let f := fmul (n2f k) (fdiv (n2f rate) (n2f fft)) in
  let nyquist := fdiv (n2f rate) f2 in
  fle (z2f 100) f = true -> fle f (fmin (z2f 5000) nyquist) = true -> flt f nyquist = true ->
  (bpow radix2 (-33) <= B2R (m_powf L (fmax (nth k frame f0) f0) (lit 5033165 (-23))))%R ->
  let p := Z.to_nat (f2i32 (fround (fsub (fadd (fmul (z2f 12) (m_log2 L (fdiv f (z2f 440)))) (z2f 57)) tuning)) mod 12) in
  exists c, frame_to_chroma L rate fft false sigma tuning frame = Ok c /\ length c = 12 /\ p < 12 /\
    (forall j, j <> p -> nth j c f0 = f0) /\
    (Rabs (B2R (nth p c f0) * B2R (nth p c f0) - 1) <= bpow radix2 (-18))%R.
Proof.
  intros L rate fft sigma tuning frame k HL Hr H0 Hf Hl T P0 Hk Hz Wk f nyquist B1 B2 B3 Hc p.
  rewrite C59_hard_content by auto. cbv zeta.
  set (energy := fun j => fold_left fadd _ f0).
  set (contrib := m_powf L (fmax (nth k frame f0) f0) (lit 5033165 (-23))) in *.
  assert (Uc : upto 30 contrib) by (now apply contrib_small).
  assert (Hp : p < 12).
  { unfold p. match goal with |- Z.to_nat (?z mod 12) < 12 => pose proof (Z.mod_pos_bound z 12 ltac:(lia)); lia end. }
  assert (Z0 : forall l : list f32, Forall (fun x => x = f0) l -> fold_left fadd l f0 = f0).
  { induction l as [|x l IH]; intros Q; [reflexivity|]. cbn [fold_left]. rewrite (Forall_inv Q). apply Forall_inv_tail in Q. now apply IH. }
  assert (Zc : forall l : list f32, Forall (fun x => x = f0) l -> fold_left fadd l contrib = contrib).
  { induction l as [|x l IH]; intros Q; [reflexivity|]. cbn [fold_left]. rewrite (Forall_inv Q). apply Forall_inv_tail in Q.
    replace (fadd contrib f0) with contrib; [now apply IH|]. destruct Uc as (Fc & _). 
    destruct contrib as [[]|[]| |]; try discriminate; try reflexivity.
    exfalso. cbn [B2R] in Hc. pose proof (bpow_gt_0 radix2 (-33)). lra. }
  assert (C0 : fadd f0 contrib = contrib).
  { destruct Uc as (Fc & _). destruct contrib as [[]|[]| |]; try discriminate; try reflexivity.
    exfalso. cbn [B2R] in Hc. pose proof (bpow_gt_0 radix2 (-33)). lra. }
  assert (Ez : forall i, i <> k -> m_powf L (fmax (nth i frame f0) f0) (lit 5033165 (-23)) = f0).
  { intros i Hi. rewrite Hz by auto. replace (fmax f0 f0) with f0 by reflexivity. exact P0. }
  assert (En : forall j, j <> p -> energy j = f0).
  { intros j Hj. unfold energy. apply Z0, Forall_map, Forall_forall. intros i Hi. apply filter_In in Hi. destruct Hi as (_ & Hi).
    apply Ez. intros ->. apply andb_true_iff in Hi. destruct Hi as (_ & Hi). apply Z.eqb_eq in Hi. apply Hj.
    unfold p, f. rewrite Hi. now rewrite Nat2Z.id. }
  assert (Ep : energy p = contrib).
  { unfold energy. replace (length frame) with (k + (1 + (length frame - S k))) by lia.
    rewrite seq_app, filter_app, map_app, fold_left_app. rewrite Z0.
    2:{ apply Forall_map, Forall_forall. intros i Hi. apply filter_In in Hi. destruct Hi as (Hi & _). apply in_seq in Hi. apply Ez. lia. }
    rewrite seq_app, filter_app, map_app, fold_left_app. cbn [seq filter Nat.add].
    replace (_ && _) with true.
    2:{ symmetry. fold f. fold nyquist. rewrite B1, B2, B3. cbn [andb]. apply Z.eqb_eq. unfold p. rewrite Z2Nat.id; [reflexivity|].
        apply Z.mod_pos_bound. lia. }
    cbn [map fold_left]. fold contrib. rewrite C0. apply Zc, Forall_map, Forall_forall. intros i Hi. apply filter_In in Hi.
    destruct Hi as (Hi & _). apply in_seq in Hi. apply Ez. lia. }
  clearbody energy p contrib. rewrite (divided_by_norm_eq (map energy (seq 0 12))).
  assert (Nl : forall j, j < 12 -> nth j (map energy (seq 0 12)) f0 = energy j).
  { intros j Hj. do 12 (destruct j as [|j]; [reflexivity|]). lia. }
  assert (Ll : length (map energy (seq 0 12)) = 12) by (now rewrite map_length, seq_length).
  assert (Wl : Forall (within 55) (map energy (seq 0 12))).
  { apply Forall_map, Forall_forall. intros j _. destruct (Nat.eq_dec j p) as [->|Nj].
    - rewrite Ep. apply (within_mono 30); [lia|]. now apply upto_within.
    - rewrite En by auto. apply within_0. }
  generalize dependent (map energy (seq 0 12)). intros l Nl Ll Wl.
  assert (Fl : Forall (fun x => fin x) l) by (eapply Forall_impl; [|exact Wl]; intros x; apply within_fin).
  assert (Ip : In contrib l) by (rewrite <- Ep, <- Nl by auto; apply nth_In; lia).
  assert (G : fgt (l2_norm l) eps10 = true).
  { pose proof (norm_fin l ltac:(lia) Wl) as Fn. unfold fgt. fold (flt eps10 (l2_norm l)).
    assert (Fc : fin contrib) by apply Uc.
    assert (Q : fle (fabs contrib) (l2_norm l) = true).
    { apply norm_ge_elem; auto. rewrite <- fx_fin by (now rewrite fabs_fin). rewrite fabs_fx by (now apply fin_nn). rewrite fx_fin by auto.
      pose proof (Rle_abs (B2R contrib)). assert (bpow radix2 (-60) < bpow radix2 (-33))%R by (apply bpow_lt; lia). lra. }
    apply (flt_fle_trans _ (fabs contrib)); auto. apply flt_intro; [reflexivity|rewrite fabs_nn; now apply fin_nn|].
    rewrite fabs_fx by (now apply fin_nn). rewrite (fx_fin contrib) by auto. pose proof (Rle_abs (B2R contrib)).
    assert (V : (fx eps10 < bpow radix2 (-33))%R).
    { rewrite fx_fin by reflexivity. vm_compute B2R. unfold F2R. cbn. lra. }
    lra. }
  exists (unit_or_keep l). split; [reflexivity|]. split; [now rewrite unit_or_keep_length|]. split; auto.
  pose proof (norm_fin l ltac:(lia) Wl) as Fn.
  assert (Ho : forall j, j <> p -> nth j (unit_or_keep l) f0 = f0).
  { intros j Hj. unfold unit_or_keep. cbv zeta. rewrite G.
    destruct (Nat.lt_ge_cases j 12) as [Hj'|Hj']; [|rewrite nth_overflow; [reflexivity|rewrite map_length; lia]].
    rewrite (nth_indep _ f0 (fdiv f0 (l2_norm l))) by (rewrite map_length; lia). rewrite (map_nth (fun x => fdiv x (l2_norm l)) l f0).
    rewrite Nl, En by auto. pose proof (norm_pos_big _ G) as Pn. clear -Pn Fn.
    destruct (l2_norm l) as [[]|[]| |[]]; try discriminate; reflexivity. }
  split; [exact Ho|].
  pose proof (unit_or_keep_norm l ltac:(lia) Fl Fn G) as U.
  assert (E : Rsq (unit_or_keep l) = (B2R (nth p (unit_or_keep l) f0) * B2R (nth p (unit_or_keep l) f0))%R).
    { pose proof (unit_or_keep_length l) as Lu. rewrite Ll in Lu. clear -Hp Ho Lu. revert p Hp Ho. generalize dependent (unit_or_keep l).
      intros c Lc. assert (A : forall (c : list f32) p, p < length c -> (forall j, j <> p -> nth j c f0 = f0) ->
        Rsq c = (B2R (nth p c f0) * B2R (nth p c f0))%R).
      2:{ intros p Hp Ho. apply A; auto. lia. }
      clear. induction c as [|x c IH]; intros p Hp Ho; [inversion Hp|]. cbn [Rsq fold_right]. fold (Rsq c). destruct p as [|p].
      - cbn [nth]. assert (Q : Rsq c = 0%R).
        { assert (Fz : Forall (fun x => x = f0) c).
          { apply Forall_forall. intros y Hy. apply (In_nth _ _ f0) in Hy. destruct Hy as (j & Hj & <-). apply (Ho (S j)). lia. }
          clear -Fz. induction Fz as [|y c E F IH]; [reflexivity|]. cbn [Rsq fold_right]. fold (Rsq c). rewrite IH, E. cbn [B2R f0]. lra. }
        rewrite Q. lra.
      - cbn [nth length] in *. pose proof (Ho 0 ltac:(lia)) as E0. cbn [nth] in E0. rewrite E0. cbn [B2R f0]. rewrite (IH p); [lra|lia|].
        intros j Hj. apply (Ho (S j)). lia. }
    rewrite <- E. exact U.
Qed.
Print Assumptions C59_pure_tone.

(** Loud frames: magnitudes are finite, but when the sum of squares of the class energies overflows, every entry is
    divided by infinity and the chroma vector is zero. *)
Theorem C59_loud_is_silent : forall l, Forall (fun x => fin x) l -> l2_norm l = finf ->
  Forall (fun x => feq x f0 = true) (divided_by_norm l).
Proof.
  intros l F E. rewrite (divided_by_norm_eq l). unfold unit_or_keep. cbv zeta. rewrite E.
  change (fgt finf eps10) with true. cbv iota. apply Forall_map. eapply Forall_impl; [|exact F]. intros x Fx.
  rewrite fdiv_finf by exact Fx. destruct (Bsign x); reflexivity.
Qed.
Print Assumptions C59_loud_is_silent.
(** One class energy of 2^65 (a magnitude of about 2^108) is enough. *)
Example ex_C59_loud : l2_norm (lit 1 65 :: repeat f0 11) = finf.
Proof. vm_compute. reflexivity. Qed.

(** ** C60: normalisation and sharpening *)

(** l2_normalize_chroma keeps the length; for finite input every entry has magnitude at most 1, non-negative entries
    stay non-negative, and the order of the entries is kept; with at most twelve entries of magnitude up to 2^55 the
    squares add up to 1 within 2^-18, unless the norm is at most 1e-10: then all entries become 1/sqrt(n). *)
Theorem C60_l2 : forall c, c <> [] -> Forall (fun x => fin x) c ->
  let r := l2_normalize c in
  length r = length c /\
  (fgt (l2_norm c) eps10 = false -> Forall (fun x => x = fdiv f1 (fsqrt (n2f (length c)))) r) /\
  (fgt (l2_norm c) eps10 = true ->
    Forall (fun x => fin x /\ fle (fabs x) f1 = true) r /\
    (forall i, i < length c -> nneg (nth i c f0) -> nneg (nth i r f0)) /\
    (forall i j, i < length c -> j < length c -> fle (nth i c f0) (nth j c f0) = true -> fle (nth i r f0) (nth j r f0) = true) /\
    (length c <= 12 -> Forall (within 55) c ->
     (Rabs (fold_right (fun x s => B2R x * B2R x + s) 0 r - 1) <= bpow radix2 (-18))%R)).
Proof.
  intros c Hc F r. unfold r, l2_normalize. destruct (Nat.eqb_spec (length c) 0) as [E|E]; [destruct c; [congruence|discriminate]|].
  cbv zeta. destruct (fgt (l2_norm c) eps10) eqn:G; [|split; [apply repeat_length|]].
  - split; [apply map_length|]. split; [discriminate|]. intros _.
    assert (Nth : forall i, i < length c -> nth i (map (fun x => fdiv x (l2_norm c)) c) f0 = fdiv (nth i c f0) (l2_norm c)).
    { intros i Hi. rewrite (nth_indep _ f0 (fdiv f0 (l2_norm c))) by (now rewrite map_length). apply (map_nth (fun x => fdiv x (l2_norm c))). }
    pose proof (norm_pos_big _ G) as P.
    assert (U : forall i, i < length c -> fin (fdiv (nth i c f0) (l2_norm c))).
    { intros i Hi. apply unit_abs; auto. now apply nth_In. }
    split; [apply Forall_map, Forall_forall; intros x Hx; now apply unit_abs|].
    split; [|split].
    + intros i Hi N. rewrite Nth by auto. apply fdiv_nneg; auto. apply fin_nn. now apply U.
    + intros i j Hi Hj Q. rewrite !Nth by auto. apply fdiv_mono_l; auto; apply fin_nn; now apply U.
    + intros Hl W. apply unit_norm; auto. now apply norm_fin.
  - split; [|discriminate]. intros _. apply Forall_forall. intros x Hx. now apply repeat_spec in Hx.
Qed.
Print Assumptions C60_l2.

(** sharpen_chroma: for a power function that maps [0,1] into [0,1] (any non-negative power), a chroma vector in [0,1]
    stays one of the same length, of Euclidean norm 1 within 2^-18 unless the powers vanish. *)
Theorem C60_sharpen : forall L c power, c <> [] -> Forall in01 c ->
  (forall x, in01 x -> in01 (m_powf L x power)) ->
  let s := map (fun x => m_powf L x power) c in
  let r := sharpen_chroma L c power in
  length r = length c /\
  (fgt (l2_norm s) eps10 = false -> Forall (fun x => x = fdiv f1 (fsqrt (n2f (length c)))) r) /\
  (fgt (l2_norm s) eps10 = true ->
    Forall in01 r /\
    (forall i j, i < length c -> j < length c -> fle (nth i s f0) (nth j s f0) = true -> fle (nth i r f0) (nth j r f0) = true) /\
    (length c <= 12 -> (Rabs (fold_right (fun x s => B2R x * B2R x + s) 0 r - 1) <= bpow radix2 (-18))%R)).
Proof.
  intros L c power Hc C HL s r.
  assert (Is : Forall in01 s) by (apply Forall_map; eapply Forall_impl; [|exact C]; exact HL).
  assert (Ls : length s = length c) by apply map_length.
  assert (Er : r = l2_normalize s).
  { unfold r, sharpen_chroma, l2_normalize. fold s. rewrite Ls. reflexivity. }
  rewrite Er. clearbody s. clear r Er.
  assert (Fs : Forall (fun x => fin x) s) by (eapply Forall_impl; [|exact Is]; intros x; apply in01_fin).
  destruct (C60_l2 s) as (A & B & D); auto.
  { intros ->. destruct c; [congruence|discriminate]. }
  rewrite Ls in *. split; auto. split; auto. intros G. destruct (D G) as (D1 & D2 & D3 & D4). split; [|split]; auto.
  - apply Forall_forall. intros x Hx. pose proof (proj1 (Forall_forall _ _) D1 x Hx) as (Fx & Ax).
    apply (In_nth _ _ f0) in Hx. destruct Hx as (i & Hi & <-). rewrite A in Hi.
    assert (N : nneg (nth i (l2_normalize s) f0)).
    { apply D2; auto. apply (proj1 (Forall_forall _ _) Is). apply nth_In. lia. }
    split; auto. apply fle_fx in Ax. apply fle_intro; auto using fin_nn. rewrite fabs_fx in Ax by (now apply fin_nn).
    rewrite Rabs_right in Ax; auto. apply Rle_ge. now apply nneg_fx.
  - intros Hl. apply D4; auto. eapply Forall_impl; [|exact Is]. intros x I. split; [now apply in01_fin|].
    pose proof (in01_fin x I) as Fx. destruct I as (I0 & I1). apply fle_fx in I0, I1. rewrite fx_f0 in I0. rewrite fx_f1 in I1.
    rewrite fx_fin in * by auto. rewrite Rabs_right by lra. pose proof (bpow_le radix2 0 55 ltac:(lia)) as Bp. simpl (bpow radix2 0) in Bp. lra.
Qed.
Print Assumptions C60_sharpen.

(** ** Concrete cases *)

(** Platform functions that satisfy [chroma_libm]: powers are 0 or 1, exp is 1, log2 is 1/8. *)
Definition toy : libm := {| m_powf := fun x _ => if fgt x f0 then f1 else f0; m_log10 := fun _ => f0; m_log2 := fun _ => lit 1 (-3);
  m_ln := fun _ => f0; m_exp := fun _ => f1; m_sin := fun _ => f0; m_cos := fun _ => f0 |}.
Example ex_toy : chroma_libm toy.
Proof.
  assert (V : B2R (lit 1 (-3)) = (/ 8)%R) by (vm_compute B2R; unfold F2R; cbn; lra).
  assert (W : forall k (b : bool), (0 <= k)%Z -> upto k (if b then f1 else f0)).
  { intros k b Hk. pose proof (bpow_le radix2 0 k Hk) as B. simpl (bpow radix2 0) in B.
    destruct b; split; try reflexivity; [change f1 with (z2f 1); rewrite (proj2 (z2f_exact 1 ltac:(lia)))|cbn [B2R f0]]; lra. }
  split; [intros; apply W; lia|]. split; [intros; apply W; lia|]. split; [intros; split; reflexivity|].
  intros. split; [reflexivity|]. cbn [m_log2 toy]. rewrite V, Rabs_right by lra. simpl. lra.
Qed.
(** 8 kHz, FFT of 16: bins at 500, 1000, ..., 4000 Hz.  12*(1/8) + 57 = 58.5 rounds to 59: class 11; the last bin is at
    the Nyquist frequency and not counted. *)
Example ex_C59_hard :
  match frame_to_chroma toy (8 * 1000) 16 false f0 f0 [f1; f1; f1; f1; f1; f1; f1; f1; f1] with
  | Ok c => map f2i32 (map (fmul (z2f 100)) c) | _ => [] end = [0; 0; 0; 0; 0; 0; 0; 0; 0; 0; 0; 100]%Z.
Proof. vm_compute. reflexivity. Qed.
(** Soft mapping spreads the same energy over the three classes 10, 11 and 0. *)
Example ex_C59_soft :
  match frame_to_chroma toy (8 * 1000) 16 true fhalf f0 [f1; f1; f1; f1; f1; f1; f1; f1; f1] with
  | Ok c => map f2i32 (map (fmul (z2f 100)) c) | _ => [] end = [57; 0; 0; 0; 0; 0; 0; 0; 0; 0; 57; 57]%Z.
Proof. vm_compute. reflexivity. Qed.
Definition id_fft : fft_oracle := {| fft_forward := fun l => l; fft_inverse := fun l => l;
  fft_forward_len := fun l => eq_refl; fft_inverse_len := fun l => eq_refl |}.
(** Ten samples, frames of 4, hop 3: three frames of three bins; cos = 0 makes the window constant 1/2. *)
Example ex_C41 :
  match compute_stft id_fft toy (map z2f [2; -4; 6; 8; 10; 12; 14; 16; 18; 20]%Z) 4 3 with
  | Ok s => map (map f2i32) s | _ => [] end = [[1; 2; 3]; [4; 5; 6]; [7; 8; 9]]%Z.
Proof. vm_compute. reflexivity. Qed.
Example ex_C60 :
  (map f2i32 (map (fmul (z2f 100)) (l2_normalize [z2f 3; f0; z2f (-4)])),
   map f2i32 (map (fmul (z2f 100)) (l2_normalize (repeat f0 4)))) = ([60; 0; -80], [50; 50; 50; 50])%Z.
Proof. vm_compute. reflexivity. Qed.
