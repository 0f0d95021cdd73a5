(** Range and norm of chroma vectors (src/features/chroma/extractor.rs). *)
From Coq Require Import Reals Lra Lia.
From Flocq Require Import Core.
From Verif Require Import Rust F32 F32Facts F32More FloatSums ListFacts NoveltyProofs Bounds PeakPicking Autocorrelation
  TempoSpectra Hmm Libm BayesianProofs Chroma L2Proofs ChromaProofs.
Close Scope R_scope.

(** What the proofs need of the platform functions: x^0.6 of a non-negative finite x is between 0 and 2^77
    (f32::MAX^0.6 is about 2^76.8), and at most 2^30 for x up to 2^50, exp of a non-positive number is in [0,1], log2 of a positive number is at most 2^8
    in size. *)
Definition chroma_libm (L : libm) : Prop :=
  (forall x, fin x -> nneg x -> upto 77 (m_powf L x (lit 5033165 (-23)))) /\
  (forall x, upto 50 x -> upto 30 (m_powf L x (lit 5033165 (-23)))) /\
  (forall x, fle x f0 = true -> in01 (m_exp L x)) /\
  (forall x, fin x -> pos x -> within 8 (m_log2 L x)).

Lemma lit_within : forall x k, fin x -> (Rabs (B2R x) <= bpow radix2 k)%R -> within k x.
Proof. intros. now split. Qed.

Lemma semitone_fin : forall L rate tuning freq, chroma_libm L -> in_band rate freq = true -> within 13 tuning ->
  fin (semitone L tuning freq).
Proof.
  intros L rate tuning freq (_ & _ & _ & Hl) B T. unfold in_band in B. cbv zeta in B.
  apply andb_true_iff in B. destruct B as (B & _). apply andb_true_iff in B. destruct B as (B1 & B2).
  assert (B3 : fle freq chroma_fmax = true).
  { eapply fle_trans; [exact B2|]. apply fmin_le_l. reflexivity. }
  assert (Ff : fin freq) by (apply (fin_between chroma_fmin _ chroma_fmax); auto; reflexivity).
  pose proof (fle_fx _ _ B1) as L1. pose proof (fle_fx _ _ B3) as L3. rewrite !fx_fin in * by (auto; reflexivity).
  assert (V1 : B2R chroma_fmin = 100%R) by (unfold chroma_fmin; apply z2f_exact; lia).
  assert (V3 : B2R chroma_fmax = 5000%R) by (unfold chroma_fmax; apply z2f_exact; lia).
  assert (V4 : B2R a4 = 440%R) by (unfold a4; apply z2f_exact; lia). rewrite V1 in L1. rewrite V3 in L3.
  assert (Wd : within (13 - 8) (fdiv freq a4)).
  { apply within_div; try reflexivity; [lia| |].
    - split; auto. rewrite Rabs_right by lra. simpl. lra.
    - rewrite V4, Rabs_right by lra. simpl. lra. }
  assert (Pd : pos (fdiv freq a4)).
  { destruct (fdiv_fx freq a4 Ff eq_refl) as (N & E); [rewrite V4; lra|].
    assert (Lw : (rnd (B2R (lit 1 (-3))) <= rnd (B2R freq / B2R a4))%R).
    { apply rnd_mono. rewrite V4. assert (Q : B2R (lit 1 (-3)) = (/ 8)%R) by (vm_compute B2R; simpl; lra). rewrite Q. lra. }
    rewrite rnd_B2R in Lw. assert (Q : B2R (lit 1 (-3)) = (/ 8)%R) by (vm_compute B2R; simpl; lra). rewrite Q in Lw.
    apply flt_intro; auto. rewrite fx_f0, E. pose proof big_pos as BP.
    apply Rlt_le_trans with (sat (/ 8)); [|now apply sat_mono]. 
    pose proof big_val as BV. assert (1 < big)%R by (rewrite BV; apply IZR_lt; reflexivity). rewrite sat_id; lra. }
  specialize (Hl _ (within_fin _ _ Wd) Pd). unfold semitone.
  assert (W12 : within 4 (z2f 12)) by (split; [reflexivity|]; rewrite (proj2 f12_val), Rabs_right; simpl; lra).
  assert (Wm : within (4 + 8) (fmul (z2f 12) (m_log2 L (fdiv freq a4)))) by (apply within_mul; auto; lia).
  assert (W57 : within 12 (z2f 57)).
  { split; [reflexivity|]. destruct (z2f_exact 57 ltac:(lia)) as (_ & E). rewrite E, Rabs_right; simpl; lra. }
  assert (Wa : within (12 + 1) (fadd (fmul (z2f 12) (m_log2 L (fdiv freq a4))) (z2f 57))) by (apply within_add; auto; lia).
  apply (within_fin (13 + 1)). apply within_sub; auto. lia.
Qed.

(** The Gaussian weight of a pitch class is in [0,1]. *)
Lemma sigma_pos : forall sigma, let s := fmax sigma (lit 8796093 (-43)) in
  nn (fmul (fmul f2 s) s) /\ pos (fmul (fmul f2 s) s).
Proof.
  intros sigma s.
  assert (Ls : fle (lit 8796093 (-43)) s = true) by (apply fmax_ge_r; reflexivity).
  assert (Ps : pos s) by (apply (flt_fle_trans f0 (lit 8796093 (-43))); auto).
  assert (N2 : nneg (fmul f2 s) /\ fle (lit 8796093 (-43)) (fmul f2 s) = true /\ pos (fmul f2 s)).
  { destruct (nneg_cases s (pos_nneg _ Ps)) as [(F & _)| ->].
    - destruct (fmul_fx f2 s eq_refl F) as (N & _).
      assert (A : fle (fmul f2 (lit 8796093 (-43))) (fmul f2 s) = true) by (apply fmul_mono; auto; reflexivity).
      assert (B : fle (lit 8796093 (-43)) (fmul f2 s) = true) by (eapply fle_trans; [|exact A]; reflexivity).
      split; [|split; auto]. apply fle_trans with (lit 8796093 (-43)); auto. 
      apply (flt_fle_trans f0 (lit 8796093 (-43))); auto.
    - split; [reflexivity|split; reflexivity]. }
  destruct N2 as (N2 & L2 & P2).
  assert (Nn : nn (fmul (fmul f2 s) s)).
  { destruct (nneg_cases s (pos_nneg _ Ps)) as [(F & _)|E].
    - destruct (nneg_cases (fmul f2 s) N2) as [(F' & _)|E]; [now apply fmul_fx|]. rewrite E.
      destruct s as [[]|[]| |[]]; try discriminate; reflexivity.
    - rewrite E. reflexivity. }
  split; auto. apply (flt_fle_trans f0 (fmul (lit 8796093 (-43)) (lit 8796093 (-43)))); [reflexivity|].
  apply fmul_mono; auto; reflexivity.
Qed.

Lemma neg_div_nonpos : forall a y, fin a -> (B2R a <= 0)%R -> pos y -> fle (fdiv a y) f0 = true.
Proof.
  intros a y Fa Ha P. destruct (nneg_cases y (pos_nneg _ P)) as [(Fy & _)| ->].
  - pose proof (B2R_pos y Fy P) as Py. destruct (fdiv_fx a y Fa Fy ltac:(lra)) as (N & E).
    apply fle_intro; auto. rewrite E, fx_f0, <- sat_0. apply sat_mono. rewrite <- rnd_0. apply rnd_mono.
    unfold Rdiv. assert (0 < / B2R y)%R by (now apply Rinv_0_lt_compat). nra.
  - rewrite fdiv_finf by auto. destruct (Bsign a); reflexivity.
Qed.

Lemma soft_weight_01 : forall L sigma s t, chroma_libm L -> fin s -> (0 <= t < 12)%Z ->
  in01 (soft_weight L (fmax sigma (lit 8796093 (-43))) (frem_euclid s (z2f 12)) t).
Proof.
  intros L sigma s t (_ & _ & He & _) Fs Ht. destruct (frem_euclid_12 s Fs) as (A & B).
  set (pc := frem_euclid s (z2f 12)) in *. unfold soft_weight. apply He.
  destruct f12_val as (F12 & V12).
  assert (Fp : fin pc) by (apply (fin_between f0 _ (z2f 12)); auto).
  pose proof (fle_fx _ _ A) as A'. pose proof (fle_fx _ _ B) as B'. rewrite fx_f0 in A'. rewrite !fx_fin in * by auto. rewrite V12 in B'.
  destruct (z2f_exact t ltac:(lia)) as (Ft & Vt).
  assert (T : (0 <= IZR t <= 11)%R) by (split; apply IZR_le; lia).
  pose proof big_val as BV. assert (Bg : (100 < big)%R) by (rewrite BV; apply IZR_lt; reflexivity).
  assert (D : fin (fabs (fsub pc (z2f t))) /\ (0 <= B2R (fabs (fsub pc (z2f t))) <= 12)%R).
  { destruct (fsub_fx pc (z2f t) Fp Ft) as (N & E). rewrite Vt in E.
    assert (R : (-12 <= rnd (B2R pc - IZR t) <= 12)%R).
    { pose proof (rnd_B2R (z2f 12)) as R12. rewrite V12 in R12. split.
      - pose proof (rnd_mono (- (12)) (B2R pc - IZR t) ltac:(lra)) as M. rewrite rnd_opp, R12 in M. lra.
      - rewrite <- R12. apply rnd_mono. lra. }
    rewrite sat_id in E by lra.
    assert (F : fin (fsub pc (z2f t))) by (apply fin_iff; auto; lra).
    split; [now rewrite fabs_fin|]. rewrite <- fx_fin by (now rewrite fabs_fin). rewrite fabs_fx, E by auto.
    split; [apply Rabs_pos|]. apply Rabs_le. lra. }
  set (d := fabs (fsub pc (z2f t))) in *. destruct D as (Fd & Dd). cbv zeta.
  assert (D2 : fin (fsub (z2f 12) d) /\ (0 <= B2R (fsub (z2f 12) d) <= 12)%R).
  { destruct (fsub_fx (z2f 12) d F12 Fd) as (N & E). rewrite V12 in E.
    assert (R : (0 <= rnd (12 - B2R d) <= 12)%R).
    { pose proof (rnd_B2R (z2f 12)) as R12. rewrite V12 in R12.
      split; [apply rnd_nonneg; lra|]. pose proof (rnd_mono (12 - B2R d) 12 ltac:(lra)) as M. lra. }
    rewrite sat_id in E by lra. assert (F : fin (fsub (z2f 12) d)) by (apply fin_iff; auto; lra).
    split; auto. rewrite <- fx_fin, E by auto. exact R. }
  set (d' := fmin d (fsub (z2f 12) d)).
  assert (D3 : fin d' /\ (0 <= B2R d' <= 12)%R).
  { unfold d'. destruct (fmin_case d (fsub (z2f 12) d)) as [-> | ->]; tauto. }
  destruct D3 as (F3 & D3).
  assert (Fn : fin (fneg d') /\ B2R (fneg d') = (- B2R d')%R).
  { split; [destruct d'; auto|]. unfold fneg. now rewrite B2R_Bopp. }
  destruct Fn as (Fn & Vn).
  destruct (fmul_fx (fneg d') d' Fn F3) as (Nm & Em). rewrite Vn in Em.
  assert (R : (- 256 <= rnd (- B2R d' * B2R d') <= 0)%R).
  { split.
    - assert (V : B2R (z2f (- 256)) = (-256)%R) by (apply z2f_exact; lia). rewrite <- V, <- (rnd_B2R (z2f (-256))), V.
      apply rnd_mono. nra.
    - rewrite <- rnd_0. apply rnd_mono. nra. }
  rewrite sat_id in Em by (pose proof (IZR_lt 256 (2 ^ 128) ltac:(lia)); rewrite <- BV in *; lra).
  assert (Fm : fin (fmul (fneg d') d')).
  { apply fin_iff; auto. pose proof (IZR_lt 256 (2 ^ 128) ltac:(lia)); rewrite <- BV in *; lra. }
  apply neg_div_nonpos; auto.
  - rewrite <- fx_fin, Em by auto. lra.
  - apply sigma_pos.
Qed.

Lemma upto_scale : forall k c w, (-149 <= k < 128)%Z -> upto k c -> in01 w -> upto k (fmul c w).
Proof.
  intros k c w K U I. assert (F : fin w) by (now apply in01_fin). destruct I as (W0 & W1). apply within_upto.
  - rewrite <- (Z.add_0_r k). apply within_mul; [lia|now apply upto_within|].
    split; auto. apply fle_fx in W0, W1. rewrite fx_f0 in W0. rewrite fx_f1 in W1.
    rewrite fx_fin in * by auto. rewrite Rabs_right by lra. simpl. lra.
  - destruct U as (Fc & L & _). apply fmul_nneg; auto.
    + apply nneg_iff; auto using fin_nn. now rewrite fx_fin.
    + apply fmul_fx; auto.
Qed.

Lemma bin_targets_upto : forall k L rate soft sigma tuning freq mag, (-149 <= k < 128)%Z -> chroma_libm L -> in_band rate freq = true ->
  within 13 tuning -> upto k (m_powf L (fmax mag f0) (lit 5033165 (-23))) ->
  Forall (fun p => upto k (snd p)) (bin_targets L soft sigma tuning freq mag).
Proof.
  intros k L rate soft sigma tuning freq mag K HL B T C. unfold bin_targets. cbv zeta.
  destruct soft.
  - unfold soft_targets. cbv zeta. apply Forall_map, Forall_forall. intros off _. cbn [snd].
    apply upto_scale; auto. apply soft_weight_01; auto.
    + eapply semitone_fin; eauto.
    + apply Z.mod_pos_bound. lia.
  - constructor; auto.
Qed.
Lemma contrib_all : forall L mag, chroma_libm L -> fin mag -> upto 77 (m_powf L (fmax mag f0) (lit 5033165 (-23))).
Proof.
  intros L mag HL Fm. apply HL.
  - destruct (fmax_case mag f0) as [-> | ->]; auto.
  - apply fmax_ge_r. reflexivity.
Qed.
Lemma contrib_small : forall L mag, chroma_libm L -> within 50 mag -> upto 30 (m_powf L (fmax mag f0) (lit 5033165 (-23))).
Proof.
  intros L mag HL W. apply HL. apply within_upto.
  - destruct (fmax_case mag f0) as [-> | ->]; auto. apply within_0.
  - apply fmax_ge_r. reflexivity.
Qed.

(** ** One chroma vector *)

(** The accumulated energy of pitch class [j], before normalisation. *)
Definition class_energy (L : libm) (rate fft : nat) (soft : bool) (sigma tuning : f32) (frame : list f32) (j : nat) : f32 :=
  fold_left fadd (map snd (filter (fun p => fst p =? j) (band_targets rate fft L soft sigma tuning 0 frame))) f0.

Lemma band_targets_lt : forall rate fft L soft sigma tuning a frame,
  Forall (fun p => fst p < 12) (band_targets rate fft L soft sigma tuning a frame).
Proof.
  intros. unfold band_targets. apply Forall_flat_map, Forall_forall. intros km _.
  destruct (in_band _ _); [apply bin_targets_lt|constructor].
Qed.

Lemma list_nth_12 : forall (c : list f32), length c = 12 -> c = map (fun j => nth j c f0) (seq 0 12).
Proof. intros c H. do 12 (destruct c as [|? c]; [discriminate|]). destruct c; [reflexivity|discriminate]. Qed.

Lemma frame_to_chroma_ok : forall L rate fft soft sigma tuning frame,
  (Z.of_nat rate < 2 ^ 32)%Z -> 0 < fft -> (Z.of_nat fft < 2 ^ 64)%Z -> (Z.of_nat (length frame) <= 2 ^ 64)%Z ->
  frame_to_chroma L rate fft soft sigma tuning frame =
  Ok (unit_or_keep (map (class_energy L rate fft soft sigma tuning frame) (seq 0 12))).
Proof.
  intros L rate fft soft sigma tuning frame Hr H0 Hf Hl. unfold frame_to_chroma. cbv zeta.
  rewrite (chroma_bins_scatter rate fft Hr (conj H0 Hf) L soft sigma tuning frame 0) by (cbn [Nat.add]; exact Hl).
  destruct (scatter_ok (band_targets rate fft L soft sigma tuning 0 frame) (repeat f0 12)) as (c & E & Lc & N).
  { rewrite repeat_length. apply band_targets_lt. }
  rewrite repeat_length in Lc. rewrite E. cbn [omap obind]. do 2 f_equal.
  rewrite (list_nth_12 c Lc). apply map_ext_in. intros j Hj. apply in_seq in Hj. unfold class_energy. rewrite N.
  f_equal. do 12 (destruct j as [|j]; [reflexivity|]). lia.
Qed.

Lemma class_energy_gen : forall k L rate fft soft sigma tuning frame j, (-149 <= k <= 102)%Z -> chroma_libm L -> within 13 tuning ->
  (forall mag, In mag frame -> upto k (m_powf L (fmax mag f0) (lit 5033165 (-23)))) ->
  within (k + 25) (class_energy L rate fft soft sigma tuning frame j) /\ nneg (class_energy L rate fft soft sigma tuning frame j).
Proof.
  intros k L rate fft soft sigma tuning frame j K HL T F.
  assert (A : Forall (upto k) (map snd (filter (fun p => fst p =? j) (band_targets rate fft L soft sigma tuning 0 frame)))).
  { apply Forall_map, Forall_forall. intros p Hp. apply filter_In in Hp. destruct Hp as (Hp & _). revert p Hp.
    apply Forall_forall. unfold band_targets. apply Forall_flat_map, Forall_forall. intros (i, m) Hkm. cbn [fst snd].
    destruct (in_band _ _) eqn:B; [|constructor]. apply in_combine_r in Hkm.
    eapply bin_targets_upto; eauto. lia. }
  unfold class_energy. split.
  - apply (within_fold k); [lia| |apply within_0]. eapply Forall_impl; [|exact A]. intros x. apply upto_within.
  - apply fsum_nneg_gen; [reflexivity|]. eapply Forall_impl; [|exact A]. intros x. apply upto_nneg.
Qed.
Lemma class_energy_ok : forall L rate fft soft sigma tuning frame j, chroma_libm L -> within 13 tuning ->
  Forall (fun x => fin x) frame ->
  within 102 (class_energy L rate fft soft sigma tuning frame j) /\ nneg (class_energy L rate fft soft sigma tuning frame j).
Proof.
  intros L rate fft soft sigma tuning frame j HL T F. apply (class_energy_gen 77); auto; [lia|].
  intros mag Hm. apply contrib_all; auto. now apply (proj1 (Forall_forall _ _) F).
Qed.

Lemma within_fold_len : forall l k acc, (-148 <= k)%Z -> (k + Z.of_nat (length l) < 128)%Z -> Forall (within k) l -> within k acc ->
  within (k + Z.of_nat (length l)) (fold_left fadd l acc).
Proof.
  induction l as [|x l IH]; intros k acc K H F A; cbn [length fold_left] in *.
  - now rewrite Z.add_0_r.
  - replace (k + Z.of_nat (S (length l)))%Z with (k + 1 + Z.of_nat (length l))%Z by lia. apply IH; try lia.
    + apply Forall_inv_tail in F. eapply Forall_impl; [|exact F]. intros y. apply within_mono. lia.
    + apply within_add; auto; [lia|]. now apply Forall_inv in F.
Qed.
Lemma norm_fin : forall l, length l <= 12 -> Forall (within 55) l -> fin (l2_norm l).
Proof.
  intros l Hl F. unfold l2_norm. apply fsqrt_val.
  - apply (within_fin (110 + Z.of_nat (length (map (fun x => fmul x x) l)))). rewrite map_length.
    rewrite <- (map_length (fun x => fmul x x) l) at 1. apply within_fold_len; rewrite ?map_length; try lia; [|apply within_0].
    apply Forall_map. eapply Forall_impl; [|exact F]. intros x W. apply (within_mul 55 55); auto. lia.
  - apply fsum_nneg, squares_nneg. eapply Forall_impl; [|exact F]. intros x. apply within_fin.
Qed.

Lemma small_keep : forall l x, Forall (fun x => fin x) l -> Forall (fun x => nneg x) l -> In x l -> fgt (l2_norm l) eps10 = false ->
  fle x eps10 = true.
Proof.
  intros l x F N Hx G. pose proof (proj1 (Forall_forall _ _) F x Hx) as Fx. pose proof (proj1 (Forall_forall _ _) N x Hx) as Nx.
  cbn beta in Fx, Nx. pose proof (l2_norm_nneg l F) as Nl.
  assert (G' : fle (l2_norm l) eps10 = true) by (apply flt_false_fle; auto using nneg_nn).
  assert (Fl : fin (l2_norm l)).
  { destruct (nneg_cases _ Nl) as [(A & _)|E]; auto. rewrite E in G'. discriminate. }
  destruct (Rle_or_lt (bpow radix2 (-60)) (B2R (fabs x))) as [B|B].
  - pose proof (norm_ge_elem l x F Hx Fl B) as Q. apply fle_trans with (l2_norm l); auto.
    apply fle_fx in Q. apply fle_intro; auto using fin_nn. rewrite fabs_fx in Q by (now apply fin_nn).
    rewrite Rabs_right in Q; auto. apply Rle_ge. now apply nneg_fx.
  - apply fle_intro; auto using fin_nn. pose proof eps10_val as E.
    assert (bpow radix2 (-60) < bpow radix2 (-34))%R by (apply bpow_lt; lia).
    rewrite <- fx_fin in B by (now rewrite fabs_fin). rewrite fabs_fx in B by (now apply fin_nn).
    rewrite Rabs_right in B; [|apply Rle_ge; now apply nneg_fx]. lra.
Qed.

Lemma unit_or_keep_01 : forall l, Forall (fun x => fin x) l -> Forall (fun x => nneg x) l -> Forall in01 (unit_or_keep l).
Proof.
  intros l F N. unfold unit_or_keep. cbv zeta. destruct (fgt (l2_norm l) eps10) eqn:G.
  - apply Forall_map, Forall_forall. intros x Hx. apply unit_in01; auto. now apply (proj1 (Forall_forall _ _) N).
  - apply Forall_forall. intros x Hx. split; [now apply (proj1 (Forall_forall _ _) N)|].
    apply fle_trans with eps10; [now apply (small_keep l)|reflexivity].
Qed.

Lemma unit_or_keep_norm : forall l, length l <= 12 -> Forall (fun x => fin x) l -> fin (l2_norm l) ->
  fgt (l2_norm l) eps10 = true -> (Rabs (Rsq (unit_or_keep l) - 1) <= bpow radix2 (-18))%R.
Proof. intros l Hl F Fn G. unfold unit_or_keep. cbv zeta. rewrite G. now apply unit_norm. Qed.

Lemma unit_or_keep_cases : forall l, length l <= 12 -> Forall (fun x => fin x) l -> Forall (fun x => nneg x) l ->
  Forall (within 55) l ->
  (Rabs (Rsq (unit_or_keep l) - 1) <= bpow radix2 (-18))%R \/ Forall (fun x => fle x eps10 = true) (unit_or_keep l).
Proof.
  intros l Ll Fl Nl W. destruct (fgt (l2_norm l) eps10) eqn:G.
  - left. apply unit_or_keep_norm; auto. apply norm_fin; auto.
  - right. unfold unit_or_keep. cbv zeta. rewrite G. apply Forall_forall. intros x Hx. now apply (small_keep l).
Qed.
Lemma unit_or_keep_length : forall l, length (unit_or_keep l) = length l.
Proof. intros l. unfold unit_or_keep. cbv zeta. destruct (fgt _ _); now rewrite ?map_length. Qed.
