(** Proofs about the HPCP extraction (KeyFeatures.v): the scatter view of one frame, its peaks and its value range. *)
From Coq Require Import ZArith Reals Lra Permutation.
From Flocq Require Import Core BinarySingleNaN.
From Verif Require Import Rust F32 F32Facts F32More ListFacts Libm Onsets NoveltyProofs Bounds Chroma ChromaProofs ChromaValueProofs L2Proofs
  KeyFeatures HarmonicMaskProofs ThresholdProofs.
Local Open Scope nat_scope.

(** ** Soft mapping, one class at a time *)
Definition near (pc : Z) (j : nat) : bool := existsb (fun o => ((pc + o) mod 12 =? Z.of_nat j)%Z) [-1; 0; 1]%Z.
Lemma soft_targets_class : forall L sigma s contrib j,
  let pc := frem_euclid s (z2f 12) in
  map snd (filter (fun p => fst p =? j) (soft_targets L sigma s contrib)) =
  if near (f2i32 (frem_euclid (fround pc) (z2f 12))) j then [fmul contrib (soft_weight L sigma pc (Z.of_nat j))] else [].
Proof.
  intros L sigma s contrib j pc. unfold soft_targets. fold pc. cbv zeta. set (p := f2i32 _).
  assert (B : forall o, (Z.to_nat ((p + o) mod 12) =? j) = ((p + o) mod 12 =? Z.of_nat j)%Z).
  { intros o. pose proof (Z.mod_pos_bound (p + o) 12 ltac:(lia)).
    destruct (Z.eqb_spec ((p + o) mod 12) (Z.of_nat j)), (Nat.eqb_spec (Z.to_nat ((p + o) mod 12)) j); auto; lia. }
  assert (C : forall o o', (o <> o')%Z -> (-1 <= o <= 1)%Z -> (-1 <= o' <= 1)%Z -> ((p + o) mod 12 =? Z.of_nat j)%Z = true ->
    ((p + o') mod 12 =? Z.of_nat j)%Z = false).
  { intros o o' No Ho Ho' E. apply Z.eqb_eq in E. apply Z.eqb_neq. intros E'.
    pose proof (Z.div_mod (p + o) 12 ltac:(lia)). pose proof (Z.div_mod (p + o') 12 ltac:(lia)). lia. }
  assert (W : forall o, ((p + o) mod 12 =? Z.of_nat j)%Z = true -> soft_weight L sigma pc ((p + o) mod 12) = soft_weight L sigma pc (Z.of_nat j)).
  { intros o E. apply Z.eqb_eq in E. now rewrite E. }
  unfold near. cbn [map filter fst existsb orb app]. rewrite !B.
  destruct ((p + -1) mod 12 =? Z.of_nat j)%Z eqn:E1.
  { rewrite (C (-1)%Z 0%Z), (C (-1)%Z 1%Z) by (auto; lia). cbn [orb map snd]. now rewrite (W _ E1). }
  destruct ((p + 0) mod 12 =? Z.of_nat j)%Z eqn:E2.
  { rewrite (C 0%Z 1%Z) by (auto; lia). cbn [orb map snd]. now rewrite (W _ E2). }
  destruct ((p + 1) mod 12 =? Z.of_nat j)%Z eqn:E3; cbn [orb map snd]; [now rewrite (W _ E3)|reflexivity].
Qed.

(** The semitone of an audible frequency is finite. *)
Lemma semitone_fin' : forall L tuning freq, chroma_libm L -> fle (z2f 20) freq = true -> within 33 freq -> within 13 tuning ->
  fin (semitone L tuning freq).
Proof.
  intros L tuning freq (_ & _ & _ & Hl) B1 B3 T. pose proof (within_fin _ _ B3) as Ff.
  pose proof (fle_fx _ _ B1) as L1. rewrite !fx_fin in * by (auto; reflexivity).
  assert (V1 : B2R (z2f 20) = 20%R) by (apply z2f_exact; lia).
  assert (V4 : B2R a4 = 440%R) by (unfold a4; apply z2f_exact; lia). rewrite V1 in L1.
  assert (Wd : within (33 - 8) (fdiv freq a4)).
  { apply within_div; try reflexivity; [lia|auto|]. rewrite V4, Rabs_right by lra. simpl. lra. }
  assert (Pd : pos (fdiv freq a4)).
  { destruct (fdiv_fx freq a4 Ff eq_refl) as (N & E); [rewrite V4; lra|].
    assert (Q : B2R (lit 1 (-5)) = (/ 32)%R) by (vm_compute B2R; simpl; lra).
    assert (Lw : (rnd (B2R (lit 1 (-5))) <= rnd (B2R freq / B2R a4))%R).
    { apply rnd_mono. rewrite V4, Q. lra. }
    rewrite rnd_B2R, Q in Lw.
    apply flt_intro; auto. rewrite fx_f0, E. pose proof big_pos as BP.
    apply Rlt_le_trans with (sat (/ 32)); [|now apply sat_mono].
    pose proof big_val as BV. assert (1 < big)%R by (rewrite BV; apply IZR_lt; reflexivity). rewrite sat_id; lra. }
  specialize (Hl _ (within_fin _ _ Wd) Pd). unfold semitone.
  assert (W12 : within 4 (z2f 12)) by (split; [reflexivity|]; rewrite (proj2 f12_val), Rabs_right; simpl; lra).
  assert (Wm : within (4 + 8) (fmul (z2f 12) (m_log2 L (fdiv freq a4)))) by (apply within_mul; auto; lia).
  assert (W57 : within 12 (z2f 57)).
  { split; [reflexivity|]. destruct (z2f_exact 57 ltac:(lia)) as (_ & E). rewrite E, Rabs_right; simpl; lra. }
  assert (Wa : within (12 + 1) (fadd (fmul (z2f 12) (m_log2 L (fdiv freq a4))) (z2f 57))) by (apply within_add; auto; lia).
  apply (within_fin (13 + 1)). apply within_sub; auto. lia.
Qed.

(** ** Peaks as scattered contributions *)
Section Frame.
  Variables (L : libm) (P : key_platform) (lo hi sigma tuning decay p : f32).
  Hypothesis Nlo : nn lo.
  Hypothesis Nhi : nn hi.

  Definition harmonic_targets (f w0 : f32) (h : nat) : list (nat * f32) :=
    let fh := fmul f (n2f h) in
    if fle lo fh && fle fh hi
    then soft_targets L sigma (semitone L tuning fh) (fmul w0 (fdiv (p_powi P decay (h - 1)) (n2f h))) else [].

  Lemma harmonic_ok : forall f h, fin f -> nneg f -> (Z.of_nat h < 2 ^ 64)%Z -> nneg (fmul f (n2f h)).
  Proof. intros f h F N H. apply fmul_nneg_fin; auto; [apply z2f_fin | apply z2f_nneg]; lia. Qed.

  Lemma harmonics_scatter : forall f w0, fin f -> nneg f -> forall n h c, (Z.of_nat (h + n) <= 2 ^ 64)%Z ->
    add_harmonics L P lo hi sigma tuning decay f w0 h n c = scatter (flat_map (harmonic_targets f w0) (seq h n)) c.
  Proof.
    intros f w0 F N. induction n as [|n IH]; intros h c H; [reflexivity|]. cbn [add_harmonics seq flat_map].
    set (fh := fmul f (n2f h)). pose proof (harmonic_ok f h F N ltac:(lia)) as Nh. fold fh in Nh.
    change (fgt fh hi) with (flt hi fh).
    destruct (flt hi fh) eqn:E1.
    { assert (Z : forall m a, h <= a -> (Z.of_nat (a + m) <= 2 ^ 64)%Z -> flat_map (harmonic_targets f w0) (seq a m) = []).
      { induction m as [|m IHm]; intros a Ha Hm; [reflexivity|]. cbn [seq flat_map]. rewrite IHm by lia. rewrite app_nil_r.
        unfold harmonic_targets. cbv zeta.
        assert (M : fle fh (fmul f (n2f a)) = true).
        { unfold fh. apply fmul_mono; auto; [now apply fle_refl, fin_nn | apply z2f_nneg; lia | apply z2f_mono; lia | |];
            apply nneg_nn, harmonic_ok; auto; lia. }
        rewrite (flt_fle_false hi (fmul f (n2f a))) by (eapply flt_fle_trans; eauto). now rewrite andb_false_r. }
      change (harmonic_targets f w0 h ++ flat_map (harmonic_targets f w0) (seq (S h) n)) with (flat_map (harmonic_targets f w0) (seq h (S n))).
      rewrite Z by lia. reflexivity. }
    destruct (flt fh lo) eqn:E2.
    { unfold harmonic_targets at 1. fold fh. cbv zeta. rewrite (flt_fle_false _ _ E2). cbn [andb app]. apply IH. lia. }
    unfold harmonic_targets at 1. fold fh. cbv zeta.
    rewrite (flt_false_fle fh lo), (flt_false_fle hi fh) by auto using nneg_nn. cbn [andb].
    rewrite scatter_app, <- soft_add_scatter. destruct (soft_add _ _ _ _ c); cbn [obind]; auto. apply IH. lia.
  Qed.

  Variables (res : f32) (hmax : nat) (frame : list f32).
  Hypothesis Hmax : (Z.of_nat hmax < 2 ^ 64)%Z.
  Let freq b := fmul (n2f b) res.
  Definition peak_targets (b : nat) : list (nat * f32) :=
    let w0 := m_powf L (fmax (nth b frame f0) f0) p in
    if fle w0 f0 then [] else flat_map (harmonic_targets (freq b) w0) (seq 1 hmax).

  Lemma peaks_scatter : forall top c,
    Forall (fun x => fst x < length frame /\ fin (freq (fst x)) /\ pos (freq (fst x))) top ->
    fold_left (add_peak L P res lo hi sigma tuning decay p hmax frame) top (Ok c) =
    scatter (flat_map (fun x => peak_targets (fst x)) top) c.
  Proof.
    induction top as [|(b, s) top IH]; intros c H; [reflexivity|]. cbn [fold_left flat_map].
    destruct (Forall_inv H) as (Hb & Fb & Pb). apply Forall_inv_tail in H. cbn [fst] in *.
    rewrite scatter_app. unfold add_peak at 2. cbn [obind fst]. fold (freq b).
    rewrite (flt_fle_false _ _ Pb). unfold get. rewrite (nth_error_nth' frame f0) by auto. cbn [obind].
    unfold peak_targets at 1. cbv zeta. destruct (fle (m_powf L _ p) f0) eqn:E; [cbn; now apply IH|].
    rewrite harmonics_scatter by (auto using pos_nneg; lia).
    destruct (scatter _ c) as [c'| |]; cbn [obind]; [now apply IH | |].
    - clear. induction top; auto.
    - clear. induction top; auto.
  Qed.

  Lemma harmonic_targets_lt : forall f w0 h, Forall (fun x => fst x < 12) (harmonic_targets f w0 h).
  Proof. intros. unfold harmonic_targets. cbv zeta. destruct (_ && _); [apply soft_targets_lt|constructor]. Qed.
  Lemma peak_targets_lt : forall b, Forall (fun x => fst x < 12) (peak_targets b).
  Proof.
    intros b. unfold peak_targets. cbv zeta. destruct (fle _ f0); [constructor|].
    apply Forall_flat_map, Forall_forall. intros h _. apply harmonic_targets_lt.
  Qed.
End Frame.

(** ** Local maxima *)
Section Peaks.
  Variable rate fft : nat.
  Hypothesis Hrate : (Z.of_nat rate < 2 ^ 32)%Z.
  Hypothesis Hfft : 0 < fft /\ (Z.of_nat fft < 2 ^ 64)%Z.
  Let res := fdiv (n2f rate) (n2f fft).
  Let freq k := fmul (n2f k) res.
  Variables (lo hi : f32) (m : list f32).
  Hypothesis Nlo : nn lo.
  Hypothesis Nhi : nn hi.

  Definition is_peak_bin (b : nat) : bool :=
    fle lo (freq b) && fle (freq b) hi && negb (fle (nth b m f0) (nth (b - 1) m f0)) && negb (flt (nth b m f0) (nth (b + 1) m f0)).

  Lemma local_maxima_filter : forall n a, (Z.of_nat (a + n) <= 2 ^ 64)%Z ->
    local_maxima res lo hi m (seq a n) = map (fun b => (b, nth b m f0)) (filter is_peak_bin (seq a n)).
  Proof.
    induction n as [|n IH]; intros a H; [reflexivity|]. cbn [seq local_maxima filter]. fold (freq a).
    destruct (freq_ok rate fft Hrate Hfft a ltac:(lia)) as (Na & _). fold res in Na. fold (freq a) in Na.
    destruct (flt (freq a) lo) eqn:E1.
    { unfold is_peak_bin at 1. rewrite (flt_fle_false _ _ E1). cbn [andb]. apply IH. lia. }
    change (fgt (freq a) hi) with (flt hi (freq a)). destruct (flt hi (freq a)) eqn:E2.
    { assert (Z : forall k, a <= k -> (Z.of_nat k < 2 ^ 64)%Z -> is_peak_bin k = false).
      { intros k Hk Hk'. unfold is_peak_bin. pose proof (freq_mono rate fft Hrate Hfft a k Hk Hk') as M. fold res in M. fold (freq a) (freq k) in M.
        rewrite (flt_fle_false hi (freq k)) by (eapply flt_fle_trans; eauto). now rewrite andb_false_r. }
      rewrite Z by lia. assert (G : filter is_peak_bin (seq (S a) n) = []).
      { apply filter_none. intros k Hk. apply in_seq in Hk. apply Z; lia. }
      now rewrite G. }
    unfold is_peak_bin at 1. rewrite (flt_false_fle (freq a) lo), (flt_false_fle hi (freq a)) by auto. cbn [andb].
    destruct (fle (nth a m f0) (nth (a - 1) m f0)), (flt (nth a m f0) (nth (a + 1) m f0)); cbn [orb andb negb map];
      rewrite IH by lia; reflexivity.
  Qed.
End Peaks.

(** ** Whitening *)
Lemma whitened_ok : forall frame bins, Forall (within 50) frame ->
  length (whitened frame bins) = length frame /\
  Forall (fun x => fle f0 x = true /\ fle x (z2f 20) = true) (whitened frame bins).
Proof.
  intros frame bins W. unfold whitened. cbv zeta. set (half := _ / 2). split; [now rewrite map_length, seq_length|].
  apply Forall_map, Forall_forall. intros i I. apply in_seq in I.
  assert (U : Forall (upto 50) (map (fun x => fmax x f0) frame)).
  { apply Forall_map. eapply Forall_impl; [|exact W]. intros x Wx. apply within_upto; [|apply fmax_ge_r; reflexivity].
    destruct (fmax_case x f0) as [-> | ->]; auto. apply within_0. }
  set (r := Nat.min (i + half) (length frame - 1)).
  pose proof (prefix_diff 50 _ (i - half) (r + 1) ltac:(lia) U ltac:(lia) ltac:(rewrite map_length; lia)) as D. cbv zeta in D.
  set (d := fsub _ _) in *.
  assert (L1 : fle f1 (n2f (r + 1 - (i - half))) = true) by (apply (z2f_mono 1); lia).
  assert (M : upto 76 (fdiv d (fmax (n2f (r + 1 - (i - half))) f1))).
  { replace (fmax (n2f (r + 1 - (i - half))) f1) with (n2f (r + 1 - (i - half))).
    - apply upto_div_count; [lia|exact D|lia].
    - unfold fmax. destruct (fle_nn _ _ L1) as (A & B). change (fisnan f1) with false. unfold fisnan. rewrite B.
      now rewrite (fle_flt_false _ _ L1). }
  set (mean := fdiv d _) in *.
  assert (E1 : upto 76 (lit 2305843 (-61))).
  { apply upto_mono with 0%Z; [lia|]. apply in01_upto. split; reflexivity. }
  pose proof (upto_add 76 mean _ ltac:(lia) M E1) as S.
  assert (Ps : pos (fadd mean (lit 2305843 (-61)))).
  { apply (flt_fle_trans f0 (lit 2305843 (-61))); [reflexivity|]. rewrite fadd_comm. apply fadd_ge_l; [reflexivity|now apply upto_nneg in M|].
    rewrite fadd_comm. eapply nneg_nn, upto_nneg; exact S. }
  assert (Fx : fin (fmax (nth i frame f0) f0) /\ nneg (fmax (nth i frame f0) f0)).
  { assert (Q : upto 50 (fmax (nth i frame f0) f0)).
    { rewrite Forall_forall in U. apply U. apply in_map_iff. exists (nth i frame f0). split; [reflexivity|]. apply nth_In. lia. }
    split; [eapply upto_fin; eauto | eapply upto_nneg; eauto]. }
  assert (V : nneg (fdiv (fmax (nth i frame f0) f0) (fadd mean (lit 2305843 (-61))))).
  { apply fdiv_nneg; [apply Fx|exact Ps|]. apply fdiv_nn_fin; [apply Fx|eapply upto_fin; exact S|exact Ps]. }
  split.
  - destruct (fmin_case (fdiv (fmax (nth i frame f0) f0) (fadd mean (lit 2305843 (-61)))) (z2f 20)) as [-> | ->]; [exact V|reflexivity].
  - apply fmin_le_r. reflexivity.
Qed.
