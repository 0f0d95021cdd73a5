(** Proofs about the tuning estimate of src/features/chroma/extractor.rs. *)
From Coq Require Import ZArith Reals Lra.
From Flocq Require Import Core BinarySingleNaN.
From Verif Require Import Rust F32 F32Facts F32More ListFacts Libm Onsets NoveltyProofs Bounds TempoSpectra Chroma ChromaProofs ChromaProps
  KeyFeatures HarmonicMaskProofs ThresholdProofs HpcpProofs.
Local Open Scope nat_scope.

Lemma indexed : forall A (d : A) (l : list A), combine (seq 0 (length l)) l = map (fun b => (b, nth b l d)) (seq 0 (length l)).
Proof.
  intros A d l. assert (G : forall n l, combine (seq n (length l)) l = map (fun b => (b, nth (b - n) l d)) (seq n (length l))).
  { clear l. intros n l. revert n. induction l as [|x l IH]; intros n; [reflexivity|]. cbn [length seq combine map].
    rewrite Nat.sub_diag. cbn [nth]. f_equal. rewrite IH. apply map_ext_in. intros b Hb. apply in_seq in Hb.
    f_equal. replace (b - n) with (S (b - S n)) by lia. reflexivity. }
  rewrite G. apply map_ext. intros b. now rewrite Nat.sub_0_r.
Qed.

(** The running sums after a list of (frequency, magnitude) contributions. *)
Section Sums.
  Variable L : libm.
  Let semitone f := fadd (fmul (z2f 12) (m_log2 L (fdiv f (z2f 440)))) (z2f 57).
  Let angle f := fmul (fmul f2 f_pi) (fsub (semitone f) (fround (semitone f))).
  Let w m := m_powf L (fmax m f0) fhalf.
  Definition with_all (used : list (f32 * f32)) (a : tuning_sums) : tuning_sums :=
    {| ts_sin := fold_left fadd (map (fun x => fmul (w (snd x)) (m_sin L (angle (fst x)))) used) (ts_sin a);
       ts_cos := fold_left fadd (map (fun x => fmul (w (snd x)) (m_cos L (angle (fst x)))) used) (ts_cos a);
       ts_w := fold_left fadd (map (fun x => w (snd x)) used) (ts_w a) |}.
  Lemma with_all_app : forall u v a, with_all (u ++ v) a = with_all v (with_all u a).
  Proof. intros. unfold with_all. cbn [ts_sin ts_cos ts_w]. now rewrite !map_app, !fold_left_app. Qed.
  Lemma with_all_nil : forall a, with_all [] a = a.
  Proof. intros []. reflexivity. Qed.
  Lemma tuning_bin_all : forall f m a, tuning_bin L f m a = with_all (if fle (w m) f0 then [] else [(f, m)]) a.
  Proof.
    intros f m a. unfold tuning_bin. cbv zeta. change a4 with (z2f 440). fold (semitone f) (angle f) (w m).
    destruct (fle (w m) f0); [now rewrite with_all_nil|reflexivity].
  Qed.

  Variable rate fft : nat.
  Hypothesis Hrate : (Z.of_nat rate < 2 ^ 32)%Z.
  Hypothesis Hfft : 0 < fft /\ (Z.of_nat fft < 2 ^ 64)%Z.
  Let res := fdiv (n2f rate) (n2f fft).
  Let freq k := fmul (n2f k) res.
  Variables (lo hi : f32).
  Hypothesis (Nlo : nn lo) (Nhi : nn hi).
  Definition in_range (b : nat) : bool := fle lo (freq b) && fle (freq b) hi.

  Lemma past : forall n a, (Z.of_nat (a + n) <= 2 ^ 64)%Z -> flt hi (freq a) = true ->
    forall k, In k (seq a n) -> in_range k = false.
  Proof.
    intros n a H E k Hk. apply in_seq in Hk. unfold in_range.
    pose proof (freq_mono rate fft Hrate Hfft a k ltac:(lia) ltac:(lia)) as M. fold res in M. fold (freq a) (freq k) in M.
    rewrite (flt_fle_false hi (freq k)) by (eapply flt_fle_trans; eauto). now rewrite andb_false_r.
  Qed.
  Lemma range_cases : forall a, (Z.of_nat a < 2 ^ 64)%Z ->
    (flt (freq a) lo = true /\ in_range a = false) \/ (flt (freq a) lo = false /\ flt hi (freq a) = true) \/
    (flt (freq a) lo = false /\ flt hi (freq a) = false /\ in_range a = true).
  Proof.
    intros a H. destruct (freq_ok rate fft Hrate Hfft a ltac:(lia)) as (Na & _). fold res in Na. fold (freq a) in Na.
    unfold in_range. destruct (flt (freq a) lo) eqn:E1.
    - left. rewrite (flt_fle_false _ _ E1). auto.
    - right. destruct (flt hi (freq a)) eqn:E2; [left; auto|right].
      rewrite (flt_false_fle (freq a) lo), (flt_false_fle hi (freq a)) by auto. auto.
  Qed.

  Variable g : nat -> f32.
  Lemma band_peak_fold : forall n a p, (Z.of_nat (a + n) <= 2 ^ 64)%Z ->
    band_peak res lo hi (map (fun b => (b, g b)) (seq a n)) p = fold_left fmax (map g (filter in_range (seq a n))) p.
  Proof.
    induction n as [|n IH]; intros a p H; [reflexivity|]. cbn [seq map band_peak filter]. fold (freq a).
    change (fgt (freq a) hi) with (flt hi (freq a)).
    destruct (range_cases a ltac:(lia)) as [(E & R)|[(E & E')|(E & E' & R)]]; rewrite E; [rewrite R; apply IH; lia| |].
    - rewrite E'. change (if in_range a then a :: filter in_range (seq (S a) n) else filter in_range (seq (S a) n))
        with (filter in_range (seq a (S n))).
      rewrite (filter_none _ in_range (seq a (S n))); [reflexivity|]. now apply past.
    - rewrite E', R. cbn [map fold_left]. apply IH. lia.
  Qed.

  Variable thr : f32.
  Let keep b := in_range b && negb (flt (g b) thr) && negb (fle (w (g b)) f0).
  Lemma tuning_bins_all : forall n a s, (Z.of_nat (a + n) <= 2 ^ 64)%Z ->
    tuning_bins L res lo hi thr (map (fun b => (b, g b)) (seq a n)) s =
    with_all (map (fun b => (freq b, g b)) (filter keep (seq a n))) s.
  Proof.
    induction n as [|n IH]; intros a s H; [now rewrite with_all_nil|]. cbn [seq map tuning_bins filter]. fold (freq a).
    change (fgt (freq a) hi) with (flt hi (freq a)). destruct (flt (g a) thr) eqn:T.
    { assert (K : keep a = false) by (unfold keep; rewrite T; cbn [negb]; now rewrite andb_false_r). rewrite K. apply IH. lia. }
    destruct (range_cases a ltac:(lia)) as [(E & R)|[(E & E')|(E & E' & R)]]; rewrite E.
    - assert (K : keep a = false) by (unfold keep; now rewrite R). rewrite K. apply IH; lia.
    - rewrite E'. change (if keep a then a :: filter keep (seq (S a) n) else filter keep (seq (S a) n))
        with (filter keep (seq a (S n))).
      rewrite (filter_none _ keep (seq a (S n))); [now rewrite with_all_nil|]. intros k Hk. unfold keep.
      now rewrite (past (S n) a).
    - rewrite E', IH, tuning_bin_all by lia. unfold keep at 2. rewrite R, T. cbn [andb negb].
      destruct (fle (w (g a)) f0); cbn [negb map]; [now rewrite with_all_nil|].
      rewrite <- with_all_app. reflexivity.
  Qed.
End Sums.
