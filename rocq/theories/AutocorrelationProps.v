(** C18: tempo candidates from the onset autocorrelation. *)
From Coq Require Import ZArith Bool List Arith Lia Sorted Reals.
From Flocq Require Import Core IEEE754.BinarySingleNaN.
From Verif Require Import Rust F32 F32Facts ListFacts Sorting SortingFacts PeakPicking PeakPickingSpec PeakPickingProofs
  Candidate Autocorrelation AutocorrelationProofs.
Import ListNotations.

(** Every candidate lies in the requested range and has a confidence in [0,1], whatever the
    FFT delivers (NaN and infinities included). *)
Theorem C18_range : forall F onsets rate hop mn mx cs, estimate_autocorr F onsets rate hop mn mx = Ok cs ->
  forall c, In c cs ->
  fle mn (c_bpm c) = true /\ fle (c_bpm c) mx = true /\
  fle f0 (c_conf c) = true /\ fle (c_conf c) f1 = true.
Proof.
  intros F onsets rate hop mn mx cs H c Hc.
  destruct (estimate_ok _ _ _ _ _ _ _ H) as [->|(_ & lo & hi & L & Hh & _ & _ & ->)]; [destruct Hc|].
  rewrite sort_desc_in, in_flat_map in Hc. destruct Hc as ((lag & v) & P & C).
  apply acf_candidate_in in C as (A & B & ->). cbn [c_bpm c_conf fst snd] in *.
  split; auto. split; auto.
  apply (peaks_iff _ lo hi lag v Hh L) in P as (_ & l & r & m & _ & N & _ & _).
  destruct (fgt _ eps10) eqn:G; [|apply in01_0]. apply ratio01.
  - apply (proj1 (Forall_forall _ _) (acf_nneg F (beat_signal onsets hop)) v). eapply nth_error_In; eauto.
  - eapply flt_fle_trans with (y := eps10); [reflexivity|]. now apply flt_fle.
Qed.
Print Assumptions C18_range.

(** The candidates come in order of decreasing confidence. *)
Theorem C18_sorted : forall F onsets rate hop mn mx cs, estimate_autocorr F onsets rate hop mn mx = Ok cs ->
  StronglySorted (fun a b => fle (c_conf b) (c_conf a) = true) cs.
Proof.
  intros F onsets rate hop mn mx cs H.
  destruct (estimate_ok _ _ _ _ _ _ _ H) as [->|(_ & lo & hi & L & Hh & _ & _ & E)]; [constructor|].
  rewrite E. apply sort_desc_sorted. apply Forall_forall. intros c Hc.
  apply nneg_nn. apply (C18_range _ _ _ _ _ _ _ H). rewrite E. now apply sort_desc_in.
Qed.
Print Assumptions C18_sorted.

(** The candidates are exactly the tempos of the strict, significant peaks of the
    autocorrelation between the two extreme lags (soundness for every signal, completeness
    for fewer than 2^31 frames); the confidence is the peak over the global maximum. *)
Definition is_candidate (F : fft_oracle) (onsets : list nat) (rate hop : nat) (mn mx : f32) (c : candidate) : Prop :=
  let acf := autocorr_fft F (beat_signal onsets hop) in
  exists lo hi lag v m,
    Z.of_nat lo = f2usize (fceil (fdiv (sixty_rate rate) (fmul mx (n2f hop)))) /\
    Z.of_nat hi = f2usize (ffloor (fdiv (sixty_rate rate) (fmul mn (n2f hop)))) /\
    hi < length acf /\ significant acf lo hi lag v /\ is_max0 acf m /\
    c_bpm c = fdiv (fmul (z2f 60) (n2f rate)) (fmul (n2f lag) (n2f hop)) /\
    fle mn (c_bpm c) = true /\ fle (c_bpm c) mx = true /\
    c_conf c = if flt eps10 m then fmin (fdiv v m) f1 else f0.

Theorem C18_sound : forall F onsets rate hop mn mx cs, estimate_autocorr F onsets rate hop mn mx = Ok cs ->
  forall c, In c cs -> is_candidate F onsets rate hop mn mx c.
Proof.
  intros F onsets rate hop mn mx cs H c Hc. unfold is_candidate.
  destruct (estimate_ok _ _ _ _ _ _ _ H) as [->|(_ & lo & hi & L & Hh & E1 & E2 & ->)]; [destruct Hc|].
  rewrite sort_desc_in, in_flat_map in Hc. destruct Hc as ((lag & v) & P & C).
  apply acf_candidate_in in C as (A & B & ->). cbn [c_bpm c_conf fst snd] in *.
  apply (peaks_iff _ lo hi lag v Hh L) in P. set (acf := autocorr_fft _ _) in *.
  exists lo, hi, lag, v, (fmax0 acf). split; auto. split; auto. split; auto. split; auto.
  split; [apply fmax0_spec|]. auto.
Qed.
Print Assumptions C18_sound.

Theorem C18_complete : forall F onsets rate hop mn mx cs, estimate_autocorr F onsets rate hop mn mx = Ok cs ->
  2 <= length onsets -> (Z.of_nat (length (beat_signal onsets hop)) < 2 ^ 31 - 1)%Z ->
  forall c, is_candidate F onsets rate hop mn mx c -> In c cs.
Proof.
  intros F onsets rate hop mn mx cs H Len Sz c (lo & hi & lag & v & m & E1 & E2 & Hh & P & M & Eb & A & B & Ec).
  set (acf := autocorr_fft F (beat_signal onsets hop)) in *.
  assert (LH : lo < hi) by (destruct P as (P & _); lia).
  assert (Hc : In c (flat_map (acf_candidate acf rate hop mn mx) (find_acf_peaks (slice acf lo (hi + 1)) lo))).
  { rewrite in_flat_map. exists (lag, v). split.
    - apply peaks_iff; auto. unfold acf. now rewrite acf_length.
    - apply acf_candidate_in. cbn [fst snd]. unfold lag_bpm, sixty_rate. rewrite <- Eb. split; auto. split; auto.
      destruct c as [b k]. cbn [c_bpm c_conf] in *. f_equal. rewrite Ec.
      destruct (is_max0_unique _ _ _ M (fmax0_spec acf)) as (U1 & U2).
      destruct (flt eps10 m) eqn:G.
      + unfold fgt. change (Bltb eps10 (fmax0 acf)) with (flt eps10 (fmax0 acf)).
        rewrite (flt_fle_trans _ _ _ G U1). f_equal. f_equal. apply fle_antisym_pos; auto.
        eapply flt_fle_trans with (y := eps10); [reflexivity|]. now apply flt_fle.
      + destruct (fgt (fmax0 acf) eps10) eqn:G'; auto.
        assert (flt eps10 m = true) by (eapply flt_fle_trans; [exact G'|exact U2]). congruence. }
  unfold estimate_autocorr in H.
  destruct (length onsets =? 0); [discriminate|]. destruct (rate =? 0); [discriminate|].
  destruct (hop =? 0); [discriminate|]. destruct (_ || _ || _); [discriminate|].
  destruct (Nat.ltb_spec (length onsets) 2); [lia|].
  destruct (_ <? 2); [discriminate|]. fold acf in H. rewrite <- E1, <- E2 in H.
  destruct (_ || _ || _) eqn:G.
  - exfalso. rewrite !orb_true_iff, !Z.leb_le in G. lia.
  - rewrite !Nat2Z.id in H. unfold slice_chk in H.
    replace ((lo <=? hi + 1) && (hi + 1 <=? length acf)) with true in H.
    + cbn [obind] in H. injection H as <-. now apply sort_desc_in.
    + symmetry. apply andb_true_intro. split; apply Nat.leb_le; lia.
Qed.
Print Assumptions C18_complete.

(** Which inputs are refused; nothing panics. *)
Theorem C18_outcomes : forall F onsets rate hop mn mx,
  let r := estimate_autocorr F onsets rate hop mn mx in
  (r = Err InvalidInput <->
     onsets = [] \/ rate = 0 \/ hop = 0 \/ fle mn f0 = true \/ fle mx f0 = true \/ fle mx mn = true) /\
  (r = Err ProcessingError -> 2 <= length onsets /\ forall o, In o onsets -> o < hop) /\
  (r = Err InvalidInput \/ r = Err ProcessingError \/ exists cs, r = Ok cs).
Proof.
  intros F onsets rate hop mn mx r. unfold r, estimate_autocorr. clear r.
  destruct onsets as [|o os] eqn:On; [cbn; repeat split; auto; discriminate|]. rewrite <- On.
  assert (N : length onsets <> 0) by (subst; discriminate). assert (N' : onsets <> []) by (subst; discriminate).
  clear On. destruct (Nat.eqb_spec (length onsets) 0); [lia|].
  destruct (Nat.eqb_spec rate 0); [repeat split; auto; discriminate|].
  destruct (Nat.eqb_spec hop 0); [repeat split; auto; discriminate|].
  unfold fge. change (Bleb mx mn) with (fle mx mn).
  destruct (fle mn f0) eqn:E1; [repeat split; auto; discriminate|].
  destruct (fle mx f0) eqn:E2; [repeat split; auto 6; discriminate|].
  destruct (fle mx mn) eqn:E3; [repeat split; auto 8; discriminate|]. cbn [orb].
  assert (NI : forall A (x : outcome A), x <> Err InvalidInput -> (x = Err InvalidInput <->
     onsets = [] \/ rate = 0 \/ hop = 0 \/ false = true \/ false = true \/ false = true)).
  { intros A x Hx. split; [now intros ->|]. intros [?|[?|[?|[?|[?|?]]]]]; congruence. }
  destruct (Nat.ltb_spec (length onsets) 2); [split; [apply NI; discriminate|]; split; [discriminate|]; eauto|].
  destruct (Nat.ltb_spec (list_max onsets / hop + 1) 2) as [Hm|Hm].
  { split; [apply NI; discriminate|]. split; auto. intros _. split; auto. intros q Q.
    assert (list_max onsets < hop) by (apply Nat.div_small_iff; lia).
    pose proof (proj1 (list_max_le onsets (list_max onsets)) (le_n _)) as Hq.
    rewrite Forall_forall in Hq. specialize (Hq q Q). lia. }
  set (acf := autocorr_fft _ _). set (a := f2usize (fceil _)). set (b := f2usize (ffloor _)).
  assert (Ha : (0 <= a)%Z) by apply f2usize_bounds. assert (Hb : (0 <= b)%Z) by apply f2usize_bounds.
  destruct ((b <=? a)%Z || _ || _) eqn:G; [split; [apply NI; discriminate|]; split; [discriminate|]; eauto|].
  rewrite !orb_false_iff, !Z.leb_gt in G.
  unfold slice_chk. replace ((Z.to_nat a <=? Z.to_nat b + 1) && (Z.to_nat b + 1 <=? length acf)) with true.
  - cbn [obind]. split; [apply NI; discriminate|]; split; [discriminate|]; eauto.
  - symmetry. apply andb_true_intro. split; apply Nat.leb_le; lia.
Qed.
Print Assumptions C18_outcomes.

(** Onsets every 4 frames (rate 8, hop 1: 120 BPM) with an FFT that delivers the exact
    autocorrelation: the search in [100,240] BPM finds 120 BPM.  The real FFT is replaced by
    a table here. *)
Definition table_fft (acf : list f32) : fft_oracle.
Proof.
  refine {| fft_forward := fun l => l;
            fft_inverse := fun l => firstn (length l) (map (fun x => (fmul x (n2f (length l)), f0)) acf)
                                    ++ repeat (f0, f0) (length l - length acf) |}.
  - reflexivity.
  - intros l. rewrite app_length, firstn_length, map_length, repeat_length. lia.
Defined.
Example C18_case :
  omap (map (fun c => (f2i32 (c_bpm c), f2i32 (fmul (c_conf c) (z2f 100)))))
    (estimate_autocorr (table_fft (map z2f [4; 0; 0; 0; 3; 0; 0; 0; 2; 0; 0; 0; 1]%Z)) [0; 4; 8; 12] 8 1 (z2f 90) (z2f 400))
  = Ok [(120, 75)]%Z.
Proof. vm_compute. reflexivity. Qed.
