(** Time smoothing and harmonic masks of the key features: properties (src/features/chroma/extractor.rs). *)
From Coq Require Import Reals Lra Lia.
From Flocq Require Import Core.
From Verif Require Import Rust F32 F32Facts F32More FloatSums ListFacts Sorting NoveltyProofs Bounds Libm Onsets
  Hpss HpssProofs Chroma KeyFeatures HarmonicMaskProofs.
Close Scope R_scope.

(** ** C62: smoothing a spectrogram over time *)

(** Margin 0 and the empty spectrogram change nothing; otherwise frames of unequal length, or without bins, are rejected. *)
Theorem C62_outcomes : forall spec margin,
  (spec = [] \/ margin = 0 -> smooth_time spec margin = Ok spec) /\
  (spec <> [] -> 0 < margin ->
    (smooth_time spec margin = Err InvalidInput <-> ~ exists n, 0 < n /\ Forall (fun f => length f = n) spec) /\
    smooth_time spec margin <> Panic).
Proof.
  intros spec margin. split.
  - intros [->| ->]; unfold smooth_time; [reflexivity|]. rewrite orb_true_r. reflexivity.
  - intros N M. assert (NE : (length spec =? 0) = false) by (destruct spec; [congruence|reflexivity]).
    assert (NM : (margin =? 0) = false) by (apply Nat.eqb_neq; lia).
    unfold smooth_time. rewrite NE, NM. cbn [orb]. destruct (check_shape_err spec) as [E|[n E]]; rewrite E; cbn [obind].
    + split; [|discriminate]. split; [intros _ (n & P & S)|reflexivity].
      rewrite (check_shape_run spec n N P S) in E. discriminate.
    + apply check_shape_ok in E as (P & _ & S). split; [|discriminate]. split; [discriminate|]. intros C. exfalso. apply C. eauto.
Qed.

(** Every smoothed value is finite and non-negative, and close to the mean of the frames at most [margin] away.  The
    error is relative to the sum of everything up to the end of the window, not to the window. *)
Theorem C62_average : forall k spec nb margin, (0 <= k <= 100)%Z -> spec <> [] -> 0 < nb -> Forall (fun f => length f = nb) spec -> 0 < margin ->
  (Z.of_nat (length spec) <= 2 ^ 22)%Z -> Forall (Forall (upto k)) spec ->
  exists r, smooth_time spec margin = Ok r /\ length r = length spec /\ Forall (fun f => length f = nb) r /\
    forall t b, t < length spec -> b < nb ->
      let v := nth b (nth t r []) f0 in
      let bin j := nth b (nth j spec []) f0 in
      let sum l := fold_right (fun j s => (B2R (bin j) + s)%R) 0%R l in
      let win := filter (fun j => (t - margin <=? j) && (j <=? t + margin)) (seq 0 (length spec)) in
      let past := seq 0 (Nat.min (t + margin + 1) (length spec)) in
      upto (k + 26) v /\ 0 < length win /\
      (Rabs (B2R v - sum win / INR (length win))
       <= sum past * (16 * INR (length past + 1) * bpow radix2 (-24)) / INR (length win) + bpow radix2 (-148))%R.
Proof.
  intros k spec nb margin K N P S M L H. rewrite (smooth_time_run spec nb margin N P S M).
  destruct (tabulate_shaped (length spec) nb (fun t b =>
    let start := t - margin in
    let stop := Nat.min (t + margin + 1) (length spec) in
    fdiv (fsub (nth stop (prefix_sums (column spec b)) f0) (nth start (prefix_sums (column spec b)) f0))
      (n2f (Nat.max (stop - start) 1)))) as [Lr Sr].
  eexists. split; [reflexivity|]. split; [exact Lr|]. split; [exact Sr|]. intros t b T B v bin sum win past.
  assert (Ev : v = cell (tabulate (length spec) nb (fun t b =>
    let start := t - margin in
    let stop := Nat.min (t + margin + 1) (length spec) in
    fdiv (fsub (nth stop (prefix_sums (column spec b)) f0) (nth start (prefix_sums (column spec b)) f0))
      (n2f (Nat.max (stop - start) 1)))) t b) by reflexivity.
  rewrite cell_tabulate in Ev by assumption. cbv zeta in Ev.
  assert (C := smooth_cell spec nb margin k t b S ltac:(lia) H L T B). cbv zeta in C. rewrite <- Ev in C.
  destruct C as (C1 & C2 & C3). split; [exact C1|].
  assert (Sm : forall l, sum l = Rsum (map bin l)).
  { intros l. unfold sum, Rsum. induction l as [|j l IH]; [reflexivity|]. cbn [map fold_right]. rewrite IH. reflexivity. }
  assert (W : window margin t (length spec) = win) by (apply window_filter; exact T).
  rewrite W in C2, C3. rewrite map_length in C2, C3.
  split; [rewrite C2; lia|]. rewrite !Sm. unfold past at 2. rewrite seq_length.
  replace (map bin past) with (firstn (Nat.min (t + margin + 1) (length spec)) (column spec b)).
  - exact C3.
  - unfold past. change (firstn ?n ?l) with (firstn n (skipn 0 l)). rewrite <- map_nth_slice by (unfold column; rewrite map_length; lia).
    apply map_ext_in. intros j J. apply in_seq in J. unfold column, bin.
    rewrite (nth_indep (map _ spec) f0 (nth b [] f0)) by (rewrite map_length; lia).
    rewrite (map_nth (fun row => nth b row f0)). reflexivity.
Qed.

(** The smoothed value need not lie between the smallest and the largest value of its window: after one loud frame the
    running prefix sum no longer registers the quiet ones, and a constant bin is smoothed to zero. *)
Theorem C62_range_refuted : exists spec r, Forall (fun f => length f = 1) spec /\ Forall (Forall (upto 25)) spec /\
  smooth_time spec 1 = Ok r /\
  (forall j, 1 <= j <= 5 -> feq (nth 0 (nth j spec []) f0) f1 = true) /\
  (forall t, 2 <= t <= 4 -> feq (nth 0 (nth t r []) f1) f0 = true).
Proof.
  set (spec := map (fun z => [z2f z]) [33554432; 1; 1; 1; 1; 1]%Z).
  assert (S : Forall (fun f => length f = 1) spec) by (repeat constructor).
  assert (B : match smooth_time spec 1 with
    | Ok r => forallb (fun t => feq (nth 0 (nth t r []) f1) f0) [2; 3; 4] | _ => false end = true) by (vm_compute; reflexivity).
  destruct (smooth_time spec 1) as [r| |] eqn:E; try discriminate. exists spec, r. split; [exact S|]. split.
  - unfold spec. apply Forall_map. repeat (constructor; [constructor; [apply upto_check; [lia|vm_compute; reflexivity]|constructor]|]). constructor.
  - split; [exact E|]. split.
    + intros j J. assert (j = 1 \/ j = 2 \/ j = 3 \/ j = 4 \/ j = 5) as C by lia. clear - C.
      repeat (destruct C as [-> |C]; [vm_compute; reflexivity|]). subst. vm_compute. reflexivity.
    + intros t T. rewrite forallb_forall in B. apply B. cbn. lia.
Qed.

(** Two loud frames: 30, 10, 20, 0 smoothed with margin 1 (times 10). *)
Example C62_case : omap (map (map (fun x => f2i32 (fmul x (z2f 10))))) (smooth_time (map (fun z => [z2f z]) [30; 10; 20; 0]%Z) 1)
  = Ok [[200]; [200]; [100]; [100]]%Z.
Proof. vm_compute. reflexivity. Qed.

(** ** C63: harmonic masks *)

Lemma nth_cell : forall s f b, nth b (nth f s []) f0 = cell s f b.
Proof. reflexivity. Qed.

Lemma max_nneg : forall z, nneg z -> fmax z f0 = z.
Proof.
  intros z Z. unfold fmax, fisnan. rewrite (nneg_nn _ Z). cbn [is_nan f0]. rewrite (fle_flt_false _ _ Z). reflexivity.
Qed.
Lemma max_upto : forall k z, upto k z -> fmax z f0 = z.
Proof. intros k z Z. eapply max_nneg, upto_nneg, Z. Qed.

(** The time mask keeps the shape and scales every magnitude by a factor in [0,1]:
    h^p / (h^p + r^p + 1e-12), where h is the smoothed value and r the part of x above it.  The powers must not overflow. *)
Theorem C63_time_mask : forall k L spec nb margin power, (0 <= k <= 100)%Z -> spec <> [] -> 0 < nb -> Forall (fun f => length f = nb) spec ->
  (Z.of_nat (length spec) <= 2 ^ 22)%Z -> Forall (Forall (upto k)) spec ->
  let p := fmax power f1 in
  (forall x, upto (k + 26) x -> upto 125 (m_powf L x p)) ->
  exists r s, time_mask L spec margin power = Ok r /\ smooth_time spec margin = Ok s /\
    length r = length spec /\ Forall (fun f => length f = nb) r /\
    forall t b, t < length spec -> b < nb ->
      let x := nth b (nth t spec []) f0 in
      let y := nth b (nth t r []) f0 in
      let h := nth b (nth t s []) f0 in
      let hp := m_powf L h p in
      let rp := m_powf L (fmax (fsub x h) f0) p in
      fle f0 y = true /\ fle y x = true /\
      y = fmul x (fdiv hp (fadd (fadd hp rp) (lit 2305843 (-61)))).
Proof.
  intros k L spec nb margin power K N P S Len H p Hp.
  assert (SM : exists s, smooth_time spec margin = Ok s /\ length s = length spec /\ Forall (fun f => length f = nb) s /\
    forall t b, t < length spec -> b < nb -> upto (k + 26) (cell s t b)).
  { destruct margin as [|m].
    - exists spec. split; [apply C62_outcomes; auto|]. split; [reflexivity|]. split; [exact S|]. intros t b T B. apply (upto_mono k); [lia|].
      unfold cell. assert (I : In (nth t spec []) spec) by (apply nth_In; exact T).
      rewrite Forall_forall in S, H. specialize (S _ I). specialize (H _ I). rewrite Forall_forall in H. apply H, nth_In. lia.
    - destruct (C62_average k spec nb (Datatypes.S m) K N P S ltac:(lia) Len H) as (s & E & L1 & L2 & C).
      exists s. split; [exact E|]. split; [exact L1|]. split; [exact L2|]. intros t b T B. apply (C t b T B). }
  destruct SM as (s & E & L1 & L2 & C).
  assert (NE : (length spec =? 0) = false) by (destruct spec; [congruence|reflexivity]).
  unfold time_mask. rewrite NE, (check_shape_run spec nb N P S). cbn [obind]. rewrite E. cbn [obind]. fold p.
  set (g := fun t b => fmul (fmax (cell spec t b) f0) (mask_value L p (fmax (cell s t b) f0) (fmax (fsub (fmax (cell spec t b) f0) (fmax (cell s t b) f0)) f0))).
  exists (tabulate (length spec) nb g), s. destruct (tabulate_shaped (length spec) nb g) as [T1 T2].
  split; [reflexivity|]. split; [reflexivity|]. split; [exact T1|]. split; [exact T2|]. intros t b T B. cbv zeta.
  rewrite !nth_cell, cell_tabulate by assumption.
  pose proof (C t b T B) as Uh.
  assert (Ux : upto k (cell spec t b)).
  { unfold cell. assert (I : In (nth t spec []) spec) by (apply nth_In; assumption).
    rewrite Forall_forall in S, H. specialize (S _ I). specialize (H _ I). rewrite Forall_forall in H. apply H, nth_In. lia. }
  unfold g. rewrite (max_upto _ _ Uh), (max_upto _ _ Ux).
  assert (Ur : upto (k + 26) (fmax (fsub (cell spec t b) (cell s t b)) f0)).
  { apply upto_rise; [apply (upto_mono k); [lia|exact Ux]|eapply upto_nneg, Uh]. }
  pose proof (mask_01 L p _ _ (Hp _ Uh) (Hp _ Ur)) as M01.
  pose proof (masked_le _ _ (upto_fin _ _ Ux) (upto_nneg _ _ Ux) M01) as [Q1 Q2]. split; [exact Q1|]. split; [exact Q2|reflexivity].
Qed.

(** The median mask: what it returns for each kind of input.  It panics exactly when the band limits handed to clamp are
    inverted, that is when fmin + 1 exceeds the Nyquist frequency. *)
Theorem C63_median_outcomes : forall L spec rate fft fmin_hz fmax_hz step tm fm power,
  let r := median_mask L spec rate fft fmin_hz fmax_hz step tm fm power in
  (spec = [] -> r = Ok []) /\
  (spec <> [] ->
    (r = Err InvalidInput <-> ~ exists n, 0 < n /\ Forall (fun f => length f = n) spec) /\
    ((exists n, 0 < n /\ Forall (fun f => length f = n) spec) ->
      (rate = 0 \/ fft = 0 -> r = Ok spec) /\
      (rate <> 0 -> fft <> 0 ->
        (r = Panic <-> fle (fadd (fmax fmin_hz (z2f 20)) f1) (fdiv (n2f rate) f2) = false)))).
Proof.
  intros L spec rate fft fmin_hz fmax_hz step tm fm power r. split; [intros ->; reflexivity|]. intros N.
  assert (NE : (length spec =? 0) = false) by (destruct spec; [congruence|reflexivity]).
  subst r. unfold median_mask. rewrite NE. destruct (check_shape_err spec) as [E|[n E]]; rewrite E; cbn [obind].
  - split.
    + split; [intros _ (n & P & S)|reflexivity]. rewrite (check_shape_run spec n N P S) in E. discriminate.
    + intros (n & P & S). rewrite (check_shape_run spec n N P S) in E. discriminate.
  - apply check_shape_ok in E as (P & _ & S). split.
    + split; [|intros C; exfalso; apply C; eauto]. unfold mask_band, fclamp.
      destruct ((rate =? 0) || (fft =? 0)); [discriminate|]. destruct (fle _ _); [|discriminate].
      cbn [obind]. destruct (_ <=? _)%Z; discriminate.
    + intros _. split.
      * intros [->| ->]; rewrite ?orb_true_r; reflexivity.
      * intros R F. apply Nat.eqb_neq in R, F. rewrite R, F. cbn [orb]. unfold mask_band, fclamp.
        destruct (fle _ _); cbn [obind]; [|tauto]. split; [|discriminate]. destruct (_ <=? _)%Z; discriminate.
Qed.

(** At 150 samples per second and the 100 Hz lower limit used by the analysis the mask panics on any spectrogram. *)
Theorem C63_low_rate_refuted : forall L spec step tm fm power fft, 0 < fft ->
  spec <> [] -> (exists n, 0 < n /\ Forall (fun f => length f = n) spec) ->
  median_mask L spec 150 fft (z2f 100) (z2f 5000) step tm fm power = Panic.
Proof.
  intros L spec step tm fm power fft F N S.
  destruct (C63_median_outcomes L spec 150 fft (z2f 100) (z2f 5000) step tm fm power) as [_ H].
  destruct (H N) as [_ H2]. apply (H2 S); try lia. vm_compute. reflexivity.
Qed.

(** [v] is the upper median of [w]. *)
Definition upper_median_of (v : f32) (w : list f32) : Prop :=
  In v w /\ 2 * length (filter (fun x => flt x v) w) <= length w /\ length w < 2 * length (filter (fun x => fle x v) w).

(** Inside the band every magnitude x (0 if negative or not finite) becomes x * H^p / (H^p + P^p + 1e-12), where H is the
    median over time of the same bin in the sampled frames and P the median over the neighbouring bins of the sampled
    frame; the result lies between 0 and x.  Bins outside the band become 0. *)
Theorem C63_median_mask : forall k L spec nb rate fft fmin_hz fmax_hz step tm fm power,
  (0 <= k <= 125)%Z -> spec <> [] -> 0 < nb -> Forall (fun f => length f = nb) spec -> rate <> 0 -> fft <> 0 ->
  Forall (Forall (fun x => fisfin x = true -> fle x (lit 1 k) = true)) spec ->
  let p := fmax power f1 in
  (forall x, upto k x -> upto 125 (m_powf L x p)) ->
  let lo := fmax fmin_hz (z2f 20) in
  let nyq := fdiv (n2f rate) f2 in
  fle (fadd lo f1) nyq = true ->
  let hi := fclamp_val fmax_hz (fadd lo f1) nyq in
  let res := fdiv (n2f rate) (n2f fft) in
  let first := Z.to_nat (Z.max 0 (Z.min (f2isize (ffloor (fdiv lo res))) (Z.of_nat nb))) in
  let last := Z.to_nat (Z.max 0 (Z.min (f2isize (fceil (fdiv hi res))) (Z.of_nat nb))) in
  let s := Nat.max step 1 in
  first < last ->
  exists r, median_mask L spec rate fft fmin_hz fmax_hz step tm fm power = Ok r /\
    length r = length spec /\ Forall (fun f => length f = nb) r /\
    forall t b, t < length spec -> b < nb ->
      let at_ i j := let x := nth j (nth i spec []) f0 in if fisfin x then fmax x f0 else f0 in
      let y := nth b (nth t r []) f0 in
      if (first <=? b) && (b <? last) then
        fle f0 y = true /\ fle y (at_ t b) = true /\
        exists H P,
          upper_median_of H (map (fun i => at_ (i * s) b)
            (filter (fun i => (t / s - tm <=? i) && (i <=? t / s + tm)) (seq 0 ((length spec + s - 1) / s)))) /\
          upper_median_of P (map (fun j => at_ (t / s * s) (first + j))
            (filter (fun j => (b - first - fm <=? j) && (j <=? b - first + fm)) (seq 0 (last - first)))) /\
          y = fmul (at_ t b) (fdiv (m_powf L H p) (fadd (fadd (m_powf L H p) (m_powf L P p)) (lit 2305843 (-61))))
      else y = f0.
Proof.
  intros k L spec nb rate fft fmin_hz fmax_hz step tm fm power K N P S HR HF Hs p Hp lo nyq Hlo hi res first last s Hfl.
  assert (NE : (length spec =? 0) = false) by (destruct spec; [congruence|reflexivity]).
  assert (Hs1 : 0 < s) by (subst s; lia).
  assert (Hlast : last <= nb) by (subst last; lia).
  set (rows := step_by s spec).
  set (at_ := fun i j => clean (cell spec i j)).
  assert (Rows : rows = map (fun i => nth (i * s) spec []) (seq 0 ((length spec + s - 1) / s))) by (apply step_by_nth; exact Hs1).
  set (nds := (length spec + s - 1) / s) in *.
  assert (Lrows : length rows = nds) by (rewrite Rows, map_length, seq_length; reflexivity).
  set (g := fun t bin => if (first <=? bin) && (bin <? first + (last - first)) then
      fmul (clean (cell spec t bin)) (mask_value L p
        (fmax (median_mid (map (fun k' => clean (cell rows k' (first + (bin - first)))) (window tm (Nat.min (t / s) (nds - 1)) nds))) f0)
        (fmax (median_mid (map (fun b' => clean (cell rows (Nat.min (t / s) (nds - 1)) (first + b'))) (window fm (bin - first) (last - first)))) f0))
    else f0).
  assert (RUN : median_mask L spec rate fft fmin_hz fmax_hz step tm fm power = Ok (tabulate (length spec) nb g)).
  { unfold median_mask. rewrite NE, (check_shape_run spec nb N P S). cbn [obind].
    apply Nat.eqb_neq in HR, HF. rewrite HR, HF. cbn [orb]. unfold mask_band, fclamp. fold lo. fold nyq. rewrite Hlo.
    cbn [obind fst snd]. fold hi. fold res.
    destruct (Z.leb_spec (Z.max 0 (Z.min (f2isize (fceil (fdiv hi res))) (Z.of_nat nb))) (Z.max 0 (Z.min (f2isize (ffloor (fdiv lo res))) (Z.of_nat nb)))) as [C|_].
    - exfalso. apply Z2Nat.inj_le in C; [|lia|lia]. fold first last in C. lia.
    - fold first. fold last. fold s. fold p. fold rows. rewrite Lrows. reflexivity. }
  rewrite RUN. clear RUN. exists (tabulate (length spec) nb g). destruct (tabulate_shaped (length spec) nb g) as [T1 T2].
  split; [reflexivity|]. split; [exact T1|]. split; [exact T2|]. intros t b T B.
  intros at_' y. assert (Ey : y = g t b) by (unfold y; rewrite nth_cell; apply cell_tabulate; assumption).
  clearbody y. subst y. unfold g. clear g T1 T2. replace (first + (last - first)) with last by lia.
  destruct ((first <=? b) && (b <? last)) eqn:Eb; [|reflexivity].
  apply andb_prop in Eb as [B1 B2]. apply Nat.leb_le in B1. apply Nat.ltb_lt in B2.
  change at_' with at_. change (clean (cell spec t b)) with (at_ t b).
  (* the sampled frame *)
  assert (Tn : t / s < nds).
  { unfold nds. pose proof (Nat.div_mod t s ltac:(lia)). pose proof (Nat.mod_upper_bound t s ltac:(lia)).
    apply Nat.div_le_lower_bound; [lia|]. nia. }
  replace (Nat.min (t / s) (nds - 1)) with (t / s) by lia.
  assert (RC : forall i j, i < nds -> clean (cell rows i j) = at_ (i * s) j).
  { intros i j Hi. unfold at_, cell. do 2 f_equal. rewrite Rows. rewrite (nth_map_seq _ (fun i => nth (i * s) spec [])) by exact Hi. reflexivity. }
  assert (Up : forall i j, i < length spec -> j < nb -> upto k (at_ i j)).
  { intros i j Hi Hj. unfold at_. destruct (clean_ok (cell spec i j)) as [F0 N0].
    apply (upto_le k _ (lit 1 k)); [exact N0| |apply TempogramProofs.upto_lit; lia].
    unfold clean. assert (I : In (nth i spec []) spec) by (apply nth_In; exact Hi).
    rewrite Forall_forall in S, Hs. specialize (S _ I). specialize (Hs _ I). rewrite Forall_forall in Hs.
    assert (J : In (cell spec i j) (nth i spec [])) by (apply nth_In; lia). specialize (Hs _ J).
    assert (Z0 : fle f0 (lit 1 k) = true) by (eapply upto_nneg, TempogramProofs.upto_lit; lia).
    destruct (fisfin (cell spec i j)) eqn:Ff; [|exact Z0]. destruct (fmax_case (cell spec i j) f0) as [Q|Q]; rewrite Q; auto. }
  assert (Mul : forall i, i < nds -> i * s < length spec).
  { intros i Hi. unfold nds in Hi. pose proof (Nat.div_mod (length spec + s - 1) s ltac:(lia)).
    pose proof (Nat.mod_upper_bound (length spec + s - 1) s ltac:(lia)). nia. }
  set (tw := map (fun k' => clean (cell rows k' (first + (b - first)))) (window tm (t / s) nds)).
  set (fw := map (fun b' => clean (cell rows (t / s) (first + b'))) (window fm (b - first) (last - first))).
  assert (Etw : tw = map (fun i => at_ (i * s) b) (filter (fun i => (t / s - tm <=? i) && (i <=? t / s + tm)) (seq 0 nds))).
  { unfold tw. rewrite window_filter by exact Tn. apply map_ext_in. intros i I. apply filter_In in I as [I _]. apply in_seq in I.
    replace (first + (b - first)) with b by lia. apply RC. lia. }
  assert (Efw : fw = map (fun j => at_ (t / s * s) (first + j)) (filter (fun j => (b - first - fm <=? j) && (j <=? b - first + fm)) (seq 0 (last - first)))).
  { unfold fw. rewrite window_filter by lia. apply map_ext_in. intros j _. apply RC. exact Tn. }
  assert (Ptw : Forall (upto k) tw).
  { rewrite Etw. apply Forall_map, Forall_forall. intros i I. apply filter_In in I as [I _]. apply in_seq in I. apply Up; [apply Mul; lia|exact B]. }
  assert (Pfw : Forall (upto k) fw).
  { rewrite Efw. apply Forall_map, Forall_forall. intros j I. apply filter_In in I as [I _]. apply in_seq in I. apply Up; [apply Mul; exact Tn|lia]. }
  assert (nnw : forall w, Forall (upto k) w -> Forall (fun x => nn x) w).
  { intros w Hw. eapply Forall_impl; [|exact Hw]. intros x X. eapply fin_nn, upto_fin, X. }
  assert (Ntw : tw <> []).
  { rewrite Etw. intros C. apply map_eq_nil in C. assert (I : In (t / s) (filter (fun i => (t / s - tm <=? i) && (i <=? t / s + tm)) (seq 0 nds))).
    { apply filter_In. split; [apply in_seq; lia|]. apply andb_true_intro. split; apply Nat.leb_le; lia. }
    rewrite C in I. exact I. }
  assert (Nfw : fw <> []).
  { rewrite Efw. intros C. apply map_eq_nil in C. assert (I : In (b - first) (filter (fun j => (b - first - fm <=? j) && (j <=? b - first + fm)) (seq 0 (last - first)))).
    { apply filter_In. split; [apply in_seq; lia|]. apply andb_true_intro. split; apply Nat.leb_le; lia. }
    rewrite C in I. exact I. }
  pose proof (median_mid_spec tw Ntw (nnw _ Ptw)) as M1. pose proof (median_mid_spec fw Nfw (nnw _ Pfw)) as M2. cbv zeta in M1, M2.
  assert (U1 : upto k (median_mid tw)) by (rewrite Forall_forall in Ptw; apply Ptw, M1).
  assert (U2 : upto k (median_mid fw)) by (rewrite Forall_forall in Pfw; apply Pfw, M2).
  rewrite (max_upto _ _ U1), (max_upto _ _ U2).
  pose proof (mask_01 L p _ _ (Hp _ U1) (Hp _ U2)) as M01.
  pose proof (Up t b T B) as Ux.
  destruct (masked_le _ _ (upto_fin _ _ Ux) (upto_nneg _ _ Ux) M01) as [Q1 Q2].
  split; [exact Q1|]. split; [exact Q2|]. exists (median_mid tw), (median_mid fw).
  split; [rewrite <- Etw; exact M1|]. split; [rewrite <- Efw; exact M2|]. reflexivity.
Qed.

(** Large magnitudes make the mask NaN: squaring 2^70 overflows and infinity is divided by infinity. *)
Definition square : libm := {| m_powf := fun x _ => fmul x x; m_log10 := fun _ => f0; m_log2 := fun _ => f0;
  m_ln := fun _ => f0; m_exp := fun _ => f0; m_sin := fun _ => f0; m_cos := fun _ => f0 |}.
Theorem C63_huge_refuted : exists spec, Forall (Forall (fun x => fin x /\ fle f0 x = true)) spec /\
  omap (map (map fisnan)) (time_mask square spec 1 f2) = Ok [[true]; [true]] /\
  omap (map (map fisnan)) (median_mask square spec 1000 1 (z2f 100) (z2f 400) 1 1 1 f2) = Ok [[true]; [true]].
Proof.
  exists [[lit 1 70]; [lit 1 70]]. split; [repeat (constructor; [constructor; [split; vm_compute; reflexivity|constructor]|]); constructor|].
  split; vm_compute; reflexivity.
Qed.

(** A sustained bin (first) and a click (second) through both masks (in percent). *)
Example C63_case :
  omap (map (map (fun x => f2i32 (fmul x (z2f 100))))) (time_mask square (map (map z2f) [[1; 0]; [1; 4]; [1; 0]]%Z) 1 f2)
    = Ok [[100; 0]; [100; 80]; [100; 0]]%Z /\
  omap (map (map (fun x => f2i32 (fmul x (z2f 100)))))
    (median_mask square (map (map z2f) [[1; 0; 0; 0]; [1; 4; 4; 4]; [1; 0; 0; 0]]%Z) 1000 10 (z2f 20) (z2f 500) 1 1 1 f2)
    = Ok [[50; 0; 0; 0]; [5; 0; 0; 0]; [50; 0; 0; 0]]%Z.
Proof. split; vm_compute; reflexivity. Qed.

Print Assumptions C62_outcomes.
Print Assumptions C62_average.
Print Assumptions C62_range_refuted.
Print Assumptions C63_time_mask.
Print Assumptions C63_median_outcomes.
Print Assumptions C63_low_rate_refuted.
Print Assumptions C63_median_mask.
Print Assumptions C63_huge_refuted.
