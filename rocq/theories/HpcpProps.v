(** C65: harmonic pitch class profiles. *)
From Coq Require Import ZArith Reals Lra Permutation.
From Flocq Require Import Core BinarySingleNaN.
From Verif Require Import Rust F32 F32Facts F32More ListFacts Libm Onsets NoveltyProofs Bounds Chroma ChromaProofs ChromaValueProofs ChromaProps L2Proofs
  KeyFeatures HarmonicMaskProofs ThresholdProofs HpcpProofs.
Local Open Scope nat_scope.

(** What Rust promises for select_nth_unstable_by followed by truncate(k): k of the elements, none of which scores below
    any of the others. *)
Definition select_ok (P : key_platform) : Prop := forall l k, 1 <= k <= length l -> Forall (fun x => nn (snd x)) l ->
  exists rest, Permutation l (p_select P l k ++ rest) /\ length (p_select P l k) = k /\
    forall a b, In a (p_select P l k) -> In b rest -> fle (snd b) (snd a) = true.

(** Bounds used for powf with exponents in [0.05,1] and for powi of numbers in [0,1]. *)
Definition hpcp_libm (L : libm) (P : key_platform) : Prop :=
  (forall k x p, (0 <= k <= 50)%Z -> upto k x -> fle (lit 13421773 (-28)) p = true -> fle p f1 = true -> upto k (m_powf L x p)) /\
  (forall d n, in01 d -> in01 (p_powi P d n)).

(** The bins used as peaks: between the band limits, above the lower neighbour and not below the upper one. *)
Definition peak_bin (curve : list f32) (freq : nat -> f32) (lo hi : f32) (b : nat) : Prop :=
  1 <= b /\ b + 1 < length curve /\ fle lo (freq b) = true /\ fle (freq b) hi = true /\
  flt (nth (b - 1) curve f0) (nth b curve f0) = true /\ fle (nth (b + 1) curve f0) (nth b curve f0) = true.

(** [top] consists of the [n] strongest peaks (all of them, if there are fewer). *)
Definition strongest (curve : list f32) (peak : nat -> Prop) (n : nat) (top : list nat) : Prop :=
  NoDup top /\ (forall b, In b top -> peak b) /\ length top <= n /\
  (length top < n -> forall b, peak b -> In b top) /\
  (forall b t, peak b -> ~ In b top -> In t top -> fle (nth b curve f0) (nth t curve f0) = true).

(** Content of one frame: class j collects, for each of the strongest peaks (of the whitened curve if whitening is on) with
    positive weight w = max(mag,0)^power, and for each harmonic h of it that is inside the band,
    w * (decay^(h-1) / h) * exp(-d^2/(2 sigma^2)), if the class is next to the harmonic's pitch class; then the vector is
    divided by its norm. *)
Theorem C65_content : forall L P q rate fft fmin_hz fmax_hz frame, select_ok P ->
  0 < rate -> (Z.of_nat rate < 2 ^ 32)%Z -> 0 < fft -> (Z.of_nat fft < 2 ^ 64)%Z -> (Z.of_nat (length frame) < 2 ^ 64)%Z ->
  (Z.of_nat (hp_harmonics q) < 2 ^ 64)%Z -> Forall (within 50) frame ->
  let freq k := fmul (n2f k) (fdiv (n2f rate) (n2f fft)) in
  let lo := fmax fmin_hz (z2f 20) in
  let hi := fmin fmax_hz (fdiv (n2f rate) f2) in
  let curve := if hp_whiten q && (3 <=? hp_whiten_bins q) then whitened frame (hp_whiten_bins q) else frame in
  let decay := fclamp_val (hp_decay q) f0 f1 in
  let power := fclamp_val (hp_power q) (lit 13421773 (-28)) f1 in
  let s := fmax (hp_sigma q) (lit 8796093 (-43)) in
  let w b := m_powf L (fmax (nth b frame f0) f0) power in
  let harmonic b h := fmul (freq b) (n2f h) in
  let pc f := frem_euclid (fsub (fadd (fmul (z2f 12) (m_log2 L (fdiv f (z2f 440)))) (z2f 57)) (hp_tuning q)) (z2f 12) in
  let nearest f := f2i32 (frem_euclid (fround (pc f)) (z2f 12)) in
  let weight f j :=
    let d0 := fabs (fsub (pc f) (z2f (Z.of_nat j))) in
    let d := fmin d0 (fsub (z2f 12) d0) in m_exp L (fdiv (fmul (fneg d) d) (fmul (fmul f2 s) s)) in
  flt lo hi = true ->
  exists top,
    strongest curve (peak_bin curve freq lo hi) (Nat.max 1 (hp_peaks q)) top /\
    let used := flat_map (fun b => map (pair b) (filter (fun h => fle lo (harmonic b h) && fle (harmonic b h) hi)
                                                  (seq 1 (Nat.max (hp_harmonics q) 1))))
                  (filter (fun b => negb (fle (w b) f0)) top) in
    let energy j := fold_left fadd
      (map (fun x : nat * nat => let (b, h) := x in
              fmul (fmul (w b) (fdiv (p_powi P decay (h - 1)) (n2f h))) (weight (harmonic b h) j))
         (filter (fun x : nat * nat => let (b, h) := x in
              existsb (fun o => ((nearest (harmonic b h) + o) mod 12 =? Z.of_nat j)%Z) [-1; 0; 1]%Z) used)) f0 in
    frame_to_hpcp L P q rate fft fmin_hz fmax_hz frame = Ok (divided_by_norm (map energy (seq 0 12))).
Proof.
  intros L P q rate fft fmin_hz fmax_hz frame HP R0 R1 F0 F1 Fl Hh W freq lo hi curve decay power s w harmonic pc nearest weight Band.
  assert (Nlo : nn lo /\ fle (z2f 20) lo = true).
  { unfold lo. split; [|apply fmax_ge_r; reflexivity]. eapply proj2, fle_nn. apply (fmax_ge_r fmin_hz (z2f 20)). reflexivity. }
  destruct Nlo as (Nlo & L20).
  destruct (nyq_nn rate R1) as (Fq & Nq).
  assert (Nhi : nn hi) by (apply fmin_nn; right; now apply fin_nn).
  assert (Lhi : fle hi (fdiv (n2f rate) f2) = true) by (apply fmin_le_r; now apply fin_nn).
  assert (Lc : length curve = length frame /\ Forall (fun x => nn x) curve).
  { unfold curve. destruct (_ && _).
    - destruct (whitened_ok frame (hp_whiten_bins q) W) as (A & B). split; auto. eapply Forall_impl; [|exact B].
      intros x (X & _). now apply fle_nn in X.
    - split; auto. eapply Forall_impl; [|exact W]. intros x. apply within_nn. }
  destruct Lc as (Lc & Nc).
  assert (Ncn : forall b, nn (nth b curve f0)).
  { intros b. destruct (Nat.lt_ge_cases b (length curve)); [|rewrite nth_overflow by lia; reflexivity].
    rewrite Forall_forall in Nc. now apply Nc, nth_In. }
  set (res := fdiv (n2f rate) (n2f fft)) in *.
  pose proof (local_maxima_filter rate fft R1 (conj F0 F1) lo hi curve Nlo Nhi (length frame - 1 - 1) 1 ltac:(lia)) as LM.
  fold res in LM. set (peaks := local_maxima res lo hi curve (seq 1 (length frame - 1 - 1))) in *.
  set (pk := is_peak_bin rate fft lo hi curve) in *.
  assert (PK : forall b, In b (filter pk (seq 1 (length frame - 1 - 1))) <-> peak_bin curve freq lo hi b).
  { intros b. rewrite filter_In, in_seq. unfold pk, is_peak_bin, peak_bin. fold res. fold (freq b).
    rewrite !andb_true_iff, !negb_true_iff. split.
    - intros (A & ((B & C) & D) & E). split; [lia|]. split; [lia|]. split; [exact B|]. split; [exact C|]. split.
      + now apply fle_false_flt.
      + now apply flt_false_fle.
    - intros (A & B & C & D & E & F). split; [lia|]. split; [split; [split|]|]; auto using flt_fle_false, fle_flt_false. }
  (* the selected peaks *)
  assert (SEL : exists top, strongest curve (peak_bin curve freq lo hi) (Nat.max 1 (hp_peaks q)) top /\
     (peaks = [] -> top = []) /\
     (peaks <> [] -> map fst (p_select P peaks (Nat.max 1 (Nat.min (hp_peaks q) (length peaks)))) = top)).
  { destruct (list_eq_dec Nat.eq_dec (map fst peaks) []) as [E|E].
    { apply map_eq_nil in E. exists []. split; [|split; [auto|congruence]]. split; [constructor|]. split; [intros b []|]. split; [cbn; lia|].
      split; [|intros b t _ _ []]. intros _ b Hb. exfalso. apply PK in Hb. rewrite E in LM. symmetry in LM. apply map_eq_nil in LM. rewrite LM in Hb. destruct Hb. }
    assert (Ne : peaks <> []) by (intros X; apply E; now rewrite X).
    assert (Lp : 1 <= length peaks) by (destruct peaks; [congruence|cbn; lia]).
    set (k := Nat.max 1 (Nat.min (hp_peaks q) (length peaks))).
    destruct (HP peaks k ltac:(unfold k; lia)) as (rest & Pm & Lk & Ord).
    { rewrite LM. apply Forall_map, Forall_forall. intros b _. apply Ncn. }
    assert (SN : forall x, In x peaks -> snd x = nth (fst x) curve f0).
    { intros x Hx. rewrite LM in Hx. apply in_map_iff in Hx as (b & <- & _). reflexivity. }
    assert (FS : map fst peaks = filter pk (seq 1 (length frame - 1 - 1))).
    { rewrite LM, map_map. cbn [fst]. apply map_id. }
    assert (Pf : Permutation (filter pk (seq 1 (length frame - 1 - 1))) (map fst (p_select P peaks k) ++ map fst rest)).
    { rewrite <- FS, <- map_app. now apply Permutation_map. }
    assert (ND : NoDup (map fst (p_select P peaks k) ++ map fst rest)).
    { eapply Permutation_NoDup; [exact Pf|]. apply NoDup_filter, seq_NoDup. }
    exists (map fst (p_select P peaks k)). split; [|split; [congruence|auto]].
    split. { revert ND. generalize (map fst rest). clear. induction (map fst (p_select P peaks k)) as [|x l IH]; intros r ND; [constructor|].
      apply NoDup_cons_iff in ND as (A & B). constructor; [|now apply (IH r)]. intros I. apply A, in_or_app. now left. }
    split. { intros b Hb. apply PK. eapply Permutation_in; [symmetry; exact Pf|]. apply in_or_app. now left. }
    rewrite map_length, Lk. split; [unfold k; lia|]. split.
    - intros Hk b Hb. assert (k = length peaks) by (unfold k in *; lia).
      pose proof (Permutation_length Pm) as PL. rewrite app_length, Lk in PL. assert (rest = []) by (apply length_zero_iff_nil; lia). subst rest.
      apply PK in Hb. eapply Permutation_in in Hb; [|exact Pf]. now rewrite app_nil_r in Hb.
    - intros b t Hb Nb Ht. apply PK in Hb. eapply Permutation_in in Hb; [|exact Pf]. apply in_app_or in Hb as [Hb|Hb]; [contradiction|].
      apply in_map_iff in Hb as (xb & <- & Ib). apply in_map_iff in Ht as (xt & <- & It). specialize (Ord _ _ It Ib).
      rewrite <- !SN; [exact Ord| |]; eapply Permutation_in; try (symmetry; exact Pm); apply in_or_app; auto. }
  destruct SEL as (top & ST & T0 & T1). exists top. split; [exact ST|]. cbv zeta.
  set (used := flat_map _ _).
  set (energy := fun j : nat => fold_left fadd _ f0).
  (* the vector *)
  assert (EN : forall j, fold_left fadd (map snd (filter (fun p => fst p =? j)
       (flat_map (peak_targets L P lo hi s (hp_tuning q) decay power res (Nat.max (hp_harmonics q) 1) frame) top))) f0 = energy j).
  { intros j. unfold energy. f_equal. unfold used. clear. induction top as [|b top IH]; [reflexivity|].
    cbn [flat_map filter]. rewrite filter_app, map_app, IH. unfold peak_targets at 1. fold (w b). cbv zeta.
    destruct (fle (w b) f0); cbn [negb app]; [reflexivity|]. cbn [flat_map]. rewrite filter_app, map_app. f_equal.
    generalize (seq 1 (Nat.max (hp_harmonics q) 1)). intros hs. induction hs as [|h hs IHh]; [reflexivity|].
    cbn [flat_map filter]. rewrite filter_app, map_app, IHh. unfold harmonic_targets at 1. cbv zeta. fold (freq b). fold (harmonic b h).
    destruct (fle lo (harmonic b h) && fle (harmonic b h) hi); [|reflexivity].
    rewrite soft_targets_class. cbn [map filter].
    change (near (f2i32 _) j) with (existsb (fun o => ((nearest (harmonic b h) + o) mod 12 =? Z.of_nat j)%Z) [-1; 0; 1]%Z).
    destruct (existsb _ _); reflexivity. }
  assert (DZ : divided_by_norm (repeat f0 12) = repeat f0 12).
  { unfold divided_by_norm. cbv zeta. replace (fgt _ _) with false; [reflexivity|]. vm_compute. reflexivity. }
  unfold frame_to_hpcp. destruct (Nat.eqb_spec (length frame) 0) as [E0|E0].
  { (* no bins: no peaks *)
    cbn [orb]. assert (peaks = []) by (unfold peaks; rewrite E0; reflexivity).
    rewrite <- DZ. do 2 f_equal. rewrite (T0 H) in EN. cbn [flat_map filter map fold_left] in EN.
    rewrite (map_ext _ _ (fun j => eq_sym (EN j))). reflexivity. }
  destruct (Nat.eqb_spec rate 0); [lia|]. destruct (Nat.eqb_spec fft 0); [lia|]. cbn [orb]. cbv zeta. fold res lo hi.
  rewrite (flt_fle_false _ _ Band). fold curve. fold peaks. destruct (Nat.eqb_spec (length peaks) 0) as [Ep|Ep].
  { apply length_zero_iff_nil in Ep. rewrite <- DZ. do 2 f_equal. rewrite (T0 Ep) in EN. cbn [flat_map filter map fold_left] in EN.
    rewrite (map_ext _ _ (fun j => eq_sym (EN j))). reflexivity. }
  assert (Ne : peaks <> []) by (intros X; apply Ep; now rewrite X). specialize (T1 Ne).
  set (sel := p_select P peaks _) in *. fold s decay power.
  rewrite peaks_scatter; auto; [|lia|].
  2:{ apply Forall_forall. intros x Hx. fold (freq (fst x)).
      assert (Ib : In (fst x) top) by (rewrite <- T1; now apply in_map).
      destruct ST as (_ & ST & _). destruct (ST _ Ib) as (A & B & C & D & _). split; [lia|]. split.
      - eapply (fin_between (z2f 20) _ (fdiv (n2f rate) f2)); [reflexivity|exact Fq| |].
        + eapply fle_trans; [exact L20|exact C].
        + eapply fle_trans; [exact D|exact Lhi].
      - apply (flt_fle_trans f0 (z2f 20)); [reflexivity|]. eapply fle_trans; [exact L20|exact C]. }
  replace (flat_map (fun x => peak_targets L P lo hi s (hp_tuning q) decay power res (Nat.max (hp_harmonics q) 1) frame (fst x)) sel)
    with (flat_map (peak_targets L P lo hi s (hp_tuning q) decay power res (Nat.max (hp_harmonics q) 1) frame) top).
  2:{ rewrite <- T1. clear. induction sel as [|x l IH]; [reflexivity|]. cbn [map flat_map]. now rewrite IH. }
  set (tg := flat_map _ top) in *.
  destruct (scatter_ok tg (repeat f0 12)) as (c & E & Lk & N).
  { rewrite repeat_length. unfold tg. apply Forall_flat_map, Forall_forall. intros b _. apply peak_targets_lt. }
  rewrite repeat_length in Lk. rewrite E. cbn [omap obind].
  assert (Ec : c = map energy (seq 0 12)).
  { rewrite (list_nth_12 c Lk). apply map_ext_in. intros j Hj. apply in_seq in Hj. rewrite N, <- EN. f_equal.
    do 12 (destruct j as [|j]; [reflexivity|]). lia. }
  rewrite Ec. rewrite <- divided_by_norm_eq. reflexivity.
Qed.
Print Assumptions C65_content.

(** No bins, no sample rate, no FFT size, an empty band, or no local maximum: the zero vector. *)
Theorem C65_nothing : forall L P q rate fft fmin_hz fmax_hz frame,
  (Z.of_nat rate < 2 ^ 32)%Z -> (Z.of_nat fft < 2 ^ 64)%Z -> (Z.of_nat (length frame) < 2 ^ 64)%Z -> Forall (within 50) frame ->
  let freq k := fmul (n2f k) (fdiv (n2f rate) (n2f fft)) in
  let lo := fmax fmin_hz (z2f 20) in
  let hi := fmin fmax_hz (fdiv (n2f rate) f2) in
  let curve := if hp_whiten q && (3 <=? hp_whiten_bins q) then whitened frame (hp_whiten_bins q) else frame in
  rate = 0 \/ fft = 0 \/ frame = [] \/ flt lo hi = false \/ (forall b, ~ peak_bin curve freq lo hi b) ->
  frame_to_hpcp L P q rate fft fmin_hz fmax_hz frame = Ok (repeat f0 12).
Proof.
  intros L P q rate fft fmin_hz fmax_hz frame R1 F1 Fl W freq lo hi curve H. unfold frame_to_hpcp.
  destruct (Nat.eqb_spec (length frame) 0) as [E0|E0]; [reflexivity|].
  destruct (Nat.eqb_spec rate 0) as [E1|E1]; [reflexivity|]. destruct (Nat.eqb_spec fft 0) as [E2|E2]; [reflexivity|].
  cbn [orb]. cbv zeta. fold lo hi. destruct (fle hi lo) eqn:Eb; [reflexivity|]. fold curve.
  assert (Nlo : nn lo) by (eapply proj2, fle_nn; apply (fmax_ge_r fmin_hz (z2f 20)); reflexivity).
  destruct (nyq_nn rate R1) as (Fq & Nq).
  assert (Nhi : nn hi) by (apply fmin_nn; right; now apply fin_nn).
  assert (Ncn : forall b, nn (nth b curve f0)).
  { intros b. destruct (Nat.lt_ge_cases b (length curve)); [|rewrite nth_overflow by lia; reflexivity].
    assert (Nc : Forall (fun x => nn x) curve).
    { unfold curve. destruct (_ && _).
      - destruct (whitened_ok frame (hp_whiten_bins q) W) as (A & B). eapply Forall_impl; [|exact B].
        intros x (X & _). now apply fle_nn in X.
      - eapply Forall_impl; [|exact W]. intros x. apply within_nn. }
    rewrite Forall_forall in Nc. now apply Nc, nth_In. }
  assert (Lc : length curve = length frame).
  { unfold curve. destruct (_ && _); [|reflexivity]. now apply (whitened_ok frame (hp_whiten_bins q) W). }
  destruct H as [H|[H|[H|[H|H]]]]; try contradiction.
  - subst frame. now cbn in E0.
  - rewrite (fle_false_flt hi lo) in H; auto. discriminate.
  - rewrite (local_maxima_filter rate fft R1 ltac:(lia) lo hi curve Nlo Nhi) by lia.
    rewrite filter_none; [reflexivity|]. intros b Hb. apply in_seq in Hb.
    destruct (is_peak_bin rate fft lo hi curve b) eqn:E; [|reflexivity]. exfalso. apply (H b).
    unfold is_peak_bin in E. fold (freq b) in E. rewrite !andb_true_iff, !negb_true_iff in E. destruct E as (((A & B) & C) & D).
    split; [lia|]. split; [lia|]. split; [exact A|]. split; [exact B|]. split; [now apply fle_false_flt | now apply flt_false_fle].
Qed.
Print Assumptions C65_nothing.

(** Twelve numbers in [0,1]; for magnitudes up to 2^30, of length 1 (squared, within 2^-18) unless practically silent. *)
Theorem C65_range : forall L P q rate fft fmin_hz fmax_hz frame, select_ok P -> chroma_libm L -> hpcp_libm L P ->
  (Z.of_nat rate < 2 ^ 32)%Z -> (Z.of_nat fft < 2 ^ 64)%Z -> (Z.of_nat (length frame) < 2 ^ 64)%Z ->
  (Z.of_nat (hp_harmonics q) < 2 ^ 64)%Z -> within 13 (hp_tuning q) -> fisnan (hp_decay q) = false -> fisnan (hp_power q) = false ->
  Forall (within 50) frame ->
  exists c, frame_to_hpcp L P q rate fft fmin_hz fmax_hz frame = Ok c /\ length c = 12 /\ Forall in01 c /\
    (Forall (within 30) frame ->
     (Rabs (fold_right (fun x s => B2R x * B2R x + s) 0 c - 1) <= bpow radix2 (-18))%R \/
     Forall (fun x => fle x (lit 14411519 (-57)) = true) c).
Proof.
  intros L P q rate fft fmin_hz fmax_hz frame HP HL (Hw & Hp) R1 F1 Fl Hh T Nd Npw W.
  assert (Z : forall r : outcome (list f32), r = Ok (repeat f0 12) -> exists c, r = Ok c /\ length c = 12 /\ Forall in01 c /\
    (Forall (within 30) frame ->
     (Rabs (fold_right (fun x s => B2R x * B2R x + s) 0 c - 1) <= bpow radix2 (-18))%R \/
     Forall (fun x => fle x (lit 14411519 (-57)) = true) c)).
  { intros r ->. exists (repeat f0 12). split; [reflexivity|]. split; [reflexivity|]. split.
    - repeat constructor; apply in01_0.
    - intros _. right. repeat constructor. }
  pose proof (C65_nothing L P q rate fft fmin_hz fmax_hz frame R1 F1 Fl W) as NT. cbv zeta in NT.
  destruct (Nat.eq_dec rate 0) as [E1|E1]; [apply Z, NT; auto|].
  destruct (Nat.eq_dec fft 0) as [E2|E2]; [apply Z, NT; auto|].
  destruct (flt (fmax fmin_hz (z2f 20)) (fmin fmax_hz (fdiv (n2f rate) f2))) eqn:Eb; [|apply Z, NT; auto 6]. clear Z NT.
  pose proof (C65_content L P q rate fft fmin_hz fmax_hz frame HP ltac:(lia) R1 ltac:(lia) F1 Fl Hh W) as C. cbv zeta in C.
  destruct (C Eb) as (top & _ & E). clear C. rewrite E. clear E.
  set (lo := fmax fmin_hz (z2f 20)) in *. set (hi := fmin fmax_hz (fdiv (n2f rate) f2)) in *.
  set (power := fclamp_val (hp_power q) _ f1). set (decay := fclamp_val (hp_decay q) f0 f1).
  destruct (nyq_nn rate R1) as (Fq & Nq).
  assert (Lhi : fle hi (fdiv (n2f rate) f2) = true) by (apply fmin_le_r; now apply fin_nn).
  assert (L20 : fle (z2f 20) lo = true) by (apply fmax_ge_r; reflexivity).
  assert (Wq : within 33 (fdiv (n2f rate) f2)).
  { apply within_mono with (33 - 1)%Z; [lia|]. apply within_div; auto using rate_within; try reflexivity; [lia|].
    rewrite Rabs_right; vm_compute B2R; simpl; lra. }
  assert (W20 : within 33 (z2f 20)).
  { split; [reflexivity|]. destruct (z2f_exact 20 ltac:(lia)) as (_ & V). rewrite V, Rabs_right; simpl; lra. }
  assert (Dc : in01 decay) by (now apply in01_clamp).
  assert (Pw : fle (lit 13421773 (-28)) power = true /\ fle power f1 = true).
  { split; [apply fclamp_val_ge | apply fclamp_val_le]; auto. }
  set (en := fun j : nat => _).
  assert (EN : forall k, (0 <= k <= 50)%Z -> Forall (within k) frame -> forall j, In j (seq 0 12) -> within (k + 25) (en j) /\ nneg (en j)).
  { intros k K Wk j Hj. apply in_seq in Hj. unfold en. match goal with |- within _ (fold_left fadd ?l f0) /\ _ => set (l0 := l) end.
    assert (A : Forall (upto k) l0).
    { apply Forall_map, Forall_forall. intros (b, h) Hx. apply filter_In in Hx as (Hx & _). apply in_flat_map in Hx as (b' & Hb & Hx).
      apply in_map_iff in Hx as (h' & Ex & Hx). injection Ex as -> ->. apply filter_In in Hx as (Hs & Hx). apply andb_true_iff in Hx as (X1 & X2).
      apply in_seq in Hs. set (f := fmul (fmul (n2f b) _) (n2f h)) in *.
      assert (U : upto k (m_powf L (fmax (nth b frame f0) f0) power)).
      { apply Hw; [lia| |apply Pw|apply Pw]. apply within_upto; [|apply fmax_ge_r; reflexivity].
        assert (Wb : within k (nth b frame f0)).
        { destruct (Nat.lt_ge_cases b (length frame)); [|rewrite nth_overflow by lia; apply within_0].
          rewrite Forall_forall in Wk. now apply Wk, nth_In. }
        destruct (fmax_case (nth b frame f0) f0) as [-> | ->]; auto. apply within_0. }
      apply upto_scale; [lia|apply upto_scale; [lia|exact U|]|].
      - assert (P1 : in01 (p_powi P decay (h - 1))) by (now apply Hp).
        assert (L1 : fle f1 (n2f h) = true) by (apply (z2f_mono 1); lia).
        assert (Fh : fin (n2f h)) by (apply z2f_fin; lia).
        apply fdiv_le_1; [apply P1|apply (flt_fle_trans f0 f1); auto|exact Fh|]. eapply fle_trans; [apply P1|exact L1].
      - apply (soft_weight_01 L (hp_sigma q) (semitone L (hp_tuning q) f)); auto; [|lia].
        apply semitone_fin'; auto; [eapply fle_trans; eauto|].
        apply (within_le 33 (z2f 20) (fdiv (n2f rate) f2)); auto; eapply fle_trans; eauto. }
    split.
    - change (fold_left fadd l0 f0) with (fsum l0). apply within_sum; [lia|]. eapply Forall_impl; [|exact A]. intros x. apply upto_within.
    - change (fold_left fadd l0 f0) with (fsum l0). apply fsum_nneg. eapply Forall_impl; [|exact A]. intros x. apply upto_nneg. }
  clearbody en. exists (divided_by_norm (map en (seq 0 12))). split; [reflexivity|]. rewrite divided_by_norm_eq.
  assert (Ll : length (map en (seq 0 12)) = 12) by (now rewrite map_length, seq_length).
  assert (Fin : Forall (fun x => fin x) (map en (seq 0 12))).
  { apply Forall_map, Forall_forall. intros j Hj. eapply within_fin, (EN 50%Z); auto. lia. }
  assert (Nng : Forall (fun x => nneg x) (map en (seq 0 12))).
  { apply Forall_map, Forall_forall. intros j Hj. apply (EN 50%Z); auto. lia. }
  assert (W55 : Forall (within 30) frame -> Forall (within 55) (map en (seq 0 12))).
  { intros Wf. apply Forall_map, Forall_forall. intros j Hj. apply (EN 30%Z); auto. lia. }
  generalize dependent (map en (seq 0 12)). intros l Ll Fin Nng W55.
  split; [now rewrite unit_or_keep_length|]. split; [now apply unit_or_keep_01|]. intros Wf. apply unit_or_keep_cases; auto. lia.
Qed.
Print Assumptions C65_range.

(** Whole spectrogram: empty input gives nothing, an empty first frame or unequal frame lengths are refused, otherwise
    there is one vector per frame, computed from that frame alone in the band 100..5000 Hz, and one sum of squares per frame. *)
Theorem C65_extract : forall L P q rate fft spec, select_ok P -> chroma_libm L -> hpcp_libm L P ->
  (Z.of_nat rate < 2 ^ 32)%Z -> (Z.of_nat fft < 2 ^ 64)%Z -> (Z.of_nat (hp_harmonics q) < 2 ^ 64)%Z ->
  within 13 (hp_tuning q) -> fisnan (hp_decay q) = false -> fisnan (hp_power q) = false ->
  (spec = [] -> extract_hpcp L P q rate fft spec = Ok ([], [])) /\
  (spec <> [] -> (exists f, In f spec /\ (f = [] \/ length f <> length (nth 0 spec []))) ->
    extract_hpcp L P q rate fft spec = Err InvalidInput) /\
  (forall n, 0 < n -> (Z.of_nat n < 2 ^ 64)%Z -> spec <> [] -> Forall (fun f => length f = n /\ Forall (within 50) f) spec ->
    exists pcs, extract_hpcp L P q rate fft spec = Ok (pcs, map (fun f => fold_left fadd (map (fun x => fmul x x) f) f0) spec) /\
      length pcs = length spec /\ Forall (fun c => length c = 12 /\ Forall in01 c) pcs /\
      (forall i, i < length spec -> frame_to_hpcp L P q rate fft (z2f 100) (z2f 5000) (nth i spec []) = Ok (nth i pcs []))).
Proof.
  intros L P q rate fft spec HP HL HH R1 F1 Hh T Nd Np. unfold extract_hpcp. split; [intros ->; reflexivity|]. split.
  - intros Hs (f & If & B). destruct (Nat.eqb_spec (length spec) 0) as [E|E]; [now apply length_zero_iff_nil in E|].
    destruct (check_shape_err spec) as [Ec|(n & Ec)]; rewrite Ec; [reflexivity|exfalso].
    destruct (check_shape_ok _ _ Ec) as (Pn & En & Sh). unfold shape in Sh. rewrite Forall_forall in Sh. specialize (Sh f If).
    destruct B as [B|B]; [subst f; simpl in Sh; lia|congruence].
  - intros n Pn Bn Hs F. destruct (Nat.eqb_spec (length spec) 0) as [E|E]; [now apply length_zero_iff_nil in E|].
    rewrite (check_shape_run spec n Hs Pn) by (unfold shape; eapply Forall_impl; [|exact F]; cbv beta; tauto).
    cbn [obind]. rewrite Forall_forall in F.
    assert (X : forall f, In f spec -> exists c, frame_to_hpcp L P q rate fft chroma_fmin chroma_fmax f = Ok c /\
        length c = 12 /\ Forall in01 c).
    { intros f If. destruct (F f If) as (Lf & Wf).
      destruct (C65_range L P q rate fft chroma_fmin chroma_fmax f HP HL HH R1 F1 ltac:(rewrite Lf; exact Bn) Hh T Nd Np Wf)
        as (c & C & Lc & Ic & _). exists c. auto. }
    destruct (oseq_map_total _ _ (frame_to_hpcp L P q rate fft chroma_fmin chroma_fmax) spec) as (pcs & Ep).
    { intros a Ia. destruct (X a Ia) as (c & C & _). eauto. }
    rewrite Ep. cbn [obind]. exists pcs. split; [reflexivity|].
    pose proof Ep as Ep'. apply oseq_Ok in Ep'.
    assert (Lp : length pcs = length spec) by (apply (f_equal (@length _)) in Ep'; rewrite !map_length in Ep'; congruence).
    split; [exact Lp|]. split.
    + apply Forall_forall. intros c Ic. destruct (oseq_in _ _ _ _ _ _ Ep Ic) as (a & Ia & Ea).
      destruct (X a Ia) as (c' & C & Q). rewrite C in Ea. injection Ea as ->. exact Q.
    + intros i Hi. apply (f_equal (fun l => nth i l Panic)) in Ep'.
      rewrite (nth_indep _ _ (frame_to_hpcp L P q rate fft chroma_fmin chroma_fmax [])) in Ep' by (rewrite map_length; lia).
      rewrite map_nth in Ep'. change (z2f 100) with chroma_fmin. change (z2f 5000) with chroma_fmax. rewrite Ep'.
      rewrite (nth_indep _ _ (Ok [])) by (rewrite map_length; lia). apply map_nth.
Qed.
Print Assumptions C65_extract.

Lemma one_minus_01 : forall w, in01 w -> in01 (fsub f1 w).
Proof.
  intros w H. pose proof (in01_fin _ H) as F. destruct H as (A & B).
  assert (N : nn (fsub f1 w)) by (apply fsub_nn_fin; auto; reflexivity).
  split; [now apply fsub_nneg|apply fsub_le_l; auto; reflexivity].
Qed.

(** Bass blend: each vector is (1-w) times the full-band profile plus w times the profile of the bass band, which uses at
    most twelve peaks, divided by its norm; w is the given weight limited to [0,1]. *)
Theorem C65_bass : forall L P q rate fft blo bhi bw spec, select_ok P -> chroma_libm L -> hpcp_libm L P ->
  (Z.of_nat rate < 2 ^ 32)%Z -> (Z.of_nat fft < 2 ^ 64)%Z -> (Z.of_nat (hp_harmonics q) < 2 ^ 64)%Z ->
  within 13 (hp_tuning q) -> fisnan (hp_decay q) = false -> fisnan (hp_power q) = false -> fisnan bw = false ->
  let w := if flt bw f0 then f0 else if flt f1 bw then f1 else bw in
  let bass_q := {| hp_sigma := hp_sigma q; hp_tuning := hp_tuning q; hp_peaks := Nat.max 1 (Nat.min (hp_peaks q) 12);
                   hp_harmonics := hp_harmonics q; hp_decay := hp_decay q; hp_power := hp_power q;
                   hp_whiten := hp_whiten q; hp_whiten_bins := hp_whiten_bins q |} in
  (spec = [] -> extract_hpcp_bass L P q rate fft blo bhi bw spec = Ok ([], [])) /\
  (spec <> [] -> (exists f, In f spec /\ (f = [] \/ length f <> length (nth 0 spec []))) ->
    extract_hpcp_bass L P q rate fft blo bhi bw spec = Err InvalidInput) /\
  (forall n, 0 < n -> (Z.of_nat n < 2 ^ 64)%Z -> spec <> [] -> Forall (fun f => length f = n /\ Forall (within 50) f) spec ->
    exists pcs, extract_hpcp_bass L P q rate fft blo bhi bw spec =
        Ok (pcs, map (fun f => fold_left fadd (map (fun x => fmul x x) f) f0) spec) /\
      length pcs = length spec /\ Forall (fun c => length c = 12 /\ Forall in01 c) pcs /\
      (forall i, i < length spec -> exists full bass,
        frame_to_hpcp L P q rate fft (z2f 100) (z2f 5000) (nth i spec []) = Ok full /\
        frame_to_hpcp L P bass_q rate fft blo bhi (nth i spec []) = Ok bass /\
        nth i pcs [] = divided_by_norm
          (map (fun j => fadd (fmul (fsub f1 w) (nth j full f0)) (fmul w (nth j bass f0))) (seq 0 12)))).
Proof.
  intros L P q rate fft blo bhi bw spec HP HL HH R1 F1 Hh T Nd Np Nw w bq.
  assert (Iw : in01 w) by (apply (in01_clamp bw Nw)).
  pose proof (one_minus_01 w Iw) as Iw'. unfold extract_hpcp_bass. split; [intros ->; reflexivity|]. split.
  - intros Hs (f & If & B). destruct (Nat.eqb_spec (length spec) 0) as [E|E]; [now apply length_zero_iff_nil in E|].
    destruct (check_shape_err spec) as [Ec|(n & Ec)]; rewrite Ec; [reflexivity|exfalso].
    destruct (check_shape_ok _ _ Ec) as (Pn & En & Sh). unfold shape in Sh. rewrite Forall_forall in Sh. specialize (Sh f If).
    destruct B as [B|B]; [subst f; simpl in Sh; lia|congruence].
  - intros n Pn Bn Hs F. destruct (Nat.eqb_spec (length spec) 0) as [E|E]; [now apply length_zero_iff_nil in E|].
    rewrite (check_shape_run spec n Hs Pn) by (unfold shape; eapply Forall_impl; [|exact F]; cbv beta; tauto).
    cbn [obind]. cbv zeta. rewrite Forall_forall in F. fold bq. change (fclamp_val bw f0 f1) with w.
    match goal with |- context [oseq (map ?h spec)] => set (g := h) end.
    assert (X : forall f, In f spec -> exists full bass, frame_to_hpcp L P q rate fft chroma_fmin chroma_fmax f = Ok full /\
        frame_to_hpcp L P bq rate fft blo bhi f = Ok bass /\ g f = Ok (blend w full bass) /\
        length (blend w full bass) = 12 /\ Forall in01 (blend w full bass)).
    { intros f If. destruct (F f If) as (Lf & Wf).
      destruct (C65_range L P q rate fft chroma_fmin chroma_fmax f HP HL HH R1 F1 ltac:(rewrite Lf; exact Bn) Hh T Nd Np Wf)
        as (full & C & Lc & Ic & _).
      destruct (C65_range L P bq rate fft blo bhi f HP HL HH R1 F1 ltac:(rewrite Lf; exact Bn) Hh T Nd Np Wf)
        as (bass & C' & Lc' & Ic' & _).
      exists full, bass. split; [exact C|]. split; [exact C'|]. split; [unfold g; rewrite C, C'; reflexivity|].
      unfold blend. rewrite unit_or_keep_length, map_length, seq_length. split; [reflexivity|].
      assert (U : forall j, upto 1 (fadd (fmul (fsub f1 w) (nth j full f0)) (fmul w (nth j bass f0)))).
      { intros j. apply (upto_add 0); [lia| |]; apply in01_upto, in01_mul; auto.
        - destruct (Nat.lt_ge_cases j (length full)); [|rewrite nth_overflow by lia; apply in01_0].
          rewrite Forall_forall in Ic. now apply Ic, nth_In.
        - destruct (Nat.lt_ge_cases j (length bass)); [|rewrite nth_overflow by lia; apply in01_0].
          rewrite Forall_forall in Ic'. now apply Ic', nth_In. }
      apply unit_or_keep_01; apply Forall_map, Forall_forall; intros j _; [eapply upto_fin|eapply upto_nneg]; apply (U j). }
    destruct (oseq_map_total _ _ g spec) as (pcs & Ep).
    { intros a Ia. destruct (X a Ia) as (? & ? & _ & _ & C & _). eauto. }
    rewrite Ep. cbn [obind]. exists pcs. split; [reflexivity|].
    pose proof Ep as Ep'. apply oseq_Ok in Ep'.
    assert (Lp : length pcs = length spec) by (apply (f_equal (@length _)) in Ep'; rewrite !map_length in Ep'; congruence).
    split; [exact Lp|]. split.
    + apply Forall_forall. intros c Ic. destruct (oseq_in _ _ _ _ _ _ Ep Ic) as (a & Ia & Ea).
      destruct (X a Ia) as (? & ? & _ & _ & C & Q). rewrite C in Ea. injection Ea as <-. exact Q.
    + intros i Hi. apply (f_equal (fun l => nth i l Panic)) in Ep'.
      rewrite (nth_indep _ _ (g [])) in Ep' by (rewrite map_length; lia).
      rewrite map_nth in Ep'. change (z2f 100) with chroma_fmin. change (z2f 5000) with chroma_fmax.
      rewrite (nth_indep _ _ (Ok [])) in Ep' by (rewrite map_length; lia). rewrite (map_nth Ok) in Ep'.
      destruct (X (nth i spec []) ltac:(now apply nth_In)) as (full & bass & C & C' & G & _).
      exists full, bass. split; [exact C|]. split; [exact C'|]. rewrite G in Ep'.
      assert (Eb : nth i pcs [] = blend w full bass) by congruence. rewrite Eb. unfold blend.
      rewrite <- divided_by_norm_eq. reflexivity.
Qed.
Print Assumptions C65_bass.

(** ** Concrete case *)

(** Insertion into a list ordered by decreasing score, and the [k] best by sorting. *)
Fixpoint put (a : nat * f32) (l : list (nat * f32)) : list (nat * f32) :=
  match l with
  | [] => [a]
  | b :: r => if flt (snd a) (snd b) then b :: put a r else a :: b :: r
  end.
Definition by_sorting : key_platform := {| p_atan2 := fun _ _ => f0; p_powi := fun d n => match n with 0 => f1 | _ => d end;
  p_select := fun l k => firstn k (fold_right put [] l) |}.
Lemma put_perm : forall a l, Permutation (a :: l) (put a l).
Proof.
  intros a. induction l as [|b l IH]; [apply Permutation_refl|]. cbn [put]. destruct (flt _ _); [|apply Permutation_refl].
  eapply Permutation_trans; [apply perm_swap|]. now constructor.
Qed.
Lemma put_sorted : forall a l, nn (snd a) -> Forall (fun x => nn (snd x)) l ->
  ForallOrdPairs (fun x y => fle (snd y) (snd x) = true) l -> ForallOrdPairs (fun x y => fle (snd y) (snd x) = true) (put a l).
Proof.
  intros a. induction l as [|b l IH]; intros Na N S0; [repeat constructor|]. inversion N; subst. inversion S0; subst. cbn [put].
  destruct (flt (snd a) (snd b)) eqn:E.
  - constructor; [|now apply IH]. eapply Permutation_Forall; [apply put_perm|]. constructor; [|assumption].
    now apply flt_fle.
  - assert (X : fle (snd b) (snd a) = true) by now apply flt_false_fle.
    constructor; [|assumption]. constructor; [assumption|]. eapply Forall_impl; [|eassumption]. cbv beta. intros y Hy.
    now apply fle_trans with (snd b).
Qed.
Example ex_select : select_ok by_sorting.
Proof.
  intros l k K N. cbn [p_select by_sorting]. set (s := fold_right put [] l).
  assert (Q : Permutation l s /\ ForallOrdPairs (fun x y => fle (snd y) (snd x) = true) s).
  { unfold s. clear s K. induction l as [|a l IH]; [split; constructor|]. inversion N; subst. destruct (IH H2) as (A & B).
    cbn [fold_right]. split.
    - eapply Permutation_trans; [apply perm_skip, A|apply put_perm].
    - apply put_sorted; auto. now apply Permutation_Forall with l. }
  destruct Q as (A & B). exists (skipn k s). rewrite firstn_skipn. split; [assumption|]. split.
  - rewrite firstn_length. apply Permutation_length in A. lia.
  - clear A N K. clearbody s. revert k. induction s as [|x s IH]; intros k a b Ia Ib.
    + rewrite firstn_nil in Ia. destruct Ia.
    + destruct k; [destruct Ia|]. cbn [firstn skipn] in *. inversion B; subst. destruct Ia as [<-|Ia].
      * rewrite Forall_forall in H1. apply H1. rewrite <- (firstn_skipn k s). apply in_or_app. now right.
      * now apply (IH H2 k).
Qed.
(** 8 kHz, FFT of 16: bins every 500 Hz.  Peaks at 1000 and 2500 Hz; only one peak is asked for, the stronger one. *)
Definition ex_q (n : nat) : hpcp_params := {| hp_sigma := fhalf; hp_tuning := f0; hp_peaks := n; hp_harmonics := 3; hp_decay := fhalf;
  hp_power := fhalf; hp_whiten := false; hp_whiten_bins := 0 |}.
Example ex_C65 :
  let f := map z2f [0; 1; 5; 2; 1; 7; 3; 0; 0]%Z in
  map (fun x => (fst x, f2i32 (snd x))) (local_maxima (z2f 500) (z2f 100) (z2f 4000) f (seq 1 7)) = [(2, 5%Z); (5, 7%Z)] /\
  map fst (p_select by_sorting [(2, z2f 5); (5, z2f 7)] 1) = [5] /\
  match extract_hpcp toy by_sorting (ex_q 1) (8 * 1000) 16 [f; repeat f0 9] with
  | Ok (p, e) => (map (map (fun x => f2i32 (fmul (z2f 100) x))) p, map f2i32 e) | _ => ([], []) end =
  ([[57; 0; 0; 0; 0; 0; 0; 0; 0; 0; 57; 57]; [0; 0; 0; 0; 0; 0; 0; 0; 0; 0; 0; 0]], [89; 0])%Z.
Proof. split; [vm_compute; reflexivity|]. split; vm_compute; reflexivity. Qed.
Example ex_hpcp_libm : hpcp_libm toy by_sorting.
Proof.
  split.
  - intros k x p K _ _ _. pose proof (bpow_le radix2 0 k ltac:(lia)) as B. simpl (bpow radix2 0) in B. cbn [m_powf toy].
    destruct (fgt x f0); split; try reflexivity; [change f1 with (z2f 1); rewrite (proj2 (z2f_exact 1 ltac:(lia)))|cbn [B2R f0]]; lra.
  - intros d n H. cbn [p_powi by_sorting]. destruct n; [apply in01_1|exact H].
Qed.
