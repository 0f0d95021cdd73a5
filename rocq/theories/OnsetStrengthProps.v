(** C80: the onset detectors report the local maxima of the onset strength they document. *)
From Coq Require Import ZArith Bool List Arith Lia Sorted Permutation Reals Lra.
From Flocq Require Import Core IEEE754.BinarySingleNaN.
From Verif Require Import Rust F32 F32Facts F32More ListFacts Sorting SortingFacts FloatSums Bounds NoveltyProofs Threshold ThresholdProofs
  FourierFacts AutocorrelationValueProofs Onsets OnsetsProofs OnsetsProps OnsetStrengthFacts.
Import ListNotations.
Local Open Scope R_scope.

(** What each detector measures between two consecutive frames: the length of the vector of
    rises of the peak-normalized bins; the rise of the high-frequency content (sum of bin
    number times squared magnitude); the rise of the energy. *)
Definition strength (d : detector) (prev cur : list f32) : R :=
  match d with
  | DSpectral => flux prev cur
  | DHfc => Rmax 0 (content cur - content prev)
  | DHpss => Rmax 0 (energy cur - energy prev)
  end.
(** How far the f32 computation may be off, for frames of n bins. *)
Definition tolerance (d : detector) (prev cur : list f32) : R :=
  let n := INR (Nat.max (length prev) (length cur)) in
  match d with
  | DSpectral => (n + 2) / 5000000 * flux prev cur + (n + 1) / 2000000
  | DHfc => (n + 2) / 4000000 * (content prev + content cur) + bpow radix2 (-78)
  | DHpss => (n + 2) / 4000000 * (energy prev + energy cur) + bpow radix2 (-78)
  end.
(** Transition i leads from frame i - 1 to frame i. *)
Definition strength_at d (spec : list (list f32)) (i : nat) : R := strength d (nth (i - 1) spec []) (nth i spec []).
Definition tolerance_at d (spec : list (list f32)) (i : nat) : R := tolerance d (nth (i - 1) spec []) (nth i spec []).
(** The transitions of a spectrogram with F frames satisfying a test. *)
Definition transitions (F : nat) (t : nat -> bool) : nat := length (filter t (seq 1 (F - 1))).

Lemma rise_case : forall (f : list f32 -> f32) (g : list f32 -> R) prev cur, (f = hfc /\ g = content) \/ (f = frame_energy /\ g = energy) ->
  Forall mag_ok prev -> Forall mag_ok cur -> (Z.of_nat (length prev) <= 1048576)%Z -> (Z.of_nat (length cur) <= 1048576)%Z ->
  fin (rise (f prev) (f cur)) /\
  Rabs (B2R (rise (f prev) (f cur)) - Rmax 0 (g cur - g prev)) <= (INR (Nat.max (length prev) (length cur)) + 2) / 4000000 * (g prev + g cur) + bpow radix2 (-78).
Proof.
  intros f g prev cur C Hp Hc Lp Lc.
  assert (V : forall x, Forall mag_ok x -> (Z.of_nat (length x) <= 1048576)%Z ->
    upto 105 (f x) /\ 0 <= g x /\ Rabs (B2R (f x) - g x) <= (INR (length x) + 1) / 5000000 * g x + bpow radix2 (-80)).
  { intros x Hx Lx. destruct C as [(-> & ->)|(-> & ->)].
    - destruct (hfc_val x Hx Lx) as (U & E). split; [exact U|]. split; [|exact E]. apply sumn_nonneg. intros. apply Rmult_le_pos; [apply pos_INR|apply Rle_0_sqr].
    - destruct (energy_val x Hx Lx) as (U & E). split; [apply (upto_mono 85); [lia|exact U]|]. split; [|exact E]. apply sumn_nonneg. intros. apply Rle_0_sqr. }
  destruct (V prev Hp Lp) as (Up & Gp & Ep). destruct (V cur Hc Lc) as (Uc & Gc & Ec). set (n := Nat.max (length prev) (length cur)) in *.
  assert (Np : INR (length prev) <= INR n) by (apply le_INR; unfold n; lia). assert (Nc : INR (length cur) <= INR n) by (apply le_INR; unfold n; lia).
  assert (Bn : INR n <= 1048576) by (rewrite INR_IZR_INZ; apply IZR_le; unfold n; lia). pose proof (pos_INR n) as N0.
  assert (Wk : forall m x, INR m <= INR n -> 0 <= x -> (INR m + 1) / 5000000 * x + bpow radix2 (-80) <= (INR n + 1) / 5000000 * x + bpow radix2 (-80)).
  { intros m x M X. apply Rplus_le_compat_r, Rmult_le_compat_r; [exact X|]. unfold Rdiv. apply Rmult_le_compat_r; lra. }
  destruct (rise_val 105 (f prev) (f cur) (g prev) (g cur) ((INR n + 1) / 5000000) (bpow radix2 (-80)) ltac:(lia) Up Uc Gp Gc) as (Fr & Er).
  - lra.
  - apply bpow_le. lia.
  - eapply Rle_trans; [exact Ep|now apply Wk].
  - eapply Rle_trans; [exact Ec|now apply Wk].
  - split; [exact Fr|]. eapply Rle_trans; [exact Er|]. assert (E : bpow radix2 (-78) = 4 * bpow radix2 (-80)) by (change 4 with (bpow radix2 2); rewrite <- bpow_plus; reflexivity).
    rewrite E. apply Rplus_le_compat_r, Rmult_le_compat_r; lra.
Qed.

Lemma curve_nth : forall d spec i, (S i < length spec)%nat -> exists prev cur, nth i spec [] = prev /\ nth (S i) spec [] = cur /\
  nth i (curve d spec) f0 = match d with DSpectral => l2_rise (norm_frame prev) (norm_frame cur) | DHfc => rise (hfc prev) (hfc cur) | DHpss => rise (frame_energy prev) (frame_energy cur) end.
Proof.
  intros d spec i L. exists (nth i spec []), (nth (S i) spec []). split; [reflexivity|split; [reflexivity|]].
  assert (A : nth_error spec i = Some (nth i spec [])) by (apply nth_error_nth'; lia). assert (B : nth_error spec (S i) = Some (nth (S i) spec [])) by (apply nth_error_nth'; lia).
  apply nth_error_nth. destruct d; unfold curve, spectral_flux; apply adj_nth; do 2 eexists; rewrite !nth_error_map, A, B; cbn [option_map]; eauto.
Qed.

Lemma count_seq : forall (t : f32 -> bool) (u : nat -> bool) l k, (forall i, (i < length l)%nat -> u (k + i)%nat = t (nth i l f0)) ->
  length (filter u (seq k (length l))) = length (filter t l).
Proof.
  intros t u. induction l as [|x r IH]; intros k H; [reflexivity|]. cbn [length seq filter]. pose proof (H 0%nat ltac:(cbn; lia)) as H0. rewrite Nat.add_0_r in H0. cbn [nth] in H0.
  rewrite H0. specialize (IH (S k)). assert (IH' : length (filter u (seq (S k) (length r))) = length (filter t r)); [apply IH|destruct (t x); cbn [length]; now rewrite IH']. intros i Hi. replace (S k + i)%nat with (k + S i)%nat by lia. apply (H (S i)). cbn. lia.
Qed.

Lemma onset_real : forall fl thr k, Forall (fun x => fin x) fl -> fin thr -> (2 <= length fl)%nat ->
  is_onset fl thr k <-> (k < length fl)%nat /\ B2R thr < B2R (nth k fl f0) /\ (forall j, k = S j -> B2R (nth j fl f0) < B2R (nth k fl f0)) /\
    ((S k < length fl)%nat -> B2R (nth (S k) fl f0) <= B2R (nth k fl f0)).
Proof.
  intros fl thr k F Ft L. assert (Fn : forall i, (i < length fl)%nat -> fin (nth i fl f0)) by (intros i Hi; rewrite Forall_forall in F; now apply F, nth_In).
  assert (LT : forall x y, fin x -> fin y -> (flt x y = true <-> B2R x < B2R y)).
  { intros x y Fx Fy. unfold flt. rewrite Bltb_correct by auto. destruct (Rlt_bool_spec (B2R x) (B2R y)); split; intros; auto; try discriminate; lra. }
  assert (LE : forall x y, fin x -> fin y -> (fle x y = true <-> B2R x <= B2R y)).
  { intros x y Fx Fy. unfold fle. rewrite Bleb_correct by auto. destruct (Rle_bool_spec (B2R x) (B2R y)); split; intros; auto; try discriminate; lra. }
  split.
  - intros H. pose proof (onset_range _ _ _ H) as R. destruct H as (_ & v & V & T & P & N). apply (nth_error_nth _ _ f0) in V. subst v.
    split; [exact R|]. split; [apply LT; auto|]. split.
    + intros j ->. apply LT; auto; [apply Fn; lia|]. apply (P j _ eq_refl). apply nth_error_nth'. lia.
    + intros S1. apply LE; auto. apply N. now apply nth_error_nth'.
  - intros (R & T & P & N). split; [exact L|]. exists (nth k fl f0). split; [now apply nth_error_nth'|]. split; [apply LT; auto|]. split.
    + intros j p -> Hp. assert (J : (j < length fl)%nat) by lia. rewrite (nth_error_nth' _ f0 J) in Hp. apply LT; auto.
      * apply (f_equal (fun o => match o with Some x => x | None => f0 end)) in Hp. rewrite <- Hp. now apply Fn.
      * apply (f_equal (fun o => match o with Some x => x | None => f0 end)) in Hp. rewrite <- Hp. now apply P.
    + intros q Hq. assert (J : (S k < length fl)%nat) by (apply nth_error_Some; congruence). rewrite (nth_error_nth' _ f0 J) in Hq.
      apply (f_equal (fun o => match o with Some x => x | None => f0 end)) in Hq. rewrite <- Hq. apply LE; auto.
Qed.

(** The percentile index from above. *)
Lemma percentile_index_upper : forall n p, (Z.of_nat n <= 16777216)%Z -> fle f0 p = true -> fle p f1 = true ->
  INR (percentile_index n p) <= INR n * B2R p + 1.
Proof.
  intros n p Hn H1 H2. pose proof (p01_fin p H1 H2) as Fp. destruct (z2f_exact (Z.of_nat n) ltac:(lia)) as [Fn En]. fold (n2f n) in *.
  apply fle_fx in H1. apply fle_fx in H2. rewrite fx_f0, fx_fin in H1 by auto. rewrite fx_f1, fx_fin in H2 by auto. rewrite !INR_IZR_INZ.
  assert (N0 : 0 <= IZR (Z.of_nat n)) by (apply IZR_le; lia). assert (N1 : IZR (Z.of_nat n) <= 16777216) by now apply IZR_le. set (x := IZR (Z.of_nat n) * B2R p).
  assert (X0 : 0 <= x) by (unfold x; nra). assert (X1 : x <= IZR (Z.of_nat n)) by (unfold x; nra).
  assert (Fm : fin (fmul (n2f n) p)). { apply fmul_fin_bound with (n2f n); auto. rewrite En. fold x. rewrite Rabs_pos_eq; auto. }
  pose proof (B2R_fmul _ _ Fm) as Em. rewrite En in Em. fold x in Em.
  assert (Hc : rnd x <= IZR (Zceil x)).
  { rewrite <- (rnd_Z (Zceil x)); [apply rnd_mono, Zceil_ub|]. assert (0 <= Zceil x)%Z by (apply le_IZR; pose proof (Zceil_ub x); lra).
    assert (Zceil x <= Z.of_nat n)%Z by (now apply Zceil_glb). lia. }
  pose proof (rnd_nonneg x X0) as R0.
  assert (T : IZR (f2usize (fmul (n2f n) p)) <= rnd x).
  { unfold f2usize. rewrite f2int_fin by auto. rewrite Em, Ztrunc_floor by exact R0. eapply Rle_trans; [|apply Zfloor_lb].
    apply IZR_le. assert (0 <= Zfloor (rnd x))%Z by (now apply Zfloor_lub). unfold usize_max. lia. }
  pose proof (f2usize_bounds (fmul (n2f n) p)) as UB. unfold percentile_index.
  assert (M : IZR (Z.of_nat (Z.to_nat (Z.min (f2usize (fmul (n2f n) p)) (Z.of_nat n - 1)))) <= Rmax 0 (rnd x)).
  { destruct (Z.le_gt_cases 0 (Z.min (f2usize (fmul (n2f n) p)) (Z.of_nat n - 1))) as [G|G].
    - rewrite Z2Nat.id by exact G. eapply Rle_trans; [apply IZR_le, Z.le_min_l|]. eapply Rle_trans; [exact T|apply Rmax_r].
    - replace (Z.of_nat (Z.to_nat (Z.min (f2usize (fmul (n2f n) p)) (Z.of_nat n - 1)))) with 0%Z by lia. apply Rmax_l. }
  rewrite Rmax_right in M by exact R0. eapply Rle_trans; [exact M|]. eapply Rle_trans; [exact Hc|].
  unfold Zceil. rewrite opp_IZR. pose proof (Zfloor_ub (- x)). lra.
Qed.

Lemma run_two : forall d spec sr p out, run d spec sr p = Ok out -> (2 <= length spec)%nat ->
  fle f0 p = true /\ fle p f1 = true /\ threshold_and_pick (curve d spec) p = Ok out /\ (d = DSpectral -> exists n, rect n spec).
Proof.
  intros [] spec sr p out H L; cbn [run curve] in *.
  - pose proof (spectral_cases spec p) as S. destruct spec as [|fr spec]; [cbn in L; lia|].
    destruct S as [(A & B)|(A & B & C & [(D & E)|(D & E)])]; rewrite H in *; try discriminate; [lia|].
    split; [tauto|]. split; [tauto|]. split; [now symmetry|]. eauto.
  - pose proof (hfc_cases spec sr p) as S. destruct spec as [|fr spec]; [cbn in L; lia|].
    destruct S as [(A & B)|(A0 & A & B & C & [(D & E)|(D & E)])]; rewrite H in *; try discriminate; [lia|].
    split; [tauto|]. split; [tauto|]. split; [now symmetry|]. discriminate.
  - destruct (hpss_cases spec p) as [(A & B)|(A & [(B & C)|(B & [(C & D)|(C & D)])])]; rewrite H in *; try discriminate; [subst; cbn in L; lia|lia|].
    split; [tauto|]. split; [tauto|]. split; [now symmetry|]. discriminate.
Qed.

(** C80: for each of the three spectrogram detectors there are strengths s, within the stated
    rounding tolerance of what the detector documents, and a threshold, itself one of the
    strengths, with at least the fraction p of the transitions at or below it and no more than
    one transition over that fraction below it, such that the frames reported are exactly the
    local maxima of s above the threshold. *)
Theorem C80_detects : forall d spec sr p out, run d spec sr p = Ok out ->
  (2 <= length spec)%nat -> (Z.of_nat (length spec) <= 16777217)%Z ->
  Forall (fun frame => (Z.of_nat (length frame) <= 1048576)%Z /\ Forall (fun m => fin m /\ 0 <= B2R m <= bpow radix2 30) frame) spec ->
  let F := length spec in
  exists (s : nat -> R) (thr : R),
    (forall i, (1 <= i < F)%nat -> Rabs (s i - strength_at d spec i) <= tolerance_at d spec i) /\
    (exists j, (1 <= j < F)%nat /\ thr = s j) /\
    B2R p * INR (F - 1) <= INR (transitions F (fun i => Rle_bool (s i) thr)) /\
    INR (transitions F (fun i => Rlt_bool (s i) thr)) <= B2R p * INR (F - 1) + 1 /\
    StronglySorted lt out /\
    forall i, In i out <-> (1 <= i < F)%nat /\ thr < s i /\ ((1 < i)%nat -> s (i - 1)%nat < s i) /\ ((i + 1 < F)%nat -> s (i + 1)%nat <= s i).
Proof.
  intros d spec sr p out H L2 LF Hs F. destruct (run_two _ _ _ _ _ H L2) as (P0 & P1 & T & Rc). clear H.
  set (c := curve d spec) in *. assert (Lc : length c = (F - 1)%nat) by apply curve_length. pose proof (curve_nneg d spec) as Nn. fold c in Nn.
  assert (Fr : forall i, (i < F)%nat -> Forall mag_ok (nth i spec []) /\ (Z.of_nat (length (nth i spec [])) <= 1048576)%Z).
  { intros i Hi. rewrite Forall_forall in Hs. destruct (Hs (nth i spec []) (nth_In _ _ Hi)) as (A & B). split; [exact B|exact A]. }
  assert (V : forall i, (S i < F)%nat -> fin (nth i c f0) /\ Rabs (B2R (nth i c f0) - strength_at d spec (S i)) <= tolerance_at d spec (S i)).
  { intros i Hi. destruct (curve_nth d spec i Hi) as (prev & cur & Ep & Ec & E). fold c in E. rewrite E. unfold strength_at, tolerance_at. replace (S i - 1)%nat with i by lia.
    rewrite Ep, Ec. destruct (Fr i ltac:(lia)) as (Mp & Lp). destruct (Fr (S i) Hi) as (Mc & Lcu). rewrite Ep in Mp, Lp. rewrite Ec in Mc, Lcu.
    destruct d; cbn [strength tolerance].
    - destruct (Rc eq_refl) as (n & Rn). unfold rect in Rn. rewrite Forall_forall in Rn.
      assert (Xp : length prev = n) by (rewrite <- Ep; apply Rn, nth_In; unfold F in Hi; lia). assert (Xc : length cur = n) by (rewrite <- Ec; now apply Rn, nth_In).
      rewrite Xp, Xc, Nat.max_id. rewrite <- Xc. apply flux_val; auto. congruence.
    - apply (rise_case hfc content); auto.
    - apply (rise_case frame_energy energy); auto. }
  assert (Fc : Forall (fun x => fin x) c).
  { apply Forall_forall. intros x I. destruct (In_nth _ _ f0 I) as (i & Hi & <-). apply V. lia. }
  assert (Nc : Forall (fun x => nn x) c) by (eapply Forall_impl; [|exact Nn]; intros; now apply nneg_nn).
  destruct (tap_spec _ _ _ Nn T) as (thr & [E|(T0 & G)] & So & In_).
  { apply (f_equal (@length f32)) in E. rewrite Lc in E. cbn in E. lia. }
  apply get_Ok in G. pose proof (sorted_rank _ _ _ (sort_asc_nn _ Nc) (sort_asc_sorted _ Nc) G) as (R1 & R2). rewrite count_le_sort in R1. rewrite count_lt_sort in R2.
  assert (It : In thr c) by (apply nth_error_In in G; apply sort_by_in in G; exact G).
  assert (Ft : fin thr) by (rewrite Forall_forall in Fc; now apply Fc).
  exists (fun i => B2R (nth (i - 1) c f0)), (B2R thr). split; [|split; [|split; [|split; [|split]]]].
  - intros i Hi. replace i with (S (i - 1)) at 2 3 by lia. apply V. lia.
  - destruct (In_nth _ _ f0 It) as (j & Hj & <-). exists (S j). split; [lia|]. now replace (S j - 1)%nat with j by lia.
  - assert (C : transitions F (fun i => Rle_bool (B2R (nth (i - 1) c f0)) (B2R thr)) = count_le c thr).
    { unfold transitions, count_le. rewrite <- Lc. apply count_seq. intros i Hi. replace (1 + i - 1)%nat with i by lia.
      unfold fle. rewrite Bleb_correct; auto. rewrite Forall_forall in Fc. now apply Fc, nth_In. }
    rewrite C. pose proof (percentile_index_exact (length c) p ltac:(lia) ltac:(lia) P0 P1) as PI. rewrite <- Lc.
    apply le_INR in R1. rewrite plus_INR in R1. cbn [INR] in R1. lra.
  - assert (C : transitions F (fun i => Rlt_bool (B2R (nth (i - 1) c f0)) (B2R thr)) = count_lt c thr).
    { unfold transitions, count_lt. rewrite <- Lc. apply count_seq. intros i Hi. replace (1 + i - 1)%nat with i by lia.
      unfold flt. rewrite Bltb_correct; auto. rewrite Forall_forall in Fc. now apply Fc, nth_In. }
    rewrite C. pose proof (percentile_index_upper (length c) p ltac:(lia) P0 P1) as PI. rewrite <- Lc. apply le_INR in R2. lra.
  - exact So.
  - intros i. rewrite In_. destruct (Nat.eq_dec F 2) as [F2|F2].
    + (* a single transition: nothing exceeds the threshold *)
      split; [intros (k & _ & (A & _)); lia|]. intros (Hi & C & _). exfalso. destruct (In_nth _ _ f0 It) as (j & Hj & Ej).
      replace (i - 1)%nat with j in C by lia. rewrite Ej in C. lra.
    + split.
      * intros (k & -> & K). apply onset_real in K; auto; [|lia]. destruct K as (K1 & K2 & K3 & K4). replace (S k - 1)%nat with k by lia. split; [lia|]. split; [exact K2|]. split.
        -- intros Q. apply K3. lia.
        -- intros Q. replace (S k + 1 - 1)%nat with (S k) by lia. apply K4. lia.
      * intros (Hi & K2 & K3 & K4). exists (i - 1)%nat. split; [lia|]. apply onset_real; auto; [lia|]. split; [lia|]. split; [exact K2|]. split.
        -- intros j Ej. specialize (K3 ltac:(lia)). now replace (i - 1 - 1)%nat with j in K3 by lia.
        -- intros Q. specialize (K4 ltac:(lia)). now replace (i + 1 - 1)%nat with (S (i - 1)) in K4 by lia.
Qed.
Print Assumptions C80_detects.

Lemma transitions_mono : forall F (t u : nat -> bool), (forall i, (1 <= i < F)%nat -> t i = true -> u i = true) -> (transitions F t <= transitions F u)%nat.
Proof.
  intros F t u H. unfold transitions. assert (G : forall l, (forall i, In i l -> t i = true -> u i = true) -> (length (filter t l) <= length (filter u l))%nat).
  { induction l as [|x r IH]; intros Hl; [apply Nat.le_refl|]. cbn [filter]. specialize (IH (fun i I => Hl i (or_intror I))). pose proof (Hl x (or_introl eq_refl)) as Hx.
    destruct (t x); [rewrite Hx by reflexivity; cbn [length]; lia|]. destruct (u x); cbn [length]; lia. }
  apply G. intros i I. apply in_seq in I. apply H. lia.
Qed.

(** Clear onsets are found: a frame whose strength exceeds its neighbours' by more than the
    rounding tolerances, and clearly exceeds that of more than the fraction p of all
    transitions, plus one, is reported. *)
Theorem C80_found : forall d spec sr p out i, run d spec sr p = Ok out ->
  (Z.of_nat (length spec) <= 16777217)%Z ->
  Forall (fun frame => (Z.of_nat (length frame) <= 1048576)%Z /\ Forall (fun m => fin m /\ 0 <= B2R m <= bpow radix2 30) frame) spec ->
  let F := length spec in
  let clear j := Rlt_bool (strength_at d spec j + tolerance_at d spec j) (strength_at d spec i - tolerance_at d spec i) in
  (1 <= i < F)%nat -> ((1 < i)%nat -> clear (i - 1)%nat = true) -> ((i + 1 < F)%nat -> clear (i + 1)%nat = true) ->
  B2R p * INR (F - 1) + 1 < INR (transitions F clear) -> In i out.
Proof.
  intros d spec sr p out i H LF Hs F clear Hi Hl Hr Hc. destruct (C80_detects d spec sr p out H ltac:(unfold F in Hi; lia) LF Hs) as (s & thr & V & _ & _ & B & _ & I).
  fold F in V, B, I. assert (C : forall j, (1 <= j < F)%nat -> clear j = true -> s j < s i).
  { intros j Hj Cj. unfold clear in Cj. destruct (Rlt_bool_spec (strength_at d spec j + tolerance_at d spec j) (strength_at d spec i - tolerance_at d spec i)) as [Lt|]; [|discriminate].
    pose proof (V j Hj) as A1. pose proof (V i Hi) as A2. apply Rabs_le_inv in A1. apply Rabs_le_inv in A2. lra. }
  apply I. split; [exact Hi|]. split; [|split].
  - apply Rnot_le_lt. intros Le. assert (M : (transitions F clear <= transitions F (fun i0 => Rlt_bool (s i0) thr))%nat).
    { apply transitions_mono. intros j Hj Cj. apply Rlt_bool_true. pose proof (C j Hj Cj). lra. }
    apply le_INR in M. lra.
  - intros L. apply C; [lia|]. now apply Hl.
  - intros L. left. apply C; [lia|]. now apply Hr.
Qed.
Print Assumptions C80_found.

(** Nothing else is reported: a reported frame is not clearly weaker than a neighbour, and at
    least the fraction p of the transitions is not clearly stronger than it. *)
Theorem C80_sound : forall d spec sr p out i, run d spec sr p = Ok out ->
  (Z.of_nat (length spec) <= 16777217)%Z ->
  Forall (fun frame => (Z.of_nat (length frame) <= 1048576)%Z /\ Forall (fun m => fin m /\ 0 <= B2R m <= bpow radix2 30) frame) spec ->
  let F := length spec in
  let low j := Rle_bool (strength_at d spec j - tolerance_at d spec j) (strength_at d spec i + tolerance_at d spec i) in
  In i out -> (1 <= i < F)%nat /\ ((1 < i)%nat -> low (i - 1)%nat = true) /\ ((i + 1 < F)%nat -> low (i + 1)%nat = true) /\
  B2R p * INR (F - 1) <= INR (transitions F low).
Proof.
  intros d spec sr p out i H LF Hs F low Hin.
  assert (L2 : (2 <= length spec)%nat). { destruct (C10_frames _ _ _ _ _ H) as (_ & R). rewrite Forall_forall in R. specialize (R i Hin). lia. }
  destruct (C80_detects d spec sr p out H L2 LF Hs) as (s & thr & V & _ & A & _ & _ & I). fold F in V, A, I.
  apply I in Hin. destruct Hin as (Hi & T & Hl & Hr).
  assert (C : forall j, (1 <= j < F)%nat -> s j <= s i -> low j = true).
  { intros j Hj Cj. apply Rle_bool_true. pose proof (V j Hj) as A1. pose proof (V i Hi) as A2. apply Rabs_le_inv in A1. apply Rabs_le_inv in A2. lra. }
  split; [exact Hi|]. split; [intros L; apply C; [lia|]; left; now apply Hl|]. split; [intros L; apply C; [lia|]; now apply Hr|].
  eapply Rle_trans; [exact A|]. apply le_INR, transitions_mono. intros j Hj Cj. apply C; [exact Hj|]. destruct (Rle_bool_spec (s j) thr); [lra|discriminate].
Qed.
Print Assumptions C80_sound.

Lemma ef_full : forall powf samples frame hop db out, detect_energy_flux_onsets powf samples frame hop db = Ok out ->
  (1 <= frame <= length samples)%nat -> (1 <= hop)%nat ->
  let num := ((length samples - frame) / hop + 1)%nat in
  let fl := adj rise (map (frame_rms samples frame hop) (seq 0 num)) in
  let mx := fold_left fmax fl f0 in
  let thr := fmul mx (powf (z2f 10) (fdiv db (z2f 20))) in
  forall o, In o out <-> fle mx on_eps = false /\ exists k, o = ((k + 1) * hop)%nat /\ is_onset fl thr k.
Proof.
  intros powf samples frame hop db out H Hf Hh num fl mx thr o. unfold detect_energy_flux_onsets in H.
  destruct samples as [|x samples]; [cbn in Hf; lia|]. set (sm := x :: samples) in *.
  destruct (Nat.eqb_spec frame 0); [lia|]. destruct (Nat.eqb_spec hop 0); [lia|]. destruct (Nat.ltb_spec (length sm) frame); [lia|].
  fold num in H. fold fl in H. fold mx in H. fold thr in H. cbv zeta in H.
  assert (LF : length fl = (num - 1)%nat) by (unfold fl; rewrite adj_length, map_length, seq_length; reflexivity).
  destruct (Nat.ltb_spec num 2) as [N2|N2].
  { injection H as <-. split; [easy|]. intros (_ & k & _ & (K & _)). lia. }
  destruct (fle mx on_eps); [injection H as <-; split; [easy|intros (? & _); discriminate]|].
  set (raw := filter _ _) in H. injection H as <-.
  assert (RI : forall o, In o raw <-> exists k, o = ((k + 1) * hop)%nat /\ is_onset fl thr k).
  { intros o'. unfold raw. rewrite filter_In, in_map_iff. split.
    - intros ((k & <- & Hk) & _). exists k. split; auto. now apply raw_onsets_in.
    - intros (k & -> & Hk). split. exists k. split; auto. now apply raw_onsets_in.
      apply onset_range in Hk. apply Nat.ltb_lt.
      assert ((length sm - frame) / hop * hop <= length sm - frame)%nat by (rewrite Nat.mul_comm; apply Nat.mul_div_le; lia).
      assert (k + 1 <= (length sm - frame) / hop)%nat by (unfold num in *; lia). nia. }
  assert (ND : NoDup raw).
  { apply NoDup_filter. apply FinFun.Injective_map_NoDup; [|apply raw_onsets_nodup]. intros a b E'. apply Nat.mul_cancel_r in E'; lia. }
  assert (SL : StronglySorted lt (sort_by Nat.leb raw)).
  { apply sorted_le_nodup_lt. apply nat_sorted. eapply Permutation_NoDup; [|exact ND]. apply sort_by_perm. }
  rewrite space_id; [rewrite sort_by_in, RI; tauto|].
  eapply StronglySorted_weaken with (R := fun a b => (a + hop <= b)%nat).
  { intros a b _ _ ?. assert (hop / 2 <= hop)%nat by (apply Nat.div_le_upper_bound; lia). change (a + hop / 2 <= b)%nat. lia. }
  apply sorted_gap; auto. apply sort_by_Forall. apply Forall_forall. intros y Hy. apply RI in Hy. destruct Hy as (k & -> & _). eauto.
Qed.

(** The time-domain detector: with RMS_i the root mean square of the samples of frame i, the
    positions reported are exactly the starts of the frames where the rise of the RMS is a
    local maximum above gain times its largest value; nothing is reported when that largest
    value is at most 1e-10, or when there are fewer than three frames. *)
Theorem C80_energy : forall powf samples frame hop db out, detect_energy_flux_onsets powf samples frame hop db = Ok out ->
  (1 <= frame <= length samples)%nat -> (1 <= hop)%nat -> (Z.of_nat frame <= 1048576)%Z ->
  Forall (fun x => fin x /\ Rabs (B2R x) <= bpow radix2 30) samples ->
  let gain := powf (z2f 10) (fdiv db (z2f 20)) in fin gain -> 0 <= B2R gain <= bpow radix2 20 ->
  let num := ((length samples - frame) / hop + 1)%nat in
  exists (s : nat -> R) (top thr : R),
    (forall i, (1 <= i < num)%nat -> Rabs (s i - Rmax 0 (rms samples frame hop i - rms samples frame hop (i - 1)))
       <= (INR frame + 3) / 4000000 * (rms samples frame hop (i - 1) + rms samples frame hop i) + bpow radix2 (-58)) /\
    (forall i, (1 <= i < num)%nat -> s i <= top) /\ (top = 0 \/ exists i, (1 <= i < num)%nat /\ top = s i) /\
    Rabs (thr - top * B2R gain) <= u24 * (top * B2R gain) + tiny /\
    forall o, In o out <-> floor10 < top /\ (3 <= num)%nat /\
      exists i, o = (i * hop)%nat /\ (1 <= i < num)%nat /\ thr < s i /\ ((1 < i)%nat -> s (i - 1)%nat < s i) /\ ((i + 1 < num)%nat -> s (i + 1)%nat <= s i).
Proof.
  intros powf samples frame hop db out H Hf Hh Bf Hs gain Fg G num.
  pose proof (ef_full _ _ _ _ _ _ H Hf Hh) as I. cbv zeta in I. fold gain num in I. set (fl := adj rise _) in I.
  assert (LF : length fl = (num - 1)%nat) by (unfold fl; rewrite adj_length, map_length, seq_length; reflexivity).
  assert (NB : forall i, (i < num)%nat -> (i * hop + frame <= length samples)%nat).
  { intros i Hi. assert ((length samples - frame) / hop * hop <= length samples - frame)%nat by (rewrite Nat.mul_comm; apply Nat.mul_div_le; lia).
    assert (i <= (length samples - frame) / hop)%nat by (unfold num in Hi; lia). nia. }
  assert (Ws : Forall (within 30) samples) by exact Hs.
  assert (V : forall i, (S i < num)%nat -> upto 85 (nth i fl f0) /\
     Rabs (B2R (nth i fl f0) - Rmax 0 (rms samples frame hop (S i) - rms samples frame hop i))
       <= (INR frame + 3) / 4000000 * (rms samples frame hop i + rms samples frame hop (S i)) + bpow radix2 (-58)).
  { intros i Hi. assert (E : nth i fl f0 = rise (frame_rms samples frame hop i) (frame_rms samples frame hop (S i))).
    { apply nth_error_nth. unfold fl. apply adj_nth. do 2 eexists. rewrite !nth_error_map. rewrite !(nth_error_nth' (seq 0 num) 0%nat) by (rewrite seq_length; lia).
      rewrite !seq_nth by lia. cbn [option_map]. eauto. }
    rewrite E. destruct (rms_val samples frame hop i Ws ltac:(lia) Bf (NB i ltac:(lia))) as (U1 & E1). destruct (rms_val samples frame hop (S i) Ws ltac:(lia) Bf (NB (S i) ltac:(lia))) as (U2 & E2).
    split; [apply upto_rise; [exact U2|eapply upto_nneg; eauto]|].
    assert (X0 : 0 <= rms samples frame hop i) by apply sqrt_pos. assert (Y0 : 0 <= rms samples frame hop (S i)) by apply sqrt_pos.
    assert (N1 : INR frame <= 1048576) by (rewrite INR_IZR_INZ; now apply IZR_le). pose proof (pos_INR frame) as N0.
    destruct (rise_val 85 _ _ _ _ ((INR frame + 2) / 5000000) (bpow radix2 (-60)) ltac:(lia) U1 U2 X0 Y0 ltac:(lra) ltac:(apply bpow_le; lia) E1 E2) as (_ & Er).
    eapply Rle_trans; [exact Er|]. assert (E58 : bpow radix2 (-58) = 4 * bpow radix2 (-60)) by (change 4 with (bpow radix2 2); rewrite <- bpow_plus; reflexivity).
    rewrite E58. apply Rplus_le_compat_r, Rmult_le_compat_r; lra. }
  assert (Ufl : Forall (upto 85) fl) by (apply Forall_forall; intros x Ix; destruct (In_nth _ _ f0 Ix) as (i & Hi & <-); apply V; lia).
  assert (Ffl : Forall (fun x => fin x) fl) by (eapply Forall_impl; [|exact Ufl]; intros x; apply upto_fin).
  set (mx := fold_left fmax fl f0) in *.
  destruct (PeakPickingProofs.fold_fmax_spec fl f0 eq_refl) as (_ & M0 & Mi & Ml). cbv zeta in M0, Mi, Ml. fold mx in M0, Mi, Ml.
  assert (Um : upto 85 mx) by (destruct Mi as [-> |Mi]; [apply upto_0|rewrite Forall_forall in Ufl; now apply Ufl]).
  pose proof (upto_mul 85 20 mx gain ltac:(lia) Um (conj Fg G)) as Ut.
  exists (fun i => B2R (nth (i - 1) fl f0)), (B2R mx), (B2R (fmul mx gain)). split; [|split; [|split; [|split]]].
  - intros i Hi. destruct (V (i - 1)%nat ltac:(lia)) as (_ & E). replace (S (i - 1)) with i in E by lia. exact E.
  - intros i Hi. assert (Ix : In (nth (i - 1) fl f0) fl) by (apply nth_In; lia). pose proof (Ml _ Ix) as L. rewrite Forall_forall in Ffl. pose proof (Ffl _ Ix) as Fx.
    specialize (L ltac:(now apply fin_nn)). apply fle_fx in L. rewrite !fx_fin in L; [exact L|eapply upto_fin; eauto|exact Fx].
  - destruct Mi as [E|Mi]; [left; rewrite E; reflexivity|right]. destruct (In_nth _ _ f0 Mi) as (i & Hi & E). exists (S i). split; [lia|]. replace (S i - 1)%nat with i by lia. now rewrite E.
  - rewrite B2R_fmul by (eapply upto_fin; eauto). pose proof (rnd_near (B2R mx * B2R gain)) as R. rewrite (Rabs_pos_eq (B2R mx * B2R gain)) in R; [exact R|].
    destruct Um as (_ & ? & _). apply Rmult_le_pos; [assumption|apply G].
  - intros o. rewrite I. destruct on_eps_val as (Fe & Ee). pose proof (upto_fin _ _ Um) as Fm. pose proof (upto_fin _ _ Ut) as Ft.
    assert (Q : fle mx on_eps = false <-> floor10 < B2R mx).
    { unfold fle. rewrite Bleb_correct by auto. rewrite Ee. destruct (Rle_bool_spec (B2R mx) floor10); split; intros; auto; try discriminate; lra. }
    rewrite Q. split.
    + intros (T & k & -> & K). pose proof K as (K0 & _). apply (onset_real _ _ _ Ffl Ft K0) in K. destruct K as (K1 & K2 & K3 & K4). split; [exact T|]. split; [lia|].
      exists (k + 1)%nat. split; [lia|]. split; [lia|]. replace (k + 1 - 1)%nat with k by lia. split; [exact K2|]. split.
      * intros L. apply K3. lia.
      * intros L. replace (k + 1 + 1 - 1)%nat with (S k) by lia. apply K4. lia.
    + intros (T & N3 & i & -> & Hi & K2 & K3 & K4). split; [exact T|]. exists (i - 1)%nat. split; [f_equal; lia|]. apply onset_real; auto; [lia|]. split; [lia|]. split; [exact K2|]. split.
      * intros j Ej. specialize (K3 ltac:(lia)). now replace (i - 1 - 1)%nat with j in K3 by lia.
      * intros L. specialize (K4 ltac:(lia)). now replace (i + 1 - 1)%nat with (S (i - 1)) in K4 by lia.
Qed.
Print Assumptions C80_energy.

(** Concrete case: one loud frame among quiet ones; its high-frequency content is 4 against
    1/256, so the first theorem below applies, and the detector does report frame 2. *)
Definition one_click : list (list f32) := [quiet2; quiet2; click; quiet2; quiet2].
Lemma sixteenth : B2R (lit 1 (-4)) = / 16.
Proof.
  rewrite <- SF2R_B2SF. assert (S : B2SF (lit 1 (-4)) = SpecFloat.S754_finite false 8388608 (-27)) by (vm_compute; reflexivity). rewrite S.
  unfold SF2R, F2R. cbn [cond_Zopp Fnum Fexp]. change (bpow radix2 (-27)) with (/ 134217728). lra.
Qed.
Lemma quiet_content : content quiet2 = / 256.
Proof. unfold content, quiet2. cbn [length sumn nth INR]. rewrite sixteenth. lra. Qed.
Lemma click_content : content click = 4.
Proof.
  destruct (z2f_exact 2 ltac:(lia)) as (_ & V). unfold content, click. cbn [length sumn nth INR]. rewrite V, B2R_f1. lra.
Qed.
Example C80_case : forall out, run DHfc one_click 44100 (lit 1 (-2)) = Ok out -> In 2%nat out.
Proof.
  intros out H. assert (T78 : 0 < bpow radix2 (-78) <= / 1000000) by (split; [apply bpow_gt_0|eapply Rle_trans; [apply (bpow_le radix2 _ (-20)); lia|change (bpow radix2 (-20)) with (/ 1048576); lra]]).
  assert (P : B2R (lit 1 (-2)) = / 4).
  { rewrite <- SF2R_B2SF. assert (S : B2SF (lit 1 (-2)) = SpecFloat.S754_finite false 8388608 (-25)) by (vm_compute; reflexivity). rewrite S.
    unfold SF2R, F2R. cbn [cond_Zopp Fnum Fexp]. change (bpow radix2 (-25)) with (/ 33554432). lra. }
  assert (Q : forall i, (i = 1 \/ i = 3 \/ i = 4)%nat -> Rlt_bool (strength_at DHfc one_click i + tolerance_at DHfc one_click i)
     (strength_at DHfc one_click 2 - tolerance_at DHfc one_click 2) = true).
  { intros i Hi. apply Rlt_bool_true. unfold strength_at, tolerance_at, one_click.
    destruct Hi as [-> |[-> | ->]]; cbn [nth Nat.sub strength tolerance]; rewrite ?quiet_content, ?click_content; cbn [length quiet2 click Nat.max INR];
      unfold Rmax; repeat destruct (Rle_dec _ _); lra. }
  apply (C80_found DHfc one_click 44100 (lit 1 (-2)) out 2 H); try (intros _; apply Q; lia); try (cbn; lia).
  - assert (M : forall x, fin x -> B2R x = / 16 \/ B2R x = 1 \/ B2R x = 2 -> fin x /\ 0 <= B2R x <= bpow radix2 30).
    { intros x Fx E. split; [exact Fx|]. change (bpow radix2 30) with 1073741824. destruct E as [-> |[-> | ->]]; lra. }
    assert (Mq : Forall (fun m => fin m /\ 0 <= B2R m <= bpow radix2 30) quiet2) by (repeat (apply Forall_cons || apply Forall_nil); apply M; auto using sixteenth).
    assert (Mc : Forall (fun m => fin m /\ 0 <= B2R m <= bpow radix2 30) click).
    { destruct (z2f_exact 2 ltac:(lia)) as (F2 & V2). repeat (apply Forall_cons || apply Forall_nil); apply M; auto using B2R_f1. }
    repeat (apply Forall_cons || apply Forall_nil); (split; [cbn; lia|assumption]).
  - unfold transitions. cbn [length one_click Nat.sub seq filter]. rewrite (Q 1%nat), (Q 3%nat), (Q 4%nat) by lia. rewrite P. destruct (Rlt_bool _ _); cbn [length INR]; lra.
Qed.
