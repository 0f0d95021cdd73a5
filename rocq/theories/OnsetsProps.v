(** C10, C11, C50: the onset detectors. *)
From Coq Require Import ZArith Bool List Arith Lia Sorted Reals Lra.
From Flocq Require Import Core IEEE754.BinarySingleNaN.
From Verif Require Import Rust F32 F32Facts F32More ListFacts Sorting SortingFacts Threshold ThresholdProofs
  Onsets OnsetsProofs.
Import ListNotations.

(** Every frame of the spectrogram has n bins. *)
Definition rect (n : nat) (spec : list (list f32)) : Prop := Forall (fun f => length f = n) spec.

Lemma rectangular_iff : forall n spec, rectangular n spec = true <-> rect n spec.
Proof.
  intros n spec. unfold rectangular, rect. rewrite forallb_forall, Forall_forall.
  split; intros H x Hx; specialize (H x Hx); now apply Nat.eqb_eq.
Qed.

(** The three detectors share one shape: after the input checks the answer comes from a
    non-negative flux curve with one value per frame transition. *)
Lemma spectral_cases : forall spec p,
  match spec with
  | [] => detect_spectral_flux_onsets spec p = Ok []
  | fr :: _ =>
      (~ (fle f0 p = true /\ fle p f1 = true) \/ fr = [] \/ ~ rect (length fr) spec) /\
        detect_spectral_flux_onsets spec p = Err InvalidInput \/
      (fle f0 p = true /\ fle p f1 = true) /\ fr <> [] /\ rect (length fr) spec /\
        (length spec < 2 /\ detect_spectral_flux_onsets spec p = Ok [] \/
         2 <= length spec /\
         detect_spectral_flux_onsets spec p = threshold_and_pick (spectral_flux spec) p)
  end.
Proof.
  intros [|fr spec] p; [reflexivity|]. unfold detect_spectral_flux_onsets, in_unit.
  destruct (fle f0 p) eqn:P0; [destruct (fle p f1) eqn:P1|]; cbn [andb negb];
    try (left; split; auto; left; intros (? & ?); congruence).
  destruct (length fr =? 0) eqn:E0.
  { left. split; auto. right. left. apply Nat.eqb_eq in E0. now apply length_zero_iff_nil. }
  destruct (rectangular (length fr) (fr :: spec)) eqn:R; cbn [negb].
  2:{ left. split; auto. right. right. rewrite <- rectangular_iff. congruence. }
  right. split; auto. split. { intros ->. discriminate. } split. { now apply rectangular_iff. }
  destruct (Nat.ltb_spec (length (fr :: spec)) 2); auto.
Qed.
Lemma hfc_cases : forall spec sr p,
  match spec with
  | [] => detect_hfc_onsets spec sr p = Ok []
  | fr :: _ =>
      (sr = 0%Z \/ ~ (fle f0 p = true /\ fle p f1 = true) \/ fr = [] \/ ~ rect (length fr) spec) /\
        detect_hfc_onsets spec sr p = Err InvalidInput \/
      sr <> 0%Z /\ (fle f0 p = true /\ fle p f1 = true) /\ fr <> [] /\ rect (length fr) spec /\
        (length spec < 2 /\ detect_hfc_onsets spec sr p = Ok [] \/
         2 <= length spec /\
         detect_hfc_onsets spec sr p = threshold_and_pick (adj rise (map hfc spec)) p)
  end.
Proof.
  intros [|fr spec] sr p; [reflexivity|]. unfold detect_hfc_onsets, in_unit.
  destruct (Z.eqb_spec sr 0); [left; auto|].
  destruct (fle f0 p) eqn:P0; [destruct (fle p f1) eqn:P1|]; cbn [andb negb];
    try (left; split; auto; right; left; intros (? & ?); congruence).
  destruct (length fr =? 0) eqn:E0.
  { left. split; auto. right. right. left. apply Nat.eqb_eq in E0. now apply length_zero_iff_nil. }
  destruct (rectangular (length fr) (fr :: spec)) eqn:R; cbn [negb].
  2:{ left. split; auto. right. right. right. rewrite <- rectangular_iff. congruence. }
  right. split; auto. split; auto. split. { intros ->. discriminate. } split. { now apply rectangular_iff. }
  destruct (Nat.ltb_spec (length (fr :: spec)) 2); auto.
Qed.
Lemma hpss_cases : forall spec p,
  spec = [] /\ detect_hpss_onsets spec p = Ok [] \/
  spec <> [] /\
  (~ (fle f0 p = true /\ fle p f1 = true) /\ detect_hpss_onsets spec p = Err InvalidInput \/
   (fle f0 p = true /\ fle p f1 = true) /\
     (length spec < 2 /\ detect_hpss_onsets spec p = Ok [] \/
      2 <= length spec /\
      detect_hpss_onsets spec p = threshold_and_pick (adj rise (map frame_energy spec)) p)).
Proof.
  intros [|fr spec] p; [left; auto|]. right. split; [easy|]. unfold detect_hpss_onsets, in_unit.
  destruct (fle f0 p) eqn:P0; [destruct (fle p f1) eqn:P1|]; cbn [andb negb];
    try (left; split; auto; intros (? & ?); congruence).
  right. split; auto. destruct (Nat.ltb_spec (length (fr :: spec)) 2); auto.
Qed.

(** C10, outcomes: no detector panics; malformed input is rejected, and exactly that. *)
Theorem C10_outcomes : forall spec sr p,
  (detect_spectral_flux_onsets spec p = Err InvalidInput <->
     exists fr r, spec = fr :: r /\
       (~ (fle f0 p = true /\ fle p f1 = true) \/ fr = [] \/ ~ rect (length fr) spec)) /\
  (detect_hfc_onsets spec sr p = Err InvalidInput <->
     exists fr r, spec = fr :: r /\
       (sr = 0%Z \/ ~ (fle f0 p = true /\ fle p f1 = true) \/ fr = [] \/ ~ rect (length fr) spec)) /\
  (detect_hpss_onsets spec p = Err InvalidInput <->
     spec <> [] /\ ~ (fle f0 p = true /\ fle p f1 = true)) /\
  (forall o, In o [detect_spectral_flux_onsets spec p; detect_hfc_onsets spec sr p;
                   detect_hpss_onsets spec p] ->
     o = Err InvalidInput \/ exists out, o = Ok out) /\
  (length spec < 2 -> forall out, In (Ok out) [detect_spectral_flux_onsets spec p;
                   detect_hfc_onsets spec sr p; detect_hpss_onsets spec p] -> out = []).
Proof.
  intros spec sr p.
  pose proof (spectral_cases spec p) as S. pose proof (hfc_cases spec sr p) as H.
  pose proof (hpss_cases spec p) as P.
  assert (S' : (exists fr r, spec = fr :: r /\
       (~ (fle f0 p = true /\ fle p f1 = true) \/ fr = [] \/ ~ rect (length fr) spec)) /\
       detect_spectral_flux_onsets spec p = Err InvalidInput \/
     ~ (exists fr r, spec = fr :: r /\
       (~ (fle f0 p = true /\ fle p f1 = true) \/ fr = [] \/ ~ rect (length fr) spec)) /\
     exists out, detect_spectral_flux_onsets spec p = Ok out /\ (length spec < 2 -> out = [])).
  { destruct spec as [|fr spec].
    - right. split. intros (? & ? & ? & _); discriminate. eauto.
    - destruct S as [(A & B)|(A & B & C & D)]; [left; split; auto; eauto|]. right. split.
      + intros (? & ? & [= <- <-] & [E|[E|E]]); auto.
      + destruct D as [(D & ->)|(D & ->)]; [eauto|].
        destruct (tap_total (spectral_flux (fr :: spec)) p) as (out & ->). exists out. split; auto. lia. }
  assert (H' : (exists fr r, spec = fr :: r /\
       (sr = 0%Z \/ ~ (fle f0 p = true /\ fle p f1 = true) \/ fr = [] \/ ~ rect (length fr) spec)) /\
       detect_hfc_onsets spec sr p = Err InvalidInput \/
     ~ (exists fr r, spec = fr :: r /\
       (sr = 0%Z \/ ~ (fle f0 p = true /\ fle p f1 = true) \/ fr = [] \/ ~ rect (length fr) spec)) /\
     exists out, detect_hfc_onsets spec sr p = Ok out /\ (length spec < 2 -> out = [])).
  { destruct spec as [|fr spec].
    - right. split. intros (? & ? & ? & _); discriminate. eauto.
    - destruct H as [(A & B)|(A0 & A & B & C & D)]; [left; split; auto; eauto|]. right. split.
      + intros (? & ? & [= <- <-] & [E|[E|[E|E]]]); auto.
      + destruct D as [(D & ->)|(D & ->)]; [eauto|].
        destruct (tap_total (adj rise (map hfc (fr :: spec))) p) as (out & ->). exists out. split; auto. lia. }
  assert (P' : (spec <> [] /\ ~ (fle f0 p = true /\ fle p f1 = true)) /\
       detect_hpss_onsets spec p = Err InvalidInput \/
     ~ (spec <> [] /\ ~ (fle f0 p = true /\ fle p f1 = true)) /\
     exists out, detect_hpss_onsets spec p = Ok out /\ (length spec < 2 -> out = [])).
  { destruct P as [(A & B)|(A & [(B & C)|(B & [(C & D)|(C & D)])])].
    - right. split. tauto. eauto.
    - left. auto.
    - right. split. tauto. eauto.
    - right. split. tauto. rewrite D. destruct (tap_total (adj rise (map frame_energy spec)) p) as (out & ->).
      exists out. split; auto. lia. }
  clear S H P. split; [|split; [|split; [|split]]].
  - destruct S' as [(A & ->)|(A & out & -> & _)]; split; auto; [discriminate|tauto].
  - destruct H' as [(A & ->)|(A & out & -> & _)]; split; auto; [discriminate|tauto].
  - destruct P' as [(A & ->)|(A & out & -> & _)]; split; auto; [discriminate|tauto].
  - intros o [<- |[<- |[<- |[]]]].
    + destruct S' as [(A & ->)|(A & out & -> & _)]; eauto.
    + destruct H' as [(A & ->)|(A & out & -> & _)]; eauto.
    + destruct P' as [(A & ->)|(A & out & -> & _)]; eauto.
  - intros L out [E|[E|[E|[]]]].
    + destruct S' as [(A & B)|(A & o & B & C)]; rewrite B in E; [discriminate|]. injection E as <-. auto.
    + destruct H' as [(A & B)|(A & o & B & C)]; rewrite B in E; [discriminate|]. injection E as <-. auto.
    + destruct P' as [(A & B)|(A & o & B & C)]; rewrite B in E; [discriminate|]. injection E as <-. auto.
Qed.
Print Assumptions C10_outcomes.

(** The flux curve behind a detector call. *)
Inductive detector := DSpectral | DHfc | DHpss.
Definition run (d : detector) (spec : list (list f32)) (sr : Z) (p : f32) : outcome (list nat) :=
  match d with
  | DSpectral => detect_spectral_flux_onsets spec p
  | DHfc => detect_hfc_onsets spec sr p
  | DHpss => detect_hpss_onsets spec p
  end.
Definition curve (d : detector) (spec : list (list f32)) : list f32 :=
  match d with
  | DSpectral => spectral_flux spec
  | DHfc => adj rise (map hfc spec)
  | DHpss => adj rise (map frame_energy spec)
  end.
Lemma curve_nneg : forall d spec, Forall (fun x => nneg x) (curve d spec).
Proof.
  intros [] spec; apply adj_Forall; intros; (apply l2_rise_nneg || apply rise_nneg).
Qed.
Lemma curve_length : forall d spec, length (curve d spec) = length spec - 1.
Proof. intros [] spec; unfold curve, spectral_flux; rewrite adj_length, map_length; reflexivity. Qed.
Lemma run_ok : forall d spec sr p out, run d spec sr p = Ok out ->
  out = [] \/ (fle f0 p = true /\ fle p f1 = true /\ 2 <= length spec /\
               threshold_and_pick (curve d spec) p = Ok out).
Proof.
  intros [] spec sr p out H; cbn [run curve] in *.
  - pose proof (spectral_cases spec p) as S. destruct spec as [|fr spec]; [left; congruence|].
    destruct S as [(A & B)|(A & B & C & [(D & E)|(D & E)])]; rewrite H in *; try discriminate.
    + left. congruence.
    + right. symmetry in E. tauto.
  - pose proof (hfc_cases spec sr p) as S. destruct spec as [|fr spec]; [left; congruence|].
    destruct S as [(A & B)|(A0 & A & B & C & [(D & E)|(D & E)])]; rewrite H in *; try discriminate.
    + left. congruence.
    + right. symmetry in E. tauto.
  - destruct (hpss_cases spec p) as [(A & B)|(A & [(B & C)|(B & [(C & D)|(C & D)])])];
      rewrite H in *; try discriminate; try (left; congruence).
    right. symmetry in D. tauto.
Qed.
Lemma run_spec : forall d spec sr p out, run d spec sr p = Ok out ->
  exists thr, nneg thr /\ StronglySorted lt out /\
    (out <> [] -> forall i, In i out <-> exists k, i = S k /\ is_onset (curve d spec) thr k).
Proof.
  intros d spec sr p out H. apply run_ok in H. destruct H as [-> |(P0 & P1 & L & H)].
  - exists f0. repeat split; auto; [constructor|easy|easy].
  - destruct (tap_spec _ _ _ (curve_nneg d spec) H) as (thr & [E|(T & _)] & Hs & Hi).
    + apply (f_equal (@length f32)) in E. rewrite curve_length in E. simpl in E. lia.
    + exists thr. auto.
Qed.

(** C10: for each of the three spectrogram detectors, the frames reported are strictly
    increasing and lie between 1 and n_frames - 1. *)
Theorem C10_frames : forall d spec sr p out, run d spec sr p = Ok out ->
  StronglySorted lt out /\ Forall (fun i => 1 <= i < length spec) out.
Proof.
  intros d spec sr p out H. destruct (run_spec _ _ _ _ _ H) as (thr & _ & Hs & Hi).
  split; auto. destruct out as [|x out]; [constructor|]. apply Forall_forall. intros i Hin.
  apply Hi in Hin; [|easy]. destruct Hin as (k & -> & Hk). apply onset_range in Hk.
  rewrite curve_length in Hk. lia.
Qed.
Print Assumptions C10_frames.

(** At every frame reported by the HFC and HPSS detectors the high-frequency content resp.
    the energy is strictly larger than in the frame before. *)
Theorem C10_rising : forall spec sr p out i prev cur,
  nth_error spec i = Some prev -> nth_error spec (S i) = Some cur -> In (S i) out ->
  (detect_hfc_onsets spec sr p = Ok out -> flt (hfc prev) (hfc cur) = true) /\
  (detect_hpss_onsets spec p = Ok out -> flt (frame_energy prev) (frame_energy cur) = true).
Proof.
  intros spec sr p out i prev cur Hp Hc Hin.
  assert (G : forall d (f : list f32 -> f32), curve d spec = adj rise (map f spec) ->
     run d spec sr p = Ok out -> flt (f prev) (f cur) = true).
  { intros d f E H. destruct (run_spec _ _ _ _ _ H) as (thr & T & Hs & Hi).
    apply Hi in Hin; [|intros ->; easy]. destruct Hin as (k & [= <-] & (_ & v & V & Tv & _)).
    rewrite E in V. apply adj_nth in V. destruct V as (a & b & A & B & ->).
    rewrite nth_error_map in A, B. rewrite Hp in A. rewrite Hc in B. cbn [option_map] in *.
    injection A as <-. injection B as <-. apply rise_pos. eapply fle_flt_trans; eauto. }
  split; intros H.
  - now apply (G DHfc hfc).
  - now apply (G DHpss frame_energy).
Qed.
Print Assumptions C10_rising.

(** At every frame reported by the spectral-flux detector some bin of the frame, normalized by
    the frame's peak, is larger than in the frame before. *)
Theorem C10_rising_bin : forall spec p out i prev cur,
  nth_error spec i = Some prev -> nth_error spec (S i) = Some cur -> In (S i) out ->
  detect_spectral_flux_onsets spec p = Ok out ->
  exists b x y, nth_error (norm_frame prev) b = Some x /\ nth_error (norm_frame cur) b = Some y /\ flt x y = true.
Proof.
  intros spec p out i prev cur Hp Hc Hin H.
  destruct (run_spec DSpectral spec 0 p out H) as (thr & T & _ & Hi).
  apply Hi in Hin; [|intros ->; easy]. destruct Hin as (k & [= <-] & (_ & v & V & Tv & _)).
  cbn [curve] in V. unfold spectral_flux in V. apply adj_nth in V. destruct V as (a & b & A & B & ->).
  rewrite nth_error_map in A, B. rewrite Hp in A. rewrite Hc in B. cbn [option_map] in *.
  injection A as <-. injection B as <-.
  assert (P : flt f0 (l2_rise (norm_frame prev) (norm_frame cur)) = true) by (eapply fle_flt_trans; eauto).
  destruct (existsb (fun pc => flt (fst pc) (snd pc)) (combine (norm_frame prev) (norm_frame cur))) eqn:E.
  - apply existsb_exists in E. destruct E as ((x & y) & Hxy & L). cbn [fst snd] in L.
    apply In_nth_error in Hxy. destruct Hxy as (j & Hj). exists j, x, y.
    apply nth_error_combine in Hj. tauto.
  - exfalso. assert (Z : l2_rise (norm_frame prev) (norm_frame cur) = f0).
    { apply l2_flat. intros pc Hpc. destruct (flt (fst pc) (snd pc)) eqn:L; auto.
      assert (C : existsb (fun pc => flt (fst pc) (snd pc)) (combine (norm_frame prev) (norm_frame cur)) = true)
        by (apply existsb_exists; eauto). congruence. }
    rewrite Z in P. discriminate.
Qed.
Print Assumptions C10_rising_bin.

(** C50: neighbouring frames are never both reported, and with percentile p at most the
    fraction 1 - p of the frame transitions is reported. *)
Theorem C50_isolated : forall d spec sr p out i, run d spec sr p = Ok out ->
  In i out -> ~ In (S i) out.
Proof.
  intros d spec sr p out i H Hin Hin2. destruct (run_spec _ _ _ _ _ H) as (thr & _ & _ & Hi).
  assert (O : out <> []) by (intros ->; easy).
  apply Hi in Hin; auto. apply Hi in Hin2; auto.
  destruct Hin as (k & -> & K). destruct Hin2 as (k' & [= <-] & K').
  exact (onset_isolated _ _ _ K K').
Qed.
Print Assumptions C50_isolated.

Theorem C50_count : forall d spec sr p out, run d spec sr p = Ok out ->
  fin p -> (0 <= B2R p <= 1)%R ->
  (Z.of_nat (length spec) <= 16777217)%Z ->
  (INR (length out) <= INR (length spec - 1) * (1 - B2R p))%R.
Proof.
  intros d spec sr p out H Fp P L. apply run_ok in H. destruct H as [-> |(P0 & P1 & L2 & H)].
  - cbn [length INR]. pose proof (pos_INR (length spec - 1)). nra.
  - rewrite <- (curve_length d spec). apply onset_fraction; auto. rewrite curve_length. lia.
    apply curve_nneg.
Qed.
Print Assumptions C50_count.

(** C11: energy-flux onsets. *)
Lemma ef_cases : forall powf samples frame hop db out,
  detect_energy_flux_onsets powf samples frame hop db = Ok out ->
  out = [] \/
  exists thr, let num := (length samples - frame) / hop + 1 in
    let flux := adj rise (map (frame_rms samples frame hop) (seq 0 num)) in
    0 < frame /\ 0 < hop /\ frame <= length samples /\ 2 <= num /\
    out = space_onsets (hop / 2) (sort_by Nat.leb
            (filter (fun o => o <? length samples) (map (fun i => (i + 1) * hop) (raw_onsets flux thr)))).
Proof.
  intros powf samples frame hop db out H. unfold detect_energy_flux_onsets in H.
  destruct samples as [|x samples]; [left; congruence|]. set (s := x :: samples) in *.
  destruct (Nat.eqb_spec frame 0); [discriminate|]. destruct (Nat.eqb_spec hop 0); [discriminate|].
  destruct (Nat.ltb_spec (length s) frame); [left; congruence|].
  destruct (Nat.ltb_spec ((length s - frame) / hop + 1) 2); [left; congruence|].
  destruct (fle _ on_eps) in H; [left; congruence|]. right.
  injection H as <-. eexists. cbv zeta. repeat split; auto; lia.
Qed.

Lemma sorted_gap : forall hop l, 0 < hop -> Forall (fun x => exists k, x = k * hop) l ->
  StronglySorted lt l -> StronglySorted (fun a b => a + hop <= b) l.
Proof.
  intros hop l Hh Hm H. induction H as [|x l H IH Hx]; constructor.
  - apply IH. now apply Forall_inv_tail in Hm.
  - pose proof (Forall_inv Hm) as (k & K). apply Forall_inv_tail in Hm.
    rewrite Forall_forall in *. intros y Hy. destruct (Hm y Hy) as (j & J).
    specialize (Hx y Hy). subst. assert (k < j) by nia. nia.
Qed.

Theorem C11_positions : forall powf samples frame hop db out,
  detect_energy_flux_onsets powf samples frame hop db = Ok out ->
  StronglySorted lt out /\
  Forall (fun o => (exists k, 1 <= k /\ o = k * hop) /\ o + frame <= length samples) out.
Proof.
  intros powf samples frame hop db out H. apply ef_cases in H.
  destruct H as [-> |(thr & H)]; [repeat constructor|]. cbv zeta in H.
  set (num := (length samples - frame) / hop + 1) in *.
  set (flux := adj rise (map (frame_rms samples frame hop) (seq 0 num))) in *.
  destruct H as (Hf & Hh & Hl & Hn & ->).
  assert (LF : length flux = num - 1) by (unfold flux; rewrite adj_length, map_length, seq_length; reflexivity).
  set (raw := filter _ _).
  assert (RM : Forall (fun o => (exists k, 1 <= k /\ o = k * hop) /\ o + frame <= length samples) raw).
  { apply Forall_forall. intros o Ho. apply filter_In in Ho. destruct Ho as (Ho & _).
    apply in_map_iff in Ho. destruct Ho as (i & <- & Hi). apply raw_onsets_in, onset_range in Hi.
    split. exists (i + 1). lia.
    assert ((length samples - frame) / hop * hop <= length samples - frame).
    { rewrite Nat.mul_comm. apply Nat.mul_div_le. lia. }
    assert (i + 1 <= (length samples - frame) / hop) by lia. nia. }
  assert (ND : NoDup raw).
  { apply NoDup_filter. apply FinFun.Injective_map_NoDup; [|apply raw_onsets_nodup].
    intros a b E. apply Nat.mul_cancel_r in E; lia. }
  assert (SL : StronglySorted lt (sort_by Nat.leb raw)).
  { apply sorted_le_nodup_lt. apply nat_sorted. eapply Permutation_NoDup; [|exact ND]. apply sort_by_perm. }
  assert (RS : Forall (fun o => (exists k, 1 <= k /\ o = k * hop) /\ o + frame <= length samples)
                 (sort_by Nat.leb raw)) by (apply sort_by_Forall; auto).
  rewrite space_id; auto.
  eapply StronglySorted_weaken with (R := fun a b => a + hop <= b).
  { intros a b _ _ ?. assert (hop / 2 <= hop) by (apply Nat.div_le_upper_bound; lia). lia. }
  apply sorted_gap; auto. eapply Forall_impl; [|exact RS]. cbn beta.
  intros o ((k & _ & K) & _). eauto.
Qed.
Print Assumptions C11_positions.

(** No onset is lost: every local maximum of the RMS rise above the threshold is reported
    (for the threshold the function used), at hop * (index + 1). *)
Theorem C11_complete : forall powf samples frame hop db out,
  detect_energy_flux_onsets powf samples frame hop db = Ok out -> out <> [] ->
  exists thr, forall o, In o out <->
    exists k, o = (k + 1) * hop /\
      is_onset (adj rise (map (frame_rms samples frame hop)
                         (seq 0 ((length samples - frame) / hop + 1)))) thr k.
Proof.
  intros powf samples frame hop db out H O. pose proof H as H0. apply ef_cases in H.
  destruct H as [-> |(thr & H)]; [easy|]. cbv zeta in H.
  set (num := (length samples - frame) / hop + 1) in *.
  set (flux := adj rise (map (frame_rms samples frame hop) (seq 0 num))) in *.
  destruct H as (Hf & Hh & Hl & Hn & E).
  assert (LF : length flux = num - 1) by (unfold flux; rewrite adj_length, map_length, seq_length; reflexivity).
  set (raw := filter _ _) in E.
  assert (RI : forall o, In o raw <-> exists k, o = (k + 1) * hop /\ is_onset flux thr k).
  { intros o. unfold raw. rewrite filter_In, in_map_iff. split.
    - intros ((k & <- & Hk) & _). exists k. split; auto. now apply raw_onsets_in.
    - intros (k & -> & Hk). split. exists k. split; auto. now apply raw_onsets_in.
      apply onset_range in Hk. apply Nat.ltb_lt.
      assert ((length samples - frame) / hop * hop <= length samples - frame).
      { rewrite Nat.mul_comm. apply Nat.mul_div_le. lia. }
      assert (k + 1 <= (length samples - frame) / hop) by lia. nia. }
  assert (ND : NoDup raw).
  { apply NoDup_filter. apply FinFun.Injective_map_NoDup; [|apply raw_onsets_nodup].
    intros a b E'. apply Nat.mul_cancel_r in E'; lia. }
  assert (SL : StronglySorted lt (sort_by Nat.leb raw)).
  { apply sorted_le_nodup_lt. apply nat_sorted. eapply Permutation_NoDup; [|exact ND]. apply sort_by_perm. }
  exists thr. intros o. rewrite E, space_id; [rewrite sort_by_in; apply RI|].
  eapply StronglySorted_weaken with (R := fun a b => a + hop <= b).
  { intros a b _ _ ?. assert (hop / 2 <= hop) by (apply Nat.div_le_upper_bound; lia). lia. }
  apply sorted_gap; auto. apply sort_by_Forall. apply Forall_forall. intros x Hx. apply RI in Hx.
  destruct Hx as (k & -> & _). eauto.
Qed.
Print Assumptions C11_complete.

(** Outcomes: only a zero frame or hop size is rejected, and only for non-empty audio. *)
Theorem C11_outcomes : forall powf samples frame hop db,
  (detect_energy_flux_onsets powf samples frame hop db = Err InvalidInput <->
     samples <> [] /\ (frame = 0 \/ hop = 0)) /\
  (~ (samples <> [] /\ (frame = 0 \/ hop = 0)) ->
     exists out, detect_energy_flux_onsets powf samples frame hop db = Ok out).
Proof.
  intros powf samples frame hop db. unfold detect_energy_flux_onsets.
  destruct samples as [|x s]. { split; [split; [discriminate|tauto]|eauto]. }
  destruct (Nat.eqb_spec frame 0). { split; [split; auto; split; [easy|auto]|intros H; exfalso; apply H; split; [easy|auto]]. }
  destruct (Nat.eqb_spec hop 0). { split; [split; auto; split; [easy|auto]|intros H; exfalso; apply H; split; [easy|auto]]. }
  match goal with |- (?e = _ <-> _) /\ _ => assert (G : exists out, e = Ok out) end.
  { destruct (_ <? _); eauto. destruct (_ <? _); eauto. cbv zeta. destruct (fle _ _); eauto. }
  destruct G as (out & ->). split; [split; [discriminate|tauto]|eauto].
Qed.
Print Assumptions C11_outcomes.

(** Concrete cases: a click in frame 2 of five, found by all three detectors; and a step in
    the time domain. *)
Definition quiet2 : list f32 := [lit 1 (-4); lit 1 (-4)].
Definition click : list f32 := [f1; z2f 2].
Example C10_case :
  detect_spectral_flux_onsets [quiet2; [f1; f0]; [f1; f1]; [f1; f1]; [f1; f1]] fhalf = Ok [2] /\
  detect_hfc_onsets [quiet2; quiet2; click; quiet2; quiet2] 44100 fhalf = Ok [2] /\
  detect_hpss_onsets [quiet2; quiet2; click; quiet2; click] (lit 1 (-2)) = Ok [2; 4].
Proof. vm_compute. auto. Qed.
Example C11_case :
  detect_energy_flux_onsets (fun _ _ => fhalf) [f0; f0; f0; f0; f1; f1; f1; f1; f0; f0; f0; f0] 2 2 f0
  = Ok [4].
Proof. vm_compute. auto. Qed.
