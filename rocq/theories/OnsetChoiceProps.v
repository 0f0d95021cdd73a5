(** C68: which onsets analyze_audio works with. *)
From Coq Require Import ZArith Sorted Permutation.
From Verif Require Import Rust F32 ListFacts OnsetsProofs Onsets OnsetsProps Consensus ConsensusSpec ConsensusProps Hpss Config KeyStage
  Pipeline.
Local Open Scope nat_scope.

Lemma sort_dedup_spec : forall l, StronglySorted lt (sort_dedup l) /\ (forall y, In y (sort_dedup l) <-> In y l).
Proof.
  intros l. unfold sort_dedup. destruct (dedup_spec _ (nat_sorted l)) as (A & B). split; [exact A|].
  intros y. rewrite B. apply sort_by_in.
Qed.

(** The positions that take part in the vote: multiples of the hop size, from the second frame on, inside the signal. *)
Definition on_frame (hop n o : nat) : Prop := (exists k, 1 <= k /\ o = k * hop) /\ o < n.

Lemma to_samples_frames : forall fs hop n m, Forall (fun i => 1 <= i < m) fs -> Forall (on_frame hop n) (to_samples fs hop n).
Proof.
  intros fs hop n m H. apply Forall_forall. intros o Ho. unfold to_samples in Ho. rewrite (proj2 (sort_dedup_spec _)) in Ho.
  apply filter_In in Ho as (Ho & L). apply in_map_iff in Ho as (f & <- & Hf). rewrite Forall_forall in H.
  split; [exists f; split; [apply H, Hf | reflexivity] | now apply Nat.ltb_lt].
Qed.

Lemma on_error_ok {A} (x : outcome A) d a : on_error x d = Ok a -> x = Ok a \/ (exists e, x = Err e) /\ a = d.
Proof. destruct x; cbn; intros H; try discriminate; [left | right]; injection H as <-; eauto. Qed.

Lemma input_frames : forall c rate n spec energy input, consensus_input c rate n spec energy = Ok input ->
  Forall (on_frame (cf_hop_size c) n) energy ->
  oc_energy_flux input = map Z.of_nat energy /\
  forall r, In r (reported input) -> exists o, fst r = Z.of_nat o /\ on_frame (cf_hop_size c) n o.
Proof.
  intros c rate n spec energy input H E. unfold consensus_input in H.
  destruct (on_error (detect_spectral_flux_onsets _ _) []) as [sf| |] eqn:Hs; try discriminate. cbn [obind] in H.
  destruct (on_error (detect_hfc_onsets _ _ _) []) as [hf| |] eqn:Hh; try discriminate. cbn [obind] in H.
  match type of H with obind ?x _ = _ => destruct x as [hp| |] eqn:Hp; try discriminate end. cbn [obind] in H.
  injection H as <-. cbn [oc_energy_flux]. split; [reflexivity|].
  assert (S1 : Forall (fun i => 1 <= i < length spec) sf).
  { apply on_error_ok in Hs as [Hs | (_ & ->)]; [|constructor]. apply (C10_frames DSpectral spec 0 _ _ Hs). }
  assert (S2 : Forall (fun i => 1 <= i < length spec) hf).
  { apply on_error_ok in Hh as [Hh | (_ & ->)]; [|constructor]. apply (C10_frames DHfc spec _ _ _ Hh). }
  assert (S3 : Forall (on_frame (cf_hop_size c) n) hp).
  { destruct (cf_enable_hpss_onsets c); [|injection Hp as <-; constructor].
    apply on_error_ok in Hp as [Hp | (_ & ->)]; [|constructor].
    destruct (hpss_decompose _ _) as [[h p]| |]; try discriminate. cbn [obind snd] in Hp.
    destruct (detect_hpss_onsets p _) as [fs| |] eqn:Hd; try discriminate. cbn [obind] in Hp. injection Hp as <-.
    eapply to_samples_frames. apply (C10_frames DHpss p 0 _ _ Hd). }
  apply to_samples_frames with (hop := cf_hop_size c) (n := n) in S1, S2.
  assert (G : forall l (m : nat) r, Forall (on_frame (cf_hop_size c) n) l -> In r (map (fun s => (s, m)) (map Z.of_nat l)) ->
     exists o, fst r = Z.of_nat o /\ on_frame (cf_hop_size c) n o).
  { intros l m r F Hr. apply in_map_iff in Hr as (z & <- & Hz). apply in_map_iff in Hz as (o & <- & Ho).
    rewrite Forall_forall in F. exists o. split; [reflexivity | auto]. }
  intros r Hr. unfold reported in Hr. cbn [oc_energy_flux oc_spectral_flux oc_hfc oc_hpss] in Hr.
  repeat (apply in_app_or in Hr; destruct Hr as [Hr|Hr]); (eapply G; [|exact Hr]; assumption).
Qed.

(** The vote [analyze_audio] holds over the four detectors, when onset consensus is on and there is a spectrogram. *)
Definition vote_held (c : analysis_config) (rate n : nat) (spec : list (list f32)) (energy : list nat) input cands : Prop :=
  cf_enable_onset_consensus c = true /\ spec <> [] /\
  consensus_input c rate n spec energy = Ok input /\
  vote_onsets input (cf_onset_consensus_weights c) (cf_onset_consensus_tolerance_ms c) (Z.of_nat rate) = Ok cands.

(** The onsets are those of the clusters with at least two methods; of all clusters if there is no such cluster; the
    energy-flux onsets if there is no vote. *)
Theorem C68_choice : forall c rate n spec energy onsets,
  choose_onsets c rate n spec energy = Ok onsets ->
  (exists input cands, vote_held c rate n spec energy input cands /\
     oc_energy_flux input = map Z.of_nat energy /\
     let confirmed := exists cd, In cd cands /\ 2 <= cd_voted_by cd in
     StronglySorted lt onsets /\
     (confirmed -> forall o, In o onsets <-> exists cd, In cd cands /\ 2 <= cd_voted_by cd /\ o = Z.to_nat (cd_time_samples cd)) /\
     (~ confirmed -> forall o, In o onsets <-> exists cd, In cd cands /\ o = Z.to_nat (cd_time_samples cd))) \/
  ((forall input cands, ~ vote_held c rate n spec energy input cands) /\ onsets = energy).
Proof.
  intros c rate n spec energy onsets H. unfold choose_onsets in H.
  destruct (cf_enable_onset_consensus c) eqn:Ec; cbn [andb] in H.
  2:{ right. injection H as <-. split; [|reflexivity]. intros i k (Q & _). congruence. }
  destruct spec as [|fr spec]; cbn [length Nat.eqb negb] in H.
  { right. injection H as <-. split; [|reflexivity]. intros i k (_ & Q & _). congruence. }
  destruct (consensus_input _ _ _ _ _) as [input| |] eqn:Ei; try discriminate. cbn [obind] in H.
  destruct (vote_onsets _ _ _ _) as [cands| |] eqn:Ev; try discriminate.
  2:{ right. injection H as <-. split; [|reflexivity]. intros i k (_ & _ & Q1 & Q2). rewrite Ei in Q1. injection Q1 as <-. congruence. }
  left. exists input, cands. split; [repeat split; auto; discriminate|].
  assert (EI : oc_energy_flux input = map Z.of_nat energy).
  { unfold consensus_input in Ei.
    destruct (on_error (detect_spectral_flux_onsets _ _) []); try discriminate. cbn [obind] in Ei.
    destruct (on_error (detect_hfc_onsets _ _ _) []); try discriminate. cbn [obind] in Ei.
    match type of Ei with obind ?x _ = _ => destruct x; try discriminate end. cbn [obind] in Ei. injection Ei as <-. reflexivity. }
  split; [exact EI|]. cbv zeta. injection H as H.
  destruct (C12_count _ _ _ _ _ Ev) as (_ & CN).
  unfold chosen_onsets in H.
  set (times := fun l => sort_dedup (map (fun x => Z.to_nat (cd_time_samples x)) l)) in H.
  assert (TI : forall l o, In o (times l) <-> exists cd, In cd l /\ o = Z.to_nat (cd_time_samples cd)).
  { intros l o. unfold times. rewrite (proj2 (sort_dedup_spec _)), in_map_iff. split; intros (x & A & B); exists x; auto. }
  assert (TS : forall l, StronglySorted lt (times l)) by (intros; apply sort_dedup_spec).
  assert (NE : forall l, times l = [] -> l = []).
  { intros [|x l] Q; auto. exfalso. assert (I : In (Z.to_nat (cd_time_samples x)) (times (x :: l))) by (apply TI; exists x; cbn; auto).
    rewrite Q in I. destruct I. }
  assert (FI : forall o, In o (times (filter (fun x => 2 <=? cd_voted_by x) cands)) <->
            exists cd, In cd cands /\ 2 <= cd_voted_by cd /\ o = Z.to_nat (cd_time_samples cd)).
  { intros o. rewrite TI. split.
    - intros (cd & I & Q). apply filter_In in I as (I & V). apply Nat.leb_le in V. eauto.
    - intros (cd & I & V & Q). exists cd. split; [|exact Q]. apply filter_In. split; [exact I | now apply Nat.leb_le]. }
  change (match match times (filter (fun x => 2 <=? cd_voted_by x) cands) with
                | [] => times cands | _ :: _ => times (filter (fun x => 2 <=? cd_voted_by x) cands) end with
          | [] => energy | _ :: _ => match times (filter (fun x => 2 <=? cd_voted_by x) cands) with
                | [] => times cands | _ :: _ => times (filter (fun x => 2 <=? cd_voted_by x) cands) end end = onsets) in H.
  clearbody times.
  destruct (times (filter (fun x => 2 <=? cd_voted_by x) cands)) as [|x strong] eqn:Es.
  - assert (NC : ~ exists cd, In cd cands /\ 2 <= cd_voted_by cd).
    { intros (cd & I & V). assert (Q : In (Z.to_nat (cd_time_samples cd)) []) by (apply FI; eauto). destruct Q. }
    destruct (times cands) as [|y all] eqn:Ea.
    + apply NE in Ea. subst cands.
      assert (Rn : energy = []).
      { destruct energy; [reflexivity|]. exfalso.
        assert (Q : reported input = []) by now apply CN. unfold reported in Q. rewrite EI in Q. discriminate. }
      subst. split; [constructor|]. split; [intros Q; contradiction|]. intros _ o. split; [intros [] | intros (cd & [] & _)].
    + subst onsets. rewrite <- Ea. split; [apply TS|]. split; [intros Q; contradiction|]. intros _. apply TI.
  - assert (C : exists cd, In cd cands /\ 2 <= cd_voted_by cd).
    { destruct (proj1 (FI x) (or_introl eq_refl)) as (cd & I & V & _). eauto. }
    subst onsets. rewrite <- Es. split; [apply TS|]. split; [intros _; now rewrite Es | intros Q; contradiction].
Qed.
Print Assumptions C68_choice.

(** The onsets are strictly ascending and lie between the second frame and the end of the signal. *)
Theorem C68_range : forall powf c rate samples spec energy onsets,
  detect_energy_flux_onsets powf samples (cf_frame_size c) (cf_hop_size c) (z2f (-20)) = Ok energy ->
  choose_onsets c rate (length samples) spec energy = Ok onsets ->
  StronglySorted lt onsets /\ Forall (fun o => cf_hop_size c <= o < length samples) onsets /\
  (energy <> [] -> onsets <> []).
Proof.
  intros powf c rate samples spec energy onsets He H.
  assert (Fe : StronglySorted lt energy /\ Forall (on_frame (cf_hop_size c) (length samples)) energy).
  { destruct (C11_positions _ _ _ _ _ _ He) as (A & B). split; [exact A|].
    destruct energy as [|x e]; [constructor|].
    assert (Fr : cf_frame_size c <> 0).
    { intros Z0. destruct samples as [|s0 s]; [discriminate He|].
      assert (X : detect_energy_flux_onsets powf (s0 :: s) (cf_frame_size c) (cf_hop_size c) (z2f (-20)) = Err InvalidInput).
      { apply C11_outcomes. split; [easy | now left]. }
      rewrite He in X. discriminate. }
    eapply Forall_impl; [|exact B]. intros o (K & L). split; [exact K | lia]. }
  assert (OF : forall o, on_frame (cf_hop_size c) (length samples) o -> cf_hop_size c <= o < length samples).
  { intros o ((k & K & ->) & L). split; [nia | exact L]. }
  destruct Fe as (Se & Fe).
  destruct (C68_choice _ _ _ _ _ _ H) as [(input & cands & V & EI & X) | (_ & ->)].
  - cbv zeta in X. destruct X as (S1 & C1 & C2). destruct V as (_ & _ & Hi & Hv).
    destruct (input_frames _ _ _ _ _ _ Hi Fe) as (_ & RF).
    destruct (C12_partition _ _ _ _ _ Hv) as (parts & cands' & P1 & P2 & Rp).
    assert (T : forall cd, In cd cands -> cf_hop_size c <= Z.to_nat (cd_time_samples cd) < length samples).
    { intros cd I. apply (Permutation_in _ P1) in I.
      assert (G : exists p, In p parts /\ represents cd p).
      { clear - I Rp. induction Rp as [|x q k p R F IH]; [destruct I|]. destruct I as [->|I]; [exists q; cbn; auto|].
        destruct (IH I) as (p' & A & B). exists p'. cbn. auto. }
      destruct G as (p & Ip & (Np & _ & Lo & Hi' & _)).
      assert (M : forall r, In r p -> (Z.of_nat (cf_hop_size c) <= fst r <= Z.of_nat (length samples) - 1)%Z).
      { intros r Ir. assert (Q : In r (reported input)).
        { apply (Permutation_in _ P2). apply in_concat. eauto. }
        destruct (RF r Q) as (o & -> & O). apply OF in O. lia. }
      assert (L1 := Lo (Z.of_nat (cf_hop_size c)) ltac:(intros r Ir; apply M, Ir)).
      assert (L2 := Hi' (Z.of_nat (length samples) - 1)%Z ltac:(intros r Ir; apply M, Ir)). lia. }
    split; [exact S1|].
    destruct (existsb (fun cd => 2 <=? cd_voted_by cd) cands) eqn:Ex.
    + assert (Cf : exists cd, In cd cands /\ 2 <= cd_voted_by cd).
      { apply existsb_exists in Ex as (cd & I & L). apply Nat.leb_le in L. eauto. }
      specialize (C1 Cf). split.
      * apply Forall_forall. intros o Io. apply C1 in Io as (cd & I & _ & ->). now apply T.
      * intros _ ->. destruct Cf as (cd & I & L). destruct (proj2 (C1 (Z.to_nat (cd_time_samples cd))) ltac:(eauto)).
    + assert (Nf : ~ exists cd, In cd cands /\ 2 <= cd_voted_by cd).
      { intros (cd & I & L). assert (Q : existsb (fun cd => 2 <=? cd_voted_by cd) cands = true).
        { apply existsb_exists. exists cd. split; [exact I | now apply Nat.leb_le]. } congruence. }
      specialize (C2 Nf). split.
      * apply Forall_forall. intros o Io. apply C2 in Io as (cd & I & ->). now apply T.
      * intros Ne ->. destruct cands as [|cd cands]; [|destruct (proj2 (C2 (Z.to_nat (cd_time_samples cd))) ltac:(exists cd; cbn; auto))].
        destruct (C12_count _ _ _ _ _ Hv) as (_ & CN). apply Ne.
        destruct energy; [reflexivity|]. exfalso. assert (Q : reported input = []) by now apply CN.
        unfold reported in Q. rewrite EI in Q. discriminate.
  - split; [exact Se|]. split; [|auto]. eapply Forall_impl; [|exact Fe]. exact OF.
Qed.
Print Assumptions C68_range.

(** Clicks in frames 1 and 6; the energy detector reports the first and 4096, which nothing confirms.  Without a second
    method every cluster counts. *)
Definition clicks : list (list f32) :=
  [[f0; f0]; [f1; f1]; [f0; f0]; [f0; f0]; [f0; f0]; [f0; f0]; [z2f 2; z2f 2]; [f0; f0]; [f0; f0]; [f0; f0]; [f0; f0];
   [f0; f0]; [f0; f0]].
Example C68_case :
  choose_onsets default_config (8 * 1000) 4500 clicks [512; 64 * 64] = Ok [512; 6 * 512] /\
  choose_onsets default_config (8 * 1000) 4500 [[f0]; [f0]] [512; 64 * 64] = Ok [512; 64 * 64].
Proof. vm_compute. split; reflexivity. Qed.
