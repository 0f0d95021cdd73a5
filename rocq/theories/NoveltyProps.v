(** C25, C55: novelty curves. *)
From Coq Require Import ZArith Bool List Arith Lia Reals Lra.
From Flocq Require Import Core IEEE754.BinarySingleNaN.
From Verif Require Import Rust F32 F32Facts F32More ListFacts Libm Onsets OnsetsProofs
  PeakPicking PeakPickingProofs CombFilterProofs Novelty NoveltyProofs.
Import ListNotations.

(** The eight curves novelty.rs offers. *)
Inductive curve :=
| Spectral | Energy | EnergyBand (lo hi : nat) | Hfc (rate : Z) | HfcBand (lo hi : nat)
| Super (k : Z) | SuperBand (k : Z) (lo hi : nat)
| MelSuper (rate : Z) (n_mels : nat) (fmin_hz fmax_hz : f32) (k : Z).
Definition run (lm : libm) (c : curve) (spec : list (list f32)) : outcome (list f32) :=
  match c with
  | Spectral => spectral_flux_novelty spec
  | Energy => energy_flux_novelty spec
  | EnergyBand a b => energy_flux_novelty_band spec a b
  | Hfc r => hfc_novelty spec r
  | HfcBand a b => hfc_novelty_band spec a b
  | Super k => superflux_novelty (m_ln lm) spec k
  | SuperBand k a b => superflux_novelty_band (m_ln lm) spec k a b
  | MelSuper r n lo hi k => mel_superflux_novelty lm spec r n lo hi k
  end.
(** A band that keeps at most one of the [n] bins. *)
Definition too_narrow (c : curve) (n : nat) : Prop :=
  match c with
  | EnergyBand a b | HfcBand a b | SuperBand _ a b => Nat.min b n <= Nat.min a n + 1
  | _ => False
  end.

(** [n] bins in every frame. *)
Definition rect (n : nat) (spec : list (list f32)) : Prop := Forall (fun fr => length fr = n) spec.

Lemma rectangular_iff : forall n spec, rectangular n spec = true <-> rect n spec.
Proof.
  intros n spec. unfold rectangular, rect. rewrite forallb_forall, Forall_forall.
  split; intros H x I; specialize (H x I); now apply Nat.eqb_eq.
Qed.

Lemma checked_ok : forall spec body out, checked spec body = Ok out ->
  (length spec < 2 /\ out = []) \/
  (exists n, 2 <= length spec /\ 0 < n /\ rect n spec /\ body n = Ok out).
Proof.
  intros [|fr [|fr2 r]] body out H; cbn [checked] in H.
  - left. split; [cbn; lia|congruence].
  - left. split; [cbn; lia|congruence].
  - right. exists (length fr). destruct (Nat.eqb_spec (length fr) 0); [discriminate|].
    destruct (rectangular (length fr) (fr :: fr2 :: r)) eqn:R; cbn [negb] in H; [|discriminate].
    repeat split; auto; try lia. cbn [length]; lia. now apply rectangular_iff.
Qed.
Lemma checked_run : forall spec body n, 2 <= length spec -> 0 < n -> rect n spec -> checked spec body = body n.
Proof.
  intros [|fr [|fr2 r]] body n L N R; cbn [length] in L; try lia. unfold checked.
  assert (E : length fr = n) by now inversion R. rewrite E.
  destruct (Nat.eqb_spec n 0); [lia|]. now rewrite (proj2 (rectangular_iff _ _) R).
Qed.

Lemma superflux_curve_ok : forall lo hi k frames out, superflux_curve lo hi k frames = Ok out ->
  out = normalize (adj (superflux_dist lo hi (Z.max k 1)) frames).
Proof. intros lo hi k frames out H. unfold superflux_curve in H. destruct (_ <? _)%Z; [discriminate|congruence]. Qed.

Lemma normalize_adj_length : forall A (f : A -> A -> f32) l, length (normalize (adj f l)) = length l - 1.
Proof. intros. now rewrite normalize_length, adj_length. Qed.

(** The raw (un-normalized) curve behind each result. *)
Lemma run_ok : forall lm c spec out, run lm c spec = Ok out ->
  (length spec < 2 /\ out = []) \/
  (exists n, 2 <= length spec /\ 0 < n /\ rect n spec /\
    ((too_narrow c n /\ out = []) \/ (~ too_narrow c n /\
     match c with
     | Spectral => out = normalize (adj l2_rise (map norm_frame spec))
     | Energy => out = normalize (adj rise (map frame_energy spec))
     | EnergyBand a b => out = normalize (adj rise (map (fun fr => frame_energy (slice fr (Nat.min a n) (Nat.min b n))) spec))
     | Hfc _ => out = normalize (adj rise (map hfc spec))
     | HfcBand a b => out = normalize (adj rise (map (fun fr => hfc_from (Nat.min a n) f0 (slice fr (Nat.min a n) (Nat.min b n))) spec))
     | Super k => out = normalize (adj (superflux_dist 0 n (Z.max k 1)) (map (log_frame (m_ln lm)) spec))
     | SuperBand k a b => out = normalize (adj (superflux_dist (Nat.min a n) (Nat.min b n) (Z.max k 1)) (map (log_frame (m_ln lm)) spec))
     | MelSuper r nm lo hi k => exists edges, mel_edges lm r n (Nat.max nm 4) lo hi = Ok edges /\
         out = normalize (adj (superflux_dist 0 (Nat.max nm 4) (Z.max k 1)) (map (apply_logmag (m_ln lm) edges (Nat.max nm 4)) spec))
     end))).
Proof.
  intros lm c spec out H.
  assert (B : forall n a b body, in_band n a b body = Ok out ->
     (Nat.min b n <= Nat.min a n + 1 /\ out = []) \/
     (~ Nat.min b n <= Nat.min a n + 1 /\ body (Nat.min a n) (Nat.min b n) = Ok out)).
  { intros n a b body E. unfold in_band in E. destruct (Nat.leb_spec (Nat.min b n) (Nat.min a n + 1)).
    left; split; auto; congruence. right; split; auto; lia. }
  destruct c; cbn [run too_narrow] in *;
    try (apply checked_ok in H; destruct H as [H|(n & L & N & R & H)]; [now left|right; exists n; repeat split; auto]).
  - right. split; auto. change (normalize (adj l2_rise (map norm_frame spec))) with (normalize (spectral_flux spec)). congruence.
  - right. split; auto. congruence.
  - destruct (B _ _ _ _ H) as [(X & Y)|(X & Y)]; [left|right]; split; auto; congruence.
  - unfold hfc_novelty in H. destruct spec as [|fr spec]; [left; split; [cbn; lia|congruence]|].
    destruct (_ =? _)%Z; [discriminate|]. apply checked_ok in H. destruct H as [H|(n & L & N & R & H)]; [now left|].
    right. exists n. repeat split; auto. right. split; auto. congruence.
  - destruct (B _ _ _ _ H) as [(X & Y)|(X & Y)]; [left|right]; split; auto; congruence.
  - right. split; auto. now apply superflux_curve_ok in H.
  - destruct (B _ _ _ _ H) as [(X & Y)|(X & Y)]; [left|right]; split; auto. now apply superflux_curve_ok in Y.
  - right. split; auto. destruct (_ =? _)%Z; [discriminate|]. destruct (n <? 2); [discriminate|]. cbv zeta in H.
    destruct (mel_edges lm rate n (Nat.max n_mels 4) fmin_hz fmax_hz) as [edges|e|]; cbn [obind] in H; [|discriminate H|discriminate H].
    exists edges. split; auto. now apply superflux_curve_ok in H.
Qed.

(** Every curve has exactly one value per frame transition. *)
Theorem C25_shape : forall lm c spec out n, run lm c spec = Ok out -> rect n spec -> ~ too_narrow c n ->
  length out = length spec - 1.
Proof.
  intros lm c spec out n H R T. apply run_ok in H. destruct H as [(L & ->)|(n' & L & N & R' & H)]; [cbn; lia|].
  assert (n' = n). { destruct spec as [|fr spec]; [cbn in L; lia|]. inversion R; inversion R'; congruence. } subst n'.
  destruct H as [(X & _)|(_ & H)]; [contradiction|].
  destruct c; try (subst out; rewrite normalize_adj_length, ?map_length; reflexivity).
  destruct H as (edges & _ & ->). rewrite normalize_adj_length, ?map_length; reflexivity.
Qed.
Print Assumptions C25_shape.

(** A magnitude spectrogram whose entries are at most 2^39. *)
Definition moderate (spec : list (list f32)) : Prop :=
  Forall (Forall (fun x => fle f0 x = true /\ fle x (lit 1 39) = true)) spec.
(** The bounds used for the platform logarithm: 0 <= ln x <= 100 for finite x >= 1. *)
Definition ln_bounds (lm : libm) : Prop := forall x, fisfin x = true -> fle f1 x = true ->
  fle f0 (m_ln lm x) = true /\ fle (m_ln lm x) (z2f 100) = true.

Lemma moderate_upto : forall spec, moderate spec -> Forall (Forall (upto 39)) spec.
Proof.
  intros spec H. eapply Forall_impl; [|exact H]. intros fr F. eapply Forall_impl; [|exact F].
  intros x (A & B). apply upto_le with (lit 1 39); auto. split; [reflexivity|].
  replace (B2R (lit 1 39)) with (bpow radix2 39). pose proof (bpow_gt_0 radix2 39). lra.
  rewrite <- SF2R_B2SF. replace (B2SF (lit 1 39)) with (SpecFloat.S754_finite false 8388608%positive 16%Z) by (vm_compute; reflexivity).
  cbn. unfold F2R; cbn. lra.
Qed.
Lemma upto51 : forall fr, Forall (upto 39) fr -> Forall (upto 51) fr.
Proof. intros fr H. eapply Forall_impl; [|exact H]. intros x U. eapply upto_mono; [|exact U]. lia. Qed.

(** The un-normalized values of every curve are finite and non-negative. *)
Lemma run_raw : forall lm c spec out, ln_bounds lm -> run lm c spec = Ok out -> moderate spec ->
  (forall n, rect n spec -> (Z.of_nat n <= 2 ^ 24)%Z) ->
  exists raw, out = normalize raw /\ Forall (fun x => nneg x /\ fin x) raw.
Proof.
  intros lm c spec out LN H M Hn. apply run_ok in H.
  destruct H as [(_ & ->)|(n & L & N & R & H)]; [exists []; split; [reflexivity|constructor]|].
  specialize (Hn n R). destruct H as [(_ & ->)|(T & H)]; [exists []; split; [reflexivity|constructor]|].
  apply moderate_upto in M.
  assert (G : forall A (f : A -> A -> f32) (P : A -> Prop) k l, (forall a b, P a -> P b -> upto k (f a b)) -> Forall P l ->
     Forall (fun x => nneg x /\ fin x) (adj f l)).
  { intros A f P k l Hf HP. apply (Forall_upto_norm k). eapply adj_Forall2; eauto. }
  assert (LF : Forall (Forall (upto 7)) (map (log_frame (m_ln lm)) spec)).
  { apply Forall_map. eapply Forall_impl; [|exact M]. intros fr F. apply log_frame_upto; [exact LN|].
    eapply Forall_upto_norm; eauto. }
  assert (EN : forall g, (forall fr, Forall (upto 39) fr -> length fr = n -> upto 127 (g fr)) -> Forall (upto 127) (map g spec)).
  { intros g Hg. apply Forall_map, Forall_forall. intros fr I. apply Hg.
    exact (proj1 (Forall_forall _ _) M fr I). exact (proj1 (Forall_forall _ _) R fr I). }
  destruct c; try (eexists; split; [exact H|]).
  - apply (G _ _ (Forall (upto 0)) 25%Z); [apply l2_rise_upto|]. apply Forall_map. eapply Forall_impl; [|exact M].
    intros fr F. apply norm_frame_unit. eapply Forall_upto_norm; eauto.
  - apply (G _ _ (upto 127) 127%Z); [apply rise_upto|]. apply EN. intros fr F _. apply energy_upto, upto51, F.
  - apply (G _ _ (upto 127) 127%Z); [apply rise_upto|]. apply EN. intros fr F _. apply energy_upto, upto51, slice_Forall, F.
  - apply (G _ _ (upto 127) 127%Z); [apply rise_upto|]. apply EN. intros fr F E. apply hfc_upto; auto. rewrite E; lia.
  - apply (G _ _ (upto 127) 127%Z); [apply rise_upto|]. apply EN. intros fr F E. apply hfc_upto; [now apply slice_Forall|].
    rewrite slice_length by (rewrite E; lia). lia.
  - apply (G _ _ (Forall (upto 7)) (2 * 7 + 25)%Z); auto. intros a b _ B. apply superflux_upto; auto; lia.
  - apply (G _ _ (Forall (upto 7)) (2 * 7 + 25)%Z); auto. intros a b _ B. apply superflux_upto; auto; lia.
  - destruct H as (edges & E & H). eexists. split; [exact H|].
    apply (G _ _ (Forall (upto 32)) (2 * 32 + 25)%Z). { intros a b _ B. apply superflux_upto; auto; lia. }
    apply Forall_map. eapply Forall_impl; [|exact M]. intros fr F. unfold apply_logmag. apply Forall_map, Forall_forall.
    intros m _. apply (mel_slot_upto _ n); auto. eapply mel_edges_le; eauto. eapply Forall_upto_norm; eauto.
Qed.

(** Every value is in [0,1], and the curve either peaks at exactly 1 or is below 1e-10 throughout. *)
Theorem C25_unit : forall lm c spec out, ln_bounds lm -> moderate spec ->
  (forall n, rect n spec -> (Z.of_nat n <= 2 ^ 24)%Z) -> run lm c spec = Ok out ->
  Forall (fun x => fle f0 x = true /\ fle x f1 = true) out /\
  (In f1 out \/ Forall (fun x => fle x (lit 14411519 (-57)) = true) out).
Proof.
  intros lm c spec out LN M Hn H. destruct (run_raw lm c spec out LN H M Hn) as (raw & -> & F).
  destruct (normalize_spec raw F) as (A & B & _). split; auto.
  destruct B as [(B & E)|B]; auto. right. rewrite E. exact B.
Qed.
Print Assumptions C25_unit.

(** The overflow condition made exact: the energy and HFC curves are in [0,1] for every finite
    non-negative spectrogram in which no frame's (weighted) energy overflows. *)
Definition weighted_energy (start : nat) (fr : list f32) : f32 :=
  fsum (map (fun km => fmul (fmul (n2f (fst km)) (snd km)) (snd km)) (combine (seq start (length fr)) fr)).
Theorem C25_no_overflow : forall lm c spec out n,
  Forall (Forall (fun x => fisfin x = true /\ fle f0 x = true)) spec -> rect n spec ->
  (Z.of_nat n <= 2 ^ 64)%Z ->
  Forall (fun fr => fisfin (match c with
    | Energy => fsum (map (fun x => fmul x x) fr)
    | EnergyBand a b => fsum (map (fun x => fmul x x) (slice fr (Nat.min a n) (Nat.min b n)))
    | Hfc _ => weighted_energy 0 fr
    | HfcBand a b => weighted_energy (Nat.min a n) (slice fr (Nat.min a n) (Nat.min b n))
    | _ => fnan end) = true) spec ->
  run lm c spec = Ok out ->
  Forall (fun x => fle f0 x = true /\ fle x f1 = true) out.
Proof.
  intros lm c spec out n M Rn Hn O H. apply run_ok in H.
  destruct H as [(_ & ->)|(n' & L & N & R & H)]; [constructor|].
  assert (n' = n). { destruct spec as [|fr spec]; [cbn in L; lia|]. inversion R; inversion Rn; congruence. } subst n'.
  destruct H as [(_ & ->)|(T & H)]; [constructor|].
  assert (G : forall g, (forall fr, In fr spec -> nneg (g fr) /\ fin (g fr)) ->
     Forall in01 (normalize (adj rise (map g spec)))).
  { intros g Hg. apply normalize_spec. apply (adj_Forall2 _ _ _ (fun x => nneg x /\ fin x)).
    - intros a b (Na & Fa) (Nb & Fb). assert (X : fle (rise a b) b = true).
      { apply fmax_lub; auto. intros Ns. apply fsub_le_l; auto. now apply fin_nn. }
      split; [apply rise_nneg|]. apply (fin_between f0 _ b); auto. apply rise_nneg.
    - apply Forall_map, Forall_forall. auto. }
  assert (Sq : forall fr, Forall (fun x => fin x /\ nneg x) fr -> nneg (fsum (map (fun x => fmul x x) fr))).
  { intros fr F. apply fsum_nneg, Forall_map. eapply Forall_impl; [|exact F]. intros x (A & B). now apply fmul_nneg_fin. }
  assert (Nz : forall k, (Z.of_nat k <= 2 ^ 64)%Z -> fin (n2f k) /\ nneg (n2f k)).
  { intros k K. split. apply z2f_fin; lia. apply z2f_nneg; lia. }
  assert (We : forall s fr, Forall (fun x => fin x /\ nneg x) fr -> s + length fr <= n -> fin (weighted_energy s fr) ->
     nneg (weighted_energy s fr)).
  { intros s fr F K Fi. unfold weighted_energy in *. apply fsum_nneg. apply Forall_forall. intros x I.
    pose proof I as J. apply in_map_iff in I. destruct I as ((k & m) & <- & I). cbn [fst snd] in *.
    pose proof (in_combine_l _ _ _ _ I) as Ik. apply in_seq in Ik. apply in_combine_r in I.
    pose proof (proj1 (Forall_forall _ _) F m I) as (Fm & Nm). destruct (Nz k ltac:(lia)) as (Fk & Nk).
    pose proof (fmul_nneg_fin _ _ Fk Fm Nk Nm) as P. destruct (nneg_cases _ P) as [(FP & _)|E].
    - now apply fmul_nneg_fin.
    - rewrite E. destruct (flt f0 m) eqn:Pm. now rewrite fmul_inf_l.
      exfalso. assert (Zm : (B2R m = 0)%R).
      { apply Rle_antisym. apply flt_false_fle in Pm; auto using fin_nn. apply fle_fx in Pm. rewrite fx_fin in Pm; auto.
        apply nneg_fx in Nm. rewrite fx_fin in Nm; auto. }
      destruct (fmul_fx _ _ Fk Fm) as (_ & V). rewrite E, Zm, Rmult_0_r, rnd_0, sat_0 in V.
      change (fx finf) with big in V. pose proof big_pos. lra. }
  assert (MF : forall fr, In fr spec -> Forall (fun x => fin x /\ nneg x) fr /\ length fr = n).
  { intros fr I. split. exact (proj1 (Forall_forall _ _) M fr I). exact (proj1 (Forall_forall _ _) R fr I). }
  assert (OF := proj1 (Forall_forall _ _) O). cbv beta in OF. clear O.
  destruct c; try (exfalso; destruct spec as [|fr spec]; [cbn in L; lia|specialize (OF fr (or_introl eq_refl)); discriminate OF]).
  - rewrite H. apply G. intros fr I. split; [|exact (OF fr I)]. apply Sq, MF, I.
  - rewrite H. apply G. intros fr I. split; [|exact (OF fr I)]. apply Sq, slice_Forall, MF, I.
  - rewrite H. apply G. intros fr I. destruct (MF fr I) as (A & B). specialize (OF fr I). unfold hfc. rewrite hfc_terms.
    split; [|exact OF]. apply (We 0 fr); auto. lia.
  - rewrite H. apply G. intros fr I. destruct (MF fr I) as (A & B). specialize (OF fr I). rewrite hfc_terms.
    split; [|exact OF]. apply (We (Nat.min lo n) (slice fr (Nat.min lo n) (Nat.min hi n))); auto using slice_Forall.
    rewrite slice_length by (rewrite B; lia). lia.
Qed.
Print Assumptions C25_no_overflow.

(** Spectral flux needs no bound on the magnitudes or the number of bins. *)
Theorem C25_spectral_unit : forall spec out,
  Forall (Forall (fun x => fisfin x = true /\ fle f0 x = true)) spec -> spectral_flux_novelty spec = Ok out ->
  Forall (fun x => fle f0 x = true /\ fle x f1 = true) out.
Proof.
  intros spec out M H. apply checked_ok in H. destruct H as [(_ & ->)|(n & L & N & R & H)]; [constructor|].
  assert (E : out = normalize (spectral_flux spec)) by congruence. rewrite E. unfold spectral_flux.
  apply normalize_spec. apply (Forall_upto_norm 25). apply (adj_Forall2 _ _ _ (Forall (upto 0))).
  - apply l2_rise_upto.
  - apply Forall_map. eapply Forall_impl; [|exact M]. intros fr F. apply norm_frame_unit.
    eapply Forall_impl; [|exact F]. intros x (A & B). auto.
Qed.
Print Assumptions C25_spectral_unit.

(** A frame whose every bin is no louder than the frame before contributes no energy or HFC novelty. *)
Theorem C25_decay : forall lm c spec out i a b, ln_bounds lm -> moderate spec ->
  (forall n, rect n spec -> (Z.of_nat n <= 2 ^ 24)%Z) ->
  match c with Energy | EnergyBand _ _ | Hfc _ | HfcBand _ _ => True | _ => False end ->
  run lm c spec = Ok out -> out <> [] ->
  nth_error spec i = Some a -> nth_error spec (S i) = Some b -> Forall2 (fun x y => fle x y = true) b a ->
  exists z, nth_error out i = Some z /\ feq z f0 = true.
Proof.
  intros lm c spec out i a b LN M Hn C H NE A B D. pose proof M as M0. apply moderate_upto in M.
  pose proof (proj1 (Forall_forall _ _) M a (nth_error_In _ _ A)) as Ua.
  pose proof (proj1 (Forall_forall _ _) M b (nth_error_In _ _ B)) as Ub.
  pose proof H as H0. apply run_ok in H. destruct H as [(_ & ->)|(n & L & N & R & H)]; [contradiction|].
  destruct H as [(_ & ->)|(T & H)]; [contradiction|].
  pose proof (proj1 (Forall_forall _ _) R b (nth_error_In _ _ B)) as Lb.
  pose proof (proj1 (Forall_forall _ _) R a (nth_error_In _ _ A)) as La.
  specialize (Hn n R). cbn beta in *.
  assert (G : forall g, (forall fr, Forall (upto 39) fr -> length fr = n -> upto 127 (g fr)) ->
     fle (g b) (g a) = true -> out = normalize (adj rise (map g spec)) ->
     exists z, nth_error out i = Some z /\ feq z f0 = true).
  { intros g Hg Hab ->. apply normalize_zero with (rise (g a) (g b)).
    - apply (Forall_upto_norm 127). apply (adj_Forall2 _ _ _ (upto 127)). apply rise_upto.
      apply Forall_map, Forall_forall. intros fr I. apply Hg.
      exact (proj1 (Forall_forall _ _) M fr I). exact (proj1 (Forall_forall _ _) R fr I).
    - apply adj_nth. exists (g a), (g b). rewrite !nth_error_map, A, B. auto.
    - apply rise_zero; auto; eapply upto_fin, Hg; auto. }
  destruct c; try contradiction.
  - apply (G frame_energy); auto. intros fr F _. apply energy_upto, upto51, F. apply energy_mono; auto using upto51.
  - apply (G (fun fr => frame_energy (slice fr (Nat.min lo n) (Nat.min hi n)))); auto.
    + intros fr F _. apply energy_upto, upto51, slice_Forall, F.
    + apply energy_mono; auto using upto51, slice_Forall. now apply below_slice.
  - apply (G hfc); auto. intros fr F E. apply hfc_upto; auto. rewrite E; lia.
    apply hfc_mono; auto. rewrite Lb. lia.
  - apply (G (fun fr => hfc_from (Nat.min lo n) f0 (slice fr (Nat.min lo n) (Nat.min hi n)))); auto.
    + intros fr F E. apply hfc_upto; [now apply slice_Forall|]. rewrite slice_length by (rewrite E; lia). lia.
    + apply hfc_mono; auto using slice_Forall. now apply below_slice. rewrite slice_length by (rewrite Lb; lia). lia.
Qed.
Print Assumptions C25_decay.

(** SuperFlux ignores spectral shifts of up to [k] bins: a frame each of whose bins is no louder than
    some bin within distance k of it in the frame before contributes nothing. *)
Theorem C25_vibrato : forall lm k spec out i a b, ln_bounds lm ->
  (forall x y, fle x y = true -> fle (m_ln lm x) (m_ln lm y) = true) ->
  Forall (Forall (fun x => fisfin x = true /\ fle f0 x = true)) spec ->
  superflux_novelty (m_ln lm) spec k = Ok out ->
  nth_error spec i = Some a -> nth_error spec (S i) = Some b ->
  (forall p x, nth_error b p = Some x -> exists q y, nth_error a q = Some y /\
     (Z.abs (Z.of_nat q - Z.of_nat p) <= Z.max k 1)%Z /\ fle x y = true) ->
  exists z, nth_error out i = Some z /\ feq z f0 = true.
Proof.
  intros lm k spec out i a b LN MO M H A B D. apply checked_ok in H.
  destruct H as [(L & ->)|(n & L & N & R & H)]. { apply nth_lt in B. lia. }
  apply superflux_curve_ok in H. subst out.
  pose proof (proj1 (Forall_forall _ _) R b (nth_error_In _ _ B)) as Lb.
  pose proof (proj1 (Forall_forall _ _) R a (nth_error_In _ _ A)) as La. cbn beta in *.
  pose proof (proj1 (Forall_forall _ _) M a (nth_error_In _ _ A)) as Ma.
  pose proof (proj1 (Forall_forall _ _) M b (nth_error_In _ _ B)) as Mb.
  apply normalize_zero with f0; [| |reflexivity].
  - apply (Forall_upto_norm (2 * 7 + 25)). apply (adj_Forall2 _ _ _ (Forall (upto 7))).
    { intros p q _ Q. apply superflux_upto; auto; lia. }
    apply Forall_map. eapply Forall_impl; [|exact M]. intros fr F. apply log_frame_upto; [exact LN|].
    eapply Forall_impl; [|exact F]. intros x (P & Q). auto.
  - apply adj_nth. exists (log_frame (m_ln lm) a), (log_frame (m_ln lm) b).
    rewrite !nth_error_map, A, B. repeat split; auto. symmetry. apply superflux_zero.
    + intros p x P X. unfold log_frame in X. rewrite nth_error_map in X.
      destruct (nth_error b p) as [x0|] eqn:E; [|discriminate X]. cbn [option_map] in X.
      assert (x = m_ln lm (fadd f1 (fmax x0 f0))) by congruence. subst x.
      pose proof (proj1 (Forall_forall _ _) Mb x0 (nth_error_In _ _ E)) as (Fx & Nx).
      destruct (D p x0 E) as (q & y & Q & K & XY).
      pose proof (proj1 (Forall_forall _ _) Ma y (nth_error_In _ _ Q)) as (Fy & Ny).
      pose proof (log_upto (m_ln lm) x0 LN Fx Nx) as U.
      split; [eapply upto_fin; eauto|]. split; [eapply upto_nneg; eauto|].
      exists q, (m_ln lm (fadd f1 (fmax y f0))). pose proof (nth_lt _ _ _ _ Q). repeat split; auto; try lia.
      * unfold log_frame. now rewrite nth_error_map, Q.
      * apply MO. destruct (one_plus x0 Fx Nx). destruct (one_plus y Fy Ny).
        apply fadd_mono; try (now apply fin_nn); [reflexivity|].
        apply fmax_lub; [intros _; eapply fle_trans; [exact XY|]; apply fmax_ge_l; now apply fin_nn|intros _; apply fmax_ge_r; reflexivity|].
        right; reflexivity.
    + unfold log_frame. rewrite map_length. lia.
Qed.
Print Assumptions C25_vibrato.

(** Combination: for curves in [0,1] and weights up to 2^125 (negative and NaN weights count as 0),
    the result has the length of the shortest input, lies in [0,1], and peaks at 1 unless it is
    below 1e-10 throughout. *)
Theorem C25_combined : forall s e h ws we wh mw sw,
  let inside := Forall (fun x => fle f0 x = true /\ fle x f1 = true) in
  inside s -> inside e -> inside h ->
  (forall w, In w [ws; we; wh] -> flt (lit 1 125) w = false) ->
  let out := combined_novelty_with_params s e h ws we wh mw sw in
  length out = Nat.min (length s) (Nat.min (length e) (length h)) /\ inside out /\
  (In f1 out \/ Forall (fun x => fle x (lit 14411519 (-57)) = true) out).
Proof.
  intros s e h ws we wh mw sw inside S E H W out.
  assert (U : forall w, In w [ws; we; wh] -> upto 125 (fmax w f0)).
  { intros w I. specialize (W w I). apply upto_le with (lit 1 125).
    - apply fmax_ge_r; reflexivity.
    - apply fmax_lub; [intros N; apply flt_false_fle; [reflexivity|exact N|exact W]|reflexivity|right; reflexivity].
    - split; [reflexivity|]. replace (B2R (lit 1 125)) with (bpow radix2 125). pose proof (bpow_gt_0 radix2 125). lra.
      rewrite <- SF2R_B2SF. replace (B2SF (lit 1 125)) with (SpecFloat.S754_finite false 8388608%positive 102%Z) by (vm_compute; reflexivity).
      cbn. unfold F2R; cbn. lra. }
  unfold out, combined_novelty_with_params. clear out. cbv zeta.
  set (raw := map _ (combine s (combine e h))).
  assert (R : Forall in01 raw).
  { unfold raw. apply Forall_map, Forall_forall. intros (x & (y & z)) I.
    pose proof (in_combine_l _ _ _ _ I) as Ix. apply in_combine_r in I.
    pose proof (in_combine_l _ _ _ _ I) as Iy. apply in_combine_r in I.
    apply weighted_unit; try (apply U; cbn; tauto).
    exact (proj1 (Forall_forall _ _) S x Ix). exact (proj1 (Forall_forall _ _) E y Iy). exact (proj1 (Forall_forall _ _) H z I). }
  assert (LR : length raw = Nat.min (length s) (Nat.min (length e) (length h))).
  { unfold raw. now rewrite map_length, !combine_length. }
  clearbody raw.
  assert (NF : forall c, Forall in01 c -> Forall (fun x => nneg x /\ fin x) c).
  { intros c F. eapply Forall_impl; [|exact F]. intros x X. split; [apply X|now apply in01_fin]. }
  assert (L1 : length (normalize raw) = length raw) by apply normalize_length.
  pose proof (proj1 (normalize_spec raw (NF _ R))) as R1. set (c1 := normalize raw) in *. clearbody c1.
  assert (X : exists c2, c2 = (if 1 <? mw then local_mean_subtract c1 mw else c1) /\ length c2 = length c1 /\ Forall in01 c2).
  { eexists; split; [reflexivity|]. destruct (1 <? mw); auto. split. apply lms_length. now apply lms_unit. }
  destruct X as (c2 & <- & L2 & R2).
  assert (X : exists c3, c3 = (if 1 <? sw then smooth c2 sw else c2) /\ length c3 = length c2 /\ Forall (fun x => nneg x /\ fin x) c3).
  { eexists; split; [reflexivity|]. destruct (1 <? sw); auto. split. apply smooth_length.
    apply (Forall_upto_norm 25). now apply smooth_upto. }
  destruct X as (c3 & <- & L3 & R3).
  destruct (normalize_spec c3 R3) as (A & B & _). rewrite normalize_length. split; [congruence|]. split; [exact A|].
  destruct B as [(B & Eq)|B]; auto. right. rewrite Eq. exact B.
Qed.
Print Assumptions C25_combined.

(** The default combination is an instance. *)
Theorem C25_combined_default : forall s e h,
  let inside := Forall (fun x => fle f0 x = true /\ fle x f1 = true) in
  inside s -> inside e -> inside h ->
  inside (combined_novelty s e h) /\
  length (combined_novelty s e h) = Nat.min (length s) (Nat.min (length e) (length h)).
Proof.
  intros s e h inside S E H.
  destruct (C25_combined s e h (lit 1 (-1)) (lit 5033165 (-24)) (lit 13421773 (-26)) 16 5 S E H) as (A & B & _).
  - intros w [<-|[<-|[<-|[]]]]; vm_compute; reflexivity.
  - split; auto.
Qed.
Print Assumptions C25_combined_default.

(** Without the bounds the claim fails: squared magnitudes of 2^70 overflow and the curve is NaN... *)
Theorem C25_overflow_refuted : exists spec out,
  Forall (Forall (fun x => fisfin x = true /\ fle f0 x = true)) spec /\
  energy_flux_novelty spec = Ok out /\ existsb fisnan out = true.
Proof.
  exists [[f0]; [lit 1 70]; [f0]].
  destruct (energy_flux_novelty [[f0]; [lit 1 70]; [f0]]) as [out|e|] eqn:H.
  - exists out. split; [repeat constructor|]. split; auto.
    assert (X : omap (existsb fisnan) (energy_flux_novelty [[f0]; [lit 1 70]; [f0]]) = Ok true) by (vm_compute; reflexivity).
    rewrite H in X. cbn [omap] in X. congruence.
  - exfalso. assert (X : omap (existsb fisnan) (energy_flux_novelty [[f0]; [lit 1 70]; [f0]]) = Ok true) by (vm_compute; reflexivity).
    rewrite H in X. discriminate X.
  - exfalso. assert (X : omap (existsb fisnan) (energy_flux_novelty [[f0]; [lit 1 70]; [f0]]) = Ok true) by (vm_compute; reflexivity).
    rewrite H in X. discriminate X.
Qed.
Print Assumptions C25_overflow_refuted.
(** ... and an infinite weight makes the combination NaN when mean subtraction is off. *)
Theorem C25_weight_refuted : exists s e h ws,
  Forall (fun x => fle f0 x = true /\ fle x f1 = true) (s ++ e ++ h) /\ nn ws /\
  existsb fisnan (combined_novelty_with_params s e h ws f1 f1 1 5) = true.
Proof. exists [f1], [f1], [f1], finf. split; [cbn [app]; repeat constructor|]. split; [reflexivity|vm_compute; reflexivity]. Qed.
Print Assumptions C25_weight_refuted.

(** C55: which novelty functions can panic.  Spectral, energy and HFC never do. *)
Theorem C55_total : forall lm c spec,
  match c with Spectral | Energy | EnergyBand _ _ | Hfc _ | HfcBand _ _ => True | _ => False end ->
  run lm c spec <> Panic /\
  (run lm c spec = Err InvalidInput <->
     (exists r, c = Hfc r /\ r = 0%Z /\ spec <> []) \/
     (2 <= length spec /\ forall n, 0 < n -> ~ rect n spec)) /\
  (forall e, run lm c spec = Err e -> e = InvalidInput).
Proof.
  intros lm c spec C.
  assert (K : forall body, (forall n, exists out, body n = Ok out) ->
    checked spec body <> Panic /\ (checked spec body = Err InvalidInput <-> 2 <= length spec /\ forall n, 0 < n -> ~ rect n spec) /\
    (forall e, checked spec body = Err e -> e = InvalidInput)).
  { intros body Hb. destruct spec as [|fr [|fr2 r]]; cbn [checked length].
    - repeat split; try discriminate; try lia.
    - repeat split; try discriminate; try lia.
    - destruct (Nat.eqb_spec (length fr) 0) as [Z|Z].
      { repeat split; try discriminate; try lia; try congruence. intros n P Rn. inversion Rn; subst. lia. }
      destruct (rectangular (length fr) (fr :: fr2 :: r)) eqn:R; cbn [negb].
      + destruct (Hb (length fr)) as (o & ->). repeat split; try discriminate; try lia.
        intros (_ & X). exfalso. apply (X (length fr)); [lia|]. now apply rectangular_iff.
      + repeat split; try discriminate; try lia; try congruence. intros n P Rn.
        assert (length fr = n) by now inversion Rn. subst n. apply rectangular_iff in Rn. congruence. }
  assert (IB : forall n a b (g : nat -> nat -> list f32), exists out, in_band n a b (fun lo hi => Ok (g lo hi)) = Ok out).
  { intros n a b g. unfold in_band. destruct (_ <=? _); eauto. }
  assert (J : forall x : outcome (list f32), (forall r, c <> Hfc r) ->
     x <> Panic /\ (x = Err InvalidInput <-> 2 <= length spec /\ (forall n, 0 < n -> ~ rect n spec)) /\
       (forall e, x = Err e -> e = InvalidInput) ->
     x <> Panic /\ (x = Err InvalidInput <-> (exists r, c = Hfc r /\ r = 0%Z /\ spec <> []) \/
       2 <= length spec /\ (forall n, 0 < n -> ~ rect n spec)) /\ (forall e, x = Err e -> e = InvalidInput)).
  { intros x NH (A & B & D). repeat split; auto. rewrite B; auto. intros [(r & X & _)|X]; [now destruct (NH r)|now apply B]. }
  destruct c; try contradiction; cbn [run].
  - apply J; [discriminate|]. apply K. eauto.
  - apply J; [discriminate|]. apply K. eauto.
  - apply J; [discriminate|]. apply K. intros n. apply IB.
  - unfold hfc_novelty. destruct spec as [|fr r].
    { repeat split; try discriminate. intros [(x & _ & _ & X)|(X & _)]; [congruence|cbn in X; lia]. }
    destruct (Z.eqb_spec rate 0) as [Z|Z].
    { repeat split; try discriminate; try congruence. intros _. left. exists rate. repeat split; auto. discriminate. }
    destruct (K (fun _ => Ok (normalize (adj rise (map hfc (fr :: r)))))) as (A & B & D). eauto.
    repeat split; auto. intros X. right. now apply B.
    intros [(x & X & Y & _)|X]; [|now apply B]. congruence.
  - apply J; [discriminate|]. apply K. intros n. apply IB.
Qed.
Print Assumptions C55_total.

(** SuperFlux panics exactly when [n_bins + max_filter] overflows usize on a valid spectrogram. *)
Theorem C55_superflux : forall lm k spec n, 2 <= length spec -> 0 < n -> rect n spec ->
  (superflux_novelty (m_ln lm) spec k = Panic <-> (2 ^ 64 <= Z.of_nat n + Z.max k 1)%Z).
Proof.
  intros lm k spec n L N R. unfold superflux_novelty. rewrite (checked_run _ _ n) by auto.
  unfold superflux_curve, usize_max. destruct (Z.ltb_spec (2 ^ 64 - 1) (Z.of_nat n + Z.max k 1)); split; intros; auto; try lia; discriminate.
Qed.
Print Assumptions C55_superflux.

(** The mel variant panics for a lower edge at or above (nyquist - 1) Hz, e.g. fmin = 30 kHz at 44.1 kHz,
    whatever the mathematics library. *)
Theorem C55_mel_refuted : exists spec, forall lm n_mels k,
  mel_superflux_novelty lm spec 44100 n_mels (z2f 30000) (z2f 40000) k = Panic.
Proof.
  exists [[f0; f0]; [f1; f1]]. intros lm n_mels k. unfold mel_superflux_novelty.
  rewrite (checked_run _ _ 2); [|cbn; lia|lia|repeat constructor]. change (44100 =? 0)%Z with false. change (2 <? 2) with false. cbv iota.
  unfold mel_edges. cbv zeta.
  assert (E : fclamp (if fisfin (z2f 40000) && fgt (z2f 40000) f0 then z2f 40000 else fmul (z2f 44100) fhalf)
     (fadd (fmin (fmax (z2f 30000) f0) (fmax (fmul (z2f 44100) fhalf) f1)) f1) (fmul (z2f 44100) fhalf) = Panic).
  { unfold fclamp.
    replace (fle (fadd (fmin (fmax (z2f 30000) f0) (fmax (fmul (z2f 44100) fhalf) f1)) f1) (fmul (z2f 44100) fhalf)) with false by (vm_compute; reflexivity).
    reflexivity. }
  rewrite E. reflexivity.
Qed.
Print Assumptions C55_mel_refuted.

(** Concrete curves. *)
Definition img (o : outcome (list f32)) := omap (map B2SF) o.
Example C25_energy_case :
  img (energy_flux_novelty [[f1; f0]; [f2; f0]; [f2; f2]; [f1; f1]]) =
  img (Ok [lit 3 (-2); f1; f0]).
Proof. vm_compute. reflexivity. Qed.
Example C25_hfc_case :
  img (hfc_novelty [[f1; f0]; [f2; f1]; [f2; f2]; [f1; f1]] 44100) =
  img (Ok [fdiv f1 (z2f 3); f1; f0]).
Proof. vm_compute. reflexivity. Qed.
Example C25_hfc_band_case :
  img (hfc_novelty_band [[f0; f0; f0]; [f0; f0; f1]; [f0; f1; f1]] 1 3) = img (Ok [f1; fhalf]).
Proof. vm_compute. reflexivity. Qed.
Example C25_order_case :
  img (energy_flux_novelty [[]]) = Ok [] /\ img (energy_flux_novelty [[]; []]) = Err InvalidInput /\
  img (hfc_novelty [] 0) = Ok [] /\ img (hfc_novelty [[f1]] 0) = Err InvalidInput.
Proof. vm_compute. auto. Qed.
Example C25_super_case :
  img (superflux_novelty (fun x => fsub x f1) [[f1; f0; f0; f0]; [f0; f1; f0; f0]; [f0; f0; f0; f1]; [f0; f0; f0; f2]] 1) =
  img (Ok [f0; f1; f1]).
Proof. vm_compute. reflexivity. Qed.
Example C25_combined_case :
  map B2SF (combined_novelty_with_params [f0; f1; f0] [f0; f1; f0; f1] [f0; fhalf; f0] f1 f1 (z2f (-4)) 3 0) =
  map B2SF [f0; f1; f0].
Proof. vm_compute. reflexivity. Qed.
(** Triangular weights: the centre bin of filter 0 with edges 0,2,4 gets its weight twice. *)
Example C25_mel_case :
  map (map B2SF) (map (mel_weights [0; 2; 4; 5] 0) [0; 1; 2; 3; 4]) =
  map (map B2SF) [[]; [fhalf]; [f1; f1]; [fhalf]; []] /\
  spread 4 [0; 0; 0; 3; 3; 3] = [0; 1; 2; 3; 4; 4].
Proof. vm_compute. auto. Qed.
