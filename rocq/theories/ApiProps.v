(** C75: the convenience functions of the public interface agree with what the pipeline runs, and the tempo prior. *)
From Coq Require Import ZArith Reals Lra Lia.
From Flocq Require Import Core IEEE754.BinarySingleNaN.
From Verif Require Import Rust F32 F32Facts ListFacts NoveltyProofs PeakPicking Autocorrelation Novelty Libm Onsets Bayesian Chroma ChromaProps KeyFeatures
  CandidateFilter Tempogram Api HarmonicMaskProofs TempoSpectraProps TempogramProps.
Close Scope R_scope.

(** Both tempogram estimators return the tempo that the diagnostic version reports, whatever number of candidates that
    one is asked for; all of them fail and diverge together. *)
Theorem C75_tempogram : forall F L fuel spec rate hop mn mx res top cfg,
  let diagnostic := tempogram_candidates F L fuel spec rate hop mn mx res top cfg in
  let plain := match cfg with
               | None => estimate_bpm_tempogram F L fuel spec rate hop mn mx res
               | Some b => estimate_bpm_tempogram_band_fusion F L fuel spec rate hop mn mx res b
               end in
  (forall e cands, diagnostic = Some (Ok (e, cands)) -> plain = Some (Ok e)) /\
  (forall e, plain = Some (Ok e) -> exists cands, diagnostic = Some (Ok (e, cands)) /\ length cands <= top) /\
  (forall x, diagnostic = Some (Err x) <-> plain = Some (Err x)) /\
  (diagnostic = Some Panic <-> plain = Some Panic) /\ (diagnostic = None <-> plain = None).
Proof.
  intros F L fuel spec rate hop mn mx res top cfg diagnostic plain.
  assert (E : plain = let* r := tempogram_impl F L fuel spec rate hop mn mx res cfg in Some (Ok (fst r)))
    by (unfold plain; destruct cfg; reflexivity).
  unfold diagnostic, tempogram_candidates. rewrite E. clear diagnostic plain E.
  destruct (tempogram_impl F L fuel spec rate hop mn mx res cfg) as [[(e & cs)|x|]|]; cbn [rbind fst snd].
  - split; [intros e' cs' H; injection H as <- <-; reflexivity|]. split.
    + intros e' H. injection H as <-. eexists. split; [reflexivity|]. apply firstn_le_length.
    + repeat split; discriminate.
  - split; [discriminate|]. split; [discriminate|]. split; [intros y; split; intros H; injection H as ->; reflexivity|].
    split; split; discriminate.
  - split; [discriminate|]. split; [discriminate|]. split; [intros y; split; discriminate|]. split; split; auto; discriminate.
  - split; [discriminate|]. split; [discriminate|]. split; [intros y; split; discriminate|]. split; split; auto; discriminate.
Qed.
Print Assumptions C75_tempogram.

(** The chroma of a recording is the chroma of its spectrogram, and the energies returned beside it are the sums of the
    squared magnitudes: the four entry points differ in nothing else. *)
Theorem C75_chroma : forall F L samples rate frame hop soft sigma,
  samples <> [] -> 0 < rate -> 0 < frame -> 0 < hop ->
  exists spec, compute_stft F L samples frame hop = Ok spec /\
    extract_chroma F L samples rate frame hop soft sigma = extract_chroma_plain L rate frame soft sigma spec /\
    extract_chroma_default F L samples rate frame hop = extract_chroma_plain L rate frame true fhalf spec.
Proof.
  intros F L samples rate frame hop soft sigma Hs Hr Hf Hh.
  destruct (C41_shape F L samples frame hop Hf Hh) as (spec & E & Len & Sh). exists spec. split; [exact E|].
  assert (G : forall soft sigma,
    extract_chroma F L samples rate frame hop soft sigma = extract_chroma_plain L rate frame soft sigma spec).
  { intros sf sg. unfold extract_chroma, extract_chroma_plain. rewrite E.
    destruct (Nat.eqb_spec (length samples) 0) as [H|_]; [now destruct samples|].
    destruct (Nat.eqb_spec frame 0); [lia|]. destruct (Nat.eqb_spec hop 0); [lia|]. destruct (Nat.eqb_spec rate 0); [lia|].
    cbn [obind]. destruct spec as [|f0' r] eqn:Es; [reflexivity|]. rewrite <- Es in *. 
    destruct (Nat.eqb_spec (length spec) 0) as [H|_]; [now rewrite Es in H|].
    assert (N : length (nth 0 spec []) = frame / 2 + 1)
      by (rewrite Es in Sh |- *; apply Forall_inv in Sh; cbv beta in Sh; apply Sh).
    unfold check_shape. rewrite N. destruct (Nat.eqb_spec (frame / 2 + 1) 0); [lia|].
    replace (rectangular (frame / 2 + 1) spec) with true; [reflexivity|]. symmetry. unfold rectangular.
    apply forallb_forall. intros x Hx. rewrite Forall_forall in Sh. apply Nat.eqb_eq. now apply Sh. }
  split; apply G.
Qed.
Print Assumptions C75_chroma.

Theorem C75_energy : forall L rate fft soft sigma spec,
  (forall cs, extract_chroma_plain L rate fft soft sigma spec = Ok cs <->
     extract_chroma_energy L rate fft soft sigma spec
     = Ok (cs, map (fun f => fold_left (fun a x => fadd a (fmul x x)) f f0) spec)) /\
  (forall e, extract_chroma_plain L rate fft soft sigma spec = Err e <-> extract_chroma_energy L rate fft soft sigma spec = Err e) /\
  (extract_chroma_plain L rate fft soft sigma spec = Panic <-> extract_chroma_energy L rate fft soft sigma spec = Panic).
Proof.
  intros L rate fft soft sigma spec. unfold extract_chroma_plain, extract_chroma_energy, extract_chroma_spec.
  assert (E : map frame_energy spec = map (fun f => fold_left (fun a x => fadd a (fmul x x)) f f0) spec).
  { apply map_ext. intros f. unfold frame_energy, fsum. generalize f0. induction f as [|x f IH]; intros a; [reflexivity|].
    cbn [map fold_left]. apply IH. }
  rewrite E. clear E. set (en := map (fun f => fold_left _ f f0) spec).
  destruct (Nat.eqb_spec (length spec) 0) as [H|_].
  { destruct spec; [|discriminate]. split; [intros cs; split; intros H'; injection H' as <-; reflexivity|].
    split; [intros e|]; split; discriminate. }
  destruct (check_shape spec) as [nb|e|]; cbn [obind].
  - destruct (oseq _) as [cs|e|]; cbn [obind].
    + split; [intros cs'; split; intros H; injection H as <-; reflexivity|]. split; [intros e|]; split; discriminate.
    + split; [intros cs'; split; discriminate|]. split; [intros e'; split; intros H; injection H as <-; reflexivity|].
      split; discriminate.
    + split; [intros cs'; split; discriminate|]. split; [intros e'; split; discriminate|]. split; reflexivity.
  - split; [intros cs'; split; discriminate|]. split; [intros e'; split; intros H; injection H as <-; reflexivity|].
    split; discriminate.
  - split; [intros cs'; split; discriminate|]. split; [intros e'; split; discriminate|]. split; reflexivity.
Qed.
Print Assumptions C75_energy.

(** The prior of the Bayesian tracker, for a monotone exponential with values in [0,1] for non-positive arguments and
    the value 1 at zero: the exponential of minus an eighth of the squared distance from the current tempo (a standard
    deviation of 2 BPM), in [0,1], 1 at the current tempo and never growing with the distance. *)
Definition gauss_exp (exp : f32 -> f32) : Prop :=
  (forall x y, fle x y = true -> fle (exp x) (exp y) = true) /\ (forall x, fle x f0 = true -> in01 (exp x)) /\
  (forall x, feq x f0 = true -> exp x = f1).

Lemma prior_is : forall exp st b, compute_prior exp st b =
  exp (fdiv (fneg (fmul (fabs (fsub b (bt_bpm st))) (fabs (fsub b (bt_bpm st))))) (z2f 8)).
Proof.
  intros exp st b. unfold compute_prior.
  assert (E : fmul f2 (fmul prior_sigma prior_sigma) = z2f 8) by (apply B2SF_inj; vm_compute; reflexivity).
  rewrite E. replace (fle (fmul prior_sigma prior_sigma) eps10) with false by (vm_compute; reflexivity). reflexivity.
Qed.
Lemma eight : fin (z2f 8) /\ pos (z2f 8) /\ B2R (z2f 8) = 8%R.
Proof.
  split; [reflexivity|]. split; [reflexivity|]. rewrite <- SF2R_B2SF.
  replace (B2SF (z2f 8)) with (SpecFloat.S754_finite false 8388608%positive (-20)%Z) by (vm_compute; reflexivity).
  cbn. unfold F2R. cbn. lra.
Qed.
Lemma square_nneg : forall x, nn x -> nn (fmul (fabs x) (fabs x)) /\ nneg (fmul (fabs x) (fabs x)).
Proof.
  intros x N. assert (M : nn (fmul (fabs x) (fabs x))).
  { destruct (nn_cases x N) as [F|[->| ->]]; [|reflexivity..]. apply fmul_fx; now rewrite fabs_fin. }
  split; [exact M|]. apply fmul_nneg; auto; now apply fabs_nneg.
Qed.
Lemma eighth_nn : forall x, nn x -> nn (fdiv (fneg x) (z2f 8)).
Proof.
  intros x N. destruct eight as (F & P & E). destruct (nn_cases x N) as [G|[->| ->]]; [|vm_compute; reflexivity..].
  apply fdiv_nn_fin; auto. now destruct x.
Qed.

Theorem C75_prior : forall exp st b, gauss_exp exp -> fin (bt_bpm st) -> fin b ->
  let far x := fabs (fsub x (bt_bpm st)) in
  in01 (compute_prior exp st b) /\
  compute_prior exp st (bt_bpm st) = f1 /\
  (exists z, compute_prior exp st b = exp z /\
     (fle (far b) (lit 1 20) = true -> fin z /\ B2R z = rnd (- (rnd (B2R (far b) * B2R (far b)) / 8))%R)) /\
  (forall b', fin b' -> fle (far b) (far b') = true -> fle (compute_prior exp st b') (compute_prior exp st b) = true).
Proof.
  intros exp st b (Mono & Unit & Zero) Fc Fb far. destruct eight as (F8 & P8 & E8).
  assert (Nf : forall x, fin x -> nn (fsub x (bt_bpm st))) by (intros x Fx; now apply fsub_fx).
  split.
  { rewrite prior_is. destruct (square_nneg _ (Nf b Fb)) as (N & G). apply Unit. apply fneg_mono in G.
    eapply fle_trans; [apply (fdiv_mono_l _ (fneg f0) (z2f 8)); auto|].
    - now apply eighth_nn.
    - reflexivity. }
  split.
  { rewrite prior_is. apply Zero. destruct (fsub_fx _ _ Fc Fc) as (N & E). 
    rewrite Rminus_diag_eq, rnd_0, sat_0 in E by reflexivity.
    set (d := fsub _ _) in *.
    assert (D : d = f0 \/ d = fneg f0).
    { clearbody d. destruct d as [[]|[]| |sg m e H]; auto; cbn in E; try discriminate.
      1,2: pose proof big_pos; lra.
      exfalso. apply eq_0_F2R in E. now destruct sg. }
    destruct D as [->| ->]; reflexivity. }
  split.
  { eexists. split; [apply prior_is|]. fold (far b). intros Hf.
    assert (Ff : fin (far b)).
    { eapply fin_between with (a := f0) (b := lit 1 20); auto. apply fabs_nneg. auto. }
    assert (U : upto 20 (far b)) by (apply upto_le with (lit 1 20); [apply fabs_nneg; auto|exact Hf|apply upto_check; [lia|reflexivity]]).
    pose proof (upto_mul 20 20 _ _ ltac:(lia) U U) as U2. pose proof (upto_fin _ _ U2) as F2.
    assert (W : Bounds.within 40 (fneg (fmul (far b) (far b)))) by (apply Bounds.within_neg, Bounds.upto_within, U2).
    assert (W' : Bounds.within 37 (fdiv (fneg (fmul (far b) (far b))) (z2f 8))).
    { apply (Bounds.within_div 3 40); auto; [lia|]. rewrite E8, Rabs_pos_eq by lra. cbn. lra. }
    apply Bounds.within_fin in W'. split; [exact W'|].
    rewrite B2R_fdiv, E8, <- (fx_fin (fneg _)), fneg_fx, fx_fin, B2R_fmul by (auto; try lra; now destruct (fmul (far b) (far b))).
    f_equal. lra. }
  intros b' Fb' L. rewrite !prior_is. apply Mono. fold (far b) (far b').
  destruct (square_nneg _ (Nf b Fb)) as (N & G). destruct (square_nneg _ (Nf b' Fb')) as (N' & G').
  fold (far b) in N, G. fold (far b') in N', G'.
  apply fdiv_mono_l; auto; [|now apply eighth_nn..]. apply fneg_mono. apply fmul_mono; auto; apply fabs_nneg; auto.
Qed.
Print Assumptions C75_prior.

(** An exponential of that kind: 1 at and above zero, 1/2 down to -1/2, 1/4 below.  At 120 BPM the prior is 1 at 120,
    1/2 at 122 and 118, and 1/4 at 123. *)
Definition step_exp (x : f32) : f32 :=
  if fge x f0 then f1 else if fge x (fneg fhalf) then fhalf else if fge x fninf then lit 1 (-2) else f0.
Example C75_prior_case : gauss_exp step_exp /\
  map (fun b => f2i32 (fmul (z2f 100) (compute_prior step_exp (new_tracker (z2f 120) f1) (z2f b)))) [120; 122; 118; 123]%Z
  = [100; 50; 50; 25]%Z.
Proof.
  split; [|vm_compute; reflexivity]. unfold gauss_exp, step_exp. split; [|split].
  - intros x y L. assert (G : forall c, fge x c = true -> fge y c = true)
      by (intros c H; unfold fge in *; now apply (fle_trans c x y)).
    destruct (fge x f0) eqn:A; [rewrite (G _ A); reflexivity|].
    destruct (fge x (fneg fhalf)) eqn:B; [rewrite (G _ B); destruct (fge y f0); reflexivity|].
    destruct (fge x fninf) eqn:C; [rewrite (G _ C)|].
    + destruct (fge y f0), (fge y (fneg fhalf)); reflexivity.
    + destruct (fge y f0), (fge y (fneg fhalf)), (fge y fninf); reflexivity.
  - intros x L. destruct (fge x f0); [split; reflexivity|]. destruct (fge x (fneg fhalf)); [split; reflexivity|].
    destruct (fge x fninf); split; reflexivity.
  - intros x E. destruct x as [[]|[]| |[]]; try discriminate E; reflexivity.
Qed.

(** On the pulses of C27_case the plain estimator returns the selected tempo of 150 BPM, and two frames of a spectrogram
    have the energies 1 + 4 + 9 and 16. *)
Example C75_case :
  (match estimate_bpm_tempogram_band_fusion fft4 trig4 20 pulses 10 1 (z2f 100)
           (z2f 310) (z2f 50) plain with Some (Ok e) => Some (f2i32 (e_bpm e)) | _ => None end,
   omap (fun r => (map (map (fun x => f2i32 (fmul (z2f 100) x))) (fst r), map f2i32 (snd r)))
     (extract_chroma_energy toy (441 * 100) 100 true fhalf [map z2f [1; 2; 3]; map z2f [0; 4; 0]]%Z))
  = (Some 150%Z, Ok (repeat [57; 0; 0; 0; 0; 0; 0; 0; 0; 0; 57; 57]%Z 2, [14; 16]%Z)).
Proof. vm_compute. reflexivity. Qed.
