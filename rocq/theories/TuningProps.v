(** C64: the tuning estimate. *)
From Coq Require Import ZArith Reals Lra.
From Flocq Require Import Core BinarySingleNaN.
From Verif Require Import Rust F32 F32Facts F32More ListFacts Libm Onsets NoveltyProofs Bounds TempoSpectra Chroma ChromaProofs ChromaValueProofs ChromaProps
  KeyFeatures HarmonicMaskProofs ThresholdProofs HpcpProofs TuningProofs.
Local Open Scope nat_scope.

(** Outcomes: nothing to estimate gives 0, ragged input is refused, a zero rate or FFT size gives 0; otherwise the function
    panics (in f32::clamp) exactly when the lower band limit plus 1 Hz exceeds the Nyquist frequency. *)
Theorem C64_outcome : forall L P spec rate fft fmin_hz fmax_hz step thr, (Z.of_nat rate < 2 ^ 32)%Z ->
  let run := estimate_tuning L P spec rate fft fmin_hz fmax_hz step thr in
  (spec = [] -> run = Ok f0) /\
  (spec <> [] -> (exists f, In f spec /\ (f = [] \/ length f <> length (nth 0 spec []))) -> run = Err InvalidInput) /\
  (forall n, spec <> [] -> 0 < n -> Forall (fun f => length f = n) spec ->
    (rate = 0 \/ fft = 0 -> run = Ok f0) /\
    (0 < rate -> 0 < fft ->
      (flt (fdiv (n2f rate) f2) (fadd (fmax fmin_hz (z2f 20)) f1) = true -> run = Panic) /\
      (flt (fdiv (n2f rate) f2) (fadd (fmax fmin_hz (z2f 20)) f1) = false -> exists d, run = Ok d))).
Proof.
  intros L P spec rate fft fmin_hz fmax_hz step thr R1 run. unfold run, estimate_tuning. split; [intros ->; reflexivity|]. split.
  - intros Hs (f & If & B). destruct (Nat.eqb_spec (length spec) 0) as [E|E]; [now apply length_zero_iff_nil in E|].
    destruct (check_shape_err spec) as [Ec|(n & Ec)]; rewrite Ec; [reflexivity|exfalso].
    destruct (check_shape_ok _ _ Ec) as (Pn & En & Sh). unfold shape in Sh. rewrite Forall_forall in Sh. specialize (Sh f If).
    destruct B as [B|B]; [subst f; simpl in Sh; lia|congruence].
  - intros n Hs Pn Sh. destruct (Nat.eqb_spec (length spec) 0) as [E|E]; [now apply length_zero_iff_nil in E|].
    rewrite (check_shape_run spec n Hs Pn Sh). cbn [obind]. split.
    + intros [-> | ->]; [reflexivity|]. rewrite Bool.orb_true_r. reflexivity.
    + intros Pr Pf. destruct (Nat.eqb_spec rate 0); [lia|]. destruct (Nat.eqb_spec fft 0); [lia|]. cbn [orb]. cbv zeta.
      assert (Nlo : fle (z2f 20) (fmax fmin_hz (z2f 20)) = true) by (apply fmax_ge_r; reflexivity).
      set (lo := fmax fmin_hz (z2f 20)) in *. destruct (nyq_nn rate R1) as (Fq & Nq).
      assert (Nl : nn (fadd lo f1)).
      { apply nneg_nn, fadd_nneg; [|reflexivity]. now apply fle_trans with (z2f 20). }
      unfold fclamp. split; intros C.
      * now rewrite (flt_fle_false _ _ C).
      * rewrite (flt_false_fle _ _ (fin_nn _ Fq) Nl C). cbn [obind].
        generalize (fold_left (tuning_frame L (fdiv (n2f rate) (n2f fft)) lo (fclamp_val fmax_hz (fadd lo f1) (fdiv (n2f rate) f2))
          (fclamp_val thr f0 f1)) (step_by (Nat.max step 1) spec) {| ts_sin := f0; ts_cos := f0; ts_w := f0 |}). intros a.
        destruct (fle (ts_w a) _); [eauto|]. match goal with |- context [if ?b then _ else _] => destruct b end; eauto.
Qed.
Print Assumptions C64_outcome.

(** The estimate: every [step]-th frame is used; in each, the bins inside the band whose magnitude reaches the given part
    of the frame's largest in-band magnitude (unless that is at most 1e-12).  Each such bin contributes its deviation from
    the nearest semitone as an angle, weighted by the square root of its magnitude; the result is the angle of the
    weighted mean as a part of a turn, and 0 if the total weight is at most 1e-6 or the mean vector is shorter than 0.05. *)
Theorem C64_content : forall L P spec n rate fft fmin_hz fmax_hz step thr,
  spec <> [] -> 0 < n -> (Z.of_nat n < 2 ^ 64)%Z -> Forall (fun f => length f = n /\ Forall (fun x => fin x) f) spec ->
  0 < rate -> (Z.of_nat rate < 2 ^ 32)%Z -> 0 < fft -> (Z.of_nat fft < 2 ^ 64)%Z ->
  fisnan fmax_hz = false -> fisnan thr = false ->
  let freq k := fmul (n2f k) (fdiv (n2f rate) (n2f fft)) in
  let lo := fmax fmin_hz (z2f 20) in
  let nyq := fdiv (n2f rate) f2 in
  let hi := if flt fmax_hz (fadd lo f1) then fadd lo f1 else if flt nyq fmax_hz then nyq else fmax_hz in
  let t := if flt thr f0 then f0 else if flt f1 thr then f1 else thr in
  let band b := fle lo (freq b) && fle (freq b) hi in
  let largest fr := fold_left fmax (map (fun b => nth b fr f0) (filter band (seq 0 n))) f0 in
  let w m := m_powf L (fmax m f0) fhalf in
  let used fr := if fle (largest fr) (lit 2305843 (-61)) then [] else
    map (fun b => (freq b, nth b fr f0))
      (filter (fun b => band b && fle (fmul (largest fr) t) (nth b fr f0) && negb (fle (w (nth b fr f0)) f0)) (seq 0 n)) in
  let s := Nat.max step 1 in
  let all := flat_map (fun i => used (nth (i * s) spec [])) (seq 0 ((length spec + s - 1) / s)) in
  let semitone f := fadd (fmul (z2f 12) (m_log2 L (fdiv f (z2f 440)))) (z2f 57) in
  let angle f := fmul (fmul f2 f_pi) (fsub (semitone f) (fround (semitone f))) in
  let sines := fold_left fadd (map (fun x => fmul (w (snd x)) (m_sin L (angle (fst x)))) all) f0 in
  let cosines := fold_left fadd (map (fun x => fmul (w (snd x)) (m_cos L (angle (fst x)))) all) f0 in
  let total := fold_left fadd (map (fun x => w (snd x)) all) f0 in
  let length_ := fdiv (fsqrt (fadd (fmul sines sines) (fmul cosines cosines))) total in
  fle (fadd lo f1) nyq = true ->
  estimate_tuning L P spec rate fft fmin_hz fmax_hz step thr =
    Ok (if fle total (lit 8796093 (-43)) || flt length_ (lit 13421773 (-28)) then f0
        else fdiv (p_atan2 P sines cosines) (fmul f2 f_pi)).
Proof.
  intros L P spec n rate fft fmin_hz fmax_hz step thr Hs Pn Bn F Pr R1 Pf F1 Nx Nt freq lo nyq hi t band largest w used s all
    semitone angle sines cosines total len_ B.
  unfold estimate_tuning. destruct (Nat.eqb_spec (length spec) 0) as [E|E]; [now apply length_zero_iff_nil in E|].
  rewrite (check_shape_run spec n Hs Pn) by (unfold shape; eapply Forall_impl; [|exact F]; cbv beta; tauto). cbn [obind].
  destruct (Nat.eqb_spec rate 0); [lia|]. destruct (Nat.eqb_spec fft 0); [lia|]. cbn [orb]. cbv zeta. fold lo s nyq.
  unfold fclamp. rewrite B. cbn [obind]. destruct (nyq_nn rate R1) as (Fq & Nq). change (fclamp_val thr f0 f1) with t.
  assert (Nlo : nn lo) by (eapply proj2, fle_nn; apply (fmax_ge_r fmin_hz (z2f 20)); reflexivity).
  destruct (fle_nn _ _ B) as (Nl1 & _).
  change (fclamp_val fmax_hz (fadd lo f1) nyq) with hi.
  assert (Nhi : nn hi) by (eapply proj2, fle_nn; apply (fclamp_val_ge fmax_hz (fadd lo f1) nyq Nx B)).
  assert (It : in01 t) by (apply (in01_clamp thr Nt)).
  rewrite (step_by_nth _ [] s spec) by (unfold s; lia). rewrite <- (map_map (fun i => i * s) (fun k => nth k spec [])).
  set (z := {| ts_sin := f0; ts_cos := f0; ts_w := f0 |}).
  assert (G : forall idx a, Forall (fun i => i * s < length spec) idx ->
    fold_left (tuning_frame L (fdiv (n2f rate) (n2f fft)) lo hi t) (map (fun k => nth k spec []) (map (fun i => i * s) idx)) a =
    with_all L (flat_map (fun i => used (nth (i * s) spec [])) idx) a).
  { induction idx as [|i idx IH]; intros a Hi; [now rewrite with_all_nil|]. inversion Hi; subst. cbn [map fold_left flat_map].
    rewrite with_all_app, IH by assumption. f_equal. rewrite Forall_forall in F.
    destruct (F (nth (i * s) spec []) ltac:(now apply nth_In)) as (Lf & Ff). set (fr := nth (i * s) spec []) in *.
    unfold tuning_frame. cbv zeta. rewrite (indexed _ f0 fr), Lf.
    rewrite (band_peak_fold rate fft R1 ltac:(auto) lo hi Nlo Nhi (fun b => nth b fr f0)) by lia.
    change (fold_left fmax _ f0) with (largest fr). unfold used. destruct (fle (largest fr) _) eqn:El; [now rewrite with_all_nil|].
    rewrite (tuning_bins_all L rate fft R1 ltac:(auto) lo hi Nlo Nhi (fun b => nth b fr f0)) by lia.
    f_equal. f_equal. apply filter_ext_in. intros b Hb. apply in_seq in Hb. change (in_range rate fft lo hi b) with (band b).
    destruct (band b); [|reflexivity]. cbn [andb]. change (m_powf L (fmax (nth b fr f0) f0) fhalf) with (w (nth b fr f0)).
    f_equal. rewrite Forall_forall in Ff.
    assert (Fl : fin (largest fr)).
    { unfold largest. assert (Q : forall l p, fin p -> Forall (fun x => fin x) l -> fin (fold_left fmax l p)).
      { clear. induction l as [|x l IH]; intros p Hp Hl; [exact Hp|]. inversion Hl; subst. apply IH; [|assumption].
        destruct (fmax_case p x) as [-> | ->]; assumption. }
      apply Q; [reflexivity|]. apply Forall_map, Forall_forall. intros k Hk. apply filter_In in Hk. destruct Hk as (Hk & _).
      apply in_seq in Hk. apply Ff, nth_In. lia. }
    assert (Fb : fin (nth b fr f0)) by (apply Ff, nth_In; lia).
    destruct (fmul_fx (largest fr) t Fl (in01_fin _ It)) as (Np & _).
    destruct (flt (nth b fr f0) (fmul (largest fr) t)) eqn:Et.
    - now rewrite (flt_fle_false _ _ Et).
    - now rewrite (flt_false_fle _ _ (fin_nn _ Fb) Np Et). }
  rewrite G. 2:{ apply Forall_forall. intros i Hi. apply in_seq in Hi. assert (Ps : 0 < s) by (unfold s; lia).
       pose proof (Nat.mul_div_le (length spec + s - 1) s ltac:(lia)). nia. }
  fold all. unfold with_all, z. cbn [ts_sin ts_cos ts_w].
  change (fold_left fadd (map (fun x => m_powf L (fmax (snd x) f0) fhalf) all) f0) with total.
  destruct (fle total _); [reflexivity|]. cbn [orb].
  match goal with |- (if ?a then _ else _) = _ => change a with (flt len_ (lit 13421773 (-28))) end.
  destruct (flt len_ _); reflexivity.
Qed.
Print Assumptions C64_content.

(** What is assumed of powf (square roots), sine, cosine and atan2. *)
Definition tuning_libm (L : libm) (P : key_platform) : Prop :=
  (forall x, upto 50 x -> upto 50 (m_powf L x fhalf)) /\ (forall x, fin x -> within 0 (m_sin L x) /\ within 0 (m_cos L x)) /\
  (forall y x, fin y -> fin x -> fle (fneg f_pi) (p_atan2 P y x) = true /\ fle (p_atan2 P y x) f_pi = true).

Lemma turn : forall x, fle (fneg f_pi) x = true -> fle x f_pi = true ->
  fle (fneg fhalf) (fdiv x (fmul f2 f_pi)) = true /\ fle (fdiv x (fmul f2 f_pi)) fhalf = true.
Proof.
  intros x A B. assert (F : fin x) by (eapply fin_between with (a := fneg f_pi) (b := f_pi); auto).
  assert (N : nn (fdiv x (fmul f2 f_pi))) by (apply fdiv_nn_fin; auto; reflexivity).
  assert (E1 : fdiv (fneg f_pi) (fmul f2 f_pi) = fneg fhalf) by (apply B2SF_inj; vm_compute; reflexivity).
  assert (E2 : fdiv f_pi (fmul f2 f_pi) = fhalf) by (apply B2SF_inj; vm_compute; reflexivity).
  split; [rewrite <- E1|rewrite <- E2]; apply fdiv_mono_l; auto; reflexivity.
Qed.

(** The estimate is at most half a semitone in either direction. *)
Theorem C64_range : forall L P spec rate fft fmin_hz fmax_hz step thr d, chroma_libm L -> tuning_libm L P ->
  Forall (Forall (within 50)) spec -> (Z.of_nat (length (nth 0 spec [])) < 2 ^ 64)%Z ->
  (Z.of_nat rate < 2 ^ 32)%Z -> (Z.of_nat fft < 2 ^ 64)%Z -> fisnan fmax_hz = false -> fisnan thr = false ->
  estimate_tuning L P spec rate fft fmin_hz fmax_hz step thr = Ok d -> fle (fneg fhalf) d = true /\ fle d fhalf = true.
Proof.
  intros L P spec rate fft fmin_hz fmax_hz step thr d HL (Hp & Hs & Ha) W Bn R1 F1 Nx Nt E.
  assert (Z0 : forall e, Ok f0 = Ok e -> fle (fneg fhalf) e = true /\ fle e fhalf = true).
  { intros e H. injection H as <-. now split. }
  pose proof E as E0. unfold estimate_tuning in E0. destruct (Nat.eqb_spec (length spec) 0) as [Es|Es]; [now apply Z0|].
  destruct (check_shape spec) as [n| |] eqn:Ec; cbn [obind] in E0; [|discriminate|discriminate].
  destruct (check_shape_ok _ _ Ec) as (Pn & En & Sh).
  destruct (Nat.eqb_spec rate 0); [now apply Z0|]. destruct (Nat.eqb_spec fft 0); [now apply Z0|]. cbn [orb] in E0. cbv zeta in E0.
  unfold fclamp in E0 at 1. destruct (fle (fadd (fmax fmin_hz (z2f 20)) f1) (fdiv (n2f rate) f2)) eqn:B; [|discriminate]. clear E0.
  assert (Hspec : spec <> []) by (intros ->; now apply Es).
  assert (Fs : Forall (fun f => length f = n /\ Forall (fun x => fin x) f) spec).
  { unfold shape in Sh. rewrite Forall_forall in *. intros f Hf. split; [now apply Sh|]. eapply Forall_impl; [|now apply W]. intros x. apply within_fin. }
  pose proof (C64_content L P spec n rate fft fmin_hz fmax_hz step thr Hspec Pn ltac:(rewrite En; exact Bn) Fs ltac:(lia) R1
    ltac:(lia) F1 Nx Nt) as C.
  cbv zeta in C. specialize (C B). rewrite C in E. clear C.
  match type of E with Ok (if ?b then _ else _) = _ => destruct b end; [now apply Z0|]. injection E as <-.
  set (lo := fmax fmin_hz (z2f 20)) in *. set (nyq := fdiv (n2f rate) f2) in *.
  set (hi := if flt fmax_hz (fadd lo f1) then fadd lo f1 else if flt nyq fmax_hz then nyq else fmax_hz).
  assert (Hlo : fle (z2f 20) lo = true) by (apply fmax_ge_r; reflexivity).
  assert (Hhi : fle hi nyq = true) by (apply (fclamp_val_le fmax_hz (fadd lo f1) nyq Nx B)).
  assert (Wq : within 33 nyq).
  { apply within_mono with (33 - 1)%Z; [lia|]. apply within_div; auto using rate_within; try reflexivity; [lia|].
    rewrite Rabs_right; vm_compute B2R; simpl; lra. }
  assert (W20 : within 33 (z2f 20)).
  { split; [reflexivity|]. destruct (z2f_exact 20 ltac:(lia)) as (_ & V). rewrite V, Rabs_right; simpl; lra. }
  assert (An : forall f, fle lo f = true -> fle f hi = true ->
    let s := fadd (fmul (z2f 12) (m_log2 L (fdiv f (z2f 440)))) (z2f 57) in fin (fmul (fmul f2 f_pi) (fsub s (fround s)))).
  { intros f Fl Fh s.
    assert (Wf : within 33 f) by (eapply within_le with (a := z2f 20) (b := nyq); auto; eapply fle_trans; eauto).
    assert (Fs' : fin s).
    { assert (Q : fin (fsub s f0)).
      { apply (semitone_fin' L f0 f HL); auto; [eapply fle_trans; eauto|]. apply within_0. }
      destruct s; [reflexivity|discriminate|discriminate|reflexivity]. }
    destruct (fround_spec s Fs') as (Fr & Er). destruct (fsub_fx s (fround s) Fs' Fr) as (N1 & E1). rewrite Er in E1.
    assert (W1 : within (-1) (fsub s (fround s))).
    { apply (within_of (-1) _ _ ltac:(lia) N1 E1). apply rnd_within; [lia|]. simpl (bpow radix2 (-1)).
      pose proof (Znearest_half (Z.leb 0) (B2R s)) as Hh. fold ZnearestA in Hh. simpl in Hh.
      unfold Z.pow_pos in *; simpl in *; lra. }
    apply (within_fin (3 + -1)). apply within_mul; [lia| |exact W1]. split; [reflexivity|].
    rewrite Rabs_right; vm_compute B2R; unfold F2R; simpl; lra. }
  match goal with |- context [flat_map ?g0 ?l0] => set (all := flat_map g0 l0) end.
  assert (All : forall x, In x all -> fle lo (fst x) = true /\ fle (fst x) hi = true /\ within 50 (snd x)).
  { intros x Hx. apply in_flat_map in Hx. destruct Hx as (i & _ & Hx). destruct (fle _ _) in Hx; [destruct Hx|].
    apply in_map_iff in Hx. destruct Hx as (b & <- & Hb). apply filter_In in Hb. destruct Hb as (_ & Hb).
    apply andb_true_iff in Hb. destruct Hb as (Hb & _). apply andb_true_iff in Hb. destruct Hb as (Hb & _).
    apply andb_true_iff in Hb. destruct Hb as (Hb1 & Hb2). cbn [fst snd]. split; [exact Hb1|]. split; [exact Hb2|].
    set (fr := nth (i * Nat.max step 1) spec []).
    destruct (Nat.lt_ge_cases b (length fr)); [|rewrite nth_overflow by lia; apply within_0].
    assert (Wf : Forall (within 50) fr).
    { unfold fr. destruct (Nat.lt_ge_cases (i * Nat.max step 1) (length spec)); [|rewrite nth_overflow by lia; constructor].
      rewrite Forall_forall in W. now apply W, nth_In. }
    rewrite Forall_forall in Wf. now apply Wf, nth_In. }
  assert (Wt : forall x, In x all -> within 50 (m_powf L (fmax (snd x) f0) fhalf)).
  { intros x Hx. destruct (All x Hx) as (_ & _ & Wx). apply upto_within, Hp. apply within_upto.
    - destruct (fmax_case (snd x) f0) as [-> | ->]; [exact Wx|apply within_0].
    - apply fmax_ge_r. reflexivity. }
  apply turn; apply Ha.
  all: apply (within_fin (50 + 25)); apply within_sum; [lia|]; apply Forall_map, Forall_forall; intros x Hx;
    destruct (All x Hx) as (A1 & A2 & _); change 50%Z with (50 + 0)%Z; apply within_mul; [lia|now apply Wt|];
    apply Hs, An; assumption.
Qed.
Print Assumptions C64_range.

(** ** Concrete case *)

(** Toy functions with sine 1, cosine 0 and atan2(y, x) = pi/2 for positive y, 0 otherwise. *)
Definition quarter : libm := {| m_powf := fun x _ => if fgt x f0 then f1 else f0; m_log10 := fun _ => f0; m_log2 := fun _ => lit 1 (-6);
  m_ln := fun _ => f0; m_exp := fun _ => f0; m_sin := fun _ => f1; m_cos := fun _ => f0 |}.
Definition right_angle : key_platform := {| p_atan2 := fun y _ => if fgt y f0 then lit 13176795 (-23) else f0;
  p_powi := fun _ _ => f1; p_select := fun l k => firstn k l |}.
(** Bins every 500 Hz, band 600..3000 Hz, every second frame: a quarter of a turn; with only frame 1 sounding, nothing; and
    a lower limit of 3999.5 Hz panics at 8 kHz. *)
Example ex_C64 :
  let run sp lo := estimate_tuning quarter right_angle sp (8 * 1000) 16 lo (z2f 3000) 2 fhalf in
  let loud := map z2f [9; 9; 4; 1; 5; 2; 1; 9; 9]%Z in
  let quiet := repeat f0 9 in
  (match run [loud; quiet; loud] (z2f 600) with Ok d => f2i32 (fmul (z2f 100) d) | _ => (-1)%Z end,
   match run [quiet; loud; quiet] (z2f 600) with Ok d => f2i32 (fmul (z2f 100) d) | _ => (-1)%Z end,
   match run [loud] (lit 7999 (-1)) with Panic => true | _ => false end) = (25%Z, 0%Z, true).
Proof. vm_compute. reflexivity. Qed.
Example ex_tuning_libm : tuning_libm quarter right_angle.
Proof.
  split; [|split].
  - intros x _. pose proof (bpow_le radix2 0 50 ltac:(lia)) as B. simpl (bpow radix2 0) in B. cbn [m_powf quarter].
    destruct (fgt x f0); split; try reflexivity; [change f1 with (z2f 1); rewrite (proj2 (z2f_exact 1 ltac:(lia)))|cbn [B2R f0]]; lra.
  - intros x _. cbn [m_sin m_cos quarter]. split; [|apply within_0]. apply upto_within, in01_upto, in01_1.
  - intros y x _ _. cbn [p_atan2 right_angle]. destruct (fgt y f0); split; reflexivity.
Qed.
