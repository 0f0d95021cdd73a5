(** C94: tuning compensation in the key stage. *)
From Coq Require Import ZArith Reals Lra Lia List.
From Flocq Require Import Core IEEE754.BinarySingleNaN.
From Verif Require Import Rust F32 F32Facts F32More ListFacts Bounds Libm Chroma Config KeyStage KeyFeatures
  FourierFacts AutocorrelationValueProofs SpectrumFacts ChromaProps ChromaPitchFacts ChromaPitchProps TuningValueProps.
From Verif Require FloatSums Onsets HarmonicMaskProofs HpcpPitchProps BeatDistanceFacts ExactPlatform OnsetStrengthFacts.
Import ListNotations.
Local Open Scope R_scope.

(** A number limited to [-m, m]. *)
Definition limited (m x : R) : R := Rmax (- m) (Rmin m x).
Lemma limited_lip : forall m x y, Rabs (limited m x - limited m y) <= Rabs (x - y).
Proof.
  intros m x y. unfold limited, Rmax, Rmin. destruct (Rle_dec m x), (Rle_dec m y); repeat destruct (Rle_dec _ _); unfold Rabs; repeat destruct (Rcase_abs _); lra.
Qed.
Lemma limited_abs : forall m x, 0 <= m -> Rabs (limited m x) <= m /\ Rabs (x - limited m x) <= Rabs x /\ (Rabs x <= m -> limited m x = x).
Proof.
  intros m x Hm. unfold limited, Rmax, Rmin. destruct (Rle_dec m x); destruct (Rle_dec _ _); (split; [|split]); unfold Rabs; repeat destruct (Rcase_abs _); try lra; intros; lra.
Qed.

Lemma clamp_val : forall x m, fin x -> fin m -> exists y, fclamp x (fneg (fabs m)) (fabs m) = Ok y /\ fin y /\ B2R y = limited (Rabs (B2R m)) (B2R x).
Proof.
  intros x m Fx Fm. destruct (BeatDistanceFacts.fabs_fin m Fm) as (Fa & Va). set (a := fabs m) in *.
  assert (Fn : fin (fneg a)) by (rewrite fneg_fin; exact Fa). pose proof (fneg_B2R a) as Vn. pose proof (Rabs_pos (B2R m)) as P. rewrite <- Va in *.
  exists (fclamp_val x (fneg a) a). split.
  - unfold fclamp. replace (fle (fneg a) a) with true; [reflexivity|]. symmetry. apply HpcpPitchProps.le_real; auto. lra.
  - unfold fclamp_val, limited. destruct (flt x (fneg a)) eqn:E1; [apply HpcpPitchProps.lt_real in E1; auto|].
    + split; [exact Fn|]. rewrite Vn in *. rewrite Rmin_right, Rmax_left; lra.
    + assert (~ B2R x < B2R (fneg a)) by (intros X; apply HpcpPitchProps.lt_real in X; auto; congruence).
      destruct (flt a x) eqn:E2; [apply HpcpPitchProps.lt_real in E2; auto|].
      * split; [exact Fa|]. rewrite Rmin_left, Rmax_right; lra.
      * assert (~ B2R a < B2R x) by (intros X; apply HpcpPitchProps.lt_real in X; auto; congruence).
        split; [exact Fx|]. rewrite Rmin_right, Rmax_right; lra.
Qed.

Lemma ok_inj : forall A (a b : A), Ok a = Ok b -> a = b.
Proof. intros A a b H. now inversion H. Qed.
Lemma divided_nonneg : forall e j, (forall i, nneg (e i)) -> (j < 12)%nat -> let c := divided_by_norm (map e (seq 0 12)) in fin (nth j c f0) -> nneg (nth j c f0).
Proof.
  intros e j En Hj c. assert (Nt : nth j (map e (seq 0 12)) f0 = e j).
  { rewrite (nth_indep _ f0 (e 0%nat)) by (rewrite map_length, seq_length; exact Hj). rewrite map_nth, seq_nth by exact Hj. reflexivity. }
  unfold c, divided_by_norm. cbv zeta. generalize (fsqrt (fold_left fadd (map (fun x => fmul x x) (map e (seq 0 12))) f0)). intros norm.
  destruct (fgt norm (lit 14411519 (-57))) eqn:G; [|intros _; rewrite Nt; apply En].
  assert (Nd : nth j (map (fun x => fdiv x norm) (map e (seq 0 12))) f0 = fdiv (e j) norm).
  { rewrite (nth_indep _ f0 (fdiv f0 norm)) by (rewrite !map_length, seq_length; exact Hj). rewrite (map_nth (fun x => fdiv x norm)). now rewrite Nt. }
  rewrite Nd. intros F. apply fdiv_nneg; [apply En| |now apply fin_nn].
  apply (fle_flt_trans f0 (lit 14411519 (-57)) norm); [vm_compute; reflexivity|exact G].
Qed.
Lemma hard_nonneg : forall L rate fft sigma tuning frame ch j,
  pow_accurate (m_powf L) (/ 1048576) -> log2_accurate (m_log2 L) (/ 1048576) ->
  (1000 <= Z.of_nat rate <= 200000)%Z -> (1 <= Z.of_nat fft <= 65536)%Z -> (length frame <= fft)%nat ->
  fin tuning -> Rabs (B2R tuning) <= 1 -> Forall (fun m => fin m /\ B2R m <= 1125899906842624) frame ->
  (forall k, (k < length frame)%nat -> 0 < B2R (nth k frame f0) -> clear_of_edges rate (B2R tuning) (bin_freq rate fft k)) ->
  frame_to_chroma L rate fft false sigma tuning frame = Ok ch -> (j < 12)%nat -> fin (nth j ch f0) -> nneg (nth j ch f0).
Proof.
  intros L rate fft sigma tuning frame ch j HP HG Hr Hf Hn Ft Ht Hm Hc H Hj F. rewrite C59_hard_content in H by lia. cbv zeta in H. apply ok_inj in H. subst ch.
  revert F. apply divided_nonneg; [|exact Hj]. intros i. exact (proj1 (proj2 (hard_energy L rate fft tuning frame HP HG Hr Hf Hn Ft Ht Hm Hc i))).
Qed.

(** ** The offset the key stage applies (lib.rs:1096-1118) *)
Section Recording.
Variables (L : libm) (P : key_platform) (c : analysis_config) (rate n : nat) (spec : list (list f32)) (delta eps : R) (nt : nat -> Z).
Hypothesis HL : log2_accurate (m_log2 L) (/ 1048576).
Hypothesis HS : sin_accurate L (/ 1048576).
Hypothesis HC : cos_accurate L (/ 1048576).
Hypothesis HR : root_accurate L (/ 1024).
Hypothesis HA : atan2_accurate P (/ 1048576).
Hypothesis On : cf_enable_key_tuning_compensation c = true.
Hypothesis Ne : spec <> [].
Hypothesis Hn : (0 < n <= key_fft_size c)%nat.
Hypothesis Sp : Forall (fun fr => length fr = n /\ Forall (fun x => fin x /\ 0 <= B2R x <= bpow radix2 40) fr) spec.
Hypothesis Hr : (4200 <= Z.of_nat rate <= 200000)%Z.
Hypothesis Hf : (1 <= Z.of_nat (key_fft_size c) <= 65536)%Z.
Hypothesis Ft : fin (cf_key_tuning_peak_rel_threshold c).
Hypothesis Ht : 0 <= B2R (cf_key_tuning_peak_rel_threshold c) <= 1.
Hypothesis Fm : fin (cf_key_tuning_max_abs_semitones c).
Hypothesis He : 0 <= eps <= / 16.
Hypothesis Hd : Rabs delta + 2 * eps <= 49 / 100.
Let most := Rabs (B2R (cf_key_tuning_max_abs_semitones c)).
Let freq b := bin_freq rate (key_fft_size c) b.
Let m i b := B2R (nth b (nth i spec []) f0).
(** Every audible bin up to 5 kHz, in any frame, is near its note raised by [delta]. *)
Hypothesis Notes : forall i b, (i < length spec)%nat -> (b < n)%nat -> 0 < m i b -> 79 <= freq b <= 5000 ->
  Rabs (scale_pos delta (freq b) - IZR (nt b)) <= eps.
(** The frames looked at are not silent between 81 and 1999 Hz, and hold at most 32768 audible bins there. *)
Hypothesis Loud : exists i b, (i < length spec)%nat /\ (i mod Nat.max (cf_key_tuning_frame_step c) 1 = 0)%nat /\ (b < n)%nat /\ 81 <= freq b <= 1999 /\ / 1000000 <= m i b.
Hypothesis Few : forall l, NoDup l -> (forall q, In q l -> (fst q < length spec)%nat /\ (fst q mod Nat.max (cf_key_tuning_frame_step c) 1 = 0)%nat /\ (snd q < n)%nat /\
    79 <= freq (snd q) <= 2001 /\ 0 < m (fst q) (snd q)) -> (Z.of_nat (length l) <= 32768)%Z.

Lemma freq_eq : forall b, INR b * (INR rate / INR (key_fft_size c)) = freq b.
Proof. intros b. unfold freq, bin_freq, Rdiv. now rewrite Rmult_assoc. Qed.

Lemma offset : exists o, tuning_offset L P c rate spec false = Ok o /\ fin o /\ Rabs (B2R o) <= 1 /\ Rabs (B2R o - limited most delta) <= eps + / 300.
Proof.
  destruct (C93_detuning L P spec n rate (key_fft_size c) (cf_key_tuning_frame_step c) (cf_key_tuning_peak_rel_threshold c) delta eps HL HS HC HR HA Ne Hn Sp Hr Hf Ft Ht He
    ltac:(lra)) as (d & E & Fd & B).
  - cbv zeta. intros i b ((Hi & _) & Hb & Fb & Mb & _). rewrite freq_eq in *. exists (nt b).
    pose proof (Notes i b Hi Hb Mb ltac:(lra)) as N. unfold scale_pos in N.
    replace (12 * (ln (freq b / 440) / ln 2) + 57 - IZR (nt b) - delta) with (12 * (ln (freq b / 440) / ln 2) + 57 - delta - IZR (nt b)) by ring. exact N.
  - cbv zeta. intros l Nl Hl. apply Few; [exact Nl|]. intros q Iq. destruct (Hl q Iq) as ((Hi & Hi') & Hb & Fb & Mb & _). rewrite freq_eq in Fb. repeat split; auto; lra.
  - destruct Loud as (i & b & Hi & Hi' & Hb & Fb & Mb). exists i, b. rewrite freq_eq. repeat split; auto; lra.
  - destruct (clamp_val d _ Fd Fm) as (o & Eo & Fo & Vo). exists o. split; [|split; [exact Fo|]].
    + unfold tuning_offset. rewrite On, E. destruct (Nat.eqb_spec (length spec) 0) as [Z|_]; [now apply length_zero_iff_nil in Z|]. cbn [andb negb]. cbv zeta. exact Eo.
    + fold most in Vo. assert (M0 : 0 <= most) by apply Rabs_pos. pose proof (limited_lip most (B2R d) delta) as Lp. rewrite Vo. split; [|lra].
      destruct (limited_abs most (B2R d) M0) as (_ & A & _). destruct (limited_abs most delta M0) as (_ & A' & _).
      assert (T : Rabs (limited most (B2R d)) <= Rabs (B2R d)) by (unfold limited, Rmax, Rmin; repeat destruct (Rle_dec _ _); unfold Rabs; repeat destruct (Rcase_abs _); lra).
      apply Rabs_le_inv in B. assert (Dd : Rabs delta <= 49 / 100) by lra. apply Rabs_le_inv in Dd.
      assert (Rabs (B2R d) <= 1) by (apply Rabs_le; lra). lra.
Qed.

Lemma near_notes : forall t s, s <= / 250 -> Rabs (t - limited most delta) <= eps + s ->
  forall i b, (i < length spec)%nat -> (b < n)%nat -> 0 < m i b -> 79 <= freq b <= 5000 ->
    Rabs (scale_pos t (freq b) - IZR (nt b)) <= Rabs (delta - limited most delta) + 2 * eps + s /\ note (scale_pos t (freq b)) = nt b.
Proof.
  intros t s Hs Bo i b Hi Hb Mb Fb. pose proof (Notes i b Hi Hb Mb Fb) as N.
  assert (X : Rabs (scale_pos t (freq b) - IZR (nt b)) <= Rabs (delta - limited most delta) + 2 * eps + s).
  { replace (scale_pos t (freq b) - IZR (nt b)) with ((scale_pos delta (freq b) - IZR (nt b)) + (delta - limited most delta) - (t - limited most delta)) by (unfold scale_pos; ring).
    unfold Rminus at 1. eapply Rle_trans; [apply Rabs_triang|]. rewrite Rabs_Ropp. pose proof (Rabs_triang (scale_pos delta (freq b) - IZR (nt b)) (delta - limited most delta)). lra. }
  split; [exact X|]. apply note_of. destruct (limited_abs most delta (Rabs_pos _)) as (_ & Q & _). lra.
Qed.
End Recording.

(** The recording: its frames, its tuning, and the note each bin belongs to.  Every audible bin from 79 Hz to 5 kHz, in any
    frame, lies within [eps] of its note raised by [delta] semitones; of the frames looked at for tuning, one is audible
    between 81 and 1999 Hz, and they hold at most 32768 audible bins. *)
Definition detuned (c : analysis_config) (rate n : nat) (spec : list (list f32)) (nt : nat -> Z) (delta eps : R) : Prop :=
  let freq b := bin_freq rate (key_fft_size c) b in
  let m i b := B2R (nth b (nth i spec []) f0) in
  let looked_at i := (i < length spec)%nat /\ (i mod Nat.max (cf_key_tuning_frame_step c) 1 = 0)%nat in
  Forall (fun fr => length fr = n /\ Forall (fun x => fin x /\ 0 <= B2R x <= bpow radix2 40) fr) spec /\
  (forall i b, (i < length spec)%nat -> (b < n)%nat -> 0 < m i b -> 79 <= freq b <= 5000 -> Rabs (scale_pos delta (freq b) - IZR (nt b)) <= eps) /\
  (exists i b, looked_at i /\ (b < n)%nat /\ 81 <= freq b <= 1999 /\ / 1000000 <= m i b) /\
  (forall l, NoDup l -> (forall q, In q l -> looked_at (fst q) /\ (snd q < n)%nat /\ 79 <= freq (snd q) <= 2001 /\ 0 < m (fst q) (snd q)) ->
     (Z.of_nat (length l) <= 32768)%Z).

(** With compensation on, the offset applied is [delta], limited to the configured maximum, to within [eps] + 1/300.  Measured
    against it every audible bin is within 2 [eps] + 1/300 of its own note, plus the part of [delta] beyond the maximum;
    and with hard assignment, whole frames and no
    HPCP the chroma vector the key stage gets for any frame is the one of those notes. *)
Theorem C94_compensation : forall L P c rate n spec nt delta eps,
  log2_accurate (m_log2 L) (/ 1048576) -> sin_accurate L (/ 1048576) -> cos_accurate L (/ 1048576) -> root_accurate L (/ 1024) -> atan2_accurate P (/ 1048576) ->
  cf_enable_key_tuning_compensation c = true -> (0 < n <= key_fft_size c)%nat -> (4200 <= Z.of_nat rate <= 200000)%Z -> (1 <= Z.of_nat (key_fft_size c) <= 65536)%Z ->
  fin (cf_key_tuning_peak_rel_threshold c) -> 0 <= B2R (cf_key_tuning_peak_rel_threshold c) <= 1 -> fin (cf_key_tuning_max_abs_semitones c) ->
  0 <= eps <= / 16 -> Rabs delta + 2 * eps <= 49 / 100 -> detuned c rate n spec nt delta eps ->
  let fft := key_fft_size c in
  let applied := limited (Rabs (B2R (cf_key_tuning_max_abs_semitones c))) delta in
  exists o, tuning_offset L P c rate spec false = Ok o /\ fin o /\ Rabs (B2R o - applied) <= eps + / 300 /\
    (forall i b, (i < length spec)%nat -> (b < n)%nat -> 0 < B2R (nth b (nth i spec []) f0) -> 79 <= bin_freq rate fft b <= 5000 ->
       Rabs (scale_pos (B2R o) (bin_freq rate fft b) - IZR (nt b)) <= Rabs (delta - applied) + 2 * eps + / 300) /\
    (forall beats, pow_accurate (m_powf L) (/ 1048576) -> cf_soft_chroma_mapping c = false -> cf_enable_key_hpcp c = false ->
       (cf_enable_key_beat_synchronous c = false \/ beats = []) ->
       exists cs energies, chroma_call L P c rate beats spec None o = Ok (cs, energies) /\ length cs = length spec /\
         forall i, (i < length spec)%nat ->
         let fr := nth i spec [] in
         let E j := sumn (fun k => if inside rate (bin_freq rate fft k) && (nt k mod 12 =? Z.of_nat j)%Z then strength (B2R (nth k fr f0)) else 0) n in
         (forall k, (k < n)%nat -> 0 < B2R (nth k fr f0) -> let f := bin_freq rate fft k in
            / 10000 <= Rabs (f - 100) /\ / 1000 <= Rabs (f - 5000) /\ INR rate / 2 * / 1000000 <= Rabs (f - INR rate / 2)) ->
         / 1073741824 <= length12 E ->
         length (nth i cs []) = 12%nat /\
         forall j, (j < 12)%nat -> let x := nth j (nth i cs []) f0 in
           fin x /\ 0 <= B2R x /\ Rabs (B2R x - E j / length12 E) <= INR n / 2700000 + / 30000).
Proof.
  intros L P c rate n spec nt delta eps HL HS HC HR HA On Hn Hr Hf Ft Ht Fm He Hd (Sp & Notes & Loud & Few) fft applied.
  assert (Ne : spec <> []). { destruct Loud as (i & b & (Hi & _) & _). intros ->. cbn [length] in Hi. lia. }
  destruct (offset L P c rate n spec delta eps nt HL HS HC HR HA On Ne Hn Sp Hr Hf Ft Ht Fm He Hd Notes) as (o & Eo & Fo & Oo & Bo).
  { destruct Loud as (i & b & (Hi & Hi') & Hb & Fb & Mb). exists i, b. repeat split; auto; lra. }
  { intros l Nl Hl. apply Few; [exact Nl|]. intros q Iq. destruct (Hl q Iq) as (A1 & A2 & A3 & A4 & A5). repeat split; auto; lra. }
  pose proof (near_notes c rate n spec delta eps nt Hd Notes) as NN. fold applied fft in NN. fold applied in Bo.
  exists o. split; [exact Eo|]. split; [exact Fo|]. split; [exact Bo|]. split; [intros i b Hi Hb Mb Fb; now apply (NN (B2R o) (/ 300) ltac:(lra) Bo i b)|].
  intros beats HP Hs Hh Hb.
  (* below 1e-6 the offset is dropped *)
  assert (U : exists t : f32, fin t /\ Rabs (B2R t) <= 1 /\ Rabs (B2R t - applied) <= eps + / 250 /\
    chroma_call L P c rate beats spec None o = extract_chroma_spec L rate fft false (cf_soft_mapping_sigma c) t spec).
  { unfold chroma_call. replace (cf_enable_key_beat_synchronous c && negb (length beats =? 0)) with false by (symmetry; destruct Hb as [-> | ->]; [reflexivity|apply andb_false_r]).
    rewrite Hh, On, Hs. cbn [andb]. destruct (fgt (fabs o) (lit 8796093 (-43))) eqn:G; [exists o; repeat split; auto; lra|].
    exists f0. split; [reflexivity|]. change (B2R f0) with 0. split; [rewrite Rabs_R0; lra|]. split; [|reflexivity].
    destruct (BeatDistanceFacts.fabs_fin o Fo) as (Fa & Va). assert (V : B2R (lit 8796093 (-43)) <= / 900000) by (rewrite <- SF2R_B2SF; vm_compute; lra).
    assert (Rabs (B2R o) <= / 900000). { destruct (Rle_lt_dec (Rabs (B2R o)) (/ 900000)) as [|X]; [assumption|exfalso]. 
      assert (Y : flt (lit 8796093 (-43)) (fabs o) = true) by (apply HpcpPitchProps.lt_real; [reflexivity|exact Fa|lra]). change (fgt (fabs o) (lit 8796093 (-43))) with (flt (lit 8796093 (-43)) (fabs o)) in G. rewrite Y in G. discriminate G. }
    replace (0 - applied) with ((B2R o - applied) - B2R o) by ring. unfold Rminus at 1. eapply Rle_trans; [apply Rabs_triang|]. rewrite Rabs_Ropp. lra. }
  destruct U as (t & Fo' & Ot & Bt & ->). rewrite Forall_forall in Sp.
  assert (Tot : forall fr, In fr spec -> exists ch, frame_to_chroma L rate fft false (cf_soft_mapping_sigma c) t fr = Ok ch).
  { intros fr If. destruct (Sp fr If) as (Ln & _). rewrite C59_hard_content by (fold fft in Hf, Hn; lia). eexists. reflexivity. }
  destruct (oseq_map_total _ _ _ spec Tot) as (cs & Ec). exists cs, (map Onsets.frame_energy spec). split; [|split].
  { unfold extract_chroma_spec. destruct (Nat.eqb_spec (length spec) 0) as [Z|_]; [now apply length_zero_iff_nil in Z|].
    rewrite (HarmonicMaskProofs.check_shape_run spec n Ne (proj1 Hn)) by (apply Forall_forall; intros fr If; apply (Sp fr If)). cbn [obind]. rewrite Ec. reflexivity. }
  { apply oseq_Ok in Ec. apply (f_equal (@length _)) in Ec. rewrite !map_length in Ec. congruence. }
  intros i Hi fr E Ed HE. destruct (Sp fr ltac:(now apply nth_In)) as (Ln & Fr). rewrite Forall_forall in Fr.
  assert (Ei : frame_to_chroma L rate fft false (cf_soft_mapping_sigma c) t fr = Ok (nth i cs [])).
  { apply oseq_Ok in Ec. assert (Lc : length cs = length spec) by (apply (f_equal (@length _)) in Ec; rewrite !map_length in Ec; congruence).
    apply (f_equal (fun l => nth i l Panic)) in Ec. rewrite (nth_indep _ _ (frame_to_chroma L rate fft false (cf_soft_mapping_sigma c) t [])) in Ec by (rewrite map_length; lia).
    rewrite map_nth in Ec. unfold fr. rewrite Ec. rewrite (nth_indep _ _ (Ok [])) by (rewrite map_length; lia). apply map_nth. }
  pose proof (NN (B2R t) (/ 250) ltac:(lra) Bt) as NT.
  assert (Mg : forall k, (k < n)%nat -> fin (nth k fr f0) /\ 0 <= B2R (nth k fr f0)) by (intros k Hk; destruct (Fr (nth k fr f0) ltac:(apply nth_In; lia)); split; [assumption|lra]).
  assert (In79 : forall k, inside rate (bin_freq rate fft k) = true -> 79 <= bin_freq rate fft k <= 5000).
  { intros k X. unfold inside in X. apply andb_true_iff in X. destruct X as (X & _). apply andb_true_iff in X. destruct X as (X1 & X2).
    destruct (Rle_bool_spec 100 (bin_freq rate fft k)); [|discriminate]. destruct (Rle_bool_spec (bin_freq rate fft k) 5000); [lra|discriminate]. }
  assert (EE : forall j, class_strength rate fft (B2R t) (fun k => B2R (nth k fr f0)) n j = E j).
  { intros j. unfold class_strength, E. apply sumn_ext. intros k Hk. destruct (inside rate (bin_freq rate fft k)) eqn:X; [|reflexivity]. cbn [andb].
    destruct (Mg k Hk) as (_ & [M | M]).
    - destruct (NT i k Hi Hk M (In79 k X)) as (_ & ->). reflexivity.
    - rewrite <- M. unfold strength. destruct (Rle_dec 0 0); [|lra]. now destruct (_ =? _)%Z, (_ =? _)%Z. }
  assert (EL : length12 (class_strength rate fft (B2R t) (fun k => B2R (nth k fr f0)) n) = length12 E).
  { unfold length12. f_equal. apply sumn_ext. intros j _. now rewrite EE. }
  assert (Lf : (length fr <= fft)%nat) by (rewrite Ln; apply Hn).
  assert (Fr' : Forall (fun m => fin m /\ B2R m <= 1125899906842624) fr).
  { apply Forall_forall. intros x Ix. destruct (Fr x Ix) as (Fx & Bx). split; [exact Fx|]. pose proof (bpow_le radix2 40 50 ltac:(lia)) as B.
    change (bpow radix2 50) with 1125899906842624 in B. lra. }
  assert (Cl : forall k, (k < length fr)%nat -> 0 < B2R (nth k fr f0) -> clear_of_edges rate (B2R t) (bin_freq rate fft k)).
  { intros k Hk Mk. rewrite Ln in Hk. destruct (Ed k Hk Mk) as (D1 & D2 & D3). split; [exact D1|]. split; [exact D2|]. split; [exact D3|].
    intros X. destruct (NT i k Hi Hk Mk (In79 k X)) as (Q & ->). eapply Rle_trans; [exact Q|]. destruct (limited_abs _ delta (Rabs_pos (B2R (cf_key_tuning_max_abs_semitones c)))) as (_ & Z & _). fold applied in Z. lra. }
  destruct (C88_hard L rate fft (cf_soft_mapping_sigma c) t fr HP HL ltac:(lia) Hf Lf Fo' Ot Fr' Cl) as (ch & C1 & C2 & C3).
  - rewrite Ln, EL. exact HE.
  - rewrite Ei in C1. apply ok_inj in C1. rewrite C1 in *. split; [exact C2|]. intros j Hj. destruct (C3 j Hj) as (Fj & Q'). rewrite Ln, EL, EE in Q'.
    cbv zeta. split; [exact Fj|]. split; [|exact Q'].
    apply FloatSums.nneg_B2R. exact (hard_nonneg L rate fft (cf_soft_mapping_sigma c) t fr ch j HP HL ltac:(lia) Hf Lf Fo' Ot Fr' Cl Ei Hj Fj).
Qed.
Print Assumptions C94_compensation.

(** The hypotheses on the platform hold of correctly rounded functions. *)
Definition stage_libm : libm :=
  {| m_powf := fun x y => if feq y fhalf then m_powf tuned_libm x y else m_powf pitch_platform x y; m_log10 := m_log10 tuned_libm; m_log2 := m_log2 tuned_libm;
     m_ln := m_ln tuned_libm; m_exp := m_exp tuned_libm; m_sin := m_sin tuned_libm; m_cos := m_cos tuned_libm |}.
Lemma C94_platform : log2_accurate (m_log2 stage_libm) (/ 1048576) /\ sin_accurate stage_libm (/ 1048576) /\ cos_accurate stage_libm (/ 1048576) /\
  root_accurate stage_libm (/ 1024) /\ atan2_accurate tuned_platform (/ 1048576) /\ pow_accurate (m_powf stage_libm) (/ 1048576).
Proof.
  destruct C93_platform as (A & B & C & D & E). destruct C88_platform as (G & _).
  assert (Q1 : feq fhalf fhalf = true) by (vm_compute; reflexivity). assert (Q2 : feq (lit 5033165 (-23)) fhalf = false) by (vm_compute; reflexivity).
  split; [exact A|]. split; [exact B|]. split; [exact C|]. split; [|split; [exact E|]].
  - intros x Fx Hx. cbn [stage_libm m_powf]. rewrite Q1. exact (D x Fx Hx).
  - intros x Fx Hx. cbn [stage_libm m_powf]. rewrite Q2. exact (G x Fx Hx).
Qed.

(** Two equally loud partials at 450 and 900 Hz, A's played 0.389 semitones sharp: compensated, they make a chroma vector
    with the A alone. *)
Example C94_case : forall L P c rate beats, Z.of_nat rate = 4500%Z -> key_fft_size c = 10%nat -> cf_enable_key_tuning_compensation c = true ->
  cf_key_tuning_peak_rel_threshold c = fhalf -> cf_key_tuning_max_abs_semitones c = fhalf ->
  log2_accurate (m_log2 L) (/ 1048576) -> sin_accurate L (/ 1048576) -> cos_accurate L (/ 1048576) -> root_accurate L (/ 1024) -> atan2_accurate P (/ 1048576) ->
  pow_accurate (m_powf L) (/ 1048576) -> cf_soft_chroma_mapping c = false -> cf_enable_key_hpcp c = false -> cf_enable_key_beat_synchronous c = false ->
  exists o ch en, tuning_offset L P c rate [[f0; f1; f1]] false = Ok o /\ 26 / 100 <= B2R o <= 40 / 100 /\ Rabs (scale_pos (B2R o) 450 - 57) <= / 300 /\
    chroma_call L P c rate beats [[f0; f1; f1]] None o = Ok ([ch], en) /\
    forall j, (j < 12)%nat -> Rabs (B2R (nth j ch f0) - (if (j =? 9)%nat then 1 else 0)) <= / 20000.
Proof.
  intros L P c rate beats Er Ef On Et Em HL HS HC HR HA HP Hsf Hhp Hbs. set (delta := 12 * (ln (450 / 440) / ln 2)).
  assert (V1 : B2R f1 = 1) by apply B2R_f1. assert (V0 : B2R f0 = 0) by reflexivity.
  assert (IR : INR rate = 4500) by (rewrite INR_IZR_INZ, Er; reflexivity).
  assert (I10 : INR 10 = 10) by (simpl; lra). assert (Vh : B2R fhalf = / 2) by (unfold fhalf; rewrite <- SF2R_B2SF; vm_compute; lra).
  pose proof ln2_ge as L2. assert (L2' : ln 2 <= 1). { rewrite <- (ln_exp 1). left. apply ln_increasing; [lra|]. pose proof (exp_ineq1 1 ltac:(lra)). lra. }
  assert (Dl : 12 / 45 <= delta <= 396 / 1000).
  { pose proof (NoveltyStrengthFacts.ln_le_sub1 (450 / 440) ltac:(lra)) as A1. pose proof (NoveltyStrengthFacts.ln_le_sub1 (440 / 450) ltac:(lra)) as A2.
    replace (440 / 450) with (/ (450 / 440)) in A2 at 1 by field. rewrite ln_Rinv in A2 by lra. unfold delta. set (x := ln (450 / 440)) in *. clearbody x.
    assert (E : x = x / ln 2 * ln 2) by (field; lra). set (y := x / ln 2) in *. clearbody y. split.
    - assert (0 <= y). { apply Rmult_le_reg_r with (ln 2); lra. } assert (y * ln 2 <= y * 1) by (apply Rmult_le_compat_l; lra). lra.
    - apply Rmult_le_reg_r with (ln 2); [lra|]. lra. }
  set (nt := fun b : nat => if (b =? 1)%nat then 57%Z else 69%Z).
  assert (B0 : bin_freq rate 10 0 = 0) by (unfold bin_freq; simpl INR; lra).
  assert (B1 : bin_freq rate 10 1 = 450) by (unfold bin_freq; rewrite IR, I10; change (INR 1) with 1; lra).
  assert (B2 : bin_freq rate 10 2 = 900) by (unfold bin_freq; rewrite IR, I10; change (INR 2) with 2; lra).
  assert (N1 : scale_pos delta 450 = 57) by (unfold scale_pos; fold delta; ring).
  assert (N2 : scale_pos delta 900 = 69) by (replace 900 with (2 * 450) by ring; rewrite C88_octave, N1 by lra; ring).
  assert (Lm : limited (Rabs (B2R fhalf)) delta = delta) by (apply limited_abs; rewrite Vh, !Rabs_pos_eq; lra).
  destruct (C94_compensation L P c rate 3 [[f0; f1; f1]] nt delta 0 HL HS HC HR HA On) as (o & Eo & Fo & Bo & No & Ch);
    rewrite ?Ef, ?Et, ?Em; try lia; try lra; try reflexivity.
  - rewrite Rabs_pos_eq; lra.
  - unfold detuned. rewrite Ef. split; [|split; [|split]].
    + apply Forall_cons; [|apply Forall_nil]. split; [reflexivity|].
      assert (1 <= bpow radix2 40) by (apply (bpow_le radix2 0); lia).
      apply Forall_cons; [|apply Forall_cons; [|apply Forall_cons; [|apply Forall_nil]]]; rewrite ?V0, ?V1; (split; [reflexivity|lra]).
    + intros i b _ Hb _ Fb. destruct b as [|[|[|b]]]; [rewrite B0 in Fb; lra| | |lia].
      * rewrite B1, N1. cbn [nt Nat.eqb]. rewrite Rminus_diag_eq, Rabs_R0 by reflexivity. lra.
      * rewrite B2, N2. cbn [nt Nat.eqb]. rewrite Rminus_diag_eq, Rabs_R0 by reflexivity. lra.
    + exists 0%nat, 1%nat. split; [split; [cbn [length]; lia|apply Nat.mod_0_l; lia]|]. split; [lia|]. rewrite B1. cbn [nth]. rewrite V1. lra.
    + intros l Nl Hl. assert (length l <= length [(0, 0); (0, 1); (0, 2)]%nat)%nat; [|cbn [length] in *; lia].
      apply NoDup_incl_length; [exact Nl|]. intros (i, b) I. destruct (Hl _ I) as ((Hi & _) & Hb & _). cbn [fst snd length] in *.
      assert (i = 0)%nat as -> by lia. destruct b as [|[|[|b]]]; [now left|right; now left|right; right; now left|lia].
  - rewrite Em, Lm in Bo, No. rewrite Ef in No, Ch. cbv zeta in Ch.
    assert (R2 : INR rate / 2 = 2250) by lra.
    assert (I1 : inside rate 450 = true) by (unfold inside; rewrite R2, !Rle_bool_true, Rlt_bool_true by lra; reflexivity).
    assert (I2 : inside rate 900 = true) by (unfold inside; rewrite R2, !Rle_bool_true, Rlt_bool_true by lra; reflexivity).
    assert (S1 : strength 1 = 1) by (unfold strength; destruct (Rle_dec 1 0); [lra|unfold Rpower; rewrite ln_1, Rmult_0_r; apply exp_0]).
    assert (S0 : strength 0 = 0) by (unfold strength; destruct (Rle_dec 0 0); [reflexivity|lra]).
    assert (EV : forall j, sumn (fun k => if inside rate (bin_freq rate 10 k) && (nt k mod 12 =? Z.of_nat j)%Z then strength (B2R (nth k [f0; f1; f1] f0)) else 0) 3
                           = if (j =? 9)%nat then 2 else 0).
    { intros j. cbn [sumn nth]. rewrite B0, B1, B2, V0, V1, I1, I2, S1, S0. cbn [nt Nat.eqb andb]. change (57 mod 12)%Z with (Z.of_nat 9). change (69 mod 12)%Z with (Z.of_nat 9).
      replace (Z.of_nat 9 =? Z.of_nat j)%Z with (j =? 9)%nat. 2:{ destruct (Nat.eqb_spec j 9) as [-> | N]; symmetry; [apply Z.eqb_refl|apply Z.eqb_neq; lia]. }
      destruct (inside rate 0 && _); destruct (j =? 9)%nat; lra. }
    destruct (Ch beats HP Hsf Hhp (or_introl Hbs)) as (cs & en & C1 & C2 & C0). clear Ch. destruct cs as [|ch [|? ?]]; cbn [length] in C2; try lia.
    specialize (C0 0%nat ltac:(cbn [length]; lia)). cbn [nth] in C0.
    assert (EL : length12 (fun j => if (j =? 9)%nat then 2 else 0) = 2).
    { unfold length12. cbn [sumn Nat.eqb]. replace (_ + _) with (2 * 2) by ring. apply sqrt_square. lra. }
    destruct C0 as (_ & C3).
    + intros k Hk M. rewrite R2. destruct k as [|[|[|k]]]; [cbn [nth] in M; rewrite V0 in M; lra| | |lia].
      * rewrite B1, (Rabs_pos_eq (450 - 100)), (Rabs_left (450 - 5000)), (Rabs_left (450 - 2250)) by lra. repeat split; lra.
      * rewrite B2, (Rabs_pos_eq (900 - 100)), (Rabs_left (900 - 5000)), (Rabs_left (900 - 2250)) by lra. repeat split; lra.
    + unfold length12. rewrite (sumn_ext _ (fun j => (if (j =? 9)%nat then 2 else 0) * (if (j =? 9)%nat then 2 else 0))) by (intros j _; now rewrite EV).
      fold (length12 (fun j => if (j =? 9)%nat then 2 else 0)). rewrite EL. lra.
    + exists o, ch, en. split; [exact Eo|]. apply Rabs_le_inv in Bo as Bo'. split; [lra|]. split.
      { pose proof (No 0%nat 1%nat ltac:(cbn [length]; lia) ltac:(lia)) as Q. rewrite B1 in Q. cbn [nth nt Nat.eqb] in Q. rewrite V1, (Rminus_diag_eq delta), Rabs_R0 in Q by reflexivity. lra. }
      split; [exact C1|]. intros j Hj. specialize (C3 j Hj). cbv zeta in C3. destruct C3 as (_ & _ & C3). rewrite EV in C3. unfold length12 in C3.
      rewrite (sumn_ext _ (fun j => (if (j =? 9)%nat then 2 else 0) * (if (j =? 9)%nat then 2 else 0))) in C3 by (intros k _; now rewrite EV).
      fold (length12 (fun j => if (j =? 9)%nat then 2 else 0)) in C3. rewrite EL in C3. replace (INR 3) with 3 in C3 by (simpl; lra).
      destruct (j =? 9)%nat; [replace (2 / 2) with 1 in C3 by field|replace (0 / 2) with 0 in C3 by field]; lra.
Qed.
