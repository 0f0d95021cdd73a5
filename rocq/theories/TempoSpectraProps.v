(** C20 (second loop), C26, C53: autocorrelation and FFT tempograms. *)
From Coq Require Import ZArith Bool List Arith Lia Sorted Permutation Reals Lra Psatz.
From Flocq Require Import Core IEEE754.BinarySingleNaN.
From Verif Require Import Rust F32 F32Facts F32More ListFacts Libm Sorting SortingFacts PeakPicking PeakPickingProofs
  BpmLoop BpmLoopProofs Autocorrelation AutocorrelationProofs CombFilterProofs NormalizationProofs TempoSpectra.
Import ListNotations.

Definition nn_fin_curve (nov : list f32) : Prop := Forall (fun x => fisfin x = true /\ fle f0 x = true) nov.

Lemma fdiv_inf_l : forall y, pos y -> fin y -> fdiv finf y = finf.
Proof. intros y P F. destruct y as [[]|[]| |[]]; try discriminate; reflexivity. Qed.

(** Strengths of a finite non-negative curve are non-negative (never NaN). *)
Lemma strength_nneg : forall nov lag s, nn_fin_curve nov -> (Z.of_nat (length nov) <= 2 ^ 64)%Z -> (0 <= lag)%Z ->
  lag_strength nov lag = Ok s -> nneg s.
Proof.
  intros nov lag s H Len Lp E. unfold lag_strength in E.
  destruct (_ <? _)%Z; [discriminate|]. destruct (Z.leb_spec (Z.of_nat (length nov)) lag); [injection E as <-; auto|].
  injection E as <-. set (k := length nov - Z.to_nat lag). set (terms := map _ _).
  assert (T : Forall (fun x => nneg x) terms).
  { unfold terms. rewrite Forall_map. apply Forall_forall. intros i I.
    assert (N : forall j, fin (nth j nov f0) /\ nneg (nth j nov f0)).
    { intros j. destruct (Nat.lt_ge_cases j (length nov)).
      - unfold nn_fin_curve in H. rewrite Forall_forall in H. now apply H, nth_In.
      - rewrite nth_overflow by auto. split; reflexivity. }
    apply fmul_nneg_fin; apply N. }
  pose proof (fsum_nneg _ T) as S.
  assert (K : 0 < k) by (unfold k; lia).
  assert (P : pos (n2f k)) by (apply CombFilterProofs.n2f_pos; lia).
  assert (F : fin (n2f k)) by (apply z2f_fin; lia).
  apply fdiv_nneg; auto. destruct (nneg_cases _ S) as [(Fs & _)| ->].
  - now apply fdiv_nn_fin.
  - now rewrite fdiv_inf_l.
Qed.

(** The accepted case. *)
Lemma autocorr_ok : forall fuel nov rate hop mn mx res t,
  autocorr_tempogram fuel nov rate hop mn mx res = Some (Ok t) ->
  nov <> [] /\ rate <> 0 /\ hop <> 0 /\ fle mn f0 = false /\ fle mx mn = false /\ fle res f0 = false /\
  exists l, bpm_loop (fun bpm => lag_strength nov (tempo_lag rate hop bpm)) mx res fuel mn = Some (Ok l) /\
    t = sort_desc snd l.
Proof.
  intros fuel nov rate hop mn mx res t H. unfold autocorr_tempogram in H.
  destruct (Nat.eqb_spec (length nov) 0); [discriminate|].
  destruct (Nat.eqb_spec rate 0); [discriminate|]. destruct (Nat.eqb_spec hop 0); [discriminate|].
  destruct (fle mn f0) eqn:E1; [discriminate|]. destruct (fle mx mn) eqn:E2; [discriminate|].
  destruct (fle res f0) eqn:E3; [discriminate|]. cbn [orb] in H.
  destruct (bpm_loop _ _ _ _ _) as [[l| |]|] eqn:L; try discriminate. cbn [omap] in H.
  assert (Ht := f_equal (fun o => match o with Some (Ok l) => l | _ => [] end) H). cbn beta iota in Ht.
  repeat split; auto; [destruct nov; simpl in *; congruence|]. exists l. auto.
Qed.

(** C26: the tempogram consists of exactly the visited tempos min, min+res, ..., each once,
    all in range, each with the strength computed for it. *)
Theorem C26_exact : forall fuel nov rate hop mn mx res t,
  autocorr_tempogram fuel nov rate hop mn mx res = Some (Ok t) ->
  exists l, Permutation l t /\
    (forall k x s, nth_error l k = Some (x, s) ->
       x = nth_tempo res mn k /\ fle mn x = true /\ fle x mx = true /\
       lag_strength nov (f2usize (fdiv (fdiv (n2f rate) (n2f hop)) (fdiv x (z2f 60)))) = Ok s) /\
    fle (nth_tempo res mn (length l)) mx = false.
Proof.
  intros fuel nov rate hop mn mx res t H.
  destruct (autocorr_ok _ _ _ _ _ _ _ _ H) as (_ & _ & _ & _ & _ & R & l & L & ->).
  exists l. split; [apply sort_desc_perm|]. pose proof (loop_ok _ _ _ _ _ _ L) as (W & E). split; auto.
  intros k x s K. destruct (W k x s K) as (A & _). apply nth_error_In in K.
  destruct (loop_range _ _ _ _ _ _ _ _ _ R L K) as (B1 & B2 & B3). auto.
Qed.
Print Assumptions C26_exact.

(** For finite non-negative novelty curves the entries are sorted by decreasing strength. *)
Theorem C26_sorted : forall fuel nov rate hop mn mx res t,
  autocorr_tempogram fuel nov rate hop mn mx res = Some (Ok t) ->
  nn_fin_curve nov -> (Z.of_nat (length nov) <= 2 ^ 64)%Z ->
  StronglySorted (fun a b => fle (snd b) (snd a) = true) t /\ Forall (fun e => fle f0 (snd e) = true) t.
Proof.
  intros fuel nov rate hop mn mx res t H C Len.
  destruct (autocorr_ok _ _ _ _ _ _ _ _ H) as (_ & _ & _ & _ & _ & R & l & L & ->).
  assert (N : Forall (fun e => nneg (snd e)) l).
  { apply Forall_forall. intros (x & s) I. destruct (loop_range _ _ _ _ _ _ _ _ _ R L I) as (_ & _ & E).
    apply strength_nneg in E; auto. apply f2usize_bounds. }
  split.
  - apply sort_desc_sorted. eapply Forall_impl; [|exact N]. intros e. apply nneg_nn.
  - rewrite Forall_forall in *. intros e E. apply N. now apply sort_desc_in in E.
Qed.
Print Assumptions C26_sorted.

(** Sums of values in [0,1] do not exceed their number (up to 2^24 terms), despite rounding. *)
Lemma fsum_le_count : forall l acc k, Forall in01 l -> fin acc -> nneg acc -> (B2R acc <= IZR (Z.of_nat k))%R ->
  (Z.of_nat (k + length l) <= 16777216)%Z ->
  fin (fold_left fadd l acc) /\ nneg (fold_left fadd l acc) /\ (B2R (fold_left fadd l acc) <= IZR (Z.of_nat (k + length l)))%R.
Proof.
  induction l as [|x l IH]; intros acc k H F N B Len; cbn [fold_left length] in *.
  - rewrite Nat.add_0_r. auto.
  - inversion H as [|? ? Hx Hl]; subst. pose proof (in01_fin _ Hx) as Fx. destruct Hx as (X0 & X1).
    pose proof (fle_fx _ _ X1) as X1'. rewrite fx_f1, fx_fin in X1' by auto.
    pose proof (nneg_fx _ X0) as X0'. rewrite fx_fin in X0' by auto.
    pose proof (nneg_fx _ N) as N'. rewrite fx_fin in N' by auto.
    destruct (fadd_fx acc x F Fx) as (Ns & Es).
    assert (R : (0 <= rnd (B2R acc + B2R x) <= IZR (Z.of_nat (S k)))%R).
    { split; [apply rnd_nonneg; lra|]. rewrite <- rnd_Z by lia. apply rnd_mono.
      rewrite Nat2Z.inj_succ, succ_IZR. lra. }
    assert (Bg : (IZR (Z.of_nat (S k)) < big)%R) by (apply IZR_lt_big; lia).
    rewrite sat_id in Es by (pose proof big_pos; lra).
    assert (Fs : fin (fadd acc x)) by (apply fin_iff; auto; rewrite Es; pose proof big_pos; lra).
    rewrite fx_fin in Es by auto. replace (k + S (length l)) with (S k + length l) in * by lia.
    apply IH; auto; try (rewrite Es; apply R); try lia. now apply fadd_nneg.
Qed.

(** C53: for a normalised novelty curve (values in [0,1]) every strength is in [0,1]. *)
Theorem C53_strength_unit : forall fuel nov rate hop mn mx res t,
  autocorr_tempogram fuel nov rate hop mn mx res = Some (Ok t) ->
  Forall (fun x => fle f0 x = true /\ fle x f1 = true) nov -> (Z.of_nat (length nov) <= 2 ^ 24)%Z ->
  forall x s, In (x, s) t -> fle f0 s = true /\ fle s f1 = true.
Proof.
  intros fuel nov rate hop mn mx res t H C Len x s I.
  destruct (autocorr_ok _ _ _ _ _ _ _ _ H) as (_ & _ & _ & _ & _ & R & l & L & ->).
  apply sort_desc_in in I. destruct (loop_range _ _ _ _ _ _ _ _ _ R L I) as (_ & _ & E).
  unfold lag_strength in E.
  pose proof (f2usize_bounds (fdiv (frame_rate rate hop) (fdiv x (z2f 60)))) as Lb. fold (tempo_lag rate hop x) in Lb.
  set (lag := tempo_lag rate hop x) in *.
  destruct (_ <? _)%Z; [discriminate|]. destruct (Z.leb_spec (Z.of_nat (length nov)) lag); [injection E as <-; auto|].
  injection E as <-. set (k := length nov - Z.to_nat lag) in *. set (terms := map _ _).
  assert (N : forall j, in01 (nth j nov f0)).
  { intros j. destruct (Nat.lt_ge_cases j (length nov)).
    - rewrite Forall_forall in C. now apply C, nth_In.
    - rewrite nth_overflow by auto. apply in01_0. }
  assert (T : Forall in01 terms).
  { unfold terms. rewrite Forall_map. apply Forall_forall. intros i _. apply in01_mul; apply N. }
  assert (Tl : length terms = k) by (unfold terms; now rewrite map_length, seq_length).
  destruct (fsum_le_count terms f0 0 T eq_refl eq_refl) as (Fs & Ns & Bs); [simpl; lra|simpl; lia|].
  fold (fsum terms) in Fs, Ns, Bs. rewrite Tl in Bs. cbn [Nat.add] in Bs.
  destruct (n2f_exact k ltac:(lia)) as (Fk & Ek).
  assert (Pk : pos (n2f k)) by (apply CombFilterProofs.n2f_pos; lia).
  assert (Nd : nn (fdiv (fsum terms) (n2f k))) by now apply fdiv_nn_fin.
  split; [now apply fdiv_nneg|]. apply fdiv_le_1; auto.
  apply fle_intro; auto using fin_nn. rewrite !fx_fin by auto. now rewrite Ek.
Qed.
Print Assumptions C53_strength_unit.

(** The selected tempo is the first entry; unless its strength is +inf its confidence is in [0,1]. *)
Theorem C26_best : forall t, (t = [] <-> find_best t = None) /\
  forall bpm conf s, find_best t = Some (bpm, conf, s) ->
    (exists r, t = (bpm, s) :: r) /\ (s <> finf -> fle f0 conf = true /\ fle conf f1 = true).
Proof.
  intros t. split.
  - destruct t as [|(b & s) r]; cbn; split; congruence.
  - intros bpm conf s H. destruct t as [|(b & s') r]; [discriminate|]. cbn [find_best] in H.
    injection H as <- <- <-. split; [eauto|]. intros Fs.
    destruct r as [|(b2 & s2) r]; [split; reflexivity|]. destruct (fgt s' eps10) eqn:G; [|split; reflexivity].
    apply in01_clamp.
    assert (P : pos s') by (eapply flt_fle_trans with (y := eps10); [reflexivity|]; now apply flt_fle).
    assert (F : fin s'). { destruct (nneg_cases s' (pos_nneg _ P)) as [(F & _)|E]; [auto|congruence]. }
    set (d := fmax (fsub s' s2) f0). assert (D : nneg d) by (now apply fmax_ge_r).
    destruct (nneg_cases d D) as [(Fd & _)| ->]; [now apply fdiv_nn_fin|now rewrite fdiv_inf_l].
Qed.
Print Assumptions C26_best.

(** A strength of +inf gives a NaN confidence. *)
Theorem C26_inf_refuted : exists t, option_map (fun r => fisnan (snd (fst r))) (find_best t) = Some true.
Proof. exists [(z2f 120, finf); (z2f 60, f1)]. vm_compute. reflexivity. Qed.
Print Assumptions C26_inf_refuted.

(** The whole chain for a finite non-negative curve: the reported tempo is in range and
    strongest, the confidence is a confidence when the strength is finite. *)
Theorem C26_reported : forall fuel nov rate hop mn mx res t bpm conf s,
  autocorr_tempogram fuel nov rate hop mn mx res = Some (Ok t) -> find_best t = Some (bpm, conf, s) ->
  nn_fin_curve nov -> (Z.of_nat (length nov) <= 2 ^ 64)%Z ->
  fle mn bpm = true /\ fle bpm mx = true /\ (forall b' s', In (b', s') t -> fle s' s = true).
Proof.
  intros fuel nov rate hop mn mx res t bpm conf s H Hb C Len.
  destruct (C26_best t) as (_ & B). destruct (B _ _ _ Hb) as ((r & E) & _).
  destruct (C26_exact _ _ _ _ _ _ _ _ H) as (l & P & W & _).
  assert (I : In (bpm, s) l) by (eapply Permutation_in; [apply Permutation_sym, P|]; rewrite E; left; auto).
  apply In_nth_error in I as (k & K). destruct (W _ _ _ K) as (_ & A1 & A2 & _). split; auto. split; auto.
  destruct (C26_sorted _ _ _ _ _ _ _ _ H C Len) as (S & N). intros b' s' I'. rewrite E in *.
  destruct I' as [[= <- <-]|I'].
  - apply fle_refl. rewrite Forall_forall in N. apply nneg_nn, (N (bpm, s)). left; auto.
  - inversion S as [|? ? _ F]. rewrite Forall_forall in F. apply (F (b', s') I').
Qed.
Print Assumptions C26_reported.

(** C20 for this loop. *)
Lemma tempo_lag_le : forall rate hop x, (Z.of_nat rate < 2 ^ 32)%Z -> 0 < hop -> (Z.of_nat hop < 2 ^ 32)%Z ->
  fle f1 x = true -> (tempo_lag rate hop x <= 2 ^ 62)%Z.
Proof.
  intros rate hop x Hr Hh Hh' X. unfold tempo_lag, frame_rate.
  assert (Fr : fin (n2f rate)) by (apply z2f_fin; lia). assert (Fh : fin (n2f hop)) by (apply z2f_fin; lia).
  assert (Ph : pos (n2f hop)) by now apply CombFilterProofs.n2f_pos.
  assert (Hh1 : fle f1 (n2f hop) = true) by (replace f1 with (z2f 1) by reflexivity; apply z2f_mono; lia).
  set (a := fdiv (n2f rate) (n2f hop)).
  assert (Na : nn a) by (now apply fdiv_nn_fin).
  assert (A0 : nneg a) by (apply fdiv_nneg; auto; apply n2f_nneg).
  assert (A1 : fle a (lit 1 32) = true).
  { eapply fle_trans; [apply (fdiv_mono_r (n2f rate) f1 (n2f hop)); auto; try reflexivity; try apply n2f_nneg; now apply fdiv_nn_fin|].
    destruct (fdiv_fx (n2f rate) f1 Fr eq_refl) as (N1 & E1); [rewrite B2R_f1; lra|].
    apply fle_intro; auto. rewrite E1, B2R_f1. replace (B2R (n2f rate) / 1)%R with (B2R (n2f rate)) by lra.
    rewrite rnd_B2R, sat_id by (pose proof (B2R_lt (n2f rate)); lra). rewrite <- fx_fin by auto. apply fle_fx.
    replace (lit 1 32) with (z2f (2 ^ 32)) by (apply B2SF_inj; vm_compute; reflexivity). apply z2f_mono. lia. }
  set (d := fdiv x (z2f 60)).
  assert (Nx : nn x) by (now apply fle_nn in X).
  assert (Nd : nn d). { unfold d. destruct (nn_cases x Nx) as [Fx|[->| ->]]; [now apply fdiv_nn_fin|reflexivity|reflexivity]. }
  assert (D1 : fle (lit 1 (-6)) d = true).
  { eapply fle_trans; [|apply (fdiv_mono_l f1 x (z2f 60)); auto; reflexivity]. reflexivity. }
  assert (Pd : pos d) by (eapply flt_fle_trans with (y := lit 1 (-6)); auto).
  assert (Fa : fin a) by (apply (fin_between f0 _ (lit 1 32)); auto).
  assert (Nq : nn (fdiv a d)).
  { destruct (nneg_cases d (pos_nneg _ Pd)) as [(Fd & _)| ->]; [now apply fdiv_nn_fin|].
    destruct a as [| | |]; try discriminate; reflexivity. }
  assert (Q : fle (fdiv a d) (lit 1 38) = true).
  { eapply fle_trans; [apply (fdiv_mono_r a (lit 1 (-6)) d); auto; try reflexivity; now apply fdiv_nn_fin|].
    eapply fle_trans; [apply (fdiv_mono_l a (lit 1 32)); auto; try reflexivity; now apply fdiv_nn_fin|].
    vm_compute. reflexivity. }
  eapply Z.le_trans; [apply (f2usize_mono _ _ Q)|]. vm_compute. discriminate.
Qed.

Theorem C20_tempogram_terminates : forall nov rate hop mn mx res,
  fisfin res = true -> fisfin mx = true -> (B2R mx / 2 ^ 23 < B2R res)%R -> fle f1 mn = true ->
  (Z.of_nat rate < 2 ^ 32)%Z -> (Z.of_nat hop < 2 ^ 32)%Z -> (Z.of_nat (length nov) <= 2 ^ 62)%Z ->
  exists N r, r <> Panic /\ forall fuel, N <= fuel -> autocorr_tempogram fuel nov rate hop mn mx res = Some r.
Proof.
  intros nov rate hop mn mx res Fr Fx H M1 Hr Hh Hn. unfold autocorr_tempogram.
  destruct (length nov =? 0); [exists 0, (Err InvalidInput); split; [discriminate|auto]|].
  destruct (rate =? 0); [exists 0, (Err InvalidInput); split; [discriminate|auto]|].
  destruct (Nat.eqb_spec hop 0); [exists 0, (Err InvalidInput); split; [discriminate|auto]|].
  destruct (_ || _); [exists 0, (Err InvalidInput); split; [discriminate|auto]|].
  destruct (fle res f0) eqn:E4; [exists 0, (Err InvalidInput); split; [discriminate|auto]|].
  assert (Pn : pos mn) by (eapply flt_fle_trans with (y := f1); auto).
  assert (Pr : pos res) by (apply not_le0_pos; auto using fin_nn).
  replace (2 ^ 23)%R with 8388608%R in H by (simpl; lra).
  destruct (walk_ends res mn mx) as (k & K); auto.
  destruct (loop_ends (fun bpm => lag_strength nov (tempo_lag rate hop bpm)) _ _ _ _ K) as (r & L).
  exists (S k), (omap (sort_desc snd) r). split.
  - destruct r; try discriminate. intros _. apply loop_panic in L as (j & S & P). revert P. unfold lag_strength.
    assert (fle f1 (nth_tempo res mn j) = true).
    { eapply fle_trans; [exact M1|]. apply visited_ge; auto. now apply fle_nn in S. }
    pose proof (tempo_lag_le rate hop (nth_tempo res mn j) Hr ltac:(lia) Hh H0).
    destruct (Z.ltb_spec usize_max (Z.of_nat (length nov - 1) + tempo_lag rate hop (nth_tempo res mn j))).
    + unfold usize_max in *. lia.
    + destruct (_ <=? _)%Z; discriminate.
  - intros fuel Hf. now rewrite (loop_mono _ _ _ _ _ _ L fuel Hf).
Qed.
Print Assumptions C20_tempogram_terminates.

Theorem C20_tempogram_count : forall fuel nov rate hop mn mx res t,
  autocorr_tempogram fuel nov rate hop mn mx res = Some (Ok t) ->
  fisfin res = true -> fisfin mx = true -> t <> [] ->
  ((INR (length t) - 1) * (B2R res - B2R mx / 2 ^ 23) <= B2R mx - B2R mn)%R.
Proof.
  intros fuel nov rate hop mn mx res t H Fr Fx Ne.
  destruct (autocorr_ok _ _ _ _ _ _ _ _ H) as (_ & _ & _ & Vn & Vx & R & l & L & E).
  assert (Nl : l <> []) by (intros ->; apply Ne; now rewrite E).
  destruct l as [|(b & s) l']; [congruence|].
  destruct (loop_range _ _ _ _ _ _ _ _ _ R L (or_introl eq_refl)) as (A1 & _). apply fle_nn in A1.
  replace (2 ^ 23)%R with 8388608%R in * by (simpl; lra).
  rewrite E, sort_desc_length.
  exact (loop_count _ _ _ _ _ _ _ (not_le0_pos _ R (fin_nn _ Fr)) Fr (not_le0_pos _ Vn (proj1 A1)) Fx L ltac:(discriminate)).
Qed.
Print Assumptions C20_tempogram_count.

Theorem C20_tempogram_refuted : exists nov rate hop mn mx res,
  (forall fuel, autocorr_tempogram fuel nov rate hop mn mx res = None) /\
  flt f0 mn = true /\ flt mn mx = true /\ flt f0 res = true.
Proof.
  exists [f1; f1], 100, 10, (z2f 60), (z2f 180), (lit 8796093 (-43)).
  split; [|repeat split]. intros fuel. unfold autocorr_tempogram.
  replace (length [f1; f1] =? 0) with false by reflexivity. replace (100 =? 0) with false by reflexivity.
  replace (10 =? 0) with false by reflexivity.
  destruct (_ || _) eqn:E; [vm_compute in E; discriminate|]. clear E.
  destruct (fle _ f0) eqn:E; [vm_compute in E; discriminate|]. clear E.
  assert (X : omap (fun _ => tt) (lag_strength [f1; f1] (tempo_lag 100 10 (z2f 60))) = Ok tt) by (vm_compute; reflexivity).
  destruct (lag_strength [f1; f1] (tempo_lag 100 10 (z2f 60))) as [a|e|] eqn:B; cbn [omap] in X; [|discriminate X|discriminate X].
  rewrite (loop_stuck _ _ _ _ a); auto. apply B2SF_inj. vm_compute. reflexivity.
Qed.
Print Assumptions C20_tempogram_refuted.

(** A tiny accepted minimum tempo makes the lag saturate and the index addition overflow. *)
Theorem C20_lag_overflow_refuted : exists nov rate hop mn mx res, flt f0 mn = true /\ flt mn mx = true /\ flt f0 res = true /\
  forall fuel, autocorr_tempogram (S fuel) nov rate hop mn mx res = Some Panic.
Proof.
  exists [f1; f1], 100, 10, (lit 1 (-100)), f1, f1. repeat split.
Qed.
Print Assumptions C20_lag_overflow_refuted.

(** FFT tempogram: entries are the bins in range, strongest first, for any transform that
    delivers no NaN. *)
Theorem C26_fft : forall F L nov rate hop mn mx t,
  (forall l, Forall (fun z => fisnan (fst z) = false /\ fisnan (snd z) = false) (fft_forward F l)) ->
  fft_tempogram F L nov rate hop mn mx = Ok t ->
  StronglySorted (fun a b => fle (snd b) (snd a) = true) t /\
  forall b p, In (b, p) t <-> fle mn b = true /\ fle b mx = true /\
    exists k re im, k <= next_pow2 (length nov) / 2 /\
      nth_error (fft_forward F (fft_input L nov)) k = Some (re, im) /\
      b = bin_bpm rate hop (next_pow2 (length nov)) k /\ p = fadd (fmul re re) (fmul im im).
Proof.
  intros F L nov rate hop mn mx t HF H. unfold fft_tempogram in H.
  destruct (length nov =? 0); [discriminate|]. destruct (rate =? 0); [discriminate|].
  destruct (hop =? 0); [discriminate|]. destruct (_ || _); [discriminate|].
  assert (Ht := f_equal (fun o => match o with Ok l => l | _ => [] end) H). cbn beta iota in Ht. clear H. subst t.
  set (size := next_pow2 (length nov)). set (buf := fft_forward F (fft_input L nov)).
  set (power := map _ buf). set (entries := map _ _).
  assert (In_e : forall b p, In (b, p) entries <-> exists k re im, k <= size / 2 /\ nth_error buf k = Some (re, im) /\
     b = bin_bpm rate hop size k /\ p = fadd (fmul re re) (fmul im im)).
  { intros b p. unfold entries. rewrite in_map_iff. split.
    - intros ((k & q) & [= <- <-] & I). apply In_nth_error in I as (j & J).
      apply nth_error_combine_iff in J as (J1 & J2).
      apply nth_error_seq_iff in J1 as (Jl & ->). cbn [fst snd].
      rewrite nth_error_firstn in J2. destruct (Nat.ltb_spec j (size / 2 + 1)); [|lia].
      unfold power in J2. rewrite nth_error_map in J2.
      destruct (nth_error buf j) as [(re & im)|] eqn:B; [|discriminate]. injection J2 as <-.
      exists (0 + j), re, im. cbn [Nat.add]. split; [lia|]. auto.
    - intros (k & re & im & K & B & -> & ->). exists (k, fadd (fmul re re) (fmul im im)). split; auto.
      apply nth_error_In with (n := k). apply nth_error_combine_iff. split.
      + apply nth_error_seq_iff. lia.
      + rewrite nth_error_firstn. destruct (Nat.ltb_spec k (size / 2 + 1)); [|lia].
        unfold power. now rewrite nth_error_map, B. }
  split.
  - apply sort_desc_sorted. apply Forall_forall. intros (b & p) I. apply filter_In in I as (I & _).
    apply In_e in I as (k & re & im & _ & B & _ & ->). specialize (HF (fft_input L nov)). fold buf in HF.
    rewrite Forall_forall in HF. destruct (HF _ (nth_error_In _ _ B)) as (N1 & N2). cbn [fst snd] in *.
    apply nneg_fadd_nn; now apply square_nneg.
  - intros b p. rewrite sort_desc_in, filter_In, In_e. cbn [fst snd]. unfold fge.
    change (Bleb mn b) with (fle mn b). rewrite andb_true_iff. tauto.
Qed.
Print Assumptions C26_fft.

(** Period 2 pulses at 4 frames/s (120 BPM): autocorrelation prefers 120 over 150 and 180. *)
Example C26_case :
  option_map (omap (map (fun e => (f2i32 (fst e), f2i32 (fmul (snd e) (z2f 100))))))
    (autocorr_tempogram 10 [f1; f0; f1; f0; f1; f0] 4 1 (z2f 120) (z2f 180) (z2f 30))
  = Some (Ok [(120, 50); (150, 0); (180, 0)]%Z).
Proof. vm_compute. reflexivity. Qed.
