(** C27: the combined tempogram estimator (src/features/period/tempogram.rs). *)
From Coq Require Import ZArith Reals Lra Sorted.
From Verif Require Import Rust F32 F32Facts ListFacts Libm Sorting SortingFacts Autocorrelation CandidateFilter NoveltyProofs TempoSpectra
  NoveltyProps Tempogram TempogramProofs TempogramValueProofs.

(** Structure of every accepted result, for all spectrograms, platforms, ranges, resolutions and band settings and
    without any numeric assumption: candidates finite, in range and pairwise at least 0.75 BPM apart; exactly one of
    them flagged, and it is the reported tempo; at most two methods agree; the confidence is in [0,1] or NaN. *)
Theorem C27_range : forall F L fuel spec rate hop mn mx res cfg e l,
  tempogram_impl F L fuel spec rate hop mn mx res cfg = Some (Ok (e, l)) ->
  fle mn (e_bpm e) = true /\ fle (e_bpm e) mx = true /\
  (forall c, In c l -> fisfin (t_bpm c) = true /\ fle mn (t_bpm c) = true /\ fle (t_bpm c) mx = true) /\
  (forall i j a b, i <> j -> nth_error l i = Some a -> nth_error l j = Some b ->
     fle (lit 3 (-2)) (fabs (fsub (t_bpm a) (t_bpm b))) = true) /\
  (exists c, In c l /\ t_bpm c = e_bpm e /\ filter t_sel l = [c]) /\
  e_agree e <= 2 /\
  ((fle f0 (e_conf e) = true /\ fle (e_conf e) f1 = true) \/ fisnan (e_conf e) = true).
Proof.
  intros F L fuel spec rate hop mn mx res cfg e l H. unfold tempogram_impl in H.
  destruct (variants F L fuel spec rate hop mn mx res cfg) as [[v| |]|]; cbn [rbind] in H; try discriminate.
  assert (H' : select_tempo cfg (fst v) (snd v) mn mx res = Ok (e, l)) by congruence. clear H.
  destruct (select_ok _ _ _ _ _ _ _ _ H') as (f & best & first & r & sl & P & Ef & Es & El & Eb & E1 & E2 & E3 & ->). clear H'.
  destruct (tempos_spec (seeds (fst v :: snd v)
    (match find_best (v_fft (fst v)) with Some (b, _, _) => b | None => f0 end)
    (match find_best (v_ac (fst v)) with Some (b, _, _) => b | None => f0 end)) mn mx) as (G & R & _ & _).
  fold (tempos (fst v :: snd v) (fst v) mn mx) in G, R.
  assert (Pb : Permutation (tempos (fst v :: snd v) (fst v) mn mx) (map s_bpm sl)).
  { rewrite <- (Permutation_map s_bpm P), map_map. rewrite (map_ext _ (fun b => b)) by exact Ef. now rewrite map_id. }
  generalize dependent (tempos (fst v :: snd v) (fst v) mn mx). intros u P Es G R Pb.
  assert (Ru : Forall (fun b => fin b) u) by (eapply Forall_impl; [|exact R]; intros b; tauto).
  assert (Fs : forall c, In c sl -> fin (s_bpm c) /\ fle mn (s_bpm c) = true /\ fle (s_bpm c) mx = true).
  { intros c I. rewrite Forall_forall in R. apply R. eapply Permutation_in; [apply Permutation_sym, Pb|]. now apply in_map. }
  assert (A : apart (map s_bpm sl)) by (eapply apart_perm; [exact Pb|exact Ru|now apply gap_apart]).
  assert (Ib : In best sl) by (subst best; apply octave_in; rewrite El; now left).
  rewrite E1. destruct (Fs best Ib) as (B0 & B1 & B2). split; auto. split; auto. split.
  { intros c I. apply in_map_iff in I as (s & <- & I). apply Fs, I. }
  split.
  { intros i j a b N Ia Ij. rewrite nth_error_map in Ia, Ij.
    destruct (nth_error sl i) as [x|] eqn:X; [|discriminate]. destruct (nth_error sl j) as [y|] eqn:Y; [|discriminate].
    injection Ia as <-. injection Ij as <-. cbn [t_bpm]. apply (A i j); auto; rewrite nth_error_map.
    - now rewrite X.
    - now rewrite Y. }
  split.
  { exists (mkTc (s_bpm best) (s_score best) (s_fft best) (s_ac best) true).
    assert (K : forall sl, (forall c, In c sl -> fin (s_bpm c)) -> apart (map s_bpm sl) -> In best sl ->
      filter t_sel (map (fun c => mkTc (s_bpm c) (s_score c) (s_fft c) (s_ac c) (flt (fabs (fsub (s_bpm c) (s_bpm best))) f075)) sl)
      = [mkTc (s_bpm best) (s_score best) (s_fft best) (s_ac best) true]).
    { clear -B0. assert (Z : flt (fabs (fsub (s_bpm best) (s_bpm best))) f075 = true).
      { apply flt_intro; [auto using dist_nn|reflexivity|]. destruct (fsub_fx _ _ B0 B0) as (N & E).
        rewrite fabs_fx, E, (Rminus_diag_eq _ _ eq_refl), rnd_0, sat_0, Rabs_R0 by auto. apply (flt_fx f0 f075). reflexivity. }
      assert (Far : forall c, fin (s_bpm c) -> fle f075 (fabs (fsub (s_bpm c) (s_bpm best))) = true ->
        flt (fabs (fsub (s_bpm c) (s_bpm best))) f075 = false) by (intros c _ Hc; now apply fle_flt_false).
      assert (None_ : forall sl, (forall c, In c sl -> fin (s_bpm c)) ->
        Forall (fun b => fle f075 (fabs (fsub (s_bpm best) b)) = true) (map s_bpm sl) ->
        filter t_sel (map (fun c => mkTc (s_bpm c) (s_score c) (s_fft c) (s_ac c) (flt (fabs (fsub (s_bpm c) (s_bpm best))) f075)) sl) = []).
      { induction sl as [|c sl IH]; intros Fc Hc; auto. cbn [map filter t_sel] in *. inversion Hc; subst.
        rewrite Far; auto. { apply IH; auto. intros; apply Fc; now right. } { apply Fc; now left. }
        apply dist_le_sym; auto. apply Fc; now left. }
      induction sl as [|c sl IH]; intros Fc A I; [destruct I|]. cbn [map] in A.
      apply apart_cons in A as (A1 & A2).
      2:{ constructor. apply Fc; now left. apply Forall_map, Forall_forall. intros; apply Fc; now right. }
      cbn [map filter t_sel]. destruct I as [->|I].
      - rewrite Z. f_equal. apply None_; auto. intros; apply Fc; now right.
      - rewrite Forall_map, Forall_forall in A1. rewrite Far; auto; [|apply Fc; now left].
        apply IH; auto. intros; apply Fc; now right. }
    specialize (K sl (fun c I => proj1 (Fs c I)) A Ib). split; [|auto].
    assert (X : In (mkTc (s_bpm best) (s_score best) (s_fft best) (s_ac best) true) [mkTc (s_bpm best) (s_score best) (s_fft best) (s_ac best) true]) by (now left).
    rewrite <- K in X. apply filter_In in X. tauto. }
  split; auto. rewrite E2.
  destruct (separation_cases (lit 2305843 (-61)) (s_score best) (match r with [] => f0 | s :: _ => s_score s end) ltac:(reflexivity)) as [Hs|(Hs & _)]; auto.
Qed.
Print Assumptions C27_range.

(** Where the candidates come from: each is one of the eight strongest tempos of some tempogram multiplied by one of
    the factors 1, 1/2, 2, 1/3, 3, 2/3, 3/2; and every such product in range lies less than 0.75 above a candidate. *)
Definition products (vs : list variant) (b : f32) : Prop :=
  exists v t x f, In v vs /\ (t = v_fft v \/ t = v_ac v) /\ In x (firstn 8 t) /\
    In f [f1; fhalf; f2; fdiv f1 (z2f 3); z2f 3; fdiv f2 (z2f 3); fdiv (z2f 3) f2] /\ b = fmul (fst x) f.
Lemma seeds_products : forall full others s f, let vs := full :: others in
  In s (seeds vs (match find_best (v_fft full) with Some (b, _, _) => b | None => f0 end)
                 (match find_best (v_ac full) with Some (b, _, _) => b | None => f0 end)) ->
  In f factors -> products vs (fmul s f).
Proof.
  intros full others s f vs I J. unfold seeds in I. apply in_app_or in I as [I|I].
  - apply in_flat_map in I as (v & V & I). apply in_app_or in I as [I|I]; apply in_map_iff in I as (x & <- & I).
    + exists v, (v_fft v), x, f. auto.
    + exists v, (v_ac v), x, f. auto.
  - assert (K : forall t, In s (if fgt (match find_best t with Some (b, _, _) => b | None => f0 end) f0
        then [match find_best t with Some (b, _, _) => b | None => f0 end] else []) -> exists x, In x (firstn 8 t) /\ fst x = s).
    { intros [|(b & p) t] K; cbn [find_best] in K; [destruct K|]. destruct (fgt b f0); [|destruct K].
      destruct K as [<-|[]]. exists (b, p). split; auto. now left. }
    apply in_app_or in I as [I|I]; apply K in I as (x & I & <-).
    + exists full, (v_fft full), x, f. repeat split; auto. now left.
    + exists full, (v_ac full), x, f. repeat split; auto. now left.
Qed.
Theorem C27_candidates : forall cfg full others mn mx res e l, select_tempo cfg full others mn mx res = Ok (e, l) ->
  (forall c, In c l -> products (full :: others) (t_bpm c)) /\
  (forall b, products (full :: others) b -> fisfin b = true -> fle mn b = true -> fle b mx = true ->
     exists c, In c l /\ fle (t_bpm c) b = true /\ (b = t_bpm c \/ flt (fabs (fsub b (t_bpm c))) (lit 3 (-2)) = true)).
Proof.
  intros cfg full others mn mx res e l H.
  destruct (select_ok _ _ _ _ _ _ _ _ H) as (f & best & first & r & sl & P & Ef & Es & El & Eb & E1 & E2 & E3 & ->). clear H.
  destruct (tempos_spec (seeds (full :: others)
    (match find_best (v_fft full) with Some (b, _, _) => b | None => f0 end)
    (match find_best (v_ac full) with Some (b, _, _) => b | None => f0 end)) mn mx) as (_ & _ & S & C).
  fold (tempos (full :: others) full mn mx) in S, C.
  assert (Pb : Permutation (tempos (full :: others) full mn mx) (map s_bpm sl)).
  { rewrite <- (Permutation_map s_bpm P), map_map. rewrite (map_ext _ (fun b => b)) by exact Ef. now rewrite map_id. }
  split.
  - intros c I. apply in_map_iff in I as (s & <- & I). cbn [t_bpm].
    destruct (S (s_bpm s)) as (x & g & X & G & ->); [|now apply seeds_products].
    eapply Permutation_in; [apply Permutation_sym, Pb|]. now apply in_map.
  - intros b (v & t & x & g & V & T & X & G & ->) Fb B1 B2.
    destruct (C (fmul (fst x) g)) as (w & W & A & B).
    + apply folded_spec. split; auto. exists (fst x), g. split; auto. unfold seeds. apply in_or_app. left.
      apply in_flat_map. exists v. split; auto. apply in_or_app.
      destruct T as [-> | ->]; [left|right]; now apply in_map.
    + apply (Permutation_in _ Pb) in W. apply in_map_iff in W as (s & <- & I).
      eexists. split; [apply in_map; exact I|]. cbn [t_bpm]. auto.
Qed.
Print Assumptions C27_candidates.

(** The reported tempo is the first listed candidate, or, when that exceeds 180 BPM, one within 0.75 of its half. *)
Theorem C27_choice : forall cfg full others mn mx res e l, select_tempo cfg full others mn mx res = Ok (e, l) ->
  exists first r, l = first :: r /\
    (e_bpm e = t_bpm first \/
     (flt (z2f 180) (t_bpm first) = true /\ flt (fabs (fsub (e_bpm e) (fdiv (t_bpm first) f2))) (lit 3 (-2)) = true)).
Proof.
  intros cfg full others mn mx res e l H.
  destruct (select_ok _ _ _ _ _ _ _ _ H) as (f & best & first & r & sl & P & Ef & Es & El & Eb & E1 & E2 & E3 & ->). clear H.
  rewrite El. cbn [map]. eexists. eexists. split; [reflexivity|]. cbn [t_bpm]. rewrite E1, Eb. unfold octave_fold.
  destruct (fgt (s_bpm first) (z2f 180)) eqn:G; [|now left]. cbv zeta. destruct (_ && _); [|now left].
  destruct (find _ sl) as [c|] eqn:Fd; [|now left]. destruct (negb _); [|now left].
  right. split; auto. now apply find_some in Fd.
Qed.
Print Assumptions C27_choice.

(** Scores are at most 2^(k+26) for a consensus bonus of at most 2^k. *)
Lemma impl_scores : forall k F L fuel spec rate hop mn mx res cfg e l,
  fft_bounds F -> cos_bounds L -> ln_bounds L -> moderate spec ->
  (forall n, rect n spec -> (Z.of_nat n <= 2 ^ 24)%Z) -> (Z.of_nat (length spec) <= 2 ^ 24)%Z ->
  (forall c, cfg = Some c -> usable c /\ fle (bc_bonus c) (lit 1 k) = true) -> (0 <= k <= 100)%Z ->
  tempogram_impl F L fuel spec rate hop mn mx res cfg = Some (Ok (e, l)) ->
  StronglySorted (fun a b => fle (t_score b) (t_score a) = true) l /\
  Forall (fun c => upto (k + 26) (t_score c) /\
     in01 (t_fft c) /\ in01 (t_ac c) /\
     ((forall c0, cfg = Some c0 -> fle (bc_bonus c0) f0 = true) -> in01 (t_score c))) l /\
  in01 (e_conf e).
Proof.
  intros k F L fuel spec rate hop mn mx res cfg e l HF HC HL HM HW HN HU Hk H. unfold tempogram_impl in H.
  destruct (variants F L fuel spec rate hop mn mx res cfg) as [[v| |]|] eqn:Ev; cbn [rbind] in H; try discriminate.
  destruct (variants_fit F L fuel spec rate hop mn mx res HF HC HL HM HW HN cfg v (fun c E => proj1 (HU c E)) Ev) as (Fv & Lv).
  assert (H' : select_tempo cfg (fst v) (snd v) mn mx res = Ok (e, l)) by congruence. clear H Ev HF HC HL HM HW HN.
  unfold select_tempo in H'. cbv zeta in H'.
  set (score_vs := if match cfg with Some c => bc_seed_only c | None => true end then _ else _) in H'.
  assert (Fsv : Forall fit score_vs).
  { unfold score_vs. destruct (match cfg with Some c => bc_seed_only c | None => true end); auto.
    rewrite Forall_forall in *. intros x X. apply filter_In in X. apply Fv, X. }
  destruct (wsum_ok score_vs Fsv) as (Fw & Pw). cbv zeta in Fw, Pw.
  set (w := fmax (fsum (map (fun v => fmax (v_w v) f0) score_vs)) (lit 8796093 (-43))) in *. clearbody w.
  set (bonus := if _ && _ then _ else _) in H'.
  assert (Hb : forall b, bonus = Some b -> nneg b /\ fle b (lit 1 k) = true).
  { intros b E. unfold bonus in E. destruct (_ && _); [|discriminate]. injection E as <-.
    split; [apply fmax_ge_r; reflexivity|]. assert (Nk : nneg (lit 1 k)).
    { destruct (upto_lit k ltac:(lia)) as (Fl & L0 & _). apply nneg_iff; [now apply fin_nn|]. now rewrite fx_fin. }
    destruct cfg as [c|]; [|exact Nk].
    apply fmax_lub; auto. intros _. apply (HU c eq_refl). }
  assert (Hn : (forall c0, cfg = Some c0 -> fle (bc_bonus c0) f0 = true) -> bonus = None).
  { intros Hc. unfold bonus. destruct cfg as [c|]; [|now rewrite andb_comm].
    replace (fgt (fmax (bc_bonus c) f0) f0) with false; auto. symmetry. apply fle_flt_false. apply fmax_lub; auto. }
  clearbody bonus. generalize dependent (fclamp_val (match cfg with Some c => bc_support c | None => lit 1 (-2) end) f0 f1).
  intros support H'.
  set (f := score_candidate score_vs (fst v :: snd v) w res support bonus) in H'.
  assert (Hf : forall b, in01 (s_fft (f b)) /\ in01 (s_ac (f b)) /\ upto (k + 26) (s_score (f b)) /\ (bonus = None -> in01 (s_score (f b)))).
  { intros b. apply score_ok; auto. cbn [length]. lia. }
  clearbody f. destruct (forallb _ _); [discriminate|].
  generalize dependent (spaced (sort_asc (folded (seeds (fst v :: snd v)
    (match find_best (v_fft (fst v)) with Some (b, _, _) => b | None => f0 end)
    (match find_best (v_ac (fst v)) with Some (b, _, _) => b | None => f0 end)) mn mx))). intros u H'.
  assert (S : StronglySorted (fun a b => fle (s_score b) (s_score a) = true) (sort_desc s_score (map f u))).
  { apply sort_desc_sorted. apply Forall_map, Forall_forall. intros b _. apply fin_nn. eapply upto_fin, Hf. }
  assert (A : forall c, In c (sort_desc s_score (map f u)) -> exists b, c = f b).
  { intros c I. apply sort_desc_in, in_map_iff in I as (b & <- & _). eauto. }
  destruct (sort_desc s_score (map f u)) as [|first r] eqn:E; [discriminate|].
  assert (H1 := f_equal (fun o => match o with Ok x => fst x | _ => e end) H'). cbv beta iota delta [fst] in H1.
  assert (H2 := f_equal (fun o => match o with Ok x => snd x | _ => l end) H'). cbv beta iota delta [snd] in H2. clear H'.
  subst l. split; [|split].
  - eapply StronglySorted_map; [|exact S]. intros a b Hab. exact Hab.
  - apply Forall_map, Forall_forall. intros c I. destruct (A c I) as (b & ->). cbn [t_score t_fft t_ac].
    destruct (Hf b) as (B1 & B2 & B3 & B4). split; auto.
  - rewrite <- H1. cbn [e_conf].
    assert (Ib : In (octave_fold (first :: r) mn mx first) (first :: r)) by (apply octave_in; now left).
    destruct (A _ Ib) as (b & Eb). rewrite Eb. destruct (Hf b) as (_ & _ & B3 & _).
    destruct (separation_cases (lit 2305843 (-61)) (s_score (f b)) (match r with [] => f0 | s :: _ => s_score s end) ltac:(reflexivity)) as [Hs|(_ & Hs)]; auto.
    apply upto_fin in B3. rewrite Hs in B3. discriminate B3.
Qed.
(** Scores.  For magnitudes up to 2^39, a platform with the usual bounds and usable settings, the candidates are sorted
    by decreasing score, scores are finite and non-negative, both evidence values and the confidence are in [0,1]; without
    a consensus bonus the scores are in [0,1] too. *)
Theorem C27_scores : forall F L fuel spec rate hop mn mx res cfg e l,
  fft_bounds F -> cos_bounds L -> ln_bounds L -> moderate spec ->
  (forall n, rect n spec -> (Z.of_nat n <= 2 ^ 24)%Z) -> (Z.of_nat (length spec) <= 2 ^ 24)%Z ->
  (forall c, cfg = Some c -> usable c) ->
  tempogram_impl F L fuel spec rate hop mn mx res cfg = Some (Ok (e, l)) ->
  StronglySorted (fun a b => fle (t_score b) (t_score a) = true) l /\
  Forall (fun c => fisfin (t_score c) = true /\ fle f0 (t_score c) = true /\
     in01 (t_fft c) /\ in01 (t_ac c) /\
     ((forall c0, cfg = Some c0 -> fle (bc_bonus c0) f0 = true) -> in01 (t_score c))) l /\
  in01 (e_conf e).
Proof.
  intros F L fuel spec rate hop mn mx res cfg e l HF HC HL HM HW HN HU H.
  destruct (impl_scores 100 F L fuel spec rate hop mn mx res cfg e l) as (A & B & C); auto; try lia.
  { intros c E. split; auto. apply (HU c E). cbn. auto 10. }
  split; auto. split; auto. eapply Forall_impl; [|exact B]. intros c (U & R).
  split; [eapply upto_fin; eauto|]. split; [eapply upto_nneg; eauto|]. exact R.
Qed.
Print Assumptions C27_scores.

(** A platform for concrete runs: an exact four-point transform and the cosines its window needs. *)
Definition dft4 (l : list complex) : list complex :=
  match l with
  | [(a, a'); (b, b'); (c, c'); (d, d')] =>
      [ (fadd (fadd a b) (fadd c d), fadd (fadd a' b') (fadd c' d'));
        (fadd (fsub a c) (fsub b' d'), fadd (fsub a' c') (fsub d b));
        (fadd (fsub a b) (fsub c d), fadd (fsub a' b') (fsub c' d'));
        (fadd (fsub a c) (fsub d' b'), fadd (fsub a' c') (fsub b d)) ]
  | _ => l
  end.
Lemma dft4_len : forall l, length (dft4 l) = length l.
Proof. intros [|(a & a') [|(b & b') [|(c & c') [|(d & d') [|e l]]]]]; reflexivity. Qed.
Definition fft4 : fft_oracle := {| fft_forward := dft4; fft_inverse := fun l => l;
  fft_forward_len := dft4_len; fft_inverse_len := fun l => eq_refl |}.
Definition trig4 : libm := {| m_powf := fun x _ => x; m_log10 := fun _ => f0; m_log2 := fun _ => f0; m_ln := fun x => fsub x f1;
  m_exp := fun _ => f1; m_sin := fun _ => f0; m_cos := fun x => if flt f1 x && flt x (z2f 5) then fneg fhalf else f1 |}.
(** Pulses in every second of five frames, ten frames per second: 300 BPM. *)
Definition pulses : list (list f32) := map (map z2f) [[0; 0]; [1; 2]; [0; 0]; [1; 2]; [0; 0]]%Z.
Definition plain : band_config := {| bc_enabled := false; bc_low := f0; bc_mid := f0; bc_high := f0;
  bc_w_full := f1; bc_w_low := f0; bc_w_mid := f0; bc_w_high := f0; bc_seed_only := true; bc_support := fhalf; bc_bonus := f0;
  bc_mel := false; bc_n_mels := 4; bc_mel_fmin := f0; bc_mel_fmax := f0; bc_mel_filter := 4; bc_w_mel := f0;
  bc_nov_s := fhalf; bc_nov_e := f1; bc_nov_h := f1; bc_mean_window := 0; bc_smooth_window := 0; bc_filter := 4 |}.
Definition shown (r : run (estimate * list cand)) :=
  match r with
  | Some (Ok (e, l)) => Some (f2i32 (e_bpm e), f2i32 (fmul (e_conf e) (z2f 1000)), e_agree e,
      map (fun c => (f2i32 (t_bpm c), f2i32 (fmul (t_score c) (z2f 1000)), t_sel c)) l)
  | _ => None
  end.
(** The best candidate, 300, is folded to 150, which is flagged; its confidence is 0 and no method agrees with it. *)
Example C27_case : shown (tempogram_impl fft4 trig4 20 pulses 10 1 (z2f 100) (z2f 310) (z2f 50) (Some plain)) =
  Some (150%Z, 0%Z, 0, [(300%Z, 800%Z, false); (225%Z, 440%Z, false); (250%Z, 440%Z, false); (150%Z, 225%Z, true);
    (100%Z, 0%Z, false); (125%Z, 0%Z, false); (133%Z, 0%Z, false); (166%Z, 0%Z, false); (200%Z, 0%Z, false)]).
Proof. vm_compute. reflexivity. Qed.

(** With a candidate limit the reported tempo need not be listed: here only 300 is listed while 150 is reported. *)
Theorem C27_truncated_refuted : exists F L fuel spec rate hop mn mx res cfg e l,
  tempogram_candidates F L fuel spec rate hop mn mx res 1 cfg = Some (Ok (e, l)) /\
  Forall (fun c => t_sel c = false /\ feq (t_bpm c) (e_bpm e) = false) l /\ length l = 1.
Proof.
  exists fft4, trig4, 20, pulses, 10, 1, (z2f 100), (z2f 310), (z2f 50), (Some plain).
  assert (X : match tempogram_candidates fft4 trig4 20 pulses 10 1 (z2f 100) (z2f 310) (z2f 50) 1 (Some plain) with
    | Some (Ok (e, l)) => forallb (fun c => negb (t_sel c) && negb (feq (t_bpm c) (e_bpm e))) l && (length l =? 1)
    | _ => false end = true) by (vm_compute; reflexivity).
  destruct (tempogram_candidates fft4 trig4 20 pulses 10 1 (z2f 100) (z2f 310) (z2f 50) 1 (Some plain)) as [[(e & l)| |]|];
    [|discriminate X|discriminate X|discriminate X].
  exists e, l. split; [reflexivity|]. apply andb_true_iff in X as (X & Y). split; [|now apply Nat.eqb_eq].
  rewrite forallb_forall in X. apply Forall_forall. intros c I. specialize (X c I). apply andb_true_iff in X as (A & B).
  split; now apply negb_true_iff.
Qed.
Print Assumptions C27_truncated_refuted.

(** Each truncated list is a prefix of the full one, so the structural facts carry over to it. *)
Theorem C27_prefix : forall F L fuel spec rate hop mn mx res top cfg e l,
  tempogram_candidates F L fuel spec rate hop mn mx res top cfg = Some (Ok (e, l)) ->
  exists rest, tempogram_impl F L fuel spec rate hop mn mx res cfg = Some (Ok (e, l ++ rest)) /\
    length l <= top /\ (rest = [] \/ length l = top).
Proof.
  intros F L fuel spec rate hop mn mx res top cfg e l H. unfold tempogram_candidates in H.
  destruct (tempogram_impl F L fuel spec rate hop mn mx res cfg) as [[(e' & l')| |]|]; cbn [rbind] in H; try discriminate.
  injection H as <- <-. cbn [fst snd]. exists (skipn top l'). rewrite firstn_skipn. split; auto. rewrite firstn_length.
  split; [lia|]. destruct (Nat.le_gt_cases (length l') top); [left|right; lia]. now apply skipn_all2.
Qed.
Print Assumptions C27_prefix.
