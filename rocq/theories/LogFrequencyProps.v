(** C66: the log-frequency spectrogram and its chroma. *)
From Coq Require Import ZArith Reals Lra.
From Flocq Require Import Core BinarySingleNaN.
From Verif Require Import Rust F32 F32Facts F32More ListFacts Libm Onsets NoveltyProofs Bounds Chroma ChromaProofs ChromaValueProofs ChromaProps L2Proofs
  KeyFeatures HarmonicMaskProofs ThresholdProofs TuningProofs LogFrequencyProofs.
Local Open Scope nat_scope.

Lemma log_bins_scatter : forall L res lo hi nyq l n g ks c,
  let take k := negb (fle (g k) f0) && negb (flt (fmul (n2f k) res) lo || fge (fmul (n2f k) res) hi || fge (fmul (n2f k) res) nyq) in
  log_bins L res lo hi nyq l n (map (fun k => (k, g k)) ks) c =
  scatter (flat_map (fun k => log_targets L l n (fmul (n2f k) res) (g k)) (filter take ks)) c.
Proof.
  intros L res lo hi nyq l n g ks c take. revert c. induction ks as [|k ks IH]; intros c; [reflexivity|].
  cbn [map log_bins filter]. unfold take at 1. destruct (fle (g k) f0); [apply IH|]. cbn [negb andb].
  destruct (flt _ _ || fge _ _ || fge _ _); [apply IH|]. cbn [negb flat_map]. rewrite scatter_app. fold (scatter (log_targets L l n (fmul (n2f k) res) (g k)) c).
  destruct (scatter _ c); cbn [obind]; [apply IH|reflexivity|reflexivity].
Qed.

(** Semitone bin j of a frame collects, from every positive magnitude of the band, the share 1 - w if j is the semitone at
    or below the bin's frequency and w if j is the one above it, where w is the distance from the lower semitone. *)
Theorem C66_content : forall L spec nb rate fft fmin_hz fmax_hz, chroma_libm L -> log2_mono L ->
  spec <> [] -> Forall (fun f => length f = nb /\ Forall (fun x => fin x) f) spec -> (Z.of_nat nb < 2 ^ 64)%Z ->
  0 < rate -> (Z.of_nat rate < 2 ^ 32)%Z -> 0 < fft -> (Z.of_nat fft < 2 ^ 64)%Z ->
  let freq k := fmul (n2f k) (fdiv (n2f rate) (n2f fft)) in
  let lo := fmax fmin_hz (z2f 20) in
  let hi := fmin fmax_hz (fsub (fdiv (n2f rate) f2) f1) in
  let semitone f := fadd (fmul (z2f 12) (m_log2 L (fdiv f (z2f 440)))) (z2f 57) in
  let first := Zfloor (B2R (semitone lo)) in
  let n := Z.to_nat (Zceil (B2R (semitone hi)) - first + 1) in
  let x k := fsub (semitone (freq k)) (z2f first) in
  let below k := Zfloor (B2R (x k)) in
  let above k := Zceil (B2R (x k)) in
  let w k := fsub (x k) (z2f (below k)) in
  let used fr := filter (fun k => flt f0 (nth k fr f0) && fle lo (freq k) && flt (freq k) hi) (seq 0 nb) in
  let share fr j k :=
    (if (below k =? Z.of_nat j)%Z then [fmul (nth k fr f0) (fsub f1 (w k))] else []) ++
    (if negb (below k =? above k)%Z && (above k =? Z.of_nat j)%Z then [fmul (nth k fr f0) (w k)] else []) in
  flt lo hi = true ->
  log_frequency L rate fft fmin_hz fmax_hz spec =
    Ok (map (fun fr => map (fun j => fold_left fadd (flat_map (share fr j) (used fr)) f0) (seq 0 n)) spec) /\
  1 <= n /\
  (forall fr k, In k (used fr) -> (0 <= below k)%Z /\ (below k <= above k <= below k + 1)%Z /\ (above k < Z.of_nat n)%Z /\
    in01 (w k) /\ in01 (fsub f1 (w k))).
Proof.
  intros L spec nb rate fft fmin_hz fmax_hz HL M Hs F Bn Pr R1 Pf F1 freq lo hi semitone first n x below above w used share B.
  assert (L20 : fle (z2f 20) lo = true) by (apply fmax_ge_r; reflexivity).
  assert (L1 : fle f1 lo = true) by (apply fle_trans with (z2f 20); auto).
  destruct (nyq_nn rate R1) as (Fq & Nq).
  assert (Nny : nn (fsub (fdiv (n2f rate) f2) f1)) by (apply fsub_nn_fin; auto).
  assert (Lny : fle (fsub (fdiv (n2f rate) f2) f1) (fdiv (n2f rate) f2) = true) by (apply fsub_le_l; auto using fin_nn; reflexivity).
  assert (Lhi : fle hi (fdiv (n2f rate) f2) = true) by (eapply fle_trans; [apply fmin_le_r; auto|auto]).
  assert (Wq : within 33 (fdiv (n2f rate) f2)).
  { apply within_mono with (33 - 1)%Z; [lia|]. apply within_div; auto using rate_within; try reflexivity; [lia|].
    rewrite Rabs_right; vm_compute B2R; simpl; lra. }
  assert (W1 : within 33 f1) by (split; [reflexivity|]; vm_compute B2R; rewrite Rabs_right; simpl; lra).
  assert (Lh : fle lo hi = true) by now apply flt_fle.
  assert (Whi : within 33 hi) by (apply within_le with (a := f1) (b := fdiv (n2f rate) f2); auto; eapply fle_trans; eauto).
  assert (Wlo : within 33 lo) by (apply within_le with (a := f1) (b := hi); auto).
  pose proof (st_within L HL lo L1 Wlo) as Slo. pose proof (st_within L HL hi ltac:(eapply fle_trans; eauto) Whi) as Shi.
  destruct (within_Z 13 _ ltac:(lia) Slo) as (Z1 & _ & Z2 & Z3 & Z4). destruct (within_Z 13 _ ltac:(lia) Shi) as (_ & Y1 & Y2 & Y3 & Y4).
  change (Zfloor (B2R (st L lo))) with first in Z1, Z2, Z4.
  set (last := Zceil (B2R (semitone hi))) in *. change (Zceil (B2R (st L hi))) with last in Y1, Y3, Y4.
  pose proof (st_mono L HL M lo hi L1 Lh Whi) as Mlh.
  apply fle_fx in Mlh. rewrite !fx_fin in Mlh by (eapply within_fin; eauto).
  assert (Fl : (first <= last)%Z).
  { apply le_IZR. apply Rle_trans with (B2R (st L lo)); [apply Zfloor_lb|]. eapply Rle_trans; [exact Mlh|apply Zceil_ub]. }
  assert (En : Z.of_nat n = (last - first + 1)%Z) by (unfold n; rewrite Z2Nat.id; lia).
  assert (U : forall fr k, In k (used fr) -> flt f0 (nth k fr f0) = true /\
    (0 <= below k)%Z /\ (below k <= above k <= below k + 1)%Z /\ (above k < Z.of_nat n)%Z /\ in01 (w k) /\ in01 (fsub f1 (w k)) /\
    log_targets L first n (freq k) (nth k fr f0) = (Z.to_nat (below k), fmul (nth k fr f0) (fsub f1 (w k))) ::
      (if (below k =? above k)%Z then [] else [(Z.to_nat (above k), fmul (nth k fr f0) (w k))])).
  { intros fr k Hk. apply filter_In in Hk. destruct Hk as (Hk & Q). apply in_seq in Hk.
    apply andb_true_iff in Q. destruct Q as (Q & Q3). apply andb_true_iff in Q. destruct Q as (Q1 & Q2).
    split; [exact Q1|]. apply flt_fle in Q3.
    assert (Wk : within 33 (freq k)) by (apply within_le with (a := lo) (b := hi); auto).
    assert (B1 : fle f1 (freq k) = true) by (eapply fle_trans; eauto).
    pose proof (st_within L HL (freq k) B1 Wk) as Sk.
    pose proof (st_mono L HL M lo (freq k) L1 Q2 Wk) as M1. pose proof (st_mono L HL M (freq k) hi B1 Q3 Whi) as M2.
    apply fle_fx in M1, M2. rewrite !fx_fin in M1, M2 by (eapply within_fin; eauto).
    apply targets; auto; try lia.
    - eapply Rle_trans; [apply Zfloor_lb|exact M1].
    - rewrite En. replace (first + (last - first + 1) - 1)%Z with last by lia. eapply Rle_trans; [exact M2|apply Zceil_ub]. }
  split; [|split; [lia|intros fr k Hk; destruct (U fr k Hk) as (_ & A & B0 & C & D & E & _); auto]].
  unfold log_frequency. destruct (Nat.eqb_spec (length spec) 0) as [E|E]; [now apply length_zero_iff_nil in E|].
  assert (Sh : shape nb spec) by (unfold shape; eapply Forall_impl; [|exact F]; cbv beta; tauto).
  assert (L0 : length (nth 0 spec []) = nb).
  { destruct spec as [|f0' spec']; [congruence|]. inversion F as [|? ? (Lf & _)]; subst. reflexivity. }
  rewrite L0, (proj2 (rectangular_shape nb spec) Sh). cbn [negb].
  destruct (Nat.eqb_spec rate 0); [lia|]. destruct (Nat.eqb_spec fft 0); [lia|]. cbn [orb]. cbv zeta. fold lo hi.
  unfold semitone_bins. cbv zeta. change a4 with (z2f 440). fold (st L lo) (st L hi). rewrite Z1, Y1. unfold i32_chk at 1.
  destruct (Z.leb_spec (-2147483648) (last - first)); [|lia]. destruct (Z.leb_spec (last - first) 2147483647); [|lia]. cbn [andb obind].
  unfold i32_chk. destruct (Z.leb_spec (-2147483648) (last - first + 1)); [|lia].
  destruct (Z.leb_spec (last - first + 1) 2147483647); [|lia]. cbn [andb obind].
  destruct (Z.eqb_spec (last - first + 1) 0); [lia|]. destruct (Z.ltb_spec (last - first + 1) 0); [lia|]. cbn [obind fst snd]. fold n.
  apply oseq_Ok. rewrite map_map. apply map_ext_in. intros fr Hfr. rewrite Forall_forall in F. destruct (F fr Hfr) as (Lf & Ff).
  rewrite (indexed _ f0 fr), Lf. rewrite log_bins_scatter.
  assert (Ef : filter (fun k => negb (fle (nth k fr f0) f0) && negb (flt (fmul (n2f k) (fdiv (n2f rate) (n2f fft))) lo ||
      fge (fmul (n2f k) (fdiv (n2f rate) (n2f fft))) hi || fge (fmul (n2f k) (fdiv (n2f rate) (n2f fft))) (fdiv (n2f rate) f2))) (seq 0 nb) = used fr).
  { apply filter_ext_in. intros k Hk. apply in_seq in Hk. change (fmul (n2f k) (fdiv (n2f rate) (n2f fft))) with (freq k).
    destruct (freq_ok rate fft R1 ltac:(auto) k ltac:(lia)) as (Nk & _). fold (freq k) in Nk.
    assert (Fk : fin (nth k fr f0)) by (rewrite Forall_forall in Ff; apply Ff, nth_In; lia).
    assert (E1 : negb (fle (nth k fr f0) f0) = flt f0 (nth k fr f0)).
    { destruct (fle (nth k fr f0) f0) eqn:E1; [now rewrite (fle_flt_false _ _ E1)|].
      now rewrite (fle_false_flt (nth k fr f0) f0 (fin_nn _ Fk) eq_refl E1). }
    rewrite E1, <- andb_assoc. f_equal. change (fge (freq k) hi) with (fle hi (freq k)).
    change (fge (freq k) (fdiv (n2f rate) f2)) with (fle (fdiv (n2f rate) f2) (freq k)).
    assert (E2 : negb (flt (freq k) lo) = fle lo (freq k)).
    { destruct (flt (freq k) lo) eqn:E2; [now rewrite (flt_fle_false _ _ E2)|].
      now rewrite (flt_false_fle _ _ Nk (proj2 (fle_nn _ _ L20)) E2). }
    assert (E3 : negb (fle hi (freq k)) = flt (freq k) hi).
    { destruct (fle hi (freq k)) eqn:E3; [now rewrite (fle_flt_false _ _ E3)|].
      now rewrite (fle_false_flt _ _ (within_nn _ _ Whi) Nk E3). }
    rewrite !negb_orb, E2, E3. destruct (fle lo (freq k)); [|reflexivity]. cbn [andb].
    destruct (flt (freq k) hi) eqn:E4; [|reflexivity]. cbn [andb].
    rewrite (flt_fle_false (freq k) (fdiv (n2f rate) f2)); [reflexivity|]. eapply flt_fle_trans; eauto. }
  cbv zeta. rewrite Ef.
  set (tg := flat_map (fun k => log_targets L first n (fmul (n2f k) (fdiv (n2f rate) (n2f fft))) (nth k fr f0)) (used fr)).
  destruct (scatter_ok tg (repeat f0 n)) as (c & Ec & Lc & Hc).
  { rewrite repeat_length. apply Forall_forall. intros p Hp. apply in_flat_map in Hp. destruct Hp as (k & Hk & Hp).
    destruct (U fr k Hk) as (_ & A0 & A1 & A2 & _ & _ & T). fold (freq k) in Hp. rewrite T in Hp. destruct Hp as [<-|Hp]; [cbn [fst]; lia|].
    destruct (Z.eqb_spec (below k) (above k)); [destruct Hp|]. destruct Hp as [<-|[]]. cbn [fst]. lia. }
  rewrite Ec. f_equal. rewrite repeat_length in Lc.
  apply nth_ext with (d := f0) (d' := f0); [now rewrite map_length, seq_length|]. intros j Hj. rewrite Lc in Hj. rewrite Hc.
  rewrite (nth_indep (map _ (seq 0 n)) f0 ((fun j => fold_left fadd (flat_map (share fr j) (used fr)) f0) 0)) by (rewrite map_length, seq_length; lia).
  rewrite (map_nth (fun j => fold_left fadd (flat_map (share fr j) (used fr)) f0) (seq 0 n) 0 j), seq_nth by lia. cbn [Nat.add].
  rewrite nth_repeat. f_equal. unfold tg.
  assert (G : forall ks, (forall k, In k ks -> In k (used fr)) ->
    map snd (filter (fun p => fst p =? j) (flat_map (fun k => log_targets L first n (fmul (n2f k) (fdiv (n2f rate) (n2f fft))) (nth k fr f0)) ks)) =
    flat_map (share fr j) ks).
  { induction ks as [|k ks IH]; intros I; [reflexivity|]. cbn [flat_map]. rewrite filter_app, map_app, IH by (intros; apply I; now right).
    f_equal. destruct (U fr k ltac:(apply I; now left)) as (_ & A0 & A1 & A2 & _ & _ & T). fold (freq k). rewrite T. unfold share.
    cbn [filter fst]. destruct (Nat.eqb_spec (Z.to_nat (below k)) j) as [D|D]; destruct (Z.eqb_spec (below k) (Z.of_nat j)); try lia;
      cbn [map app snd]; [f_equal|]; (destruct (Z.eqb_spec (below k) (above k)); [reflexivity|]; cbn [negb andb filter fst];
      destruct (Nat.eqb_spec (Z.to_nat (above k)) j); destruct (Z.eqb_spec (above k) (Z.of_nat j)); try lia; reflexivity). }
  apply G. auto.
Qed.
Print Assumptions C66_content.

(** No frames give no frames; unequal frame lengths and a zero rate or FFT size are refused.  If the band is empty (its upper
    limit, after lowering it to 1 Hz below the Nyquist frequency, is not above its lower limit) the number of semitones
    decides: a positive one gives silent frames, zero is refused and a negative one panics. *)
Theorem C66_outcome : forall L spec rate fft fmin_hz fmax_hz, chroma_libm L -> (Z.of_nat rate < 2 ^ 32)%Z ->
  let run := log_frequency L rate fft fmin_hz fmax_hz spec in
  (spec = [] -> run = Ok []) /\
  (spec <> [] -> (exists f, In f spec /\ length f <> length (nth 0 spec [])) -> run = Err InvalidInput) /\
  (forall nb, spec <> [] -> Forall (fun f => length f = nb) spec ->
    (rate = 0 \/ fft = 0 -> run = Err InvalidInput) /\
    (0 < rate -> 0 < fft -> (Z.of_nat fft < 2 ^ 64)%Z -> (Z.of_nat nb < 2 ^ 64)%Z ->
      let lo := fmax fmin_hz (z2f 20) in
      let hi := fmin fmax_hz (fsub (fdiv (n2f rate) f2) f1) in
      let semitone f := fadd (fmul (z2f 12) (m_log2 L (fdiv f (z2f 440)))) (z2f 57) in
      let n := (Zceil (B2R (semitone hi)) - Zfloor (B2R (semitone lo)) + 1)%Z in
      within 33 lo -> fle f1 hi = true -> fle hi lo = true ->
      ((n < 0)%Z -> run = Panic) /\ (n = 0%Z -> run = Err InvalidInput) /\
      ((0 < n)%Z -> run = Ok (map (fun _ => repeat f0 (Z.to_nat n)) spec)))).
Proof.
  intros L spec rate fft fmin_hz fmax_hz HL R1 run. unfold run, log_frequency. split; [intros ->; reflexivity|]. split.
  { intros Hs (f & If & Lf). destruct (Nat.eqb_spec (length spec) 0) as [E|E]; [now apply length_zero_iff_nil in E|].
    destruct (rectangular (length (nth 0 spec [])) spec) eqn:Er; [|reflexivity]. exfalso. apply rectangular_shape in Er.
    unfold shape in Er. rewrite Forall_forall in Er. now apply Lf, Er. }
  intros nb Hs Sh. destruct (Nat.eqb_spec (length spec) 0) as [E|E]; [now apply length_zero_iff_nil in E|].
  assert (L0 : length (nth 0 spec []) = nb).
  { destruct spec as [|f0' spec']; [congruence|]. inversion Sh; subst. reflexivity. }
  rewrite L0, (proj2 (rectangular_shape nb spec) Sh). change (negb true) with false. cbv iota. split.
  { intros [-> | ->]; [reflexivity|]. rewrite orb_true_r. reflexivity. }
  intros Pr Pf F1 Bn. set (lo := fmax fmin_hz (z2f 20)). set (hi := fmin fmax_hz (fsub (fdiv (n2f rate) f2) f1)). intros Wlo B1 B.
  destruct (Nat.eqb_spec rate 0) as [Er|Er]; [lia|]. destruct (Nat.eqb_spec fft 0) as [Ef|Ef]; [lia|]. cbn [orb]. fold (st L lo) (st L hi).
  set (n := (Zceil (B2R (st L hi)) - Zfloor (B2R (st L lo)) + 1)%Z).
  assert (W1 : within 33 f1) by (split; [reflexivity|]; vm_compute B2R; rewrite Rabs_right; simpl; lra).
  assert (Whi : within 33 hi) by (apply within_le with (a := f1) (b := lo); auto).
  pose proof (st_within L HL lo ltac:(eapply fle_trans; eauto) Wlo) as Slo. pose proof (st_within L HL hi B1 Whi) as Shi.
  destruct (within_Z 13 _ ltac:(lia) Slo) as (Z1 & _ & Z2 & Z3 & Z4). destruct (within_Z 13 _ ltac:(lia) Shi) as (_ & Y1 & Y2 & Y3 & Y4).
  set (first := Zfloor (B2R (st L lo))) in *. set (last := Zceil (B2R (st L hi))) in *.
  assert (SB : semitone_bins L lo hi = if (n =? 0)%Z then Err InvalidInput else if (n <? 0)%Z then Panic else Ok (first, Z.to_nat n)).
  { unfold semitone_bins. cbv zeta. change a4 with (z2f 440). fold (st L lo) (st L hi). rewrite Z1, Y1. unfold i32_chk at 1.
    destruct (Z.leb_spec (-2147483648) (last - first)); [|lia]. destruct (Z.leb_spec (last - first) 2147483647); [|lia]. cbn [andb obind].
    unfold i32_chk. fold n. destruct (Z.leb_spec (-2147483648) n); [|lia]. destruct (Z.leb_spec n 2147483647); [|lia]. reflexivity. }
  rewrite SB.
  destruct (Z.eqb_spec n 0) as [En|En]; [split; [lia|]; split; [reflexivity|lia]|].
  destruct (Z.ltb_spec n 0); [split; [reflexivity|]; split; lia|]. split; [lia|]. split; [lia|]. intros _. cbn [obind fst snd].
  apply oseq_Ok. rewrite map_map. apply map_ext_in. intros fr Hfr. rewrite (indexed _ f0 fr), log_bins_scatter. cbv zeta.
  rewrite filter_none; [reflexivity|]. intros k Hk. apply in_seq in Hk.
  assert (Lf : length fr = nb) by (rewrite Forall_forall in Sh; now apply Sh).
  set (f := fmul (n2f k) (fdiv (n2f rate) (n2f fft))). destruct (freq_ok rate fft R1 ltac:(auto) k ltac:(lia)) as (Nk & _).
  fold f in Nk. destruct (flt f lo) eqn:E1; [apply andb_false_r|].
  assert (X : fle hi f = true).
  { apply fle_trans with lo; auto. apply flt_false_fle; auto. eapply within_nn; eauto. }
  change (fge f hi) with (fle hi f). rewrite X. apply andb_false_r.
Qed.
Print Assumptions C66_outcome.

(** Every frame has the same number of semitone bins; for magnitudes up to 2^50 all of them lie between 0 and 2^75. *)
Theorem C66_range : forall L spec nb rate fft fmin_hz fmax_hz, chroma_libm L -> log2_mono L ->
  spec <> [] -> Forall (fun f => length f = nb /\ Forall (within 50) f) spec -> (Z.of_nat nb < 2 ^ 64)%Z ->
  0 < rate -> (Z.of_nat rate < 2 ^ 32)%Z -> 0 < fft -> (Z.of_nat fft < 2 ^ 64)%Z ->
  flt (fmax fmin_hz (z2f 20)) (fmin fmax_hz (fsub (fdiv (n2f rate) f2) f1)) = true ->
  exists n s, log_frequency L rate fft fmin_hz fmax_hz spec = Ok s /\ 1 <= n /\ length s = length spec /\
    Forall (fun f => length f = n /\ Forall (upto 75) f) s.
Proof.
  intros L spec nb rate fft fmin_hz fmax_hz HL M Hs F Bn Pr R1 Pf F1 B.
  assert (Ff : Forall (fun f => length f = nb /\ Forall (fun x => fin x) f) spec).
  { eapply Forall_impl; [|exact F]. intros f (A & W). split; [exact A|]. eapply Forall_impl; [|exact W]. intros x. apply within_fin. }
  pose proof (C66_content L spec nb rate fft fmin_hz fmax_hz HL M Hs Ff Bn Pr R1 Pf F1) as C. cbv zeta in C.
  destruct (C B) as (E & Hn & U). rewrite E. clear C E.
  match type of Hn with 1 <= ?m => exists m end. eexists. split; [reflexivity|]. split; [exact Hn|]. split; [apply map_length|].
  clear Hn. apply Forall_map, Forall_forall. intros fr Hfr. split; [now rewrite map_length, seq_length|].
  apply Forall_map, Forall_forall. intros j _. apply (upto_sum 50); [lia|]. apply Forall_forall. intros v Hv.
  apply in_flat_map in Hv. destruct Hv as (k & Hk & Hv). destruct (U fr k Hk) as (_ & _ & _ & I1 & I2).
  assert (Um : upto 50 (nth k fr f0)).
  { apply filter_In in Hk. destruct Hk as (Hk & Q). apply in_seq in Hk. apply andb_true_iff in Q. destruct Q as (Q & _).
    apply andb_true_iff in Q. destruct Q as (Q & _). rewrite Forall_forall in F. destruct (F fr Hfr) as (Lf & W).
    rewrite Forall_forall in W. apply within_upto; [apply W, nth_In; lia|now apply flt_fle]. }
  assert (Mul : forall y, in01 y -> upto 50 (fmul (nth k fr f0) y)).
  { intros y Iy. change 50%Z with (50 + 0)%Z. apply upto_mul; [lia|exact Um|now apply in01_upto]. }
  apply in_app_or in Hv. destruct Hv as [Hv|Hv]; match type of Hv with In _ (if ?b then _ else _) => destruct b end; try contradiction;
    destruct Hv as [<-|[]]; now apply Mul.
Qed.
Print Assumptions C66_range.

(** Folding octaves: class j collects the positive magnitudes of the semitone bins k with (offset + k) mod 12 = j; the vector
    is divided by its norm. *)
Theorem C66_chroma : forall offset spec, (-2147483648 <= offset)%Z ->
  Forall (fun f => (offset + Z.of_nat (length f) <= 2147483648)%Z /\ (Z.of_nat (length f) <= 2147483648)%Z /\ Forall (within 50) f) spec ->
  let energy fr j := fold_left fadd (map (fun k => nth k fr f0)
    (filter (fun k => flt f0 (nth k fr f0) && ((offset + Z.of_nat k) mod 12 =? Z.of_nat j)%Z) (seq 0 (length fr)))) f0 in
  exists cs, log_chroma offset spec = Ok cs /\ cs = map (fun fr => divided_by_norm (map (energy fr) (seq 0 12))) spec /\
    Forall (fun c => length c = 12 /\ Forall in01 c) cs.
Proof.
  intros offset spec Ho F energy. eexists. split; [|split; [reflexivity|]].
  - unfold log_chroma. apply oseq_Ok. rewrite map_map. apply map_ext_in. intros fr Hfr. rewrite Forall_forall in F.
    destruct (F fr Hfr) as (B1 & B2 & W). rewrite (indexed _ f0 fr).
    set (cls k := Z.to_nat ((offset + Z.of_nat k) mod 12)).
    assert (G : forall ks c, (forall k, In k ks -> k < length fr) ->
      fold_octaves offset (map (fun k => (k, nth k fr f0)) ks) c =
      scatter (map (fun k => (cls k, nth k fr f0)) (filter (fun k => negb (fle (nth k fr f0) f0)) ks)) c).
    { induction ks as [|k ks IH]; intros c Hk; [reflexivity|]. cbn [map fold_octaves filter].
      assert (Hk' : k < length fr) by (apply Hk; now left).
      destruct (fle (nth k fr f0) f0); [apply IH; intros; apply Hk; now right|]. cbn [negb map].
      assert (Ea : as_i32 (Z.of_nat k) = Z.of_nat k).
      { unfold as_i32. rewrite Z.mod_small by lia. lia. }
      rewrite Ea. unfold i32_chk. destruct (Z.leb_spec (-2147483648) (offset + Z.of_nat k)); [|lia].
      destruct (Z.leb_spec (offset + Z.of_nat k) 2147483647); [|lia]. cbn [andb obind].
      change ((cls k, nth k fr f0) :: map (fun i => (cls i, nth i fr f0)) (filter (fun i => negb (fle (nth i fr f0) f0)) ks))
        with ([(cls k, nth k fr f0)] ++ map (fun i => (cls i, nth i fr f0)) (filter (fun i => negb (fle (nth i fr f0) f0)) ks)).
      rewrite scatter_app. unfold scatter at 1. cbn [fold_left obind fst snd]. fold (cls k).
      destruct (add_at c (cls k) (nth k fr f0)); cbn [obind]; [|reflexivity|reflexivity]. apply IH. intros; apply Hk; now right. }
    rewrite G by (intros k Hk; apply in_seq in Hk; lia).
    match goal with |- context [scatter ?l _] => set (tg := l) end.
    destruct (scatter_ok tg (repeat f0 12)) as (c & Ec & Lc & Hc).
    { apply Forall_map, Forall_forall. intros k _. cbn [fst]. rewrite repeat_length. unfold cls.
      pose proof (Z.mod_pos_bound (offset + Z.of_nat k) 12 ltac:(lia)). lia. }
    rewrite Ec. cbn [omap]. f_equal. rewrite <- divided_by_norm_eq. f_equal. rewrite repeat_length in Lc.
    apply nth_ext with (d := f0) (d' := f0); [now rewrite map_length, seq_length|]. intros j Hj. rewrite Lc in Hj. rewrite Hc.
    rewrite (nth_indep (map (energy fr) (seq 0 12)) f0 (energy fr 0)) by (rewrite map_length, seq_length; lia).
    rewrite (map_nth (energy fr)), seq_nth by lia. cbn [Nat.add]. rewrite nth_repeat. unfold energy. f_equal. unfold tg.
    assert (Q : forall ks, (forall k, In k ks -> k < length fr) ->
      map snd (filter (fun p => fst p =? j) (map (fun k => (cls k, nth k fr f0)) (filter (fun k => negb (fle (nth k fr f0) f0)) ks))) =
      map (fun k => nth k fr f0) (filter (fun k => flt f0 (nth k fr f0) && ((offset + Z.of_nat k) mod 12 =? Z.of_nat j)%Z) ks)).
    { induction ks as [|k ks IH]; intros Hk; [reflexivity|]. cbn [filter].
      assert (Hk' : k < length fr) by (apply Hk; now left).
      assert (Fk : fin (nth k fr f0)) by (apply (within_fin 50); rewrite Forall_forall in W; now apply W, nth_In).
      assert (E1 : negb (fle (nth k fr f0) f0) = flt f0 (nth k fr f0)).
      { destruct (fle (nth k fr f0) f0) eqn:E1; [now rewrite (fle_flt_false _ _ E1)|].
        now rewrite (fle_false_flt (nth k fr f0) f0 (fin_nn _ Fk) eq_refl E1). }
      rewrite E1. destruct (flt f0 (nth k fr f0)); cbn [andb map filter fst]; [|apply IH; intros; apply Hk; now right].
      pose proof (Z.mod_pos_bound (offset + Z.of_nat k) 12 ltac:(lia)).
      destruct (Nat.eqb_spec (cls k) j) as [D|D]; destruct (Z.eqb_spec ((offset + Z.of_nat k) mod 12) (Z.of_nat j)); unfold cls in D; try lia;
        cbn [map snd]; rewrite IH by (intros; apply Hk; now right); reflexivity. }
    apply Q. intros k Hk. apply in_seq in Hk. lia.
  - apply Forall_map, Forall_forall. intros fr Hfr. rewrite divided_by_norm_eq, unit_or_keep_length, map_length, seq_length.
    split; [reflexivity|]. rewrite Forall_forall in F. destruct (F fr Hfr) as (_ & _ & W).
    assert (U : forall j, upto 75 (energy fr j)).
    { intros j. apply (upto_sum 50); [lia|]. apply Forall_map, Forall_forall. intros k Hk. apply filter_In in Hk. destruct Hk as (Hk & Q).
      apply in_seq in Hk. apply andb_true_iff in Q. destruct Q as (Q & _). rewrite Forall_forall in W.
      apply within_upto; [apply W, nth_In; lia|now apply flt_fle]. }
    apply unit_or_keep_01; apply Forall_map, Forall_forall; intros j _; [apply (upto_fin 75)|apply (upto_nneg 75)]; apply U.
Qed.
Print Assumptions C66_chroma.

(** ** Concrete cases *)

Example ex_mono : log2_mono toy.
Proof. intros x y _ _ _. reflexivity. Qed.
(** Semitone 58.5 for every frequency: each magnitude of the band (bins 1 to 7 of 0..4000 Hz; the negative one is left out)
    is shared equally between two semitone bins, which are the classes 10 and 11. *)
Example ex_C66 :
  match log_frequency toy (8 * 1000) 16 (z2f 100) (z2f 5000) [map z2f [9; 2; 4; -2; 6; 8; 0; 2; 9]%Z; repeat f0 9] with
  | Ok s => (map (map f2i32) s, match log_chroma 58 s with Ok c => map (map (fun x => f2i32 (fmul (z2f 100) x))) c | _ => [] end)
  | _ => ([], []) end = ([[11; 11]; [0; 0]], [[0; 0; 0; 0; 0; 0; 0; 0; 0; 0; 70; 70]; repeat 0 12])%Z.
Proof. vm_compute. reflexivity. Qed.
(** Limits of 1000 and 200 Hz: one negative number of semitones, converted to usize. *)
Definition two_octaves : libm := {| m_powf := fun x _ => x; m_log10 := fun _ => f0; m_log2 := fun x => if flt x f1 then z2f (-1) else f1;
  m_ln := fun _ => f0; m_exp := fun _ => f1; m_sin := fun _ => f0; m_cos := fun _ => f0 |}.
Example ex_C66_panic : log_frequency two_octaves (8 * 1000) 16 (z2f 1000) (z2f 200) [repeat f1 9] = Panic.
Proof. vm_compute. reflexivity. Qed.
