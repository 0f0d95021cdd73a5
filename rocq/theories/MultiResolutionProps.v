(** C28, C61: multi-resolution tempo estimation (src/features/period/multi_resolution.rs). *)
From Coq Require Import ZArith Reals Lra Lia Sorted.
From Flocq Require Import Core.
From Verif Require Import Rust F32 F32Facts FloatSums ListFacts Libm Sorting SortingFacts CombFilterProofs Autocorrelation TempoSpectra Novelty
  NoveltyProofs NoveltyProps CandidateFilter Bounds Chroma ChromaProps Means Tempogram TempogramProofs TempogramValueProofs TempogramProps
  MultiResolution MultiResolutionProofs.

Lemma from_samples_ok : forall F L fuel samples rate frame mn mx res k p cfg e l,
  multi_resolution_from_samples F L fuel samples rate frame mn mx res k p cfg = Some (Ok (e, l)) ->
  exists cfg' s256 s512 s1024 e1 e2 e3 c256 c512 c1024 a, 25 <= a <= 200 /\
    (cfg' = None \/ cfg' = cfg) /\ frame <= length samples /\
    compute_stft F L samples frame 256 = Ok s256 /\ compute_stft F L samples frame 512 = Ok s512 /\ compute_stft F L samples frame 1024 = Ok s1024 /\
    tempogram_candidates F L fuel s256 rate 256 mn mx res a cfg' = Some (Ok (e1, c256)) /\
    tempogram_candidates F L fuel s512 rate 512 mn mx res (Nat.max k 1) cfg' = Some (Ok (e2, c512)) /\
    tempogram_candidates F L fuel s1024 rate 1024 mn mx res a cfg' = Some (Ok (e3, c1024)) /\
    fuse c256 c512 c1024 rate mn mx res (Nat.max k 1) p (novelty_512 L s512 rate cfg) = Ok (e, l).
Proof.
  intros F L fuel samples rate frame mn mx res k p cfg e l H. unfold multi_resolution_from_samples in H.
  destruct (Nat.ltb_spec (length samples) frame); [discriminate|]. cbv zeta in H.
  set (cfg' := match cfg with Some c => if bc_enabled c || bc_mel c || fgt (bc_bonus c) f0 then Some c else None | None => None end) in H.
  assert (Ec : cfg' = None \/ cfg' = cfg) by (unfold cfg'; destruct cfg as [c|]; auto; destruct (_ || _); auto).
  clearbody cfg'. set (a := Nat.max 25 _) in H. assert (Ha : 25 <= a <= 200) by (unfold a; lia). clearbody a.
  destruct (compute_stft F L samples frame 256) as [s256| |]; cbn [rbind] in H; try discriminate.
  destruct (compute_stft F L samples frame 512) as [s512| |]; cbn [rbind] in H; try discriminate.
  destruct (compute_stft F L samples frame 1024) as [s1024| |]; cbn [rbind] in H; try discriminate.
  destruct (tempogram_candidates F L fuel s256 rate 256 mn mx res a cfg') as [[(e1 & c256)| |]|] eqn:E1; cbn [rbind] in H; try discriminate.
  destruct (tempogram_candidates F L fuel s512 rate 512 mn mx res (Nat.max k 1) cfg') as [[(e2 & c512)| |]|] eqn:E2; cbn [rbind] in H; try discriminate.
  destruct (tempogram_candidates F L fuel s1024 rate 1024 mn mx res a cfg') as [[(e3 & c1024)| |]|] eqn:E3; cbn [rbind] in H; try discriminate.
  cbn [snd] in H. exists cfg', s256, s512, s1024, e1, e2, e3, c256, c512, c1024, a. repeat (split; [now auto|]). congruence.
Qed.

(** Candidates of a truncated list are in range and finite. *)
Lemma cands_inside : forall F L fuel spec rate hop mn mx res k cfg e l,
  tempogram_candidates F L fuel spec rate hop mn mx res k cfg = Some (Ok (e, l)) ->
  forall c, In c l -> fin (t_bpm c) /\ inside mn mx (t_bpm c).
Proof.
  intros F L fuel spec rate hop mn mx res k cfg e l H c I.
  destruct (C27_prefix _ _ _ _ _ _ _ _ _ _ _ _ _ H) as (rest & Hi & _).
  destruct (C27_range _ _ _ _ _ _ _ _ _ _ _ _ Hi) as (_ & _ & R & _). apply R. apply in_or_app. now left.
Qed.

(** Fusion of arbitrary candidate lists in range.  The reported tempo is in range, or it is a folded tempo between 70 and
    180 BPM that lies within the tolerance max(2, resolution) of a candidate in range.  At most three lists agree, and the
    confidence is in [0,1] or NaN. *)
Theorem C28_fusion : forall c256 c512 c1024 rate mn mx res k p nov e l,
  (forall c, In c (c256 ++ c512 ++ c1024) -> fle mn (t_bpm c) = true /\ fle (t_bpm c) mx = true) ->
  fuse c256 c512 c1024 rate mn mx res k p nov = Ok (e, l) ->
  ((fle mn (e_bpm e) = true /\ fle (e_bpm e) mx = true) \/
   (fle (z2f 70) (e_bpm e) = true /\ fle (e_bpm e) (z2f 180) = true /\ 2 <= e_agree e /\
    exists c, In c (c256 ++ c512 ++ c1024) /\ fle (fabs (fsub (t_bpm c) (e_bpm e))) (fmax f2 res) = true)) /\
  e_agree e <= 3 /\
  ((fle f0 (e_conf e) = true /\ fle (e_conf e) f1 = true) \/ fisnan (e_conf e) = true).
Proof.
  intros c256 c512 c1024 rate mn mx res k p nov e l Hc H.
  destruct (fuse_ok _ _ _ _ _ _ _ _ _ _ _ _ H) as (t & first & rest & best & second & T & Hh & _ & Hb & _ & -> & _). clear H.
  cbn [e_bpm e_agree e_conf]. set (tol := fmax f2 res) in *. split; [|split].
  - assert (If : inside mn mx (h_bpm first)).
    { destruct (hypothesis_bpm _ _ _ _ _ _ _ _ _ Hh) as (_ & _ & [->|[(_ & R)|(_ & R)]]); auto.
      apply Hc. rewrite !in_app_iff. auto. }
    set (sup b := total_support c256 c512 c1024 b tol) in *.
    assert (Q : forall b, inside (z2f 70) (z2f 180) b -> 2 <= snd (sup b) -> inside mn mx b \/ (fle (z2f 70) b = true /\ fle b (z2f 180) = true /\
      2 <= snd (sup b) /\ exists c, In c (c256 ++ c512 ++ c1024) /\ fle (fabs (fsub (t_bpm c) b)) tol = true)).
    { intros b (B1 & B2) S. right. repeat split; auto. destruct (agree_found c256 c512 c1024 b tol) as (c & I & D); [unfold sup in S; lia|].
      exists c. rewrite !in_app_iff. tauto. }
    assert (D : let x := fold_down sup first in inside mn mx (h_bpm x) \/ (inside (z2f 70) (z2f 180) (h_bpm x) /\ 2 <= snd (sup (h_bpm x)))).
    { cbv zeta. destruct (down_cases sup first) as [->|(_ & _ & (R1 & R2) & S)]; [now left|]. right. split; [|lia]. split; auto.
      eapply fle_trans; [exact R2|reflexivity]. }
    assert (U : let x := fold_up sup (fold_down sup first) in inside mn mx (h_bpm x) \/ (inside (z2f 70) (z2f 180) (h_bpm x) /\ 2 <= snd (sup (h_bpm x)))).
    { cbv zeta. destruct (up_cases sup (fold_down sup first)) as [->|(_ & _ & R & S)]; [exact D|now right]. }
    cbv zeta in U. destruct Hb as [->|(n & ->)].
    + destruct U as [U|(U1 & U2)]; [now left|]. now apply Q.
    + destruct (triplet_cases sup n rate mn mx (fold_up sup (fold_down sup first))) as [->|(R & _)]; [|now left].
      destruct U as [U|(U1 & U2)]; [now left|]. now apply Q.
  - apply agree_le3.
  - destruct (separation_cases (lit 8796093 (-43)) (h_score best) second ltac:(reflexivity)) as [S|(S & _)]; auto.
Qed.
Print Assumptions C28_fusion.

(** The whole function.  With a range containing [70,180] - the default is [40,240] - the tempo is always in range. *)
Theorem C28_range : forall F L fuel samples rate frame mn mx res k p cfg e l,
  multi_resolution_from_samples F L fuel samples rate frame mn mx res k p cfg = Some (Ok (e, l)) ->
  fle mn (z2f 70) = true -> fle (z2f 180) mx = true ->
  fle mn (e_bpm e) = true /\ fle (e_bpm e) mx = true.
Proof.
  intros F L fuel samples rate frame mn mx res k p cfg e l H M1 M2.
  destruct (from_samples_ok _ _ _ _ _ _ _ _ _ _ _ _ _ _ H) as (cfg' & s256 & s512 & s1024 & e1 & e2 & e3 & c256 & c512 & c1024 & a & _ & _ & _ & _ & _ & _ & H1 & H2 & H3 & Hf).
  destruct (C28_fusion c256 c512 c1024 rate mn mx res (Nat.max k 1) p (novelty_512 L s512 rate cfg) e l) as (R & _); auto.
  { intros c I. rewrite !in_app_iff in I. destruct I as [I|[I|I]];
      [apply (cands_inside _ _ _ _ _ _ _ _ _ _ _ _ _ H1)|apply (cands_inside _ _ _ _ _ _ _ _ _ _ _ _ _ H2)|apply (cands_inside _ _ _ _ _ _ _ _ _ _ _ _ _ H3)]; auto. }
  destruct R as [R|(R1 & R2 & _)]; auto. split; eapply fle_trans; eauto.
Qed.
Print Assumptions C28_range.

(** For any range: in range or within the tolerance of a tempo in range; and where the tempo comes from. *)
Theorem C28_near_range : forall F L fuel samples rate frame mn mx res k p cfg e l,
  multi_resolution_from_samples F L fuel samples rate frame mn mx res k p cfg = Some (Ok (e, l)) ->
  ((fle mn (e_bpm e) = true /\ fle (e_bpm e) mx = true) \/
   (fle (z2f 70) (e_bpm e) = true /\ fle (e_bpm e) (z2f 180) = true /\ 2 <= e_agree e /\
    exists b, fle mn b = true /\ fle b mx = true /\ fle (fabs (fsub b (e_bpm e))) (fmax f2 res) = true)) /\
  e_agree e <= 3 /\
  ((fle f0 (e_conf e) = true /\ fle (e_conf e) f1 = true) \/ fisnan (e_conf e) = true) /\
  (1 <= length l <= Nat.max k 1) /\
  (forall c, In c l -> fle mn (t_bpm c) = true /\ fle (t_bpm c) mx = true /\
     (t_sel c = true <-> flt (fabs (fsub (t_bpm c) (e_bpm e))) (lit 3 (-2)) = true)) /\
  (exists c b0 f, In c l /\ In b0 [t_bpm c; fmul (t_bpm c) f2; fmul (t_bpm c) fhalf] /\
     In f [f1; fdiv (z2f 3) f2; fdiv f2 (z2f 3); fdiv (z2f 4) (z2f 3); fdiv (z2f 3) (z2f 4)] /\
     exists b1, In b1 [b0; fmul b0 fhalf; fmul b0 f2; fmul (fmul b0 fhalf) f2] /\ (e_bpm e = b1 \/ e_bpm e = fmul b1 f)).
Proof.
  intros F L fuel samples rate frame mn mx res k p cfg e l H.
  destruct (from_samples_ok _ _ _ _ _ _ _ _ _ _ _ _ _ _ H) as (cfg' & s256 & s512 & s1024 & e1 & e2 & e3 & c256 & c512 & c1024 & a & _ & _ & _ & _ & _ & _ & H1 & H2 & H3 & Hf).
  assert (Hc : forall c, In c (c256 ++ c512 ++ c1024) -> fle mn (t_bpm c) = true /\ fle (t_bpm c) mx = true).
  { intros c I. rewrite !in_app_iff in I. destruct I as [I|[I|I]];
      [apply (cands_inside _ _ _ _ _ _ _ _ _ _ _ _ _ H1)|apply (cands_inside _ _ _ _ _ _ _ _ _ _ _ _ _ H2)|apply (cands_inside _ _ _ _ _ _ _ _ _ _ _ _ _ H3)]; auto. }
  destruct (C28_fusion c256 c512 c1024 rate mn mx res (Nat.max k 1) p (novelty_512 L s512 rate cfg) e l Hc Hf) as (R & A & C).
  split. { destruct R as [R|(R1 & R2 & R3 & c & I & D)]; [now left|]. right. repeat split; auto. exists (t_bpm c). destruct (Hc c I). auto. }
  split; auto. split; auto.
  destruct (C27_prefix _ _ _ _ _ _ _ _ _ _ _ _ _ H2) as (rem & _ & Len & _).
  destruct (fuse_ok _ _ _ _ _ _ _ _ _ _ _ _ Hf) as (t & first & rest & best & second & T & Hh & _ & Hb & _ & -> & ->). clear Hf H.
  cbn [e_bpm e_conf e_agree] in *. split. { rewrite map_length. split; auto. destruct c512; [destruct T|cbn; lia]. }
  split.
  { intros c I. apply in_map_iff in I as (c' & <- & I). cbn [t_bpm t_sel]. destruct (Hc c') as (X & Y); [rewrite !in_app_iff; auto|].
    repeat split; auto. }
  set (sup b := total_support c256 c512 c1024 b (fmax f2 res)) in *.
  exists (mkTc (t_bpm t) (t_score t) (t_fft t) (t_ac t) (flt (fabs (fsub (t_bpm t) (h_bpm best))) f075)), (h_bpm first).
  assert (It := in_map (fun c => mkTc (t_bpm c) (t_score c) (t_fft c) (t_ac c) (flt (fabs (fsub (t_bpm c) (h_bpm best))) f075)) c512 t T). cbv beta in It.
  assert (B0 : In (h_bpm first) [t_bpm t; fmul (t_bpm t) f2; fmul (t_bpm t) fhalf]).
  { destruct (hypothesis_bpm _ _ _ _ _ _ _ _ _ Hh) as (_ & _ & [->|[(-> & R')|(-> & R')]]); cbn [In]; auto. }
  assert (B1 : In (h_bpm (fold_up sup (fold_down sup first))) [h_bpm first; fmul (h_bpm first) fhalf; fmul (h_bpm first) f2; fmul (fmul (h_bpm first) fhalf) f2]).
  { destruct (up_cases sup (fold_down sup first)) as [->|(-> & _)]; destruct (down_cases sup first) as [->|(-> & _)]; cbn [In]; auto. }
  destruct Hb as [->|(n & ->)].
  - exists f1. split; [exact It|]. split; [exact B0|]. split; [now left|]. eauto.
  - destruct (triplet_cases sup n rate mn mx (fold_up sup (fold_down sup first))) as [E|(_ & _ & _ & _ & (f & I & E) & _)].
    + exists f1. split; [exact It|]. split; [exact B0|]. split; [now left|]. rewrite E. eauto.
    + exists f. split; [exact It|]. split; [exact B0|]. split; [exact I|]. rewrite E. eauto.
Qed.
Print Assumptions C28_near_range.

(** Fold-down ignores the range: with candidates 178 and 90 in [90,200] the result is 89. *)
Definition edge_cands : list cand := [mkTc (z2f 178) f1 f1 f1 false; mkTc (z2f 90) f1 f1 f1 false].
Definition even_fusion : fusion := {| fu_w512 := fhalf; fu_w256 := fhalf; fu_w1024 := fhalf; fu_double := fhalf; fu_margin := lit 1 (-2); fu_prior := false |}.
Theorem C28_range_refuted : exists c256 c512 c1024 rate mn mx res k p e l,
  Forall (fun c => fle mn (t_bpm c) = true /\ fle (t_bpm c) mx = true) (c256 ++ c512 ++ c1024) /\
  fuse c256 c512 c1024 rate mn mx res k p (Ok None) = Ok (e, l) /\ flt (e_bpm e) mn = true.
Proof.
  exists edge_cands, edge_cands, edge_cands, 4000, (z2f 90), (z2f 200), f1, 10, even_fusion.
  assert (X : match fuse edge_cands edge_cands edge_cands 4000 (z2f 90) (z2f 200) f1 10 even_fusion (Ok None) with
    | Ok (e, l) => flt (e_bpm e) (z2f 90) | _ => false end = true) by (vm_compute; reflexivity).
  destruct (fuse edge_cands edge_cands edge_cands 4000 (z2f 90) (z2f 200) f1 10 even_fusion (Ok None)) as [(e & l)| |]; [|discriminate X|discriminate X].
  exists e, l. split; [|split; auto]. repeat constructor.
Qed.
Print Assumptions C28_range_refuted.
(** Both candidates at weight 3/2 and 1: folded from 178 to 89, backed by the three 90s; no listed candidate is flagged. *)
Example C28_case :
  match fuse edge_cands edge_cands edge_cands 4000 (z2f 40) (z2f 240) f1 10 even_fusion (Ok None) with
  | Ok (e, l) => (f2i32 (e_bpm e), f2i32 (fmul (e_conf e) (z2f 100)), e_agree e, map (fun c => (f2i32 (t_bpm c), t_sel c)) l)
  | _ => (0%Z, 0%Z, 0, []) end = (89%Z, 50%Z, 3, [(178%Z, false); (90%Z, false)]).
Proof. vm_compute. reflexivity. Qed.

(** Scores.  For the usual platform, spectrograms with magnitudes up to 2^39, a consensus bonus up to 2^14 and fusion
    weights up to 2^20 in magnitude the confidence is in [0,1]. *)
Theorem C28_confidence : forall F L fuel samples rate frame mn mx res k p cfg e l,
  fft_bounds F -> cos_bounds L -> ln_bounds L -> 0 < frame -> (Z.of_nat (length samples) <= 2 ^ 24)%Z ->
  (forall hop s, In hop [256; 512; 1024] -> compute_stft F L samples frame hop = Ok s -> moderate s) ->
  (forall c, cfg = Some c -> usable c /\ fle (bc_bonus c) (lit 1 14) = true) ->
  (forall w, In w [fu_w512 p; fu_w256 p; fu_w1024 p; fu_double p] -> fle (fabs w) (lit 1 20) = true) ->
  multi_resolution_from_samples F L fuel samples rate frame mn mx res k p cfg = Some (Ok (e, l)) ->
  fle f0 (e_conf e) = true /\ fle (e_conf e) f1 = true.
Proof.
  intros F L fuel samples rate frame mn mx res k p cfg e l HF HC HL Fr Len HM HU HP H.
  destruct (from_samples_ok _ _ _ _ _ _ _ _ _ _ _ _ _ _ H) as (cfg' & s256 & s512 & s1024 & e1 & e2 & e3 & c256 & c512 & c1024 & a & _ & Ec & Lf & S1 & S2 & S3 & H1 & H2 & H3 & Hf).
  assert (HU' : forall c, cfg' = Some c -> usable c /\ fle (bc_bonus c) (lit 1 14) = true).
  { intros c E. destruct Ec as [-> | ->]; [discriminate|auto]. }
  assert (T : forall hop s a0 e0 c0, In hop [256; 512; 1024] -> compute_stft F L samples frame hop = Ok s ->
    tempogram_candidates F L fuel s rate hop mn mx res a0 cfg' = Some (Ok (e0, c0)) -> tame c0).
  { intros hop s a0 e0 c0 I Es Et. destruct (C27_prefix _ _ _ _ _ _ _ _ _ _ _ _ _ Et) as (rest & Hi & _).
    assert (Hh : 0 < hop) by (destruct I as [<-|[<-|[<-|[]]]]; lia).
    destruct (C41_shape F L samples frame hop Fr Hh) as (s' & Es' & Ls & Rs).
    assert (s' = s) by congruence. subst s'. destruct (Nat.ltb_spec (length samples) frame); [lia|].
    assert (Ld : (length samples - frame) / hop <= length samples - frame) by (apply Nat.div_le_upper_bound; nia).
    destruct (impl_scores 14 F L fuel s rate hop mn mx res cfg' e0 (c0 ++ rest) HF HC HL (HM _ _ I Es)) as (_ & B & _); auto; try lia.
    - intros n R. destruct s as [|f s]; [cbn in Ls; lia|]. apply Forall_inv in R, Rs. destruct Rs as (Rs & _).
      pose proof (Nat.div_lt frame 2 Fr ltac:(lia)). lia.
    - apply Forall_app in B as (B & _). unfold tame. eapply Forall_impl; [|exact B]. intros c (U & _). exact U. }
  assert (T1 : tame c256) by (eapply T; [|exact S1|exact H1]; cbn; auto).
  assert (T2 : tame c512) by (eapply T; [|exact S2|exact H2]; cbn; auto).
  assert (T3 : tame c1024) by (eapply T; [|exact S3|exact H3]; cbn; auto).
  assert (P : tame_fusion p) by (apply Forall_forall; exact HP).
  destruct (fuse_ok _ _ _ _ _ _ _ _ _ _ _ _ Hf) as (t & first & rest & best & second & _ & Hh & _ & Hb & _ & -> & _). cbn [e_conf].
  pose proof (hypothesis_tame _ _ _ _ _ _ _ _ _ T1 T2 T3 P Hh) as W.
  set (sup b := total_support c256 c512 c1024 b (fmax f2 res)) in *.
  assert (Sf : forall b, fin (fst (sup b))) by (intros b; eapply upto_fin, total_tame; auto).
  assert (Fb : fin (h_score best)).
  { assert (A1 : fin (h_score (fold_down sup first))).
    { destruct (down_cases sup first) as [->|(_ & -> & _)]; [eapply within_fin; eauto|auto]. }
    assert (A2 : fin (h_score (fold_up sup (fold_down sup first)))).
    { destruct (up_cases sup (fold_down sup first)) as [->|(_ & -> & _)]; auto. }
    destruct Hb as [->|(n & ->)]; auto.
    destruct (triplet_cases sup n rate mn mx (fold_up sup (fold_down sup first))) as [->|(_ & _ & _ & -> & _)]; auto. }
  destruct (separation_cases (lit 8796093 (-43)) (h_score best) second ltac:(reflexivity)) as [S|(_ & S)]; auto.
  rewrite S in Fb. discriminate Fb.
Qed.
Print Assumptions C28_confidence.

(** Switching away from a candidate T in range to 2T or T/2 needs a lead of at least the margin threshold over T itself. *)
Theorem C28_switch : forall c256 c512 c1024 mn mx tol p t h,
  Forall (fun c => fle f0 (t_score c) = true /\ fle (t_score c) (lit 1 40) = true) (c256 ++ c512 ++ c1024) ->
  (forall w, In w [fu_w512 p; fu_w256 p; fu_w1024 p; fu_double p] -> fle (fabs w) (lit 1 20) = true) -> fisnan (fu_margin p) = false ->
  fle mn t = true -> fle t mx = true ->
  hypothesis c256 c512 c1024 mn mx tol p t = Some h ->
  fgt (fabs (fsub (h_bpm h) t)) (lit 8589935 (-33)) = true ->
  let own := fadd (fadd (fmul (fu_w512 p) (support_at c512 t tol)) (fmul (fu_w256 p) (support_at c256 t tol)))
                  (fmul (fu_w1024 p) (support_at c1024 t tol)) in
  fle (fu_margin p) (fsub (h_score h) (hyp_prior t own)) = true.
Proof.
  intros c256 c512 c1024 mn mx tol p t h T P N R1 R2 H D own. unfold own. apply Forall_app in T as (T1 & T). apply Forall_app in T as (T2 & T3).
  assert (K : forall l, Forall (fun c => fle f0 (t_score c) = true /\ fle (t_score c) (lit 1 40) = true) l -> tame l).
  { intros l. apply Forall_impl. intros c (A & B). apply (upto_le _ _ (lit 1 40)); auto. apply upto_lit. lia. }
  apply (hypothesis_switch c256 c512 c1024 mn mx tol p t h); auto. { now apply Forall_forall. } split; auto.
Qed.
Print Assumptions C28_switch.
