(** C02, C03, C04, C47, C48: silence detection and trimming. *)
From Coq Require Import ZArith Sorted.
From Verif Require Import Rust F32 ListFacts Silence SilenceSpec SilenceProofs.

(** The result is one contiguous piece of the input.  [powf] is arbitrary throughout. *)
Theorem C02_contiguous : forall powf samples sr d out regs,
  detect_and_trim powf samples sr d = Ok (out, regs) ->
  exists pre post, samples = pre ++ out ++ post.
Proof.
  intros powf samples sr d out regs H.
  destruct (list_eq_dec_nil _ samples) as [->|NE]. { inversion H. exists [], []. reflexivity. }
  destruct (detect_inv _ _ _ _ _ _ NE H) as (NS & FS & -> & ->).
  destruct (regions_geometry powf samples sr d NE) as [F _]; [lia|].
  destruct (trim_slice samples _ F) as (B1 & B2 & ->).
  eexists; eexists. apply slice_split; eauto.
Qed.
Print Assumptions C02_contiguous.

(** Exactly what is removed: the front up to the end of a region that starts at 0, the
    back from the start of a region that ends at the end; if these meet, everything. *)
Theorem C02_bounds : forall powf samples sr d out regs,
  detect_and_trim powf samples sr d = Ok (out, regs) -> samples <> [] ->
  exists a b, a <= b <= length samples /\ out = slice samples a b /\
    (a = 0 \/ exists e, In (0, e) regs /\ (a = e \/ a = b /\ a <= e)) /\
    (b = length samples \/ exists s, In (s, length samples) regs /\ b = s).
Proof.
  intros powf samples sr d out regs H NE.
  destruct (detect_inv _ _ _ _ _ _ NE H) as (NS & FS & -> & ->).
  destruct (regions_geometry powf samples sr d NE) as [F _]; [lia|].
  set (regs := regions powf samples sr d) in *.
  destruct (trim_slice samples _ F) as (B1 & B2 & E).
  exists (fst (trim_bounds (length samples) regs)), (snd (trim_bounds (length samples) regs)).
  split; auto. split; auto. unfold trim_bounds; cbn [fst snd]. split.
  - destruct regs as [|[s e] r]; [left; lia|].
    destruct (Nat.eqb_spec s 0) as [->|]; [|left; lia].
    right. exists e. split; [left; auto|]. lia.
  - destruct (rev regs) as [|[s e] r] eqn:ER.
    + left. lia.
    + destruct (Nat.eqb_spec e (length samples)) as [->|]; [|left; lia].
      right. exists s. split; [apply in_rev; rewrite ER; left; auto|]. lia.
Qed.
Print Assumptions C02_bounds.

(** The silence map: non-empty regions inside the track, strictly increasing and
    separated. *)
Theorem C03_ordered : forall powf samples sr d out regs,
  detect_and_trim powf samples sr d = Ok (out, regs) ->
  Forall (fun p => fst p < snd p /\ snd p <= length samples) regs /\
  StronglySorted (fun p q => snd p < fst q) regs.
Proof.
  intros powf samples sr d out regs H.
  destruct (list_eq_dec_nil _ samples) as [->|NE]. { inversion H. split; constructor. }
  destruct (detect_inv _ _ _ _ _ _ NE H) as (NS & FS & -> & ->).
  now apply regions_geometry.
Qed.
Print Assumptions C03_ordered.

(** The map contains exactly the maximal runs of silent frames that are long enough or
    start the track, converted to sample positions. *)
Theorem C03_exact : forall powf samples sr d out regs s e,
  detect_and_trim powf samples sr d = Ok (out, regs) -> samples <> [] -> 
  let hop := sd_frame_size d / 2 in
  In (s, e) regs <->
  exists a b, is_run (silence_flags powf samples d) a b /\
    ((min_frames d sr hop <= Z.of_nat (b - a))%Z \/ a = 0) /\ s = a * hop /\
    e = (if b =? num_frames (length samples) (sd_frame_size d) then length samples else b * hop).
Proof.
  intros powf samples sr d out regs s e H NE.
  destruct (detect_inv _ _ _ _ _ _ NE H) as (NS & FS & -> & ->). apply regions_iff.
Qed.
Print Assumptions C03_exact.

(** Outcome by settings.  Only frame size 1 panics. *)
Theorem C04_outcomes_partial : forall powf samples sr d,
  (samples = [] -> detect_and_trim powf samples sr d = Ok ([], [])) /\
  (samples <> [] -> sr = 0%Z \/ sd_frame_size d = 0 -> detect_and_trim powf samples sr d = Err InvalidInput) /\
  (samples <> [] -> sr <> 0%Z -> 2 <= sd_frame_size d -> exists r, detect_and_trim powf samples sr d = Ok r) /\
  (detect_and_trim powf samples sr d = Panic <-> samples <> [] /\ sr <> 0%Z /\ sd_frame_size d = 1).
Proof.
  intros powf samples sr d. repeat split.
  - now intros ->.
  - intros NE. now apply detect_errors.
  - intros NE NS FS. rewrite detect_ok by auto. eauto.
  - intros ->. discriminate.
  - intros ->. destruct samples; discriminate.
  - destruct (list_eq_dec_nil _ samples) as [->|NE]; [discriminate|].
    destruct (Z.eq_dec sr 0) as [->|NS].
    { rewrite (proj1 (detect_errors powf samples 0 d NE)) in H by auto. discriminate. }
    destruct (Nat.eq_dec (sd_frame_size d) 0) as [E0|N0].
    { rewrite (proj1 (detect_errors powf samples sr d NE)) in H by auto. discriminate. }
    destruct (Nat.eq_dec (sd_frame_size d) 1) as [E1|N1]; auto.
    rewrite detect_ok in H by (auto; lia). discriminate.
  - intros (NE & NS & E). now apply detect_errors.
Qed.
Print Assumptions C04_outcomes_partial.

Theorem C04_no_panic_refuted : exists samples sr d, forall powf,
  sr <> 0%Z /\ sd_frame_size d <> 0 /\ detect_and_trim powf samples sr d = Panic.
Proof.
  exists [f1], 44100%Z, {| sd_threshold_db := fneg (z2f 40); sd_min_duration_ms := 500; sd_frame_size := 1 |}.
  intros powf. repeat split; discriminate.
Qed.
Print Assumptions C04_no_panic_refuted.

(** Trimming removes only silence: every removed sample lies in a frame judged silent -
    or in the tail after the last frame. *)
Theorem C47_removed_silent_partial : forall powf samples sr d out regs,
  detect_and_trim powf samples sr d = Ok (out, regs) -> samples <> [] ->
  let fs := sd_frame_size d in let num := num_frames (length samples) fs in
  exists a b, a <= b <= length samples /\ out = slice samples a b /\
    forall j, j < a \/ b <= j < length samples ->
    (exists i, nth_error (silence_flags powf samples d) i = Some true /\
       i * (fs / 2) <= j < i * (fs / 2) + fs) \/ (num - 1) * (fs / 2) + fs <= j < length samples.
Proof.
  intros powf samples sr d out regs H NE fs num.
  destruct (detect_inv _ _ _ _ _ _ NE H) as (NS & FS & -> & ->).
  destruct (regions_geometry powf samples sr d NE) as [F S]; [lia|].
  set (regs := regions powf samples sr d) in *.
  destruct (trim_slice samples _ F) as (B1 & B2 & E).
  exists (fst (trim_bounds (length samples) regs)), (snd (trim_bounds (length samples) regs)).
  split; auto. split; auto. intros j Hj.
  destruct (trim_bounds_regions _ _ S F j) as [T1 T2].
  destruct Hj as [Hj|Hj].
  - destruct (T1 Hj) as (e & I & L). apply (region_frames powf samples sr d 0 e j); auto; lia.
  - destruct (T2 Hj) as (s & I & L). apply (region_frames powf samples sr d s (length samples) j); auto; lia.
Qed.
Print Assumptions C47_removed_silent_partial.

(** A loud last sample (1.0, far above any threshold) is cut off because it lies after
    the last frame and the last frame is silent. *)
Definition loud_tail : list f32 := [f1; f1; f1; f1; f0; f0; f0; f0; f0; f0; f1].
Theorem C47_removed_silent_refuted : exists samples sr d, forall powf,
  powf (z2f 10) (fdiv (sd_threshold_db d) (z2f 20)) = lit 10737418 (-30) ->
  omap (fun r => (length (fst r), snd r)) (detect_and_trim powf samples sr d) = Ok (4, [(4, 11)]) /\
  length samples = 11 /\ nth_error samples 10 = Some f1.
Proof.
  exists loud_tail, 44100%Z, {| sd_threshold_db := fneg (z2f 40); sd_min_duration_ms := 0; sd_frame_size := 4 |}.
  intros powf H. split; [|split; reflexivity].
  unfold detect_and_trim. rewrite H. vm_compute. reflexivity.
Qed.
Print Assumptions C47_removed_silent_refuted.

(** Leading silence is always removed, however short. *)
Theorem C48_leading_partial : forall powf samples sr d out regs b,
  detect_and_trim powf samples sr d = Ok (out, regs) -> samples <> [] ->
  is_run (silence_flags powf samples d) 0 b -> b < num_frames (length samples) (sd_frame_size d) ->
  exists c, b * (sd_frame_size d / 2) <= c /\ out = slice samples (b * (sd_frame_size d / 2)) c.
Proof.
  intros powf samples sr d out regs b H NE R LB.
  pose proof (C03_exact powf samples sr d out regs 0 (b * (sd_frame_size d / 2)) H NE) as X.
  cbv zeta in X. assert (I : In (0, b * (sd_frame_size d / 2)) regs).
  { apply X. exists 0, b. repeat split; auto; try apply R.
    rewrite (proj2 (Nat.eqb_neq _ _)) by lia. reflexivity. }
  destruct (C03_ordered _ _ _ _ _ _ H) as [F S].
  assert (Hd : exists r, regs = (0, b * (sd_frame_size d / 2)) :: r).
  { destruct regs as [|p r]; [destruct I|]. inversion S as [|? ? S1 F1]; subst.
    destruct I as [->|I]; eauto. rewrite Forall_forall in F1. specialize (F1 _ I). cbn [fst snd] in F1. lia. }
  destruct Hd as [r ER].
  assert (OUT : out = trim samples regs).
  { now destruct (detect_inv _ _ _ _ _ _ NE H) as (NS & FS & -> & ->). }
  destruct (trim_slice samples regs F) as (B1 & B2 & E).
  assert (T : fst (trim_bounds (length samples) regs) = b * (sd_frame_size d / 2)).
  { unfold trim_bounds. rewrite ER at 1. cbn [fst]. change (0 =? 0) with true. cbv iota.
    destruct (rev regs) as [|[s e] t] eqn:RR.
    - rewrite ER in F. apply Forall_inv in F. rename F into F1. cbn [fst snd] in F1. lia.
    - assert (L : In (s, e) regs) by (apply in_rev; rewrite RR; left; auto).
      destruct (Nat.eqb_spec e (length samples)) as [->|_].
      + rewrite ER in L, S. destruct L as [L|L].
        * assert (EL : b * (sd_frame_size d / 2) = length samples) by congruence. exfalso.
          assert (M : b * (sd_frame_size d / 2) < length samples).
          { apply len_pos_frames; auto.
            - intros Z0. rewrite ER in F. apply Forall_inv in F. rename F into F1. cbn [fst snd] in F1. rewrite Z0 in F1. lia.
            - destruct samples; [congruence|simpl; lia]. }
          lia.
        * apply StronglySorted_inv in S. destruct S as [_ F1]. rewrite Forall_forall in F1. specialize (F1 _ L). cbn [fst snd] in F1. lia.
      + rewrite ER in F. apply Forall_inv in F. rename F into F1. cbn [fst snd] in F1. lia. }
  rewrite OUT, E, T. exists (snd (trim_bounds (length samples) regs)). rewrite T in B1. auto.
Qed.
Print Assumptions C48_leading_partial.

(** Trailing silence shorter than the minimum duration is kept, although the source
    comment (silence.rs:198) says leading/trailing silence is always included. *)
Theorem C48_trailing_refuted : exists samples sr d, forall powf,
  powf (z2f 10) (fdiv (sd_threshold_db d) (z2f 20)) = lit 10737418 (-30) ->
  is_run (silence_flags powf samples d) 3 5 /\ length (silence_flags powf samples d) = 5 /\
  omap (fun r => (length (fst r), snd r)) (detect_and_trim powf samples sr d) = Ok (length samples, []).
Proof.
  exists [f1; f1; f1; f1; f1; f1; f0; f0; f0; f0; f0; f0], 44100%Z,
    {| sd_threshold_db := fneg (z2f 40); sd_min_duration_ms := 500; sd_frame_size := 4 |}.
  intros powf H.
  assert (E : silence_flags powf [f1; f1; f1; f1; f1; f1; f0; f0; f0; f0; f0; f0]
     {| sd_threshold_db := fneg (z2f 40); sd_min_duration_ms := 500; sd_frame_size := 4 |} =
     [false; false; false; true; true]).
  { unfold silence_flags. rewrite H. vm_compute. reflexivity. }
  rewrite E. split; [|split; [reflexivity|]].
  - repeat split; simpl; auto; try lia.
    intros i Hi. assert (i = 3 \/ i = 4) as [-> | ->] by lia; reflexivity.
  - unfold detect_and_trim. rewrite H. vm_compute. reflexivity.
Qed.
Print Assumptions C48_trailing_refuted.

(** Non-trivial instance: 8 silent, 8 loud, 8 silent samples, frame size 4. *)
Example C02_case : forall powf,
  powf (z2f 10) (fdiv (fneg (z2f 40)) (z2f 20)) = lit 10737418 (-30) ->
  omap (fun r => (length (fst r), snd r))
    (detect_and_trim powf (repeat f0 8 ++ repeat f1 8 ++ repeat f0 8) 44100
       {| sd_threshold_db := fneg (z2f 40); sd_min_duration_ms := 0; sd_frame_size := 4 |})
  = Ok (10, [(0, 6); (16, 24)]).
Proof. intros powf H. unfold detect_and_trim. cbn [sd_threshold_db]. rewrite H. vm_compute. reflexivity. Qed.
