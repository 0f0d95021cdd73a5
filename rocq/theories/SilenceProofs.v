(** Proofs about Silence.v. *)
From Coq Require Import ZArith Sorted.
From Verif Require Import Rust F32 ListFacts Silence SilenceSpec.

(** Pure list of maximal runs, with the scan's state. *)
Fixpoint runs (idx : nat) (cur : option nat) (l : list bool) : list (nat * nat) :=
  match l with
  | [] => match cur with None => [] | Some s => [(s, idx)] end
  | true :: r => runs (S idx) (match cur with None => Some idx | c => c end) r
  | false :: r => match cur with
                  | None => runs (S idx) None r
                  | Some s => (s, idx) :: runs (S idx) None r
                  end
  end.

(** [cur] describes the end of the already scanned prefix. *)
Definition cur_ok (pre : list bool) (cur : option nat) : Prop :=
  match cur with
  | None => pre = [] \/ nth_error pre (length pre - 1) = Some false
  | Some s => s < length pre /\ (forall i, s <= i < length pre -> nth_error pre i = Some true) /\
              (s = 0 \/ nth_error pre (s - 1) = Some false)
  end.

Lemma nth_error_app_l : forall A (l m : list A) i, i < length l -> nth_error (l ++ m) i = nth_error l i.
Proof. intros. now apply nth_error_app1. Qed.

Lemma cur_ok_step : forall pre cur b, cur_ok pre cur ->
  cur_ok (pre ++ [b]) (if b then match cur with None => Some (length pre) | c => c end else None).
Proof.
  intros pre cur b H. destruct b.
  - destruct cur as [s|]; simpl in *; rewrite app_length; simpl.
    + destruct H as (H1 & H2 & H3). split. lia. split.
      * intros i Hi. destruct (Nat.eq_dec i (length pre)) as [->|D].
        -- rewrite nth_error_app2, Nat.sub_diag by lia. reflexivity.
        -- rewrite nth_error_app_l by lia. apply H2. lia.
      * destruct H3; auto. right. rewrite nth_error_app_l by lia. auto.
    + split. lia. split.
      * intros i Hi. assert (i = length pre) by lia. subst.
        rewrite nth_error_app2, Nat.sub_diag by lia. reflexivity.
      * destruct H as [->|H]; auto. destruct (Nat.eq_dec (length pre) 0); auto.
        right. rewrite nth_error_app_l by lia. auto.
  - simpl. right. rewrite app_length. simpl. rewrite nth_error_app2 by lia.
    replace (length pre + 1 - 1 - length pre) with 0 by lia. reflexivity.
Qed.

Lemma runs_spec : forall l pre cur a b, cur_ok pre cur ->
  (In (a, b) (runs (length pre) cur l) <-> is_run (pre ++ l) a b /\ length pre <= b).
Proof.
  induction l as [|x l IH]; intros pre cur a b H.
  - rewrite app_nil_r. destruct cur as [s|]; simpl in *.
    + destruct H as (H1 & H2 & H3). split.
      * intros [E|[]]. inversion E; subst. split; [|lia]. repeat split; auto.
      * intros [(R1 & R2 & R3 & R4 & R5) L]. left. assert (b = length pre) by lia. subst b. f_equal.
        destruct (Nat.lt_trichotomy s a) as [C|[C|C]]; auto.
        -- destruct R4 as [->|R4]; [lia|]. rewrite H2 in R4 by lia. discriminate.
        -- destruct H3 as [->|H3]; [lia|]. rewrite R3 in H3 by lia. discriminate.
    + split; [intros []|]. intros [(R1 & R2 & R3 & R4 & R5) L].
      assert (b = length pre) by lia. subst b. destruct H as [->|H]; [simpl in *; lia|].
      rewrite R3 in H by lia. discriminate.
  - pose proof (cur_ok_step pre cur x H) as H'.
    replace (pre ++ x :: l) with ((pre ++ [x]) ++ l) by (rewrite <- app_assoc; reflexivity).
    specialize (IH (pre ++ [x]) _ a b H'). rewrite app_length in IH. simpl in IH.
    rewrite Nat.add_1_r in IH.
    set (full := (pre ++ [x]) ++ l) in *.
    assert (FX : nth_error full (length pre) = Some x).
    { unfold full. rewrite <- app_assoc. rewrite nth_error_app2, Nat.sub_diag by lia. reflexivity. }
    assert (FP : forall i, i < length pre -> nth_error full i = nth_error pre i).
    { intros i Hi. unfold full. rewrite <- app_assoc. now apply nth_error_app_l. }
    assert (FL : length pre < length full) by (unfold full; rewrite !app_length; simpl; lia).
    destruct x; simpl.
    + rewrite IH. split; intros [R L]; split; auto; try lia.
      destruct R as (R1 & R2 & R3 & R4 & R5).
      destruct (Nat.eq_dec b (length pre)) as [->|D]; [|lia].
      destruct R5 as [R5|R5]; [lia|]. congruence.
    + assert (NB : is_run full a b -> length pre <= b -> b = length pre \/ S (length pre) <= b) by lia.
      destruct cur as [s|]; simpl in *.
      * rewrite IH. destruct H as (H1 & H2 & H3). split.
        -- intros [E|[R L]]; [|split; auto; lia]. inversion E; subst. split; [|lia].
           repeat split; auto; try lia.
           ++ intros i Hi. rewrite FP by lia. apply H2. lia.
           ++ destruct H3; auto. right. rewrite FP by lia. auto.
        -- intros [R L]. destruct (NB R L) as [->|]; auto. left. f_equal.
           destruct R as (R1 & R2 & R3 & R4 & R5).
           destruct (Nat.lt_trichotomy s a) as [C|[C|C]]; auto.
           ++ destruct R4 as [->|R4]; [lia|]. rewrite FP in R4 by lia. rewrite H2 in R4 by lia. discriminate.
           ++ destruct H3 as [->|H3]; [lia|]. rewrite <- FP in H3 by lia. rewrite R3 in H3 by lia. discriminate.
      * rewrite IH. split; intros [R L]; split; auto; try lia.
        destruct (NB R L) as [->|]; auto. destruct R as (R1 & R2 & R3 & R4 & R5).
        destruct H as [->|H]; [simpl in *; lia|]. specialize (R3 (length pre - 1) ltac:(lia)).
        rewrite FP in R3 by lia. congruence.
Qed.

Lemma runs_iff : forall l a b, In (a, b) (runs 0 None l) <-> is_run l a b.
Proof.
  intros l a b. pose proof (runs_spec l [] None a b (or_introl eq_refl)) as H. simpl in H.
  rewrite H. split; [tauto|]. intros R. split; auto. lia.
Qed.

(** Runs come in ascending order, separated by at least one non-silent frame. *)
Lemma runs_sorted : forall l idx cur, (forall s, cur = Some s -> s < idx) ->
  StronglySorted (fun p q => snd p < fst q) (runs idx cur l) /\
  Forall (fun p => (match cur with None => idx | Some s => s end) <= fst p /\ fst p < snd p /\ idx <= snd p /\ snd p <= idx + length l) (runs idx cur l).
Proof.
  induction l as [|x l IH]; intros idx cur H; simpl.
  - destruct cur as [s|]; simpl; split; repeat constructor; simpl; try lia. now apply H.
  - destruct x.
    + destruct (IH (S idx) (match cur with None => Some idx | c => c end)) as [S F].
      { intros s E. destruct cur; inversion E; subst; [specialize (H _ eq_refl)|]; lia. }
      split; auto. eapply Forall_impl; [|exact F]. intros p P. destruct cur; simpl in *; lia.
    + destruct (IH (S idx) None) as [S F]. { discriminate. }
      destruct cur as [s|].
      * split.
        -- constructor; auto. eapply Forall_impl; [|exact F]. simpl. intros; lia.
        -- constructor; simpl. specialize (H s eq_refl). lia.
           eapply Forall_impl; [|exact F]. simpl. intros p P. specialize (H s eq_refl). lia.
      * split; auto. eapply Forall_impl; [|exact F]. simpl. intros; lia.
Qed.

(** ** The scan computes the kept runs *)
Definition keep (mf : Z) (p : nat * nat) : bool :=
  (mf <=? Z.of_nat (snd p - fst p))%Z || (fst p =? 0).
Definition conv (len hop num : nat) (p : nat * nat) : nat * nat :=
  (fst p * hop, if snd p =? num then len else snd p * hop).

Lemma starts_nth : forall hop num i, i < num ->
  nth_error (map (fun i => i * hop) (seq 0 num)) i = Some (i * hop).
Proof.
  intros hop num i H. rewrite nth_error_map.
  rewrite (nth_error_nth' (seq 0 num) 0) by (rewrite seq_length; auto).
  rewrite seq_nth by auto. reflexivity.
Qed.

Lemma scan_runs : forall mf num len hop flags idx regs cur,
  idx + length flags = num -> (forall s, cur = Some s -> s < idx) ->
  (num - 1) * hop <= len ->
  (let! st := scan mf num len (map (fun i => i * hop) (seq 0 num)) idx flags regs cur in
   trailing mf num len (map (fun i => i * hop) (seq 0 num)) st) =
  Ok (regs ++ map (conv len hop num) (filter (keep mf) (runs idx cur flags))).
Proof.
  intros mf num len hop. set (starts := map (fun i => i * hop) (seq 0 num)).
  assert (SN : forall i, i < num -> nth_error starts i = Some (i * hop)) by (intros; now apply starts_nth).
  clearbody starts.
  induction flags as [|x flags IH]; intros idx regs cur HL HC HB; simpl.
  - simpl in HL. destruct cur as [s|]; simpl; [|now rewrite app_nil_r].
    specialize (HC s eq_refl). unfold keep at 1. simpl.
    replace (num - s) with (idx - s) by lia.
    destruct ((mf <=? Z.of_nat (idx - s))%Z || (s =? 0)) eqn:K; [|now rewrite app_nil_r].
    unfold push_region, get. rewrite SN by lia. simpl.
    assert (s * hop <= (num - 1) * hop) by (apply Nat.mul_le_mono_r; lia).
    destruct (Nat.ltb_spec len (s * hop)); [lia|]. unfold conv. simpl.
    rewrite (proj2 (Nat.eqb_eq idx num)) by lia. reflexivity.
  - simpl in HL. destruct x.
    + rewrite IH; auto; try lia.
      intros s E. destruct cur; inversion E; subst; [specialize (HC _ eq_refl)|]; lia.
    + destruct cur as [s|]; [|apply IH; auto; try lia; discriminate].
      specialize (HC s eq_refl).
      rewrite (proj2 (Nat.eqb_neq idx num)) by lia. rewrite orb_false_r.
      simpl. unfold keep at 1. simpl.
      destruct ((mf <=? Z.of_nat (idx - s))%Z || (s =? 0)) eqn:K.
      * unfold push_region, get. rewrite !SN by lia. simpl.
        assert (s * hop <= idx * hop) by (apply Nat.mul_le_mono_r; lia).
        destruct (Nat.ltb_spec (idx * hop) (s * hop)); [lia|]. simpl.
        rewrite IH; try lia; try discriminate. rewrite <- app_assoc. simpl.
        unfold conv at 2. simpl. rewrite (proj2 (Nat.eqb_neq idx num)) by lia. reflexivity.
      * apply IH; auto; try lia; discriminate.
Qed.

(** ** Frames *)
Lemma frames_fit : forall len fs i, fs / 2 <> 0 -> fs <= len -> i < num_frames len fs ->
  i * (fs / 2) + fs <= len.
Proof.
  intros len fs i H L Hi. unfold num_frames in Hi. rewrite (proj2 (Nat.leb_le fs len)) in Hi by auto.
  pose proof (Nat.mul_div_le (len - fs) (fs / 2) H).
  assert (i * (fs / 2) <= (len - fs) / (fs / 2) * (fs / 2)) by (apply Nat.mul_le_mono_r; lia). lia.
Qed.

Lemma last_start : forall len fs, fs / 2 <> 0 -> (num_frames len fs - 1) * (fs / 2) <= len.
Proof.
  intros len fs H. destruct (Nat.le_gt_cases fs len) as [L|L].
  - assert (0 < num_frames len fs).
    { unfold num_frames. destruct (fs <=? len); lia. }
    pose proof (frames_fit len fs (num_frames len fs - 1) H L ltac:(lia)). lia.
  - unfold num_frames. rewrite (proj2 (Nat.leb_gt fs len)) by auto. simpl. lia.
Qed.

(** The decision of frame i: its RMS against the threshold. *)
Definition frame_at (samples : list f32) (fs i : nat) : list f32 :=
  slice samples (i * (fs / 2)) (Nat.min (i * (fs / 2) + fs) (length samples)).

Lemma flags_ok : forall thr samples fs, fs / 2 <> 0 ->
  silent_flags thr samples fs =
  Ok (map (fun i => fle (frame_rms (frame_at samples fs i)) thr) (seq 0 (num_frames (length samples) fs))).
Proof.
  intros thr samples fs H. unfold silent_flags. apply oseq_Ok. rewrite map_map. apply map_ext_in.
  intros i Hi. apply in_seq in Hi. unfold slice_chk, frame_at.
  assert (C : i * (fs / 2) <= Nat.min (i * (fs / 2) + fs) (length samples)).
  { apply Nat.min_glb. lia. destruct (Nat.le_gt_cases fs (length samples)) as [L|L].
    - pose proof (frames_fit _ fs i H L ltac:(lia)). lia.
    - unfold num_frames in Hi. rewrite (proj2 (Nat.leb_gt fs (length samples))) in Hi by auto.
      assert (i = 0) by lia. subst. simpl. lia. }
  rewrite (proj2 (Nat.leb_le _ _) C). 
  rewrite (proj2 (Nat.leb_le (Nat.min (i * (fs / 2) + fs) (length samples)) (length samples))) by lia.
  reflexivity.
Qed.

(** The silence decisions of a track, frame by frame. *)
Definition silence_flags (powf : f32 -> f32 -> f32) (samples : list f32) (d : detector) : list bool :=
  map (fun i => fle (frame_rms (frame_at samples (sd_frame_size d) i))
                    (powf (z2f 10) (fdiv (sd_threshold_db d) (z2f 20))))
      (seq 0 (num_frames (length samples) (sd_frame_size d))).

Definition regions (powf : f32 -> f32 -> f32) (samples : list f32) (sr : Z) (d : detector) : list (nat * nat) :=
  let hop := sd_frame_size d / 2 in
  let fl := silence_flags powf samples d in
  map (conv (length samples) hop (length fl)) (filter (keep (min_frames d sr hop)) (runs 0 None fl)).

Lemma flags_length : forall powf samples d,
  length (silence_flags powf samples d) = num_frames (length samples) (sd_frame_size d).
Proof. intros. unfold silence_flags. now rewrite map_length, seq_length. Qed.

Theorem detect_ok : forall powf samples sr d, samples <> [] -> sr <> 0%Z -> 2 <= sd_frame_size d ->
  detect_and_trim powf samples sr d =
  Ok (trim samples (regions powf samples sr d), regions powf samples sr d).
Proof.
  intros powf samples sr d H1 H2 H3. unfold detect_and_trim.
  destruct samples as [|x0 s0] eqn:ES; [congruence|]. rewrite <- ES in *. clear ES x0 s0.
  rewrite (proj2 (Z.eqb_neq sr 0)) by auto.
  rewrite (proj2 (Nat.eqb_neq (sd_frame_size d) 0)) by lia.
  assert (HH : sd_frame_size d / 2 <> 0).
  { pose proof (Nat.div_le_mono 2 (sd_frame_size d) 2 ltac:(lia) H3). change (2 / 2) with 1 in H. lia. }
  rewrite (proj2 (Nat.eqb_neq (sd_frame_size d / 2) 0)) by auto.
  rewrite flags_ok by auto. cbn [obind]. fold (silence_flags powf samples d).
  pose proof (scan_runs (min_frames d sr (sd_frame_size d / 2)) (num_frames (length samples) (sd_frame_size d))
    (length samples) (sd_frame_size d / 2) (silence_flags powf samples d) 0 [] None) as S.
  rewrite flags_length in S. specialize (S eq_refl ltac:(discriminate) (last_start _ _ HH)).
  cbn [app] in S.
  destruct (scan _ _ _ _ _ _ _ _) as [st| |]; cbn [obind] in S; try discriminate. cbn [obind].
  rewrite S. cbn [obind]. unfold regions. now rewrite flags_length.
Qed.

Lemma detect_errors : forall powf samples sr d, samples <> [] ->
  (sr = 0%Z \/ sd_frame_size d = 0 -> detect_and_trim powf samples sr d = Err InvalidInput) /\
  (sr <> 0%Z -> sd_frame_size d = 1 -> detect_and_trim powf samples sr d = Panic).
Proof.
  intros powf samples sr d H. unfold detect_and_trim. destruct samples as [|x s]; [congruence|]. split.
  - intros [->| ->]; simpl; auto. destruct (sr =? 0)%Z; auto.
  - intros H1 ->. rewrite (proj2 (Z.eqb_neq sr 0)) by auto. reflexivity.
Qed.

Lemma detect_inv : forall powf samples sr d out regs, samples <> [] ->
  detect_and_trim powf samples sr d = Ok (out, regs) ->
  sr <> 0%Z /\ 2 <= sd_frame_size d /\ out = trim samples (regions powf samples sr d) /\
  regs = regions powf samples sr d.
Proof.
  intros powf samples sr d out regs NE H.
  destruct (Z.eq_dec sr 0) as [->|NS].
  { pose proof (proj1 (detect_errors powf samples 0 d NE) (or_introl eq_refl)). congruence. }
  destruct (Nat.eq_dec (sd_frame_size d) 0) as [E0|N0].
  { pose proof (proj1 (detect_errors powf samples sr d NE) (or_intror E0)). congruence. }
  destruct (Nat.eq_dec (sd_frame_size d) 1) as [E1|N1].
  { pose proof (proj2 (detect_errors powf samples sr d NE) NS E1). congruence. }
  rewrite detect_ok in H by (auto; lia). inversion H; subst. repeat split; auto. lia.
Qed.

(** ** Geometry of the regions *)
Definition region_ok (len : nat) (p : nat * nat) : Prop := fst p < snd p /\ snd p <= len.

Lemma len_pos_frames : forall len fs b, fs / 2 <> 0 -> b < num_frames len fs -> 0 < len -> b * (fs / 2) < len.
Proof.
  intros len fs b H Hb HL. destruct (Nat.le_gt_cases fs len) as [L|L].
  - pose proof (frames_fit len fs b H L Hb). assert (fs <> 0) by (intros ->; simpl in H; lia). lia.
  - unfold num_frames in Hb. rewrite (proj2 (Nat.leb_gt fs len)) in Hb by auto. assert (b = 0) by lia. subst. lia.
Qed.

Lemma regions_geometry : forall powf samples sr d, samples <> [] -> 2 <= sd_frame_size d ->
  Forall (region_ok (length samples)) (regions powf samples sr d) /\
  StronglySorted (fun p q => snd p < fst q) (regions powf samples sr d).
Proof.
  intros powf samples sr d H1 H3.
  assert (HH : sd_frame_size d / 2 <> 0).
  { pose proof (Nat.div_le_mono 2 (sd_frame_size d) 2 ltac:(lia) H3). change (2 / 2) with 1 in H. lia. }
  assert (LP : 0 < length samples) by (destruct samples; [congruence|simpl; lia]).
  unfold regions. set (fl := silence_flags powf samples d).
  destruct (runs_sorted fl 0 None ltac:(discriminate)) as [S F].
  rewrite Forall_forall in F.
  assert (LF : length fl = num_frames (length samples) (sd_frame_size d)) by apply flags_length.
  set (hop := sd_frame_size d / 2) in *.
  split.
  - rewrite Forall_forall. intros p Hp. apply in_map_iff in Hp. destruct Hp as (q & <- & Hq).
    apply filter_In in Hq. destruct Hq as [Hq _]. specialize (F q Hq). simpl in F.
    unfold region_ok, conv. simpl.
    assert (fst q * hop < length samples) by (apply len_pos_frames; auto; lia).
    destruct (Nat.eqb_spec (snd q) (length fl)) as [E|E]; simpl. lia.
    split.
    + apply Nat.mul_lt_mono_pos_r; lia.
    + apply Nat.lt_le_incl, len_pos_frames; auto; lia.
  - apply StronglySorted_filter with (f := keep (min_frames d sr hop)) in S.
    set (rs := filter _ (runs 0 None fl)) in *.
    assert (FR : forall q, In q rs -> snd q <= length fl /\ fst q < snd q).
    { intros q Hq. apply filter_In in Hq. destruct Hq as [Hq _]. specialize (F q Hq). simpl in F. lia. }
    clearbody rs. induction S as [|p rs S IH FP]; simpl; constructor.
    + apply IH. intros; apply FR; simpl; auto.
    + rewrite Forall_forall in *. intros r Hr. apply in_map_iff in Hr. destruct Hr as (q & <- & Hq).
      specialize (FP q Hq). destruct (FR q ltac:(simpl; auto)). unfold conv; simpl.
      rewrite (proj2 (Nat.eqb_neq (snd p) (length fl))) by lia.
      apply Nat.mul_lt_mono_pos_r; lia.
Qed.

(** Which regions there are. *)
Lemma regions_iff : forall powf samples sr d s e,
  In (s, e) (regions powf samples sr d) <->
  exists a b, is_run (silence_flags powf samples d) a b /\
    ((min_frames d sr (sd_frame_size d / 2) <= Z.of_nat (b - a))%Z \/ a = 0) /\
    s = a * (sd_frame_size d / 2) /\
    e = (if b =? num_frames (length samples) (sd_frame_size d) then length samples else b * (sd_frame_size d / 2)).
Proof.
  intros. unfold regions. rewrite in_map_iff, flags_length. split.
  - intros ([a b] & E & H). apply filter_In in H. destruct H as [H K]. apply runs_iff in H.
    unfold conv in E. simpl in E. inversion E; subst. exists a, b. split; auto. split; auto.
    unfold keep in K. simpl in K. apply orb_true_iff in K. rewrite Z.leb_le, Nat.eqb_eq in K. auto.
  - intros (a & b & R & K & -> & ->). exists (a, b). split; auto. apply filter_In. split.
    now apply runs_iff. unfold keep. simpl. apply orb_true_iff. rewrite Z.leb_le, Nat.eqb_eq. auto.
Qed.

(** ** Trimming *)
Lemma rev_cons_last : forall A (l : list A) x r, rev l = x :: r -> l = rev r ++ [x].
Proof. intros A l x r H. rewrite <- (rev_involutive l), H. reflexivity. Qed.

Lemma trim_slice : forall samples regs, Forall (region_ok (length samples)) regs ->
  let b := trim_bounds (length samples) regs in
  fst b <= snd b /\ snd b <= length samples /\ trim samples regs = slice samples (fst b) (snd b).
Proof.
  intros samples regs F b. unfold trim. fold b.
  assert (B : fst b <= snd b /\ snd b <= length samples).
  { unfold b, trim_bounds. simpl.
    assert (A2 : forall s e t, rev regs = (s, e) :: t -> s < e /\ e <= length samples).
    { intros s e t E. apply rev_cons_last in E. rewrite E in F. apply Forall_app in F.
      destruct F as [_ F]. inversion F as [|? ? X _]; subst. exact X. }
    destruct (rev regs) as [|[s2 e2] t2] eqn:ER.
    - simpl. lia.
    - specialize (A2 _ _ _ eq_refl). destruct (e2 =? length samples); simpl; lia. }
  destruct B as [B1 B2]. destruct b as [ts te]. simpl in *. repeat split; auto.
  destruct (Nat.ltb_spec ts te) as [L|L]; simpl.
  - rewrite (proj2 (Nat.leb_le _ _) B2). reflexivity.
  - assert (ts = te) by lia. subst. unfold slice. rewrite Nat.sub_diag. reflexivity.
Qed.

(** Every removed sample lies in a silent frame or in the unanalysed tail (the samples
    after the end of the last frame, fewer than hop of them). *)
Lemma region_frames : forall powf samples sr d s e j, samples <> [] -> 2 <= sd_frame_size d ->
  In (s, e) (regions powf samples sr d) -> s <= j < e ->
  let fs := sd_frame_size d in let num := num_frames (length samples) fs in
  (exists i, nth_error (silence_flags powf samples d) i = Some true /\
     i * (fs / 2) <= j < i * (fs / 2) + fs) \/ (num - 1) * (fs / 2) + fs <= j < length samples.
Proof.
  intros powf samples sr d s e j H1 H3 HI HJ fs num.
  assert (HH : fs / 2 <> 0).
  { pose proof (Nat.div_le_mono 2 fs 2 ltac:(lia) H3). change (2 / 2) with 1 in H. lia. }
  pose proof (flags_length powf samples d) as LF. fold fs num in LF.
  apply regions_iff in HI. fold fs num in HI. destruct HI as (a & b & (R1 & R2 & R3 & _ & _) & _ & -> & ->).
  pose proof (Nat.div_mod j (fs / 2) HH) as DM. pose proof (Nat.mod_upper_bound j (fs / 2) HH) as MB.
  assert (FS : fs / 2 <= fs) by (apply Nat.div_le_upper_bound; lia).
  set (i := j / (fs / 2)) in *.
  assert (AI : a <= i). { apply Nat.div_le_lower_bound; auto. lia. }
  destruct (Nat.lt_ge_cases i b) as [L|L].
  - left. exists i. split. apply R3; lia. rewrite Nat.mul_comm. lia.
  - destruct (Nat.eqb_spec b num) as [E|E].
    + destruct (Nat.lt_ge_cases j ((num - 1) * (fs / 2) + fs)) as [K|K]; [|right; lia].
      left. exists (b - 1). split. apply R3; lia. rewrite E. split; auto.
      assert ((num - 1) * (fs / 2) <= i * (fs / 2)) by (apply Nat.mul_le_mono_r; lia). lia.
    + exfalso. assert (b * (fs / 2) <= i * (fs / 2)) by (apply Nat.mul_le_mono_r; lia). lia.
Qed.

Lemma trim_bounds_regions : forall len regs, StronglySorted (fun p q => snd p < fst q) regs ->
  Forall (region_ok len) regs -> forall j,
  let b := trim_bounds len regs in
  (j < fst b -> exists e, In (0, e) regs /\ j < e) /\
  (snd b <= j < len -> exists s, In (s, len) regs /\ s <= j).
Proof.
  intros len regs S F j b. unfold b, trim_bounds. simpl. split.
  - intros H. destruct regs as [|[s e] r]; [lia|].
    destruct (Nat.eqb_spec s 0) as [->|]; [|lia]. exists e. split; [left; auto|lia].
  - intros H. destruct (rev regs) as [|[s e] r] eqn:E; [lia|].
    destruct (Nat.eqb_spec e len) as [->|]; [|lia]. exists s. split; [|lia].
    apply in_rev. rewrite E. left; auto.
Qed.
