(** C67: beat-synchronous chroma. *)
From Coq Require Import ZArith Reals Lra.
From Flocq Require Import Core BinarySingleNaN.
From Verif Require Import Rust F32 F32Facts F32More ListFacts Libm Onsets NoveltyProofs Bounds Chroma ChromaProofs ChromaValueProofs ChromaProps
  KeyFeatures HarmonicMaskProofs ThresholdProofs TuningProofs.
Local Open Scope nat_scope.

Lemma sums_nth : forall n cs acc, length acc = n -> Forall (fun c => length c = n) cs ->
  fold_left (fun acc c => map (fun p => fadd (fst p) (snd p)) (combine acc c)) cs acc =
  map (fun j => fold_left fadd (map (fun c => nth j c f0) cs) (nth j acc f0)) (seq 0 n).
Proof.
  intros n cs. induction cs as [|c cs IH]; intros acc La H.
  - cbn [fold_left map]. rewrite <- La. clear. induction acc as [|x acc IH]; [reflexivity|]. cbn [length seq map nth].
    f_equal. rewrite IH at 1. now rewrite <- seq_shift, map_map.
  - inversion H as [|? ? Lc H']; subst. cbn [fold_left]. rewrite IH; [|now rewrite map_length, combine_length, Lc, Nat.min_id|assumption].
    apply map_ext_in. intros j Hj. apply in_seq in Hj. cbn [map fold_left]. f_equal.
    rewrite (nth_indep _ f0 (fadd (fst (f0, f0)) (snd (f0, f0)))) by (rewrite map_length, combine_length; lia).
    rewrite (map_nth (fun p => fadd (fst p) (snd p)) (combine acc c)). rewrite combine_nth by congruence. reflexivity.
Qed.

(** Frame k starts at k * hop / rate seconds and belongs to interval i if beats[i] <= start < beats[i+1].  The result has
    one vector and one energy per interval: zeros if the interval has no frame, otherwise the mean of the frames' chroma
    vectors divided by its norm and the sum of the frames' energies. *)
Theorem C67_content : forall L rate fft hop soft sigma tuning beats spec, chroma_libm L ->
  (Z.of_nat rate < 2 ^ 32)%Z -> 0 < fft -> (Z.of_nat fft < 2 ^ 64)%Z -> within 13 tuning ->
  Forall (fun f => (Z.of_nat (length f) <= 2 ^ 64)%Z /\ Forall (fun x => fin x) f) spec ->
  let start k := fmul (n2f k) (fdiv (n2f hop) (n2f rate)) in
  let inside i := filter (fun k => fle (nth i beats f0) (start k) && flt (start k) (nth (i + 1) beats f0)) (seq 0 (length spec)) in
  let run := beat_chroma L rate fft hop soft sigma tuning beats spec in
  (spec = [] -> run = Ok ([], [])) /\
  (spec <> [] -> beats = [] -> run = Err InvalidInput) /\
  (spec <> [] -> beats <> [] -> exists cs es chroma, run = Ok (cs, es) /\
    length cs = length beats - 1 /\ length es = length beats - 1 /\
    Forall (fun c => length c = 12 /\ Forall in01 c) cs /\
    (forall k, k < length spec -> frame_to_chroma L rate fft soft sigma tuning (nth k spec []) = Ok (chroma k)) /\
    (forall i, i + 1 < length beats ->
      (inside i = [] -> nth i cs [] = repeat f0 12 /\ nth i es f0 = f0) /\
      (inside i <> [] ->
        nth i cs [] = divided_by_norm
          (map (fun j => fdiv (fold_left fadd (map (fun k => nth j (chroma k) f0) (inside i)) f0) (n2f (length (inside i)))) (seq 0 12)) /\
        nth i es f0 = fold_left fadd (map (fun k => fold_left fadd (map (fun x => fmul x x) (nth k spec [])) f0) (inside i)) f0))).
Proof.
  intros L rate fft hop soft sigma tuning beats spec HL R1 Pf F1 T F start inside run. unfold run, beat_chroma.
  split; [intros ->; reflexivity|]. split.
  { intros Hs ->. destruct (Nat.eqb_spec (length spec) 0) as [E|E]; [now apply length_zero_iff_nil in E|reflexivity]. }
  intros Hs Hb. destruct (Nat.eqb_spec (length spec) 0) as [E|E]; [now apply length_zero_iff_nil in E|].
  destruct (Nat.eqb_spec (length beats) 0) as [E'|E']; [now apply length_zero_iff_nil in E'|].
  set (chroma k := match frame_to_chroma L rate fft soft sigma tuning (nth k spec []) with Ok c => c | _ => [] end).
  assert (Ch : forall k, k < length spec -> frame_to_chroma L rate fft soft sigma tuning (nth k spec []) = Ok (chroma k) /\
    length (chroma k) = 12 /\ Forall in01 (chroma k)).
  { intros k Hk. rewrite Forall_forall in F. destruct (F (nth k spec []) ltac:(now apply nth_In)) as (Lk & Fk).
    destruct (C59_range L rate fft soft sigma tuning (nth k spec []) HL R1 Pf F1 Lk T Fk) as (c & Ec & Lc & Ic & _).
    unfold chroma. rewrite Ec. auto. }
  set (vec i := if length (inside i) =? 0 then repeat f0 12 else divided_by_norm
          (map (fun j => fdiv (fold_left fadd (map (fun k => nth j (chroma k) f0) (inside i)) f0) (n2f (length (inside i)))) (seq 0 12))).
  set (en i := if length (inside i) =? 0 then f0 else
    fold_left fadd (map (fun k => fold_left fadd (map (fun x => fmul x x) (nth k spec [])) f0) (inside i)) f0).
  assert (In_i : forall i k, In k (inside i) -> k < length spec).
  { intros i k Hk. apply filter_In in Hk. destruct Hk as (Hk & _). apply in_seq in Hk. lia. }
  assert (BI : forall i, beat_interval L rate fft hop soft sigma tuning spec (nth i beats f0) (nth (i + 1) beats f0) = Ok (vec i, en i)).
  { intros i. unfold beat_interval. cbv zeta. rewrite (indexed _ [] spec).
    assert (Fi : filter (fun p : nat * list f32 => fge (fmul (n2f (fst p)) (fdiv (n2f hop) (n2f rate))) (nth i beats f0) &&
        flt (fmul (n2f (fst p)) (fdiv (n2f hop) (n2f rate))) (nth (i + 1) beats f0)) (map (fun b => (b, nth b spec [])) (seq 0 (length spec)))
        = map (fun b => (b, nth b spec [])) (inside i)).
    { unfold inside. generalize (seq 0 (length spec)). induction l as [|k l IH]; [reflexivity|]. cbn [map filter fst].
      change (fge (fmul (n2f k) (fdiv (n2f hop) (n2f rate))) (nth i beats f0)) with (fle (nth i beats f0) (start k)).
      change (fmul (n2f k) (fdiv (n2f hop) (n2f rate))) with (start k). destruct (_ && _); cbn [map]; now rewrite IH. }
    rewrite Fi, !map_map. cbn [snd].
    assert (Eo : oseq (map (fun k => frame_to_chroma L rate fft soft sigma tuning (nth k spec [])) (inside i)) = Ok (map chroma (inside i))).
    { apply oseq_Ok. rewrite map_map. apply map_ext_in. intros k Hk. now apply Ch, (In_i i). }
    rewrite Eo. cbn [obind]. rewrite map_length. unfold vec, en. destruct (length (inside i) =? 0); [reflexivity|].
    f_equal. f_equal. unfold average_chroma. rewrite (sums_nth 12), map_map, map_length; [|reflexivity|].
    - rewrite <- divided_by_norm_eq. f_equal. apply map_ext_in. intros j Hj. apply in_seq in Hj. rewrite map_map.
      rewrite nth_repeat. reflexivity.
    - apply Forall_map, Forall_forall. intros k Hk. now apply Ch, (In_i i). }
  assert (Eo : oseq (map (fun i => beat_interval L rate fft hop soft sigma tuning spec (nth i beats f0) (nth (i + 1) beats f0))
      (seq 0 (length beats - 1))) = Ok (map (fun i => (vec i, en i)) (seq 0 (length beats - 1)))).
  { apply oseq_Ok. rewrite map_map. apply map_ext. exact BI. }
  rewrite Eo. cbn [obind]. rewrite !map_map. cbn [fst snd].
  exists (map vec (seq 0 (length beats - 1))), (map en (seq 0 (length beats - 1))), chroma. split; [reflexivity|].
  rewrite !map_length, !seq_length. split; [reflexivity|]. split; [reflexivity|]. split.
  { apply Forall_map, Forall_forall. intros i _. unfold vec. destruct (Nat.eqb_spec (length (inside i)) 0) as [Ei|Ei].
    - split; [reflexivity|]. repeat constructor; apply in01_0.
    - rewrite divided_by_norm_eq. split; [now rewrite unit_or_keep_length, map_length, seq_length|].
      assert (U : forall j, upto 25 (fold_left fadd (map (fun k => nth j (chroma k) f0) (inside i)) f0)).
      { intros j. apply (upto_sum 0); [lia|]. apply Forall_map, Forall_forall. intros k Hk.
        destruct (Ch k ltac:(eauto)) as (_ & _ & Ic). apply in01_upto.
        destruct (Nat.lt_ge_cases j (length (chroma k))); [|rewrite nth_overflow by lia; apply in01_0].
        rewrite Forall_forall in Ic. now apply Ic, nth_In. }
      apply unit_or_keep_01; apply Forall_map, Forall_forall; intros j _;
        [apply (upto_fin 25)|apply (upto_nneg 25)]; apply upto_div_count; auto; lia. }
  split; [intros k Hk; now apply Ch|].
  intros i Hi.
  assert (Nc : nth i (map vec (seq 0 (length beats - 1))) [] = vec i).
  { rewrite (nth_indep _ [] (vec 0)) by (rewrite map_length, seq_length; lia). rewrite map_nth, seq_nth by lia. reflexivity. }
  assert (Ne : nth i (map en (seq 0 (length beats - 1))) f0 = en i).
  { rewrite (nth_indep _ f0 (en 0)) by (rewrite map_length, seq_length; lia). rewrite map_nth, seq_nth by lia. reflexivity. }
  rewrite Nc, Ne. unfold vec, en. split.
  - intros ->. split; reflexivity.
  - intros Hi'. destruct (Nat.eqb_spec (length (inside i)) 0) as [Ei|Ei]; [now apply length_zero_iff_nil in Ei|]. split; reflexivity.
Qed.
Print Assumptions C67_content.

(** With beats in ascending order every frame that starts between the first and the last beat belongs to exactly one
    interval, and the others to none. *)
Theorem C67_partition : forall (beats : list f32) t, nn t -> Forall (fun b => nn b) beats -> beats <> [] ->
  (forall i, i + 1 < length beats -> fle (nth i beats f0) (nth (i + 1) beats f0) = true) ->
  let inside i := i + 1 < length beats /\ fle (nth i beats f0) t = true /\ flt t (nth (i + 1) beats f0) = true in
  (fle (nth 0 beats f0) t = true -> flt t (nth (length beats - 1) beats f0) = true -> exists i, inside i /\ forall j, inside j -> j = i) /\
  (flt t (nth 0 beats f0) = true \/ fle (nth (length beats - 1) beats f0) t = true -> forall i, ~ inside i).
Proof.
  intros beats t Nt Nb Hb S0 inside.
  assert (Mono : forall i j, i <= j -> j < length beats -> fle (nth i beats f0) (nth j beats f0) = true).
  { intros i j H. induction H as [|j H IH]; intros Hj.
    - apply fle_refl. rewrite Forall_forall in Nb. now apply Nb, nth_In.
    - eapply fle_trans; [apply IH; lia|]. specialize (S0 j ltac:(lia)). now rewrite Nat.add_1_r in S0. }
  assert (No : forall a b, fle a t = true -> flt t b = true -> fle b a = true -> False).
  { intros a b A B C. assert (X : fle b t = true) by (eapply fle_trans; eauto). apply fle_flt_false in X. congruence. }
  split.
  - intros H0 Hl.
    assert (Ex : forall n, n < length beats -> flt t (nth n beats f0) = true -> exists i, i < n /\ inside i).
    { induction n as [|n IH]; intros Hn Ht; [exfalso; eapply No; eauto; apply fle_refl; now apply fle_nn in H0|].
      destruct (fle (nth n beats f0) t) eqn:E.
      - exists n. split; [lia|]. unfold inside. rewrite Nat.add_1_r. auto.
      - destruct IH as (i & Hi & Ii); [lia| |exists i; split; [lia|exact Ii]]. apply fle_false_flt; auto.
        rewrite Forall_forall in Nb. apply Nb, nth_In. lia. }
    destruct beats as [|b0 beats']; [congruence|]. destruct (Ex (length (b0 :: beats') - 1)) as (i & _ & Ii); [simpl; lia|assumption|].
    exists i. split; [exact Ii|]. intros j Ij. destruct Ii as (Li & Ai & Bi), Ij as (Lj & Aj & Bj).
    destruct (Nat.lt_trichotomy i j) as [C|[C|C]]; [exfalso|auto|exfalso].
    + apply (No _ _ Aj Bi). apply Mono; lia.
    + apply (No _ _ Ai Bj). apply Mono; lia.
  - intros [H|H] i (Li & Ai & Bi).
    + apply (No _ _ Ai H). apply Mono; lia.
    + apply (No _ _ H Bi). apply Mono; lia.
Qed.
Print Assumptions C67_partition.

(** One frame per second, beats at 1, 2, 2.5 and 4.5 s: the intervals have frame 1, frame 2 and frames 3 and 4.  Frame 0 and
    frame 5 are in none; an interval between two frames is empty. *)
Example ex_C67 :
  let frame z := map z2f [0; z; 0; 0; 0; 0; 0; 0; 0]%Z in
  let spec := map frame [1; 2; 3; 4; 5; 6]%Z in
  let go beats := match beat_chroma toy (8 * 1000) 16 (8 * 1000) false f0 f0 beats spec with
    | Ok (c, e) => (map (map (fun x => f2i32 (fmul (z2f 100) x))) c, map f2i32 e) | _ => ([], []) end in
  go [f1; f2; fdiv (z2f 5) f2; fdiv (z2f 9) f2] =
    (repeat [0; 0; 0; 0; 0; 0; 0; 0; 0; 0; 0; 100]%Z 3, [4; 9; 41]%Z) /\
  go [fdiv (z2f 5) f2; fdiv (z2f 11) f2 ] = ([[0; 0; 0; 0; 0; 0; 0; 0; 0; 0; 0; 100]%Z], [77]%Z) /\
  go [fdiv (z2f 5) (z2f 4); fdiv (z2f 3) f2] = ([[0; 0; 0; 0; 0; 0; 0; 0; 0; 0; 0; 0]%Z], [0]%Z).
Proof. split; [vm_compute; reflexivity|]. split; vm_compute; reflexivity. Qed.

(** ** Chroma of every frame of a spectrogram *)

(** The extractor that converts every frame: an empty spectrogram gives nothing, empty or unequal frames are rejected, and
    otherwise there is one chroma vector per frame, that of the frame, together with the energy of the frame. *)
Theorem C59_extract : forall L rate fft soft sigma tuning spec, chroma_libm L ->
  (Z.of_nat rate < 2 ^ 32)%Z -> 0 < fft -> (Z.of_nat fft < 2 ^ 64)%Z -> within 13 tuning ->
  let run := extract_chroma_spec L rate fft soft sigma tuning spec in
  (spec = [] -> run = Ok ([], [])) /\
  (spec <> [] -> (exists f, In f spec /\ (f = [] \/ length f <> length (nth 0 spec []))) -> run = Err InvalidInput) /\
  (forall n, 0 < n -> (Z.of_nat n <= 2 ^ 64)%Z -> spec <> [] -> Forall (fun f => length f = n /\ Forall (fun x => fin x) f) spec ->
    exists cs, run = Ok (cs, map (fun f => fold_left fadd (map (fun x => fmul x x) f) f0) spec) /\ length cs = length spec /\
      Forall (fun c => length c = 12 /\ Forall in01 c) cs /\
      forall i, i < length spec -> frame_to_chroma L rate fft soft sigma tuning (nth i spec []) = Ok (nth i cs [])).
Proof.
  intros L rate fft soft sigma tuning spec HL R1 F0 F1 T run. unfold run, extract_chroma_spec. split; [intros ->; reflexivity|]. split.
  - intros Hs (f & If & B). destruct (Nat.eqb_spec (length spec) 0) as [E|E]; [now apply length_zero_iff_nil in E|].
    destruct (check_shape_err spec) as [Ec|(n & Ec)]; rewrite Ec; [reflexivity|exfalso].
    destruct (check_shape_ok _ _ Ec) as (Pn & En & Sh). unfold shape in Sh. rewrite Forall_forall in Sh. specialize (Sh f If).
    destruct B as [B|B]; [subst f; simpl in Sh; lia|congruence].
  - intros n Pn Bn Hs F. destruct (Nat.eqb_spec (length spec) 0) as [E|E]; [now apply length_zero_iff_nil in E|].
    rewrite (check_shape_run spec n Hs Pn) by (unfold shape; eapply Forall_impl; [|exact F]; cbv beta; tauto).
    cbn [obind]. rewrite Forall_forall in F.
    assert (X : forall f, In f spec -> exists c, frame_to_chroma L rate fft soft sigma tuning f = Ok c /\ length c = 12 /\ Forall in01 c).
    { intros f If. destruct (F f If) as (Lf & Wf).
      destruct (C59_range L rate fft soft sigma tuning f HL R1 F0 F1 ltac:(rewrite Lf; exact Bn) T Wf) as (c & C & Lc & Ic & _).
      exists c. auto. }
    destruct (oseq_map_total _ _ (frame_to_chroma L rate fft soft sigma tuning) spec) as (cs & Ep).
    { intros a Ia. destruct (X a Ia) as (c & C & _). eauto. }
    rewrite Ep. cbn [obind]. exists cs. split; [reflexivity|].
    pose proof Ep as Ep'. apply oseq_Ok in Ep'.
    assert (Lp : length cs = length spec) by (apply (f_equal (@length _)) in Ep'; rewrite !map_length in Ep'; congruence).
    split; [exact Lp|]. split.
    + apply Forall_forall. intros c Ic. destruct (oseq_in _ _ _ _ _ _ Ep Ic) as (a & Ia & Ea).
      destruct (X a Ia) as (c' & C & Q). rewrite C in Ea. injection Ea as ->. exact Q.
    + intros i Hi. apply (f_equal (fun l => nth i l Panic)) in Ep'.
      rewrite (nth_indep _ _ (frame_to_chroma L rate fft soft sigma tuning [])) in Ep' by (rewrite map_length; lia).
      rewrite map_nth in Ep'. rewrite Ep'. rewrite (nth_indep _ _ (Ok [])) by (rewrite map_length; lia). apply map_nth.
Qed.
Print Assumptions C59_extract.

(** Two frames of nine bins at 8 kHz: bins at 500 Hz (class B) and 1000 Hz; a third, shorter frame is rejected. *)
Example ex_C59_extract :
  let frame z := map z2f [0; z; 0; 0; 0; 0; 0; 0; 0]%Z in
  let go spec := match extract_chroma_spec toy (8 * 1000) 16 false f0 f0 spec with
    | Ok (c, e) => (map (map (fun x => f2i32 (fmul (z2f 100) x))) c, map f2i32 e) | _ => ([], []) end in
  go [frame 1; frame 3]%Z = (repeat [0; 0; 0; 0; 0; 0; 0; 0; 0; 0; 0; 100]%Z 2, [1; 9]%Z) /\
  go [frame 1%Z; [f1]] = ([], []).
Proof. split; vm_compute; reflexivity. Qed.
