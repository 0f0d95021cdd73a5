(** C79: the FFT tempogram measures how strongly the novelty pulses at each tempo (src/features/period/tempogram_fft.rs). *)
From Coq Require Import ZArith Bool List Arith Lia Reals Lra Permutation Sorted.
From Flocq Require Import Core IEEE754.BinarySingleNaN.
From Verif Require Import Rust F32 F32Facts F32More FloatSums Bounds NoveltyProofs Libm Sorting SortingFacts PeakPicking Autocorrelation AutocorrelationProofs
  TempoSpectra TempoSpectraProps TempogramValueProofs FourierFacts AutocorrelationValueProofs SpectrumFacts ToneFacts TempoSpectrumFacts ExactPlatform.
Import ListNotations.
Local Open Scope R_scope.

(** The squared correlation of the curve, less [mu] and weighted with the Hann window, with a beat of [tempo] per minute. *)
Definition pulse_power (nov : list f32) (rate hop : nat) (mu tempo : R) : R :=
  let n := length nov in
  let w i := (B2R (nth i nov f0) - mu) * ((1 - cos (2 * PI * INR i / INR (n - 1))) / 2) in
  let beats i := tempo / 60 * (INR i * INR hop / INR rate) in
  Rsqr (sumn (fun i => w i * cos (2 * PI * beats i)) n) + Rsqr (sumn (fun i => w i * sin (2 * PI * beats i)) n).

Lemma map_seq_combine : forall (A : Type) (g : nat -> A) d s n (l : list A), length l = n -> (forall i, (i < n)%nat -> nth i l d = g (s + i)%nat) ->
  combine (seq s n) l = map (fun i => (i, g i)) (seq s n).
Proof.
  intros A g d s n. revert s. induction n as [|n IH]; intros s l L H; [destruct l; [reflexivity|discriminate]|].
  destruct l as [|x l]; [discriminate|]. cbn [seq combine map]. f_equal.
  - f_equal. specialize (H 0%nat ltac:(lia)). cbn in H. now rewrite Nat.add_0_r in H.
  - apply IH; [now injection L|]. intros i Hi. specialize (H (S i) ltac:(lia)). cbn in H. now rewrite Nat.add_succ_r in H.
Qed.
Lemma filter_map_comm : forall (A B : Type) (f : A -> B) (p : B -> bool) l, filter p (map f l) = map f (filter (fun x => p (f x)) l).
Proof. intros A B f p l. induction l as [|x l IH]; [reflexivity|]. cbn. destruct (p (f x)); cbn; now rewrite IH. Qed.

(** For a novelty curve in [0,1]: there is one entry for each bin k whose tempo 60 * k * rate / (hop * size) is in the range
    (size is the next power of two), it carries that tempo and, up to the stated error, the squared correlation of the
    curve with a beat of that tempo.  The entries are in descending order of strength. *)
Theorem C79_strength : forall F L nov rate hop mn mx t e d,
  fft_tempogram F L nov rate hop mn mx = Ok t -> Forall in01 nov ->
  let n := length nov in (2 <= n)%nat -> (Z.of_nat n <= 1048576)%Z -> (Z.of_nat rate <= 16777216)%Z -> (Z.of_nat hop <= 16777216)%Z ->
  (forall N, (n <= N < 2 * n)%nat -> accurate F N e) -> 0 <= e <= / 8 -> cos_accurate L d -> 0 <= d <= / 8 ->
  exists size mu ks, (exists j, size = 2 ^ j)%nat /\ (n <= size < 2 * n)%nat /\
    let mean := sumn (fun i => B2R (nth i nov f0)) n / INR n in Rabs (mu - mean) <= INR n / 4194304 /\
    let tempo k := 60 * INR k * INR rate / (INR hop * INR size) in
    NoDup ks /\
    Forall2 (fun k entry => (k <= size / 2)%nat /\ fin (fst entry) /\ Rabs (B2R (fst entry) - tempo k) <= tempo k / 2097152 /\
      fle mn (fst entry) = true /\ fle (fst entry) mx = true /\
      fin (snd entry) /\ Rabs (B2R (snd entry) - pulse_power nov rate hop mu (tempo k)) <= (8 * e + 4 * d + / 50000) * (INR n * INR n)) ks t /\
    (forall k, (k <= size / 2)%nat -> fin mn -> fin mx -> B2R mn <= tempo k * (1 - / 2097152) -> tempo k * (1 + / 2097152) <= B2R mx -> In k ks) /\
    StronglySorted (fun a b => fle (snd b) (snd a) = true) t.
Proof.
  intros F L nov rate hop mn mx t e d E H n N1 N2 R1 H1 Acc He Cos Hd.
  set (size := next_pow2 n).
  assert (Sz : (n <= size < 2 * n)%nat).
  { split; [apply next_pow2_ge|]. unfold size, next_pow2. destruct (Nat.log2_up_spec n ltac:(lia)) as (A & _).
    pose proof (Nat.log2_up_pos n ltac:(lia)) as P. destruct (Nat.log2_up n) as [|k]; [lia|]. cbn [Nat.pred] in A. rewrite Nat.pow_succ_r'. lia. }
  specialize (Acc size Sz).
  destruct (mean_value nov H ltac:(lia) N2) as (Im & Em & _). fold n in Im, Em. set (mean := fdiv (fsum nov) (n2f n)) in *.
  exists size, (B2R mean). 
  unfold fft_tempogram in E. fold n in E. destruct (Nat.eqb_spec n 0); [lia|]. destruct (Nat.eqb_spec rate 0) as [|R0]; [discriminate|].
  destruct (Nat.eqb_spec hop 0) as [|H0]; [discriminate|]. destruct (_ || _); [discriminate|].
  assert (Et := f_equal (fun o => match o with Ok l => l | _ => [] end) E). cbv beta iota zeta in Et. clear E. fold size in Et.
  set (buf := fft_forward F (fft_input L nov)) in *.
  set (pw := fun z : complex => fadd (fmul (fst z) (fst z)) (fmul (snd z) (snd z))) in *.
  set (g := fun k : nat => pw (nth k buf (f0, f0))).
  set (ent := fun k => (bin_bpm rate hop size k, g k)).
  (* the transform's input, with the computed mean *)
  destruct (fft_input_val L nov d Cos Hd H N1 N2) as (Li & Bi & Ii & Hy & Ay). fold n in Li, Hy, Ay. fold size in Li, Hy, Ay. fold mean in Hy, Ay.
  assert (Lb : length buf = size) by (unfold buf; now rewrite fft_forward_len).
  assert (H2s : (size / 2 < size)%nat) by (apply Nat.div_lt; lia).
  assert (Ec : combine (seq 0 (size / 2 + 1)) (firstn (size / 2 + 1) (map pw buf)) = map (fun k => (k, g k)) (seq 0 (size / 2 + 1))).
  { apply (map_seq_combine _ g (pw (f0, f0))); [rewrite firstn_length, map_length; lia|].
    intros i Hi. rewrite Nat.add_0_l. unfold g. rewrite <- (map_nth pw).
    rewrite <- (firstn_skipn (size / 2 + 1) (map pw buf)) at 2. rewrite app_nth1; [reflexivity|]. rewrite firstn_length, map_length. lia. }
  rewrite Ec, map_map in Et. cbn [fst snd] in Et. fold ent in Et. rewrite filter_map_comm in Et.
  set (keep := filter _ (seq 0 (size / 2 + 1))) in Et.
  assert (P : Permutation t (map ent keep)) by (rewrite <- Et; symmetry; apply sort_desc_perm).
  destruct (Permutation_map_inv _ _ P) as (ks & Ek & Pk).
  exists ks. split; [exists (Nat.log2_up n); reflexivity|]. split; [exact Sz|]. cbv zeta. split.
  { unfold mean_of in Em. fold n in Em. eapply Rle_trans; [exact Em|]. unfold u24. lra. }
  set (tempo := fun k => 60 * INR k * INR rate / (INR hop * INR size)).
  assert (NDk : NoDup ks) by (apply (Permutation_NoDup Pk); apply NoDup_filter, seq_NoDup).
  split; [exact NDk|].
  assert (InK : forall k, In k ks <-> ((k <= size / 2)%nat /\ fle mn (bin_bpm rate hop size k) = true /\ fle (bin_bpm rate hop size k) mx = true)).
  { intros k. rewrite <- (Permutation_in' eq_refl Pk). unfold keep. rewrite filter_In, in_seq, andb_true_iff. unfold ent. cbn [fst]. unfold fge.
    change (Bleb mn (bin_bpm rate hop size k)) with (fle mn (bin_bpm rate hop size k)). split; [intros (A & B); split; [lia|exact B]|intros (A & B); split; [lia|exact B]]. }
  assert (Bpm : forall k, (k <= size / 2)%nat -> fin (bin_bpm rate hop size k) /\ Rabs (B2R (bin_bpm rate hop size k) - tempo k) <= tempo k / 2097152).
  { intros k Hk. destruct (bin_bpm_val rate hop size k) as (Fb & Eb); try lia. split; [exact Fb|].
    change (bin_tempo rate hop size k) with (tempo k) in Eb. eapply Rle_trans; [exact Eb|].
    assert (0 <= tempo k). { unfold tempo, Rdiv. apply Rmult_le_pos; [repeat apply Rmult_le_pos; try apply pos_INR; lra|].
      left. apply Rinv_0_lt_compat, Rmult_lt_0_compat; apply lt_0_INR; lia. }
    unfold u24. lra. }
  (* the powers *)
  assert (Pn : 2 <= INR n) by (apply (le_INR 2); lia). assert (Bn : INR n <= 1048576) by (rewrite INR_IZR_INZ; now apply IZR_le).
  pose proof (in01_B2R _ Im) as Bm.
  set (y := fun i => if (i <? n)%nat then (B2R (nth i nov f0) - B2R mean) * hann_at n i else 0) in *.
  set (h := INR n * (3 / 4 * d + / 300000)) in *.
  assert (S1 : slack <= / 1048576) by (unfold slack; replace (/ 1048576) with (bpow radix2 (-20)) by (cbn; lra); apply bpow_le; lia).
  pose proof slack_pos as S0.
  assert (H0' : 0 <= h <= INR n * / 8) by (unfold h; split; [nra|apply Rmult_le_compat_l; lra]).
  set (D := e * (INR n + slack + h) + h).
  assert (D0 : 0 <= D) by (unfold D; nra).
  assert (D1 : D <= 3 / 10 * INR n) by (unfold D; nra).
  assert (Pow : forall k, (k <= size / 2)%nat -> fin (g k) /\ nneg (g k) /\
     Rabs (B2R (g k) - pulse_power nov rate hop (B2R mean) (tempo k)) <= (8 * e + 4 * d + / 50000) * (INR n * INR n)).
  { intros k Hk. destruct (bin_parts F size e (fft_input L nov) y (INR n) h k Acc (proj1 He) Li Bi Ii Hy Ay ltac:(lia)) as (F1 & F2 & E1 & E2).
    fold buf in F1, F2, E1, E2. destruct (part_bound size y k) as (B1 & B2). change (sumn (fun t => Rabs (y t)) size <= INR n) in Ay.
    assert (B1' := Rle_trans _ _ _ B1 Ay). assert (B2' := Rle_trans _ _ _ B2 Ay). fold D in E1, E2.
    destruct (power_val (nth k buf (f0, f0)) (cos_part size y k) (sin_part size y k) (INR n) D) as (Fp & Np & Vp); [exact F1|exact F2|exact B1'|exact B2'|cbn; lra|lra|exact D0|exact E1|exact E2|].
    split; [exact Fp|]. split; [exact Np|].
    assert (EP : cos_part size y k * cos_part size y k + sin_part size y k * sin_part size y k = pulse_power nov rate hop (B2R mean) (tempo k)).
    { unfold pulse_power. fold n. cbv zeta.
      assert (An : forall i, 2 * PI * (tempo k / 60 * (INR i * INR hop / INR rate)) = 2 * PI * INR k * INR i / INR size).
      { intros i. unfold tempo. field. repeat split; apply not_0_INR; lia. }
      assert (C : cos_part size y k = sumn (fun i => (B2R (nth i nov f0) - B2R mean) * ((1 - cos (2 * PI * INR i / INR (n - 1))) / 2) * cos (2 * PI * (tempo k / 60 * (INR i * INR hop / INR rate)))) n).
      { unfold cos_part. rewrite (sumn_extend _ n size (proj1 Sz)) by (intros i Hi; unfold y; destruct (Nat.ltb_spec i n); [lia|ring]).
        apply sumn_ext. intros i Hi. rewrite An. unfold y. destruct (Nat.ltb_spec i n); [reflexivity|lia]. }
      assert (Sn : sin_part size y k = sumn (fun i => (B2R (nth i nov f0) - B2R mean) * ((1 - cos (2 * PI * INR i / INR (n - 1))) / 2) * sin (2 * PI * (tempo k / 60 * (INR i * INR hop / INR rate)))) n).
      { unfold sin_part. rewrite (sumn_extend _ n size (proj1 Sz)) by (intros i Hi; unfold y; destruct (Nat.ltb_spec i n); [lia|ring]).
        apply sumn_ext. intros i Hi. rewrite An. unfold y. destruct (Nat.ltb_spec i n); [reflexivity|lia]. }
      rewrite C, Sn. reflexivity. }
    rewrite EP in Vp. change (g k) with (pw (nth k buf (f0, f0))). unfold pw. eapply Rle_trans; [exact Vp|].
    assert (B140 : bpow radix2 (-140) <= / 1048576) by (replace (/ 1048576) with (bpow radix2 (-20)) by (cbn; lra); apply bpow_le; lia).
    set (nn2 := INR n * INR n). assert (NN : 4 <= nn2) by (unfold nn2; nra).
    assert (Q1 : D * (2 * INR n + D) <= 23 / 10 * (INR n * D)) by nra.
    assert (Q2 : (INR n + D) * (INR n + D) <= 169 / 100 * nn2) by (unfold nn2; nra).
    assert (Q3 : INR n * D <= (9 / 8 * e + 13 / 16 * d + / 260000) * nn2).
    { unfold D, nn2. assert (e * (INR n + slack + h) <= e * (9 / 8 * INR n) + / 1000000 * / 8 * INR n) by nra.
      assert (h <= 3 / 4 * d * INR n + / 300000 * INR n) by (unfold h; lra). nra. }
    nra. }
  split; [|split].
  - rewrite Ek. clear - Bpm Pow InK. assert (A : forall k, In k ks -> In k ks) by auto. revert A. generalize ks at 1 3 4. intros l.
    induction l as [|k l IH]; intros A; [constructor|]. constructor; [|apply IH; intros; apply A; now right].
    destruct (proj1 (InK k) (A k (or_introl eq_refl))) as (Hk & G1 & G2). destruct (Bpm k Hk) as (Fb & Eb). destruct (Pow k Hk) as (Fp & _ & Vp).
    unfold ent. cbn [fst snd]. repeat split; auto.
  - intros k Hk Fmn Fmx Lo Hi. change (B2R mn <= tempo k * (1 - / 2097152)) in Lo. change (tempo k * (1 + / 2097152) <= B2R mx) in Hi. apply InK. destruct (Bpm k Hk) as (Fb & Eb). apply Rabs_le_inv in Eb. split; [exact Hk|].
    split; apply fle_intro; auto using fin_nn; rewrite !fx_fin by auto; lra.
  - rewrite <- Et. apply sort_desc_sorted. apply Forall_forall. intros (b & p) I. apply in_map_iff in I as (k & Ee & I).
    apply filter_In in I as (I & _). apply in_seq in I. destruct (Pow k ltac:(lia)) as (_ & Np & _). unfold ent in Ee. injection Ee as _ <-.
    cbn [snd]. now apply nneg_nn.
Qed.
Print Assumptions C79_strength.

Lemma pulse_amp : forall nov rate hop mu k, (0 < rate)%nat -> (0 < hop)%nat -> (0 < length nov)%nat -> let n := length nov in
  pulse_power nov rate hop mu (60 * INR k * INR rate / (INR hop * INR n)) = Rsqr (amplitude n (fun i => (B2R (nth i nov f0) - mu) * hann_at n i) k).
Proof.
  intros nov rate hop mu k R0 H0 N0 n. unfold amplitude. rewrite Rsqr_sqrt by (apply Rplus_le_le_0_compat; apply Rle_0_sqr).
  unfold pulse_power, cos_part, sin_part. fold n. cbv zeta.
  assert (An : forall i, 2 * PI * (60 * INR k * INR rate / (INR hop * INR n) / 60 * (INR i * INR hop / INR rate)) = 2 * PI * INR k * INR i / INR n).
  { intros i. field. repeat split; apply not_0_INR; lia. }
  f_equal; f_equal; apply sumn_ext; intros i _; now rewrite An.
Qed.

(** A curve that pulses k times over its length (a power of two), to within the given tolerance: the tempo the tempogram
    puts first is at most two bins away from the tempo of the pulse. *)
Theorem C79_pulse : forall F L nov rate hop mn mx t e d m k a c f,
  fft_tempogram F L nov rate hop mn mx = Ok t -> Forall in01 nov ->
  let n := length nov in n = (2 ^ m)%nat -> (64 <= n)%nat -> (Z.of_nat n <= 16384)%Z -> (Z.of_nat rate <= 16777216)%Z -> (Z.of_nat hop <= 16777216)%Z ->
  (forall N, (n <= N < 2 * n)%nat -> accurate F N e) -> 0 <= e <= / 65536 -> cos_accurate L d -> 0 <= d <= / 65536 ->
  (3 <= k)%nat -> (k + 3 <= n / 2)%nat -> / 4 <= a ->
  (forall i, (i < n)%nat -> Rabs (B2R (nth i nov f0) - (c + a * cos (2 * PI * INR k * INR i / INR n + f))) <= / 400) ->
  let width := 60 * INR rate / (INR hop * INR n) in let tempo := INR k * width in
  fin mn -> fin mx -> B2R mn <= tempo * (1 - / 2097152) -> tempo * (1 + / 2097152) <= B2R mx ->
  exists b p rest, t = (b, p) :: rest /\ fin b /\ Rabs (B2R b - tempo) <= 201 / 100 * width + tempo / 2097152.
Proof.
  intros F L nov rate hop mn mx t e d m k a c f E H n Em N1 N2 R1 H1 Acc He Cos Hd Hk Hk' Ha X width tempo Fmn Fmx Lo Hi.
  assert (Ok0 : (0 < rate)%nat /\ (0 < hop)%nat).
  { unfold fft_tempogram in E. destruct (_ =? _)%nat in E; [discriminate|]. destruct (Nat.eqb_spec rate 0) in E; [discriminate|].
    destruct (Nat.eqb_spec hop 0) in E; [discriminate|]. lia. }
  destruct Ok0 as (Pr & Ph).
  assert (PN : 64 <= INR n) by (replace 64 with (INR 64) by (rewrite INR_IZR_INZ; reflexivity); now apply le_INR).
  assert (PN' : INR n <= 16384) by (rewrite INR_IZR_INZ; now apply IZR_le).
  assert (Hn2 : (2 <= n)%nat) by lia.
  destruct (C79_strength F L nov rate hop mn mx t e d E H ltac:(exact Hn2) ltac:(fold n; lia) R1 H1 Acc ltac:(lra) Cos ltac:(lra))
    as (size & mu & ks & (j & Sj) & Sz & Mu & ND & F2 & All & Srt). fold n in Sz, Mu, F2.
  assert (Ej : size = n).
  { rewrite Sj, Em in *. assert (m <= j)%nat by (apply (Nat.pow_le_mono_r_iff 2); lia).
    assert (j < S m)%nat by (apply (Nat.pow_lt_mono_r_iff 2); [lia|rewrite Nat.pow_succ_r'; lia]). f_equal. lia. }
  clear Sj j. subst size.
  assert (Tk : forall i, 60 * INR i * INR rate / (INR hop * INR n) = INR i * width).
  { intros i. unfold width. field. split; apply not_0_INR; lia. }
  assert (Pw : 0 < width).
  { unfold width, Rdiv. apply Rmult_lt_0_compat; [apply Rmult_lt_0_compat; [lra|now apply lt_0_INR]|].
    apply Rinv_0_lt_compat, Rmult_lt_0_compat; [now apply lt_0_INR|lra]. }
  assert (Ik : In k ks) by (apply All; try assumption; [lia|rewrite Tk; exact Lo|rewrite Tk; exact Hi]).
  (* the amplitudes *)
  set (tone := fun i => a * cos (2 * PI * INR k * INR i / INR n + f)).
  assert (Mc : Rabs (mu - c) <= / 400 + / 256).
  { set (mean := sumn (fun i => B2R (nth i nov f0)) n / INR n) in *.
    assert (T0 : sumn tone n = 0).
    { unfold tone. rewrite sumn_scal. rewrite (sumn_ext _ (fun i => cos (2 * PI * IZR (Z.of_nat k) / INR n * INR i + f))).
      2:{ intros i _. f_equal. rewrite <- INR_IZR_INZ. field. lra. }
      destruct (sum_zero n (Z.of_nat k) f ltac:(lia)) as (Z1 & _).
      - apply Rgt_not_eq. apply sin_gt_0.
        + rewrite <- INR_IZR_INZ. pose proof PI_RGT_0. assert (0 < INR k) by (apply lt_0_INR; lia).
          assert (0 < / INR n) by (apply Rinv_0_lt_compat; lra). assert (0 < PI * INR k) by now apply Rmult_lt_0_compat.
          replace (2 * PI * INR k / INR n / 2) with (PI * INR k * / INR n) by (field; lra). now apply Rmult_lt_0_compat.
        + rewrite <- INR_IZR_INZ. pose proof PI_RGT_0. assert (K1 : INR k < INR n).
          { apply lt_INR. pose proof (Nat.div_lt n 2 ltac:(lia) ltac:(lia)). lia. }
          replace (2 * PI * INR k / INR n / 2) with (PI * (INR k / INR n)) by (field; lra).
          rewrite <- (Rmult_1_r PI) at 2. apply Rmult_lt_compat_l; [lra|]. apply (Rmult_lt_reg_r (INR n)); [lra|]. unfold Rdiv. rewrite Rmult_assoc, Rinv_l by lra. lra.
      - unfold csum in Z1. rewrite Z1. ring. }
    assert (Dm : Rabs (mean - c) <= / 400).
    { replace (mean - c) with (sumn (fun i => B2R (nth i nov f0) - (c + tone i)) n / INR n).
      - unfold Rdiv. rewrite Rabs_mult, (Rabs_pos_eq (/ INR n)) by (left; apply Rinv_0_lt_compat; lra).
        apply (Rmult_le_reg_r (INR n)); [lra|]. rewrite Rmult_assoc, Rinv_l, Rmult_1_r by lra. rewrite (Rmult_comm (/ 400)), <- sumn_const.
        eapply Rle_trans; [apply sumn_abs|]. apply sumn_le. intros i Hi'. now apply X.
      - unfold mean. rewrite <- sumn_minus, sumn_plus, sumn_const, T0. field. lra. }
    replace (mu - c) with ((mu - mean) + (mean - c)) by ring. eapply Rle_trans; [apply Rabs_triang|].
    assert (INR n / 4194304 <= / 256) by lra. lra. }
  assert (Amp : forall i, Rabs (amplitude n (fun i => (B2R (nth i nov f0) - mu) * hann_at n i) i - amplitude n (fun i => tone i * hann_at n i) i) <= 9 / 1000 * INR n).
  { intros i. unfold amplitude. eapply Rle_trans; [apply hypot_lip|].
    destruct (part_lip n (fun i => (B2R (nth i nov f0) - mu) * hann_at n i) (fun i => tone i * hann_at n i) i) as (Q1 & Q2).
    assert (Q : sumn (fun t => Rabs ((B2R (nth t nov f0) - mu) * hann_at n t - tone t * hann_at n t)) n <= 9 / 1000 * ((INR n - 1) / 2)).
    { rewrite <- hann_sum by lia. rewrite <- sumn_scal. apply sumn_le. intros q Hq. rewrite <- Rmult_minus_distr_r, Rabs_mult.
      pose proof (hann_at_bounds n q). rewrite (Rabs_pos_eq (hann_at n q)) by lra. apply Rmult_le_compat_r; [lra|].
      specialize (X q Hq). fold (tone q) in X. replace (B2R (nth q nov f0) - mu - tone q) with ((B2R (nth q nov f0) - (c + tone q)) + - (mu - c)) by ring.
      eapply Rle_trans; [apply Rabs_triang|]. rewrite Rabs_Ropp. lra. }
    lra. }
  assert (Pos : forall i, 0 <= amplitude n (fun i => (B2R (nth i nov f0) - mu) * hann_at n i) i) by (intros; apply sqrt_pos).
  set (amp := amplitude n (fun i => (B2R (nth i nov f0) - mu) * hann_at n i)) in *.
  assert (Val : forall i en, In (i, en) (combine ks t) -> (i <= n / 2)%nat /\ fin (fst en) /\ Rabs (B2R (fst en) - INR i * width) <= INR i * width / 2097152 /\
     fin (snd en) /\ Rabs (B2R (snd en) - amp i * amp i) <= 21 / 100000 * (INR n * INR n)).
  { assert (Ge : forall l l', Forall2 (fun k0 entry => (k0 <= n / 2)%nat /\ fin (fst entry) /\
        Rabs (B2R (fst entry) - 60 * INR k0 * INR rate / (INR hop * INR n)) <= 60 * INR k0 * INR rate / (INR hop * INR n) / 2097152 /\
        fle mn (fst entry) = true /\ fle (fst entry) mx = true /\ fin (snd entry) /\
        Rabs (B2R (snd entry) - pulse_power nov rate hop mu (60 * INR k0 * INR rate / (INR hop * INR n))) <= (8 * e + 4 * d + / 50000) * (INR n * INR n)) l l' ->
      forall i en, In (i, en) (combine l l') -> (i <= n / 2)%nat /\ fin (fst en) /\ Rabs (B2R (fst en) - INR i * width) <= INR i * width / 2097152 /\
     fin (snd en) /\ Rabs (B2R (snd en) - amp i * amp i) <= 21 / 100000 * (INR n * INR n)).
    { induction 1 as [|i0 en0 l l' (A1 & A2 & A3 & _ & _ & A4 & A5) _ IH]; [intros ? ? []|]. intros i en [Q|Q]; [|now apply IH].
      injection Q as <- <-. rewrite Tk in A3. pose proof (pulse_amp nov rate hop mu i0 Pr Ph ltac:(fold n; lia)) as PA. cbv zeta in PA. fold n in PA. fold amp in PA.
      rewrite PA in A5. unfold Rsqr in A5. repeat split; auto. eapply Rle_trans; [exact A5|]. apply Rmult_le_compat_r; nra. }
    now apply Ge. }
  destruct t as [|(b, p) rest]; [inversion F2; subst; destruct Ik|].
  destruct ks as [|j ks]; [destruct Ik|].
  exists b, p, rest. split; [reflexivity|].
  destruct (Val j (b, p) (or_introl eq_refl)) as (Hj & Fb & Eb & Fp & Ep). cbn [fst snd] in *. split; [exact Fb|].
  assert (Near : (j < k + 3 /\ k < j + 3)%nat).
  { destruct (Nat.eq_dec j k) as [->|Njk]; [lia|]. destruct (Nat.lt_ge_cases j (k + 3)) as [Q1|Q1]; [destruct (Nat.lt_ge_cases k (j + 3)) as [Q2|Q2]; [lia|]|]; exfalso.
    all: destruct Ik as [Ik|Ik]; [congruence|].
    all: assert (Ex : exists en, In (k, en) (combine ks rest) /\ In en rest)
      by (inversion F2 as [|? ? ? ? _ F2']; subst; clear - F2' Ik; induction F2' as [|x y l l' _ _ IH]; [destruct Ik|]; destruct Ik as [->|Ik];
          [exists y; split; left; reflexivity|destruct (IH Ik) as (en & B1 & B2); exists en; split; right; assumption]).
    all: destruct Ex as (en & B1 & B2); destruct (Val k en (or_intror B1)) as (_ & _ & _ & Fq & Eq).
    all: apply StronglySorted_inv in Srt as (_ & Srt); rewrite Forall_forall in Srt; specialize (Srt _ B2); cbn [snd] in Srt.
    all: apply fle_fx in Srt; rewrite !fx_fin in Srt by auto.
    all: pose proof (tone_peak n k a f N1 Hk Hk' ltac:(lra)) as Pk; pose proof (tone_far n k j a f N1 Hk Hk' ltac:(lra) Hj ltac:(lia)) as Pb; cbv zeta in Pk, Pb.
    all: change (fun t0 => a * cos (2 * PI * INR k * INR t0 / INR n + f) * hann_at n t0) with (fun i => tone i * hann_at n i) in Pk, Pb.
    all: pose proof (Amp k) as Ak; pose proof (Amp j) as Aj; apply Rabs_le_inv in Ak; apply Rabs_le_inv in Aj.
    all: pose proof (Pos k) as Pk0; pose proof (Pos j) as Pj0; apply Rabs_le_inv in Ep; apply Rabs_le_inv in Eq.
    all: set (u := amp k) in *; set (v := amp j) in *; set (uu := amplitude n (fun i => tone i * hann_at n i) k) in *; set (vv := amplitude n (fun i => tone i * hann_at n i) j) in *.
    all: clearbody u v uu vv; set (N := INR n) in *; clearbody N.
    all: assert (U : a * N * (164 / 1000) <= u) by nra; assert (V : v <= a * N * (120 / 1000)) by nra.
    all: set (w := a * N) in *; assert (W : N / 4 <= w) by (unfold w; nra); assert (Wn : N * N <= 16 * (w * w)) by nra; clearbody w.
    all: assert (u * u >= 26896 / 1000000 * (w * w)) by nra; assert (v * v <= 14400 / 1000000 * (w * w)) by nra; assert (0 < w * w) by nra; lra. }
  assert (Dj : Rabs (INR j - INR k) <= 2).
  { apply Rabs_le. assert (INR j <= INR (k + 2)) by (apply le_INR; lia). assert (INR k <= INR (j + 2)) by (apply le_INR; lia).
    rewrite plus_INR in *. cbn [INR] in *. lra. }
  unfold tempo. replace (B2R b - INR k * width) with ((B2R b - INR j * width) + (INR j - INR k) * width) by ring.
  eapply Rle_trans; [apply Rabs_triang|]. rewrite (Rabs_mult (_ - _) width), (Rabs_pos_eq width) by lra.
  apply Rabs_le_inv in Dj. assert (INR j * width <= INR k * width + 2 * width) by nra.
  assert (Rabs (INR j - INR k) * width <= 2 * width) by (apply Rmult_le_compat_r; [lra|now apply Rabs_le]). lra.
Qed.
Print Assumptions C79_pulse.

(** A curve 1, 1/2, 0, 1/2, 1, ... at four values per second: one pulse per second.  With a platform that rounds the exact
    transform and cosine, the first tempo is 60 beats per minute, give or take two bins of 3.75. *)
Definition four_beat : list f32 := map (fun i => nth (i mod 4) [f1; fhalf; f0; fhalf] f0) (seq 0 64).
Example C79_case : exists t b p rest, fft_tempogram exact_fft exact_libm four_beat 100 25 (z2f 30) (z2f 240) = Ok t /\
  t = (b, p) :: rest /\ Rabs (B2R b - 60) <= 8.
Proof.
  assert (Le : length four_beat = 64%nat) by (unfold four_beat; now rewrite map_length, seq_length).
  assert (Nt : forall i, (i < 64)%nat -> nth i four_beat f0 = nth (i mod 4) [f1; fhalf; f0; fhalf] f0).
  { intros i Hi. unfold four_beat. rewrite (nth_indep _ f0 (nth (0 mod 4) [f1; fhalf; f0; fhalf] f0)) by (rewrite map_length, seq_length; exact Hi).
    rewrite (map_nth (fun i => nth (i mod 4) [f1; fhalf; f0; fhalf] f0)), seq_nth by exact Hi. reflexivity. }
  assert (Ex : exists t, fft_tempogram exact_fft exact_libm four_beat 100 25 (z2f 30) (z2f 240) = Ok t).
  { unfold fft_tempogram. rewrite Le. change (64 =? 0)%nat with false. change (100 =? 0)%nat with false. change (25 =? 0)%nat with false. cbv iota.
    assert (C : fle (z2f 30) f0 || fle (z2f 240) (z2f 30) = false) by (vm_compute; reflexivity). rewrite C. eexists. reflexivity. }
  destruct Ex as (t & E). exists t.
  destruct (C79_pulse exact_fft exact_libm four_beat 100 25 (z2f 30) (z2f 240) t (/ 8388608) (/ 8388608) 6 16 (/ 2) (/ 2) 0 E) as (b & p & rest & Et & _ & Eb);
    rewrite ?Le in *; try lia; try lra.
  - apply Forall_forall. intros x I. unfold four_beat in I. apply in_map_iff in I as (i & <- & _).
    pose proof (Nat.mod_upper_bound i 4 ltac:(lia)) as U. destruct (i mod 4) as [|[|[|[|q]]]]; try lia; split; vm_compute; reflexivity.
  - reflexivity.
  - intros N HN. apply exact_accurate. lia.
  - exact exact_cos.
  - cbn. lia.
  - intros i Hi. rewrite Nt by exact Hi. pose proof (Nat.div_mod i 4 ltac:(lia)) as Dm. pose proof (Nat.mod_upper_bound i 4 ltac:(lia)) as U.
    set (q := (i / 4)%nat) in *. set (r := (i mod 4)%nat) in *.
    replace (2 * PI * INR 16 * INR i / INR 64 + 0) with (INR r * (PI / 2) + 2 * INR q * PI).
    2:{ rewrite Dm, plus_INR, mult_INR. change (INR 4) with (INR (2 * 2)). rewrite !(INR_IZR_INZ 16), !(INR_IZR_INZ 64), !(INR_IZR_INZ (2 * 2)). cbn [Z.of_nat Nat.mul Nat.add]. simpl IZR. field. }
    rewrite cos_period. clearbody q r. clear - U.
    destruct r as [|[|[|[|r]]]]; [| | | |lia]; cbn [nth]; rewrite ?B2R_f1, ?B2R_fhalf, ?(eq_refl : B2R f0 = 0).
    + cbn [INR]. rewrite Rmult_0_l, cos_0. rewrite Rabs_pos_eq; lra.
    + cbn [INR]. rewrite Rmult_1_l, cos_PI2. rewrite Rabs_pos_eq; lra.
    + cbn [INR]. replace ((1 + 1) * (PI / 2)) with PI by field. rewrite cos_PI. rewrite Rabs_pos_eq; lra.
    + cbn [INR]. replace ((1 + 1 + 1) * (PI / 2)) with (PI / 2 + PI) by field. rewrite neg_cos, cos_PI2. rewrite Rabs_pos_eq; lra.
  - apply z2f_exact; lia.
  - apply z2f_exact; lia.
  - destruct (z2f_exact 30 ltac:(lia)) as (_ & ->). rewrite (INR_IZR_INZ 16), (INR_IZR_INZ 100), (INR_IZR_INZ 25), (INR_IZR_INZ 64). simpl IZR. lra.
  - destruct (z2f_exact 240 ltac:(lia)) as (_ & ->). rewrite (INR_IZR_INZ 16), (INR_IZR_INZ 100), (INR_IZR_INZ 25), (INR_IZR_INZ 64). simpl IZR. lra.
  - exists b, p, rest. split; [exact E|]. split; [exact Et|]. revert Eb. rewrite (INR_IZR_INZ 16), (INR_IZR_INZ 100), (INR_IZR_INZ 25), (INR_IZR_INZ 64).
    simpl IZR. replace (16 * (60 * 100 / (25 * 64))) with 60 by field. intros Eb. lra.
Qed.
