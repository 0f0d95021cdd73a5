(** C92: the chroma of the log-frequency path of the key stage (src/features/chroma/extractor.rs:937-981, src/lib.rs:1066-1147). *)
From Coq Require Import ZArith Reals Lra Lia.
From Flocq Require Import Core BinarySingleNaN.
From Verif Require Import Rust F32 F32Facts F32More ListFacts Libm Onsets NoveltyProofs Bounds FloatSums Config Chroma ChromaProofs ChromaValueProofs ChromaProps
  KeyFeatures KeyStage LogFrequencyProofs LogFrequencyProps FourierFacts SpectrumFacts OnsetStrengthFacts AutocorrelationValueProofs ChromaPitchFacts ChromaPitchProps
  HpcpPitchFacts LogFrequencyValueProps.
From Verif Require KeyPathsProps.
Local Open Scope R_scope.

(** The share of a pitch that falls to the notes of class j: the triangles of half-width one semitone around these notes. *)
Definition class_share (p : R) (j : nat) : R := sumn (fun m => if (m mod 12 =? j)%nat then tri (p - INR m) else 0) 120.

Lemma sumn_shift : forall f a n, sumn f (a + n) = sumn f a + sumn (fun i => f (a + i)%nat) n.
Proof. intros f a n. induction n as [|n IH]; [rewrite Nat.add_0_r; cbn; lra|]. rewrite Nat.add_succ_r. cbn [sumn]. rewrite IH. lra. Qed.

Lemma sumn_one : forall (p : nat -> bool) n, (forall i k, (i < n)%nat -> (k < n)%nat -> p i = true -> p k = true -> i = k) ->
  0 <= sumn (fun i => if p i then 1 else 0) n <= 1.
Proof.
  intros p n H. split; [apply sumn_nonneg; intros i _; destruct (p i); lra|].
  induction n as [|n IH]; cbn [sumn]; [lra|]. destruct (p n) eqn:E.
  - rewrite (sumn_ext _ (fun _ => 0)), sumn_0; [lra|]. intros i Hi. destruct (p i) eqn:Ei; [|reflexivity].
    specialize (H i n ltac:(lia) ltac:(lia) Ei E). lia.
  - specialize (IH ltac:(intros; apply H; auto)). lra.
Qed.

Lemma sumn_two : forall f n a, (forall i, (i < n)%nat -> 0 <= f i) -> (a + 1 < n)%nat -> f a + f (a + 1)%nat <= sumn f n.
Proof.
  intros f n a H Ha. replace n with (S a + (n - S a))%nat by lia. rewrite sumn_shift. cbn [sumn].
  assert (0 <= sumn f a) by (apply sumn_nonneg; intros; apply H; lia).
  assert (f (a + 1)%nat <= sumn (fun i => f (S a + i)%nat) (n - S a)).
  { replace (f (a + 1)%nat) with (f (S a + 0)%nat) by (f_equal; lia). apply (sumn_term (fun i => f (S a + i)%nat)); [intros; apply H; lia|lia]. }
  lra.
Qed.

Lemma unity : forall p, 0 <= p < 119 -> 1 <= sumn (fun m => tri (p - INR m)) 120.
Proof.
  intros p Hp. pose proof (Zfloor_lb p) as A. pose proof (Zfloor_ub p) as B. set (z := Zfloor p) in *.
  assert (0 <= z)%Z by (assert (-1 < z)%Z; [apply lt_IZR; lra|lia]). assert (z < 119)%Z by (apply lt_IZR; lra).
  pose proof (sumn_two (fun m => tri (p - INR m)) 120 (Z.to_nat z) ltac:(intros; apply tri_01) ltac:(lia)) as T. cbv beta in T.
  rewrite plus_INR, INR_IZR_INZ, Z2Nat.id in T by lia. change (INR 1) with 1 in T.
  eapply Rle_trans; [|exact T]. unfold tri. rewrite (Rabs_pos_eq (p - IZR z)), (Rabs_left (p - (IZR z + 1))), !Rmax_right by lra. lra.
Qed.

Lemma classes_all : forall (f : nat -> R) n, sumn (fun j => sumn (fun m => if (m mod 12 =? j)%nat then f m else 0) n) 12 = sumn f n.
Proof.
  intros f n. rewrite sumn_swap. apply sumn_ext. intros m _.
  rewrite (sumn_ext _ (fun j => if (j =? m mod 12)%nat then f m else 0)) by (intros j _; rewrite Nat.eqb_sym; reflexivity).
  rewrite (sumn_pick (fun _ => f m)). pose proof (Nat.mod_upper_bound m 12 ltac:(lia)) as U. apply Nat.ltb_lt in U. now rewrite U.
Qed.

Lemma sum_norm : forall x, sumn x 12 <= 3465 / 1000 * nrm x.
Proof.
  intros x. set (s := sumn x 12). set (q := sumn (fun i => x i * x i) 12).
  assert (P : 0 <= q - s * s / 12).
  { replace (q - s * s / 12) with (sumn (fun i => Rsqr (x i - s / 12)) 12); [apply sumn_nonneg; intros; apply Rle_0_sqr|].
    rewrite (sumn_ext _ (fun i => (x i * x i + (- (s / 6)) * x i) + s * s / 144)) by (intros; unfold Rsqr; field).
    rewrite !sumn_plus, sumn_scal, sumn_const. fold s q. replace (INR 12) with 12 by (rewrite INR_IZR_INZ; reflexivity). field. }
  assert (Q0 : 0 <= q) by (apply sumn_nonneg; intros; apply Rle_0_sqr).
  unfold nrm. fold q. pose proof (sqrt_pos q) as R0. pose proof (sqrt_sqrt q Q0) as RR. set (r := sqrt q) in *. clearbody r q s.
  destruct (Rle_dec s (3465 / 1000 * r)) as [L|L]; [exact L|]. exfalso.
  assert (3465 / 1000 * r * (3465 / 1000 * r) <= s * s) by (apply Rmult_le_compat; lra).
  assert (0 < s) by lra. assert (3465 / 1000 * r * s < s * s) by (apply Rmult_lt_compat_r; lra).
  assert (3465 / 1000 * r * (3465 / 1000 * r) <= 3465 / 1000 * r * s) by (apply Rmult_le_compat_l; lra). 
  assert (0 <= r * r) by (apply Rmult_le_pos; lra). lra.
Qed.

(** The semitone bins of one class, against the notes of the class. *)
Lemma share_bins : forall p n j, 31 <= p <= 30 + INR n + / 20000 -> (n <= 80)%nat ->
  Rabs (sumn (fun i => if ((31 + i) mod 12 =? j)%nat then tri (p - (31 + INR i)) else 0) n - class_share p j) <= / 20000.
Proof.
  intros p n j Hp Hn. unfold class_share. set (f := fun m => if (m mod 12 =? j)%nat then tri (p - INR m) else 0).
  replace 120%nat with (31 + (n + (89 - n)))%nat by lia. rewrite sumn_shift, (sumn_shift _ n).
  assert (A : sumn f 31 = 0).
  { rewrite (sumn_ext _ (fun _ => 0)), sumn_0; [reflexivity|]. intros i Hi. unfold f. destruct (_ =? _)%nat; [|reflexivity]. apply tri_far.
    assert (INR i <= 30) by (rewrite INR_IZR_INZ; apply IZR_le; lia). rewrite Rabs_pos_eq; lra. }
  assert (B : sumn (fun i => f (31 + i)%nat) n = sumn (fun i => if ((31 + i) mod 12 =? j)%nat then tri (p - (31 + INR i)) else 0) n).
  { apply sumn_ext. intros i _. unfold f. rewrite plus_INR. replace (INR 31) with 31 by (rewrite INR_IZR_INZ; reflexivity). reflexivity. }
  rewrite A, B. set (s := sumn _ n).
  assert (C : 0 <= sumn (fun i => f (31 + (n + i))%nat) (89 - n) <= / 20000).
  { split; [apply sumn_nonneg; intros i _; unfold f; destruct (_ =? _)%nat; [apply tri_01|lra]|].
    replace (89 - n)%nat with (1 + (88 - n))%nat by lia. rewrite sumn_shift. rewrite (sumn_ext (fun i => f (31 + (n + (1 + i)))%nat) (fun _ => 0)), sumn_0.
    - cbn [sumn]. unfold f. destruct (_ =? _)%nat; [|lra]. rewrite Nat.add_0_r, plus_INR. replace (INR 31) with 31 by (rewrite INR_IZR_INZ; reflexivity).
      rewrite Rplus_0_l, Rplus_0_r. unfold tri. rewrite Rabs_left1 by lra. apply Rle_trans with (Rmax 0 (/ 20000)); [apply Rle_max_compat_l; lra|rewrite Rmax_right; lra].
    - intros i _. unfold f. destruct (_ =? _)%nat; [|reflexivity]. apply tri_far. rewrite !plus_INR. replace (INR 31) with 31 by (rewrite INR_IZR_INZ; reflexivity).
      change (INR 1) with 1. pose proof (pos_INR i). rewrite Rabs_left1; lra. }
  set (t := sumn _ (89 - n)) in *. clearbody s t. apply Rabs_le. lra.
Qed.

Section Classes.
  Context (nb n : nat) (mag pitch : nat -> R) (band : nat -> bool) (out : nat -> R) (kappa : R).
  Context (Hn : (n <= 80)%nat) (M0 : forall k, (k < nb)%nat -> 0 <= mag k) (K0 : 0 <= kappa).
  Context (Hp : forall k, (k < nb)%nat -> band k = true -> 31 <= pitch k <= 30 + INR n + / 20000 /\ pitch k < 119).
  Context (Ho : forall i, (i < n)%nat -> Rabs (out i - sumn (fun k => if band k then mag k * tri (pitch k - (31 + INR i)) else 0) nb)
    <= kappa * sumn (fun k => if band k && Rle_bool (Rabs (pitch k - (31 + INR i))) (1001 / 1000) then mag k else 0) nb + / 10 ^ 40).
  Let E j := sumn (fun k => if band k then mag k * class_share (pitch k) j else 0) nb.
  Let O j := sumn (fun i => if ((31 + i) mod 12 =? j)%nat then out i else 0) n.
  Let M := sumn (fun k => if band k then mag k else 0) nb.

  Lemma M_pos : 0 <= M.
  Proof. apply sumn_nonneg. intros k Hk. destruct (band k); [now apply M0|lra]. Qed.
  Lemma class_share_pos : forall p j, 0 <= class_share p j.
  Proof. intros p j. apply sumn_nonneg. intros m _. destruct (_ =? _)%nat; [apply tri_01|lra]. Qed.
  Lemma E_pos : forall j, 0 <= E j.
  Proof. intros j. apply sumn_nonneg. intros k Hk. destruct (band k); [|lra]. apply Rmult_le_pos; [now apply M0|apply class_share_pos]. Qed.

  Lemma M_le : M <= 3465 / 1000 * nrm E.
  Proof.
    eapply Rle_trans; [|apply sum_norm]. unfold E. rewrite sumn_swap. apply sumn_le. intros k Hk. destruct (band k) eqn:B; [|rewrite sumn_0; lra].
    rewrite sumn_scal. unfold class_share. rewrite classes_all. destruct (Hp k Hk B) as (P & Q). pose proof (unity (pitch k) ltac:(lra)) as U.
    rewrite <- (Rmult_1_r (mag k)) at 1. apply Rmult_le_compat_l; [now apply M0|exact U].
  Qed.

  Lemma near_once : forall p j, sumn (fun i => if ((31 + i) mod 12 =? j)%nat && Rle_bool (Rabs (p - (31 + INR i))) (1001 / 1000) then 1 else 0) n <= 1.
  Proof.
    intros p j. apply sumn_one. intros i k Hi Hk A B. apply andb_true_iff in A, B. destruct A as (A1 & A2), B as (B1 & B2).
    apply Nat.eqb_eq in A1, B1. destruct (Rle_bool_spec (Rabs (p - (31 + INR i))) (1001 / 1000)) as [A3|]; [|discriminate].
    destruct (Rle_bool_spec (Rabs (p - (31 + INR k))) (1001 / 1000)) as [B3|]; [|discriminate].
    apply Rabs_le_inv in A3, B3. rewrite !INR_IZR_INZ in *.
    assert (Z.of_nat i - Z.of_nat k < 3)%Z by (apply lt_IZR; rewrite minus_IZR; lra). assert (Z.of_nat k - Z.of_nat i < 3)%Z by (apply lt_IZR; rewrite minus_IZR; lra).
    pose proof (Nat.div_mod (31 + i) 12 ltac:(lia)). pose proof (Nat.div_mod (31 + k) 12 ltac:(lia)). lia.
  Qed.

  Lemma class_err : forall j, Rabs (O j - E j) <= (kappa + / 20000) * M + 80 * / 10 ^ 40.
  Proof.
    intros j. pose proof M_pos as Mp.
    set (V := fun i => sumn (fun k => if band k then mag k * tri (pitch k - (31 + INR i)) else 0) nb).
    set (Nr := fun i => sumn (fun k => if band k && Rle_bool (Rabs (pitch k - (31 + INR i))) (1001 / 1000) then mag k else 0) nb).
    set (c := fun i => ((31 + i) mod 12 =? j)%nat). set (eps := / 10 ^ 40) in *. assert (E0 : 0 <= eps) by (left; apply Rinv_0_lt_compat, pow_lt; lra).
    assert (A : Rabs (O j - sumn (fun i => if c i then V i else 0) n) <= kappa * M + 80 * eps).
    { apply Rle_trans with (sumn (fun i => kappa * (if c i then Nr i else 0) + eps) n).
      - replace (O j - sumn (fun i => if c i then V i else 0) n) with (sumn (fun i => (if c i then out i else 0) + (-1) * (if c i then V i else 0)) n)
          by (rewrite sumn_plus, sumn_scal; unfold O, c; ring).
        eapply Rle_trans; [apply sumn_abs|]. apply sumn_le. intros i Hi. destruct (c i).
        + replace (out i + -1 * V i) with (out i - V i) by ring. apply (Ho i Hi).
        + rewrite !Rmult_0_r, Rplus_0_l, Rabs_R0. lra.
      - rewrite sumn_plus, sumn_scal, sumn_const. apply Rplus_le_compat.
        + apply Rmult_le_compat_l; [exact K0|]. unfold Nr.
          rewrite (sumn_ext _ (fun i => sumn (fun k => if band k then mag k * (if c i && Rle_bool (Rabs (pitch k - (31 + INR i))) (1001 / 1000) then 1 else 0) else 0) nb)).
          2:{ intros i _. destruct (c i); [apply sumn_ext; intros k _; destruct (band k); cbn [andb]; [destruct (Rle_bool _ _)|]; lra|].
              rewrite (sumn_ext _ (fun _ => 0)), sumn_0; [reflexivity|]. intros k _. destruct (band k); cbn [andb]; lra. }
          rewrite sumn_swap. apply sumn_le. intros k Hk. destruct (band k); [|rewrite sumn_0; lra]. rewrite sumn_scal.
          pose proof (near_once (pitch k) j) as Q. rewrite <- (Rmult_1_r (mag k)) at 2. apply Rmult_le_compat_l; [now apply M0|exact Q].
        + apply Rmult_le_compat_r; [exact E0|]. rewrite INR_IZR_INZ. change 80 with (IZR 80). apply IZR_le. lia. }
    assert (B : Rabs (sumn (fun i => if c i then V i else 0) n - E j) <= / 20000 * M).
    { unfold V. rewrite (sumn_ext (fun i => if c i then sumn _ nb else 0) (fun i => sumn (fun k => if band k then mag k * (if c i then tri (pitch k - (31 + INR i)) else 0) else 0) nb)).
      2:{ intros i _. destruct (c i); [reflexivity|]. rewrite (sumn_ext _ (fun _ => 0)), sumn_0; [reflexivity|]. intros k _. destruct (band k); lra. }
      rewrite sumn_swap. unfold E.
      match goal with |- Rabs (sumn ?a nb - sumn ?b nb) <= _ => replace (sumn a nb - sumn b nb) with (sumn (fun k => a k + (-1) * b k) nb) by (rewrite sumn_plus, sumn_scal; ring) end.
      eapply Rle_trans; [apply sumn_abs|]. unfold M. rewrite <- sumn_scal. apply sumn_le. intros k Hk. cbv beta. destruct (band k) eqn:Bk.
      - rewrite sumn_scal. destruct (Hp k Hk Bk) as (P & _). pose proof (share_bins (pitch k) n j P Hn) as S. specialize (M0 k Hk).
        replace (mag k * sumn (fun i => if c i then tri (pitch k - (31 + INR i)) else 0) n + -1 * (mag k * class_share (pitch k) j))
          with (mag k * (sumn (fun i => if c i then tri (pitch k - (31 + INR i)) else 0) n - class_share (pitch k) j)) by ring.
        rewrite Rabs_mult, (Rabs_pos_eq (mag k)) by exact M0. rewrite Rmult_comm. apply Rmult_le_compat_r; [exact M0|exact S].
      - rewrite sumn_0, !Rmult_0_r, Rplus_0_l, Rabs_R0. lra. }
    replace (O j - E j) with ((O j - sumn (fun i => if c i then V i else 0) n) + (sumn (fun i => if c i then V i else 0) n - E j)) by ring.
    eapply Rle_trans; [apply Rabs_triang|]. lra.
  Qed.
End Classes.

Lemma scale_pos_le : forall f g, 0 < f -> f <= g -> scale_pos 0 f <= scale_pos 0 g.
Proof.
  intros f g F H. unfold scale_pos. pose proof ln2_ge as L2. assert (ln (f / 440) <= ln (g / 440)).
  { destruct H as [H|H]; [left; apply ln_increasing; lra|right; now rewrite H]. }
  assert (ln (f / 440) / ln 2 <= ln (g / 440) / ln 2) by (apply Rmult_le_compat_r; [left; apply Rinv_0_lt_compat; lra|assumption]). lra.
Qed.

Lemma first_note : forall L, chroma_libm L -> log2_accurate (m_log2 L) (/ 1048576) -> Zfloor (B2R (st L (z2f 100))) = 31%Z.
Proof.
  intros L HL HG. destruct (z2f_exact 100 ltac:(lia)) as (F & V).
  destruct (st_val L (z2f 100) 100 HL HG F ltac:(lra) ltac:(rewrite V, Rminus_eq_0, Rabs_R0; lra)) as (_ & Q).
  pose proof lowest as Lw. apply Rabs_le_inv in Q. apply Zfloor_imp. change (31 + 1)%Z with 32%Z. lra.
Qed.

(** The log-frequency path gives class j of a frame its share of the magnitudes of the band, over the length of the twelve. *)
Theorem C92_log_chroma : forall L c spec nb rate, chroma_libm L -> log2_mono L -> log2_accurate (m_log2 L) (/ 1048576) ->
  cf_enable_key_log_frequency c = true -> spec <> [] ->
  let fft := key_fft_size c in
  (1000 <= Z.of_nat rate <= 200000)%Z -> (1 <= Z.of_nat fft <= 65536)%Z -> (nb <= fft)%nat -> (Z.of_nat nb <= 16384)%Z ->
  Forall (fun fr => length fr = nb /\ Forall (fun x => fin x /\ 0 <= B2R x <= bpow radix2 30) fr) spec ->
  (forall fr k, In fr spec -> 0 < B2R (nth k fr f0) -> off_edges rate (bin_freq rate fft k)) ->
  exists lg cs, log_spec L c rate spec = Ok (Some (lg, 31%Z)) /\ log_chroma 31 lg = Ok cs /\ length cs = length spec /\
    forall t, (t < length spec)%nat ->
      let E j := sumn (fun k => let f := bin_freq rate fft k in
        if in_band rate f then B2R (nth k (nth t spec []) f0) * class_share (scale_pos 0 f) j else 0) nb in
      length (nth t cs []) = 12%nat /\
      (bpow radix2 (-30) <= length12 E -> forall j, (j < 12)%nat -> fin (nth j (nth t cs []) f0) /\
        Rabs (B2R (nth j (nth t cs []) f0) - E j / length12 E) <= INR nb / 340000 + / 450).
Proof.
  intros L c spec nb rate HL HM HG Hc Hs fft Hr Hf Hn Hb F HO.
  assert (F50 : Forall (fun fr => length fr = nb /\ Forall (fun x => fin x /\ 0 <= B2R x <= bpow radix2 50) fr) spec).
  { eapply Forall_impl; [|exact F]. intros fr (A & B). split; [exact A|]. eapply Forall_impl; [|exact B]. intros x (C & D). split; [exact C|].
    split; [lra|]. apply Rle_trans with (bpow radix2 30); [lra|apply bpow_le; lia]. }
  destruct (C91_filterbank L spec nb rate fft HL HM HG Hs Hr Hf Hn F50 HO) as (lg & n & E1 & Ll & Bn & V).
  destruct (top_val rate Hr) as (_ & Bt & _).
  assert (N80 : (n <= 80)%nat).
  { pose proof (lg_range (top rate / 440) ltac:(lra)) as Lr. unfold ChromaPitchFacts.lg in Lr. unfold scale_pos in Bn.
    assert (Z.of_nat n < 80)%Z; [|lia]. apply lt_IZR. rewrite <- INR_IZR_INZ. lra. }
  set (kappa := INR nb / 6000000 + / 15000) in *.
  assert (Kb : 0 <= INR nb <= 16384). { split; [apply pos_INR|]. rewrite INR_IZR_INZ. change 16384 with (IZR 16384). now apply IZR_le. }
  assert (Eps : 0 < / 10 ^ 40 <= / 10 ^ 15). { split; [apply Rinv_0_lt_compat, pow_lt; lra|]. apply Rinv_le_contravar; [apply pow_lt; lra|]. apply Rle_pow; [lra|lia]. }
  set (eps := / 10 ^ 40) in *.
  assert (Lt : forall t, (t < length spec)%nat -> forall k, (k < nb)%nat -> fin (nth k (nth t spec []) f0) /\ 0 <= B2R (nth k (nth t spec []) f0) <= bpow radix2 30).
  { intros t Ht k Hk. assert (I : In (nth t spec []) spec) by now apply nth_In. destruct (proj1 (Forall_forall _ _) F _ I) as (A & B).
    apply (proj1 (Forall_forall _ _) B). apply nth_In. lia. }
  set (band := fun k => in_band rate (bin_freq rate fft k)). set (pitch := fun k => scale_pos 0 (bin_freq rate fft k)).
  assert (Hp : forall k, (k < nb)%nat -> band k = true -> 31 <= pitch k <= 30 + INR n + / 20000 /\ pitch k < 119).
  { intros k _ B. unfold band, in_band in B. apply andb_true_iff in B. destruct B as (B1 & B2).
    destruct (Rle_bool_spec 100 (bin_freq rate fft k)) as [Q1|]; [|discriminate]. destruct (Rlt_bool_spec (bin_freq rate fft k) (top rate)) as [Q2|]; [|discriminate].
    pose proof (scale_pos_le 100 (bin_freq rate fft k) ltac:(lra) Q1) as P1. pose proof (scale_pos_le (bin_freq rate fft k) (top rate) ltac:(lra) ltac:(lra)) as P2.
    pose proof lowest as Lw. pose proof (lg_range (bin_freq rate fft k / 440) ltac:(lra)) as Lr. unfold ChromaPitchFacts.lg in Lr. unfold pitch.
    split; [lra|]. unfold scale_pos. lra. }
  assert (Mt : forall t, (t < length spec)%nat -> 0 <= sumn (fun k => if band k then B2R (nth k (nth t spec []) f0) else 0) nb <= bpow radix2 44).
  { intros t Ht. split; [apply sumn_nonneg; intros k Hk; destruct (Lt t Ht k Hk); destruct (band k); lra|].
    apply Rle_trans with (sumn (fun _ => bpow radix2 30) nb); [apply sumn_le; intros k Hk; destruct (Lt t Ht k Hk); pose proof (bpow_ge_0 radix2 30); destruct (band k); lra|].
    rewrite sumn_const. change (bpow radix2 44) with (bpow radix2 (14 + 30)). rewrite bpow_plus. apply Rmult_le_compat_r; [apply bpow_ge_0|].
    change (bpow radix2 14) with 16384. lra. }
  assert (Wo : forall t, (t < length spec)%nat -> forall i, (i < n)%nat -> within 46 (nth i (nth t lg []) f0)).
  { intros t Ht i Hi. destruct (V t Ht) as (_ & W). destruct (W i Hi) as (Fo & O0 & D). clear W. split; [exact Fo|]. rewrite Rabs_pos_eq by exact O0.
    destruct (Mt t Ht) as (M0 & M1). set (M := sumn (fun k => if band k then B2R (nth k (nth t spec []) f0) else 0) nb) in *.
    match type of D with Rabs (_ - ?a) <= _ * ?b + _ => assert (A : a <= M); [|assert (B : b <= M); [|set (A' := a) in *; set (B' := b) in *]] end.
    - apply sumn_le. intros k Hk. destruct (Lt t Ht k Hk) as (_ & Q). fold (band k). destruct (band k); [|lra]. pose proof (tri_01 (scale_pos 0 (bin_freq rate fft k) - (31 + INR i))) as T.
      rewrite <- (Rmult_1_r (B2R _)) at 2. apply Rmult_le_compat_l; lra.
    - apply sumn_le. intros k Hk. destruct (Lt t Ht k Hk) as (_ & Q). fold (band k). destruct (band k); cbn [andb]; [destruct (Rle_bool _ _)|]; lra.
    - assert (C : kappa * B' <= / 100 * M).
      { apply Rle_trans with (kappa * M); [apply Rmult_le_compat_l; [unfold kappa; lra|exact B]|]. apply Rmult_le_compat_r; [exact M0|unfold kappa; lra]. }
      apply Rabs_le_inv in D. change (bpow radix2 46) with (bpow radix2 (2 + 44)). rewrite bpow_plus. change (bpow radix2 2) with 4.
      assert (1 <= bpow radix2 44) by (change 1 with (bpow radix2 0); apply bpow_le; lia). assert (eps <= 1) by (simpl in Eps; lra). lra. }
  assert (Hlg : Forall (fun f => (31 + Z.of_nat (length f) <= 2147483648)%Z /\ (Z.of_nat (length f) <= 2147483648)%Z /\ Forall (within 50) f) lg).
  { apply Forall_forall. intros f If. destruct (In_nth _ _ [] If) as (t & Ht & <-). rewrite Ll in Ht. destruct (V t Ht) as (Ln & _). split; [lia|]. split; [lia|].
    apply Forall_forall. intros x Ix. destruct (In_nth _ _ f0 Ix) as (i & Hi & <-). rewrite Ln in Hi. apply within_mono with 46%Z; [lia|]. now apply Wo. }
  destruct (C66_chroma 31 lg ltac:(lia) Hlg) as (cs & C1 & C2 & _).
  exists lg, cs. split; [|split; [exact C1|split]].
  - assert (Q : exists z, log_spec L c rate spec = Ok (Some (lg, z))).
    { unfold log_spec. rewrite Hc. destruct (Nat.eqb_spec (length spec) 0) as [Z|_]; [apply length_zero_iff_nil in Z; contradiction|]. cbn [negb andb]. fold fft. rewrite E1. eauto. }
    destruct Q as (z & Q). rewrite Q. pose proof (KeyPathsProps.C66_stage L c rate spec _ HL Q) as S. cbv beta iota in S. destruct S as (_ & _ & _ & S).
    change (fadd (fmul (z2f 12) (m_log2 L (fdiv (z2f 100) (z2f 440)))) (z2f 57)) with (st L (z2f 100)) in S. rewrite (first_note L HL HG) in S. now rewrite S.
  - rewrite C2, map_length. exact Ll.
  - intros t Ht E. rewrite C2. rewrite (nth_map_lt _ _ _ lg t [] []) by lia. set (fr := nth t lg []).
    destruct (V t Ht) as (Ln & W). fold fr in Ln, W. specialize (Wo t Ht). fold fr in Wo. specialize (Mt t Ht). specialize (Lt t Ht). clear V C1 C2 Hlg E1.
    set (mag := fun k => B2R (nth k (nth t spec []) f0)) in *. set (out := fun i => B2R (nth i fr f0)).
    match goal with |- length (divided_by_norm ?l) = _ /\ _ => set (en := l) end.
    assert (Le : length en = 12%nat) by (unfold en; now rewrite map_length, seq_length).
    split; [rewrite divided_by_norm_eq, unit_or_keep_length; exact Le|].
    intros HN. change (length12 E) with (nrm E) in *. 
    set (O := fun j => sumn (fun i => if ((31 + i) mod 12 =? j)%nat then out i else 0) n).
    assert (M0 : forall k, (k < nb)%nat -> 0 <= mag k) by (intros k Hk; apply (Lt k Hk)).
    assert (K0 : 0 <= kappa) by (unfold kappa; lra).
    assert (Ho : forall i, (i < n)%nat -> Rabs (out i - sumn (fun k => if band k then mag k * tri (pitch k - (31 + INR i)) else 0) nb)
      <= kappa * sumn (fun k => if band k && Rle_bool (Rabs (pitch k - (31 + INR i))) (1001 / 1000) then mag k else 0) nb + eps) by (intros i Hi; apply (W i Hi)).
    pose proof (class_err nb n mag pitch band out kappa N80 M0 K0 Hp Ho) as CE. pose proof (M_le nb n mag pitch band M0 Hp) as ML.
    change (fun j => sumn (fun k => if band k then mag k * class_share (pitch k) j else 0) nb) with E in ML.
    assert (EP : forall j, 0 <= E j) by (intros j; apply (E_pos nb mag pitch band M0 j)).
    set (M := sumn (fun k => if band k then mag k else 0) nb) in *.
    assert (Oe : forall j, (j < 12)%nat -> fin (nth j en f0) /\ nneg (nth j en f0) /\ Rabs (B2R (nth j en f0) - O j) <= / 70000 * O j /\ 0 <= O j <= 80 * bpow radix2 46).
    { intros j Hj. unfold en. rewrite (nth_map_lt _ _ _ (seq 0 12) j 0%nat f0) by (rewrite seq_length; exact Hj). rewrite seq_nth by exact Hj. cbn [Nat.add]. rewrite Ln.
      set (p := fun k => flt f0 (nth k fr f0) && ((31 + Z.of_nat k) mod 12 =? Z.of_nat j)%Z).
      destruct (filter_sum p (fun k => nth k fr f0) out n 0 50 ltac:(lia) ltac:(lra) ltac:(lia)) as (A & B & C & D).
      { intros i Hi P. pose proof (Wo i Hi) as Wi. destruct (W i Hi) as (Fi & Oi & _). split; [|split; [apply within_mono with 46%Z; [lia|exact Wi]|]].
        - apply nneg_iff; [now apply fin_nn|]. rewrite (fx_fin _ Fi). exact Oi.
        - split; [exact Oi|]. unfold out. rewrite Rminus_eq_0, Rabs_R0. lra. }
      assert (EO : sumn (fun i => if p i then out i else 0) n = O j).
      { apply sumn_ext. intros i Hi. destruct (W i Hi) as (Fi & Oi & _). unfold p.
        replace ((31 + Z.of_nat i) mod 12 =? Z.of_nat j)%Z with ((31 + i) mod 12 =? j)%nat.
        - unfold flt. rewrite Bltb_correct by (auto; reflexivity). change (B2R f0) with 0. fold (out i). fold (out i) in Oi.
          destruct (Rlt_bool_spec 0 (out i)); cbn [andb]; [reflexivity|]. destruct (_ =? _)%nat; lra.
        - change 31%Z with (Z.of_nat 31). change 12%Z with (Z.of_nat 12). rewrite <- Nat2Z.inj_add, <- Nat2Z.inj_mod.
          destruct (Nat.eqb_spec ((31 + i) mod 12) j) as [Q|Q]; symmetry; [apply Z.eqb_eq; now rewrite Q|apply Z.eqb_neq; lia]. }
      rewrite EO in C, D. split; [exact A|]. split; [exact B|]. assert (In80 : INR n <= 80) by (rewrite INR_IZR_INZ; change 80 with (IZR 80); apply IZR_le; lia).
      split; [|split; [exact C|]].
      - eapply Rle_trans; [exact D|]. apply Rmult_le_compat_r; [exact C|lra].
      - apply Rle_trans with (sumn (fun _ => bpow radix2 46) n).
        + apply sumn_le. intros i Hi. destruct (Wo i Hi) as (_ & Q). apply Rabs_le_inv in Q. fold (out i) in Q. pose proof (bpow_ge_0 radix2 46). destruct (_ =? _)%nat; lra.
        + rewrite sumn_const. apply Rmult_le_compat_r; [apply bpow_ge_0|exact In80]. }
    set (tau := 35 / 10 * (kappa + / 20000)).
    assert (Tb : 0 <= tau <= / 100) by (unfold tau, kappa; lra).
    assert (NP : 0 < nrm E) by (pose proof (bpow_gt_0 radix2 (-30)); lra).
    assert (CE' : forall j, Rabs (O j - E j) <= (3466 / 1000 * (kappa + / 20000)) * nrm E).
    { intros j. eapply Rle_trans; [apply CE|]. fold eps.
      assert ((kappa + / 20000) * M <= (kappa + / 20000) * (3465 / 1000 * nrm E)) by (apply Rmult_le_compat_l; [lra|exact ML]).
      assert (S2 : 80 * eps <= / 1000 * (/ 20000) * bpow radix2 (-30)).
      { unfold eps. apply Rle_trans with (80 * / 10 ^ 30); [apply Rmult_le_compat_l; [lra|]; apply Rinv_le_contravar; [apply pow_lt; lra|apply Rle_pow; [lra|lia]]|]. simpl. lra. }
      assert (S3 : / 1000 * (/ 20000) * bpow radix2 (-30) <= / 1000 * (kappa + / 20000) * nrm E).
      { apply Rmult_le_compat; [lra|apply bpow_ge_0|apply Rmult_le_compat_l; lra|exact HN]. }
      lra. }
    destruct (unit_val en E (/ 70000) tau Le) as (_ & U); try lra.
    + apply Forall_forall. intros x Ix. destruct (In_nth _ _ f0 Ix) as (j & Hj & <-). rewrite Le in Hj. destruct (Oe j Hj) as (A & B & C & D). split; [exact B|].
      split; [exact A|]. apply nneg_B2R in B. rewrite Rabs_pos_eq by exact B. apply Rabs_le_inv in C.
      change (bpow radix2 55) with (bpow radix2 (9 + 46)). rewrite bpow_plus. change (bpow radix2 9) with 512. pose proof (bpow_ge_0 radix2 46). lra.
    + intros; apply EP.
    + intros j Hj. destruct (Oe j Hj) as (_ & _ & C & D). specialize (CE' j).
      replace (B2R (nth j en f0) - E j) with ((B2R (nth j en f0) - O j) + (O j - E j)) by ring. eapply Rle_trans; [apply Rabs_triang|].
      set (q := (kappa + / 20000) * nrm E). assert (Q0 : 0 <= q) by (unfold q; apply Rmult_le_pos; lra).
      replace (3466 / 1000 * (kappa + / 20000) * nrm E) with (3466 / 1000 * q) in CE' by (unfold q; ring).
      replace (tau * nrm E) with (35 / 10 * q) by (unfold q, tau; ring). clearbody q. pose proof (Rabs_le_inv _ _ CE') as CE2. lra.
    + intros j Hj. destruct (U j Hj) as (A & B). split; [exact A|]. eapply Rle_trans; [exact B|]. unfold tau, kappa. lra.
Qed.
Print Assumptions C92_log_chroma.

(** Two As an octave apart: class 9 alone, whatever the other settings. *)
Example C92_case : forall L c, chroma_libm L -> log2_mono L -> log2_accurate (m_log2 L) (/ 1048576) ->
  cf_enable_key_log_frequency c = true -> key_fft_size c = 10%nat ->
  exists lg v, log_spec L c 4400 [[f0; f1; f2]] = Ok (Some (lg, 31%Z)) /\ log_chroma 31 lg = Ok [v] /\ length v = 12%nat /\
    forall j, (j < 12)%nat -> Rabs (B2R (nth j v f0) - (if (j =? 9)%nat then 1 else 0)) <= / 400.
Proof.
  assert (Zr : Z.of_nat 4400 = 4400%Z) by (vm_compute; reflexivity). revert Zr. generalize 4400%nat. intros rate Zr L c HL HM HG Hc Hk.
  assert (V0 : B2R f0 = 0) by reflexivity. assert (V1 : B2R f1 = 1) by apply B2R_f1.
  destruct (z2f_exact 2 ltac:(lia)) as (F2 & V2). change (z2f 2) with f2 in F2, V2.
  assert (IN : forall n, INR n = IZR (Z.of_nat n)) by apply INR_IZR_INZ.
  assert (B1 : bin_freq rate 10 1 = 440) by (unfold bin_freq; rewrite !IN, Zr; vm_compute Z.of_nat; lra).
  assert (B2 : bin_freq rate 10 2 = 880) by (unfold bin_freq; rewrite !IN, Zr; vm_compute Z.of_nat; lra).
  assert (Tp : top rate = 2199). { unfold top. rewrite IN, Zr. rewrite Rmin_right; lra. }
  assert (P1 : scale_pos 0 440 = 57) by (unfold scale_pos; replace (440 / 440) with 1 by field; rewrite ln_1; lra).
  assert (P2 : scale_pos 0 880 = 69) by (unfold scale_pos; replace (880 / 440) with 2 by field; pose proof ln2_ge; field; lra).
  assert (I1 : in_band rate 440 = true) by (unfold in_band; rewrite Tp, Rle_bool_true, Rlt_bool_true by lra; reflexivity).
  assert (I2 : in_band rate 880 = true) by (unfold in_band; rewrite Tp, Rle_bool_true, Rlt_bool_true by lra; reflexivity).
  assert (Bg : 2 <= bpow radix2 30) by (change 2 with (bpow radix2 1); apply bpow_le; lia).
  assert (CS : forall (a j : nat), (a < 120)%nat -> class_share (INR a) j = if (a mod 12 =? j)%nat then 1 else 0).
  { intros a j Ha. unfold class_share. rewrite (sumn_ext _ (fun m => if (m =? a)%nat then (if (m mod 12 =? j)%nat then 1 else 0) else 0)).
    - rewrite (sumn_pick (fun m => if (m mod 12 =? j)%nat then 1 else 0)). apply Nat.ltb_lt in Ha. now rewrite Ha.
    - intros m _. destruct (Nat.eqb_spec m a) as [->|D].
      + destruct (_ =? _)%nat; [|reflexivity]. rewrite Rminus_eq_0. unfold tri. rewrite Rabs_R0, Rmax_right; lra.
      + destruct (_ =? _)%nat; [|reflexivity]. apply tri_far. rewrite !IN, <- minus_IZR, <- abs_IZR. apply IZR_le. lia. }
  destruct (C92_log_chroma L c [[f0; f1; f2]] 3 rate HL HM HG Hc ltac:(discriminate) ltac:(lia) ltac:(rewrite Hk; lia) ltac:(rewrite Hk; lia) ltac:(lia))
    as (lg & cs & E1 & E2 & Lc & V).
  - apply Forall_cons; [|apply Forall_nil]. split; [reflexivity|].
    apply Forall_cons; [split; [reflexivity|lra]|]. apply Forall_cons; [split; [reflexivity|lra]|]. apply Forall_cons; [split; [exact F2|lra]|]. apply Forall_nil.
  - rewrite Hk. intros fr k [<-|[]] M. unfold off_edges. rewrite Tp. destruct k as [|[|[|k]]]; cbn [nth] in M; rewrite ?V0 in M; try lra.
    + rewrite B1, (Rabs_pos_eq (440 - 100)), (Rabs_left (440 - 2199)) by lra. lra.
    + rewrite B2, (Rabs_pos_eq (880 - 100)), (Rabs_left (880 - 2199)) by lra. lra.
    + destruct k; rewrite V0 in M; lra.
  - rewrite Hk in V. destruct cs as [|v [|? ?]]; cbn [length] in Lc; try discriminate. exists lg, v. split; [exact E1|]. split; [exact E2|].
    specialize (V 0%nat ltac:(cbn [length]; lia)). cbv zeta in V. cbn [nth] in V. destruct V as (Lv & V). split; [exact Lv|].
    match type of V with _ <= length12 ?e -> _ => set (E := e) in V end.
    assert (EV : forall j, E j = if (j =? 9)%nat then 3 else 0).
    { intros j. unfold E. cbn [sumn nth]. rewrite B1, B2, I1, I2, P1, P2, V0, V1, V2.
      replace 57 with (INR 57) by (rewrite IN; reflexivity). replace 69 with (INR 69) by (rewrite IN; reflexivity). rewrite !CS by lia.
      change (57 mod 12)%nat with 9%nat. change (69 mod 12)%nat with 9%nat. rewrite (Nat.eqb_sym 9 j).
      assert (Z0 : forall (b : bool) x, (if b then 0 * x else 0) = 0) by (intros b x; destruct b; lra). rewrite Z0. destruct (j =? 9)%nat; lra. }
    assert (EN : length12 E = 3).
    { unfold length12. rewrite <- (sqrt_square 3) by lra. f_equal. cbn [sumn]. rewrite !EV. cbn [Nat.eqb]. lra. }
    rewrite EN in V. specialize (V ltac:(apply Rle_trans with (bpow radix2 1); [apply bpow_le; lia|simpl; lra])).
    intros j Hj. destruct (V j Hj) as (_ & D). change (Rabs (B2R (nth j v f0) - E j / 3) <= INR 3 / 340000 + / 450) in D. rewrite EV in D. replace (INR 3) with 3 in D by (rewrite IN; reflexivity).
    eapply Rle_trans; [|eapply Rle_trans; [exact D|lra]]. right. do 2 f_equal. destruct (j =? 9)%nat; lra.
Qed.
