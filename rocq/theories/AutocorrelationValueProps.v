(** C76: the onset autocorrelation counts pairs of onsets (src/features/period/autocorrelation.rs:145-155, 223-263). *)
From Coq Require Import ZArith Bool List Arith Lia Reals Lra.
From Flocq Require Import Core IEEE754.BinarySingleNaN.
From Verif Require Import Rust F32 F32Facts F32More FloatSums Bounds Autocorrelation AutocorrelationProofs FourierFacts
  AutocorrelationValueProofs.
Import ListNotations.

(** For any finite signal and any FFT that is accurate to e at the padded length, lag k of the computed autocorrelation is
    the sum over t of x(t) * x(t+k), or 0 if that is negative, up to the stated error.  In particular no lag is contaminated
    by the circular wrap-around of the transform. *)
Theorem C76_value : forall F s e A k, (0 <= e <= / 8)%R -> Forall (fun x => fin x) s ->
  (sumn (fun t => Rabs (B2R (nth t s f0))) (length s) + bpow radix2 (-100) <= A)%R -> (A <= bpow radix2 30)%R ->
  (Z.of_nat (length s) <= 2 ^ 50)%Z -> accurate F (next_pow2 (2 * length s)) e -> k < length s ->
  let v := nth k (autocorr_fft F s) f0 in
  fin v /\ (Rabs (B2R v - Rmax (sumn (fun t => B2R (nth t s f0) * B2R (nth (t + k) s f0)) (length s)) 0)
           <= (7 * e + / 1048576) * (A * A) + bpow radix2 (-98))%R.
Proof. exact autocorr_value. Qed.
Print Assumptions C76_value.

(** The frames that contain an onset, each once, and the number of them that have an onset k frames later. *)
Definition onset_frames (onsets : list nat) (hop : nat) : list nat := nodup Nat.eq_dec (map (fun o => o / hop) onsets).
Definition pairs (frames : list nat) (k : nat) : nat := length (filter (fun t => existsb (Nat.eqb (t + k)) frames) frames).

Lemma sumn_count : forall (p : nat -> bool) n, sumn (fun t => if p t then 1 else 0)%R n = INR (length (filter p (seq 0 n))).
Proof.
  intros p n. induction n as [|n IH]; [reflexivity|]. cbn [sumn]. rewrite seq_S, filter_app, app_length, plus_INR, IH. cbn.
  destruct (p n); cbn; lra.
Qed.
Lemma count_frames : forall (p : nat -> bool) fr n, NoDup fr -> (forall t, In t fr -> t < n) ->
  length (filter (fun t => existsb (Nat.eqb t) fr && p t) (seq 0 n)) = length (filter p fr).
Proof.
  intros p fr n ND H. apply Permutation_length. apply NoDup_Permutation.
  - apply NoDup_filter, seq_NoDup.
  - now apply NoDup_filter.
  - intros t. rewrite !filter_In, in_seq, andb_true_iff, existsb_exists. split.
    + intros (_ & (y & I & E) & P). apply Nat.eqb_eq in E. subst. auto.
    + intros (I & P). split; [specialize (H t I); lia|]. split; auto. exists t. split; auto. apply Nat.eqb_refl.
Qed.

Theorem C76_pairs : forall F onsets hop e k, onsets <> [] -> 0 < hop -> (0 <= e <= / 8)%R ->
  let frames := onset_frames onsets hop in let n := length (beat_signal onsets hop) in let c := length frames in
  (Z.of_nat c < 2 ^ 30)%Z -> (Z.of_nat n <= 2 ^ 50)%Z -> accurate F (next_pow2 (2 * n)) e ->
  (forall t, In t frames -> t < n) /\
  (k < n -> let v := nth k (autocorr_fft F (beat_signal onsets hop)) f0 in
    fin v /\ (Rabs (B2R v - INR (pairs frames k)) <= (8 * e + / 524288) * (INR c * INR c))%R).
Proof.
  intros F onsets hop e k NE Hh He frames n c Hc Hn Acc.
  assert (Ln : n = list_max onsets / hop + 1) by (unfold n, beat_signal; now rewrite map_length, seq_length).
  assert (FR : forall t, In t frames -> t < n).
  { intros t I. unfold frames, onset_frames in I. rewrite nodup_In, in_map_iff in I. destruct I as (o & <- & I). rewrite Ln.
    pose proof (proj1 (list_max_le onsets (list_max onsets)) (le_n _)) as Q. rewrite Forall_forall in Q. specialize (Q o I).
    pose proof (Nat.div_le_mono o (list_max onsets) hop ltac:(lia) Q). lia. }
  split; [exact FR|]. intros Hk v.
  set (s := beat_signal onsets hop) in *.
  assert (On : forall t, existsb (fun o => o / hop =? t) onsets = existsb (Nat.eqb t) frames).
  { intros t. apply eq_true_iff_eq. rewrite !existsb_exists. split.
    - intros (o & I & E). apply Nat.eqb_eq in E. exists t. split; [|apply Nat.eqb_refl]. apply nodup_In. subst t. apply in_map_iff. now exists o.
    - intros (t' & I & E). apply Nat.eqb_eq in E. subst t'. unfold frames, onset_frames in I. rewrite nodup_In, in_map_iff in I.
      destruct I as (o & <- & I). exists o. split; auto. apply Nat.eqb_refl. }
  assert (Val : forall t, B2R (nth t s f0) = (if existsb (Nat.eqb t) frames then 1 else 0)%R).
  { intros t. destruct (Nat.lt_ge_cases t n) as [L|L].
    - unfold s, beat_signal. set (g := fun i => if existsb _ onsets then f1 else f0).
      rewrite (nth_indep _ f0 (g 0)) by (rewrite map_length, seq_length; lia). rewrite map_nth, seq_nth by lia.
      rewrite Nat.add_0_l. unfold g. rewrite On. destruct (existsb _ frames); [apply B2R_f1|reflexivity].
    - rewrite nth_overflow by auto. destruct (existsb (Nat.eqb t) frames) eqn:E; [|reflexivity].
      apply existsb_exists in E as (t' & I & E). apply Nat.eqb_eq in E. subst t'. specialize (FR t I). lia. }
  assert (ND : NoDup frames) by apply NoDup_nodup.
  assert (Sum : sumn (fun t => Rabs (B2R (nth t s f0))) n = INR c).
  { rewrite (sumn_ext _ (fun t => if existsb (Nat.eqb t) frames && true then 1 else 0)%R).
    - rewrite sumn_count, count_frames by auto. unfold c. f_equal. f_equal. clear. induction frames; cbn; congruence.
    - intros t _. rewrite Val, andb_true_r. destruct (existsb _ frames); [apply Rabs_R1|apply Rabs_R0]. }
  assert (Pairs : sumn (fun t => B2R (nth t s f0) * B2R (nth (t + k) s f0))%R n = INR (pairs frames k)).
  { rewrite (sumn_ext _ (fun t => if existsb (Nat.eqb t) frames && existsb (Nat.eqb (t + k)) frames then 1 else 0)%R).
    - now rewrite sumn_count, count_frames.
    - intros t _. rewrite !Val. destruct (existsb (Nat.eqb t) frames), (existsb (Nat.eqb (t + k)) frames); cbn; lra. }
  assert (Fs : Forall (fun x => fin x) s).
  { apply Forall_map, Forall_forall. intros t _. destruct (existsb _ onsets); reflexivity. }
  assert (C1 : (1 <= INR c)%R).
  { apply (le_INR 1). unfold c. destruct frames as [|q r] eqn:EF; [|cbn; lia]. exfalso. destruct onsets as [|o r]; [contradiction|].
    assert (I : In (o / hop) frames) by (apply nodup_In; now left). rewrite EF in I. contradiction. }
  pose proof slack_pos as PS. assert (S1 : (slack <= / 1024)%R).
  { unfold slack. replace (/ 1024)%R with (bpow radix2 (-10)) by (cbn; lra). apply bpow_le. lia. }
  destruct (C76_value F s e (INR c + slack) k He Fs) as (Fv & V); auto.
  - fold n. rewrite Sum. apply Rle_refl.
  - assert (INR c <= 1073741823)%R by (rewrite INR_IZR_INZ; apply IZR_le; lia). cbn. lra.
  - split; [exact Fv|]. fold n in V. rewrite Pairs, Rmax_left in V by apply pos_INR. eapply Rle_trans; [exact V|].
    assert (T : (bpow radix2 (-98) <= / 4194304)%R) by (replace (/ 4194304)%R with (bpow radix2 (-22)) by (cbn; lra); apply bpow_le; lia).
    assert (Q : ((INR c + slack) * (INR c + slack) <= 101 / 100 * (INR c * INR c))%R) by nra.
    assert (Q1 : ((7 * e + / 1048576) * ((INR c + slack) * (INR c + slack)) <= (7 * e + / 1048576) * (101 / 100 * (INR c * INR c)))%R)
      by (apply Rmult_le_compat_l; lra).
    assert (1 <= INR c * INR c)%R by nra. nra.
Qed.
Print Assumptions C76_pairs.

(** A transform of length 4 that meets the hypothesis with e = 2^-20, and two onsets in adjacent frames: two onsets at lag
    0 and one pair at lag 1. *)
Definition sum4 (a b c d : f32) : f32 := fadd (fadd a b) (fadd c d).
Definition dft4 (l : list complex) : list complex :=
  match l with
  | [(a, a'); (b, b'); (c, c'); (d, d')] =>
      [ (sum4 a b c d, sum4 a' b' c' d'); (sum4 a b' (fneg c) (fneg d'), sum4 a' (fneg b) (fneg c') d);
        (sum4 a (fneg b) c (fneg d), sum4 a' (fneg b') c' (fneg d')); (sum4 a (fneg b') (fneg c) d', sum4 a' b (fneg c') (fneg d)) ]
  | _ => l
  end.
Definition inv4 (l : list complex) : list complex :=
  match dft4 l with [p; q; r; s] => [p; s; r; q] | l' => l' end.
Lemma dft4_len : forall l, length (dft4 l) = length l.
Proof. intros [|(a & a') [|(b & b') [|(c & c') [|(d & d') [|e l]]]]]; reflexivity. Qed.
Lemma inv4_len : forall l, length (inv4 l) = length l.
Proof.
  intros l. unfold inv4. rewrite <- (dft4_len l). destruct (dft4 l) as [|p [|q [|r [|t [|e m]]]]]; reflexivity.
Qed.
Definition fft4 : fft_oracle := {| fft_forward := dft4; fft_inverse := inv4; fft_forward_len := dft4_len; fft_inverse_len := inv4_len |}.

Lemma sum4_ok : forall a b c d, within 70 a -> within 70 b -> within 70 c -> within 70 d ->
  fin (sum4 a b c d) /\
  (Rabs (B2R (sum4 a b c d) - (B2R a + B2R b + B2R c + B2R d))
   <= / 1048576 * (Rabs (B2R a) + Rabs (B2R b) + Rabs (B2R c) + Rabs (B2R d)))%R.
Proof.
  intros a b c d Wa Wb Wc Wd. pose proof (within_add 70 _ _ ltac:(lia) Wa Wb) as W1. pose proof (within_add 70 _ _ ltac:(lia) Wc Wd) as W2.
  pose proof (within_add 71 _ _ ltac:(lia) W1 W2) as W. pose proof within_fin as F. split; [eauto|].
  unfold sum4. destruct (add_err (fadd a b) (fadd c d)) as (e & He & E); eauto.
  destruct (add_err a b) as (e1 & He1 & E1); eauto. destruct (add_err c d) as (e2 & He2 & E2); eauto.
  rewrite B2R_fadd, E, !B2R_fadd, E1, E2 by eauto. rewrite u_val in *.
  set (p := (B2R a + B2R b)%R). set (q := (B2R c + B2R d)%R).
  assert (Hp : (Rabs p <= Rabs (B2R a) + Rabs (B2R b))%R) by apply Rabs_triang.
  assert (Hq : (Rabs q <= Rabs (B2R c) + Rabs (B2R d))%R) by apply Rabs_triang.
  replace ((p * (1 + e1) + q * (1 + e2)) * (1 + e) - (p + B2R c + B2R d))%R
    with (p * (e1 * (1 + e) + e) + q * (e2 * (1 + e) + e))%R by (unfold q; ring).
  assert (K : forall x, (Rabs x <= / 16777216 -> Rabs (x * (1 + e) + e) <= / 1048576)%R).
  { intros x Hx. apply Rabs_le_inv in Hx. apply Rabs_le_inv in He. apply Rabs_le. nra. }
  eapply Rle_trans; [apply Rabs_triang|]. rewrite !Rabs_mult. pose proof (K _ He1). pose proof (K _ He2).
  pose proof (Rabs_pos p). pose proof (Rabs_pos q). nra.
Qed.

Lemma quarter : forall m, cos (INR m * (PI / 2)) = (match m mod 4 with 0 => 1 | 2 => -1 | _ => 0 end)%R /\
                          sin (INR m * (PI / 2)) = (match m mod 4 with 1 => 1 | 3 => -1 | _ => 0 end)%R.
Proof.
  induction m as [|m (C & Sn)].
  - cbn [INR Nat.modulo]. rewrite Rmult_0_l, cos_0, sin_0. split; reflexivity.
  - rewrite S_INR. replace ((INR m + 1) * (PI / 2))%R with (INR m * (PI / 2) + PI / 2)%R by ring.
    rewrite cos_plus, sin_plus, cos_PI2, sin_PI2, C, Sn. pose proof (Nat.mod_upper_bound m 4 ltac:(lia)) as B.
    replace (S m mod 4) with (match m mod 4 with 0 => 1 | 1 => 2 | 2 => 3 | _ => 0 end).
    + destruct (m mod 4) as [|[|[|[|r]]]]; try lia; split; ring.
    + pose proof (Nat.div_mod m 4 ltac:(lia)) as D. set (q := m / 4) in *.
      destruct (m mod 4) as [|[|[|[|r]]]]; try lia; symmetry; rewrite D.
      * symmetry. apply (Nat.mod_unique _ _ q); lia.
      * symmetry. apply (Nat.mod_unique _ _ q); lia.
      * symmetry. apply (Nat.mod_unique _ _ q); lia.
      * symmetry. apply (Nat.mod_unique _ _ (q + 1)); lia.
Qed.
Lemma angle4 : forall j t, angle 4 (INR j) (INR t) = (INR (j * t) * (PI / 2))%R.
Proof. intros j t. unfold angle. rewrite mult_INR. cbn [INR]. field. Qed.

Lemma C76_fft4 : accurate fft4 4 (/ 1048576).
Proof.
  intros l L B j J. destruct l as [|(a & a') [|(b & b') [|(c & c') [|(d & d') [|e l]]]]]; try discriminate L.
  unfold bounded_buffer in B. rewrite !Forall_cons_iff in B. destruct B as ((Wa & Wa') & (Wb & Wb') & (Wc & Wc') & (Wd & Wd') & _).
  cbn [fst snd] in *.
  pose proof (Rabs_pos (B2R a)); pose proof (Rabs_pos (B2R b)); pose proof (Rabs_pos (B2R c)); pose proof (Rabs_pos (B2R d));
  pose proof (Rabs_pos (B2R a')); pose proof (Rabs_pos (B2R b')); pose proof (Rabs_pos (B2R c')); pose proof (Rabs_pos (B2R d')).
  assert (Wt : weight [(a, a'); (b, b'); (c, c'); (d, d')] =
    (Rabs (B2R a) + Rabs (B2R a') + (Rabs (B2R b) + Rabs (B2R b')) + (Rabs (B2R c) + Rabs (B2R c')) + (Rabs (B2R d) + Rabs (B2R d')))%R)
    by (unfold weight, re_of, im_of; cbn; ring).
  rewrite Wt. clear Wt.
  assert (Ng : forall x, within 70 x -> within 70 (fneg x)) by (intros; now apply within_neg).
  assert (Ok : forall p q r t v W, within 70 p -> within 70 q -> within 70 r -> within 70 t ->
     v = (B2R p + B2R q + B2R r + B2R t)%R -> (Rabs (B2R p) + Rabs (B2R q) + Rabs (B2R r) + Rabs (B2R t) <= W)%R ->
     fin (sum4 p q r t) /\ (Rabs (B2R (sum4 p q r t) - v) <= / 1048576 * (W + slack))%R).
  { intros p q r t v W P Q R T -> HW. destruct (sum4_ok p q r t P Q R T) as (F & E). split; [exact F|]. pose proof slack_pos. lra. }
  assert (Both : forall p q r t p' q' r' t' v v' W,
     within 70 p -> within 70 q -> within 70 r -> within 70 t -> within 70 p' -> within 70 q' -> within 70 r' -> within 70 t' ->
     v = (B2R p + B2R q + B2R r + B2R t)%R -> v' = (B2R p' + B2R q' + B2R r' + B2R t')%R ->
     (Rabs (B2R p) + Rabs (B2R q) + Rabs (B2R r) + Rabs (B2R t) <= W)%R ->
     (Rabs (B2R p') + Rabs (B2R q') + Rabs (B2R r') + Rabs (B2R t') <= W)%R ->
     fin (sum4 p q r t) /\ fin (sum4 p' q' r' t') /\ (Rabs (B2R (sum4 p q r t) - v) <= / 1048576 * (W + slack))%R /\
     (Rabs (B2R (sum4 p' q' r' t') - v') <= / 1048576 * (W + slack))%R).
  { intros. destruct (Ok p q r t v W); auto. destruct (Ok p' q' r' t' v' W); auto. }
  assert (T : forall j t, cos (angle 4 (INR j) (INR t)) = (match (j * t) mod 4 with 0 => 1 | 2 => -1 | _ => 0 end)%R /\
                        sin (angle 4 (INR j) (INR t)) = (match (j * t) mod 4 with 1 => 1 | 3 => -1 | _ => 0 end)%R)
    by (intros; rewrite angle4; apply quarter).
  destruct j as [|[|[|[|j]]]]; try lia; cbn [fft4 fft_forward fft_inverse dft4 inv4 nth fst snd]; split; apply Both; auto;
    unfold fwd_re, fwd_im, inv_re, inv_im, re_of, im_of; cbn [sumn];
    rewrite ?(proj1 (T _ _)), ?(proj2 (T _ _)); cbn [nth fst snd Nat.mul Nat.add]; rewrite ?fneg_B2R, ?Rabs_Ropp; try lra;
    cbn; lra.
Qed.

Example C76_case :
  accurate fft4 (next_pow2 (2 * length (beat_signal [0; 1] 1))) (/ 1048576) /\
  map f2i32 (autocorr_fft fft4 (beat_signal [0; 1] 1)) = [2; 1]%Z /\
  map (pairs (onset_frames [0; 1] 1)) [0; 1] = [2; 1].
Proof. split; [exact C76_fft4|]. split; vm_compute; reflexivity. Qed.
(** Onsets at 0, 400, 800 and 1600 with a hop of 100: two pairs are 4 frames apart, two 8, one 12 and one 16. *)
Example C76_pairs_case : map (pairs (onset_frames [0; 400; 410; 800; 1600] 100)) [0; 1; 4; 8; 12; 16] = [4; 0; 2; 2; 1; 1].
Proof. vm_compute. reflexivity. Qed.
