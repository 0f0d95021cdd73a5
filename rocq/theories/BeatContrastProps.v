(** C77: the beat contrast of a tempo (src/features/period/multi_resolution.rs:587-684). *)
From Coq Require Import ZArith Reals Lra Lia Sorted.
From Verif Require Import Rust F32 F32Facts ListFacts MultiResolution.
Close Scope R_scope.

(** Beat contrast.  [peak i] is the largest novelty within two frames of [i], at least 0; [mean_peak off] its mean over the
    frames that follow a multiple of the period, shifted by the phase, at distance [off]. *)
Definition peak (nov : list f32) (i : nat) : f32 :=
  fold_left fmax (map (fun j => nth j nov f0) (filter (fun j => (i <=? j + 2) && (j <=? i + 2)) (seq 0 (length nov)))) f0.
Definition after (period phase : nat) (offs : list nat) (j : nat) : bool :=
  existsb (fun off => (off <=? j) && ((j - off) mod period =? phase)) offs.
Definition mean_peak (nov : list f32) (period phase : nat) (offs : list nat) : f32 :=
  let at_ := filter (after period phase offs) (seq 0 (length nov)) in
  if length at_ =? 0 then f0 else fdiv (fold_left fadd (map (peak nov) at_) f0) (n2f (length at_)).
Definition contrast_at (nov : list f32) (period phase : nat) : f32 :=
  let beat := mean_peak nov period phase [0] in
  let half := if 6 <=? period then mean_peak nov period phase [period / 2] else f0 in
  let third := if 9 <=? period then mean_peak nov period phase [period / 3; 2 * period / 3] else f0 in
  let level := fmax (fdiv (fmax (fold_left fadd nov f0) (lit 8796093 (-43))) (n2f (length nov))) (lit 8796093 (-43)) in
  fclamp_val (fdiv (fsub (fsub beat (fmul (lit 5033165 (-23)) half)) (fmul (lit 13421773 (-25)) third)) level) (z2f (-10)) (z2f 10).

Lemma ascending_ext : forall l l' : list nat, StronglySorted lt l -> StronglySorted lt l' -> (forall x, In x l <-> In x l') -> l = l'.
Proof.
  induction l as [|x l IH]; intros [|x' l'] S S' H; auto.
  - exfalso. apply (H x'). now left.
  - exfalso. apply (H x). now left.
  - apply StronglySorted_inv in S as (S & F), S' as (S' & F'). rewrite Forall_forall in F, F'.
    assert (E : x = x').
    { destruct (proj1 (H x) (or_introl eq_refl)) as [->|I]; auto. destruct (proj2 (H x') (or_introl eq_refl)) as [->|I']; auto.
      apply F' in I. apply F in I'. lia. }
    subst x'. f_equal. apply IH; auto. intros y. split; intros I.
    + destruct (proj1 (H y) (or_intror I)) as [->|J]; auto. apply F in I. lia.
    + destruct (proj2 (H y) (or_intror I)) as [->|J]; auto. apply F' in I. lia.
Qed.
Lemma seq_ascending : forall n a, StronglySorted lt (seq a n).
Proof.
  induction n as [|n IH]; intros a; cbn; constructor; auto. apply Forall_forall. intros x I. apply in_seq in I. lia.
Qed.
Lemma filter_ascending : forall (q : nat -> bool) l, StronglySorted lt l -> StronglySorted lt (filter q l).
Proof.
  induction 1 as [|x l S IH F]; cbn; [constructor|]. destruct (q x); auto. constructor; auto.
  apply Forall_forall. intros y I. apply filter_In in I as (I & _). rewrite Forall_forall in F. auto.
Qed.
Lemma map_ascending : forall (f : nat -> nat) l, (forall x y, x < y -> f x < f y) -> StronglySorted lt l -> StronglySorted lt (map f l).
Proof.
  intros f l M. induction 1 as [|x l S IH F]; cbn; constructor; auto. apply Forall_map. eapply Forall_impl; [|exact F]. cbn. auto.
Qed.
Lemma beats_is : forall period phase n, phase < period ->
  filter (fun i => i <? n) (map (fun k => phase + k * period) (seq 0 n)) = filter (after period phase [0]) (seq 0 n).
Proof.
  intros period phase n H. apply ascending_ext.
  - apply filter_ascending, map_ascending, seq_ascending. intros x y L. nia.
  - apply filter_ascending, seq_ascending.
  - intros x. rewrite !filter_In, in_map_iff, in_seq. unfold after. cbn [existsb]. rewrite orb_false_r, Nat.sub_0_r. cbn [Nat.leb andb].
    rewrite Nat.ltb_lt, Nat.eqb_eq. split.
    + intros ((k & <- & I) & L). split; [lia|]. rewrite Nat.mod_add by lia. now apply Nat.mod_small.
    + intros (L & E). split; [|lia]. exists (x / period). pose proof (Nat.div_mod x period ltac:(lia)). split; [lia|].
      apply in_seq. split; [lia|]. assert (x / period <= x) by (apply Nat.div_le_upper_bound; nia). lia.
Qed.
Lemma shifted_is : forall period phase n off, phase < period ->
  filter (fun j => j <? n) (map (fun i => i + off) (filter (after period phase [0]) (seq 0 n)))
  = filter (after period phase [off]) (seq 0 n).
Proof.
  intros period phase n off H. apply ascending_ext.
  - apply filter_ascending, map_ascending; [lia|]. apply filter_ascending, seq_ascending.
  - apply filter_ascending, seq_ascending.
  - intros x. rewrite !filter_In, in_map_iff, in_seq. unfold after. cbn [existsb]. rewrite orb_false_r.
    rewrite Nat.ltb_lt, andb_true_iff, Nat.leb_le, Nat.eqb_eq. split.
    + intros ((i & <- & I) & L). apply filter_In in I as (I & A). rewrite orb_false_r, Nat.sub_0_r in A. cbn [Nat.leb andb] in A.
      apply Nat.eqb_eq in A. split; [lia|]. split; [lia|]. now replace (i + off - off) with i by lia.
    + intros (L & O & E). split; [|lia]. exists (x - off). split; [lia|]. apply filter_In. split; [apply in_seq; lia|].
      rewrite orb_false_r, Nat.sub_0_r. cbn [Nat.leb andb]. now apply Nat.eqb_eq.
Qed.
Lemma pairs_ascending : forall a b d l, a < b -> b < d + a -> StronglySorted (fun x y => x + d <= y) l ->
  StronglySorted lt (flat_map (fun i => [i + a; i + b]) l).
Proof.
  intros a b d l A B. induction 1 as [|x l S IH F]; cbn; [constructor|].
  assert (K : Forall (fun y => x + b < y) (flat_map (fun i => [i + a; i + b]) l)).
  { apply Forall_forall. intros y I. apply in_flat_map in I as (i & I & J). rewrite Forall_forall in F. apply F in I.
    destruct J as [<-|[<-|[]]]; lia. }
  constructor; [constructor; auto|]. constructor; [lia|]. eapply Forall_impl; [|exact K]. cbn. lia.
Qed.
Lemma spaced : forall period phase n, phase < period -> StronglySorted (fun x y => x + period <= y) (filter (after period phase [0]) (seq 0 n)).
Proof.
  intros period phase n H. pose proof (filter_ascending (after period phase [0]) _ (seq_ascending n 0)) as S.
  assert (A : Forall (fun x => x mod period = phase) (filter (after period phase [0]) (seq 0 n))).
  { apply Forall_forall. intros x I. apply filter_In in I as (_ & I). unfold after in I. cbn [existsb] in I.
    rewrite orb_false_r, Nat.sub_0_r in I. now apply Nat.eqb_eq in I. }
  induction S as [|x l S IH F]; [constructor|]. apply Forall_cons_iff in A as (Ax & A). constructor; auto.
  rewrite Forall_forall in *. intros y I. specialize (A y I). specialize (F y I).
  pose proof (Nat.div_mod x period ltac:(lia)). pose proof (Nat.div_mod y period ltac:(lia)).
  assert (x / period < y / period) by nia. nia.
Qed.
Lemma thirds_is : forall period phase n, phase < period -> 3 <= period ->
  filter (fun j => j <? n) (flat_map (fun i => [i + period * 1 / 3; i + period * 2 / 3]) (filter (after period phase [0]) (seq 0 n)))
  = filter (after period phase [period / 3; 2 * period / 3]) (seq 0 n).
Proof.
  intros period phase n H H3. rewrite Nat.mul_1_r, (Nat.mul_comm period 2).
  assert (A : period / 3 < 2 * period / 3).
  { apply Nat.div_lt_upper_bound; [lia|]. pose proof (Nat.div_mod (2 * period) 3 ltac:(lia)).
    pose proof (Nat.mod_upper_bound (2 * period) 3 ltac:(lia)). lia. }
  assert (B : 2 * period / 3 < period + period / 3).
  { apply Nat.div_lt_upper_bound; [lia|]. pose proof (Nat.div_mod period 3 ltac:(lia)).
    pose proof (Nat.mod_upper_bound period 3 ltac:(lia)). lia. }
  apply ascending_ext.
  - apply filter_ascending. apply (pairs_ascending _ _ period); auto. now apply spaced.
  - apply filter_ascending, seq_ascending.
  - intros x. set (u := period / 3). set (w := 2 * period / 3).
    transitivity (In x (filter (after period phase [u]) (seq 0 n)) \/ In x (filter (after period phase [w]) (seq 0 n))).
    + rewrite <- (shifted_is period phase n u), <- (shifted_is period phase n w) by auto. rewrite !filter_In, in_flat_map, !in_map_iff. split.
      * intros ((i & I & [<-|[<-|[]]]) & L); [left|right]; split; eauto.
      * intros [((i & <- & I) & L)|((i & <- & I) & L)]; split; auto; exists i; split; cbn; auto.
    + rewrite !filter_In. unfold after. cbn [existsb]. rewrite !orb_false_r, orb_true_iff. tauto.
Qed.

Lemma run_is : forall (l : list f32) a n, a + n <= length l -> firstn n (skipn a l) = map (fun j => nth j l f0) (seq a n).
Proof.
  induction l as [|x l IH]; intros a n H; cbn [length] in H.
  - destruct a, n; try lia. reflexivity.
  - destruct a as [|a].
    + destruct n as [|n]; [reflexivity|]. cbn [skipn firstn seq map nth]. f_equal. rewrite <- seq_shift, map_map. apply (IH 0 n). lia.
    + cbn [skipn]. rewrite <- seq_shift, map_map. apply (IH a n). lia.
Qed.
Lemma slice_is : forall (l : list f32) a b, b <= length l -> slice l a b = map (fun j => nth j l f0) (seq a (b - a)).
Proof.
  intros l a b H. unfold slice. destruct (Nat.le_gt_cases a b); [apply run_is; lia|]. now replace (b - a) with 0 by lia.
Qed.
Lemma window_is : forall nov i, i < length nov -> window_max nov i = peak nov i.
Proof.
  intros nov i H. unfold window_max, peak. rewrite slice_is by lia. f_equal. f_equal. apply ascending_ext.
  - apply seq_ascending.
  - apply filter_ascending, seq_ascending.
  - intros x. rewrite filter_In, !in_seq, andb_true_iff, !Nat.leb_le. lia.
Qed.
Lemma mean_is : forall nov period phase offs at_, at_ = filter (after period phase offs) (seq 0 (length nov)) ->
  mean_at nov at_ = mean_peak nov period phase offs.
Proof.
  intros nov period phase offs at_ E. unfold mean_peak. rewrite <- E. cbv zeta. unfold mean_at.
  assert (I : Forall (fun i => i < length nov) at_).
  { rewrite E. apply Forall_forall. intros i I. apply filter_In in I as (I & _). apply in_seq in I. lia. }
  clear E. destruct at_ as [|x l] eqn:E; [reflexivity|]. rewrite <- E in *. destruct (Nat.eqb_spec (length at_) 0) as [Z|_]; [now rewrite E in Z|].
  f_equal. clear E x l. generalize f0. induction I as [|x l X I IH]; intros acc; [reflexivity|]. cbn [map fold_left]. rewrite window_is by auto. apply IH.
Qed.
Lemma phase_is : forall nov period phase, phase < period -> phase_score nov period phase = contrast_at nov period phase.
Proof.
  intros nov period phase H. unfold phase_score, contrast_at. cbv zeta. rewrite beats_is by auto.
  rewrite (mean_is nov period phase [0]) by reflexivity.
  assert (E2 : mean_at nov (if 6 <=? period then filter (fun j => j <? length nov) (map (fun i => i + period / 2) (filter (after period phase [0]) (seq 0 (length nov)))) else [])
     = if 6 <=? period then mean_peak nov period phase [period / 2] else f0).
  { destruct (6 <=? period); [|reflexivity]. apply mean_is. now apply shifted_is. }
  assert (E3 : mean_at nov (if 9 <=? period then filter (fun j => j <? length nov) (flat_map (fun i => [i + period * 1 / 3; i + period * 2 / 3]) (filter (after period phase [0]) (seq 0 (length nov)))) else [])
     = if 9 <=? period then mean_peak nov period phase [period / 3; 2 * period / 3] else f0).
  { destruct (Nat.leb_spec 9 period); [|reflexivity]. apply mean_is. apply thirds_is; lia. }
  rewrite E2, E3. reflexivity.
Qed.

(** The contrast of a tempo is the best over the phases of its period, rounded to whole frames between 3 and 512; 0 where
    there is no such period. *)
Theorem C77_contrast : forall nov rate hop b,
  let r := beat_contrast nov rate hop b in
  let per_beat := fdiv (fmul (z2f 60) (n2f rate)) (fmul b (n2f hop)) in
  let period := f2isize (fround per_beat) in
  let usable := 16 <= length nov /\ fisfin b = true /\ flt f0 b = true /\ 0 < rate /\ 0 < hop /\ fisfin per_beat = true /\
                flt per_beat (z2f 3) = false /\ (3 <= period <= 512)%Z in
  (~ usable -> r = f0) /\
  (usable ->
     (forall ph, ph < Z.to_nat period -> nn (contrast_at nov (Z.to_nat period) ph) -> fle (contrast_at nov (Z.to_nat period) ph) r = true) /\
     ((exists ph, ph < Z.to_nat period /\ r = contrast_at nov (Z.to_nat period) ph) \/ r = fneg (lit 1953125 9))) /\
  nn r /\ fle (fneg (lit 1953125 9)) r = true.
Proof.
  intros nov rate hop b r per_beat period usable. unfold r, beat_contrast. fold per_beat. cbv zeta. fold period. change (fgt b f0) with (flt f0 b).
  assert (Z0 : nn f0 /\ fle (fneg (lit 1953125 9)) f0 = true) by (split; reflexivity).
  destruct (Nat.ltb_spec (length nov) 16); cbn [orb]; [split; [auto|split; [intros (? & _); lia|exact Z0]]|].
  destruct (fisfin b) eqn:B1; cbn [andb negb orb]; [|split; [auto|split; [intros (_ & ? & _); congruence|exact Z0]]].
  destruct (flt f0 b) eqn:B2; cbn [andb negb orb]; [|split; [auto|split; [intros (_ & _ & ? & _); congruence|exact Z0]]].
  destruct (Nat.eqb_spec rate 0); cbn [orb]; [split; [auto|split; [intros (_ & _ & _ & ? & _); lia|exact Z0]]|].
  destruct (Nat.eqb_spec hop 0); cbn [orb]; [split; [auto|split; [intros (_ & _ & _ & _ & ? & _); lia|exact Z0]]|].
  destruct (fisfin per_beat) eqn:P1; cbn [negb orb]; [|split; [auto|split; [intros (_ & _ & _ & _ & _ & ? & _); congruence|exact Z0]]].
  destruct (flt per_beat (z2f 3)) eqn:P2; [split; [auto|split; [intros (_ & _ & _ & _ & _ & _ & ? & _); congruence|exact Z0]]|].
  destruct (Z.leb_spec 3 period); cbn [andb negb]; [|split; [auto|split; [intros (_ & _ & _ & _ & _ & _ & _ & ?); lia|exact Z0]]].
  destruct (Z.leb_spec period 512); cbn [negb]; [|split; [auto|split; [intros (_ & _ & _ & _ & _ & _ & _ & ?); lia|exact Z0]]].
  assert (U : usable) by (unfold usable; repeat split; auto; lia).
  split; [intros N; now destruct N|]. clear U. 
  set (P := Z.to_nat period). set (lo := fneg (lit 1953125 9)).
  assert (Nl : nn lo) by reflexivity. clearbody lo P. clear - Nl.
  assert (E : fold_left (fun b ph => fmax b (phase_score nov P ph)) (seq 0 P) lo = fold_left fmax (map (contrast_at nov P) (seq 0 P)) lo).
  { assert (Q : Forall (fun ph => ph < P) (seq 0 P)) by (apply Forall_forall; intros x I; apply in_seq in I; lia).
    generalize lo. induction Q as [|x l X Q IH]; intros acc; [reflexivity|]. cbn [map fold_left]. rewrite phase_is by auto. apply IH. }
  rewrite E. clear E.
  assert (G : forall l acc, nn acc -> let m := fold_left fmax l acc in
    nn m /\ fle acc m = true /\ (forall x, In x l -> nn x -> fle x m = true) /\ (In m l \/ m = acc)).
  { clear. induction l as [|x l IH]; intros acc N; cbn [fold_left]. { cbn. repeat split; auto. now apply fle_refl. }
    assert (N' : nn (fmax acc x)) by (apply fmax_nn; auto).
    destruct (IH (fmax acc x) N') as (A & B & C & D). cbv zeta in *. split; auto. split.
    { eapply fle_trans; [|exact B]. now apply fmax_ge_l. }
    split.
    { intros y [<-|I] Y; auto. eapply fle_trans; [|exact B]. now apply fmax_ge_r. }
    destruct D as [D|D]; [left; now right|]. rewrite D. destruct (fmax_case acc x) as [-> | ->]; [now right|]. left. now left. }
  destruct (G (map (contrast_at nov P) (seq 0 P)) lo Nl) as (A & B & C & D). split; [|auto]. intros _. split.
  - intros ph L N. apply C; auto. apply in_map, in_seq. lia.
  - destruct D as [D|D]; [left|now right]. apply in_map_iff in D as (ph & D & I). apply in_seq in I. exists ph. split; [lia|]. now symmetry.
Qed.
Print Assumptions C77_contrast.

(** Beats every 10 frames in 40 frames: 60 BPM at 3000 Hz with hop 300 aligns at 10, the limit; halving and doubling the
    tempo does worse. *)
Definition clicks : list f32 := map (fun i => if i mod 10 =? 4 then f1 else f0) (seq 0 40).
Example C77_contrast_case :
  map (fun b => f2i32 (fmul (z2f 100) (beat_contrast clicks 3000 300 (z2f b)))) [60; 30; 120; 90]%Z = [1000; 399; 500; 440]%Z.
Proof. vm_compute. reflexivity. Qed.
