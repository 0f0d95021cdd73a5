(** C95: transposing a track transposes its key. *)
From Coq Require Import ZArith Reals Lra Lia List.
From Flocq Require Import Core.
From Verif Require Import Rust F32 F32Facts F32More ListFacts Bounds KeyNotation KeyTemplates KeyDetector KeyDetectorProofs KeyDetectorProps
  FourierFacts KeyProfileProps.
Import ListNotations.
Local Open Scope R_scope.

(** The key [t] semitones higher, of the same mode. *)
Definition up (t : nat) (k : key) : key :=
  match k with Major i => Major ((i + Z.of_nat t) mod 12) | Minor i => Minor ((i + Z.of_nat t) mod 12) end.

Lemma keys_iff : forall k, In k all_keys <-> (0 <= tonic k < 12)%Z.
Proof.
  intros k. unfold all_keys. rewrite in_app_iff, !in_map_iff. split.
  - intros [(i & <- & I) | (i & <- & I)]; apply in_seq in I; cbn [tonic]; lia.
  - intros H. destruct k as [i | i]; cbn [tonic] in H; [left|right]; exists (Z.to_nat i); (split; [f_equal; lia|apply in_seq; lia]).
Qed.
Lemma up_mode : forall t k, is_major (up t k) = is_major k.
Proof. now intros t []. Qed.
Lemma up_tonic : forall t k, tonic (up t k) = ((tonic k + Z.of_nat t) mod 12)%Z.
Proof. now intros t []. Qed.
Lemma key_of_parts : forall k k', is_major k = is_major k' -> tonic k = tonic k' -> k = k'.
Proof. intros [i | i] [j | j] M T; cbn in *; congruence. Qed.
Lemma up_in : forall t k, In (up t k) all_keys.
Proof. intros t k. apply keys_iff. rewrite up_tonic. now apply Z.mod_pos_bound. Qed.
Lemma up_back : forall t k, In k all_keys -> up t (up (11 * t) k) = k.
Proof.
  intros t k I. apply keys_iff in I. apply key_of_parts; [now rewrite !up_mode|]. rewrite !up_tonic, Zplus_mod_idemp_l.
  replace (tonic k + Z.of_nat (11 * t) + Z.of_nat t)%Z with (tonic k + Z.of_nat t * 12)%Z by lia. rewrite Z_mod_plus_full. now apply Z.mod_small.
Qed.

Lemma sum_around : forall g t, sumn (fun b => g ((b + t) mod 12)%nat) 12 = sumn g 12.
Proof.
  intros g t. rewrite (sumn_ext _ (fun b => g ((b + t mod 12) mod 12)%nat)) by (intros b _; now rewrite Nat.add_mod_idemp_r by lia).
  pose proof (Nat.mod_upper_bound t 12 ltac:(lia)) as H. set (r := (t mod 12)%nat) in *. clearbody r.
  do 12 (destruct r as [|r]; [cbn -[Rplus]; ring|]). lia.
Qed.
Lemma rating_up : forall s t k b, rating s (up t k) ((b + t) mod 12)%nat = rating s k b.
Proof.
  intros s t k b. unfold rating. rewrite up_mode, up_tonic, Nat2Z.inj_mod, <- Zminus_mod. do 2 f_equal. f_equal. change (Z.of_nat 12) with 12%Z. lia.
Qed.
Lemma correlation_up : forall s c w c' w' t a k,
  (forall b, (b < 12)%nat -> energy c' w' ((b + t) mod 12)%nat = a * energy c w b) -> correlation s c' w' (up t k) = a * correlation s c w k.
Proof.
  intros s c w c' w' t a k E. unfold correlation.
  rewrite <- (sum_around (fun b => energy c' w' b * (IZR (rating s (up t k) b) / 100)) t).
  rewrite (sumn_ext _ (fun b => a * (energy c w b * (IZR (rating s k b) / 100)))).
  - cbn [sumn]. ring.
  - intros b Hb. cbv beta. rewrite E, rating_up by exact Hb. ring.
Qed.

(** Two tracks, the second [t] semitones higher: its energy in the pitch class [t] above [b] is [a] times the first's in [b].
    Whatever their lengths, weights and loudness, and whatever order the hash maps are gone through:
    the second track's key is [t] semitones above a key that fits the first track best of its mode, up to rounding; and if a
    key of the mode reported for both fits the first track best beyond rounding, the first track's key is that one and the
    second's the one [t] semitones above it. *)
Theorem C95_transposed : forall h h' s c w c' w' r r' t a, honest h -> honest h' -> usual c w -> usual c' w' ->
  (Z.of_nat (length c) <= 65536)%Z -> (Z.of_nat (length c') <= 65536)%Z -> 0 < a ->
  (forall b, (b < 12)%nat -> energy c' w' ((b + t) mod 12)%nat = a * energy c w b) ->
  (exists b, (b < 12)%nat /\ bpow radix2 (-20) <= energy c w b /\ bpow radix2 (-20) <= a * energy c w b) ->
  detect_key_weighted h c (new_templates s) w = Ok r -> detect_key_weighted h' c' (new_templates s) w' = Ok r' ->
  let slack n := (INR n + 100) / 4000000 in
  (exists k, In k all_keys /\ kr_key r' = up t k /\
     forall k2, In k2 all_keys -> is_major k2 = is_major k -> correlation s c w k2 <= correlation s c w k * (1 + slack (length c'))) /\
  (forall k, In k all_keys -> is_major (kr_key r) = is_major k -> is_major (kr_key r') = is_major k ->
     (forall k2, In k2 all_keys -> is_major k2 = is_major k -> k2 <> k ->
        correlation s c w k2 * (1 + slack (Nat.max (length c) (length c'))) < correlation s c w k) ->
     kr_key r = k /\ kr_key r' = up t k).
Proof.
  intros h h' s c w c' w' r r' t a Hh Hh' Us Us' Ln Ln' Pa E (b & Hb & Lb & Lb') D D' slack.
  destruct (C86_best h s c w r b Hh Us Ln Hb Lb D) as (Ir & B).
  destruct (C86_best h' s c' w' r' ((b + t) mod 12)%nat Hh' Us' Ln' ltac:(apply Nat.mod_upper_bound; lia) ltac:(rewrite E by exact Hb; exact Lb') D') as (Ir' & B').
  set (k1 := up (11 * t) (kr_key r')). assert (K : kr_key r' = up t k1) by (symmetry; now apply up_back).
  assert (M1 : is_major k1 = is_major (kr_key r')) by apply up_mode.
  assert (X : forall k2, In k2 all_keys -> is_major k2 = is_major k1 -> correlation s c w k2 <= correlation s c w k1 * (1 + slack (length c'))).
  { intros k2 I2 M2. specialize (B' (up t k2) (up_in t k2) ltac:(rewrite up_mode; congruence)). rewrite K in B'.
    rewrite !(correlation_up s c w c' w' t a) in B' by exact E. apply Rmult_le_reg_l with a; [exact Pa|]. unfold slack. rewrite <- Rmult_assoc. exact B'. }
  split; [exists k1; split; [apply up_in|]; split; [exact K|exact X]|].
  intros k Ik Mr Mr' Clear.
  assert (P0 : forall k2, In k2 all_keys -> 0 <= correlation s c w k2).
  { assert (V : chroma_valid c w = true) by (unfold detect_key_weighted in D; destruct (chroma_valid c w); [reflexivity|discriminate]).
    destruct (usual_sane c w Us V) as (C & W). intros k2 I2.
    pose proof (correlation_loud s c w k2 b I2 ltac:(intros i Hi; now apply energy_nonneg) Hb Lb). lra. }
  assert (Q : forall k2 n, In k2 all_keys -> is_major k2 = is_major k -> (n <= Nat.max (length c) (length c'))%nat ->
    correlation s c w k <= correlation s c w k2 * (1 + slack n) -> k2 = k).
  { intros k2 n I2 M2 Hn H. destruct (key_eqb k2 k) eqn:Ek; [now apply key_eqb_iff|exfalso]. apply key_eqb_neq in Ek. specialize (Clear k2 I2 M2 Ek).
    apply le_INR in Hn. assert (slack n <= slack (Nat.max (length c) (length c'))) by (unfold slack; lra).
    assert (correlation s c w k2 * (1 + slack n) <= correlation s c w k2 * (1 + slack (Nat.max (length c) (length c')))) by (apply Rmult_le_compat_l; [now apply P0|lra]). lra. }
  split.
  - apply (Q (kr_key r) (length c) Ir Mr ltac:(lia)). apply (B k Ik). congruence.
  - rewrite K. f_equal. apply (Q k1 (length c') (up_in _ _) ltac:(congruence) ltac:(lia)). apply (X k Ik). congruence.
Qed.
Print Assumptions C95_transposed.

(** A track whose frames are rotated by [t] pitch classes is such a track. *)
Definition raised (t : nat) (frame : list f32) : list f32 := map (fun b => nth ((b + 11 * t) mod 12)%nat frame f0) (seq 0 12).
Lemma C95_raised : forall t c w b, (b < 12)%nat -> energy (map (raised t) c) w ((b + t) mod 12)%nat = 1 * energy c w b.
Proof.
  intros t c w b Hb. rewrite Rmult_1_l. unfold energy. rewrite map_length. apply sumn_ext. intros i Hi. f_equal. f_equal.
  rewrite (nth_indep _ [] (raised t [])) by (rewrite map_length; exact Hi). rewrite map_nth. unfold raised.
  pose proof (Nat.mod_upper_bound (b + t) 12 ltac:(lia)) as H.
  set (g := fun b0 => nth ((b0 + 11 * t) mod 12)%nat (nth i c []) f0). rewrite (nth_indep _ f0 (g 0%nat)) by (rewrite map_length, seq_length; exact H).
  rewrite map_nth, seq_nth by exact H. unfold g. rewrite Nat.add_0_l, Nat.add_mod_idemp_l by lia.
  replace (b + t + 11 * t)%nat with (b + t * 12)%nat by lia. now rewrite Nat.mod_add, Nat.mod_small by lia.
Qed.

(** G major (or its relative E minor) two semitones higher: A major, or F sharp minor. *)
Example C95_case :
  key_of (detect_key keep [g_major; g_major] (new_templates Temperley)) = Some (Minor 4) /\
  key_of (detect_key keep (map (raised 2) [g_major; g_major; g_major]) (new_templates Temperley)) = Some (Minor 6) /\
  key_of (detect_key flip [g_major; g_major] (new_templates Temperley)) = Some (Major 7) /\
  key_of (detect_key flip (map (raised 2) [g_major; g_major; g_major]) (new_templates Temperley)) = Some (Major 9) /\
  up 2 (Minor 4) = Minor 6 /\ up 2 (Major 7) = Major 9 /\ up 2 (Major 11) = Major 1.
Proof. repeat split; vm_compute; reflexivity. Qed.
