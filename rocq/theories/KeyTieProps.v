(** C58: the best major and the best minor key always tie, and the confidence is always zero. *)
From Coq Require Import ZArith Reals Lra Lia Sorted.
From Flocq Require Import Core.
From Verif Require Import Rust F32 F32Facts ListFacts Sorting SortingFacts Bounds KeyNotation KeyTemplates
  KeyDetector KeyDetectorProofs KeyBoundsProofs KeyTieProofs KeyDetectorProps.

(** Non-negative chroma of moderate size with at least one counted entry of 2^-20 or more (weight at
    least 2^-5): a major and a minor key share the best score, which is exactly the float 1 + 0.2, and
    the reported confidence is exactly zero. *)
Theorem C58_zero_confidence : forall h c s w k j i b r, honest h ->
  (0 <= k)%Z -> (0 <= j)%Z -> (k + j <= 46)%Z ->
  Forall (fun ch => length ch = 12 /\ Forall (within k) ch /\ Forall (fun x => fle f0 x = true) ch) c ->
  match w with
  | None => True
  | Some ws => length ws = length c /\ Forall (fun x => fgt x f0 = true -> within j x) ws
  end ->
  i < length c -> b < 12 -> fle (lit 8388608 (-43)) (nth b (nth i c []) f0) = true ->
  match w with None => True | Some ws => fle (lit 8388608 (-28)) (nth i ws f0) = true end ->
  detect_key_weighted h c (new_templates s) w = Ok r ->
  kr_conf r = f0 /\
  (exists m n x, In (Major m, x) (kr_scores r) /\ In (Minor n, x) (kr_scores r) /\
     x = fadd f1 (lit 13421773 (-26)) /\ forall k' y, In (k', y) (kr_scores r) -> fle y x = true).
Proof.
  intros h c s w k j i b r Hh K J S C W Hi Hb A Wi H.
  assert (BF : bounded_frames k c) by (eapply Forall_impl; [|exact C]; intros ch (_ & B & _); exact B).
  assert (BW : bounded_weights j w) by (destruct w as [ws|]; [apply W|exact I]).
  assert (LV : forall k', flt tiny9 (weighted_sum_dot c w (template_of (new_templates s) k')) = true).
  { intros k'. apply (wsd_audible s k' k j c w i b); assumption. }
  assert (TW : table_within (k + j + 50) (raw_scores c (new_templates s) w)).
  { unfold raw_scores. apply Forall_map, Forall_forall. intros k' _. cbn [snd].
    apply wsd_within; auto; [lia|]. apply builtin_bounded. }
  destruct (zero_conf (k + j + 50) h c (new_templates s) w r ltac:(lia) Hh TW (raw_live _ _ _ true LV)
              (raw_live _ _ _ false LV) H) as (Z & (m & n & I1 & I2) & U).
  split; [exact Z|]. exists m, n, peak. split; [exact I1|]. split; [exact I2|]. split; [|exact U].
  apply B2SF_inj. vm_compute. reflexivity.
Qed.
Print Assumptions C58_zero_confidence.

(** The hypotheses hold of a plain C major triad. *)
Example C58_example : forall r, detect_key keep [triad] (new_templates KrumhanslKessler) = Ok r -> kr_conf r = f0.
Proof.
  intros r H. apply (C58_zero_confidence keep [triad] KrumhanslKessler None 0 0 0 0 r keep_honest); try lia; try exact H; try exact I; try reflexivity.
  - constructor; [|constructor]. split; [reflexivity|]. 
    assert (W1 : within 0 f1) by (split; [reflexivity|rewrite B2R_f1, Rabs_R1; cbn [bpow]; lra]).
    pose proof (within_0 0) as W0. split; unfold triad; repeat (apply Forall_cons; [first [assumption|reflexivity]|]); constructor.
  - cbn [length]. lia.
Qed.

(** The C major scale is reported as C major or as A minor, depending on the iteration order of the
    vote map: with the two best scores tied the vote's order decides. *)
Definition c_major_scale : list f32 := [f1; f0; f1; f0; f1; f1; f0; f1; f0; f1; f0; f1].
Theorem C58_mode_refuted : exists h h', honest h /\ honest h' /\
  key_of (detect_key h [c_major_scale] (new_templates KrumhanslKessler)) = Some (Minor 9) /\
  key_of (detect_key h' [c_major_scale] (new_templates KrumhanslKessler)) = Some (Major 0).
Proof.
  exists keep, flip. split; [apply keep_honest|]. split; [apply flip_honest|].
  split; vm_compute; reflexivity.
Qed.
Print Assumptions C58_mode_refuted.
