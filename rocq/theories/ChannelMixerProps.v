(** C01: stereo down-mix. *)
From Verif Require Import Rust F32 ChannelMixer ChannelMixerProofs.

(** Fails with InvalidInput exactly when the channels differ in length. *)
Theorem C01_mismatch : forall l r m,
  stereo_to_mono l r m = Err InvalidInput <-> length l <> length r.
Proof. exact stereo_mismatch. Qed.
Print Assumptions C01_mismatch.

(** Otherwise succeeds (no panic, no other error) with one output per frame. *)
Theorem C01_total : forall l r m, length l = length r ->
  exists out, stereo_to_mono l r m = Ok out /\ length out = length l.
Proof. exact stereo_total. Qed.
Print Assumptions C01_total.

(** Averaging modes: output i is the rounded (l+r)*0.5 of the two input samples. *)
Theorem C01_average : forall l r m out i a b, m <> Dominant ->
  stereo_to_mono l r m = Ok out -> nth_error l i = Some a -> nth_error r i = Some b ->
  nth_error out i = Some (fmul (fadd a b) (lit 1 (-1))).
Proof.
  intros l r m out i a b Hm H Ha Hb. rewrite (stereo_nth l r m out i a b H Ha Hb).
  now rewrite mix_avg.
Qed.
Print Assumptions C01_average.

(** Dominant mode: output i is one of the two samples, at least as loud as both,
    and the left one on ties. *)
Theorem C01_dominant : forall l r out i a b,
  stereo_to_mono l r Dominant = Ok out -> nth_error l i = Some a -> nth_error r i = Some b ->
  exists o, nth_error out i = Some o /\ (o = a \/ o = b) /\
    (fisnan a = false -> fisnan b = false ->
      fle (fabs a) (fabs o) = true /\ fle (fabs b) (fabs o) = true /\
      (fle (fabs b) (fabs a) = true -> o = a)).
Proof.
  intros l r out i a b H Ha Hb. exists (mix_sample Dominant a b).
  split; [exact (stereo_nth l r Dominant out i a b H Ha Hb)|].
  split; [apply mix_dominant|apply mix_dominant_loud].
Qed.
Print Assumptions C01_dominant.

(** Every output lies between any finite bounds on its two inputs, provided their
    sum does not overflow; in particular it lies between the two samples. *)
Theorem C01_between : forall l r m out i a b lo hi,
  stereo_to_mono l r m = Ok out -> nth_error l i = Some a -> nth_error r i = Some b ->
  fisfin a = true -> fisfin b = true -> fisfin lo = true -> fisfin hi = true ->
  fisfin (fadd a b) = true ->
  fle lo a = true -> fle lo b = true -> fle a hi = true -> fle b hi = true ->
  exists o, nth_error out i = Some o /\ fle lo o = true /\ fle o hi = true.
Proof.
  intros. exists (mix_sample m a b). split; [eapply stereo_nth; eauto|now apply mix_between].
Qed.
Print Assumptions C01_between.

(** Audio in [-1,1] stays in [-1,1]. *)
Theorem C01_unit : forall l r m out i a b,
  stereo_to_mono l r m = Ok out -> nth_error l i = Some a -> nth_error r i = Some b ->
  fle (lit (-1) 0) a = true -> fle a (lit 1 0) = true ->
  fle (lit (-1) 0) b = true -> fle b (lit 1 0) = true ->
  exists o, nth_error out i = Some o /\ fle (lit (-1) 0) o = true /\ fle o (lit 1 0) = true.
Proof.
  intros. exists (mix_sample m a b). split; [eapply stereo_nth; eauto|now apply mix_unit].
Qed.
Print Assumptions C01_unit.

(** The averaging modes are symmetric in their channels. *)
Theorem C01_symmetric : forall l r m, m <> Dominant ->
  stereo_to_mono l r m = stereo_to_mono r l m.
Proof. exact stereo_sym. Qed.
Print Assumptions C01_symmetric.

(** A non-trivial instance: two different channels of length 3. *)
Example C01_case :
  match stereo_to_mono [lit 1 0; lit (-1) (-1); lit 1 (-2)] [lit (-1) (-1); lit 1 (-3); lit 1 0] Mono with
  | Ok o => map B2SF o = map B2SF [lit 1 (-2); lit (-3) (-4); lit 5 (-3)]
  | _ => False
  end.
Proof. vm_compute. reflexivity. Qed.
Example C01_case_dominant :
  match stereo_to_mono [lit 1 (-1); lit 1 (-2)] [lit (-1) (-1); lit (-1) 0] Dominant with
  | Ok o => map B2SF o = map B2SF [lit 1 (-1); lit (-1) 0]
  | _ => False
  end.
Proof. vm_compute. reflexivity. Qed.
(** Without the overflow hypothesis [C01_between] fails: two maximal samples mix to infinity. *)
Example C01_overflow_witness :
  fisfin (mix_sample Mono (lit 16777215 104) (lit 16777215 104)) = false.
Proof. vm_compute. reflexivity. Qed.
