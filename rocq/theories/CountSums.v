(** Sums of a known number of terms. *)
From Coq Require Import ZArith Reals Lra Lia.
From Flocq Require Import Core.
From Verif Require Import Rust F32 F32Facts F32More Sorting NoveltyProofs Bounds.

Lemma format_scaled : forall z k, (0 <= z <= 16777216)%Z -> (-149 <= k)%Z ->
  generic_format radix2 fexp32 (IZR z * bpow radix2 k).
Proof.
  intros z k H K. destruct (Z.eq_dec z 16777216) as [->|E].
  - replace (IZR 16777216 * bpow radix2 k)%R with (bpow radix2 (24 + k)).
    + apply generic_format_bpow. unfold SpecFloat.fexp, SpecFloat.emin. lia.
    + rewrite bpow_plus. f_equal.
  - apply generic_format_FLT. apply FLT_spec with (Float radix2 z k);
      [reflexivity|cbn [Fnum]; change (Z.pow radix2 24) with 16777216%Z; lia|cbn [Fexp]; exact K].
Qed.

(** At most 2^24 terms up to 2^k: no partial sum exceeds its number of terms times 2^k. *)
Lemma count_fold : forall k l acc a, (-149 <= k < 103)%Z -> Forall (upto k) l -> (0 <= a)%Z ->
  (a + Z.of_nat (length l) <= 16777216)%Z -> fin acc -> (0 <= B2R acc <= IZR a * bpow radix2 k)%R ->
  fin (fold_left fadd l acc) /\ (0 <= B2R (fold_left fadd l acc) <= IZR (a + Z.of_nat (length l)) * bpow radix2 k)%R.
Proof.
  intros k l. induction l as [|x l IH]; intros acc a K H A N F B.
  { cbn [fold_left length]. rewrite Z.add_0_r. auto. }
  cbn [fold_left length] in *. destruct (Forall_inv H) as (Fx & X). apply Forall_inv_tail in H.
  destruct (fadd_fx acc x F Fx) as (Nn & E). pose proof (bpow_gt_0 radix2 k) as P.
  assert (R : (0 <= rnd (B2R acc + B2R x) <= IZR (a + 1) * bpow radix2 k)%R).
  { split; [apply rnd_nonneg; lra|].
    assert (G : rnd (IZR (a + 1) * bpow radix2 k) = (IZR (a + 1) * bpow radix2 k)%R).
    { apply round_generic; auto with typeclass_instances. apply format_scaled; lia. }
    rewrite <- G. apply rnd_mono. rewrite plus_IZR. lra. }
  assert (M : (IZR (a + 1) * bpow radix2 k <= bpow radix2 127)%R).
  { apply Rle_trans with (bpow radix2 24 * bpow radix2 k)%R.
    - apply Rmult_le_compat_r; [lra|]. change (bpow radix2 24) with (IZR 16777216). apply IZR_le. lia.
    - rewrite <- bpow_plus. apply bpow_le. lia. }
  assert (U : upto 127 (fadd acc x)).
  { rewrite (sat_upto 127) in E by (lia || lra). apply upto_of; auto; try lra; lia. }
  pose proof (upto_fin _ _ U) as Fa. rewrite (sat_upto 127), fx_fin in E by (lia || lra || exact Fa).
  replace (a + Z.of_nat (S (length l)))%Z with ((a + 1) + Z.of_nat (length l))%Z by lia.
  apply IH; auto; try lia. rewrite E. exact R.
Qed.

Lemma upto_count : forall k p l, (-149 <= k < 103)%Z -> (0 <= p <= 24)%Z -> (Z.of_nat (length l) <= 2 ^ p)%Z ->
  Forall (upto k) l -> upto (k + p) (fold_left fadd l f0).
Proof.
  intros k p l K P N H. assert (Q : (2 ^ p <= 16777216)%Z) by (change 16777216%Z with (2 ^ 24)%Z; apply Z.pow_le_mono_r; lia).
  destruct (count_fold k l f0 0 K H) as (F & L & B); try lia; [reflexivity|cbn [B2R f0]; lra|].
  split; [exact F|]. split; [exact L|]. eapply Rle_trans; [exact B|]. rewrite Z.add_comm, bpow_plus.
  rewrite (Rmult_comm (bpow radix2 k)). apply Rmult_le_compat_r; [apply bpow_ge_0|].
  rewrite <- (IZR_Zpower radix2 p) by lia. apply IZR_le. cbn [radix_val radix2]. lia.
Qed.
