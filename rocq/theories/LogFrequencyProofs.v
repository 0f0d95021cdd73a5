(** Proofs about the log-frequency spectrogram of src/features/chroma/extractor.rs. *)
From Coq Require Import ZArith Reals Lra.
From Flocq Require Import Core BinarySingleNaN.
From Verif Require Import Rust F32 F32Facts F32More ListFacts Libm Onsets NoveltyProofs Bounds Chroma ChromaProofs ChromaValueProofs
  KeyFeatures ThresholdProofs TuningProofs.
Local Open Scope nat_scope.

Definition log2_mono (L : libm) : Prop := forall x y, fin y -> pos x -> fle x y = true -> fle (m_log2 L x) (m_log2 L y) = true.

(** The semitone of a frequency. *)
Definition st (L : libm) (f : f32) : f32 := fadd (fmul (z2f 12) (m_log2 L (fdiv f (z2f 440)))) (z2f 57).

Section Semitone.
  Variable L : libm.
  Hypothesis HL : chroma_libm L.
  Let V4 : B2R (z2f 440) = 440%R. Proof. apply z2f_exact; lia. Qed.

  Lemma ratio_ok : forall f, fle f1 f = true -> within 33 f -> fin (fdiv f (z2f 440)) /\ pos (fdiv f (z2f 440)).
  Proof.
    intros f B1 B3. pose proof (within_fin _ _ B3) as Ff. pose proof (fle_fx _ _ B1) as L1. rewrite fx_f1, fx_fin in L1 by auto.
    split.
    - apply (within_fin (33 - 8)). apply within_div; try reflexivity; [lia|auto|]. rewrite V4, Rabs_right by lra. simpl. lra.
    - destruct (fdiv_fx f (z2f 440) Ff eq_refl) as (N & E); [rewrite V4; lra|].
      assert (Q : B2R (lit 1 (-9)) = (/ 512)%R) by (vm_compute B2R; simpl; lra).
      assert (Lw : (rnd (B2R (lit 1 (-9))) <= rnd (B2R f / B2R (z2f 440)))%R).
      { apply rnd_mono. rewrite V4, Q. lra. }
      rewrite rnd_B2R, Q in Lw. apply flt_intro; auto. rewrite fx_f0, E. pose proof big_pos as BP.
      apply Rlt_le_trans with (sat (/ 512)); [|now apply sat_mono].
      pose proof big_val as BV. assert (1 < big)%R by (rewrite BV; apply IZR_lt; reflexivity). rewrite sat_id; lra.
  Qed.
  Lemma log_within : forall f, fle f1 f = true -> within 33 f -> within 12 (fmul (z2f 12) (m_log2 L (fdiv f (z2f 440)))).
  Proof.
    intros f B1 B3. destruct (ratio_ok f B1 B3) as (F & P). destruct HL as (_ & _ & _ & Hl). specialize (Hl _ F P).
    assert (W12 : within 4 (z2f 12)) by (split; [reflexivity|]; rewrite (proj2 f12_val), Rabs_right; simpl; lra).
    change 12%Z with (4 + 8)%Z at 1. apply within_mul; auto; lia.
  Qed.
  Lemma st_within : forall f, fle f1 f = true -> within 33 f -> within 13 (st L f).
  Proof.
    intros f B1 B3. unfold st.
    assert (W57 : within 12 (z2f 57)).
    { split; [reflexivity|]. destruct (z2f_exact 57 ltac:(lia)) as (_ & E). rewrite E, Rabs_right; simpl; lra. }
    change 13%Z with (12 + 1)%Z. apply within_add; auto; [lia|]. now apply log_within.
  Qed.
  Lemma st_mono : log2_mono L -> forall f g, fle f1 f = true -> fle f g = true -> within 33 g -> fle (st L f) (st L g) = true.
  Proof.
    intros M f g B1 H B3.
    assert (Wf : within 33 f).
    { apply within_le with (a := f1) (b := g); auto. split; [reflexivity|]. vm_compute B2R. rewrite Rabs_right; simpl; lra. }
    assert (Bg : fle f1 g = true) by (eapply fle_trans; eauto).
    destruct (ratio_ok f B1 Wf) as (Ff & Pf). destruct (ratio_ok g Bg B3) as (Fg & Pg).
    pose proof (log_within f B1 Wf) as A1. pose proof (log_within g Bg B3) as A2.
    destruct HL as (_ & _ & _ & Hl).
    assert (Q : fle (fmul (z2f 12) (m_log2 L (fdiv f (z2f 440)))) (fmul (z2f 12) (m_log2 L (fdiv g (z2f 440)))) = true).
    { rewrite !(fmul_comm (z2f 12)). apply fmul_mono_const; try reflexivity; try (apply (within_fin 8); now apply Hl).
      apply M; auto. apply fdiv_mono_l; auto using fin_nn. }
    unfold st. apply fadd_mono; auto using fle_refl.
    - apply (within_nn 13). exact (st_within f B1 Wf).
    - apply (within_nn 13). exact (st_within g Bg B3).
  Qed.
End Semitone.

Lemma within_Z : forall k x, (0 <= k < 31)%Z -> within k x ->
  f2i32 (ffloor x) = Zfloor (B2R x) /\ f2i32 (fceil x) = Zceil (B2R x) /\
  (- 2 ^ k <= Zfloor (B2R x))%Z /\ (Zceil (B2R x) <= 2 ^ k)%Z /\ (Zfloor (B2R x) <= Zceil (B2R x))%Z.
Proof.
  intros k x K (F & W). apply Rabs_le_inv in W.
  assert (E : bpow radix2 k = IZR (2 ^ k)) by (rewrite <- IZR_Zpower by lia; reflexivity). rewrite E in W.
  assert (B : (2 ^ k <= 2 ^ 30)%Z) by (apply Z.pow_le_mono_r; lia).
  assert (A1 : (- 2 ^ k <= Zfloor (B2R x))%Z) by (apply Zfloor_lub; rewrite opp_IZR; lra).
  assert (A2 : (Zceil (B2R x) <= 2 ^ k)%Z) by (apply Zceil_glb; lra).
  assert (A3 : (Zfloor (B2R x) <= Zceil (B2R x))%Z).
  { apply le_IZR. apply Rle_trans with (B2R x); [apply Zfloor_lb|apply Zceil_ub]. }
  destruct (ffloor_spec x F) as (F1 & E1). destruct (fceil_spec x F) as (F2 & E2). unfold f2i32.
  rewrite !f2int_fin, E1, E2, !Ztrunc_IZR by auto. repeat split; lia.
Qed.

(** A linear bin's contributions: it is spread over the two semitone bins around it. *)
Lemma targets : forall L lo n f mag, within 13 (st L f) -> (- 2 ^ 13 <= lo)%Z -> (1 <= n) -> (Z.of_nat n <= 2 ^ 15)%Z ->
  (IZR lo <= B2R (st L f))%R -> (B2R (st L f) <= IZR (lo + Z.of_nat n - 1))%R -> 
  let x := fsub (st L f) (z2f lo) in
  let fl := Zfloor (B2R x) in
  let ce := Zceil (B2R x) in
  let w := fsub x (z2f fl) in
  (0 <= fl)%Z /\ (fl <= ce <= fl + 1)%Z /\ (ce < Z.of_nat n)%Z /\ in01 w /\ in01 (fsub f1 w) /\
  log_targets L lo n f mag = (Z.to_nat fl, fmul mag (fsub f1 w)) :: (if (fl =? ce)%Z then [] else [(Z.to_nat ce, fmul mag w)]).
Proof.
  intros L lo n f mag W Hlo Hn Bn A B x fl ce w.
  assert (Ulo : (lo <= 2 ^ 13)%Z).
  { destruct W as (_ & W). apply Rabs_le_inv in W. apply le_IZR.
    assert (E : bpow radix2 13 = IZR (2 ^ 13)) by reflexivity. rewrite E in W. lra. }
  destruct (z2f_exact lo ltac:(lia)) as (Fz & Ez). pose proof (within_fin _ _ W) as Fs.
  destruct (fsub_fx (st L f) (z2f lo) Fs Fz) as (Nx & Ex). fold x in Nx, Ex. rewrite Ez in Ex.
  destruct (z2f_exact (Z.of_nat n - 1) ltac:(lia)) as (Fm & Em).
  assert (R0 : (0 <= rnd (B2R (st L f) - IZR lo))%R) by (rewrite <- rnd_0; apply rnd_mono; lra).
  assert (R1 : (rnd (B2R (st L f) - IZR lo) <= IZR (Z.of_nat n - 1))%R).
  { rewrite <- Em, <- (rnd_B2R (z2f (Z.of_nat n - 1))), Em. apply rnd_mono. rewrite minus_IZR. rewrite minus_IZR, plus_IZR in B. lra. }
  assert (Wx : within 15 x).
  { apply (within_of 15 _ _ ltac:(lia) Nx Ex). rewrite Rabs_right by lra. eapply Rle_trans; [exact R1|].
    change (bpow radix2 15) with (IZR (2 ^ 15)). apply IZR_le. lia. }
  pose proof (within_fin _ _ Wx) as Fx.
  assert (Vx : B2R x = rnd (B2R (st L f) - IZR lo)).
  { rewrite <- (fx_fin x Fx), Ex. apply sat_id. pose proof big_val as BV.
    assert (IZR (2 ^ 15) <= big)%R by (rewrite BV; apply IZR_le; discriminate).
    assert (IZR (Z.of_nat n - 1) <= IZR (2 ^ 15))%R by (apply IZR_le; lia). lra. }
  rewrite <- Vx in R0, R1. clear Ex Vx A B.
  destruct (within_Z 15 x ltac:(lia) Wx) as (_ & _ & C1 & C2 & C3). fold fl in C1, C3. fold ce in C2, C3.
  assert (P0 : (0 <= fl)%Z) by (apply Zfloor_lub; exact R0).
  assert (P1 : (ce <= Z.of_nat n - 1)%Z) by (apply Zceil_glb; exact R1).
  assert (P2 : (ce <= fl + 1)%Z).
  { apply Zceil_glb. rewrite plus_IZR. apply Rlt_le, Zfloor_ub. }
  destruct (z2f_exact fl ltac:(lia)) as (Ff & Ef).
  destruct (fsub_fx x (z2f fl) Fx Ff) as (Nw & Ew). fold w in Nw, Ew. rewrite Ef in Ew.
  assert (D : (0 <= B2R x - IZR fl <= 1)%R).
  { pose proof (Zfloor_lb (B2R x)). pose proof (Zfloor_ub (B2R x)). fold fl in H, H0. lra. }
  assert (Iw : in01 w).
  { assert (Q0 : (0 <= rnd (B2R x - IZR fl))%R) by (rewrite <- rnd_0; apply rnd_mono; lra).
    assert (Q1 : (rnd (B2R x - IZR fl) <= 1)%R).
    { replace 1%R with (rnd 1); [apply rnd_mono; lra|]. change 1%R with (IZR 1). rewrite <- (proj2 (z2f_exact 1 ltac:(lia))). apply rnd_B2R. }
    pose proof big_val as BV. assert (1 < big)%R by (rewrite BV; apply IZR_lt; reflexivity).
    split; apply fle_intro; try assumption; try reflexivity; rewrite Ew, sat_id by lra; [rewrite fx_f0|rewrite fx_f1]; lra. }
  assert (Iw' : in01 (fsub f1 w)).
  { pose proof (in01_fin _ Iw) as Fw. assert (N : nn (fsub f1 w)) by (apply fsub_nn_fin; auto; reflexivity).
    split; [apply fsub_nneg; [apply Iw|auto]|apply fsub_le_l; auto; apply Iw]. }
  split; [exact P0|]. split; [lia|]. split; [lia|]. split; [exact Iw|]. split; [exact Iw'|].
  unfold log_targets. cbv zeta. change (fsub (fadd (fmul (z2f 12) (m_log2 L (fdiv f a4))) (z2f 57)) (z2f lo)) with x.
  destruct (ffloor_spec x Fx) as (F1 & E1). destruct (fceil_spec x Fx) as (F2 & E2).
  assert (G1 : f2usize (ffloor x) = fl).
  { unfold f2usize. rewrite f2int_fin, E1, Ztrunc_IZR by auto. unfold usize_max. fold fl. lia. }
  assert (G2 : f2usize (fceil x) = ce).
  { unfold f2usize. rewrite f2int_fin, E2, Ztrunc_IZR by auto. unfold usize_max. fold ce. lia. }
  rewrite G1, G2. rewrite (Z.min_l ce) by lia.
  destruct (Z.ltb_spec fl (Z.of_nat n)); [|lia]. fold w. f_equal.
  rewrite (Z.eqb_sym ce fl). destruct (Z.eqb_spec fl ce); [reflexivity|]. cbn [negb andb].
  destruct (Z.ltb_spec ce (Z.of_nat n)); [reflexivity|lia].
Qed.
