(** C91: the log-frequency spectrogram as a bank of triangular semitone filters (src/features/chroma/extractor.rs:701-810). *)
From Coq Require Import ZArith Reals Lra Lia.
From Flocq Require Import Core BinarySingleNaN.
From Verif Require Import Rust F32 F32Facts F32More ListFacts Libm Onsets NoveltyProofs Bounds FloatSums Chroma ChromaProofs ChromaValueProofs ChromaProps
  KeyFeatures LogFrequencyProofs LogFrequencyProps FourierFacts SpectrumFacts OnsetStrengthFacts AutocorrelationValueProofs ChromaPitchFacts ChromaPitchProps HpcpPitchFacts ExactPlatform.
From Verif Require TempoLagProps BayesianLikelihoodProps HpcpPitchProps.
Local Open Scope R_scope.

(** The triangle of height 1 and half-width 1. *)
Definition tri (d : R) : R := Rmax 0 (1 - Rabs d).

(** The band analysed: from 100 Hz to below 5 kHz and 1 Hz below half the sample rate. *)
Definition top (rate : nat) : R := Rmin 5000 (INR rate / 2 - 1).
Definition in_band (rate : nat) (f : R) : bool := Rle_bool 100 f && Rlt_bool f (top rate).
(** No frequency exactly at the edge of the band. *)
Definition off_edges (rate : nat) (f : R) : Prop := / 10000 <= Rabs (f - 100) /\ / 500 <= Rabs (f - top rate).

Lemma tri_lip : forall a b, Rabs (tri a - tri b) <= Rabs (a - b).
Proof. intros a b. unfold tri, Rmax, Rabs. repeat (destruct (Rle_dec _ _) || destruct (Rcase_abs _)); lra. Qed.
Lemma tri_01 : forall a, 0 <= tri a <= 1.
Proof. intros a. unfold tri, Rmax, Rabs. repeat (destruct (Rle_dec _ _) || destruct (Rcase_abs _)); lra. Qed.
Lemma tri_far : forall a, 1 <= Rabs a -> tri a = 0.
Proof. intros a H. unfold tri, Rmax. destruct (Rle_dec _ _); lra. Qed.

Lemma lg_pow_le : forall x n m, 0 < x -> x ^ n <= 2 ^ m -> INR n * lg x <= INR m.
Proof.
  intros x n m X H. pose proof ln2_ge as L. assert (P : 0 < x ^ n) by now apply pow_lt.
  assert (A : ln (x ^ n) <= ln (2 ^ m)). { destruct H as [H|H]; [left; now apply ln_increasing|right; now rewrite H]. }
  rewrite !ln_pow in A by lra. unfold lg. apply Rmult_le_reg_r with (ln 2); [lra|]. replace (INR n * (ln x / ln 2) * ln 2) with (INR n * ln x) by (field; lra). exact A.
Qed.

(** 100 Hz lies between the notes 31 and 32. *)
Lemma lowest : 311 / 10 <= scale_pos 0 100 <= 316 / 10.
Proof.
  unfold scale_pos. change (ln (100 / 440) / ln 2) with (lg (100 / 440)).
  pose proof (lg_pow_le (100 / 440) 24 0 ltac:(lra)) as _.
  assert (I : lg (100 / 440) = - lg (440 / 100)).
  { pose proof ln2_ge as L. unfold lg. replace (100 / 440) with (/ (440 / 100)) by field. rewrite ln_Rinv by lra. field. lra. }
  pose proof (lg_pow_le (440 / 100) 60 129 ltac:(lra) ltac:(simpl; lra)) as A.
  assert (B : INR 24 * lg (100 / 440) <= - 51).
  { pose proof ln2_ge as L. pose proof (lg_pow_le (100 / 440 * 8) 24 21 ltac:(lra) ltac:(simpl; lra)) as Q.
    assert (M : lg (100 / 440 * 8) = lg (100 / 440) + 3).
    { unfold lg. rewrite ln_mult by lra. replace 8 with (2 ^ 3) by lra. rewrite ln_pow by lra. rewrite !INR_IZR_INZ. vm_compute Z.of_nat. field. lra. }
    rewrite M in Q. rewrite !INR_IZR_INZ in *. vm_compute Z.of_nat in *. lra. }
  rewrite I in *. rewrite !INR_IZR_INZ in *. vm_compute Z.of_nat in *. lra.
Qed.

(** ** The band *)
Lemma top_val : forall rate, (1000 <= Z.of_nat rate <= 200000)%Z ->
  let hi := fmin (z2f 5000) (fsub (fdiv (n2f rate) f2) f1) in
  fin hi /\ 498 <= top rate <= 5000 /\ Rabs (B2R hi - top rate) <= / 16000000 * top rate.
Proof.
  intros rate Hr hi. destruct (nyq_val rate Hr) as (Fn & Vn). destruct (z2f_exact 5000 ltac:(lia)) as (F5 & V5).
  assert (Br : 1000 <= INR rate <= 200000) by (rewrite INR_IZR_INZ; split; apply IZR_le; lia).
  assert (F1 : fin f1) by reflexivity.
  destruct (fsub_fx _ f1 Fn F1) as (N & E). rewrite Vn, B2R_f1 in E.
  destruct (fin_of_rnd_big _ _ N E ltac:(rewrite Rabs_pos_eq; lra)) as (F & V).
  pose proof (TempoLagProps.rnd_rel (INR rate / 2 - 1) ltac:(apply Rle_trans with (bpow radix2 0); [apply bpow_le; lia|simpl; lra])) as R.
  rewrite <- V in R. destruct (BayesianLikelihoodProps.fmin_B2R (z2f 5000) _ F5 F) as (Fm & Vm). fold hi in Fm, Vm. rewrite V5 in Vm.
  apply Rabs_le_inv in R. split; [exact Fm|]. unfold top. rewrite Vm. set (y := B2R (fsub _ _)) in *. clearbody y.
  unfold Rmin. repeat destruct (Rle_dec _ _); (split; [lra|]); apply Rabs_le; lra.
Qed.

Lemma lo_val : fin (fmax (z2f 100) (z2f 20)) /\ B2R (fmax (z2f 100) (z2f 20)) = 100.
Proof.
  destruct (z2f_exact 100 ltac:(lia)) as (F1 & V1). destruct (z2f_exact 20 ltac:(lia)) as (F2 & V2).
  destruct (fmax_B2R (z2f 100) (z2f 20) F1 F2) as (Fl & Vl). rewrite V1, V2, Rmax_left in Vl by lra. auto.
Qed.

Lemma band_iff : forall rate ff f, (1000 <= Z.of_nat rate <= 200000)%Z -> fin ff -> 0 <= f -> Rabs (B2R ff - f) <= / 7000000 * f -> off_edges rate f ->
  fle (fmax (z2f 100) (z2f 20)) ff && flt ff (fmin (z2f 5000) (fsub (fdiv (n2f rate) f2) f1)) = in_band rate f.
Proof.
  intros rate ff f Hr Ff F0 H (C1 & C2). destruct lo_val as (Fl & Vl). destruct (top_val rate Hr) as (Fh & Bt & Vh).
  unfold fle, flt, in_band. rewrite Bleb_correct, Bltb_correct, Vl by assumption. set (hi := B2R (fmin _ _)) in *. set (t := top rate) in *. set (x := B2R ff) in *.
  clearbody hi t x. apply Rabs_le_inv in H, Vh.
  destruct (Rle_bool_spec 100 x); destruct (Rle_bool_spec 100 f); cbn [andb]; try reflexivity.
  - destruct (Rlt_bool_spec x hi); destruct (Rlt_bool_spec f t); try reflexivity; exfalso; unfold Rabs in C2; destruct (Rcase_abs _); lra.
  - exfalso. unfold Rabs in C1. destruct (Rcase_abs _); lra.
  - exfalso. unfold Rabs in C1. destruct (Rcase_abs _); lra.
Qed.

Lemma st_val : forall L ff f, chroma_libm L -> log2_accurate (m_log2 L) (/ 1048576) -> fin ff -> 99 <= f <= 5001 -> Rabs (B2R ff - f) <= / 4900000 * f ->
  fin (st L ff) /\ Rabs (B2R (st L ff) - scale_pos 0 f) <= / 20000.
Proof.
  intros L ff f HL HG Ff Hf H. apply Rabs_le_inv in H as H'.
  assert (W : within 13 (st L ff)).
  { apply st_within; [exact HL|apply HpcpPitchProps.le_real; [reflexivity|exact Ff|rewrite B2R_f1; lra]|].
    split; [exact Ff|]. apply Rle_trans with (bpow radix2 13); [apply Rabs_le; change (bpow radix2 13) with 8192; lra|apply bpow_le; lia]. }
  split; [now apply (within_fin 13)|].
  assert (F0 : fin f0) by reflexivity. assert (V0 : B2R f0 = 0) by reflexivity.
  destruct (pitch_val' L ff f f0 HG Ff F0 Hf H ltac:(rewrite V0, Rabs_R0; lra)) as (_ & P). rewrite V0 in P.
  change (semitone L f0 ff) with (fsub (st L ff) f0) in P.
  destruct (fsub_fx (st L ff) f0 (within_fin _ _ W) F0) as (N & E). rewrite V0, Rminus_0_r, rnd_B2R in E.
  assert (Bg : bpow radix2 13 < big) by (apply bpow_lt; lia). destruct W as (Fw & Bw). apply Rabs_le_inv in Bw.
  rewrite sat_id in E by lra.
  assert (Fs : fin (fsub (st L ff) f0)) by (apply fin_iff; [exact N|lra]). rewrite (fx_fin _ Fs) in E. rewrite E in P.
  unfold scale_pos. exact P.
Qed.

(** ** The share of one frequency bin *)
Section Share.
  Context (mag s : f32) (p : R) (j : nat).
  Context (Fm : fin mag) (Bm : 0 < B2R mag <= bpow radix2 50) (Fs : fin s) (Hs : Rabs (B2R s - p) <= / 20000) (Bp : 31 <= p <= 110).
  Let x := fsub s (z2f 31).
  Let below := Zfloor (B2R x).
  Let above := Zceil (B2R x).
  Let w := fsub x (z2f below).
  Context (Hw : in01 w) (Hw' : in01 (fsub f1 w)) (Pb : (0 <= below)%Z).
  Let d := p - (31 + INR j).
  Let q := (below =? Z.of_nat j)%Z || negb (below =? above)%Z && (above =? Z.of_nat j)%Z.
  Let g := if (below =? Z.of_nat j)%Z then fmul mag (fsub f1 w) else fmul mag w.

  Lemma x_val : fin x /\ Rabs (B2R x - (p - 31)) <= / 17000 /\ Rabs (B2R x) <= 80.
  Proof.
    destruct (z2f_exact 31 ltac:(lia)) as (F31 & V31). destruct (fsub_fx s (z2f 31) Fs F31) as (N & E). rewrite V31 in E.
    apply Rabs_le_inv in Hs. destruct (fin_of_rnd_big _ _ N E ltac:(apply Rabs_le; lra)) as (F & V). fold x in F, V.
    pose proof (rnd_near (B2R s - 31)) as R. rewrite <- V in R.
    assert (U : u24 = / 16777216) by (unfold u24; simpl; lra). rewrite U in R.
    assert (Ty : 0 <= tiny <= / 10 ^ 30). { split; [apply bpow_ge_0|]. unfold tiny. apply Rle_trans with (bpow radix2 (-120)); [apply bpow_le; lia|simpl; lra]. }
    assert (A : Rabs (B2R s - 31) <= 79 + / 1000) by (apply Rabs_le; lra). apply Rabs_le_inv in R.
    split; [exact F|]. split; apply Rabs_le; lra.
  Qed.

  Lemma w_val : fin w /\ Rabs (B2R w - (B2R x - IZR below)) <= / 8000000 /\ Rabs (B2R (fsub f1 w) - (1 - (B2R x - IZR below))) <= / 4000000 /\ fin (fsub f1 w).
  Proof.
    destruct x_val as (Fx & Vx & Bx). apply Rabs_le_inv in Bx. pose proof (Zfloor_lb (B2R x)) as Lb. pose proof (Zfloor_ub (B2R x)) as Ub. fold below in Lb, Ub.
    assert (Zb : (below < 81)%Z). { apply lt_IZR. lra. }
    destruct (z2f_exact below ltac:(lia)) as (Fb & Vb). destruct (fsub_fx x (z2f below) Fx Fb) as (N & E). rewrite Vb in E.
    destruct (fin_of_rnd_big _ _ N E ltac:(apply Rabs_le; lra)) as (F & V). fold w in F, V.
    pose proof (rnd_bounds (B2R x - IZR below) ltac:(lra)) as R. rewrite <- V, u_val in R. pose proof eta_small as Es. pose proof eta_pos as E0.
    assert (F1 : fin f1) by reflexivity. destruct (fsub_fx f1 w F1 F) as (N1 & E1). rewrite B2R_f1 in E1.
    destruct Hw as (W0 & W1). apply fle_fx in W0, W1. rewrite fx_f0, (fx_fin _ F) in W0. rewrite fx_f1, (fx_fin _ F) in W1.
    destruct (fin_of_rnd_big _ _ N1 E1 ltac:(apply Rabs_le; lra)) as (F' & V').
    pose proof (rnd_bounds (1 - B2R w) ltac:(lra)) as R'. rewrite <- V', u_val in R'.
    split; [exact F|]. split; [apply Rabs_le; lra|]. split; [apply Rabs_le; lra|exact F'].
  Qed.

  Lemma mul_share : forall y t, in01 y -> fin y -> 0 <= t <= 1 -> Rabs (B2R y - t) <= / 16500 ->
    nneg (fmul mag y) /\ within 51 (fmul mag y) /\ Rabs (B2R (fmul mag y) - B2R mag * t) <= / 16200 * B2R mag + tiny.
  Proof.
    intros y t Iy Fy Ht Hy. destruct Iy as (Y0 & Y1). apply fle_fx in Y0, Y1. rewrite fx_f0, (fx_fin _ Fy) in Y0. rewrite fx_f1, (fx_fin _ Fy) in Y1.
    destruct (fmul_fx mag y Fm Fy) as (N & E).
    assert (M : 0 <= B2R mag * B2R y <= B2R mag).
    { split; [apply Rmult_le_pos; lra|]. rewrite <- (Rmult_1_r (B2R mag)) at 2. apply Rmult_le_compat_l; lra. }
    pose proof (rnd_near (B2R mag * B2R y)) as R. rewrite (Rabs_pos_eq _ (proj1 M)) in R.
    assert (U : u24 = / 16777216) by (unfold u24; simpl; lra). rewrite U in R.
    assert (Rm : rnd (B2R mag * B2R y) <= B2R mag). { rewrite <- (rnd_B2R mag) at 2. apply rnd_mono; lra. }
    pose proof (rnd_nonneg (B2R mag * B2R y) (proj1 M)) as R0.
    assert (Bg : bpow radix2 50 < big) by (apply bpow_lt; lia). rewrite sat_id in E by lra.
    assert (Fp : fin (fmul mag y)) by (apply fin_iff; [exact N|lra]). rewrite (fx_fin _ Fp) in E.
    split; [apply nneg_iff; [exact N|rewrite (fx_fin _ Fp), E; exact R0]|]. split.
    { split; [exact Fp|]. rewrite E, Rabs_pos_eq by exact R0. apply Rle_trans with (bpow radix2 50); [lra|apply bpow_le; lia]. }
    rewrite E. replace (rnd (B2R mag * B2R y) - B2R mag * t) with ((rnd (B2R mag * B2R y) - B2R mag * B2R y) + B2R mag * (B2R y - t)) by ring.
    eapply Rle_trans; [apply Rabs_triang|]. rewrite Rabs_mult, (Rabs_pos_eq (B2R mag)) by lra.
    assert (B2R mag * Rabs (B2R y - t) <= B2R mag * / 16500) by (apply Rmult_le_compat_l; lra). lra.
  Qed.

  Lemma share_val : let r := B2R mag * tri d in
    (q = true -> nneg g /\ within 51 g /\ Rabs (B2R g - r) <= / 16000 * B2R mag + tiny /\ Rabs d <= 1001 / 1000) /\
    (q = false -> 0 <= r <= / 16000 * B2R mag).
  Proof.
    intros r. destruct x_val as (Fx & Vx & Bx). destruct w_val as (Fw & Vw & Vw' & Fw').
    pose proof (Zfloor_lb (B2R x)) as Lb. pose proof (Zfloor_ub (B2R x)) as Ub. fold below in Lb, Ub.
    pose proof (Zceil_ub (B2R x)) as Cb. fold above in Cb.
    assert (Ij : INR j = IZR (Z.of_nat j)) by apply INR_IZR_INZ.
    assert (T : Rabs (tri d - tri (B2R x - INR j)) <= / 17000).
    { eapply Rle_trans; [apply tri_lip|]. unfold d. replace (p - (31 + INR j) - (B2R x - INR j)) with (- (B2R x - (p - 31))) by ring. rewrite Rabs_Ropp. exact Vx. }
    pose proof (tri_01 d) as T01. apply Rabs_le_inv in Vx, Vw, Vw'.
    assert (Near : forall y, in01 y -> fin y -> Rabs (B2R y - tri (B2R x - INR j)) <= / 2000000 ->
      nneg (fmul mag y) /\ within 51 (fmul mag y) /\ Rabs (B2R (fmul mag y) - r) <= / 16000 * B2R mag + tiny).
    { intros y Iy Fy Hy. destruct (mul_share y (tri d) Iy Fy T01) as (A & B & C).
      - apply Rabs_le_inv in Hy, T. apply Rabs_le. lra.
      - split; [exact A|]. split; [exact B|]. unfold r. lra. }
    unfold q, g. destruct (Z.eqb_spec below (Z.of_nat j)) as [E|E]; cbn [orb].
    - split; [|discriminate]. intros _. rewrite <- E in Ij.
      assert (X : tri (B2R x - INR j) = 1 - (B2R x - IZR below)).
      { rewrite Ij. unfold tri. rewrite Rabs_pos_eq by lra. apply Rmax_right. lra. }
      destruct (Near (fsub f1 w) Hw' Fw') as (A & B & C); [rewrite X; apply Rabs_le; lra|].
      split; [exact A|]. split; [exact B|]. split; [exact C|]. unfold d. rewrite Ij. apply Rabs_le. lra.
    - destruct (Z.eqb_spec below above) as [E2|E2]; cbn [negb andb].
      + split; [discriminate|]. intros _. rewrite <- E2 in Cb.
        assert (X : tri (B2R x - INR j) = 0).
        { apply tri_far. rewrite Ij. replace (B2R x) with (IZR below) by lra. rewrite <- minus_IZR, <- abs_IZR. apply IZR_le. lia. }
        rewrite X, Rminus_0_r, (Rabs_pos_eq (tri d)) in T by lra. unfold r. split; [apply Rmult_le_pos; lra|].
        rewrite Rmult_comm. apply Rmult_le_compat_r; lra.
      + assert (Ea : above = (below + 1)%Z).
        { unfold above, below in *. apply Zceil_imp. rewrite plus_IZR, minus_IZR, plus_IZR. split; [|lra].
          destruct (Req_dec (IZR (Zfloor (B2R x))) (B2R x)) as [Q|Q]; [|lra]. exfalso. apply E2. rewrite <- Q at 2. now rewrite Zceil_IZR. }
        destruct (Z.eqb_spec above (Z.of_nat j)) as [E3|E3].
        * split; [|discriminate]. intros _. rewrite <- E3, Ea, plus_IZR in Ij.
          assert (X : tri (B2R x - INR j) = B2R x - IZR below).
          { rewrite Ij. unfold tri. rewrite Rabs_left1 by lra. rewrite Rmax_right by lra. ring. }
          destruct (Near w Hw Fw) as (A & B & C); [rewrite X; apply Rabs_le; lra|].
          split; [exact A|]. split; [exact B|]. split; [exact C|]. unfold d. rewrite Ij. apply Rabs_le. lra.
        * split; [discriminate|]. intros _.
          assert (X : tri (B2R x - INR j) = 0).
          { apply tri_far. rewrite Ij. destruct (Z.lt_trichotomy (Z.of_nat j) below) as [Q|[Q|Q]]; [|lia|].
            - assert (IZR (Z.of_nat j) <= IZR below - 1) by (rewrite <- minus_IZR; apply IZR_le; lia). rewrite Rabs_pos_eq; lra.
            - assert (IZR below + 2 <= IZR (Z.of_nat j)) by (rewrite <- plus_IZR; apply IZR_le; lia). rewrite Rabs_left1; lra. }
          rewrite X, Rminus_0_r, (Rabs_pos_eq (tri d)) in T by lra. unfold r. split; [apply Rmult_le_pos; lra|].
          rewrite Rmult_comm. apply Rmult_le_compat_r; lra.
  Qed.
End Share.

Lemma share_one : forall A B (c1 c2 : A -> bool) (a b : A -> B) l, (forall k, In k l -> c1 k = true -> c2 k = false) ->
  flat_map (fun k => (if c1 k then [a k] else []) ++ (if c2 k then [b k] else [])) l =
  map (fun k => if c1 k then a k else b k) (filter (fun k => c1 k || c2 k) l).
Proof.
  intros A B c1 c2 a b l H. induction l as [|k l IH]; [reflexivity|]. cbn [flat_map filter]. rewrite IH by (intros; apply H; auto; now right).
  specialize (H k (or_introl eq_refl)). destruct (c1 k) eqn:E1; cbn [orb].
  - rewrite (H eq_refl). cbn [app map]. now rewrite E1.
  - destruct (c2 k); cbn [app map]; [now rewrite E1|reflexivity].
Qed.

Lemma nth_map_lt : forall A B (f : A -> B) l i d d', (i < length l)%nat -> nth i (map f l) d' = f (nth i l d).
Proof. intros A B f l i d d' H. rewrite (nth_indep _ d' (f d)) by now rewrite map_length. apply map_nth. Qed.

Lemma filter_filter : forall A (p q : A -> bool) l, filter q (filter p l) = filter (fun x => p x && q x) l.
Proof. intros A p q l. induction l as [|x l IH]; [reflexivity|]. cbn [filter]. destruct (p x); cbn [filter andb]; [destruct (q x)|]; now rewrite IH. Qed.

Lemma sum_errors : forall n (v r m : nat -> R) (near : nat -> bool) s, (Z.of_nat n <= 65536)%Z ->
  (forall k, (k < n)%nat -> 0 <= v k /\ 0 <= m k /\ r k <= m k /\ Rabs (v k - r k) <= (if near k then / 16000 * m k + tiny else 0) /\ (near k = false -> r k = 0)) ->
  Rabs (s - sumn v n) <= INR n / 6000000 * sumn v n ->
  Rabs (s - sumn r n) <= (INR n / 6000000 + / 15000) * sumn (fun k => if near k then m k else 0) n + / 10 ^ 40.
Proof.
  intros n v r m near s Hn H Hs.
  set (M := sumn (fun k => if near k then m k else 0) n).
  assert (N0 : 0 <= INR n <= 65536). { split; [apply pos_INR|]. rewrite INR_IZR_INZ. change 65536 with (IZR 65536). now apply IZR_le. }
  assert (T0 : 0 <= tiny) by apply bpow_ge_0.
  assert (T1 : INR n * tiny <= / (2 * 10 ^ 40)).
  { apply Rle_trans with (65536 * tiny); [apply Rmult_le_compat_r; lra|]. unfold tiny. change 65536 with (bpow radix2 16). rewrite <- bpow_plus. simpl. lra. }
  assert (D : Rabs (sumn v n - sumn r n) <= / 16000 * M + INR n * tiny).
  { replace (sumn v n - sumn r n) with (sumn (fun k => v k + (-1) * r k) n) by (rewrite sumn_plus, sumn_scal; ring).
    eapply Rle_trans; [apply sumn_abs|]. unfold M. rewrite <- sumn_scal, <- sumn_const, <- sumn_plus. apply sumn_le. intros k Hk.
    destruct (H k Hk) as (A & B & _ & C & _). replace (v k + -1 * r k) with (v k - r k) by ring. destruct (near k); lra. }
  assert (Rm : sumn r n <= M). { apply sumn_le. intros k Hk. destruct (H k Hk) as (_ & _ & A & _ & B). destruct (near k); [exact A|]. rewrite B; [lra|reflexivity]. }
  assert (M0 : 0 <= M). { apply sumn_nonneg. intros k Hk. destruct (H k Hk) as (_ & A & _). destruct (near k); lra. }
  assert (V : sumn v n <= M + / 16000 * M + / (2 * 10 ^ 40)). { apply Rabs_le_inv in D. lra. }
  assert (P : INR n / 6000000 * sumn v n <= INR n / 6000000 * M + (11 / 1000) * (/ 16000 * M + / (2 * 10 ^ 40))).
  { apply Rle_trans with (INR n / 6000000 * (M + / 16000 * M + / (2 * 10 ^ 40))); [apply Rmult_le_compat_l; lra|].
    rewrite Rplus_assoc, Rmult_plus_distr_l. apply Rplus_le_compat_l. apply Rmult_le_compat_r; [|lra]. 
    apply Rplus_le_le_0_compat; [lra|]. left. apply Rinv_0_lt_compat. lra. }
  replace (s - sumn r n) with ((s - sumn v n) + (sumn v n - sumn r n)) by ring. eapply Rle_trans; [apply Rabs_triang|].
  set (X := INR n / 6000000) in *. clearbody X. clear T1 V Rm H.
  assert (T1 : INR n * tiny <= / (2 * 10 ^ 40)).
  { apply Rle_trans with (65536 * tiny); [apply Rmult_le_compat_r; lra|]. unfold tiny. change 65536 with (bpow radix2 16). rewrite <- bpow_plus. simpl. lra. }
  rewrite Rmult_plus_distr_r. simpl in *. lra.
Qed.

(** Semitone bin j stands for the pitch 31 + j semitones above C0, and holds the sum of the magnitudes of the band, each
    weighted by the triangle of half-width one semitone around that pitch. *)
Theorem C91_filterbank : forall L spec nb rate fft, chroma_libm L -> log2_mono L -> log2_accurate (m_log2 L) (/ 1048576) -> spec <> [] ->
  (1000 <= Z.of_nat rate <= 200000)%Z -> (1 <= Z.of_nat fft <= 65536)%Z -> (nb <= fft)%nat ->
  Forall (fun fr => length fr = nb /\ Forall (fun x => fin x /\ 0 <= B2R x <= bpow radix2 50) fr) spec ->
  (forall fr k, In fr spec -> 0 < B2R (nth k fr f0) -> off_edges rate (bin_freq rate fft k)) ->
  exists out n, log_frequency L rate fft (z2f 100) (z2f 5000) spec = Ok out /\ length out = length spec /\
    29 + INR n - / 20000 <= scale_pos 0 (top rate) <= 30 + INR n + / 20000 /\
    forall t, (t < length spec)%nat -> length (nth t out []) = n /\
      forall j, (j < n)%nat ->
        let mag k := B2R (nth k (nth t spec []) f0) in
        let pitch k := scale_pos 0 (bin_freq rate fft k) in
        let centre := 31 + INR j in
        fin (nth j (nth t out []) f0) /\ 0 <= B2R (nth j (nth t out []) f0) /\
        Rabs (B2R (nth j (nth t out []) f0) - sumn (fun k => if in_band rate (bin_freq rate fft k) then mag k * tri (pitch k - centre) else 0) nb)
        <= (INR nb / 6000000 + / 15000) * sumn (fun k => if in_band rate (bin_freq rate fft k) && Rle_bool (Rabs (pitch k - centre)) (1001 / 1000) then mag k else 0) nb
           + / 10 ^ 40.
Proof.
  intros L spec nb rate fft HL HM HG Hs Hr Hf Hn F HO.
  assert (F' : Forall (fun f => length f = nb /\ Forall (fun x => fin x) f) spec).
  { eapply Forall_impl; [|exact F]. intros fr (A & B). split; [exact A|]. eapply Forall_impl; [|exact B]. intros x (C & _). exact C. }
  pose proof (C66_content L spec nb rate fft (z2f 100) (z2f 5000) HL HM Hs F' ltac:(lia) ltac:(lia) ltac:(lia) ltac:(lia) ltac:(lia)) as C.
  cbv beta zeta in C. destruct lo_val as (Fl & Vl). destruct (top_val rate Hr) as (Fh & Bt & Vh).
  set (lo := fmax (z2f 100) (z2f 20)) in *. set (hi := fmin (z2f 5000) (fsub (fdiv (n2f rate) f2) f1)) in *.
  apply Rabs_le_inv in Vh as Vh'.
  assert (LH : flt lo hi = true). { unfold flt. rewrite Bltb_correct, Vl by assumption. apply Rlt_bool_true. lra. }
  specialize (C LH). set (freq := fun k => fmul (n2f k) (fdiv (n2f rate) (n2f fft))).
  assert (E31 : Zfloor (B2R (st L lo)) = 31%Z).
  { destruct (st_val L lo 100 HL HG Fl ltac:(lra) ltac:(rewrite Vl, Rminus_eq_0, Rabs_R0; lra)) as (_ & V).
    pose proof lowest as Lw. apply Rabs_le_inv in V. apply Zfloor_imp. change (31 + 1)%Z with 32%Z. lra. }
  change (fadd (fmul (z2f 12) (m_log2 L (fdiv lo (z2f 440)))) (z2f 57)) with (st L lo) in C. rewrite E31 in C.
  change (fadd (fmul (z2f 12) (m_log2 L (fdiv hi (z2f 440)))) (z2f 57)) with (st L hi) in C.
  destruct (st_val L hi (top rate) HL HG Fh ltac:(lra) ltac:(eapply Rle_trans; [exact Vh|]; lra)) as (Fsh & Vsh).
  set (n := Z.to_nat (Zceil (B2R (st L hi)) - 31 + 1)) in *.
  destruct C as (E & N1 & U).
  eexists. exists n. split; [exact E|]. clear E. rewrite map_length. split; [reflexivity|].
  assert (In_ : IZR (Zceil (B2R (st L hi))) = 30 + INR n).
  { replace (Zceil (B2R (st L hi))) with (30 + Z.of_nat n)%Z by (unfold n in *; lia). now rewrite plus_IZR, <- INR_IZR_INZ. }
  split.
  { pose proof (Zceil_ub (B2R (st L hi))) as A. pose proof (Zceil_lb (B2R (st L hi))) as B.
    rewrite In_ in A, B. apply Rabs_le_inv in Vsh. lra. }
  intros t Ht. set (fr := nth t spec []). assert (Ifr : In fr spec) by now apply nth_In.
  assert (Hfr : length fr = nb /\ Forall (fun x => fin x /\ 0 <= B2R x <= bpow radix2 50) fr) by (apply (proj1 (Forall_forall _ _) F); exact Ifr).
  destruct Hfr as (Lf & Bf).
  assert (Bk : forall k, (k < nb)%nat -> fin (nth k fr f0) /\ 0 <= B2R (nth k fr f0) <= bpow radix2 50).
  { intros k Hk. apply (proj1 (Forall_forall _ _) Bf). apply nth_In. lia. }
  rewrite (nth_map_lt _ _ _ spec t [] []) by exact Ht. fold fr. rewrite map_length, seq_length. split; [reflexivity|].
  intros j Hj mag pitch centre. rewrite (nth_map_lt _ _ _ (seq 0 n) j 0%nat f0) by (rewrite seq_length; exact Hj). rewrite seq_nth by exact Hj. cbn [Nat.add].
  rewrite share_one. 2:{ intros k _ Q. apply Z.eqb_eq in Q. rewrite Q. destruct (Z.eqb_spec (Z.of_nat j) (Zceil (B2R (fsub (fadd (fmul (z2f 12) (m_log2 L (fdiv (fmul (n2f k) (fdiv (n2f rate) (n2f fft))) (z2f 440)))) (z2f 57)) (z2f 31))))) as [W|W]; [reflexivity|].
    cbn [negb andb]. apply Z.eqb_neq. congruence. }
  rewrite filter_filter.
  match goal with |- context [fold_left fadd (map ?gg (filter ?pp (seq 0 nb))) f0] => set (g := gg); set (p := pp) end.
  set (r := fun k => if in_band rate (bin_freq rate fft k) then mag k * tri (pitch k - centre) else 0).
  set (near := fun k => in_band rate (bin_freq rate fft k) && Rle_bool (Rabs (pitch k - centre)) (1001 / 1000)).
  assert (K : forall k, (k < nb)%nat -> (p k = true -> nneg (g k) /\ within 51 (g k)) /\
    let v := if p k then B2R (g k) else 0 in
    0 <= v /\ 0 <= mag k /\ r k <= mag k /\ Rabs (v - r k) <= (if near k then / 16000 * mag k + tiny else 0) /\ (near k = false -> r k = 0)).
  { intros k Hk. destruct (Bk k Hk) as (Fm & Bm). fold (mag k) in Bm.
    assert (T0 : 0 <= tiny) by apply bpow_ge_0. pose proof (tri_01 (pitch k - centre)) as T01.
    assert (Rk : r k <= mag k). { unfold r. destruct (in_band _ _); [|lra]. rewrite <- (Rmult_1_r (mag k)) at 2. apply Rmult_le_compat_l; lra. }
    assert (Rn : near k = false -> r k = 0).
    { unfold near, r. destruct (in_band _ _); [|reflexivity]. cbn [andb]. intros Q. rewrite tri_far; [ring|]. destruct (Rle_bool_spec (Rabs (pitch k - centre)) (1001 / 1000)); [discriminate|lra]. }
    assert (Mp : flt f0 (nth k fr f0) = Rlt_bool 0 (mag k)). { unfold flt. rewrite Bltb_correct by (auto; reflexivity). reflexivity. }
    destruct (Rlt_dec 0 (mag k)) as [P|P].
    2:{ assert (mag k = 0) by lra. assert (p k = false). { unfold p. rewrite Mp, Rlt_bool_false by lra. reflexivity. }
        rewrite H0. split; [discriminate|]. cbv zeta. assert (r k = 0) by (unfold r; rewrite H; destruct (in_band _ _); ring).
        rewrite H1, Rminus_0_r, Rabs_R0, H. repeat split; try lra; try reflexivity. destruct (near k); lra. }
    destruct (freq_val k rate fft ltac:(lia) Hr Hf) as (Ff & Ef).
    replace (INR k * (INR rate / INR fft)) with (bin_freq rate fft k) in Ef by (unfold bin_freq, Rdiv; ring).
    assert (B0 : 0 <= bin_freq rate fft k).
    { unfold bin_freq, Rdiv. apply Rmult_le_pos; [apply Rmult_le_pos; apply pos_INR|]. left. apply Rinv_0_lt_compat. apply (lt_INR 0). lia. }
    pose proof (band_iff rate (freq k) _ Hr Ff B0 Ef (HO fr k Ifr P)) as Bd. fold lo hi in Bd.
    assert (Up : flt f0 (nth k fr f0) && fle lo (freq k) && flt (freq k) hi = in_band rate (bin_freq rate fft k)).
    { rewrite Mp, Rlt_bool_true by exact P. exact Bd. }
    destruct (in_band rate (bin_freq rate fft k)) eqn:IB.
    2:{ assert (p k = false). { unfold p. change (fmul (n2f k) (fdiv (n2f rate) (n2f fft))) with (freq k). rewrite Up. reflexivity. }
        rewrite H. split; [discriminate|]. cbv zeta. unfold near, r in *. rewrite IB in *. cbn [andb]. rewrite Rminus_0_r, Rabs_R0. repeat split; lra. }
    assert (Ub : In k (filter (fun k => flt f0 (nth k fr f0) && fle lo (fmul (n2f k) (fdiv (n2f rate) (n2f fft))) && flt (fmul (n2f k) (fdiv (n2f rate) (n2f fft))) hi) (seq 0 nb))).
    { apply filter_In. split; [apply in_seq; lia|]. exact Up. }
    destruct (U fr k Ub) as (Z0 & _ & _ & W1 & W2).
    assert (Rg : 100 <= bin_freq rate fft k <= 5000).
    { unfold in_band in IB. apply andb_true_iff in IB. destruct IB as (I1 & I2). destruct (Rle_bool_spec 100 (bin_freq rate fft k)); [|discriminate]. 
      destruct (Rlt_bool_spec (bin_freq rate fft k) (top rate)); [|discriminate]. lra. }
    destruct (st_val L (freq k) (bin_freq rate fft k) HL HG Ff ltac:(lra) ltac:(eapply Rle_trans; [exact Ef|]; lra)) as (Fs & Vs). fold (pitch k) in Vs.
    assert (Bp : 31 <= pitch k <= 110).
    { pose proof (lg_range (bin_freq rate fft k / 440) ltac:(lra)) as Lr. unfold lg in Lr. split; [|unfold pitch, scale_pos; lra].
      pose proof lowest as Lw. apply Rle_trans with (scale_pos 0 100); [lra|]. unfold pitch, scale_pos.
      assert (ln (100 / 440) <= ln (bin_freq rate fft k / 440)).
      { destruct (Req_dec (bin_freq rate fft k) 100) as [Q|Q]; [rewrite Q; lra|]. left. apply ln_increasing; lra. }
      assert (0 < ln 2) by (rewrite <- ln_1; apply ln_increasing; lra).
      assert (ln (100 / 440) / ln 2 <= ln (bin_freq rate fft k / 440) / ln 2) by (apply Rmult_le_compat_r; [left; now apply Rinv_0_lt_compat|assumption]). lra. }
    destruct (share_val (nth k fr f0) (st L (freq k)) (pitch k) j Fm (conj P (proj2 Bm)) Fs Vs Bp W1 W2 Z0) as (S1 & S2).
    fold (mag k) in S1, S2. fold centre in S1, S2.
    assert (Pk : p k = (Zfloor (B2R (fsub (st L (freq k)) (z2f 31))) =? Z.of_nat j)%Z
       || negb (Zfloor (B2R (fsub (st L (freq k)) (z2f 31))) =? Zceil (B2R (fsub (st L (freq k)) (z2f 31))))%Z && (Zceil (B2R (fsub (st L (freq k)) (z2f 31))) =? Z.of_nat j)%Z).
    { unfold p. change (fmul (n2f k) (fdiv (n2f rate) (n2f fft))) with (freq k). rewrite Up. reflexivity. }
    rewrite <- Pk in S1, S2. assert (rk : r k = mag k * tri (pitch k - centre)) by (unfold r; now rewrite IB). rewrite <- rk in S1, S2.
    unfold near in *. rewrite IB in *. cbn [andb] in *.
    destruct (p k).
    - destruct (S1 eq_refl) as (A & B & C & D). change (nneg (g k)) in A. change (within 51 (g k)) in B. change (Rabs (B2R (g k) - r k) <= / 16000 * mag k + tiny) in C.
      split; [auto|]. cbv zeta. rewrite (Rle_bool_true _ _ D) in *. split; [|tauto].
      destruct B as (Fg & _). apply (nneg_iff (g k) (fin_nn _ Fg)) in A. now rewrite (fx_fin _ Fg) in A.
    - specialize (S2 eq_refl). split; [discriminate|]. cbv zeta. split; [lra|]. split; [lra|]. split; [exact Rk|]. split; [|exact Rn].
      rewrite Rminus_0_l, Rabs_Ropp, Rabs_pos_eq by lra. destruct (Rle_bool _ _); [lra|]. rewrite Rn; [lra|reflexivity]. }
  destruct (filter_sum p g (fun k => B2R (g k)) nb 0 51 ltac:(lia) ltac:(lra) ltac:(lia)) as (Fd & Nd & _ & D).
  { intros k Hk Q. destruct (K k Hk) as (A & B). destruct (A Q) as (A1 & A2). rewrite Q in B. cbv zeta in B.
    split; [exact A1|]. split; [exact A2|]. split; [apply B|]. rewrite Rminus_eq_0, Rabs_R0. lra. }
  cbv zeta in D. rewrite Rplus_0_l in D. split; [exact Fd|]. split; [now apply nneg_B2R|].
  apply (sum_errors nb (fun k => if p k then B2R (g k) else 0) r mag near); [lia| |exact D].
  intros k Hk. apply (K k Hk).
Qed.
Print Assumptions C91_filterbank.

(** An A at 440 Hz and a second one an octave higher and twice as strong: semitone bins 26 and 38, and nothing elsewhere. *)
Example C91_case : forall L, chroma_libm L -> log2_mono L -> log2_accurate (m_log2 L) (/ 1048576) ->
  exists out, log_frequency L 4400 10 (z2f 100) (z2f 5000) [[f0; f1; f2]] = Ok [out] /\ (51 <= length out)%nat /\
    forall j, (j < length out)%nat -> Rabs (B2R (nth j out f0) - (if (j =? 26)%nat then 1 else if (j =? 38)%nat then 2 else 0)) <= / 4000.
Proof.
  assert (Zr : Z.of_nat 4400 = 4400%Z) by (vm_compute; reflexivity). revert Zr. generalize 4400%nat. intros rate Zr L HL HM HG. assert (V0 : B2R f0 = 0) by reflexivity. assert (V1 : B2R f1 = 1) by apply B2R_f1.
  destruct (z2f_exact 2 ltac:(lia)) as (F2 & V2). change (z2f 2) with f2 in F2, V2.
  assert (IN : forall n, INR n = IZR (Z.of_nat n)) by apply INR_IZR_INZ.
  assert (B1 : bin_freq rate 10 1 = 440) by (unfold bin_freq; rewrite !IN, Zr; vm_compute Z.of_nat; lra).
  assert (B2 : bin_freq rate 10 2 = 880) by (unfold bin_freq; rewrite !IN, Zr; vm_compute Z.of_nat; lra).
  assert (Tp : top rate = 2199). { unfold top. rewrite IN, Zr. rewrite Rmin_right; lra. }
  assert (P1 : scale_pos 0 440 = 57) by (unfold scale_pos; replace (440 / 440) with 1 by field; rewrite ln_1; lra).
  assert (P2 : scale_pos 0 880 = 69) by (unfold scale_pos; replace (880 / 440) with 2 by field; pose proof ln2_ge; field; lra).
  assert (Pt : 81 < scale_pos 0 2199).
  { unfold scale_pos. pose proof ln2_ge as L2. assert (A : ln 4 < ln (2199 / 440)) by (apply ln_increasing; lra).
    replace 4 with (2 * 2) in A by lra. rewrite ln_mult in A by lra.
    assert (2 < ln (2199 / 440) / ln 2); [|lra]. apply Rmult_lt_reg_r with (ln 2); [lra|]. replace (ln (2199 / 440) / ln 2 * ln 2) with (ln (2199 / 440)) by (field; lra). lra. }
  assert (I1 : in_band rate 440 = true) by (unfold in_band; rewrite Tp, Rle_bool_true, Rlt_bool_true by lra; reflexivity).
  assert (I2 : in_band rate 880 = true) by (unfold in_band; rewrite Tp, Rle_bool_true, Rlt_bool_true by lra; reflexivity).
  assert (Bg : 2 <= bpow radix2 50) by (change 2 with (bpow radix2 1); apply bpow_le; lia).
  destruct (C91_filterbank L [[f0; f1; f2]] 3 rate 10 HL HM HG ltac:(discriminate) ltac:(lia) ltac:(vm_compute; split; discriminate) ltac:(lia))
    as (out & n & E & Lo & Hn & H).
  - apply Forall_cons; [|apply Forall_nil]. split; [reflexivity|].
    apply Forall_cons; [split; [reflexivity|lra]|]. apply Forall_cons; [split; [reflexivity|lra]|]. apply Forall_cons; [split; [exact F2|lra]|]. apply Forall_nil.
  - intros fr k [<-|[]] M. unfold off_edges. rewrite Tp. destruct k as [|[|[|k]]]; cbn [nth] in M; rewrite ?V0 in M; try lra.
    + rewrite B1, (Rabs_pos_eq (440 - 100)), (Rabs_left (440 - 2199)) by lra. lra.
    + rewrite B2, (Rabs_pos_eq (880 - 100)), (Rabs_left (880 - 2199)) by lra. lra.
    + destruct k; rewrite V0 in M; lra.
  - destruct out as [|o [|? ?]]; cbn [length] in Lo; try discriminate. exists o. split; [exact E|].
    destruct (H 0%nat ltac:(cbn [length]; lia)) as (Ln & V). cbn [nth] in Ln, V. rewrite Tp in Hn.
    assert (N51 : (51 <= n)%nat).
    { assert (50 < Z.of_nat n)%Z; [|lia]. apply lt_IZR. rewrite <- IN. lra. }
    rewrite Ln. split; [exact N51|]. intros j Hj. destruct (V j Hj) as (_ & _ & V'). clear V. rename V' into V. clear H E. cbv zeta in V. cbn [sumn nth] in V. rewrite B1, B2, I1, I2, P1, P2, V0, V1, V2 in V. cbn [andb] in V.
    set (s1 := if Rle_bool (Rabs (57 - (31 + INR j))) (1001 / 1000) then 1 else 0) in V.
    set (s2 := if Rle_bool (Rabs (69 - (31 + INR j))) (1001 / 1000) then 2 else 0) in V.
    assert (If : forall (b : bool) a, 0 <= a -> 0 <= (if b then a else 0) <= a) by (intros b a A; destruct b; lra).
    assert (S1 : 0 <= s1 <= 1) by (apply If; lra). assert (S2 : 0 <= s2 <= 2) by (apply If; lra). clearbody s1 s2.
    assert (Q : forall a : Z, tri (IZR a - (31 + INR j)) = if (a =? 31 + Z.of_nat j)%Z then 1 else 0).
    { intros a. rewrite IN. replace (IZR a - (31 + IZR (Z.of_nat j))) with (IZR (a - (31 + Z.of_nat j))) by (rewrite minus_IZR, plus_IZR; reflexivity).
      destruct (Z.eqb_spec a (31 + Z.of_nat j)) as [->|D].
      - rewrite Z.sub_diag. unfold tri. rewrite Rabs_R0, Rmax_right; lra.
      - apply tri_far. rewrite <- abs_IZR. apply IZR_le. lia. }
    rewrite (Q 57%Z), (Q 69%Z) in V.
    replace (57 =? 31 + Z.of_nat j)%Z with (j =? 26)%nat in V by (destruct (Nat.eqb_spec j 26); destruct (Z.eqb_spec 57 (31 + Z.of_nat j)); try reflexivity; lia).
    replace (69 =? 31 + Z.of_nat j)%Z with (j =? 38)%nat in V by (destruct (Nat.eqb_spec j 38); destruct (Z.eqb_spec 69 (31 + Z.of_nat j)); try reflexivity; lia).
    replace (INR 3) with 3 in V by (rewrite IN; reflexivity).
    assert (Z0 : forall (b : bool) x, (if b then 0 * x else 0) = 0) by (intros b x; destruct b; lra). rewrite Z0 in V.
    assert (Z1 : forall b : bool, (if b then 0 else 0) = 0) by (intros b; now destruct b). rewrite Z1 in V.
    assert (T : / 10 ^ 40 <= / 1000000). { apply Rinv_le_contravar; [lra|]. simpl. lra. }
    set (y := / 10 ^ 40) in *. clearbody y.
    assert (M : (3 / 6000000 + / 15000) * (0 + 0 + s1 + s2) <= (3 / 6000000 + / 15000) * 3) by (apply Rmult_le_compat_l; lra).
    destruct (Nat.eqb_spec j 26) as [->|D1]; [|destruct (Nat.eqb_spec j 38) as [->|D2]]; cbn [Nat.eqb] in V; apply Rabs_le_inv in V; apply Rabs_le; lra.
Qed.

(** The hypotheses on the mathematics functions can be met together: the logarithm rounded to the nearest f32. *)
Definition log_platform : libm :=
  {| m_powf := m_powf toy; m_log10 := m_log10 toy; m_log2 := m_log2 exact_libm; m_ln := m_ln toy; m_exp := m_exp toy; m_sin := m_sin toy; m_cos := m_cos toy |}.
Example C91_platform : chroma_libm log_platform /\ log2_mono log_platform /\ log2_accurate (m_log2 log_platform) (/ 1048576).
Proof.
  destruct ex_toy as (T1 & T2 & T3 & _). split; [split; [exact T1|split; [exact T2|split; [exact T3|]]]|split; [|apply C88_platform]].
  - intros x Fx P. apply pos_fx in P. rewrite (fx_fin _ Fx) in P. pose proof (pos_float_ge x Fx P) as G. pose proof ln2_ge as L2.
    assert (U : B2R x <= bpow radix2 128). { apply Rle_trans with (Rabs (B2R x)); [apply Rle_abs|]. left. apply abs_B2R_lt_emax. }
    assert (Hl : forall a b, 0 < a -> a <= b -> ln a <= ln b). { intros a b A [B|B]; [left; now apply ln_increasing|right; now rewrite B]. }
    apply Hl in G; [|apply bpow_gt_0]. apply Hl in U; [|exact P]. rewrite ln_bpow in G, U.
    assert (B : - 149 <= ln (B2R x) / ln 2 <= 128).
    { split; apply Rmult_le_reg_r with (ln 2); try lra; replace (ln (B2R x) / ln 2 * ln 2) with (ln (B2R x)) by (field; lra); lra. }
    cbn [log_platform m_log2 exact_libm]. destruct (nearest_f32_near (ln (B2R x) / ln 2)) as (Fn & En).
    + apply Rle_trans with (bpow radix2 8); [simpl; apply Rabs_le; lra|apply bpow_le; lia].
    + split; [exact Fn|]. assert (Tn : tiny <= / 1024) by (change (/ 1024) with (bpow radix2 (-10)); apply bpow_le; lia).
      assert (Rabs (ln (B2R x) / ln 2) <= 149) by (apply Rabs_le; lra). unfold u24 in En. simpl in *. apply Rabs_le_inv in En. apply Rabs_le. lra.
  - intros x y Fy P H. cbn [log_platform m_log2 exact_libm]. destruct (nearest_f32_fx (ln (B2R x) / ln 2)) as (N1 & E1). destruct (nearest_f32_fx (ln (B2R y) / ln 2)) as (N2 & E2).
    apply fle_iff; [exact N1|exact N2|]. rewrite E1, E2. apply sat_mono, rnd_mono. pose proof ln2_ge as L2. apply Rmult_le_compat_r; [left; apply Rinv_0_lt_compat; lra|].
    destruct (fle_nn _ _ H) as (Nx & _). apply fle_fx in H. apply pos_fx in P. rewrite (fx_fin _ Fy) in H.
    assert (Fx : fin x). { apply fin_iff; [exact Nx|]. pose proof (B2R_lt y) as A. pose proof big_pos as B. lra. }
    rewrite (fx_fin _ Fx) in H, P. destruct H as [H|H]; [left; now apply ln_increasing|right; now rewrite H].
Qed.
