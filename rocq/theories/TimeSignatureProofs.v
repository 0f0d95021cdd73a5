(** Lemmas for TimeSignature.v: means of positive intervals are positive, scores lie in [0,1]. *)
From Coq Require Import ZArith Reals Lra Lia.
From Flocq Require Import Core.
From Verif Require Import Rust F32 F32Facts F32More ListFacts NoveltyProofs Bounds Means KeyBoundsProofs PeakPicking
  CombFilterProofs Onsets TimeSignature.

(** ** Positive means *)
Lemma tiny_fx : forall j, (0 <= j <= 16777216)%Z ->
  fin (lit j (-149)) /\ B2R (lit j (-149)) = (IZR j * bpow radix2 (-149))%R.
Proof.
  intros j J. destruct (lit_fx j (-149)) as (N & E).
  assert (G : rnd (F2R (Float radix2 j (-149))) = (IZR j * bpow radix2 (-149))%R).
  { unfold rnd. rewrite round_generic; [reflexivity|apply valid_rnd_N|].
    destruct (Z.eq_dec j 0) as [->|J0]; [rewrite F2R_0; apply generic_format_0|].
    destruct (Z.eq_dec j 16777216) as [->|J1].
    - replace (F2R (Float radix2 16777216 (-149))) with (bpow radix2 (-125)).
      + apply generic_format_bpow. unfold fexp32, FLT_exp. cbn. lia.
      + unfold F2R; cbn [Fnum Fexp]. change (IZR 16777216) with (bpow radix2 24). now rewrite <- bpow_plus.
    - apply generic_format_F2R. intros _. unfold cexp, fexp32, FLT_exp.
      rewrite mag_F2R_Zdigits by auto. assert (Zdigits radix2 j <= 24)%Z; [|cbn; lia].
      apply Zdigits_le_Zpower. rewrite Z.abs_eq by lia. change (Zpower radix2 24) with 16777216%Z. lia. }
  assert (B : (0 <= IZR j * bpow radix2 (-149) < big)%R).
  { split. apply Rmult_le_pos; [apply IZR_le; lia|apply bpow_ge_0].
    apply Rle_lt_trans with (IZR 16777216 * bpow radix2 (-149))%R.
    apply Rmult_le_compat_r; [apply bpow_ge_0|apply IZR_le; lia].
    change (IZR 16777216) with (bpow radix2 24). rewrite <- bpow_plus. apply bpow_lt. lia. }
  rewrite G, sat_id in E by lra. assert (F : fin (lit j (-149))) by (apply fin_iff; auto; rewrite E; lra).
  split; auto. rewrite <- fx_fin; auto.
Qed.

(** 2^-149 is the least positive float. *)
Lemma pos_ge_tiny : forall x, fin x -> pos x -> fle (lit 1 (-149)) x = true.
Proof.
  intros x F P. pose proof (B2R_pos _ F P) as Px. destruct (tiny_fx 1 ltac:(lia)) as (F1 & E1).
  apply (proj2 (fle_iff _ _ (fin_nn _ F1) (fin_nn _ F))). rewrite !fx_fin by auto. rewrite E1, Rmult_1_l.
  assert (S : is_finite_strict x = true).
  { destruct x; try reflexivity; try discriminate F. cbn [B2R] in Px. lra. }
  pose proof (abs_B2R_ge_emin fprec femax x S) as A. rewrite Rabs_pos_eq in A by lra. exact A.
Qed.

Lemma tiny_step : forall j, (0 <= j)%Z -> (j + 1 <= 16777216)%Z ->
  fle (lit (j + 1) (-149)) (fadd (lit j (-149)) (lit 1 (-149))) = true.
Proof.
  intros j J0 J1. destruct (tiny_fx j ltac:(lia)) as (F & E). destruct (tiny_fx 1 ltac:(lia)) as (F1 & E1).
  destruct (tiny_fx (j + 1) ltac:(lia)) as (F2 & E2). destruct (fadd_fx _ _ F F1) as (N & V).
  apply (proj2 (fle_iff _ _ (fin_nn _ F2) N)). rewrite V, E, E1, (fx_fin _ F2).
  replace (IZR j * bpow radix2 (-149) + 1 * bpow radix2 (-149))%R with (B2R (lit (j + 1) (-149)))
    by (rewrite E2, plus_IZR; ring).
  rewrite rnd_B2R, sat_id; [lra|]. pose proof (B2R_lt (lit (j + 1) (-149))). lra.
Qed.

Lemma sum_ge_tiny : forall l acc j, Forall (fun x => fin x /\ pos x) l -> (0 <= j)%Z ->
  (j + Z.of_nat (length l) <= 16777216)%Z -> nneg acc -> fle (lit j (-149)) acc = true ->
  fle (lit (j + Z.of_nat (length l)) (-149)) (fold_left fadd l acc) = true.
Proof.
  intros l. induction l as [|x l IH]; intros acc j H J0 J N L; cbn [fold_left length] in *.
  - now rewrite Z.add_0_r.
  - pose proof (Forall_inv H) as (Fx & Px). apply Forall_inv_tail in H.
    assert (Na : nneg (fadd acc x)) by (apply fadd_nneg; auto; now apply pos_nneg).
    replace (j + Z.of_nat (S (length l)))%Z with ((j + 1) + Z.of_nat (length l))%Z by lia.
    apply IH; auto; try lia.
    refine (fle_trans _ _ _ (tiny_step j J0 ltac:(lia)) _). pose proof (tiny_step j J0 ltac:(lia)) as T.
    apply fadd_mono; auto; [now apply pos_ge_tiny| |now apply nneg_nn]. now apply fle_nn in T.
Qed.

Lemma Forall_pos_fin : forall k l, Forall (fun x => pos x /\ within k x) l -> Forall (fun x => fin x /\ pos x) l.
Proof. intros k l. apply Forall_impl. intros x (P & W). split; auto. now apply within_fin in W. Qed.

Lemma mean_spec : forall k l, (-149 <= k <= 102)%Z -> l <> [] -> (Z.of_nat (length l) <= 16777216)%Z ->
  Forall (fun x => pos x /\ within k x) l -> pos (mean l) /\ within (k + 25) (mean l).
Proof.
  intros k l K Nl Ll H.
  assert (L1 : 1 <= length l) by (destruct l; [congruence|cbn [length]; lia]).
  assert (Wl : Forall (within k) l) by (eapply Forall_impl; [|exact H]; intros x (_ & W); exact W).
  pose proof (within_sum k l K Wl) as Ws.
  assert (Wm : within (k + 25) (mean l)) by (unfold mean; apply within_div_count; auto; lia).
  split; auto.
  pose proof (sum_ge_tiny l f0 0 (Forall_pos_fin _ _ H) ltac:(lia) ltac:(lia) eq_refl eq_refl) as T. rewrite Z.add_0_l in T.
  fold (fsum l) in T. unfold mean, n2f in *. set (n := Z.of_nat (length l)) in *.
  assert (N1 : (1 <= n)%Z) by lia. clearbody n.
  destruct (z2f_exact n ltac:(lia)) as (Fn & En). destruct (tiny_fx n ltac:(lia)) as (Ft & Et).
  assert (Pn : (1 <= IZR n)%R) by (apply IZR_le; lia).
  assert (Ppn : pos (z2f n)) by (apply flt_intro; [reflexivity|now apply fin_nn|]; rewrite (fx_fin _ Fn), En; cbn; lra).
  destruct (fdiv_fx _ _ Ft Fn ltac:(rewrite En; lra)) as (Nd & Ed).
  refine (flt_fle_trans f0 (lit 1 (-149)) _ eq_refl _).
  refine (fle_trans _ (fdiv (lit n (-149)) (z2f n)) _ _ _).
  - apply (proj2 (fle_iff (lit 1 (-149)) _ eq_refl Nd)). rewrite Ed, Et, En.
    replace (IZR n * bpow radix2 (-149) / IZR n)%R with (bpow radix2 (-149)) by (field; lra).
    destruct (tiny_fx 1 ltac:(lia)) as (F1 & E1). rewrite Rmult_1_l in E1. rewrite <- E1, rnd_B2R.
    rewrite (fx_fin _ F1), sat_id; [lra|]. pose proof (B2R_lt (lit 1 (-149))). lra.
  - apply fdiv_mono_l; auto. now apply within_nn in Wm.
Qed.

(** ** Scores *)
Lemma recip_in01 : forall y, fle f1 y = true -> in01 (fdiv f1 y).
Proof.
  intros y H. pose proof (flt_fle_trans f0 f1 y eq_refl H) as P.
  destruct (nneg_cases y (pos_nneg _ P)) as [(F & _)| ->].
  - apply fdiv_le_1; auto.
  - split; reflexivity.
Qed.

Lemma recip1p_in01 : forall x, nneg x -> in01 (fdiv f1 (fadd f1 x)).
Proof.
  intros x N. apply recip_in01. apply fadd_ge_l; auto. now apply nneg_fadd_nn.
Qed.

Lemma ratio_nneg : forall x m, fin x -> nneg x -> fin m -> pos m -> nneg (fdiv x m).
Proof. intros. apply fdiv_nneg; auto. now apply fdiv_nn_fin. Qed.

Lemma similarity_in01 : forall k m a b, (-150 <= k < 127)%Z -> fin m -> pos m -> within k a -> within k b ->
  in01 (similarity m a b).
Proof.
  intros k m a b K F P Wa Wb. unfold similarity. apply recip1p_in01.
  pose proof (within_sub k a b K Wa Wb) as W.
  apply ratio_nneg; auto.
  - rewrite fabs_fin. now apply within_fin in W.
  - apply fabs_nneg. now apply within_nn in W.
Qed.

Lemma square_upto : forall k x, (-74 <= k < 64)%Z -> within k x -> upto (2 * k) (fmul x x).
Proof.
  intros k x K W. apply within_upto.
  - replace (2 * k)%Z with (k + k)%Z by lia. apply within_mul; auto. lia.
  - pose proof (within_fin _ _ W) as F. destruct (fmul_fx x x F F) as (N & E).
    apply nneg_iff; auto. rewrite E, <- sat_0. apply sat_mono, rnd_nonneg. nra.
Qed.

Lemma variance_upto : forall k l m, (-50 <= k <= 50)%Z -> l <> [] -> Forall (within k) l -> within k m ->
  upto (2 * (k + 1) + 25) (variance l m).
Proof.
  intros k l m K Nl H Wm. unfold variance.
  apply upto_div_count; [lia| |destruct l; [congruence|cbn [length]; lia]].
  apply upto_sum; [lia|]. apply Forall_forall. intros y Hy. apply in_map_iff in Hy. destruct Hy as (x & <- & Hx).
  cbv zeta. apply square_upto; [lia|]. apply within_sub; [lia| |auto]. exact (proj1 (Forall_forall _ _) H x Hx).
Qed.

Lemma sqrt_fin_nneg : forall j x, upto j x -> fin (fsqrt x) /\ nneg (fsqrt x).
Proof.
  intros j x U. pose proof (upto_nneg _ _ U) as N. pose proof (upto_fin _ _ U) as F. split.
  - now apply fsqrt_val.
  - now apply fsqrt_nneg.
Qed.

Lemma blend_in01 : forall a c, in01 a -> in01 c ->
  in01 (fmin (fadd (fmul a (lit 11744051 (-24))) (fmul c (lit 5033165 (-24)))) f1).
Proof.
  intros a c A C.
  assert (A' : in01 (fmul a (lit 11744051 (-24)))) by (apply in01_mul; auto; split; reflexivity).
  assert (C' : in01 (fmul c (lit 5033165 (-24)))) by (apply in01_mul; auto; split; reflexivity).
  assert (N : nneg (fadd (fmul a (lit 11744051 (-24))) (fmul c (lit 5033165 (-24)))))
    by (apply fadd_nneg; [apply A'|apply C']).
  split.
  - apply fmin_glb; auto.
  - apply fmin_le_r. reflexivity.
Qed.

Lemma score_in01 : forall k iv lag m, (-50 <= k <= 50)%Z -> (Z.of_nat (length iv) <= 2 ^ 64)%Z ->
  Forall (fun x => pos x /\ within k x) iv -> pos m -> within k m -> in01 (score_signature iv lag m).
Proof.
  intros k iv lag m K Ll H Pm Wm. unfold score_signature.
  destruct (length iv <? lag); [apply in01_0|]. cbv zeta.
  destruct (length (map _ _) =? 0) eqn:L; [apply in01_0|]. apply Nat.eqb_neq in L.
  assert (Wl : Forall (within k) iv) by (eapply Forall_impl; [|exact H]; intros x (_ & W); exact W).
  pose proof (within_fin _ _ Wm) as Fm.
  apply blend_in01.
  - apply mean_in01.
    + intros E. rewrite E in L. cbn in L. lia.
    + rewrite map_length, combine_length. lia.
    + apply Forall_forall. intros y Hy. apply in_map_iff in Hy. destruct Hy as ((a & b) & <- & Hab). cbn [fst snd].
      pose proof (in_combine_l _ _ _ _ Hab) as Ia. pose proof (in_combine_r _ _ _ _ Hab) as Ib.
      rewrite <- (firstn_skipn lag iv) in Wl. apply Forall_app in Wl. destruct Wl as (W1 & W2).
      assert (Wa : within k a). { assert (W3 : Forall (within k) (firstn lag iv ++ skipn lag iv)) by (now apply Forall_app).
        rewrite firstn_skipn in W3. exact (proj1 (Forall_forall _ _) W3 a Ia). }
      apply (similarity_in01 k); auto; [lia|]. exact (proj1 (Forall_forall _ _) W2 b Ib).
  - apply recip1p_in01. destruct (fgt m eps10); [|reflexivity].
    assert (Nl : iv <> []). { intros ->. cbn in L. destruct lag; cbn in L; lia. }
    destruct (sqrt_fin_nneg _ _ (variance_upto k iv m K Nl Wl Wm)) as (Fs & Ns).
    apply ratio_nneg; auto.
Qed.

Lemma score_nn : forall iv lag m, nn (score_signature iv lag m).
Proof.
  intros iv lag m. unfold score_signature. destruct (length iv <? lag); [reflexivity|]. cbv zeta.
  destruct (length (map _ _) =? 0); [reflexivity|]. apply fmin_nn. right. reflexivity.
Qed.

Lemma intervals_spec : forall k beats, (-150 <= k < 127)%Z -> Forall (within k) beats ->
  Forall (fun d => pos d /\ within (k + 1) d) (intervals beats).
Proof.
  intros k beats K H. unfold intervals. apply Forall_forall. intros d Hd. apply filter_In in Hd. destruct Hd as (Hd & P).
  split; [exact P|]. refine (proj1 (Forall_forall _ _) _ d Hd).
  apply adj_Forall2 with (P := within k); auto. intros a b A B. now apply within_sub.
Qed.

Lemma adj_length : forall A B (f : A -> A -> B) l, length (adj f l) = length l - 1.
Proof.
  intros A B f l. induction l as [|a [|b l] IH]; try reflexivity.
  change (adj f (a :: b :: l)) with (f a b :: adj f (b :: l)). cbn [length] in *. lia.
Qed.

Lemma filter_len_le : forall A (p : A -> bool) l, length (filter p l) <= length l.
Proof. intros A p l. induction l as [|x l IH]; cbn [filter length]; [lia|]. destruct (p x); cbn [length]; lia. Qed.

Lemma intervals_length : forall beats, length (intervals beats) <= length beats - 1.
Proof. intros. unfold intervals. rewrite <- (adj_length _ _ (fun a b => fsub b a) beats). apply filter_len_le. Qed.

Lemma best_ok : forall a b c t s, best_signature a b c = Ok (t, s) ->
  nn s /\ (s = a \/ s = b \/ s = c) /\ fle a s = true /\ fle b s = true /\ fle c s = true.
Proof.
  intros a b c t s H. unfold best_signature in H.
  destruct (fisnan a) eqn:Na; [discriminate|]. destruct (fisnan b) eqn:Nb; [discriminate|].
  destruct (fisnan c) eqn:Nc; [discriminate|]. cbn [orb] in H. cbv zeta in H.
  change (nn a) in Na. change (nn b) in Nb. change (nn c) in Nc.
  assert (R : forall x, nn x -> fle x x = true) by apply fle_refl.
  destruct (fgt a b) eqn:G1; cbn [fst snd] in H; unfold fgt in *; fold (flt b a) in G1.
  - fold (flt c a) in H. destruct (flt c a) eqn:G2.
    + assert (s = a) by congruence. subst s. apply flt_fle in G1, G2. repeat split; auto.
    + assert (s = c) by congruence. subst s. apply flt_false_fle in G2; auto. apply flt_fle in G1.
      split; [exact Nc|]. split; [auto|]. split; [exact G2|]. split; [exact (fle_trans _ _ _ G1 G2)|auto].
  - apply flt_false_fle in G1; auto. fold (flt c b) in H. destruct (flt c b) eqn:G2.
    + assert (s = b) by congruence. subst s. apply flt_fle in G2.
      split; [exact Nb|]. split; [auto|]. split; [exact G1|]. split; auto.
    + assert (s = c) by congruence. subst s. apply flt_false_fle in G2; auto.
      split; [exact Nc|]. split; [auto|]. split; [exact (fle_trans _ _ _ G1 G2)|]. split; auto.
Qed.

Lemma best_total : forall a b c, nn a -> nn b -> nn c -> exists r, best_signature a b c = Ok r.
Proof. intros a b c A B C. unfold best_signature, fisnan. rewrite A, B, C. cbn [orb]. eexists. reflexivity. Qed.

Lemma in01_nn : forall x, in01 x -> nn x.
Proof. intros x H. apply fin_nn. now apply in01_fin. Qed.

(** ** Steady beats *)
Lemma sub_self : forall d, fin d -> fabs (fsub d d) = f0.
Proof.
  intros d F. destruct (fsub_fx d d F F) as (N & E). rewrite Rminus_eq_0, rnd_0, sat_0 in E.
  assert (Fz : fin (fsub d d)) by (apply fin_iff; auto; rewrite E; pose proof big_pos; lra).
  rewrite (fx_fin _ Fz) in E. set (z := fsub d d) in *. clearbody z. clear N.
  destruct z as [s| | |s m e b]; try discriminate Fz; [reflexivity|exfalso].
  cbn [B2R] in E. apply eq_0_F2R in E. destruct s; discriminate E.
Qed.

Lemma zero_div : forall m, fin m -> pos m -> fdiv f0 m = f0.
Proof. intros m F P. destruct m as [[]| | |[]]; try discriminate; reflexivity. Qed.

Lemma similarity_self : forall m d, fin m -> pos m -> fin d -> similarity m d d = f1.
Proof.
  intros m d Fm Pm Fd. unfold similarity. rewrite sub_self, zero_div by auto. apply B2SF_inj. vm_compute. reflexivity.
Qed.

Lemma fx_inj : forall x y, nn x -> nn y -> pos x -> fx x = fx y -> x = y.
Proof.
  intros x y Nx Ny P E. apply PeakPickingProofs.fle_antisym_pos; auto; apply fle_intro; auto; lra.
Qed.

Lemma sum_ones : forall c j, (0 <= j)%Z -> (j + Z.of_nat c <= 16777216)%Z ->
  fold_left fadd (repeat f1 c) (z2f j) = z2f (j + Z.of_nat c).
Proof.
  intros c. induction c as [|c IH]; intros j J0 J; cbn [repeat fold_left].
  - now rewrite Z.add_0_r.
  - replace (fadd (z2f j) f1) with (z2f (j + 1)).
    + rewrite IH by lia. f_equal. lia.
    + destruct (z2f_exact j ltac:(lia)) as (F & E). destruct (z2f_exact (j + 1) ltac:(lia)) as (F' & E').
      destruct (fadd_fx _ _ F fin_f1) as (N & V).
      apply fx_inj; auto; [now apply fin_nn| |].
      * apply flt_intro; [reflexivity|now apply fin_nn|]. rewrite (fx_fin _ F'), E'. cbn. apply IZR_lt. lia.
      * rewrite V, E, B2R_f1, <- plus_IZR, <- E', rnd_B2R, (fx_fin _ F'), sat_id; auto.
        pose proof (B2R_lt (z2f (j + 1))). lra.
Qed.

Lemma ones_mean : forall c, 1 <= c -> (Z.of_nat c <= 16777216)%Z -> fdiv (fsum (repeat f1 c)) (n2f c) = f1.
Proof.
  intros c C1 C2. unfold fsum, n2f. change f0 with (z2f 0). rewrite sum_ones by lia. rewrite Z.add_0_l.
  destruct (z2f_exact (Z.of_nat c) ltac:(lia)) as (F & E). apply fdiv_self; auto.
  apply flt_intro; [reflexivity|now apply fin_nn|]. rewrite (fx_fin _ F), E. cbn. apply IZR_lt. lia.
Qed.

Lemma combine_repeat : forall A (x : A) a b, combine (repeat x a) (repeat x b) = repeat (x, x) (Nat.min a b).
Proof. intros A x a. induction a as [|a IH]; intros [|b]; cbn [repeat combine Nat.min]; auto. now rewrite IH. Qed.

Lemma skipn_repeat : forall A (x : A) a n, skipn a (repeat x n) = repeat x (n - a).
Proof. intros A x a. induction a as [|a IH]; intros [|n]; cbn [skipn repeat Nat.sub]; auto. Qed.

Lemma map_repeat : forall A B (f : A -> B) x n, map f (repeat x n) = repeat (f x) n.
Proof. intros A B f x n. induction n as [|n IH]; cbn [repeat map]; auto. now rewrite IH. Qed.

(** All lags score alike. *)
Lemma steady_score : forall d n m lag, fin m -> pos m -> fin d -> lag < n -> (Z.of_nat n <= 16777216)%Z ->
  score_signature (repeat d n) lag m =
  fmin (fadd (fmul f1 (lit 11744051 (-24)))
             (fmul (fdiv f1 (fadd f1 (if fgt m eps10 then fdiv (fsqrt (variance (repeat d n) m)) m else f1)))
                   (lit 5033165 (-24)))) f1.
Proof.
  intros d n m lag Fm Pm Fd L Ln. unfold score_signature. rewrite repeat_length.
  destruct (n <? lag) eqn:E; [apply Nat.ltb_lt in E; lia|]. cbv zeta.
  rewrite skipn_repeat, combine_repeat, Nat.min_r, map_repeat, repeat_length by lia. cbn [fst snd].
  destruct (n - lag =? 0) eqn:E0; [apply Nat.eqb_eq in E0; lia|].
  rewrite similarity_self, ones_mean by (auto; lia). reflexivity.
Qed.

Lemma adj_repeat : forall A B (f : A -> A -> B) (v : B) l d,
  (forall i, S i < length l -> f (nth i l d) (nth (S i) l d) = v) -> adj f l = repeat v (length l - 1).
Proof.
  intros A B f v l d. induction l as [|a [|b l] IH]; intros H; try reflexivity.
  change (adj f (a :: b :: l)) with (f a b :: adj f (b :: l)).
  rewrite IH.
  - pose proof (H 0 ltac:(cbn [length]; lia)) as H0. cbn [nth] in H0. rewrite H0. cbn [length].
    replace (S (S (length l)) - 1) with (S (S (length l) - 1)) by lia. reflexivity.
  - intros i Hi. apply (H (S i)). cbn [length] in *. lia.
Qed.

Lemma filter_repeat : forall A (p : A -> bool) x n, p x = true -> filter p (repeat x n) = repeat x n.
Proof. intros A p x n H. induction n as [|n IH]; cbn [repeat filter]; auto. now rewrite H, IH. Qed.
