(** Sharper bounds on the key scores of non-negative chroma: the built-in profiles differ by a bounded factor, so the
    scores stay small even where the per-mode normalization is skipped. *)
From Coq Require Import ZArith Reals Lra Lia Sorted.
From Flocq Require Import Core.
From Verif Require Import Rust F32 F32Facts F32More ListFacts Sorting SortingFacts Bounds FloatSums NoveltyProofs KeyNotation KeyTemplates
  KeyTemplatesProofs KeyDetector KeyDetectorProofs KeyBoundsProofs PeakPickingProofs KeyTieProofs KeyVariantsProofs.

Definition profile (t : list f32) : Prop :=
  length t = 12 /\ Forall (fun x => fin x /\ (/ 16 <= B2R x <= 3 / 4)%R) t.
Lemma builtin_profile : forall s k, profile (template_of (new_templates s) k).
Proof.
  intros s k. split; [apply template_len|]. apply Forall_forall. intros x I. exact (template_range s k x I).
Qed.

Lemma rnd_le_half : forall r b, (bpow radix2 (-28) <= r)%R -> (rnd r <= b)%R -> (bpow radix2 (-28) <= b)%R.
Proof.
  intros r b H L. apply rnd_mono in H. rewrite rnd_bpow in H by lia. lra.
Qed.

Lemma rnd_lower : forall r, (0 <= r)%R -> (r / 2 - bpow radix2 (-150) <= rnd r)%R.
Proof.
  intros r H. destruct (rnd_bounds r H) as (L & _). unfold u, eta in L.
  assert (U : (bpow radix2 (-24) <= / 2)%R) by (cbn; lra). nra.
Qed.

Lemma pow_add : forall a b, (bpow radix2 a * bpow radix2 b)%R = bpow radix2 (a + b).
Proof. intros a b. symmetry. apply bpow_plus. Qed.

(** Two profiles give dot products within a fixed factor of each other. *)
Lemma dot_ratio : forall k ch t t', (0 <= k <= 70)%Z -> length ch = 12 -> Forall (fun x => nneg x /\ within k x) ch ->
  profile t -> profile t' ->
  nneg (dot ch t) /\ nneg (dot ch t') /\ fin (dot ch t) /\ fin (dot ch t') /\
  (B2R (dot ch t') <= bpow radix2 31 * B2R (dot ch t) + bpow radix2 (-115))%R.
Proof.
  intros k ch t t' K L C (Lt & T) (Lt' & T').
  assert (Ws : Forall (within k) ch) by (eapply Forall_impl; [|exact C]; now intros x (_ & X)).
  assert (P0 : forall q, Forall (fun x => fin x /\ (/ 16 <= B2R x <= 3 / 4)%R) q -> Forall (within 0) q).
  { intros q Q. eapply Forall_impl; [|exact Q]. intros x (F & R). split; [exact F|]. rewrite Rabs_right by lra. cbn [bpow]. lra. }
  assert (Nt : forall q, Forall (fun x => fin x /\ (/ 16 <= B2R x <= 3 / 4)%R) q -> forall x, In x q -> nneg x /\ fin x /\ fle x f1 = true).
  { intros q Q x I. apply (proj1 (Forall_forall _ _) Q) in I as (F & R). split; [|split; [exact F|]].
    - apply nneg_iff; [now apply fin_nn|]. rewrite fx_fin by auto. lra.
    - apply fle_intro; [now apply fin_nn|reflexivity|]. rewrite fx_f1, fx_fin by auto. lra. }
  assert (El : forall q, Forall (fun x => fin x /\ (/ 16 <= B2R x <= 3 / 4)%R) q ->
     Forall (fun x => nneg x) (map (fun xy => fmul (fst xy) (snd xy)) (combine ch q))).
  { intros q Q. apply Forall_forall. intros x I. apply in_map_iff in I as ((a & b) & <- & I). cbn [fst snd].
    pose proof (in_combine_l _ _ _ _ I) as Ia. pose proof (in_combine_r _ _ _ _ I) as Ib.
    apply (proj1 (Forall_forall _ _) C) in Ia as (Na & Wa). destruct (Nt q Q b Ib) as (Nb & Fb & _).
    apply fmul_nneg_fin; auto. now apply within_fin in Wa. }
  assert (D : within (k + 25) (dot ch t)) by (apply dot_within; auto; lia).
  assert (D' : within (k + 25) (dot ch t')) by (apply dot_within; auto; lia).
  assert (N : nneg (dot ch t)) by (apply fsum_nneg; now apply El).
  assert (N' : nneg (dot ch t')) by (apply fsum_nneg; now apply El).
  split; [exact N|]. split; [exact N'|]. split; [now apply within_fin in D|]. split; [now apply within_fin in D'|].
  pose proof N as Nr. apply nneg_fx in Nr. rewrite fx_fin in Nr by now apply within_fin in D.
  set (d := B2R (dot ch t)) in *.
  set (Y := (32 * (d + bpow radix2 (-150)))%R).
  pose proof (bpow_gt_0 radix2 (-150)) as Tiny.
  (* every bin is at most Y *)
  assert (X : forall x, In x ch -> (0 <= B2R x <= Y)%R).
  { intros x I. pose proof (proj1 (Forall_forall _ _) C _ I) as (Nx & Wx). pose proof (within_fin _ _ Wx) as Fx.
    pose proof Nx as Rx. apply nneg_fx in Rx. rewrite fx_fin in Rx by auto. split; [exact Rx|].
    apply (In_nth _ _ f0) in I as (i & Hi & Ei).
    assert (Ht : i < length t) by lia. pose proof (nth_In t f0 Ht) as It. set (b := nth i t f0) in *.
    assert (Ic : In (x, b) (combine ch t)).
    { apply (nth_error_In _ i). apply nth_error_combine_iff. split; [rewrite <- Ei|]; now apply nth_error_nth'. }
    pose proof (proj1 (Forall_forall _ _) T _ It) as (Fb & Rb).
    destruct (fmul_fx x b Fx Fb) as (Np & Ep).
    assert (Le : fle (fmul x b) (dot ch t) = true).
    { unfold dot, fsum. apply fsum_ge_elem; [reflexivity|now apply El|]. apply in_map_iff. exists (x, b). split; [reflexivity|exact Ic]. }
    apply fle_fx in Le. rewrite Ep, (fx_fin (dot ch t)) in Le by now apply within_fin in D. fold d in Le.
    pose proof (rnd_lower (B2R x * / 16)) as RL.
    assert (M : (rnd (B2R x * / 16) <= rnd (B2R x * B2R b))%R) by (apply rnd_mono; apply Rmult_le_compat_l; lra).
    assert (Sx : (sat (rnd (B2R x * B2R b)) = rnd (B2R x * B2R b))%R).
    { apply sat_id. destruct Wx as (_ & Wx). rewrite Rabs_right in Wx by lra.
      assert (Wp : (Rabs (B2R x * B2R b) <= bpow radix2 k)%R).
      { rewrite Rabs_right; [|apply Rle_ge; apply Rmult_le_pos; lra]. nra. }
      apply rnd_within in Wp; [|lia]. apply Rabs_le_inv in Wp.
      assert (Bk : (bpow radix2 k <= big)%R) by (unfold big; apply bpow_le; lia). lra. }
    rewrite Sx in Le. unfold Y. lra. }
  assert (Yp : (0 < Y)%R) by (unfold Y; lra).
  destruct (mag radix2 Y) as (e & He). specialize (He ltac:(lra)). rewrite Rabs_right in He by lra. destruct He as (He1 & He2).
  assert (Hd : (d <= bpow radix2 95)%R).
  { destruct D as (_ & D). rewrite Rabs_right in D by (fold d; lra). fold d in D.
    pose proof (bpow_le radix2 (k + 25) 95 ltac:(lia)). lra. }
  assert (E1 : (-144 <= e)%Z).
  { assert (Q : (bpow radix2 (-145) <= Y)%R).
    { unfold Y. replace (bpow radix2 (-145)) with (32 * bpow radix2 (-150))%R by (change 32%R with (bpow radix2 5); apply pow_add). nra. }
    assert (Z : (-145 < e)%Z) by (apply (lt_bpow radix2); lra). lia. }
  assert (E2 : (e <= 102)%Z).
  { assert (Q : (Y < bpow radix2 102)%R).
    { unfold Y. pose proof (bpow_le radix2 (-150) 95 ltac:(lia)).
      replace (bpow radix2 102) with (128 * bpow radix2 95)%R by (change 128%R with (bpow radix2 7); apply pow_add).
      pose proof (bpow_gt_0 radix2 95). lra. }
    assert (Z : (e - 1 < 102)%Z) by (apply (lt_bpow radix2); lra). lia. }
  assert (De : within (e + 25) (dot ch t')).
  { unfold dot. apply within_sum; [lia|]. apply Forall_forall. intros p I. apply in_map_iff in I as ((a & b) & <- & I).
    cbn [fst snd]. pose proof (in_combine_l _ _ _ _ I) as Ia. pose proof (in_combine_r _ _ _ _ I) as Ib.
    replace e with (e + 0)%Z by lia. apply within_mul; [lia| |exact (proj1 (Forall_forall _ _) (P0 _ T') _ Ib)].
    split; [apply (proj1 (Forall_forall _ _) Ws) in Ia; now apply within_fin in Ia|].
    pose proof (X a Ia) as Xa. rewrite Rabs_right by lra. lra. }
  destruct De as (_ & De). apply Rabs_le_inv in De. destruct De as (_ & De).
  assert (Q : (bpow radix2 (e + 25) <= bpow radix2 26 * Y)%R).
  { replace (e + 25)%Z with (26 + (e - 1))%Z by lia. rewrite <- pow_add. apply Rmult_le_compat_l; [apply bpow_ge_0|exact He1]. }
  unfold Y in Q. rewrite <- Rmult_assoc in Q.
  replace (bpow radix2 26 * 32)%R with (bpow radix2 31) in Q by (change 32%R with (bpow radix2 5); symmetry; apply pow_add).
  rewrite Rmult_plus_distr_l, pow_add in Q. replace (31 + -150)%Z with (-119)%Z in Q by lia.
  pose proof (bpow_le radix2 (-119) (-115) ltac:(lia)). lra.
Qed.

(** One frame's contribution to a raw score. *)
Definition term (t : list f32) (x : option f32) (ch : list f32) : f32 :=
  match x with None => dot ch t | Some w => fmul w (dot ch t) end.
Lemma tiny9_up : (fx tiny9 < bpow radix2 (-28))%R.
Proof.
  unfold tiny9. destruct (lit_fx 9007199 (-53)) as (_ & E). rewrite E.
  change (F2R (Float radix2 9007199 (-53))) with (IZR 9007199 * bpow radix2 (-53))%R.
  assert (B : (Rabs (rnd (IZR 9007199 * bpow radix2 (-53))) <= bpow radix2 (-29))%R).
  { apply rnd_within; [lia|]. rewrite Rabs_right; cbn; lra. }
  apply Rabs_le_inv in B. pose proof (bpow_lt radix2 (-29) (-28) ltac:(lia)).
  rewrite sat_id; [lra|]. pose proof (bpow_le radix2 (-29) 128 ltac:(lia)). unfold big. lra.
Qed.
Lemma term_small : forall k j ch x t t', (0 <= k)%Z -> (0 <= j)%Z -> (k + j <= 70)%Z -> length ch = 12 ->
  Forall (fun x => nneg x /\ within k x) ch -> (match x with None => True | Some w => nneg w /\ within j w end) ->
  profile t -> profile t' -> fle (term t x ch) tiny9 = true -> within 4 (term t' x ch).
Proof.
  intros k j ch x t t' K J KJ L C W T T' H. assert (K70 : (0 <= k <= 70)%Z) by lia.
  destruct (dot_ratio k ch t t' K70 L C T T') as (N & N' & F & F' & R).
  pose proof tiny9_up as Up. apply fle_fx in H.
  assert (D0 : (0 <= B2R (dot ch t))%R) by (apply nneg_fx in N; rewrite fx_fin in N by auto; exact N).
  assert (D0' : (0 <= B2R (dot ch t'))%R) by (apply nneg_fx in N'; rewrite fx_fin in N' by auto; exact N').
  pose proof (bpow_le radix2 (-115) 0 ltac:(lia)) as S1. cbn [bpow] in S1. fold (bpow radix2 (-115)) in S1.
  assert (E8 : (bpow radix2 31 * bpow radix2 (-28) = 8)%R) by (rewrite pow_add; reflexivity).
  assert (E16 : (bpow radix2 4 = 16)%R) by reflexivity.
  pose proof (bpow_gt_0 radix2 31) as P31. pose proof (bpow_gt_0 radix2 (-28)) as P28.
  destruct x as [w|]; cbn [term] in *.
  - destruct W as (Nw & Fw & Ww). apply nneg_fx in Nw. rewrite fx_fin in Nw by auto. rewrite Rabs_right in Ww by lra.
    destruct (fmul_fx w (dot ch t) Fw F) as (_ & E). rewrite E in H.
    assert (Hr : (B2R w * B2R (dot ch t) < bpow radix2 (-28))%R).
    { destruct (Rlt_or_le (B2R w * B2R (dot ch t)) (bpow radix2 (-28))) as [Q|Q]; [exact Q|exfalso].
      apply rnd_mono in Q. rewrite rnd_bpow in Q by lia. apply sat_mono in Q. rewrite sat_id in Q; [lra|].
      pose proof (bpow_le radix2 (-28) 128 ltac:(lia)). unfold big. lra. }
    destruct (fmul_fx w (dot ch t') Fw F') as (N2 & E2).
    apply (within_of 4 _ (rnd (B2R w * B2R (dot ch t')))); [lia|exact N2|exact E2|]. apply rnd_within; [lia|].
    rewrite Rabs_right by (apply Rle_ge; now apply Rmult_le_pos).
    apply Rle_trans with (B2R w * (bpow radix2 31 * B2R (dot ch t) + bpow radix2 (-115)))%R; [now apply Rmult_le_compat_l|].
    rewrite Rmult_plus_distr_l.
    assert (A : (B2R w * bpow radix2 (-115) <= 1)%R).
    { apply Rle_trans with (bpow radix2 j * bpow radix2 (-115))%R; [apply Rmult_le_compat_r; [apply bpow_ge_0|exact Ww]|].
      rewrite pow_add. change 1%R with (bpow radix2 0). apply bpow_le. lia. }
    assert (B : (B2R w * (bpow radix2 31 * B2R (dot ch t)) <= 8)%R).
    { rewrite <- E8. replace (B2R w * (bpow radix2 31 * B2R (dot ch t)))%R with (bpow radix2 31 * (B2R w * B2R (dot ch t)))%R by ring.
      apply Rmult_le_compat_l; lra. }
    rewrite E16. lra.
  - rewrite fx_fin in H by auto. split; [exact F'|]. rewrite Rabs_right by lra. rewrite E16.
    assert (B : (bpow radix2 31 * B2R (dot ch t) <= 8)%R) by (rewrite <- E8; apply Rmult_le_compat_l; lra).
    lra.
Qed.

(** The raw scores as sums of terms. *)
Definition terms (c : list (list f32)) (w : option (list f32)) (t : list f32) : list f32 :=
  match w with
  | None => map (fun ch => term t None ch) c
  | Some ws => map (fun cw => term t (Some (snd cw)) (fst cw)) (filter (fun cw => fgt (snd cw) f0) (combine c ws))
  end.
Lemma wsd_terms : forall c w t, weighted_sum_dot c w t = fsum (terms c w t).
Proof.
  intros c w t. unfold weighted_sum_dot, terms, fsum. destruct w as [ws|].
  - assert (G : forall (l : list (list f32 * f32)) a,
      fold_left (fun acc cw => if fgt (snd cw) f0 then fadd acc (fmul (snd cw) (dot (fst cw) t)) else acc) l a =
      fold_left fadd (map (fun cw => term t (Some (snd cw)) (fst cw)) (filter (fun cw => fgt (snd cw) f0) l)) a).
    { induction l as [|x l IH]; intros a; cbn [fold_left filter map]; [reflexivity|].
      destruct (fgt (snd x) f0); cbn [map fold_left]; apply IH. }
    apply G.
  - generalize f0. induction c as [|x l IH]; intros a; cbn [fold_left map]; [reflexivity|]. apply IH.
Qed.

Lemma terms_nneg : forall k j c w t, (0 <= k)%Z -> (0 <= j)%Z -> (k + j <= 70)%Z -> sane_frames k c ->
  sane_weights j (length c) w -> profile t -> Forall (fun x => nneg x) (terms c w t).
Proof.
  intros k j c w t K J KJ C W T. assert (K70 : (0 <= k <= 70)%Z) by lia.
  assert (G : forall ch, In ch c -> nneg (dot ch t) /\ fin (dot ch t)).
  { intros ch I. apply (proj1 (Forall_forall _ _) C) in I as (L & F).
    destruct (dot_ratio k ch t t K70 L F T T) as (N & _ & Fd & _). auto. }
  unfold terms. apply Forall_forall. intros x I. destruct w as [ws|].
  - apply in_map_iff in I as ((ch & v) & <- & I). apply filter_In in I as (I & _). cbn [fst snd term].
    pose proof (in_combine_l _ _ _ _ I) as Ia. pose proof (in_combine_r _ _ _ _ I) as Ib.
    destruct W as (_ & W). apply (proj1 (Forall_forall _ _) W) in Ib as (Nv & Wv). destruct (G ch Ia) as (N & F).
    apply fmul_nneg_fin; auto. now apply within_fin in Wv.
  - apply in_map_iff in I as (ch & <- & I). cbn [term]. now apply G.
Qed.

(** If the score of one profile is at most 1e-9, the scores of all profiles are small. *)
Lemma raw_small : forall k j c w t t', (0 <= k)%Z -> (0 <= j)%Z -> (k + j <= 70)%Z -> sane_frames k c ->
  sane_weights j (length c) w -> profile t -> profile t' -> fle (weighted_sum_dot c w t) tiny9 = true ->
  within 29 (weighted_sum_dot c w t').
Proof.
  intros k j c w t t' K J KJ C W T T' H. rewrite wsd_terms in H |- *.
  pose proof (terms_nneg k j c w t K J KJ C W T) as N.
  assert (Ge : forall x, In x (terms c w t) -> fle x tiny9 = true).
  { intros x I. apply fle_trans with (fsum (terms c w t)); [|exact H]. unfold fsum. apply fsum_ge_elem; auto. }
  replace 29%Z with (4 + 25)%Z by reflexivity. apply within_sum; [lia|].
  unfold terms in *. apply Forall_forall. intros x I. destruct w as [ws|].
  - apply in_map_iff in I as ((ch & v) & <- & I). cbn [fst snd].
    assert (Gt : fle (term t (Some v) ch) tiny9 = true).
    { apply Ge. apply in_map_iff. exists (ch, v). split; [reflexivity|exact I]. }
    apply filter_In in I as (I & _).
    pose proof (in_combine_l _ _ _ _ I) as Ia. pose proof (in_combine_r _ _ _ _ I) as Ib.
    apply (proj1 (Forall_forall _ _) C) in Ia as (L & F). destruct W as (_ & W). apply (proj1 (Forall_forall _ _) W) in Ib.
    now apply (term_small k j ch (Some v) t t').
  - apply in_map_iff in I as (ch & <- & I).
    assert (Gt : fle (term t None ch) tiny9 = true).
    { apply Ge. apply in_map_iff. exists ch. split; [reflexivity|exact I]. }
    apply (proj1 (Forall_forall _ _) C) in I as (L & F). now apply (term_small k j ch None t t').
Qed.

Lemma raw_nneg : forall k j c w t, (0 <= k)%Z -> (0 <= j)%Z -> (k + j <= 70)%Z -> sane_frames k c ->
  sane_weights j (length c) w -> profile t ->
  nneg (weighted_sum_dot c w t) /\ within (k + j + 50) (weighted_sum_dot c w t).
Proof.
  intros k j c w t K J KJ C W T. split.
  - rewrite wsd_terms. apply fsum_nneg. now apply (terms_nneg k j).
  - apply wsd_within; auto; [lia| | |].
    + eapply Forall_impl; [|exact C]. intros ch (_ & F). eapply Forall_impl; [|exact F]. now intros x (_ & H).
    + destruct w as [ws|]; [|exact I]. destruct W as (_ & W). eapply Forall_impl; [|exact W]. now intros x (_ & H).
    + destruct T as (_ & T). eapply Forall_impl; [|exact T]. intros x (F & R). split; [exact F|].
      rewrite Rabs_right by lra. cbn [bpow]. lra.
Qed.

Definition good_scores (m : Z) (l : list score) : Prop := Forall (fun ks => nneg (snd ks) /\ within m (snd ks)) l.

Lemma mode_max_ge : forall b l, Forall (fun ks => nn (snd ks)) l -> nneg (mode_max b l) /\
  forall k s, In (k, s) l -> is_major k = b -> fle s (mode_max b l) = true.
Proof.
  intros b l H. unfold mode_max.
  destruct (fold_fmax_spec (map snd (filter (fun ks => Bool.eqb (is_major (fst ks)) b) l)) f0 eq_refl) as (N & G & E & U).
  split; [exact G|]. intros k' s' I' B'. apply U.
  - apply in_map_iff. exists (k', s'). split; [reflexivity|]. apply filter_In. split; [exact I'|]. cbn [fst]. rewrite B'. now destruct b.
  - exact (proj1 (Forall_forall _ _) H _ I').
Qed.

Lemma fgt_flt : forall x y, fgt x y = flt y x. Proof. reflexivity. Qed.
Lemma normalize_cases : forall l,
  (mode_normalize l = l /\ (flt tiny9 (mode_max true l) = false \/ flt tiny9 (mode_max false l) = false)) \/
  ((forall b, flt tiny9 (mode_max b l) = true) /\
   mode_normalize l = map (fun ks => (fst ks, fdiv (snd ks) (mode_max (is_major (fst ks)) l))) l).
Proof.
  intros l. unfold mode_normalize. cbv zeta. rewrite !fgt_flt.
  destruct (flt tiny9 (mode_max true l)) eqn:A; cbn [andb]; [|left; split; [reflexivity|now left]].
  destruct (flt tiny9 (mode_max false l)) eqn:B; [right|left; split; [reflexivity|now right]].
  split; [intros [|]; [exact A|exact B]|]. apply map_ext. intros ks. now destruct (is_major (fst ks)).
Qed.
Lemma tiny9_nn : nn tiny9. Proof. reflexivity. Qed.
Lemma tiny9_nneg : nneg tiny9. Proof. reflexivity. Qed.

Lemma normalized_small : forall k j c w s, (0 <= k)%Z -> (0 <= j)%Z -> (k + j <= 70)%Z -> sane_frames k c ->
  sane_weights j (length c) w -> good_scores 29 (mode_normalize (raw_scores c (new_templates s) w)).
Proof.
  intros k j c w ts K J KJ C W.
  assert (Rw : forall q, nneg (weighted_sum_dot c w (template_of (new_templates ts) q)) /\
                  within (k + j + 50) (weighted_sum_dot c w (template_of (new_templates ts) q))).
  { intros q. apply raw_nneg; auto. apply builtin_profile. }
  set (l := raw_scores c (new_templates ts) w).
  assert (Il : forall q s, In (q, s) l -> s = weighted_sum_dot c w (template_of (new_templates ts) q)).
  { intros q s I. unfold l, raw_scores in I. apply in_map_iff in I as (x & Eq & _). now injection Eq as -> <-. }
  assert (Nl : Forall (fun ks => nn (snd ks)) l).
  { apply Forall_forall. intros (q & s) I. rewrite (Il q s I). cbn [snd]. destruct (Rw q) as (_ & X). now apply within_nn in X. }
  assert (Ik : forall q, In q all_keys -> In (q, weighted_sum_dot c w (template_of (new_templates ts) q)) l).
  { intros q I. unfold l, raw_scores. apply in_map_iff. exists q. split; [reflexivity|exact I]. }
  clearbody l.
  assert (Small : forall q, In q all_keys -> flt tiny9 (mode_max (is_major q) l) = false -> good_scores 29 l).
  { intros q I F. destruct (mode_max_ge (is_major q) l Nl) as (Nm & Mm).
    apply flt_false_fle in F; [|exact tiny9_nn|now apply nneg_nn].
    pose proof (fle_trans _ _ _ (Mm _ _ (Ik q I) eq_refl) F) as Sm.
    apply Forall_forall. intros (q' & s) I'. rewrite (Il q' s I'). cbn [snd]. split; [apply Rw|].
    apply (raw_small k j c w (template_of (new_templates ts) q)); auto; apply builtin_profile. }
  destruct (normalize_cases l) as [(E & [A|B])|(P & E)]; rewrite E; clear E.
  { apply (Small (Major 0)); [now left|exact A]. }
  { apply (Small (Minor 0)); [unfold all_keys; apply in_app_iff; right; now left|exact B]. }
  apply Forall_forall. intros x I. apply in_map_iff in I as ((q & s) & <- & I). cbn [fst snd].
  assert (Mw : forall b, fin (mode_max b l)).
  { intros b. apply (within_fin (k + j + 50)). apply mode_max_within. apply Forall_forall. intros (q' & s') I'.
    rewrite (Il q' s' I'). cbn [snd]. apply Rw. }
  assert (X : in01 (fdiv s (mode_max (is_major q) l))).
  { destruct (mode_max_ge (is_major q) l Nl) as (Nm & Mm). apply fdiv_le_1.
    - rewrite (Il q s I). apply Rw.
    - exact (fle_flt_trans f0 _ _ tiny9_nneg (P _)).
    - apply Mw.
    - now apply (Mm q s). }
  split; [apply X|]. apply (within_mono 0); [lia|]. now apply upto_within, in01_upto.
Qed.

Lemma bonus_good : forall m l, (0 <= m < 127)%Z -> good_scores m l -> good_scores (m + 1) (circle_bonus l).
Proof.
  intros m l M H. assert (W : table_within m l) by (eapply Forall_impl; [|exact H]; now intros x (_ & X)).
  pose proof (bonus_within m l M W) as B. unfold good_scores. apply Forall_forall. intros x I. split; [|exact (proj1 (Forall_forall _ _) B _ I)].
  unfold circle_bonus in I. apply in_map_iff in I as (ks & <- & I). cbv zeta.
  pose proof (proj1 (Forall_forall _ _) H _ I) as (Ns & Ws).
  destruct (fgt (snd (top_of_mode (is_major (fst ks)) l)) tiny9) eqn:G; [|exact Ns].
  destruct (circle_dist _ _) as [d|] eqn:Ed; [|exact Ns]. destruct (d <=? 2)%Z eqn:L; [|exact Ns]. cbn [snd]. apply Z.leb_le in L.
  pose proof (circle_dist_nonneg _ _ _ Ed) as P. rewrite fgt_flt in G.
  pose proof (top_within m (is_major (fst ks)) l W) as Tw.
  apply fadd_nneg; [exact Ns|]. apply fmul_nneg_fin.
  - now apply within_fin in Tw.
  - assert (D : d = 0%Z \/ d = 1%Z \/ d = 2%Z) by lia. destruct D as [->|[->| ->]]; vm_compute; reflexivity.
  - apply flt_fle. exact (fle_flt_trans f0 _ _ tiny9_nneg G).
  - assert (D : d = 0%Z \/ d = 1%Z \/ d = 2%Z) by lia. destruct D as [->|[->| ->]]; vm_compute; reflexivity.
Qed.

(** The final scores of sane non-negative chroma: between 0 and 2^30 whatever the weights. *)
Lemma final_small : forall k j c w s, (0 <= k)%Z -> (0 <= j)%Z -> (k + j <= 70)%Z -> sane_frames k c ->
  sane_weights j (length c) w -> good_scores 30 (final_scores c (new_templates s) w).
Proof.
  intros k j c w s K J KJ C W. apply (bonus_good 29); [lia|]. now apply (normalized_small k j).
Qed.
