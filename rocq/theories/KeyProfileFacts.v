(** Rounding of the raw key scores and the two ways to the top of the score table. *)
From Coq Require Import ZArith Reals Lra Lia Sorted Permutation.
From Flocq Require Import Core.
From Verif Require Import Rust F32 F32Facts F32More ListFacts Sorting SortingFacts Bounds FloatSums NoveltyProofs KeyNotation KeyTemplates
  KeyTemplatesProofs KeyDetector KeyDetectorProofs KeyBoundsProofs PeakPickingProofs KeyTieProofs KeyVariantsProofs KeyScoresProofs
  FourierFacts TempoSpectrumFacts.
Local Open Scope R_scope.

(** ** One frame against one template. *)
Definition rdot (ch t : list f32) : R := sumn (fun b => B2R (nth b ch f0) * B2R (nth b t f0)) 12.

Lemma nth_mulmap : forall (a c : list f32) b, length a = 12%nat -> length c = 12%nat -> (b < 12)%nat ->
  nth b (map (fun xy => fmul (fst xy) (snd xy)) (combine a c)) f0 = fmul (nth b a f0) (nth b c f0).
Proof.
  intros a c b La Lc Hb.
  rewrite (nth_indep _ f0 (fmul (fst (f0, f0)) (snd (f0, f0)))) by (rewrite map_length, combine_length; lia).
  rewrite (map_nth (fun xy : f32 * f32 => fmul (fst xy) (snd xy))). rewrite combine_nth by lia. reflexivity.
Qed.

Lemma dot_near : forall ch t, length ch = 12%nat -> Forall (fun x => nneg x /\ within 20 x) ch -> profile t ->
  0 <= rdot ch t /\ rdot ch t * (1 - 13 * u) - 12 * eta <= B2R (dot ch t) <= rdot ch t * (1 + 26 * u) + 24 * eta.
Proof.
  intros ch t L C T. pose proof u_val as U. pose proof eta_pos as E.
  destruct (dot_ratio 20 ch t t ltac:(lia) L C T T) as (Nd & _ & Fd & _).
  destruct T as (Lt & T).
  set (ps := map (fun xy => fmul (fst xy) (snd xy)) (combine ch t)).
  assert (Lp : length ps = 12%nat) by (unfold ps; rewrite map_length, combine_length; lia).
  assert (X : forall b, (b < 12)%nat -> nneg (nth b ch f0) /\ fin (nth b ch f0) /\ 0 <= B2R (nth b ch f0) <= 1048576).
  { intros b Hb. assert (I : In (nth b ch f0) ch) by (apply nth_In; lia).
    apply (proj1 (Forall_forall _ _) C) in I as (N & W). pose proof (within_fin _ _ W) as F. split; [exact N|]. split; [exact F|].
    split; [now apply nneg_B2R|]. destruct W as (_ & W). apply Rabs_le_inv in W. change (bpow radix2 20) with 1048576 in W. lra. }
  assert (Y : forall b, (b < 12)%nat -> fin (nth b t f0) /\ / 16 <= B2R (nth b t f0) <= 3 / 4).
  { intros b Hb. assert (I : In (nth b t f0) t) by (apply nth_In; lia). exact (proj1 (Forall_forall _ _) T _ I). }
  assert (P : forall b, (b < 12)%nat ->
    let v := B2R (nth b ch f0) * B2R (nth b t f0) in
    0 <= v /\ nneg (nth b ps f0) /\ v * (1 - u) - eta <= B2R (nth b ps f0) <= v * (1 + u) + eta).
  { intros b Hb v. destruct (X b Hb) as (Nx & Fx & Bx), (Y b Hb) as (Fy & By).
    assert (V : 0 <= v <= 1048576) by (unfold v; split; nra).
    unfold ps. rewrite nth_mulmap by assumption.
    destruct (fmul_fx _ _ Fx Fy) as (N & Ef).
    assert (Rv : Rabs (rnd v) <= 1048576).
    { change 1048576 with (IZR 1048576). rewrite <- (rnd_Z 1048576) by lia. rewrite Rabs_pos_eq by (apply rnd_nonneg; lra).
      apply rnd_mono. lra. }
    assert (F : fin (fmul (nth b ch f0) (nth b t f0))).
    { apply fin_iff; [exact N|]. rewrite Ef. fold v. rewrite sat_id; apply Rabs_le_inv in Rv;
        assert (1048576 < big) by (unfold big; change 1048576 with (bpow radix2 20); apply bpow_lt; lia); try lra. }
    split; [lra|]. split.
    - apply fmul_nneg_fin; auto. apply fle_intro; [reflexivity|now apply fin_nn|]. rewrite fx_f0, (fx_fin _ Fy). lra.
    - rewrite (B2R_fmul _ _ F). fold v. apply rnd_bounds. lra. }
  assert (Np : Forall (fun x => nneg x) ps).
  { apply Forall_forall. intros x I. apply (In_nth _ _ f0) in I as (b & Hb & <-). rewrite Lp in Hb. now apply P. }
  pose proof (fsum_bounds ps Np Fd) as B. change (fsum ps) with (dot ch t) in B. rewrite Lp in B.
  pose proof (pow_ge_1m 12) as G1. pose proof (pow_le_1p 12 ltac:(rewrite U; simpl; lra)) as G2.
  replace (INR 12) with 12 in G1, G2 by (simpl; lra).
  assert (D0 : 0 <= rdot ch t) by (apply sumn_nonneg; intros i Hi; now apply P).
  assert (Lo : rdot ch t * (1 - u) - 12 * eta <= Rsum ps).
  { rewrite Rsum_sumn, Lp. unfold rdot.
    replace (_ * (1 - u) - 12 * eta) with (sumn (fun b => B2R (nth b ch f0) * B2R (nth b t f0) * (1 - u) - eta) 12).
    - apply sumn_le. intros i Hi. now apply P.
    - cbn [sumn]. ring. }
  assert (Hi : Rsum ps <= rdot ch t * (1 + u) + 12 * eta).
  { rewrite Rsum_sumn, Lp. unfold rdot.
    replace (_ * (1 + u) + 12 * eta) with (sumn (fun b => B2R (nth b ch f0) * B2R (nth b t f0) * (1 + u) + eta) 12).
    - apply sumn_le. intros i Hi. now apply P.
    - cbn [sumn]. ring. }
  pose proof (Rsum_nonneg ps Np) as S0. set (D := rdot ch t) in *. set (S1 := Rsum ps) in *.
  assert (H1 : S1 * (1 - 12 * u) <= S1 * (1 - u) ^ 12) by (apply Rmult_le_compat_l; lra).
  assert (H2 : S1 * (1 + u) ^ 12 <= S1 * (1 + 2 * 12 * u)) by (apply Rmult_le_compat_l; lra).
  split; [exact D0|]. clear P Np X Y T C. rewrite U in *. split; lra.
Qed.

(** ** All frames against one template. *)
Definition weight_at (w : option (list f32)) (i : nat) : R :=
  match w with None => 1 | Some ws => B2R (nth i ws f0) end.
Definition rscore (c : list (list f32)) (w : option (list f32)) (t : list f32) : R :=
  sumn (fun i => weight_at w i * rdot (nth i c []) t) (length c).
Definition wd (t : list f32) (x : list f32 * f32) : R := B2R (snd x) * rdot (fst x) t.
Definition slop : R := 67108864 * eta.

Lemma term_near : forall ch t v, length ch = 12%nat -> Forall (fun x => nneg x /\ within 20 x) ch -> profile t ->
  nneg v -> within 20 v ->
  fin (fmul v (dot ch t)) /\
  B2R v * rdot ch t * (1 - 14 * u) - slop <= B2R (fmul v (dot ch t)) <= B2R v * rdot ch t * (1 + 28 * u) + slop.
Proof.
  intros ch t v L C T N W. pose proof u_val as U. pose proof eta_pos as E.
  destruct (dot_ratio 20 ch t t ltac:(lia) L C T T) as (Nd & _ & Fd & _).
  destruct (dot_near ch t L C T) as (D0 & Dl & Du).
  pose proof (within_fin _ _ W) as Fv. pose proof (nneg_B2R _ N) as V0.
  assert (V1 : B2R v <= 1048576) by (destruct W as (_ & W); apply Rabs_le_inv in W; change (bpow radix2 20) with 1048576 in W; lra).
  assert (Wd : within 45 (dot ch t)).
  { apply (dot_within 20); [lia| |].
    - eapply Forall_impl; [|exact C]. now intros x (_ & X).
    - destruct T as (_ & T). eapply Forall_impl; [|exact T]. intros x (F & R). split; [exact F|].
      rewrite Rabs_right by lra. cbn [bpow]. lra. }
  assert (F : fin (fmul v (dot ch t))) by (apply (within_fin (20 + 45)); apply within_mul; [lia|exact W|exact Wd]).
  split; [exact F|]. rewrite (B2R_fmul _ _ F).
  pose proof (nneg_B2R _ Nd) as Bd0.
  assert (P0 : 0 <= B2R v * B2R (dot ch t)) by (apply Rmult_le_pos; lra).
  pose proof (rnd_bounds _ P0) as R.
  assert (Lo : B2R v * (rdot ch t * (1 - 13 * u) - 12 * eta) <= B2R v * B2R (dot ch t)) by (apply Rmult_le_compat_l; lra).
  assert (Hi : B2R v * B2R (dot ch t) <= B2R v * (rdot ch t * (1 + 26 * u) + 24 * eta)) by (apply Rmult_le_compat_l; lra).
  assert (VE : B2R v * eta <= 1048576 * eta) by (apply Rmult_le_compat_r; lra).
  assert (VE0 : 0 <= B2R v * eta) by (apply Rmult_le_pos; lra).
  assert (VD0 : 0 <= B2R v * rdot ch t) by (apply Rmult_le_pos; lra).
  replace (B2R v * (rdot ch t * (1 - 13 * u) - 12 * eta)) with (B2R v * rdot ch t * (1 - 13 * u) - 12 * (B2R v * eta)) in Lo by ring.
  replace (B2R v * (rdot ch t * (1 + 26 * u) + 24 * eta)) with (B2R v * rdot ch t * (1 + 26 * u) + 24 * (B2R v * eta)) in Hi by ring.
  unfold slop. set (VD := B2R v * rdot ch t) in *. set (Vd := B2R v * B2R (dot ch t)) in *. set (Ve := B2R v * eta) in *.
  set (r := rnd Vd) in *. clearbody VD Vd Ve r. clear - U E R Lo Hi VE VE0 VD0 P0. rewrite U in *. split; lra.
Qed.

Lemma lsum_sumn : forall A (g : A -> R) (l : list A) d,
  fold_right (fun x s => g x + s) 0 l = sumn (fun i => g (nth i l d)) (length l).
Proof.
  intros A g l d. induction l as [|x l IH]; [reflexivity|]. cbn [fold_right length]. rewrite sumn_shift. cbn [nth]. now rewrite IH.
Qed.

Lemma score_near : forall c w t, sane_frames 20 c -> sane_weights 20 (length c) w -> profile t -> (length c <= Z.to_nat 65536)%nat ->
  let n := INR (length c) in
  0 <= rscore c w t /\
  rscore c w t * (1 - (n + 14) * u) - n * slop <= B2R (weighted_sum_dot c w t) <=
  rscore c w t * (1 + (2 * n + 29) * u) + 2 * n * slop.
Proof.
  intros c w t C W T Ln n. pose proof u_val as U. pose proof eta_pos as E.
  assert (Hn : 0 <= n <= 65536).
  { split; [apply pos_INR|]. unfold n. rewrite INR_IZR_INZ. apply IZR_le. lia. }
  assert (SL : 0 < slop) by (unfold slop; lra).
  destruct (raw_nneg 20 20 c w t ltac:(lia) ltac:(lia) ltac:(lia) C W T) as (Ns & Ws).
  apply within_fin in Ws. rewrite wsd_terms in Ns, Ws |- *.
  pose proof (terms_nneg 20 20 c w t ltac:(lia) ltac:(lia) ltac:(lia) C W T) as Nt.
  assert (K : 0 <= rscore c w t /\ (length (terms c w t) <= length c)%nat /\
    rscore c w t * (1 - 14 * u) - n * slop <= Rsum (terms c w t) <= rscore c w t * (1 + 28 * u) + n * slop).
  { unfold n. destruct w as [ws|]; unfold terms.
    - destruct W as (Lw & W).
      assert (Q : forall l : list (list f32 * f32), (forall x, In x l -> length (fst x) = 12%nat /\
          Forall (fun y => nneg y /\ within 20 y) (fst x) /\ nneg (snd x) /\ within 20 (snd x)) ->
        let S := fold_right (fun x s => wd t x + s) 0 l in
        let tl := map (fun cw => term t (Some (snd cw)) (fst cw)) (filter (fun cw => fgt (snd cw) f0) l) in
        0 <= S /\ (length tl <= length l)%nat /\
        S * (1 - 14 * u) - INR (length l) * slop <= Rsum tl <= S * (1 + 28 * u) + INR (length l) * slop).
      { induction l as [|x l IH]; intros H; cbv zeta.
        - cbn. repeat split; try lra; lia.
        - destruct (IH ltac:(intros y I; apply H; now right)) as (S0 & Ll & Sl & Su). clear IH.
          destruct (H x (or_introl eq_refl)) as (L & Cx & Nx & Wx). clear H.
          cbn [filter fold_right length]. rewrite S_INR.
          destruct (dot_near (fst x) t L Cx T) as (D0 & _).
          pose proof (nneg_B2R _ Nx) as V0.
          assert (VD : 0 <= wd t x) by (apply Rmult_le_pos; lra).
          set (S1 := fold_right (fun x s => wd t x + s) 0 l) in *.
          destruct (fgt (snd x) f0) eqn:G.
          + cbn [map length]. destruct (term_near (fst x) t (snd x) L Cx T Nx Wx) as (_ & Tl & Tu). fold (wd t x) in Tl, Tu.
            cbn [Rsum fold_right]. fold (Rsum (map (fun cw => term t (Some (snd cw)) (fst cw)) (filter (fun cw => fgt (snd cw) f0) l))).
            change (term t (Some (snd x)) (fst x)) with (fmul (snd x) (dot (fst x) t)).
            split; [lra|]. split; [lia|]. split; lra.
          + assert (Z : B2R (snd x) = 0).
            { pose proof (within_fin _ _ Wx) as Fx. destruct (Req_dec (B2R (snd x)) 0) as [Z|Z]; [exact Z|exfalso].
              assert (X : flt f0 (snd x) = true) by (apply flt_intro; [reflexivity|now apply fin_nn|rewrite fx_f0, (fx_fin _ Fx); lra]).
              unfold fgt in G. unfold flt in X. congruence. }
            assert (Zw : wd t x = 0) by (unfold wd; rewrite Z; ring). rewrite Zw. split; [lra|]. split; [lia|]. split; lra. }
      assert (Hl : length (combine c ws) = length c) by (rewrite combine_length; lia).
      specialize (Q (combine c ws)). rewrite Hl in Q.
      rewrite (lsum_sumn _ (wd t) (combine c ws) ([], f0)) in Q. rewrite Hl in Q.
      unfold rscore, weight_at.
      replace (sumn (fun i => B2R (nth i ws f0) * rdot (nth i c []) t) (length c)) with
        (sumn (fun i => wd t (nth i (combine c ws) ([], f0))) (length c)).
      + apply Q. intros [ch v] I. cbn [fst snd]. pose proof (in_combine_l _ _ _ _ I) as Ia. pose proof (in_combine_r _ _ _ _ I) as Ib.
        destruct (proj1 (Forall_forall _ _) C _ Ia). destruct (proj1 (Forall_forall _ _) W _ Ib). auto.
      + apply sumn_ext. intros i _. unfold wd. rewrite combine_nth by (symmetry; exact Lw). reflexivity.
    - assert (Q : forall l : list (list f32), (forall x, In x l -> length x = 12%nat /\ Forall (fun y => nneg y /\ within 20 y) x) ->
        let S := fold_right (fun x s => 1 * rdot x t + s) 0 l in
        let tl := map (fun ch => term t None ch) l in
        0 <= S /\ (length tl <= length l)%nat /\
        S * (1 - 14 * u) - INR (length l) * slop <= Rsum tl <= S * (1 + 28 * u) + INR (length l) * slop).
      { induction l as [|x l IH]; intros H; cbv zeta.
        - cbn. repeat split; try lra; lia.
        - destruct (IH ltac:(intros y I; apply H; now right)) as (S0 & Ll & Sl & Su). clear IH.
          destruct (H x (or_introl eq_refl)) as (L & Cx). clear H.
          cbn [fold_right length map]. rewrite S_INR.
          destruct (dot_near x t L Cx T) as (D0 & Dl & Du).
          set (S1 := fold_right (fun x s => 1 * rdot x t + s) 0 l) in *.
          change (Rsum (term t None x :: map (fun ch => term t None ch) l)) with (B2R (dot x t) + Rsum (map (fun ch => term t None ch) l)).
          cbn [length].
          assert (12 * eta <= slop /\ 24 * eta <= slop) by (unfold slop; lra).
          split; [lra|]. split; [rewrite map_length; lia|]. rewrite U in *. split; lra. }
      specialize (Q c). rewrite (lsum_sumn _ (fun x => 1 * rdot x t) c []) in Q. unfold rscore, weight_at.
      apply Q. intros ch I. exact (proj1 (Forall_forall _ _) C _ I). }
  destruct K as (S0 & Lt & Kl & Ku).
  pose proof (fsum_bounds _ Nt Ws) as B.
  set (m := INR (length (terms c w t))) in *.
  assert (Hm : 0 <= m <= n) by (unfold m, n; split; [apply pos_INR|now apply le_INR]).
  pose proof (pow_ge_1m (length (terms c w t))) as G1.
  pose proof (pow_le_1p (length (terms c w t)) ltac:(rewrite U; fold m; lra)) as G2. fold m in G1, G2.
  pose proof (Rsum_nonneg _ Nt) as R0.
  set (S1 := Rsum (terms c w t)) in *. set (S := rscore c w t) in *. set (x := B2R (fsum (terms c w t))) in *.
  split; [exact S0|].
  assert (NU : n * u <= / 256) by (rewrite U; lra). assert (NU0 : 0 <= n * u) by (rewrite U; lra).
  assert (MU : m * u <= n * u) by (rewrite U; lra).
  assert (H1 : S1 * (1 - n * u) <= x).
  { refine (Rle_trans _ _ _ _ (proj1 B)). apply Rmult_le_compat_l; lra. }
  assert (H2 : x <= S1 * (1 + 2 * (n * u))).
  { refine (Rle_trans _ _ _ (proj2 B) _). apply Rmult_le_compat_l; lra. }
  assert (H3 : (S * (1 - 14 * u) - n * slop) * (1 - n * u) <= S1 * (1 - n * u)) by (apply Rmult_le_compat_r; lra).
  assert (H4 : S1 * (1 + 2 * (n * u)) <= (S * (1 + 28 * u) + n * slop) * (1 + 2 * (n * u))) by (apply Rmult_le_compat_r; lra).
  assert (NS : 0 <= n * slop) by (apply Rmult_le_pos; lra).
  set (nu := n * u) in *. set (ns := n * slop) in *.
  assert (SN : 0 <= S * nu <= S * / 256) by (split; [apply Rmult_le_pos; lra|apply Rmult_le_compat_l; lra]).
  assert (NN : 0 <= ns * nu <= ns * / 256) by (split; [apply Rmult_le_pos; lra|apply Rmult_le_compat_l; lra]).
  replace (S * (1 - (n + 14) * u)) with (S - S * nu - 14 * u * S) by (unfold nu; ring).
  replace (S * (1 + (2 * n + 29) * u)) with (S + 2 * (S * nu) + 29 * u * S) by (unfold nu; ring).
  replace ((S * (1 - 14 * u) - ns) * (1 - nu)) with (S - 14 * u * S - ns - S * nu + 14 * u * (S * nu) + ns * nu) in H3 by ring.
  replace ((S * (1 + 28 * u) + ns) * (1 + 2 * nu)) with (S + 28 * u * S + ns + 2 * (S * nu) + 56 * u * (S * nu) + 2 * (ns * nu)) in H4 by ring.
  replace (2 * n * slop) with (2 * ns) by (unfold ns; ring).
  set (sn := S * nu) in *. set (nn' := ns * nu) in *. clearbody sn nn' ns x S1 S.
  clear - U S0 H1 H2 H3 H4 NS SN NN. rewrite U in *. split; lra.
Qed.

(** ** The reported key is the normalised best of its mode. *)
Lemma circle_far : forall k k', In k all_keys -> In k' all_keys -> is_major k = is_major k' -> k <> k' ->
  circle_dist (tonic k) (tonic k') <> Some 0%Z.
Proof.
  intros k k' I I' M N E.
  assert (A : forallb (fun k => forallb (fun k' => negb (Bool.eqb (is_major k) (is_major k')) || key_eqb k k' ||
      match circle_dist (tonic k) (tonic k') with Some 0%Z => false | _ => true end) all_keys) all_keys = true) by (vm_compute; reflexivity).
  rewrite forallb_forall in A. specialize (A k I). cbv beta in A. rewrite forallb_forall in A. specialize (A k' I'). cbv beta in A.
  rewrite M, Bool.eqb_reflx, E in A. cbn [negb orb] in A. rewrite Bool.orb_false_r in A. apply key_eqb_iff in A. contradiction.
Qed.

Lemma bonus_top : forall l k x, (forall k x, In (k, x) l -> In k all_keys) -> NoDup (map fst l) ->
  (forall b, exists k, is_major k = b /\ In (k, f1) l) -> (forall k x, In (k, x) l -> fle x f1 = true) ->
  In (k, x) (circle_bonus l) -> fle peak x = true -> In (k, f1) l.
Proof.
  intros l k x A ND P U I Px. unfold circle_bonus in I. apply in_map_iff in I as ([k' s] & E & I). cbv zeta in E. cbn [fst snd] in E.
  destruct (top_is_one l (is_major k') (P _) U) as (kt & Bt & It & Et). rewrite Et in E. cbn [fst snd] in E.
  pose proof (U _ _ I) as L.
  assert (Lp : flt f1 peak = true) by (vm_compute; reflexivity).
  assert (NO : x = s -> False).
  { intros ->. pose proof (flt_fle_trans _ _ _ Lp Px) as Q. apply flt_fx in Q. apply fle_fx in L. lra. }
  assert (Hk : k' = k).
  { destruct (fgt f1 tiny9); [|congruence]. destruct (circle_dist _ _); [|congruence]. destruct (z <=? 2)%Z; congruence. }
  subst k'.
  destruct (key_eqb k kt) eqn:Ek; [apply key_eqb_iff in Ek; now rewrite Ek|]. exfalso. apply key_eqb_neq in Ek.
  destruct (fgt f1 tiny9); [|apply NO; congruence].
  destruct (circle_dist _ _) as [d|] eqn:Ed; [|apply NO; congruence].
  destruct (d <=? 2)%Z eqn:Ld; [|apply NO; congruence].
  assert (Ex : x = fadd s (fmul f1 (fmul (lit 13421773 (-26)) (fsub f1 (fmul (z2f d) fhalf))))) by congruence.
  apply Z.leb_le in Ld. pose proof (circle_dist_nonneg _ _ _ Ed) as Ld0.
  assert (D0 : d <> 0%Z).
  { intros ->. exact (circle_far k kt (A _ _ I) (A _ _ It) (eq_sym Bt) Ek Ed). }
  assert (Dc : d = 1%Z \/ d = 2%Z) by lia. clear E.
  set (c := fmul f1 (fmul (lit 13421773 (-26)) (fsub f1 (fmul (z2f d) fhalf)))) in *.
  set (c1 := fmul f1 (fmul (lit 13421773 (-26)) (fsub f1 (fmul (z2f 1) fhalf)))).
  assert (Lc : fle c c1 = true) by (unfold c, c1; destruct Dc as [-> | ->]; vm_compute; reflexivity).
  assert (Fc : fin c) by (unfold c; destruct Dc as [-> | ->]; vm_compute; reflexivity).
  assert (Lx : fle x (fadd f1 c1) = true).
  { rewrite Ex. apply fadd_mono; auto. apply fadd_nn_fin_r; [exact (proj1 (fle_nn _ _ L))|exact Fc]. }
  assert (Q : flt (fadd f1 c1) peak = true) by (vm_compute; reflexivity).
  pose proof (flt_fle_trans _ _ _ Q Px) as Q'. apply flt_fx in Q'. apply fle_fx in Lx. lra.
Qed.

Lemma reported_norm : forall m h c t w r, honest h -> table_within m (raw_scores c t w) ->
  live true (raw_scores c t w) -> live false (raw_scores c t w) ->
  detect_key_weighted h c t w = Ok r -> In (kr_key r, f1) (mode_normalize (raw_scores c t w)).
Proof.
  intros m h c t w r Hh W LT LF H.
  destruct (normalized_peak m _ W LT LF) as (P & U).
  assert (A : forall k x, In (k, x) (mode_normalize (raw_scores c t w)) -> In k all_keys).
  { intros k x I. apply (in_map fst) in I. rewrite mode_normalize_keys, raw_keys in I. exact I. }
  assert (ND : NoDup (map fst (mode_normalize (raw_scores c t w)))).
  { rewrite mode_normalize_keys, raw_keys. apply all_keys_nodup. }
  destruct (bonus_peak _ A P U) as (P' & U').
  destruct (detect_cases h c t w Hh) as [(_ & E)|[(_ & _ & E)|(_ & _ & r' & s & E & G)]]; [congruence|congruence|].
  assert (r' = r) by congruence. subst r'. clear E H.
  destruct G as (Es & So & I & (_ & M2) & _).
  rewrite (so_top _ So) in I. apply In_firstn in I.
  assert (S := so_sorted _ So).
  destruct (P' true) as (k1 & _ & I1).
  assert (J1 : In (k1, peak) (kr_scores r)) by (rewrite Es; apply sort_desc_in; exact I1).
  assert (Hd : fle peak (snd (hd (Major 0%Z, f0) (kr_scores r))) = true).
  { destruct (kr_scores r) as [|a q]; [destruct J1|]. cbn [hd]. inversion S as [|? ? _ G]; subst.
    destruct J1 as [->|J1]; [apply fle_refl; reflexivity|]. exact (proj1 (Forall_forall _ _) G _ J1). }
  rewrite Es in I. apply sort_desc_in in I.
  exact (bonus_top _ _ s A ND P U I (fle_trans _ _ _ Hd M2)).
Qed.

Lemma rnd_pred1 : rnd (1 - u) = 1 - u.
Proof.
  assert (E : B2R (lit 16777215 (-24)) = 1 - u).
  { rewrite <- SF2R_B2SF. replace (B2SF (lit 16777215 (-24))) with (SpecFloat.S754_finite false 16777215 (-24)) by (vm_compute; reflexivity).
    cbn [SF2R cond_Zopp]. unfold F2R; cbn [Fnum Fexp]. change (bpow radix2 (-24)) with (/ 16777216). rewrite u_val. lra. }
  rewrite <- E. apply rnd_B2R.
Qed.
Lemma fgt_as_flt : forall a b, fgt a b = flt b a. Proof. reflexivity. Qed.

(** No key of the reported key's mode has a raw score above the reported key's, up to a rounding. *)
Lemma norm_best : forall m l kr, table_within m l -> live true l -> live false l -> In (kr, f1) (mode_normalize l) ->
  exists s, In (kr, s) l /\ forall k x, In (k, x) l -> is_major k = is_major kr -> B2R x * (1 - u) <= B2R s.
Proof.
  intros m l kr W LT LF I. pose proof u_val as U.
  assert (LV : live (is_major kr) l) by (destruct (is_major kr); assumption).
  destruct (mode_max_spec m (is_major kr) l W LV) as (T1 & _ & U1).
  pose proof (within_fin _ _ (mode_max_within m (is_major kr) l W)) as F1.
  set (mx := mode_max (is_major kr) l) in *.
  assert (Pm : pos mx) by (refine (fle_flt_trans f0 tiny9 _ _ T1); reflexivity).
  assert (E : exists s, In (kr, s) l /\ fdiv s mx = f1).
  { unfold mode_normalize in I. cbv zeta in I.
    destruct (mode_max_spec m true l W LT) as (T2 & _). destruct (mode_max_spec m false l W LF) as (T3 & _).
    rewrite !fgt_as_flt, T2, T3 in I. cbn [andb] in I.
    apply in_map_iff in I as ([k' s] & E & I). cbn [fst snd] in E.
    pose proof (f_equal fst E) as E1. pose proof (f_equal snd E) as E2. cbn [fst snd] in E1, E2. clear E. subst k'.
    exists s. split; [exact I|]. rewrite <- E2. unfold mx. now destruct (is_major kr). }
  destruct E as (s & Is & Es).
  assert (Fs : fin s) by exact (within_fin _ _ (proj1 (Forall_forall _ _) W _ Is)).
  exists s. split; [exact Is|]. intros k x Ik' Mk.
  pose proof (U1 _ _ Ik' Mk) as Lx.
  assert (Fx : fin x) by exact (within_fin _ _ (proj1 (Forall_forall _ _) W _ Ik')).
  apply fle_fx in Lx. rewrite !fx_fin in Lx by assumption.
  assert (M0 : 0 < B2R mx) by (apply pos_fx in Pm; rewrite fx_fin in Pm by exact F1; exact Pm).
  destruct (fdiv_fx s mx Fs F1) as (_ & Q); [lra|]. rewrite Es, fx_fin, B2R_f1 in Q by reflexivity.
  assert (LQ : 1 - u <= B2R s / B2R mx).
  { destruct (Rle_or_lt (1 - u) (B2R s / B2R mx)) as [Y|Y]; [exact Y|exfalso].
    assert (R1 : rnd (1 - u) = 1 - u).
    { exact rnd_pred1. }
    assert (Y1 : rnd (B2R s / B2R mx) <= 1 - u) by (rewrite <- R1; apply rnd_mono; lra).
    destruct (Rle_or_lt big (rnd (B2R s / B2R mx))) as [Z|Z].
    - assert (1 < big) by (unfold big; change 1 with (bpow radix2 0); apply bpow_lt; lia). rewrite U in *. lra.
    - assert (Z' : sat (rnd (B2R s / B2R mx)) <= 1 - u).
      { unfold sat. apply Rmax_lub; [|exact (Rle_trans _ _ _ (Rmin_r _ _) Y1)].
        assert (1 < big) by (unfold big; change 1 with (bpow radix2 0); apply bpow_lt; lia). rewrite U in *. lra. }
      rewrite U in *. lra. }
  assert (B2R mx * (1 - u) <= B2R s).
  { replace (B2R s) with (B2R mx * (B2R s / B2R mx)) by (field; lra). apply Rmult_le_compat_l; lra. }
  assert (B2R x * (1 - u) <= B2R mx * (1 - u)) by (apply Rmult_le_compat_r; [rewrite U; lra|exact Lx]). lra.
Qed.

Lemma reported_best : forall m h c t w r, honest h -> table_within m (raw_scores c t w) ->
  live true (raw_scores c t w) -> live false (raw_scores c t w) ->
  detect_key_weighted h c t w = Ok r ->
  In (kr_key r) all_keys /\
  forall k, In k all_keys -> is_major k = is_major (kr_key r) ->
  B2R (weighted_sum_dot c w (template_of t k)) * (1 - u) <= B2R (weighted_sum_dot c w (template_of t (kr_key r))).
Proof.
  intros m h c t w r Hh W LT LF H.
  destruct (norm_best m _ _ W LT LF (reported_norm m h c t w r Hh W LT LF H)) as (s & Is & B).
  unfold raw_scores in Is. apply in_map_iff in Is as (k' & E & Ik').
  pose proof (f_equal fst E) as E1. pose proof (f_equal snd E) as E2. cbn [fst snd] in E1, E2. subst k'. split; [exact Ik'|].
  intros k Ik Mk. rewrite E2. apply (B k); [|exact Mk]. unfold raw_scores. apply in_map_iff. exists k. split; [reflexivity|exact Ik].
Qed.
