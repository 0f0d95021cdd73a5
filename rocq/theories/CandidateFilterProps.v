(** C21-C24, C54: merging tempo candidates and choosing one. *)
From Coq Require Import ZArith Bool List Arith Lia Sorted Permutation Reals Lra Psatz.
From Flocq Require Import Core IEEE754.BinarySingleNaN.
From Verif Require Import Rust F32 F32Facts F32More ListFacts Sorting SortingFacts PeakPicking Candidate
  Autocorrelation AutocorrelationProps CombFilter CombFilterProofs CombFilterProps CandidateFilter CandidateFilterProofs.
Import ListNotations.

(** Tempos between 60 and 180 BPM. *)
Definition usual (bpm : f32) : Prop := fle (z2f 60) bpm = true /\ fle bpm (z2f 180) = true.
Lemma usual_iff : forall b, usual b <-> reasonable b = true.
Proof. intros b. unfold usual, reasonable, fge. now rewrite andb_true_iff. Qed.

(** C21: every candidate considered ends up in exactly one estimate: the agreement counts
    add up to the ten best of each method plus the extra 60-180 BPM autocorrelation ones.
    [ac'] is the autocorrelation list after octave correction. *)
Theorem C21_conservation : forall exp2 ac comb cents, exists ac' extra,
  Forall2 (fun a a' => c_conf a' = c_conf a /\
     (c_bpm a' = c_bpm a \/ exists c, In c (firstn 3 comb) /\ c_bpm a' = c_bpm c)) ac ac' /\
  incl extra ac' /\ Forall (fun c => usual (c_bpm c)) extra /\
  (forall a, In a ac' -> usual (c_bpm a) -> exists x, In x (firstn 10 ac' ++ extra) /\
     flt (fabs (fsub (c_bpm x) (c_bpm a))) f1 = true) /\
  (forall x y, In x (firstn 10 ac') -> In y extra -> flt (fabs (fsub (c_bpm x) (c_bpm y))) f1 = false) /\
  list_sum (map e_agree (merge exp2 ac comb cents)) =
    Nat.min 10 (length ac) + length extra + Nat.min 10 (length comb) /\
  (forall e, In e (merge exp2 ac comb cents) -> 1 <= e_agree e).
Proof.
  intros exp2 ac comb cents. set (ac' := correct_octaves (exp2 (fdiv cents (z2f 1200))) ac comb).
  destruct (limit_spec ac') as (ex & E & I & R & C & S). exists ac', ex.
  destruct (merge_sum exp2 ac comb cents) as (Sm & Ps).
  split.
  { unfold ac', correct_octaves. set (tol := fsub _ _). set (top := firstn 3 comb). clear.
    induction ac as [|a ac IH]; cbn [map]; constructor; auto. cbn [c_conf c_bpm]. split; auto.
    destruct (fix_half_in tol (fix_double tol (c_bpm a) top) top) as [->|?]; auto.
    destruct (fix_double_in tol (c_bpm a) top) as [->|?]; auto. }
  split; auto. split; [eapply Forall_impl; [|exact R]; intros c; apply usual_iff|].
  split; [intros a Ia U; apply usual_iff in U; rewrite <- E; now apply C|].
  split.
  { intros x y Ix Iy. apply In_nth_error in Ix as (i & Ni). apply In_nth_error in Iy as (j & Nj).
    assert (i < length (firstn 10 ac')) by (apply nth_error_Some; congruence).
    apply (S i (length (firstn 10 ac') + j)); rewrite ?E; try lia.
    - now rewrite nth_error_app1.
    - rewrite nth_error_app2 by lia. now replace (length (firstn 10 ac') + j - length (firstn 10 ac')) with j by lia. }
  split; [|now apply Forall_forall].
  rewrite Sm. unfold grouped. fold ac'. rewrite E, !app_length, !firstn_length.
  unfold ac', correct_octaves. rewrite map_length. lia.
Qed.
Print Assumptions C21_conservation.

Theorem C21_nonempty : forall exp2 ac comb cents,
  merge exp2 ac comb cents = [] <-> ac = [] /\ comb = [].
Proof.
  intros exp2 ac comb cents. split; [|intros (-> & ->); reflexivity].
  intros H. destruct (C21_conservation exp2 ac comb cents) as (ac' & ex & _ & _ & _ & _ & _ & S & _).
  rewrite H in S. cbn [map list_sum fold_right] in S. split; destruct ac, comb; auto; cbn [length] in S; lia.
Qed.
Print Assumptions C21_nonempty.

(** An estimate only one candidate contributed to keeps that candidate's tempo. *)
Theorem C21_single : forall exp2 ac comb cents e, In e (merge exp2 ac comb cents) -> e_agree e = 1 ->
  exists c, In c (ac ++ comb) /\ e_bpm e = c_bpm c.
Proof.
  intros exp2 ac comb cents e I A.
  assert (B : In (bk e) (map bk (merge exp2 ac comb cents))) by now apply in_map.
  eapply Permutation_in in B; [|apply Permutation_sym, merge_perm]. apply in_map_iff in B as (g & Eg & Ig).
  unfold bk in Eg. injection Eg as Eb Ek. rewrite A in Ek. rewrite <- Eb.
  assert (G : forall cs gs (P : f32 -> Prop), (forall c, In c cs -> P (c_bpm c)) ->
    (forall g, In g gs -> 1 <= g_count g /\ (g_count g = 1 -> P (g_bpm g))) ->
    forall g, In g (fold_left add_to_groups cs gs) -> 1 <= g_count g /\ (g_count g = 1 -> P (g_bpm g))).
  { clear. induction cs as [|c cs IH]; intros gs P Hc Hg; cbn [fold_left]; auto. apply IH; [intros; apply Hc; right; auto|].
    assert (Pc : P (c_bpm c)) by (apply Hc; left; auto). clear IH Hc.
    induction gs as [|g gs IH]; cbn [add_to_groups].
    - intros g [<-|[]]. cbn. auto.
    - assert (Hg' : forall g, In g gs -> 1 <= g_count g /\ (g_count g = 1 -> P (g_bpm g))) by (intros; apply Hg; right; auto).
      destruct (Hg g (or_introl eq_refl)) as (K & _).
      destruct (fle (fabs _) _).
      + intros x [<-|Ix]; [|apply Hg; right; auto]. cbn [join g_count]. split; lia.
      + intros x [<-|Ix]; [apply Hg; left; auto|]. apply IH; auto. }
  destruct (G (grouped exp2 ac comb cents) [] (fun b => exists c, In c (ac ++ comb) /\ b = c_bpm c)) with (g := g) as (_ & W); auto.
  - intros c Ic. unfold grouped in Ic. apply in_app_or in Ic as [Ic|Ic].
    + apply limit_incl in Ic. unfold correct_octaves in Ic. apply in_map_iff in Ic as (a & <- & Ia). cbn [c_bpm].
      set (tol := fsub _ _). set (top := firstn 3 comb).
      assert (Top : forall x, In x top -> In x (ac ++ comb)).
      { intros x Ix. apply in_or_app. right. rewrite <- (firstn_skipn 3 comb). apply in_or_app. auto. }
      destruct (fix_half_in tol (fix_double tol (c_bpm a) top) top) as [->|(x & Ix & ->)]; eauto.
      destruct (fix_double_in tol (c_bpm a) top) as [->|(x & Ix & ->)]; eauto.
      exists a. split; auto. apply in_or_app; auto.
    + exists c. split; auto. apply in_or_app. right. rewrite <- (firstn_skipn 10 comb). apply in_or_app. auto.
  - intros x [].
Qed.
Print Assumptions C21_single.

(** C22: the documented range [0,1] does not hold: two methods agreeing on 120 BPM with
    confidence 1 give a confidence above 2 ... *)
Definition exp2_50 (_ : f32) : f32 := lit 8634362 (-23).
Theorem C22_range_refuted : exists ac comb,
  Forall (fun c => fle f0 (c_conf c) = true /\ fle (c_conf c) f1 = true) (ac ++ comb) /\
  existsb (fun e => fgt (e_conf e) f2) (merge exp2_50 ac comb (z2f 50)) = true.
Proof.
  exists [mkCand (z2f 120) f1], [mkCand (z2f 120) f1]. split; [repeat constructor|]. vm_compute. reflexivity.
Qed.
Print Assumptions C22_range_refuted.

(** ... but confidences are never negative, never NaN and at most 4.2. *)
Theorem C22_partial : forall exp2 ac comb cents,
  Forall (fun c => fle f0 (c_conf c) = true /\ fle (c_conf c) f1 = true) (ac ++ comb) ->
  forall e, In e (merge exp2 ac comb cents) ->
  fisfin (e_conf e) = true /\ fle f0 (e_conf e) = true /\ (B2R (e_conf e) <= 42 / 10)%R.
Proof.
  intros exp2 ac comb cents H e I. apply Forall_app in H as (Ha & Hc).
  pose proof (merge_conf exp2 ac comb cents Ha Hc) as M. rewrite Forall_forall in M. destruct (M e I) as (A & B).
  assert (L : fle (fmul boost1 f2) (lit 4404019 (-20)) = true) by (vm_compute; reflexivity).
  assert (B' : fle (e_conf e) (lit 4404019 (-20)) = true) by (eapply fle_trans; eauto).
  assert (F : fin (e_conf e)) by (apply (fin_between f0 _ (lit 4404019 (-20))); auto).
  split; auto. split; auto. apply fle_fx in B'. rewrite fx_fin in B' by auto. eapply Rle_trans; [exact B'|].
  rewrite fx_fin by reflexivity. 
  replace (B2R (lit 4404019 (-20))) with (F2R (Float radix2 8808038 (-21))).
  - unfold F2R. simpl. lra.
  - rewrite <- SF2R_B2SF. replace (B2SF (lit 4404019 (-20))) with (SpecFloat.S754_finite false 8808038%positive (-21)%Z) by (vm_compute; reflexivity). reflexivity.
Qed.
Print Assumptions C22_partial.

(** C23: the ranking is a total preorder on estimates whose confidence is a number ... *)
Theorem C23_preorder : forall a b c,
  fisnan (e_conf a) = false -> fisnan (e_conf b) = false -> fisnan (e_conf c) = false ->
  rank_cmp a a = Eq /\ rank_cmp b a = CompOpp (rank_cmp a b) /\
  (rank_cmp a b <> Gt -> rank_cmp b c <> Gt -> rank_cmp a c <> Gt).
Proof.
  intros a b c Na Nb Nc. split; [|split; [now apply rank_opp|now apply rank_trans]].
  pose proof (rank_opp a a Na Na) as H. destruct (rank_cmp a a); auto; discriminate.
Qed.
Print Assumptions C23_preorder.

(** ... so for candidates with confidences in [0,1] the merged list is sorted by it ... *)
Theorem C23_sorted : forall exp2 ac comb cents,
  Forall (fun c => fle f0 (c_conf c) = true /\ fle (c_conf c) f1 = true) (ac ++ comb) ->
  StronglySorted (fun a b => rank_cmp a b <> Gt) (merge exp2 ac comb cents).
Proof.
  intros exp2 ac comb cents H.
  assert (N : forall l, Forall (fun e => nn (e_conf e)) l -> StronglySorted (fun a b => rank_cmp a b <> Gt) (sort_by rank_leb l)).
  { intros l Hl. eapply StronglySorted_weaken; [|apply sort_by_sorted with (P := fun e => nn (e_conf e)); auto].
    - intros a b _ _ L. unfold rank_leb in L. destruct (rank_cmp a b); congruence.
    - intros x y Nx Ny. unfold rank_leb. rewrite (rank_opp x y Nx Ny). destruct (rank_cmp x y); cbn; auto.
    - intros x y z Nx Ny Nz. pose proof (rank_trans x y z Nx Ny Nz) as T. unfold rank_leb.
      destruct (rank_cmp x y), (rank_cmp y z), (rank_cmp x z); intros; congruence || (exfalso; apply T; congruence). }
  assert (C : Forall (fun e => nn (e_conf e)) (merge exp2 ac comb cents)).
  { apply Forall_forall. intros e I. destruct (C22_partial exp2 ac comb cents H e I) as (F & _). now apply fin_nn. }
  unfold merge in *. destruct ac; [destruct comb; [constructor|]|]; apply N;
    (eapply Permutation_Forall; [apply Permutation_sym, sort_by_perm|exact C]).
Qed.
Print Assumptions C23_sorted.

(** ... meaning: an estimate outside 60-180 BPM precedes a usual one only if its halved
    confidence is ahead by 0.5; otherwise the order is by (halved) confidence. *)
Theorem C23_meaning : forall a b, fisfin (e_conf a) = true -> fisfin (e_conf b) = true ->
  (usual (e_bpm a) -> usual (e_bpm b) -> fle (e_conf b) (e_conf a) = false -> rank_cmp a b = Gt) /\
  (usual (e_bpm a) -> ~ usual (e_bpm b) ->
     (rank_cmp a b = Gt <-> fle fhalf (fsub (fmul (e_conf b) fhalf) (e_conf a)) = true)).
Proof.
  intros a b Fa Fb. pose proof (fin_nn _ Fa) as Na. pose proof (fin_nn _ Fb) as Nb. rewrite !usual_iff. split.
  - intros Ra Rb L. pose proof (rank_iff a b Na Nb) as K. rewrite Ra, Rb in K.
    destruct (rank_cmp a b) eqn:E; auto; exfalso; (assert (X : lexle a b) by (apply K; discriminate));
      apply lexle_ge in X; unfold effective in X; rewrite Ra, Rb in X; apply fle_intro in X; auto; congruence.
  - intros Ra Rb. apply not_true_is_false in Rb. pose proof (rank_iff a b Na Nb) as K. rewrite Ra, Rb in K.
    pose proof (effective_nn b Nb) as Neb.
    assert (Ea : effective a = e_conf a) by (unfold effective; now rewrite Ra).
    assert (Eb : effective b = fmul (e_conf b) fhalf) by (unfold effective; now rewrite Rb).
    assert (Feb : fin (effective b)).
    { rewrite Eb. destruct (fmul_fx (e_conf b) fhalf Fb eq_refl) as (N & E). apply fin_iff; auto. rewrite E, B2R_fhalf.
      pose proof (B2R_abs_lt (e_conf b)) as Bb. destruct (max_float) as (mx & Fm & M). 
      assert (Rb' : (Rabs (rnd (B2R (e_conf b) * / 2)) <= B2R (fabs (e_conf b)))%R).
      { apply rnd_abs_le. rewrite <- (fx_fin (fabs _)) by now rewrite fabs_fin. rewrite fabs_fx, fx_fin by auto.
        rewrite Rabs_mult, (Rabs_pos_eq (/ 2)) by lra. pose proof (Rabs_pos (B2R (e_conf b))). lra. }
      pose proof (B2R_lt (fabs (e_conf b))). apply Rabs_le_inv in Rb'. rewrite sat_id by lra. lra. }
    rewrite <- Eb, <- Ea. assert (Fea : fin (effective a)) by now rewrite Ea.
    destruct (fsub_fx (effective b) (effective a) Feb Fea) as (Nd & Ed).
    assert (Q : fle fhalf (fsub (effective b) (effective a)) = true <-> (/ 2 <= rnd (B2R (effective b) - B2R (effective a)))%R).
    { pose proof big_val. pose proof (IZR_lt_big 1 ltac:(lia)). rewrite fle_iff by (auto; reflexivity). rewrite Ed, fx_fhalf. unfold sat.
      split; intros X.
      - destruct (Rle_dec (/ 2) (rnd (B2R (effective b) - B2R (effective a)))) as [Y|Y]; auto. exfalso. revert X.
        apply Rlt_not_le. apply Rmax_lub_lt; [lra|]. eapply Rle_lt_trans; [apply Rmin_r|lra].
      - eapply Rle_trans; [|apply Rmax_r]. apply Rmin_glb; lra. }
    rewrite Q.
    assert (Cl : eclose (effective a) (effective b) = true <-> (Rabs (rnd (B2R (effective b) - B2R (effective a))) < / 2)%R).
    { rewrite eclose_sym, eclose_iff. tauto. }
    assert (G : rank_cmp a b = Gt <-> ~ (eclose (effective a) (effective b) = true \/ lexle a b)).
    { rewrite <- K. destruct (rank_cmp a b); intuition congruence. }
    rewrite G, Cl. unfold lexle. rewrite !fx_fin by auto. set (d := rnd _).
    assert (D1 : (B2R (effective b) <= B2R (effective a) -> d <= 0)%R).
    { intros X. unfold d. rewrite <- rnd_0. apply rnd_mono. lra. }
    assert (D2 : (B2R (effective a) <= B2R (effective b) -> 0 <= d)%R) by (intros X; unfold d; apply rnd_nonneg; lra).
    split.
    + intros X. destruct (Rle_dec (/ 2) d) as [Y|Y]; auto. exfalso. apply X.
      destruct (Rle_lt_dec (B2R (effective a)) (B2R (effective b))) as [Z|Z]; [left|right; left; lra].
      rewrite Rabs_pos_eq by auto. lra.
    + intros X [Y|[Y|(Y & _)]]; [apply Rabs_def2 in Y; lra| |]; assert (d <= 0)%R by (apply D1; lra); lra.
Qed.
Print Assumptions C23_meaning.

(** With a NaN confidence the comparison is not transitive. *)
Theorem C23_nan_refuted : exists a b c, rank_cmp a b <> Gt /\ rank_cmp b c <> Gt /\ rank_cmp a c = Gt.
Proof.
  exists (mkEst (z2f 100) (lit 1 (-2)) 1), (mkEst (z2f 110) fnan 1), (mkEst (z2f 120) fhalf 1).
  split; [vm_compute; discriminate|]. split; [vm_compute; discriminate|]. vm_compute. reflexivity.
Qed.
Print Assumptions C23_nan_refuted.

(** C24: the sanitised guardrails are nested and their multipliers usable, unless both
    preferred bounds are NaN ... *)
Theorem C24_sane : forall g, let s := clamp_sane g in
  (fisnan (gr_pmin g) = false \/ fisnan (gr_pmax g) = false ->
     fle (gr_smin s) (gr_pmin s) = true /\ fle (gr_pmin s) (gr_pmax s) = true /\ fle (gr_pmax s) (gr_smax s) = true) /\
  Forall (fun m => fisfin m = true /\ fle f0 m = true) [gr_mul_pref s; gr_mul_soft s; gr_mul_ext s].
Proof.
  intros g s. split.
  - intros H. unfold s, clamp_sane. cbn [gr_smin gr_pmin gr_pmax gr_smax].
    assert (N1 : nn (fmin (gr_pmin g) (gr_pmax g))) by now apply fmin_nn.
    assert (N2 : nn (fmax (gr_pmin g) (gr_pmax g))) by now apply fmax_nn.
    split; [now apply fmin_le_r|]. split; [|now apply fmax_ge_r].
    destruct (is_nan (gr_pmin g)) eqn:A.
    + destruct (is_nan (gr_pmax g)) eqn:B; [unfold fisnan in H; destruct H; congruence|].
      eapply fle_trans; [now apply fmin_le_r|now apply fmax_ge_r].
    + eapply fle_trans; [now apply fmin_le_l|now apply fmax_ge_l].
  - assert (M : forall m, fisfin (sane_mul m) = true /\ fle f0 (sane_mul m) = true).
    { intros m. unfold sane_mul. destruct (fisfin m) eqn:F; [|split; reflexivity]. split.
      - destruct (fmax_case m f0) as [-> | ->]; auto.
      - now apply fmax_ge_r. }
    repeat constructor; apply M.
Qed.
Print Assumptions C24_sane.

Theorem C24_nan_refuted : exists g, fisnan (gr_smin g) = false /\ fisnan (gr_smax g) = false /\
  fle (gr_pmin (clamp_sane g)) (gr_pmax (clamp_sane g)) = false.
Proof. exists (mkGuard fnan fnan f0 f1 f1 f1 f1). repeat split; vm_compute; reflexivity. Qed.
Print Assumptions C24_nan_refuted.

Lemma extract_spec : forall p l x r, extract p l = Some (x, r) -> p x = true /\ In x l.
Proof.
  intros p. induction l as [|e l IH]; intros x r H; cbn [extract] in H; [discriminate|].
  destruct (p e) eqn:P; [injection H as <- <-; split; [auto|left; auto]|].
  destruct (extract p l) as [(y & r')|] eqn:X; [|discriminate]. injection H as <- <-.
  destruct (IH _ _ eq_refl). split; auto. right; auto.
Qed.
Lemma extract_none : forall p l, extract p l = None -> forall x, In x l -> p x = false.
Proof.
  intros p. induction l as [|e l IH]; intros H x I; [destruct I|]. cbn [extract] in H.
  destruct (p e) eqn:P; [discriminate|]. destruct (extract p l) as [(y & r')|] eqn:X; [discriminate|].
  destruct I as [<-|I]; auto.
Qed.

(** ... and selection returns one of the merged estimates: same tempo, same agreement, the
    confidence rescaled by one factor; an answer exists iff there were candidates. *)
Theorem C24_select : forall exp2 g ac comb,
  (select_bpm exp2 g ac comb = None <-> ac = [] /\ comb = []) /\
  forall e, select_bpm exp2 g ac comb = Some e ->
  exists m, In m (merge exp2 ac comb (z2f 50)) /\ e_bpm e = e_bpm m /\ e_agree e = e_agree m /\
    match g with
    | None => e_conf e = e_conf m
    | Some _ => exists mul, fisfin mul = true /\ fle f0 mul = true /\ e_conf e = fmul (e_conf m) mul
    end.
Proof.
  intros exp2 g ac comb. unfold select_bpm. set (g' := option_map clamp_sane g). set (l := merge _ _ _ _).
  set (t := preferred_target g' ac). set (l' := apply_guard g' l).
  assert (A : forall e, In e l' -> exists m, In m l /\ e_bpm e = e_bpm m /\ e_agree e = e_agree m /\
    match g with
    | None => e_conf e = e_conf m
    | Some _ => exists mul, fisfin mul = true /\ fle f0 mul = true /\ e_conf e = fmul (e_conf m) mul
    end).
  { intros e I. unfold l', apply_guard, g' in I. destruct g as [g|]; cbn [option_map] in I.
    - apply sort_desc_in in I. apply in_map_iff in I as (m & <- & Im). exists m. cbn. repeat split; auto.
      exists (mul_for (clamp_sane g) (e_bpm m)). destruct (C24_sane g) as (_ & M).
      inversion M as [|? ? M1 Ms]; subst. inversion Ms as [|? ? M2 Ms']; subst. inversion Ms' as [|? ? M3 _]; subst.
      unfold mul_for. destruct (negb _); [repeat split|]. destruct (_ && _); [intuition|]. destruct (_ && _); intuition.
    - exists e. auto. }
  assert (Emp : l' = [] <-> ac = [] /\ comb = []).
  { rewrite <- (C21_nonempty exp2 ac comb (z2f 50)). fold l. unfold l', apply_guard. destruct g'; [|tauto].
    rewrite <- !length_zero_iff_nil, sort_desc_length, map_length. tauto. }
  assert (P : forall e, In e (firstn 1 (prefer t l')) -> In e l').
  { intros e I. unfold prefer in I. destruct t as [b|].
    - destruct (extract _ l') as [(x & r)|] eqn:X.
      + destruct I as [<-|[]]. now apply extract_spec in X.
      + rewrite <- (firstn_skipn 1 l'). apply in_or_app; auto.
    - rewrite <- (firstn_skipn 1 l'). apply in_or_app; auto. }
  assert (N : prefer t l' = [] <-> l' = []).
  { unfold prefer. destruct t as [b|]; [|tauto]. destruct (extract _ l') as [(x & r)|] eqn:X; [|tauto].
    split; [discriminate|]. intros ->. discriminate. }
  split.
  - rewrite <- Emp, <- N. destruct (prefer t l'); cbn; split; congruence.
  - intros e H. apply A, P. destruct (prefer t l'); [discriminate|]. injection H as ->. left; auto.
Qed.
Print Assumptions C24_select.

(** The answer is near the first autocorrelation tempo of the preferred range whenever some
    estimate is; otherwise, with guardrails, it has the highest rescaled confidence. *)
Theorem C24_choice : forall exp2 g ac comb e, select_bpm exp2 g ac comb = Some e ->
  let lo := match g with None => z2f 60 | Some g => fmin (gr_pmin g) (gr_pmax g) end in
  let hi := match g with None => z2f 180 | Some g => fmax (gr_pmin g) (gr_pmax g) end in
  forall pre c post, ac = pre ++ c :: post ->
  (forall x, In x pre -> fle lo (c_bpm x) && fle (c_bpm x) hi = false) ->
  fle lo (c_bpm c) && fle (c_bpm c) hi = true ->
  (exists m, In m (merge exp2 ac comb (z2f 50)) /\ flt (fabs (fsub (e_bpm m) (c_bpm c))) f2 = true) ->
  flt (fabs (fsub (e_bpm e) (c_bpm c))) f2 = true.
Proof.
  intros exp2 g ac comb e H lo hi pre c post E Hp Hc (m & Im & Hm).
  unfold select_bpm in H. set (g' := option_map clamp_sane g) in *.
  assert (T : preferred_target g' ac = Some (c_bpm c)).
  { unfold preferred_target. replace (match g' with Some g0 => (gr_pmin g0, gr_pmax g0) | None => (z2f 60, z2f 180) end)
      with (lo, hi) by (unfold g', lo, hi; destruct g; reflexivity).
    assert (F : find (fun c => fge (c_bpm c) lo && fle (c_bpm c) hi) ac = Some c); [|now rewrite F].
    rewrite E. clear - Hp Hc. induction pre as [|x pre IH]; cbn [app find]; unfold fge.
    - change (Bleb lo (c_bpm c)) with (fle lo (c_bpm c)). now rewrite Hc.
    - change (Bleb lo (c_bpm x)) with (fle lo (c_bpm x)). rewrite Hp by (left; auto). apply IH. intros; apply Hp; right; auto. }
  rewrite T in H. unfold prefer in H. set (l' := apply_guard g' _) in *.
  assert (X : exists m', In m' l' /\ e_bpm m' = e_bpm m).
  { unfold l', apply_guard. destruct g' as [g0|]; [|eauto].
    eexists. split; [apply sort_desc_in, in_map_iff; exists m; split; [reflexivity|exact Im]|reflexivity]. }
  destruct X as (m' & Im' & Em).
  destruct (extract _ l') as [(x & r)|] eqn:Ex.
  - cbn [hd_error] in H. assert (x = e) by congruence. subst x. apply extract_spec in Ex. apply Ex.
  - exfalso. pose proof (extract_none _ _ Ex m' Im') as N. cbn beta in N. unfold within in N. rewrite Em in N. congruence.
Qed.
Print Assumptions C24_choice.

(** C54: the tempo reported by the onset-based estimator lies in the requested range, up to a
    relative rounding error of 2^-13 from averaging. *)
Theorem C54_in_range : forall F exp2 fuel onsets rate hop mn mx res g e,
  estimate_bpm F exp2 fuel onsets rate hop mn mx res g = Some (Ok (Some e)) ->
  fle f1 mn = true -> fisfin mx = true -> (B2R mx <= bpow radix2 90)%R ->
  fisfin (e_bpm e) = true /\
  (B2R mn * (1 - / 8192) <= B2R (e_bpm e) <= B2R mx * (1 + / 8192))%R /\ 1 <= e_agree e <= 261.
Proof.
  intros F exp2 fuel onsets rate hop mn mx res g e H M1 Fx Mx. unfold estimate_bpm in H.
  destruct (estimate_autocorr F onsets rate hop mn mx) as [ac| |] eqn:EA; try discriminate.
  destruct (estimate_comb fuel onsets rate mn mx res) as [[comb| |]|] eqn:EC; try discriminate.
  assert (Hs : select_bpm exp2 g ac comb = Some e) by congruence. clear H.
  destruct (C24_select exp2 g ac comb) as (_ & S). destruct (S e Hs) as (m & Im & -> & -> & _). clear S Hs.
  set (ok := fun c => fin (c_bpm c) /\ (B2R mn <= B2R (c_bpm c) <= B2R mx)%R).
  assert (Ha : forall c, In c ac -> fle mn (c_bpm c) = true /\ fle (c_bpm c) mx = true) by (intros c Ic; pose proof (C18_range _ _ _ _ _ _ _ EA c Ic); tauto).
  assert (Hcb : forall c, In c comb -> fle mn (c_bpm c) = true /\ fle (c_bpm c) mx = true).
  { intros c Ic. destruct (C19_range _ _ _ _ _ _ _ EC c Ic) as (A & _ & B & _). split; auto. apply B; auto.
    destruct (comb_ok _ _ _ _ _ _ _ EC) as [(Z & _)|((_ & _ & _ & _ & V & _) & _)]; [rewrite Z in Ic; destruct Ic|].
    eapply fle_trans; [exact M1|]. destruct (fle_nn _ _ M1) as (_ & Nm). apply flt_fle. apply fle_false_flt; auto using fin_nn. }
  assert (Ok1 : forall c, fle mn (c_bpm c) = true /\ fle (c_bpm c) mx = true -> ok c).
  { intros c (A & B). assert (Fc : fin (c_bpm c)) by (apply (fin_between f1 _ mx); auto; eapply fle_trans; eauto).
    split; auto. assert (Fm : fin mn) by (apply (fin_between f1 _ (c_bpm c)); auto).
    apply fle_fx in A, B. rewrite !fx_fin in * by auto. lra. }
  assert (Hg : Forall ok (grouped exp2 ac comb (z2f 50))).
  { apply Forall_forall. intros c Ic. apply Ok1. unfold grouped in Ic. apply in_app_or in Ic as [Ic|Ic].
    - apply limit_incl in Ic. unfold correct_octaves in Ic. apply in_map_iff in Ic as (a & <- & Ia). cbn [c_bpm].
      assert (Top : forall x, In x (firstn 3 comb) -> In x comb).
      { intros x Ix. rewrite <- (firstn_skipn 3 comb). apply in_or_app. auto. }
      set (tol := fsub _ _). set (top := firstn 3 comb) in *.
      destruct (fix_half_in tol (fix_double tol (c_bpm a) top) top) as [->|(x & Ix & ->)]; auto.
      destruct (fix_double_in tol (c_bpm a) top) as [->|(x & Ix & ->)]; auto.
    - apply Hcb. rewrite <- (firstn_skipn 10 comb). apply in_or_app. auto. }
  assert (B : In (bk m) (map bk (merge exp2 ac comb (z2f 50)))) by now apply in_map.
  eapply Permutation_in in B; [|apply Permutation_sym, merge_perm]. apply in_map_iff in B as (gr & Eg & Ig).
  unfold bk in Eg. assert (Eb : g_bpm gr = e_bpm m) by congruence. assert (Ek : g_count gr = e_agree m) by congruence. clear Eg.
  pose proof (grouped_length exp2 ac comb (z2f 50)) as GL.
  assert (Rm : (1 <= B2R mn <= B2R mx)%R).
  { assert (X : exists c, In c (grouped exp2 ac comb (z2f 50))).
    { destruct (grouped exp2 ac comb (z2f 50)); [destruct Ig|eexists; left; auto]. }
    destruct X as (c & Ic). rewrite Forall_forall in Hg. destruct (Hg c Ic) as (_ & B).
    assert (Fm : fin mn).
    { destruct (nneg_cases mn) as [(? & _)|Z]; auto; [eapply fle_trans; [|exact M1]; reflexivity|].
      exfalso. unfold grouped in Ic. assert (Y : exists c, fle mn (c_bpm c) = true /\ fle (c_bpm c) mx = true).
      { apply in_app_or in Ic as [Ic|Ic].
        - apply limit_incl in Ic. unfold correct_octaves in Ic. apply in_map_iff in Ic as (a & _ & Ia). eauto.
        - exists c. apply Hcb. rewrite <- (firstn_skipn 10 comb). apply in_or_app. auto. }
      destruct Y as (d & D1 & D2). rewrite Z in D1. apply fle_inf_inv in D1. rewrite D1 in D2. apply fle_inf_inv in D2. rewrite D2 in Fx. discriminate. }
    apply fle_fx in M1. rewrite fx_f1, fx_fin in M1 by auto. lra. }
  pose proof (groups_span (B2R mn) (B2R mx) (grouped exp2 ac comb (z2f 50)) Rm Mx ltac:(lia) Hg) as Sp. rewrite Forall_forall in Sp.
  destruct (Sp gr Ig) as ((K1 & Fb & Bd) & K2). rewrite Eb in *. rewrite Ek in *. split; auto. split; [|lia].
  set (k := 3 * (e_agree m - 1)) in *.
  assert (Ik : (INR k <= 783)%R) by (replace 783%R with (INR 783) by (rewrite INR_IZR_INZ; reflexivity); apply le_INR; lia).
  pose proof (pow_lower k) as P1. pose proof (pow_upper k ltac:(lra)) as P2. split.
  - eapply Rle_trans; [|apply Bd]. apply Rmult_le_compat_l; lra.
  - eapply Rle_trans; [apply Bd|]. apply Rmult_le_compat_l; lra.
Qed.
Print Assumptions C54_in_range.

(** A double-tempo autocorrelation candidate is corrected and grouped with the comb one. *)
Example C21_case :
  map (fun e => (f2i32 (e_bpm e), f2i32 (fmul (e_conf e) (z2f 100)), e_agree e))
    (merge exp2_50 [mkCand (z2f 240) (lit 1 (-1)); mkCand (z2f 40) (lit 1 (-2))]
       [mkCand (z2f 120) f1] (z2f 50))
  = [(120%Z, 209%Z, 2); (40%Z, 25%Z, 1)].
Proof. vm_compute. reflexivity. Qed.
