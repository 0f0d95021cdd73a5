(** Facts about the key detection model. *)
From Coq Require Import ZArith Reals Lra Lia Sorted.
From Flocq Require Import Core.
From Verif Require Import Rust F32 F32Facts F32More ListFacts Sorting SortingFacts PeakPickingProofs
  NoveltyProofs Bounds KeyNotation KeyTemplates KeyTemplatesProofs KeyDetector.

(** The hash iteration order lists exactly the entries of the map. *)
Definition honest (h : hash_order) : Prop :=
  (forall l, Permutation (ho_votes h l) l) /\ (forall l, Permutation (ho_counts h l) l).

Lemma key_eqb_iff : forall a b, key_eqb a b = true <-> a = b.
Proof.
  intros [i|i] [j|j]; cbn [key_eqb]; split; intros H; try discriminate; try (apply Z.eqb_eq in H; now subst);
    apply Z.eqb_eq; congruence.
Qed.
Lemma key_eqb_refl : forall k, key_eqb k k = true. Proof. intros; now apply key_eqb_iff. Qed.
Lemma key_eqb_neq : forall a b, key_eqb a b = false <-> a <> b.
Proof. intros a b. rewrite <- key_eqb_iff. destruct (key_eqb a b); split; congruence. Qed.

Lemma all_keys_length : length all_keys = 24. Proof. reflexivity. Qed.
Lemma all_keys_nodup : NoDup all_keys.
Proof.
  unfold all_keys. cbn [seq map app Z.of_nat].
  repeat (constructor; [cbn [In]; intuition discriminate|]). constructor.
Qed.

Lemma max_by_fold_in : forall A (gt : A -> A -> bool) l y,
  In (fold_left (fun acc z => if gt acc z then acc else z) l y) (y :: l).
Proof.
  intros A gt l. induction l as [|z l IH]; intros y; cbn [fold_left]; [now left|].
  destruct (gt y z).
  - destruct (IH y) as [E|I]; [left; exact E|right; right; exact I].
  - right. apply IH.
Qed.
Lemma max_by_in : forall A (gt : A -> A -> bool) l x, max_by gt l = Some x -> In x l.
Proof.
  intros A gt [|y l] x H; [discriminate|]. cbn [max_by] in H.
  replace x with (fold_left (fun acc z => if gt acc z then acc else z) l y) by congruence.
  apply max_by_fold_in.
Qed.
Lemma max_by_some : forall A (gt : A -> A -> bool) l, l <> [] -> exists x, max_by gt l = Some x.
Proof. intros A gt [|y l] H; [congruence|]. eexists; reflexivity. Qed.
(** On NaN-free keys the result is a maximum. *)
Lemma max_by_ge : forall A (key : A -> f32) l x, Forall (fun a => nn (key a)) l ->
  max_by (fun a b => fgt (key a) (key b)) l = Some x -> forall y, In y l -> fle (key y) (key x) = true.
Proof.
  intros A key [|z l] x N H; [discriminate|]. cbn [max_by] in H.
  replace x with (fold_left (fun acc z => if fgt (key acc) (key z) then acc else z) l z) by congruence. clear H x.
  revert z N. induction l as [|w l IH]; intros z N y I; cbn [fold_left].
  - destruct I as [->|[]]. apply fle_refl. now apply Forall_inv in N.
  - pose proof (Forall_inv N) as Nz. pose proof (Forall_inv_tail N) as N'. pose proof (Forall_inv N') as Nw.
    pose proof (Forall_inv_tail N') as Nl. cbv beta in Nz, Nw.
    destruct (fgt (key z) (key w)) eqn:G; unfold fgt in G; fold (flt (key w) (key z)) in G.
    + assert (Nzl : Forall (fun a => nn (key a)) (z :: l)) by (constructor; auto).
      destruct I as [->|[->|I]].
      * apply (IH y Nzl). now left.
      * exact (fle_trans _ _ _ (flt_fle _ _ G) (IH z Nzl z (or_introl eq_refl))).
      * apply (IH z Nzl). now right.
    + destruct I as [->|I].
      * apply flt_false_fle in G; auto. exact (fle_trans _ _ _ G (IH w N' w (or_introl eq_refl))).
      * now apply (IH w N').
Qed.

(** ** Key sets *)
Lemma map_fst_same : forall (f : score -> score) l, (forall ks, fst (f ks) = fst ks) ->
  map fst (map f l) = map fst l.
Proof. intros f l H. rewrite map_map. apply map_ext. exact H. Qed.
Lemma raw_keys : forall c t w, map fst (raw_scores c t w) = all_keys.
Proof. intros. unfold raw_scores. rewrite map_map. cbn [fst]. apply map_id. Qed.
Lemma mode_normalize_keys : forall l, map fst (mode_normalize l) = map fst l.
Proof. intros l. unfold mode_normalize. destruct (_ && _); auto. now apply map_fst_same. Qed.
Lemma circle_bonus_keys : forall l, map fst (circle_bonus l) = map fst l.
Proof.
  intros l. apply map_fst_same. intros ks. cbv zeta. destruct (fgt _ _); auto.
  destruct (circle_dist _ _); auto. destruct (_ <=? _)%Z; auto.
Qed.
Lemma minor_bonus_keys : forall a b c l, map fst (minor_bonus a b c l) = map fst l.
Proof.
  intros. unfold minor_bonus. cbv zeta. destruct (fgt _ _); auto. apply map_fst_same.
  intros [[i|i] s]; reflexivity.
Qed.

Notation final_scores c t w := (circle_bonus (mode_normalize (raw_scores c t w))).
Lemma final_keys : forall c t w, map fst (final_scores c t w) = all_keys.
Proof. intros. now rewrite circle_bonus_keys, mode_normalize_keys, raw_keys. Qed.
Lemma final_length : forall c t w, length (final_scores c t w) = 24.
Proof.
  intros. pose proof (f_equal (@length _) (final_keys c t w)) as E. rewrite map_length in E. exact E.
Qed.

(** A score table: the 24 keys once each, in decreasing order of (NaN-free) score. *)
Definition is_table (l : list score) : Prop := Permutation (map fst l) all_keys.
Lemma is_table_length : forall l, is_table l -> length l = 24.
Proof. intros l H. apply Permutation_length in H. now rewrite map_length in H. Qed.
Lemma is_table_nodup : forall l, is_table l -> NoDup (map fst l).
Proof. intros l H. apply Permutation_sym in H. eapply Permutation_NoDup; [exact H|apply all_keys_nodup]. Qed.
Lemma is_table_sort : forall l, is_table l -> is_table (sort_desc snd l).
Proof.
  intros l H. unfold is_table in *. eapply perm_trans; [|exact H]. apply Permutation_map, Permutation_sym, sort_desc_perm.
Qed.
Lemma is_table_in : forall l k, is_table l -> (In k (map fst l) <-> In k all_keys).
Proof. intros l k H. split; apply Permutation_in; auto. now apply Permutation_sym. Qed.
Lemma is_table_map : forall l l', is_table l -> map fst l' = map fst l -> is_table l'.
Proof. intros l l' H E. unfold is_table. now rewrite E. Qed.

Lemma find_nodup : forall l k s, NoDup (map (@fst key f32) l) -> In (k, s) l ->
  find (fun ks => key_eqb (fst ks) k) l = Some (k, s).
Proof.
  induction l as [|[k' s'] l IH]; intros k s N I; [destruct I|].
  cbn [find fst]. cbn [map fst] in N. apply NoDup_cons_iff in N as (N1 & N2).
  destruct I as [E|I].
  - injection E as -> ->. now rewrite key_eqb_refl.
  - destruct (key_eqb k' k) eqn:E; [|now apply IH]. apply key_eqb_iff in E. subst.
    exfalso. apply N1. apply in_map_iff. exists (k, s). now split.
Qed.
Lemma key_eqb_sym : forall a b, key_eqb a b = key_eqb b a.
Proof. intros [i|i] [j|j]; cbn [key_eqb]; auto using Z.eqb_sym. Qed.
Lemma find_score_in : forall l k s d, NoDup (map (@fst key f32) l) -> In (k, s) l ->
  find_score (key_eqb k) l d = s.
Proof.
  intros l k s d N I. unfold find_score.
  assert (E : find (fun ks => key_eqb k (fst ks)) l = Some (k, s)).
  { rewrite <- (find_nodup l k s N I). clear. induction l as [|[a b] l IH]; cbn [find fst]; auto.
    rewrite key_eqb_sym. now rewrite IH. }
  now rewrite E.
Qed.
Lemma find_score_or : forall p l d, find_score p l d = d \/ exists k, In (k, find_score p l d) l.
Proof.
  intros p l d. unfold find_score. destruct (find (fun ks => p (fst ks)) l) as [[k s]|] eqn:E; auto.
  right. exists k. now apply find_some in E.
Qed.

(** ** Sorting *)
Lemma sort_or_panic_ok : forall l s, sort_or_panic l = Ok s -> length l = 24 ->
  s = sort_desc snd l /\ Forall (fun ks => nn (snd ks)) l.
Proof.
  intros l s H L. unfold sort_or_panic in H. rewrite L in H. cbn [Nat.leb andb] in H.
  destruct (existsb (fun ks => fisnan (snd ks)) l) eqn:E; [discriminate|]. split; [congruence|].
  apply Forall_forall. intros x I. destruct (fisnan (snd x)) eqn:N; auto.
  assert (existsb (fun ks => fisnan (snd ks)) l = true) by (apply existsb_exists; exists x; now split). congruence.
Qed.
Lemma sort_or_panic_total : forall l, Forall (fun ks => nn (snd ks)) l -> sort_or_panic l = Ok (sort_desc snd l).
Proof.
  intros l H. unfold sort_or_panic.
  assert (E : existsb (fun ks => fisnan (snd ks)) l = false).
  { destruct (existsb (fun ks => fisnan (snd ks)) l) eqn:E; auto. apply existsb_exists in E as (x & I & N).
    apply (proj1 (Forall_forall _ _) H) in I. unfold fisnan in N. congruence. }
  now rewrite E, andb_false_r.
Qed.

(** ** Confidence *)
Lemma fdiv_neg_nn : forall x y, x = fninf -> fin y -> pos y -> fdiv x y = fninf.
Proof. intros x y -> F P. destruct y as [s|s| |s m e]; try discriminate. destruct s; [discriminate|reflexivity]. Qed.
Lemma fdiv_inf_nn : forall y, fin y -> pos y -> fdiv finf y = finf.
Proof. intros y F P. destruct y as [s|s| |s m e]; try discriminate. destruct s; [discriminate|reflexivity]. Qed.
Lemma margin_in01 : forall s o, s <> finf -> nn o -> in01 (margin_conf s o).
Proof.
  intros s o Ns N. unfold margin_conf. destruct (fgt s f0) eqn:G; [|apply in01_0].
  unfold fgt in G. fold (flt f0 s) in G. apply in01_clamp.
  assert (F : fin s).
  { destruct (nn_cases s) as [F|[E|E]]; [now apply flt_nn in G|auto|contradiction|]. subst. discriminate G. }
  assert (M : nn (fsub s o)).
  { destruct (nn_cases o N) as [Fo|[E|E]].
    - now destruct (fsub_fx s o F Fo).
    - subst o. destruct s as [b|b| |b m e]; try discriminate; reflexivity.
    - subst o. destruct s as [b|b| |b m e]; try discriminate; reflexivity. }
  destruct (nn_cases _ M) as [Fd|[E|E]].
  - now apply fdiv_nn_fin.
  - rewrite E, fdiv_inf_nn; auto.
  - rewrite E, fdiv_neg_nn; auto.
Qed.

(** ** Voting *)

(** A quotient of two distinct values, the smaller by the larger, never rounds up to one. *)
Lemma quot_lt1 : forall s b, fin s -> fin b -> (0 < B2R b)%R -> (B2R s < B2R b)%R -> (fx (fdiv s b) < 1)%R.
Proof.
  intros s b Fs Fb Pb L.
  destruct (fdiv_fx s b Fs Fb ltac:(lra)) as (N & E). rewrite E.
  set (u := pred radix2 fexp32 1).
  assert (U : u = (1 - bpow radix2 (-24))%R).
  { unfold u. change 1%R with (bpow radix2 0) at 1. rewrite pred_bpow. reflexivity. }
  assert (G1 : generic_format radix2 fexp32 1) by (apply (format_Z 1); lia).
  assert (Gu : generic_format radix2 fexp32 u) by (apply generic_format_pred; auto with typeclass_instances).
  assert (Q : (B2R s / B2R b < 1 - bpow radix2 (-25))%R).
  { pose proof (bpow_gt_0 radix2 (-25)) as P25.
    assert (P1 : (bpow radix2 (-25) < / 2)%R) by (apply (bpow_lt radix2 (-25) (-1)); lia).
    apply Rmult_lt_reg_r with (B2R b); auto. unfold Rdiv. rewrite Rmult_assoc, Rinv_l, Rmult_1_r by lra.
    destruct (Rle_or_lt (B2R s) 0) as [Z|P].
    - apply Rle_lt_trans with 0%R; auto. apply Rmult_lt_0_compat; lra.
    - assert (S : (succ radix2 fexp32 (B2R s) <= B2R b)%R).
      { apply succ_le_lt; auto using generic_format_B2R with typeclass_instances. }
      rewrite succ_eq_pos in S by lra.
      assert (V : (Rabs (B2R s) * bpow radix2 (- 24) < ulp radix2 fexp32 (B2R s))%R).
      { apply (ulp_FLT_gt radix2 (-149) 24). }
      rewrite Rabs_right in V by lra.
      assert (D : (bpow radix2 (-24) = 2 * bpow radix2 (-25))%R)
        by (replace (-24)%Z with (1 + -25)%Z by lia; rewrite bpow_plus; reflexivity).
      change (- 24)%Z with (-24)%Z in V. rewrite D in V. set (e := bpow radix2 (-25)) in *.
      assert ((1 + 2 * e) * B2R s <= B2R b)%R by lra.
      apply Rlt_le_trans with ((1 - e) * ((1 + 2 * e) * B2R s))%R; [|apply Rmult_le_compat_l; lra].
      assert (0 < (e - 2 * (e * e)) * B2R s)%R by (apply Rmult_lt_0_compat; [nra|lra]). lra. }
  assert (R : (rnd (B2R s / B2R b) <= u)%R).
  { unfold rnd. apply round_N_le_midp; auto with typeclass_instances.
    unfold u at 2. rewrite succ_pred by auto with typeclass_instances.
    rewrite U. assert (D : (bpow radix2 (-24) = 2 * bpow radix2 (-25))%R)
      by (replace (-24)%Z with (1 + -25)%Z by lia; rewrite bpow_plus; reflexivity). lra. }
  pose proof (bpow_gt_0 radix2 (-24)). pose proof big_pos.
  assert (1 < big)%R by (change 1%R with (bpow radix2 0); apply bpow_lt; lia).
  assert (P2 : (bpow radix2 (-24) < 1)%R) by (change 1%R with (bpow radix2 0); apply bpow_lt; lia).
  apply Rle_lt_trans with (sat u); [now apply sat_mono|]. rewrite sat_id; lra.
Qed.

Lemma shrink_neg : forall a c, fin a -> (B2R a <= 0)%R -> fin c -> (0 <= B2R c <= 1)%R -> fle a (fmul a c) = true.
Proof.
  intros a c Fa A Fc C. destruct (fmul_fx a c Fa Fc) as (N & E). apply fle_intro; auto; [now apply fin_nn|].
  rewrite E. assert (B2R a <= rnd (B2R a * B2R c))%R.
  { rewrite <- (rnd_B2R a) at 1. apply rnd_mono. nra. }
  apply sat_mono in H. rewrite sat_id in H; [rewrite fx_fin; auto|]. pose proof (B2R_lt a). lra.
Qed.

Definition c95 : f32 := lit 15938355 (-24).
Definition c90 : f32 := lit 7549747 (-23).
Lemma c95_range : fin c95 /\ (0 <= B2R c95 <= 1)%R.
Proof. apply in01_upto. split; reflexivity. Qed.
Lemma c90_range : fin c90 /\ (0 <= B2R c90 <= 1)%R.
Proof. apply in01_upto. split; reflexivity. Qed.

(** Unless the best score is finite and positive, keys that pass the closeness test tie with it. *)
Lemma close_ties : forall a b c, nn a -> ~ (fin a /\ pos a) ->
  fle b a = true -> fle c a = true -> fge b (fmul a c95) = true -> fge c (fmul (fmul a c95) c90) = true ->
  fle a b = true /\ fle a c = true.
Proof.
  intros a b c N NP Lb Lc Gb Gc. unfold fge in Gb, Gc. fold (fle (fmul a c95) b) in Gb.
  fold (fle (fmul (fmul a c95) c90) c) in Gc.
  destruct (nn_cases a N) as [F|[E|E]].
  - destruct c95_range as (F5 & R5), c90_range as (F0 & R0).
    assert (A : (B2R a <= 0)%R).
    { destruct (Rle_or_lt (B2R a) 0) as [L|L]; auto. exfalso. apply NP. split; auto.
      apply flt_intro; auto. now rewrite fx_f0, fx_fin. }
    pose proof (shrink_neg a c95 F A F5 R5) as L1.
    assert (L2 : fle (fmul a c95) f0 = true).
    { destruct (fmul_fx a c95 F F5) as (N1 & E1). apply fle_intro; auto. rewrite E1, fx_f0, <- sat_0.
      apply sat_mono. rewrite <- rnd_0. apply rnd_mono. nra. }
    assert (F1 : fin (fmul a c95)) by (eapply (fin_between a _ f0); auto).
    assert (A1 : (B2R (fmul a c95) <= 0)%R) by (apply fle_fx in L2; rewrite fx_f0, fx_fin in L2; auto).
    pose proof (shrink_neg _ c90 F1 A1 F0 R0) as L3.
    split; [exact (fle_trans _ _ _ L1 Gb)|].
    exact (fle_trans _ _ _ L1 (fle_trans _ _ _ L3 Gc)).
  - subst a. split; [exact Gb|]. exact Gc.
  - subst a. split; apply fle_ninf; [now apply fle_nn in Lb|now apply fle_nn in Lc].
Qed.

Definition same (x y : f32) : Prop := fle x y = true /\ fle y x = true.
Definition sorted_scores (l : list score) : Prop :=
  StronglySorted (fun a b => fle (snd b) (snd a) = true) l.

Lemma vote_spec : forall h a b c r, honest h -> Forall (fun ks => nn (snd ks)) (a :: b :: c :: r) ->
  sorted_scores (a :: b :: c :: r) ->
  exists s, In (vote h (a :: b :: c :: r) a, s) [a; b; c] /\ same s (snd a).
Proof.
  intros h a b c r (Hv & _) N S. unfold vote. fold c95 c90.
  pose proof (Forall_inv N) as Na. pose proof (Forall_inv (Forall_inv_tail N)) as Nb.
  pose proof (Forall_inv (Forall_inv_tail (Forall_inv_tail N))) as Nc. cbv beta in Na, Nb, Nc.
  assert (DEF : exists s, In (fst a, s) [a; b; c] /\ same s (snd a)).
  { exists (snd a). split; [left; destruct a; reflexivity|]. split; now apply fle_refl. }
  destruct (fge (snd b) (fmul (snd a) c95) && fge (snd c) (fmul (fmul (snd a) c95) c90)) eqn:G; [|exact DEF].
  apply andb_prop in G as (Gb & Gc).
  destruct (max_by _ _) as [kv|] eqn:M; [|exact DEF].
  cbn [firstn] in M. set (votes := map (fun ks : score => (fst ks, fadd f0 (fdiv (snd ks) (snd a)))) [a; b; c]) in M.
  pose proof (max_by_in _ _ _ _ M) as I. apply (Permutation_in _ (Hv votes)) in I. unfold votes in I.
  apply in_map_iff in I as ([k s] & Ekv & I).
  assert (LA : forall ks, In ks [a; b; c] -> fle (snd ks) (snd a) = true).
  { inversion S as [|? ? _ F]; subst. intros ks [<-|[<-|[<-|[]]]].
    - now apply fle_refl.
    - now apply Forall_inv in F.
    - now apply Forall_inv_tail, Forall_inv in F. }
  assert (Ek : fst kv = k) by (rewrite <- Ekv; reflexivity).
  exists s. rewrite Ek. split; [exact I|].
  split; [exact (LA _ I)|].
  assert (Lb : fle (snd b) (snd a) = true) by (apply LA; cbn [In]; auto).
  assert (Lc : fle (snd c) (snd a) = true) by (apply LA; cbn [In]; auto).
  assert (DEC : (fin (snd a) /\ pos (snd a)) \/ ~ (fin (snd a) /\ pos (snd a))).
  { destruct (is_finite (snd a)), (flt f0 (snd a)); [left; auto|right|right|right]; intros (X & Y); discriminate. }
  destruct DEC as [(F & P)|NP].
  - (* every vote is finite and the first one is 1 *)
    destruct c95_range as (F5 & R5), c90_range as (F0 & R0).
    assert (Z1 : nneg (fmul (snd a) c95)) by (apply fmul_nneg_fin; auto; now apply pos_nneg).
    assert (T1 : fin (fmul (snd a) c95)).
    { apply (fin_between f0 _ (snd a)); auto. rewrite fmul_comm. apply fmul_le_r; auto; try reflexivity. now apply pos_nneg. }
    assert (Z2 : nneg (fmul (fmul (snd a) c95) c90)) by (apply fmul_nneg_fin; auto; reflexivity).
    assert (FIN : forall ks, In ks [a; b; c] -> fin (snd ks)).
    { intros ks J. apply (fin_between f0 _ (snd a)); auto.
      destruct J as [<-|[<-|[<-|[]]]].
      - now apply pos_nneg.
      - exact (fle_trans _ _ _ Z1 Gb).
      - exact (fle_trans _ _ _ Z2 Gc). }
    assert (VN : Forall (fun e : score => nn (snd e)) (ho_votes h votes)).
    { eapply Permutation_Forall; [apply Permutation_sym, Hv|]. unfold votes.
      apply Forall_forall. intros e J. apply in_map_iff in J as (ks & <- & J). cbn [snd].
      apply fadd_nn_fin_l; [reflexivity|]. apply fdiv_nn_fin; auto. }
    assert (J : In (fst a, fadd f0 (fdiv (snd a) (snd a))) (ho_votes h votes)).
    { apply (Permutation_in _ (Permutation_sym (Hv votes))). unfold votes. left. reflexivity. }
    pose proof (max_by_ge _ _ _ _ VN M _ J) as GE. cbn [snd] in GE. rewrite <- Ekv in GE. cbn [snd] in GE.
    rewrite CombFilterProofs.fdiv_self in GE by auto.
    assert (GE1 : (1 <= fx (fadd f0 (fdiv s (snd a))))%R) 
      by (replace (fadd f0 f1) with f1 in GE by (apply B2SF_inj; vm_compute; reflexivity);
          apply fle_fx in GE; rewrite fx_f1 in GE; exact GE).
    apply fle_intro; auto. { apply fin_nn. exact (FIN _ I). }
    pose proof (FIN _ I) as Fs. cbn [snd] in Fs. rewrite !fx_fin by auto.
    destruct (Rle_or_lt (B2R (snd a)) (B2R s)) as [L|L]; auto. exfalso.
    pose proof (quot_lt1 s (snd a) Fs F (B2R_pos _ F P) L) as Q.
    assert (V : fx (fadd f0 (fdiv s (snd a))) = fx (fdiv s (snd a))).
    { assert (Nq : nn (fdiv s (snd a))) by (apply fdiv_nn_fin; auto).
      destruct (fdiv s (snd a)) as [x|x| |x m e] eqn:D; try discriminate; try (destruct x; reflexivity). }
    lra.
  - destruct (close_ties _ _ _ Na NP Lb Lc Gb Gc) as (E1 & E2).
    destruct I as [E|[E|[E|[]]]]; apply (f_equal snd) in E; cbn [snd] in E; rewrite <- E; auto. now apply fle_refl.
Qed.

(** ** Results *)

(** What every detector that sorts with NaN-free scores returns. *)
Record sound (r : key_result) : Prop := {
  so_table : Permutation (map fst (kr_scores r)) all_keys;
  so_sorted : sorted_scores (kr_scores r);
  so_top : kr_top r = firstn 3 (kr_scores r);
  so_key : In (kr_key r) all_keys }.

Lemma table_shape : forall l, is_table l -> exists a b c r, l = a :: b :: c :: r.
Proof.
  intros l H. apply is_table_length in H. destruct l as [|a [|b [|c r]]]; try discriminate. now exists a, b, c, r.
Qed.

Lemma finish_spec : forall h l, honest h -> is_table l -> Forall (fun ks => nn (snd ks)) l -> sorted_scores l ->
  exists r s, finish h l = Ok r /\ kr_scores r = l /\ kr_top r = firstn 3 l /\
    In (kr_key r, s) (firstn 3 l) /\ same s (snd (hd (Major 0%Z, f0) l)) /\
    kr_conf r = margin_conf s (find_score (fun x => negb (key_eqb x (kr_key r))) l f0) /\
    (s <> finf -> in01 (kr_conf r)).
Proof.
  intros h l Hh T N S. destruct (table_shape l T) as (a & b & c & r & El). subst l.
  destruct (vote_spec h a b c r Hh N S) as (s & I & E).
  assert (I' : In (vote h (a :: b :: c :: r) a, s) (a :: b :: c :: r)).
  { cbn [In] in I |- *. tauto. }
  unfold finish. cbn [get nth_error obind]. set (k := vote h (a :: b :: c :: r) a) in *.
  rewrite (find_score_in _ k s (snd a) (is_table_nodup _ T) I').
  eexists; exists s. split; [reflexivity|]. cbn [kr_scores kr_top kr_key kr_conf].
  split; [reflexivity|]. split; [reflexivity|]. split; [exact I|]. split; [exact E|]. split; [reflexivity|].
  intros Ns. apply margin_in01; auto.
  destruct (find_score_or (fun x => negb (key_eqb x k)) (a :: b :: c :: r) f0) as [Z|(k' & J)];
    [rewrite Z; reflexivity|exact (proj1 (Forall_forall _ _) N _ J)].
Qed.

Definition score_nan (l : list score) : bool := existsb (fun ks => fisnan (snd ks)) l.
Lemma score_nan_false : forall l, score_nan l = false <-> Forall (fun ks => nn (snd ks)) l.
Proof.
  intros l. unfold score_nan. split; intros H.
  - apply Forall_forall. intros x I. destruct (is_nan (snd x)) eqn:N; auto.
    assert (existsb (fun ks => fisnan (snd ks)) l = true) by (apply existsb_exists; exists x; now split). congruence.
  - destruct (existsb (fun ks => fisnan (snd ks)) l) eqn:E; auto. apply existsb_exists in E as (x & I & N).
    apply (proj1 (Forall_forall _ _) H) in I. unfold fisnan in N. congruence.
Qed.

(** The outcome of sorting and finishing an arbitrary table. *)
Definition good (l : list score) (r : key_result) (s : f32) : Prop :=
  kr_scores r = sort_desc snd l /\ sound r /\
  In (kr_key r, s) (kr_top r) /\ same s (snd (hd (Major 0%Z, f0) (kr_scores r))) /\
  kr_conf r = margin_conf s (find_score (fun x => negb (key_eqb x (kr_key r))) (kr_scores r) f0) /\
  (s <> finf -> in01 (kr_conf r)).
Lemma finish_cases : forall h l, honest h -> is_table l ->
  (score_nan l = true /\ (let! s := sort_or_panic l in finish h s) = Panic) \/
  (Forall (fun ks => nn (snd ks)) l /\
   exists r s, (let! s := sort_or_panic l in finish h s) = Ok r /\ good l r s).
Proof.
  intros h l Hh T. destruct (score_nan l) eqn:E.
  - left. split; auto. unfold sort_or_panic. rewrite (is_table_length _ T). unfold score_nan in E. rewrite E. reflexivity.
  - right. apply score_nan_false in E. split; auto. rewrite sort_or_panic_total by auto. cbn [obind].
    pose proof (is_table_sort _ T) as T'.
    assert (S : sorted_scores (sort_desc snd l)) by (apply sort_desc_sorted; exact E).
    assert (N : Forall (fun ks => nn (snd ks)) (sort_desc snd l)) by (apply sort_by_Forall; exact E).
    unfold good. revert T' S N. generalize (sort_desc snd l). intros l' T' S N.
    destruct (finish_spec h l' Hh T' N S) as (r & s & E1 & E2 & E3 & E4 & E5 & E6 & E7).
    exists r, s. split; [exact E1|]. split; [exact E2|]. rewrite E2, E3.
    split; [|split; [exact E4|split; [exact E5|split; [exact E6|exact E7]]]].
    constructor; rewrite ?E2; [exact T'|exact S|exact E3|].
    apply (proj1 (is_table_in _ (kr_key r) T')). apply in_map_iff. exists (kr_key r, s). split; [reflexivity|].
    destruct (table_shape _ T') as (a & b & c0 & r0 & El). rewrite El in E4 |- *.
    cbn [firstn In] in E4 |- *. tauto.
Qed.

Lemma final_table : forall c t w, is_table (final_scores c t w).
Proof. intros. unfold is_table. rewrite final_keys. apply Permutation_refl. Qed.

Lemma detect_cases : forall h c t w, honest h ->
  (chroma_valid c w = false /\ detect_key_weighted h c t w = Err InvalidInput) \/
  (chroma_valid c w = true /\ score_nan (final_scores c t w) = true /\ detect_key_weighted h c t w = Panic) \/
  (chroma_valid c w = true /\ Forall (fun ks => nn (snd ks)) (final_scores c t w) /\
   exists r s, detect_key_weighted h c t w = Ok r /\ good (final_scores c t w) r s).
Proof.
  intros h c t w Hh. unfold detect_key_weighted. destruct (chroma_valid c w); [right|left; now split].
  pose proof (finish_cases h (final_scores c t w) Hh (final_table c t w)) as C.
  destruct C as [(A & B)|(A & B)]; [left|right]; (split; [reflexivity|split; [exact A|exact B]]).
Qed.

Lemma In_firstn : forall A n (l : list A) x, In x (firstn n l) -> In x l.
Proof. intros A n l x I. rewrite <- (firstn_skipn n l). apply in_app_iff. now left. Qed.
