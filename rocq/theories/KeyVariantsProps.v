(** C57: the key detector variants: mode heuristic and minor bonus, ensemble, multi-scale and median. *)
From Coq Require Import ZArith Reals Lra Lia Sorted.
From Flocq Require Import Core.
From Verif Require Import Rust F32 F32Facts ListFacts Sorting SortingFacts Bounds KeyNotation KeyTemplates
  KeyDetector KeyDetectorProofs KeyBoundsProofs KeyDetectorProps NoveltyProofs KeyVariantsProofs KeyScoresProofs.

(** With neither refinement requested the mode detector is the plain detector. *)
Theorem C57_mode_off : forall h c t w margin flip mw, fgt flip f0 = false ->
  detect_key_mode h c t w margin flip false mw = detect_key_weighted h c t w.
Proof.
  intros h c t w margin flip mw F. unfold detect_key_mode.
  assert (E : fgt (fclamp_val flip f0 f1) f0 = false).
  { unfold fclamp_val. destruct (flt flip f0) eqn:A; [reflexivity|]. destruct (flt f1 flip) eqn:B; [|exact F].
    exfalso. assert (X : flt f0 flip = true); [|now change (fgt flip f0) with (flt f0 flip) in F; congruence].
    apply (fle_flt_trans f0 f1 flip); [reflexivity|exact B]. }
  destruct (detect_key_weighted h c t w) as [base| |]; cbn [obind]; [|reflexivity|reflexivity].
  cbv zeta. rewrite E. reflexivity.
Qed.
Print Assumptions C57_mode_off.

Lemma mode_ok : forall h c t w margin flip mo mw r, honest h -> detect_key_mode h c t w margin flip mo mw = Ok r ->
  exists base, detect_key_weighted h c t w = Ok base /\ (r = base \/ refined c w margin flip mo mw base r).
Proof.
  intros h c t w margin flip mo mw r Hh H.
  destruct (detect_key_weighted h c t w) as [base| |] eqn:B.
  - exists base. split; [reflexivity|].
    destruct (mode_cases h c t w margin flip mo mw base Hh B) as [(E & _)|(r' & E & R)]; [left; congruence|right].
    assert (r' = r) by congruence. now subst.
  - unfold detect_key_mode in H. rewrite B in H. discriminate.
  - unfold detect_key_mode in H. rewrite B in H. discriminate.
Qed.

Lemma refined_table : forall h c t w margin flip mo mw base r, honest h -> detect_key_weighted h c t w = Ok base ->
  refined c w margin flip mo mw base r -> is_table (kr_scores r) /\ In (kr_key r) all_keys.
Proof.
  intros h c t w margin flip mo mw base r Hh B R. destruct (detect_ok h c t w base Hh B) as (_ & _ & s0 & _ & So & _).
  pose proof (so_table _ So) as T. assert (Tr : is_table (kr_scores r)).
  { rewrite (rf_scores _ _ _ _ _ _ _ _ R). apply is_table_sort. now apply boosted_table. }
  split; [exact Tr|]. destruct (rf_key _ _ _ _ _ _ _ _ R) as (best & s & Hd & K).
  assert (Ib : In best all_keys).
  { apply (is_table_in _ _ Tr). destruct (kr_scores r) as [|x l]; [discriminate|]. injection Hd as ->. now left. }
  destruct K as [->|(-> & _)]; [exact Ib|now apply parallel_all].
Qed.

(** Every result of the mode detector. *)
Theorem C57_mode_result : forall h c t w margin flip mo mw r, honest h ->
  detect_key_mode h c t w margin flip mo mw = Ok r ->
  once_each (kr_scores r) /\ length (kr_top r) = 3 /\ firstn 2 (kr_top r) = firstn 2 (kr_scores r) /\
  (exists s, In (kr_key r, s) (kr_top r) /\ In (kr_key r, s) (kr_scores r)) /\
  ((forall k s, In (k, s) (kr_scores r) -> nn s) ->
   StronglySorted (fun a b => fle (snd b) (snd a) = true) (kr_scores r)) /\
  ((forall k s, In (k, s) (kr_scores r) -> s <> finf) -> in01 (kr_conf r)).
Proof.
  intros h c t w margin flip mo mw r Hh H. destruct (mode_ok _ _ _ _ _ _ _ _ _ Hh H) as (base & B & [->|R]).
  - destruct (C36_result h c t w base Hh B) as (O & S & L & P & (s & K) & F).
    split; [exact O|]. split; [exact L|]. split; [now rewrite P, firstn_firstn|].
    split; [exists s; split; [exact K|rewrite P in K; now apply In_firstn in K]|]. split; [intros _; exact S|exact F].
  - destruct (refined_table _ _ _ _ _ _ _ _ _ _ Hh B R) as (T & Ik). pose proof (table_entry _ _ T Ik) as E.
    split; [now apply table_once|]. pose proof (rf_top _ _ _ _ _ _ _ _ R) as P. cbv zeta in P.
    destruct (table_shape _ T) as (x & y & z & rest & Es).
    split. { rewrite P. destruct (existsb _ _); rewrite Es; reflexivity. }
    split. { rewrite P. destruct (existsb _ _); rewrite Es; reflexivity. }
    split.
    { exists (find_score (key_eqb (kr_key r)) (kr_scores r) f0). split; [|exact E]. rewrite P.
      destruct (existsb (fun ks => key_eqb (fst ks) (kr_key r)) (firstn 3 (kr_scores r))) eqn:X.
      - apply existsb_exists in X as ((k & s) & I & Q). apply key_eqb_iff in Q. cbn [fst] in Q. subst k.
        now rewrite (table_score _ _ s T (In_firstn _ _ _ _ I)).
      - apply in_app_iff. right. now left. }
    split.
    { intros N. rewrite (rf_scores _ _ _ _ _ _ _ _ R) in N |- *. apply sort_desc_sorted. apply Forall_forall. intros (k & s) I.
      apply (N k s). now apply sort_desc_in. }
    intros F. rewrite (rf_conf _ _ _ _ _ _ _ _ R). apply margin_in01; [exact (F _ _ E)|apply best_other_nn].
Qed.
Print Assumptions C57_mode_result.

(** The energy of pitch class [i]: the sum over the frames whose weight is not zero or less. *)
Definition pitch_energy (c : list (list f32)) (w : option (list f32)) (i : nat) : f32 :=
  match w with
  | None => fsum (map (fun ch => nth i ch f0) c)
  | Some ws => fsum (map (fun cw => fmul (snd cw) (nth i (fst cw) f0)) (filter (fun cw => negb (fle (snd cw) f0)) (combine c ws)))
  end.
(** Its share of the energy of all pitch classes (left as it is when the total is at most 1e-9). *)
Definition pitch_share (c : list (list f32)) (w : option (list f32)) (i : nat) : f32 :=
  let total := fsum (map (pitch_energy c w) [0;1;2;3;4;5;6;7;8;9;10;11]) in
  if fgt total tiny9 then fdiv (pitch_energy c w i) total else pitch_energy c w i.
Definition above (c : list (list f32)) (w : option (list f32)) (tonic semitones : Z) : f32 :=
  pitch_share c w (Z.to_nat ((tonic + semitones) mod 12)).

Lemma fold_skip : forall A (p : A -> bool) (g : A -> f32) l acc,
  fold_left (fun (a : f32) x => if p x then a else fadd a (g x)) l acc = fold_left fadd (map g (filter (fun x => negb (p x)) l)) acc.
Proof.
  intros A p g l. induction l as [|x l IH]; intros acc; cbn [fold_left filter map]; [reflexivity|].
  destruct (p x); cbn [negb map fold_left]; apply IH.
Qed.
Lemma fold_map_add : forall A (g : A -> f32) l acc, fold_left (fun (a : f32) x => fadd a (g x)) l acc = fold_left fadd (map g l) acc.
Proof. intros A g l. induction l as [|x l IH]; intros acc; cbn [fold_left map]; [reflexivity|apply IH]. Qed.
Lemma energy_pitch : forall c w i, energy_of c w i = pitch_energy c w i.
Proof.
  intros c w i. unfold energy_of, pitch_energy, fsum. destruct w as [ws|].
  - apply (fold_skip _ (fun cw : list f32 * f32 => fle (snd cw) f0) (fun cw => fmul (snd cw) (nth i (fst cw) f0))).
  - apply (fold_map_add _ (fun ch => nth i ch f0)).
Qed.
Lemma share_eq : forall c w i, i < 12 -> nth i (snd (avg_chroma c w)) f0 = pitch_share c w i.
Proof.
  intros c w i Hi. rewrite avg_eq. cbn [snd]. unfold pitch_share. change [0;1;2;3;4;5;6;7;8;9;10;11] with (seq 0 12).
  assert (E : map (energy_of c w) (seq 0 12) = map (pitch_energy c w) (seq 0 12)) by (apply map_ext; apply energy_pitch).
  rewrite E. unfold shares. cbv zeta. set (l := seq 0 12). set (total := fsum (map (pitch_energy c w) l)).
  assert (L : length l = 12) by apply seq_length.
  assert (X : nth i l 0 = i) by (unfold l; rewrite seq_nth by exact Hi; reflexivity).
  clearbody total l. generalize tiny9. intros tiny. destruct (fgt total tiny).
  - rewrite map_map. rewrite (nth_indep _ f0 (fdiv (pitch_energy c w 0) total)) by (rewrite map_length; lia).
    rewrite (map_nth (fun x => fdiv (pitch_energy c w x) total) l 0 i). now rewrite X.
  - rewrite (nth_indep _ f0 (pitch_energy c w 0)) by (rewrite map_length; lia).
    rewrite (map_nth (pitch_energy c w) l 0 i). now rewrite X.
Qed.
Lemma at_degree_eq : forall c w t j, at_degree (snd (avg_chroma c w)) t j = above c w t j.
Proof.
  intros c w t j. unfold at_degree, above. apply share_eq. pose proof (Z.mod_pos_bound (t + j) 12). lia.
Qed.

Lemma clamp_on : forall flip, fgt (fclamp_val flip f0 f1) f0 = true -> fgt flip f0 = true.
Proof.
  intros flip En. destruct (fgt flip f0) eqn:Q; [reflexivity|].
  exfalso. revert En. unfold fclamp_val. destruct (flt flip f0) eqn:A; [discriminate|]. destruct (flt f1 flip) eqn:D; [|congruence].
  intros _. change (fgt flip f0) with (flt f0 flip) in Q.
  rewrite (fle_flt_trans f0 f1 flip eq_refl D) in Q. discriminate.
Qed.
(** Degree [a] above tonic [i] is stronger than degree [b] by more than the margin. *)
Definition evidence (c : list (list f32)) (w : option (list f32)) (margin : f32) (i a b : Z) : Prop :=
  fgt (above c w i a) (fmul (above c w i b) (fadd f1 (fmax margin f0))) = true.
Lemma flip_evidence : forall c w margin best,
  (if is_major best then fst (mode_pref margin (snd (avg_chroma c w)) (tonic best))
   else snd (mode_pref margin (snd (avg_chroma c w)) (tonic best))) = true ->
  let e := evidence c w margin (tonic best) in
  if is_major best then e 3%Z 4%Z \/ e 8%Z 9%Z \/ e 10%Z 11%Z else e 4%Z 3%Z \/ e 9%Z 8%Z \/ e 11%Z 10%Z.
Proof.
  intros c w margin best H. cbv zeta. destruct (pref_evidence margin (snd (avg_chroma c w)) (tonic best)) as (P1 & P2).
  rewrite !at_degree_eq in P1, P2. unfold evidence. destruct (is_major best); [exact (P1 H)|exact (P2 H)].
Qed.

(** The winner is the best-scoring key or its parallel key.  The latter only if flipping is on, its score is at least the
    requested part of the best one, and one of the degrees telling the modes apart (third, sixth, seventh) is
    stronger in the winner's mode by more than the margin; its confidence is then 0. *)
Theorem C57_mode_choice : forall h c t w margin flip mo mw r, honest h ->
  detect_key_mode h c t w margin flip mo mw = Ok r -> (forall k s, In (k, s) (kr_scores r) -> fin s) ->
  exists best s, In (best, s) (kr_scores r) /\ (forall k' s', In (k', s') (kr_scores r) -> fle s' s = true) /\
  (kr_key r = best \/
   fgt flip f0 = true /\ fgt s f0 = true /\
   (exists s', In (kr_key r, s') (kr_scores r) /\ fge s' (fmul s (fclamp_val flip f0 f1)) = true) /\
   fle (kr_conf r) f0 = true /\
   match best, kr_key r with
   | Major i, Minor j => i = j /\ (evidence c w margin i 3 4 \/ evidence c w margin i 8 9 \/ evidence c w margin i 10 11)
   | Minor i, Major j => i = j /\ (evidence c w margin i 4 3 \/ evidence c w margin i 9 8 \/ evidence c w margin i 11 10)
   | _, _ => False
   end).
Proof.
  intros h c t w margin flip mo mw r Hh H F. destruct (mode_ok _ _ _ _ _ _ _ _ _ Hh H) as (base & B & [->|R]).
  { destruct (C56_top h c t w base Hh B) as (s & I & M). exists (kr_key base), s. split; [exact I|]. split; [exact M|]. now left. }
  destruct (C57_mode_result _ _ _ _ _ _ _ _ _ Hh H) as (_ & _ & _ & (s1 & _ & I1) & S & _).
  destruct (refined_table _ _ _ _ _ _ _ _ _ _ Hh B R) as (T & Ik).
  destruct (rf_key _ _ _ _ _ _ _ _ R) as (best & s & Hd & K).
  assert (Ib : In (best, s) (kr_scores r)). { destruct (kr_scores r) as [|x l]; [discriminate|]. injection Hd as ->. now left. }
  assert (Nn : forall k s, In (k, s) (kr_scores r) -> nn s) by (intros k s' I; apply fin_nn; eapply F; eauto).
  pose proof (hd_greatest _ _ (S Nn) Hd (Nn _ _ Ib)) as Mx. cbn [snd] in Mx.
  exists best, s. split; [exact Ib|]. split; [exact Mx|].
  destruct K as [K|(K & En & Pr & Ps & Ge)]; [now left|right].
  split; [exact (clamp_on _ En)|].
  split; [exact Ps|].
  rewrite (table_score _ _ _ T I1) in Ge. split; [exists s1; split; [exact I1|exact Ge]|].
  assert (Dk : kr_key r <> best) by (rewrite K; destruct best; discriminate).
  split.
  { rewrite (rf_conf _ _ _ _ _ _ _ _ R), (table_score _ _ _ T I1). apply margin_zero.
    - eapply F; eauto.
    - apply best_other_fin. apply Forall_forall. intros (k & x) I. eapply F; eauto.
    - apply fle_trans with s; [eapply Mx; eauto|]. apply best_other_ge with best; auto. eapply Nn; eauto. }
  pose proof (flip_evidence c w margin best Pr) as Ev. rewrite K. clear - Ev.
  destruct best as [i|i]; (split; [reflexivity|exact Ev]).
Qed.
Print Assumptions C57_mode_choice.

(** The score table of the mode detector: the plain detector's, and if the minor bonus is on, every minor key raised by
    the total weight times the bonus weight times the excess of its leading tone over its flat seventh. *)
Theorem C57_mode_scores : forall h c t w margin flip mo mw r, honest h ->
  detect_key_mode h c t w margin flip mo mw = Ok r ->
  exists base, detect_key_weighted h c t w = Ok base /\
  forall k s, In (k, s) (kr_scores r) <->
    exists s0, In (k, s0) (kr_scores base) /\
    s = match k with
        | Major _ => s0
        | Minor i =>
            let total := match w with
                         | None => n2f (length c)
                         | Some ws => fsum (map snd (filter (fun cw => negb (fle (snd cw) f0)) (combine c ws)))
                         end in
            if mo && fgt mw f0 && negb (fle total tiny9)
            then fadd s0 (fmul (fmul total mw) (fsub (above c w i 11) (above c w i 10))) else s0
        end.
Proof.
  intros h c t w margin flip mo mw r Hh H.
  assert (Wt : weight_of c w = match w with
                         | None => n2f (length c)
                         | Some ws => fsum (map snd (filter (fun cw => negb (fle (snd cw) f0)) (combine c ws)))
                         end).
  { unfold weight_of. destruct w as [ws|]; [|reflexivity].
    apply (fold_skip _ (fun cw : list f32 * f32 => fle (snd cw) f0) snd). }
  cbv zeta. rewrite <- Wt. clear Wt.
  destruct (detect_key_weighted h c t w) as [base| |] eqn:B;
    [|unfold detect_key_mode in H; rewrite B in H; discriminate|unfold detect_key_mode in H; rewrite B in H; discriminate].
  exists base. split; [reflexivity|]. intros k s.
  destruct (mode_cases h c t w margin flip mo mw base Hh B) as [(E & Off)|(r' & E & R)].
  - assert (r = base) by congruence. subst r.
    assert (X : mo && fgt mw f0 && negb (fle (weight_of c w) tiny9) = false).
    { rewrite avg_eq in Off. cbn [fst] in Off. destruct Off as [(-> & _)| ->]; [reflexivity|]. now rewrite andb_false_r. }
    rewrite X. split.
    + intros I. exists s. split; [exact I|]. now destruct k.
    + intros (s0 & I & Es). destruct k; now subst.
  - assert (r' = r) by congruence. subst r'. rewrite (rf_scores _ _ _ _ _ _ _ _ R), sort_desc_in.
    pose proof (rf_weight _ _ _ _ _ _ _ _ R) as Wp. unfold boosted_scores.
    assert (Sh : forall i j, nth (Z.to_nat ((i + j) mod 12)) (snd (avg_chroma c w)) f0 = above c w i j)
      by (intros i j; rewrite <- at_degree_eq; unfold at_degree; reflexivity).
    assert (Ew : fst (avg_chroma c w) = weight_of c w) by (rewrite avg_eq; reflexivity).
    rewrite Ew in *. rewrite Wp. cbn [negb]. rewrite andb_true_r.
    set (av := snd (avg_chroma c w)) in *. set (ws := weight_of c w) in *. clearbody av ws.
    destruct mo; cbn [andb]; [|split; [intros I; exists s; split; [exact I|now destruct k]|intros (s0 & I & Es); destruct k; now subst]].
    unfold minor_bonus. cbv zeta.
    destruct (fgt mw f0) eqn:Mw.
    + assert (Mx : fmax mw f0 = mw).
      { unfold fgt in Mw. fold (flt f0 mw) in Mw. unfold fmax. destruct (fisnan mw) eqn:N; [|].
        - apply flt_nn_r in Mw. unfold fisnan in N. congruence.
        - change (fisnan f0) with false. cbv iota. now rewrite (fle_flt_false _ _ (flt_fle _ _ Mw)). }
      rewrite Mx, Mw. rewrite in_map_iff. split.
      * intros ((k0 & s0) & Eq & I). exists s0. destruct k0 as [i|i]; cbn [fst snd] in Eq; injection Eq as <- <-;
          (split; [exact I|]); [reflexivity|]. now rewrite !Sh.
      * intros (s0 & I & Es). exists (k, s0). split; [|exact I]. destruct k as [i|i]; cbn [fst snd]; [now subst|].
        rewrite !Sh. now subst.
    + assert (Mx : fgt (fmax mw f0) f0 = false).
      { unfold fmax. destruct (fisnan mw); [reflexivity|]. change (fisnan f0) with false. cbv iota.
        destruct (flt mw f0); [reflexivity|exact Mw]. }
      rewrite Mx. split.
      * intros I. exists s. split; [exact I|]. now destruct k.
      * intros (s0 & I & Es). destruct k; now subst.
Qed.
Print Assumptions C57_mode_scores.

(** Sane frames, weights and bonus weights: the mode detector succeeds, its scores are finite and its confidence is
    in 0..1. *)
Lemma detect_total : forall h c ts w k j, honest h -> (0 <= k)%Z -> (0 <= j)%Z -> (k + j <= 70)%Z -> c <> [] ->
  sane_frames k c -> sane_weights j (length c) w ->
  exists r, detect_key_weighted h c (new_templates ts) w = Ok r /\ good_scores 30 (kr_scores r).
Proof.
  intros h c ts w k j Hh K J KJ Nc C W. pose proof (final_small k j c w ts K J KJ C W) as G.
  destruct (detect_cases h c (new_templates ts) w Hh) as [(A & E)|[(A & N & E)|(A & N & r & s & E & Gd)]].
  - exfalso. unfold chroma_valid in A. apply andb_false_iff in A as [A|A]; [apply andb_false_iff in A as [A|A]|].
    + apply negb_false_iff, Nat.eqb_eq in A. destruct c; [contradiction|discriminate].
    + assert (X : forallb (fun c => length c =? 12) c = true); [|congruence]. apply forallb_forall. intros ch I.
      apply Nat.eqb_eq. now apply (proj1 (Forall_forall _ _) C) in I as (L & _).
    + destruct w as [ws|]; [|discriminate]. destruct W as (L & _). apply Nat.eqb_neq in A. contradiction.
  - exfalso. assert (F : score_nan (final_scores c (new_templates ts) w) = false).
    { apply score_nan_false. eapply Forall_impl; [|exact G]. intros ks (_ & X). now apply within_nn in X. }
    congruence.
  - exists r. split; [exact E|]. destruct Gd as (Es & _). unfold good_scores. rewrite Es. now apply sort_by_Forall.
Qed.
Theorem C57_mode_total : forall h c ts w margin flip mo mw k j p m, honest h ->
  (0 <= k)%Z -> (0 <= j)%Z -> (0 <= p)%Z -> (0 <= m)%Z -> (k + j <= 70)%Z -> (j + 25 + m <= 125)%Z -> (p + m <= 125)%Z ->
  c <> [] -> (Z.of_nat (length c) <= 2 ^ p)%Z ->
  Forall (fun ch => length ch = 12 /\ Forall (fun x => nneg x /\ within k x) ch) c ->
  (match w with
   | None => True
   | Some ws => length ws = length c /\ Forall (fun x => nneg x /\ within j x) ws
   end) -> within m mw ->
  exists r, detect_key_mode h c (new_templates ts) w margin flip mo mw = Ok r /\ in01 (kr_conf r) /\
    Forall (fun ks => within (if mo then Z.max 30 (Z.max (j + 25) p + m + 1) + 1 else 30) (snd ks)) (kr_scores r).
Proof.
  intros h c ts w margin flip mo mw k j p m Hh K J P M KJ JM PM Nc N C W Mw.
  destruct (detect_total h c ts w k j Hh K J KJ Nc C W) as (base & B & G).
  assert (Tb : table_within 30 (kr_scores base)) by (eapply Forall_impl; [|exact G]; now intros ks (_ & X)).
  assert (KJ2 : (k + j <= 77)%Z) by lia. assert (Q2 : (Z.max (j + 25) p + m + 1 < 127)%Z) by lia.
  assert (Q : (0 <= 30 < 127)%Z) by lia.
  pose proof (boosted_within k j p m 30 c w mo mw _ K J KJ2 P C W N M Mw Q Q2 Tb) as Bw.
  assert (T : forall r, detect_key_mode h c (new_templates ts) w margin flip mo mw = Ok r ->
    Forall (fun ks => within (if mo then Z.max 30 (Z.max (j + 25) p + m + 1) + 1 else 30) (snd ks)) (kr_scores r)).
  { intros r E. destruct (mode_cases h c (new_templates ts) w margin flip mo mw base Hh B) as [(E' & _)|(r' & E' & R)].
    - assert (r = base) by congruence. subst r. eapply Forall_impl; [|exact Tb]. intros ks X. eapply within_mono; [|exact X].
      destruct mo; lia.
    - assert (r' = r) by congruence. subst r'. rewrite (rf_scores _ _ _ _ _ _ _ _ R). apply sort_by_Forall. exact Bw. }
  assert (X : exists r, detect_key_mode h c (new_templates ts) w margin flip mo mw = Ok r).
  { destruct (mode_cases h c (new_templates ts) w margin flip mo mw base Hh B) as [(E' & _)|(r' & E' & R)]; eauto. }
  destruct X as (r & E). exists r. split; [exact E|]. pose proof (T r E) as Tr. split; [|exact Tr].
  destruct (C57_mode_result _ _ _ _ _ _ _ _ _ Hh E) as (_ & _ & _ & _ & _ & F). apply F.
  intros k' s I ->. apply (proj1 (Forall_forall _ _) Tr) in I. apply within_fin in I. discriminate I.
Qed.
Print Assumptions C57_mode_total.

(** The ensemble blends the two tables by their normalised weights and takes the best of the blend. *)
Theorem C57_ensemble_result : forall h1 h2 c w kw tw r, honest h1 -> honest h2 ->
  detect_key_ensemble h1 h2 c w kw tw = Ok r ->
  exists r1 r2, detect_key_weighted h1 c (new_templates KrumhanslKessler) w = Ok r1 /\
  detect_key_weighted h2 c (new_templates Temperley) w = Ok r2 /\ once_each (kr_scores r) /\
  (forall k s, In (k, s) (kr_scores r) <-> exists s1 s2, In (k, s1) (kr_scores r1) /\ In (k, s2) (kr_scores r2) /\
     s = if fgt (fadd kw tw) tiny9
         then fadd (fmul (fdiv kw (fadd kw tw)) s1) (fmul (fdiv tw (fadd kw tw)) s2)
         else fadd (fmul fhalf s1) (fmul fhalf s2)) /\
  length (kr_top r) = 3 /\ kr_top r = firstn 3 (kr_scores r) /\ (exists s, In (kr_key r, s) (kr_top r)) /\
  ((forall k s, In (k, s) (kr_scores r) -> nn s) ->
   StronglySorted (fun a b => fle (snd b) (snd a) = true) (kr_scores r) /\
   exists s, In (kr_key r, s) (kr_scores r) /\ forall k' s', In (k', s') (kr_scores r) -> fle s' s = true) /\
  ((forall k s, In (k, s) (kr_scores r) -> fin s) -> in01 (kr_conf r)).
Proof.
  intros h1 h2 c w kw tw r H1 H2 H. unfold detect_key_ensemble in H. cbv zeta in H.
  destruct (detect_key_weighted h1 c (new_templates KrumhanslKessler) w) as [r1| |] eqn:E1; cbn [obind] in H; [|discriminate|discriminate].
  destruct (detect_key_weighted h2 c (new_templates Temperley) w) as [r2| |] eqn:E2; cbn [obind] in H; [|discriminate|discriminate].
  exists r1, r2. split; [reflexivity|]. split; [reflexivity|].
  destruct (detect_ok _ _ _ _ _ H1 E1) as (_ & _ & s1 & _ & So1 & _). pose proof (so_table _ So1) as T1.
  destruct (detect_ok _ _ _ _ _ H2 E2) as (_ & _ & s2 & _ & So2 & _). pose proof (so_table _ So2) as T2.
  fold (is_table (kr_scores r1)) in T1. fold (is_table (kr_scores r2)) in T2. clear E1 E2 So1 So2.
  match type of H with report (sort_desc snd (map ?g all_keys)) = _ => set (f := g) in H end.
  assert (T : is_table (map f all_keys)) by apply (combined_table (fun x => snd (f x))).
  destruct (report_spec _ T) as (r' & E' & R). assert (r' = r) by congruence. subst r'.
  destruct (reported_facts _ _ T R) as (Tr & L & K & S & F).
  assert (In' : forall x, In x (kr_scores r) <-> In x (map f all_keys)) by (intros x; rewrite (rp_scores _ _ R); apply sort_desc_in).
  split; [now apply table_once|]. split.
  { intros k s. rewrite In', in_map_iff. unfold f. split.
    - intros (x & Eq & I). injection Eq as -> <-.
      exists (find_score (key_eqb k) (kr_scores r1) f0), (find_score (key_eqb k) (kr_scores r2) f0).
      split; [now apply table_entry|]. split; [now apply table_entry|]. now destruct (fgt (fadd kw tw) tiny9).
    - intros (x1 & x2 & I1 & I2 & ->). exists k. split.
      + rewrite (table_score _ _ _ T1 I1), (table_score _ _ _ T2 I2). now destruct (fgt (fadd kw tw) tiny9).
      + apply (is_table_in _ _ T1). apply in_map_iff. exists (k, x1). split; [reflexivity|exact I1]. }
  split; [exact L|]. split; [exact (rp_top _ _ R)|]. split; [exact K|]. split.
  - intros N. apply S. intros k s I. apply (N k s). now apply In'.
  - intros N. apply F. intros k s I. apply (N k s). now apply In'.
Qed.
Print Assumptions C57_ensemble_result.

(** It fails exactly when the plain detector rejects its input. *)
Theorem C57_ensemble_errors : forall h1 h2 c w kw tw e, honest h1 -> honest h2 ->
  detect_key_ensemble h1 h2 c w kw tw = Err e <->
  e = InvalidInput /\
  (c = [] \/ (exists ch, In ch c /\ length ch <> 12) \/ (exists ws, w = Some ws /\ length ws <> length c)).
Proof.
  intros h1 h2 c w kw tw e H1 H2. pose proof (C36_errors h1 c (new_templates KrumhanslKessler) w H1) as (A1 & A2).
  unfold detect_key_ensemble. cbv zeta. split.
  - destruct (detect_key_weighted h1 c (new_templates KrumhanslKessler) w) as [r1|e1|] eqn:E1; cbn [obind]; [|intros Eq|discriminate].
    + destruct (detect_key_weighted h2 c (new_templates Temperley) w) as [r2|e2|] eqn:E2; cbn [obind]; [|intros Eq|discriminate].
      * set (f := fun x : key => _). assert (T : is_table (map f all_keys)) by apply (combined_table (fun x => snd (f x))).
        destruct (report_spec _ T) as (r' & E' & R). rewrite E'. discriminate.
      * exfalso. pose proof (C36_errors h2 c (new_templates Temperley) w H2) as (B1 & B2). rewrite (B2 _ E2) in E2.
        apply B1 in E2. apply A1 in E2. congruence.
    + pose proof (A2 e1 eq_refl) as X. split; [congruence|]. apply A1. now rewrite X.
  - intros (-> & X). apply A1 in X. rewrite X. reflexivity.
Qed.
Print Assumptions C57_ensemble_errors.

Theorem C57_ensemble_total : forall h1 h2 c w kw tw k j, honest h1 -> honest h2 -> (0 <= k)%Z -> (0 <= j)%Z -> (k + j <= 70)%Z ->
  c <> [] -> Forall (fun ch => length ch = 12 /\ Forall (fun x => nneg x /\ within k x) ch) c ->
  (match w with
   | None => True
   | Some ws => length ws = length c /\ Forall (fun x => nneg x /\ within j x) ws
   end) -> fin kw -> fin tw -> nneg kw -> nneg tw -> fin (fadd kw tw) ->
  exists r, detect_key_ensemble h1 h2 c w kw tw = Ok r /\ in01 (kr_conf r) /\
    Forall (fun ks => within 31 (snd ks)) (kr_scores r).
Proof.
  intros h1 h2 c w kw tw k j H1 H2 K J KJ Nc C W Fk Ft Nk Nt Fs.
  destruct (detect_total h1 c KrumhanslKessler w k j H1 K J KJ Nc C W) as (r1 & E1 & B1).
  destruct (detect_total h2 c Temperley w k j H2 K J KJ Nc C W) as (r2 & E2 & B2).
  assert (X : exists r, detect_key_ensemble h1 h2 c w kw tw = Ok r).
  { unfold detect_key_ensemble. cbv zeta. rewrite E1, E2. cbn [obind].
    set (f := fun x : key => _). assert (T : is_table (map f all_keys)) by apply (combined_table (fun x => snd (f x))).
    destruct (report_spec _ T) as (r' & E' & R). now exists r'. }
  destruct X as (r & E). exists r. split; [exact E|].
  destruct (C57_ensemble_result _ _ _ _ _ _ _ H1 H2 E) as (r1' & r2' & E1' & E2' & _ & Sc & _ & _ & _ & _ & F).
  assert (r1' = r1) by congruence. assert (r2' = r2) by congruence. subst.
  assert (Half : within 0 fhalf) by (apply upto_within, in01_upto; split; reflexivity).
  assert (Wr : Forall (fun ks => within 31 (snd ks)) (kr_scores r)).
  { apply Forall_forall. intros (q & s) I. apply Sc in I as (s1 & s2 & I1 & I2 & ->). cbn [snd].
    apply (proj1 (Forall_forall _ _) B1) in I1 as (_ & I1). apply (proj1 (Forall_forall _ _) B2) in I2 as (_ & I2). cbn [snd] in I1, I2.
    destruct (fgt (fadd kw tw) tiny9) eqn:G.
    - unfold fgt in G. fold (flt tiny9 (fadd kw tw)) in G.
      assert (P : pos (fadd kw tw)) by (refine (fle_flt_trans f0 _ _ _ G); reflexivity).
      assert (A : within 0 (fdiv kw (fadd kw tw))).
      { apply upto_within, in01_upto. apply fdiv_le_1; auto. apply fadd_ge_l; auto; now apply fin_nn. }
      assert (B : within 0 (fdiv tw (fadd kw tw))).
      { apply upto_within, in01_upto. apply fdiv_le_1; auto. rewrite fadd_comm. apply fadd_ge_l; auto; [now apply fin_nn|]. rewrite fadd_comm. now apply fin_nn. }
      replace 31%Z with (0 + 30 + 1)%Z by reflexivity. apply within_add; [lia| |]; apply within_mul; auto; lia.
    - replace 31%Z with (0 + 30 + 1)%Z by reflexivity. apply within_add; [lia| |]; apply within_mul; auto; lia. }
  split; [|exact Wr]. apply F. intros q s I. apply (proj1 (Forall_forall _ _) Wr) in I. now apply within_fin in I.
Qed.
Print Assumptions C57_ensemble_total.

(** A chroma vector with a strong minor third: the plain scores put C major first, the heuristic moves to C minor and
    reports zero confidence; without the flip the key stays C major. *)
Definition minorish : list f32 := map z2f [4; 0; 0; 3; 0; 2; 1; 4; 0; 4; 1; 2]%Z.
Example C57_mode_example :
  let run := detect_key_mode keep [minorish] (new_templates KrumhanslKessler) None f0 in
  key_of (run (lit 1 (-2)) false f0) = Some (Minor 0) /\
  match run (lit 1 (-2)) false f0 with Ok r => fle (kr_conf r) f0 | _ => false end = true /\
  key_of (run f0 true f0) = Some (Major 0).
Proof. repeat split; vm_compute; reflexivity. Qed.
(** Triads on C and G under both template sets: C major, and the three best keys of the ensemble. *)
Definition triad_g : list f32 := [f0; f0; f1; f0; f0; f0; f0; f1; f0; f0; f0; f1].
Example C57_ensemble_example :
  match detect_key_ensemble keep keep [triad; triad; triad_g] None f1 fhalf with
  | Ok r => (kr_key r, map fst (kr_top r)) | _ => (Minor 11, []) end =
  match detect_key_ensemble keep keep [triad; triad; triad_g] None (z2f 2) f1 with
  | Ok r => (kr_key r, map fst (kr_top r)) | _ => (Minor 10, []) end /\
  key_of (detect_key_ensemble keep keep [triad] None f1 fhalf) = Some (Major 0).
Proof. repeat split; vm_compute; reflexivity. Qed.
