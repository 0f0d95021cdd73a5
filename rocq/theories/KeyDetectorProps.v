(** C36, C38, C56: key detection and key clarity. *)
From Coq Require Import ZArith Reals Lra Lia Sorted.
From Flocq Require Import Core.
From Verif Require Import Rust F32 F32Facts ListFacts Sorting SortingFacts Bounds KeyNotation KeyTemplates
  KeyDetector KeyDetectorProofs KeyBoundsProofs.

(** The 24 keys once each. *)
Definition once_each (l : list score) : Prop :=
  NoDup (map fst l) /\ forall k, In k (map fst l) <-> (0 <= match k with Major i | Minor i => i end <= 11)%Z.

Lemma all_keys_iff : forall k, In k all_keys <-> (0 <= match k with Major i | Minor i => i end <= 11)%Z.
Proof.
  intros k. unfold all_keys. rewrite in_app_iff, !in_map_iff. split.
  - intros [(i & <- & I)|(i & <- & I)]; apply in_seq in I; lia.
  - destruct k as [i|i]; intros H; [left|right]; exists (Z.to_nat i); (split; [f_equal; lia|apply in_seq; lia]).
Qed.
Lemma table_once : forall l, Permutation (map fst l) all_keys -> once_each l.
Proof.
  intros l H. split.
  - now apply is_table_nodup.
  - intros k. rewrite <- all_keys_iff. split; apply Permutation_in; auto. now apply Permutation_sym.
Qed.

(** Every successful detection, whatever the hash order, frames, templates and weights. *)
Theorem C36_result : forall h c t w r, honest h -> detect_key_weighted h c t w = Ok r ->
  once_each (kr_scores r) /\
  StronglySorted (fun a b => fle (snd b) (snd a) = true) (kr_scores r) /\
  length (kr_top r) = 3 /\ kr_top r = firstn 3 (kr_scores r) /\
  (exists s, In (kr_key r, s) (kr_top r)) /\
  ((forall k s, In (k, s) (kr_scores r) -> s <> finf) -> in01 (kr_conf r)).
Proof.
  intros h c t w r Hh H. destruct (detect_cases h c t w Hh) as [(_ & E)|[(_ & _ & E)|(_ & _ & r' & s & E & G)]];
    [congruence|congruence|].
  assert (r' = r) by congruence. subst r'. destruct G as (_ & S & I & _ & _ & B).
  destruct S as [T S P K]. split; [now apply table_once|]. split; [exact S|].
  split. { rewrite P, firstn_length. rewrite (is_table_length _ T). reflexivity. }
  split; [exact P|]. split; [now exists s|].
  intros F. apply B. apply (F (kr_key r)). rewrite P in I. now apply In_firstn in I.
Qed.
Print Assumptions C36_result.

(** Errors are exactly the documented ones. *)
Theorem C36_errors : forall h c t w, honest h ->
  (detect_key_weighted h c t w = Err InvalidInput <->
   c = [] \/ (exists ch, In ch c /\ length ch <> 12) \/ (exists ws, w = Some ws /\ length ws <> length c)) /\
  (forall e, detect_key_weighted h c t w = Err e -> e = InvalidInput).
Proof.
  intros h c t w Hh.
  assert (V : chroma_valid c w = false <->
    c = [] \/ (exists ch, In ch c /\ length ch <> 12) \/ (exists ws, w = Some ws /\ length ws <> length c)).
  { unfold chroma_valid. rewrite !andb_false_iff, negb_false_iff, Nat.eqb_eq. split.
    - intros [[L|F]|W].
      + left. now apply length_zero_iff_nil.
      + right; left. apply Bool.not_true_iff_false in F. rewrite forallb_forall in F.
        destruct (existsb (fun ch => negb (length ch =? 12)) c) eqn:E.
        * apply existsb_exists in E as (ch & I & E). exists ch. split; auto. apply negb_true_iff, Nat.eqb_neq in E. exact E.
        * exfalso. apply F. intros ch I. destruct (length ch =? 12) eqn:L; auto.
          assert (existsb (fun ch => negb (length ch =? 12)) c = true); [|congruence].
          apply existsb_exists. exists ch. split; auto. now rewrite L.
      + right; right. destruct w as [ws|]; [|discriminate]. exists ws. split; auto. now apply Nat.eqb_neq.
    - intros [->|[(ch & I & L)|(ws & -> & L)]].
      + now left; left.
      + left; right. apply Bool.not_true_iff_false. rewrite forallb_forall. intros F. apply F, Nat.eqb_eq in I. congruence.
      + right. now apply Nat.eqb_neq. }
  rewrite <- V. destruct (detect_cases h c t w Hh) as [(A & E)|[(A & _ & E)|(A & _ & r' & s & E & G)]]; rewrite E, A.
  - split; [split; reflexivity|congruence].
  - split; [split; discriminate|discriminate].
  - split; [split; discriminate|discriminate].
Qed.
Print Assumptions C36_errors.

(** Valid input of moderate size is always analysed: frames of magnitude at most 2^k, counted weights
    at most 2^j with k + j <= 46, any number of frames, both template sets. *)
Theorem C36_total : forall h c s w k j, honest h -> (0 <= k)%Z -> (0 <= j)%Z -> (k + j <= 46)%Z ->
  c <> [] -> Forall (fun ch => length ch = 12 /\ Forall (within k) ch) c ->
  (match w with
   | None => True
   | Some ws => length ws = length c /\ Forall (fun x => fgt x f0 = true -> within j x) ws
   end) ->
  exists r, detect_key_weighted h c (new_templates s) w = Ok r /\ in01 (kr_conf r) /\
    Forall (fun ks => fin (snd ks)) (kr_scores r).
Proof.
  intros h c s w k j Hh K J S Nc C W.
  assert (BF : bounded_frames k c) by (eapply Forall_impl; [|exact C]; intros ch (_ & B); exact B).
  assert (BW : bounded_weights j w) by (destruct w as [ws|]; [apply W|exact I]).
  pose proof (final_within k j c (new_templates s) w K J S BF BW (builtin_bounded s)) as FW.
  destruct (detect_cases h c (new_templates s) w Hh) as [(A & E)|[(A & N & E)|(A & _ & r' & x & E & G)]].
  - exfalso. destruct (proj1 (proj1 (C36_errors h c (new_templates s) w Hh)) E) as [Z|[(ch & I & L)|(ws & Z & L)]].
    + contradiction.
    + apply (proj1 (Forall_forall _ _) C) in I. tauto.
    + subst w. destruct W as (W & _). congruence.
  - exfalso. assert (F : score_nan (final_scores c (new_templates s) w) = false).
    { apply score_nan_false. eapply Forall_impl; [|exact FW]. intros ks X. now apply within_nn in X. }
    congruence.
  - exists r'. destruct G as (Es & So & I & Sa & _ & B).
    assert (F : Forall (fun ks => fin (snd ks)) (kr_scores r')).
    { rewrite Es. apply sort_by_Forall. eapply Forall_impl; [|exact FW]. intros ks X. now apply within_fin in X. }
    split; [exact E|]. split; [|exact F]. apply B. intros ->.
    rewrite (so_top _ So) in I. apply In_firstn in I. apply (proj1 (Forall_forall _ _) F) in I. discriminate I.
Qed.
Print Assumptions C36_total.

(** A NaN in any frame that is counted makes the detector panic (the sort unwraps partial_cmp):
    whenever it returns a result, every counted frame is NaN-free. *)
Theorem C36_nan : forall h c s w r, honest h -> detect_key_weighted h c (new_templates s) w = Ok r ->
  forall i, i < length c -> (match w with None => True | Some ws => fgt (nth i ws f0) f0 = true end) ->
  Forall (fun x => nn x) (nth i c []).
Proof.
  intros h c s w r Hh H i Hi Ci.
  destruct (detect_cases h c (new_templates s) w Hh) as [(_ & E)|[(_ & _ & E)|(A & N & _)]]; [congruence|congruence|].
  unfold chroma_valid in A. apply andb_prop in A as (A & A3). apply andb_prop in A as (A1 & A2).
  apply (wsd_nn_inv c w (template_of (new_templates s) (Major 0))); auto.
  - destruct w as [ws|]; auto. now apply Nat.eqb_eq.
  - rewrite forallb_forall in A2. apply Forall_forall. intros ch I. rewrite KeyTemplatesProofs.template_len.
    now apply Nat.eqb_eq, A2.
  - apply final_nn_raw; auto. apply all_keys_iff. lia.
Qed.
Print Assumptions C36_nan.
Theorem C36_nan_refuted : exists c, c <> [] /\ Forall (fun ch => length ch = 12) c /\
  forall h, honest h -> detect_key h c (new_templates KrumhanslKessler) = Panic.
Proof.
  exists [fnan :: repeat f0 11]. split; [discriminate|]. split; [repeat constructor|].
  intros h Hh. unfold detect_key. set (c := [fnan :: repeat f0 11]).
  destruct (detect_cases h c (new_templates KrumhanslKessler) None Hh) as [(A & E)|[(A & N & E)|(A & _ & r' & x & E & G)]].
  - discriminate A.
  - exact E.
  - exfalso. pose proof (C36_nan h c KrumhanslKessler None r' Hh E 0 ltac:(cbn; lia) I) as F.
    apply Forall_inv in F. discriminate F.
Qed.
Print Assumptions C36_nan_refuted.

(** ** C56: which key is chosen *)

(** The detected key always carries the maximal score, although close calls are put to a vote. *)
Theorem C56_top : forall h c t w r, honest h -> detect_key_weighted h c t w = Ok r ->
  exists s, In (kr_key r, s) (kr_scores r) /\ forall k' s', In (k', s') (kr_scores r) -> fle s' s = true.
Proof.
  intros h c t w r Hh H. destruct (detect_cases h c t w Hh) as [(_ & E)|[(_ & _ & E)|(_ & _ & r' & s & E & G)]];
    [congruence|congruence|].
  assert (r' = r) by congruence. subst r'. destruct G as (_ & S & I & (_ & M) & _ & _).
  exists s. rewrite (so_top _ S) in I. split; [now apply In_firstn in I|].
  intros k' s' J. destruct S as [_ S _ _]. destruct (kr_scores r) as [|a l]; [destruct J|]. cbn [hd] in M.
  destruct J as [->|J]; [exact M|]. inversion S as [|? ? _ F]; subst.
  apply (proj1 (Forall_forall _ _) F) in J. cbn [snd] in J. exact (fle_trans _ _ _ J M).
Qed.
Print Assumptions C56_top.

(** The scores do not depend on the hash order, and neither do key and confidence when the best
    score is strictly larger than the others. *)
Theorem C56_deterministic : forall h h' c t w r r', honest h -> honest h' ->
  detect_key_weighted h c t w = Ok r -> detect_key_weighted h' c t w = Ok r' ->
  kr_scores r = kr_scores r' /\ kr_top r = kr_top r' /\
  ((forall k s, In (k, s) (tl (kr_scores r)) -> flt s (snd (hd (Major 0%Z, f0) (kr_scores r))) = true) ->
   kr_key r = kr_key r' /\ kr_conf r = kr_conf r').
Proof.
  intros h h' c t w r r' Hh Hh' H H'.
  destruct (detect_cases h c t w Hh) as [(_ & E)|[(_ & _ & E)|(_ & _ & x & s & E & G)]]; [congruence|congruence|].
  destruct (detect_cases h' c t w Hh') as [(_ & E')|[(_ & _ & E')|(_ & _ & x' & s' & E' & G')]]; [congruence|congruence|].
  assert (x = r) by congruence. assert (x' = r') by congruence. subst x x'. clear E E' H H'.
  destruct G as (Es & S & I & M & C & _). destruct G' as (Es' & S' & I' & M' & C' & _).
  assert (ES : kr_scores r = kr_scores r') by (rewrite Es, Es'; reflexivity).
  rewrite (so_top _ S), (so_top _ S') in *. rewrite <- ES in *. clear Es Es'.
  split; [reflexivity|]. split; [reflexivity|]. intros U.
  assert (ONE : forall k x, In (k, x) (firstn 3 (kr_scores r)) -> same x (snd (hd (Major 0%Z, f0) (kr_scores r))) ->
            (k, x) = hd (Major 0%Z, f0) (kr_scores r)).
  { intros k x J (_ & L). apply In_firstn in J. destruct (kr_scores r) as [|a l]; [destruct J|]. cbn [hd tl] in *.
    destruct J as [J|J]; auto. apply U in J. apply fle_flt_false in L. congruence. }
  apply ONE in I; auto. apply ONE in I'; auto.
  assert (EQ : (kr_key r, s) = (kr_key r', s')) by congruence.
  assert (K : kr_key r = kr_key r') by congruence. assert (s = s') by congruence. subst s'.
  split; [exact K|]. rewrite C, C', K. reflexivity.
Qed.
Print Assumptions C56_deterministic.

(** Ties are broken by the hash order: the key of a silent recording is not determined. *)
Definition keep : hash_order := {| ho_votes := fun l => l; ho_counts := fun l => l |}.
Definition flip : hash_order := {| ho_votes := @rev _; ho_counts := @rev _ |}.
Lemma keep_honest : honest keep. Proof. split; intros; apply Permutation_refl. Qed.
Lemma flip_honest : honest flip. Proof. split; intros; apply Permutation_sym, Permutation_rev. Qed.
Definition key_of (o : outcome key_result) : option key := match o with Ok r => Some (kr_key r) | _ => None end.
Theorem C56_tie_refuted : exists h h' c k k', honest h /\ honest h' /\ k <> k' /\
  key_of (detect_key h c (new_templates KrumhanslKessler)) = Some k /\
  key_of (detect_key h' c (new_templates KrumhanslKessler)) = Some k'.
Proof.
  exists keep, flip, [repeat f0 12], (Major 2), (Major 0). split; [apply keep_honest|]. split; [apply flip_honest|].
  split; [discriminate|]. split; vm_compute; reflexivity.
Qed.
Print Assumptions C56_tie_refuted.

(** A C major triad is detected as C major; the confidence is not positive (see C58). *)
Definition triad : list f32 := [f1; f0; f0; f0; f1; f0; f0; f1; f0; f0; f0; f0].
Example C36_example :
  key_of (detect_key keep [triad; triad] (new_templates KrumhanslKessler)) = Some (Major 0) /\
  match detect_key keep [triad; triad] (new_templates KrumhanslKessler) with
  | Ok r => (map fst (kr_top r), flt f0 (kr_conf r), length (kr_scores r))
  | _ => ([], false, 0) end = ([Major 0; Minor 4; Major 7], false, 24).
Proof. split; vm_compute; reflexivity. Qed.

(** ** C38: key clarity *)

Theorem C38_range : forall l k, (0 <= k <= 101)%Z -> Forall (fun ks => within k (snd ks)) l ->
  exists c, key_clarity l = Ok c /\ in01 c.
Proof. intros l k K H. exact (clarity_in01 k l K H). Qed.
Print Assumptions C38_range.

Theorem C38_short : forall l, length l < 2 -> key_clarity l = Ok f0.
Proof. intros l H. unfold key_clarity. apply Nat.ltb_lt in H. now rewrite H. Qed.
Print Assumptions C38_short.

Theorem C38_panic : forall l, key_clarity l = Panic <-> 2 <= length l /\ exists k s, In (k, s) l /\ is_nan s = true.
Proof.
  intros l. unfold key_clarity. destruct (length l <? 2) eqn:L.
  - apply Nat.ltb_lt in L. split; [discriminate|]. intros (H & _). exfalso. exact (Nat.lt_irrefl _ (Nat.lt_le_trans _ _ _ L H)).
  - apply Nat.ltb_ge in L. destruct (existsb (fun ks => fisnan (snd ks)) l) eqn:E.
    + split; auto. intros _. split; auto. apply existsb_exists in E as ([k s] & I & N). exists k, s. now split.
    + cbv zeta. split; [discriminate|]. intros (_ & k & s & I & N).
      assert (existsb (fun ks => fisnan (snd ks)) l = true) by (apply existsb_exists; exists (k, s); now split). congruence.
Qed.
Print Assumptions C38_panic.

(** Scores of a successful detection never make it panic, and for inputs of moderate size (as in
    C36_total) the clarity is in [0,1]. *)
Theorem C38_detected : forall h c t w r, honest h -> detect_key_weighted h c t w = Ok r ->
  exists x, key_clarity (kr_scores r) = Ok x.
Proof.
  intros h c t w r Hh H. destruct (key_clarity (kr_scores r)) as [x|e|] eqn:E; [now exists x| |].
  - exfalso. unfold key_clarity in E. destruct (length (kr_scores r) <? 2); [discriminate|].
    destruct (existsb _ _) in E; discriminate.
  - exfalso. apply C38_panic in E as (_ & k & s & I & N).
    destruct (detect_cases h c t w Hh) as [(_ & X)|[(_ & _ & X)|(_ & F & r' & x & X & G)]]; [congruence|congruence|].
    assert (r' = r) by congruence. subst r'. destruct G as (Es & _). rewrite Es in I. apply sort_desc_in in I.
    apply (proj1 (Forall_forall _ _) F) in I. cbn [snd] in I. congruence.
Qed.
Print Assumptions C38_detected.

Theorem C38_equal : forall l s, fin s -> Forall (fun ks => snd ks = s) l -> key_clarity l = Ok f0.
Proof.
  intros l s F H. unfold key_clarity. destruct (length l <? 2) eqn:L; auto.
  assert (E : existsb (fun ks => fisnan (snd ks)) l = false).
  { apply score_nan_false. eapply Forall_impl; [|exact H]. intros ks ->. now apply fin_nn. }
  rewrite E. cbv zeta.
  assert (V : forall x, In x (map snd l) -> x = s).
  { intros x I. apply in_map_iff in I as (ks & <- & I). exact (proj1 (Forall_forall _ _) H _ I). }
  assert (B : nth 0 (map snd l) f0 = s).
  { destruct (map snd l) as [|x r] eqn:M; [|apply V; now left].
    apply (f_equal (@length _)) in M. rewrite map_length in M. rewrite M in L. discriminate. }
  rewrite B. set (v := map snd l) in *.
  assert (MX : fold_left fmax v s = s).
  { clear -V. induction v as [|x v IH]; auto. cbn [fold_left]. rewrite (V x) by now left.
    destruct (fmax_case s s) as [->| ->]; apply IH; intros y I; apply V; now right. }
  assert (MN : fold_left fmin v s = s).
  { clear -V. induction v as [|x v IH]; auto. cbn [fold_left]. rewrite (V x) by now left.
    destruct (fmin_case s s) as [->| ->]; apply IH; intros y I; apply V; now right. }
  rewrite MX, MN.
  destruct (fgt (fsub s s) (lit 14411519 (-57))) eqn:G; auto. exfalso.
  unfold fgt in G. fold (flt (lit 14411519 (-57)) (fsub s s)) in G. apply flt_fx in G.
  destruct (fsub_fx s s F F) as (_ & Z). rewrite Z, Rminus_diag_eq, rnd_0, sat_0 in G by auto.
  assert (P : flt f0 (lit 14411519 (-57)) = true) by reflexivity. apply flt_fx in P. rewrite fx_f0 in P. lra.
Qed.
Print Assumptions C38_equal.

(** Finite scores near the top of the f32 range overflow the sum and the range: the clarity is NaN. *)
Theorem C38_refuted : exists l c, Forall (fun ks => fin (snd ks)) l /\ key_clarity l = Ok c /\ is_nan c = true.
Proof.
  set (m := lit 16777215 104). set (l := [(Major 0%Z, m); (Major 1%Z, m); (Major 2%Z, fneg m)]).
  exists l. destruct (key_clarity l) as [c|e|] eqn:E.
  - exists c. split; [repeat constructor|]. split; auto.
    assert (G : match key_clarity l with Ok x => is_nan x | _ => true end = true) by (vm_compute; reflexivity).
    rewrite E in G. exact G.
  - exfalso. assert (G : match key_clarity l with Err _ => false | _ => true end = true) by (vm_compute; reflexivity).
    rewrite E in G. discriminate.
  - exfalso. assert (G : match key_clarity l with Panic => false | _ => true end = true) by (vm_compute; reflexivity).
    rewrite E in G. discriminate.
Qed.
Print Assumptions C38_refuted.

(** Scores 1.0, 0.5, 0.0 have clarity 0.5. *)
Example C38_example :
  match key_clarity [(Major 0%Z, f1); (Major 7%Z, fhalf); (Minor 9%Z, f0)] with Ok c => feq c fhalf | _ => false end = true.
Proof. vm_compute; reflexivity. Qed.
