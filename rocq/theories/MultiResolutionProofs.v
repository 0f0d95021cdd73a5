(** Lemmas for the multi-resolution fusion. *)
From Coq Require Import ZArith Reals Lra Sorted.
From Flocq Require Import Core.
From Verif Require Import Rust F32 F32Facts ListFacts Libm Sorting SortingFacts CombFilterProofs Autocorrelation TempoSpectra Novelty
  NoveltyProofs CandidateFilter Bounds Tempogram TempogramProofs TempogramValueProofs MultiResolution.

Definition inside (mn mx b : f32) : Prop := fle mn b = true /\ fle b mx = true.

(** A positive support comes from a candidate within the tolerance. *)
Lemma support_found : forall l b tol, fgt (support_at l b tol) f0 = true ->
  exists c, In c l /\ t_score c = support_at l b tol /\ fle (fabs (fsub (t_bpm c) b)) tol = true.
Proof.
  intros l b tol. unfold support_at, lookup_nearest.
  assert (G : forall acc, let r := fold_left (fun acc bv => let d := fabs (fsub (fst bv) b) in
       if fle d tol && flt d (fst acc) then (d, snd bv) else acc) (map (fun c => (t_bpm c, t_score c)) l) acc in
       r = acc \/ exists c, In c l /\ t_score c = snd r /\ fle (fabs (fsub (t_bpm c) b)) tol = true).
  { induction l as [|c l IH]; intros acc; cbn [map fold_left fst snd]; [now left|].
    destruct (fle (fabs (fsub (t_bpm c) b)) tol && flt (fabs (fsub (t_bpm c) b)) (fst acc)) eqn:E.
    - right. destruct (IH (fabs (fsub (t_bpm c) b), t_score c)) as [H|(c' & I & H)].
      + exists c. split; [now left|]. cbv zeta in H. rewrite H. cbn [snd]. apply andb_true_iff in E. tauto.
      + exists c'. split; [now right|auto].
    - destruct (IH acc) as [H|(c' & I & H)]; [now left|]. right. exists c'. split; [now right|auto]. }
  intros P. destruct (G (finf, f0)) as [H|H]; auto. cbv zeta in H. rewrite H in P. discriminate P.
Qed.

(** The hypothesis of a candidate: the candidate, its double or its half, and in range if the candidate is. *)
Lemma hypothesis_bpm : forall c256 c512 c1024 mn mx tol p t h, hypothesis c256 c512 c1024 mn mx tol p t = Some h ->
  fin t /\ pos t /\ (h_bpm h = t \/ (h_bpm h = fmul t f2 /\ inside mn mx (h_bpm h)) \/ (h_bpm h = fmul t fhalf /\ inside mn mx (h_bpm h))).
Proof.
  intros c256 c512 c1024 mn mx tol p t h H. unfold hypothesis in H.
  destruct (fisfin t && fgt t f0) eqn:V; cbn [negb] in H; [|discriminate]. apply andb_true_iff in V as (Ft & Pt).
  split; auto. split; auto. cbv zeta in H.
  set (locals := filter _ _) in H.
  assert (Lo : forall h, In h locals -> inside mn mx (h_bpm h) /\ (h_bpm h = t \/ h_bpm h = fmul t f2 \/ h_bpm h = fmul t fhalf)).
  { intros x I. unfold locals in I. apply filter_In in I as (I & R). apply andb_true_iff in R. split; [exact R|].
    destruct I as [<-|[<-|[<-|[]]]]; cbn [h_bpm]; auto. }
  generalize dependent locals. intros locals H Lo.
  destruct (sort_desc h_score _) as [|best r] eqn:E; [discriminate|].
  assert (Ib : In best (sort_desc h_score (map (fun h => mkHyp (h_bpm h) (hyp_prior (h_bpm h) (h_score h))) locals))) by (rewrite E; now left).
  apply sort_desc_in, in_map_iff in Ib as (x & <- & Ix). cbn [h_bpm] in H. destruct (Lo x Ix) as (R & B).
  destruct (fgt (fabs (fsub (h_bpm x) t)) (lit 8589935 (-33)) && _).
  - assert (h_bpm h = t) by (destruct (_ && _) in H; injection H as <-; reflexivity). auto.
  - assert (Eh : h_bpm h = h_bpm x) by (destruct (_ && _) in H; injection H as <-; reflexivity). rewrite Eh.
    destruct B as [B|[B|B]]; auto.
Qed.

Lemma unique_sub : forall l acc h, In h (unique_from acc l) -> In h acc \/ In h l.
Proof.
  induction l as [|x l IH]; intros acc h H; cbn [unique_from] in H; auto.
  destruct (existsb _ _). { destruct (IH _ _ H); auto. right. now right. }
  assert (A : forall y, In y (acc ++ [x]) -> In y acc \/ In y (x :: l)).
  { intros y Y. apply in_app_or in Y as [Y|[<-|[]]]; auto. right. now left. }
  destruct (8 <=? _); auto. destruct (IH _ _ H) as [I|I]; auto. right. now right.
Qed.
Lemma unique_head : forall l acc h r, unique_from acc l = h :: r -> acc <> [] -> exists r', acc = h :: r'.
Proof.
  induction l as [|x l IH]; intros acc h r H N; cbn [unique_from] in H; [eauto|].
  destruct (existsb _ _); [eauto|].
  assert (A : forall r', acc ++ [x] = h :: r' -> exists r', acc = h :: r').
  { intros r' E. destruct acc as [|a acc]; [congruence|]. injection E as -> _. eauto. }
  destruct (8 <=? _); [eauto|]. apply IH in H as (r' & E); [eauto|]. destruct acc; discriminate.
Qed.

(** The folds: unchanged, or the half in [70,120] backed by all three lists, or the double in [70,180] backed by two. *)
Lemma down_cases : forall sup best, let r := fold_down sup best in
  r = best \/ (h_bpm r = fmul (h_bpm best) fhalf /\ h_score r = fst (sup (h_bpm r)) /\ inside (z2f 70) (z2f 120) (h_bpm r) /\ 3 <= snd (sup (h_bpm r))).
Proof.
  intros sup best. unfold fold_down. cbv zeta. destruct (fge _ _ && (fle (z2f 70) (fmul (h_bpm best) fhalf) && _)) eqn:E; [|now left].
  destruct ((3 <=? _) && _ && _ && _) eqn:G; [|now left]. right. cbn [h_bpm h_score].
  rewrite !andb_true_iff in *. destruct G as (((G & _) & _) & _). apply Nat.leb_le in G. unfold inside. tauto.
Qed.
Lemma up_cases : forall sup best, let r := fold_up sup best in
  r = best \/ (h_bpm r = fmul (h_bpm best) f2 /\ h_score r = fst (sup (h_bpm r)) /\ inside (z2f 70) (z2f 180) (h_bpm r) /\ 2 <= snd (sup (h_bpm r))).
Proof.
  intros sup best. unfold fold_up. cbv zeta. destruct (fle (h_bpm best) (z2f 80) && (fle (z2f 70) (fmul (h_bpm best) f2) && _)) eqn:E; [|now left].
  destruct ((2 <=? _) && _ && _ && _) eqn:G; [|now left]. right. cbn [h_bpm h_score].
  rewrite !andb_true_iff in *. destruct G as (((G & _) & _) & _). apply Nat.leb_le in G. unfold inside. tauto.
Qed.
Lemma triplet_cases : forall sup nov rate mn mx best, let r := triplet sup nov rate mn mx best in
  r = best \/ (inside mn mx (h_bpm r) /\ inside (z2f 70) (z2f 180) (h_bpm r) /\ 2 <= snd (sup (h_bpm r)) /\
    h_score r = fst (sup (h_bpm r)) /\ (exists f, In f family_factors /\ h_bpm r = fmul (h_bpm best) f) /\
    fgt (fabs (fsub (h_bpm r) (h_bpm best))) f075 = true).
Proof.
  intros sup nov rate mn mx best. unfold triplet. destruct (_ || _); [now left|].
  assert (Ff : forall f, In f (families sup nov rate mn mx (h_bpm best)) ->
    inside mn mx (fa_bpm f) /\ inside (z2f 70) (z2f 180) (fa_bpm f) /\ 2 <= snd (sup (fa_bpm f)) /\ fa_support f = fst (sup (fa_bpm f)) /\
    (exists g, In g family_factors /\ fa_bpm f = fmul (h_bpm best) g)).
  { intros f I. apply in_map_iff in I as (b & <- & I). apply filter_In in I as (I & R). cbn [fa_bpm fa_support].
    rewrite !andb_true_iff, negb_true_iff, orb_false_iff, Nat.ltb_ge in R. unfold inside, fge in *.
    apply in_map_iff in I as (g & <- & I). repeat split; try tauto. eauto. }
  destruct (families sup nov rate mn mx (h_bpm best)) as [|f [|f' fams]] eqn:E; [now left|now left|].
  destruct (fge _ _); [|now left]. cbv zeta.
  match goal with |- context [fold_left ?g ?l (f, ?z)] => set (step := g); set (z0 := z) end.
  assert (K : forall l acc, In (fst acc) (f :: f' :: fams) -> incl l (f :: f' :: fams) -> In (fst (fold_left step l acc)) (f :: f' :: fams)).
  { induction l as [|x l IH]; intros acc A I; cbn [fold_left]; auto. apply IH.
    - unfold step. destruct (fgt _ _); auto. apply I. now left.
    - intros y Y. apply I. now right. }
  assert (C : In (fst (fold_left step (f :: f' :: fams) (f, z0))) (f :: f' :: fams)).
  { apply K; [now left|apply incl_refl]. }
  generalize dependent (fst (fold_left step (f :: f' :: fams) (f, z0))). intros c C.
  destruct (fgt (fabs (fsub (fa_bpm c) (h_bpm best))) f075 && _) eqn:G; [|now left].
  right. cbn [h_bpm h_score]. apply andb_true_iff in G. destruct (Ff c C) as (A1 & A2 & A3 & A4 & A5). tauto.
Qed.

(** Anatomy of an accepted fusion. *)
Lemma fuse_ok : forall c256 c512 c1024 rate mn mx res k p nov e l,
  fuse c256 c512 c1024 rate mn mx res k p nov = Ok (e, l) ->
  let tol := fmax f2 res in let sup b := total_support c256 c512 c1024 b tol in
  exists t first rest best second, In t c512 /\ hypothesis c256 c512 c1024 mn mx tol p (t_bpm t) = Some first /\
    (rest = [] /\ second = f0 \/ exists t2 h2, In t2 c512 /\ hypothesis c256 c512 c1024 mn mx tol p (t_bpm t2) = Some h2 /\ second = h_score h2) /\
    (best = fold_up sup (fold_down sup first) \/ exists n, best = triplet sup n rate mn mx (fold_up sup (fold_down sup first))) /\
    unique_from [] (sort_desc h_score (flat_map (fun c => match hypothesis c256 c512 c1024 mn mx tol p (t_bpm c) with Some h => [h] | None => [] end)
                (firstn k c512))) = first :: rest /\
    e = mkEst (h_bpm best) (separation (lit 8796093 (-43)) (h_score best) second) (snd (sup (h_bpm best))) /\
    l = map (fun c => mkTc (t_bpm c) (t_score c) (t_fft c) (t_ac c) (flt (fabs (fsub (t_bpm c) (h_bpm best))) f075)) c512.
Proof.
  intros c256 c512 c1024 rate mn mx res k p nov e l H tol sup. unfold fuse in H. cbv zeta in H. fold tol in H. fold sup in H.
  set (hyps := flat_map _ _) in H.
  assert (Ih : forall h, In h (unique_from [] (sort_desc h_score hyps)) -> exists t, In t c512 /\ hypothesis c256 c512 c1024 mn mx tol p (t_bpm t) = Some h).
  { intros h I. apply unique_sub in I as [[]|I]. apply sort_desc_in in I. unfold hyps in I. apply in_flat_map in I as (t & T & I).
    exists t. split. { rewrite <- (firstn_skipn k c512). apply in_or_app. now left. }
    destruct (hypothesis _ _ _ _ _ _ _ _) as [h'|]; [destruct I as [<-|[]]; auto|destruct I]. }
  destruct (unique_from [] (sort_desc h_score hyps)) as [|first rest] eqn:E; [discriminate|].
  destruct nov as [nov| |]; cbn [obind] in H; try discriminate.
  assert (H1 := f_equal (fun o => match o with Ok x => fst x | _ => e end) H). cbv beta iota delta [fst] in H1.
  assert (H2 := f_equal (fun o => match o with Ok x => snd x | _ => l end) H). cbv beta iota delta [snd] in H2. clear H.
  destruct (Ih first (or_introl eq_refl)) as (t & T & Ht).
  exists t, first, rest, (match nov with Some n => triplet sup n rate mn mx (fold_up sup (fold_down sup first)) | None => fold_up sup (fold_down sup first) end),
    (match rest with [] => f0 | h :: _ => h_score h end).
  split; auto. split; auto. split.
  { destruct rest as [|h2 rest]; [now left|]. right. destruct (Ih h2) as (t2 & T2 & Ht2); [right; now left|]. eauto. }
  split. { destruct nov as [n|]; [right; eauto|now left]. }
  repeat split; auto.
Qed.

(** The result tempo. *)
Lemma agree_le3 : forall c256 c512 c1024 b tol, snd (total_support c256 c512 c1024 b tol) <= 3.
Proof. intros. cbn [total_support snd]. destruct (fgt _ _), (fgt _ _), (fgt _ _); lia. Qed.
Lemma agree_found : forall c256 c512 c1024 b tol, 0 < snd (total_support c256 c512 c1024 b tol) ->
  exists c, (In c c256 \/ In c c512 \/ In c c1024) /\ fle (fabs (fsub (t_bpm c) b)) tol = true.
Proof.
  intros c256 c512 c1024 b tol H. unfold total_support in H. cbv zeta in H. cbn [snd] in H.
  destruct (fgt (support_at c256 b tol) f0) eqn:A; [apply support_found in A as (c & I & _ & D); eauto|].
  destruct (fgt (support_at c512 b tol) f0) eqn:B; [apply support_found in B as (c & I & _ & D); eauto|].
  destruct (fgt (support_at c1024 b tol) f0) eqn:C; [apply support_found in C as (c & I & _ & D); eauto|]. cbn in H. lia.
Qed.

(** Numeric part: scores up to 2^40, weights up to 2^20 in magnitude. *)
Definition tame (l : list cand) : Prop := Forall (fun c => upto 40 (t_score c)) l.
Definition tame_fusion (p : fusion) : Prop :=
  Forall (fun w => fle (fabs w) (lit 1 20) = true) [fu_w512 p; fu_w256 p; fu_w1024 p; fu_double p].

Lemma support_tame : forall l b tol, tame l -> upto 40 (support_at l b tol).
Proof.
  intros l b tol H. unfold support_at, lookup_nearest.
  assert (G : forall acc, upto 40 (snd acc) ->
    upto 40 (snd (fold_left (fun acc bv => let d := fabs (fsub (fst bv) b) in
       if fle d tol && flt d (fst acc) then (d, snd bv) else acc) (map (fun c => (t_bpm c, t_score c)) l) acc))).
  { induction H as [|c l Hc Hl IH]; intros acc A; cbn [map fold_left fst snd]; auto. apply IH. destruct (_ && _); auto. }
  apply G. apply upto_0.
Qed.
Lemma total_tame : forall c256 c512 c1024 b tol, tame c256 -> tame c512 -> tame c1024 ->
  upto 42 (fst (total_support c256 c512 c1024 b tol)).
Proof.
  intros. cbn [total_support fst]. change 42%Z with (40 + 1 + 1)%Z. apply upto_add; [lia| |].
  - apply upto_add; [lia| |]; now apply support_tame.
  - eapply upto_mono; [|apply support_tame; eauto]. lia.
Qed.

Lemma within_shrink : forall k x c, (0 <= k < 128)%Z -> within k x -> in01 c -> within k (fmul x c).
Proof. intros k x c K X C. rewrite <- (Z.add_0_r k). apply within_mul; [lia|auto|]. apply upto_within, in01_upto, C. Qed.
Lemma discounted_within : forall k h a b r, (0 <= k < 128)%Z -> within k h -> within k (discounted h a b r).
Proof.
  intros k h a b r K H. unfold discounted.
  assert (C1 : in01 (lit 7549747 (-23))) by (split; reflexivity). assert (C2 : in01 f075) by (split; reflexivity).
  destruct (fgt _ _), (flt r (lit 9227469 (-23))), (flt r f1); repeat (apply within_shrink; auto); auto.
Qed.
Lemma hyp_prior_within : forall k b s, (0 <= k < 128)%Z -> within k s -> within k (hyp_prior b s).
Proof.
  intros k b s K H. unfold hyp_prior. destruct (fgt b (z2f 210)), (fgt b (z2f 180)), (flt b (z2f 60)); auto;
    apply within_shrink; auto; split; reflexivity.
Qed.

(** Anatomy of a hypothesis: the ranked in-range variants, with the candidate itself among them when it is in range. *)
Lemma hypothesis_ranked : forall c256 c512 c1024 mn mx tol p t h, tame c256 -> tame c512 -> tame c1024 -> tame_fusion p ->
  hypothesis c256 c512 c1024 mn mx tol p t = Some h ->
  let own := fadd (fadd (fmul (fu_w512 p) (support_at c512 t tol)) (fmul (fu_w256 p) (support_at c256 t tol)))
                  (fmul (fu_w1024 p) (support_at c1024 t tol)) in
  exists locals best r, within 87 own /\ Forall (fun x => within 87 (h_score x)) locals /\ (inside mn mx t -> In (mkHyp t own) locals) /\
    sort_desc h_score (map (fun h => mkHyp (h_bpm h) (hyp_prior (h_bpm h) (h_score h))) locals) = best :: r /\
    let margin := fsub (h_score best) (match r with [] => f0 | s :: _ => h_score s end) in
    let unclear := flt margin (fu_margin p) in
    let chosen := if fgt (fabs (fsub (h_bpm best) t)) (lit 8589935 (-33)) && unclear then mkHyp t own else best in
    h = chosen \/ unclear = true /\ h = mkHyp (h_bpm chosen) (fadd (h_score chosen) (lit 13421773 (-28))).
Proof.
  intros c256 c512 c1024 mn mx tol p t h T1 T2 T3 P H own.
  inversion P as [|? ? W1 P1]; subst. inversion P1 as [|? ? W2 P2]; subst. inversion P2 as [|? ? W3 P3]; subst.
  inversion P3 as [|? ? W4 _]; subst. clear P P1 P2 P3. apply within_abs in W1, W2, W3, W4; try lia.
  assert (S1 : forall b, within 40 (support_at c256 b tol)) by (intros; now apply upto_within, support_tame).
  assert (S2 : forall b, within 40 (support_at c512 b tol)) by (intros; now apply upto_within, support_tame).
  assert (S3 : forall b, within 40 (support_at c1024 b tol)) by (intros; now apply upto_within, support_tame).
  unfold hypothesis in H. destruct (negb _); [discriminate|]. cbv zeta in H. cbn [fst snd] in H.
  assert (A2 : forall b, within 85 (fmul (fu_w256 p) (support_at c256 b tol))).
  { intros b. apply (within_mono (20 + 40)); [lia|]. apply within_mul; auto; lia. }
  assert (A3 : forall b, within 86 (fmul (fu_w1024 p) (support_at c1024 b tol))).
  { intros b. apply (within_mono (20 + 40)); [lia|]. apply within_mul; auto; lia. }
  assert (Sum : forall x b b', within 85 x -> within 87 (fadd (fadd x (fmul (fu_w256 p) (support_at c256 b tol))) (fmul (fu_w1024 p) (support_at c1024 b' tol)))).
  { intros x b b' X. change 87%Z with (86 + 1)%Z. apply within_add; [lia| |auto]. change 86%Z with (85 + 1)%Z. apply within_add; auto; lia. }
  assert (Mix : forall alt, within 85 (fmul (fu_w512 p) (fadd (fmul (fu_double p) (support_at c512 t tol)) (fmul (fsub f1 (fu_double p)) (support_at c512 alt tol))))).
  { intros alt. apply (within_mono (20 + 62)); [lia|]. apply within_mul; [lia|auto|].
    change 62%Z with (61 + 1)%Z. apply within_add; [lia| |].
    - apply (within_mono (20 + 40)); [lia|]. apply within_mul; auto; lia.
    - change 61%Z with (21 + 40)%Z. apply within_mul; [lia| |auto]. change 21%Z with (20 + 1)%Z. apply within_sub; [lia| |auto].
      apply (within_mono 0); [lia|]. apply within_abs0. reflexivity. }
  assert (Ht : within 87 (fadd (fadd (fmul (fu_w512 p) (support_at c512 t tol)) (fmul (fu_w256 p) (support_at c256 t tol))) (fmul (fu_w1024 p) (support_at c1024 t tol)))).
  { apply Sum. apply (within_mono (20 + 40)); [lia|]. apply within_mul; auto; lia. }
  fold own in Ht, H. clearbody own.
  set (locals := filter _ _) in H.
  assert (It : inside mn mx t -> In (mkHyp t own) locals).
  { intros (R1 & R2). unfold locals. apply filter_In. cbn [h_bpm]. split; [now left|]. apply andb_true_intro. now split. }
  assert (Lo : forall x, In x locals -> within 87 (h_score x)).
  { intros x I. unfold locals in I. apply filter_In in I as (I & _).
    destruct I as [<-|[<-|[<-|[]]]]; cbn [h_score]; auto; apply discounted_within; try lia; now apply Sum. }
  clearbody locals. destruct (sort_desc h_score _) as [|best r] eqn:E; [discriminate|].
  exists locals, best, r. split; auto. split; [now apply Forall_forall|]. split; auto. split; auto. cbv zeta.
  destruct (flt (fsub (h_score best) match r with [] => f0 | s :: _ => h_score s end) (fu_margin p)).
  - cbn [andb] in H |- *. match goal with |- _ = ?c \/ _ => set (chosen := c) in * end. clearbody chosen.
    destruct (_ && _); injection H as <-; auto.
  - rewrite andb_false_r in H |- *. cbn [andb] in H. injection H as <-. auto.
Qed.
Lemma ranked_within : forall locals, Forall (fun x => within 87 (h_score x)) locals ->
  Forall (fun x => within 87 (h_score x)) (sort_desc h_score (map (fun h => mkHyp (h_bpm h) (hyp_prior (h_bpm h) (h_score h))) locals)).
Proof.
  intros l H. rewrite Forall_forall in *. intros x I. apply sort_desc_in, in_map_iff in I as (y & <- & I).
  cbn [h_score]. apply hyp_prior_within; auto; lia.
Qed.
Lemma hypothesis_tame : forall c256 c512 c1024 mn mx tol p t h, tame c256 -> tame c512 -> tame c1024 -> tame_fusion p ->
  hypothesis c256 c512 c1024 mn mx tol p t = Some h -> within 93 (h_score h).
Proof.
  intros c256 c512 c1024 mn mx tol p t h T1 T2 T3 P H.
  destruct (hypothesis_ranked _ _ _ _ _ _ _ _ _ T1 T2 T3 P H) as (locals & best & r & Wo & Wl & _ & E & C).
  apply ranked_within in Wl. rewrite E in Wl. apply Forall_inv in Wl. cbv zeta in C.
  match type of C with _ = ?c \/ _ => assert (Lc : within 87 (h_score c)) by (destruct (_ && _); auto); set (chosen := c) in * end.
  clearbody chosen. destruct C as [->|(_ & ->)]; cbn [h_score]; [eapply within_mono; [|exact Lc]; lia|].
  apply (within_mono (87 + 1)); [lia|]. apply within_add; [lia|auto|]. apply (within_mono 0); [lia|].
  apply upto_within, in01_upto. split; reflexivity.
Qed.
(** Moving away from a candidate in range takes the margin over the candidate's own score. *)
Lemma hypothesis_switch : forall c256 c512 c1024 mn mx tol p t h, tame c256 -> tame c512 -> tame c1024 -> tame_fusion p ->
  nn (fu_margin p) -> inside mn mx t -> hypothesis c256 c512 c1024 mn mx tol p t = Some h ->
  fgt (fabs (fsub (h_bpm h) t)) (lit 8589935 (-33)) = true ->
  let own := fadd (fadd (fmul (fu_w512 p) (support_at c512 t tol)) (fmul (fu_w256 p) (support_at c256 t tol)))
                  (fmul (fu_w1024 p) (support_at c1024 t tol)) in
  fle (fu_margin p) (fsub (h_score h) (hyp_prior t own)) = true.
Proof.
  intros c256 c512 c1024 mn mx tol p t h T1 T2 T3 P N In_ H D own.
  assert (Ft : fin t) by (apply hypothesis_bpm in H; tauto).
  destruct (hypothesis_ranked _ _ _ _ _ _ _ _ _ T1 T2 T3 P H) as (locals & best & r & Wo & Wl & It & E & C). fold own in Wo, It, C.
  specialize (It In_). clearbody own.
  assert (D0 : fgt (fabs (fsub t t)) (lit 8589935 (-33)) = false).
  { destruct (fsub_fx t t Ft Ft) as (Nd & Vd). unfold fgt. apply fle_flt_false. apply fle_intro; [now rewrite fabs_nn|reflexivity|].
    rewrite fabs_fx by auto. rewrite Vd, (Rminus_diag_eq _ _ eq_refl), rnd_0, sat_id, Rabs_R0 by (pose proof big_pos; lra).
    change 0%R with (fx f0). apply fle_fx. reflexivity. }
  pose proof (ranked_within _ Wl) as Wr. rewrite E in Wr. inversion Wr as [|? ? Wb Wr']; subst.
  cbv zeta in C.
  match type of C with context [flt ?m (fu_margin p)] => set (margin := m) in *; destruct (flt margin (fu_margin p)) eqn:U end.
  { exfalso. rewrite andb_true_r in C. assert (B : h_bpm h = h_bpm (if fgt (fabs (fsub (h_bpm best) t)) (lit 8589935 (-33)) then mkHyp t own else best)).
    { destruct C as [->|(_ & ->)]; reflexivity. }
    rewrite B in D. destruct (fgt (fabs (fsub (h_bpm best) t)) (lit 8589935 (-33))) eqn:Q; cbn [h_bpm] in D; [|rewrite Q in D]; congruence. }
  rewrite andb_false_r in C. destruct C as [->|(C & _)]; [|discriminate].
  assert (Io : In (mkHyp t (hyp_prior t own)) (best :: r)).
  { rewrite <- E. apply sort_desc_in, in_map_iff. exists (mkHyp t own). split; auto. }
  destruct Io as [->|Io]; [cbn [h_bpm] in D; congruence|].
  destruct r as [|s r]; [destruct Io|].
  assert (Ls : fle (hyp_prior t own) (h_score s) = true).
  { assert (So : StronglySorted (fun a b => fle (h_score b) (h_score a) = true) (best :: s :: r)).
    { rewrite <- E. apply sort_desc_sorted. rewrite Forall_forall in *. intros x Ix. apply in_map_iff in Ix as (y & <- & Iy). cbn [h_score].
      apply (within_nn 87), hyp_prior_within; auto; lia. }
    apply StronglySorted_inv in So as (So & _). apply StronglySorted_inv in So as (_ & So). rewrite Forall_forall in So.
    destruct Io as [->|Io]; [apply fle_refl, (within_nn 87); now apply Forall_inv in Wr'|]. now apply So in Io. }
  inversion Wr' as [|? ? Ws Wr'']; subst.
  assert (Wo' : within 87 (hyp_prior t own)) by (apply hyp_prior_within; auto; lia).
  assert (Nm : nn margin) by (apply fsub_nn_fin; eapply within_fin; eauto).
  apply flt_false_fle in U; auto. eapply fle_trans; [exact U|]. apply fsub_mono; auto.
  - apply fle_refl. eapply within_nn; eauto.
  - apply fsub_nn_fin; eapply within_fin; eauto.
Qed.
