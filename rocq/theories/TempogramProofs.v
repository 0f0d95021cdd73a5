(** Lemmas for the tempogram estimator. *)
From Coq Require Import ZArith Reals Lra Sorted.
From Flocq Require Import Core.
From Verif Require Import Rust F32 F32Facts ListFacts Libm Sorting SortingFacts PeakPicking BpmLoop Autocorrelation TempoSpectra
  CombFilterProofs Novelty NoveltyProofs CandidateFilter Bounds TempoSpectraProps Tempogram.

Lemma sat_opp : forall r, sat (- r) = (- sat r)%R.
Proof.
  intros r. pose proof big_pos as B. destruct (Rle_or_lt big r) as [H|H].
  - assert (E1 : sat r = big) by (apply Rle_antisym; [apply sat_bound|rewrite <- (sat_id big) by lra; now apply sat_mono]).
    assert (E2 : sat (- r) = (- big)%R).
    { apply Rle_antisym; [|apply sat_bound]. rewrite <- (sat_id (- big)) by lra. apply sat_mono. lra. }
    rewrite E1, E2. reflexivity.
  - destruct (Rle_or_lt r (- big)) as [G|G].
    + assert (E1 : sat r = (- big)%R).
      { apply Rle_antisym; [|apply sat_bound]. rewrite <- (sat_id (- big)) by lra. now apply sat_mono. }
      assert (E2 : sat (- r) = big) by (apply Rle_antisym; [apply sat_bound|rewrite <- (sat_id big) at 1 by lra; apply sat_mono; lra]).
      rewrite E1, E2. lra.
    + rewrite !sat_id by lra. reflexivity.
Qed.

(** The distance of two finite values does not depend on their order. *)
Lemma dist_sym : forall a b, fin a -> fin b -> fx (fabs (fsub a b)) = fx (fabs (fsub b a)).
Proof.
  intros a b Fa Fb. destruct (fsub_fx a b Fa Fb) as (N1 & E1), (fsub_fx b a Fb Fa) as (N2 & E2).
  rewrite !fabs_fx by auto. rewrite E1, E2.
  replace (B2R b - B2R a)%R with (- (B2R a - B2R b))%R by lra. rewrite rnd_opp, sat_opp, Rabs_Ropp. reflexivity.
Qed.
Lemma dist_nn : forall a b, fin a -> fin b -> nn (fabs (fsub a b)).
Proof. intros a b Fa Fb. rewrite fabs_nn. now apply fsub_nn_fin. Qed.
Lemma dist_le_sym : forall a b c, fin a -> fin b -> fle c (fabs (fsub a b)) = true -> fle c (fabs (fsub b a)) = true.
Proof.
  intros a b c Fa Fb H. pose proof (fle_nn _ _ H) as (N & _). apply fle_intro; auto using dist_nn.
  rewrite (dist_sym b a) by auto. now apply fle_fx.
Qed.
Lemma dist_ge : forall a b, fin a -> fin b -> fle a b = true -> fx (fabs (fsub b a)) = fx (fsub b a).
Proof.
  intros a b Fa Fb H. pose proof (fsub_nn_fin b a Fb Fa) as N. rewrite fabs_fx by auto.
  apply Rabs_pos_eq. apply nneg_fx. now apply fsub_nneg.
Qed.

(** Ascending and at least 0.75 apart. *)
Definition gap (a b : f32) : Prop := fle a b = true /\ fle f075 (fabs (fsub b a)) = true.
Lemma gap_trans : forall a b c, fin a -> fin b -> fin c -> fle a b = true -> gap b c -> gap a c.
Proof.
  intros a b c Fa Fb Fc AB (BC & G). assert (AC : fle a c = true) by (eapply fle_trans; eauto). split; auto.
  pose proof (fle_fx _ _ G) as G'. apply fle_intro; [reflexivity|auto using dist_nn|].
  rewrite (dist_ge a c) by auto. rewrite (dist_ge b c) in G' by auto.
  eapply Rle_trans; [exact G'|]. apply fle_fx. apply fsub_mono; auto using fsub_nn_fin. apply fle_refl, fin_nn, Fc.
Qed.

Lemma spaced_from_spec : forall l last, fin last -> Forall (fun x => fin x) l ->
  StronglySorted (fun a b => fle a b = true) (last :: l) ->
  StronglySorted gap (last :: spaced_from last l) /\ incl (spaced_from last l) l /\
  (forall b, In b l -> exists u, In u (last :: spaced_from last l) /\ fle u b = true /\ (b = u \/ flt (fabs (fsub b u)) f075 = true)).
Proof.
  induction l as [|b l IH]; intros last Fl Fs S.
  - cbn. repeat split; try (repeat constructor). { intros x []. } { intros x []. }
  - inversion Fs as [|? ? Fb Fs']; subst. inversion S as [|? ? S' H]; subst. inversion H as [|? ? Hb Hl]; subst.
    cbn [spaced_from]. destruct (flt (fabs (fsub b last)) f075) eqn:G.
    + destruct (IH last Fl Fs') as (A & B & C).
      { constructor; auto. now inversion S'. }
      split; auto. split. { intros x X. right. auto. }
      intros x [<-|X]; auto. exists last. split; [left; auto|]. auto.
    + destruct (IH b Fb Fs' S') as (A & B & C).
      assert (Gb : gap last b).
      { split; auto. apply flt_false_fle; auto using dist_nn. }
      split; [|split].
      * constructor; auto. inversion A as [|? ? A' Ab]; subst. constructor; auto.
        rewrite Forall_forall in *. intros x X. apply gap_trans with b; auto.
      * intros x [<-|X]; [left|right]; auto.
      * intros x [<-|X].
        -- exists b. split; [right; left; auto|]. split; auto. apply fle_refl, fin_nn, Fb.
        -- destruct (C x X) as (u & U & V). exists u. split; [right|]; auto.
Qed.
Lemma spaced_spec : forall l, Forall (fun x => fin x) l -> StronglySorted (fun a b => fle a b = true) l ->
  StronglySorted gap (spaced l) /\ incl (spaced l) l /\
  (forall b, In b l -> exists u, In u (spaced l) /\ fle u b = true /\ (b = u \/ flt (fabs (fsub b u)) f075 = true)).
Proof.
  intros [|b l] F S; cbn [spaced].
  - repeat split; try constructor; intros x [].
  - inversion F as [|? ? Fb Fl]; subst. destruct (spaced_from_spec l b Fb Fl S) as (A & B & C). split; auto. split.
    + intros x [<-|X]; [left|right]; auto.
    + intros x [<-|X]; auto. exists b. split; [left; auto|]. split; auto. apply fle_refl, fin_nn, Fb.
Qed.

Lemma folded_spec : forall s mn mx b, In b (folded s mn mx) <->
  (exists x f, In x s /\ In f factors /\ b = fmul x f) /\ fin b /\ fle mn b = true /\ fle b mx = true.
Proof.
  intros s mn mx b. unfold folded. rewrite filter_In, in_flat_map, !andb_true_iff.
  unfold fge. change (Bleb mn b) with (fle mn b). split.
  - intros ((x & X & I) & (A & B) & C). apply in_map_iff in I as (f & <- & I). eauto 10.
  - intros ((x & f & X & I & ->) & A & B & C). repeat split; auto. exists x. split; auto. now apply in_map.
Qed.

(** The tempos considered: exactly as computed by select_tempo, in ascending order. *)
Definition tempos (all : list variant) (full : variant) (mn mx : f32) : list f32 :=
  spaced (sort_asc (folded (seeds all
    (match find_best (v_fft full) with Some (b, _, _) => b | None => f0 end)
    (match find_best (v_ac full) with Some (b, _, _) => b | None => f0 end)) mn mx)).
Lemma tempos_spec : forall s mn mx, let u := spaced (sort_asc (folded s mn mx)) in
  StronglySorted gap u /\ Forall (fun b => fin b /\ fle mn b = true /\ fle b mx = true) u /\
  (forall b, In b u -> exists x f, In x s /\ In f factors /\ b = fmul x f) /\
  (forall b, In b (folded s mn mx) -> exists w, In w u /\ fle w b = true /\ (b = w \/ flt (fabs (fsub b w)) f075 = true)).
Proof.
  intros s mn mx u.
  assert (P : forall b, In b (sort_asc (folded s mn mx)) <-> In b (folded s mn mx)).
  { intros b. split; apply Permutation_in; [apply Permutation_sym|]; apply sort_asc_perm. }
  assert (F : Forall (fun x => fin x) (sort_asc (folded s mn mx))).
  { apply Forall_forall. intros x X. apply P in X. apply folded_spec in X. tauto. }
  assert (S : StronglySorted (fun a b => fle a b = true) (sort_asc (folded s mn mx))).
  { apply sort_asc_sorted. apply Forall_forall. intros x X. apply fin_nn. apply P in X. rewrite Forall_forall in F. auto. }
  destruct (spaced_spec _ F S) as (A & B & C). fold u in A, B, C. split; auto. split; [|split].
  - apply Forall_forall. intros b I. apply B in I. apply P in I. apply folded_spec in I. tauto.
  - intros b I. apply B in I. apply P in I. apply folded_spec in I. tauto.
  - intros b I. apply C. now apply P.
Qed.

(** Pairwise distance, in a list of any order. *)
Definition apart (l : list f32) : Prop :=
  forall i j a b, i <> j -> nth_error l i = Some a -> nth_error l j = Some b -> fle f075 (fabs (fsub a b)) = true.

Lemma apart_cons : forall a l, Forall (fun x => fin x) (a :: l) ->
  (apart (a :: l) <-> Forall (fun b => fle f075 (fabs (fsub a b)) = true) l /\ apart l).
Proof.
  intros a l F. inversion F as [|? ? Fa Fl]; subst. rewrite Forall_forall in Fl. split.
  - intros H. split.
    + apply Forall_forall. intros b I. apply In_nth_error in I as (j & J). apply (H 0 (S j)); auto.
    + intros i j x y N X Y. apply (H (S i) (S j)); auto.
  - intros (A & B) [|i] [|j] x y N X Y; cbn [nth_error] in *; try congruence.
    + injection X as <-. rewrite Forall_forall in A. apply A. eapply nth_error_In; eauto.
    + injection Y as <-. apply nth_error_In in X. apply dist_le_sym; auto. rewrite Forall_forall in A. auto.
    + apply (B i j); auto.
Qed.
Lemma apart_perm : forall l m, Permutation l m -> Forall (fun x => fin x) l -> apart l -> apart m.
Proof.
  induction 1 as [|x l m P IH|x y l|l m k P1 IH1 P2 IH2]; intros F A; auto.
  - apply apart_cons in A as (A & B); auto. inversion F; subst.
    apply apart_cons. { constructor; auto. eapply Permutation_Forall; eauto. }
    split; [eapply Permutation_Forall; eauto|auto].
  - inversion F as [|? ? Fy F']; subst. inversion F' as [|? ? Fx Fl]; subst.
    apply apart_cons in A as (A & B); auto. apply apart_cons in B as (B & C); auto.
    inversion A as [|? ? Ayx Al]; subst.
    apply apart_cons; [repeat constructor; auto|]. split.
    + constructor; auto. now apply dist_le_sym.
    + apply apart_cons; auto.
  - apply IH2; auto. eapply Permutation_Forall; eauto.
Qed.
Lemma gap_apart : forall l, Forall (fun x => fin x) l -> StronglySorted gap l -> apart l.
Proof.
  induction l as [|a l IH]; intros F S.
  - intros [|i] j x y _ X; discriminate X.
  - inversion S as [|? ? S' H]; subst. apply apart_cons; auto. inversion F as [|? ? Fa Fl]; subst. split; auto.
    rewrite Forall_forall in *. intros b I. destruct (H b I) as (_ & G). apply dist_le_sym; auto.
Qed.

Lemma octave_in : forall l mn mx best, In best l -> In (octave_fold l mn mx best) l.
Proof.
  intros l mn mx best I. unfold octave_fold. destruct (fgt _ _); auto. destruct (_ && _); auto.
  destruct (find _ l) as [c|] eqn:Fd; auto. cbv zeta. destruct (negb _); auto. now apply find_some in Fd.
Qed.

(** What an accepted selection looks like. *)
Lemma select_ok : forall cfg full others mn mx res e l, select_tempo cfg full others mn mx res = Ok (e, l) ->
  exists f best first r scored_l,
    Permutation (map f (tempos (full :: others) full mn mx)) scored_l /\ (forall b, s_bpm (f b) = b) /\
    scored_l = sort_desc s_score (map f (tempos (full :: others) full mn mx)) /\
    scored_l = first :: r /\ best = octave_fold scored_l mn mx first /\
    e_bpm e = s_bpm best /\
    e_conf e = separation (lit 2305843 (-61)) (s_score best) (match r with [] => f0 | s :: _ => s_score s end) /\
    e_agree e <= 2 /\
    l = map (fun c => mkTc (s_bpm c) (s_score c) (s_fft c) (s_ac c) (flt (fabs (fsub (s_bpm c) (s_bpm best))) f075)) scored_l.
Proof.
  intros cfg full others mn mx res e l H. unfold select_tempo in H. cbv zeta in H. fold (tempos (full :: others) full mn mx) in H.
  set (f := score_candidate _ _ _ _ _ _) in H.
  assert (Ef : forall b, s_bpm (f b) = b) by reflexivity.
  clearbody f. generalize dependent f. intros f H Ef. destruct (forallb _ _); [discriminate|].
  assert (P : Permutation (map f (tempos (full :: others) full mn mx)) (sort_desc s_score (map f (tempos (full :: others) full mn mx))))
    by apply sort_desc_perm.
  destruct (sort_desc s_score (map f (tempos (full :: others) full mn mx))) as [|first r] eqn:E; [discriminate|].
  assert (H1 := f_equal (fun o => match o with Ok x => fst x | _ => e end) H). cbv beta iota delta [fst] in H1.
  assert (H2 := f_equal (fun o => match o with Ok x => snd x | _ => l end) H). cbv beta iota delta [snd] in H2. clear H.
  exists f, (octave_fold (first :: r) mn mx first), first, r, (first :: r).
  subst e l. cbn [e_bpm e_conf e_agree]. repeat split; auto.
  destruct (fgt _ f0 && _), (fgt _ f0 && _); lia.
Qed.

(** Numeric part. *)
Lemma filter_le : forall A (f : A -> bool) l, length (filter f l) <= length l.
Proof. induction l as [|a l IH]; cbn [filter length]; auto. destruct (f a); cbn [length]; lia. Qed.
Lemma upto_lit : forall k, (0 <= k < 128)%Z -> upto k (lit 1 k).
Proof.
  intros k K. destruct (lit_fx 1 k) as (N & E). rewrite F2R_bpow, rnd_bpow in E by lia.
  pose proof (bpow_lt radix2 k 128 ltac:(lia)) as B. fold big in B. pose proof (bpow_gt_0 radix2 k) as P.
  rewrite sat_id in E by lra. apply upto_of; auto; try lia; lra.
Qed.

(** Finite non-negative strengths. *)
Definition clean (t : list (f32 * f32)) : Prop := Forall (fun e => fin (snd e) /\ nneg (snd e)) t.

Lemma lookup_clean : forall t b tol, clean t -> fin (lookup_nearest t b tol) /\ nneg (lookup_nearest t b tol).
Proof.
  intros t b tol H. unfold lookup_nearest.
  assert (G : forall acc, fin (snd acc) /\ nneg (snd acc) ->
    let r := fold_left (fun acc bv => let d := fabs (fsub (fst bv) b) in
       if fle d tol && flt d (fst acc) then (d, snd bv) else acc) t acc in fin (snd r) /\ nneg (snd r)).
  { induction H as [|e t He Ht IH]; intros acc A; cbn [fold_left]; auto. apply IH. cbv zeta.
    destruct (_ && _); auto. }
  apply G. split; reflexivity.
Qed.
Lemma top_clean : forall t, clean t -> fin (top_value t) /\ pos (top_value t).
Proof.
  intros t H. unfold top_value. split.
  - destruct (fmax_case (match t with [] => f1 | (_, v) :: _ => v end) (lit 2305843 (-61))) as [-> | ->]; [|reflexivity].
    destruct H as [|(b & v) t (F & _) _]; [reflexivity|exact F].
  - eapply flt_fle_trans; [|apply fmax_ge_r; reflexivity]. reflexivity.
Qed.
Lemma share_01 : forall t b tol, clean t -> in01 (share t (top_value t) b tol).
Proof.
  intros t b tol H. unfold share. apply in01_clamp. destruct (lookup_clean t b tol H), (top_clean t H). now apply fdiv_nn_fin.
Qed.

(** A variant made from clean tempograms with a usable weight. *)
Definition fit (v : variant) : Prop :=
  clean (v_fft v) /\ clean (v_ac v) /\ v_mfft v = top_value (v_fft v) /\ v_mac v = top_value (v_ac v) /\
  fle (v_w v) (lit 1 100) = true.

Lemma fmax_weight : forall w, fle w (lit 1 100) = true -> upto 100 (fmax w f0).
Proof.
  intros w H. apply upto_le with (lit 1 100); [apply fmax_ge_r; reflexivity| |apply upto_lit; lia].
  apply fmax_lub; auto.
Qed.
Lemma wsum_ok : forall vs, Forall fit vs ->
  let w := fmax (fsum (map (fun v => fmax (v_w v) f0) vs)) (lit 8796093 (-43)) in fin w /\ pos w.
Proof.
  intros vs H w. split.
  - unfold w. destruct (fmax_case (fsum (map (fun v => fmax (v_w v) f0) vs)) (lit 8796093 (-43))) as [-> | ->]; [|reflexivity].
    apply (upto_fin (100 + 25)), upto_sum; [lia|]. apply Forall_map. eapply Forall_impl; [|exact H].
    intros v (_ & _ & _ & _ & W). now apply fmax_weight.
  - eapply flt_fle_trans; [|apply fmax_ge_r; reflexivity]. reflexivity.
Qed.
Lemma weighted_01 : forall sel vs w, Forall fit vs -> (forall v, In v vs -> in01 (sel v)) -> fin w -> pos w ->
  in01 (weighted sel vs w).
Proof.
  intros sel vs w H S Fw Pw. unfold weighted. apply in01_clamp.
  assert (G : forall acc, upto 125 acc ->
    upto 125 (fold_left (fun acc v => if fle (v_w v) f0 then acc else fadd acc (fmul (v_w v) (sel v))) vs acc)).
  { induction H as [|v vs (_ & _ & _ & _ & W) Hs IH]; intros acc A; cbn [fold_left]; auto.
    apply IH. { intros u U. apply S. now right. }
    destruct (fle (v_w v) f0) eqn:E; auto.
    assert (Nw : nn (v_w v)) by (now apply fle_nn in W).
    assert (Pv : pos (v_w v)) by (apply fle_false_flt; auto).
    assert (U : upto 100 (v_w v)) by (apply upto_le with (lit 1 100); auto using pos_nneg; apply upto_lit; lia).
    assert (U2 : upto (100 + 0) (fmul (v_w v) (sel v))).
    { apply upto_mul; [lia|auto|]. apply in01_upto, S. now left. }
    apply within_upto.
    - apply (within_step 100); [lia|apply upto_within; exact U2|apply (upto_within 125); exact A].
    - apply fadd_nneg; eapply upto_nneg; eauto. }
  specialize (G f0 (upto_0 _)). apply fdiv_nn_fin; auto. eapply upto_fin; eauto.
Qed.

Lemma blend_01 : forall a b, in01 a -> in01 b -> in01 (fadd (fmul (lit 9227469 (-24)) a) (fmul (lit 7549747 (-24)) b)).
Proof.
  intros a b A B.
  assert (K : forall c x, in01 c -> in01 x -> fle (fmul c x) (fmul c f1) = true).
  { intros c x C X. apply fmul_mono; try apply C; try apply X; auto.
    - apply fle_refl, fin_nn, in01_fin, C.
    - apply fin_nn, in01_fin, in01_mul; auto.
    - apply fin_nn, in01_fin, in01_mul; auto. apply in01_1. }
  assert (C1 : in01 (lit 9227469 (-24))) by (split; reflexivity).
  assert (C2 : in01 (lit 7549747 (-24))) by (split; reflexivity).
  assert (N : nneg (fadd (fmul (lit 9227469 (-24)) a) (fmul (lit 7549747 (-24)) b))).
  { apply fadd_nneg; apply in01_mul; auto. }
  split; auto. eapply fle_trans with (y := fadd (fmul (lit 9227469 (-24)) f1) (fmul (lit 7549747 (-24)) f1)).
  - apply fadd_mono; auto. now apply nneg_nn.
  - vm_compute. reflexivity.
Qed.

(** The tempo prior only shrinks a score. *)
Definition prior (bpm s1 : f32) : f32 :=
  if fgt bpm (z2f 180) then fmul s1 (lit 13421773 (-24))
  else if flt bpm (z2f 60) then fmul s1 (lit 7549747 (-23)) else s1.
Lemma prior_upto : forall k b s, (0 <= k < 128)%Z -> upto k s -> upto k (prior b s).
Proof.
  intros k b s K U. unfold prior. destruct (fgt _ _); [|destruct (flt _ _); auto].
  - rewrite <- (Z.add_0_r k). apply upto_mul; [lia|auto|]. apply in01_upto. split; reflexivity.
  - rewrite <- (Z.add_0_r k). apply upto_mul; [lia|auto|]. apply in01_upto. split; reflexivity.
Qed.

Lemma score_ok : forall k score_vs seed_vs w res support bonus bpm, (0 <= k <= 100)%Z -> Forall fit score_vs -> Forall fit seed_vs ->
  fin w -> pos w -> (Z.of_nat (length seed_vs) <= 2 ^ 24)%Z ->
  (forall b, bonus = Some b -> nneg b /\ fle b (lit 1 k) = true) ->
  let c := score_candidate score_vs seed_vs w res support bonus bpm in
  in01 (s_fft c) /\ in01 (s_ac c) /\ upto (k + 26) (s_score c) /\ (bonus = None -> in01 (s_score c)).
Proof.
  intros k score_vs seed_vs w res support bonus bpm Hk H1 H2 Fw Pw Len Hb c.
  assert (S1 : forall v, In v score_vs -> in01 (share (v_fft v) (v_mfft v) bpm f075)).
  { intros v I. rewrite Forall_forall in H1. destruct (H1 v I) as (A & _ & -> & _). now apply share_01. }
  assert (S2 : forall v, In v score_vs -> in01 (share (v_ac v) (v_mac v) bpm (fmax res fhalf))).
  { intros v I. rewrite Forall_forall in H1. destruct (H1 v I) as (_ & A & _ & -> & _). now apply share_01. }
  assert (A1 : in01 (s_fft c)) by (apply weighted_01; auto).
  assert (A2 : in01 (s_ac c)) by (apply weighted_01; auto).
  assert (B : in01 (fadd (fmul (lit 9227469 (-24)) (s_ac c)) (fmul (lit 7549747 (-24)) (s_fft c)))) by (now apply blend_01).
  split; auto. split; auto.
  assert (E : exists n, n <= length seed_vs /\ s_score c = prior bpm (match bonus with None => fadd (fmul (lit 9227469 (-24)) (s_ac c)) (fmul (lit 7549747 (-24)) (s_fft c))
    | Some b => if 2 <=? n then fmul (fadd (fmul (lit 9227469 (-24)) (s_ac c)) (fmul (lit 7549747 (-24)) (s_fft c))) (fadd f1 (fmul b (fsub (n2f n) f1)))
                else fadd (fmul (lit 9227469 (-24)) (s_ac c)) (fmul (lit 7549747 (-24)) (s_fft c)) end)).
  { eexists. split; [|reflexivity]. apply filter_le. }
  destruct E as (n & Ln & ->). generalize dependent (fadd (fmul (lit 9227469 (-24)) (s_ac c)) (fmul (lit 7549747 (-24)) (s_fft c))).
  intros s0 B. assert (U0 : upto 0 s0) by (now apply in01_upto). split.
  - apply prior_upto; [lia|]. destruct bonus as [b|]; [|eapply upto_mono; [|exact U0]; lia].
    destruct (Hb b eq_refl) as (Nb & Lb). destruct (Nat.leb_spec 2 n); [|eapply upto_mono; [|exact U0]; lia].
    assert (Ub : upto k b) by (apply upto_le with (lit 1 k); auto; apply upto_lit; lia).
    destruct (n2f_exact n ltac:(lia)) as (Fn & En).
    assert (Un : upto 24 (fsub (n2f n) f1)).
    { destruct (fsub_fx (n2f n) f1 Fn eq_refl) as (N & Es). rewrite B2R_f1, En in Es.
      rewrite <- minus_IZR, rnd_Z in Es by lia.
      assert (Bg : (IZR (Z.of_nat n - 1) < big)%R) by (apply IZR_lt_big; lia).
      assert (Lo : (0 <= IZR (Z.of_nat n - 1))%R) by (apply IZR_le; lia).
      rewrite sat_id in Es by (pose proof big_pos; lra). apply upto_of; auto; try lia; rewrite Es; auto.
      change (bpow radix2 24) with (IZR (2 ^ 24)). apply IZR_le. lia. }
    change (k + 26)%Z with (0 + (k + 26))%Z. apply upto_mul; [lia|auto|].
    eapply upto_mono; [|apply (upto_add (k + 24)); [lia| |]]; [lia| |].
    + eapply upto_mono; [|apply in01_upto, in01_1]. lia.
    + apply upto_mul; auto; lia.
  - intros ->. apply in01_upto. apply prior_upto; auto; lia.
Qed.

(** The confidence formula gives a value in [0,1] or NaN, the former for finite scores. *)
Lemma separation_cases : forall fl b s, nneg fl -> in01 (separation fl b s) \/ (fisnan (separation fl b s) = true /\ b = finf).
Proof.
  intros fl b s Nf. unfold separation. destruct (fgt b fl) eqn:G; [|left; apply in01_0].
  assert (P : pos b) by (eapply fle_flt_trans; [exact Nf|exact G]).
  assert (D : nneg (fmax (fsub b s) f0)) by (apply fmax_ge_r; reflexivity).
  destruct (nneg_cases b (pos_nneg _ P)) as [(F & _)|E].
  - left. apply in01_clamp. destruct (nneg_cases _ D) as [(Fd & _)| ->]; [now apply fdiv_nn_fin|now rewrite TempoSpectraProps.fdiv_inf_l].
  - destruct (fisnan (fdiv (fmax (fsub b s) f0) b)) eqn:N.
    + right. split; auto. rewrite fclamp_val_nan; auto.
    + left. now apply in01_clamp.
Qed.
