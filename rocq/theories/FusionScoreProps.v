(** C77: how the multi-resolution estimator scores tempo readings and picks one (src/features/period/multi_resolution.rs:405-900). *)
From Coq Require Import ZArith Reals Lra Lia Sorted.
From Verif Require Import Rust F32 F32Facts ListFacts Libm Sorting SortingFacts Bounds NoveltyProofs Autocorrelation TempoSpectra Novelty CandidateFilter
  Tempogram TempogramProofs TempogramValueProofs TempogramScoreProps MultiResolution MultiResolutionProofs.
Close Scope R_scope.

(** [s b] is the score of the candidate of [l] nearest to [b] within [tol], 0 if there is none. *)
Definition strengths (l : list cand) (tol : f32) (s : f32 -> f32) : Prop :=
  forall b, nearest (map (fun c => (t_bpm c, t_score c)) l) b tol (s b).

Lemma nearest_unique : forall t b tol v w, nearest t b tol v -> nearest t b tol w -> v = w.
Proof.
  intros t b tol v w [(-> & N)|(l & e & r & -> & Re & -> & A & B)] [(-> & N')|(l' & e' & r' & E & Re' & -> & A' & B')]; auto.
  - rewrite N in Re'; [discriminate|]. rewrite E. apply in_elt.
  - rewrite N' in Re; [discriminate|]. apply in_elt.
  - assert (K : forall (x y : f32), flt x y = true -> fle y x = true -> False).
    { intros x y X Y. apply fle_flt_false in Y. congruence. }
    revert A B A' B' E. revert l l' r r'. induction l as [|x l IH]; intros [|x' l'] r r' A B A' B' E; cbn [app] in E; injection E as E1 E2.
    + now subst.
    + subst x'. exfalso. assert (I' : In e' r) by (rewrite E2; apply in_elt).
      apply (K (dist (fst e') b) (dist (fst e) b)); [apply A'; auto; now left|now apply B].
    + subst x. exfalso. assert (I' : In e r') by (rewrite <- E2; apply in_elt).
      apply (K (dist (fst e) b) (dist (fst e') b)); [apply A; auto; now left|now apply B'].
    + apply (IH l' r r'); auto; intros y I; [apply A|apply A']; now right.
Qed.
Lemma strengths_is : forall l tol s b, strengths l tol s -> support_at l b tol = s b.
Proof. intros l tol s b H. eapply nearest_unique; [apply lookup_is_nearest|apply H]. Qed.

(** The three readings of a candidate: its own tempo, the double and the half, each with a weighted sum of strengths and
    the factors that lower it. *)
Definition when (b : bool) (x : f32) : list f32 := if b then [x] else [].
Record reading := mkRead { rd_bpm : f32; rd_sum : f32; rd_factors : list f32 }.
Definition rd_score (r : reading) : f32 := fold_left fmul (rd_factors r) (rd_sum r).
Definition tempo_factors (b : f32) : list f32 :=
  when (flt (z2f 210) b) (lit 13421773 (-24)) ++
  when (flt (z2f 180) b && negb (flt (z2f 210) b)) (lit 7549747 (-23)) ++
  when (flt b (z2f 60)) (lit 15435039 (-24)).
Definition readings (p : fusion) (s256 s512 s1024 : f32 -> f32) (t : f32) : list reading :=
  let weigh a b c := fadd (fadd (fmul (fu_w512 p) a) (fmul (fu_w256 p) b)) (fmul (fu_w1024 p) c) in
  let eps := lit 8796093 (-43) in
  let other b (s : f32 -> f32) :=
    let ratio := fdiv (fadd (s b) eps) (fadd (s t) eps) in
    mkRead b (weigh (fadd (fmul (fu_double p) (s512 t)) (fmul (fsub f1 (fu_double p)) (s512 b))) (s256 b) (s1024 b))
      (when (flt (fmul (s1024 b) (lit 2139095 (-21))) (s1024 t)) (lit 7549747 (-23)) ++
       when (flt ratio (lit 9227469 (-23))) (lit 3 (-2)) ++ when (flt ratio f1) (lit 3 (-2)) ++ tempo_factors b) in
  [mkRead t (weigh (s512 t) (s256 t) (s1024 t)) (tempo_factors t); other (fmul t f2) s256; other (fmul t fhalf) s1024].

(** What is reported for a candidate [t]: the readings in range, ranked by score; the best of them unless it is another
    tempo and leads by less than the threshold, in which case [t] is kept with its sum, not lowered by any factor; a bonus of
    0.05 for a lead below 0.05 if the human prior is on and the tempo is between 70 and 180. *)
Definition verdict (p : fusion) (s256 s512 s1024 : f32 -> f32) (mn mx t : f32) (h : hyp) : Prop :=
  let rs := readings p s256 s512 s1024 t in
  exists best rest,
    Permutation (best :: rest) (filter (fun r => fle mn (rd_bpm r) && fle (rd_bpm r) mx) rs) /\
    (Forall (fun r => nn (rd_score r)) rs -> StronglySorted (fun a b => fle (rd_score b) (rd_score a) = true) (best :: rest)) /\
    let lead := fsub (rd_score best) (match rest with [] => f0 | r :: _ => rd_score r end) in
    exists v,
      ((flt (lit 8589935 (-33)) (dist (rd_bpm best) t) = true -> flt lead (fu_margin p) = true ->
         h_bpm h = t /\ v = rd_sum (hd best rs)) /\
       (flt (lit 8589935 (-33)) (dist (rd_bpm best) t) = false \/ flt lead (fu_margin p) = false ->
         h_bpm h = rd_bpm best /\ v = rd_score best)) /\
      let bonus := fu_prior p = true /\ flt lead (fu_margin p) = true /\ flt lead (lit 13421773 (-28)) = true /\
                   fle (z2f 70) (h_bpm h) = true /\ fle (h_bpm h) (z2f 180) = true in
      (bonus -> h_score h = fadd v (lit 13421773 (-28))) /\ (~ bonus -> h_score h = v).

Lemma discounted_is : forall s a b r, discounted s a b r =
  fold_left fmul (when (flt (fmul b (lit 2139095 (-21))) a) (lit 7549747 (-23)) ++
       when (flt r (lit 9227469 (-23))) (lit 3 (-2)) ++ when (flt r f1) (lit 3 (-2))) s.
Proof.
  intros s a b r. unfold discounted. rewrite fgt_is.
  destruct (flt (fmul b (lit 2139095 (-21))) a), (flt r (lit 9227469 (-23))), (flt r f1); reflexivity.
Qed.
Lemma prior_is : forall b s, hyp_prior b s = fold_left fmul (tempo_factors b) s.
Proof.
  intros b s. unfold hyp_prior, tempo_factors. rewrite !fgt_is.
  assert (K : forall x y, flt x y = true -> flt b x = true -> flt y b = true -> False).
  { intros x y H1 H2 H3. assert (C : flt b b = true) by (eapply flt_fle_trans; [exact H2|apply flt_fle; eapply flt_fle_trans; [exact H1|now apply flt_fle]]).
    assert (Q : fle b b = true) by (apply fle_refl; eapply flt_nn_l; eauto). apply fle_flt_false in Q. congruence. }
  destruct (flt (z2f 210) b) eqn:A.
  - destruct (flt b (z2f 60)) eqn:C; [exfalso; apply (K (z2f 60) (z2f 210)); auto|].
    rewrite andb_false_r. reflexivity.
  - destruct (flt (z2f 180) b) eqn:B.
    + destruct (flt b (z2f 60)) eqn:C; [exfalso; apply (K (z2f 60) (z2f 180)); auto|]. reflexivity.
    + destruct (flt b (z2f 60)); reflexivity.
Qed.

Definition as_hyp (r : reading) : hyp := mkHyp (rd_bpm r) (rd_score r).
Lemma filter_map : forall (A B : Type) (f : A -> B) (q : B -> bool) l, filter q (map f l) = map f (filter (fun x => q (f x)) l).
Proof. induction l as [|x l IH]; cbn; auto. destruct (q (f x)); cbn; now rewrite IH. Qed.
Lemma insert_map : forall (A B : Type) (f : A -> B) leb leb' x l, (forall a b, leb' (f a) (f b) = leb a b) ->
  insert_by leb' (f x) (map f l) = map f (insert_by leb x l).
Proof. intros A B f leb leb' x l H. induction l as [|y l IH]; cbn; auto. rewrite H. destruct (leb x y); cbn; now rewrite ?IH. Qed.
Lemma sort_map : forall (A B : Type) (f : A -> B) leb leb' l, (forall a b, leb' (f a) (f b) = leb a b) ->
  sort_by leb' (map f l) = map f (sort_by leb l).
Proof. intros A B f leb leb' l H. induction l as [|x l IH]; cbn; auto. rewrite IH. now apply insert_map. Qed.

Theorem C77_verdict : forall c256 c512 c1024 mn mx tol p t s256 s512 s1024,
  strengths c256 tol s256 -> strengths c512 tol s512 -> strengths c1024 tol s1024 ->
  (forall h, hypothesis c256 c512 c1024 mn mx tol p t = Some h -> fin t /\ flt f0 t = true /\ verdict p s256 s512 s1024 mn mx t h) /\
  (hypothesis c256 c512 c1024 mn mx tol p t = None <->
   fisfin t = false \/ flt f0 t = false \/ (forall b, In b [t; fmul t f2; fmul t fhalf] -> fle mn b = false \/ fle b mx = false)).
Proof.
  intros c256 c512 c1024 mn mx tol p t s256 s512 s1024 H1 H2 H3.
  set (rs := readings p s256 s512 s1024 t).
  set (ok := fun r => fle mn (rd_bpm r) && fle (rd_bpm r) mx).
  assert (E : hypothesis c256 c512 c1024 mn mx tol p t =
    if negb (fisfin t && fgt t f0) then None else
    match sort_desc rd_score (filter ok rs) with
    | [] => None
    | best :: r =>
        let second := match r with [] => f0 | s :: _ => rd_score s end in
        let margin := fsub (rd_score best) second in
        let unclear := flt margin (fu_margin p) in
        let chosen := if fgt (fabs (fsub (rd_bpm best) t)) (lit 8589935 (-33)) && unclear then mkHyp t (rd_sum (hd best rs)) else as_hyp best in
        let bonus := unclear && fu_prior p && (fle (z2f 70) (h_bpm chosen) && fle (h_bpm chosen) (z2f 180)) &&
                     flt margin (lit 13421773 (-28)) in
        Some (if bonus then mkHyp (h_bpm chosen) (fadd (h_score chosen) (lit 13421773 (-28))) else chosen)
    end).
  { unfold hypothesis. destruct (negb (fisfin t && fgt t f0)); [reflexivity|]. cbv zeta. cbn [fst snd].
    rewrite !(strengths_is _ _ _ _ H1), !(strengths_is _ _ _ _ H2), !(strengths_is _ _ _ _ H3).
    match goal with |- context [sort_desc h_score ?l] => assert (El : l = map as_hyp (filter ok rs)) end.
    { rewrite !discounted_is.
      match goal with |- context [filter ?q ?l] => set (q0 := q); set (l0 := l) end.
      set (g := fun h => mkHyp (h_bpm h) (hyp_prior (h_bpm h) (h_score h))).
      assert (G : map as_hyp rs = map g l0).
      { unfold rs, readings, l0, g. cbn [map]. unfold as_hyp, rd_score. cbn [rd_bpm rd_sum rd_factors h_bpm h_score].
        rewrite !prior_is, !app_assoc, !fold_left_app. reflexivity. }
      transitivity (filter q0 (map g l0)).
      - rewrite filter_map. reflexivity.
      - rewrite <- G, filter_map. reflexivity. }
    rewrite El. unfold sort_desc at 1. rewrite (sort_map _ _ as_hyp (desc_leb rd_score) (desc_leb h_score)) by reflexivity.
    fold (sort_desc rd_score (filter ok rs)).
    destruct (sort_desc rd_score (filter ok rs)) as [|best [|s r]]; reflexivity. }
  split.
  - intros h H. rewrite E in H. clear E.
    destruct (fisfin t) eqn:F; cbn [andb negb] in H; [|discriminate]. rewrite fgt_is in H.
    destruct (flt f0 t) eqn:P; cbn [negb] in H; [|discriminate].
    split; [now destruct t|]. split; auto. unfold verdict. fold rs. cbv zeta.
    pose proof (sort_desc_perm rd_score (filter ok rs)) as Pm.
    assert (So : Forall (fun r => nn (rd_score r)) rs -> StronglySorted (fun a b => fle (rd_score b) (rd_score a) = true) (sort_desc rd_score (filter ok rs))).
    { intros N. apply sort_desc_sorted. rewrite Forall_forall in *. intros r I. apply filter_In in I as (I & _). auto. }
    destruct (sort_desc rd_score (filter ok rs)) as [|best rest]; [discriminate|]. exists best, rest.
    split; [now apply Permutation_sym|]. split; [exact So|]. cbv zeta in H. clear Pm So. clearbody rs ok.
    set (lead := fsub (rd_score best) _) in *. clearbody lead.
    exists (if flt (lit 8589935 (-33)) (dist (rd_bpm best) t) && flt lead (fu_margin p) then rd_sum (hd best rs) else rd_score best).
    rewrite fgt_is in H.
    set (ch := if flt (lit 8589935 (-33)) (dist (rd_bpm best) t) && flt lead (fu_margin p) then mkHyp t (rd_sum (hd best rs)) else as_hyp best) in H.
    assert (H' := f_equal (fun o => match o with Some x => x | None => h end) H). cbv beta iota in H'. clear H. rename H' into H.
    generalize dependent (lit 8589935 (-33)). generalize dependent (lit 13421773 (-28)).
    generalize dependent (z2f 70). generalize dependent (z2f 180). intros c180 c70 c05 c001 ch H.
    assert (Hb : h_bpm h = h_bpm ch) by (rewrite <- H; match goal with |- h_bpm (if ?b then _ else _) = _ => destruct b end; reflexivity).
    rewrite Hb. split.
    { unfold ch. split; [intros -> ->; auto|]. intros [-> | ->]; rewrite ?andb_false_r; auto. }
    assert (Sc : (if flt c001 (dist (rd_bpm best) t) && flt lead (fu_margin p) then rd_sum (hd best rs) else rd_score best) = h_score ch)
      by (unfold ch; destruct (_ && _); reflexivity).
    rewrite Sc. clearbody ch. clear Sc Hb.
    destruct (flt lead (fu_margin p)), (fu_prior p), (fle c70 (h_bpm ch)), (fle (h_bpm ch) c180), (flt lead c05);
      cbn [andb] in H; subst h; cbn [h_score]; (split; [intros (? & ? & ? & ? & ?); first [discriminate|reflexivity]|intros N; first [reflexivity|exfalso; apply N; auto]]).
  - rewrite E. clear E. rewrite fgt_is. destruct (fisfin t); [|cbn; tauto]. destruct (flt f0 t); [|cbn; tauto]. cbn [andb negb].
    assert (Q : sort_desc rd_score (filter ok rs) = [] <-> (forall b, In b [t; fmul t f2; fmul t fhalf] -> fle mn b = false \/ fle b mx = false)).
    { assert (R : map rd_bpm rs = [t; fmul t f2; fmul t fhalf]) by reflexivity. rewrite <- R. clear R. clearbody rs.
      split.
      - intros Z b I. apply in_map_iff in I as (r & <- & I). apply andb_false_iff. fold (ok r). destruct (ok r) eqn:O; auto.
        assert (J : In r (sort_desc rd_score (filter ok rs))) by (apply sort_desc_in, filter_In; auto). rewrite Z in J. destruct J.
      - intros N. destruct (sort_desc rd_score (filter ok rs)) as [|r l] eqn:Z; auto. exfalso.
        assert (J : In r (filter ok rs)) by (apply (sort_desc_in rd_score); rewrite Z; now left).
        apply filter_In in J as (I & O). apply (in_map rd_bpm) in I. apply N in I. unfold ok in O. apply andb_true_iff in O as (O1 & O2).
        destruct I; congruence. }
    destruct (sort_desc rd_score (filter ok rs)) as [|best r].
    + split; [intros _|reflexivity]. right. right. now apply Q.
    + split; [discriminate|]. intros [A|[A|A]]; try discriminate. apply Q in A. discriminate.
Qed.
Print Assumptions C77_verdict.

(** The scores are finite for strengths in [0, 2^40] and weights up to 2^20 in magnitude. *)
Lemma when_in01 : forall b x, in01 x -> Forall in01 (when b x).
Proof. intros [] x H; repeat constructor; auto; apply H. Qed.
Lemma factors_within : forall k l s, (0 <= k < 128)%Z -> Forall in01 l -> Bounds.within k s -> Bounds.within k (fold_left fmul l s).
Proof.
  intros k l s K H. revert s. induction H as [|x l X H IH]; intros s W; cbn; auto. apply IH. now apply within_shrink.
Qed.
Lemma tempo_factors_in01 : forall b, Forall in01 (tempo_factors b).
Proof. intros b. unfold tempo_factors. repeat (apply Forall_app; split); apply when_in01; split; reflexivity. Qed.
Theorem C77_finite : forall p s256 s512 s1024 t,
  (forall b s, In s [s256; s512; s1024] -> fle f0 (s b) = true /\ fle (s b) (lit 1 40) = true) ->
  (forall w, In w [fu_w512 p; fu_w256 p; fu_w1024 p; fu_double p] -> fle (fabs w) (lit 1 20) = true) ->
  Forall (fun r => fin (rd_score r) /\ fle (fabs (rd_score r)) (lit 1 87) = true) (readings p s256 s512 s1024 t).
Proof.
  intros p s256 s512 s1024 t Hs Hw.
  assert (W : forall w, In w [fu_w512 p; fu_w256 p; fu_w1024 p; fu_double p] -> Bounds.within 20 w) by (intros w I; apply within_abs; auto; lia).
  assert (S : forall b s, In s [s256; s512; s1024] -> Bounds.within 40 (s b)).
  { intros b s I. destruct (Hs b s I). apply upto_within, (upto_le _ _ (lit 1 40)); auto. apply upto_lit. lia. }
  assert (G : forall a b c, Bounds.within 62 a -> Bounds.within 40 b -> Bounds.within 40 c ->
    Bounds.within 87 (fadd (fadd (fmul (fu_w512 p) a) (fmul (fu_w256 p) b)) (fmul (fu_w1024 p) c))).
  { intros a b c A B C. apply (within_mono (85 + 1 + 1)); [lia|]. apply within_add; [lia| |].
    - apply within_add; [lia| |]; [apply (within_mono (20 + 62))|apply (within_mono (20 + 40))]; try lia; apply within_mul; auto; try lia; apply W; cbn; auto.
    - apply (within_mono (20 + 40)); [lia|]. apply within_mul; auto; try lia; apply W; cbn; auto. }
  assert (Q : forall r, Bounds.within 87 (rd_sum r) -> Forall in01 (rd_factors r) -> fin (rd_score r) /\ fle (fabs (rd_score r)) (lit 1 87) = true).
  { intros r A B. unfold rd_score. pose proof (factors_within 87 _ _ ltac:(lia) B A) as X. split; [now apply within_fin in X|].
    apply within_abs; [lia|exact X]. }
  unfold readings. cbv zeta. apply Forall_cons; [|apply Forall_cons; [|apply Forall_cons; [|constructor]]]; apply Q; cbn [rd_sum rd_factors].
  2, 4, 6: repeat (apply Forall_app; split); try apply tempo_factors_in01; apply when_in01; split; reflexivity.
  1: apply G; [apply (within_mono 40); [lia|]|..]; apply S; cbn; auto.
  all: apply G; [|apply S; cbn; auto..].
  all: change 62%Z with (61 + 1)%Z; apply within_add; [lia|apply (within_mono (20 + 40)); [lia|]; apply within_mul; try lia; [apply W|apply S]; cbn; auto|].
  all: change 61%Z with (21 + 40)%Z; apply within_mul; [lia| |apply S; cbn; auto]; change 21%Z with (20 + 1)%Z; apply within_sub; [lia| |apply W; cbn; auto 6].
  all: apply (within_mono 0); [lia|]; apply within_abs0; reflexivity.
Qed.
Print Assumptions C77_finite.

(** The choice among the candidates' verdicts. *)
Definition close (x y : hyp) : bool := flt (dist (h_bpm x) (h_bpm y)) (lit 3 (-2)).
Lemma unique_second : forall l x out, unique_from [x] l = x :: out ->
  (out = [] /\ Forall (fun y => close x y = true) l) \/
  (exists a y b r, l = a ++ y :: b /\ Forall (fun z => close x z = true) a /\ close x y = false /\ out = y :: r).
Proof.
  induction l as [|y l IH]; intros x out H; cbn [unique_from] in H.
  - injection H as <-. left. split; auto.
  - cbn [existsb] in H. rewrite orb_false_r in H. fold f075 in H. change (flt (dist (h_bpm x) (h_bpm y)) f075) with (close x y) in H.
    destruct (close x y) eqn:C.
    + apply IH in H as [(-> & F)|(a & z & b & r & -> & F & N & ->)]; [left; auto|]. right. exists (y :: a), z, b, r. auto.
    + right. exists [], y, l. cbn [app length Nat.leb] in H.
      destruct (unique_from [x; y] l) as [|x' [|y' r]] eqn:E.
      * exfalso. assert (K : forall l acc, acc <> [] -> unique_from acc l <> []).
        { clear. induction l as [|z l IH]; intros acc N; cbn [unique_from]; auto.
          destruct (existsb _ acc); auto. destruct (8 <=? _); [|apply IH]; destruct acc; discriminate. }
        apply (K l [x; y]); auto; discriminate.
      * exfalso. assert (K : forall l acc, length acc <= length (unique_from acc l)).
        { clear. induction l as [|z l IH]; intros acc; cbn [unique_from]; auto.
          destruct (existsb _ acc); auto. destruct (8 <=? _); [rewrite app_length; lia|]. rewrite <- IH, app_length. lia. }
        specialize (K l [x; y]). rewrite E in K. cbn in K. lia.
      * assert (K : forall l acc, exists r, unique_from acc l = acc ++ r).
        { clear. induction l as [|z l IH]; intros acc; cbn [unique_from]; [exists []; now rewrite app_nil_r|].
          destruct (existsb _ acc); auto. destruct (8 <=? _); [eexists; reflexivity|]. destruct (IH (acc ++ [z])) as (r & ->).
          exists (z :: r). now rewrite <- app_assoc. }
        destruct (K l [x; y]) as (r' & K'). rewrite E in K'. injection K' as -> -> ->. injection H as <-. exists r'. auto.
Qed.

Definition total (s256 s512 s1024 : f32 -> f32) (b : f32) : f32 := fadd (fadd (s256 b) (s512 b)) (s1024 b).
Definition votes (s256 s512 s1024 : f32 -> f32) (b : f32) : nat := length (filter (fun s => flt f0 (s b)) [s256; s512; s1024]).

(** Down: from 170 BPM to the half, if that is between 70 and 120, all three hop sizes have a candidate there and their
    total is at least 0.45 of the total at the full tempo.  Up: from at most 80 BPM to the double, if that is between 70
    and 180, two hop sizes have a candidate there and the total is at least 0.55 of the other. *)
Definition goes_down (tot : f32 -> f32) (vot : f32 -> nat) (b : f32) : Prop :=
  let h := fmul b fhalf in
  fle (z2f 170) b = true /\ fle (z2f 70) h = true /\ fle h (z2f 120) = true /\ vot h = 3 /\
  flt f0 (tot h) = true /\ flt f0 (tot b) = true /\ fle (lit 7549747 (-24)) (fdiv (tot h) (tot b)) = true.
Definition goes_up (tot : f32 -> f32) (vot : f32 -> nat) (b : f32) : Prop :=
  let d := fmul b f2 in
  fle b (z2f 80) = true /\ fle (z2f 70) d = true /\ fle d (z2f 180) = true /\ 2 <= vot d /\
  flt f0 (tot d) = true /\ flt f0 (tot b) = true /\ fle (lit 9227469 (-24)) (fdiv (tot d) (tot b)) = true.

Lemma support_is : forall c256 c512 c1024 tol s256 s512 s1024 b,
  strengths c256 tol s256 -> strengths c512 tol s512 -> strengths c1024 tol s1024 ->
  total_support c256 c512 c1024 b tol = (total s256 s512 s1024 b, votes s256 s512 s1024 b).
Proof.
  intros. unfold total_support. cbv zeta. rewrite (strengths_is c256 _ s256), (strengths_is c512 _ s512), (strengths_is c1024 _ s1024) by auto.
  unfold total, votes. rewrite !fgt_is. cbn [filter]. destruct (flt f0 (s256 b)), (flt f0 (s512 b)), (flt f0 (s1024 b)); reflexivity.
Qed.
Lemma votes_le3 : forall s256 s512 s1024 b, votes s256 s512 s1024 b <= 3.
Proof. intros. unfold votes. cbn [filter]. destruct (flt f0 (s256 b)), (flt f0 (s512 b)), (flt f0 (s1024 b)); cbn; lia. Qed.

Lemma fold_down_is : forall tot vot x, (forall b, vot b <= 3) -> let y := fold_down (fun b => (tot b, vot b)) x in
  (goes_down tot vot (h_bpm x) -> y = mkHyp (fmul (h_bpm x) fhalf) (tot (fmul (h_bpm x) fhalf))) /\ (~ goes_down tot vot (h_bpm x) -> y = x).
Proof.
  intros tot vot x V y. unfold y, fold_down, goes_down. clear y. cbv zeta. cbn [fst snd]. specialize (V (fmul (h_bpm x) fhalf)).
  rewrite !fgt_is. change (fge (h_bpm x) (z2f 170)) with (fle (z2f 170) (h_bpm x)).
  generalize (z2f 170) (z2f 70) (z2f 120) (lit 7549747 (-24)). intros c1 c2 c3 c4. revert V.
  generalize (fmul (h_bpm x) fhalf). intros hf V.
  change (fge ?a c4) with (fle c4 a).
  destruct (fle c1 (h_bpm x)); cbn [andb]; [|split; [intros (? & _); discriminate|auto]].
  destruct (fle c2 hf); cbn [andb]; [|split; [intros (_ & ? & _); discriminate|auto]].
  destruct (fle hf c3); cbn [andb]; [|split; [intros (_ & _ & ? & _); discriminate|auto]].
  destruct (Nat.leb_spec 3 (vot hf)); cbn [andb]; [|split; [intros (_ & _ & _ & ? & _); lia|auto]].
  destruct (flt f0 (tot hf)); cbn [andb]; [|split; [intros (_ & _ & _ & _ & ? & _); discriminate|auto]].
  destruct (flt f0 (tot (h_bpm x))); cbn [andb]; [|split; [intros (_ & _ & _ & _ & _ & ? & _); discriminate|auto]].
  change (fge (fdiv (tot hf) (tot (h_bpm x))) c4) with (fle c4 (fdiv (tot hf) (tot (h_bpm x)))).
  destruct (fle c4 _); [|split; [intros (_ & _ & _ & _ & _ & _ & ?); discriminate|auto]].
  split; auto. intros N. exfalso. apply N. repeat split; auto. lia.
Qed.
Lemma fold_up_is : forall tot vot x, let y := fold_up (fun b => (tot b, vot b)) x in
  (goes_up tot vot (h_bpm x) -> y = mkHyp (fmul (h_bpm x) f2) (tot (fmul (h_bpm x) f2))) /\ (~ goes_up tot vot (h_bpm x) -> y = x).
Proof.
  intros tot vot x y. unfold y, fold_up, goes_up. clear y. cbv zeta. cbn [fst snd].
  rewrite !fgt_is.
  generalize (z2f 80) (z2f 70) (z2f 180) (lit 9227469 (-24)). intros c1 c2 c3 c4.
  generalize (fmul (h_bpm x) f2). intros hf.
  destruct (fle (h_bpm x) c1); cbn [andb]; [|split; [intros (? & _); discriminate|auto]].
  destruct (fle c2 hf); cbn [andb]; [|split; [intros (_ & ? & _); discriminate|auto]].
  destruct (fle hf c3); cbn [andb]; [|split; [intros (_ & _ & ? & _); discriminate|auto]].
  destruct (Nat.leb_spec 2 (vot hf)); cbn [andb]; [|split; [intros (_ & _ & _ & ? & _); lia|auto]].
  destruct (flt f0 (tot hf)); cbn [andb]; [|split; [intros (_ & _ & _ & _ & ? & _); discriminate|auto]].
  destruct (flt f0 (tot (h_bpm x))); cbn [andb]; [|split; [intros (_ & _ & _ & _ & _ & ? & _); discriminate|auto]].
  change (fge (fdiv (tot hf) (tot (h_bpm x))) c4) with (fle c4 (fdiv (tot hf) (tot (h_bpm x)))).
  destruct (fle c4 _); [|split; [intros (_ & _ & _ & _ & _ & _ & ?); discriminate|auto]].
  split; auto. intros N. exfalso. apply N. repeat split; auto.
Qed.

(** The reported tempo starts from the verdict with the highest score, is folded down and then up as above and, where a
    novelty curve is given, replaced as [C77_triplet] says.  The confidence is its relative lead over the best verdict that
    is at least 0.75 BPM away from the highest; the agreement is the number of hop sizes with a candidate at it. *)
Theorem C77_choice : forall c256 c512 c1024 rate mn mx res k p nov e l s256 s512 s1024,
  let tol := fmax f2 res in
  strengths c256 tol s256 -> strengths c512 tol s512 -> strengths c1024 tol s1024 ->
  fuse c256 c512 c1024 rate mn mx res k p nov = Ok (e, l) ->
  let verdicts h := exists c, In c (firstn k c512) /\ hypothesis c256 c512 c1024 mn mx tol p (t_bpm c) = Some h in
  let tot := total s256 s512 s1024 in let vot := votes s256 s512 s1024 in
  exists first second down up best,
    verdicts first /\
    ((second = f0 /\ forall h, verdicts h -> h <> first -> close first h = true) \/
     (exists h2, verdicts h2 /\ close first h2 = false /\ second = h_score h2 /\
        ((forall h, verdicts h -> nn (h_score h)) -> forall h, verdicts h -> h <> first -> close first h = false -> fle (h_score h) second = true))) /\
    ((forall h, verdicts h -> nn (h_score h)) -> forall h, verdicts h -> fle (h_score h) (h_score first) = true) /\
    (goes_down tot vot (h_bpm first) -> down = mkHyp (fmul (h_bpm first) fhalf) (tot (fmul (h_bpm first) fhalf))) /\
    (~ goes_down tot vot (h_bpm first) -> down = first) /\
    (goes_up tot vot (h_bpm down) -> up = mkHyp (fmul (h_bpm down) f2) (tot (fmul (h_bpm down) f2))) /\
    (~ goes_up tot vot (h_bpm down) -> up = down) /\
    (nov = Ok None -> best = up) /\
    (forall n, nov = Ok (Some n) -> best = triplet (fun b => (tot b, vot b)) n rate mn mx up) /\
    e_bpm e = h_bpm best /\ e_agree e = vot (h_bpm best) /\
    (flt (lit 8796093 (-43)) (h_score best) = true ->
       e_conf e = clamp01 (fdiv (fmax (fsub (h_score best) second) f0) (h_score best))) /\
    (flt (lit 8796093 (-43)) (h_score best) = false -> e_conf e = f0) /\
    Forall2 (fun c c' => t_bpm c' = t_bpm c /\ t_score c' = t_score c /\ t_fft c' = t_fft c /\ t_ac c' = t_ac c /\
                         t_sel c' = flt (dist (t_bpm c) (e_bpm e)) (lit 3 (-2))) c512 l.
Proof.
  intros c256 c512 c1024 rate mn mx res k p nov e l s256 s512 s1024 tol H1 H2 H3 H verdicts tot vot.
  unfold fuse in H. cbv zeta in H. fold tol in H. set (hyps := flat_map _ _) in H.
  assert (Iv : forall h, In h hyps <-> verdicts h).
  { intros h. unfold hyps, verdicts. rewrite in_flat_map. split; intros (c & I & J); exists c; split; auto.
    - destruct (hypothesis _ _ _ _ _ _ _ _) as [h'|]; [destruct J as [<-|[]]; auto|destruct J].
    - rewrite J. now left. }
  clearbody verdicts. clearbody hyps.
  pose proof (fun h => sort_desc_in h_score hyps h) as Is.
  assert (Ss : (forall h, verdicts h -> nn (h_score h)) -> StronglySorted (fun a b => fle (h_score b) (h_score a) = true) (sort_desc h_score hyps)).
  { intros N. apply sort_desc_sorted. apply Forall_forall. intros h I. now apply N, Iv. }
  destruct (sort_desc h_score hyps) as [|first r]; [discriminate|]. cbn [unique_from existsb app length Nat.leb] in H.
  destruct (unique_from [first] r) as [|first' rest] eqn:U; [discriminate|].
  assert (first' = first).
  { destruct (unique_head _ _ _ _ U) as (r' & E); [discriminate|]. now injection E. }
  subst first'. destruct nov as [nov| |]; cbn [obind] in H; try discriminate.
  assert (E1 := f_equal (fun o => match o with Ok x => fst x | _ => e end) H). cbv beta iota delta [fst] in E1.
  assert (E2 := f_equal (fun o => match o with Ok x => snd x | _ => l end) H). cbv beta iota delta [snd] in E2. clear H.
  set (sup := fun b => total_support c256 c512 c1024 b tol) in E1, E2.
  assert (Es : sup = fun b => (tot b, vot b)).
  { apply FunctionalExtensionality.functional_extensionality. intros b. now apply support_is. }
  rewrite Es in E1, E2. clear Es sup.
  set (up := fold_up _ (fold_down _ first)) in E1, E2.
  set (best := match nov with Some n => triplet _ n rate mn mx up | None => up end) in E1, E2.
  exists first, (match rest with [] => f0 | h :: _ => h_score h end), (fold_down (fun b => (tot b, vot b)) first), up, best.
  split; [apply Iv, Is; now left|]. split.
  { apply unique_second in U as [(-> & F)|(a & y & b & r' & -> & F & N & ->)].
    - left. split; auto. intros h V Nf. rewrite Forall_forall in F. apply F. apply Iv, Is in V as [->|V]; auto. now destruct Nf.
    - right. exists y. split; [apply Iv, Is; right; apply in_elt|]. split; auto. split; auto. intros Nn h V Nf C.
      specialize (Ss Nn). apply StronglySorted_inv in Ss as (Ss & Hd).
      assert (V' := V). apply Iv, Is in V' as [<-|I].
      { now destruct Nf. }
      apply in_app_or in I as [I|[<-|I]].
      + rewrite Forall_forall in F. rewrite F in C by auto. discriminate.
      + apply fle_refl. now apply Nn.
      + clear - Ss I. induction a as [|z a IH]; cbn [app] in Ss; apply StronglySorted_inv in Ss as (Ss & Hd).
        * rewrite Forall_forall in Hd. auto.
        * auto. }
  split.
  { intros Nn h V. specialize (Ss Nn). apply StronglySorted_inv in Ss as (_ & Hd). rewrite Forall_forall in Hd.
    assert (V' := V). apply Iv, Is in V' as [<-|I]; [apply fle_refl; auto|auto]. }
  destruct (fold_down_is tot vot first) as (D1 & D2); [intros; apply votes_le3|].
  destruct (fold_up_is tot vot (fold_down (fun b => (tot b, vot b)) first)) as (U1 & U2).
  split; [exact D1|]. split; [exact D2|]. split; [exact U1|]. split; [exact U2|].
  split; [intros Q; injection Q as ->; reflexivity|]. split; [intros n Q; injection Q as ->; reflexivity|].
  clearbody best. subst e l. cbn [e_bpm e_agree e_conf]. split; auto.
  split; [now rewrite (support_is _ _ _ _ s256 s512 s1024)|]. unfold separation. rewrite fgt_is.
  split; [intros ->; reflexivity|]. split; [intros ->; reflexivity|].
  clear. induction c512 as [|c l IH]; constructor; auto.
Qed.
Print Assumptions C77_choice.

(** Strengths 1 and 0.85 at 220 and 110 with hop 512 and 256, 0.5 and 0.6 with hop 1024: 110 leads (1.18 to 1.0) but by
    less than the threshold, so 220 is kept - with its sum of 1.25, without the factor 0.8 for tempi above 210.  The final
    fold then moves to 110, which all hop sizes support. *)
Definition near_half : list cand := [mkTc (z2f 220) f1 f1 f1 false; mkTc (z2f 110) (lit 14260634 (-24)) f1 f1 false].
Definition near_half' : list cand := [mkTc (z2f 220) fhalf f1 f1 false; mkTc (z2f 110) (lit 10066330 (-24)) f1 f1 false].
Example C77_case :
  let p := {| fu_w512 := fhalf; fu_w256 := fhalf; fu_w1024 := fhalf; fu_double := fhalf; fu_margin := lit 1 (-2); fu_prior := false |} in
  let int x := f2i32 (fmul (z2f 100) x) in
  option_map (fun h => (int (h_bpm h), int (h_score h))) (hypothesis near_half near_half near_half' (z2f 40) (z2f 240) f2 p (z2f 220)) = Some (22000, 125)%Z /\
  option_map (fun h => (int (h_bpm h), int (h_score h))) (hypothesis near_half near_half near_half' (z2f 40) (z2f 240) f2 p (z2f 110)) = Some (11000, 115)%Z /\
  match fuse near_half near_half near_half' 4000 (z2f 40) (z2f 240) f1 10 p (Ok None) with
  | Ok (e, _) => (int (e_bpm e), int (e_conf e), e_agree e) | _ => (0%Z, 0%Z, 0) end = (11000%Z, 50%Z, 3).
Proof. vm_compute. auto. Qed.
