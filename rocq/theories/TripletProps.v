(** C77: the search for a related tempo of the multi-resolution estimator (src/features/period/multi_resolution.rs:779-863). *)
From Coq Require Import ZArith Reals Lra Lia Sorted.
From Verif Require Import Rust F32 F32Facts ListFacts SortingFacts NoveltyProofs TempogramScoreProps MultiResolution BeatContrastProps.
Close Scope R_scope.

(** The tempo itself and its multiples by 3/2, 2/3, 4/3 and 3/4 that lie in the searched range and between 70 and 180 and
    have a candidate in at least two hop sizes. *)
Definition family (tot : f32 -> f32) (vot : f32 -> nat) (mn mx b : f32) : list f32 :=
  filter (fun y => fisfin y && fle mn y && fle y mx && fle (z2f 70) y && fle y (z2f 180) && (2 <=? vot y) && negb (fle (tot y) f0))
    (map (fmul b) [f1; fdiv (z2f 3) f2; fdiv f2 (z2f 3); fdiv (z2f 4) (z2f 3); fdiv (z2f 3) (z2f 4)]).
(** [b] is the first of the highest scores in [l]. *)
Definition leads (score : f32 -> f32) (l : list f32) (b : f32) : Prop :=
  exists u v, l = u ++ b :: v /\ (forall y, In y u -> flt (score y) (score b) = true) /\ (forall y, In y v -> fle (score y) (score b) = true).

Lemma leads_unique : forall score l b b', (forall y, In y l -> nn (score y)) -> leads score l b -> leads score l b' -> b = b'.
Proof.
  intros score l b b' N (u & v & -> & A & B) (u' & v' & E & A' & B').
  assert (K : forall (x y : f32), flt x y = true -> fle y x = true -> False).
  { intros x y X Y. apply fle_flt_false in Y. congruence. }
  clear N. revert A B A' B' E. revert u u' v v'. induction u as [|x u IH]; intros [|x' u'] v v' A B A' B' E; cbn [app] in E; injection E as E1 E2; auto.
  - subst x'. exfalso. apply (K (score b) (score b')); [apply A'; now left|]. apply B. rewrite E2. apply in_elt.
  - subst x. exfalso. apply (K (score b') (score b)); [apply A; now left|]. apply B'. rewrite <- E2. apply in_elt.
  - apply (IH u' v v'); auto; intros y I; [apply A|apply A']; now right.
Qed.
Lemma first_best : forall (A : Type) (score : A -> f32) l x z, (forall y, In y (x :: l) -> nn (score y) /\ fle z (score y) = true) ->
  let c := fst (fold_left (fun acc f => if flt (snd acc) (score f) then (f, score f) else acc) (x :: l) (x, z)) in
  exists u v, x :: l = u ++ c :: v /\ (forall y, In y u -> flt (score y) (score c) = true) /\ (forall y, In y v -> fle (score y) (score c) = true).
Proof.
  intros A score l x z H c.
  (* after the first step the accumulator is (x, score x), or (x, z) with z = score x in the order *)
  set (step := fun acc f => if flt (snd acc) (score f) then (f, score f) else acc) in c.
  assert (G : forall l p w, nn w -> (forall y, In y (p :: l) -> nn (score y)) -> fle w (score p) = true -> fle (score p) w = true ->
    let c := fst (fold_left step l (p, w)) in
    exists u v, p :: l = u ++ c :: v /\ (forall y, In y u -> flt (score y) (score c) = true) /\ (forall y, In y v -> fle (score y) (score c) = true)).
  { clear. induction l as [|y l IH]; intros p w Nw N L1 L2.
    - exists [], []. split; [reflexivity|]. split; [intros y []|intros y []].
    - cbn [fold_left]. destruct (flt w (score y)) eqn:C.
      + replace (step (p, w) y) with (y, score y) by (unfold step; cbn [snd]; now rewrite C). cbv zeta.
        assert (Ny : nn (score y)) by (apply N; right; now left).
        destruct (IH y (score y)) as (u & v & E & U & V); auto; try now apply fle_refl. { intros z I. apply N. now right. }
        set (c := fst (fold_left step l (y, score y))) in *. clearbody c.
        exists (p :: u), v. split; [cbn [app]; now rewrite <- E|]. split; auto. intros z [<-|I]; auto.
        eapply fle_flt_trans; [exact L2|]. eapply flt_fle_trans; [exact C|].
        destruct u as [|y' u]; cbn [app] in E; injection E as E1 E2.
        * rewrite <- E1. apply fle_refl; auto.
        * subst y'. apply flt_fle. apply U. now left.
      + replace (step (p, w) y) with (p, w) by (unfold step; cbn [snd]; now rewrite C). cbv zeta.
        assert (Ny : nn (score y)) by (apply N; right; now left).
        assert (Ly : fle (score y) (score p) = true).
        { eapply fle_trans; [|exact L1]. apply flt_false_fle; auto. }
        destruct (IH p w) as (u & v & E & U & V); auto. { intros z [<-|I]; apply N; [now left|right; now right]. }
        cbv zeta in *. set (c := fst (fold_left step l (p, w))) in *. clearbody c.
        destruct u as [|p' u]; cbn [app] in E; injection E as E1 E2.
        * exists [], (y :: v). subst. split; auto. split; [intros ? []|]. intros z [<-|I]; auto.
        * subst p'. exists (p :: y :: u), v. subst l. split; auto. split; auto. intros z [<-|[<-|I]].
          { apply U. now left. }
          { eapply fle_flt_trans; [exact Ly|]. apply U. now left. }
          { apply U. now right. } }
  unfold c. cbn [fold_left].
  destruct (H x (or_introl eq_refl)) as (Nx & Lx).
  assert (N : forall y, In y (x :: l) -> nn (score y)) by (intros y I; apply H; auto).
  destruct (flt z (score x)) eqn:C.
  - replace (step (x, z) x) with (x, score x) by (unfold step; cbn [snd]; now rewrite C). apply G; auto; now apply fle_refl.
  - replace (step (x, z) x) with (x, z) by (unfold step; cbn [snd]; now rewrite C). apply G; auto; [now destruct (fle_nn _ _ Lx)|]. apply flt_false_fle; auto. now destruct (fle_nn _ _ Lx).
Qed.

Lemma fold_max_in : forall l a, In (fold_left fmax l a) l \/ fold_left fmax l a = a.
Proof.
  induction l as [|x l IH]; intros a; cbn [fold_left]; [now right|]. destruct (IH (fmax a x)) as [I|E]; [left; now right|].
  rewrite E. destruct (fmax_case a x) as [-> | ->]; [now right|]. left. now left.
Qed.
Lemma fold_max_ge : forall l a x, nn a -> In x l -> nn x -> fle x (fold_left fmax l a) = true.
Proof.
  assert (M : forall l a, nn a -> fle a (fold_left fmax l a) = true).
  { induction l as [|y l IH]; intros a N; cbn [fold_left]; [now apply fle_refl|]. eapply fle_trans; [now apply (fmax_ge_l a y)|]. apply IH, fmax_nn. auto. }
  induction l as [|y l IH]; intros a x N I Nx; cbn [fold_left]; [destruct I|]. assert (N' : nn (fmax a y)) by (apply fmax_nn; auto).
  destruct I as [<-|I]; [|now apply IH]. eapply fle_trans; [now apply (fmax_ge_r a y)|]. now apply M.
Qed.
Lemma triplet_long : forall sup nov rate mn mx x fams, families sup nov rate mn mx (h_bpm x) = fams ->
  fle (z2f 70) (h_bpm x) = true -> fle (h_bpm x) (z2f 180) = true -> nov <> [] ->
  forall top, top = fmax (fold_left fmax (map fa_support fams) f0) (lit 8796093 (-43)) ->
  let sc f := fadd (fa_align f) (fmul (lit 11744051 (-25)) (clamp01 (fdiv (fa_support f) top))) in
  forall f r, fams = f :: r -> forall ch,
  ch = fst (fold_left (fun acc f => if flt (snd acc) (sc f) then (f, sc f) else acc) fams (f, fneg (lit 1953125 9))) ->
  triplet sup nov rate mn mx x =
  if (2 <=? length fams) && fle (lit 7549747 (-24)) (fold_left fmax (map (fun f => fdiv (fa_support f) top)
      (filter (fun f => flt (lit 3 (-2)) (dist (fa_bpm f) (h_bpm x))) fams)) f0) &&
     (flt (lit 3 (-2)) (dist (fa_bpm ch) (h_bpm x)) && fle (fadd (beat_contrast nov rate 512 (h_bpm x)) (lit 13421773 (-25))) (fa_align ch))
  then mkHyp (fa_bpm ch) (fa_support ch) else x.
Proof.
  intros sup nov rate mn mx x fams E R1 R2 N top Et sc f r Ef ch Ec. unfold triplet. rewrite E.
  change (fge (h_bpm x) (z2f 70)) with (fle (z2f 70) (h_bpm x)). rewrite R1, R2. cbn [andb negb orb].
  destruct (Nat.eqb_spec (length nov) 0) as [Z|_]; [destruct nov; [congruence|discriminate]|].
  clear E. subst ch top. destruct fams as [|f' [|g q]]; [discriminate|reflexivity|]. injection Ef as -> <-.
  cbn [length Nat.leb andb]. cbv zeta.
  match goal with |- (if ?a then _ else _) = (if ?b && _ then _ else _) => change b with a; destruct a end; [|reflexivity].
  reflexivity.
Qed.

Theorem C77_triplet : forall tot vot nov rate mn mx x, (forall b, fin (tot b) /\ fle f0 (tot b) = true) ->
  let fams := family tot vot mn mx (h_bpm x) in
  let top := fmax (fold_left fmax (map tot fams) f0) (lit 8796093 (-43)) in
  let contrast := beat_contrast nov rate 512 in
  let score b := fadd (contrast b) (fmul (lit 11744051 (-25)) (clamp01 (fdiv (tot b) top))) in
  let far b := flt (lit 3 (-2)) (dist b (h_bpm x)) = true in
  let moves b :=
    fle (z2f 70) (h_bpm x) = true /\ fle (h_bpm x) (z2f 180) = true /\ nov <> [] /\ 2 <= length fams /\
    (exists a, In a fams /\ far a /\ fle (lit 7549747 (-24)) (fdiv (tot a) top) = true) /\
    leads score fams b /\ far b /\ fle (fadd (contrast (h_bpm x)) (lit 13421773 (-25))) (contrast b) = true in
  let out := triplet (fun b => (tot b, vot b)) nov rate mn mx x in
  (forall b, moves b -> out = mkHyp b (tot b)) /\ ((forall b, ~ moves b) -> out = x).
Proof.
  intros tot vot nov rate mn mx x T fams top contrast score far moves out.
  assert (Ef : families (fun b => (tot b, vot b)) nov rate mn mx (h_bpm x) = map (fun b => mkFam b (tot b) (contrast b)) fams).
  { unfold families, fams, family. cbn [fst snd]. fold contrast. f_equal. unfold family_factors.
    generalize (map (fmul (h_bpm x)) [f1; fdiv (z2f 3) f2; fdiv f2 (z2f 3); fdiv (z2f 4) (z2f 3); fdiv (z2f 3) (z2f 4)]).
    apply filter_ext. intros y. change (fge y mn) with (fle mn y). rewrite negb_orb, Nat.ltb_antisym, negb_involutive.
    destruct (fisfin y), (fle mn y), (fle y mx), (fle (z2f 70) y), (fle y (z2f 180)), (2 <=? vot y); reflexivity. }
  assert (Nf : forall b, In b fams -> flt f0 (tot b) = true).
  { intros b I. apply filter_In in I as (_ & I). rewrite !andb_true_iff in I. destruct I as (_ & I). apply negb_true_iff in I.
    destruct (T b) as (F & L). destruct (flt f0 (tot b)) eqn:C; auto. exfalso.
    assert (fle (tot b) f0 = true) by (apply flt_false_fle; auto; now apply fin_nn). congruence. }
  assert (Nt : nn top /\ pos top /\ fin top).
  { assert (Fm : fin (fold_left fmax (map tot fams) f0)).
    { destruct (fold_max_in (map tot fams) f0) as [I|E]; [|now rewrite E]. apply in_map_iff in I as (b & <- & _). apply T. }
    assert (Ft : fin top) by (unfold top; destruct (fmax_case (fold_left fmax (map tot fams) f0) (lit 8796093 (-43))) as [E|E]; rewrite E; auto; reflexivity).
    split; [now apply fin_nn|]. split; auto. eapply flt_fle_trans; [|apply fmax_ge_r; reflexivity]. reflexivity. }
  assert (Ns : forall b, nn (score b) /\ fle (fneg (lit 1953125 9)) (score b) = true).
  { intros b. destruct (C77_contrast nov rate 512 b) as (_ & _ & Nc & Lc). fold contrast in Nc, Lc.
    destruct (T b) as (Fb & _). destruct Nt as (_ & Pt & Ft).
    assert (Q : in01 (fmul (lit 11744051 (-25)) (clamp01 (fdiv (tot b) top)))).
    { apply in01_mul; [split; reflexivity|]. apply in01_clamp. now apply fdiv_nn_fin. }
    unfold score. set (q := fmul _ _) in *. clearbody q. pose proof (in01_fin _ Q) as Fq. 
    assert (Nq : nn (fadd (contrast b) q)) by now apply fadd_nn_fin_r.
    split; auto. replace (fneg (lit 1953125 9)) with (fadd (fneg (lit 1953125 9)) f0) by (apply B2SF_inj; vm_compute; reflexivity).
    apply fadd_mono; [exact Lc|apply Q|vm_compute; reflexivity|exact Nq]. }
  set (mk := fun b => mkFam b (tot b) (contrast b)) in *.
  assert (Sup : map fa_support (map mk fams) = map tot fams) by (rewrite map_map; reflexivity).
  assert (Et : top = fmax (fold_left fmax (map fa_support (map mk fams)) f0) (lit 8796093 (-43))) by (rewrite Sup; reflexivity).
  clearbody top. clearbody fams.
  destruct (fle (z2f 70) (h_bpm x)) eqn:R1; [|split; [intros b (? & _); congruence|unfold out, triplet, fge; fold (fle (z2f 70) (h_bpm x)); now rewrite R1]].
  destruct (fle (h_bpm x) (z2f 180)) eqn:R2; [|split; [intros b (_ & ? & _); congruence|unfold out, triplet; now rewrite R2, andb_false_r]].
  assert (Nv : nov = [] \/ nov <> []) by (destruct nov; [now left|right; discriminate]).
  destruct Nv as [Nv|Nv]; [split; [intros b (_ & _ & ? & _); congruence|unfold out, triplet; rewrite Nv; cbn [length Nat.eqb]; now rewrite orb_true_r]|].
  destruct (Nat.le_gt_cases 2 (length fams)) as [L2|L2].
  2:{ split; [intros b (_ & _ & _ & ? & _); lia|]. intros _. unfold out, triplet. rewrite Ef.
      destruct fams as [|b1 [|b2 fs]]; cbn [map]; [| |cbn in L2; lia]; now destruct (_ || _). }
  destruct fams as [|b1 fs] eqn:EF; [cbn in L2; lia|]. rewrite <- EF in *.
  set (sc := fun f => fadd (fa_align f) (fmul (lit 11744051 (-25)) (clamp01 (fdiv (fa_support f) top)))).
  set (ch := fst (fold_left (fun acc f => if flt (snd acc) (sc f) then (f, sc f) else acc) (map mk fams) (mk b1, fneg (lit 1953125 9)))).
  assert (Ech : exists b, ch = mk b /\ leads score fams b).
  { destruct (first_best fam sc (map mk fs) (mk b1) (fneg (lit 1953125 9))) as (u & v & Eq & U & V).
    { intros y I. change (mk b1 :: map mk fs) with (map mk (b1 :: fs)) in I. apply in_map_iff in I as (b & <- & _). apply (Ns b). }
    cbv zeta in Eq, U, V. change (mk b1 :: map mk fs) with (map mk (b1 :: fs)) in Eq, U, V. rewrite <- EF in Eq, U, V. fold ch in Eq, U, V.
    clearbody ch. apply map_eq_app in Eq as (u' & w' & E' & <- & Ew).
    destruct w' as [|b v']; [discriminate|]. cbn [map] in Ew. injection Ew as <- <-. exists b. split; auto. exists u', v'. split; auto. split.
    - intros y I. apply (U (mk y)). now apply in_map.
    - intros y I. apply (V (mk y)). now apply in_map. }
  assert (Alt : fle (lit 7549747 (-24)) (fold_left fmax (map (fun f => fdiv (fa_support f) top)
      (filter (fun f => flt (lit 3 (-2)) (dist (fa_bpm f) (h_bpm x))) (map mk fams))) f0) = true <->
    exists a, In a fams /\ far a /\ fle (lit 7549747 (-24)) (fdiv (tot a) top) = true).
  { set (l := map _ (filter _ _)).
    assert (El : forall y, In y l <-> exists a, In a fams /\ far a /\ y = fdiv (tot a) top).
    { intros y. unfold l. rewrite in_map_iff. split.
      - intros (f & <- & I). apply filter_In in I as (I & Fa). apply in_map_iff in I as (a & <- & I). exists a. auto.
      - intros (a & I & Fa & ->). exists (mk a). split; auto. apply filter_In. split; auto. now apply in_map. }
    clearbody l. split.
    - intros H. destruct (fold_max_in l f0) as [I|E0]; [|rewrite E0 in H; discriminate H]. apply El in I as (a & I & Fa & E0). exists a. now rewrite <- E0.
    - intros (a & I & Fa & H). eapply fle_trans; [exact H|]. apply fold_max_ge; [reflexivity| |now destruct (fle_nn _ _ H)]. apply El. eauto. }
  assert (Eb : map mk fams = mk b1 :: map mk fs) by (rewrite EF; reflexivity).
  assert (E := triplet_long _ nov rate mn mx x _ Ef R1 R2 Nv top Et (mk b1) (map mk fs) Eb ch eq_refl).
  fold contrast in E. fold out in E. rewrite map_length in E. replace (2 <=? length fams) with true in E by (symmetry; now apply Nat.leb_le). cbn [andb] in E.
  destruct Ech as (b & -> & Lb). cbn [mk fa_bpm fa_support fa_align] in E.
  split.
  - intros b' (_ & _ & _ & _ & A & L & Fa & C). rewrite <- EF in A, L.
    assert (b' = b) by (eapply leads_unique; eauto; intros y _; apply Ns). subst b'.
    rewrite E, (proj2 Alt A). fold (far b) in Fa. rewrite Fa, C. reflexivity.
  - intros No. rewrite E. destruct (_ && _) eqn:B; auto. exfalso. apply (No b).
    apply andb_true_iff in B as (B1 & B2). apply andb_true_iff in B2 as (B2 & B3). unfold moves. rewrite <- EF. repeat split; auto. now apply Alt.
Qed.
Print Assumptions C77_triplet.

(** Clicks every 10 frames are 120 BPM at 10240 Hz and hop 512.  An estimate of 80 with equal
    support for 120 moves to 120, one of 120 stays. *)
Example C77_triplet_case :
  let even := fun _ : f32 => (f1, 3) in
  let clicks' := map (fun i => if i mod 10 =? 4 then f1 else f0) (seq 0 60) in
  map (fun b => f2i32 (h_bpm (triplet even clicks' (1024 * 10) (z2f 40) (z2f 240) (mkHyp (z2f b) f1)))) [80; 120; 160]%Z = [120; 120; 120]%Z.
Proof. vm_compute. reflexivity. Qed.
