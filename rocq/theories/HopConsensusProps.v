(** C61: the consensus of the hop sizes (multi_resolution.rs:76-195). *)
From Coq Require Import ZArith Reals Lra.
From Flocq Require Import Core.
From Verif Require Import Rust F32 F32Facts ListFacts Libm Means FloatSums CombFilterProofs Autocorrelation Novelty NoveltyProofs NoveltyProps CandidateFilter
  Bounds Tempogram TempogramProofs TempogramValueProofs TempogramProps MultiResolution HopConsensusProofs.

Definition in01_or_nan (x : f32) : Prop := in01 x \/ fisnan x = true.

(** A single success is passed through; otherwise agreement counts every hop size or just one, the tempo is the mean or one
    of the inputs, and a disagreement is reported with 0.9 times the largest confidence. *)
Theorem C61_cases : forall l e, consensus l = Ok e ->
  match l with
  | [] => False
  | [x] => e = x
  | a :: _ =>
      if forallb (fun b => flt (fabs (fsub (e_bpm b) (e_bpm a))) (z2f 2)) l
      then e_agree e = length l /\ e_bpm e = fdiv (fsum (map e_bpm l)) (n2f (length l))
      else e_agree e = 1 /\ exists x, In x l /\ e_bpm e = e_bpm x /\ e_conf e = fmul (e_conf x) (lit 7549747 (-23)) /\
             (Forall (fun y => fisnan (e_conf y) = false) l -> Forall (fun y => fle (e_conf y) (e_conf x) = true) l)
  end.
Proof.
  intros l e H. destruct l as [|a [|b l]]; cbn [consensus] in H; [discriminate|congruence|].
  change (z2f 2) with f2. destruct (forallb _ _).
  - injection H as <-. cbn [e_agree e_bpm]. auto.
  - assert (e = mkEst (e_bpm (best_confidence a (b :: l))) (fmul (e_conf (best_confidence a (b :: l))) (lit 7549747 (-23))) 1) by congruence.
    subst e. cbn [e_agree e_bpm e_conf]. split; auto. exists (best_confidence a (b :: l)). split; [apply best_in|]. split; auto. split; auto.
    apply best_max.
Qed.
Print Assumptions C61_cases.

Lemma nneg_or_nan_sum : forall l acc, Forall (fun x => nneg x \/ fisnan x = true) l -> nneg acc \/ fisnan acc = true ->
  nneg (fold_left fadd l acc) \/ fisnan (fold_left fadd l acc) = true.
Proof.
  induction l as [|x l IH]; intros acc H A; cbn [fold_left]; auto. inversion H as [|? ? Hx Hl]; subst. apply IH; auto.
  destruct (is_nan (fadd acc x)) eqn:N; [now right|]. left. destruct (fadd_nan_l _ _ N) as (Na & Nx). unfold fisnan in *.
  apply fadd_nneg; [destruct A|destruct Hx]; auto; congruence.
Qed.

(** Confidences in [0,1] give a confidence in [0,1]; when the hop sizes agree it is at least their mean, and a NaN among the
    inputs becomes full confidence. *)
Theorem C61_confidence : forall l e, consensus l = Ok e -> length l <= 3 -> Forall (fun x => in01_or_nan (e_conf x)) l ->
  in01_or_nan (e_conf e) /\
  (Forall (fun x => in01 (e_conf x)) l -> in01 (e_conf e)) /\
  (1 < length l -> e_agree e = length l -> in01 (e_conf e) /\
     (Forall (fun x => in01 (e_conf x)) l -> fle (fdiv (fsum (map e_conf l)) (n2f (length l))) (e_conf e) = true)).
Proof.
  intros l e H Ln Hc. destruct (consensus_cases _ _ H) as [->|[(L1 & _ & ->)|(L1 & _ & a & Ea & ->)]].
  - apply Forall_inv in Hc. split; auto. split; [intros A; now apply Forall_inv in A|cbn [length]; lia].
  - cbn [e_conf e_agree].
    assert (Pn : pos (n2f (length l))) by (apply n2f_pos; lia).
    assert (Fn : fin (n2f (length l))) by (apply n2f_exact; lia).
    assert (I1 : in01 (fmin (fmul (fdiv (fsum (map e_conf l)) (n2f (length l))) (lit 5033165 (-22))) f1)).
    { set (m := fmul _ _). destruct (is_nan m) eqn:Nm.
      - unfold fmin, fisnan. rewrite Nm. apply in01_1.
      - split; [|apply fmin_le_r; reflexivity]. apply fmin_glb; auto. intros _. unfold m in *. pose proof (fmul_nan_inv _ _ Nm) as (Nd & _).
        apply fmul_nneg; auto. apply fdiv_nneg; auto. assert (Ns : nn (fsum (map e_conf l))) by (destruct (fsum (map e_conf l)); auto).
        destruct (nneg_or_nan_sum (map e_conf l) f0) as [S|S]; auto; [|unfold fisnan, fsum in *; congruence].
        apply Forall_map. eapply Forall_impl; [|exact Hc]. intros x [X|X]; [left; apply X|now right]. }
    split; [now left|]. split; auto. intros _ _. split; auto. intros A.
    assert (M : in01 (fdiv (fsum (map e_conf l)) (n2f (length l)))).
    { pose proof (mean_in01 (map e_conf l)) as M. rewrite map_length in M. apply M; [|lia|now apply Forall_map].
      destruct l; [cbn [length] in L1; lia|discriminate]. }
    generalize dependent (fdiv (fsum (map e_conf l)) (n2f (length l))). intros m _ _ M. apply fmin_glb; auto; intros _; [|apply M].
    assert (Fm : fin m) by now apply in01_fin.
    assert (Fc : fin (lit 5033165 (-22))) by reflexivity.
    destruct (fmul_fx m _ Fm Fc) as (N & V). apply fle_intro; auto. { now apply fin_nn. }
    rewrite V, fx_fin by auto. rewrite <- (sat_id (B2R m)) at 1.
    { apply sat_mono. rewrite <- (rnd_B2R m) at 1. apply rnd_mono.
      destruct M as (M0 & _). apply nneg_fx in M0. rewrite fx_fin in M0 by auto.
      assert (C : (1 <= B2R (lit 5033165 (-22)))%R); [|nra].
      assert (C : fle f1 (lit 5033165 (-22)) = true) by reflexivity. apply fle_fx in C. rewrite !fx_fin, B2R_f1 in C by auto. exact C. }
    pose proof (fx_bound m) as Bm. now rewrite fx_fin in Bm by auto.
  - cbn [e_conf e_agree]. destruct l as [|a' l]; [discriminate|]. injection Ea as ->. cbn [tl].
    set (b := best_confidence a l). assert (Ib : In b (a :: l)) by apply best_in.
    assert (K : in01 (e_conf b) -> in01 (fmul (e_conf b) (lit 7549747 (-23)))) by (intros X; apply in01_mul; auto; split; reflexivity).
    rewrite Forall_forall in Hc. split; [|split; [intros A; rewrite Forall_forall in A; auto|lia]].
    destruct (Hc b Ib) as [X|X]; [left; auto|right]. unfold fisnan in *. destruct (e_conf b); try discriminate. reflexivity.
Qed.
Print Assumptions C61_confidence.

(** The tempo: one of the inputs, or for agreeing hop sizes their mean, which rounding can push outside the inputs' range by
    at most a relative 2^-21. *)
Theorem C61_tempo : forall l e mn mx, consensus l = Ok e -> length l <= 3 -> fle f1 mn = true -> fle mx (lit 1 100) = true ->
  Forall (fun x => fle mn (e_bpm x) = true /\ fle (e_bpm x) mx = true) l ->
  fisfin (e_bpm e) = true /\
  (B2R mn * (1 - / 2097152) <= B2R (e_bpm e) <= B2R mx * (1 + / 2097152))%R /\
  (length l = 1 \/ e_agree e <> length l -> fle mn (e_bpm e) = true /\ fle (e_bpm e) mx = true).
Proof.
  intros l e mn mx H Ln Hmn Hmx Hl.
  assert (Fm : forall b, fle mn b = true -> fle b mx = true -> fin b /\ (B2R mn <= B2R b <= B2R mx)%R /\ fin mn /\ fin mx).
  { intros b A B. assert (F100 : fin (lit 1 100)) by reflexivity.
    assert (Fb : fin b) by (apply (fin_between f1 _ (lit 1 100)); auto; eapply fle_trans; eauto).
    assert (Fx : fin mx) by (apply (fin_between f1 _ (lit 1 100)); auto; eapply fle_trans; eauto; eapply fle_trans; eauto).
    assert (Fn : fin mn) by (apply (fin_between f1 _ (lit 1 100)); auto; repeat (eapply fle_trans; eauto)).
    apply fle_fx in A, B. rewrite !fx_fin in A, B by auto. auto. }
  assert (One : forall x, In x l -> fin (e_bpm x) /\ (B2R mn * (1 - / 2097152) <= B2R (e_bpm x) <= B2R mx * (1 + / 2097152))%R).
  { intros x I. rewrite Forall_forall in Hl. destruct (Hl x I) as (A & B). destruct (Fm _ A B) as (F1 & R & Fn & Fx). split; auto.
    apply fle_fx in Hmn. rewrite !fx_fin in Hmn by auto. rewrite B2R_f1 in Hmn. lra. }
  pose proof Hl as Hl'. rewrite Forall_forall in Hl'.
  destruct (consensus_cases _ _ H) as [->|[(L1 & _ & ->)|(L1 & _ & a & Ea & ->)]].
  - destruct (One e) as (F & R); [now left|]. repeat split; auto; try apply R; apply Hl'; now left.
  - cbn [e_bpm e_agree].
    assert (Nl : map e_bpm l <> []) by (destruct l; [cbn [length] in L1; lia|discriminate]).
    assert (Up : Forall (upto 100) (map e_bpm l)).
    { apply Forall_map. eapply Forall_impl; [|exact Hl]. intros x (A & B). apply (upto_le _ _ (lit 1 100)); [|eapply fle_trans; eauto|apply upto_lit; lia].
      refine (fle_trans f0 f1 _ _ _); [reflexivity|]. eapply fle_trans; eauto. }
    destruct (mean_near (map e_bpm l) (B2R mn) (B2R mx)) as (F & R); auto; rewrite ?map_length in *; auto.
    + eapply Forall_impl; [|exact Up]. intros x. apply upto_nneg.
    + eapply upto_fin, upto_sum; [|exact Up]. lia.
    + destruct l as [|x l]; [cbn [length] in L1; lia|]. destruct (Hl' x (or_introl eq_refl)) as (A & B). destruct (Fm _ A B) as (_ & _ & Fn & _).
      apply fle_fx in Hmn. now rewrite !fx_fin, B2R_f1 in Hmn by auto.
    + destruct l as [|x l]; [cbn [length] in L1; lia|]. destruct (Hl' x (or_introl eq_refl)) as (A & B). destruct (Fm _ A B) as (_ & _ & _ & Fx).
      apply fle_fx in Hmx. rewrite !fx_fin in Hmx by auto. destruct (upto_lit 100 ltac:(lia)) as (_ & V). lra.
    + apply Forall_map. eapply Forall_impl; [|exact Hl]. intros x (A & B). apply (Fm _ A B).
    + split; auto. split; auto. intros [Q|Q]; lia.
  - cbn [e_bpm e_agree]. destruct l as [|a' l]; [discriminate|]. injection Ea as ->. cbn [tl].
    set (b := best_confidence a l). assert (Ib : In b (a :: l)) by apply best_in. destruct (One b Ib) as (F & R).
    repeat split; auto; try apply R; apply Hl'; auto.
Qed.
Print Assumptions C61_tempo.

(** The exact range is lost: three identical tempi have a smaller mean. *)
Theorem C61_tempo_refuted : exists l e mn mx, consensus l = Ok e /\ length l = 3 /\ fle f1 mn = true /\ fle mx (lit 1 100) = true /\
  Forall (fun x => fle mn (e_bpm x) = true /\ fle (e_bpm x) mx = true /\ in01 (e_conf x)) l /\ flt (e_bpm e) mn = true.
Proof.
  set (x := mkEst (lit 7218315 (-15)) f1 2).
  exists [x; x; x], (mkEst (fdiv (fsum [e_bpm x; e_bpm x; e_bpm x]) (n2f 3)) (fmin (fmul (fdiv (fsum [f1; f1; f1]) (n2f 3)) (lit 5033165 (-22))) f1) 3), (e_bpm x), (e_bpm x).
  split. { unfold consensus. replace (forallb _ _) with true by (vm_compute; reflexivity). reflexivity. }
  split; [reflexivity|]. split; [vm_compute; reflexivity|]. split; [vm_compute; reflexivity|]. split; [|vm_compute; reflexivity].
  assert (K : fle (e_bpm x) (e_bpm x) = true /\ fle (e_bpm x) (e_bpm x) = true /\ in01 (e_conf x)).
  { repeat split; vm_compute; reflexivity. }
  repeat constructor; apply K.
Qed.
Print Assumptions C61_tempo_refuted.

(** The estimates behind a result: one per hop size that succeeded, in order. *)
Lemma successes_ok : forall f hops l, successes f hops = Some (Ok l) ->
  Forall (fun e => exists h c, In h hops /\ f h = Some (Ok (e, c))) l /\ length l <= length hops.
Proof.
  induction hops as [|h r IH]; intros l H; cbn [successes] in H; [injection H as <-; cbn; auto|].
  assert (W : forall l', Forall (fun e => exists h c, In h r /\ f h = Some (Ok (e, c))) l' -> Forall (fun e => exists h0 c, In h0 (h :: r) /\ f h0 = Some (Ok (e, c))) l').
  { intros l'. apply Forall_impl. intros e (h' & c & I & E). exists h', c. split; auto. now right. }
  destruct (f h) as [[(e & c)| |]|] eqn:E; try discriminate.
  - destruct (successes f r) as [[l'| |]|] eqn:R; cbn [rbind] in H; try discriminate. injection H as <-.
    destruct (IH _ eq_refl) as (A & B). split; [|cbn [length]; lia]. constructor; auto. exists h, c. split; auto. now left.
  - destruct (IH _ H) as (A & B). split; auto. cbn [length]; lia.
Qed.

(** The whole analysis: up to three hop sizes agree, the tempo is in the searched range up to a relative 2^-21, and the
    confidence is in [0,1] or NaN; it is a number for the usual platform and moderate spectrograms. *)
Theorem C61_analysis : forall F L fuel spec rate mn mx res e, fle f1 mn = true -> fle mx (lit 1 100) = true ->
  multi_resolution_analysis F L fuel spec rate mn mx res = Some (Ok e) ->
  e_agree e <= 3 /\ fisfin (e_bpm e) = true /\
  (B2R mn * (1 - / 2097152) <= B2R (e_bpm e) <= B2R mx * (1 + / 2097152))%R /\
  in01_or_nan (e_conf e) /\
  (fft_bounds F -> cos_bounds L -> ln_bounds L -> moderate spec ->
   (forall n, rect n spec -> (Z.of_nat n <= 2 ^ 24)%Z) -> (Z.of_nat (length spec) <= 2 ^ 24)%Z -> in01 (e_conf e)).
Proof.
  intros F L fuel spec rate mn mx res e Hmn Hmx H. unfold multi_resolution_analysis in H.
  destruct (successes _ _) as [[l| |]|] eqn:S; cbn [rbind] in H; try discriminate.
  assert (C : consensus l = Ok e) by congruence. clear H. apply successes_ok in S as (S & Ll). cbn [length] in Ll.
  assert (R : Forall (fun x => fle mn (e_bpm x) = true /\ fle (e_bpm x) mx = true /\ e_agree x <= 2 /\ in01_or_nan (e_conf x)) l).
  { eapply Forall_impl; [|exact S]. intros x (h & c & _ & E). destruct (C27_range _ _ _ _ _ _ _ _ _ _ _ _ E) as (A & B & _ & _ & _ & Ag & Cf).
    repeat split; auto. }
  assert (R1 : Forall (fun x => fle mn (e_bpm x) = true /\ fle (e_bpm x) mx = true) l) by (eapply Forall_impl; [|exact R]; intros x X; cbv beta in *; tauto).
  assert (R2 : Forall (fun x => in01_or_nan (e_conf x)) l) by (eapply Forall_impl; [|exact R]; intros x X; cbv beta in *; tauto).
  destruct (C61_tempo l e mn mx C Ll Hmn Hmx R1) as (T1 & T2 & _).
  destruct (C61_confidence l e C Ll R2) as (N1 & N2 & _).
  split. { destruct (consensus_cases _ _ C) as [->|[(_ & _ & ->)|(_ & _ & a & _ & ->)]]; cbn [e_agree]; try lia. apply Forall_inv in R. lia. }
  split; auto. split; auto. split; auto. intros HF HC HL HM HW HN. apply N2. eapply Forall_impl; [|exact S].
  intros x (h & c & _ & E). assert (Nc : forall c0 : band_config, None = Some c0 -> usable c0) by discriminate.
  destruct (C27_scores _ _ _ _ _ _ _ _ _ _ _ _ HF HC HL HM HW HN Nc E) as (_ & _ & X). exact X.
Qed.
Print Assumptions C61_analysis.

(** 100, 101 and 101 BPM agree (mean 100.67, confidence raised to at most 1); 100, 140 do not: the more confident one wins. *)
Example C61_case :
  let f e := (f2i32 (fmul (e_bpm e) (z2f 100)), f2i32 (fmul (e_conf e) (z2f 100)), e_agree e) in
  let x (b c : Z) := mkEst (z2f b) (fdiv (z2f c) (z2f 8)) 2 in
  map (fun l => match consensus l with Ok e => Some (f e) | _ => None end)
      [[x 100 4; x 101 4; x 101 4]; [x 100 7; x 101 8]; [x 100 6; x 140 4]; [x 90 2]; []]%Z
  = [Some (10066%Z, 60%Z, 3); Some (10050%Z, 100%Z, 2); Some (10000%Z, 67%Z, 1); Some (9000%Z, 25%Z, 2); None].
Proof. vm_compute. reflexivity. Qed.
