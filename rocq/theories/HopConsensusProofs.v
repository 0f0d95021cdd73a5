(** Lemmas for the consensus of the hop sizes. *)
From Coq Require Import ZArith Reals Lra.
From Flocq Require Import Core.
From Verif Require Import Rust F32 F32Facts ListFacts Libm Means FloatSums CombFilterProofs Autocorrelation Novelty NoveltyProofs CandidateFilter Bounds
  Tempogram TempogramProofs MultiResolution.

(** What [consensus] returns. *)
Lemma consensus_cases : forall l e, consensus l = Ok e ->
  (l = [e]) \/
  (1 < length l /\ (forall a b, hd_error l = Some a -> In b l -> flt (fabs (fsub (e_bpm b) (e_bpm a))) f2 = true) /\
    e = mkEst (fdiv (fsum (map e_bpm l)) (n2f (length l))) (fmin (fmul (fdiv (fsum (map e_conf l)) (n2f (length l))) (lit 5033165 (-22))) f1) (length l)) \/
  (1 < length l /\ (exists a b, hd_error l = Some a /\ In b l /\ flt (fabs (fsub (e_bpm b) (e_bpm a))) f2 = false) /\
    exists a, hd_error l = Some a /\ e = mkEst (e_bpm (best_confidence a (tl l))) (fmul (e_conf (best_confidence a (tl l))) (lit 7549747 (-23))) 1).
Proof.
  intros l e H. destruct l as [|a [|b l]]; cbn [consensus] in H; [discriminate|left; congruence|].
  destruct (forallb (fun x => flt (fabs (fsub (e_bpm x) (e_bpm a))) f2) (a :: b :: l)) eqn:E; right; [left|right].
  - split; [cbn [length]; lia|]. split; [|congruence]. intros a' x A I. injection A as <-. rewrite forallb_forall in E. auto.
  - split; [cbn [length]; lia|]. split; [|exists a; split; [reflexivity|cbn [tl]; congruence]].
    apply not_true_iff_false in E. destruct (existsb (fun x => negb (flt (fabs (fsub (e_bpm x) (e_bpm a))) f2)) (a :: b :: l)) eqn:X.
    2:{ exfalso. apply E. apply forallb_forall. intros x I. destruct (flt _ _) eqn:Q; auto. assert (true = false); [|discriminate].
        rewrite <- X. symmetry. apply existsb_exists. exists x. now rewrite Q. }
    apply existsb_exists in X as (x & I & Ex). apply negb_true_iff in Ex. exists a, x. split; [reflexivity|]. split; auto.
Qed.

Lemma best_in : forall l a, In (best_confidence a l) (a :: l).
Proof.
  unfold best_confidence. induction l as [|x l IH]; intros a; cbn [fold_left]; [now left|].
  destruct (fgt _ _); [destruct (IH a) as [H|H]|destruct (IH x) as [H|H]]; rewrite <- ?H; cbn [In]; auto.
Qed.
Lemma best_max : forall l a, Forall (fun e => nn (e_conf e)) (a :: l) ->
  Forall (fun e => fle (e_conf e) (e_conf (best_confidence a l)) = true) (a :: l).
Proof.
  unfold best_confidence. induction l as [|x l IH]; intros a H; cbn [fold_left].
  - constructor; auto. apply fle_refl. now apply Forall_inv in H.
  - inversion H as [|? ? Ha H']; subst. inversion H' as [|? ? Hx Hl]; subst.
    destruct (fgt (e_conf a) (e_conf x)) eqn:E.
    + assert (A : Forall (fun e => nn (e_conf e)) (a :: l)) by (constructor; auto). apply IH in A. inversion A as [|? ? A1 A2]; subst.
      constructor; auto. constructor; auto. eapply fle_trans; [|exact A1]. apply flt_fle. exact E.
    + assert (A : Forall (fun e => nn (e_conf e)) (x :: l)) by (constructor; auto). apply IH in A. inversion A as [|? ? A1 A2]; subst.
      constructor; auto. eapply fle_trans; [|exact A1]. apply flt_false_fle; auto.
Qed.

(** The mean of a few values stays within a relative 2^-21 of their range. *)
Lemma Rsum_between : forall l a b, Forall (fun x => a <= B2R x <= b)%R l -> (INR (length l) * a <= Rsum l <= INR (length l) * b)%R.
Proof.
  induction l as [|x l IH]; intros a b H. { cbn. lra. }
  inversion H as [|? ? Hx Hl]; subst. apply IH in Hl. cbn [length Rsum fold_right]. fold (Rsum l). rewrite S_INR. lra.
Qed.
Lemma mean_near : forall l a b, l <> [] -> length l <= 3 -> Forall (fun x => nneg x) l -> fin (fsum l) ->
  (1 <= a)%R -> (b <= bpow radix2 100)%R -> Forall (fun x => a <= B2R x <= b)%R l ->
  let m := fdiv (fsum l) (n2f (length l)) in
  fin m /\ (a * (1 - / 2097152) <= B2R m <= b * (1 + / 2097152))%R.
Proof.
  intros l a b Nl Ll H F A B R m. pose proof (fsum_bounds l H F) as S. pose proof (Rsum_between l a b R) as RB.
  destruct (n2f_exact (length l) ltac:(lia)) as (Fn & Vn). rewrite <- INR_IZR_INZ in Vn.
  assert (N1 : (1 <= INR (length l) <= 3)%R).
  { split; [change 1%R with (INR 1)|replace 3%R with (INR 3) by (cbn; lra)]; apply le_INR; auto. destruct l; [congruence|cbn [length]; lia]. }
  destruct (fdiv_fx (fsum l) (n2f (length l)) F Fn) as (Nm & Vm); [rewrite Vn; lra|]. fold m in Nm, Vm. rewrite Vn in Vm.
  set (n := INR (length l)) in *. set (q := (B2R (fsum l) / n)%R) in *.
  assert (P : (1 - 3 * u <= (1 - u) ^ length l /\ (1 + u) ^ length l <= 1 + 6 * u)%R).
  { pose proof u_val as U. split.
    - eapply Rle_trans; [|apply pow_ge_1m]. fold n. nra.
    - eapply Rle_trans; [apply pow_le_1p|]; fold n; rewrite ?U; nra. }
  destruct l as [|x l]; [congruence|]. apply Forall_inv in R. 
  assert (Q : (a * (1 - 3 * u) <= q <= b * (1 + 6 * u))%R).
  { generalize dependent (Rsum (x :: l)). intros s S RB. generalize dependent ((1 - u) ^ length (x :: l))%R. intros lo (S1 & S2) (P1 & P2). change (INR (length (x :: l))) with n in RB. 
    pose proof u_val. unfold q. split.
    - apply Rmult_le_reg_r with n; [lra|]. replace (B2R (fsum (x :: l)) / n * n)%R with (B2R (fsum (x :: l))) by (field; lra).
      assert (n * a * (1 - 3 * u) <= s * lo)%R; [|nra]. apply Rmult_le_compat; nra.
    - apply Rmult_le_reg_r with n; [lra|]. replace (B2R (fsum (x :: l)) / n * n)%R with (B2R (fsum (x :: l))) by (field; lra).
      assert (s * (1 + u) ^ length (x :: l) <= n * b * (1 + 6 * u))%R; [|nra].
      apply Rmult_le_compat; try nra. apply pow_le. lra. }
  pose proof (rnd_bounds q) as E. pose proof eta_pos as E0. pose proof eta_small as E1. pose proof u_val as U.
  assert (E' : (a * (1 - / 2097152) <= rnd q <= b * (1 + / 2097152))%R).
  { assert (a * (1 - 3 * u) >= 0)%R by nra. specialize (E ltac:(lra)). assert (E2 : (eta <= u)%R) by (rewrite U; lra). rewrite U in *.
    split; nra. }
  assert (G : (b * (1 + / 2097152) < big)%R).
  { unfold big. replace (bpow radix2 128) with (bpow radix2 100 * bpow radix2 28)%R by (rewrite <- bpow_plus; reflexivity).
    pose proof (bpow_gt_0 radix2 100). replace (bpow radix2 28) with 268435456%R by (cbn; lra). nra. }
  assert (G0 : (0 <= rnd q)%R) by (eapply Rle_trans; [|apply E']; nra).
  rewrite sat_id in Vm by lra.
  assert (Fm : fin m) by (apply fin_iff; auto; rewrite Vm; lra).
  split; auto. rewrite <- fx_fin, Vm by auto. exact E'.
Qed.
