(** The numbers of one tempo segment, over the reals, and the windows of the analysis. *)
From Coq Require Import ZArith Reals Lra Lia Sorted.
From Flocq Require Import Core.
From Verif Require Import Rust F32 F32Facts F32More ListFacts Bounds FloatSums PeakPicking PeakPickingProofs TimeSignature TimeSignatureProofs
  TempoVariation TempoVariationProofs FourierFacts TempoSpectrumFacts OnsetStrengthFacts AutocorrelationValueProofs BeatDistanceFacts
  TimeSignatureScoreFacts.
From Verif Require TempoLagProps KeyProfileFacts BayesianLikelihoodProps HpcpPitchProps.
Local Open Scope R_scope.

(** ** One window *)
Lemma mean_gt : forall m g, fin m -> / 8 <= g -> 999 / 1000 * g <= B2R m -> fgt m eps10 = true.
Proof.
  intros m g Fm G H. rewrite KeyProfileFacts.fgt_as_flt. apply flt_intro; [reflexivity|now apply fin_nn|]. rewrite (fx_fin _ Fm).
  apply Rlt_le_trans with (/ 9); [|lra]. unfold eps10. apply Rle_lt_trans with (fx (lit 1 (-10))).
  - apply fle_fx. vm_compute. reflexivity.
  - rewrite fx_fin by (vm_compute; reflexivity). rewrite <- SF2R_B2SF. replace (B2SF (lit 1 (-10))) with (SpecFloat.S754_finite false 8388608 (-33)) by (vm_compute; reflexivity).
    cbn [SF2R cond_Zopp]. unfold F2R. cbn [Fnum Fexp]. change (bpow radix2 (-33)) with (/ 8589934592). lra.
Qed.

(** The coefficient of variation and the tempo computed from up to 100 intervals. *)
Lemma cv_val : forall iv r, (1 <= length iv <= 100)%nat -> known iv r -> let n := length iv in
  let g := sumn r n / INR n in let sd := rdev n (fun i => r i - g) in let m := mean iv in
  fgt m eps10 = true /\ / 8 <= g <= 4 /\ 0 <= sd / g <= 40 /\
  fin (fdiv (fsqrt (variance iv m)) m) /\ 0 <= B2R (fdiv (fsqrt (variance iv m)) m) <= 41 /\
  Rabs (B2R (fdiv (fsqrt (variance iv m)) m) - sd / g) <= / 20000 * (1 + sd / g) /\
  fin (fdiv (z2f 60) m) /\ Rabs (B2R (fdiv (z2f 60) m) - 60 / g) <= / 20000 * (60 / g).
Proof.
  intros iv r L K n g sd m. destruct (mean_known iv r ltac:(lia) K) as (Fm & Gb & M & D).
  destruct (variance_val iv r ltac:(lia) K) as (Fv & V0 & Sb & Sv). fold n in Gb, M, D, Sb, Sv.
  fold m in Fm, M, Fv, V0, Sv. fold g in Gb, M, Sb, Sv. fold sd in Sb, Sv.
  assert (Nb : 1 <= INR n <= 100). { split; [apply (le_INR 1); lia|]. replace 100 with (INR 100) by (rewrite INR_IZR_INZ; reflexivity). apply le_INR. lia. }
  assert (Dn : 0 <= dm n <= / 58000) by (unfold dm; lra).
  assert (Dg : 0 <= dm n * g <= / 58000 * g) by (split; [apply Rmult_le_pos; lra|apply Rmult_le_compat_r; lra]).
  apply Rabs_le_inv in M as M'.
  split; [apply (mean_gt m g); auto; lra|]. split; [exact Gb|].
  set (v := variance iv m) in *.
  destruct (fsqrt_val v Fv ltac:(apply fle_intro; [reflexivity|now apply fin_nn|]; rewrite fx_f0, (fx_fin _ Fv); lra)) as (Fq & Vq).
  pose proof (rnd_bounds (sqrt (B2R v)) (sqrt_pos _)) as R. rewrite <- Vq, u_val in R. pose proof eta_small as Es. pose proof eta_pos as E0.
  pose proof (rnd_nonneg (sqrt (B2R v)) (sqrt_pos _)) as Q0. rewrite <- Vq in Q0.
  set (q := fsqrt v) in *. set (t := sqrt (B2R v)) in *.
  apply Rabs_le_inv in Sv. unfold a0 in Sv.
  assert (Ns : 0 <= INR n * sd <= 100 * sd) by (split; [apply Rmult_le_pos; lra|apply Rmult_le_compat_r; lra]).
  assert (Tb : 0 <= t <= 5) by (split; [apply sqrt_pos|lra]).
  assert (Qv : Rabs (B2R q - sd) <= / 50000 * sd + / 45000 * g).
  { apply Rabs_le. clearbody t sd. split; lra. }
  clear R Sv. clearbody q t. clear Vq Tb t Ns.
  assert (Mb : 999 / 1000 * g <= B2R m <= 1001 / 1000 * g) by lra.
  set (mf := B2R m) in *.
  assert (Q5 : 0 <= B2R q <= 9 / 2) by (apply Rabs_le_inv in Qv; lra).
  assert (Qm : 0 <= B2R q / mf <= 40).
  { split; [unfold Rdiv; apply Rmult_le_pos; [lra|left; apply Rinv_0_lt_compat; lra]|].
    apply Rmult_le_reg_r with mf; [lra|]. replace (B2R q / mf * mf) with (B2R q) by (field; lra). lra. }
  assert (Yb : 0 <= sd / g <= 40).
  { split; [unfold Rdiv; apply Rmult_le_pos; [lra|left; apply Rinv_0_lt_compat; lra]|].
    apply Rmult_le_reg_r with g; [lra|]. replace (sd / g * g) with sd by (field; lra). lra. }
  split; [exact Yb|].
  destruct (fdiv_fx q m Fq Fm ltac:(fold mf; lra)) as (Nq & Eq). fold mf in Eq.
  destruct (fin_of_rnd _ _ Nq Eq ltac:(rewrite Rabs_pos_eq; lra)) as (Fd & Vd).
  pose proof (rnd_bounds (B2R q / mf) ltac:(lra)) as Rq. rewrite u_val in Rq.
  pose proof (rnd_nonneg (B2R q / mf) ltac:(lra)) as Rq0.
  split; [exact Fd|]. rewrite Vd. split; [lra|].
  assert (Nr : Rabs (B2R q / mf - sd / g) <= / 24000 * (1 + sd / g)).
  { replace (B2R q / mf - sd / g) with ((B2R q - sd) / mf + sd / g * ((g - mf) / mf)) by (field; lra).
    set (y := sd / g) in *. assert (Sy : sd = y * g) by (unfold y; field; lra).
    eapply Rle_trans; [apply Rabs_triang|].
    assert (A1 : Rabs ((B2R q - sd) / mf) <= 1002 / 1000 * (/ 50000 * y + / 45000)).
    { unfold Rdiv at 1. rewrite Rabs_mult, (Rabs_pos_eq (/ mf)) by (left; apply Rinv_0_lt_compat; lra).
      apply Rmult_le_reg_r with mf; [lra|]. rewrite Rmult_assoc, Rinv_l, Rmult_1_r by lra.
      eapply Rle_trans; [exact Qv|]. rewrite Sy.
      set (k := / 50000 * y + / 45000).
      replace (/ 50000 * (y * g) + / 45000 * g) with (k * g) by (unfold k; ring).
      assert (K0 : 0 <= k) by (unfold k; lra).
      rewrite Rmult_assoc, (Rmult_comm k mf), <- Rmult_assoc, (Rmult_comm k g). apply Rmult_le_compat_r; lra. }
    assert (A2 : Rabs (y * ((g - mf) / mf)) <= / 57000 * y).
    { rewrite Rabs_mult, (Rabs_pos_eq y) by lra. rewrite Rmult_comm. apply Rmult_le_compat_r; [lra|].
      apply Rabs_le. assert (Z : (g - mf) / mf * mf = g - mf) by (field; lra).
      split; apply Rmult_le_reg_r with mf; try lra; rewrite Z; lra. }
    clear Qv Sb. clearbody y. lra. }
  split.
  { apply Rabs_le_inv in Nr. apply Rabs_le. set (y := sd / g) in *. set (x := B2R q / mf) in *. clearbody x y. lra. }
  destruct (z2f_exact 60 ltac:(lia)) as (F60 & V60).
  destruct (fdiv_fx (z2f 60) m F60 Fm ltac:(fold mf; lra)) as (Nt & Et). fold mf in Et. rewrite V60 in Et.
  assert (Tb : 60 / mf * mf = 60) by (field; lra). assert (Tg : 60 / g * g = 60) by (field; lra).
  assert (B1 : 14 <= 60 / mf <= 500).
  { split; apply Rmult_le_reg_r with mf; try lra; rewrite Tb; lra. }
  assert (B2 : Rabs (60 / mf - 60 / g) <= / 57000 * (60 / g)).
  { replace (60 / mf - 60 / g) with (60 / g * ((g - mf) / mf)) by (field; lra).
    assert (P : 0 <= 60 / g) by (unfold Rdiv; apply Rmult_le_pos; [lra|left; apply Rinv_0_lt_compat; lra]).
    rewrite Rabs_mult, (Rabs_pos_eq _ P), Rmult_comm. apply Rmult_le_compat_r; [exact P|].
    apply Rabs_le. assert (Z : (g - mf) / mf * mf = g - mf) by (field; lra).
    split; apply Rmult_le_reg_r with mf; try lra; rewrite Z; lra. }
  destruct (fin_of_rnd _ _ Nt Et ltac:(rewrite Rabs_pos_eq; lra)) as (Ft & Vt). split; [exact Ft|]. rewrite Vt.
  assert (Lv : bpow radix2 (-60) <= 60 / mf). { apply Rle_trans with (bpow radix2 0); [apply bpow_le; lia|simpl; lra]. }
  pose proof (TempoLagProps.rnd_rel _ Lv) as R. set (a := 60 / mf) in *. set (b := 60 / g) in *. clearbody a b.
  apply Rabs_le_inv in R, B2. apply Rabs_le. lra.
Qed.

(** The confidence computed from a coefficient of variation. *)
Lemma conf_val : forall cv c, fin cv -> 0 <= B2R cv <= 41 -> 0 <= c <= 40 -> Rabs (B2R cv - c) <= / 20000 * (1 + c) ->
  Rabs (B2R (fmax (fsub f1 (fmin (fdiv cv (lit 5033165 (-24))) f1)) f0) - Rmax (1 - c / (3 / 10)) 0) <= / 3000.
Proof.
  intros cv c Fc B C H. destruct lit3 as (F3 & V3). set (l3 := lit 5033165 (-24)) in *. clearbody l3. unfold w3 in V3.
  destruct (fdiv_fx cv l3 Fc F3 ltac:(rewrite V3; lra)) as (N & E). rewrite V3 in E.
  set (x := B2R cv / (5033165 / 16777216)) in *.
  assert (X : x = B2R cv * (16777216 / 5033165)) by (unfold x; field). 
  destruct (fin_of_rnd _ _ N E ltac:(rewrite Rabs_pos_eq by lra; lra)) as (F & V).
  pose proof (rnd_bounds x ltac:(lra)) as R. rewrite u_val in R. pose proof eta_small as Es. pose proof eta_pos as E0.
  assert (F1 : fin f1) by reflexivity.
  destruct (BayesianLikelihoodProps.fmin_B2R (fdiv cv l3) f1 F F1) as (Fm & Vm). rewrite V, B2R_f1 in Vm.
  destruct (fsub_fx f1 _ F1 Fm) as (Ns & Es'). rewrite B2R_f1, Vm in Es'.
  assert (Mb : 0 <= Rmin (rnd x) 1 <= 1). { split; [apply Rmin_glb; [apply rnd_nonneg|]; lra|apply Rmin_r]. }
  destruct (fin_of_rnd _ _ Ns Es' ltac:(rewrite Rabs_pos_eq; lra)) as (Fs & Vs).
  destruct (fmax0_val _ Fs) as (_ & ->). rewrite Vs. set (y := Rmin (rnd x) 1) in *.
  pose proof (rnd_bounds (1 - y) ltac:(lra)) as R1. rewrite u_val in R1. pose proof (rnd_nonneg (1 - y) ltac:(lra)) as P1.
  rewrite (Rmax_left (rnd (1 - y))) by exact P1. set (z := rnd (1 - y)) in *. clearbody z.
  replace (c / (3 / 10)) with (c * (10 / 3)) by field. apply Rabs_le_inv in H. unfold y in *. clear Es' Vm Vs E V.
  set (w := rnd x) in *. clearbody w.
  unfold Rmin in *. destruct (Rle_dec w 1); unfold Rmax; destruct (Rle_dec (1 - c * (10 / 3)) 0); apply Rabs_le; lra.
Qed.

Lemma lit15 : fin (lit 5033165 (-25)) /\ B2R (lit 5033165 (-25)) = 5033165 / 33554432.
Proof.
  split; [vm_compute; reflexivity|]. rewrite <- SF2R_B2SF. replace (B2SF (lit 5033165 (-25))) with (SpecFloat.S754_finite false 10066330 (-26)) by (vm_compute; reflexivity).
  cbn [SF2R cond_Zopp]. unfold F2R. cbn [Fnum Fexp]. change (bpow radix2 (-26)) with (/ 67108864). lra.
Qed.

(** ** Beats in a window *)
Definition gaps_ok (l : list f32) : Prop := forall i, (S i < length l)%nat -> / 8 <= rgap l i <= 4.

Lemma gaps_apart : forall l, gaps_ok l -> forall k i, (i + k < length l)%nat -> B2R (nth i l f0) + INR k / 8 <= B2R (nth (i + k) l f0).
Proof.
  intros l G k. induction k as [|k IH]; intros i H.
  - rewrite Nat.add_0_r. simpl. lra.
  - specialize (IH i ltac:(lia)). pose proof (G (i + k)%nat ltac:(lia)) as Gk. unfold rgap in Gk.
    replace (i + S k)%nat with (S (i + k)) by lia. rewrite S_INR. lra.
Qed.

Lemma gaps_sorted : forall l, gaps_ok l -> StronglySorted (fun a b => B2R a < B2R b) l.
Proof.
  intros l. induction l as [|x l IH]; intros G; constructor.
  - apply IH. intros i Hi. exact (G (S i) ltac:(cbn [length]; lia)).
  - apply Forall_forall. intros y I. apply (In_nth _ _ f0) in I as (i & Hi & <-).
    pose proof (gaps_apart _ G (S i) 0 ltac:(cbn [length]; lia)) as A. cbn [nth Nat.add] in A. rewrite S_INR in A. pose proof (pos_INR i). lra.
Qed.

Lemma window_split : forall (p : f32 -> bool) lo hi l, lo <= hi -> StronglySorted (fun a b => B2R a < B2R b) l ->
  Forall (fun b => p b = true <-> lo <= B2R b <= hi) l ->
  exists pre post, l = pre ++ filter p l ++ post /\ Forall (fun b => B2R b < lo) pre /\
    Forall (fun b => lo <= B2R b <= hi) (filter p l) /\ Forall (fun b => hi < B2R b) post.
Proof.
  intros p lo hi l O. induction l as [|x l IH]; intros So P.
  - exists [], []. repeat split; constructor.
  - apply StronglySorted_inv in So as (So & Lx). pose proof (Forall_inv P) as Px. cbv beta in Px. apply Forall_inv_tail in P.
    destruct (IH So P) as (pre & post & E & A & B & C).
    destruct (Rlt_le_dec (B2R x) lo) as [H|H].
    + assert (Np : p x = false) by (destruct (p x); [pose proof (proj1 Px eq_refl); lra|reflexivity]).
      exists (x :: pre), post. cbn [filter app]. rewrite Np. split; [now rewrite <- E|]. split; [now constructor|]. now split.
    + assert (Pre : pre = []).
      { destruct pre as [|y pre]; [reflexivity|]. exfalso. apply Forall_inv in A. rewrite E in Lx. apply Forall_inv in Lx. lra. }
      subst pre. cbn [app] in E.
      destruct (Rle_lt_dec (B2R x) hi) as [H2|H2].
      * assert (Np : p x = true) by (apply Px; lra). exists [], post. cbn [filter app]. rewrite Np. cbn [app].
        split; [now rewrite <- E|]. split; [constructor|]. split; [constructor; [lra|exact B]|exact C].
      * assert (Np : p x = false) by (destruct (p x); [pose proof (proj1 Px eq_refl); lra|reflexivity]).
        assert (Fl : filter p l = []).
        { destruct (filter p l) as [|y f] eqn:Ef; [reflexivity|]. exfalso. apply Forall_inv in B. rewrite E in Lx. apply Forall_inv in Lx. lra. }
        exists [], (x :: l). cbn [filter app]. rewrite Np, Fl. split; [reflexivity|]. split; [constructor|]. split; [constructor|].
        constructor; [exact H2|]. eapply Forall_impl; [|exact Lx]. cbv beta. intros y Hy. lra.
Qed.

Lemma mid_nth : forall (pre w post : list f32) i, (i < length w)%nat -> nth i w f0 = nth (length pre + i) (pre ++ w ++ post) f0.
Proof. intros pre w post i H. rewrite app_nth2_plus, app_nth1 by exact H. reflexivity. Qed.

Lemma mid_gaps : forall pre w post, gaps_ok (pre ++ w ++ post) -> gaps_ok w.
Proof.
  intros pre w post G i Hi. unfold rgap. rewrite !(mid_nth pre w post) by lia. rewrite Nat.add_succ_r. apply G. rewrite !app_length. lia.
Qed.

Lemma sum_gaps : forall w n, (n < length w)%nat -> sumn (rgap w) n = B2R (nth n w f0) - B2R (nth 0 w f0).
Proof.
  intros w n. induction n as [|n IH]; intros H; [simpl; lra|]. rewrite sumn_S || cbn [sumn]. rewrite IH by lia. unfold rgap. lra.
Qed.

(** The mean distance of neighbouring beats, and the standard deviation of the distances relative to it. *)
Definition mean_gap (w : list f32) : R := (B2R (last w f0) - B2R (nth 0 w f0)) / INR (length w - 1).
Definition spread (w : list f32) : R :=
  sqrt (sumn (fun i => Rsqr (B2R (nth (S i) w f0) - B2R (nth i w f0) - mean_gap w)) (length w - 1) / INR (length w - 1)) / mean_gap w.

(** What a segment says about the beats in its window: all of them lie next to each other, and there are at least three. *)
Definition describes (beats : list f32) (s : tempo_segment) : Prop :=
  exists pre w post, beats = pre ++ w ++ post /\
    Forall (fun b => B2R b < B2R (ts_start s)) pre /\
    Forall (fun b => B2R (ts_start s) <= B2R b <= B2R (ts_end s)) w /\
    Forall (fun b => B2R (ts_end s) < B2R b) post /\
    (3 <= length w)%nat /\ fin (ts_bpm s) /\
    Rabs (B2R (ts_bpm s) - 60 / mean_gap w) <= / 20000 * (60 / mean_gap w) /\
    Rabs (B2R (ts_conf s) - Rmax (1 - spread w / (3 / 10)) 0) <= / 3000 /\
    (1501 / 10000 <= spread w -> ts_variable s = true) /\
    (spread w <= 1499 / 10000 -> ts_variable s = false).

Lemma last_nth_R : forall (l : list f32), last l f0 = nth (length l - 1) l f0.
Proof.
  intros l. induction l as [|x [|y l] IH]; [reflexivity|reflexivity|].
  change (last (x :: y :: l) f0) with (last (y :: l) f0). rewrite IH. cbn [length]. now rewrite !Nat.sub_succ, !Nat.sub_0_r.
Qed.

Lemma window_beats : forall beats start stop, Forall (fun b => fin b) beats -> gaps_ok beats -> fin start -> fin stop ->
  B2R start <= B2R stop -> let p := fun b => fge b start && fle b stop in
  exists pre post, beats = pre ++ filter p beats ++ post /\ Forall (fun b => B2R b < B2R start) pre /\
    Forall (fun b => B2R start <= B2R b <= B2R stop) (filter p beats) /\ Forall (fun b => B2R stop < B2R b) post.
Proof.
  intros beats start stop F G Fs Fe O p. apply window_split; auto; [now apply gaps_sorted|].
  eapply Forall_impl; [|exact F]. cbv beta. intros b Fb. unfold p, fge. rewrite andb_true_iff.
  pose proof (HpcpPitchProps.le_real start b Fs Fb) as A. pose proof (HpcpPitchProps.le_real b stop Fb Fe) as B.
  unfold fge in *. tauto.
Qed.

Lemma short_window : forall w lo hi, gaps_ok w -> Forall (fun b => lo <= B2R b <= hi) w -> hi - lo <= 9 -> (length w <= 80)%nat.
Proof.
  intros w lo hi G F H. destruct (Nat.le_gt_cases (length w) 80) as [L|L]; [exact L|exfalso].
  pose proof (gaps_apart w G 80 0 ltac:(lia)) as A. cbn [Nat.add] in A. rewrite (INR_IZR_INZ 80) in A.
  assert (B : forall i, (i < length w)%nat -> lo <= B2R (nth i w f0) <= hi).
  { intros i Hi. apply (proj1 (Forall_forall _ _) F). now apply nth_In. }
  pose proof (B 0%nat ltac:(lia)). pose proof (B 80%nat ltac:(lia)). simpl (IZR _) in A. lra.
Qed.

Lemma segment_val : forall beats nominal start stop s, Forall (fun b => fin b) beats -> gaps_ok beats -> fin start -> fin stop ->
  B2R start <= B2R stop <= B2R start + 9 -> In s (segment_of beats nominal start stop) ->
  ts_start s = start /\ ts_end s = stop /\ describes beats s.
Proof.
  intros beats nominal start stop s F G Fs Fe O I.
  destruct (window_beats beats start stop F G Fs Fe ltac:(lra)) as (pre & post & E & A & B & C).
  unfold segment_of in I. set (w := filter _ beats) in *.
  destruct (3 <=? length w)%nat eqn:L; [|destruct I]. apply Nat.leb_le in L. cbv zeta in I.
  assert (Gw : gaps_ok w) by (apply (mid_gaps pre w post); now rewrite <- E).
  assert (Fw : Forall (fun b => fin b) w) by (unfold w; apply Forall_forall; intros x Hx; apply filter_In in Hx as (Hx & _); exact (proj1 (Forall_forall _ _) F x Hx)).
  pose proof (short_window w _ _ Gw B ltac:(lra)) as Lw. clearbody w.
  destruct (intervals_val w Fw Gw) as (Li & Vi).
  destruct (length (intervals w) =? 0)%nat eqn:Z; [destruct I|]. clear Z.
  assert (K : known (intervals w) (rgap w)).
  { intros i Hi. destruct (Vi i ltac:(lia)) as (V1 & V2 & V3 & _). split; [exact V1|]. split; [exact V2|]. split; [apply Gw; lia|exact V3]. }
  destruct (cv_val (intervals w) (rgap w) ltac:(lia) K) as (Gt & Gb & Yb & Fc & Cb & Cv & Fb & Bv).
  rewrite Gt in I. set (cv := fdiv (fsqrt _) _) in *. set (bpm := fdiv (z2f 60) _) in *. clearbody cv bpm.
  rewrite Li in *. rewrite (sum_gaps w (length w - 1)) in * by lia. rewrite <- last_nth_R in *. fold (mean_gap w) in *.
  set (g := mean_gap w) in *.
  assert (Sp : rdev (length w - 1) (fun i => rgap w i - g) / g = spread w) by reflexivity. rewrite Sp in *.
  destruct I as [<-|[]]. cbn [ts_start ts_end]. split; [reflexivity|]. split; [reflexivity|].
  exists pre, w, post. cbn [ts_start ts_end ts_bpm ts_conf ts_variable].
  split; [exact E|]. split; [exact A|]. split; [exact B|]. split; [exact C|]. split; [exact L|]. split; [exact Fb|].
  split; [exact Bv|]. split; [now apply conf_val|].
  destruct lit15 as (F15 & V15). set (l15 := lit 5033165 (-25)) in *. clearbody l15.
  rewrite KeyProfileFacts.fgt_as_flt. apply Rabs_le_inv in Cv. split; intros H.
  - apply HpcpPitchProps.lt_real; auto. rewrite V15. lra.
  - destruct (flt l15 cv) eqn:Q; [|reflexivity]. apply HpcpPitchProps.lt_real in Q; auto. rewrite V15 in Q. lra.
Qed.

Lemma segment_exists : forall beats nominal start stop i, Forall (fun b => fin b) beats -> gaps_ok beats -> fin start -> fin stop ->
  (S (S i) < length beats)%nat -> B2R start <= B2R (nth i beats f0) -> B2R (nth (S (S i)) beats f0) <= B2R stop ->
  exists s, In s (segment_of beats nominal start stop) /\ ts_start s = start /\ ts_end s = stop.
Proof.
  intros beats nominal start stop i F G Fs Fe Hi A B.
  assert (A1 : B2R (nth i beats f0) < B2R (nth (S i) beats f0)) by (pose proof (G i ltac:(lia)) as X; unfold rgap in X; lra).
  assert (A2 : B2R (nth (S i) beats f0) < B2R (nth (S (S i)) beats f0)) by (pose proof (G (S i) ltac:(lia)) as X; unfold rgap in X; lra).
  destruct (window_beats beats start stop F G Fs Fe ltac:(lra)) as (pre & post & E & P & W & Q).
  unfold segment_of. set (w := filter _ beats) in *.
  assert (Lw : (3 <= length w)%nat).
  { assert (Lp : (length pre <= i)%nat).
    { destruct (Nat.le_gt_cases (length pre) i) as [X|X]; [exact X|exfalso].
      assert (I : In (nth i beats f0) pre) by (rewrite E, app_nth1 by exact X; now apply nth_In).
      apply (proj1 (Forall_forall _ _) P) in I. lra. }
    destruct (Nat.le_gt_cases 3 (length w)) as [X|X]; [exact X|exfalso].
    assert (I : In (nth (S (S i)) beats f0) post).
    { rewrite E, app_assoc, app_nth2 by (rewrite app_length; lia). apply nth_In.
      rewrite E, !app_length in Hi. rewrite app_length. lia. }
    apply (proj1 (Forall_forall _ _) Q) in I. lra. }
  assert (Gw : gaps_ok w) by (apply (mid_gaps pre w post); now rewrite <- E).
  assert (Fw : Forall (fun b => fin b) w) by (unfold w; apply Forall_forall; intros x Hx; apply filter_In in Hx as (Hx & _); exact (proj1 (Forall_forall _ _) F x Hx)).
  clearbody w. destruct (intervals_val w Fw Gw) as (Li & _).
  rewrite (proj2 (Nat.leb_le _ _) Lw). cbv zeta. rewrite Li. replace (length w - 1 =? 0)%nat with false by (symmetry; apply Nat.eqb_neq; lia).
  eexists. split; [left; reflexivity|]. split; reflexivity.
Qed.

(** ** The windows *)
Lemma rnd_time : forall x, 0 <= x <= 16400 -> Rabs (rnd x - x) <= / 1000.
Proof.
  intros x H. pose proof (rnd_bounds x ltac:(lra)) as R. rewrite u_val in R. pose proof eta_small as E. pose proof eta_pos as E0. apply Rabs_le. lra.
Qed.

Lemma clampR : forall x a b, fin x -> fin a -> fin b -> B2R a <= B2R b ->
  fin (fclamp_val x a b) /\ B2R (fclamp_val x a b) = Rmax (B2R a) (Rmin (B2R b) (B2R x)).
Proof.
  intros x a b Fx Fa Fb O. unfold fclamp_val, flt. rewrite !Bltb_correct by assumption.
  destruct (Rlt_bool_spec (B2R x) (B2R a)) as [H|H]; [|destruct (Rlt_bool_spec (B2R b) (B2R x)) as [K|K]];
    (split; [assumption|]); unfold Rmax, Rmin; repeat destruct (Rle_dec _ _); lra.
Qed.

Lemma window_sizes : forall first final, fin first -> fin final -> 0 <= B2R first -> B2R final <= 16384 -> 1 <= B2R final - B2R first ->
  let dur := fclamp_val (fdiv (fsub final first) (z2f 4)) (z2f 4) (z2f 8) in let step := fsub dur (fmul dur fhalf) in
  let d := Rmax 4 (Rmin 8 ((B2R final - B2R first) / 4)) in
  fin dur /\ fin step /\ 4 <= B2R dur <= 8 /\ Rabs (B2R dur - d) <= / 2000 /\ Rabs (B2R step - d / 2) <= / 2000.
Proof.
  intros first final F1 F2 A B H dur step d. destruct (fsub_fx final first F2 F1) as (N & E).
  destruct (fin_of_rnd _ _ N E ltac:(rewrite Rabs_pos_eq; lra)) as (F & V).
  pose proof (rnd_time (B2R final - B2R first) ltac:(lra)) as R. rewrite <- V in R. set (t := fsub final first) in *.
  apply Rabs_le_inv in R. clearbody t.
  destruct (z2f_exact 4 ltac:(lia)) as (F4 & V4). destruct (z2f_exact 8 ltac:(lia)) as (F8 & V8).
  destruct (fdiv_fx t (z2f 4) F F4 ltac:(rewrite V4; lra)) as (Nq & Eq). rewrite V4 in Eq.
  destruct (fin_of_rnd _ _ Nq Eq ltac:(rewrite Rabs_pos_eq; lra)) as (Fq & Vq).
  pose proof (rnd_bounds (B2R t / 4) ltac:(lra)) as Rq. rewrite u_val in Rq. pose proof eta_small as Es. pose proof eta_pos as E0.
  destruct (clampR (fdiv t (z2f 4)) (z2f 4) (z2f 8) Fq F4 F8 ltac:(rewrite V4, V8; lra)) as (Fd & Vd). fold dur in Fd, Vd.
  rewrite V4, V8, Vq in Vd.
  assert (Db : 4 <= B2R dur <= 8). { rewrite Vd. split; [apply Rmax_l|]. apply Rmax_lub; [lra|apply Rmin_l]. }
  assert (Dd : Rabs (B2R dur - d) <= / 2500).
  { rewrite Vd. unfold d. set (q := rnd (B2R t / 4)) in *. clearbody q. set (x := (B2R final - B2R first) / 4).
    assert (X : x = (B2R final - B2R first) / 4) by reflexivity. clearbody x.
    assert (Y : Rabs (q - x) <= / 2500 \/ (8 <= q /\ 8 <= x)).
    { destruct (Rle_lt_dec 8 x) as [X8|X8].
      - destruct (Rle_lt_dec 8 q) as [Q8|Q8]; [now right|left]. apply Rabs_le. lra.
      - left. apply Rabs_le. lra. }
    destruct Y as [Y|Y]; [apply Rabs_le_inv in Y|]; unfold Rmax, Rmin; repeat destruct (Rle_dec _ _); apply Rabs_le; lra. }
  split; [exact Fd|]. clearbody dur. clear Vd.
  assert (Fh : fin fhalf) by reflexivity.
  destruct (fmul_fx dur fhalf Fd Fh) as (Nh & Eh). rewrite B2R_fhalf in Eh.
  destruct (fin_of_rnd _ _ Nh Eh ltac:(rewrite Rabs_pos_eq; lra)) as (Fo & Vo).
  pose proof (rnd_bounds (B2R dur * / 2) ltac:(lra)) as Ro. rewrite u_val, <- Vo in Ro.
  set (o := fmul dur fhalf) in *. clearbody o. destruct (fsub_fx dur o Fd Fo) as (Ns & Ess).
  destruct (fin_of_rnd _ _ Ns Ess ltac:(rewrite Rabs_pos_eq; lra)) as (Fs & Vs).
  pose proof (rnd_bounds (B2R dur - B2R o) ltac:(lra)) as Rs. rewrite u_val, <- Vs in Rs. fold step in Fs, Rs.
  apply Rabs_le_inv in Dd. split; [exact Fs|]. split; [exact Db|]. split; apply Rabs_le; lra.
Qed.

Section Windows.
  Context (beats : list f32) (nominal final dur step : f32) (d : R).
  Hypotheses (Fb : Forall (fun b => fin b) beats) (Gb : gaps_ok beats) (Ff : fin final) (Bf : B2R final <= 16384)
    (Fd : fin dur) (Fs : fin step) (Db : 4 <= d <= 8) (Dd : Rabs (B2R dur - d) <= / 2000) (Ds : Rabs (B2R step - d / 2) <= / 2000).

  Definition window (s : tempo_segment) : Prop :=
    fin (ts_start s) /\ fin (ts_end s) /\ B2R (ts_start s) < B2R (ts_end s) <= B2R final /\
    (ts_end s = final \/ Rabs (B2R (ts_end s) - B2R (ts_start s) - d) <= / 500) /\ B2R (ts_end s) - B2R (ts_start s) <= d + / 500 /\
    describes beats s.

  Lemma stop_val : forall cur, fin cur -> 0 <= B2R cur < B2R final -> let stop := fmin (fadd cur dur) final in
    fin stop /\ (stop = final \/ Rabs (B2R stop - B2R cur - d) <= / 600) /\ B2R stop = Rmin (B2R (fadd cur dur)) (B2R final) /\
    Rabs (B2R (fadd cur dur) - B2R cur - d) <= / 600.
  Proof.
    intros cur Fc Hc stop. apply Rabs_le_inv in Dd. destruct (fadd_fx cur dur Fc Fd) as (N & E).
    destruct (fin_of_rnd _ _ N E ltac:(rewrite Rabs_pos_eq; lra)) as (F & V).
    pose proof (rnd_time (B2R cur + B2R dur) ltac:(lra)) as R. rewrite <- V in R. apply Rabs_le_inv in R.
    assert (C : Rabs (B2R (fadd cur dur) - B2R cur - d) <= / 600) by (apply Rabs_le; lra).
    destruct (BayesianLikelihoodProps.fmin_B2R (fadd cur dur) final F Ff) as (F' & V').
    split; [exact F'|]. split; [|now split]. unfold stop. destruct (fmin_case (fadd cur dur) final) as [Q|Q]; rewrite Q; [now right|now left].
  Qed.

  Lemma next_val : forall cur, fin cur -> 0 <= B2R cur < B2R final ->
    fin (fadd cur step) /\ Rabs (B2R (fadd cur step) - B2R cur - d / 2) <= / 600.
  Proof.
    intros cur Fc Hc. apply Rabs_le_inv in Ds. destruct (fadd_fx cur step Fc Fs) as (N & E).
    destruct (fin_of_rnd _ _ N E ltac:(rewrite Rabs_pos_eq; lra)) as (F & V). split; [exact F|].
    pose proof (rnd_time (B2R cur + B2R step) ltac:(lra)) as R. rewrite <- V in R. apply Rabs_le_inv in R. apply Rabs_le. lra.
  Qed.

  Lemma loop_val : forall fuel cur r, fin cur -> 0 <= B2R cur -> segments_loop fuel beats nominal final dur step cur = Some r ->
    Forall (fun s => B2R cur <= B2R (ts_start s) /\ window s) r /\
    StronglySorted (fun a b => B2R (ts_start a) + d / 2 - / 600 <= B2R (ts_start b)) r /\
    forall i, (S (S i) < length beats)%nat -> B2R cur <= B2R (nth i beats f0) -> B2R (nth (S (S i)) beats f0) <= B2R final ->
      B2R (nth (S (S i)) beats f0) - B2R (nth i beats f0) <= d / 2 - / 100 ->
      exists s, In s r /\ B2R (ts_start s) <= B2R (nth i beats f0) /\ B2R (nth (S (S i)) beats f0) <= B2R (ts_end s).
  Proof.
    intros fuel. induction fuel as [|fuel IH]; intros cur r Fc Pc H; [discriminate|]. cbn [segments_loop] in H.
    destruct (flt cur final) eqn:L.
    2:{ injection H as <-. split; [constructor|]. split; [constructor|]. intros i Hi A B _. exfalso.
        assert (B2R final <= B2R cur).
        { destruct (Rle_lt_dec (B2R final) (B2R cur)) as [X|X]; [exact X|]. apply HpcpPitchProps.lt_real in X; auto. congruence. }
        pose proof (Gb i ltac:(lia)) as X. pose proof (Gb (S i) ltac:(lia)) as Y. unfold rgap in X, Y. lra. }
    apply HpcpPitchProps.lt_real in L; auto.
    destruct (segments_loop fuel beats nominal final dur step (fadd cur step)) as [r'|] eqn:E; [|discriminate].
    assert (Er : r = segment_of beats nominal cur (fmin (fadd cur dur) final) ++ r') by congruence. subst r. clear H.
    destruct (next_val cur Fc ltac:(lra)) as (Fn & Vn). apply Rabs_le_inv in Vn.
    destruct (stop_val cur Fc ltac:(lra)) as (Fe & Ve & Vm & Va). set (stop := fmin (fadd cur dur) final) in *. apply Rabs_le_inv in Va.
    set (next := fadd cur step) in *. set (far := fadd cur dur) in *.
    assert (Sb : B2R cur < B2R stop <= B2R final /\ B2R stop <= B2R cur + d + / 600).
    { rewrite Vm. unfold Rmin. destruct (Rle_dec _ _); lra. }
    destruct (IH next r' Fn ltac:(lra) E) as (W & So & Co).
    assert (Hd : Forall (fun s => B2R cur <= B2R (ts_start s) /\ window s) (segment_of beats nominal cur stop)).
    { apply Forall_forall. intros s I.
      destruct (segment_val beats nominal cur stop s Fb Gb Fc Fe ltac:(lra) I) as (E1 & E2 & De).
      unfold window. rewrite E1, E2. split; [lra|]. split; [exact Fc|]. split; [exact Fe|]. split; [lra|]. split.
      { destruct Ve as [Ve|Ve]; [now left|right]. lra. }
      split; [lra|exact De]. }
    split; [|split].
    - apply Forall_app. split; [exact Hd|]. eapply Forall_impl; [|exact W]. cbv beta. intros s (S1 & S2). split; [lra|exact S2].
    - assert (Sg : forall s, In s (segment_of beats nominal cur stop) -> ts_start s = cur).
      { intros s I. now destruct (segment_val beats nominal cur stop s Fb Gb Fc Fe ltac:(lra) I) as (E1 & _). }
      assert (Nx : Forall (fun s => B2R cur + d / 2 - / 600 <= B2R (ts_start s)) r').
      { eapply Forall_impl; [|exact W]. cbv beta. intros s (S1 & _). lra. }
      assert (Le : segment_of beats nominal cur stop = [] \/ exists s, segment_of beats nominal cur stop = [s]).
      { unfold segment_of. destruct (3 <=? _)%nat; [|now left]. cbv zeta. destruct (_ =? 0)%nat; [now left|right; eexists; reflexivity]. }
      destruct Le as [Le|(s & Le)]; rewrite Le; cbn [app]; [exact So|]. constructor; [exact So|].
      rewrite (Sg s) by (rewrite Le; now left). exact Nx.
    - intros i Hi A B C. destruct (Rle_lt_dec (B2R next) (B2R (nth i beats f0))) as [X|X].
      + destruct (Co i Hi X B C) as (s & I & S1 & S2). exists s. split; [apply in_or_app; now right|now split].
      + assert (Q : B2R (nth (S (S i)) beats f0) <= B2R stop).
        { rewrite Vm. apply Rmin_glb; [|exact B]. lra. }
        destruct (segment_exists beats nominal cur stop i Fb Gb Fc Fe Hi A Q) as (s & I & E1 & E2).
        exists s. rewrite E1, E2. split; [apply in_or_app; now left|now split].
  Qed.
End Windows.
