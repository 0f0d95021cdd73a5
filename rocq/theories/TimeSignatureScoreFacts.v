(** Rounding of the time-signature scores. *)
From Coq Require Import ZArith Reals Lra Lia.
From Flocq Require Import Core.
From Verif Require Import Rust F32 F32Facts F32More ListFacts Bounds FloatSums PeakPicking Onsets OnsetsProofs TimeSignature TimeSignatureProofs
  FourierFacts TempoSpectrumFacts OnsetStrengthFacts AutocorrelationValueProofs BeatDistanceFacts.
From Verif Require TempoLagProps KeyProfileFacts BayesianLikelihoodProps Means.
Local Open Scope R_scope.

Lemma rnd_ge_1 : forall x, 1 <= x -> 1 <= rnd x.
Proof. intros x H. pose proof (rnd_mono 1 x H) as M. change 1 with (IZR 1) in M at 1. rewrite (rnd_Z 1) in M by lia. exact M. Qed.

Lemma rnd_le_1 : forall x, x <= 1 -> rnd x <= 1.
Proof. intros x H. pose proof (rnd_mono x 1 H) as M. change 1 with (IZR 1) in M at 1. rewrite (rnd_Z 1) in M by lia. exact M. Qed.

Definition a0 : R := / 16500000.
(** Relative error of the mean of [n] intervals. *)
Definition dm (n : nat) : R := (INR n + 1) / 5900000.
(** The size of the [i]-th gap between beats. *)
Definition rgap (beats : list f32) (i : nat) : R := B2R (nth (S i) beats f0) - B2R (nth i beats f0).

Lemma adj_nth_d : forall l i, (S i < length l)%nat -> nth i (adj (fun a b => fsub b a) l) f0 = fsub (nth (S i) l f0) (nth i l f0).
Proof.
  intros l i H. apply nth_error_nth. apply adj_nth. exists (nth i l f0), (nth (S i) l f0).
  split; [apply nth_error_nth'; lia|]. split; [apply nth_error_nth'; lia|reflexivity].
Qed.

Lemma filter_all : forall (A : Type) (p : A -> bool) l, Forall (fun x => p x = true) l -> filter p l = l.
Proof. intros A p l. induction l as [|x l IH]; intros H; [reflexivity|]. cbn [filter]. rewrite (Forall_inv H), IH; [reflexivity|now apply Forall_inv_tail in H]. Qed.

Lemma gap_val : forall a b, fin a -> fin b -> / 8 <= B2R b - B2R a <= 4 ->
  fin (fsub b a) /\ flt f0 (fsub b a) = true /\ Rabs (B2R (fsub b a) - (B2R b - B2R a)) <= a0 * (B2R b - B2R a).
Proof.
  intros a b Fa Fb H. destruct (fsub_fx b a Fb Fa) as (N & E).
  destruct (fin_of_rnd _ _ N E ltac:(rewrite Rabs_pos_eq; lra)) as (F & V).
  assert (L : bpow radix2 (-60) <= / 8). { replace (/ 8) with (bpow radix2 (-3)) by (simpl; lra). apply bpow_le. lia. }
  pose proof (TempoLagProps.rnd_rel (B2R b - B2R a) ltac:(lra)) as R. fold a0 in R. rewrite <- V in R.
  split; [exact F|]. split; [|exact R]. apply flt_intro; [reflexivity|exact N|]. rewrite fx_f0, (fx_fin _ F).
  apply Rabs_le_inv in R. unfold a0 in R. lra.
Qed.

Lemma intervals_val : forall beats, Forall (fun x => fin x) beats ->
  (forall i, (S i < length beats)%nat -> / 8 <= rgap beats i <= 4) ->
  length (intervals beats) = (length beats - 1)%nat /\
  forall i, (S i < length beats)%nat -> let x := nth i (intervals beats) f0 in
    fin x /\ flt f0 x = true /\ Rabs (B2R x - rgap beats i) <= a0 * rgap beats i /\ x = fsub (nth (S i) beats f0) (nth i beats f0).
Proof.
  intros beats F H.
  assert (G : forall i, (S i < length beats)%nat -> fin (fsub (nth (S i) beats f0) (nth i beats f0)) /\
    flt f0 (fsub (nth (S i) beats f0) (nth i beats f0)) = true /\
    Rabs (B2R (fsub (nth (S i) beats f0) (nth i beats f0)) - rgap beats i) <= a0 * rgap beats i).
  { intros i Hi. apply gap_val; [| |now apply H]; apply (proj1 (Forall_forall _ _) F); apply nth_In; lia. }
  assert (E : intervals beats = adj (fun a b => fsub b a) beats).
  { unfold intervals. apply filter_all. apply Forall_forall. intros x Hx.
    apply (In_nth _ _ f0) in Hx as (i & Hi & <-). rewrite adj_length in Hi. rewrite adj_nth_d by lia.
    apply (G i ltac:(lia)). }
  rewrite E. split; [apply adj_length|]. intros i Hi x. unfold x. rewrite adj_nth_d by exact Hi.
  destruct (G i Hi) as (G1 & G2 & G3). auto.
Qed.

Lemma sumn_between : forall f n a b, (forall i, (i < n)%nat -> a <= f i <= b) -> INR n * a <= sumn f n <= INR n * b.
Proof. intros f n a b H. rewrite <- !sumn_const. split; apply sumn_le; intros i Hi; apply (H i Hi). Qed.

Lemma INR_small : forall n, (n <= 4096)%nat -> 0 <= INR n <= 4096.
Proof. intros n H. split; [apply pos_INR|]. apply le_INR in H. rewrite (INR_IZR_INZ 4096) in H. exact H. Qed.

Lemma sum_fin : forall k l, (-149 <= k <= 102)%Z -> Forall (within k) l -> fin (fsum l).
Proof. intros k l K H. exact (within_fin _ _ (within_sum k l K H)). Qed.

(** The mean of positive numbers each known to a relative error [a]. *)
Lemma mean_rel : forall l (r : nat -> R) a k, (1 <= length l <= 4096)%nat -> 0 <= a <= / 1024 ->
  Forall (fun x => nneg x /\ within k x) l -> (-149 <= k <= 10)%Z ->
  (forall i, (i < length l)%nat -> / 64 <= r i <= 4 /\ Rabs (B2R (nth i l f0) - r i) <= a * r i) ->
  let g := sumn r (length l) / INR (length l) in
  fin (fdiv (fsum l) (n2f (length l))) /\ / 64 <= g <= 4 /\
  Rabs (B2R (fdiv (fsum l) (n2f (length l))) - g) <= (a + INR (length l) / 6000000 + / 16000000) * g.
Proof.
  intros l r a k L A W K H g.
  pose proof (INR_small (length l) ltac:(lia)) as Nb. assert (N1 : 1 <= INR (length l)) by (apply (le_INR 1); lia).
  assert (Fs : fin (fsum l)).
  { apply sum_fin with (k := k); [lia|]. eapply Forall_impl; [|exact W]. intros x (_ & X). exact X. }
  assert (Nn : Forall (fun x => nneg x) l) by (eapply Forall_impl; [|exact W]; intros x (X & _); exact X).
  pose proof (sum_near l r a 0 Nn Fs ltac:(lia) A ltac:(lra)
    ltac:(intros i Hi; destruct (H i Hi) as (H1 & H2); split; [lra|rewrite Rplus_0_r; exact H2])) as B.
  pose proof (sumn_between r (length l) (/ 64) 4 ltac:(intros i Hi; apply (H i Hi))) as Sb.
  destruct (n2f_INR (length l) ltac:(lia)) as (Fn & En).
  set (n := INR (length l)) in *. set (S1 := sumn r (length l)) in *. set (s := fsum l) in *. set (q := n2f (length l)) in *.
  assert (Gb : / 64 <= g <= 4).
  { unfold g. split; [apply Rmult_le_reg_l with n; [lra|]|apply Rmult_le_reg_l with n; [lra|]];
      replace (n * (S1 / n)) with S1 by (field; lra); lra. }
  assert (Sg : S1 = n * g) by (unfold g; field; lra).
  destruct (fdiv_fx s q Fs Fn ltac:(rewrite En; lra)) as (Nd & Ed).
  rewrite En in Ed.
  assert (Q : Rabs (B2R s / n - g) <= (a + n / 6000000) * g).
  { replace (B2R s / n - g) with ((B2R s - S1) / n) by (unfold g; field; lra). unfold Rdiv at 1. rewrite Rabs_mult, (Rabs_pos_eq (/ n)) by (left; apply Rinv_0_lt_compat; lra).
    apply Rmult_le_reg_r with n; [lra|]. replace (Rabs (B2R s - S1) * / n * n) with (Rabs (B2R s - S1)) by (field; lra).
    eapply Rle_trans; [exact B|]. rewrite Sg. lra. }
  assert (T : 0 <= a + n / 6000000 <= / 512) by lra.
  set (t := a + n / 6000000) in *. set (v := B2R s / n) in *.
  assert (Tg : t * g <= / 512 * g) by (apply Rmult_le_compat_r; lra).
  apply Rabs_le_inv in Q as Q'.
  destruct (fin_of_rnd _ _ Nd Ed ltac:(apply Rabs_le; lra)) as (F & V).
  split; [exact F|]. split; [exact Gb|]. rewrite V.
  assert (Lv : bpow radix2 (-60) <= v). { apply Rle_trans with (bpow radix2 (-8)); [apply bpow_le; lia|]. simpl. lra. }
  pose proof (TempoLagProps.rnd_rel v Lv) as R. apply Rabs_le_inv in R. apply Rabs_le. clearbody t v g. lra.
Qed.

(** ** Similarity of two intervals *)
Definition rsim (g x : R) : R := 1 / (1 + Rabs x / g).

Lemma ratio_near : forall x xf g mf d, 0 <= x <= 4 -> 0 <= xf -> Rabs (xf - x) <= 13 * a0 -> / 8 <= g <= 4 -> 0 <= d <= / 1000 ->
  Rabs (mf - g) <= d * g ->
  / 9 <= mf <= 5 /\ 0 <= xf / mf <= 40 /\ Rabs (xf / mf - x / g) <= 106 * a0 + 51 / 50 * d * (x / g).
Proof.
  intros x xf g mf d X Xf E G D M. apply Rabs_le_inv in E, M. unfold a0 in *.
  assert (Dg : d * g <= / 1000 * g) by (apply Rmult_le_compat_r; lra).
  assert (Mb : 999 / 1000 * g <= mf <= 1001 / 1000 * g) by lra.
  assert (M0 : 0 < mf) by lra.
  assert (Q : 0 <= xf / mf). { unfold Rdiv. apply Rmult_le_pos; [lra|]. left. now apply Rinv_0_lt_compat. }
  split; [lra|]. split.
  { split; [exact Q|]. apply Rmult_le_reg_r with mf; [lra|]. replace (xf / mf * mf) with xf by (field; lra). lra. }
  replace (xf / mf - x / g) with ((xf - x) / mf + x / g * ((g - mf) / mf)) by (field; lra).
  assert (Y : 0 <= x / g). { unfold Rdiv. apply Rmult_le_pos; [lra|]. left. apply Rinv_0_lt_compat. lra. }
  eapply Rle_trans; [apply Rabs_triang|]. apply Rplus_le_compat.
  - unfold Rdiv at 1. rewrite Rabs_mult, (Rabs_pos_eq (/ mf)) by (left; now apply Rinv_0_lt_compat).
    assert (Im : / mf <= 1002 / 125). { apply Rmult_le_reg_r with mf; [lra|]. rewrite Rinv_l by lra. lra. }
    assert (Im0 : 0 <= / mf) by (left; now apply Rinv_0_lt_compat).
    assert (Rabs (xf - x) <= 13 * / 16500000) by (apply Rabs_le; lra).
    apply Rle_trans with (13 * / 16500000 * (1002 / 125)); [apply Rmult_le_compat; auto; apply Rabs_pos|lra].
  - rewrite Rabs_mult, (Rabs_pos_eq (x / g)) by exact Y. rewrite Rmult_comm. apply Rmult_le_compat_r; [exact Y|].
    apply Rabs_le. assert (Z : (g - mf) / mf * mf = g - mf) by (field; lra).
    assert (P : 0 <= d * (51 / 50 * mf - g)) by (apply Rmult_le_pos; lra).
    split; apply Rmult_le_reg_r with mf; try lra; rewrite Z; lra.
Qed.

(** 1 / (1 + q), q known to an absolute error that grows with its size. *)
Lemma recip_near : forall y q d, 0 <= y <= 40 -> 0 <= q <= 41 -> 0 <= d <= / 500 -> Rabs (q - y) <= 106 * a0 + 51 / 50 * d * (1 + y) ->
  let w := rnd (1 + rnd q) in let s := 1 / (1 + y) in
  1 <= w <= 50 /\ / 64 <= s <= 1 /\ Rabs (rnd (1 / w) - s) <= (21 / 20 * d + / 120000) * s /\ 0 <= 1 / w <= 1.
Proof.
  intros y q d Y Q D H w s. unfold a0 in H. apply Rabs_le_inv in H.
  pose proof (rnd_bounds q ltac:(lra)) as R1. pose proof u_val as U. pose proof eta_small as E. pose proof eta_pos as E0.
  rewrite U in R1.
  assert (Q0 : 0 <= rnd q) by (apply rnd_nonneg; lra).
  assert (W1 : 1 <= w). { unfold w. apply rnd_ge_1. lra. }
  pose proof (rnd_bounds (1 + rnd q) ltac:(lra)) as R2. fold w in R2. rewrite U in R2.
  set (rq := rnd q) in *. clearbody rq.
  assert (Dy : 0 <= d * (1 + y) <= / 500 * (1 + y)) by (split; [apply Rmult_le_pos; lra|apply Rmult_le_compat_r; lra]).
  assert (Wb : Rabs (w - (1 + y)) <= 107 / 16500000 * (1 + y) + 103 / 100 * (d * (1 + y))).
  { apply Rabs_le. split; lra. }
  clearbody w. apply Rabs_le_inv in Wb.
  assert (Sb : / 64 <= s <= 1).
  { unfold s. split; apply Rmult_le_reg_r with (1 + y); try lra; replace (1 / (1 + y) * (1 + y)) with 1 by (field; lra); lra. }
  assert (Iw : 0 <= 1 / w <= 1).
  { split; [unfold Rdiv; apply Rmult_le_pos; [lra|left; apply Rinv_0_lt_compat; lra]|].
    apply Rmult_le_reg_r with w; [lra|]. replace (1 / w * w) with 1 by (field; lra). lra. }
  split; [lra|]. split; [exact Sb|]. split; [|exact Iw].
  assert (Rw : Rabs (1 / w - s) <= (26 / 25 * d + / 145000) * s).
  { unfold s. replace (1 / w - 1 / (1 + y)) with (((1 + y) - w) * (1 / w) * (1 / (1 + y))) by (field; lra).
    rewrite Rabs_mult, (Rabs_pos_eq (1 / (1 + y))) by (fold s; lra). apply Rmult_le_compat_r; [fold s; lra|].
    apply Rabs_le. assert (Z : (1 + y - w) * (1 / w) * w = 1 + y - w) by (field; lra).
    assert (P : 0 <= d * (26 / 25 * w - 103 / 100 * (1 + y))) by (apply Rmult_le_pos; lra).
    split; apply Rmult_le_reg_r with w; try lra; rewrite Z; lra. }
  assert (Lw : bpow radix2 (-60) <= 1 / w).
  { apply Rle_trans with (bpow radix2 (-6)); [apply bpow_le; lia|]. replace (bpow radix2 (-6)) with (/ 64) by (simpl; lra).
    apply Rmult_le_reg_r with w; [lra|]. replace (1 / w * w) with 1 by (field; lra). lra. }
  pose proof (TempoLagProps.rnd_rel (1 / w) Lw) as R3. apply Rabs_le_inv in R3, Rw. 
  assert (Ds : 0 <= d * s <= / 500 * s) by (split; [apply Rmult_le_pos; lra|apply Rmult_le_compat_r; lra]).
  apply Rabs_le. clearbody s. set (iw := 1 / w) in *. clearbody iw. split; lra.
Qed.

(** The tail every score shares: 1 / (1 + q) of a finite q. *)
Lemma recip_val : forall q, fin q -> 0 <= B2R q <= 41 ->
  fin (fdiv f1 (fadd f1 q)) /\ B2R (fdiv f1 (fadd f1 q)) = rnd (1 / rnd (1 + B2R q)).
Proof.
  intros q F H. destruct (fadd_fx f1 q fin_f1 F) as (N & E). rewrite B2R_f1 in E.
  destruct (fin_of_rnd _ _ N E ltac:(rewrite Rabs_pos_eq; lra)) as (Fa & Va).
  assert (W1 : 1 <= rnd (1 + B2R q)). { apply rnd_ge_1. lra. }
  destruct (fdiv_fx f1 _ fin_f1 Fa ltac:(rewrite Va; lra)) as (Nd & Ed). rewrite B2R_f1, Va in Ed.
  apply (fin_of_rnd _ _ Nd Ed). set (w := rnd (1 + B2R q)) in *. clearbody w.
  rewrite Rabs_pos_eq by (unfold Rdiv; apply Rmult_le_pos; [lra|left; apply Rinv_0_lt_compat; lra]).
  apply Rmult_le_reg_r with w; [lra|]. replace (1 / w * w) with 1 by (field; lra). lra.
Qed.

Lemma similarity_val : forall m a b ra rb g d, fin m -> fin a -> fin b -> / 8 <= g <= 4 -> 0 <= d <= / 1000 -> Rabs (B2R m - g) <= d * g ->
  / 8 <= ra <= 4 -> / 8 <= rb <= 4 -> Rabs (B2R a - ra) <= a0 * ra -> Rabs (B2R b - rb) <= a0 * rb ->
  fin (similarity m a b) /\ / 64 <= rsim g (ra - rb) <= 1 /\
  Rabs (B2R (similarity m a b) - rsim g (ra - rb)) <= (21 / 20 * d + / 120000) * rsim g (ra - rb).
Proof.
  intros m a b ra rb g d Fm Fa Fb G D M Ra Rb A B. unfold similarity.
  assert (Z : Rabs (B2R a - B2R b - (ra - rb)) <= 8 * a0).
  { apply Rabs_le_inv in A, B. apply Rabs_le. unfold a0 in *. lra. }
  destruct (fsub_fx a b Fa Fb) as (N & E).
  assert (Zb : Rabs (B2R a - B2R b) <= 31 / 8 + 8 * a0).
  { apply Rabs_le_inv in Z. apply Rabs_le. lra. }
  destruct (fin_of_rnd _ _ N E ltac:(unfold a0 in Zb; lra)) as (F & V).
  set (z := fsub a b) in *.
  pose proof (rnd_near (B2R a - B2R b)) as R. rewrite <- V in R.
  assert (U24 : u24 = / 16777216) by (unfold u24; simpl; lra).
  assert (Ty : tiny <= / 1000000000000). { unfold tiny. apply Rle_trans with (bpow radix2 (-40)); [apply bpow_le; lia|simpl; lra]. }
  rewrite U24 in R.
  assert (X : Rabs (Rabs (B2R z) - Rabs (ra - rb)) <= 13 * a0).
  { eapply Rle_trans; [apply Rabs_triang_inv2|]. replace (B2R z - (ra - rb)) with ((B2R z - (B2R a - B2R b)) + (B2R a - B2R b - (ra - rb))) by ring.
    eapply Rle_trans; [apply Rabs_triang|]. unfold a0 in *. lra. }
  assert (Fz : fin (fabs z)) by (unfold fabs; now rewrite is_finite_Babs).
  assert (Vz : B2R (fabs z) = Rabs (B2R z)) by (unfold fabs; apply B2R_Babs).
  assert (Xb : 0 <= Rabs (ra - rb) <= 4) by (split; [apply Rabs_pos|apply Rabs_le; lra]).
  destruct (ratio_near (Rabs (ra - rb)) (Rabs (B2R z)) g (B2R m) d Xb (Rabs_pos _) X G D M) as (Mb & Qb & Q).
  assert (Yb : 0 <= Rabs (ra - rb) / g <= 40).
  { assert (I : 0 < / g <= 8). { split; [apply Rinv_0_lt_compat; lra|]. apply Rmult_le_reg_r with g; [lra|]. rewrite Rinv_l by lra. lra. }
    unfold Rdiv. split; [apply Rmult_le_pos; lra|]. apply Rle_trans with (4 * 8); [apply Rmult_le_compat; lra|lra]. }
  destruct (fdiv_fx (fabs z) m Fz Fm ltac:(lra)) as (Nq & Eq). rewrite Vz in Eq.
  destruct (fin_of_rnd _ _ Nq Eq ltac:(rewrite Rabs_pos_eq; lra)) as (Fq & Vq).
  pose proof (rnd_bounds (Rabs (B2R z) / B2R m) ltac:(lra)) as Rq. rewrite u_val in Rq. pose proof eta_small as Es.
  pose proof (rnd_nonneg (Rabs (B2R z) / B2R m) ltac:(lra)) as Rq0.
  destruct (recip_val (fdiv (fabs z) m) Fq ltac:(rewrite Vq; lra)) as (Fr & Vr).
  assert (Q' : Rabs (Rabs (B2R z) / B2R m - Rabs (ra - rb) / g) <= 106 * a0 + 51 / 50 * d * (1 + Rabs (ra - rb) / g)).
  { eapply Rle_trans; [exact Q|]. lra. }
  destruct (recip_near (Rabs (ra - rb) / g) (Rabs (B2R z) / B2R m) d Yb ltac:(lra) ltac:(lra) Q') as (_ & Sb & Sv & _).
  split; [exact Fr|]. rewrite Vr, Vq. unfold rsim. split; [exact Sb|exact Sv].
Qed.

(** ** Mean similarity at a lag *)
Definition rlike (n : nat) (r : nat -> R) (lag : nat) : R :=
  sumn (fun i => rsim (sumn r n / INR n) (r i - r (i + lag)%nat)) (n - lag) / INR (n - lag).

Definition autocorr (iv : list f32) (lag : nat) (m : f32) : f32 :=
  let sims := map (fun ab => similarity m (fst ab) (snd ab)) (combine iv (skipn lag iv)) in
  fdiv (fsum sims) (n2f (length sims)).

Definition known (iv : list f32) (r : nat -> R) : Prop := forall i, (i < length iv)%nat ->
  fin (nth i iv f0) /\ flt f0 (nth i iv f0) = true /\ / 8 <= r i <= 4 /\ Rabs (B2R (nth i iv f0) - r i) <= a0 * r i.

Lemma known_Forall : forall iv r, known iv r -> Forall (fun x => nneg x /\ within 3 x) iv.
Proof.
  intros iv r K. apply Forall_forall. intros x I. apply (In_nth _ _ f0) in I as (i & Hi & <-). destruct (K i Hi) as (F & P & B & D).
  split; [now apply pos_nneg|]. split; [exact F|]. apply Rabs_le_inv in D. unfold a0 in D. apply Rabs_le.
  change (bpow radix2 3) with 8. lra.
Qed.

Lemma mean_known : forall iv r, (1 <= length iv <= 4096)%nat -> known iv r ->
  let g := sumn r (length iv) / INR (length iv) in
  fin (mean iv) /\ / 8 <= g <= 4 /\ Rabs (B2R (mean iv) - g) <= dm (length iv) * g /\ 0 <= dm (length iv) <= / 1400.
Proof.
  intros iv r L K g.
  destruct (mean_rel iv r a0 3 L ltac:(unfold a0; lra) (known_Forall _ _ K) ltac:(lia)) as (F & Gb & M).
  { intros i Hi. destruct (K i Hi) as (_ & _ & B & D). split; [lra|exact D]. }
  fold (mean iv) in F, M. fold g in Gb, M. pose proof (INR_small (length iv) ltac:(lia)) as Nb.
  assert (N1 : 1 <= INR (length iv)) by (apply (le_INR 1); lia).
  pose proof (sumn_between r (length iv) (/ 8) 4 ltac:(intros i Hi; apply (K i Hi))) as Sb.
  split; [exact F|]. split.
  { unfold g. split; [apply Rmult_le_reg_l with (INR (length iv)); [lra|]|apply Rmult_le_reg_l with (INR (length iv)); [lra|]];
      replace (INR (length iv) * (sumn r (length iv) / INR (length iv))) with (sumn r (length iv)) by (field; lra); lra. }
  split; [|unfold dm; lra]. eapply Rle_trans; [exact M|]. apply Rmult_le_compat_r; [lra|]. unfold dm, a0. lra.
Qed.

Lemma nth_skipn_d : forall (l : list f32) k i, nth i (skipn k l) f0 = nth (i + k) l f0.
Proof.
  intros l k. revert l. induction k as [|k IH]; intros l i; [now rewrite Nat.add_0_r|]. destruct l as [|x l].
  - cbn [skipn]. destruct i; cbn [nth]; now destruct (_ + _)%nat.
  - cbn [skipn]. rewrite IH. replace (i + S k)%nat with (S (i + k)) by lia. reflexivity.
Qed.

Lemma autocorr_val : forall iv r lag, (length iv <= 4096)%nat -> (lag < length iv)%nat -> known iv r ->
  let n := length iv in
  fin (autocorr iv lag (mean iv)) /\ / 64 <= rlike n r lag <= 1 /\
  Rabs (B2R (autocorr iv lag (mean iv)) - rlike n r lag) <= (INR n + 25) / 2800000.
Proof.
  intros iv r lag L Lg K n. destruct (mean_known iv r ltac:(lia) K) as (Fm & Gb & M & D).
  set (m := mean iv) in *. fold n in Gb, M, D. set (g := sumn r n / INR n) in *.
  unfold autocorr. cbv zeta. set (sims := map _ _).
  assert (Ls : length sims = (n - lag)%nat) by (unfold sims; rewrite map_length, combine_length, skipn_length; fold n; lia).
  assert (Ns : forall i, (i < n - lag)%nat -> nth i sims f0 = similarity m (nth i iv f0) (nth (i + lag) iv f0)).
  { intros i Hi. unfold sims. rewrite (nth_indep _ f0 (similarity m (fst (f0, f0)) (snd (f0, f0)))) by (fold sims; lia).
    rewrite (map_nth (fun ab : f32 * f32 => similarity m (fst ab) (snd ab))).
    rewrite (nth_error_nth (combine iv (skipn lag iv)) i (f0, f0) (x := (nth i iv f0, nth (i + lag) iv f0))).
    - reflexivity.
    - apply nth_error_combine_iff. split; [apply nth_error_nth'; fold n; lia|]. rewrite <- nth_skipn_d. apply nth_error_nth'.
      rewrite skipn_length. fold n. lia. }
  assert (Sv : forall i, (i < n - lag)%nat -> fin (nth i sims f0) /\ / 64 <= rsim g (r i - r (i + lag)%nat) <= 1 /\
    Rabs (B2R (nth i sims f0) - rsim g (r i - r (i + lag)%nat)) <= (21 / 20 * dm n + / 120000) * rsim g (r i - r (i + lag)%nat)).
  { intros i Hi. rewrite Ns by exact Hi. destruct (K i ltac:(fold n; lia)) as (F1 & _ & B1 & D1), (K (i + lag)%nat ltac:(fold n; lia)) as (F2 & _ & B2 & D2).
    apply similarity_val; auto. lra. }
  assert (Ab : 0 <= 21 / 20 * dm n + / 120000 <= / 1024) by lra.
  set (a := 21 / 20 * dm n + / 120000) in *.
  assert (W : Forall (fun x => nneg x /\ within 1 x) sims).
  { apply Forall_forall. intros x I. apply (In_nth _ _ f0) in I as (i & Hi & <-). rewrite Ls in Hi. destruct (Sv i Hi) as (F & B & V).
    set (s := rsim g (r i - r (i + lag)%nat)) in *. clearbody s. assert (a * s <= / 1024 * s) by (apply Rmult_le_compat_r; lra).
    apply Rabs_le_inv in V. split.
    - apply fle_intro; [reflexivity|now apply fin_nn|]. rewrite fx_f0, (fx_fin _ F). lra.
    - split; [exact F|]. apply Rabs_le. change (bpow radix2 1) with 2. lra. }
  destruct (mean_rel sims (fun i => rsim g (r i - r (i + lag)%nat)) a 1 ltac:(lia) Ab W ltac:(lia)) as (F & Rb & V).
  { intros i Hi. rewrite Ls in Hi. destruct (Sv i Hi) as (_ & B & V). split; [lra|exact V]. }
  rewrite Ls in F, Rb, V |- *. fold (rlike n r lag) in Rb, V.
  change (sumn (fun i => rsim g (r i - r (i + lag)%nat)) (n - lag) / INR (n - lag)) with (rlike n r lag) in Rb, V.
  split; [exact F|].
  assert (N1 : 1 <= INR (n - lag)) by (apply (le_INR 1); lia).
  assert (N2 : INR (n - lag) <= INR n) by (apply le_INR; lia).
  assert (R1 : rlike n r lag <= 1).
  { unfold rlike. apply Rmult_le_reg_l with (INR (n - lag)); [lra|].
    match goal with |- _ * (?x / _) <= _ => replace (INR (n - lag) * (x / INR (n - lag))) with x by (field; lra) end.
    apply (sumn_between _ (n - lag) (/ 64) 1). intros i Hi. apply (Sv i Hi). }
  split; [lra|]. eapply Rle_trans; [exact V|].
  set (t := a + INR (n - lag) / 6000000 + / 16000000).
  assert (T : 0 <= t <= (INR n + 25) / 2800000) by (unfold t, a, dm; pose proof (pos_INR n); lra).
  apply Rle_trans with (t * 1); [apply Rmult_le_compat_l; lra|lra].
Qed.

(** ** Spread of the intervals *)
Definition rdev (n : nat) (x : nat -> R) : R := sqrt (sumn (fun i => x i * x i) n / INR n).

Lemma rms_up : forall n x y e, (1 <= n)%nat -> 0 <= e -> (forall i, (i < n)%nat -> Rabs (y i - x i) <= e) -> rdev n y <= rdev n x + e.
Proof.
  intros n x y e N E H. unfold rdev. assert (N1 : 1 <= INR n) by (apply (le_INR 1); lia).
  set (X := sumn (fun i => x i * x i) n / INR n). set (mu := sumn (fun i => Rabs (x i)) n / INR n).
  assert (In0 : 0 <= / INR n) by (left; apply Rinv_0_lt_compat; lra).
  assert (X0 : 0 <= X) by (apply Rmult_le_pos; [apply sumn_nonneg; intros; apply Rle_0_sqr|exact In0]).
  assert (M0 : 0 <= mu) by (apply Rmult_le_pos; [apply sumn_nonneg; intros; apply Rabs_pos|exact In0]).
  assert (Sx : sumn (fun i => x i * x i) n = INR n * X) by (unfold X; field; lra).
  assert (Sm : sumn (fun i => Rabs (x i)) n = INR n * mu) by (unfold mu; field; lra).
  assert (V : mu * mu <= X).
  { assert (P : 0 <= sumn (fun i => (Rabs (x i) - mu) * (Rabs (x i) - mu)) n) by (apply sumn_nonneg; intros; apply Rle_0_sqr).
    rewrite (sumn_ext _ (fun i => x i * x i + ((- 2 * mu) * Rabs (x i) + mu * mu))) in P.
    - rewrite !sumn_plus, sumn_scal, sumn_const, Sx, Sm in P. apply Rmult_le_reg_l with (INR n); [lra|]. lra.
    - intros i _. assert (A : Rabs (x i) * Rabs (x i) = x i * x i) by (rewrite <- Rabs_mult; apply Rabs_pos_eq; apply Rle_0_sqr).
      rewrite <- A. ring. }
  assert (M : mu <= sqrt X) by (apply Rsqr_incr_0_var; [rewrite Rsqr_sqrt by exact X0; exact V|apply sqrt_pos]).
  assert (Y : sumn (fun i => y i * y i) n / INR n <= X + 2 * e * mu + e * e).
  { apply Rmult_le_reg_l with (INR n); [lra|].
    replace (INR n * (sumn (fun i => y i * y i) n / INR n)) with (sumn (fun i => y i * y i) n) by (field; lra).
    apply Rle_trans with (sumn (fun i => x i * x i + ((2 * e) * Rabs (x i) + e * e)) n).
    - apply sumn_le. intros i Hi. specialize (H i Hi).
      assert (A : Rabs (x i) * Rabs (x i) = x i * x i) by (rewrite <- Rabs_mult; apply Rabs_pos_eq; apply Rle_0_sqr).
      assert (B : Rabs (y i) * Rabs (y i) = y i * y i) by (rewrite <- Rabs_mult; apply Rabs_pos_eq; apply Rle_0_sqr).
      assert (C : Rabs (y i) <= Rabs (x i) + e).
      { replace (y i) with (x i + (y i - x i)) by ring. eapply Rle_trans; [apply Rabs_triang|]. lra. }
      rewrite <- A, <- B. pose proof (Rabs_pos (y i)). pose proof (Rabs_pos (x i)).
      apply Rle_trans with ((Rabs (x i) + e) * (Rabs (x i) + e)); [apply Rmult_le_compat; lra|lra].
    - rewrite !sumn_plus, sumn_scal, sumn_const, Sx, Sm. lra. }
  pose proof (sqrt_pos X) as R0. pose proof (sqrt_sqrt X X0) as RR. set (t := sqrt X) in *. clearbody t.
  rewrite <- (sqrt_square (t + e)) by lra. apply sqrt_le_1_alt. eapply Rle_trans; [exact Y|].
  assert (e * mu <= e * t) by (apply Rmult_le_compat_l; lra). lra.
Qed.

Lemma rms_near : forall n x y e, (1 <= n)%nat -> 0 <= e -> (forall i, (i < n)%nat -> Rabs (y i - x i) <= e) -> Rabs (rdev n y - rdev n x) <= e.
Proof.
  intros n x y e N E H. pose proof (rms_up n x y e N E H) as A.
  assert (H' : forall i, (i < n)%nat -> Rabs (x i - y i) <= e) by (intros i Hi; rewrite Rabs_minus_sym; now apply H).
  pose proof (rms_up n y x e N E H') as B. apply Rabs_le. lra.
Qed.

Lemma sqrt_near : forall v V c, 0 <= v -> 0 <= V -> 0 <= c <= / 2 -> Rabs (v - V) <= c * V + / 10 ^ 20 ->
  Rabs (sqrt v - sqrt V) <= c * sqrt V + / 10 ^ 10.
Proof.
  intros v V c V0 W0 C H. apply Rabs_le_inv in H.
  pose proof (sqrt_pos V) as R0. pose proof (sqrt_sqrt V W0) as RR. set (t := sqrt V) in *.
  pose proof (sqrt_pos v) as Q0. pose proof (sqrt_sqrt v V0) as QQ. set (s := sqrt v) in *. clearbody t s.
  assert (K : 0 < / 10 ^ 10) by lra.
  assert (Ct : 0 <= c * t) by (apply Rmult_le_pos; lra).
  assert (Ctt : 0 <= c * (t * t)) by (rewrite RR; apply Rmult_le_pos; lra).
  assert (Cc : c * (t * t) * c <= c * (t * t) * / 2) by (apply Rmult_le_compat_l; lra).
  replace (/ 10 ^ 20) with (/ 10 ^ 10 * / 10 ^ 10) in H by field.
  set (k := / 10 ^ 10) in *. clearbody k. rewrite <- RR, <- QQ in H.
  apply Rabs_le. split.
  - assert ((1 - c) * t <= s + k); [|lra]. apply Rsqr_incr_0_var; [|lra]. unfold Rsqr.
    assert (0 <= s * k) by (apply Rmult_le_pos; lra). assert ((1 - c) * t * ((1 - c) * t) = t * t - 2 * (c * (t * t)) + c * (t * t) * c) by ring. lra.
  - assert (s <= (1 + c) * t + k); [|lra]. apply Rsqr_incr_0_var; [|lra]. unfold Rsqr.
    assert (0 <= ((1 + c) * t) * k) by (apply Rmult_le_pos; lra).
    assert (0 <= c * t * (c * t)) by (apply Rmult_le_pos; lra).
    assert (((1 + c) * t + k) * ((1 + c) * t + k) = t * t + 2 * (c * (t * t)) + c * t * (c * t) + 2 * (((1 + c) * t) * k) + k * k) by ring. lra.
Qed.

Lemma variance_val : forall iv r, (1 <= length iv <= 4096)%nat -> known iv r ->
  let n := length iv in let g := sumn r n / INR n in let sd := rdev n (fun i => r i - g) in
  let v := variance iv (mean iv) in
  fin v /\ 0 <= B2R v /\ 0 <= sd <= 4 /\
  Rabs (sqrt (B2R v) - sd) <= (INR n + 3) / 5900000 * sd + 101 / 100 * ((70 * a0 + dm n) * g) + / 10 ^ 10.
Proof.
  intros iv r L K n g sd v. destruct (mean_known iv r L K) as (Fm & Gb & M & D). fold n in Gb, M, D. fold g in Gb, M.
  unfold v, variance. cbv zeta. set (m := mean iv) in *. fold n. set (sq := map _ iv).
  assert (Lq : length sq = n) by (unfold sq; now rewrite map_length).
  assert (U24 : u24 = / 16777216) by (unfold u24; simpl; lra).
  assert (Ty : 0 <= tiny <= / 10 ^ 30). { split; [apply bpow_ge_0|]. unfold tiny. apply Rle_trans with (bpow radix2 (-120)); [apply bpow_le; lia|simpl; lra]. }
  set (x := fun i => B2R (fsub (nth i iv f0) m)).
  assert (Dg : 0 <= dm n * g <= / 1400 * g) by (split; [apply Rmult_le_pos; lra|apply Rmult_le_compat_r; lra]).
  apply Rabs_le_inv in M. unfold a0 in *.
  assert (X : forall i, (i < n)%nat -> fin (fsub (nth i iv f0) m) /\ Rabs (x i - (r i - g)) <= (70 * / 16500000 + dm n) * g).
  { intros i Hi. destruct (K i Hi) as (F & _ & B & E). unfold a0 in E. apply Rabs_le_inv in E.
    destruct (fsub_fx _ m F Fm) as (N & V).
    assert (Z : Rabs (B2R (nth i iv f0) - B2R m) <= 5) by (apply Rabs_le; lra).
    destruct (fin_of_rnd _ _ N V ltac:(lra)) as (Fs & Vs). split; [exact Fs|]. unfold x. rewrite Vs.
    pose proof (rnd_near (B2R (nth i iv f0) - B2R m)) as R. rewrite U24 in R.
    assert (Z' : Rabs (B2R (nth i iv f0) - B2R m) <= 33 * g) by (apply Rabs_le; lra).
    apply Rabs_le_inv in R. apply Rabs_le. lra. }
  assert (Xb : forall i, (i < n)%nat -> Rabs (x i) <= 4).
  { intros i Hi. destruct (X i Hi) as (_ & E). destruct (K i Hi) as (_ & _ & B & _). apply Rabs_le_inv in E. apply Rabs_le. lra. }
  assert (Q : forall i, (i < n)%nat -> fin (nth i sq f0) /\ 0 <= B2R (nth i sq f0) <= 17 /\ Rabs (B2R (nth i sq f0) - x i * x i) <= / 16777216 * (x i * x i) + tiny).
  { intros i Hi. unfold sq. rewrite (nth_indep _ f0 ((fun y => fmul (fsub y m) (fsub y m)) f0)) by (rewrite map_length; exact Hi).
    rewrite (map_nth (fun y => fmul (fsub y m) (fsub y m))). destruct (X i Hi) as (F & _). specialize (Xb i Hi).
    destruct (fmul_fx _ _ F F) as (N & V). fold (x i) in V.
    assert (S0 : 0 <= x i * x i <= 16).
    { split; [apply Rle_0_sqr|]. replace (x i * x i) with (Rabs (x i) * Rabs (x i)) by (rewrite <- Rabs_mult; apply Rabs_pos_eq, Rle_0_sqr).
      pose proof (Rabs_pos (x i)). replace 16 with (4 * 4) by ring. apply Rmult_le_compat; lra. }
    destruct (fin_of_rnd _ _ N V ltac:(rewrite Rabs_pos_eq; lra)) as (Fs & Vs). split; [exact Fs|]. rewrite Vs.
    pose proof (rnd_near (x i * x i)) as R. rewrite U24, (Rabs_pos_eq (x i * x i)) in R by lra. split; [|exact R].
    split; [apply rnd_nonneg; lra|]. apply Rabs_le_inv in R. lra. }
  assert (W : Forall (fun y => nneg y /\ within 5 y) sq).
  { apply Forall_forall. intros y I. apply (In_nth _ _ f0) in I as (i & Hi & <-). rewrite Lq in Hi. destruct (Q i Hi) as (F & B & _). split.
    - apply fle_intro; [reflexivity|now apply fin_nn|]. rewrite fx_f0, (fx_fin _ F). lra.
    - split; [exact F|]. apply Rabs_le. change (bpow radix2 5) with 32. lra. }
  assert (Wn : Forall (fun y => nneg y) sq) by (eapply Forall_impl; [|exact W]; intros y (Y & _); exact Y).
  assert (Fs : fin (fsum sq)).
  { apply sum_fin with (k := 5%Z); [lia|]. eapply Forall_impl; [|exact W]. intros y (_ & Y). exact Y. }
  pose proof (sum_near sq (fun i => x i * x i) (/ 16777216) tiny Wn Fs ltac:(lia) ltac:(lra) ltac:(lra)
    ltac:(intros i Hi; rewrite Lq in Hi; split; [apply Rle_0_sqr|apply (Q i Hi)])) as B.
  rewrite Lq in B. pose proof (INR_small n ltac:(lia)) as Nb. assert (N1 : 1 <= INR n) by (apply (le_INR 1); lia).
  destruct (n2f_INR n ltac:(lia)) as (Fn & En).
  set (X2 := sumn (fun i => x i * x i) n / INR n).
  assert (Sx : sumn (fun i => x i * x i) n = INR n * X2) by (unfold X2; field; lra).
  assert (X2b : 0 <= X2 <= 16).
  { assert (Bb : INR n * 0 <= sumn (fun i => x i * x i) n <= INR n * 16).
    { apply sumn_between. intros i Hi. specialize (Xb i Hi). split; [apply Rle_0_sqr|].
      replace (x i * x i) with (Rabs (x i) * Rabs (x i)) by (rewrite <- Rabs_mult; apply Rabs_pos_eq, Rle_0_sqr).
      pose proof (Rabs_pos (x i)). replace 16 with (4 * 4) by ring. apply Rmult_le_compat; lra. }
    rewrite Sx in Bb. split; apply Rmult_le_reg_l with (INR n); lra. }
  destruct (fdiv_fx (fsum sq) (n2f n) Fs Fn ltac:(rewrite En; lra)) as (Nd & Ed). rewrite En in Ed.
  set (w := B2R (fsum sq) / INR n) in *.
  assert (Sw : B2R (fsum sq) = INR n * w) by (unfold w; field; lra).
  assert (Wv : Rabs (w - X2) <= (/ 16777216 + INR n / 6000000) * X2 + 2 * tiny).
  { rewrite Sw, Sx in B. apply Rmult_le_reg_l with (INR n); [lra|].
    replace (INR n * Rabs (w - X2)) with (Rabs (INR n * w - INR n * X2)).
    - eapply Rle_trans; [exact B|]. right. ring.
    - rewrite <- (Rabs_pos_eq (INR n)) at 3 by lra. rewrite <- Rabs_mult. f_equal. ring. }
  assert (W0 : 0 <= w).
  { unfold w. apply Rmult_le_pos; [|left; apply Rinv_0_lt_compat; lra]. apply nneg_B2R. apply fsum_nneg; auto. }
  assert (C1 : (/ 16777216 + INR n / 6000000) * X2 <= / 1000 * X2) by (apply Rmult_le_compat_r; lra).
  apply Rabs_le_inv in Wv as Wv'.
  destruct (fin_of_rnd _ _ Nd Ed ltac:(rewrite Rabs_pos_eq by lra; lra)) as (Fv & Vv).
  split; [exact Fv|]. rewrite Vv. split; [apply rnd_nonneg; lra|].
  assert (Rv : Rabs (rnd w - X2) <= (INR n + 2) / 5950000 * X2 + / 10 ^ 20).
  { pose proof (rnd_near w) as R. rewrite U24, (Rabs_pos_eq w) in R by lra. apply Rabs_le_inv in R. apply Rabs_le.
    assert (0 <= INR n * X2) by (apply Rmult_le_pos; lra). lra. }
  pose proof (sqrt_near (rnd w) X2 ((INR n + 2) / 5950000) (rnd_nonneg w W0) ltac:(lra) ltac:(lra) Rv) as Sq.
  pose proof (rms_near n (fun i => r i - g) x ((70 * / 16500000 + dm n) * g) ltac:(lia)
    ltac:(apply Rmult_le_pos; lra) ltac:(intros i Hi; apply (X i Hi))) as Rm.
  fold sd in Rm. unfold rdev in Rm. fold X2 in Rm.
  assert (Sb : 0 <= sd <= 4).
  { unfold sd, rdev. split; [apply sqrt_pos|]. rewrite <- (sqrt_square 4) by lra. apply sqrt_le_1_alt.
    apply Rmult_le_reg_l with (INR n); [lra|].
    match goal with |- _ * (?y / _) <= _ => replace (INR n * (y / INR n)) with y by (field; lra) end.
    apply (sumn_between _ n 0 (4 * 4)). intros i Hi. destruct (K i Hi) as (_ & _ & Bi & _). split; [apply Rle_0_sqr|].
    replace ((r i - g) * (r i - g)) with (Rabs (r i - g) * Rabs (r i - g)) by (rewrite <- Rabs_mult; apply Rabs_pos_eq, Rle_0_sqr).
    assert (Rabs (r i - g) <= 4) by (apply Rabs_le; lra). pose proof (Rabs_pos (r i - g)). apply Rmult_le_compat; lra. }
  split; [exact Sb|]. apply Rabs_le_inv in Sq, Rm.
  set (e := (70 * / 16500000 + dm n) * g) in *. assert (E0 : 0 <= e) by (apply Rmult_le_pos; lra).
  assert (Ne : 0 <= INR n * e <= 4096 * e) by (split; [apply Rmult_le_pos; lra|apply Rmult_le_compat_r; lra]).
  set (t := sqrt X2) in *. set (s := sqrt (rnd w)) in *. clearbody t s e sd.
  assert (Nt : INR n * t <= INR n * (sd + e)) by (apply Rmult_le_compat_l; lra).
  assert (Nsd : 0 <= INR n * sd) by (apply Rmult_le_pos; lra). clear - Sq Rm Ne Nt Nsd Sb E0.
  apply Rabs_le. split; lra.
Qed.

Definition rcons (n : nat) (r : nat -> R) : R := let g := sumn r n / INR n in 1 / (1 + rdev n (fun i => r i - g) / g).

Definition consistency (iv : list f32) (m : f32) : f32 :=
  fdiv f1 (fadd f1 (if fgt m eps10 then fdiv (fsqrt (variance iv m)) m else f1)).

Lemma consistency_val : forall iv r, (1 <= length iv <= 4096)%nat -> known iv r -> let n := length iv in
  fin (consistency iv (mean iv)) /\ 0 <= B2R (consistency iv (mean iv)) <= 1 /\ / 64 <= rcons n r <= 1 /\
  Rabs (B2R (consistency iv (mean iv)) - rcons n r) <= (INR n + 40) / 2700000.
Proof.
  intros iv r L K n. destruct (mean_known iv r L K) as (Fm & Gb & M & D).
  destruct (variance_val iv r L K) as (Fv & V0 & Sb & Sv). fold n in Gb, M, D, Sb, Sv.
  unfold rcons, consistency. set (m := mean iv) in *. set (g := sumn r n / INR n) in *. cbv zeta.
  set (sd := rdev n (fun i => r i - g)) in *.
  assert (Dg : 0 <= dm n * g <= / 1400 * g) by (split; [apply Rmult_le_pos; lra|apply Rmult_le_compat_r; lra]).
  apply Rabs_le_inv in M as M'.
  assert (Gt : fgt m eps10 = true).
  { rewrite KeyProfileFacts.fgt_as_flt. apply flt_intro; [reflexivity|now apply fin_nn|]. rewrite (fx_fin _ Fm).
    apply Rlt_le_trans with (/ 9); [|lra]. unfold eps10. apply Rle_lt_trans with (fx (lit 1 (-10))).
    - apply fle_fx. vm_compute. reflexivity.
    - rewrite fx_fin by (vm_compute; reflexivity). rewrite <- SF2R_B2SF. replace (B2SF (lit 1 (-10))) with (SpecFloat.S754_finite false 8388608 (-33)) by (vm_compute; reflexivity).
      cbn [SF2R cond_Zopp]. unfold F2R. cbn [Fnum Fexp]. change (bpow radix2 (-33)) with (/ 8589934592). lra. }
  rewrite Gt. pose proof (INR_small n ltac:(lia)) as Nb. assert (N1 : 1 <= INR n) by (apply (le_INR 1); lia).
  set (v := variance iv m) in *.
  destruct (fsqrt_val v Fv ltac:(apply fle_intro; [reflexivity|now apply fin_nn|]; rewrite fx_f0, (fx_fin _ Fv); lra)) as (Fq & Vq).
  pose proof (rnd_bounds (sqrt (B2R v)) (sqrt_pos _)) as R. rewrite <- Vq, u_val in R. pose proof eta_small as Es. pose proof eta_pos as E0.
  pose proof (rnd_nonneg (sqrt (B2R v)) (sqrt_pos _)) as Q0. rewrite <- Vq in Q0.
  set (q := fsqrt v) in *. set (t := sqrt (B2R v)) in *.
  apply Rabs_le_inv in Sv. unfold a0 in Sv.
  assert (Ns : 0 <= INR n * sd <= 4096 * sd) by (split; [apply Rmult_le_pos; lra|apply Rmult_le_compat_r; lra]).
  assert (Tb : 0 <= t <= 5) by (split; [apply sqrt_pos|lra]).
  assert (Qv : Rabs (B2R q - sd) <= (INR n + 5) / 5890000 * sd + 102 / 100 * ((71 * / 16500000 + dm n) * g)).
  { apply Rabs_le. clearbody t sd. split; lra. }
  clear R Sv. clearbody q t. clear Vq Tb t.
  assert (Mb : 999 / 1000 * g <= B2R m <= 1001 / 1000 * g) by lra.
  set (mf := B2R m) in *.
  assert (Q5 : 0 <= B2R q <= 9 / 2) by (apply Rabs_le_inv in Qv; lra).
  assert (Qm : 0 <= B2R q / mf <= 40).
  { split; [unfold Rdiv; apply Rmult_le_pos; [lra|left; apply Rinv_0_lt_compat; lra]|].
    apply Rmult_le_reg_r with mf; [lra|]. replace (B2R q / mf * mf) with (B2R q) by (field; lra). lra. }
  assert (Yb : 0 <= sd / g <= 40).
  { split; [unfold Rdiv; apply Rmult_le_pos; [lra|left; apply Rinv_0_lt_compat; lra]|].
    apply Rmult_le_reg_r with g; [lra|]. replace (sd / g * g) with sd by (field; lra). lra. }
  destruct (fdiv_fx q m Fq Fm ltac:(fold mf; lra)) as (Nq & Eq). fold mf in Eq.
  destruct (fin_of_rnd _ _ Nq Eq ltac:(rewrite Rabs_pos_eq; lra)) as (Fd & Vd).
  pose proof (rnd_bounds (B2R q / mf) ltac:(lra)) as Rq. rewrite u_val in Rq.
  pose proof (rnd_nonneg (B2R q / mf) ltac:(lra)) as Rq0.
  destruct (recip_val (fdiv q m) Fd ltac:(rewrite Vd; lra)) as (Fr & Vr).
  set (d := (2 * INR n + 9) / 5700000).
  assert (Nr : Rabs (B2R q / mf - sd / g) <= 106 * a0 + 51 / 50 * d * (1 + sd / g)).
  { replace (B2R q / mf - sd / g) with ((B2R q - sd) / mf + sd / g * ((g - mf) / mf)) by (field; lra).
    set (y := sd / g) in *. assert (Sy : sd = y * g) by (unfold y; field; lra).
    eapply Rle_trans; [apply Rabs_triang|].
    assert (A1 : Rabs ((B2R q - sd) / mf) <= 1002 / 1000 * ((INR n + 5) / 5890000 * y + 102 / 100 * (71 * / 16500000 + dm n))).
    { unfold Rdiv at 1. rewrite Rabs_mult, (Rabs_pos_eq (/ mf)) by (left; apply Rinv_0_lt_compat; lra).
      apply Rmult_le_reg_r with mf; [lra|]. rewrite Rmult_assoc, Rinv_l, Rmult_1_r by lra.
      eapply Rle_trans; [exact Qv|]. rewrite Sy.
      set (k := (INR n + 5) / 5890000 * y + 102 / 100 * (71 * / 16500000 + dm n)).
      replace ((INR n + 5) / 5890000 * (y * g) + 102 / 100 * ((71 * / 16500000 + dm n) * g)) with (k * g) by (unfold k; ring).
      assert (K0 : 0 <= k). { unfold k. assert (0 <= (INR n + 5) / 5890000 * y) by (apply Rmult_le_pos; lra). lra. }
      rewrite Rmult_assoc, (Rmult_comm k mf), <- Rmult_assoc, (Rmult_comm k g). apply Rmult_le_compat_r; lra. }
    assert (A2 : Rabs (y * ((g - mf) / mf)) <= 51 / 50 * dm n * y).
    { rewrite Rabs_mult, (Rabs_pos_eq y) by lra. rewrite Rmult_comm. apply Rmult_le_compat_r; [lra|].
      apply Rabs_le. assert (Z : (g - mf) / mf * mf = g - mf) by (field; lra).
      assert (P : 0 <= dm n * (51 / 50 * mf - g)) by (apply Rmult_le_pos; lra).
      split; apply Rmult_le_reg_r with mf; try lra; rewrite Z; lra. }
    clear Qv Sb Ns. assert (0 <= INR n * y) by (apply Rmult_le_pos; lra). clearbody y. unfold d, dm, a0 in *. lra. }
  destruct (recip_near (sd / g) (B2R q / mf) d Yb ltac:(lra) ltac:(unfold d; lra) Nr) as (_ & Cb & Cv & Iw).
  split; [exact Fr|]. rewrite Vr, Vd. split.
  { split; [apply rnd_nonneg; lra|]. apply rnd_le_1. lra. }
  split; [exact Cb|]. eapply Rle_trans; [exact Cv|].
  apply Rle_trans with ((21 / 20 * d + / 120000) * 1); [apply Rmult_le_compat_l; unfold d; lra|]. unfold d. lra.
Qed.

(** ** The blended score *)
Definition w7 : R := 11744051 / 16777216.
Definition w3 : R := 5033165 / 16777216.

Lemma lit7 : fin (lit 11744051 (-24)) /\ B2R (lit 11744051 (-24)) = w7.
Proof.
  split; [vm_compute; reflexivity|]. rewrite <- SF2R_B2SF. replace (B2SF (lit 11744051 (-24))) with (SpecFloat.S754_finite false 11744051 (-24)) by (vm_compute; reflexivity).
  cbn [SF2R cond_Zopp]. unfold F2R. cbn [Fnum Fexp]. change (bpow radix2 (-24)) with (/ 16777216). unfold w7. lra.
Qed.
Lemma lit3 : fin (lit 5033165 (-24)) /\ B2R (lit 5033165 (-24)) = w3.
Proof.
  split; [vm_compute; reflexivity|]. rewrite <- SF2R_B2SF. replace (B2SF (lit 5033165 (-24))) with (SpecFloat.S754_finite false 10066330 (-25)) by (vm_compute; reflexivity).
  cbn [SF2R cond_Zopp]. unfold F2R. cbn [Fnum Fexp]. change (bpow radix2 (-25)) with (/ 33554432). unfold w3. lra.
Qed.

Definition blend (a c : f32) : f32 := fmin (fadd (fmul a (lit 11744051 (-24))) (fmul c (lit 5033165 (-24)))) f1.

Lemma blend_val : forall a c, fin a -> fin c -> 0 <= B2R a <= 1 -> 0 <= B2R c <= 1 ->
  fin (blend a c) /\ B2R (blend a c) = Rmin (rnd (rnd (B2R a * w7) + rnd (B2R c * w3))) 1 /\
  0 <= B2R (blend a c) <= 1 /\ Rabs (B2R (blend a c) - (w7 * B2R a + w3 * B2R c)) <= / 6000000.
Proof.
  intros a c Fa Fc A C. unfold blend. destruct lit7 as (F7 & V7), lit3 as (F3 & V3).
  set (l7 := lit 11744051 (-24)) in *. set (l3 := lit 5033165 (-24)) in *. clearbody l7 l3.
  destruct (fmul_fx a l7 Fa F7) as (Na & Ea). destruct (fmul_fx c l3 Fc F3) as (Nc & Ec). rewrite V7 in Ea. rewrite V3 in Ec.
  set (x := B2R a * w7) in *. set (y := B2R c * w3) in *.
  assert (X : 0 <= x <= w7) by (unfold x, w7; lra). assert (Y : 0 <= y <= w3) by (unfold y, w3; lra).
  destruct (fin_of_rnd _ _ Na Ea ltac:(rewrite Rabs_pos_eq; unfold w7 in *; lra)) as (Fx & Vx).
  destruct (fin_of_rnd _ _ Nc Ec ltac:(rewrite Rabs_pos_eq; unfold w3 in *; lra)) as (Fy & Vy).
  pose proof (rnd_bounds x ltac:(lra)) as Rx. pose proof (rnd_bounds y ltac:(lra)) as Ry.
  pose proof (rnd_nonneg x ltac:(lra)) as Rx0. pose proof (rnd_nonneg y ltac:(lra)) as Ry0.
  destruct (fadd_fx _ _ Fx Fy) as (Ns & Es). rewrite Vx, Vy in Es.
  pose proof eta_small as E. pose proof eta_pos as E0. rewrite u_val in *. unfold w7, w3 in *.
  destruct (fin_of_rnd _ _ Ns Es ltac:(rewrite Rabs_pos_eq; lra)) as (Fs & Vs).
  pose proof (rnd_bounds (rnd x + rnd y) ltac:(lra)) as Rs. rewrite u_val in Rs. pose proof (rnd_nonneg (rnd x + rnd y) ltac:(lra)) as Rs0.
  destruct (BayesianLikelihoodProps.fmin_B2R _ f1 Fs fin_f1) as (Ff & Vf). rewrite Vs, B2R_f1 in Vf.
  split; [exact Ff|]. split; [exact Vf|]. rewrite Vf. set (z := rnd (rnd x + rnd y)) in *. clearbody z. unfold Rmin. destruct (Rle_dec z 1).
  - split; [lra|]. apply Rabs_le. unfold x, y in *. lra.
  - split; [lra|]. apply Rabs_le. unfold x, y in *. lra.
Qed.

Lemma blend_mono : forall a b c, fin a -> fin b -> fin c -> 0 <= B2R a <= B2R b -> B2R b <= 1 -> 0 <= B2R c <= 1 ->
  fle (blend a c) (blend b c) = true.
Proof.
  intros a b c Fa Fb Fc A B C. destruct (blend_val a c Fa Fc ltac:(lra) C) as (F1 & V1 & _). destruct (blend_val b c Fb Fc ltac:(lra) C) as (F2 & V2 & _).
  apply fle_intro; [now apply fin_nn|now apply fin_nn|]. rewrite (fx_fin _ F1), (fx_fin _ F2), V1, V2.
  assert (M : rnd (rnd (B2R a * w7) + rnd (B2R c * w3)) <= rnd (rnd (B2R b * w7) + rnd (B2R c * w3))).
  { apply rnd_mono. apply Rplus_le_compat_r. apply rnd_mono. unfold w7. lra. }
  apply Rle_min_compat_r. exact M.
Qed.

Lemma score_is_blend : forall iv lag m, (lag < length iv)%nat -> score_signature iv lag m = blend (autocorr iv lag m) (consistency iv m).
Proof.
  intros iv lag m L. unfold score_signature, autocorr, consistency, blend. destruct (Nat.ltb_spec (length iv) lag); [lia|]. cbv zeta.
  set (sims := map _ _). assert (Ls : length sims = (length iv - lag)%nat) by (unfold sims; rewrite map_length, combine_length, skipn_length; lia).
  destruct (Nat.eqb_spec (length sims) 0); [lia|]. reflexivity.
Qed.

Lemma autocorr_01 : forall iv r lag, (length iv <= 4096)%nat -> (lag < length iv)%nat -> known iv r ->
  0 <= B2R (autocorr iv lag (mean iv)) <= 1.
Proof.
  intros iv r lag L Lg K. destruct (mean_known iv r ltac:(lia) K) as (Fm & Gb & M & D). apply Rabs_le_inv in M.
  assert (Dg : dm (length iv) * (sumn r (length iv) / INR (length iv)) <= / 1400 * (sumn r (length iv) / INR (length iv))) by (apply Rmult_le_compat_r; lra).
  assert (Pm : pos (mean iv)). { apply flt_intro; [reflexivity|now apply fin_nn|]. rewrite fx_f0, (fx_fin _ Fm). lra. }
  assert (I : in01 (autocorr iv lag (mean iv))).
  { unfold autocorr. cbv zeta. set (sims := map _ _).
    assert (Ls : length sims = (length iv - lag)%nat) by (unfold sims; rewrite map_length, combine_length, skipn_length; lia).
    apply Means.mean_in01.
    - intro E. rewrite E in Ls. cbn [length] in Ls. lia.
    - lia.
    - unfold sims. apply Forall_forall. intros y Hy. apply in_map_iff in Hy as ((p, q) & <- & Hp). cbn [fst snd].
      pose proof (known_Forall _ _ K) as W. apply in_combine_l in Hp as Hl. apply in_combine_r in Hp.
      assert (Hr : In q iv) by (rewrite <- (firstn_skipn lag iv); apply in_or_app; now right).
      apply similarity_in01 with (k := 3%Z); auto; [lia| |].
      + exact (proj2 (proj1 (Forall_forall _ _) W p Hl)).
      + exact (proj2 (proj1 (Forall_forall _ _) W q Hr)). }
  pose proof (in01_fin _ I) as F. destruct I as (I0 & I1). apply fle_fx in I0, I1. rewrite fx_f0, (fx_fin _ F) in I0. rewrite fx_f1, (fx_fin _ F) in I1. lra.
Qed.

Lemma score_val : forall iv r lag, (length iv <= 4096)%nat -> (lag < length iv)%nat -> known iv r -> let n := length iv in
  let s := score_signature iv lag (mean iv) in
  fin s /\ 0 <= B2R s <= 1 /\
  Rabs (B2R s - (w7 * B2R (autocorr iv lag (mean iv)) + w3 * B2R (consistency iv (mean iv)))) <= / 6000000 /\
  Rabs (B2R s - (7 / 10 * rlike n r lag + 3 / 10 * rcons n r)) <= (INR n + 40) / 2500000.
Proof.
  intros iv r lag L Lg K n s. destruct (autocorr_val iv r lag L Lg K) as (Fa & Lb & A). pose proof (autocorr_01 iv r lag L Lg K) as A1.
  destruct (consistency_val iv r ltac:(lia) K) as (Fc & C1 & Cb & C). fold n in Lb, A, Cb, C.
  unfold s. rewrite score_is_blend by exact Lg. destruct (blend_val _ _ Fa Fc A1 C1) as (F & _ & B & V).
  split; [exact F|]. split; [exact B|]. split; [exact V|].
  set (x := B2R (blend _ _)) in *. set (a := B2R (autocorr _ _ _)) in *. set (c := B2R (consistency _ _)) in *. clearbody x a c.
  set (l := rlike n r lag) in *. set (k := rcons n r) in *. clearbody l k. pose proof (pos_INR n).
  unfold w7, w3 in *. apply Rabs_le_inv in V, A, C. apply Rabs_le. lra.
Qed.
