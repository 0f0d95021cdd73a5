(** C84: HPSS puts steady tones into the harmonic and clicks into the percussive component. *)
From Coq Require Import ZArith Bool List Arith Lia Sorted Reals Lra.
From Flocq Require Import Core IEEE754.BinarySingleNaN.
From Verif Require Import Rust F32 F32Facts F32More ListFacts Bounds Threshold ThresholdProofs Onsets OnsetsProps Hpss HpssProofs HpssProps
  NoveltyProofs FourierFacts AutocorrelationValueProofs SpectrumFacts OnsetStrengthFacts.
Import ListNotations.
Local Open Scope R_scope.

(** The indices below n within margin m of i. *)
Definition near (m i n : nat) : list nat := filter (fun j => (i - m <=? j)%nat && (j <=? i + m)%nat) (seq 0 n).

Lemma filter_split : forall A (p : A -> bool) l, (length (filter p l) + length (filter (fun x => negb (p x)) l) = length l)%nat.
Proof. intros A p l. induction l as [|x l IH]; cbn [filter length]; auto. destruct (p x); cbn [negb length]; lia. Qed.
Lemma filter_le : forall A (p q : A -> bool) l, (forall x, In x l -> p x = true -> q x = true) -> (length (filter p l) <= length (filter q l))%nat.
Proof.
  intros A p q l. induction l as [|x l IH]; intros H; cbn [filter length]; auto. assert (IH' := IH (fun y Y => H y (or_intror Y))).
  destruct (p x) eqn:P; [rewrite (H x (or_introl eq_refl) P)|destruct (q x)]; cbn [length]; lia.
Qed.
Lemma filter_map_len : forall A B (g : A -> B) (p : B -> bool) l, length (filter p (map g l)) = length (filter (fun x => p (g x)) l).
Proof. intros A B g p l. induction l as [|x l IH]; cbn [map filter]; auto. destruct (p (g x)); cbn [length]; auto. Qed.

(** A value held by more than half of the window is its median. *)
Lemma majority : forall (l : list nat) (g : nat -> f32) (bad : nat -> bool) c, (forall j, In j l -> small (g j)) ->
  (2 * length (filter bad l) < length l)%nat -> (forall j, In j l -> bad j = false -> B2R (g j) = c) ->
  B2R (window_median (map g l)) = c.
Proof.
  intros l g bad c Hs Hm Hc. assert (S : Forall small (map g l)) by (apply Forall_map, Forall_forall; exact Hs).
  assert (NE : map g l <> []) by (intros E; apply map_eq_nil in E; subst l; cbn in Hm; lia).
  destruct (window_median_spec _ NE S) as (A & B). pose proof (window_median_small _ S) as Sm. set (m := window_median (map g l)) in *.
  rewrite filter_map_len, map_length in A, B. pose proof (filter_split _ bad l) as Sp. pose proof (small_fin _ Sm) as Fm.
  destruct (Rtotal_order (B2R m) c) as [Lt|[E|Gt]]; [exfalso|exact E|exfalso].
  - assert (length (filter (fun x => fle (g x) m) l) <= length (filter bad l))%nat; [|lia]. apply filter_le. intros j J L.
    destruct (bad j) eqn:Bj; [auto|exfalso]. apply fle_fx in L. rewrite !fx_fin in L by auto using small_fin. rewrite (Hc j J Bj) in L. lra.
  - assert (length (filter (fun x => negb (bad x)) l) <= length (filter (fun x => flt (g x) m) l))%nat; [|lia]. apply filter_le. intros j J Bj. apply negb_true_iff in Bj.
    apply flt_intro; auto using fin_nn, small_fin. rewrite !fx_fin by auto using small_fin. rewrite (Hc j J Bj). lra.
Qed.

Definition eps_level : R := B2R (lit 14411519 (-57)).

(** The mask of one cell. *)
Lemma mask_val : forall o mine other total, small o -> small mine -> small other -> total = fadd mine other \/ total = fadd other mine ->
  (B2R mine = 0 \/ eps_level < B2R mine) -> (B2R other = 0 \/ eps_level < B2R other) ->
  let v := B2R (soft_mask o mine total) in let r := B2R mine / (B2R mine + B2R other) in
  (B2R mine = 0 -> B2R other = 0 -> B2R o = 0 -> v = 0) /\ (B2R mine = 0 -> B2R other <> 0 -> v = 0) /\ (B2R other = 0 -> B2R mine <> 0 -> v = B2R o) /\
  (B2R mine <> 0 -> B2R other <> 0 -> Rabs (v - B2R o * r) <= B2R o * / 4000000 + bpow radix2 (-149)).
Proof.
  intros o mine other total So Sm Sr Ht Lm Lr. cbv zeta.
  assert (P : forall x, small x -> fin x /\ 0 <= B2R x <= bpow radix2 126).
  { intros x Sx. pose proof (small_fin _ Sx) as F. destruct Sx as (A & B). apply fle_fx in A, B. rewrite !fx_fin in A, B by (auto; reflexivity). split; auto.
    replace (bpow radix2 126) with (B2R bound126); [split; auto|]. rewrite <- SF2R_B2SF. replace (B2SF bound126) with (SpecFloat.S754_finite false 8388608 103) by (vm_compute; reflexivity).
    cbn [SF2R cond_Zopp]. unfold F2R. cbn [Fnum Fexp]. change 8388608%Z with (2 ^ 23)%Z. rewrite (IZR_Zpower radix2) by lia. rewrite <- bpow_plus. reflexivity. }
  destruct (P _ So) as (Fo & Bo). destruct (P _ Sm) as (Fm & Bm). destruct (P _ Sr) as (Fr & Br).
  assert (T : fin total /\ B2R total = rnd (B2R mine + B2R other)).
  { destruct Ht as [-> | ->].
    - destruct (small_sum _ _ Sm Sr) as (F & _). split; [exact F|]. now rewrite B2R_fadd by auto.
    - destruct (small_sum _ _ Sr Sm) as (F & _). split; [exact F|]. rewrite B2R_fadd by auto. now rewrite Rplus_comm. }
  destruct T as (Ft & Et). clear Ht. set (a := B2R mine) in *. set (c := B2R other) in *. set (x := B2R o) in *.
  assert (E0 : 0 < eps_level) by (unfold eps_level; rewrite <- fx_fin by reflexivity; apply pos_fx; reflexivity).
  assert (Ra : rnd a = a) by apply rnd_B2R. assert (Rc : rnd c = c) by apply rnd_B2R. assert (Rx : rnd x = x) by apply rnd_B2R.
  assert (Hbig : bpow radix2 126 < big) by (apply bpow_lt; lia).
  assert (MU : forall w, fin w -> 0 <= B2R w <= 1 -> fin (fmul o w) /\ B2R (fmul o w) = rnd (x * B2R w)).
  { intros w Fw Bw. destruct (fmul_fx o w Fo Fw) as (N & E). fold x in E.
    assert (0 <= rnd (x * B2R w) <= bpow radix2 126). { split; [apply rnd_nonneg; nra|]. rewrite <- (rnd_bpow 126) by lia. apply rnd_mono. nra. }
    rewrite sat_id in E by lra. assert (F : fin (fmul o w)) by (apply fin_iff; auto; rewrite E; lra). split; [exact F|]. now rewrite fx_fin in E by exact F. }
  unfold soft_mask. destruct (fgt total (lit 14411519 (-57))) eqn:G.
  - assert (Pt : eps_level < B2R total). { apply flt_fx in G. rewrite !fx_fin in G by (auto; reflexivity). exact G. }
    assert (Mt : a <= B2R total) by (rewrite Et, <- Ra; apply rnd_mono; lra).
    assert (Q0 : 0 <= a / B2R total <= 1) by (split; [apply quot_nonneg; lra|apply quot_le_1; lra]).
    destruct (fdiv_fx mine total Fm Ft ltac:(lra)) as (Nq & Eq). fold a in Eq.
    assert (R0 : 0 <= rnd (a / B2R total) <= 1). { split; [apply rnd_nonneg; lra|]. apply Rle_trans with (rnd (IZR 1)); [apply rnd_mono; lra|rewrite rnd_Z by lia; lra]. }
    assert (B1 : 1 < big) by (change 1 with (bpow radix2 0); apply bpow_lt; lia). rewrite sat_id in Eq by lra.
    assert (Fq : fin (fdiv mine total)) by (apply fin_iff; auto; rewrite Eq; lra). rewrite fx_fin in Eq by exact Fq.
    destruct (MU (fdiv mine total) Fq ltac:(rewrite Eq; exact R0)) as (_ & Ev). rewrite Ev, Eq. clear Ev.
    repeat split.
    + intros A0 _ _. rewrite A0. unfold Rdiv. now rewrite Rmult_0_l, rnd_0, Rmult_0_r, rnd_0.
    + intros A0 _. rewrite A0. unfold Rdiv. now rewrite Rmult_0_l, rnd_0, Rmult_0_r, rnd_0.
    + intros C0 A0. assert (Ee : B2R total = a) by (rewrite Et, C0, Rplus_0_r; exact Ra). rewrite Ee. replace (a / a) with (IZR 1) by (field; exact A0). rewrite rnd_Z by lia. now rewrite Rmult_1_r.
    + intros A0 C0. pose proof (rnd_near (a + c)) as N1. rewrite (Rabs_pos_eq (a + c)) in N1 by lra. rewrite <- Et in N1. set (s := B2R total) in *.
      pose proof (rnd_near (a / s)) as N2. rewrite (Rabs_pos_eq (a / s)) in N2 by lra. pose proof (rnd_near (x * rnd (a / s))) as N3. rewrite (Rabs_pos_eq (x * rnd (a / s))) in N3 by nra.
      set (q := a / s) in *. set (w := rnd q) in *. set (v := rnd (x * w)) in *.
      assert (Lt : tiny <= / 1000000000000). { eapply Rle_trans; [apply (bpow_le radix2 _ (-40)); lia|]. simpl. lra. }
      assert (Le : tiny <= / 1000000000000 * eps_level).
      { unfold eps_level. rewrite <- SF2R_B2SF. replace (B2SF (lit 14411519 (-57))) with (SpecFloat.S754_finite false 14411519 (-57)) by (vm_compute; reflexivity). cbn [SF2R cond_Zopp]. unfold F2R. cbn [Fnum Fexp].
        apply Rle_trans with (bpow radix2 (-100)); [apply bpow_le; lia|]. change (-100)%Z with (-43 + -57)%Z. rewrite bpow_plus. rewrite <- Rmult_assoc. apply Rmult_le_compat_r; [apply bpow_ge_0|]. simpl. lra. }
      assert (T149 : tiny <= bpow radix2 (-149)) by (apply bpow_le; lia). pose proof tiny_pos.
      set (r := a / (a + c)). assert (Er : a = r * (a + c)) by (unfold r; field; lra). assert (Eqs : a = q * s) by (unfold q; field; lra). assert (r01 : 0 <= r <= 1) by (unfold r; split; [apply quot_nonneg; lra|apply quot_le_1; lra]).
      assert (D : Rabs (q - r) <= 2 * u24). 
      { replace (q - r) with (r * ((a + c) - s) / s) by (apply Rmult_eq_reg_r with s; [|lra]; unfold Rdiv; rewrite Rmult_assoc, Rinv_l by lra; lra).
        unfold Rdiv. rewrite !Rabs_mult, (Rabs_pos_eq r), (Rabs_pos_eq (/ s)) by (first [lra|left; apply Rinv_0_lt_compat; lra]).
        apply Rmult_le_reg_r with s; [lra|]. rewrite Rmult_assoc, Rinv_l by lra. rewrite Rabs_minus_sym in N1. assert (eps_level < a + c) by lra. unfold u24 in *. apply Rabs_le_inv in N1 as N1'.
        apply Rle_trans with (1 * (/ 16777216 * (a + c) + tiny)); [|lra]. rewrite Rmult_1_r. apply Rmult_le_compat; [lra|apply Rabs_pos|lra|exact N1]. }
      assert (Dw : Rabs (w - r) <= 3 * u24 + tiny). { apply Rabs_le_inv in D. apply Rabs_le_inv in N2. apply Rabs_le. unfold u24 in *. nra. }
      apply Rabs_le_inv in N3. apply Rabs_le_inv in Dw. assert (X1 : x * w - x * r <= x * (3 * u24 + tiny)) by nra. assert (X2 : - (x * (3 * u24 + tiny)) <= x * w - x * r) by nra.
      assert (X3 : x * w <= x) by nra. assert (X4 : x * tiny <= x * / 1000000000000) by nra. apply Rabs_le. unfold u24 in *. split; lra.
  - assert (Ng : B2R total <= eps_level). { destruct (Rle_or_lt (B2R total) eps_level) as [L|L]; [exact L|exfalso]. assert (fgt total (lit 14411519 (-57)) = true); [|congruence]. apply flt_intro; auto using fin_nn. rewrite !fx_fin by (auto; reflexivity). exact L. }
    assert (Za : a = 0). { destruct Lm as [Z|Z]; [exact Z|exfalso]. assert (a <= B2R total) by (rewrite Et, <- Ra; apply rnd_mono; lra). lra. }
    assert (Zc : c = 0). { destruct Lr as [Z|Z]; [exact Z|exfalso]. assert (c <= B2R total) by (rewrite Et, <- Rc; apply rnd_mono; lra). lra. }
    destruct (MU fhalf eq_refl ltac:(rewrite B2R_fhalf; lra)) as (_ & Ev). rewrite Ev, B2R_fhalf.
    repeat split; try (intros; lra). intros _ _ X0. rewrite X0, Rmult_0_l. apply rnd_0.
Qed.

(** What the loop keeps: tones off the clicks in the harmonic part, clicks off the tones in the percussive part. *)
Definition kept (nf nb : nat) (click tone : nat -> bool) (K T : nat -> R) (h p : list (list f32)) : Prop :=
  forall f b, (f < nf)%nat -> (b < nb)%nat ->
    small (cell h f b) /\ small (cell p f b) /\ (click f = false -> B2R (cell h f b) = T b) /\ (tone b = false -> B2R (cell p f b) = K f).

(** One cell after a pass. *)
Definition separated (click tone : nat -> bool) (K T : nat -> R) (x y z : f32) (f b : nat) : Prop :=
  (click f = false -> B2R y = T b /\ B2R z = 0) /\ (tone b = false -> B2R y = 0 /\ B2R z = K f) /\
  (click f = true -> tone b = true ->
     Rabs (B2R y - B2R x * (T b / (T b + K f))) <= B2R x * / 4000000 + bpow radix2 (-149) /\
     Rabs (B2R z - B2R x * (K f / (T b + K f))) <= B2R x * / 4000000 + bpow radix2 (-149)).

Section Loop.
  Variables (spec : list (list f32)) (nf nb margin : nat) (click tone : nat -> bool) (K T : nat -> R).
  Hypothesis Sm : cells nf nb small spec.
  Hypothesis HK : forall f, if click f then eps_level < K f else K f = 0.
  Hypothesis HT : forall b, if tone b then eps_level < T b else T b = 0.
  Hypothesis HS : forall f b, (f < nf)%nat -> (b < nb)%nat -> (click f = false -> B2R (cell spec f b) = T b) /\ (tone b = false -> B2R (cell spec f b) = K f).
  Hypothesis WF : forall f, (f < nf)%nat -> (2 * length (filter click (near margin f nf)) < length (near margin f nf))%nat.
  Hypothesis WB : forall b, (b < nb)%nat -> (2 * length (filter tone (near margin b nb)) < length (near margin b nb))%nat.

  Lemma pass : forall h p f b, kept nf nb click tone K T h p -> (f < nf)%nat -> (b < nb)%nat ->
    let hf := horizontal nf nb margin h in let pf := vertical nf nb margin p in
    separated click tone K T (cell spec f b) (soft_mask (cell spec f b) (cell hf f b) (fadd (cell hf f b) (cell pf f b)))
      (soft_mask (cell spec f b) (cell pf f b) (fadd (cell hf f b) (cell pf f b))) f b.
  Proof.
    intros h p f b I Hf Hb hf pf. unfold kept in I.
    assert (Sh : small (cell hf f b)) by (apply horizontal_small; auto; intros f' b' F B; apply I; auto).
    assert (Sp : small (cell pf f b)) by (apply vertical_small; auto; intros f' b' F B; apply I; auto).
    assert (Eh : B2R (cell hf f b) = T b).
    { unfold hf, horizontal. rewrite cell_tabulate, window_filter by auto. apply majority with (bad := click); [|now apply WF|].
      - intros j J. apply I; auto. apply filter_In in J as (J & _). apply in_seq in J. lia.
      - intros j J Cj. apply I; auto. apply filter_In in J as (J & _). apply in_seq in J. lia. }
    assert (Ep : B2R (cell pf f b) = K f).
    { unfold pf, vertical. rewrite cell_tabulate, window_filter by auto. apply majority with (bad := tone); [|now apply WB|].
      - intros j J. apply I; auto. apply filter_In in J as (J & _). apply in_seq in J. lia.
      - intros j J Cj. apply I; auto. apply filter_In in J as (J & _). apply in_seq in J. lia. }
    pose proof (HK f) as HKf. pose proof (HT b) as HTb. destruct (HS f b Hf Hb) as (S1 & S2).
    assert (E0 : 0 < eps_level) by (unfold eps_level; rewrite <- fx_fin by reflexivity; apply pos_fx; reflexivity).
    assert (LT : B2R (cell hf f b) = 0 \/ eps_level < B2R (cell hf f b)) by (rewrite Eh; destruct (tone b); auto).
    assert (LK : B2R (cell pf f b) = 0 \/ eps_level < B2R (cell pf f b)) by (rewrite Ep; destruct (click f); auto).
    destruct (mask_val (cell spec f b) _ _ (fadd (cell hf f b) (cell pf f b)) (Sm f b Hf Hb) Sh Sp (or_introl eq_refl) LT LK) as (A1 & A2 & A3 & A4).
    destruct (mask_val (cell spec f b) _ _ (fadd (cell hf f b) (cell pf f b)) (Sm f b Hf Hb) Sp Sh (or_intror eq_refl) LK LT) as (B1 & B2 & B3 & B4).
    rewrite Eh, Ep in *. rewrite (Rplus_comm (K f) (T b)) in B4. unfold separated. destruct (click f), (tone b); (split; [|split]); try discriminate.
    - intros _ _. split; [apply A4; lra|apply B4; lra].
    - intros _. rewrite (S2 eq_refl) in *. split; [apply A2; lra|apply B3; lra].
    - intros _. rewrite (S1 eq_refl) in *. split; [apply A3; lra|apply B2; lra].
    - intros _. rewrite (S1 eq_refl) in *. split; [rewrite HTb; apply A1; lra|apply B1; lra].
    - intros _. rewrite (S2 eq_refl) in *. split; [apply A1; lra|rewrite HKf; apply B1; lra].
  Qed.

  Lemma separated_kept : forall h p, (forall f b, (f < nf)%nat -> (b < nb)%nat -> small (cell h f b) /\ small (cell p f b) /\ separated click tone K T (cell spec f b) (cell h f b) (cell p f b) f b) ->
    kept nf nb click tone K T h p.
  Proof. intros h p H f b Hf Hb. destruct (H f b Hf Hb) as (A & B & S1 & S2 & _). split; [exact A|]. split; [exact B|]. split; intros E; [apply S1|apply S2]; exact E. Qed.

  Lemma loop_separates : forall n it h p, kept nf nb click tone K T h p ->
    let r := hpss_loop spec nf nb margin (S n) it h p in
    forall f b, (f < nf)%nat -> (b < nb)%nat -> separated click tone K T (cell spec f b) (cell (fst r) f b) (cell (snd r) f b) f b.
  Proof.
    intros n. induction n as [|n IH]; intros it h p I.
    all: set (hf := horizontal nf nb margin h); set (pf := vertical nf nb margin p).
    all: set (h' := tabulate nf nb (fun f b => soft_mask (cell spec f b) (cell hf f b) (fadd (cell hf f b) (cell pf f b)))).
    all: set (p' := tabulate nf nb (fun f b => soft_mask (cell spec f b) (cell pf f b) (fadd (cell hf f b) (cell pf f b)))).
    all: assert (BASE : forall f b, (f < nf)%nat -> (b < nb)%nat -> separated click tone K T (cell spec f b) (cell h' f b) (cell p' f b) f b)
      by (intros f b Hf Hb; unfold h', p'; rewrite !cell_tabulate by auto; now apply pass).
    - intros r f b Hf Hb. unfold r. cbn [hpss_loop]. fold hf pf. fold h' p'. destruct (_ && _); now apply BASE.
    - intros r. unfold r. change (hpss_loop spec nf nb margin (S (S n)) it h p) with
        (if ((0 <? it)%nat && flt (max_change nf nb h' h p' p) (lit 8796093 (-43)))%bool then (h', p')
         else hpss_loop spec nf nb margin (S n) (S it) h' p').
      destruct (_ && _); [exact BASE|]. apply IH. apply separated_kept. intros f b Hf Hb.
      assert (Ch : cells nf nb small h) by (intros f' b' F B; now apply I). assert (Cp : cells nf nb small p) by (intros f' b' F B; now apply I).
      assert (Sh : small (cell hf f b)) by (now apply horizontal_small). assert (Sp : small (cell pf f b)) by (now apply vertical_small). pose proof (Sm f b Hf Hb) as So.
      assert (UP : forall y, nneg y /\ fle y (cell spec f b) = true -> small y) by (intros y (Y1 & Y2); split; [exact Y1|eapply fle_trans; [exact Y2|apply So]]).
      split; [|split; [|now apply BASE]]; unfold h', p'; rewrite cell_tabulate by auto; apply UP.
      + apply (soft_mask_bound _ _ (cell pf f b)); auto.
      + apply (soft_mask_bound _ _ (cell hf f b)); auto.
  Qed.
End Loop.

(** Tones of constant level T b in the bins [tone], clicks of level K f in the frames [click] spread
    over all bins, anything where the two cross.  If within every window of frames fewer than half are
    clicks and within every window of bins fewer than half are tones, the harmonic component is exactly
    the tones and the percussive component exactly the clicks, and a crossing is shared in the
    proportion T : K. *)
Theorem C84_separation : forall spec margin h p (click tone : nat -> bool) (K T : nat -> R), hpss_decompose spec margin = Ok (h, p) ->
  (forall f b x, at_ spec f b = Some x -> fle f0 x = true /\ fle x (lit 1 126) = true) ->
  (forall f, if click f then B2R (lit 14411519 (-57)) < K f else K f = 0) ->
  (forall b, if tone b then B2R (lit 14411519 (-57)) < T b else T b = 0) ->
  (forall f b x, at_ spec f b = Some x -> (click f = false -> B2R x = T b) /\ (tone b = false -> B2R x = K f)) ->
  (forall f, (f < length spec)%nat -> (2 * length (filter click (near margin f (length spec))) < length (near margin f (length spec)))%nat) ->
  (forall b fr, In fr spec -> (b < length fr)%nat -> (2 * length (filter tone (near margin b (length fr))) < length (near margin b (length fr)))%nat) ->
  forall f b x, at_ spec f b = Some x -> exists y z, at_ h f b = Some y /\ at_ p f b = Some z /\
    (click f = false -> B2R y = T b /\ B2R z = 0) /\ (tone b = false -> B2R y = 0 /\ B2R z = K f) /\
    (click f = true -> tone b = true ->
       Rabs (B2R y - B2R x * (T b / (T b + K f))) <= B2R x * / 4000000 + bpow radix2 (-149) /\
       Rabs (B2R z - B2R x * (K f / (T b + K f))) <= B2R x * / 4000000 + bpow radix2 (-149)).
Proof.
  intros spec margin h p click tone K T H Hb HK HT HS WF WB f b x Hx. destruct (decompose_ok _ _ _ _ H) as (nb & _ & Sh & E).
  assert (C : cells (length spec) nb small spec).
  { intros f' b' F B. apply (Hb f' b'). now apply (shaped_at (length spec) nb). }
  assert (HS' : forall f b, (f < length spec)%nat -> (b < nb)%nat -> (click f = false -> B2R (cell spec f b) = T b) /\ (tone b = false -> B2R (cell spec f b) = K f)).
  { intros f' b' F B. apply (HS f' b'). now apply (shaped_at (length spec) nb). }
  assert (WB' : forall b, (b < nb)%nat -> (2 * length (filter tone (near margin b nb)) < length (near margin b nb))%nat).
  { intros b' B. destruct Sh as (Ls & Fs). destruct spec as [|fr r]; [unfold at_ in Hx; destruct f; discriminate|]. rewrite Forall_forall in Fs. assert (Lf := Fs fr (or_introl eq_refl)).
    specialize (WB b' fr (or_introl eq_refl)). rewrite Lf in WB. now apply WB. }
  destruct (hpss_loop_inv spec (length spec) nb margin 9 0 spec spec C C C) as (S1 & S2 & _).
  pose proof (loop_separates spec (length spec) nb margin click tone K T C HK HT HS' WF WB' 9 0 spec spec) as L. cbv zeta in L. rewrite E in *. cbn [fst snd] in *.
  destruct (at_bounds _ _ _ _ _ _ Sh Hx) as (F & B). specialize (L ltac:(intros f' b' F' B'; split; [|split]; [now apply C|now apply C|now apply HS']) f b F B).
  rewrite (at_cell _ _ _ _ Hx) in L. exists (cell h f b), (cell p f b). split; [eapply shaped_at; eauto|]. split; [eapply shaped_at; eauto|]. exact L.
Qed.
Print Assumptions C84_separation.

(** A tone of level 3 in bin 2 and a click of level 5 in frame 2, 8 where they meet; margin 1. *)
Example C84_case :
  let spec := map (fun f => map (fun b => match (f =? 2)%nat, (b =? 2)%nat with true, true => z2f 8 | true, false => z2f 5 | false, true => z2f 3 | _, _ => f0 end) (seq 0 5)) (seq 0 5) in
  omap (fun r => (map (map f2i32) (fst r), map (map f2i32) (snd r))) (hpss_decompose spec 1) =
  Ok ([[0; 0; 3; 0; 0]; [0; 0; 3; 0; 0]; [0; 0; 3; 0; 0]; [0; 0; 3; 0; 0]; [0; 0; 3; 0; 0]],
      [[0; 0; 0; 0; 0]; [0; 0; 0; 0; 0]; [5; 5; 5; 5; 5]; [0; 0; 0; 0; 0]; [0; 0; 0; 0; 0]])%Z.
Proof. vm_compute. reflexivity. Qed.
