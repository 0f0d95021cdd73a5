(** C15, C51: harmonic/percussive separation. *)
From Coq Require Import ZArith Bool List Arith Lia Sorted Reals Lra.
From Flocq Require Import Core IEEE754.BinarySingleNaN.
From Verif Require Import Rust F32 F32Facts F32More ListFacts Threshold ThresholdProofs Onsets OnsetsProps Hpss HpssProofs.
Import ListNotations.

(** Entry (f, b) of a spectrogram. *)
Definition at_ (s : list (list f32)) (f b : nat) : option f32 :=
  match nth_error s f with Some r => nth_error r b | None => None end.

Lemma at_cell : forall s f b x, at_ s f b = Some x -> cell s f b = x.
Proof.
  intros s f b x H. unfold at_ in H. destruct (nth_error s f) as [r|] eqn:R; [|discriminate].
  unfold cell. rewrite (nth_error_nth s f [] R). now apply nth_error_nth.
Qed.
Lemma shaped_at : forall nf nb s f b, shaped nf nb s -> f < nf -> b < nb -> at_ s f b = Some (cell s f b).
Proof.
  intros nf nb s f b (L & H) Hf Hb. unfold at_.
  destruct (nth_error s f) as [r|] eqn:R; [|apply nth_error_None in R; lia].
  rewrite Forall_forall in H. pose proof (H r (nth_error_In _ _ R)) as Hr.
  destruct (nth_error r b) as [x|] eqn:X; [|apply nth_error_None in X; lia].
  f_equal. symmetry. apply at_cell. unfold at_. now rewrite R.
Qed.
Lemma at_bounds : forall nf nb s f b x, shaped nf nb s -> at_ s f b = Some x -> f < nf /\ b < nb.
Proof.
  intros nf nb s f b x (L & H) E. unfold at_ in E. destruct (nth_error s f) as [r|] eqn:R; [|discriminate].
  rewrite Forall_forall in H. pose proof (H r (nth_error_In _ _ R)) as Hr.
  assert (f < length s) by (apply nth_error_Some; congruence).
  assert (b < length r) by (apply nth_error_Some; congruence). lia.
Qed.

Lemma Ok_eq : forall A (a b : A), Ok a = Ok b -> a = b.
Proof. intros A a b H. now inversion H. Qed.
Lemma decompose_ok : forall spec margin h p, hpss_decompose spec margin = Ok (h, p) ->
  exists nb, 0 < nb /\ shaped (length spec) nb spec /\
    hpss_loop spec (length spec) nb margin 10 0 spec spec = (h, p).
Proof.
  intros spec margin h p H. unfold hpss_decompose in H. destruct spec as [|fr spec]; [discriminate|].
  destruct (Nat.eqb_spec (length fr) 0); [discriminate|].
  destruct (rectangular (length fr) (fr :: spec)) eqn:R; [|discriminate]. cbn [negb] in H.
  apply Ok_eq in H. exists (length fr). split; [lia|]. split; auto. split; auto.
  now apply rectangular_iff.
Qed.

Lemma loop_shape : forall spec nf nb margin n it h p,
  shaped nf nb (fst (hpss_loop spec nf nb margin (S n) it h p)) /\
  shaped nf nb (snd (hpss_loop spec nf nb margin (S n) it h p)).
Proof.
  intros spec nf nb margin n. induction n as [|n IH]; intros it h p.
  - cbn [hpss_loop]. destruct (_ && _); split; apply tabulate_shaped.
  - remember (S n) as m. cbn [hpss_loop]. destruct (_ && _); [split; apply tabulate_shaped|]. apply IH.
Qed.

(** Outcomes: only empty or ragged input is rejected; nothing panics. *)
Theorem C15_outcomes : forall spec margin,
  (hpss_decompose spec margin = Err InvalidInput <->
     spec = [] \/ exists fr r, spec = fr :: r /\ (fr = [] \/ ~ rect (length fr) spec)) /\
  (hpss_decompose spec margin = Err InvalidInput \/ exists r, hpss_decompose spec margin = Ok r).
Proof.
  intros spec margin. unfold hpss_decompose. destruct spec as [|fr spec]; [split; [split|]; auto|].
  destruct (Nat.eqb_spec (length fr) 0).
  { split; auto. split; auto. intros _. right. exists fr, spec. split; auto. left.
    now apply length_zero_iff_nil. }
  pose proof (rectangular_iff (length fr) (fr :: spec)) as R.
  destruct (rectangular (length fr) (fr :: spec)); cbn [negb].
  - split; eauto. split; [discriminate|]. intros [E|(a & b & [= <- <-] & [-> |E])]; [discriminate| |].
    + simpl in n. lia.
    + exfalso. apply E. now apply R.
  - split; auto. split; auto. intros _. right. exists fr, spec. split; auto. right. intros C.
    apply R in C. discriminate.
Qed.
Print Assumptions C15_outcomes.

(** C15: the components have the shape of the input, for arbitrary values ... *)
Theorem C15_shape : forall spec margin h p, hpss_decompose spec margin = Ok (h, p) ->
  map (@length f32) h = map (@length f32) spec /\ map (@length f32) p = map (@length f32) spec.
Proof.
  intros spec margin h p H. destruct (decompose_ok _ _ _ _ H) as (nb & _ & (L & Hs) & E).
  destruct (loop_shape spec (length spec) nb margin 9 0 spec spec) as ((A1 & A2) & (B1 & B2)).
  rewrite E in *. cbn [fst snd] in *.
  assert (G : forall (s : list (list f32)), length s = length spec -> Forall (fun f => length f = nb) s ->
     map (@length f32) s = repeat nb (length spec)).
  { intros s <- F. clear -F. induction F as [|x s Hx F IH]; auto. cbn [map length repeat]. now rewrite Hx, IH. }
  rewrite !G; auto.
Qed.
Print Assumptions C15_shape.

(** ... and for magnitudes between 0 and 2^126 every harmonic and percussive entry lies
    between 0 and the input entry: no energy is created. *)
Theorem C15_bounded : forall spec margin h p, hpss_decompose spec margin = Ok (h, p) ->
  (forall f b x, at_ spec f b = Some x -> fle f0 x = true /\ fle x (lit 1 126) = true) ->
  forall f b x, at_ spec f b = Some x ->
  exists y z, at_ h f b = Some y /\ at_ p f b = Some z /\
    fle f0 y = true /\ fle y x = true /\ fle f0 z = true /\ fle z x = true.
Proof.
  intros spec margin h p H Hb f b x Hx. destruct (decompose_ok _ _ _ _ H) as (nb & _ & Sh & E).
  assert (C : cells (length spec) nb small spec).
  { intros f' b' F B. apply (Hb f' b'). now apply (shaped_at (length spec) nb). }
  destruct (hpss_loop_inv spec (length spec) nb margin 9 0 spec spec C C C) as (SH & SP & I).
  rewrite E in *. cbn [fst snd] in *.
  destruct (at_bounds _ _ _ _ _ _ Sh Hx) as (F & B).
  destruct (I f b F B) as (A1 & A2 & A3 & A4 & _). rewrite (at_cell _ _ _ _ Hx) in *.
  exists (cell h f b), (cell p f b). repeat split; auto; eapply shaped_at; eauto.
Qed.
Print Assumptions C15_bounded.

(** Finite but huge magnitudes (here 2^127) overflow in the median and give NaN, and the
    convergence check, whose f32::max drops NaN, then stops with it. *)
Theorem C15_huge_refuted : exists spec margin,
  Forall (Forall (fun x => fin x /\ fle f0 x = true)) spec /\
  omap (fun r => map (map fisnan) (fst r)) (hpss_decompose spec margin) = Ok [[false; true; false]; [false; true; false]].
Proof.
  exists [[f0; lit 1 127; f0]; [f0; lit 1 127; f0]], 1. split; [repeat constructor|]. vm_compute. reflexivity.
Qed.
Print Assumptions C15_huge_refuted.

(** The filters behind the masks are medians over exactly the cells within the margin: horizontally over the frames, and
    vertically over the bins; at most half of those cells lie below the result and at least half at or below it. *)
Theorem C15_median : forall nf nb margin s f b, f < nf -> b < nb ->
  (forall f b, f < nf -> b < nb -> fle f0 (nth b (nth f s []) f0) = true /\ fle (nth b (nth f s []) f0) (lit 1 126) = true) ->
  let rows := map (fun j => nth b (nth j s []) f0) (filter (fun j => (f - margin <=? j) && (j <=? f + margin)) (seq 0 nf)) in
  let cols := map (fun j => nth j (nth f s []) f0) (filter (fun j => (b - margin <=? j) && (j <=? b + margin)) (seq 0 nb)) in
  let h := nth b (nth f (horizontal nf nb margin s) []) f0 in
  let v := nth b (nth f (vertical nf nb margin s) []) f0 in
  (2 * length (filter (fun x => flt x h) rows) <= length rows <= 2 * length (filter (fun x => fle x h) rows)) /\
  (2 * length (filter (fun x => flt x v) cols) <= length cols <= 2 * length (filter (fun x => fle x v) cols)).
Proof.
  intros nf nb margin s f b Hf Hb H. cbv zeta.
  assert (C : cells nf nb small s) by exact H.
  change (nth b (nth f (horizontal nf nb margin s) []) f0) with (cell (horizontal nf nb margin s) f b).
  change (nth b (nth f (vertical nf nb margin s) []) f0) with (cell (vertical nf nb margin s) f b).
  unfold horizontal, vertical. rewrite !cell_tabulate by auto. rewrite <- !window_filter by auto.
  assert (In f (window margin f nf) /\ In b (window margin b nb)) as (If & Ib).
  { unfold window. split; apply in_seq; lia. }
  split.
  - apply window_median_spec; [intros E; apply map_eq_nil in E; now rewrite E in If|].
    apply Forall_map, Forall_forall. intros j Hj. apply C; auto. eapply window_in; eauto.
  - apply window_median_spec; [intros E; apply map_eq_nil in E; now rewrite E in Ib|].
    apply Forall_map, Forall_forall. intros j Hj. apply C; auto. eapply window_in; eauto.
Qed.
Print Assumptions C15_median.

(** Margin 1 in the middle of 1, 5, 3: the median of all three. *)
Example C15_median_example :
  f2i32 (cell (vertical 1 3 1 [[f1; z2f 5; z2f 3]]) 0 1) = 3%Z /\ f2i32 (cell (horizontal 3 1 1 [[f1]; [z2f 5]; [z2f 3]]) 1 0) = 3%Z.
Proof. vm_compute. auto. Qed.

(** C51: the two components add up to the input, with relative error at most 2^-21 (plus one
    subnormal quantum): the intention stated at hpss.rs:129. *)
Theorem C51_sum : forall spec margin h p, hpss_decompose spec margin = Ok (h, p) ->
  (forall f b x, at_ spec f b = Some x -> fle f0 x = true /\ fle x (lit 1 126) = true) ->
  forall f b x y z, at_ spec f b = Some x -> at_ h f b = Some y -> at_ p f b = Some z ->
  (Rabs (B2R y + B2R z - B2R x) <= B2R x / 2 ^ 21 + / 2 ^ 149)%R.
Proof.
  intros spec margin h p H Hb f b x y z Hx Hy Hz. destruct (decompose_ok _ _ _ _ H) as (nb & _ & Sh & E).
  assert (C : cells (length spec) nb small spec).
  { intros f' b' F B. apply (Hb f' b'). now apply (shaped_at (length spec) nb). }
  destruct (hpss_loop_inv spec (length spec) nb margin 9 0 spec spec C C C) as (SH & SP & I).
  rewrite E in *. cbn [fst snd] in *.
  destruct (at_bounds _ _ _ _ _ _ Sh Hx) as (F & B).
  destruct (I f b F B) as (_ & _ & _ & _ & hm & pm & S1 & S2 & E1 & E2).
  rewrite (at_cell _ _ _ _ Hx), (at_cell _ _ _ _ Hy) in E1.
  rewrite (at_cell _ _ _ _ Hx), (at_cell _ _ _ _ Hz) in E2. subst y z.
  assert (So : small x) by (apply (Hb f b); auto).
  pose proof (mask_sum x hm pm So S1 S2) as M.
  replace (/ 2 ^ 149)%R with (2 * eta)%R.
  - unfold Rdiv. replace (/ 2 ^ 21)%R with (/ 2097152)%R by (simpl; lra). exact M.
  - unfold eta. change (-150)%Z with (- (150))%Z. rewrite bpow_opp.
    replace (bpow radix2 150) with (2 * 2 ^ 149)%R; [|rewrite (pow_IZR 2 149); unfold bpow; rewrite <- mult_IZR; f_equal].
    assert (2 ^ 149 <> 0)%R by (apply pow_nonzero; lra). generalize dependent (2 ^ 149)%R. intros r Hr. now field.
Qed.
Print Assumptions C51_sum.

(** A 3x2 spectrogram with a click in the middle frame: the click goes to the percussive
    part (larger than the harmonic part there). *)
Example C15_case :
  omap (fun r => flt (cell (fst r) 1 0) (cell (snd r) 1 0))
    (hpss_decompose [[lit 1 (-4); lit 1 (-4)]; [f1; f1]; [lit 1 (-4); lit 1 (-4)]] 1) = Ok true.
Proof. vm_compute. reflexivity. Qed.
