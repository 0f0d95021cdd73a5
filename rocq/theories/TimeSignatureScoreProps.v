(** C87: the reported time signature is the one whose bar length best repeats the pattern of beat intervals. *)
From Coq Require Import ZArith Reals Lra Lia.
From Flocq Require Import Core.
From Verif Require Import Rust F32 F32Facts F32More ListFacts Bounds PeakPicking Onsets TimeSignature TimeSignatureProofs TimeSignatureProps
  FourierFacts TimeSignatureScoreFacts.
From Verif Require BayesianLikelihoodProps KeyProfileFacts.
Local Open Scope R_scope.

(** ** What the signature is about *)

(** The [i]-th interval between beats, in seconds, and the number of intervals. *)
Definition gap (beats : list f32) (i : nat) : R := B2R (nth (i + 1) beats f0) - B2R (nth i beats f0).
Definition gaps (beats : list f32) : nat := (length beats - 1)%nat.
Definition mean_gap (beats : list f32) : R := sumn (gap beats) (gaps beats) / INR (gaps beats).
(** Beats in a bar. *)
Definition bar (t : time_signature) : nat := match t with FourFour => 4 | ThreeFour => 3 | SixEight => 6 end.
(** How alike the intervals are a bar apart: 1 when the pattern repeats exactly, and less the more they differ. *)
Definition likeness (beats : list f32) (t : time_signature) : R :=
  sumn (fun i => 1 / (1 + Rabs (gap beats i - gap beats (i + bar t)) / mean_gap beats)) (gaps beats - bar t) / INR (gaps beats - bar t).
(** How regular the beats are altogether: standard deviation relative to the mean. *)
Definition regularity (beats : list f32) : R :=
  1 / (1 + sqrt (sumn (fun i => (gap beats i - mean_gap beats) * (gap beats i - mean_gap beats)) (gaps beats) / INR (gaps beats)) / mean_gap beats).

(** Finite beat times between 15 and 480 beats a minute. *)
Definition musical (beats : list f32) : Prop :=
  Forall (fun x => fin x) beats /\ (8 <= length beats <= 4097)%nat /\ forall i, (i + 1 < length beats)%nat -> / 8 <= gap beats i <= 4.
(** What float arithmetic blurs. *)
Definition blur (beats : list f32) : R := (INR (gaps beats) + 40) / 1300000.

(** ** Connection with the lemmas *)
Lemma rgap_gap : forall beats i, rgap beats i = gap beats i.
Proof. intros. unfold rgap, gap. now rewrite Nat.add_1_r. Qed.

Lemma musical_known : forall beats, musical beats -> length (intervals beats) = gaps beats /\ (7 <= gaps beats <= 4096)%nat /\
  known (intervals beats) (gap beats).
Proof.
  intros beats (F & L & G).
  assert (G' : forall i, (S i < length beats)%nat -> / 8 <= rgap beats i <= 4) by (intros i Hi; rewrite rgap_gap; apply G; lia).
  destruct (intervals_val beats F G') as (Li & V). split; [exact Li|]. split; [unfold gaps; lia|].
  intros i Hi. rewrite Li in Hi. destruct (V i ltac:(lia)) as (F1 & P & E & _). rewrite rgap_gap in E.
  split; [exact F1|]. split; [exact P|]. split; [apply G; lia|exact E].
Qed.

Lemma likeness_is : forall beats t, likeness beats t = rlike (gaps beats) (gap beats) (bar t).
Proof. reflexivity. Qed.
Lemma regularity_is : forall beats, regularity beats = rcons (gaps beats) (gap beats).
Proof. reflexivity. Qed.

Lemma clamp_01 : forall x, fin x -> 0 <= B2R x <= 1 -> B2R (fclamp_val x f0 f1) = B2R x.
Proof.
  intros x F H. unfold fclamp_val.
  replace (flt x f0) with false.
  - replace (flt f1 x) with false; [reflexivity|]. symmetry.
    destruct (flt f1 x) eqn:E; [|reflexivity]. apply flt_fx in E. rewrite fx_f1, (fx_fin _ F) in E. lra.
  - symmetry. destruct (flt x f0) eqn:E; [|reflexivity]. apply flt_fx in E. rewrite fx_f0, (fx_fin _ F) in E. lra.
Qed.

Lemma detect_best : forall beats bpm, musical beats -> fle bpm (lit 14411519 (-57)) = false ->
  let iv := intervals beats in let sc := fun t => score_signature iv (bar t) (mean iv) in
  exists t, detect_time_signature beats bpm = Ok (t, fclamp_val (sc t) f0 f1) /\ (forall t', fle (sc t') (sc t) = true) /\
    (t <> SixEight -> flt (sc SixEight) (sc t) = true).
Proof.
  intros beats bpm Mu T iv sc. destruct (musical_known beats Mu) as (Li & Lg & K). destruct Mu as (_ & L & _).
  unfold detect_time_signature. fold eps10 in T. rewrite T. destruct (Nat.ltb_spec (length beats) 8); [lia|]. cbv zeta. fold iv. fold iv in Li, K.
  destruct (Nat.eqb_spec (length iv) 0); [lia|].
  assert (N : forall t, nn (sc t)).
  { intros t. apply fin_nn. apply (score_val iv (gap beats) (bar t)); auto; [lia|]. destruct t; cbn [bar]; lia. }
  change (score_signature iv 4 (mean iv)) with (sc FourFour). change (score_signature iv 3 (mean iv)) with (sc ThreeFour).
  change (score_signature iv 6 (mean iv)) with (sc SixEight).
  pose proof (N FourFour) as N1. pose proof (N ThreeFour) as N2. pose proof (N SixEight) as N3.
  destruct (best_total _ _ _ N1 N2 N3) as ((t & s) & B). rewrite B. destruct (best_ok _ _ _ _ _ B) as (_ & _ & B1 & B2 & B3).
  assert (Es : s = sc t /\ (t <> SixEight -> flt (sc SixEight) (sc t) = true)).
  { clear B1 B2 B3. unfold best_signature in B. unfold fisnan in B. rewrite N1, N2, N3 in B. cbn [orb] in B. cbv zeta in B.
    clear - B. generalize dependent sc. intros sc B. rewrite !KeyProfileFacts.fgt_as_flt in B.
    destruct (flt (sc ThreeFour) (sc FourFour)); cbn [snd] in B.
    - destruct (flt (sc SixEight) (sc FourFour)) eqn:E; injection B as <- <-; (split; [reflexivity|]); [intros _; exact E|intros X; now contradiction X].
    - destruct (flt (sc SixEight) (sc ThreeFour)) eqn:E; injection B as <- <-; (split; [reflexivity|]); [intros _; exact E|intros X; now contradiction X]. }
  destruct Es as (-> & Z). exists t. split; [reflexivity|]. split; [|exact Z]. intros []; assumption.
Qed.

(** ** The theorems *)

(** The reported signature repeats the pattern of intervals best, up to float rounding, and the confidence is 0.7 times its
    likeness plus 0.3 times the regularity of the beats. *)
Theorem C87_choice : forall beats bpm, musical beats -> fle bpm (lit 14411519 (-57)) = false ->
  exists t c, detect_time_signature beats bpm = Ok (t, c) /\
    (forall t', likeness beats t' <= likeness beats t + blur beats) /\
    Rabs (B2R c - (7 / 10 * likeness beats t + 3 / 10 * regularity beats)) <= blur beats.
Proof.
  intros beats bpm Mu T. destruct (musical_known beats Mu) as (Li & Lg & K).
  destruct (detect_best beats bpm Mu T) as (t & D & B & _). cbv zeta in D, B. set (iv := intervals beats) in *.
  eexists t, _. split; [exact D|].
  assert (S : forall t', (bar t' < length iv)%nat) by (intros []; cbn [bar]; lia).
  assert (L4 : (length iv <= 4096)%nat) by lia.
  pose proof (pos_INR (gaps beats)) as N0. unfold blur.
  destruct (score_val iv (gap beats) (bar t) L4 (S t) K) as (F & S01 & V & C). rewrite Li in C. split.
  - intros t'. specialize (B t'). destruct (score_val iv (gap beats) (bar t') L4 (S t') K) as (F' & _ & V' & _).
    apply fle_fx in B. rewrite (fx_fin _ F), (fx_fin _ F') in B.
    destruct (autocorr_val iv (gap beats) (bar t) L4 (S t) K) as (_ & _ & A). destruct (autocorr_val iv (gap beats) (bar t') L4 (S t') K) as (_ & _ & A').
    rewrite Li in A, A'. rewrite !likeness_is. apply Rabs_le_inv in V, V', A, A'.
    set (a := B2R (autocorr iv (bar t) (mean iv))) in *. set (a' := B2R (autocorr iv (bar t') (mean iv))) in *.
    set (c := B2R (consistency iv (mean iv))) in *. set (s := B2R (score_signature iv (bar t) (mean iv))) in *.
    set (s' := B2R (score_signature iv (bar t') (mean iv))) in *. clearbody a a' c s s'.
    unfold w7, w3 in V, V'. lra.
  - rewrite likeness_is, regularity_is. rewrite clamp_01 by assumption. eapply Rle_trans; [exact C|]. lra.
Qed.
Print Assumptions C87_choice.

(** A bar length that repeats the pattern clearly better than the other two is the one reported. *)
Theorem C87_clear : forall beats bpm t, musical beats -> fle bpm (lit 14411519 (-57)) = false ->
  (forall t', t' <> t -> likeness beats t' + blur beats < likeness beats t) ->
  exists c, detect_time_signature beats bpm = Ok (t, c).
Proof.
  intros beats bpm t Mu T H. destruct (C87_choice beats bpm Mu T) as (t0 & c & D & B & _). exists c.
  assert (E : t0 = t).
  { assert (X : t0 = t \/ t0 <> t) by (destruct t0, t; auto; right; discriminate). destruct X as [X|X]; [exact X|].
    specialize (H t0 X). specialize (B t). exfalso. lra. }
  rewrite <- E. exact D.
Qed.
Print Assumptions C87_clear.

(** A pattern of intervals that repeats exactly every three beats is always reported as 6/8, never as 3/4: it also repeats every
    six beats, and the tie goes to 6/8. *)
Theorem C87_waltz : forall beats bpm, musical beats -> fle bpm (lit 14411519 (-57)) = false ->
  (forall i, (i + 4 < length beats)%nat ->
     fsub (nth (i + 4) beats f0) (nth (i + 3) beats f0) = fsub (nth (i + 1) beats f0) (nth i beats f0)) ->
  exists c, detect_time_signature beats bpm = Ok (SixEight, c).
Proof.
  intros beats bpm Mu T H. destruct (musical_known beats Mu) as (Li & Lg & K).
  destruct (detect_best beats bpm Mu T) as (t & D & _ & Z). cbv zeta in D, Z. 
  assert (Ts : t = SixEight \/ t <> SixEight) by (destruct t; [right|right|left]; congruence).
  destruct Ts as [-> | Ts]; [eexists; exact D|exfalso]. specialize (Z Ts). clear D.
  assert (P : forall i, (i + 3 < length (intervals beats))%nat -> nth (i + 3) (intervals beats) f0 = nth i (intervals beats) f0).
  { destruct Mu as (F & L & G).
    assert (G' : forall i, (S i < length beats)%nat -> / 8 <= rgap beats i <= 4) by (intros i Hi; rewrite rgap_gap; apply G; lia).
    destruct (intervals_val beats F G') as (_ & V). unfold gaps in *. intros i Hi. rewrite Li in Hi.
    destruct (V i ltac:(lia)) as (_ & _ & _ & ->). destruct (V (i + 3)%nat ltac:(lia)) as (_ & _ & _ & ->).
    specialize (H i ltac:(lia)). replace (S (i + 3)) with (i + 4)%nat by lia. rewrite H, Nat.add_1_r. reflexivity. }
  set (iv := intervals beats) in *. destruct (mean_known iv (gap beats) ltac:(lia) K) as (Fm & Gb & M & Dm).
  assert (Pm : pos (mean iv)).
  { apply flt_intro; [reflexivity|now apply fin_nn|]. rewrite fx_f0, (fx_fin _ Fm). apply Rabs_le_inv in M.
    assert (dm (length iv) * (sumn (gap beats) (length iv) / INR (length iv)) <= / 1400 * (sumn (gap beats) (length iv) / INR (length iv))) by (apply Rmult_le_compat_r; lra). lra. }
  assert (A : forall lag, (lag < length iv)%nat -> (forall i, (i + lag < length iv)%nat -> nth (i + lag) iv f0 = nth i iv f0) ->
    autocorr iv lag (mean iv) = f1).
  { intros lag Hl Hp. unfold autocorr. cbv zeta.
    assert (Es : map (fun ab => similarity (mean iv) (fst ab) (snd ab)) (combine iv (skipn lag iv)) = repeat f1 (length iv - lag)).
    { apply nth_ext with (d := f0) (d' := f0).
      - rewrite map_length, combine_length, skipn_length, repeat_length. lia.
      - intros i Hi. rewrite map_length, combine_length, skipn_length in Hi.
        rewrite (nth_indep _ f0 (similarity (mean iv) (fst (f0, f0)) (snd (f0, f0)))) by (rewrite map_length, combine_length, skipn_length; exact Hi).
        rewrite (map_nth (fun ab : f32 * f32 => similarity (mean iv) (fst ab) (snd ab))).
        rewrite (nth_error_nth (combine iv (skipn lag iv)) i (f0, f0) (x := (nth i iv f0, nth (i + lag) iv f0))).
        + cbn [fst snd]. rewrite Hp by lia. rewrite similarity_self by (auto; apply (K i); lia).
          symmetry. apply nth_error_nth. apply nth_error_repeat. lia.
        + apply nth_error_combine_iff. split; [apply nth_error_nth'; lia|]. rewrite <- nth_skipn_d. apply nth_error_nth'.
          rewrite skipn_length. lia. }
    rewrite Es, repeat_length. apply ones_mean; lia. }
  assert (Lb : forall t', (bar t' < length iv)%nat) by (intros []; cbn [bar]; lia).
  rewrite !score_is_blend in Z by apply Lb. rewrite (A (bar SixEight) (Lb SixEight)) in Z.
  2:{ cbn [bar]. intros i Hi. replace (i + 6)%nat with (i + 3 + 3)%nat by lia. rewrite !P by lia. reflexivity. }
  destruct (consistency_val iv (gap beats) ltac:(lia) K) as (Fc & C1 & _).
  destruct (autocorr_val iv (gap beats) (bar t) ltac:(lia) (Lb t) K) as (Fa & _). pose proof (autocorr_01 iv (gap beats) (bar t) ltac:(lia) (Lb t) K) as A1.
  pose proof (blend_mono _ f1 _ Fa fin_f1 Fc ltac:(rewrite B2R_f1; exact A1) ltac:(rewrite B2R_f1; lra) C1) as Mo.
  apply flt_fle_false in Z. rewrite Mo in Z. discriminate.
Qed.
Print Assumptions C87_waltz.

(** ** Cases *)

(** Bars of four beats, the fourth longer: the lag-4 likeness is 1, the others are at most 9/10. *)
Definition four : list f32 := bars 2 [2; 2; 2; 3]%Z.
Lemma quarter : forall t, (0 <= t <= 64)%Z -> B2R (lit t (-2)) = IZR t / 4.
Proof.
  intros t H. destruct (lit_fx t (-2)) as (N & E).
  assert (G : rnd (F2R (Float radix2 t (-2))) = IZR t / 4).
  { unfold F2R. cbn [Fnum Fexp]. change (bpow radix2 (-2)) with (/ 4). 
    unfold rnd. rewrite round_generic; [reflexivity|apply valid_rnd_N|].
    replace (IZR t * / 4) with (F2R (Float radix2 t (-2))) by reflexivity.
    destruct (Z.eq_dec t 0) as [->|Z]; [rewrite F2R_0; apply generic_format_0|].
    apply generic_format_F2R. intros _. unfold cexp, fexp32, FLT_exp.
    rewrite mag_F2R_Zdigits by auto. assert (Zdigits radix2 t <= 7)%Z; [|cbn; lia].
    apply Zdigits_le_Zpower. rewrite Z.abs_eq by lia. change (Zpower radix2 7) with 128%Z. lia. }
  assert (B : 0 <= IZR t <= 64) by (split; apply IZR_le; lia).
  assert (Bg : 100 < big). { apply Rlt_le_trans with (bpow radix2 7); [simpl; lra|apply bpow_le; lia]. }
  rewrite G, sat_id in E by lra. assert (F : fin (lit t (-2))) by (apply fin_iff; [exact N|rewrite E; lra]).
  rewrite <- fx_fin by exact F. exact E.
Qed.

Lemma four_is : four = map (fun t => lit t (-2)) [0; 2; 4; 6; 9; 11; 13; 15; 18]%Z.
Proof. reflexivity. Qed.

Lemma four_gap : map (gap four) (seq 0 8) = [/ 2; / 2; / 2; 3 / 4; / 2; / 2; / 2; 3 / 4].
Proof. rewrite four_is. cbn [map seq]. unfold gap. cbn [Nat.add nth map]. rewrite !quarter by lia. repeat (apply (f_equal2 (@cons R)); [lra|]). reflexivity. Qed.

Example C87_case : musical four /\ likeness four FourFour = 1 /\ likeness four ThreeFour <= 9 / 10 /\ likeness four SixEight <= 9 / 10 /\
  exists c, detect_time_signature four (z2f 120) = Ok (FourFour, c).
Proof.
  pose proof four_gap as G. cbn [map seq] in G. injection G as G0 G1 G2 G3 G4 G5 G6 G7.
  assert (Mu : musical four).
  { split; [|split].
    - rewrite four_is. apply Forall_forall. intros x I. apply in_map_iff in I as (t & <- & I). apply fin_iff; [apply lit_fx|].
      cbn [In] in I. assert (Ht : (0 <= t <= 64)%Z) by lia. destruct (lit_fx t (-2)) as (N & E). 
      assert (Bg : 100 < big). { apply Rlt_le_trans with (bpow radix2 7); [simpl; lra|apply bpow_le; lia]. }
      rewrite E. unfold sat. assert (Q : 0 <= IZR t <= 64) by (split; apply IZR_le; lia).
      assert (R : 0 <= rnd (F2R (Float radix2 t (-2))) <= 64).
      { assert (V : 0 <= F2R (Float radix2 t (-2)) <= 64) by (unfold F2R; cbn [Fnum Fexp]; change (bpow radix2 (-2)) with (/ 4); lra).
        split; [apply rnd_nonneg; lra|]. rewrite <- (rnd_Z 64) by lia. apply rnd_mono. lra. }
      rewrite Rmin_right, Rmax_right by lra. lra.
    - rewrite four_is. cbn [length map]. lia.
    - intros i Hi. rewrite four_is in Hi. cbn [length map] in Hi.
      do 8 (destruct i as [|i]; [try rewrite G0; try rewrite G1; try rewrite G2; try rewrite G3; try rewrite G4; try rewrite G5; try rewrite G6; try rewrite G7; lra|]). lia. }
  assert (Ng : gaps four = 8%nat) by reflexivity.
  assert (Mg : mean_gap four = 9 / 16).
  { unfold mean_gap. rewrite Ng. cbn [sumn]. rewrite G0, G1, G2, G3, G4, G5, G6, G7. replace (INR 8) with 8 by (simpl; lra). lra. }
  assert (L4 : likeness four FourFour = 1).
  { unfold likeness. rewrite Ng, Mg. cbn [bar Nat.sub sumn Nat.add]. rewrite G0, G1, G2, G3, G4, G5, G6, G7.
    replace (INR 4) with 4 by (simpl; lra).
    replace (/ 2 - / 2) with 0 by lra. replace (3 / 4 - 3 / 4) with 0 by lra. rewrite Rabs_R0. lra. }
  assert (A1 : Rabs (/ 2 - 3 / 4) = / 4) by (rewrite Rabs_left by lra; lra).
  assert (A2 : Rabs (3 / 4 - / 2) = / 4) by (rewrite Rabs_pos_eq by lra; lra).
  assert (L3 : likeness four ThreeFour <= 9 / 10).
  { unfold likeness. rewrite Ng, Mg. cbn [bar Nat.sub sumn Nat.add]. rewrite G0, G1, G2, G3, G4, G5, G6, G7, A1, A2.
    replace (INR 5) with 5 by (simpl; lra). replace (/ 2 - / 2) with 0 by lra. rewrite Rabs_R0. lra. }
  assert (L6 : likeness four SixEight <= 9 / 10).
  { unfold likeness. rewrite Ng, Mg. cbn [bar Nat.sub sumn Nat.add]. rewrite G0, G1, G6, G7, A1.
    replace (INR 2) with 2 by (simpl; lra). replace (/ 2 - / 2) with 0 by lra. rewrite Rabs_R0. lra. }
  split; [exact Mu|]. split; [exact L4|]. split; [exact L3|]. split; [exact L6|].
  apply C87_clear; [exact Mu|vm_compute; reflexivity|].
  assert (Bl : blur four <= / 1000). { unfold blur. rewrite Ng. replace (INR 8) with 8 by (simpl; lra). lra. }
  intros [] Ht; [contradiction| |]; lra.
Qed.

(** 3/4 is reported when the three-beat pattern drifts, so that three beats apart is closer than six. *)
Example C87_drift :
  signature_of (detect_time_signature (map (fun t => lit t (-6)) [0; 32; 64; 112; 145; 178; 227; 261; 295; 345; 380; 415; 466; 502; 538; 590]%Z) (z2f 120))
  = Some ThreeFour.
Proof. vm_compute. reflexivity. Qed.
