(** C90: what the tempo segments say about the beats (src/features/beat_tracking/tempo_variation.rs). *)
From Coq Require Import ZArith Reals Lra Lia Sorted.
From Flocq Require Import Core.
From Verif Require Import Rust F32 F32Facts F32More ListFacts PeakPicking PeakPickingProofs TimeSignature TempoVariation TempoVariationProofs
  FourierFacts TimeSignatureScoreFacts TempoSegmentFacts.
From Verif Require HpcpPitchProps.
Local Open Scope R_scope.

(** Finite beat times between 0 and 16384 seconds, 1/8 to 4 seconds apart (15 to 480 BPM). *)
Definition ordinary_beats (beats : list f32) : Prop :=
  Forall (fun b => fin b /\ 0 <= B2R b <= 16384) beats /\
  forall i, (S i < length beats)%nat -> / 8 <= B2R (nth (S i) beats f0) - B2R (nth i beats f0) <= 4.

(** The length of the windows: a quarter of the track, at least 4 and at most 8 seconds. *)
Definition window_length (beats : list f32) : R := Rmax 4 (Rmin 8 ((B2R (last beats f0) - B2R (nth 0 beats f0)) / 4)).

Lemma nominal_form : forall fuel beats nominal segs, ordinary_beats beats -> detect_tempo_variations fuel beats nominal = Some (Ok segs) ->
  (exists c, segs = [{| ts_start := nth 0 beats f0; ts_end := last beats f0; ts_bpm := nominal; ts_conf := c; ts_variable := false |}] /\
     ((4 <= length beats)%nat -> 2001 / 1000 <= B2R (last beats f0) - B2R (nth 0 beats f0) ->
      forall i, (S (S i) < length beats)%nat -> window_length beats / 2 - / 100 < B2R (nth (S (S i)) beats f0) - B2R (nth i beats f0))) \/
  ((4 <= length beats)%nat /\
   Forall (fun s => B2R (nth 0 beats f0) <= B2R (ts_start s) /\ window beats (last beats f0) (window_length beats) s) segs /\
   StronglySorted (fun a b => B2R (ts_start a) + window_length beats / 2 - / 600 <= B2R (ts_start b)) segs /\
   forall i, (S (S i) < length beats)%nat ->
     B2R (nth (S (S i)) beats f0) - B2R (nth i beats f0) <= window_length beats / 2 - / 100 ->
     exists s, In s segs /\ B2R (ts_start s) <= B2R (nth i beats f0) /\ B2R (nth (S (S i)) beats f0) <= B2R (ts_end s)).
Proof.
  intros fuel beats nominal segs (O1 & O2) H. unfold detect_tempo_variations in H. cbv zeta in H.
  destruct (length beats <? 4)%nat eqn:L.
  { left. exists fhalf. split; [|apply Nat.ltb_lt in L; lia]. congruence. }
  apply Nat.ltb_ge in L. destruct (fle nominal eps10); [discriminate|].
  assert (Bn : forall i, (i < length beats)%nat -> fin (nth i beats f0) /\ 0 <= B2R (nth i beats f0) <= 16384).
  { intros i Hi. apply (proj1 (Forall_forall _ _) O1). now apply nth_In. }
  assert (Fb : Forall (fun b => fin b) beats) by (eapply Forall_impl; [|exact O1]; cbv beta; tauto).
  assert (Gb : gaps_ok beats) by exact O2.
  assert (El : last beats f0 = nth (length beats - 1) beats f0) by apply last_nth_R.
  destruct (Bn 0%nat ltac:(lia)) as (F1 & B1). destruct (Bn (length beats - 1)%nat ltac:(lia)) as (F2 & B2). rewrite <- El in F2, B2.
  pose proof (gaps_apart beats Gb (length beats - 1) 0 ltac:(lia)) as Ap. cbn [Nat.add] in Ap. rewrite <- El in Ap.
  assert (Apart : forall i, (i < length beats)%nat -> B2R (nth 0 beats f0) <= B2R (nth i beats f0) <= B2R (last beats f0)).
  { intros i Hi. pose proof (gaps_apart beats Gb i 0 ltac:(lia)) as X. cbn [Nat.add] in X.
    pose proof (gaps_apart beats Gb (length beats - 1 - i) i ltac:(lia)) as Y. replace (i + (length beats - 1 - i))%nat with (length beats - 1)%nat in Y by lia.
    rewrite <- El in Y. pose proof (pos_INR i). pose proof (pos_INR (length beats - 1 - i)). lra. }
  unfold window_length in *. set (first := nth 0 beats f0) in *. set (final := last beats f0) in *.
  destruct (fsub_fx final first F2 F1) as (N & E).
  pose proof (pos_INR (length beats - 1)) as Pn.
  destruct (BeatDistanceFacts.fin_of_rnd _ _ N E ltac:(rewrite Rabs_pos_eq; lra)) as (Ft & Vt).
  pose proof (rnd_time (B2R final - B2R first) ltac:(lra)) as Rt. rewrite <- Vt in Rt. apply Rabs_le_inv in Rt.
  destruct (z2f_exact 2 ltac:(lia)) as (Fz & Vz).
  assert (F2' : fin f2) by (vm_compute; reflexivity).
  assert (V2 : B2R f2 = 2). { replace f2 with (z2f 2) by (apply B2SF_inj; vm_compute; reflexivity). exact Vz. }
  destruct (flt (fsub final first) f2) eqn:Sh.
  { left. exists (lit 13421773 (-24)). split; [congruence|]. intros _ Long. exfalso.
    apply HpcpPitchProps.lt_real in Sh; auto. rewrite V2 in Sh. lra. }
  assert (Lg : 19 / 10 <= B2R final - B2R first).
  { destruct (Rle_lt_dec 2 (B2R (fsub final first))) as [X|X]; [lra|]. rewrite <- V2 in X. apply HpcpPitchProps.lt_real in X; auto. congruence. }
  destruct (window_sizes first final F1 F2 ltac:(lra) ltac:(lra) ltac:(lra)) as (Fd & Fs & Db & Dd & Ds).
  set (dur := fclamp_val _ _ _) in *. set (step := fsub dur _) in *. set (d := Rmax 4 _) in *.
  assert (Bd : 4 <= d <= 8). { unfold d. split; [apply Rmax_l|]. apply Rmax_lub; [lra|apply Rmin_l]. }
  destruct (segments_loop fuel beats nominal final dur step first) as [r|] eqn:Lo; [|discriminate].
  destruct (loop_val beats nominal final dur step d Fb Gb F2 ltac:(lra) Fd Fs Bd Dd Ds fuel first r F1 ltac:(lra) Lo) as (W & So & Co).
  destruct r as [|s0 r].
  - left. exists (lit 13421773 (-24)). split; [congruence|]. intros _ _ i Hi.
    destruct (Rlt_le_dec (d / 2 - / 100) (B2R (nth (S (S i)) beats f0) - B2R (nth i beats f0))) as [X|X]; [exact X|exfalso].
    destruct (Co i Hi ltac:(apply Apart; lia) ltac:(apply Apart; lia) X) as (s & [] & _).
  - right. assert (Es : segs = s0 :: r) by congruence. rewrite Es. clear H.
    split; [exact L|]. split; [exact W|]. split; [exact So|]. intros i Hi X.
    apply (Co i Hi); [apply Apart; lia|apply Apart; lia|exact X].
Qed.

(** Four or more ordinary beats over more than two seconds, and an analysis that succeeds.
    - Every three neighbouring beats that span at most half a window lie together in one of the segments.
    - The segments start at least half a window apart, in the order given.
    - Either every segment is a window on the beats: it lies between the first and the last beat, is one window long unless it
      ends at the last beat, and its numbers describe exactly the beats in it.  There are three or more of them; the tempo is
      60 over their mean distance, to within 0.005 %; the confidence is 1 minus the relative standard deviation of the
      distances over 0.3, or 0 if that is negative; it is called variable if the relative standard deviation is 0.1501 or more,
      and steady if it is 0.1499 or less.
    - Or there is one steady segment with the nominal tempo, and no three neighbouring beats span less than half a window. *)
Theorem C90_segments : forall fuel beats nominal segs, ordinary_beats beats -> (4 <= length beats)%nat ->
  2001 / 1000 <= B2R (last beats f0) - B2R (nth 0 beats f0) -> detect_tempo_variations fuel beats nominal = Some (Ok segs) ->
  let d := window_length beats in
  (forall i, (S (S i) < length beats)%nat -> B2R (nth (S (S i)) beats f0) - B2R (nth i beats f0) <= d / 2 - / 100 ->
     exists s, In s segs /\ B2R (ts_start s) <= B2R (nth i beats f0) /\ B2R (nth (S (S i)) beats f0) <= B2R (ts_end s)) /\
  StronglySorted (fun a b => B2R (ts_start a) + d / 2 - / 600 <= B2R (ts_start b)) segs /\
  (Forall (fun s => B2R (nth 0 beats f0) <= B2R (ts_start s) < B2R (ts_end s) /\
      (ts_end s = last beats f0 /\ B2R (ts_end s) <= B2R (ts_start s) + d + / 500 \/
       B2R (ts_end s) <= B2R (last beats f0) /\ Rabs (B2R (ts_end s) - B2R (ts_start s) - d) <= / 500) /\
      exists pre w post, beats = pre ++ w ++ post /\
        Forall (fun b => B2R b < B2R (ts_start s)) pre /\
        Forall (fun b => B2R (ts_start s) <= B2R b <= B2R (ts_end s)) w /\
        Forall (fun b => B2R (ts_end s) < B2R b) post /\
        (3 <= length w)%nat /\ fin (ts_bpm s) /\
        let g := (B2R (last w f0) - B2R (nth 0 w f0)) / INR (length w - 1) in
        let cv := sqrt (sumn (fun i => Rsqr (B2R (nth (S i) w f0) - B2R (nth i w f0) - g)) (length w - 1) / INR (length w - 1)) / g in
        Rabs (B2R (ts_bpm s) - 60 / g) <= / 20000 * (60 / g) /\
        Rabs (B2R (ts_conf s) - Rmax (1 - cv / (3 / 10)) 0) <= / 3000 /\
        (1501 / 10000 <= cv -> ts_variable s = true) /\ (cv <= 1499 / 10000 -> ts_variable s = false)) segs \/
   (exists c, segs = [{| ts_start := nth 0 beats f0; ts_end := last beats f0; ts_bpm := nominal; ts_conf := c; ts_variable := false |}]) /\
   forall i, (S (S i) < length beats)%nat -> d / 2 - / 100 < B2R (nth (S (S i)) beats f0) - B2R (nth i beats f0)).
Proof.
  intros fuel beats nominal segs O L Lg H d. destruct (nominal_form fuel beats nominal segs O H) as [(c & -> & No)|(_ & W & So & Co)].
  - specialize (No L Lg). fold d in No. split; [|split].
    + intros i Hi X. pose proof (No i Hi). lra.
    + constructor; constructor.
    + right. split; [now exists c|exact No].
  - fold d in W, So, Co. split; [exact Co|]. split; [exact So|]. left. eapply Forall_impl; [|exact W]. cbv beta.
    intros s (S1 & F1 & F2 & S2 & S3 & S4 & De). split; [lra|]. split; [|exact De].
    destruct S3 as [S3|S3]; [left|right]; (split; [assumption || lra|]); [lra|exact S3].
Qed.
Print Assumptions C90_segments.

(** The sum of squared deviations is least around the mean. *)
Lemma least_squares : forall n (x : nat -> R) T, (1 <= n)%nat -> let g := sumn x n / INR n in
  sumn (fun i => Rsqr (x i - g)) n <= sumn (fun i => Rsqr (x i - T)) n.
Proof.
  intros n x T L g. assert (N : 1 <= INR n) by (apply (le_INR 1); lia).
  rewrite (sumn_ext (fun i => Rsqr (x i - T)) (fun i => Rsqr (x i - g) + (2 * (g - T) * x i + (T * T - g * g)))).
  2:{ intros i _. unfold Rsqr. ring. }
  rewrite !sumn_plus, sumn_scal, sumn_const. replace (sumn x n) with (INR n * g) by (unfold g; field; lra).
  assert (P : 0 <= INR n * ((g - T) * (g - T))) by (apply Rmult_le_pos; [lra|apply Rle_0_sqr]). 
  assert (Q : 2 * (g - T) * (INR n * g) + INR n * (T * T - g * g) = INR n * ((g - T) * (g - T))) by ring. lra.
Qed.

Lemma steady_gap : forall w T, (3 <= length w)%nat -> 0 < T ->
  (forall i, (S i < length w)%nat -> Rabs (rgap w i - T) <= 13 / 100 * T) ->
  87 / 100 * T <= mean_gap w <= 113 / 100 * T /\ spread w <= 1499 / 10000.
Proof.
  intros w T L P H. set (n := (length w - 1)%nat). assert (Ln : (2 <= n)%nat) by (unfold n; lia).
  assert (N : 2 <= INR n) by (apply (le_INR 2); lia).
  assert (Eg : mean_gap w = sumn (rgap w) n / INR n).
  { unfold mean_gap. rewrite last_nth_R. fold n. now rewrite sum_gaps by (unfold n; lia). }
  assert (G : 87 / 100 * T <= mean_gap w <= 113 / 100 * T).
  { rewrite Eg. pose proof (sumn_between (rgap w) n (87 / 100 * T) (113 / 100 * T)) as B.
    assert (B' : INR n * (87 / 100 * T) <= sumn (rgap w) n <= INR n * (113 / 100 * T)).
    { apply B. intros i Hi. specialize (H i ltac:(unfold n in Hi; lia)). apply Rabs_le_inv in H. lra. }
    split; apply Rmult_le_reg_l with (INR n); try lra; replace (INR n * (sumn (rgap w) n / INR n)) with (sumn (rgap w) n) by (field; lra); lra. }
  split; [exact G|]. unfold spread. fold n. 
  change (fun i => Rsqr (B2R (nth (S i) w f0) - B2R (nth i w f0) - mean_gap w)) with (fun i => Rsqr (rgap w i - mean_gap w)).
  pose proof (least_squares n (rgap w) T ltac:(lia)) as Q. cbv zeta in Q. rewrite <- Eg in Q.
  assert (B : sumn (fun i => Rsqr (rgap w i - T)) n <= INR n * Rsqr (13 / 100 * T)).
  { rewrite <- sumn_const. apply sumn_le. intros i Hi. rewrite (Rsqr_abs (rgap w i - T)). apply Rsqr_incr_1; [apply H; unfold n in Hi; lia|apply Rabs_pos|lra]. }
  assert (R : sqrt (sumn (fun i => Rsqr (rgap w i - mean_gap w)) n / INR n) <= 13 / 100 * T).
  { rewrite <- (sqrt_Rsqr (13 / 100 * T)) by lra. apply sqrt_le_1_alt. apply Rmult_le_reg_l with (INR n); [lra|].
    match goal with |- _ * (?y / _) <= _ => replace (INR n * (y / INR n)) with y by (field; lra) end. lra. }
  set (v := sqrt _) in *. apply Rmult_le_reg_r with (mean_gap w); [lra|]. replace (v / mean_gap w * mean_gap w) with v by (field; lra). lra.
Qed.

(** A steady track: if every distance is within 13 % of T, no segment is called variable, and every segment has the nominal
    tempo or a tempo from 60/T / 1.14 to 60/T / 0.86.  With four beats or more over more than two seconds and T up to 0.88
    seconds, only the latter. *)
Theorem C90_steady : forall fuel beats nominal segs T, ordinary_beats beats -> 0 < T ->
  (forall i, (S i < length beats)%nat -> Rabs (B2R (nth (S i) beats f0) - B2R (nth i beats f0) - T) <= 13 / 100 * T) ->
  detect_tempo_variations fuel beats nominal = Some (Ok segs) ->
  has_tempo_variation segs = false /\
  (Forall (fun s => 60 / T / (114 / 100) <= B2R (ts_bpm s) <= 60 / T / (86 / 100)) segs \/
   Forall (fun s => ts_bpm s = nominal) segs /\
   ((length beats < 4)%nat \/ B2R (last beats f0) - B2R (nth 0 beats f0) < 2001 / 1000 \/ 88 / 100 < T)).
Proof.
  intros fuel beats nominal segs T O P J H.
  destruct (nominal_form fuel beats nominal segs O H) as [(c & -> & No)|(L & W & _ & _)].
  - split; [reflexivity|]. right. split; [apply Forall_cons; [reflexivity|constructor]|].
    destruct (Nat.le_gt_cases 4 (length beats)) as [L|L]; [right|now left].
    destruct (Rle_lt_dec (2001 / 1000) (B2R (last beats f0) - B2R (nth 0 beats f0))) as [D|D]; [right|now left].
    pose proof (No L D 0%nat ltac:(lia)) as X. pose proof (J 0%nat ltac:(lia)) as Y1. pose proof (J 1%nat ltac:(lia)) as Y2.
    apply Rabs_le_inv in Y1, Y2. assert (4 <= window_length beats) by apply Rmax_l. lra.
  - assert (Q : Forall (fun s => ts_variable s = false /\ 60 / T / (114 / 100) <= B2R (ts_bpm s) <= 60 / T / (86 / 100)) segs).
    { eapply Forall_impl; [|exact W]. cbv beta. intros s (_ & _ & _ & _ & _ & _ & (pre & w & post & E & _ & _ & _ & Lw & _ & Bv & _ & _ & St)).
      destruct (steady_gap w T Lw P) as (G & Sp).
      { intros i Hi. unfold rgap. rewrite !(mid_nth pre w post) by lia. rewrite <- E, Nat.add_succ_r. apply J. rewrite E, !app_length. lia. }
      split; [now apply St|]. set (g := mean_gap w) in *. assert (G0 : 0 < g) by lra. clearbody g.
      assert (X : 60 / g * g = 60) by (field; lra). set (y := 60 / g) in *.
      assert (Y : 60 / T * T = 60) by (field; lra). set (z := 60 / T) in *. clearbody y z.
      assert (Y0 : 0 < y). { apply Rmult_lt_reg_r with g; lra. } assert (Z0 : 0 < z) by (apply Rmult_lt_reg_r with T; lra).
      apply Rabs_le_inv in Bv.
      assert (A1 : z <= 113 / 100 * y). { apply Rmult_le_reg_r with T; [lra|]. rewrite Y, <- X. replace (113 / 100 * y * T) with (y * (113 / 100 * T)) by ring. apply Rmult_le_compat_l; lra. }
      assert (A2 : 87 / 100 * y <= z). { apply Rmult_le_reg_r with T; [lra|]. rewrite Y, <- X. replace (87 / 100 * y * T) with (y * (87 / 100 * T)) by ring. apply Rmult_le_compat_l; lra. }
      split; lra. }
    split.
    + unfold has_tempo_variation. induction segs as [|s segs IH]; [reflexivity|]. cbn [existsb]. rewrite (proj1 (Forall_inv Q)).
      cbn [orb]. clear - Q. apply Forall_inv_tail in Q. induction segs as [|t segs IH]; [reflexivity|]. cbn [existsb].
      rewrite (proj1 (Forall_inv Q)). cbn [orb]. apply IH. now apply Forall_inv_tail in Q.
    + left. eapply Forall_impl; [|exact Q]. cbv beta. tauto.
Qed.
Print Assumptions C90_steady.

(** Examples: beats every second, and beats that slow down from one to two seconds; both are ordinary, the first is reported
    steady at 60 BPM, the second with a variable window at the change (and nothing after it: fewer than three beats a window). *)
Lemma seconds_ordinary : forall l, Forall (fun z => (0 <= z <= 16384)%Z) l ->
  (forall i, (S i < length l)%nat -> (1 <= nth (S i) l 0 - nth i l 0 <= 4)%Z) -> ordinary_beats (map z2f l).
Proof.
  intros l B G. split.
  - apply Forall_forall. intros x I. apply in_map_iff in I as (z & <- & I). apply (proj1 (Forall_forall _ _) B) in I.
    destruct (z2f_exact z ltac:(lia)) as (F & V). split; [exact F|]. rewrite V. split; apply IZR_le; lia.
  - intros i Hi. rewrite map_length in Hi. specialize (G i Hi).
    assert (V : forall j, (j < length l)%nat -> B2R (nth j (map z2f l) f0) = IZR (nth j l 0%Z)).
    { intros j Hj. change f0 with (z2f 0). rewrite map_nth. apply z2f_exact.
      assert (I : In (nth j l 0%Z) l) by now apply nth_In. apply (proj1 (Forall_forall _ _) B) in I. lia. }
    rewrite !V by lia. rewrite <- minus_IZR. destruct G as (G1 & G2). apply IZR_le in G1, G2. lra.
Qed.

Definition view (r : option (outcome (list tempo_segment))) :=
  match r with
  | Some (Ok l) => map (fun s => (f2i32 (ts_start s), f2i32 (ts_end s), f2i32 (ts_bpm s), ts_variable s)) l
  | _ => []
  end.

Example C90_ordinary_case : ordinary_beats (map z2f [0;1;2;3;4;5;6;7;8]%Z) /\ ordinary_beats (map z2f [0;1;2;3;5;7;9;11]%Z).
Proof.
  split; apply seconds_ordinary.
  - repeat (apply Forall_cons; [lia|]). constructor.
  - intros i Hi. do 8 (destruct i as [|i]; [cbn; lia|]). cbn [length] in Hi. lia.
  - repeat (apply Forall_cons; [lia|]). constructor.
  - intros i Hi. do 7 (destruct i as [|i]; [cbn; lia|]). cbn [length] in Hi. lia.
Qed.
Example C90_steady_case : view (detect_tempo_variations 100 (map z2f [0;1;2;3;4;5;6;7;8]%Z) (z2f 61))
  = [(0, 4, 60, false); (2, 6, 60, false); (4, 8, 60, false); (6, 8, 60, false)]%Z.
Proof. vm_compute. reflexivity. Qed.
Example C90_change_case : view (detect_tempo_variations 100 (map z2f [0;1;2;3;5;7;9;11]%Z) (z2f 61))
  = [(0, 4, 60, false); (2, 6, 40, true)]%Z.
Proof. vm_compute. reflexivity. Qed.
