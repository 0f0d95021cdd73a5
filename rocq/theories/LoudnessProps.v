(** C74: the loudness measurement (src/preprocessing/normalization.rs:111-259). *)
From Coq Require Import ZArith Reals Lra.
From Flocq Require Import Core BinarySingleNaN.
From Verif Require Import Rust F32 F32Facts F32More ListFacts Libm Normalization.
Local Open Scope nat_scope.

(** [y] is the output of the second-order section with coefficients b0 b1 b2 a1 a2 for the input [x] (direct form II
    transposed, from rest): s1 and s2 are the values of its two registers before each sample. *)
Definition biquad (b0 b1 b2 a1 a2 : f32) (x y : list f32) : Prop :=
  length y = length x /\ exists s1 s2 : nat -> f32, s1 0 = f0 /\ s2 0 = f0 /\
  forall n u v, nth_error x n = Some u -> nth_error y n = Some v ->
    v = fadd (fmul b0 u) (s1 n) /\
    s1 (S n) = fsub (fadd (fmul b1 u) (s2 n)) (fmul a1 v) /\
    s2 (S n) = fsub (fmul b2 u) (fmul a2 v).

(** The high-pass at 1681.9745 Hz that stands in for the K weighting; the factor is the root of 1/0.707. *)
Definition high_pass (L : libm) (sr : f32) (x y : list f32) : Prop :=
  let w := fdiv (fmul (fmul f2 (lit 13176795 (-22))) (lit 13778735 (-13))) sr in
  let alpha := fmul (fdiv (m_sin L w) f2) (fsqrt (fdiv f1 (lit 2965373 (-22)))) in
  let c := m_cos L w in
  biquad (fdiv (fdiv (fadd f1 c) f2) (fadd f1 alpha)) (fdiv (fneg (fadd f1 c)) (fadd f1 alpha)) (fdiv (fdiv (fadd f1 c) f2) (fadd f1 alpha))
         (fdiv (fmul (fneg f2) c) (fadd f1 alpha)) (fdiv (fsub f1 alpha) (fadd f1 alpha)) x y.

(** Mean squares of the consecutive blocks of B samples, the last of which may be shorter. *)
Definition block_energies (B : nat) (y es : list f32) : Prop :=
  (forall i, nth_error es i <> None <-> i * B < length y) /\
  (forall i e, nth_error es i = Some e ->
     let b := firstn B (skipn (i * B) y) in e = fdiv (fsum (map (fun x => fmul x x) b)) (n2f (length b))).

Lemma kprocess_length : forall k s p q, length (kprocess k p q s) = length s.
Proof. induction s as [|x s IH]; intros p q; cbn [kprocess length]; cbv zeta; auto. Qed.

Lemma kprocess_biquad : forall k s, biquad (kf_b0 k) (kf_b1 k) (kf_b2 k) (kf_a1 k) (kf_a2 k) s (kprocess k f0 f0 s).
Proof.
  intros k s. split; [apply kprocess_length|].
  assert (G : forall s p q, exists s1 s2 : nat -> f32, s1 0 = p /\ s2 0 = q /\
    forall n u v, nth_error s n = Some u -> nth_error (kprocess k p q s) n = Some v ->
      v = fadd (fmul (kf_b0 k) u) (s1 n) /\
      s1 (S n) = fsub (fadd (fmul (kf_b1 k) u) (s2 n)) (fmul (kf_a1 k) v) /\
      s2 (S n) = fsub (fmul (kf_b2 k) u) (fmul (kf_a2 k) v)).
  { clear s. induction s as [|x s IH]; intros p q.
    { exists (fun _ => p), (fun _ => q). split; auto. split; auto. intros [|n] u v H; discriminate H. }
    cbn [kprocess]. cbv zeta.
    set (o := fadd (fmul (kf_b0 k) x) p). set (p' := fsub (fadd (fmul (kf_b1 k) x) q) (fmul (kf_a1 k) o)).
    set (q' := fsub (fmul (kf_b2 k) x) (fmul (kf_a2 k) o)).
    destruct (IH p' q') as (s1 & s2 & E1 & E2 & H).
    exists (fun n => match n with 0 => p | S n => s1 n end), (fun n => match n with 0 => q | S n => s2 n end).
    split; auto. split; auto. intros [|n] u v; cbn [nth_error].
    - intros A B. assert (x = u) by congruence. assert (Ev : o = v) by congruence. subst u v. rewrite E1, E2. auto.
    - apply H. }
  destruct (G s f0 f0) as (s1 & s2 & H). eauto.
Qed.

Lemma skipn_twice : forall (A : Type) a b (l : list A), skipn a (skipn b l) = skipn (b + a) l.
Proof. intros A a. induction b as [|b IH]; intros l; auto. destruct l; cbn [skipn Nat.add]; auto. apply skipn_nil. Qed.
Lemma chunks_nth : forall B fuel s, B <> 0 -> length s <= fuel ->
  (forall i, nth_error (chunks fuel B s) i <> None <-> i * B < length s) /\
  (forall i b, nth_error (chunks fuel B s) i = Some b -> b = firstn B (skipn (i * B) s)).
Proof.
  intros B. induction fuel as [|fuel IH]; intros s HB Hl.
  { destruct s; [|cbn in Hl; lia]. cbn [chunks length]. split; intros [|i]; cbn; try discriminate; try (split; [congruence|lia]). }
  destruct s as [|x s].
  { cbn [chunks length]. split; intros [|i]; cbn; try discriminate; try (split; [congruence|lia]). }
  cbn [chunks]. set (t := x :: s) in *. assert (Lt : length t <> 0) by (cbn; lia). clearbody t.
  assert (Ls : length (skipn B t) <= fuel) by (rewrite skipn_length; lia).
  destruct (IH (skipn B t) HB Ls) as (A & C). split.
  - intros [|i]; cbn [nth_error]; [split; [lia|discriminate]|]. rewrite A, skipn_length. lia.
  - intros [|i] b; cbn [nth_error]; intros H; [injection H as <-; reflexivity|].
    rewrite (C i b H), skipn_twice. reflexivity.
Qed.

Lemma chunks_clip : forall fuel B s, length s <= B -> B <> 0 -> s <> [] -> length s <= fuel -> chunks fuel (length s) s = chunks fuel B s.
Proof.
  intros [|fuel] B [|x s] H HB N Hf; try congruence; [cbn in Hf; lia|]. set (t := x :: s) in *. cbn [chunks]. change (match t with [] => [] | _ => ?a end) with a.
  rewrite !firstn_all2, !skipn_all2 by lia. destruct fuel; reflexivity.
Qed.

(** What is measured: the mean of the block energies above the gate of -70 LUFS, as -0.691 + 10 log10, with blocks of
    400 ms; minus infinity if no block passes the gate. *)
Definition gate (L : libm) : f32 := m_powf L (z2f 10) (fdiv (fadd (fneg (z2f 70)) (lit 362283 (-19))) (z2f 10)).
Theorem C74_content : forall L s sr v, calculate_lufs L s sr = Ok v ->
  exists B y es, Z.of_nat B = f2usize (fdiv (fmul sr (z2f 400)) (z2f 1000)) /\ 0 < B /\
    high_pass L sr s y /\ block_energies B y es /\
    let loud := filter (fun e => flt (gate L) e) es in
    let mean := fdiv (fsum loud) (n2f (length loud)) in
    (loud = [] -> v = fninf) /\
    (loud <> [] -> fle mean (lit 14411519 (-57)) = false /\ v = fadd (fneg (lit 362283 (-19))) (fmul (z2f 10) (m_log10 L mean))).
Proof.
  intros L s sr v H. unfold calculate_lufs in H. destruct s as [|x0 s0]; [discriminate|].
  assert (Ns : x0 :: s0 <> []) by discriminate. set (s := x0 :: s0) in *. clearbody s. clear x0 s0.
  destruct (fle sr f0); [discriminate|]. cbv zeta in H.
  assert (Hb : (0 <= f2usize (fdiv (fmul sr (z2f 400)) (z2f 1000)))%Z) by apply f2usize_bounds.
  set (bs := f2usize (fdiv (fmul sr (z2f 400)) (z2f 1000))) in *. destruct (Z.eqb_spec bs 0) as [|Nb]; [discriminate|].
  set (es := map _ (chunks _ _ _)) in H.
  exists (Z.to_nat bs), (kprocess (kweight L sr) f0 f0 s), es.
  split; [lia|]. split; [lia|]. split; [apply kprocess_biquad|]. split.
  { assert (Ly : length (kprocess (kweight L sr) f0 f0 s) = length s) by apply kprocess_length.
    set (y := kprocess (kweight L sr) f0 f0 s) in *. clearbody y. unfold es. clear H es.
    replace (chunks (length s) (Z.to_nat (Z.min bs (Z.of_nat (length s)))) y) with (chunks (length s) (Z.to_nat bs) y).
    2:{ destruct (Z.le_gt_cases bs (Z.of_nat (length s))) as [C|C].
        - now rewrite Z.min_l.
        - rewrite Z.min_r, Nat2Z.id by lia. rewrite <- Ly. symmetry. apply chunks_clip; try lia. intros ->. cbn in Ly. destruct s; [congruence|discriminate]. }
    destruct (chunks_nth (Z.to_nat bs) (length s) y) as (A & C); try lia. split.
    - intros i. rewrite nth_error_map, <- A. destruct (nth_error (chunks _ _ _) i); cbn [option_map]; split; congruence.
    - intros i e. rewrite nth_error_map. destruct (nth_error (chunks _ _ _) i) as [b|] eqn:E; cbn [option_map]; [|discriminate].
      intros X. assert (Eb := C i b E). subst b. now injection X as <-. }
  clearbody es. unfold gate. change (z2f 10) with f10. cbv zeta. change fgt with (fun a b => flt b a) in H. cbv beta in H.
  destruct (filter _ es) as [|e l] eqn:E.
  { split; [congruence|]. intros X. congruence. }
  split; [discriminate|]. intros _. change (lit 14411519 (-57)) with eps10.
  destruct (fle _ eps10) eqn:G; [discriminate|]. split; [reflexivity|]. congruence.
Qed.
Print Assumptions C74_content.

(** When there is no measurement. *)
Theorem C74_outcome : forall L s sr,
  (s = [] \/ fle sr f0 = true \/ f2usize (fdiv (fmul sr (z2f 400)) (z2f 1000)) = 0%Z -> calculate_lufs L s sr = Err InvalidInput) /\
  (s <> [] -> fle sr f0 = false -> f2usize (fdiv (fmul sr (z2f 400)) (z2f 1000)) <> 0%Z ->
     (exists v, calculate_lufs L s sr = Ok v) \/ calculate_lufs L s sr = Err NumericalError).
Proof.
  intros L [|x s] sr; split; intros H; auto; try congruence.
  - destruct H as [H|[H|H]]; [discriminate| |]; cbn [calculate_lufs]; [now rewrite H|].
    destruct (fle sr f0); auto. cbv zeta. now rewrite H.
  - intros A B. unfold calculate_lufs. rewrite A. cbv zeta. destruct (Z.eqb_spec (f2usize (fdiv (fmul sr (z2f 400)) (z2f 1000))) 0); [contradiction|].
    destruct (filter _ _) as [|e l]; [eauto|]. match goal with |- context [fle ?a eps10] => destruct (fle a eps10) end; eauto.
Qed.
Print Assumptions C74_outcome.

Local Open Scope R_scope.
(** Halving commutes with rounding away from the subnormals. *)
Lemma rnd_half : forall r, bpow radix2 (-120) <= Rabs r -> rnd (r / 2) = rnd r / 2.
Proof.
  intros r H. assert (Nz : r <> 0). { intros E. rewrite E, Rabs_R0 in H. pose proof (bpow_gt_0 radix2 (-120)). lra. }
  assert (M : (-120 < mag radix2 r)%Z) by (apply mag_gt_bpow; exact H).
  assert (C : forall k, (-122 < k)%Z -> SpecFloat.fexp 24 128 k = (k - 24)%Z) by (intros k K; unfold SpecFloat.fexp, SpecFloat.emin; lia).
  assert (D : r / 2 = r * bpow radix2 (-1)) by (change (bpow radix2 (-1)) with (/ 2); reflexivity).
  unfold rnd, round, scaled_mantissa, cexp. rewrite D, mag_mult_bpow by exact Nz. rewrite !C by lia.
  replace (r * bpow radix2 (-1) * bpow radix2 (- (mag radix2 r + -1 - 24))) with (r * bpow radix2 (- (mag radix2 r - 24))).
  2:{ rewrite Rmult_assoc, <- bpow_plus. do 2 f_equal. lia. }
  unfold F2R; cbn [Fnum Fexp]. replace (mag radix2 r + -1 - 24)%Z with (-1 + (mag radix2 r - 24))%Z by lia.
  rewrite bpow_plus. change (bpow radix2 (-1)) with (/ 2). field.
Qed.

Lemma one_plus : forall c : f32, -1 < B2R c -> bpow radix2 (-24) <= 1 + B2R c.
Proof.
  intros c H. destruct (Rle_or_lt (B2R c) (- / 2)) as [S|S].
  2:{ pose proof (bpow_le radix2 (-24) (-1) ltac:(lia)) as B. change (bpow radix2 (-1)) with (/ 2) in B. lra. }
  destruct (FLT_format_B2R fprec femax _ c) as [[m e] E Hm He]. cbn [Fnum Fexp] in Hm, He. unfold F2R in E. cbn [Fnum Fexp] in E.
  assert (P24 : bpow radix2 (-24) * bpow radix2 24 = 1) by (rewrite <- bpow_plus; reflexivity).
  assert (Ee : (-25 < e)%Z).
  { destruct (Z.lt_ge_cases (-25) e) as [|K]; auto. exfalso.
    assert (Bm : Rabs (IZR m) < bpow radix2 24).
    { rewrite <- abs_IZR. change (bpow radix2 24) with (IZR (2 ^ 24)). apply IZR_lt. exact Hm. }
    pose proof (bpow_le radix2 e (-25) ltac:(lia)) as B. pose proof (bpow_gt_0 radix2 e) as P.
    assert (X : Rabs (B2R c) < / 2).
    { rewrite E, Rabs_mult, (Rabs_pos_eq (bpow radix2 e)) by lra. eapply Rlt_le_trans with (bpow radix2 24 * bpow radix2 (-25)).
      - pose proof (Rabs_pos (IZR m)). nra.
      - rewrite <- bpow_plus. apply Rle_refl. }
    unfold Rabs in X. destruct (Rcase_abs (B2R c)); lra. }
  set (K := (2 ^ 24 + m * 2 ^ (e + 24))%Z).
  assert (EK : 1 + B2R c = IZR K * bpow radix2 (-24)).
  { unfold K. rewrite plus_IZR, mult_IZR, !(IZR_Zpower radix2) by lia. rewrite Rmult_plus_distr_r, Rmult_assoc, <- !bpow_plus, E.
    replace (e + 24 + -24)%Z with e by lia. reflexivity. }
  pose proof (bpow_gt_0 radix2 (-24)) as P. assert (0 < K)%Z. { apply lt_IZR. nra. }
  assert (1 <= IZR K) by (apply IZR_le; lia). rewrite EK. nra.
Qed.

Definition angle (sr : f32) : f32 := fdiv (fmul (fmul f2 (lit 13176795 (-22))) (lit 13778735 (-13))) sr.
Definition unit_bound (x : f32) : Prop := fisfin x = true /\ fle (fabs x) f1 = true.

Lemma unit_R : forall x, unit_bound x -> fin x /\ -1 <= B2R x <= 1.
Proof.
  intros x (F & H). split; auto. apply fle_fx in H. rewrite fabs_fx, fx_fin, fx_f1 in H by (auto using fin_nn).
  unfold Rabs in H. destruct (Rcase_abs (B2R x)); lra.
Qed.

Lemma quality : fin (fsqrt (fdiv f1 (lit 2965373 (-22)))) /\ 9 / 8 <= B2R (fsqrt (fdiv f1 (lit 2965373 (-22)))) <= 5 / 4.
Proof.
  split; [vm_compute; reflexivity|]. rewrite <- SF2R_B2SF.
  replace (B2SF (fsqrt (fdiv f1 (lit 2965373 (-22))))) with (SpecFloat.S754_finite false 9976546%positive (-23)%Z) by (vm_compute; reflexivity).
  cbn; unfold F2R; cbn; lra.
Qed.

Definition rep (r : R) : Prop := rnd r = r.
Lemma rep_int : forall m e, (Z.abs m < 2 ^ 24)%Z -> (-149 <= e)%Z -> rep (IZR m * bpow radix2 e).
Proof.
  intros m e M E. apply round_generic; [apply valid_rnd_N|]. apply generic_format_FLT. exists (Float radix2 m e); auto.
Qed.
Lemma fin_small : forall x, nn x -> -100 <= fx x <= 100 -> fin x.
Proof.
  intros x N H. pose proof (bpow_le radix2 7 128 ltac:(lia)) as B. change (bpow radix2 7) with 128 in B. fold big in B.
  destruct x as [|[]| |]; try discriminate N; auto; cbn in H; lra.
Qed.
Lemma op_in : forall (x : f32) r lo hi, nn x -> fx x = sat (rnd r) -> rep lo -> rep hi -> -100 <= lo -> hi <= 100 -> lo <= r <= hi ->
  fin x /\ B2R x = rnd r /\ lo <= B2R x <= hi.
Proof.
  intros x r lo hi N E Rl Rh L H (A & B). apply rnd_mono in A, B. rewrite Rl in A. rewrite Rh in B.
  pose proof (bpow_le radix2 7 128 ltac:(lia)) as P. change (bpow radix2 7) with 128 in P. fold big in P.
  rewrite sat_id in E by lra. assert (F : fin x) by (apply fin_small; auto; lra). rewrite fx_fin in E by auto. rewrite E. auto.
Qed.
Ltac rep_as m e := replace (rep _) with (rep (IZR m * bpow radix2 e)) by (f_equal; cbn; lra); apply rep_int; lia.

Lemma rnd_le_rep : forall r h, rep h -> r <= h -> rnd r <= h.
Proof. intros r h H L. rewrite <- H. now apply rnd_mono. Qed.
Lemma rnd_ge_rep : forall r h, rep h -> h <= r -> h <= rnd r.
Proof. intros r h H L. rewrite <- H. now apply rnd_mono. Qed.

(** The denominator of the coefficients. *)
Lemma alpha_bounds : forall L sr, unit_bound (m_sin L (angle sr)) ->
  let alpha := fmul (fdiv (m_sin L (angle sr)) f2) (fsqrt (fdiv f1 (lit 2965373 (-22)))) in
  fin alpha /\ -5 / 8 <= B2R alpha <= 5 / 8 /\ fin (fadd f1 alpha) /\ 3 / 8 <= B2R (fadd f1 alpha) <= 13 / 8 /\
  fin (fsub f1 alpha) /\ 3 / 8 <= B2R (fsub f1 alpha) <= 13 / 8 /\
  (B2R (m_sin L (angle sr)) <= - (1 / 4) -> B2R (fadd f1 alpha) <= 7 / 8 /\ 9 / 8 <= B2R (fsub f1 alpha)).
Proof.
  intros L sr H alpha. apply unit_R in H as (Fs & Bs). destruct quality as (Fq & Bq).
  assert (R1 : B2R f1 = 1) by (rewrite <- fx_fin; auto using fx_f1). assert (R2 : B2R f2 = 2) by (rewrite <- fx_fin; auto using fx_f2).
  set (s := m_sin L (angle sr)) in *. set (q := fsqrt (fdiv f1 (lit 2965373 (-22)))) in *. clearbody s q.
  destruct (fdiv_fx s f2 Fs eq_refl ltac:(lra)) as (N1 & E1). rewrite R2 in E1.
  destruct (op_in (fdiv s f2) (B2R s / 2) (- (1 / 2)) (1 / 2) N1 E1) as (F1 & V1 & B1); try lra.
  { rep_as (-1)%Z (-1)%Z. } { rep_as 1%Z (-1)%Z. }
  destruct (fmul_fx (fdiv s f2) q F1 Fq) as (N2 & E2). fold alpha in N2, E2.
  destruct (op_in alpha _ (- 5 / 8) (5 / 8) N2 E2) as (F2 & V2 & B2); try lra; try nra.
  { rep_as (-5)%Z (-3)%Z. } { rep_as 5%Z (-3)%Z. }
  assert (Sm : B2R s <= - (1 / 4) -> B2R alpha <= - (1 / 8)).
  { intros S. assert (V : B2R (fdiv s f2) <= - (1 / 8)).
    { rewrite V1. apply rnd_le_rep; [rep_as (-1)%Z (-3)%Z|]. lra. }
    rewrite V2. apply rnd_le_rep; [rep_as (-1)%Z (-3)%Z|]. nra. }
  clearbody alpha. split; auto. split; auto.
  destruct (fadd_fx f1 alpha eq_refl F2) as (N3 & E3). rewrite R1 in E3.
  destruct (op_in (fadd f1 alpha) _ (3 / 8) (13 / 8) N3 E3) as (F3 & V3 & B3); try lra.
  { rep_as 3%Z (-3)%Z. } { rep_as 13%Z (-3)%Z. }
  destruct (fsub_fx f1 alpha eq_refl F2) as (N4 & E4). rewrite R1 in E4.
  destruct (op_in (fsub f1 alpha) _ (3 / 8) (13 / 8) N4 E4) as (F4 & V4 & B4); try lra.
  { rep_as 3%Z (-3)%Z. } { rep_as 13%Z (-3)%Z. }
  split; auto. split; auto. split; auto. split; auto. intros S. specialize (Sm S). split.
  - rewrite V3. apply rnd_le_rep; [rep_as 7%Z (-3)%Z|]. lra.
  - rewrite V4. apply rnd_ge_rep; [rep_as 9%Z (-3)%Z|]. lra.
Qed.

(** The filter removes the mean: its feed-forward coefficients sum to 0 exactly, in spite of rounding.  (The weighting it is
    named after, a shelf, keeps low frequencies.) *)
Theorem C74_no_dc : forall L sr, unit_bound (m_sin L (angle sr)) -> unit_bound (m_cos L (angle sr)) ->
  let k := kweight L sr in
  fisfin (kf_b0 k) = true /\ fisfin (kf_b1 k) = true /\ fisfin (kf_b2 k) = true /\ fisfin (kf_a1 k) = true /\ fisfin (kf_a2 k) = true /\
  B2R (kf_b0 k) + B2R (kf_b1 k) + B2R (kf_b2 k) = 0 /\ 0 <= B2R (kf_b0 k) <= 3.
Proof.
  intros L sr Hs Hc k. destruct (alpha_bounds L sr Hs) as (Fa & Ba & Fd & Bd & Fe & Be & _).
  unfold k, kweight. cbv zeta. fold (angle sr). cbn [kf_b0 kf_b1 kf_b2 kf_a1 kf_a2].
  set (alpha := fmul (fdiv (m_sin L (angle sr)) f2) (fsqrt (fdiv f1 (lit 2965373 (-22))))) in *.
  apply unit_R in Hc as (Fc & Bc). set (c := m_cos L (angle sr)) in *. set (d := fadd f1 alpha) in *. set (e := fsub f1 alpha) in *.
  clearbody c d e. clear Hs Fa Ba k alpha.
  assert (R1 : B2R f1 = 1) by (rewrite <- fx_fin; auto using fx_f1). assert (R2 : B2R f2 = 2) by (rewrite <- fx_fin; auto using fx_f2).
  destruct (fadd_fx f1 c eq_refl Fc) as (Nu & Eu). rewrite R1 in Eu.
  destruct (op_in (fadd f1 c) _ 0 2 Nu Eu) as (Fu & Vu & Bu); try lra.
  { unfold rep. apply rnd_0. } { rep_as 2%Z 0%Z. }
  assert (Lu : B2R (fadd f1 c) = 0 \/ bpow radix2 (-24) <= B2R (fadd f1 c)).
  { destruct (Rle_lt_or_eq_dec (-1) (B2R c) (proj1 Bc)) as [X|X].
    - right. rewrite Vu, <- (round_generic radix2 (SpecFloat.fexp 24 128) ZnearestE (bpow radix2 (-24))).
      + apply rnd_mono. now apply one_plus.
      + apply generic_format_bpow. unfold SpecFloat.fexp, SpecFloat.emin. lia.
    - left. rewrite Vu, <- X. replace (1 + -1) with 0 by lra. apply rnd_0. }
  set (u := fadd f1 c) in *. clearbody u.
  destruct (fdiv_fx u f2 Fu eq_refl ltac:(lra)) as (Nh & Eh). rewrite R2 in Eh.
  destruct (op_in (fdiv u f2) _ 0 1 Nh Eh) as (Fh & Vh & Bh); try lra.
  { unfold rep. apply rnd_0. } { rep_as 1%Z 0%Z. }
  assert (Xh : B2R (fdiv u f2) = B2R u / 2).
  { rewrite Vh. destruct Lu as [Z|P]; [rewrite Z; replace (0 / 2) with 0 by lra; apply rnd_0|].
    rewrite rnd_half, rnd_B2R; auto. rewrite Rabs_pos_eq by lra. eapply Rle_trans; [|exact P]. apply bpow_le. lia. }
  assert (Dn : B2R d <> 0) by lra.
  destruct (fdiv_fx (fdiv u f2) d Fh Fd Dn) as (N0 & E0).
  assert (Q : forall y, 0 <= y <= 1 -> 0 <= y / B2R d <= 8 / 3).
  { intros y Y. assert (I : 0 < / B2R d <= 8 / 3).
    { split; [apply Rinv_0_lt_compat; lra|]. replace (8 / 3) with (/ (3 / 8)) by lra. apply Rinv_le; lra. }
    unfold Rdiv. split; [apply Rmult_le_pos; lra|]. nra. }
  assert (T : exists hi, rep hi /\ 8 / 3 <= hi <= 3) by (exists 3; split; [rep_as 3%Z 0%Z|lra]).
  destruct T as (hi & Rhi & Bhi).
  destruct (op_in (fdiv (fdiv u f2) d) _ 0 hi N0 E0) as (F0 & V0 & B0); try lra.
  { unfold rep. apply rnd_0. } { exact Rhi. } { destruct (Q _ Bh). lra. }
  assert (Fn : fin (fneg u)) by (unfold fneg; destruct u; auto).
  assert (Rn : B2R (fneg u) = - B2R u) by (rewrite <- !fx_fin by auto; apply fneg_fx).
  destruct (fdiv_fx (fneg u) d Fn Fd Dn) as (N1 & E1). rewrite Rn in E1.
  assert (Eq : - B2R u / B2R d = - 2 * (B2R (fdiv u f2) / B2R d)) by (rewrite Xh; field; lra).
  destruct (op_in (fdiv (fneg u) d) _ (- 6) 0 N1 E1) as (F1 & V1 & B1); try lra.
  { rep_as (-6)%Z 0%Z. } { unfold rep. apply rnd_0. } { rewrite Eq. destruct (Q _ Bh). lra. }
  destruct (fmul_fx (fneg f2) c eq_refl Fc) as (Nm & Em). assert (Rm : B2R (fneg f2) = -2) by (rewrite <- fx_fin, fneg_fx, fx_f2 by reflexivity; lra).
  rewrite Rm in Em.
  destruct (op_in (fmul (fneg f2) c) _ (-2) 2 Nm Em) as (Fm & Vm & Bm); try lra.
  { rep_as (-2)%Z 0%Z. } { rep_as 2%Z 0%Z. }
  assert (Id : 0 < / B2R d <= 8 / 3).
  { split; [apply Rinv_0_lt_compat; lra|]. replace (8 / 3) with (/ (3 / 8)) by lra. apply Rinv_le; lra. }
  destruct (fdiv_fx (fmul (fneg f2) c) d Fm Fd Dn) as (N3 & E3).
  destruct (op_in (fdiv (fmul (fneg f2) c) d) _ (- 6) 6 N3 E3) as (F3 & _ & _); try lra.
  { rep_as (-6)%Z 0%Z. } { rep_as 6%Z 0%Z. } { unfold Rdiv. split; nra. }
  destruct (fdiv_fx e d Fe Fd Dn) as (N4 & E4).
  destruct (op_in (fdiv e d) _ 0 6 N4 E4) as (F4 & _ & _); try lra.
  { unfold rep. apply rnd_0. } { rep_as 6%Z 0%Z. } { unfold Rdiv. split; nra. }
  do 5 (split; [assumption|]).
  assert (Sum : B2R (fdiv (fneg u) d) = - 2 * B2R (fdiv (fdiv u f2) d)).
  { rewrite V0, V1, Xh. replace (- B2R u / B2R d) with (- (B2R u / B2R d)) by (field; lra). rewrite rnd_opp.
    destruct Lu as [Z|P].
    - rewrite Z. replace (0 / B2R d) with 0 by (field; lra). replace (0 / 2 / B2R d) with 0 by (field; lra). rewrite rnd_0. lra.
    - replace (B2R u / 2 / B2R d) with (B2R u / B2R d / 2) by (field; lra). rewrite rnd_half; [lra|].
      assert (X : / 2 <= / B2R d) by (apply Rinv_le; lra). rewrite Rabs_pos_eq.
      + unfold Rdiv. apply Rle_trans with (bpow radix2 (-24) * / 2).
        * change (/ 2) with (bpow radix2 (-1)). rewrite <- bpow_plus. apply bpow_le. lia.
        * pose proof (bpow_gt_0 radix2 (-24)). nra.
      + unfold Rdiv. apply Rmult_le_pos; lra. }
  split; lra.
Qed.
Print Assumptions C74_no_dc.

(** Below 3364 Hz the angle exceeds a half turn, its sine is negative and the filter is unstable: the product of its poles,
    the last feedback coefficient, exceeds 1. *)
Theorem C74_unstable : forall L sr, unit_bound (m_sin L (angle sr)) -> B2R (m_sin L (angle sr)) <= - (1 / 4) ->
  5 / 4 <= B2R (kf_a2 (kweight L sr)).
Proof.
  intros L sr Hs H. destruct (alpha_bounds L sr Hs) as (_ & _ & Fd & Bd & Fe & Be & X). destruct (X H) as (D & E).
  unfold kweight. cbv zeta. fold (angle sr). cbn [kf_a2].
  set (alpha := fmul (fdiv (m_sin L (angle sr)) f2) (fsqrt (fdiv f1 (lit 2965373 (-22))))) in *.
  set (d := fadd f1 alpha) in *. set (e := fsub f1 alpha) in *. clearbody d e.
  destruct (fdiv_fx e d Fe Fd ltac:(lra)) as (N & V).
  assert (Id : 8 / 7 <= / B2R d <= 8 / 3).
  { split; [replace (8 / 7) with (/ (7 / 8)) by lra|replace (8 / 3) with (/ (3 / 8)) by lra]; apply Rinv_le; lra. }
  destruct (op_in (fdiv e d) _ (5 / 4) 6 N V) as (_ & _ & B); try lra.
  { rep_as 5%Z (-2)%Z. } { rep_as 6%Z 0%Z. } { unfold Rdiv. split; nra. }
Qed.
Print Assumptions C74_unstable.
Local Open Scope nat_scope.

(** At 3 kHz (sine -0.372, cosine -0.928) an impulse has grown to more than 10000 after 50 samples. *)
Definition steady (s c : f32) : libm := {| m_powf := fun _ _ => lit 1 (-20); m_log10 := fun x => x; m_log2 := fun x => x; m_ln := fun x => x;
  m_exp := fun x => x; m_sin := fun _ => s; m_cos := fun _ => c |}.
Example C74_unstable_case :
  let L := steady (fdiv (fneg (z2f 372)) (z2f 1000)) (fdiv (fneg (z2f 928)) (z2f 1000)) in
  existsb (fun x => flt (z2f 10000) (fabs x)) (kprocess (kweight L (z2f 3000)) f0 f0 (f1 :: repeat f0 50)) = true.
Proof. vm_compute. reflexivity. Qed.
(** Ten samples at 10 Hz (blocks of four, the last of two): filtered signal, energies above the gate, result. *)
Definition tone : list f32 := map z2f [1; 2; 0; 0; 0; 0; 0; 0; 4; 4]%Z.
Example C74_case :
  let L := steady f1 f0 in
  map (fun x => f2i32 (fmul (z2f 1000) x)) (kprocess (kweight L (z2f 10)) f0 f0 tone) = [313; 0; -1020; 627; 259; -159; -65; 40; 1270; -1264]%Z /\
  match calculate_lufs L tone (z2f 10) with Ok v => Some (f2i32 (fmul (z2f 1000) v)) | _ => None end = Some 6025%Z /\
  match calculate_lufs L (map (fun x => fmul x (lit 1 (-12))) tone) (z2f 10) with Ok v => feq v fninf | _ => false end = true /\
  calculate_lufs L tone f1 = Err InvalidInput.
Proof. vm_compute. auto. Qed.
