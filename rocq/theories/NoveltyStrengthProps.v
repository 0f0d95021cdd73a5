(** C81: the novelty curves are the documented onset strengths relative to their maximum. *)
From Coq Require Import ZArith Bool List Arith Lia Reals Lra.
From Flocq Require Import Core IEEE754.BinarySingleNaN.
From Verif Require Import Rust F32 F32Facts F32More ListFacts FloatSums Bounds Libm Novelty NoveltyProofs NoveltyProps Onsets OnsetsProofs
  FourierFacts AutocorrelationProofs AutocorrelationValueProofs OnsetStrengthFacts NoveltyStrengthFacts.
Import ListNotations.
Local Open Scope R_scope.

(** Energy, and energy weighted by the bin number, of the bins lo <= b < hi. *)
Definition energy_in (lo hi : nat) (fr : list f32) : R := sumn (fun i => Rsqr (B2R (nth (lo + i) fr f0))) (hi - lo).
Definition content_in (lo hi : nat) (fr : list f32) : R := sumn (fun i => INR (lo + i) * Rsqr (B2R (nth (lo + i) fr f0))) (hi - lo).

(** What each curve documents as the strength of a transition from [prev] to [cur], n bins each:
    the length of the vector of rises of the peak-normalized bins; the rise of the energy or of the
    bin-weighted energy, over all bins or over a band; the length of the vector by which the
    log-compressed bins (or triangular bands of bins) rise above everything within k of them in the
    previous frame. *)
Definition strength (edges : list nat) (c : curve) (n : nat) (prev cur : list f32) : R :=
  match c with
  | Spectral => flux prev cur
  | Energy => Rmax 0 (energy_in 0 n cur - energy_in 0 n prev)
  | EnergyBand a b => Rmax 0 (energy_in (Nat.min a n) (Nat.min b n) cur - energy_in (Nat.min a n) (Nat.min b n) prev)
  | Hfc _ => Rmax 0 (content_in 0 n cur - content_in 0 n prev)
  | HfcBand a b => Rmax 0 (content_in (Nat.min a n) (Nat.min b n) cur - content_in (Nat.min a n) (Nat.min b n) prev)
  | Super k => super (loud prev) (loud cur) 0 n (Z.max k 1)
  | SuperBand k a b => super (loud prev) (loud cur) (Nat.min a n) (Nat.min b n) (Z.max k 1)
  | MelSuper _ nm _ _ k => super (mel_level edges prev) (mel_level edges cur) 0 (Nat.max nm 4) (Z.max k 1)
  end.
(** How far the f32 value may be off, with a logarithm accurate to e. *)
Definition tolerance (e : R) (edges : list nat) (c : curve) (n : nat) (prev cur : list f32) : R :=
  match c with
  | Spectral => (INR n + 2) / 5000000 * flux prev cur + (INR n + 1) / 2000000
  | Energy => (INR n + 2) / 4000000 * (energy_in 0 n prev + energy_in 0 n cur) + bpow radix2 (-78)
  | EnergyBand a b => (INR n + 2) / 4000000 * (energy_in (Nat.min a n) (Nat.min b n) prev + energy_in (Nat.min a n) (Nat.min b n) cur) + bpow radix2 (-78)
  | Hfc _ => (INR n + 2) / 4000000 * (content_in 0 n prev + content_in 0 n cur) + bpow radix2 (-78)
  | HfcBand a b => (INR n + 2) / 4000000 * (content_in (Nat.min a n) (Nat.min b n) prev + content_in (Nat.min a n) (Nat.min b n) cur) + bpow radix2 (-78)
  | Super _ | SuperBand _ _ _ => (INR n + 6) / 5000000 * strength edges c n prev cur + 9 * (INR n * (e + 5 * u24)) + bpow radix2 (-59)
  | MelSuper _ nm _ _ k =>
      let m := Nat.max nm 4 in
      (INR m + 6) / 5000000 * strength edges c n prev cur
      + 3 * ((2 * INR n + 3) / 5000000 * sumn (fun i => mel_level edges cur i + wmax (mel_level edges prev) 0 m (Z.max k 1) i) m)
      + 27 * (INR m * (INR n * (e + 5 * u24))) + bpow radix2 (-59)
  end.
(** The bin edges of the mel filters, and a bound on their number. *)
Definition filters (lm : libm) (c : curve) (n : nat) (edges : list nat) : Prop :=
  match c with
  | MelSuper r nm lo hi _ => mel_edges lm r n (Nat.max nm 4) lo hi = Ok edges /\ (Z.of_nat (Nat.max nm 4) <= 1048576)%Z
  | _ => True
  end.
(** [out] is the sequence s divided by its maximum, or s itself when the maximum is at most 1e-10. *)
Definition relative_to_max (s : nat -> R) (n : nat) (out : list f32) : Prop :=
  length out = n /\
  (forall i j, (i < n)%nat -> (j < n)%nat -> s i <= s j -> B2R (nth i out f0) <= B2R (nth j out f0)) /\
  exists top, (forall i, (i < n)%nat -> 0 <= s i <= top) /\ (exists i, (i < n)%nat /\ s i = top) /\
    forall i, (i < n)%nat -> fin (nth i out f0) /\
      (top <= floor10 -> B2R (nth i out f0) = s i) /\
      (floor10 < top -> Rabs (B2R (nth i out f0) - s i / top) <= u24 * (s i / top) + tiny).

Lemma normalize_mono : forall raw k i j, Forall (upto k) raw -> (i < length raw)%nat -> (j < length raw)%nat -> B2R (nth i raw f0) <= B2R (nth j raw f0) ->
  B2R (nth i (normalize raw) f0) <= B2R (nth j (normalize raw) f0).
Proof.
  intros raw k i j H Hi Hj L. destruct (fold_peak raw f0 eq_refl) as (Fm & Em). { eapply Forall_impl; [|exact H]. intros x. apply upto_fin. }
  change (fold_right Rmax (B2R f0) (map B2R raw)) with (peak raw) in Em. unfold normalize. set (m := fold_left fmax raw f0) in *.
  destruct on_eps_val as (Fe & Ee). change nov_eps with on_eps. unfold fgt. rewrite Bltb_correct by auto. rewrite Ee, Em.
  destruct (Rlt_bool_spec floor10 (peak raw)) as [P|P]; [|exact L]. assert (P0 : 0 < peak raw) by (unfold floor10 in P; lra).
  assert (V : forall q, (q < length raw)%nat -> B2R (nth q (map (fun x => fdiv x m) raw) f0) = rnd (B2R (nth q raw f0) / peak raw)).
  { intros q Q. rewrite (nth_indep _ f0 (fdiv f0 m)) by (now rewrite map_length). rewrite (map_nth (fun x => fdiv x m)).
    assert (Ux : upto k (nth q raw f0)) by (rewrite Forall_forall in H; now apply H, nth_In). destruct Ux as (Fx & X0 & _).
    pose proof (peak_ge raw q) as X1. set (x := nth q raw f0) in *.
    assert (Q01 : 0 <= B2R x / peak raw <= 1) by (split; [apply quot_nonneg; lra|apply quot_le_1; lra]).
    destruct (fdiv_fx x m Fx Fm) as (N & E); [rewrite Em; lra|]. rewrite Em in E.
    assert (R01 : 0 <= rnd (B2R x / peak raw) <= 1) by (split; [apply rnd_nonneg; lra|eapply Rle_trans; [apply (rnd_mono _ (IZR 1)); lra|rewrite (rnd_Z 1) by lia; lra]]).
    rewrite sat_id in E by (unfold big; change (bpow radix2 128) with 340282366920938463463374607431768211456; lra).
    assert (F : fin (fdiv x m)) by (apply fin_iff; auto; rewrite E; unfold big; change (bpow radix2 128) with 340282366920938463463374607431768211456; lra).
    now rewrite fx_fin in E by exact F. }
  rewrite !V by auto. apply rnd_mono. unfold Rdiv. apply Rmult_le_compat_r; [left; now apply Rinv_0_lt_compat|exact L].
Qed.

Lemma peak_attained : forall l k, Forall (upto k) l -> (0 < length l)%nat -> exists i, (i < length l)%nat /\ B2R (nth i l f0) = peak l.
Proof.
  intros l k H L. destruct (fold_max_in (map B2R l)) as [E|I].
  - fold (peak l) in E. exists 0%nat. split; [exact L|]. pose proof (peak_ge l 0) as G. rewrite E in *. rewrite Forall_forall in H. destruct (H (nth 0 l f0) ltac:(now apply nth_In)) as (_ & ? & _). lra.
  - apply in_map_iff in I. destruct I as (x & E & I). destruct (In_nth _ _ f0 I) as (i & Hi & Ex). exists i. split; [exact Hi|]. now rewrite Ex.
Qed.

Lemma by_max : forall raw k, Forall (upto k) raw -> (k < 128)%Z -> (0 < length raw)%nat -> relative_to_max (fun i => B2R (nth i raw f0)) (length raw) (normalize raw).
Proof.
  intros raw k H K L. destruct (normalize_val raw k H K) as (E1 & E2 & E3). split; [exact E1|]. split; [intros; now apply (normalize_mono raw k)|].
  exists (peak raw). assert (U : forall i, (i < length raw)%nat -> upto k (nth i raw f0)) by (intros i Hi; rewrite Forall_forall in H; now apply H, nth_In).
  split; [|split; [exact (peak_attained raw k H L)|]].
  - intros i Hi. split; [apply (U i Hi)|apply peak_ge].
  - intros i Hi. destruct (Rle_lt_dec (peak raw) floor10) as [P|P].
    + rewrite (E2 P). split; [apply (U i Hi)|]. split; [reflexivity|lra].
    + destruct (E3 P i Hi) as (F & V). split; [exact F|]. split; [lra|intros _; exact V].
Qed.

Lemma adj_map_nth : forall (A : Type) (g : A -> A -> f32) (f : list f32 -> A) spec i, (S i < length spec)%nat ->
  nth i (adj g (map f spec)) f0 = g (f (nth i spec [])) (f (nth (S i) spec [])).
Proof.
  intros A g f spec i L. assert (X : nth_error spec i = Some (nth i spec [])) by (apply nth_error_nth'; lia). assert (Y : nth_error spec (S i) = Some (nth (S i) spec [])) by (apply nth_error_nth'; lia).
  apply nth_error_nth, adj_nth. do 2 eexists. rewrite !nth_error_map, X, Y. cbn [option_map]. eauto.
Qed.

Lemma finish : forall (A : Type) (g : A -> A -> f32) (f : list f32 -> A) spec (s t : list f32 -> list f32 -> R) out, out = normalize (adj g (map f spec)) -> (2 <= length spec)%nat ->
  (forall p c, In p spec -> In c spec -> upto 125 (g (f p) (f c)) /\ Rabs (B2R (g (f p) (f c)) - s p c) <= t p c) ->
  exists v, (forall i, (S i < length spec)%nat -> Rabs (v i - s (nth i spec []) (nth (S i) spec [])) <= t (nth i spec []) (nth (S i) spec [])) /\
    relative_to_max v (length spec - 1) out.
Proof.
  intros A g f spec s t out -> L H. set (raw := adj g (map f spec)). assert (Lr : length raw = (length spec - 1)%nat) by (unfold raw; now rewrite adj_length, map_length).
  assert (N : forall i, (S i < length spec)%nat -> nth i raw f0 = g (f (nth i spec [])) (f (nth (S i) spec []))) by (intros; now apply adj_map_nth).
  exists (fun i => B2R (nth i raw f0)). split.
  - intros i Hi. rewrite N by exact Hi. apply H; apply nth_In; lia.
  - rewrite <- Lr. apply (by_max raw 125); [|lia|lia]. apply Forall_forall. intros x I. destruct (In_nth _ _ f0 I) as (i & Hi & <-). rewrite N by lia. apply H; apply nth_In; lia.
Qed.

Lemma rise_case : forall (f : list f32 -> f32) (g : list f32 -> R) n prev cur, (Z.of_nat n <= 524288)%Z ->
  (forall x, x = prev \/ x = cur -> upto 105 (f x) /\ 0 <= g x /\ Rabs (B2R (f x) - g x) <= (INR n + 1) / 5000000 * g x + bpow radix2 (-80)) ->
  upto 125 (rise (f prev) (f cur)) /\ Rabs (B2R (rise (f prev) (f cur)) - Rmax 0 (g cur - g prev)) <= (INR n + 2) / 4000000 * (g prev + g cur) + bpow radix2 (-78).
Proof.
  intros f g n prev cur Hn V. destruct (V prev (or_introl eq_refl)) as (Up & Gp & Ep). destruct (V cur (or_intror eq_refl)) as (Uc & Gc & Ec).
  assert (Bn : INR n <= 524288) by (rewrite INR_IZR_INZ; now apply IZR_le). pose proof (pos_INR n) as N0.
  split; [apply (upto_mono 105); [lia|now apply rise_upto]|].
  destruct (rise_val 105 (f prev) (f cur) (g prev) (g cur) ((INR n + 1) / 5000000) (bpow radix2 (-80)) ltac:(lia) Up Uc Gp Gc ltac:(lra) ltac:(apply bpow_le; lia) Ep Ec) as (_ & Er).
  eapply Rle_trans; [exact Er|]. assert (E : bpow radix2 (-78) = 4 * bpow radix2 (-80)) by (change 4 with (bpow radix2 2); rewrite <- bpow_plus; reflexivity).
  rewrite E. apply Rplus_le_compat_r, Rmult_le_compat_r; lra.
Qed.

Lemma slice_nth : forall (l : list f32) lo hi i, (lo + i < hi)%nat -> (hi <= length l)%nat -> nth i (slice l lo hi) f0 = nth (lo + i) l f0.
Proof. intros l lo hi i Hi L. symmetry. apply nth_error_nth. apply nth_slice; lia. Qed.

Lemma band_energy : forall lo hi fr, Forall mag_ok fr -> (lo <= hi <= length fr)%nat -> (Z.of_nat (length fr) <= 524288)%Z ->
  upto 105 (frame_energy (slice fr lo hi)) /\ 0 <= energy_in lo hi fr /\
  Rabs (B2R (frame_energy (slice fr lo hi)) - energy_in lo hi fr) <= (INR (length fr) + 1) / 5000000 * energy_in lo hi fr + bpow radix2 (-80).
Proof.
  intros lo hi fr H B Hn. assert (P : 0 <= energy_in lo hi fr) by (apply sumn_nonneg; intros; apply Rle_0_sqr).
  assert (Ls : length (slice fr lo hi) = (hi - lo)%nat) by (apply slice_length; lia).
  destruct (energy_val (slice fr lo hi) ltac:(now apply slice_Forall) ltac:(lia)) as (U & E). split; [apply (upto_mono 85); [lia|exact U]|]. split; [exact P|].
  assert (EE : energy (slice fr lo hi) = energy_in lo hi fr) by (unfold energy, energy_in; rewrite Ls; apply sumn_ext; intros i Hi; rewrite slice_nth by lia; reflexivity).
  rewrite EE, Ls in E. eapply Rle_trans; [exact E|]. apply Rplus_le_compat_r, Rmult_le_compat_r; [exact P|]. assert (INR (hi - lo) <= INR (length fr)) by (apply le_INR; lia). lra.
Qed.
Lemma band_content : forall lo hi fr, Forall mag_ok fr -> (lo <= hi <= length fr)%nat -> (Z.of_nat (length fr) <= 524288)%Z ->
  upto 105 (hfc_from lo f0 (slice fr lo hi)) /\ 0 <= content_in lo hi fr /\
  Rabs (B2R (hfc_from lo f0 (slice fr lo hi)) - content_in lo hi fr) <= (INR (length fr) + 1) / 5000000 * content_in lo hi fr + bpow radix2 (-80).
Proof.
  intros lo hi fr H B Hn. assert (P : 0 <= content_in lo hi fr) by (apply sumn_nonneg; intros; apply Rmult_le_pos; [apply pos_INR|apply Rle_0_sqr]).
  assert (Ls : length (slice fr lo hi) = (hi - lo)%nat) by (apply slice_length; lia).
  destruct (hfc_from_val lo (slice fr lo hi) ltac:(now apply slice_Forall) ltac:(lia)) as (U & E). split; [exact U|]. split; [exact P|].
  assert (EE : content_from lo (slice fr lo hi) = content_in lo hi fr) by (unfold content_from, content_in; rewrite Ls; apply sumn_ext; intros i Hi; rewrite slice_nth by lia; reflexivity).
  rewrite EE, Ls in E. eapply Rle_trans; [exact E|]. apply Rplus_le_compat_r, Rmult_le_compat_r; [exact P|]. assert (INR (hi - lo) <= INR (length fr)) by (apply le_INR; lia). lra.
Qed.
Lemma slice_all : forall (l : list f32), slice l 0 (length l) = l.
Proof. intros l. unfold slice. now rewrite Nat.sub_0_r, skipn_O, firstn_all. Qed.

Lemma log_super : forall lnf e lo hi k n p c, ln_accurate lnf e -> 0 <= e <= / 1024 -> Forall mag_ok p -> Forall mag_ok c -> length p = n -> length c = n -> (lo <= hi <= n)%nat -> (Z.of_nat n <= 524288)%Z ->
  upto 125 (superflux_dist lo hi k (log_frame lnf p) (log_frame lnf c)) /\
  Rabs (B2R (superflux_dist lo hi k (log_frame lnf p) (log_frame lnf c)) - super (loud p) (loud c) lo hi k) <=
    (INR n + 6) / 5000000 * super (loud p) (loud c) lo hi k + 9 * (INR n * (e + 5 * u24)) + bpow radix2 (-59).
Proof.
  intros lnf e lo hi k n p c A He Hp Hc Lp Lc B Hn. assert (LL : forall x, length (log_frame lnf x) = length x) by (intros; apply map_length).
  assert (U32 : forall x, Forall mag_ok x -> Forall (upto 32) (log_frame lnf x)).
  { intros x Hx. eapply Forall_impl; [|apply (log_frame_up lnf e); eauto]. intros y. apply upto_mono. lia. }
  destruct (superflux_val (log_frame lnf p) (log_frame lnf c) (loud p) (loud c) 0 (e + 5 * u24) lo hi k) as (U & E); rewrite ?LL; auto; try lia; try lra.
  - apply Rle_trans with (bpow radix2 (-24)); [apply bpow_le; lia|]. change (bpow radix2 (-24)) with (/ 16777216). unfold u24. lra.
  - intros q Q. split; [now apply loud_nonneg|]. rewrite Rmult_0_l, Rplus_0_l. apply log_frame_val; auto; lia.
  - intros q Q. split; [now apply loud_nonneg|]. rewrite Rmult_0_l, Rplus_0_l. apply log_frame_val; auto; lia.
  - split; [exact U|]. eapply Rle_trans; [exact E|]. rewrite Rmult_0_l, Rmult_0_r, Rplus_0_r. assert (D : INR (hi - lo) <= INR n) by (apply le_INR; lia).
    assert (S0 : 0 <= super (loud p) (loud c) lo hi k) by apply sqrt_pos. assert (e0 : 0 <= e + 5 * u24) by (unfold u24; lra).
    apply Rplus_le_compat_r, Rplus_le_compat; [apply Rmult_le_compat_r; lra|]. apply Rmult_le_compat_l; [lra|]. now apply Rmult_le_compat_r.
Qed.

Lemma mel_super : forall lnf e edges m k n p c, ln_accurate lnf e -> 0 <= e <= / 1024 -> Forall mag_ok p -> Forall mag_ok c -> length p = n -> length c = n -> (1 <= n)%nat -> (Z.of_nat n <= 524288)%Z ->
  (1 <= m)%nat -> (Z.of_nat m <= 1048576)%Z -> Forall (fun i => (i <= n - 1)%nat) edges ->
  upto 125 (superflux_dist 0 m k (apply_logmag lnf edges m p) (apply_logmag lnf edges m c)) /\
  Rabs (B2R (superflux_dist 0 m k (apply_logmag lnf edges m p) (apply_logmag lnf edges m c)) - super (mel_level edges p) (mel_level edges c) 0 m k) <=
    (INR m + 6) / 5000000 * super (mel_level edges p) (mel_level edges c) 0 m k
      + 3 * ((2 * INR n + 3) / 5000000 * sumn (fun i => mel_level edges c i + wmax (mel_level edges p) 0 m k i) m)
      + 27 * (INR m * (INR n * (e + 5 * u24))) + bpow radix2 (-59).
Proof.
  intros lnf e edges m k n p c A He Hp Hc Lp Lc N1 Hn M1 Hm He2.
  assert (LL : forall x, length (apply_logmag lnf edges m x) = m) by (intros; unfold apply_logmag; now rewrite map_length, seq_length).
  assert (NS : forall x q, (q < m)%nat -> nth q (apply_logmag lnf edges m x) f0 = mel_slot lnf edges x q).
  { intros x q Q. unfold apply_logmag. rewrite (nth_indep _ f0 (mel_slot lnf edges x 0)) by (now rewrite map_length, seq_length). now rewrite map_nth, seq_nth by lia. }
  assert (SV : forall x q, Forall mag_ok x -> length x = n -> upto 30 (mel_slot lnf edges x q) /\
     Rabs (B2R (mel_slot lnf edges x q) - mel_level edges x q) <= (2 * INR n + 3) / 5000000 * mel_level edges x q + 3 * (INR n * (e + 5 * u24))).
  { intros x q Hx Lx. rewrite <- Lx. apply mel_slot_val; auto; rewrite Lx; auto. }
  assert (U32 : forall x, Forall mag_ok x -> length x = n -> Forall (upto 32) (apply_logmag lnf edges m x)).
  { intros x Hx Lx. apply Forall_map, Forall_forall. intros q _. apply (upto_mono 30); [lia|]. now apply SV. }
  assert (NR : 1 <= INR n <= 524288) by (split; [apply (le_INR 1); exact N1|rewrite INR_IZR_INZ; now apply IZR_le]).
  destruct (superflux_val (apply_logmag lnf edges m p) (apply_logmag lnf edges m c) (mel_level edges p) (mel_level edges c)
     ((2 * INR n + 3) / 5000000) (3 * (INR n * (e + 5 * u24))) 0 m k) as (U & E); rewrite ?LL; auto; try lia; try lra.
  - apply Rle_trans with (bpow radix2 (-24)); [apply bpow_le; lia|]. change (bpow radix2 (-24)) with (/ 16777216). unfold u24.
    assert (1 * (e + 5 * / 16777216) <= INR n * (e + 5 * / 16777216)) by (apply Rmult_le_compat_r; lra). lra.
  - intros q Q. split; [now apply mel_level_nonneg|]. rewrite NS by lia. now apply SV.
  - intros q Q. split; [now apply mel_level_nonneg|]. rewrite NS by lia. now apply SV.
  - split; [exact U|]. eapply Rle_trans; [exact E|]. rewrite Nat.sub_0_r. apply Req_le.
    change (fun i : nat => mel_level edges c (0 + i) + wmax (mel_level edges p) 0 m k (0 + i)) with (fun i : nat => mel_level edges c i + wmax (mel_level edges p) 0 m k i). ring.
Qed.

(** Every curve, for every spectrogram with magnitudes up to 2^30 and up to 2^19 bins. *)
Theorem C81_strength : forall lm e edges c spec n out, run lm c spec = Ok out -> (2 <= length spec)%nat -> rect n spec -> (1 <= n)%nat -> (Z.of_nat n <= 524288)%Z ->
  ~ too_narrow c n -> filters lm c n edges -> Forall (Forall (fun x => fin x /\ 0 <= B2R x <= 2 ^ 30)) spec ->
  ln_accurate (m_ln lm) e -> 0 <= e <= / 1024 ->
  exists s, (forall i, (S i < length spec)%nat ->
       Rabs (s i - strength edges c n (nth i spec []) (nth (S i) spec [])) <= tolerance e edges c n (nth i spec []) (nth (S i) spec [])) /\
    relative_to_max s (length spec - 1) out.
Proof.
  intros lm e edges c spec n out R L Rn N1 Hn NB Fl Hm A He.
  assert (Mg : forall fr, In fr spec -> Forall mag_ok fr /\ length fr = n).
  { intros fr I. split; [|unfold rect in Rn; rewrite Forall_forall in Rn; now apply Rn]. rewrite Forall_forall in Hm. eapply Forall_impl; [|exact (Hm fr I)].
    intros x (F & B). split; [exact F|]. change (bpow radix2 30) with 1073741824. lra. }
  destruct (run_ok lm c spec out R) as [(C & _)|(n' & _ & N0 & Rn' & O)]; [lia|].
  assert (n' = n). { destruct spec as [|fr r]; [cbn in L; lia|]. unfold rect in *. inversion Rn; inversion Rn'; subst; auto. } subst n'.
  destruct O as [(C & _)|(_ & O)]; [contradiction|].
  destruct c as [| |a b|r|a b|k|k a b|r nm lo hi k]; cbn [strength tolerance filters too_narrow] in *.
  - apply (finish _ _ _ spec flux (fun p q => (INR n + 2) / 5000000 * flux p q + (INR n + 1) / 2000000) out O L). intros p q Ip Iq. destruct (Mg p Ip) as (Hp & Lp). destruct (Mg q Iq) as (Hq & Lq).
    destruct (flux_val p q Hp Hq ltac:(congruence) ltac:(lia)) as (_ & E). rewrite Lq in E. split; [|exact E]. apply (upto_mono 25); [lia|].
    assert (NF : forall x, Forall mag_ok x -> Forall (upto 0) (norm_frame x)).
    { intros x Hx. apply norm_frame_unit. eapply Forall_impl; [|exact Hx]. intros y Y. apply mag_upto in Y. split; [eapply upto_nneg; eauto|eapply upto_fin; eauto]. }
    now apply l2_rise_upto; apply NF.
  - apply (finish _ _ _ spec (fun p q => Rmax 0 (energy_in 0 n q - energy_in 0 n p)) (fun p q => (INR n + 2) / 4000000 * (energy_in 0 n p + energy_in 0 n q) + bpow radix2 (-78)) out O L).
    intros p q Ip Iq. apply rise_case; [exact Hn|]. intros x X. assert (Ix : In x spec) by (destruct X as [-> | ->]; auto). destruct (Mg x Ix) as (Hx & Lx).
    destruct (band_energy 0 n x Hx ltac:(lia) ltac:(lia)) as (B1 & B2 & B3). rewrite <- Lx in B1 at 1. rewrite <- Lx in B3 at 1. rewrite slice_all in B1, B3. rewrite Lx in B3. auto.
  - apply (finish _ _ _ spec (fun p q => Rmax 0 (energy_in (Nat.min a n) (Nat.min b n) q - energy_in (Nat.min a n) (Nat.min b n) p))
      (fun p q => (INR n + 2) / 4000000 * (energy_in (Nat.min a n) (Nat.min b n) p + energy_in (Nat.min a n) (Nat.min b n) q) + bpow radix2 (-78)) out O L).
    intros p q Ip Iq. apply (rise_case (fun fr => frame_energy (slice fr (Nat.min a n) (Nat.min b n)))); [exact Hn|]. intros x X. assert (Ix : In x spec) by (destruct X as [-> | ->]; auto). destruct (Mg x Ix) as (Hx & Lx).
    pose proof (band_energy (Nat.min a n) (Nat.min b n) x Hx ltac:(lia) ltac:(lia)) as B. now rewrite Lx in B.
  - apply (finish _ _ _ spec (fun p q => Rmax 0 (content_in 0 n q - content_in 0 n p)) (fun p q => (INR n + 2) / 4000000 * (content_in 0 n p + content_in 0 n q) + bpow radix2 (-78)) out O L).
    intros p q Ip Iq. apply rise_case; [exact Hn|]. intros x X. assert (Ix : In x spec) by (destruct X as [-> | ->]; auto). destruct (Mg x Ix) as (Hx & Lx).
    destruct (band_content 0 n x Hx ltac:(lia) ltac:(lia)) as (B1 & B2 & B3). rewrite <- Lx in B1 at 1. rewrite <- Lx in B3 at 1. rewrite slice_all in B1, B3. rewrite Lx in B3. auto.
  - apply (finish _ _ _ spec (fun p q => Rmax 0 (content_in (Nat.min a n) (Nat.min b n) q - content_in (Nat.min a n) (Nat.min b n) p))
      (fun p q => (INR n + 2) / 4000000 * (content_in (Nat.min a n) (Nat.min b n) p + content_in (Nat.min a n) (Nat.min b n) q) + bpow radix2 (-78)) out O L).
    intros p q Ip Iq. apply (rise_case (fun fr => hfc_from (Nat.min a n) f0 (slice fr (Nat.min a n) (Nat.min b n)))); [exact Hn|]. intros x X. assert (Ix : In x spec) by (destruct X as [-> | ->]; auto). destruct (Mg x Ix) as (Hx & Lx).
    pose proof (band_content (Nat.min a n) (Nat.min b n) x Hx ltac:(lia) ltac:(lia)) as B. now rewrite Lx in B.
  - apply (finish _ _ _ spec (fun p q => super (loud p) (loud q) 0 n (Z.max k 1)) (fun p q => (INR n + 6) / 5000000 * super (loud p) (loud q) 0 n (Z.max k 1) + 9 * (INR n * (e + 5 * u24)) + bpow radix2 (-59)) out O L).
    intros p q Ip Iq. destruct (Mg p Ip) as (Hp & Lp). destruct (Mg q Iq) as (Hq & Lq). apply (log_super (m_ln lm) e); auto. lia.
  - apply (finish _ _ _ spec (fun p q => super (loud p) (loud q) (Nat.min a n) (Nat.min b n) (Z.max k 1))
      (fun p q => (INR n + 6) / 5000000 * super (loud p) (loud q) (Nat.min a n) (Nat.min b n) (Z.max k 1) + 9 * (INR n * (e + 5 * u24)) + bpow radix2 (-59)) out O L).
    intros p q Ip Iq. destruct (Mg p Ip) as (Hp & Lp). destruct (Mg q Iq) as (Hq & Lq). apply (log_super (m_ln lm) e); auto. lia.
  - destruct Fl as (Fe & Fm). destruct O as (edges' & E' & O). assert (edges' = edges) by congruence. subst edges'. cbv zeta.
    set (m := Nat.max nm 4) in *. apply (finish _ _ _ spec (fun p q => super (mel_level edges p) (mel_level edges q) 0 m (Z.max k 1))
      (fun p q => (INR m + 6) / 5000000 * super (mel_level edges p) (mel_level edges q) 0 m (Z.max k 1)
         + 3 * ((2 * INR n + 3) / 5000000 * sumn (fun i => mel_level edges q i + wmax (mel_level edges p) 0 m (Z.max k 1) i) m) + 27 * (INR m * (INR n * (e + 5 * u24))) + bpow radix2 (-59)) out O L).
    intros p q Ip Iq. destruct (Mg p Ip) as (Hp & Lp). destruct (Mg q Iq) as (Hq & Lq). apply mel_super; auto; [unfold m; lia|]. exact (mel_edges_le _ _ _ _ _ _ _ Fe).
Qed.
Print Assumptions C81_strength.

(** Energies 5, 10, 1: the curve is [1, 0].  The rise of 4 in the second bin alone is 0, the second
    band of the same spectrogram being quiet. *)
Example C81_case : forall lm e edges,
  let spec := [[z2f 1; z2f 2]; [z2f 3; z2f 1]; [z2f 1; f0]] in
  omap (map B2SF) (run lm Energy spec) = Ok (map B2SF [f1; f0]) /\
  strength edges Energy 2 (nth 0 spec []) (nth 1 spec []) = 5 /\ tolerance e edges Energy 2 (nth 0 spec []) (nth 1 spec []) < / 10000 /\
  strength edges Energy 2 (nth 1 spec []) (nth 2 spec []) = 0.
Proof.
  intros lm e edges spec.
  assert (Q : forall z, (Z.abs z <= 2 ^ 24)%Z -> B2R (z2f z) = IZR z) by (intros; now apply z2f_exact).
  split; [vm_compute; reflexivity|]. cbn [strength tolerance energy_in sumn nth spec Nat.sub Nat.add]. unfold energy_in. cbn [sumn nth Nat.sub Nat.add]. change (B2R f0) with 0.
  rewrite (Q 1%Z), (Q 2%Z), (Q 3%Z) by lia. unfold Rsqr.
  split; [rewrite Rmax_right by lra; lra|]. split; [|rewrite Rmax_left by lra; lra].
  assert (bpow radix2 (-78) <= bpow radix2 (-20)) by (apply bpow_le; lia). change (bpow radix2 (-20)) with (/ 1048576) in *. replace (INR 2) with 2 by (cbn; lra). lra.
Qed.
(** The filter over the bins 2, 4, 8: half weight on the rising side, three quarters on the falling
    side, and weight two instead of one at the centre. *)
Example C81_centre : triangle 2 4 8 3 = / 2 /\ triangle 2 4 8 4 = 2 /\ triangle 2 4 8 5 = 3 / 4 /\ triangle 2 4 8 9 = 0 /\ triangle 4 4 8 4 = 0.
Proof. unfold triangle. cbn [Nat.ltb Nat.leb Nat.eqb andb INR]. repeat split; try lra; first [rewrite Rmax_right by lra; lra | rewrite Rmax_left by lra; lra]. Qed.
(** A partial moving up by one bin does not count; one moving by two bins does. *)
Example C81_vibrato : forall edges,
  let still := [f0; z2f 3; f0; f0] in
  strength edges (Super 1) 4 still [f0; f0; z2f 3; f0] = 0 /\ strength edges (Super 1) 4 still [f0; f0; f0; z2f 3] = ln 4 /\
  strength edges (Super 2) 4 still [f0; f0; f0; z2f 3] = 0.
Proof.
  intros edges still. assert (Q : B2R (z2f 3) = 3) by (apply (z2f_exact 3); lia). assert (L0 : 0 < ln 4) by (rewrite <- ln_1; apply ln_increasing; lra).
  assert (E : forall P, wmax P 0 4 1 0 = Rmax (P 0%nat) (Rmax (P 1%nat) 0) /\ wmax P 0 4 1 1 = Rmax (P 0%nat) (Rmax (P 1%nat) (Rmax (P 2%nat) 0)) /\
     wmax P 0 4 1 2 = Rmax (P 1%nat) (Rmax (P 2%nat) (Rmax (P 3%nat) 0)) /\ wmax P 0 4 1 3 = Rmax (P 2%nat) (Rmax (P 3%nat) 0) /\
     wmax P 0 4 2 0 = Rmax (P 0%nat) (Rmax (P 1%nat) (Rmax (P 2%nat) 0)) /\ wmax P 0 4 2 1 = Rmax (P 0%nat) (Rmax (P 1%nat) (Rmax (P 2%nat) (Rmax (P 3%nat) 0))) /\
     wmax P 0 4 2 2 = Rmax (P 0%nat) (Rmax (P 1%nat) (Rmax (P 2%nat) (Rmax (P 3%nat) 0))) /\ wmax P 0 4 2 3 = Rmax (P 1%nat) (Rmax (P 2%nat) (Rmax (P 3%nat) 0))) by (intros; repeat split; reflexivity).
  assert (S0 : loud still 0 = 0 /\ loud still 1 = ln 4 /\ loud still 2 = 0 /\ loud still 3 = 0).
  { unfold loud, still. cbn [nth]. change (B2R f0) with 0. rewrite Q, Rplus_0_r, ln_1. replace (1 + 3) with 4 by ring. auto. }
  unfold strength, super. change (Z.max 1 1) with 1%Z. change (Z.max 2 1) with 2%Z. cbn [Nat.sub Nat.add sumn].
  destruct (E (loud still)) as (-> & -> & -> & -> & -> & -> & -> & ->). destruct S0 as (-> & -> & -> & ->).
  assert (M00 : Rmax 0 0 = 0) by (apply Rmax_left; lra). assert (ML : Rmax (ln 4) 0 = ln 4) by (apply Rmax_left; lra). assert (MR : Rmax 0 (ln 4) = ln 4) by (apply Rmax_right; lra).
  rewrite ?M00, ?ML, ?MR.
  unfold loud. cbn [nth]. change (B2R f0) with 0. rewrite Q, Rplus_0_r, ln_1. replace (1 + 3) with 4 by ring.
  rewrite !Rminus_eq_0, !Rminus_0_r, !(Rmax_left 0 (0 - ln 4)), ?M00, ?MR by lra. rewrite Rsqr_0, !Rplus_0_l. rewrite sqrt_0, sqrt_Rsqr by lra. auto.
Qed.
