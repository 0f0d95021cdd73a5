(** C86: what the detected key is: of its mode, the key whose published tonal profile correlates best with the
    energy per pitch class summed over the track. *)
From Coq Require Import ZArith Reals Lra Lia.
From Flocq Require Import Core.
From Verif Require Import Rust F32 F32Facts F32More ListFacts Sorting SortingFacts Bounds FloatSums NoveltyProofs KeyNotation KeyTemplates
  KeyTemplatesProofs KeyDetector KeyDetectorProofs KeyBoundsProofs PeakPickingProofs KeyTieProofs KeyVariantsProofs KeyScoresProofs
  FourierFacts TempoSpectrumFacts KeyDetectorProps KeyProfileFacts.
Local Open Scope R_scope.

(** The published profiles, in hundredths: Krumhansl and Kessler's probe-tone ratings (major, minor) and Temperley's, from the
    tonic upwards. *)
Definition published (s : template_set) (major : bool) : list Z :=
  match s, major with
  | KrumhanslKessler, true => [635; 223; 348; 233; 438; 409; 252; 519; 239; 366; 229; 288]
  | KrumhanslKessler, false => [633; 268; 352; 538; 260; 353; 254; 475; 398; 269; 334; 317]
  | Temperley, true => [500; 200; 350; 200; 450; 400; 200; 450; 200; 350; 150; 400]
  | Temperley, false => [500; 200; 350; 500; 200; 350; 200; 450; 350; 200; 400; 350]
  end%Z.
(** How much pitch class [b] belongs to key [k]: the published rating of the interval from the tonic up to [b]. *)
Definition rating (s : template_set) (k : key) (b : nat) : Z :=
  nth (Z.to_nat ((Z.of_nat b - tonic k) mod 12)) (published s (is_major k)) 0%Z.
(** Weighted energy of pitch class [b] over the frames. *)
Definition energy (c : list (list f32)) (w : option (list f32)) (b : nat) : R :=
  sumn (fun i => match w with None => 1 | Some ws => B2R (nth i ws f0) end * B2R (nth b (nth i c []) f0)) (length c).
(** Correlation of the energies with the profile of a key. *)
Definition correlation (s : template_set) (c : list (list f32)) (w : option (list f32)) (k : key) : R :=
  sumn (fun b => energy c w b * (IZR (rating s k b) / 100)) 12.

(** Non-negative chroma and weights of at most 2^20. *)
Definition usual (c : list (list f32)) (w : option (list f32)) : Prop :=
  Forall (Forall (fun x => fle f0 x = true /\ within 20 x)) c /\
  match w with None => True | Some ws => Forall (fun x => fle f0 x = true /\ within 20 x) ws end.

(** ** The templates are the published profiles divided by their norm. *)
Definition norm9 (s : template_set) (major : bool) : Z :=
  match s, major with
  | KrumhanslKessler, true => 12832766654 | KrumhanslKessler, false => 13457418029
  | Temperley, true => 11842719282 | Temperley, false => 12298373876 end%Z.
Definition kappa (s : template_set) (major : bool) : R := 1000000000 / IZR (norm9 s major).
Lemma kappa_range : forall s m, / 14 <= kappa s m <= / 10.
Proof. intros [] []; unfold kappa, norm9; lra. Qed.

Definition tp_check : bool :=
  forallb (fun s => forallb (fun k => forallb (fun b =>
    match scaled (nth b (template_of (new_templates s) k) f0) with
    | Some z => (Z.abs (z * norm9 s (is_major k) * 100 - rating s k b * 2 ^ 40 * 1000000000) * 1000000
                 <=? rating s k b * 2 ^ 40 * 1000000000)%Z && (150 <=? rating s k b)%Z
    | None => false end) (seq 0 12)) all_keys) [KrumhanslKessler; Temperley].
Lemma tp_checked : tp_check = true. Proof. vm_cast_no_check (@eq_refl bool true). Qed.

Lemma template_rating : forall s k b, In k all_keys -> (b < 12)%nat ->
  let q := kappa s (is_major k) * (IZR (rating s k b) / 100) in
  3 / 2 <= IZR (rating s k b) / 100 /\
  q * (1 - / 1000000) <= B2R (nth b (template_of (new_templates s) k) f0) <= q * (1 + / 1000000).
Proof.
  intros s k b Ik Hb q. pose proof tp_checked as A. unfold tp_check in A.
  rewrite forallb_forall in A. specialize (A s ltac:(destruct s; cbn; auto)). cbv beta in A.
  rewrite forallb_forall in A. specialize (A k Ik). cbv beta in A.
  rewrite forallb_forall in A. specialize (A b ltac:(apply in_seq; lia)). cbv beta in A.
  destruct (scaled _) as [z|] eqn:Sc; [|discriminate]. apply scaled_val in Sc. rewrite Sc. clear Sc.
  apply andb_prop in A as (A & A2). apply Z.leb_le in A, A2. apply IZR_le in A, A2.
  rewrite !mult_IZR, abs_IZR, minus_IZR, !mult_IZR in A.
  change (IZR (2 ^ 40)) with 1099511627776 in A. change (bpow radix2 (-40)) with (/ 1099511627776).
  unfold q, kappa.
  assert (Nz : 10000000000 <= IZR (norm9 s (is_major k))) by (destruct s, (is_major k); unfold norm9; lra).
  set (N := IZR (norm9 s (is_major k))) in *. set (H := IZR (rating s k b)) in *. set (x := IZR z) in *. clearbody N H x. clear q Ik.
  split; [lra|].
  assert (B : Rabs (x * N * 100 - H * 1099511627776 * 1000000000) <= H * 1099511627776 * 1000) by lra.
  apply Rabs_le_inv in B.
  assert (Y : x * / 1099511627776 = x * N * 100 / (1099511627776 * 100 * N)) by (field; lra).
  rewrite Y.
  replace (1000000000 / N * (H / 100) * (1 - / 1000000)) with ((H * 1099511627776 * 1000000000 - H * 1099511627776 * 1000) / (1099511627776 * 100 * N)) by (field; lra).
  replace (1000000000 / N * (H / 100) * (1 + / 1000000)) with ((H * 1099511627776 * 1000000000 + H * 1099511627776 * 1000) / (1099511627776 * 100 * N)) by (field; lra).
  assert (D : 0 < / (1099511627776 * 100 * N)) by (apply Rinv_0_lt_compat; lra).
  unfold Rdiv. split; apply Rmult_le_compat_r; lra.
Qed.

Lemma score_correlation : forall s c w k, In k all_keys -> (forall b, (b < 12)%nat -> 0 <= energy c w b) ->
  let q := kappa s (is_major k) * correlation s c w k in
  q * (1 - / 1000000) <= rscore c w (template_of (new_templates s) k) <= q * (1 + / 1000000).
Proof.
  intros s c w k Ik E q.
  assert (R : rscore c w (template_of (new_templates s) k) =
              sumn (fun b => energy c w b * B2R (nth b (template_of (new_templates s) k) f0)) 12).
  { unfold rscore, rdot, energy.
    rewrite (sumn_ext _ (fun i => sumn (fun b => weight_at w i * B2R (nth b (nth i c []) f0) * B2R (nth b (template_of (new_templates s) k) f0)) 12)).
    - rewrite sumn_swap. apply sumn_ext. intros b _. rewrite (Rmult_comm (sumn _ _)), <- sumn_scal. apply sumn_ext. intros i _.
      unfold weight_at. ring.
    - intros i _. rewrite <- sumn_scal. apply sumn_ext. intros b _. ring. }
  rewrite R. unfold q, correlation.
  replace (kappa s (is_major k) * sumn (fun b => energy c w b * (IZR (rating s k b) / 100)) 12 * (1 - / 1000000)) with
    (sumn (fun b => energy c w b * (kappa s (is_major k) * (IZR (rating s k b) / 100) * (1 - / 1000000))) 12) by (cbn [sumn]; ring).
  replace (kappa s (is_major k) * sumn (fun b => energy c w b * (IZR (rating s k b) / 100)) 12 * (1 + / 1000000)) with
    (sumn (fun b => energy c w b * (kappa s (is_major k) * (IZR (rating s k b) / 100) * (1 + / 1000000))) 12) by (cbn [sumn]; ring).
  split; apply sumn_le; intros b Hb; apply Rmult_le_compat_l; auto; now apply template_rating.
Qed.

Lemma slack : forall n, 0 <= n <= 65536 ->
  (1 + (/ 1000000 + / 1000000000)) * (1 + (2 * n + 29) * u) <= (1 + (n + 100) / 4000000) * (1 - / 1000000) * (1 - (n + 14) * u) * (1 - u).
Proof.
  intros n H. rewrite u_val. set (a := n / 65536). replace n with (65536 * a) by (unfold a; field).
  assert (A : 0 <= a <= 1) by (unfold a; lra). clearbody a. clear H n.
  assert (0 <= a * a <= a) by nra. nra.
Qed.

Lemma usual_sane : forall c w, usual c w -> chroma_valid c w = true -> sane_frames 20 c /\ sane_weights 20 (length c) w.
Proof.
  intros c w (C & W) V. unfold chroma_valid in V. apply andb_prop in V as (V & V3). apply andb_prop in V as (_ & V2).
  rewrite forallb_forall in V2. split.
  - apply Forall_forall. intros ch I. split; [now apply Nat.eqb_eq, V2|]. exact (proj1 (Forall_forall _ _) C _ I).
  - destruct w as [ws|]; [|exact I]. split; [now apply Nat.eqb_eq|exact W].
Qed.
Lemma energy_nonneg : forall c w b, sane_frames 20 c -> sane_weights 20 (length c) w -> (b < 12)%nat -> 0 <= energy c w b.
Proof.
  intros c w b C W Hb. apply sumn_nonneg. intros i Hi. apply Rmult_le_pos.
  - destruct w as [ws|]; [|lra]. destruct W as (Lw & W). apply nneg_B2R.
    apply (proj1 (proj1 (Forall_forall _ _) W (nth i ws f0) ltac:(apply nth_In; lia))).
  - destruct (proj1 (Forall_forall _ _) C _ (nth_In c [] Hi)) as (L & F). apply nneg_B2R.
    apply (proj1 (proj1 (Forall_forall _ _) F (nth b (nth i c []) f0) ltac:(apply nth_In; lia))).
Qed.

Lemma correlation_loud : forall s c w k b, In k all_keys -> (forall b, (b < 12)%nat -> 0 <= energy c w b) ->
  (b < 12)%nat -> bpow radix2 (-20) <= energy c w b -> / 1048576 <= correlation s c w k.
Proof.
  intros s c w k b Ik E Hb L. change (bpow radix2 (-20)) with (/ 1048576) in L. unfold correlation.
  assert (T : energy c w b * (IZR (rating s k b) / 100) <= sumn (fun b => energy c w b * (IZR (rating s k b) / 100)) 12).
  { apply (AutocorrelationValueProofs.sumn_term (fun b => energy c w b * (IZR (rating s k b) / 100)) 12 b); [|exact Hb].
    intros i Hi. apply Rmult_le_pos; [now apply E|]. destruct (template_rating s k i Ik Hi) as (R & _). lra. }
  destruct (template_rating s k b Ik Hb) as (R & _).
  assert (/ 1048576 * (3 / 2) <= energy c w b * (IZR (rating s k b) / 100)) by (apply Rmult_le_compat; lra). lra.
Qed.

(** Of the twelve keys of the reported key's mode, no key's profile correlates with the summed energies better than the
    reported key's, up to the rounding of [n] additions. *)
Theorem C86_best : forall h s c w r b, honest h -> usual c w -> (Z.of_nat (length c) <= 65536)%Z ->
  (b < 12)%nat -> bpow radix2 (-20) <= energy c w b ->
  detect_key_weighted h c (new_templates s) w = Ok r ->
  In (kr_key r) all_keys /\
  forall k, In k all_keys -> is_major k = is_major (kr_key r) ->
  correlation s c w k <= correlation s c w (kr_key r) * (1 + (INR (length c) + 100) / 4000000).
Proof.
  intros h s c w r b Hh Us Ln Hb Lb H.
  assert (V : chroma_valid c w = true).
  { unfold detect_key_weighted in H. destruct (chroma_valid c w); [reflexivity|discriminate]. }
  destruct (usual_sane c w Us V) as (C & W). clear V Us.
  assert (E : forall b, (b < 12)%nat -> 0 <= energy c w b) by (intros i Hi; now apply energy_nonneg).
  assert (Ln' : (length c <= Z.to_nat 65536)%nat) by lia.
  pose proof u_val as U. pose proof eta_pos as Et. pose proof eta_small as Es.
  set (n := INR (length c)).
  assert (Hn : 0 <= n <= 65536) by (split; [apply pos_INR|]; unfold n; rewrite INR_IZR_INZ; apply IZR_le; lia).
  assert (SL : 0 <= n * slop <= / 1000000000000000000).
  { unfold slop. split; [apply Rmult_le_pos; lra|]. apply Rle_trans with (65536 * (67108864 * eta)); [apply Rmult_le_compat_r; lra|lra]. }
  assert (SC : forall k, In k all_keys -> let q := kappa s (is_major k) * correlation s c w k in
    / 14680064 <= q /\ q * (1 - / 1000000) * (1 - (n + 14) * u) - n * slop <= B2R (weighted_sum_dot c w (template_of (new_templates s) k)) <=
    q * (1 + / 1000000) * (1 + (2 * n + 29) * u) + 2 * n * slop).
  { intros k Ik q. pose proof (correlation_loud s c w k b Ik E Hb Lb) as CL. pose proof (kappa_range s (is_major k)) as KR.
    assert (Q : / 14680064 <= q).
    { unfold q. replace (/ 14680064) with (/ 14 * / 1048576) by lra. apply Rmult_le_compat; lra. }
    split; [exact Q|].
    destruct (score_near c w _ C W (builtin_profile s k) Ln') as (R0 & Rl & Ru). fold n in Rl, Ru.
    pose proof (score_correlation s c w k Ik E) as (Sl & Su). fold q in Sl, Su.
    assert (A1 : 0 <= 1 - (n + 14) * u) by (rewrite U; lra). assert (A2 : 0 <= 1 + (2 * n + 29) * u) by (rewrite U; lra).
    pose proof (Rmult_le_compat_r _ _ _ A1 Sl). pose proof (Rmult_le_compat_r _ _ _ A2 Su). lra. }
  assert (LV : forall k, In k all_keys -> flt tiny9 (weighted_sum_dot c w (template_of (new_templates s) k)) = true).
  { intros k Ik. destruct (SC k Ik) as (Q & Ql & _). cbv zeta in Q, Ql.
    destruct (raw_nneg 20 20 c w _ ltac:(lia) ltac:(lia) ltac:(lia) C W (builtin_profile s k)) as (_ & Wk). apply within_fin in Wk.
    apply flt_intro; [reflexivity|now apply fin_nn|]. rewrite (fx_fin _ Wk). pose proof tiny9_up as T9.
    change (bpow radix2 (-28)) with (/ 268435456) in T9. set (q := kappa s (is_major k) * correlation s c w k) in *.
    assert (N1 : / 2 <= (1 - / 1000000) * (1 - (n + 14) * u)).
    { assert ((n + 14) * u <= / 4) by (rewrite U; lra).
      assert ((1 - / 1000000) * (3 / 4) <= (1 - / 1000000) * (1 - (n + 14) * u)) by (apply Rmult_le_compat_l; lra). lra. }
    assert (q * / 2 <= q * ((1 - / 1000000) * (1 - (n + 14) * u))) by (apply Rmult_le_compat_l; lra). lra. }
  assert (TW : table_within 90 (raw_scores c (new_templates s) w)).
  { unfold raw_scores. apply Forall_map, Forall_forall. intros k _. cbn [snd].
    apply (raw_nneg 20 20 c w _ ltac:(lia) ltac:(lia) ltac:(lia) C W (builtin_profile s k)). }
  assert (LL : forall m, live m (raw_scores c (new_templates s) w)).
  { intros m. set (k := if m then Major 0%Z else Minor 0%Z).
    assert (Ik : In k all_keys).
    { unfold k. destruct m; unfold all_keys; apply in_app_iff; [left|right]; apply in_map_iff; exists 0%nat; (split; [reflexivity|apply in_seq; lia]). }
    exists k, (weighted_sum_dot c w (template_of (new_templates s) k)). split; [|split; [unfold k; now destruct m|now apply LV]].
    unfold raw_scores. apply in_map_iff. exists k. split; [reflexivity|exact Ik]. }
  destruct (reported_best 90 h c (new_templates s) w r Hh TW (LL true) (LL false) H) as (Ir & B).
  split; [exact Ir|]. intros k Ik Mk. specialize (B k Ik Mk).
  destruct (SC k Ik) as (Qk & Lk & _). destruct (SC _ Ir) as (Qr & _ & Ur). cbv zeta in Qk, Lk, Qr, Ur.
  rewrite Mk in Qk, Lk. pose proof (kappa_range s (is_major (kr_key r))) as KR.
  set (kp := kappa s (is_major (kr_key r))) in *. set (Mk' := correlation s c w k) in *. set (Mr := correlation s c w (kr_key r)) in *.
  set (x := B2R (weighted_sum_dot c w (template_of (new_templates s) k))) in *.
  set (y := B2R (weighted_sum_dot c w (template_of (new_templates s) (kr_key r)))) in *.
  pose proof (slack n Hn) as SK.
  destruct (Rle_or_lt Mk' (Mr * (1 + (n + 100) / 4000000))) as [Y|Y]; [exact Y|exfalso].
  assert (Y1 : kp * Mr * (1 + (n + 100) / 4000000) < kp * Mk') by (rewrite Rmult_assoc; apply Rmult_lt_compat_l; lra).
  set (qk := kp * Mk') in *. set (qr := kp * Mr) in *. clearbody kp Mk' Mr x y. 
  set (F := (1 - / 1000000) * (1 - (n + 14) * u)).
  assert (F0 : 0 < F).
  { unfold F. apply Rmult_lt_0_compat; [lra|]. rewrite U. lra. }
  assert (U1 : 0 < 1 - u) by (rewrite U; lra).
  assert (Z1 : qr * (1 + (n + 100) / 4000000) * F < qk * F) by (apply Rmult_lt_compat_r; lra).
  assert (Z2 : (qk * F - n * slop) * (1 - u) <= y).
  { refine (Rle_trans _ _ _ _ B). apply Rmult_le_compat_r; [lra|]. unfold F. lra. }
  assert (Z3 : qr * (1 + (n + 100) / 4000000) * F * (1 - u) < qk * F * (1 - u)) by (apply Rmult_lt_compat_r; lra).
  assert (Z4 : qr * ((1 + (/ 1000000 + / 1000000000)) * (1 + (2 * n + 29) * u)) <=
               qr * ((1 + (n + 100) / 4000000) * (1 - / 1000000) * (1 - (n + 14) * u) * (1 - u))) by (apply Rmult_le_compat_l; lra).
  assert (Z5 : n * slop * (1 - u) <= n * slop) by (rewrite <- (Rmult_1_r (n * slop)) at 2; apply Rmult_le_compat_l; [lra|rewrite U; lra]).
  assert (Z6 : qr * / 1000000000 <= qr * / 1000000000 * (1 + (2 * n + 29) * u)).
  { rewrite <- (Rmult_1_r (qr * / 1000000000)) at 1. apply Rmult_le_compat_l; [lra|]. rewrite U. lra. }
  replace ((qk * F - n * slop) * (1 - u)) with (qk * F * (1 - u) - n * slop * (1 - u)) in Z2 by ring.
  replace (qr * ((1 + (n + 100) / 4000000) * (1 - / 1000000) * (1 - (n + 14) * u) * (1 - u)))
    with (qr * (1 + (n + 100) / 4000000) * F * (1 - u)) in Z4 by (unfold F; ring).
  replace (qr * ((1 + (/ 1000000 + / 1000000000)) * (1 + (2 * n + 29) * u)))
    with (qr * (1 + / 1000000) * (1 + (2 * n + 29) * u) + qr * / 1000000000 * (1 + (2 * n + 29) * u)) in Z4 by ring.
  set (g1 := qr * (1 + / 1000000) * (1 + (2 * n + 29) * u)) in *. set (g2 := qr * / 1000000000 * (1 + (2 * n + 29) * u)) in *.
  set (g3 := qr * (1 + (n + 100) / 4000000) * F * (1 - u)) in *. set (g4 := qk * F * (1 - u)) in *. set (ns := n * slop) in *.
  replace (2 * n * slop) with (2 * ns) in Ur by (unfold ns; ring).
  set (g5 := ns * (1 - u)) in *. clearbody g1 g2 g3 g4 g5 ns. clear - Ur Z2 Z3 Z4 Z5 Z6 SL Qr. lra.
Qed.
Print Assumptions C86_best.

(** ** A track whose energies follow the profile of one key. *)
Definition relative (k : key) : key :=
  match k with Major i => Minor ((i + 9) mod 12) | Minor i => Major ((i + 3) mod 12) end.

(** [p] beats every other key of its mode on energies within [num/den] (in hundredths: [100 num/den]) of the profile of [k]. *)
Definition lead (s : template_set) (k p k' : key) : list Z :=
  map (fun b => 1000 * rating s p b - 1008 * rating s k' b)%Z (seq 0 12).
Definition lead_check (s : template_set) (tol : Z) (k p : key) : bool :=
  forallb (fun k' => negb (Bool.eqb (is_major k') (is_major p)) || key_eqb k' p ||
    (tol * fold_right Z.add 0 (map Z.abs (lead s k p k')) <?
     fold_right Z.add 0 (map (fun b => rating s k b * nth b (lead s k p k') 0) (seq 0 12)))%Z) all_keys.
Definition leads_checked : bool :=
  forallb (fun s => forallb (fun k => existsb (key_eqb (relative k)) all_keys && lead_check s 50 k k && lead_check s 5 k (relative k)) all_keys) [KrumhanslKessler; Temperley].
Lemma leads_ok : leads_checked = true. Proof. vm_cast_no_check (@eq_refl bool true). Qed.

Lemma lead_correlation : forall s c w k p k' A tol, In k' all_keys -> is_major k' = is_major p -> k' <> p -> lead_check s tol k p = true ->
  0 < A -> (forall b, (b < 12)%nat -> Rabs (energy c w b - A * (IZR (rating s k b) / 100)) <= A * (IZR tol / 100)) ->
  correlation s c w k' * (1008 / 1000) < correlation s c w p.
Proof.
  intros s c w k p k' A tol Ik M N L PA En. unfold lead_check in L. rewrite forallb_forall in L. specialize (L k' Ik). cbv beta in L.
  rewrite M, Bool.eqb_reflx in L. cbn [negb orb] in L. apply key_eqb_neq in N. rewrite N in L. cbn [orb] in L. apply Z.ltb_lt in L.
  assert (X : forall b, (b < 12)%nat -> A * (IZR (rating s k b) / 100 * IZR (nth b (lead s k p k') 0%Z)) - A * (IZR tol / 100 * IZR (Z.abs (nth b (lead s k p k') 0%Z)))
      <= energy c w b * IZR (nth b (lead s k p k') 0%Z)).
  { intros b Hb. specialize (En b Hb). rewrite abs_IZR. set (d := IZR (nth b (lead s k p k') 0%Z)). set (e := energy c w b) in *.
    set (R := IZR (rating s k b) / 100) in *. set (t := IZR tol / 100) in *.
    assert (Q : Rabs ((e - A * R) * d) <= A * t * Rabs d) by (rewrite Rabs_mult; apply Rmult_le_compat_r; [apply Rabs_pos|exact En]).
    apply Rabs_le_inv in Q. lra. }
  apply IZR_lt in L. rewrite mult_IZR in L.
  assert (S : 0 < sumn (fun b => energy c w b * IZR (nth b (lead s k p k') 0%Z)) 12).
  { apply Rlt_le_trans with (sumn (fun b => A * (IZR (rating s k b) / 100 * IZR (nth b (lead s k p k') 0%Z)) - A * (IZR tol / 100 * IZR (Z.abs (nth b (lead s k p k') 0%Z)))) 12);
      [|now apply sumn_le].
    replace (sumn (fun b => A * (IZR (rating s k b) / 100 * IZR (nth b (lead s k p k') 0%Z)) - A * (IZR tol / 100 * IZR (Z.abs (nth b (lead s k p k') 0%Z)))) 12)
      with (A / 100 * (IZR (fold_right Z.add 0%Z (map (fun b => rating s k b * nth b (lead s k p k') 0)%Z (seq 0 12))) -
                       IZR tol * IZR (fold_right Z.add 0%Z (map Z.abs (lead s k p k'))))).
    - apply Rmult_lt_0_compat; lra.
    - unfold lead. cbn [map seq fold_right nth sumn]. rewrite !plus_IZR, !mult_IZR. field. }
  unfold correlation.
  replace (sumn (fun b => energy c w b * IZR (nth b (lead s k p k') 0%Z)) 12) with
    (sumn (fun b => energy c w b * (1000 * IZR (rating s p b) - 1008 * IZR (rating s k' b))) 12) in S.
  - replace (sumn (fun b => energy c w b * (1000 * IZR (rating s p b) - 1008 * IZR (rating s k' b))) 12) with
      (100000 * (sumn (fun b => energy c w b * (IZR (rating s p b) / 100)) 12 - sumn (fun b => energy c w b * (IZR (rating s k' b) / 100)) 12 * (1008 / 1000))) in S.
    + lra.
    + cbn [sumn]. field.
  - unfold lead. cbn [map seq nth sumn]. rewrite !minus_IZR, !mult_IZR. ring.
Qed.

Lemma rating_low : forall s k b, In k all_keys -> (b < 12)%nat -> 150 <= IZR (rating s k b).
Proof. intros s k b Ik Hb. destruct (template_rating s k b Ik Hb) as (R & _). lra. Qed.

(** Energies that follow the profile of one key, each within half a rating point (the ratings run from 1.5 to 6.35): if the
    reported key has that key's mode, it is that key. *)
Theorem C86_tonic : forall h s c w r k A, honest h -> usual c w -> (Z.of_nat (length c) <= 30000)%Z ->
  In k all_keys -> bpow radix2 (-20) <= A ->
  (forall b, (b < 12)%nat -> Rabs (energy c w b - A * (IZR (rating s k b) / 100)) <= A / 2) ->
  detect_key_weighted h c (new_templates s) w = Ok r ->
  is_major (kr_key r) = is_major k -> kr_key r = k.
Proof.
  intros h s c w r k A Hh Us Ln Ik PA En H M.
  assert (PA' : 0 < bpow radix2 (-20)) by apply bpow_gt_0.
  assert (E0 : bpow radix2 (-20) <= energy c w 0).
  { specialize (En 0%nat ltac:(lia)). apply Rabs_le_inv in En. pose proof (rating_low s k 0 Ik ltac:(lia)).
    assert (A * (3 / 2) <= A * (IZR (rating s k 0) / 100)) by (apply Rmult_le_compat_l; lra). lra. }
  destruct (C86_best h s c w r 0 Hh Us ltac:(lia) ltac:(lia) E0 H) as (Ir & B). specialize (B k Ik (eq_sym M)).
  destruct (key_eqb (kr_key r) k) eqn:Ek; [now apply key_eqb_iff|exfalso]. apply key_eqb_neq in Ek.
  pose proof leads_ok as L. unfold leads_checked in L. rewrite forallb_forall in L. specialize (L s ltac:(destruct s; cbn; auto)).
  cbv beta in L. rewrite forallb_forall in L. specialize (L k Ik). cbv beta in L. apply andb_prop in L as (L & _). apply andb_prop in L as (_ & L).
  assert (En' : forall b, (b < 12)%nat -> Rabs (energy c w b - A * (IZR (rating s k b) / 100)) <= A * (50 / 100))
    by (intros b Hb; specialize (En b Hb); lra).
  pose proof (lead_correlation s c w k k (kr_key r) A 50 Ir M Ek L ltac:(lra) En') as Q.
  assert (Hn : INR (length c) <= 30000) by (rewrite INR_IZR_INZ; apply IZR_le; lia).
  assert (C0 : 0 <= correlation s c w (kr_key r)).
  { assert (V : chroma_valid c w = true) by (unfold detect_key_weighted in H; destruct (chroma_valid c w); [reflexivity|discriminate]).
    destruct (usual_sane c w Us V) as (C & W).
    pose proof (correlation_loud s c w (kr_key r) 0 Ir ltac:(intros i Hi; now apply energy_nonneg) ltac:(lia) E0). lra. }
  assert (correlation s c w (kr_key r) * (1 + (INR (length c) + 100) / 4000000) <= correlation s c w (kr_key r) * (1008 / 1000))
    by (apply Rmult_le_compat_l; lra). lra.
Qed.
Print Assumptions C86_tonic.

(** Within a twentieth of a rating point: the reported key is that key or its relative minor or major.  Which of the two is
    reported depends on the iteration order of the vote map, because their scores tie (C58). *)
Theorem C86_relative : forall h s c w r k A, honest h -> usual c w -> (Z.of_nat (length c) <= 30000)%Z ->
  In k all_keys -> bpow radix2 (-20) <= A ->
  (forall b, (b < 12)%nat -> Rabs (energy c w b - A * (IZR (rating s k b) / 100)) <= A / 20) ->
  detect_key_weighted h c (new_templates s) w = Ok r ->
  kr_key r = k \/ kr_key r = relative k.
Proof.
  intros h s c w r k A Hh Us Ln Ik PA En H.
  assert (PA' : 0 < bpow radix2 (-20)) by apply bpow_gt_0.
  destruct (Bool.bool_dec (is_major (kr_key r)) (is_major k)) as [M|M].
  { left. apply (C86_tonic h s c w r k A Hh Us Ln Ik PA); [|exact H|exact M]. intros b Hb. specialize (En b Hb). lra. }
  right.
  assert (E0 : bpow radix2 (-20) <= energy c w 0).
  { specialize (En 0%nat ltac:(lia)). apply Rabs_le_inv in En. pose proof (rating_low s k 0 Ik ltac:(lia)).
    assert (A * (3 / 2) <= A * (IZR (rating s k 0) / 100)) by (apply Rmult_le_compat_l; lra). lra. }
  pose proof leads_ok as L. unfold leads_checked in L. rewrite forallb_forall in L. specialize (L s ltac:(destruct s; cbn; auto)).
  cbv beta in L. rewrite forallb_forall in L. specialize (L k Ik). cbv beta in L. apply andb_prop in L as (L1 & L). apply andb_prop in L1 as (Ip & _).
  apply existsb_exists in Ip as (k2 & Ip & E2). apply key_eqb_iff in E2. subst k2.
  assert (Mp : is_major (relative k) = is_major (kr_key r)).
  { destruct k, (kr_key r); cbn in *; congruence. }
  destruct (C86_best h s c w r 0 Hh Us ltac:(lia) ltac:(lia) E0 H) as (Ir & B). specialize (B (relative k) Ip Mp).
  destruct (key_eqb (kr_key r) (relative k)) eqn:Ek; [now apply key_eqb_iff|exfalso]. apply key_eqb_neq in Ek.
  assert (En' : forall b, (b < 12)%nat -> Rabs (energy c w b - A * (IZR (rating s k b) / 100)) <= A * (5 / 100))
    by (intros b Hb; specialize (En b Hb); lra).
  pose proof (lead_correlation s c w k (relative k) (kr_key r) A 5 Ir (eq_sym Mp) Ek L ltac:(lra) En') as Q.
  assert (Hn : INR (length c) <= 30000) by (rewrite INR_IZR_INZ; apply IZR_le; lia).
  assert (C0 : 0 <= correlation s c w (kr_key r)).
  { assert (V : chroma_valid c w = true) by (unfold detect_key_weighted in H; destruct (chroma_valid c w); [reflexivity|discriminate]).
    destruct (usual_sane c w Us V) as (C & W).
    pose proof (correlation_loud s c w (kr_key r) 0 Ir ltac:(intros i Hi; now apply energy_nonneg) ltac:(lia) E0). lra. }
  assert (correlation s c w (kr_key r) * (1 + (INR (length c) + 100) / 4000000) <= correlation s c w (kr_key r) * (1008 / 1000))
    by (apply Rmult_le_compat_l; lra). lra.
Qed.
Print Assumptions C86_relative.

(** Two frames that show Temperley's profile of G major: the energies are exactly twice the ratings, so whatever the hash order
    the answer is G major or E minor; and both answers occur. *)
Definition g_major : list f32 :=
  [z2f 4; z2f 2; lit 9 (-1); z2f 2; lit 7 (-1); lit 3 (-1); z2f 4; z2f 5; z2f 2; lit 7 (-1); z2f 2; lit 9 (-1)].
Example C86_case :
  (forall h r, honest h -> detect_key h [g_major; g_major] (new_templates Temperley) = Ok r ->
    kr_key r = Major 7 \/ kr_key r = Minor 4) /\
  key_of (detect_key keep [g_major; g_major] (new_templates Temperley)) = Some (Minor 4) /\
  key_of (detect_key flip [g_major; g_major] (new_templates Temperley)) = Some (Major 7).
Proof.
  split; [|split; vm_compute; reflexivity].
  assert (V : forall (z : f32) m e, B2SF z = SpecFloat.S754_finite false m e ->
    B2R z = IZR (Zpos m) * bpow radix2 e).
  { intros z m e E. rewrite <- SF2R_B2SF, E. cbn [SF2R cond_Zopp]. reflexivity. }
  assert (V2 : B2R (z2f 2) = 2) by (rewrite (V (z2f 2) 8388608%positive (-22)%Z) by (vm_compute; reflexivity); change (bpow radix2 (-22)) with (/ 4194304); lra).
  assert (V4 : B2R (z2f 4) = 4) by (rewrite (V (z2f 4) 8388608%positive (-21)%Z) by (vm_compute; reflexivity); change (bpow radix2 (-21)) with (/ 2097152); lra).
  assert (V5 : B2R (z2f 5) = 5) by (rewrite (V (z2f 5) 10485760%positive (-21)%Z) by (vm_compute; reflexivity); change (bpow radix2 (-21)) with (/ 2097152); lra).
  assert (V3h : B2R (lit 3 (-1)) = 3 / 2) by (rewrite (V (lit 3 (-1)) 12582912%positive (-23)%Z) by (vm_compute; reflexivity); change (bpow radix2 (-23)) with (/ 8388608); lra).
  assert (V7h : B2R (lit 7 (-1)) = 7 / 2) by (rewrite (V (lit 7 (-1)) 14680064%positive (-22)%Z) by (vm_compute; reflexivity); change (bpow radix2 (-22)) with (/ 4194304); lra).
  assert (V9h : B2R (lit 9 (-1)) = 9 / 2) by (rewrite (V (lit 9 (-1)) 9437184%positive (-21)%Z) by (vm_compute; reflexivity); change (bpow radix2 (-21)) with (/ 2097152); lra).
  intros h r Hh H. change (Minor 4) with (relative (Major 7)).
  apply (C86_relative h Temperley [g_major; g_major] None r (Major 7) 2 Hh); try exact H.
  - assert (G : Forall (fun x => fle f0 x = true /\ within 20 x) g_major).
    { assert (B : 8 <= bpow radix2 20) by (change (bpow radix2 20) with 1048576; lra).
      unfold g_major. repeat apply Forall_cons; try apply Forall_nil; (split; [vm_compute; reflexivity|split; [vm_compute; reflexivity|]]);
        rewrite ?V2, ?V4, ?V5, ?V3h, ?V7h, ?V9h; rewrite Rabs_pos_eq; lra. }
    split; [|exact I]. apply Forall_cons; [exact G|]. apply Forall_cons; [exact G|apply Forall_nil].
  - cbn. lia.
  - vm_compute. tauto.
  - change (bpow radix2 (-20)) with (/ 1048576). lra.
  - intros b Hb. unfold energy. cbn [length sumn nth].
    do 12 (destruct b as [|b]; [match goal with |- context [rating ?s ?k ?i] => let v := eval vm_compute in (rating s k i) in change (rating s k i) with v end;
      cbn [nth g_major]; rewrite ?V2, ?V4, ?V5, ?V3h, ?V7h, ?V9h; apply Rabs_le; lra|]). lia.
Qed.
