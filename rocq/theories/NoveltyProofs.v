(** Facts about the novelty model used by NoveltyProps.v. *)
From Coq Require Import ZArith Reals Lra Lia.
From Flocq Require Import Core.
From Verif Require Import Rust F32 F32Facts F32More ListFacts Libm Onsets OnsetsProofs
  PeakPicking PeakPickingProofs CombFilterProofs Novelty.

(** A finite non-negative value of at most 2^k. *)
Definition upto (k : Z) (x : f32) : Prop := fin x /\ (0 <= B2R x <= bpow radix2 k)%R.

Lemma upto_nneg : forall k x, upto k x -> nneg x.
Proof. intros k x (F & H & _). apply nneg_iff. now apply fin_nn. rewrite fx_fin; auto. Qed.
Lemma upto_mono : forall j k x, (j <= k)%Z -> upto j x -> upto k x.
Proof. intros j k x H (F & L & U). split; auto. pose proof (bpow_le radix2 _ _ H). lra. Qed.
Lemma upto_0 : forall k, upto k f0.
Proof. intros k. split; [reflexivity|]. pose proof (bpow_gt_0 radix2 k). cbn [B2R f0]. lra. Qed.
Lemma upto_fin : forall k x, upto k x -> fin x. Proof. now intros k x (F & _). Qed.

Lemma upto_of : forall k x, nn x -> (0 <= fx x)%R -> (fx x <= bpow radix2 k)%R -> (k < 128)%Z -> upto k x.
Proof.
  intros k x N L U K. assert (fx x < big)%R.
  { pose proof (bpow_lt radix2 _ _ K). unfold big. lra. }
  pose proof big_pos. assert (F : fin x) by (apply fin_iff; auto; lra).
  rewrite fx_fin in * by auto. now split.
Qed.
Lemma upto_le : forall k x b, nneg x -> fle x b = true -> upto k b -> upto k x.
Proof.
  intros k x b N L (F & B). assert (Fx : fin x) by (eapply (fin_between f0 _ b); eauto).
  split; auto. apply fle_fx in L. apply nneg_fx in N. rewrite !fx_fin in * by auto. lra.
Qed.

Lemma rnd_bpow : forall k, (-149 <= k)%Z -> rnd (bpow radix2 k) = bpow radix2 k.
Proof.
  intros k H. apply round_generic; auto with typeclass_instances.
  apply generic_format_bpow. unfold SpecFloat.fexp, SpecFloat.emin. lia.
Qed.

Lemma rnd_upto : forall k r, (-149 <= k)%Z -> (0 <= r <= bpow radix2 k)%R ->
  (0 <= rnd r <= bpow radix2 k)%R.
Proof.
  intros k r K H. split; [apply rnd_nonneg; lra|]. rewrite <- (rnd_bpow k K). apply rnd_mono. lra.
Qed.

Lemma sat_upto : forall k r, (k < 128)%Z -> (0 <= r <= bpow radix2 k)%R -> sat r = r.
Proof.
  intros k r K H. apply sat_id. pose proof (bpow_lt radix2 _ _ K). pose proof big_pos. unfold big in *. lra.
Qed.

Lemma upto_mul : forall j k x y, (-149 <= j + k < 128)%Z -> upto j x -> upto k y -> upto (j + k) (fmul x y).
Proof.
  intros j k x y K (Fx & X) (Fy & Y). destruct (fmul_fx x y Fx Fy) as (N & E).
  assert (P : (0 <= B2R x * B2R y <= bpow radix2 (j + k))%R).
  { rewrite bpow_plus. split; [apply Rmult_le_pos; lra|]. apply Rmult_le_compat; lra. }
  apply rnd_upto in P; [|lia]. rewrite (sat_upto (j + k)) in E; auto; [|lia].
  apply upto_of; auto; try lra. lia.
Qed.

(** The rectified difference is at most the minuend. *)
Lemma upto_rise : forall k p c, upto k c -> nneg p -> upto k (fmax (fsub c p) f0).
Proof.
  intros k p c C P. apply upto_le with c; auto.
  - apply fmax_ge_r. reflexivity.
  - apply fmax_lub; auto.
    + intros N. apply fsub_le_l; auto. now apply fin_nn, (upto_fin k).
    + intros _. now apply upto_nneg with k.
Qed.

Lemma upto_sum : forall k l, (-149 <= k <= 102)%Z -> Forall (upto k) l -> upto (k + 25) (fsum l).
Proof.
  intros k l K H. apply (fold_stagnate k); auto.
  pose proof (bpow_gt_0 radix2 (k + 25)). cbn [B2R f0]. lra.
Qed.

Lemma upto_sqrt : forall k x, (-74 <= k < 64)%Z -> upto (2 * k) x -> upto k (fsqrt x).
Proof.
  intros k x K U. pose proof (upto_nneg _ _ U) as N. destruct U as (F & U). destruct (fsqrt_val x F N) as (Fs & E).
  split; auto. rewrite E. apply rnd_upto; [lia|]. split; [apply sqrt_pos|].
  replace (bpow radix2 k) with (sqrt (bpow radix2 (2 * k))).
  - apply sqrt_le_1_alt. lra.
  - replace (2 * k)%Z with (k + k)%Z by lia. rewrite bpow_plus. apply sqrt_square, bpow_ge_0.
Qed.
Lemma upto_sqrt' : forall k x, (0 <= k < 128)%Z -> upto k x -> upto k (fsqrt x).
Proof.
  intros k x K U. pose proof (upto_nneg _ _ U) as N. destruct U as (F & U). destruct (fsqrt_val x F N) as (Fs & E).
  split; auto. rewrite E. apply rnd_upto; [lia|]. split; [apply sqrt_pos|].
  assert (1 <= bpow radix2 k)%R by (change 1%R with (bpow radix2 0); apply bpow_le; lia).
  apply Rle_trans with (sqrt (bpow radix2 k * bpow radix2 k)).
  - apply sqrt_le_1_alt. nra.
  - rewrite sqrt_square; lra.
Qed.

Lemma in01_upto : forall x, in01 x <-> upto 0 x.
Proof.
  intros x. split.
  - intros H. pose proof (in01_fin _ H) as F. destruct H as (A & B). apply nneg_fx in A. apply fle_fx in B.
    rewrite fx_f1 in B. rewrite !fx_fin in * by auto. split; auto.
  - intros U. split. now apply upto_nneg with 0%Z. destruct U as (F & U).
    apply fle_intro; [now apply fin_nn|reflexivity|]. rewrite fx_f1, fx_fin by auto. cbn [bpow] in U. lra.
Qed.

(** ** normalize *)

Lemma nov_eps_le1 : fle nov_eps f1 = true. Proof. reflexivity. Qed.
Lemma nov_eps_pos : pos nov_eps. Proof. reflexivity. Qed.

Lemma normalize_length : forall c, length (normalize c) = length c.
Proof. intros c. unfold normalize. destruct (fgt _ _); auto. apply map_length. Qed.

(** Dividing by a finite maximum. *)
Lemma normalize_spec : forall c, Forall (fun x => nneg x /\ fin x) c ->
  Forall in01 (normalize c) /\
  (Forall (fun x => fle x nov_eps = true) c /\ normalize c = c \/ In f1 (normalize c)) /\
  exists m, pos m /\ fin m /\ forall i x, nth_error c i = Some x ->
    nth_error (normalize c) i = Some (fdiv x m) \/ nth_error (normalize c) i = Some x.
Proof.
  intros c H. destruct (fold_fmax_spec c f0 eq_refl) as (N & L & E & B). cbv zeta in *.
  unfold normalize. set (m := fold_left fmax c f0) in *. clearbody m.
  destruct (fgt m nov_eps) eqn:G; unfold fgt in G; fold (flt nov_eps m) in G.
  - assert (P : pos m) by (eapply fle_flt_trans; [|exact G]; reflexivity).
    assert (Im : In m c). { destruct E as [->|E]; auto. discriminate P. }
    pose proof (proj1 (Forall_forall _ _) H m Im) as (_ & Fm).
    repeat split.
    + apply Forall_map. eapply Forall_impl; [|apply Forall_forall; intros x I; exact I].
      cbn beta. intros x I. pose proof (proj1 (Forall_forall _ _) H x I) as (Nx & Fx).
      apply fdiv_le_1; auto. apply B; auto. now apply fin_nn.
    + right. rewrite <- (fdiv_self m Fm P). now apply (in_map (fun x => fdiv x m)).
    + exists m. repeat split; auto. intros i x Hx. left. now rewrite nth_error_map, Hx.
  - assert (S : Forall (fun x => fle x nov_eps = true) c).
    { apply Forall_forall. intros x I. pose proof (proj1 (Forall_forall _ _) H x I) as (Nx & Fx).
      apply fle_trans with m. apply B; auto; now apply fin_nn. apply flt_false_fle; auto. }
    repeat split.
    + apply Forall_forall. intros x I. pose proof (proj1 (Forall_forall _ _) H x I) as (Nx & Fx).
      pose proof (proj1 (Forall_forall _ _) S x I) as Sx. split; auto. exact (fle_trans _ _ _ Sx nov_eps_le1).
    + left. auto.
    + exists f1. repeat split; auto.
Qed.

Lemma normalize_zero : forall c i x, Forall (fun x => nneg x /\ fin x) c ->
  nth_error c i = Some x -> feq x f0 = true -> exists z, nth_error (normalize c) i = Some z /\ feq z f0 = true.
Proof.
  intros c i x H Hi Z. destruct (normalize_spec c H) as (_ & _ & m & P & F & D).
  destruct (D i x Hi) as [E|E]; eexists; (split; [exact E|]); [|exact Z].
  pose proof (proj1 (Forall_forall _ _) H x (nth_error_In _ _ Hi)) as (_ & Fx).
  destruct (fdiv_fx x m Fx F) as (N & V). { pose proof (B2R_pos m F P). lra. }
  apply feq_iff in Z; [|now apply fin_nn|reflexivity]. rewrite fx_fin in Z by auto. change (fx f0) with 0%R in Z.
  apply feq_iff; auto. rewrite V, Z. change (fx f0) with 0%R. unfold Rdiv. rewrite Rmult_0_l, rnd_0. apply sat_0.
Qed.

Lemma Forall_upto_norm : forall k c, Forall (upto k) c -> Forall (fun x => nneg x /\ fin x) c.
Proof. intros k c H. eapply Forall_impl; [|exact H]. intros x U. split. eapply upto_nneg; eauto. eapply upto_fin; eauto. Qed.

(** ** Raw flux bounds *)

Lemma adj_Forall2 : forall A B (f : A -> A -> B) (P : A -> Prop) (Q : B -> Prop) l,
  (forall a b, P a -> P b -> Q (f a b)) -> Forall P l -> Forall Q (adj f l).
Proof.
  intros A B f P Q l H. induction l as [|a [|b l] IH]; intros F; try constructor.
  - inversion F as [|? ? Pa F']; inversion F'; subst. auto.
  - apply IH. now inversion F.
Qed.

Lemma norm_frame_unit : forall fr, Forall (fun x => nneg x /\ fin x) fr -> Forall (upto 0) (norm_frame fr).
Proof.
  intros fr H. unfold norm_frame.
  destruct (fold_fmax_spec fr f0 eq_refl) as (N & L & E & B). cbv zeta in *.
  set (m := fold_left fmax fr f0) in *. clearbody m.
  destruct (fgt m on_eps) eqn:G; unfold fgt in G; fold (flt on_eps m) in G.
  - assert (P : pos m) by (eapply fle_flt_trans; [|exact G]; reflexivity).
    assert (Im : In m fr). { destruct E as [->|E]; auto. discriminate P. }
    pose proof (proj1 (Forall_forall _ _) H m Im) as (_ & Fm).
    apply Forall_map, Forall_forall. intros x I. pose proof (proj1 (Forall_forall _ _) H x I) as (Nx & Fx).
    apply in01_upto, fdiv_le_1; auto. apply B; auto. now apply fin_nn.
  - apply Forall_map, Forall_forall. intros. apply upto_0.
Qed.

Lemma l2_rise_upto : forall p c, Forall (upto 0) p -> Forall (upto 0) c -> upto 25 (l2_rise p c).
Proof.
  intros p c Hp Hc. unfold l2_rise. apply upto_sqrt'; [lia|].
  apply (upto_sum 0); [lia|]. apply Forall_map, Forall_forall. intros (a & b) I.
  pose proof (in_combine_l _ _ _ _ I) as Ia. pose proof (in_combine_r _ _ _ _ I) as Ib. cbn [fst snd].
  pose proof (proj1 (Forall_forall _ _) Hp a Ia) as Ua. pose proof (proj1 (Forall_forall _ _) Hc b Ib) as Ub.
  assert (U : upto 0 (fmax (fsub b a) f0)) by (apply upto_rise; auto; eapply upto_nneg; eauto).
  apply (upto_mul 0 0); auto. lia.
Qed.

Lemma energy_upto : forall fr, Forall (upto 51) fr -> upto 127 (frame_energy fr).
Proof.
  intros fr H. unfold frame_energy. apply (upto_sum 102); [lia|].
  apply Forall_map. eapply Forall_impl; [|exact H]. intros x U. apply (upto_mul 51 51); auto. lia.
Qed.

Lemma n2f_upto : forall j k, (Z.of_nat k <= 2 ^ j)%Z -> (0 <= j <= 64)%Z -> upto j (n2f k).
Proof.
  intros j k H J. unfold n2f. destruct (z2f_fx (Z.of_nat k)) as (N & E).
  assert (R : (0 <= rnd (IZR (Z.of_nat k)) <= bpow radix2 j)%R).
  { apply rnd_upto; [lia|]. split. apply IZR_le; lia. rewrite <- IZR_Zpower by lia. now apply IZR_le. }
  rewrite (sat_upto j) in E; auto; [|lia]. apply upto_of; auto; try lra. lia.
Qed.

Lemma hfc_terms : forall fr k acc, hfc_from k acc fr =
  fold_left fadd (map (fun km => fmul (fmul (n2f (fst km)) (snd km)) (snd km)) (combine (seq k (length fr)) fr)) acc.
Proof. induction fr as [|m r IH]; intros k acc; auto. cbn [hfc_from length seq combine map fold_left fst snd]. apply IH. Qed.

Lemma hfc_upto : forall fr k, Forall (upto 39) fr -> (Z.of_nat (k + length fr) <= 2 ^ 24)%Z ->
  upto 127 (hfc_from k f0 fr).
Proof.
  intros fr k H L. rewrite hfc_terms. apply (upto_sum 102); [lia|].
  apply Forall_map, Forall_forall. intros (i & m) I. cbn [fst snd].
  pose proof (in_combine_l _ _ _ _ I) as Ia. apply in_seq in Ia. pose proof (in_combine_r _ _ _ _ I) as Ib.
  pose proof (proj1 (Forall_forall _ _) H m Ib) as U.
  apply (upto_mul 63 39); [lia| |auto]. apply (upto_mul 24 39); [lia| |auto]. apply n2f_upto; lia.
Qed.

Lemma rise_upto : forall k a b, upto k a -> upto k b -> upto k (rise a b).
Proof. intros k a b A B. apply upto_rise; auto. eapply upto_nneg; eauto. Qed.

Lemma slice_Forall : forall A (P : A -> Prop) l a b, Forall P l -> Forall P (slice l a b).
Proof.
  intros A P l a b H. unfold slice. apply Forall_forall. intros x I.
  apply (proj1 (Forall_forall _ _) H). rewrite <- (firstn_skipn a l). apply in_or_app. right.
  rewrite <- (firstn_skipn (b - a) (skipn a l)). apply in_or_app. now left.
Qed.

Lemma window_max_spec : forall prev lo hi k b,
  nneg (window_max prev lo hi k b) /\
  (forall j x, lo <= j < hi -> (Z.abs (Z.of_nat j - Z.of_nat b) <= k)%Z -> nth_error prev j = Some x -> nn x ->
     fle x (window_max prev lo hi k b) = true).
Proof.
  intros prev lo hi k b. unfold window_max.
  destruct (fold_fmax_spec (slice prev (Nat.max lo (Z.to_nat (Z.of_nat b - k)))
     (Z.to_nat (Z.min (Z.of_nat b + k + 1) (Z.of_nat hi)))) f0 eq_refl) as (N & L & E & B). cbv zeta in *.
  split; auto. intros j x J K X Nx. apply B; auto. unfold slice.
  set (a := Nat.max lo (Z.to_nat (Z.of_nat b - k))). set (e := Z.to_nat (Z.min (Z.of_nat b + k + 1) (Z.of_nat hi))).
  assert (a <= j < e) by (unfold a, e; lia). clearbody a e.
  apply nth_error_In with (j - a). rewrite nth_error_firstn. destruct (Nat.ltb_spec (j - a) (e - a)); [|lia].
  rewrite nth_error_skipn. now replace (a + (j - a)) with j by lia.
Qed.

Lemma superflux_upto : forall lo hi k j prev cur, (0 <= j <= 51)%Z -> Forall (upto j) cur ->
  upto (2 * j + 25) (superflux_dist lo hi k prev cur).
Proof.
  intros lo hi k j prev cur J H. unfold superflux_dist. apply upto_sqrt'; [lia|].
  apply (upto_sum (2 * j)); [lia|]. apply Forall_map, Forall_forall. intros b _. cbv zeta.
  assert (U : upto j (nth b cur f0)).
  { destruct (Nat.lt_ge_cases b (length cur)) as [L|L].
    - apply (proj1 (Forall_forall _ _) H). now apply nth_In.
    - rewrite nth_overflow by auto. apply upto_0. }
  replace (2 * j)%Z with (j + j)%Z by lia.
  apply upto_mul; [lia| |]; apply upto_rise; auto; apply window_max_spec.
Qed.

(** ** Silence and decay *)

Lemma rise_zero : forall a b, fin a -> fin b -> fle b a = true -> feq (rise a b) f0 = true.
Proof.
  intros a b Fa Fb L. unfold rise. destruct (fsub_fx b a Fb Fa) as (N & E).
  assert (Z : (fx (fsub b a) <= 0)%R).
  { rewrite E, <- sat_0. apply sat_mono. rewrite <- rnd_0. apply rnd_mono.
    apply fle_fx in L. rewrite !fx_fin in L by auto. lra. }
  assert (L0 : fle (fmax (fsub b a) f0) f0 = true).
  { apply fmax_lub; auto. intros _. apply fle_intro; auto. }
  assert (G0 : nneg (fmax (fsub b a) f0)) by (apply fmax_ge_r; reflexivity).
  apply feq_iff; [|reflexivity|]. now destruct (fle_nn _ _ L0). apply Rle_antisym; now apply fle_fx.
Qed.

Lemma fsum_mono : forall l m a b, Forall2 (fun x y => nneg x /\ fle x y = true) l m ->
  nneg a -> fle a b = true -> fle (fold_left fadd l a) (fold_left fadd m b) = true.
Proof.
  intros l m a b H. revert a b. induction H as [|x y l m (Hx & Hxy) H IH]; intros a b Na L; auto.
  cbn [fold_left]. assert (nneg y) by exact (fle_trans _ _ _ Hx Hxy). assert (nneg b) by exact (fle_trans _ _ _ Na L).
  apply IH. now apply fadd_nneg. apply fadd_mono; auto; apply nneg_fadd_nn; auto.
Qed.

Lemma square_mono : forall k x y, (-149 <= k + k < 128)%Z -> upto k x -> upto k y -> fle x y = true ->
  nneg (fmul x x) /\ fle (fmul x x) (fmul y y) = true.
Proof.
  intros k x y K X Y L. pose proof (upto_mul _ _ _ _ K X X) as XX. pose proof (upto_mul _ _ _ _ K Y Y) as YY.
  split. eapply upto_nneg; eauto.
  apply fmul_mono; auto; try (eapply upto_nneg; eauto); eapply fin_nn, upto_fin; eauto.
Qed.

Definition below (x y : list f32) : Prop := Forall2 (fun a b => fle a b = true) x y.

Lemma energy_mono : forall x y, Forall (upto 51) x -> Forall (upto 51) y -> below x y ->
  fle (frame_energy x) (frame_energy y) = true.
Proof.
  intros x y X Y B. unfold frame_energy, fsum. apply fsum_mono; try reflexivity.
  induction B as [|a b x y L B IH]; cbn [map]; constructor.
  - apply (square_mono 51); [lia|now inversion X|now inversion Y|auto].
  - apply IH; [now inversion X|now inversion Y].
Qed.

Lemma hfc_mono : forall x y k a b, Forall (upto 39) x -> Forall (upto 39) y -> below x y ->
  (Z.of_nat (k + length x) <= 2 ^ 24)%Z -> nneg a -> fle a b = true ->
  fle (hfc_from k a x) (hfc_from k b y) = true.
Proof.
  intros x y k a b X Y B. revert k a b. induction B as [|u v x y L B IH]; intros k a b K Na Lab; auto.
  cbn [hfc_from]. cbn [length] in K.
  assert (Uu : upto 39 u) by now inversion X. assert (Uv : upto 39 v) by now inversion Y.
  assert (Un : upto 24 (n2f k)) by (apply n2f_upto; lia).
  pose proof (upto_mul 24 39 _ _ ltac:(lia) Un Uu) as P. pose proof (upto_mul 24 39 _ _ ltac:(lia) Un Uv) as Q.
  pose proof (upto_mul 63 39 _ _ ltac:(lia) P Uu) as PP. pose proof (upto_mul 63 39 _ _ ltac:(lia) Q Uv) as QQ.
  assert (L1 : fle (fmul (n2f k) u) (fmul (n2f k) v) = true).
  { apply fmul_mono; eauto using upto_nneg, fin_nn, upto_fin, fle_refl. }
  assert (L2 : fle (fmul (fmul (n2f k) u) u) (fmul (fmul (n2f k) v) v) = true).
  { apply fmul_mono; eauto using upto_nneg, fin_nn, upto_fin, fle_refl. }
  assert (nneg b) by exact (fle_trans _ _ _ Na Lab).
  assert (N1 : nneg (fmul (fmul (n2f k) u) u)) by eauto using upto_nneg.
  assert (N2 : nneg (fmul (fmul (n2f k) v) v)) by eauto using upto_nneg.
  apply IH; [now inversion X|now inversion Y|lia|now apply fadd_nneg|].
  apply fadd_mono; auto; now apply nneg_fadd_nn.
Qed.

Lemma below_slice : forall x y a b, below x y -> below (slice x a b) (slice y a b).
Proof.
  intros x y a b B. unfold slice. revert y B a b. 
  assert (F : forall n x y, below x y -> below (firstn n x) (firstn n y)).
  { induction n; intros x' y B; [constructor|]. destruct B; constructor; auto. apply IHn; auto. }
  assert (S : forall n x y, below x y -> below (skipn n x) (skipn n y)).
  { induction n; intros x' y B; auto. destruct B; [constructor|]. apply IHn; auto. }
  intros y B a b. apply F, S, B.
Qed.

Lemma superflux_zero : forall lo hi k prev cur,
  (forall b x, lo <= b < hi -> nth_error cur b = Some x -> fin x /\ nneg x /\
     exists j y, lo <= j < hi /\ (Z.abs (Z.of_nat j - Z.of_nat b) <= k)%Z /\ nth_error prev j = Some y /\
       fle x y = true) ->
  hi <= length cur ->
  superflux_dist lo hi k prev cur = f0.
Proof.
  intros lo hi k prev cur H L. unfold superflux_dist.
  rewrite fsum_zeros; [reflexivity|]. intros z I. apply in_map_iff in I. destruct I as (b & <- & I).
  apply in_seq in I. destruct (nth_some _ cur b ltac:(lia)) as (x & X).
  destruct (H b x ltac:(lia) X) as (Fx & Nx & j & y & J & K & Y & XY).
  rewrite (nth_error_nth _ _ f0 X). cbv zeta.
  assert (G : fle x (window_max prev lo hi k b) = true).
  { eapply fle_trans; [exact XY|]. eapply window_max_spec; eauto. now destruct (fle_nn _ _ XY). }
  apply rise_flat. now apply fle_flt_false.
Qed.

(** ** Mel filterbank *)

Lemma spread_from_le : forall top l prev, Forall (fun e => e <= top) l -> Forall (fun e => e <= top) (spread_from top prev l).
Proof.
  induction l as [|x l IH]; intros prev H; cbn [spread_from]; constructor; inversion H; subst; auto.
  destruct (x <=? prev); lia.
Qed.
Lemma spread_le : forall top l, Forall (fun e => e <= top) l -> Forall (fun e => e <= top) (spread top l).
Proof. intros top [|x l] H; auto. inversion H; subst. constructor; auto. now apply spread_from_le. Qed.

Lemma mel_edges_le : forall lm sr n nm lo hi edges, mel_edges lm sr n nm lo hi = Ok edges ->
  Forall (fun e => e <= n - 1) edges.
Proof.
  intros lm sr n nm lo hi edges H. unfold mel_edges in H.
  destruct (fclamp _ _ _) as [h|e|]; cbn [obind] in H; [|discriminate H|discriminate H].
  match type of H with Ok ?x = _ => assert (E : edges = x) by congruence end. rewrite E. apply spread_le, Forall_map, Forall_forall. intros i _. lia.
Qed.

Lemma nth_le : forall e l i, Forall (fun x => x <= e) l -> nth i l 0 <= e.
Proof.
  intros e l i H. destruct (Nat.lt_ge_cases i (length l)) as [L|L].
  - apply (proj1 (Forall_forall _ _) H). now apply nth_In.
  - rewrite nth_overflow by auto. lia.
Qed.

Lemma n2f_sub : forall a b, a <= b -> (Z.of_nat b <= 2 ^ 24)%Z ->
  fin (fsub (n2f b) (n2f a)) /\ nneg (fsub (n2f b) (n2f a)) /\ B2R (fsub (n2f b) (n2f a)) = IZR (Z.of_nat (b - a)).
Proof.
  intros a b L B. unfold n2f.
  destruct (z2f_exact (Z.of_nat a) ltac:(lia)) as (Fa & Ea). destruct (z2f_exact (Z.of_nat b) ltac:(lia)) as (Fb & Eb).
  destruct (fsub_fx _ _ Fb Fa) as (N & E).
  rewrite Ea, Eb, <- minus_IZR in E. rewrite rnd_Z in E by lia.
  pose proof (IZR_lt_big (Z.of_nat b - Z.of_nat a) ltac:(lia)) as G. rewrite sat_id in E by lra.
  assert (F : fin (fsub (z2f (Z.of_nat b)) (z2f (Z.of_nat a)))) by (apply fin_iff; auto; rewrite E; lra).
  rewrite Nat2Z.inj_sub by auto. repeat split; auto.
  - apply nneg_iff; auto. rewrite E. apply IZR_le. lia.
  - rewrite <- fx_fin; auto.
Qed.

Lemma ratio_unit : forall a b c, a <= b -> b <= c -> a < c -> (Z.of_nat c <= 2 ^ 24)%Z ->
  in01 (fdiv (fsub (n2f b) (n2f a)) (fsub (n2f c) (n2f a))) /\
  in01 (fdiv (fsub (n2f c) (n2f b)) (fsub (n2f c) (n2f a))).
Proof.
  intros a b c AB BC AC C.
  destruct (n2f_sub a b AB ltac:(lia)) as (F1 & N1 & E1). destruct (n2f_sub a c ltac:(lia) ltac:(lia)) as (F2 & N2 & E2).
  destruct (n2f_sub b c BC ltac:(lia)) as (F3 & N3 & E3).
  assert (P : pos (fsub (n2f c) (n2f a))).
  { apply flt_intro; [reflexivity|now apply fin_nn|]. change (fx f0) with 0%R. rewrite fx_fin, E2 by auto. apply IZR_lt. lia. }
  split; apply fdiv_le_1; auto; (apply fle_intro; [now apply fin_nn|now apply fin_nn|]);
    rewrite !fx_fin by auto; rewrite ?E1, ?E2, ?E3; apply IZR_le; lia.
Qed.

Lemma mel_weights_unit : forall n edges m b, (Z.of_nat n <= 2 ^ 24)%Z -> Forall (fun e => e <= n - 1) edges ->
  Forall in01 (mel_weights edges m b).
Proof.
  intros n edges m b Hn H. unfold mel_weights.
  pose proof (nth_le _ _ m H). pose proof (nth_le _ _ (m + 1) H). pose proof (nth_le _ _ (m + 2) H).
  set (l := nth m edges 0) in *. set (c := nth (m + 1) edges 0) in *. set (r := nth (m + 2) edges 0) in *.
  clearbody l c r. destruct (Nat.ltb_spec l c); [|constructor]. destruct (Nat.ltb_spec c r); [|constructor].
  cbn [andb]. apply Forall_forall. intros w I. apply filter_In in I. destruct I as (I & _).
  assert (Z0 : in01 f0) by (split; reflexivity).
  apply in_app_or in I. destruct I as [I|I].
  - destruct (Nat.leb_spec l b); [|contradiction]. destruct (Nat.leb_spec b c); [|contradiction].
    destruct I as [<-|[]]. destruct (b =? l); auto. apply ratio_unit; lia.
  - destruct (Nat.leb_spec c b); [|contradiction]. destruct (Nat.leb_spec b r); [|contradiction].
    destruct I as [<-|[]]. destruct (b =? r); auto. apply ratio_unit; lia.
Qed.

(** What the theorems assume of the platform's natural logarithm. *)
Definition ln_ok (ln : f32 -> f32) : Prop :=
  forall x, fin x -> fle f1 x = true -> fle f0 (ln x) = true /\ fle (ln x) (z2f 100) = true.

Lemma one_plus : forall x, fin x -> nneg x -> fin (fadd f1 (fmax x f0)) /\ fle f1 (fadd f1 (fmax x f0)) = true.
Proof.
  intros x F N. set (y := fmax x f0).
  assert (Y : fin y /\ nneg y). { unfold y. destruct (fmax_case x f0) as [-> | ->]; split; auto. }
  clearbody y. destruct Y as (Fy & Ny). destruct (fadd_fx f1 y eq_refl Fy) as (Ns & _).
  assert (G : fle f1 (fadd f1 y) = true) by (apply fadd_ge_l; auto).
  split; auto. apply (fin_between f1 _ (lit 16777215 104)); auto.
  assert (L : fle y (lit 16777215 104) = true).
  { pose proof (abs_B2R_le_emax_minus_prec fprec femax _ y) as H.
    apply fle_intro; [now apply fin_nn|reflexivity|]. rewrite (fx_fin _ Fy), fx_fin by reflexivity.
    assert (E : (B2R (lit 16777215 104) = bpow radix2 femax - bpow radix2 (femax - fprec))%R).
    { cbn. unfold F2R; cbn. lra. }
    rewrite E. apply Rabs_le_inv in H. lra. }
  assert (E : fadd f1 (lit 16777215 104) = lit 16777215 104) by (apply B2SF_inj; vm_compute; reflexivity).
  rewrite <- E at 1. apply fadd_mono; auto.
Qed.

Lemma log_upto : forall ln x, ln_ok ln -> fin x -> nneg x -> upto 7 (ln (fadd f1 (fmax x f0))).
Proof.
  intros ln x H F N. destruct (one_plus x F N) as (F1 & G1). destruct (H _ F1 G1) as (A & B).
  apply upto_le with (z2f 100); auto. split; [reflexivity|].
  destruct (z2f_exact 100 ltac:(lia)) as (_ & ->). cbn [bpow]. simpl. lra.
Qed.

Lemma log_frame_upto : forall ln fr, ln_ok ln -> Forall (fun x => nneg x /\ fin x) fr -> Forall (upto 7) (log_frame ln fr).
Proof.
  intros ln fr H F. apply Forall_map. eapply Forall_impl; [|exact F]. intros x (N & Fx). now apply log_upto.
Qed.

Lemma mel_slot_upto : forall ln n edges fr m, ln_ok ln -> (Z.of_nat n <= 2 ^ 24)%Z ->
  Forall (fun e => e <= n - 1) edges -> Forall (fun x => nneg x /\ fin x) fr -> upto 32 (mel_slot ln edges fr m).
Proof.
  intros ln n edges fr m H Hn He Hf. unfold mel_slot.
  assert (G : forall l acc, (forall bx, In bx l -> nneg (snd bx) /\ fin (snd bx)) -> upto 32 acc ->
    upto 32 (fold_left (fun acc bx => let v := ln (fadd f1 (fmax (snd bx) f0)) in
      if fle v f0 then acc else fold_left (fun a w => fadd a (fmul v w)) (mel_weights edges m (fst bx)) acc) l acc)).
  { induction l as [|bx l IH]; intros acc I U; auto. cbn [fold_left]. apply IH. { intros; apply I; now right. }
    destruct (I bx (or_introl eq_refl)) as (N & F). pose proof (log_upto ln _ H F N) as V.
    set (v := ln (fadd f1 (fmax (snd bx) f0))) in *. clearbody v. cbv zeta. destruct (fle v f0); auto.
    assert (E : forall ws a, fold_left (fun a w => fadd a (fmul v w)) ws a = fold_left fadd (map (fmul v) ws) a).
    { induction ws as [|w ws IW]; intros a; auto. cbn [fold_left map]. apply IW. }
    rewrite E. destruct U as (Fa & Ua). apply (fold_stagnate 7); auto; [lia|].
    apply Forall_map. eapply Forall_impl; [|apply (mel_weights_unit n); eauto].
    intros w W. apply in01_upto in W. apply (upto_mul 7 0); auto. lia. }
  apply G; [|apply upto_0]. intros (b & x) I. apply in_combine_r in I. cbn [snd].
  exact (proj1 (Forall_forall _ _) Hf x I).
Qed.

(** ** Combination *)

Lemma upto_add : forall k x y, (-149 <= k < 127)%Z -> upto k x -> upto k y -> upto (k + 1) (fadd x y).
Proof.
  intros k x y K (Fx & X) (Fy & Y). destruct (fadd_fx x y Fx Fy) as (N & E).
  assert (P : (0 <= B2R x + B2R y <= bpow radix2 (k + 1))%R).
  { rewrite bpow_plus. simpl (bpow radix2 1). lra. }
  apply rnd_upto in P; [|lia]. rewrite (sat_upto (k + 1)) in E; auto; [|lia].
  apply upto_of; auto; try lra. lia.
Qed.

(** Dividing by a count. *)
Lemma upto_div_count : forall k x n, (-149 <= k < 128)%Z -> upto k x -> 1 <= n -> upto k (fdiv x (n2f n)).
Proof.
  intros k x n K U Hn. unfold n2f. destruct (z2f_fx (Z.of_nat n)) as (N & E).
  assert (G : (1 <= rnd (IZR (Z.of_nat n)))%R).
  { rewrite <- (rnd_Z 1) by lia. apply rnd_mono, IZR_le. lia. }
  destruct (nn_cases _ N) as [F|[I|I]].
  - rewrite fx_fin in E by auto. destruct U as (Fx & U).
    assert (G1 : (1 <= B2R (z2f (Z.of_nat n)))%R).
    { rewrite E. unfold sat. pose proof big_pos.
      assert (1 < big)%R by (unfold big; change 1%R with (bpow radix2 0); apply bpow_lt; lia).
      apply Rle_trans with (Rmin big (rnd (IZR (Z.of_nat n)))); [|apply Rmax_r]. apply Rmin_glb; lra. }
    set (d := z2f (Z.of_nat n)) in *. clearbody d.
    destruct (fdiv_fx x d Fx F ltac:(lra)) as (Nd & Ed).
    assert (P : (0 <= B2R x / B2R d <= bpow radix2 k)%R).
    { split. apply Rdiv_nn; lra. apply Rle_trans with (B2R x); [|lra]. apply Rmult_le_reg_r with (B2R d); [lra|]. unfold Rdiv.
      rewrite Rmult_assoc, Rinv_l, Rmult_1_r by lra. nra. }
    apply rnd_upto in P; [|lia]. rewrite (sat_upto k) in Ed; auto; [|lia]. apply upto_of; auto; try lra. lia.
  - assert (Z : fdiv x finf = B754_zero (xorb (Bsign x) false)).
    { destruct U as (Fx & _). destruct x; try discriminate Fx; reflexivity. }
    rewrite I, Z. split; [reflexivity|]. cbn [B2R]. pose proof (bpow_gt_0 radix2 k). lra.
  - exfalso. rewrite I in E. change (fx fninf) with (- big)%R in E. unfold sat in E.
    assert (1 < big)%R by (unfold big; change 1%R with (bpow radix2 0); apply bpow_lt; lia).
    assert (1 <= Rmin big (rnd (IZR (Z.of_nat n))))%R by (apply Rmin_glb; lra).
    pose proof (Rmax_r (- big) (Rmin big (rnd (IZR (Z.of_nat n))))). lra.
Qed.

Lemma window_mean_upto : forall x w i, Forall in01 x -> i < length x -> upto 25 (window_mean x w i).
Proof.
  intros x w i H L. unfold window_mean. apply upto_div_count; [lia| |].
  - apply (upto_sum 0); [lia|]. apply slice_Forall. eapply Forall_impl; [|exact H]. intros a A. now apply in01_upto.
  - pose proof (Nat.le_0_l (w / 2)). lia.
Qed.

Lemma lms_length : forall x w, length (local_mean_subtract x w) = length x.
Proof. intros. unfold local_mean_subtract. destruct (w =? 0); auto. rewrite map_length, combine_length, seq_length. lia. Qed.
Lemma smooth_length : forall x w, length (smooth x w) = length x.
Proof. intros. unfold smooth. destruct (_ || _); auto. now rewrite map_length, seq_length. Qed.

Lemma lms_unit : forall x w, Forall in01 x -> Forall in01 (local_mean_subtract x w).
Proof.
  intros x w H. unfold local_mean_subtract. destruct (w =? 0); auto.
  apply Forall_map, Forall_forall. intros (i & v) I. cbn [fst snd].
  pose proof (in_combine_l _ _ _ _ I) as Ii. apply in_seq in Ii. apply in_combine_r in I.
  pose proof (proj1 (Forall_forall _ _) H v I) as V. apply in01_upto. apply upto_rise.
  - now apply in01_upto.
  - eapply upto_nneg. apply window_mean_upto; auto. lia.
Qed.
Lemma smooth_upto : forall x w, Forall in01 x -> Forall (upto 25) (smooth x w).
Proof.
  intros x w H. unfold smooth. destruct (_ || _).
  - eapply Forall_impl; [|exact H]. intros a A. apply upto_mono with 0%Z; [lia|]. now apply in01_upto.
  - apply Forall_map, Forall_forall. intros i I. apply in_seq in I. apply window_mean_upto; auto. lia.
Qed.

Lemma weighted_unit : forall s e h ws we wh, in01 s -> in01 e -> in01 h -> upto 125 ws -> upto 125 we -> upto 125 wh ->
  in01 (fdiv (fadd (fadd (fmul s ws) (fmul e we)) (fmul h wh)) (fmax (fadd (fadd ws we) wh) nov_eps)).
Proof.
  intros s e h ws we wh S E H Ws We Wh.
  assert (T : forall a w, in01 a -> upto 125 w -> nneg (fmul a w) /\ fle (fmul a w) w = true).
  { intros a w A W. assert (Nw : nneg w) by (eapply upto_nneg; eauto). pose proof (upto_fin _ _ W) as Fw.
    pose proof (in01_fin _ A). destruct A. split. apply fmul_nneg_fin; auto. apply fmul_le_r; auto. }
  destruct (T s ws S Ws) as (S0 & S1). destruct (T e we E We) as (E0 & E1). destruct (T h wh H Wh) as (H0 & H1).
  assert (Ns : nneg ws) by (eapply upto_nneg; eauto). assert (Ne : nneg we) by (eapply upto_nneg; eauto).
  assert (Nh : nneg wh) by (eapply upto_nneg; eauto).
  pose proof (upto_add 125 ws we ltac:(lia) Ws We) as U1.
  pose proof (upto_add 126 (fadd ws we) wh ltac:(lia) U1 (upto_mono 125 126 _ ltac:(lia) Wh)) as U2.
  assert (L1 : fle (fadd (fmul s ws) (fmul e we)) (fadd ws we) = true).
  { apply fadd_mono; auto; now apply nneg_fadd_nn. }
  assert (N1 : nneg (fadd (fmul s ws) (fmul e we))) by now apply fadd_nneg.
  assert (N2 : nneg (fadd ws we)) by now apply fadd_nneg.
  assert (L2 : fle (fadd (fadd (fmul s ws) (fmul e we)) (fmul h wh)) (fadd (fadd ws we) wh) = true).
  { apply fadd_mono; auto; now apply nneg_fadd_nn. }
  set (t := fadd (fadd ws we) wh) in *. clearbody t.
  assert (Nt : nn t) by eauto using fin_nn, upto_fin.
  apply fdiv_le_1.
  - now apply fadd_nneg.
  - eapply flt_fle_trans; [exact nov_eps_pos|]. apply fmax_ge_r. reflexivity.
  - destruct (fmax_case t nov_eps) as [-> | ->]; [eauto using upto_fin|reflexivity].
  - eapply fle_trans; [exact L2|]. now apply fmax_ge_l.
Qed.
