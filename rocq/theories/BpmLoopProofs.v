From Coq Require Import ZArith Bool List Arith Lia Sorted Reals Lra Psatz.
From Flocq Require Import Core IEEE754.BinarySingleNaN Plus_error Relative.
From Verif Require Import Rust F32 F32Facts F32More ListFacts BpmLoop.
Import ListNotations.

(** The k-th tempo of the walk. *)
Fixpoint nth_tempo (res b : f32) (k : nat) : f32 :=
  match k with O => b | S k' => nth_tempo res (fadd b res) k' end.

Lemma nth_tempo_S : forall res k b, nth_tempo res b (S k) = fadd (nth_tempo res b k) res.
Proof. intros res k. induction k as [|k IH]; intros b; [reflexivity|]. cbn [nth_tempo] in *. now rewrite IH. Qed.

Section Loop.
  Context {A : Type} (body : f32 -> outcome A) (stop res : f32).
  Notation loop := (bpm_loop body stop res).

  Lemma loop_mono : forall n b r, loop n b = Some r -> forall m, n <= m -> loop m b = Some r.
  Proof.
    induction n as [|n IH]; intros b r H m L; [discriminate|]. destruct m as [|m]; [lia|].
    cbn [bpm_loop] in *. destruct (fle b stop); auto. destruct (body b); auto.
    destruct (loop n (fadd b res)) as [r'|] eqn:E; [|discriminate].
    rewrite (IH _ _ E m ltac:(lia)). auto.
  Qed.

  Lemma loop_ok : forall n b l, loop n b = Some (Ok l) ->
    (forall k x a, nth_error l k = Some (x, a) ->
       x = nth_tempo res b k /\ fle x stop = true /\ body x = Ok a) /\
    fle (nth_tempo res b (length l)) stop = false.
  Proof.
    induction n as [|n IH]; intros b l H; [discriminate|]. cbn [bpm_loop] in H.
    destruct (fle b stop) eqn:S.
    - destruct (body b) as [a| |] eqn:B; try discriminate.
      destruct (loop n (fadd b res)) as [[l'| |]|] eqn:E; try discriminate. injection H as <-.
      apply IH in E as (E1 & E2). split; [|exact E2].
      intros [|k] x a' K; cbn in K; [injection K as <- <-; auto|]. now apply E1 in K.
    - injection H as <-. split; auto. intros [|k] x a K; discriminate.
  Qed.

  (** Non-termination: the tempo does not move. *)
  Lemma loop_stuck : forall b a, fle b stop = true -> fadd b res = b -> body b = Ok a ->
    forall n, loop n b = None.
  Proof.
    intros b a S F B. induction n as [|n IH]; auto. cbn [bpm_loop]. now rewrite S, B, F, IH.
  Qed.

  (** Termination when some tempo of the walk exceeds the limit. *)
  Lemma loop_ends : forall k b, fle (nth_tempo res b k) stop = false ->
    exists r, loop (S k) b = Some r.
  Proof.
    induction k as [|k IH]; intros b H; cbn [nth_tempo] in H.
    - cbn [bpm_loop]. rewrite H. eauto.
    - remember (S k) as k'. cbn [bpm_loop]. destruct (fle b stop); eauto. destruct (body b); eauto.
      destruct (IH _ H) as (r & ->). destruct r; eauto.
  Qed.

  Lemma loop_panic : forall n b, loop n b = Some Panic ->
    exists k, fle (nth_tempo res b k) stop = true /\ body (nth_tempo res b k) = Panic.
  Proof.
    induction n as [|n IH]; intros b H; [discriminate|]. cbn [bpm_loop] in H.
    destruct (fle b stop) eqn:St; [|discriminate]. destruct (body b) eqn:B; try discriminate; [|exists 0; auto].
    destruct (loop n (fadd b res)) as [[l'| |]|] eqn:E; try discriminate.
    apply IH in E as (k & E). exists (S k). exact E.
  Qed.
End Loop.

Local Open Scope R_scope.

(** One addition loses at most the fraction 2^-24. *)
Lemma rnd_plus : forall x y : f32, fin x -> fin y -> 0 <= B2R x -> 0 <= B2R y ->
  (B2R x + B2R y) * (1 - / 16777216) <= rnd (B2R x + B2R y) <= (B2R x + B2R y) * (1 + / 16777216).
Proof.
  intros x y Fx Fy Hx Hy.
  destruct (FLT_plus_error_N_ex radix2 (3 - 128 - 24) 24 (fun z => negb (Z.even z))
     (B2R x) (B2R y)) as (eps & He & E).
  - apply (generic_format_B2R fprec femax x).
  - apply (generic_format_B2R fprec femax y).
  - unfold rnd.
    replace (round radix2 fexp32 ZnearestE (B2R x + B2R y)) with ((B2R x + B2R y) * (1 + eps)) by (symmetry; exact E).
    assert (U : u_ro radix2 24 = / 16777216) by (unfold u_ro; simpl; lra).
    assert (Rabs eps <= / 16777216).
    { eapply Rle_trans; [apply He|]. rewrite U. apply Rle_trans with (/16777216 / 1); [|lra].
      unfold Rdiv. apply Rmult_le_compat_l; [lra|]. apply Rinv_le; lra. }
    apply Rabs_le_inv in H. split; apply Rmult_le_compat_l; lra.
Qed.

Lemma nth_tempo_pos : forall res b k, pos res -> pos b -> pos (nth_tempo res b k).
Proof.
  intros res b k Hr Hb. induction k as [|k IH]; [exact Hb|]. rewrite nth_tempo_S.
  eapply flt_fle_trans; [exact IH|]. apply fadd_ge_l.
  - apply (proj2 (flt_nn _ _ IH)).
  - now apply pos_nneg.
  - apply nneg_fadd_nn; now apply pos_nneg.
Qed.

Lemma nth_tempo_incr : forall res b k, pos res -> pos b ->
  fle (nth_tempo res b k) (nth_tempo res b (S k)) = true.
Proof.
  intros res b k Hr Hb. rewrite nth_tempo_S. pose proof (nth_tempo_pos res b k Hr Hb) as P.
  apply fadd_ge_l. apply (proj2 (flt_nn _ _ P)). now apply pos_nneg.
  apply nneg_fadd_nn; now apply pos_nneg.
Qed.
Lemma nth_tempo_ge : forall res b k, pos res -> pos b -> fle b (nth_tempo res b k) = true.
Proof.
  intros res b k Hr Hb. induction k as [|k IH].
  - apply fle_refl. apply (proj2 (flt_nn _ _ Hb)).
  - eapply fle_trans; [exact IH|]. now apply nth_tempo_incr.
Qed.

(** Every step within the limit advances by at least res - stop * 2^-23. *)
Lemma walk_progress : forall res b stop k, pos res -> fin res -> pos b -> fin stop ->
  fle (nth_tempo res b k) stop = true ->
  INR k * (B2R res - B2R stop / 8388608) <= B2R (nth_tempo res b k) - B2R b /\ fin (nth_tempo res b k).
Proof.
  intros res b stop k Hr Fr Hb Fs. induction k as [|k IH]; intros H.
  - simpl nth_tempo in *. split; [simpl; lra|].
    apply (fin_between f0 _ stop); auto. now apply pos_nneg.
  - assert (Hk : fle (nth_tempo res b k) stop = true) by (eapply fle_trans; [apply nth_tempo_incr|]; eauto).
    destruct (IH Hk) as (IH1 & Fk).
    assert (F' : fin (nth_tempo res b (S k))).
    { apply (fin_between f0 _ stop); auto. now apply pos_nneg, nth_tempo_pos. }
    split; auto.
    pose proof (fle_fx _ _ H) as L. rewrite !fx_fin in L by auto.
    pose proof (B2R_pos _ Fk (nth_tempo_pos res b k Hr Hb)) as Pk.
    pose proof (B2R_pos _ Fr Hr) as Pr.
    rewrite nth_tempo_S in *. rewrite B2R_fadd in * by auto.
    destruct (rnd_plus _ _ Fk Fr ltac:(lra) ltac:(lra)) as (R1 & _).
    rewrite S_INR. nra.
Qed.

Lemma walk_count : forall res b stop k, pos res -> fin res -> pos b -> fin stop ->
  fle (nth_tempo res b k) stop = true ->
  INR k * (B2R res - B2R stop / 8388608) <= B2R stop - B2R b.
Proof.
  intros res b stop k Hr Fr Hb Fs H. destruct (walk_progress res b stop k) as (P & F); auto.
  pose proof (fle_fx _ _ H) as L. rewrite !fx_fin in L by auto. lra.
Qed.

Lemma walk_ends : forall res b stop, pos res -> fin res -> pos b -> fin stop ->
  B2R stop / 8388608 < B2R res -> exists k, fle (nth_tempo res b k) stop = false.
Proof.
  intros res b stop Hr Fr Hb Fs H. set (d := B2R res - B2R stop / 8388608).
  assert (D : 0 < d) by (unfold d; lra).
  destruct (archimed ((B2R stop - B2R b) / d)) as (A & _).
  exists (Z.to_nat (Z.max 0 (up ((B2R stop - B2R b) / d)))).
  set (k := Z.to_nat _). destruct (fle (nth_tempo res b k) stop) eqn:E; auto. exfalso.
  pose proof (walk_count _ _ _ _ Hr Fr Hb Fs E) as C. fold d in C.
  assert (B : (B2R stop - B2R b) / d < INR k).
  { eapply Rlt_le_trans; [exact A|]. unfold k. rewrite INR_IZR_INZ. apply IZR_le.
    rewrite Z2Nat.id; lia. }
  apply (Rmult_lt_compat_r d) in B; auto. unfold Rdiv in B. rewrite Rmult_assoc, Rinv_l, Rmult_1_r in B; lra.
Qed.
