(** Lemmas for Hmm.v. *)
From Coq Require Import ZArith Reals Lra Lia Psatz Sorted.
From Flocq Require Import Core.
From Verif Require Import Rust F32 F32Facts F32More ListFacts Sorting PeakPicking PeakPickingProofs TimeSignatureProofs Hmm.

(** * Viterbi *)

(** Transition probability from state [p] to state [s]. *)
Notation trans tr p s := (nth s (nth p tr []) f0).

(** The probability of a path as the product is evaluated in f32, frame by frame. *)
Fixpoint extend (tr : list (list f32)) (v : f32) (s : nat) (ems : list (list f32)) (ss : list nat) : f32 :=
  match ems, ss with
  | e :: er, s' :: sr => extend tr (fmul (fmul v (trans tr s s')) (nth s' e f0)) s' er sr
  | _, _ => v
  end.
Definition path_prob (tr em : list (list f32)) (path : list nat) : f32 :=
  match em, path with
  | e :: er, s :: sr => extend tr (fmul (fdiv f1 (n2f 5)) (nth s e f0)) s er sr
  | _, _ => f0
  end.

(** Tables of probabilities: five entries per row, each in [0,1]. *)
Definition prob_row (r : list f32) : Prop := length r = num_states /\ Forall in01 r.
Definition prob_table (t : list (list f32)) : Prop := Forall prob_row t.

Lemma row_in01 : forall r s, Forall in01 r -> in01 (nth s r f0).
Proof.
  intros r s H. destruct (Nat.lt_ge_cases s (length r)) as [L|L].
  - apply (proj1 (Forall_forall _ _) H). now apply nth_In.
  - rewrite nth_overflow by lia. apply in01_0.
Qed.
Lemma table_row : forall t i, prob_table t -> Forall in01 (nth i t []).
Proof.
  intros t i H. destruct (Nat.lt_ge_cases i (length t)) as [L|L].
  - refine (proj2 (proj1 (Forall_forall _ _) H (nth i t []) _)). now apply nth_In.
  - rewrite nth_overflow by lia. constructor.
Qed.
Lemma trans_in01 : forall tr p s, prob_table tr -> in01 (trans tr p s).
Proof. intros. apply row_in01. now apply table_row. Qed.

Lemma mul01_mono : forall a b c d, in01 a -> in01 b -> in01 c -> in01 d -> fle a b = true -> fle c d = true ->
  fle (fmul a c) (fmul b d) = true.
Proof.
  intros a b c d A B C D H1 H2. apply fmul_mono; auto; try apply A; try apply C; apply in01_nn, in01_mul; auto.
Qed.
Lemma mul01_le_l : forall a b, in01 a -> in01 b -> fle (fmul a b) a = true.
Proof.
  intros a b A B. rewrite fmul_comm. apply fmul_le_r; try apply B; try apply A. now apply in01_fin.
Qed.

Lemma in01_fifth : in01 (fdiv f1 (n2f 5)).
Proof. split; vm_compute; reflexivity. Qed.

Lemma extend_in01 : forall tr ems v s ss, prob_table tr -> prob_table ems -> in01 v -> in01 (extend tr v s ems ss).
Proof.
  intros tr ems. induction ems as [|e er IH]; intros v s ss T E V; destruct ss as [|s' sr]; cbn [extend]; auto.
  pose proof (Forall_inv E) as E1. apply Forall_inv_tail in E.
  apply IH; auto. apply in01_mul; [apply in01_mul; auto; now apply trans_in01|]. apply row_in01, E1.
Qed.

Lemma extend_mono : forall tr ems v w s ss, prob_table tr -> prob_table ems -> in01 v -> in01 w -> fle v w = true ->
  fle (extend tr v s ems ss) (extend tr w s ems ss) = true.
Proof.
  intros tr ems. induction ems as [|e er IH]; intros v w s ss T E V W H; destruct ss as [|s' sr]; cbn [extend]; auto.
  pose proof (Forall_inv E) as E1. apply Forall_inv_tail in E.
  pose proof (trans_in01 tr s s' T) as I1. pose proof (row_in01 e s' (proj2 E1)) as I2.
  apply IH; auto; repeat apply in01_mul; auto.
  apply mul01_mono; auto; try (apply in01_mul; auto).
  - apply mul01_mono; auto. apply fle_refl. now apply in01_nn.
  - apply fle_refl. now apply in01_nn.
Qed.

(** The running maximum with strict comparison from (0, 0). *)
Lemma run_max : forall (f : nat -> f32) l best, (forall p, in01 (f p)) ->
  (fle (fst best) (f (snd best)) = true) -> in01 (fst best) ->
  let r := fold_left (fun b p => let x := f p in if fgt x (fst b) then (x, p) else b) l best in
  in01 (fst r) /\ fle (fst r) (f (snd r)) = true /\ fle (fst best) (fst r) = true /\
  (forall p, In p l -> fle (f p) (fst r) = true) /\ (snd r = snd best \/ In (snd r) l).
Proof.
  intros f l. induction l as [|p l IH]; intros best F B I; cbn [fold_left].
  - cbv zeta. pose proof (fle_refl (fst best) (in01_nn _ I)). split; [exact I|]. split; [exact B|]. split; [auto|].
    split; [intros p []|now left].
  - set (b' := if fgt (f p) (fst best) then (f p, p) else best).
    assert (B' : fle (fst b') (f (snd b')) = true /\ in01 (fst b') /\ fle (fst best) (fst b') = true /\
                 fle (f p) (fst b') = true /\ (snd b' = snd best \/ snd b' = p)).
    { unfold b'. destruct (fgt (f p) (fst best)) eqn:G; unfold fgt in G; fold (flt (fst best) (f p)) in G.
      - cbn [fst snd]. pose proof (fle_refl (f p) (in01_nn _ (F p))) as R. apply flt_fle in G.
        split; [exact R|]. split; [apply F|]. auto.
      - apply flt_false_fle in G; [|now apply in01_nn|now apply in01_nn].
        pose proof (fle_refl (fst best) (in01_nn _ I)). split; [exact B|]. split; [exact I|]. auto. }
    clearbody b'. destruct B' as (B1 & B2 & B3 & B4 & B5).
    destruct (IH b' F B1 B2) as (R1 & R2 & R3 & R4 & R5). cbv zeta in *.
    set (r := fold_left _ l b') in *. clearbody r. split; [exact R1|]. split; [exact R2|].
    split; [exact (fle_trans _ _ _ B3 R3)|]. split.
    + intros q [<-|Hq]; [exact (fle_trans _ _ _ B4 R3)|now apply R4].
    + destruct R5 as [E|E]; [|right; now right]. rewrite E. destruct B5 as [E'|E']; [now left|right; left; now symmetry].
Qed.

Lemma in_states : forall s, In s (seq 0 num_states) <-> s < 5.
Proof. intros s. rewrite in_seq. unfold num_states. lia. Qed.

Lemma best_prev_spec : forall tr v s, prob_table tr -> Forall in01 v ->
  let r := best_prev tr v s in
  in01 (fst r) /\ fle (fst r) (fmul (nth (snd r) v f0) (trans tr (snd r) s)) = true /\
  (forall p, p < 5 -> fle (fmul (nth p v f0) (trans tr p s)) (fst r) = true) /\ snd r < 5.
Proof.
  intros tr v s T V r. unfold best_prev in r.
  assert (F : forall p, in01 (fmul (nth p v f0) (trans tr p s))).
  { intros p. apply in01_mul; [now apply row_in01|now apply trans_in01]. }
  destruct (run_max (fun p => fmul (nth p v f0) (trans tr p s)) (seq 0 num_states) (f0, 0) F (proj1 (F 0)) in01_0)
    as (R1 & R2 & R3 & R4 & R5). cbv zeta in *. fold r in R1, R2, R3, R4, R5. clearbody r.
  split; [exact R1|]. split; [exact R2|]. split; [intros p Hp; now apply R4, in_states|].
  destruct R5 as [E|E]; [rewrite E; cbn; lia|now apply in_states].
Qed.

Lemma final_spec : forall v, Forall in01 v ->
  final_state v < 5 /\ forall s, s < 5 -> fle (nth s v f0) (nth (final_state v) v f0) = true.
Proof.
  intros v V. unfold final_state.
  assert (F : forall p, in01 (nth p v f0)) by (intros; now apply row_in01).
  destruct (run_max (fun p => nth p v f0) (seq 0 num_states) (f0, 0) F (proj1 (F 0)) in01_0)
    as (R1 & R2 & R3 & R4 & R5). cbv zeta in *. set (r := fold_left _ _ _) in *. clearbody r. split.
  - destruct R5 as [E|E]; [rewrite E; cbn; lia|now apply in_states].
  - intros s Hs. refine (fle_trans _ _ _ (R4 s _) R2). now apply in_states.
Qed.

(** One forward step. *)
Definition step (tr : list (list f32)) (v e : list f32) : list f32 :=
  map (fun s => fmul (fst (nth s (map (best_prev tr v) (seq 0 num_states)) (f0, 0))) (nth s e f0)) (seq 0 num_states).

Lemma step_nth : forall tr v e s, s < 5 -> nth s (step tr v e) f0 = fmul (fst (best_prev tr v s)) (nth s e f0).
Proof.
  intros tr v e s H. unfold step, num_states. do 5 (destruct s as [|s]; [reflexivity|]). lia.
Qed.
Lemma prevs_nth : forall tr v s, s < 5 -> nth s (map snd (map (best_prev tr v) (seq 0 num_states))) 0 = snd (best_prev tr v s).
Proof.
  intros tr v s H. unfold num_states. do 5 (destruct s as [|s]; [reflexivity|]). lia.
Qed.
Lemma step_in01 : forall tr v e, prob_table tr -> Forall in01 v -> Forall in01 e -> Forall in01 (step tr v e).
Proof.
  intros tr v e T V E. apply Forall_forall. intros x Hx. destruct (In_nth _ _ f0 Hx) as (s & L & <-).
  assert (s < 5) by (unfold step in L; rewrite map_length, seq_length in L; exact L).
  rewrite step_nth by auto. apply in01_mul; [now apply best_prev_spec|now apply row_in01].
Qed.
Lemma forward_cons : forall tr v e r, forward tr v (e :: r) =
  (fst (forward tr (step tr v e) r), map snd (map (best_prev tr v) (seq 0 num_states)) :: snd (forward tr (step tr v e) r)).
Proof.
  intros. cbn [forward]. fold (step tr v e). destruct (forward tr (step tr v e) r). reflexivity.
Qed.

Lemma forward_in01 : forall tr ems v, prob_table tr -> prob_table ems -> Forall in01 v ->
  Forall in01 (fst (forward tr v ems)).
Proof.
  intros tr ems. induction ems as [|e er IH]; intros v T E V; [exact V|]. rewrite forward_cons. cbn [fst].
  apply IH; auto; [now apply Forall_inv_tail in E|]. apply step_in01; auto. exact (proj2 (Forall_inv E)).
Qed.

Lemma last_default : forall A (l : list A) a b, l <> [] -> last l a = last l b.
Proof.
  intros A l a b. induction l as [|x l IH]; intros H; [congruence|]. destruct l; [reflexivity|].
  change (last (a0 :: l) a = last (a0 :: l) b). now apply IH.
Qed.

(** No path does better than the table says. *)
Lemma forward_upper : forall tr ems v s ss x, prob_table tr -> prob_table ems -> Forall in01 v ->
  s < 5 -> Forall (fun s => s < 5) ss -> length ss = length ems -> in01 x -> fle x (nth s v f0) = true ->
  fle (extend tr x s ems ss) (nth (last ss s) (fst (forward tr v ems)) f0) = true.
Proof.
  intros tr ems. induction ems as [|e er IH]; intros v s ss x T E V S SS L X H; destruct ss as [|s' sr]; try discriminate L.
  - exact H.
  - rewrite forward_cons. cbn [fst extend]. replace (last (s' :: sr) s) with (last sr s').
    2:{ destruct sr; [reflexivity|]. change (last (n :: sr) s' = last (n :: sr) s). apply last_default. discriminate. }
    pose proof (Forall_inv E) as E1. apply Forall_inv_tail in E.
    pose proof (Forall_inv SS) as S1. apply Forall_inv_tail in SS.
    pose proof (trans_in01 tr s s' T) as I1. pose proof (row_in01 e s' (proj2 E1)) as I2.
    destruct (best_prev_spec tr v s' T V) as (R1 & R2 & R3 & R4).
    apply IH; auto; [apply step_in01; auto; apply E1|repeat apply in01_mul; auto|].
    rewrite step_nth by auto. apply mul01_mono; auto; [now apply in01_mul| |apply fle_refl; now apply in01_nn].
    refine (fle_trans _ _ _ _ (R3 s S)). apply mul01_mono; auto; [now apply row_in01|apply fle_refl; now apply in01_nn].
Qed.

(** The traced path does at least as well. *)
Lemma backtrack_cons : forall bp bps f, backtrack (bp :: bps) f = nth (hd 0 (backtrack bps f)) bp 0 :: backtrack bps f.
Proof. intros. unfold backtrack. cbn [rev]. rewrite fold_left_app. reflexivity. Qed.

Lemma forward_trace : forall tr ems v f, prob_table tr -> prob_table ems -> Forall in01 v -> f < 5 ->
  exists s ss, backtrack (snd (forward tr v ems)) f = s :: ss /\ length ss = length ems /\ s < 5 /\
  Forall (fun s => s < 5) ss /\
  fle (nth f (fst (forward tr v ems)) f0) (extend tr (nth s v f0) s ems ss) = true.
Proof.
  intros tr ems. induction ems as [|e er IH]; intros v f T E V F.
  - exists f, []. repeat split; auto. cbn [forward fst extend]. apply fle_refl, in01_nn. now apply row_in01.
  - pose proof (Forall_inv E) as E1. apply Forall_inv_tail in E.
    assert (V' : Forall in01 (step tr v e)) by (apply step_in01; auto; apply E1).
    destruct (IH (step tr v e) f T E V' F) as (s1 & ss & B & L & S1 & SS & Q).
    destruct (best_prev_spec tr v s1 T V) as (R1 & R2 & R3 & R4).
    exists (snd (best_prev tr v s1)), (s1 :: ss). rewrite forward_cons. cbn [fst snd]. rewrite backtrack_cons, B. cbn [hd].
    rewrite prevs_nth by auto. split; [reflexivity|]. split; [cbn [length]; lia|]. split; [exact R4|].
    split; [now constructor|]. cbn [extend]. refine (fle_trans _ _ _ Q _).
    pose proof (row_in01 e s1 (proj2 E1)) as I2.
    assert (I3 : in01 (fmul (nth (snd (best_prev tr v s1)) v f0) (trans tr (snd (best_prev tr v s1)) s1))).
    { apply in01_mul; [now apply row_in01|now apply trans_in01]. }
    apply extend_mono; auto; [now apply row_in01|now apply in01_mul|].
    rewrite step_nth by auto. apply mul01_mono; auto. apply fle_refl. now apply in01_nn.
Qed.

Definition start_row (e : list f32) : list f32 :=
  map (fun s => fmul (fdiv f1 (n2f num_states)) (nth s e f0)) (seq 0 num_states).
Lemma start_nth : forall e s, s < 5 -> nth s (start_row e) f0 = fmul (fdiv f1 (n2f 5)) (nth s e f0).
Proof. intros e s H. unfold start_row, num_states. do 5 (destruct s as [|s]; [reflexivity|]). lia. Qed.
Lemma start_in01 : forall e, Forall in01 e -> Forall in01 (start_row e).
Proof.
  intros e E. apply Forall_forall. intros x Hx. destruct (In_nth _ _ f0 Hx) as (s & L & <-).
  assert (s < 5) by (unfold start_row in L; rewrite map_length, seq_length in L; exact L).
  rewrite start_nth by auto. apply in01_mul; [apply in01_fifth|now apply row_in01].
Qed.
Lemma viterbi_cons : forall tr e er, viterbi tr (e :: er) =
  Ok (backtrack (snd (forward tr (start_row e) er)) (final_state (fst (forward tr (start_row e) er)))).
Proof. intros. unfold viterbi. fold (start_row e). destruct (forward tr (start_row e) er). reflexivity. Qed.

(** * The concrete transition matrix *)
Lemma matrix_table : prob_table build_transition_matrix.
Proof.
  assert (H : forallb (fun r => (length r =? 5) && forallb (fun x => fle f0 x && fle x f1) r) build_transition_matrix = true)
    by (vm_compute; reflexivity).
  apply Forall_forall. intros r Hr. apply (proj1 (forallb_forall _ _) H) in Hr. apply andb_prop in Hr.
  destruct Hr as (A & B). split; [now apply Nat.eqb_eq|]. apply Forall_forall. intros x Hx.
  apply (proj1 (forallb_forall _ _) B) in Hx. now apply andb_prop in Hx.
Qed.

Notation stay := (trans build_transition_matrix 0 0).
Lemma matrix_max : forall p s, p < 5 -> s < 5 -> fle (trans build_transition_matrix p s) stay = true.
Proof.
  assert (H : forallb (fun p => forallb (fun s => fle (trans build_transition_matrix p s) stay) (seq 0 5)) (seq 0 5) = true)
    by (vm_compute; reflexivity).
  intros p s P S. apply (proj1 (forallb_forall _ _) (proj1 (forallb_forall _ _) H p ltac:(apply in_seq; lia)) s).
  apply in_seq. lia.
Qed.
Lemma stay_in01 : in01 stay.
Proof. apply trans_in01, matrix_table. Qed.

(** * State-independent emissions: the first state always wins *)
Lemma run_keep : forall (f : nat -> f32) l b, (forall p, In p l -> fle (f p) (fst b) = true) ->
  fold_left (fun b p => let x := f p in if fgt x (fst b) then (x, p) else b) l b = b.
Proof.
  intros f l. induction l as [|p l IH]; intros b H; [reflexivity|]. cbn [fold_left]. cbv zeta.
  assert (G : fgt (f p) (fst b) = false) by (unfold fgt; apply fle_flt_false, H; now left).
  rewrite G. apply IH. intros q Hq. apply H. now right.
Qed.

Lemma zero_wins : forall (f : nat -> f32), (forall p, in01 (f p)) -> (forall p, p < 5 -> fle (f p) (f 0) = true) ->
  snd (fold_left (fun b p => let x := f p in if fgt x (fst b) then (x, p) else b) (seq 0 num_states) (f0, 0)) = 0.
Proof.
  intros f F D. change (seq 0 num_states) with (0 :: seq 1 4). cbn [fold_left]. cbv zeta. cbn [fst].
  assert (B : exists b, (if fgt (f 0) f0 then (f 0, 0) else (f0, 0)) = (b, 0) /\ fle (f 0) b = true).
  { destruct (fgt (f 0) f0) eqn:G.
    - exists (f 0). split; [reflexivity|]. apply fle_refl, in01_nn, F.
    - exists f0. split; [reflexivity|]. unfold fgt in G. fold (flt f0 (f 0)) in G.
      apply flt_false_fle in G; auto. apply in01_nn, F. }
  destruct B as (b & -> & L). rewrite run_keep; [reflexivity|]. intros p Hp. apply in_seq in Hp. cbn [fst].
  refine (fle_trans _ _ _ (D p _) L). lia.
Qed.

(** State 0 is at least as probable as any other. *)
Definition led (v : list f32) : Prop := forall s, s < 5 -> fle (nth s v f0) (nth 0 v f0) = true.
Definition flat (e : list f32) : Prop := forall s, s < 5 -> nth s e f0 = nth 0 e f0.
Notation M := build_transition_matrix.

Lemma led_prob : forall v p s, Forall in01 v -> led v -> p < 5 -> s < 5 ->
  fle (fmul (nth p v f0) (trans M p s)) (fmul (nth 0 v f0) stay) = true.
Proof.
  intros v p s V L P S. apply mul01_mono; try (now apply row_in01); try (apply trans_in01, matrix_table).
  - now apply L.
  - now apply matrix_max.
Qed.

Lemma led_prev : forall v, Forall in01 v -> led v -> snd (best_prev M v 0) = 0.
Proof.
  intros v V L. unfold best_prev. apply (zero_wins (fun p => fmul (nth p v f0) (trans M p 0))).
  - intros p. apply in01_mul; [now apply row_in01|apply trans_in01, matrix_table].
  - intros p P. apply led_prob; auto. lia.
Qed.

Lemma led_step : forall v e, Forall in01 v -> Forall in01 e -> led v -> flat e -> led (step M v e).
Proof.
  intros v e V E L F s S. rewrite !step_nth by lia. rewrite (F s S).
  destruct (best_prev_spec M v s matrix_table V) as (R1 & R2 & _ & R4).
  destruct (best_prev_spec M v 0 matrix_table V) as (Q1 & _ & Q3 & _).
  apply mul01_mono; auto; try (now apply row_in01); [|apply fle_refl, in01_nn; now apply row_in01].
  refine (fle_trans _ _ _ R2 _). refine (fle_trans _ _ _ _ (Q3 0 ltac:(lia))). now apply led_prob.
Qed.

Lemma led_final : forall v, Forall in01 v -> led v -> final_state v = 0.
Proof. intros v V L. unfold final_state. apply (zero_wins (fun p => nth p v f0)); auto. intros. now apply row_in01. Qed.

Lemma led_path : forall ems v, prob_table ems -> Forall flat ems -> Forall in01 v -> led v ->
  led (fst (forward M v ems)) /\ backtrack (snd (forward M v ems)) 0 = repeat 0 (S (length ems)).
Proof.
  intros ems. induction ems as [|e er IH]; intros v E F V L; [now split|].
  pose proof (Forall_inv E) as E1. apply Forall_inv_tail in E. pose proof (Forall_inv F) as F1. apply Forall_inv_tail in F.
  assert (V' : Forall in01 (step M v e)) by (apply step_in01; [apply matrix_table|exact V|apply E1]).
  destruct (IH (step M v e) E F V' (led_step v e V (proj2 E1) L F1)) as (I1 & I2).
  rewrite forward_cons. cbn [fst snd]. split; [exact I1|]. rewrite backtrack_cons, I2.
  cbn [length repeat hd]. f_equal. rewrite prevs_nth by lia. now apply led_prev.
Qed.

(** * Underflow *)
Fixpoint decay (n : nat) : f32 := match n with O => f1 | S n' => fmul (decay n') stay end.
Lemma decay_in01 : forall n, in01 (decay n).
Proof. intros n. induction n; [apply in01_1|]. cbn [decay]. apply in01_mul; auto. apply stay_in01. Qed.
Lemma decay_540 : fle (decay 540) (lit 1 (-148)) = true.
Proof. vm_compute. reflexivity. Qed.
Lemma decay_long : forall n, 540 <= n -> fle (decay n) (lit 1 (-148)) = true.
Proof.
  intros n H. induction H as [|n H IH]; [apply decay_540|]. cbn [decay].
  refine (fle_trans _ _ _ (mul01_le_l _ _ (decay_in01 n) stay_in01) IH).
Qed.

Lemma extend_decay : forall ems v s ss n, prob_table ems -> in01 v -> s < 5 -> Forall (fun s => s < 5) ss ->
  length ss = length ems -> fle v (decay n) = true -> fle (extend M v s ems ss) (decay (n + length ems)) = true.
Proof.
  intros ems. induction ems as [|e er IH]; intros v s ss n E V Ls SS L H; destruct ss as [|s' sr]; try discriminate L.
  - cbn [extend length]. now rewrite Nat.add_0_r.
  - cbn [extend length]. pose proof (Forall_inv E) as E1. apply Forall_inv_tail in E.
    pose proof (Forall_inv SS) as S1. apply Forall_inv_tail in SS.
    pose proof (trans_in01 M s s' matrix_table) as I1. pose proof (row_in01 e s' (proj2 E1)) as I2.
    replace (n + S (length er)) with (S n + length er) by lia.
    apply IH; auto; [repeat apply in01_mul; auto|].
    refine (fle_trans _ _ _ (mul01_le_l _ _ _ I2) _); [now apply in01_mul|]. cbn [decay].
    apply mul01_mono; auto; [apply decay_in01|apply stay_in01|now apply matrix_max].
Qed.

Lemma extend_app : forall tr a b v s sa sb, length sa = length a ->
  extend tr v s (a ++ b) (sa ++ sb) = extend tr (extend tr v s a sa) (last sa s) b sb.
Proof.
  intros tr a b. induction a as [|e a IH]; intros v s sa sb L; destruct sa as [|s' sa]; try discriminate L; [reflexivity|].
  cbn [app extend]. rewrite IH by (cbn in L; lia). f_equal.
  destruct sa; [reflexivity|]. change (last (n :: sa) s' = last (n :: sa) s). apply last_default. discriminate.
Qed.

Lemma extend_le : forall tr ems v s ss, prob_table tr -> prob_table ems -> in01 v -> fle (extend tr v s ems ss) v = true.
Proof.
  intros tr ems. induction ems as [|e er IH]; intros v s ss T E V; destruct ss as [|s' sr]; cbn [extend];
    try (apply fle_refl; now apply in01_nn).
  pose proof (Forall_inv E) as E1. apply Forall_inv_tail in E.
  pose proof (trans_in01 tr s s' T) as I1. pose proof (row_in01 e s' (proj2 E1)) as I2.
  assert (I3 : in01 (fmul v (trans tr s s'))) by now apply in01_mul.
  refine (fle_trans _ _ _ (IH _ _ _ T E _) _); [now apply in01_mul|].
  exact (fle_trans _ _ _ (mul01_le_l _ _ I3 I2) (mul01_le_l _ _ V I1)).
Qed.

(** * Beats *)
Lemma nearest_spec : forall onsets t m, nneg m ->
  let r := fold_left (fun m o => let d := fabs (fsub o t) in if flt d m then d else m) onsets m in
  nneg r /\ fle r m = true /\ (r = m \/ exists o, In o onsets /\ r = fabs (fsub o t)) /\
  (forall o, In o onsets -> nn (fsub o t) -> fle r (fabs (fsub o t)) = true).
Proof.
  intros onsets t. induction onsets as [|o os IH]; intros m Hm; cbn [fold_left].
  - cbv zeta. split; [exact Hm|]. split; [apply fle_refl; now apply nneg_nn|]. split; [now left|]. intros o [].
  - cbv zeta in *. destruct (flt (fabs (fsub o t)) m) eqn:L.
    + pose proof (flt_nn _ _ L) as (Nd & _). assert (N2 : nn (fsub o t)) by (now rewrite fabs_nn in Nd).
      destruct (IH (fabs (fsub o t)) (fabs_nneg _ N2)) as (A & B & C & D). set (r := fold_left _ _ _) in *. clearbody r.
      split; [exact A|]. split; [exact (fle_trans _ _ _ B (flt_fle _ _ L))|]. split.
      * right. destruct C as [->|(o' & H1 & H2)]; [exists o; split; [now left|reflexivity]|exists o'; split; [now right|exact H2]].
      * intros o' [<-|H] N'; [exact B|now apply D].
    + destruct (IH m Hm) as (A & B & C & D). set (r := fold_left _ _ _) in *. clearbody r.
      split; [exact A|]. split; [exact B|]. split.
      * destruct C as [->|(o' & H1 & H2)]; [now left|right; exists o'; split; [now right|exact H2]].
      * intros o' [<-|H] N'; [|now apply D].
        apply flt_false_fle in L; [exact (fle_trans _ _ _ B L)|now rewrite fabs_nn|now apply nneg_nn].
Qed.

Lemma nearest_nneg : forall onsets t, nneg (nearest onsets t).
Proof. intros. apply (nearest_spec onsets t finf). reflexivity. Qed.

(** The exponent. *)
Definition exponent (onsets : list f32) (t : f32) : f32 :=
  fdiv (fneg (fmul (nearest onsets t) (nearest onsets t))) (fmul f2 (fmul emission_sigma emission_sigma)).

Lemma emission_ok : forall exp onsets t, emission exp onsets t = Ok (exp (exponent onsets t)).
Proof.
  intros. unfold emission. replace (fle _ eps10) with false by (vm_compute; reflexivity). reflexivity.
Qed.

Lemma sq_nneg : forall d, nneg d -> nneg (fmul d d).
Proof.
  intros d H. apply fmul_nneg; auto. destruct (nneg_cases d H) as [(F & _)| ->]; [|reflexivity].
  now destruct (fmul_fx d d F F).
Qed.

Definition two_sigma_sq : f32 := fmul f2 (fmul emission_sigma emission_sigma).
Lemma two_sigma_pos : pos two_sigma_sq.
Proof. vm_compute. reflexivity. Qed.
Lemma two_sigma_fin : fin two_sigma_sq.
Proof. vm_compute. reflexivity. Qed.

(** Division by a positive finite number keeps order and NaN-freedom. *)
Lemma fdiv_nn_pos : forall x y, nn x -> fin y -> pos y -> nn (fdiv x y).
Proof.
  intros x y N F P. destruct (nn_cases x N) as [Fx|[-> | ->]]; [now apply fdiv_nn_fin| |];
    destruct y as [sy|sy| |sy my ey ey']; try discriminate F; try reflexivity; destruct sy; discriminate P.
Qed.

Lemma exponent_le : forall onsets t, fle (exponent onsets t) f0 = true.
Proof.
  intros. unfold exponent. fold two_sigma_sq. pose proof (sq_nneg _ (nearest_nneg onsets t)) as Q.
  set (q := fmul (nearest onsets t) _) in *. clearbody q.
  assert (N : nn (fneg q)) by (rewrite fneg_nn; now apply nneg_nn).
  assert (L : fle (fneg q) f0 = true).
  { apply fle_intro; auto. rewrite fneg_fx, fx_f0. apply nneg_fx in Q. lra. }
  assert (Z : fle (fdiv f0 two_sigma_sq) f0 = true) by (vm_compute; reflexivity).
  refine (fle_trans _ _ _ _ Z). apply fdiv_mono_l; auto using two_sigma_pos.
  apply fdiv_nn_pos; auto using two_sigma_fin, two_sigma_pos.
Qed.
