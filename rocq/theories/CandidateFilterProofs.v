(** Lemmas on candidate merging and selection. *)
From Coq Require Import ZArith Bool List Arith Lia Sorted Permutation Reals Lra Psatz.
From Flocq Require Import Core IEEE754.BinarySingleNaN.
From Verif Require Import Rust F32 F32Facts F32More ListFacts Sorting SortingFacts PeakPicking Candidate
  AutocorrelationProofs CombFilterProofs CandidateFilter.
Import ListNotations.

(** ** The ranking comparator *)
Lemma sat_abs_lt : forall r t, (0 < t < big)%R -> ((Rabs (sat r) < t)%R <-> (Rabs r < t)%R).
Proof.
  intros r t T. unfold sat. pose proof big_pos.
  destruct (Rle_dec big r).
  - rewrite Rmin_left, Rmax_right by lra. rewrite !Rabs_pos_eq by lra. lra.
  - rewrite Rmin_right by lra. destruct (Rle_dec r (- big)).
    + rewrite Rmax_left by lra. rewrite !Rabs_left by lra. lra.
    + rewrite Rmax_right by lra. tauto.
Qed.

Lemma within_iff : forall x y t, fin t -> pos t -> (within x y t = true <->
  fin x /\ fin y /\ (Rabs (rnd (B2R x - B2R y)) < B2R t)%R).
Proof.
  intros x y t Ft Pt. unfold within. assert (T : (0 < B2R t < big)%R) by (pose proof (B2R_pos t Ft Pt); pose proof (B2R_lt t); lra).
  split.
  - intros H. destruct (flt_nn _ _ H) as (N & _). rewrite fabs_nn in N.
    assert (Fs : fin x /\ fin y).
    { destruct x as [[]|[]| |[]], y as [[]|[]| |[]]; try discriminate N; try (split; reflexivity);
      destruct t as [[]|[]| |[]]; discriminate. }
    destruct Fs as (F1 & F2). repeat split; auto. destruct (fsub_fx x y F1 F2) as (_ & E).
    apply flt_fx in H. rewrite fabs_fx, E in H by auto. rewrite (fx_fin t) in H by auto. exact (proj1 (sat_abs_lt _ _ T) H).
  - intros (F1 & F2 & H). destruct (fsub_fx x y F1 F2) as (N & E).
    apply flt_intro; [now rewrite fabs_nn|now apply fin_nn|]. rewrite fabs_fx, E by auto. rewrite (fx_fin t) by auto.
    now apply sat_abs_lt.
Qed.

Definition eclose (a b : f32) : bool := within a b fhalf.
Lemma eclose_iff : forall x y, eclose x y = true <-> fin x /\ fin y /\ (Rabs (rnd (B2R x - B2R y)) < / 2)%R.
Proof. intros x y. unfold eclose. rewrite within_iff by reflexivity. now rewrite B2R_fhalf. Qed.
Lemma eclose_sym : forall x y, eclose x y = eclose y x.
Proof.
  intros x y. apply eq_true_iff_eq. rewrite !eclose_iff.
  replace (B2R x - B2R y)%R with (- (B2R y - B2R x))%R by lra. rewrite rnd_opp, Rabs_Ropp. tauto.
Qed.
Lemma eclose_between : forall x y z, nn y -> (fx x <= fx y <= fx z)%R -> eclose x z = true ->
  eclose x y = true /\ eclose y z = true.
Proof.
  intros x y z Ny (A & B) H. apply eclose_iff in H as (F1 & F2 & H).
  rewrite (fx_fin x), (fx_fin z) in * by auto.
  assert (Fy : fin y) by (apply fin_iff; auto; pose proof (B2R_lt x); pose proof (B2R_lt z); lra).
  rewrite (fx_fin y) in * by auto.
  assert (L : (rnd (B2R x - B2R z) <= rnd (B2R x - B2R y))%R) by (apply rnd_mono; lra).
  assert (L2 : (rnd (B2R x - B2R z) <= rnd (B2R y - B2R z))%R) by (apply rnd_mono; lra).
  assert (L3 : (rnd (B2R x - B2R y) <= 0)%R) by (rewrite <- rnd_0; apply rnd_mono; lra).
  assert (L4 : (rnd (B2R y - B2R z) <= 0)%R) by (rewrite <- rnd_0; apply rnd_mono; lra).
  apply Rabs_def2 in H. rewrite !eclose_iff. repeat split; auto; rewrite Rabs_left1; lra.
Qed.
Lemma eclose_refl : forall x y, nn x -> nn y -> fx x = fx y -> fin x -> eclose x y = true.
Proof.
  intros x y Nx Ny E F. assert (Fy : fin y) by (apply fin_iff; auto; rewrite <- E; now apply fin_iff).
  apply eclose_iff. repeat split; auto. rewrite !fx_fin in E by auto. rewrite E.
  replace (B2R y - B2R y)%R with 0%R by lra. rewrite rnd_0, Rabs_R0. lra.
Qed.

Lemma effective_nn : forall e, nn (e_conf e) -> nn (effective e).
Proof.
  intros e N. unfold effective. destruct (reasonable _); auto.
  destruct (nn_cases _ N) as [F|[->| ->]]; [|reflexivity|reflexivity]. now apply fmul_fx.
Qed.

(** Higher effective confidence, ties by agreement. *)
Definition lexle (a b : estimate) : Prop :=
  (fx (effective b) < fx (effective a))%R \/
  (fx (effective b) = fx (effective a) /\ e_agree b <= e_agree a).

Lemma fcmp_lex : forall a b, nn (effective a) -> nn (effective b) ->
  (match fcmp (effective b) (effective a) with Eq => Nat.compare (e_agree b) (e_agree a) | c => c end <> Gt) <-> lexle a b.
Proof.
  intros a b Na Nb. unfold fcmp, lexle.
  destruct (flt (effective b) (effective a)) eqn:L1.
  - apply flt_fx in L1. split; [left; lra|discriminate].
  - destruct (flt (effective a) (effective b)) eqn:L2.
    + apply flt_fx in L2. split; [congruence|]. intros [|(? & _)]; lra.
    + apply flt_false_fle in L1; auto. apply flt_false_fle in L2; auto. apply fle_fx in L1, L2.
      rewrite Nat.compare_gt_iff. split; [right; split; [lra|lia]|]. intros [|(? & ?)]; [lra|lia].
Qed.

Lemma rank_iff : forall a b, nn (e_conf a) -> nn (e_conf b) ->
  (rank_cmp a b <> Gt <->
   match reasonable (e_bpm a), reasonable (e_bpm b) with
   | true, false => eclose (effective a) (effective b) = true \/ lexle a b
   | false, true => eclose (effective a) (effective b) = false /\ lexle a b
   | _, _ => lexle a b
   end).
Proof.
  intros a b Na Nb. pose proof (fcmp_lex a b (effective_nn _ Na) (effective_nn _ Nb)) as F.
  unfold rank_cmp. fold (eclose (effective a) (effective b)).
  destruct (reasonable (e_bpm a)) eqn:Ra, (reasonable (e_bpm b)) eqn:Rb; cbn [andb negb];
    rewrite ?andb_false_r, ?andb_true_r; auto.
  - destruct (eclose _ _); [split; [auto|discriminate]|]. rewrite F. intuition congruence.
  - destruct (eclose _ _); [split; [congruence|intros []; congruence]|]. rewrite F. intuition congruence.
Qed.

Lemma lexle_trans : forall a b c, lexle a b -> lexle b c -> lexle a c.
Proof. unfold lexle. intros a b c [H|(H & G)] [H'|(H' & G')]; try (left; lra). right. split; [lra|lia]. Qed.
Lemma lexle_ge : forall a b, lexle a b -> (fx (effective b) <= fx (effective a))%R.
Proof. unfold lexle. intros a b [|(? & _)]; lra. Qed.
Lemma lexle_total : forall a b, lexle a b \/ lexle b a.
Proof. unfold lexle. intros a b. destruct (Rtotal_order (fx (effective a)) (fx (effective b))) as [H|[H|H]]; auto.
  destruct (Nat.le_ge_cases (e_agree a) (e_agree b)); auto. Qed.

Lemma rank_trans : forall a b c, nn (e_conf a) -> nn (e_conf b) -> nn (e_conf c) ->
  rank_cmp a b <> Gt -> rank_cmp b c <> Gt -> rank_cmp a c <> Gt.
Proof.
  intros a b c Na Nb Nc. rewrite !rank_iff by auto.
  pose proof (effective_nn _ Na) as Ea. pose proof (effective_nn _ Nb) as Eb. pose proof (effective_nn _ Nc) as Ec.
  pose proof (lexle_trans a b c) as T. pose proof (lexle_ge a b) as G1. pose proof (lexle_ge b c) as G2.
  pose proof (lexle_ge c a) as G3. pose proof (lexle_ge b a) as G4. pose proof (lexle_ge c b) as G5.
  pose proof (lexle_total a c) as T1. pose proof (lexle_total a b) as T2. pose proof (lexle_total b c) as T3.
  pose proof (eclose_between (effective b) (effective a) (effective c) Ea) as B1.
  pose proof (eclose_between (effective a) (effective c) (effective b) Ec) as B2.
  pose proof (eclose_between (effective c) (effective b) (effective a) Eb) as B3.
  rewrite (eclose_sym (effective b) (effective a)) in *. rewrite (eclose_sym (effective c) (effective b)) in *.
  rewrite (eclose_sym (effective c) (effective a)) in *.
  destruct (reasonable (e_bpm a)), (reasonable (e_bpm b)), (reasonable (e_bpm c)); auto.
  - intros L [C|C]; [|tauto]. destruct T1 as [T1|T1]; auto. left. apply B1; auto.
  - intros [C|C] (C' & L); [|tauto]. destruct T1 as [T1|T1]; auto. destruct (B2 (conj (G3 T1) (G2 L)) C). congruence.
  - intros [C|C] L; [|tauto]. destruct T1 as [T1|T1]; auto. left. apply B2; auto.
  - intros (C & L) L'. split; auto. destruct (eclose (effective a) (effective c)) eqn:D; auto.
    destruct (B3 (conj (G2 L') (G1 L)) eq_refl). congruence.
  - intros (C & L) [C'|L']; [|tauto]. destruct T1 as [T1|T1]; auto. destruct (B1 (conj (G1 L) (G3 T1)) C'). congruence.
  - intros L (C & L'). split; auto. destruct (eclose (effective a) (effective c)) eqn:D; auto.
    destruct (B3 (conj (G2 L') (G1 L)) eq_refl). congruence.
Qed.

Lemma fcmp_opp : forall x y, nn x -> nn y -> fcmp y x = CompOpp (fcmp x y).
Proof.
  intros x y Nx Ny. unfold fcmp. destruct (flt x y) eqn:A, (flt y x) eqn:B; auto.
  apply flt_asym in A. congruence.
Qed.
Lemma rank_opp : forall a b, nn (e_conf a) -> nn (e_conf b) -> rank_cmp b a = CompOpp (rank_cmp a b).
Proof.
  intros a b Na Nb. unfold rank_cmp. fold (eclose (effective a) (effective b)). fold (eclose (effective b) (effective a)).
  rewrite (eclose_sym (effective b)). rewrite (fcmp_opp (effective b) (effective a)) by now apply effective_nn.
  rewrite (Nat.compare_antisym (e_agree b)).
  destruct (eclose _ _), (reasonable (e_bpm a)), (reasonable (e_bpm b)); cbn [andb negb]; auto;
    now destruct (fcmp (effective b) (effective a)).
Qed.

(** ** Conservation *)
Lemma add_to_groups_count : forall c gs,
  list_sum (map g_count (add_to_groups gs c)) = S (list_sum (map g_count gs)) /\
  (Forall (fun g => 1 <= g_count g) gs -> Forall (fun g => 1 <= g_count g) (add_to_groups gs c)).
Proof.
  intros c. induction gs as [|g gs (IH1 & IH2)]; cbn [add_to_groups].
  - split; [reflexivity|]. intros _. constructor; cbn; auto.
  - destruct (fle _ _).
    + split; [cbn; lia|]. intros H. inversion H; subst. constructor; auto. cbn. lia.
    + split; [cbn [map list_sum fold_right] in *; unfold list_sum in *; lia|]. intros H. inversion H; subst. auto.
Qed.
Lemma make_groups_count : forall cs, list_sum (map g_count (make_groups cs)) = length cs /\
  Forall (fun g => 1 <= g_count g) (make_groups cs).
Proof.
  assert (G : forall cs gs, Forall (fun g => 1 <= g_count g) gs ->
    list_sum (map g_count (fold_left add_to_groups cs gs)) = list_sum (map g_count gs) + length cs /\
    Forall (fun g => 1 <= g_count g) (fold_left add_to_groups cs gs)).
  { induction cs as [|c cs IH]; intros gs H; cbn [fold_left length]; [split; [lia|auto]|].
    destruct (add_to_groups_count c gs) as (A & B). destruct (IH _ (B H)) as (C & D). split; auto. lia. }
  intros cs. apply (G cs []). constructor.
Qed.

Lemma double_first_map : forall A (f : estimate -> A) l,
  (forall b c k c', f (mkEst b c k) = f (mkEst b c' k)) -> map f (double_first l) = map f l.
Proof.
  intros A f l H. induction l as [|[b c k] r IH]; auto. cbn [double_first e_bpm e_conf e_agree].
  destruct (reasonable b); cbn [map]; [f_equal; auto|now rewrite IH].
Qed.
Lemma safety_map : forall A (f : estimate -> A) l,
  (forall b c k c', f (mkEst b c k) = f (mkEst b c' k)) -> map f (safety_boost l) = map f l.
Proof. intros A f l H. unfold safety_boost. destruct (existsb _ _); auto. now apply double_first_map. Qed.

(** The estimates before sorting carry the BPM and count of the groups. *)
Definition bk (e : estimate) := (e_bpm e, e_agree e).
Lemma merge_perm : forall exp2 ac comb cents,
  Permutation (map (fun g => (g_bpm g, g_count g)) (make_groups (grouped exp2 ac comb cents)))
              (map bk (merge exp2 ac comb cents)).
Proof.
  intros exp2 ac comb cents. unfold merge, grouped.
  destruct ac as [|a ac]; [destruct comb as [|c comb]|].
  - reflexivity.
  - eapply perm_trans; [|apply Permutation_map, sort_by_perm].
    rewrite safety_map, !map_map by reflexivity. reflexivity.
  - eapply perm_trans; [|apply Permutation_map, sort_by_perm].
    rewrite safety_map, !map_map by reflexivity. reflexivity.
Qed.

Lemma merge_sum : forall exp2 ac comb cents,
  list_sum (map e_agree (merge exp2 ac comb cents)) = length (grouped exp2 ac comb cents) /\
  Forall (fun e => 1 <= e_agree e) (merge exp2 ac comb cents).
Proof.
  intros exp2 ac comb cents. pose proof (merge_perm exp2 ac comb cents) as P.
  destruct (make_groups_count (grouped exp2 ac comb cents)) as (S & F).
  pose proof (Permutation_map snd P) as Q. rewrite !map_map in Q. cbn [snd bk] in Q. split.
  - rewrite <- S. symmetry.
    assert (L : forall l m, Permutation l m -> list_sum l = list_sum m).
    { intros l m H. induction H; unfold list_sum in *; cbn [fold_right] in *; lia. }
    apply L. exact Q.
  - apply Forall_map. eapply Permutation_Forall; [exact Q|]. now apply Forall_map.
Qed.

Lemma fix_double_in : forall tol b cs, fix_double tol b cs = b \/ exists c, In c cs /\ fix_double tol b cs = c_bpm c.
Proof.
  intros tol b. induction cs as [|c cs [IH|(x & I & E)]]; cbn [fix_double]; auto; destruct (_ && _); eauto using in_eq, in_cons.
Qed.
Lemma fix_half_in : forall tol b cs, fix_half tol b cs = b \/ exists c, In c cs /\ fix_half tol b cs = c_bpm c.
Proof.
  intros tol b. induction cs as [|c cs [IH|(x & I & E)]]; cbn [fix_half]; auto; destruct (_ && _); eauto using in_eq, in_cons.
Qed.

Lemma limit_spec : forall ac, exists extra, limit_autocorr ac = firstn 10 ac ++ extra /\
  incl extra ac /\ Forall (fun c => reasonable (c_bpm c) = true) extra /\
  (forall c, In c ac -> reasonable (c_bpm c) = true ->
     exists x, In x (limit_autocorr ac) /\ within (c_bpm x) (c_bpm c) f1 = true) /\
  (forall i j x y, i < j -> nth_error (limit_autocorr ac) i = Some x -> nth_error (limit_autocorr ac) j = Some y ->
     length (firstn 10 ac) <= j -> within (c_bpm x) (c_bpm y) f1 = false).
Proof.
  intros ac. unfold limit_autocorr. set (base := firstn 10 ac).
  assert (Self : forall c, reasonable (c_bpm c) = true -> within (c_bpm c) (c_bpm c) f1 = true).
  { intros c R. unfold reasonable, fge in R. apply andb_true_iff in R as (R1 & R2).
    assert (F : fin (c_bpm c)) by (apply (fin_between (z2f 60) _ (z2f 180)); auto).
    apply within_iff; try reflexivity. repeat split; auto.
    replace (B2R (c_bpm c) - B2R (c_bpm c))%R with 0%R by lra. rewrite rnd_0, Rabs_R0, B2R_f1. lra. }
  assert (G : forall l pre, incl l ac ->
    (exists ex, pre = base ++ ex /\ incl ex ac /\ Forall (fun c => reasonable (c_bpm c) = true) ex) ->
    (forall i j x y, i < j -> nth_error pre i = Some x -> nth_error pre j = Some y ->
       length base <= j -> within (c_bpm x) (c_bpm y) f1 = false) ->
    (exists ex, fold_left add_reasonable l pre = base ++ ex /\ incl ex ac /\ Forall (fun c => reasonable (c_bpm c) = true) ex) /\
    (forall i j x y, i < j -> nth_error (fold_left add_reasonable l pre) i = Some x ->
       nth_error (fold_left add_reasonable l pre) j = Some y -> length base <= j -> within (c_bpm x) (c_bpm y) f1 = false) /\
    incl pre (fold_left add_reasonable l pre) /\
    (forall c, In c l -> reasonable (c_bpm c) = true -> exists x, In x (fold_left add_reasonable l pre) /\ within (c_bpm x) (c_bpm c) f1 = true)).
  { induction l as [|c l IH]; intros pre Hl (ex & E1 & E2 & E3) Hs; cbn [fold_left].
    - split; [eauto|]. split; auto. split; [apply incl_refl|]. intros c [].
    - assert (Hc : In c ac) by (apply Hl; left; auto). assert (Hl' : incl l ac) by (intros x I; apply Hl; right; auto).
      unfold add_reasonable at 2 4 6 8 10. unfold add_reasonable at 1.
      destruct (reasonable (c_bpm c)) eqn:R; [|cbn [andb]].
      + destruct (existsb (fun x => within (c_bpm x) (c_bpm c) f1) pre) eqn:Ex; cbn [andb negb].
        * destruct (IH pre Hl') as (A & B & C & D); eauto. split; auto. split; auto. split; auto.
          intros d [<-|I] Rd; auto. apply existsb_exists in Ex as (x & Ix & W). eauto.
        * destruct (IH (pre ++ [c]) Hl') as (A & B & C & D).
          { exists (ex ++ [c]). rewrite E1, app_assoc. split; auto. split.
            - apply incl_app; auto. intros x [<-|[]]; auto.
            - apply Forall_app. split; auto. }
          { intros i j x y Hij Ni Nj Lj.
            assert (j < length (pre ++ [c])) by (apply nth_error_Some; congruence). rewrite app_length in H; cbn in H.
            rewrite nth_error_app1 in Ni by lia.
            destruct (Nat.eq_dec j (length pre)) as [->|].
            - rewrite nth_error_app2, Nat.sub_diag in Nj by lia. injection Nj as <-.
              destruct (within (c_bpm x) (c_bpm c) f1) eqn:W; auto.
              rewrite <- Ex. symmetry. apply existsb_exists. exists x. split; auto. eapply nth_error_In; eauto.
            - rewrite nth_error_app1 in Nj by lia. eauto. }
          split; auto. split; auto. split.
          { intros x I. apply C. apply in_or_app; auto. }
          { intros d [<-|I] Rd; auto. exists c. split; auto. apply C. apply in_or_app. right. left. auto. }
      + destruct (IH pre Hl') as (A & B & C & D); eauto. split; auto. split; auto. split; auto.
        intros d [<-|I] Rd; auto. congruence. }
  destruct (G ac base (incl_refl _)) as ((ex & E1 & E2 & E3) & B & _ & D).
  - exists []. rewrite app_nil_r. split; auto. split; [intros x []|constructor].
  - intros i j x y Hij Ni Nj Lj. assert (j < length base) by (apply nth_error_Some; congruence). lia.
  - exists ex. auto.
Qed.

(** ** Confidence *)
Definition nnegN (x : f32) : Prop := nn x -> nneg x.
Lemma nnegN_min1 : forall x, nnegN x -> in01 (fmin x f1).
Proof.
  intros x H. split.
  - apply fmin_glb; auto.
  - apply fmin_le_r. reflexivity.
Qed.
Lemma nnegN_div : forall x y, nnegN x -> (nn y -> pos y) -> nnegN (fdiv x y).
Proof.
  intros x y Hx Hy N. destruct (is_nan x) eqn:Nx; [destruct x; discriminate|]. destruct (is_nan y) eqn:Ny; [destruct y; try discriminate; destruct x; discriminate|].
  apply fdiv_nneg; auto.
Qed.
Lemma nnegN_add : forall x y, nnegN x -> nnegN y -> nnegN (fadd x y).
Proof. intros x y Hx Hy N. destruct (fadd_nan_l _ _ N). apply fadd_nneg; auto. Qed.
Lemma nnegN_mul : forall x y, nnegN x -> nnegN y -> nnegN (fmul x y).
Proof. intros x y Hx Hy N. destruct (fmul_nan_inv _ _ N). apply fmul_nneg; auto. Qed.

Lemma groups_conf : forall cs, Forall (fun c => in01 (c_conf c)) cs ->
  Forall (fun g => nneg (g_total g) /\ in01 (g_max g) /\ 1 <= g_count g) (make_groups cs).
Proof.
  intros cs H. unfold make_groups.
  assert (G : forall cs gs, Forall (fun c => in01 (c_conf c)) cs ->
    Forall (fun g => nneg (g_total g) /\ in01 (g_max g) /\ 1 <= g_count g) gs ->
    Forall (fun g => nneg (g_total g) /\ in01 (g_max g) /\ 1 <= g_count g) (fold_left add_to_groups cs gs)); [|apply G; auto].
  clear. induction cs as [|c cs IH]; intros gs H Hg; auto. inversion H as [|? ? Hc Hcs]; subst. cbn [fold_left]. apply IH; auto.
  clear IH Hcs H. induction gs as [|g gs IH]; cbn [add_to_groups].
  - repeat constructor; cbn; apply Hc.
  - inversion Hg as [|? ? (T & M & K) Hg']; subst. destruct (fle (fabs _) _); constructor; auto.
    cbn. split; [apply fadd_nneg; auto; apply Hc|]. split; [now apply in01_max|lia].
Qed.

Lemma to_estimate_conf : forall dis g, nneg (g_total g) -> in01 (g_max g) -> 1 <= g_count g ->
  in01 (e_conf (to_estimate dis g)).
Proof.
  intros dis g T M K. unfold to_estimate. cbn [e_conf].
  assert (C : in01 (if 2 <=? g_count g then
      fmin (fmul (fdiv (fadd (fdiv (g_total g) (n2f (g_count g))) (g_max g)) f2) (lit 5033165 (-22))) f1
    else fmin (g_total g) f1)).
  { destruct (2 <=? g_count g); apply nnegN_min1; [|intros _; exact T].
    apply nnegN_mul; [|intros _; reflexivity]. apply nnegN_div; [|intros _; reflexivity].
    apply nnegN_add; [|intros _; apply M]. apply nnegN_div; [intros _; exact T|].
    intros _. apply n2f_pos. lia. }
  destruct (dis && _); auto. apply in01_mul; auto. split; reflexivity.
Qed.

(** Confidences in [0, b]. *)
Definition in0b (b x : f32) : Prop := fle f0 x = true /\ fle x b = true.
Lemma in0b_mul : forall b x m, in0b b x -> fin b -> fin m -> nneg m -> fin (fmul b m) -> in0b (fmul b m) (fmul x m).
Proof.
  intros b x m (A & B) Fb Fm Nm Fbm. assert (Fx : fin x) by (apply (fin_between f0 _ b); auto). split.
  - apply fmul_nneg_fin; auto.
  - apply fmul_mono; auto using fin_nn, fle_refl. now apply fmul_fx.
Qed.
Lemma in0b_le : forall b b' x, in0b b x -> fle b b' = true -> in0b b' x.
Proof. intros b b' x (A & B) L. split; auto. eapply fle_trans; eauto. Qed.

Definition boost1 : f32 := fmul (fmul f1 (lit 3 (-1))) (lit 11744051 (-23)).
Lemma boost_conf : forall a c e, in01 (e_conf e) -> in0b boost1 (e_conf (boost a c e)).
Proof.
  intros a c e H. unfold boost. cbn [e_conf].
  assert (G : forall b1 b2 b3 : bool, in0b boost1
    (if b3 then fmul (if b1 then fmul (e_conf e) (lit 3 (-1)) else if b2 then fmul (e_conf e) (lit 5452595 (-22)) else e_conf e) (lit 11744051 (-23))
     else if b1 then fmul (e_conf e) (lit 3 (-1)) else if b2 then fmul (e_conf e) (lit 5452595 (-22)) else e_conf e)); [|apply G].
  intros b1 b2 b3.
  assert (C1 : in0b (fmul f1 (lit 3 (-1))) (if b1 then fmul (e_conf e) (lit 3 (-1)) else if b2 then fmul (e_conf e) (lit 5452595 (-22)) else e_conf e)).
  { destruct b1; [apply in0b_mul; auto; reflexivity|].
    destruct b2; [|eapply in0b_le; [exact H|reflexivity]].
    eapply in0b_le; [apply (in0b_mul f1 (e_conf e) (lit 5452595 (-22))); auto; reflexivity|]. vm_compute. reflexivity. }
  destruct b3; [apply in0b_mul; auto; reflexivity|]. eapply in0b_le; [exact C1|]. vm_compute. reflexivity.
Qed.
Lemma safety_conf : forall b l, fin b -> fin (fmul b f2) -> fle b (fmul b f2) = true ->
  Forall (fun e => in0b b (e_conf e)) l -> Forall (fun e => in0b (fmul b f2) (e_conf e)) (safety_boost l).
Proof.
  intros b l Fb F2 L H. unfold safety_boost.
  assert (W : Forall (fun e => in0b (fmul b f2) (e_conf e)) l)
    by (eapply Forall_impl; [|exact H]; intros e He; eapply in0b_le; [exact He|exact L]).
  destruct (existsb _ _); auto. clear - H W Fb F2.
  induction l as [|e r IH]; cbn [double_first]; auto. inversion H; inversion W; subst.
  destruct (reasonable _); constructor; auto. cbn. apply in0b_mul; auto; reflexivity.
Qed.

Lemma in_app_firstn : forall A (P : A -> Prop) n l, Forall P l -> Forall P (firstn n l).
Proof. intros A P n l H. rewrite <- (firstn_skipn n l) in H. now apply Forall_app in H. Qed.

Lemma correct_conf : forall r ac comb, Forall (fun c => in01 (c_conf c)) ac ->
  Forall (fun c => in01 (c_conf c)) (correct_octaves r ac comb).
Proof. intros. unfold correct_octaves. rewrite Forall_map. now cbn. Qed.
Lemma limit_incl : forall ac c, In c (limit_autocorr ac) -> In c ac.
Proof.
  intros ac c H. destruct (limit_spec ac) as (ex & E & I & _). rewrite E in H. apply in_app_or in H as [H|H]; auto.
  rewrite <- (firstn_skipn 10 ac). apply in_or_app; auto.
Qed.

Lemma merge_conf : forall exp2 ac comb cents,
  Forall (fun c => in01 (c_conf c)) ac -> Forall (fun c => in01 (c_conf c)) comb ->
  Forall (fun e => in0b (fmul boost1 f2) (e_conf e)) (merge exp2 ac comb cents).
Proof.
  intros exp2 ac comb cents Ha Hc. unfold merge.
  set (ac' := correct_octaves _ ac comb).
  assert (Ha' : Forall (fun c => in01 (c_conf c)) ac') by now apply correct_conf.
  assert (G : Forall (fun c => in01 (c_conf c)) (limit_autocorr ac' ++ firstn 10 comb)).
  { apply Forall_app. split; [|now apply in_app_firstn]. rewrite Forall_forall in *. intros c I. apply Ha', limit_incl, I. }
  apply groups_conf in G.
  assert (R : Forall (fun e => in0b (fmul boost1 f2) (e_conf e)) (sort_by rank_leb (safety_boost (map (boost (firstn 5 (limit_autocorr ac')) (firstn 5 (firstn 10 comb)))
    (map (to_estimate (disagreement ac' comb)) (make_groups (limit_autocorr ac' ++ firstn 10 comb))))))).
  { apply sort_by_Forall. apply safety_conf; try reflexivity.
    rewrite !Forall_map. eapply Forall_impl; [|exact G]. intros g (T & M & K). apply boost_conf, to_estimate_conf; auto. }
  destruct ac; [destruct comb|]; auto.
Qed.

(** ** Number of candidates *)
Lemma reasonable_fin : forall b, reasonable b = true -> fin b /\ (60 <= B2R b <= 180)%R.
Proof.
  intros b R. unfold reasonable, fge in R. apply andb_true_iff in R as (R1 & R2).
  assert (F : fin b) by (apply (fin_between (z2f 60) _ (z2f 180)); auto). split; auto.
  apply fle_fx in R1, R2. rewrite (fx_fin b) in * by auto.
  destruct (z2f_exact 60 ltac:(lia)) as (F1 & E1). destruct (z2f_exact 180 ltac:(lia)) as (F2 & E2).
  rewrite (fx_fin (z2f 60)), E1 in R1 by auto. rewrite (fx_fin (z2f 180)), E2 in R2 by auto. lra.
Qed.

Lemma limit_length : forall ac, length (limit_autocorr ac) <= 251.
Proof.
  intros ac. destruct (limit_spec ac) as (ex & E & _ & R & _ & S). rewrite E in *. rewrite app_length.
  assert (length (firstn 10 ac) <= 10) by (rewrite firstn_length; lia).
  set (f := fun c => Zfloor (2 * B2R (c_bpm c))).
  assert (ND : NoDup (map f ex)).
  { apply (proj2 (NoDup_nth_error _)). intros i j Hi Ej. rewrite map_length in Hi.
    rewrite !nth_error_map in Ej. destruct (nth_error ex i) as [x|] eqn:Ni; [|apply nth_error_None in Ni; lia].
    destruct (nth_error ex j) as [y|] eqn:Nj; [|discriminate]. cbn [option_map] in Ej. assert (Ef : f x = f y) by congruence. clear Ej.
    assert (W : forall i j x y, i < j -> nth_error ex i = Some x -> nth_error ex j = Some y -> f x = f y -> False).
    { clear - S R. intros i j x y Hij Ni Nj Ef. set (b := length (firstn 10 ac)) in *.
      specialize (S (b + i) (b + j) x y ltac:(lia)). rewrite !nth_error_app2 in S by (fold b; lia).
      fold b in S. replace (b + i - b) with i in S by lia. replace (b + j - b) with j in S by lia.
      specialize (S Ni Nj ltac:(lia)). assert (T : within (c_bpm x) (c_bpm y) f1 = true); [|congruence].
      rewrite Forall_forall in R. destruct (reasonable_fin _ (R x (nth_error_In _ _ Ni))) as (Fx & _).
      destruct (reasonable_fin _ (R y (nth_error_In _ _ Nj))) as (Fy & _).
      apply within_iff; try reflexivity. repeat split; auto. rewrite B2R_f1. unfold f in Ef.
      pose proof (Zfloor_lb (2 * B2R (c_bpm x))). pose proof (Zfloor_ub (2 * B2R (c_bpm x))).
      pose proof (Zfloor_lb (2 * B2R (c_bpm y))). pose proof (Zfloor_ub (2 * B2R (c_bpm y))).
      rewrite Ef in *. eapply Rle_lt_trans; [apply (rnd_abs_le _ fhalf)|].
      - rewrite B2R_fhalf. apply Rabs_le. lra.
      - rewrite B2R_fhalf. lra. }
    destruct (Nat.lt_trichotomy i j) as [L|[L|L]]; auto; exfalso; eauto. }
  assert (length ex <= 241); [|lia]. rewrite <- (map_length f).
  replace 241 with (length (map (fun k => Z.of_nat k + 120)%Z (seq 0 241))) by (rewrite map_length, seq_length; reflexivity).
  apply NoDup_incl_length; auto. intros z I. apply in_map_iff in I as (c & <- & Ic).
  rewrite Forall_forall in R. destruct (reasonable_fin _ (R _ Ic)) as (_ & B).
  assert (120 <= f c <= 360)%Z.
  { unfold f. split; [apply Zfloor_lub; lra|]. apply Z.lt_succ_r. apply lt_IZR. eapply Rle_lt_trans; [apply Zfloor_lb|].
    rewrite succ_IZR. lra. }
  apply in_map_iff. exists (Z.to_nat (f c - 120)). split; [lia|]. apply in_seq. lia.
Qed.
Lemma grouped_length : forall exp2 ac comb cents, length (grouped exp2 ac comb cents) <= 261.
Proof.
  intros. unfold grouped. rewrite app_length, firstn_length. pose proof (limit_length (correct_octaves (exp2 (fdiv cents (z2f 1200))) ac comb)). lia.
Qed.

(** ** Group means stay in the range of their members *)
Lemma rnd_rel : forall x, (bpow radix2 (-100) <= x)%R ->
  ((1 - / 16777216) * x <= rnd x <= (1 + / 16777216) * x)%R.
Proof.
  intros x H. destruct (rnd_err x) as (eps & eta & A & B & C & ->).
  assert (E24 : bpow radix2 (-24) = (/ 16777216)%R) by (simpl; lra). rewrite E24 in A.
  assert (P : (0 < bpow radix2 (-100))%R) by apply bpow_gt_0.
  assert (B' : (Rabs eta <= / 16777216 * x)%R).
  { eapply Rle_trans; [exact B|]. rewrite <- E24. eapply Rle_trans; [|apply Rmult_le_compat_l; [apply bpow_ge_0|exact H]].
    rewrite <- bpow_plus. apply bpow_le. lia. }
  apply Rabs_le_inv in A, B'. apply Rmult_integral in C as [-> | ->]; nra.
Qed.

Lemma pow_lower : forall n, (1 - INR n * / 16777216 <= (1 - / 16777216) ^ n)%R.
Proof.
  induction n as [|n IH]; [simpl; lra|]. rewrite S_INR. cbn [pow].
  pose proof (pos_INR n). nra.
Qed.
Lemma pow_upper : forall n, (INR n <= 4194304)%R -> ((1 + / 16777216) ^ n <= 1 + 2 * INR n * / 16777216)%R.
Proof.
  induction n as [|n IH]; intros H; [simpl; lra|]. rewrite S_INR in *. cbn [pow].
  specialize (IH ltac:(lra)). pose proof (pos_INR n). nra.
Qed.

Definition in_span (lo hi : R) (g : group) : Prop :=
  1 <= g_count g /\ fin (g_bpm g) /\
  (lo * (1 - / 16777216) ^ (3 * (g_count g - 1)) <= B2R (g_bpm g) <= hi * (1 + / 16777216) ^ (3 * (g_count g - 1)))%R.

Lemma pow3 : forall x n, (x ^ (3 * S n) = x * x * x * x ^ (3 * n))%R.
Proof. intros x n. replace (3 * S n) with (S (S (S (3 * n)))) by lia. cbn [pow]. ring. Qed.

Lemma n2f_val : forall n, (Z.of_nat n <= 1000000)%Z -> fin (n2f n) /\ B2R (n2f n) = INR n.
Proof.
  intros n H. destruct (n2f_exact n ltac:(lia)) as (F & E). split; auto. rewrite E. symmetry. apply INR_IZR_INZ.
Qed.

Lemma join_span : forall lo hi g c, (1 <= lo <= hi)%R -> (hi <= bpow radix2 90)%R -> in_span lo hi g -> g_count g <= 1000 ->
  fin (c_bpm c) -> (lo <= B2R (c_bpm c) <= hi)%R -> in_span lo hi (join g c).
Proof.
  intros lo hi g c L Hh (K & F & B) Kb Fc Bc. unfold in_span, join. cbn [g_count g_bpm].
  split; [lia|]. replace (3 * (g_count g + 1 - 1)) with (3 * S (g_count g - 1)) by lia. rewrite !pow3.
  destruct (n2f_val (g_count g) ltac:(lia)) as (Fn & En). destruct (n2f_val (g_count g + 1) ltac:(lia)) as (Fm & Em).
  rewrite plus_INR in Em. change (INR 1) with 1%R in Em.
  set (m := INR (g_count g)) in *. assert (M : (1 <= m <= 1000)%R).
  { split; [change 1%R with (INR 1); apply le_INR; lia|]. replace 1000%R with (INR 1000) by (rewrite INR_IZR_INZ; reflexivity). apply le_INR; lia. }
  set (A := ((1 - / 16777216) ^ (3 * (g_count g - 1)))%R) in *. set (D := ((1 + / 16777216) ^ (3 * (g_count g - 1)))%R) in *.
  set (k := 3 * (g_count g - 1)) in *. assert (Kk : k <= 3000) by lia.
  assert (Ik : (INR k <= 3000)%R) by (replace 3000%R with (INR 3000) by (rewrite INR_IZR_INZ; reflexivity); apply le_INR; lia).
  assert (A0 : (/ 2 <= A <= 1)%R).
  { split; [pose proof (pow_lower k) as W; fold A in W; lra|]. unfold A. replace 1%R with (1 ^ k)%R at 2 by apply pow1. apply pow_incr. lra. }
  assert (D0 : (1 <= D <= 2)%R).
  { split; [unfold D; apply pow_R1_Rle; lra|]. pose proof (pow_upper k ltac:(lra)) as W. fold D in W. lra. }
  clearbody A D m.
  set (x := B2R (g_bpm g)) in *. set (b := B2R (c_bpm c)) in *.
  assert (P90 : bpow radix2 90 = IZR (2 ^ 90)) by reflexivity. assert (Sm : (bpow radix2 (-100) <= / 2)%R).
  { change (/2)%R with (bpow radix2 (-1)). apply bpow_le. lia. }
  assert (Bg : (IZR (2 ^ 103) < big)%R) by (apply IZR_lt_big; lia).
  assert (I103 : (IZR (2 ^ 103) = IZR (2 ^ 90) * 8192)%R) by (rewrite <- mult_IZR; reflexivity).
  rewrite P90 in Hh. set (H90 := IZR (2 ^ 90)) in *. assert (1 <= H90)%R by (unfold H90; apply IZR_le; lia). clearbody H90.
  assert (Pd : (0 < lo * A)%R) by nra. assert (Xl : (lo * A <= x)%R) by tauto. assert (Xh : (x <= hi * D)%R) by tauto.
  assert (Pl : (/ 2 <= lo * A)%R) by nra. assert (Hd : (hi * D <= 2 * H90)%R) by nra.
  set (V := (lo * A)%R) in *. set (W := (hi * D)%R) in *.
  assert (Vb : (V <= b)%R) by (unfold V; nra). assert (Wb : (b <= W)%R) by (unfold W; nra).
  assert (VW : (V <= W)%R) by lra. assert (VE : V = (lo * A)%R) by reflexivity. assert (WE : W = (hi * D)%R) by reflexivity. clearbody V W.
  assert (Wm : (W * m <= 2000 * H90)%R) by nra. assert (Vm : (/ 2 <= V * m)%R) by nra.
  (* product *)
  destruct (fmul_fx (g_bpm g) (n2f (g_count g)) F Fn) as (N1 & E1). rewrite En in E1. fold x in E1.
  assert (X1 : (V * m <= x * m <= W * m)%R) by (split; apply Rmult_le_compat_r; lra).
  assert (R1 := rnd_rel (x * m) ltac:(lra)).
  rewrite sat_id in E1 by lra.
  assert (F1 : fin (fmul (g_bpm g) (n2f (g_count g)))) by (apply fin_iff; auto; rewrite E1; lra).
  rewrite fx_fin in E1 by auto. set (p := fmul _ _) in *. set (P := rnd (x * m)) in *. clearbody P.
  assert (Pb : ((1 - / 16777216) * (V * m) <= P <= (1 + / 16777216) * (W * m))%R) by lra.
  (* sum *)
  destruct (fadd_fx p (c_bpm c) F1 Fc) as (N2 & E2). rewrite E1 in E2. fold b in E2.
  assert (X2 : ((1 - / 16777216) * (V * (m + 1)) <= P + b <= (1 + / 16777216) * (W * (m + 1)))%R) by lra.
  assert (R2 := rnd_rel (P + b) ltac:(lra)).
  rewrite sat_id in E2 by lra.
  assert (F2 : fin (fadd p (c_bpm c))) by (apply fin_iff; auto; rewrite E2; lra).
  rewrite fx_fin in E2 by auto. set (q := fadd _ _) in *. set (Q := rnd (P + b)) in *. clearbody Q.
  assert (Qb : ((1 - / 16777216) * ((1 - / 16777216) * V) * (m + 1) <= Q <= (1 + / 16777216) * ((1 + / 16777216) * W) * (m + 1))%R) by lra.
  (* quotient *)
  destruct (fdiv_fx q (n2f (g_count g + 1)) F2 Fm) as (N3 & E3); [rewrite Em; lra|]. rewrite E2, Em in E3.
  assert (X3 : ((1 - / 16777216) * ((1 - / 16777216) * V) <= Q / (m + 1) <= (1 + / 16777216) * ((1 + / 16777216) * W))%R).
  { split; apply Rmult_le_reg_r with (m + 1)%R; try lra; unfold Rdiv; rewrite ?(Rmult_assoc Q), ?Rinv_l, ?Rmult_1_r by lra; lra. }
  assert (Sm4 : (bpow radix2 (-100) <= / 4)%R) by (replace (/ 4)%R with (bpow radix2 (-2)) by (simpl; lra); apply bpow_le; lia).
  assert (R3 := rnd_rel (Q / (m + 1)) ltac:(lra)). set (Z := (Q / (m + 1))%R) in *. clearbody Z.
  rewrite sat_id in E3 by lra.
  assert (F3 : fin (fdiv q (n2f (g_count g + 1)))) by (apply fin_iff; auto; rewrite E3; lra).
  rewrite fx_fin in E3 by auto. split; auto. rewrite E3.
  replace (lo * ((1 - / 16777216) * (1 - / 16777216) * (1 - / 16777216) * A))%R with ((1 - / 16777216) * ((1 - / 16777216) * ((1 - / 16777216) * (lo * A))))%R by ring.
  replace (hi * ((1 + / 16777216) * (1 + / 16777216) * (1 + / 16777216) * D))%R with ((1 + / 16777216) * ((1 + / 16777216) * ((1 + / 16777216) * (hi * D))))%R by ring.
  rewrite <- VE, <- WE. lra.
Qed.

Lemma groups_span : forall lo hi cs, (1 <= lo <= hi)%R -> (hi <= bpow radix2 90)%R -> length cs <= 1000 ->
  Forall (fun c => fin (c_bpm c) /\ (lo <= B2R (c_bpm c) <= hi)%R) cs ->
  Forall (fun g => in_span lo hi g /\ g_count g <= length cs) (make_groups cs).
Proof.
  intros lo hi cs L H Len Hc. unfold make_groups.
  assert (G : forall cs n gs, n + length cs <= 1000 -> Forall (fun c => fin (c_bpm c) /\ (lo <= B2R (c_bpm c) <= hi)%R) cs ->
    Forall (fun g => in_span lo hi g /\ g_count g <= n) gs ->
    Forall (fun g => in_span lo hi g /\ g_count g <= n + length cs) (fold_left add_to_groups cs gs)).
  { clear Hc Len cs. induction cs as [|c cs IH]; intros n gs Hn Hc Hg; cbn [fold_left length] in *.
    - now rewrite Nat.add_0_r.
    - inversion Hc as [|? ? (Fc & Bc) Hcs]; subst. replace (n + S (length cs)) with (S n + length cs) in * by lia.
      apply IH; auto. clear IH. assert (Kn : n <= 1000) by lia. clear - L H Hg Fc Bc Kn.
      induction gs as [|g gs IHg]; cbn [add_to_groups].
      + constructor; auto. split; [|cbn; lia]. unfold in_span. cbn [g_count g_bpm]. replace (3 * (1 - 1)) with 0 by lia.
        cbn [pow]. split; auto. split; auto. lra.
      + inversion Hg as [|? ? (S & K) Hg']; subst. specialize (IHg Hg').
        destruct (fle (fabs _) _); constructor; auto.
        * split; [apply join_span; auto; lia|cbn; lia].
        * eapply Forall_impl; [|exact Hg']. intros a (? & ?). split; auto.
      }
  apply (G cs 0 []); auto.
Qed.
