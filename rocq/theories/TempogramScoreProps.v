(** C73: what the combined tempogram estimator scores, chooses and reports (src/features/period/tempogram.rs:268-775). *)
From Coq Require Import ZArith Reals Lra.
From Verif Require Import Rust F32 F32Facts ListFacts Libm Sorting SortingFacts Autocorrelation TempoSpectra Novelty CandidateFilter
  Tempogram TempogramProofs TempogramProps.

(** The distance of two tempos, and being at a finite distance of at most [tol]. *)
Notation dist x b := (fabs (fsub x b)).
Definition reach (b tol : f32) (e : f32 * f32) : bool := fle (dist (fst e) b) tol && flt (dist (fst e) b) finf.

(** [v] is the strength of the entry of [t] nearest to [b] within [tol], the first of equals; 0 if there is none. *)
Definition nearest (t : list (f32 * f32)) (b tol v : f32) : Prop :=
  (v = f0 /\ forall e, In e t -> reach b tol e = false) \/
  (exists l e r, t = l ++ e :: r /\ reach b tol e = true /\ v = snd e /\
     (forall x, In x l -> reach b tol x = true -> flt (dist (fst e) b) (dist (fst x) b) = true) /\
     (forall x, In x r -> reach b tol x = true -> fle (dist (fst e) b) (dist (fst x) b) = true)).

Lemma lookup_is_nearest : forall t b tol, nearest t b tol (lookup_nearest t b tol).
Proof.
  intros t b tol. unfold lookup_nearest.
  set (step := fun acc bv => let d := fabs (fsub (fst bv) b) in if fle d tol && flt d (fst acc) then (d, snd bv) else acc).
  assert (G : forall t p, fold_left step t (finf, f0) = p ->
    (p = (finf, f0) /\ forall e, In e t -> reach b tol e = false) \/
    (exists l e r, t = l ++ e :: r /\ reach b tol e = true /\ p = (dist (fst e) b, snd e) /\
     (forall x, In x l -> reach b tol x = true -> flt (dist (fst e) b) (dist (fst x) b) = true) /\
     (forall x, In x r -> reach b tol x = true -> fle (dist (fst e) b) (dist (fst x) b) = true))).
  { clear t. induction t as [|y t IH] using rev_ind; intros p E.
    - left. cbn in E. split; [auto|]. intros e [].
    - rewrite fold_left_app in E. cbn [fold_left] in E. specialize (IH _ eq_refl).
      set (q := fold_left step t (finf, f0)) in *. clearbody q. unfold step in E. cbv zeta in E.
      destruct IH as [(-> & N)|(l & e & r & -> & Re & -> & A & B)]; cbn [fst] in E.
      + destruct (fle (dist (fst y) b) tol && flt (dist (fst y) b) finf) eqn:C.
        * right. exists t, y, []. split; auto. split; [exact C|]. split; auto. split.
          { intros x I X. rewrite N in X by auto. discriminate. }
          { intros x []. }
        * left. split; auto. intros x I. apply in_app_or in I as [I|[<-|[]]]; auto.
      + destruct (fle (dist (fst y) b) tol && flt (dist (fst y) b) (dist (fst e) b)) eqn:C.
        * right. apply andb_true_iff in C as (C1 & C2). apply andb_true_iff in Re as (R1 & R2).
          exists (l ++ e :: r), y, []. split; auto. split.
          { apply andb_true_iff. split; auto. eapply flt_fle_trans; [exact C2|now apply flt_fle]. }
          split; auto. split; [|intros x []].
          intros x I X. apply in_app_or in I as [I|[<-|I]]; auto.
          { eapply flt_fle_trans; [exact C2|apply flt_fle; auto]. }
          { eapply flt_fle_trans; [exact C2|auto]. }
        * right. exists l, e, (r ++ [y]). split; [now rewrite <- app_assoc|]. split; auto. split; auto. split; auto.
          intros x I X. apply in_app_or in I as [I|[<-|[]]]; auto.
          apply andb_true_iff in X as (X1 & X2). rewrite X1 in C. cbn [andb] in C.
          apply andb_true_iff in Re as (R1 & R2).
          apply flt_false_fle; auto. all: eapply flt_nn_l; eauto. }
  destruct (G t _ eq_refl) as [(-> & N)|(l & e & r & -> & R & -> & A & B)]; [left; auto|].
  right. exists l, e, r. auto 10.
Qed.

Lemma fgt_is : forall x y, fgt x y = flt y x. Proof. reflexivity. Qed.
Notation clamp01 x := (fclamp_val x f0 f1).

(** Evidence of a set of variants for a tempo: the weighted mean of their clamped shares of the strongest peak, where
    weights that are not positive are left out and the total weight is at least 1e-6. *)
Definition evidence (near top : variant -> f32) (vs : list variant) : f32 :=
  clamp01 (fdiv (fsum (map (fun v => fmul (v_w v) (clamp01 (fdiv (near v) (top v)))) (filter (fun v => negb (fle (v_w v) f0)) vs)))
                (fmax (fsum (map (fun v => fmax (v_w v) f0) vs)) (lit 8796093 (-43)))).
(** Only the full band is scored unless a configuration says otherwise. *)
Definition scoring (cfg : option band_config) (full : variant) (others : list variant) : list variant :=
  match cfg with Some c => if bc_seed_only c then [full] else full :: others | None => [full] end.
(** The consensus bonus in force. *)
Definition bonus_on (cfg : option band_config) (b : f32) : Prop :=
  exists c, cfg = Some c /\ (bc_enabled c = true \/ bc_mel c = true) /\ flt f0 (bc_bonus c) = true /\ b = bc_bonus c.
(** Number of bands supporting a tempo. *)
Definition supporters (cfg : option band_config) (nf na : variant -> f32) (others : list variant) : nat :=
  length (filter (fun v => fle (clamp01 (match cfg with Some c => bc_support c | None => lit 1 (-2) end))
    (fmax (clamp01 (fdiv (nf v) (v_mfft v))) (clamp01 (fdiv (na v) (v_mac v))))) others).

Lemma fold_filter : forall (A : Type) (p : A -> bool) (g : A -> f32) l acc,
  fold_left (fun a v => if p v then a else fadd a (g v)) l acc = fold_left fadd (map g (filter (fun v => negb (p v)) l)) acc.
Proof. induction l as [|x l IH]; intros acc; cbn [fold_left filter]; auto. destruct (p x); cbn [negb map fold_left]; auto. Qed.

Lemma filter_full : forall full others, v_full full = true -> Forall (fun v => v_full v = false) others ->
  filter v_full (full :: others) = [full].
Proof.
  intros full others A B. cbn [filter]. rewrite A. f_equal. induction B as [|x l X B IH]; auto. cbn [filter]. now rewrite X.
Qed.

Lemma scoring_is : forall cfg full others, v_full full = true -> Forall (fun v => v_full v = false) others ->
  (if match cfg with Some c => bc_seed_only c | None => true end then filter v_full (full :: others) else full :: others)
  = scoring cfg full others.
Proof. intros [c|] full others A B; rewrite filter_full by auto; unfold scoring; auto. Qed.

(** The scored list behind an accepted selection. *)
Lemma select_scores : forall cfg full others mn mx res e l, select_tempo cfg full others mn mx res = Ok (e, l) ->
  exists f first r,
    (forall b, f b = score_candidate (if match cfg with Some c => bc_seed_only c | None => true end then filter v_full (full :: others) else full :: others)
       (full :: others)
       (fmax (fsum (map (fun v => fmax (v_w v) f0) (if match cfg with Some c => bc_seed_only c | None => true end then filter v_full (full :: others) else full :: others))) (lit 8796093 (-43)))
       res (clamp01 (match cfg with Some c => bc_support c | None => lit 1 (-2) end))
       (if fgt (fmax (match cfg with Some c => bc_bonus c | None => f0 end) f0) f0 && match cfg with Some c => bc_enabled c || bc_mel c | None => false end
        then Some (fmax (match cfg with Some c => bc_bonus c | None => f0 end) f0) else None) b) /\
    Permutation (map f (tempos (full :: others) full mn mx)) (first :: r) /\
    let best := octave_fold (first :: r) mn mx first in
    e_bpm e = s_bpm best /\
    e_conf e = separation (lit 2305843 (-61)) (s_score best) (match r with [] => f0 | s :: _ => s_score s end) /\
    e_agree e = length (filter (fun t => match t with (b, _) :: _ => flt f0 b && flt (dist b (s_bpm best)) f2 | [] => false end) [v_fft full; v_ac full]) /\
    l = map (fun c => mkTc (s_bpm c) (s_score c) (s_fft c) (s_ac c) (flt (dist (s_bpm c) (s_bpm best)) f075)) (first :: r).
Proof.
  intros cfg full others mn mx res e l H. unfold select_tempo in H. cbv zeta in H. fold (tempos (full :: others) full mn mx) in H.
  set (f := score_candidate _ _ _ _ _ _) in H. exists f.
  assert (Ef : forall b, f b = f b) by reflexivity. unfold f in Ef at 2.
  clearbody f. destruct (forallb _ _); [discriminate|].
  assert (P : Permutation (map f (tempos (full :: others) full mn mx)) (sort_desc s_score (map f (tempos (full :: others) full mn mx))))
    by apply sort_desc_perm.
  destruct (sort_desc s_score (map f (tempos (full :: others) full mn mx))) as [|first r] eqn:E; [discriminate|].
  assert (H1 := f_equal (fun o => match o with Ok x => fst x | _ => e end) H). cbv beta iota delta [fst] in H1.
  assert (H2 := f_equal (fun o => match o with Ok x => snd x | _ => l end) H). cbv beta iota delta [snd] in H2. clear H.
  exists first, r. split; [exact Ef|]. split; [exact P|]. cbv zeta. subst e l. cbn [e_bpm e_conf e_agree]. split; auto. split; auto. split; auto.
  set (best := octave_fold _ _ _ _). clearbody best. clear.
  unfold find_best. cbn [filter]. destruct (v_fft full) as [|(b & p) t], (v_ac full) as [|(b' & p') t']; rewrite ?fgt_is;
   replace (flt f0 f0) with false by reflexivity; cbn [andb];
   repeat match goal with |- context [if ?x then _ else _] => destruct x end; try reflexivity.
Qed.

(** Scores.  The evidence of a candidate comes from the entries nearest to it (within 0.75 BPM in the FFT tempogram, within
    the larger of the resolution and 0.5 in the other); the score is 0.55 and 0.45 of the two, raised by the bonus for each
    supporting band beyond the first, and lowered to 0.8 above 180 and to 0.9 below 60 BPM. *)
Theorem C73_scores : forall cfg full others mn mx res e l,
  select_tempo cfg full others mn mx res = Ok (e, l) -> v_full full = true -> Forall (fun v => v_full v = false) others ->
  forall c, In c l -> exists nf na s,
    (forall v, nearest (v_fft v) (t_bpm c) (lit 3 (-2)) (nf v) /\ nearest (v_ac v) (t_bpm c) (fmax res fhalf) (na v)) /\
    t_fft c = evidence nf v_mfft (scoring cfg full others) /\
    t_ac c = evidence na v_mac (scoring cfg full others) /\
    let base := fadd (fmul (lit 9227469 (-24)) (t_ac c)) (fmul (lit 7549747 (-24)) (t_fft c)) in
    let n := supporters cfg nf na others in
    ((forall b, ~ bonus_on cfg b) \/ n < 2 -> s = base) /\
    (forall b, bonus_on cfg b -> 2 <= n -> s = fmul base (fadd f1 (fmul b (fsub (n2f n) f1)))) /\
    (flt (z2f 180) (t_bpm c) = true -> t_score c = fmul s (lit 13421773 (-24))) /\
    (flt (t_bpm c) (z2f 60) = true -> t_score c = fmul s (lit 7549747 (-23))) /\
    (fle (z2f 60) (t_bpm c) = true -> fle (t_bpm c) (z2f 180) = true -> t_score c = s).
Proof.
  intros cfg full others mn mx res e l H Hf Ho c I.
  destruct (select_scores _ _ _ _ _ _ _ _ H) as (f & first & r & Ef & P & X). cbv zeta in X. destruct X as (_ & _ & _ & ->).
  clear H. apply in_map_iff in I as (x & <- & I). cbn [t_bpm t_fft t_ac t_score].
  assert (I' : In x (map f (tempos (full :: others) full mn mx))) by (eapply Permutation_in; [apply Permutation_sym, P|exact I]).
  apply in_map_iff in I' as (b & Eb & _). rewrite Ef in Eb. clear Ef P I f first r. subst x.
  rewrite scoring_is by auto.
  set (bonus := if _ && _ then _ else _).
  assert (Hb : forall k, bonus_on cfg k -> bonus = Some k).
  { intros k (c & -> & O & P & ->). unfold bonus. assert (M : fmax (bc_bonus c) f0 = bc_bonus c).
    { clear - P. unfold fmax, flt, fgt in *. destruct (bc_bonus c) as [[]|[]| |[] m ex Hm]; try discriminate P; reflexivity. }
    rewrite M. rewrite fgt_is, P. destruct O as [-> | ->]; cbn [andb orb]; auto. now rewrite orb_true_r. }
  assert (Hn : (forall k, ~ bonus_on cfg k) -> bonus = None).
  { intros N. unfold bonus. destruct cfg as [c|]; [|now rewrite andb_comm].
    destruct (fgt (fmax (bc_bonus c) f0) f0 && (bc_enabled c || bc_mel c)) eqn:E; auto.
    apply andb_true_iff in E as (E1 & E2). apply orb_true_iff in E2. exfalso. apply (N (bc_bonus c)). exists c.
    split; auto. split; auto. split; auto. clear - E1. rewrite fgt_is in E1.
    destruct (fmax_case (bc_bonus c) f0) as [M|M]; rewrite M in E1; [exact E1|discriminate E1]. }
  clearbody bonus.
  exists (fun v => lookup_nearest (v_fft v) b (lit 3 (-2))), (fun v => lookup_nearest (v_ac v) b (fmax res fhalf)).
  unfold score_candidate. cbv zeta. cbn [s_bpm s_fft s_ac s_score].
  match goal with |- context [match bonus with None => ?x | Some _ => _ end] => set (base := x) end.
  match goal with |- context [if fgt b (z2f 180) then fmul ?x _ else _] => set (s := x) end.
  exists s. split; [intros v; split; apply lookup_is_nearest|].
  split. { unfold weighted, evidence, fsum. now rewrite fold_filter. }
  split. { unfold weighted, evidence, fsum. now rewrite fold_filter. }
  assert (Es : length (filter (fun v => negb (v_full v) && fge (fmax (share (v_fft v) (v_mfft v) b f075) (share (v_ac v) (v_mac v) b (fmax res fhalf)))
      (clamp01 (match cfg with Some c => bc_support c | None => lit 1 (-2) end))) (full :: others))
    = supporters cfg (fun v => lookup_nearest (v_fft v) b (lit 3 (-2))) (fun v => lookup_nearest (v_ac v) b (fmax res fhalf)) others).
  { unfold supporters. f_equal. cbn [filter]. rewrite Hf. cbn [negb andb]. apply filter_ext_in. intros v V.
    rewrite Forall_forall in Ho. now rewrite Ho. }
  unfold s. rewrite Es. clear Es. set (n := supporters _ _ _ _). clearbody n. clear s.
  split. { intros [N|N]; [now rewrite (Hn N)|]. destruct bonus; auto. destruct (Nat.leb_spec 2 n); auto. lia. }
  split. { intros k K N. rewrite (Hb k K). destruct (Nat.leb_spec 2 n); auto. lia. }
  rewrite fgt_is. split; [|split].
  - intros ->. reflexivity.
  - intros L. rewrite L. rewrite flt_asym; auto. eapply flt_fle_trans; [exact L|reflexivity].
  - intros L U. now rewrite !fle_flt_false.
Qed.
Print Assumptions C73_scores.

(** Choice.  The reported tempo is that of the first candidate, except that a first candidate above 180 BPM with its half in
    range gives way to the first candidate less than 0.75 BPM from the half, unless both of its evidence values exceed
    twice those of that candidate (each raised by 1e-6). *)
Definition chosen (mn mx : f32) (l : list cand) (first c : cand) : Prop :=
  let half := fdiv (t_bpm first) f2 in
  let strong d := flt f2 (fdiv (fadd (t_ac first) (lit 8796093 (-43))) (fadd (t_ac d) (lit 8796093 (-43)))) = true /\
                  flt f2 (fdiv (fadd (t_fft first) (lit 8796093 (-43))) (fadd (t_fft d) (lit 8796093 (-43)))) = true in
  (exists a b, flt (z2f 180) (t_bpm first) = true /\ fle mn half = true /\ fle half mx = true /\ l = a ++ c :: b /\
     flt (dist (t_bpm c) half) (lit 3 (-2)) = true /\ (forall d, In d a -> flt (dist (t_bpm d) half) (lit 3 (-2)) = false) /\ ~ strong c) \/
  (c = first /\
   (flt (z2f 180) (t_bpm first) = false \/ fle mn half = false \/ fle half mx = false \/
    (forall d, In d l -> flt (dist (t_bpm d) half) (lit 3 (-2)) = false) \/
    exists a d b, l = a ++ d :: b /\ flt (dist (t_bpm d) half) (lit 3 (-2)) = true /\
      (forall x, In x a -> flt (dist (t_bpm x) half) (lit 3 (-2)) = false) /\ strong d)).

Lemma find_split : forall (A : Type) (p : A -> bool) l x, find p l = Some x ->
  exists a b, l = a ++ x :: b /\ p x = true /\ forall y, In y a -> p y = false.
Proof.
  induction l as [|y l IH]; intros x H; [discriminate|]. cbn [find] in H. destruct (p y) eqn:E.
  - injection H as <-. exists [], l. split; auto. split; auto. intros z [].
  - destruct (IH _ H) as (a & b & -> & P & N). exists (y :: a), b. split; auto. split; auto. intros z [<-|I]; auto.
Qed.

(** Confidence is the relative lead over the second candidate of the list; agreement counts the tempograms of the full band
    whose strongest tempo is positive and less than 2 BPM from the reported one. *)
Theorem C73_choice : forall cfg full others mn mx res e l, select_tempo cfg full others mn mx res = Ok (e, l) ->
  exists first c, hd_error l = Some first /\ In c l /\ chosen mn mx l first c /\ e_bpm e = t_bpm c /\
    (flt (lit 2305843 (-61)) (t_score c) = false -> e_conf e = f0) /\
    (flt (lit 2305843 (-61)) (t_score c) = true ->
       e_conf e = clamp01 (fdiv (fmax (fsub (t_score c) (match l with _ :: s :: _ => t_score s | _ => f0 end)) f0) (t_score c))) /\
    e_agree e = length (filter (fun t => match t with (b, _) :: _ => flt f0 b && flt (dist b (e_bpm e)) f2 | [] => false end)
                  [v_fft full; v_ac full]).
Proof.
  intros cfg full others mn mx res e l H.
  destruct (select_scores _ _ _ _ _ _ _ _ H) as (f & first & r & _ & _ & X). cbv zeta in X. destruct X as (E1 & E2 & E3 & El).
  clear H. set (g := fun c => mkTc (s_bpm c) (s_score c) (s_fft c) (s_ac c) (flt (dist (s_bpm c) (s_bpm (octave_fold (first :: r) mn mx first))) f075)) in El.
  set (best := octave_fold (first :: r) mn mx first) in *. exists (g first), (g best).
  split; [now rewrite El|].
  assert (I : In best (first :: r)) by (unfold best; apply octave_in; now left).
  split; [rewrite El; now apply in_map|].
  assert (G : forall x, t_bpm (g x) = s_bpm x /\ t_score (g x) = s_score x /\ t_fft (g x) = s_fft x /\ t_ac (g x) = s_ac x) by (intros; cbn; auto).
  assert (C : chosen mn mx l (g first) (g best)).
  { clear E1 E2 E3 I. unfold best, octave_fold, chosen. clearbody g. clear best. cbv zeta.
    rewrite fgt_is. destruct (G first) as (G1 & G2 & G3 & G4). rewrite G1, G3, G4.
    destruct (flt (z2f 180) (s_bpm first)) eqn:A1; [|right; auto].
    destruct (fge (fdiv (s_bpm first) f2) mn && fle (fdiv (s_bpm first) f2) mx) eqn:A2.
    2:{ right. split; auto. apply andb_false_iff in A2 as [A2|A2]; auto. }
    apply andb_true_iff in A2 as (A2 & A3). change (fle mn (fdiv (s_bpm first) f2) = true) in A2.
    destruct (find _ (first :: r)) as [c|] eqn:Fd.
    2:{ right. split; auto. right. right. right. left. rewrite El. intros d I. apply in_map_iff in I as (y & <- & I).
        destruct (G y) as (-> & _). apply (find_none _ _ Fd y I). }
    apply find_split in Fd as (a & b & E & P & N).
    assert (El' : l = map g a ++ g c :: map g b) by (rewrite El, E, map_app; reflexivity).
    assert (N' : forall d, In d (map g a) -> flt (dist (t_bpm d) (fdiv (s_bpm first) f2)) (lit 3 (-2)) = false).
    { intros d I. apply in_map_iff in I as (y & <- & I). destruct (G y) as (-> & _). now apply N. }
    rewrite !fgt_is. destruct (flt f2 (fdiv (fadd (s_ac first) (lit 8796093 (-43))) (fadd (s_ac c) (lit 8796093 (-43)))) &&
      flt f2 (fdiv (fadd (s_fft first) (lit 8796093 (-43))) (fadd (s_fft c) (lit 8796093 (-43))))) eqn:S; cbn [negb].
    - right. split; auto. right. right. right. right. exists (map g a), (g c), (map g b). split; auto.
      destruct (G c) as (-> & _ & -> & ->). split; auto. split; auto. now apply andb_true_iff.
    - left. exists (map g a), (map g b). destruct (G c) as (-> & _ & -> & ->). repeat (split; auto).
      rewrite <- andb_true_iff. congruence. }
  split; [exact C|]. destruct (G best) as (-> & -> & _). rewrite E1, E2. split; auto.
  assert (Es : match l with _ :: s :: _ => t_score s | _ => f0 end = match r with [] => f0 | s :: _ => s_score s end).
  { rewrite El. cbn [map]. destruct r as [|s r]; cbn [map]; [reflexivity|]. apply G. }
  rewrite Es. unfold separation. rewrite fgt_is. split; [intros ->; auto|]. split; [intros ->; auto|]. exact E3.
Qed.
Print Assumptions C73_choice.

(** Failure: there is no result exactly if no tempogram has an entry or no multiple of a leading tempo is in range. *)
Theorem C73_fails : forall cfg full others mn mx res,
  let vs := full :: others in
  ((exists e l, select_tempo cfg full others mn mx res = Ok (e, l)) <->
   (exists b, products vs b /\ fisfin b = true /\ fle mn b = true /\ fle b mx = true)) /\
  ((forall b, products vs b -> fisfin b = true -> fle mn b = true -> fle b mx = true -> False) ->
   select_tempo cfg full others mn mx res = Err ProcessingError).
Proof.
  intros cfg full others mn mx res vs.
  assert (K : select_tempo cfg full others mn mx res = Err ProcessingError \/ exists e l, select_tempo cfg full others mn mx res = Ok (e, l)).
  { unfold select_tempo. cbv zeta. destruct (forallb _ _); auto. destruct (sort_desc _ _); eauto. }
  assert (Y : (exists e l, select_tempo cfg full others mn mx res = Ok (e, l)) ->
     exists b, products vs b /\ fisfin b = true /\ fle mn b = true /\ fle b mx = true).
  { intros (e & l & H). destruct (C27_candidates _ _ _ _ _ _ _ _ H) as (A & _).
    destruct (select_ok _ _ _ _ _ _ _ _ H) as (f & best & first & r & sl & P & Ef & Es & El & Eb & E1 & E2 & E3 & ->). clear H.
    destruct (tempos_spec (seeds (full :: others)
      (match find_best (v_fft full) with Some (b, _, _) => b | None => f0 end)
      (match find_best (v_ac full) with Some (b, _, _) => b | None => f0 end)) mn mx) as (_ & R & _ & _).
    fold (tempos (full :: others) full mn mx) in R.
    assert (I : In (s_bpm first) (tempos (full :: others) full mn mx)).
    { assert (I : In first (map f (tempos (full :: others) full mn mx))).
      { eapply Permutation_in; [apply Permutation_sym, P|]. rewrite El. now left. }
      apply in_map_iff in I as (b & Eq & I). rewrite <- Eq, Ef. exact I. }
    exists (s_bpm first). split; [|rewrite Forall_forall in R; destruct (R _ I) as (R1 & R2 & R3); auto].
    refine (A (mkTc (s_bpm first) _ _ _ _) _). apply (in_map (fun c => mkTc (s_bpm c) (s_score c) (s_fft c) (s_ac c) (flt (dist (s_bpm c) (s_bpm best)) f075)) sl first). rewrite El. now left. }
  assert (Z : (exists b, products vs b /\ fisfin b = true /\ fle mn b = true /\ fle b mx = true) ->
     exists e l, select_tempo cfg full others mn mx res = Ok (e, l)).
  { intros (b & (v & t & x & g & V & T & X & Gf & ->) & Fb & B1 & B2).
    unfold select_tempo. cbv zeta. fold (tempos (full :: others) full mn mx).
    destruct (forallb _ _) eqn:A.
    { exfalso. rewrite forallb_forall in A. specialize (A v V). apply andb_true_iff in A as (A1 & A2).
      apply Nat.eqb_eq, length_zero_iff_nil in A1. apply Nat.eqb_eq, length_zero_iff_nil in A2.
      destruct T as [-> | ->]; [rewrite A1 in X|rewrite A2 in X]; destruct X. }
    destruct (tempos_spec (seeds (full :: others)
      (match find_best (v_fft full) with Some (b, _, _) => b | None => f0 end)
      (match find_best (v_ac full) with Some (b, _, _) => b | None => f0 end)) mn mx) as (_ & _ & _ & C).
    fold (tempos (full :: others) full mn mx) in C.
    destruct (C (fmul (fst x) g)) as (w & W & _).
    { apply folded_spec. split; auto. exists (fst x), g. split; auto. unfold seeds. apply in_or_app. left.
      apply in_flat_map. exists v. split; auto. apply in_or_app. destruct T as [-> | ->]; [left|right]; now apply in_map. }
    set (f := score_candidate _ _ _ _ _ _). clearbody f.
    destruct (sort_desc s_score (map f (tempos (full :: others) full mn mx))) as [|first r] eqn:E; [|eauto].
    exfalso. assert (I : In (f w) (sort_desc s_score (map f (tempos (full :: others) full mn mx)))).
    { apply sort_desc_in. now apply in_map. }
    rewrite E in I. destruct I. }
  split; [split; [exact Y|exact Z]|]. intros N. destruct K as [K|K]; auto. exfalso. destruct (Y K) as (b & A & B & C & D). eapply N; eauto.
Qed.
Print Assumptions C73_fails.

(** Variants: both tempograms of a novelty curve, with a weight, and the first (strongest) strengths, at least 1e-12. *)
Definition variant_of F L fuel rate hop mn mx res (full : bool) (w : f32) (nov : list f32) (v : variant) : Prop :=
  fft_tempogram F L nov rate hop mn mx = Ok (v_fft v) /\ autocorr_tempogram fuel nov rate hop mn mx res = Some (Ok (v_ac v)) /\
  v_full v = full /\ v_w v = w /\
  v_mfft v = fmax (hd f1 (map snd (v_fft v))) (lit 2305843 (-61)) /\ v_mac v = fmax (hd f1 (map snd (v_ac v))) (lit 2305843 (-61)).
(** [i] is the bin of a frequency: the nearest of the n bins of width res, 0 for senseless frequencies. *)
Definition bin_of (hz res : f32) (n i : nat) : Prop :=
  (fisfin hz = true -> flt f0 hz = true -> fisfin res = true -> flt f0 res = true ->
     let z := f2isize (fround (fdiv hz res)) in
     ((0 <= z < Z.of_nat n)%Z -> Z.of_nat i = z) /\ ((z < 0)%Z -> i = 0) /\ ((Z.of_nat n <= z)%Z -> i = n - 1)) /\
  (fisfin hz = false \/ fle hz f0 = true \/ fisfin res = false \/ fle res f0 = true -> i = 0).
(** A band's contribution: nothing for an unusable weight, fewer than two bins or an empty novelty curve, else one variant. *)
Definition band_part F L fuel spec rate hop mn mx res (c : band_config) (start stop : nat) (w : f32) (g : list variant) : Prop :=
  (fisfin w = false \/ flt f0 w = false \/ stop < start + 2 -> g = []) /\
  (fisfin w = true -> flt f0 w = true -> start + 2 <= stop ->
   exists s e h, superflux_novelty_band (m_ln L) spec (bc_filter c) start stop = Ok s /\
     energy_flux_novelty_band spec start stop = Ok e /\ hfc_novelty_band spec start stop = Ok h /\
     let nov := combined_novelty_with_params s e h (bc_nov_s c) (bc_nov_e c) (bc_nov_h c) (bc_mean_window c) (bc_smooth_window c) in
     (nov = [] -> g = []) /\ (nov <> [] -> exists v, g = [v] /\ variant_of F L fuel rate hop mn mx res false w nov v)).

Lemma hz_to_bin_is : forall hz res n, n <> 0 -> bin_of hz res n (hz_to_bin hz res n).
Proof.
  intros hz res n N. unfold bin_of, hz_to_bin. split.
  - intros -> A -> B. rewrite (flt_fle_false _ _ A), (flt_fle_false _ _ B). cbn [negb orb].
    set (z := f2isize _). cbv zeta. clearbody z. repeat split; intros; lia.
  - intros [-> | [-> | [-> | ->]]]; cbn [negb orb]; auto; rewrite ?orb_true_r; auto.
Qed.

Lemma tempograms_ok : forall F L fuel rate hop mn mx res nov t full w,
  tempograms F L fuel rate hop mn mx res nov = Some (Ok t) ->
  variant_of F L fuel rate hop mn mx res full w nov (make_variant full w (fst t) (snd t)).
Proof.
  intros F L fuel rate hop mn mx res nov t full w H. unfold tempograms in H.
  destruct (fft_tempogram F L nov rate hop mn mx) as [fft| |] eqn:E1; cbn [rbind] in H; try discriminate.
  destruct (autocorr_tempogram fuel nov rate hop mn mx res) as [[ac| |]|] eqn:E2; cbn [rbind] in H; try discriminate.
  assert (Et : (fft, ac) = t) by congruence. subst t. unfold variant_of, make_variant. cbn [fst snd v_fft v_ac v_full v_w v_mfft v_mac].
  split; auto. split; auto. split; auto. split; auto. unfold top_value. destruct fft as [|(? & ?) ?], ac as [|(? & ?) ?]; auto.
Qed.

Lemma band_variants_ok : forall F L fuel spec rate hop mn mx res c bs vs,
  band_variants F L fuel spec rate hop mn mx res c bs = Some (Ok vs) ->
  exists gs, vs = concat gs /\ Forall2 (fun b g => band_part F L fuel spec rate hop mn mx res c (fst (fst b)) (snd (fst b)) (snd b) g) bs gs.
Proof.
  intros F L fuel spec rate hop mn mx res c. induction bs as [|((start & stop) & w) bs IH]; intros vs H; cbn [band_variants] in H.
  { injection H as <-. exists []. split; auto. }
  assert (Skip : forall P : Prop, band_variants F L fuel spec rate hop mn mx res c bs = Some (Ok vs) ->
     (band_part F L fuel spec rate hop mn mx res c start stop w []) ->
     exists gs, vs = concat gs /\ Forall2 (fun b g => band_part F L fuel spec rate hop mn mx res c (fst (fst b)) (snd (fst b)) (snd b) g) ((start, stop, w) :: bs) gs).
  { intros _ H' P. destruct (IH _ H') as (gs & -> & A). exists ([] :: gs). split; auto. }
  rewrite fgt_is in H. destruct (fisfin w && flt f0 w) eqn:W; cbn [negb] in H.
  2:{ apply (Skip True); auto. split; auto. intros A B. rewrite A, B in W. discriminate. }
  apply andb_true_iff in W as (W1 & W2). destruct (Nat.leb_spec stop (start + 1)) as [K|K].
  { apply (Skip True); auto. split; auto. intros. lia. }
  destruct (superflux_novelty_band (m_ln L) spec (bc_filter c) start stop) as [s| |] eqn:E1; cbn [rbind] in H; try discriminate.
  destruct (energy_flux_novelty_band spec start stop) as [e| |] eqn:E2; cbn [rbind] in H; try discriminate.
  destruct (hfc_novelty_band spec start stop) as [h| |] eqn:E3; cbn [rbind] in H; try discriminate. cbn [combine_novelty] in H.
  set (nov := combined_novelty_with_params _ _ _ _ _ _ _ _) in H.
  assert (Part : forall g, (nov = [] -> g = []) -> (nov <> [] -> exists v, g = [v] /\ variant_of F L fuel rate hop mn mx res false w nov v) ->
     band_part F L fuel spec rate hop mn mx res c start stop w g).
  { intros g A B. split. { intros [X|[X|X]]; try congruence. lia. }
    intros _ _ _. exists s, e, h. split; auto. }
  clearbody nov. destruct (Nat.eqb_spec (length nov) 0) as [Z|Z].
  { apply (Skip True); auto. apply Part; auto. intros N. apply length_zero_iff_nil in Z. congruence. }
  destruct (tempograms F L fuel rate hop mn mx res nov) as [[t| |]|] eqn:Et; cbn [rbind] in H; try discriminate.
  destruct (band_variants F L fuel spec rate hop mn mx res c bs) as [[rest| |]|] eqn:Er; cbn [rbind] in H; try discriminate.
  assert (Ev : make_variant false w (fst t) (snd t) :: rest = vs) by congruence. clear H. subst vs.
  destruct (IH _ eq_refl) as (gs & -> & A). exists ([make_variant false w (fst t) (snd t)] :: gs). split; auto.
  constructor; auto. cbn [fst snd]. apply Part.
  - intros ->. cbn [length] in Z. lia.
  - intros _. eexists. split; [reflexivity|]. now apply tempograms_ok.
Qed.

(** The variants of an accepted spectrogram of n bins: the full band; if band fusion is on the low, mid and high band, which
    partition the bins from 1 (edges at the bins of the configured frequencies, each band but the last non-empty where
    possible, the last band ending at the top if no upper edge is set); if mel novelty is on the mel variant. *)
Theorem C73_variants : forall F L fuel spec rate hop mn mx res cfg full others,
  variants F L fuel spec rate hop mn mx res cfg = Some (Ok (full, others)) ->
  let n := match spec with [] => 0 | f :: _ => length f end in
  0 < n /\
  (exists s e h, superflux_novelty (m_ln L) spec (match cfg with Some c => bc_filter c | None => 4%Z end) = Ok s /\
     energy_flux_novelty spec = Ok e /\ hfc_novelty spec (Z.of_nat rate) = Ok h /\
     let nov := match cfg with
       | Some c => combined_novelty_with_params s e h (bc_nov_s c) (bc_nov_e c) (bc_nov_h c) (bc_mean_window c) (bc_smooth_window c)
       | None => combined_novelty s e h end in
     nov <> [] /\ variant_of F L fuel rate hop mn mx res true (match cfg with Some c => bc_w_full c | None => f1 end) nov full) /\
  Forall (fun v => v_full v = false) others /\
  (cfg = None -> others = []) /\
  (forall c, cfg = Some c -> exists low mid high mel, others = low ++ mid ++ high ++ mel /\
     (bc_enabled c = false -> low = [] /\ mid = [] /\ high = []) /\
     (bc_enabled c = true -> exists b1 b2 b3 k1 k2 k3,
        let width := fdiv (n2f rate) (n2f (Nat.max (2 * (n - 1)) 2)) in
        bin_of (bc_low c) width n b1 /\ bin_of (bc_mid c) width n b2 /\ bin_of (bc_high c) width n b3 /\
        k1 = Nat.max b1 (Nat.min 1 (n - 1)) /\ k2 = Nat.max b2 (k1 + 1) /\
        k3 = (if flt f0 (bc_high c) then Nat.min n (Nat.max b3 (k2 + 1)) else n) /\
        band_part F L fuel spec rate hop mn mx res c (Nat.min 1 (n - 1)) k1 (bc_w_low c) low /\
        band_part F L fuel spec rate hop mn mx res c k1 k2 (bc_w_mid c) mid /\
        band_part F L fuel spec rate hop mn mx res c k2 k3 (bc_w_high c) high) /\
     (bc_mel c = false -> mel = []) /\
     (bc_mel c = true -> exists m, mel_superflux_novelty L spec (Z.of_nat rate) (bc_n_mels c) (bc_mel_fmin c) (bc_mel_fmax c) (bc_mel_filter c) = Ok m /\
        (m = [] -> mel = []) /\ (m <> [] -> exists v, mel = [v] /\ variant_of F L fuel rate hop mn mx res false (bc_w_mel c) m v))).
Proof.
  intros F L fuel spec rate hop mn mx res cfg full others H n. unfold variants in H. fold n in H.
  destruct (Nat.eqb_spec n 0) as [Z|Z]; [discriminate|]. split; [lia|].
  destruct (superflux_novelty (m_ln L) spec (match cfg with Some c => bc_filter c | None => 4%Z end)) as [s| |]; cbn [rbind] in H; try discriminate.
  destruct (energy_flux_novelty spec) as [e| |]; cbn [rbind] in H; try discriminate.
  destruct (hfc_novelty spec (Z.of_nat rate)) as [h| |]; cbn [rbind] in H; try discriminate. cbv zeta in H.
  set (nov := combine_novelty cfg s e h) in H. destruct (Nat.eqb_spec (length nov) 0) as [Zn|Zn]; [discriminate|].
  destruct (tempograms F L fuel rate hop mn mx res nov) as [[t| |]|] eqn:Et; cbn [rbind] in H; try discriminate.
  set (fv := make_variant true _ _ _) in H.
  assert (Vf : variant_of F L fuel rate hop mn mx res true (match cfg with Some c => bc_w_full c | None => f1 end) nov fv) by now apply tempograms_ok.
  assert (Full : fv = full -> exists s0 e0 h0, Ok s = Ok s0 /\ Ok e = Ok e0 /\ Ok h = Ok h0 /\
     let nov := match cfg with
       | Some c => combined_novelty_with_params s0 e0 h0 (bc_nov_s c) (bc_nov_e c) (bc_nov_h c) (bc_mean_window c) (bc_smooth_window c)
       | None => combined_novelty s0 e0 h0 end in
     nov <> [] /\ variant_of F L fuel rate hop mn mx res true (match cfg with Some c => bc_w_full c | None => f1 end) nov full).
  { intros <-. exists s, e, h. split; auto. split; auto. split; auto. cbv zeta. fold nov. split; auto.
    intros X. apply Zn. fold (combine_novelty cfg s e h) in X. change (nov = []) in X. now rewrite X. }
  clearbody fv. destruct cfg as [c|].
  2:{ assert (fv = full) by congruence. assert (Eo : [] = others) by congruence. split; auto. subst others. split; auto. split; auto.
      intros c E. discriminate E. }
  destruct (if bc_enabled c then band_variants F L fuel spec rate hop mn mx res c (bands c rate n) else Some (Ok []))
    as [[b| |]|] eqn:Eb; cbn [rbind] in H; try discriminate.
  destruct (mel_variant F L fuel spec rate hop mn mx res c) as [[m| |]|] eqn:Em; cbn [rbind] in H; try discriminate.
  assert (E1 : fv = full) by congruence. assert (Eo : b ++ m = others) by congruence. clear H. split; auto.
  assert (Hm : (bc_mel c = false -> m = []) /\
     (bc_mel c = true -> exists x, mel_superflux_novelty L spec (Z.of_nat rate) (bc_n_mels c) (bc_mel_fmin c) (bc_mel_fmax c) (bc_mel_filter c) = Ok x /\
        (x = [] -> m = []) /\ (x <> [] -> exists v, m = [v] /\ variant_of F L fuel rate hop mn mx res false (bc_w_mel c) x v))).
  { unfold mel_variant in Em. destruct (bc_mel c); [|split; [congruence|discriminate]]. split; [discriminate|]. intros _.
    destruct (mel_superflux_novelty L spec (Z.of_nat rate) (bc_n_mels c) (bc_mel_fmin c) (bc_mel_fmax c) (bc_mel_filter c)) as [x| |];
      cbn [rbind] in Em; try discriminate. exists x. split; auto.
    destruct (Nat.eqb_spec (length x) 0) as [Zx|Zx].
    { apply length_zero_iff_nil in Zx. split; [congruence|contradiction]. }
    split; [intros ->; cbn in Zx; lia|]. intros _.
    destruct (tempograms F L fuel rate hop mn mx res x) as [[t'| |]|] eqn:Et'; cbn [rbind] in Em; try discriminate.
    assert (Ev : [make_variant false (bc_w_mel c) (fst t') (snd t')] = m) by congruence. subst m. eexists. split; [reflexivity|]. now apply tempograms_ok. }
  assert (NF : forall w nov g, (exists v, g = [v] /\ variant_of F L fuel rate hop mn mx res false w nov v) -> Forall (fun v => v_full v = false) g).
  { intros w nv g (v & -> & (_ & _ & X & _)). repeat constructor; auto. }
  assert (NFm : Forall (fun v => v_full v = false) m).
  { destruct (bc_mel c); [|destruct Hm as (-> & _); auto]. destruct (proj2 Hm eq_refl) as (x & _ & X1 & X2).
    destruct x; [rewrite X1; auto|]. eapply NF, X2. discriminate. }
  assert (NFb : forall a z w g, band_part F L fuel spec rate hop mn mx res c a z w g -> Forall (fun v => v_full v = false) g).
  { intros a z w g (X1 & X2). destruct (fisfin w); [|rewrite X1; auto]. destruct (flt f0 w); [|rewrite X1; auto].
    destruct (Nat.le_gt_cases (a + 2) z); [|rewrite X1; auto; right; right; lia].
    destruct X2 as (s0 & e0 & h0 & _ & _ & _ & Y1 & Y2); auto.
    destruct (combined_novelty_with_params s0 e0 h0 _ _ _ _ _); [rewrite Y1; auto|]. eapply NF, Y2. discriminate. }
  destruct (bc_enabled c) eqn:En.
  - destruct (band_variants_ok _ _ _ _ _ _ _ _ _ _ _ _ Eb) as (gs & -> & A). unfold bands in A. cbv zeta in A.
    inversion A as [|x1 g1 y1 gs1 A1 B1]; subst. inversion B1 as [|x2 g2 y2 gs2 A2 B2]; subst. inversion B2 as [|x3 g3 y3 gs3 A3 B3]; subst.
    inversion B3; subst. clear A B1 B2 B3. cbn [fst snd] in A1, A2, A3. cbn [concat]. rewrite app_nil_r, <- !app_assoc.
    split. { rewrite !Forall_app. repeat split; eauto. }
    split; [discriminate|]. intros c0 E. injection E as <-. exists g1, g2, g3, m. split; auto. split; [congruence|].
    split; [|exact Hm]. intros _. rewrite (Nat.mul_comm 2 (n - 1)).
    set (width := fdiv (n2f rate) (n2f (Nat.max ((n - 1) * 2) 2))) in *.
    exists (hz_to_bin (bc_low c) width n), (hz_to_bin (bc_mid c) width n), (hz_to_bin (bc_high c) width n).
    eexists. eexists. eexists. cbv zeta. fold width. do 3 (split; [now apply hz_to_bin_is|]). split; [reflexivity|]. split; [reflexivity|]. split; [reflexivity|].
    split; [exact A1|]. split; [exact A2|]. rewrite fgt_is in A3. destruct (flt f0 (bc_high c)).
    + rewrite (Nat.min_comm n). exact A3.
    + rewrite Nat.min_id in A3. exact A3.
  - assert (b = []) by congruence. subst b. cbn [app] in Eo. subst others. split; auto. split; [discriminate|].
    intros c0 E. injection E as <-. exists [], [], [], m. split; auto. split; auto. split; [congruence|]. exact Hm.
Qed.
Print Assumptions C73_variants.

(** Four variants (full band and bins 1-2, 3-5, 6-7) of eight bins with pulses every 200 ms. *)
Definition wide : list (list f32) := map (map z2f) [[0; 0; 0; 0; 0; 0; 0; 0]; [1; 2; 3; 2; 1; 2; 1; 1]; [0; 0; 0; 0; 1; 0; 1; 0];
  [1; 2; 3; 1; 1; 2; 1; 1]; [0; 0; 0; 0; 0; 0; 0; 0]]%Z.
Definition fused : band_config := {| bc_enabled := true; bc_low := z2f 2; bc_mid := z2f 4; bc_high := f0;
  bc_w_full := f1; bc_w_low := fhalf; bc_w_mid := f1; bc_w_high := f2; bc_seed_only := false; bc_support := fhalf; bc_bonus := fhalf;
  bc_mel := false; bc_n_mels := 4; bc_mel_fmin := f0; bc_mel_fmax := f0; bc_mel_filter := 4; bc_w_mel := f0;
  bc_nov_s := fhalf; bc_nov_e := f1; bc_nov_h := f1; bc_mean_window := 0; bc_smooth_window := 0; bc_filter := 4 |}.
Definition looks (v : variant) := (v_full v, f2i32 (fmul f2 (v_w v)),
  map (fun e => (f2i32 (fst e), f2i32 (fmul (z2f 1000) (snd e)))) (firstn 2 (v_fft v)),
  map (fun e => (f2i32 (fst e), f2i32 (fmul (z2f 1000) (snd e)))) (firstn 2 (v_ac v))).
Example C73_variants_case :
  match variants fft4 trig4 20 wide 10 1 (z2f 100) (z2f 310) (z2f 50) (Some fused) with
  | Some (Ok (f, o)) => Some (map looks (f :: o)) | _ => None end =
  Some [(true, 2, [(300, 284); (150, 148)], [(250, 355); (300, 355)]);
        (false, 1, [(300, 562); (150, 281)], [(250, 500); (300, 500)]);
        (false, 2, [(300, 166); (150, 97)], [(250, 272); (300, 272)]);
        (false, 4, [(300, 97); (150, 72)], [(250, 207); (300, 207)])]%Z.
Proof. vm_compute. reflexivity. Qed.
(** 300 BPM is supported by three bands: 0.8 (above 180) times twice the base of 1; 150 has 0.45 times the weighted share of
    0.63, doubled as well. *)
Example C73_case : shown (tempogram_impl fft4 trig4 20 wide 10 1 (z2f 100) (z2f 310) (z2f 50) (Some fused)) =
  Some (150%Z, 0%Z, 0, [(300%Z, 1600%Z, false); (225%Z, 880%Z, false); (250%Z, 880%Z, false); (150%Z, 570%Z, true);
    (100%Z, 0%Z, false); (125%Z, 0%Z, false); (133%Z, 0%Z, false); (166%Z, 0%Z, false); (200%Z, 0%Z, false)]).
Proof. vm_compute. reflexivity. Qed.
